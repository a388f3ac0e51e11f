(** Properties C45-C48 and the mixed-logit part of C44 and C66. *)
From Coq Require Import String ZArith List Reals Lra Lia Arith Bool.
From Coquelicot Require Import Coquelicot.
From Verif Require Import Res Vec Arr SpecLogit ChoiceCalcs ChoiceFacts Transforms Ids Mappings
  MappingFacts LongData LogitFacts RowDeriv HessFacts ProbFacts PropMappings PropProbs PropGradient
  PropGradientLimits PropHessian NestedCalcs NestedFacts PropNested MixedCalcs MixedFacts.
Import ListNotations.
Open Scope R_scope.

(** ** Specification *)

(** The mixing-id column has one entry per row. *)
Definition mixing_ids_per_row (d : long_cols) : Prop := length (mix_of d) = length (obs_ids d).

(** The draw of mixing unit [u] for the [p]-th mixed variable: units take the rows
    of the draw arrays in the order in which they first appear in the table. *)
Definition draw_of (d : long_cols) (draws : list mat) (p : nat) (u : Z) (r : nat) : R :=
  nth p draws (fun _ _ => 0) (index_of u (first_seen (mix_of d))) r.

(** x'beta plus, for every mixed variable, sigma times the unit's draw times the variable. *)
Definition mixed_utility (d : long_cols) (K : nat) (X : mat) (pos : list nat) (draws : list mat)
    (theta : arr) (i r : nat) : R :=
  sumn K (fun k => X i k * aget theta k) +
  sumn (length pos) (fun p =>
    aget theta (K + p)%nat * draw_of d draws p (nth i (mix_of d) 0%Z) r * X i (nth p pos 0%nat)).

(** Product of f over i < n. *)
Fixpoint prodn (n : nat) (f : vec) : R :=
  match n with O => 1 | S m => prodn m f * f m end.

(** Row i is a chosen row. *)
Definition chosen (d : long_cols) (i : nat) : bool :=
  match choices d with Some c => (nth i c 0 =? 1)%Z | None => false end.

Definition choices_are_0_or_1 (d : long_cols) : Prop :=
  exists c, choices d = Some c /\
    forall i, (i < length (obs_ids d))%nat -> nth i c 0%Z = 0%Z \/ nth i c 0%Z = 1%Z.

(** The logit formula within row i's observation, for utilities V. *)
Definition logit_prob (d : long_cols) (V : vec) (i : nat) : R :=
  exp (V i) / id_sum (obs_ids d) (nth i (obs_ids d) 0%Z) (fun k => exp (V k)).

(** The probability of all of unit u's choices: the product of the probabilities of
    its chosen rows. *)
Definition unit_likelihood (d : long_cols) (V : vec) (u : Z) : R :=
  prodn (length (obs_ids d))
    (fun i => if ((nth i (mix_of d) 0 =? u)%Z && chosen d i)%bool then logit_prob d V i else 1).

(** Every row of unit u has weight [wu u] >= 0. *)
Definition unit_weights (d : long_cols) (w : option vec) (wu : Z -> R) : Prop :=
  forall i, (i < length (obs_ids d))%nat ->
    eff_weights w i = wu (nth i (mix_of d) 0%Z) /\ 0 <= wu (nth i (mix_of d) 0%Z).

(** Rows of the same observation belong to the same unit. *)
Definition units_contain_observations (d : long_cols) : Prop :=
  forall i i', (i < length (obs_ids d))%nat -> (i' < length (obs_ids d))%nat ->
    nth i (obs_ids d) 0%Z = nth i' (obs_ids d) 0%Z -> nth i (mix_of d) 0%Z = nth i' (mix_of d) 0%Z.

(** ** Consequences of a successful set-up *)
Lemma mixed_setup d K X pos nR draws w ridge E :
  mixed_data_of d K X pos nR draws w ridge = Ok E ->
  exists mp, create_long_form_mappings d None = Ok mp /\
    x_D E = data_of d mp K X w ridge /\ x_draws E = nR /\ x_vars E = (K + length pos)%nat /\
    x_mixers E = length (first_seen (mix_of d)) /\
    x_R E = smat_R (create_sparse_mapping (mix_of d) (Some (first_seen (mix_of d)))) /\
    length pos = length draws /\ (0 < length pos)%nat /\
    (forall p, (p < length pos)%nat -> (nth p pos 0 < K)%nat) /\
    (forall i r k, (k < K)%nat -> x_X E i r k = X i k) /\
    (forall i r p, (p < length pos)%nat ->
       x_X E i r (K + p)%nat = X i (nth p pos 0%nat) *
         mdot (x_mixers E) (x_R E) (nth p draws (fun _ _ => 0)) i r).
Proof.
  unfold mixed_data_of. intros H. apply bind_ok in H. destruct H as (mp & Hmp & H). exists mp.
  split; [exact Hmp|].
  assert (HR : rows_to_mixers mp = match mix_ids d with Some ids => Some (create_sparse_mapping ids None) | None => None end).
  { unfold create_long_form_mappings in Hmp. apply bind_ok in Hmp. destruct Hmp as (q & _ & Hq). inversion Hq. reflexivity. }
  destruct (rows_to_mixers mp) as [rm|]; [|discriminate].
  destruct (mix_ids d) as [ids|] eqn:Eids; [|discriminate]. inversion HR; subst rm; clear HR.
  rewrite mapping_None_Some in H. apply bind_ok in H. destruct H as ([vars x3] & Hx & H). cbn [fst snd] in H.
  destruct (expanded_ok _ _ _ _ _ _ _ _ Hx) as (E1 & E2 & E3 & E4 & E5 & E6).
  assert (Em : mix_of d = ids) by (unfold mix_of; rewrite Eids; reflexivity). rewrite Em.
  inversion H; subst E; clear H. cbn [x_D x_draws x_vars x_mixers x_R x_X].
  split; [reflexivity|]. split; [reflexivity|]. split; [exact E1|]. split; [reflexivity|]. split; [reflexivity|].
  split; [exact E2|]. split; [exact E3|]. split; [exact E4|]. split; [exact E5|exact E6].
Qed.

Lemma mixed_own d K X pos nR draws w ridge E :
  mixed_data_of d K X pos nR draws w ridge = Ok E ->
  indicator_of (d_N (x_D E)) (d_obs (x_D E)) (d_M (x_D E)) (own_of (obs_ids d)).
Proof.
  intros H. destruct (mixed_setup _ _ _ _ _ _ _ _ _ H) as (mp & Hmp & -> & _).
  apply (data_obs_indicator d None mp K X w ridge Hmp).
Qed.

Lemma mixed_unit d K X pos nR draws w ridge E :
  mixed_data_of d K X pos nR draws w ridge = Ok E -> mixing_ids_per_row d ->
  indicator_of (d_N (x_D E)) (x_mixers E) (x_R E) (own_of (mix_of d)).
Proof.
  intros H HL. destruct (mixed_setup _ _ _ _ _ _ _ _ _ H) as (mp & Hmp & -> & _ & _ & -> & -> & _).
  unfold data_of. cbn [d_N]. rewrite <- HL. apply mapping_indicator; [apply first_seen_NoDup|].
  intros x Hx. apply first_seen_In. exact Hx.
Qed.

Lemma mixed_N d K X pos nR draws w ridge E :
  mixed_data_of d K X pos nR draws w ridge = Ok E -> d_N (x_D E) = length (obs_ids d).
Proof. intros H. destruct (mixed_setup _ _ _ _ _ _ _ _ _ H) as (mp & _ & -> & _). reflexivity. Qed.

(** ** C45 *)
Theorem C45_utilities_use_own_draws d K X pos nR draws w ridge E theta i r :
  mixed_data_of d K X pos nR draws w ridge = Ok E -> mixing_ids_per_row d ->
  (i < length (obs_ids d))%nat ->
  sys_utilities (draw_data E r) theta i = mixed_utility d K X pos draws theta i r.
Proof.
  intros H HL Hi. pose proof (mixed_unit _ _ _ _ _ _ _ _ _ H HL) as HU.
  pose proof (mixed_N _ _ _ _ _ _ _ _ _ H) as HN.
  destruct (mixed_setup _ _ _ _ _ _ _ _ _ H) as (mp & _ & _ & _ & EV & _ & _ & _ & _ & _ & E5 & E6).
  unfold sys_utilities, mvec, draw_data. cbn [d_K d_X]. rewrite EV, sumn_app. unfold mixed_utility. f_equal.
  - apply sumn_ext. intros k Hk. rewrite E5 by exact Hk. reflexivity.
  - apply sumn_ext. intros p Hp. rewrite E6 by exact Hp. unfold mdot.
    rewrite <- HN in Hi.
    rewrite (indicator_dot (d_N (x_D E)) (x_mixers E) (x_R E) (own_of (mix_of d))
      (fun u => nth p draws (fun _ _ => 0) u r) i HU Hi : sumn _ _ = _).
    unfold draw_of, own_of. ring.
Qed.

(** ** C46 *)
Theorem C46_mixed_predictions d K X pos nR draws w ridge E theta p :
  mixed_data_of d K X pos nR draws w ridge = Ok E -> (0 < nR)%nat ->
  mixed_predict E theta None true = Ok (LongProbs p) ->
  (forall i, (i < length (obs_ids d))%nat -> 0 < p i <= 1) /\
  (forall o, In o (obs_ids d) -> id_sum (obs_ids d) o p = 1).
Proof.
  intros H HR Hp. cbn [mixed_predict] in Hp. destruct (x_draws E =? 1)%nat; [discriminate|]. inversion Hp; subst p; clear Hp.
  pose proof (mixed_own _ _ _ _ _ _ _ _ _ H) as HO. pose proof (mixed_N _ _ _ _ _ _ _ _ _ H) as HN.
  destruct (mixed_setup _ _ _ _ _ _ _ _ _ H) as (mp & _ & _ & Er & _). rewrite Er.
  assert (HRp : 0 < INR nR) by (apply lt_0_INR; exact HR). unfold row_mean. split.
  - intros i Hi. rewrite <- HN in Hi. split.
    + apply Rdiv_lt_0_compat; [|exact HRp]. apply (sumn_pos nR _ 0%nat);
        [intros r _; left; apply (pa_pos E _ HO); exact Hi|exact HR|apply (pa_pos E _ HO); exact Hi].
    + apply Rle_div_l; [exact HRp|]. apply Rle_trans with (sumn nR (fun _ => 1)).
      * apply sumn_le. intros r _. apply (pa_le1 E _ HO). exact Hi.
      * rewrite sumn_const. lra.
  - intros o Ho. destruct (In_row _ _ Ho) as (i & Hi & <-). rewrite <- osum_id_sum by exact Hi.
    rewrite osum_div. unfold osum.
    rewrite (sumn_ext _ _ (fun k => sumn nR (fun r => if (own_of (obs_ids d) k =? own_of (obs_ids d) i)%nat
       then prob_array E theta k r else 0))).
    2: { intros k _. destruct (_ =? _)%nat; [reflexivity|]. symmetry. apply sumn_zero. }
    rewrite sumn_swap.
    rewrite (sumn_ext nR _ (fun _ => 1)).
    + rewrite sumn_const. field. lra.
    + intros r _. rewrite <- HN. apply (pa_sum E _ HO). rewrite HN. exact Hi.
Qed.

(** The chosen probabilities are the averages over draws, too: they are the long
    probabilities of the chosen rows. *)
Theorem C46_mixed_chosen_predictions d K X pos nR draws w ridge E theta mp C pc pl j i :
  mixed_data_of d K X pos nR draws w ridge = Ok E ->
  create_long_form_mappings d None = Ok mp -> chosen_row_to_obs mp = Some C -> exactly_one_choice d ->
  mixed_predict E theta (Some (smat_R C)) false = Ok (ChosenProbs pc) ->
  mixed_predict E theta None true = Ok (LongProbs pl) ->
  (j < length (first_seen (obs_ids d)))%nat -> (i < length (obs_ids d))%nat ->
  nth i (obs_ids d) 0%Z = nth j (first_seen (obs_ids d)) 0%Z -> choice_vec d i = 1 ->
  pc j = pl i.
Proof.
  intros H Hmp HC Hone Hc Hl Hj Hi Eo Hy.
  cbn [mixed_predict] in Hc, Hl. destruct (x_draws E =? 1)%nat; [discriminate|]. inversion Hc; subst pc; clear Hc. inversion Hl; subst pl; clear Hl.
  destruct (mixed_setup _ _ _ _ _ _ _ _ _ H) as (mp' & Hmp' & ED & _ & EV & _).
  rewrite Hmp in Hmp'. inversion Hmp'; subst mp'.
  unfold row_mean. f_equal. apply sumn_ext. intros r _.
  assert (Ed : draw_data E r = data_of d mp (x_vars E) (fun i k => x_X E i r k) w ridge)
    by (unfold draw_data; rewrite ED; reflexivity).
  unfold chosen_array, prob_array. rewrite Ed.
  apply (C19_chosen_probs_are_long_probs MNL_model d None mp (x_vars E) (fun i k => x_X E i r k) w ridge None None theta C
    (chosen_probs MNL_model (data_of d mp (x_vars E) (fun i k => x_X E i r k) w ridge) (smat_R C) None None theta)); auto.
Qed.

Theorem C46_zero_sigmas_give_mnl d K X pos nR draws w ridge E theta p mp pm :
  mixed_data_of d K X pos nR draws w ridge = Ok E -> mixing_ids_per_row d -> (0 < nR)%nat ->
  (forall q, (q < length pos)%nat -> aget theta (K + q)%nat = 0) ->
  mixed_predict E theta None true = Ok (LongProbs p) ->
  create_long_form_mappings d None = Ok mp ->
  calc_probabilities MNL_model (data_of d mp K X w ridge) None None (aslice 0 K theta) None true = Ok (LongProbs pm) ->
  forall i, (i < length (obs_ids d))%nat -> p i = pm i.
Proof.
  intros H HL HR Hz Hp Hmp Hm i Hi. cbn [mixed_predict] in Hp. destruct (x_draws E =? 1)%nat; [discriminate|]. inversion Hp; subst p; clear Hp. inversion Hm; subst pm; clear Hm.
  pose proof (mixed_own _ _ _ _ _ _ _ _ _ H) as HO. pose proof (mixed_N _ _ _ _ _ _ _ _ _ H) as HN.
  destruct (mixed_setup _ _ _ _ _ _ _ _ _ H) as (mp' & Hmp' & ED & Er & _). rewrite Er.
  unfold row_mean. rewrite (sumn_ext nR _ (fun _ => long_probs MNL_model (data_of d mp K X w ridge) None None (aslice 0 K theta) i)).
  - rewrite sumn_const. field. apply not_0_INR. lia.
  - intros r _. assert (Hi' : (i < d_N (x_D E))%nat) by (rewrite HN; exact Hi).
    rewrite (pa_eq E _ HO) by exact Hi'.
    rewrite (long_probs_eq MNL_model _ _ (data_obs_indicator d None mp K X w ridge Hmp)) by exact Hi.
    assert (EU : forall k, (k < length (obs_ids d))%nat ->
       vv E theta k r = sys_utilities (data_of d mp K X w ridge) (aslice 0 K theta) k).
    { intros k Hk. unfold vv. rewrite (C45_utilities_use_own_draws d K X pos nR draws w ridge E theta k r H HL Hk).
      unfold mixed_utility. rewrite (sumn_eq0 (length pos)).
      - rewrite Rplus_0_r. reflexivity.
      - intros q Hq. rewrite Hz by exact Hq. ring. }
    f_equal.
    + rewrite EU by exact Hi. reflexivity.
    + rewrite HN. unfold data_of at 1. cbn [d_N]. apply osum_ext. intros k Hk _. rewrite EU by exact Hk. reflexivity.
Qed.

(** ** C47 *)
Lemma exp_osum_prodn n unit u (y : vec) (ch : nat -> bool) (p : vec) :
  (forall i, (i < n)%nat -> y i = if ch i then 1 else 0) -> (forall i, (i < n)%nat -> 0 < p i) ->
  exp (osum n unit u (fun i => y i * ln (p i))) =
  prodn n (fun i => if ((unit i =? u)%nat && ch i)%bool then p i else 1).
Proof.
  induction n as [|n IH]; intros Hy Hp; unfold osum; simpl; [apply exp_0|].
  rewrite exp_plus. fold (osum n unit u (fun i => y i * ln (p i))). rewrite IH by (intros; auto).
  f_equal. rewrite Hy by lia. destruct (unit n =? u)%nat; simpl; [|apply exp_0].
  destruct (ch n); [rewrite Rmult_1_l; apply exp_ln; apply Hp; lia|rewrite Rmult_0_l; apply exp_0].
Qed.

Lemma prodn_ext n f g : (forall i, (i < n)%nat -> f i = g i) -> prodn n f = prodn n g.
Proof. induction n as [|n IH]; intros H; simpl; [reflexivity|]. rewrite IH, H by (intros; auto); auto. Qed.

Section Units.
  Context (d : long_cols) (K : nat) (X : mat) (pos : list nat) (nR : nat) (draws : list mat)
    (w : option vec) (ridge : option R) (E : MData) (wu : Z -> R).
  Hypothesis H : mixed_data_of d K X pos nR draws w ridge = Ok E.
  Hypothesis HL : mixing_ids_per_row d.
  Hypothesis Hw : unit_weights d w wu.
  Let units := first_seen (mix_of d).
  Let W : vec := fun j => wu (nth j units 0%Z).

  Lemma unit_nth i : (i < length (obs_ids d))%nat -> nth (own_of (mix_of d) i) units 0%Z = nth i (mix_of d) 0%Z.
  Proof. intros Hi. unfold own_of. apply nth_index_of. apply first_seen_In, nth_In. rewrite HL. exact Hi. Qed.

  Lemma unit_eqb i j : (i < length (obs_ids d))%nat -> (j < length units)%nat ->
    (own_of (mix_of d) i =? j)%nat = (nth i (mix_of d) 0 =? nth j units 0)%Z.
  Proof.
    intros Hi Hj. rewrite <- (unit_nth i Hi).
    destruct (Nat.eqb_spec (own_of (mix_of d) i) j) as [->|Ne]; [symmetry; apply Z.eqb_refl|].
    destruct (Z.eqb_spec (nth (own_of (mix_of d) i) units 0%Z) (nth j units 0%Z)) as [Eq|]; [|reflexivity].
    exfalso. apply Ne. apply (proj1 (NoDup_nth units 0%Z) (first_seen_NoDup _)); [|exact Hj|exact Eq].
    unfold own_of. apply index_of_lt. apply first_seen_In, nth_In. rewrite HL. exact Hi.
  Qed.

  Lemma unit_W i : (i < d_N (x_D E))%nat -> eff_weights (d_w (x_D E)) i = W (own_of (mix_of d) i).
  Proof.
    destruct (mixed_setup _ _ _ _ _ _ _ _ _ H) as (mp & _ & -> & _). cbn [d_N d_w data_of]. intros Hi.
    destruct (Hw i Hi) as [A _]. rewrite A. unfold W. rewrite unit_nth by exact Hi. reflexivity.
  Qed.

  Lemma unit_Wu u : (u < x_mixers E)%nat -> weights_per_mixer E u = W u.
  Proof.
    intros Hu. pose proof (mixed_unit _ _ _ _ _ _ _ _ _ H HL) as HU. pose proof (mixed_N _ _ _ _ _ _ _ _ _ H) as HN.
    assert (Hul : (u < length units)%nat)
      by (destruct (mixed_setup _ _ _ _ _ _ _ _ _ H) as (mp & _ & _ & _ & _ & Em & _); rewrite Em in Hu; exact Hu).
    assert (Hin : In (nth u units 0%Z) (mix_of d)) by (apply first_seen_In, nth_In; exact Hul).
    destruct (In_row _ _ Hin) as (i0 & Hi0 & Ei0). rewrite HL in Hi0.
    assert (HW0 : 0 <= W u) by (unfold W; rewrite <- Ei0; apply Hw; exact Hi0).
    unfold weights_per_mixer. apply maxn_eq.
    - intros i Hi. destruct (HU i Hi) as [_ Hr]. rewrite Hr by exact Hu. rewrite unit_W by exact Hi.
      destruct (Nat.eqb_spec (own_of (mix_of d) i) u) as [->|]; lra.
    - exists i0. rewrite HN. split; [exact Hi0|]. rewrite <- HN in Hi0.
      destruct (HU i0 Hi0) as [_ Hr]. rewrite Hr by exact Hu. rewrite unit_W by exact Hi0.
      rewrite HN in Hi0. rewrite unit_eqb by assumption. rewrite Ei0, Z.eqb_refl, Rmult_1_l.
      unfold W. rewrite unit_nth, Ei0 by exact Hi0. reflexivity.
  Qed.
End Units.

Theorem C47_simulated_log_likelihood d K X pos nR draws w ridge E theta wu :
  mixed_data_of d K X pos nR draws w ridge = Ok E -> mixing_ids_per_row d -> (1 < nR)%nat ->
  unit_weights d w wu -> choices_are_0_or_1 d ->
  (forall i r, (i < length (obs_ids d))%nat -> (r < nR)%nat -> unclipped (mixed_utility d K X pos draws theta i r)) ->
  let units := first_seen (mix_of d) in
  calc_mixed_log_likelihood E theta =
  sumn (length units) (fun j =>
    let u := nth j units 0%Z in
    wu u * ln (sumn nR (fun r => unit_likelihood d (fun i => mixed_utility d K X pos draws theta i r) u) / INR nR))
  - match ridge with Some c => c * asumsq theta | None => 0 end.
Proof.
  intros H HL HR Hw (c & Ec & H01) Hun units.
  pose proof (mixed_own _ _ _ _ _ _ _ _ _ H) as HO. pose proof (mixed_unit _ _ _ _ _ _ _ _ _ H HL) as HU.
  pose proof (mixed_N _ _ _ _ _ _ _ _ _ H) as HN.
  assert (HR1 : x_draws E <> 1%nat).
  { destruct (mixed_setup _ _ _ _ _ _ _ _ _ H) as (? & _ & _ & Er & _). lia. }
  rewrite (mll_eq E _ HU HR1 (fun j => wu (nth j units 0%Z)) (unit_Wu d K X pos nR draws w ridge E wu H HL Hw)).
  destruct (mixed_setup _ _ _ _ _ _ _ _ _ H) as (mp & Hmp & ED & Er & EV & Em & _).
  f_equal.
  - rewrite Em. apply sumn_ext. intros j Hj. cbv zeta. f_equal. f_equal. unfold sim. rewrite Er. f_equal.
    apply sumn_ext. intros r Hr. unfold lseq, unit_likelihood. rewrite HN.
    assert (Ey : forall i, d_y (x_D E) i = choice_vec d i) by (intros; rewrite ED; reflexivity).
    rewrite (exp_osum_prodn _ _ _ _ (chosen d)).
    + apply prodn_ext. intros i Hi. rewrite unit_eqb by assumption.
      destruct (_ && _)%bool; [|reflexivity]. rewrite (pa_eq E _ HO) by (rewrite HN; exact Hi).
      assert (EU : forall k, (k < length (obs_ids d))%nat -> exp (clip_exponent (vv E theta k r)) = exp (mixed_utility d K X pos draws theta k r)).
      { intros k Hk. unfold vv. rewrite (C45_utilities_use_own_draws d K X pos nR draws w ridge E theta k r H HL Hk).
        rewrite clip_id by (apply Hun; assumption). reflexivity. }
      unfold logit_prob. rewrite EU by exact Hi. f_equal. rewrite HN, <- osum_id_sum by exact Hi.
      apply osum_ext. intros k Hk _. apply EU. exact Hk.
    + intros i Hi. rewrite Ey. unfold choice_vec, chosen. rewrite Ec.
      destruct (H01 i Hi) as [->| ->]; reflexivity.
    + intros i Hi. apply (pa_pos E _ HO). rewrite HN. exact Hi.
  - unfold mridge. rewrite ED. unfold data_of. cbn [d_ridge]. destruct ridge; lra.
Qed.

(** ** C48 *)
Theorem C48_mixed_gradient d K X pos nR draws w ridge E theta wu :
  mixed_data_of d K X pos nR draws w ridge = Ok E -> mixing_ids_per_row d -> (1 < nR)%nat ->
  mixed_check_length E theta = Ok tt ->
  unit_weights d w wu -> exactly_one_choice d -> units_contain_observations d ->
  (forall i r, (i < length (obs_ids d))%nat -> (r < nR)%nat ->
     strictly_unclipped (mixed_utility d K X pos draws theta i r)) ->
  let g := calc_mixed_logit_gradient E theta in
  alen g = alen theta /\
  forall k, (k < alen theta)%nat ->
    is_derive (fun t => calc_mixed_log_likelihood E (aupd theta k t)) (aget theta k) (aget g k).
Proof.
  intros H HL HR Hlen Hw Hone Hcont Hun g.
  pose proof (mixed_own _ _ _ _ _ _ _ _ _ H) as HO. pose proof (mixed_unit _ _ _ _ _ _ _ _ _ H HL) as HU.
  pose proof (mixed_N _ _ _ _ _ _ _ _ _ H) as HN.
  assert (Hl : alen theta = x_vars E).
  { unfold mixed_check_length in Hlen. destruct (Nat.eqb_spec (alen theta) (x_vars E)); [assumption|discriminate]. }
  destruct (mixed_setup _ _ _ _ _ _ _ _ _ H) as (mp & Hmp & ED & Er & EV & Em & _).
  split; [unfold g, calc_mixed_logit_gradient; cbn [alen]; symmetry; exact Hl|].
  intros k Hk.
  assert (HR1 : x_draws E <> 1%nat) by lia.
  apply (mixed_gradient_derive E _ _ HO HU HR1 (fun j => wu (nth j (first_seen (mix_of d)) 0%Z))
    (unit_W d K X pos nR draws w ridge E wu H HL Hw) (unit_Wu d K X pos nR draws w ridge E wu H HL Hw)).
  - intros i Hi. rewrite HN in *. rewrite ED. apply (proj2 (one_choice_of d Hone)). exact Hi.
  - intros i i' Hi Hi' Eo. rewrite HN in *. unfold own_of at 1 2. f_equal. apply Hcont; try assumption.
    apply (own_of_eq (obs_ids d)); assumption.
  - rewrite Er. lia.
  - exact Hl.
  - rewrite <- Hl. exact Hk.
  - intros i r Hi Hr. rewrite HN in Hi. rewrite Er in Hr. unfold vv.
    rewrite (C45_utilities_use_own_draws d K X pos nR draws w ridge E theta i r H HL Hi). apply Hun; assumption.
Qed.

(** ** C44 for the mixed logit *)
Lemma mixed_bhhh_quad E theta z :
  let n := x_vars E in
  let G := mixed_score_matrix E theta in
  quad n (sqe (calc_bhhh_mixed E theta)) z =
  - sumn (x_mixers E) (fun u => weights_per_mixer E u * Rsqr (sumn n (fun a => z a * G u a)))
  + 2 * mridge E * sumn n (fun a => Rsqr (z a)).
Proof.
  intros n G. unfold quad.
  rewrite (sumn_ext n _ (fun a => - sumn (x_mixers E) (fun u => weights_per_mixer E u * ((z a * G u a) * sumn n (fun b => z b * G u b)))
       + 2 * mridge E * Rsqr (z a))).
  2: { intros a Ha.
    assert (E1 : sumn n (fun b => z a * sqe (calc_bhhh_mixed E theta) a b * z b)
       = - sumn n (fun b => sumn (x_mixers E) (fun u => weights_per_mixer E u * ((z a * G u a) * (z b * G u b))))
            + sumn n (fun b => if (a =? b)%nat then 2 * mridge E * (z a * z b) else 0)).
    { rewrite <- sumn_opp, <- sumn_plus. apply sumn_ext. intros b _. unfold calc_bhhh_mixed, mridge. fold G. cbn [sqe].
      rewrite (sumn_ext (x_mixers E) _ (fun u => (z a * z b) * (transp G a u * (weights_per_mixer E u * G u b))))
        by (intros; unfold transp; ring).
      rewrite sumn_scal_l. unfold mdot, ident. destruct (d_ridge (x_D E)); destruct (a =? b)%nat; ring. }
    rewrite E1. f_equal.
    - f_equal. rewrite sumn_swap. apply sumn_ext. intros u _. rewrite !sumn_scal_l. reflexivity.
    - rewrite (sumn_single' n a (fun b => 2 * mridge E * (z a * z b)) Ha). unfold Rsqr. ring. }
  rewrite sumn_plus, sumn_opp, sumn_scal_l. f_equal. f_equal. rewrite sumn_swap. apply sumn_ext. intros u _.
  rewrite sumn_scal_l. f_equal. unfold Rsqr. rewrite <- sumn_scal_r. reflexivity.
Qed.

Theorem C44_mixed_bhhh_symmetric_nsd d K X pos nR draws w E theta :
  mixed_data_of d K X pos nR draws w None = Ok E -> mixing_ids_per_row d -> nonneg_weights d w ->
  mixed_check_length E theta = Ok tt ->
  let H := mixed_est_hessian E None theta in
  sqn H = alen theta /\ symmetric (alen theta) (sqe H) /\ nsd (alen theta) (sqe H).
Proof.
  intros H HL Hw Hlen Hs.
  assert (Hl : alen theta = x_vars E).
  { unfold mixed_check_length in Hlen. destruct (Nat.eqb_spec (alen theta) (x_vars E)); [assumption|discriminate]. }
  pose proof (mixed_unit _ _ _ _ _ _ _ _ _ H HL) as HU. pose proof (mixed_N _ _ _ _ _ _ _ _ _ H) as HN.
  destruct (mixed_setup _ _ _ _ _ _ _ _ _ H) as (mp & Hmp & ED & Er & EV & Em & _).
  rewrite Hl. unfold Hs, mixed_est_hessian. split; [reflexivity|]. split.
  - intros a b _ _. unfold calc_bhhh_mixed. cbn [sqe].
    assert (Rn : d_ridge (x_D E) = None) by (rewrite ED; reflexivity). rewrite Rn. f_equal.
    unfold mdot, transp. apply sumn_ext. intros; ring.
  - intros z. rewrite mixed_bhhh_quad. unfold mridge. rewrite ED at 1. cbn [d_ridge data_of].
    set (T := sumn (x_mixers E) _). assert (0 <= T); [|lra].
    apply sumn_ge0. intros u Hu. apply Rmult_le_pos; [|apply Rle_0_sqr].
    apply maxn_ge0. intros i Hi. destruct (HU i Hi) as [_ Hr]. rewrite Hr by exact Hu.
    rewrite HN in Hi. specialize (Hw i Hi). rewrite ED. cbn [d_w data_of].
    destruct (own_of (mix_of d) i =? u)%nat; lra.
Qed.

(** Each row of the score matrix is the gradient of that unit's log simulated
    sequence probability. *)
Theorem C44_mixed_score_rows d K X pos nR draws w ridge E theta j k :
  mixed_data_of d K X pos nR draws w ridge = Ok E -> mixing_ids_per_row d -> (1 < nR)%nat ->
  mixed_check_length E theta = Ok tt ->
  exactly_one_choice d -> units_contain_observations d ->
  (forall i r, (i < length (obs_ids d))%nat -> (r < nR)%nat ->
     strictly_unclipped (mixed_utility d K X pos draws theta i r)) ->
  (j < length (first_seen (mix_of d)))%nat -> (k < alen theta)%nat ->
  is_derive (fun t => ln (sequence_probs (length (obs_ids d)) nR (prob_array E (aupd theta k t)) (choice_vec d) (x_R E) j))
    (aget theta k) (mixed_score_matrix E theta j k).
Proof.
  intros H HL HR Hlen Hone Hcont Hun Hj Hk.
  pose proof (mixed_own _ _ _ _ _ _ _ _ _ H) as HO. pose proof (mixed_unit _ _ _ _ _ _ _ _ _ H HL) as HU.
  pose proof (mixed_N _ _ _ _ _ _ _ _ _ H) as HN.
  assert (Hl : alen theta = x_vars E).
  { unfold mixed_check_length in Hlen. destruct (Nat.eqb_spec (alen theta) (x_vars E)); [assumption|discriminate]. }
  destruct (mixed_setup _ _ _ _ _ _ _ _ _ H) as (mp & Hmp & ED & Er & EV & Em & _).
  assert (Hj' : (j < x_mixers E)%nat) by (rewrite Em; exact Hj).
  rewrite (mscore_eq E _ HU ltac:(lia) theta j k Hj').
  apply is_derive_ext with (f := fun t => ln (sim E (own_of (mix_of d)) (aupd theta k t) j)).
  { intros t. rewrite <- (sim_eq E _ HU) by exact Hj'. rewrite HN, Er.
    replace (d_y (x_D E)) with (choice_vec d) by (rewrite ED; reflexivity). reflexivity. }
  apply (log_sim_derive E _ _ HO).
  - intros i Hi. rewrite HN in *. rewrite ED. apply (proj2 (one_choice_of d Hone)). exact Hi.
  - intros i i' Hi Hi' Eo. rewrite HN in *. unfold own_of at 1 2. f_equal. apply Hcont; try assumption.
    apply (own_of_eq (obs_ids d)); assumption.
  - rewrite Er. lia.
  - exact Hj'.
  - rewrite <- Hl. exact Hk.
  - intros i r Hi Hr. rewrite HN in Hi. rewrite Er in Hr. unfold vv.
    rewrite (C45_utilities_use_own_draws d K X pos nR draws w ridge E theta i r H HL Hi). apply Hun; assumption.
Qed.

(** With a ridge the penalty enters with the wrong sign: for every dataset and
    every point, a large enough ridge makes the approximation not negative
    semidefinite (the ridge of the log-likelihood makes it more concave). *)
Theorem C44_refuted_mixed_ridge d K X pos nR draws w theta :
  (0 < alen theta)%nat ->
  (exists E, mixed_data_of d K X pos nR draws w None = Ok E /\ mixed_check_length E theta = Ok tt) ->
  exists c0, forall c, c0 < c ->
    exists E, mixed_data_of d K X pos nR draws w (Some c) = Ok E /\
      ~ nsd (alen theta) (sqe (mixed_est_hessian E None theta)).
Proof.
  intros Hpos (E0 & H0 & Hlen).
  assert (Hl : alen theta = x_vars E0).
  { unfold mixed_check_length in Hlen. destruct (Nat.eqb_spec (alen theta) (x_vars E0)); [assumption|discriminate]. }
  set (Ec := fun c => mkMData (mkData (d_N (x_D E0)) (d_obs (x_D E0)) (d_J (x_D E0)) (d_K (x_D E0)) (d_X (x_D E0)) (d_M (x_D E0))
     (d_A (x_D E0)) (d_y (x_D E0)) (d_w (x_D E0)) (Some c)) (x_draws E0) (x_vars E0) (x_X E0) (x_mixers E0) (x_R E0)).
  assert (HE : forall c, mixed_data_of d K X pos nR draws w (Some c) = Ok (Ec c)).
  { intros c. unfold mixed_data_of in *. apply bind_ok in H0. destruct H0 as (mp & -> & H0). cbn [bind].
    destruct (rows_to_mixers mp) as [rm|]; [|discriminate].
    apply bind_ok in H0. destruct H0 as (x3 & -> & H0). cbn [bind]. inversion H0; subst E0. reflexivity. }
  set (z := fun a : nat => if (a =? 0)%nat then 1 else 0).
  set (T := sumn (x_mixers E0) (fun u => weights_per_mixer E0 u *
     Rsqr (sumn (x_vars E0) (fun a => z a * mixed_score_matrix E0 theta u a)))).
  assert (Z1 : sumn (x_vars E0) (fun a => Rsqr (z a)) = 1).
  { rewrite (sumn_ext _ _ (fun a => if (a =? 0)%nat then 1 else 0)).
    - apply (sumn_single (x_vars E0) 0 (fun _ => 1)). rewrite <- Hl. exact Hpos.
    - intros a _. unfold z, Rsqr. destruct (a =? 0)%nat; ring. }
  exists (T / 2). intros c Hc. exists (Ec c). split; [apply HE|]. intros Hn. specialize (Hn z).
  rewrite Hl in Hn. change (x_vars E0) with (x_vars (Ec c)) in Hn.
  unfold mixed_est_hessian in Hn. rewrite mixed_bhhh_quad in Hn.
  change (x_vars (Ec c)) with (x_vars E0) in Hn. rewrite Z1 in Hn.
  change (mridge (Ec c)) with c in Hn. change (x_mixers (Ec c)) with (x_mixers E0) in Hn.
  change (sumn (x_mixers E0) _) with T in Hn. lra.
Qed.

(** Constrained positions are decoupled as in the nested estimator. *)
Theorem C44_mixed_constrained_positions_decoupled E l theta :
  let H := mixed_est_hessian E (Some l) theta in
  let H0 := mixed_est_hessian E None theta in
  sqn H = sqn H0 /\
  (forall a b, In a l \/ In b l -> sqe H a b = if (a =? b)%nat then -1 else 0) /\
  (forall a b, ~ In a l -> ~ In b l -> sqe H a b = sqe H0 a b).
Proof.
  intros H H0. unfold H, H0, mixed_est_hessian. cbn [sqn sqe].
  split; [reflexivity|]. split.
  - intros a b Hab. rewrite decouple_many.
    destruct (existsb (Nat.eqb a) l) eqn:A; [reflexivity|]. destruct (existsb (Nat.eqb b) l) eqn:B.
    + destruct (Nat.eqb_spec a b) as [->|]; [congruence|reflexivity].
    + exfalso. destruct Hab as [Hin|Hin]; apply existsb_eqb_In in Hin; congruence.
  - intros a b Ha Hb. rewrite decouple_many.
    destruct (existsb (Nat.eqb a) l) eqn:A; [exfalso; apply Ha, existsb_eqb_In; exact A|].
    destruct (existsb (Nat.eqb b) l) eqn:B; [exfalso; apply Hb, existsb_eqb_In; exact B|]. reflexivity.
Qed.

(** ** C66 for the mixed logit *)
Theorem C66_refuted_mixed_robust_variances n hess hess_inv theta a :
  alen theta = n -> symmetric n hess -> is_inverse n hess hess_inv -> (a < n)%nat ->
  calc_asymptotic_covariance n hess_inv (sqe (mixed_est_fisher theta)) a a < 0.
Proof.
  intros Hn Hs Hi Ha.
  assert (EF : mixed_est_fisher theta = nested_est_fisher theta).
  { unfold mixed_est_fisher, nested_est_fisher. rewrite Rmult_1_r. reflexivity. }
  rewrite EF. apply (C66_refuted_nested_robust_variances n hess); assumption.
Qed.

(** ** The hypotheses are met: two persons (ids 5 and 3), three observations, two
    explanatory variables the second of which is mixed, two draws. *)
Definition exm_cols : long_cols :=
  mkLong [10;10;20;20;30;30]%Z [1;2;1;2;1;2]%Z (Some [1;0;0;1;1;0]%Z) (Some [5;5;5;5;3;3]%Z).
Definition exm_X : mat := fun i k => INR (i + k).
Definition exm_draws : list mat := [fun u r => INR (u + 2 * r)].
Definition exm_theta : arr := mkArr 3 (fun _ => 0).

Example exm_data ridge : exists E, mixed_data_of exm_cols 2 exm_X [1%nat] 2 exm_draws None ridge = Ok E /\
  mixed_check_length E exm_theta = Ok tt /\
  mixed_predict E exm_theta None true = Ok (LongProbs (row_mean 2 (prob_array E exm_theta))).
Proof. eexists. split; [reflexivity|]. split; reflexivity. Qed.

Example exm_hypotheses :
  mixing_ids_per_row exm_cols /\ units_contain_observations exm_cols /\ choices_are_0_or_1 exm_cols /\
  exactly_one_choice exm_cols /\ unit_weights exm_cols None (fun _ => 1) /\ nonneg_weights exm_cols None /\
  (forall i r, strictly_unclipped (mixed_utility exm_cols 2 exm_X [1%nat] exm_draws exm_theta i r)).
Proof.
  split; [reflexivity|]. split.
  { intros i i' Hi Hi'. simpl in Hi, Hi'. do 6 (destruct i as [|i]; [do 6 (destruct i' as [|i']; [simpl; congruence|]); lia|]). lia. }
  split.
  { eexists. split; [reflexivity|]. intros i Hi. simpl in Hi. do 6 (destruct i as [|i]; [simpl; auto|]). lia. }
  split.
  { eexists. split; [reflexivity|]. split.
    - intros i Hi. simpl in Hi. do 6 (destruct i as [|i]; [simpl; auto|]). lia.
    - intros o Ho. simpl in Ho. assert (o = 10 \/ o = 20 \/ o = 30)%Z as [-> |[-> | ->]] by lia; [exists 0%nat|exists 3%nat|exists 4%nat];
        simpl; repeat split; try lia; intros i' Hi' E C;
        do 6 (destruct i' as [|i']; [simpl in *; try lia; try discriminate|]); lia. }
  split; [intros i Hi; simpl; lra|]. split; [intros i Hi; simpl; lra|].
  intros i r. assert (E : mixed_utility exm_cols 2 exm_X [1%nat] exm_draws exm_theta i r = 0).
  { unfold mixed_utility, exm_theta. cbn [aget length]. rewrite !sumn_eq0; intros; ring. }
  rewrite E. unfold strictly_unclipped, min_exponent_val, max_exponent_val. lra.
Qed.

(** A nonzero parameter also stays inside the clipping range. *)
Example exm_zero_sigma : forall q, (q < length [1%nat])%nat -> aget (mkArr 3 (fun k => if (k =? 2)%nat then 0 else / 2)) (2 + q)%nat = 0.
Proof. intros q Hq. simpl in Hq. assert (q = 0)%nat by lia. subst. reflexivity. Qed.

(** ** One draw *)

(** With one draw the model cannot predict. *)
Theorem C46_refuted_single_draw_predict d K X pos draws w ridge E theta C rlp :
  mixed_data_of d K X pos 1 draws w ridge = Ok E -> exists e, mixed_predict E theta C rlp = Err e.
Proof.
  intros H. destruct (mixed_setup _ _ _ _ _ _ _ _ _ H) as (mp & _ & _ & Er & _).
  unfold mixed_predict. rewrite Er, Nat.eqb_refl. destruct C, rlp; eexists; reflexivity.
Qed.

(** With one draw the log-likelihood is not the simulated log-likelihood: for a single
    observation of two alternatives it is ln(1/2) whatever the data and parameters,
    because the chosen row is combined with the probabilities of all rows. *)
Definition one_draw_cols : long_cols := mkLong [10;10]%Z [1;2]%Z (Some [1;0]%Z) (Some [5;5]%Z).

Lemma one_draw_facts K X pos draws E theta :
  mixed_data_of one_draw_cols K X pos 1 draws None None = Ok E ->
  let p := fun i => prob_array E theta i 0%nat in
  let seqs := expanded_sequence_probs (d_N (x_D E)) (bc_probs E theta) (d_y (x_D E)) (x_R E) in
  0 < p 0%nat /\ 0 < p 1%nat /\ p 0%nat + p 1%nat = 1 /\ d_N (x_D E) = 2%nat /\ x_mixers E = 1%nat /\
  (forall i, (i < 2)%nat -> x_R E i 0%nat = 1) /\ seqs 0%nat 0%nat = p 0%nat /\ seqs 0%nat 1%nat = p 1%nat /\
  sequence_probs (d_N (x_D E)) (bc_cols E) (bc_probs E theta) (d_y (x_D E)) (x_R E) 0%nat = / 2 /\
  d_y (x_D E) 0%nat = 1 /\ d_y (x_D E) 1%nat = 0 /\ x_draws E = 1%nat /\ d_ridge (x_D E) = None /\ d_w (x_D E) = None.
Proof.
  intros H p seqs. assert (HL : mixing_ids_per_row one_draw_cols) by reflexivity.
  pose proof (mixed_own _ _ _ _ _ _ _ _ _ H) as HO. pose proof (mixed_unit _ _ _ _ _ _ _ _ _ H HL) as HU.
  pose proof (mixed_N _ _ _ _ _ _ _ _ _ H) as HN.
  destruct (mixed_setup _ _ _ _ _ _ _ _ _ H) as (mp & Hmp & ED & Er & EV & Em & _).
  change (length (obs_ids one_draw_cols)) with 2%nat in HN.
  change (length (first_seen (mix_of one_draw_cols))) with 1%nat in Em.
  assert (ER : forall i, (i < 2)%nat -> x_R E i 0%nat = 1).
  { intros i Hi. destruct (HU i ltac:(lia)) as [_ Hr]. rewrite Hr by lia.
    destruct i as [|[|]]; [reflexivity|reflexivity|lia]. }
  assert (P0 := pa_pos E _ HO theta 0%nat 0%nat ltac:(lia)). assert (P1 := pa_pos E _ HO theta 1%nat 0%nat ltac:(lia)).
  pose proof (pa_sum E _ HO theta 0%nat 0%nat ltac:(lia)) as PS. rewrite HN in PS. unfold osum, own_of in PS. simpl in PS.
  assert (Ey0 : d_y (x_D E) 0%nat = 1) by (rewrite ED; reflexivity).
  assert (Ey1 : d_y (x_D E) 1%nat = 0) by (rewrite ED; reflexivity).
  fold (p 0%nat) in P0, PS. fold (p 1%nat) in P1, PS.
  assert (Es : forall j, 0 < p j -> seqs 0%nat j = p j).
  { intros j Hj. unfold seqs, expanded_sequence_probs, bc_probs. rewrite Er, HN. cbn [Nat.eqb].
    unfold mdot, transp. cbn [sumn]. rewrite !ER, Ey0, Ey1 by lia. fold (p j).
    replace (0 + 1 * (1 * ln (p j)) + 1 * (0 * ln (p j))) with (ln (p j)) by ring.
    rewrite exp_ln by exact Hj. apply guard_id. intros ?; lra. }
  assert (Eb : bc_cols E = 2%nat) by (unfold bc_cols; rewrite Er, HN; reflexivity).
  repeat split; try assumption; [lra|apply Es; exact P0|apply Es; exact P1| |rewrite ED; reflexivity|rewrite ED; reflexivity].
  unfold sequence_probs, row_mean. fold seqs. rewrite Eb. cbn [sumn]. rewrite !Es by assumption. simpl INR. lra.
Qed.

Theorem C47_refuted_single_draw_constant K X pos draws E theta :
  mixed_data_of one_draw_cols K X pos 1 draws None None = Ok E ->
  calc_mixed_log_likelihood E theta = ln (/ 2).
Proof.
  intros H. destruct (one_draw_facts _ _ _ _ _ theta H) as (_ & _ & _ & HN & Em & ER & _ & _ & Es & _ & _ & _ & Erg & Ew).
  unfold calc_mixed_log_likelihood. rewrite Erg. unfold vdot. rewrite Em. cbn [sumn]. rewrite Es.
  assert (EW : weights_per_mixer E 0%nat = 1).
  { unfold weights_per_mixer. rewrite HN, Ew. unfold maxn, eff_weights.
    rewrite !ER by lia. rewrite Rmult_1_r. unfold Rmax. destruct (Rle_dec 1 1); reflexivity. }
  rewrite EW. ring.
Qed.

(** The gradient is not that of the log-likelihood either: here the log-likelihood is
    constant and the gradient is not zero at any parameter vector. *)
Theorem C48_refuted_single_draw : exists d K X pos draws E,
  mixed_data_of d K X pos 1 draws None None = Ok E /\ mixing_ids_per_row d /\ exactly_one_choice d /\
  units_contain_observations d /\
  (forall theta theta', calc_mixed_log_likelihood E theta = calc_mixed_log_likelihood E theta') /\
  (forall theta, aget (calc_mixed_logit_gradient E theta) 0%nat <> 0).
Proof.
  exists one_draw_cols, 1%nat, (fun i _ => if (i =? 0)%nat then 1 else 0), [0%nat], [fun _ _ => 0].
  match goal with |- exists E, ?m = Ok E /\ _ =>
    assert (HE : exists E, m = Ok E /\ x_X E 0%nat 0%nat 0%nat = 1 /\ x_X E 1%nat 0%nat 0%nat = 0)
    by (eexists; repeat split; reflexivity); destruct HE as (E & HE & E0 & E1) end.
  exists E. split; [exact HE|]. split; [reflexivity|]. split.
  { eexists. split; [reflexivity|]. split.
    - intros i Hi. simpl in Hi. do 2 (destruct i as [|i]; [simpl; auto|]). lia.
    - intros o Ho. simpl in Ho. assert (o = 10)%Z as -> by lia. exists 0%nat.
      simpl; repeat split; try lia; intros i' Hi' E' C;
        do 2 (destruct i' as [|i']; [simpl in *; try lia; try discriminate|]); lia. }
  split.
  { intros i i' Hi Hi'. simpl in Hi, Hi'. do 2 (destruct i as [|i]; [do 2 (destruct i' as [|i']; [simpl; congruence|]); lia|]). lia. }
  split.
  { intros theta theta'. rewrite !(C47_refuted_single_draw_constant _ _ _ _ _ _ HE). reflexivity. }
  intros theta.
  destruct (one_draw_facts _ _ _ _ _ theta HE) as (P0 & P1 & PS & HN & Em & ER & S0 & S1 & Es & Y0 & Y1 & Er & Erg & Ew).
  unfold calc_mixed_logit_gradient. rewrite Erg. cbn [aget].
  assert (Eb : bc_cols E = 2%nat) by (unfold bc_cols; rewrite Er, HN; reflexivity).
  rewrite Eb, Ew. unfold scaled_error, mdot, mvec. rewrite Em. unfold bc_design. rewrite Er. cbn [Nat.eqb].
  rewrite HN in *. cbn [sumn eff_weights]. rewrite !ER, Y0, Y1, E0, E1, Es, S0, S1 by lia.
  replace (bc_probs E theta 0%nat 0%nat) with (prob_array E theta 0%nat 0%nat) by (unfold bc_probs; rewrite Er; reflexivity).
  replace (bc_probs E theta 0%nat 1%nat) with (prob_array E theta 1%nat 0%nat) by (unfold bc_probs; rewrite Er; reflexivity).
  set (a := prob_array E theta 0%nat 0%nat) in *. set (b := prob_array E theta 1%nat 0%nat) in *.
  apply Rgt_not_eq. simpl INR.
  match goal with |- ?x > 0 => replace x with (2 * a * b * / 1) end; [nra|].
  replace b with (1 - a) by lra. field.
Qed.

Theorem C47_refuted_single_draw : exists d K X pos draws theta E,
  mixed_data_of d K X pos 1 draws None None = Ok E /\ mixing_ids_per_row d /\
  unit_weights d None (fun _ => 1) /\ choices_are_0_or_1 d /\
  (forall i r, unclipped (mixed_utility d K X pos draws theta i r)) /\
  calc_mixed_log_likelihood E theta <>
  sumn (length (first_seen (mix_of d))) (fun j =>
    1 * ln (unit_likelihood d (fun i => mixed_utility d K X pos draws theta i 0) (nth j (first_seen (mix_of d)) 0%Z))).
Proof.
  exists one_draw_cols, 1%nat, (fun i _ => if (i =? 0)%nat then 1 else 0), [0%nat], [fun _ _ => 0],
    (mkArr 2 (fun k => if (k =? 0)%nat then 1 else 0)).
  match goal with |- exists E, ?m = Ok E /\ _ =>
    assert (HE : exists E, m = Ok E) by (eexists; reflexivity); destruct HE as (E & HE) end.
  exists E. split; [exact HE|]. split; [reflexivity|].
  split; [intros i Hi; simpl; lra|]. split.
  { eexists. split; [reflexivity|]. intros i Hi. simpl in Hi. do 2 (destruct i as [|i]; [simpl; auto|]). lia. }
  match goal with |- (forall i r, unclipped (mixed_utility ?d ?K ?X ?pos ?dr ?th i r)) /\ _ =>
    assert (EU : forall i r, mixed_utility d K X pos dr th i r = if (i =? 0)%nat then 1 else 0) end.
  { intros i r. unfold mixed_utility. cbn. destruct i; cbn; ring. }
  split.
  { intros i r. rewrite EU. unfold unclipped, min_exponent_val, max_exponent_val. destruct (i =? 0)%nat; lra. }
  rewrite (C47_refuted_single_draw_constant _ _ _ _ _ _ HE).
  cbn [mix_of one_draw_cols mix_ids first_seen length]. simpl length.
  intros C. cbn [sumn] in C. unfold unit_likelihood in C. cbn in C.
  unfold logit_prob in C. rewrite !EU in C. unfold id_sum in C. cbn in C. rewrite !EU in C. cbn in C.
  assert (H1 := exp_ineq1 1 ltac:(lra)). rewrite exp_0 in C.
  replace (0 + 1 * ln (1 * (exp 1 / (0 + exp 1 + 1)) * 1)) with (ln (exp 1 / (exp 1 + 1))) in C.
  - apply ln_inv in C; [|lra|apply Rdiv_lt_0_compat; lra].
    assert (X : exp 1 / (exp 1 + 1) * (exp 1 + 1) = exp 1) by (field; lra). rewrite <- C in X. lra.
  - rewrite Rplus_0_l, Rmult_1_l. f_equal. field. lra.
Qed.

Print Assumptions C46_refuted_single_draw_predict.
Print Assumptions C47_refuted_single_draw_constant.
Print Assumptions C47_refuted_single_draw.
Print Assumptions C48_refuted_single_draw.
Print Assumptions C45_utilities_use_own_draws.
Print Assumptions C46_mixed_predictions.
Print Assumptions C46_mixed_chosen_predictions.
Print Assumptions C46_zero_sigmas_give_mnl.
Print Assumptions C47_simulated_log_likelihood.
Print Assumptions C48_mixed_gradient.
Print Assumptions C44_mixed_bhhh_symmetric_nsd.
Print Assumptions C44_mixed_score_rows.
Print Assumptions C44_refuted_mixed_ridge.
Print Assumptions C44_mixed_constrained_positions_decoupled.
Print Assumptions C66_refuted_mixed_robust_variances.
