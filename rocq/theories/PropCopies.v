(** More on C38 (copies and weights) and C112 (order of the rows): the matrices behind
    the standard errors. *)
From Coq Require Import String ZArith List Reals Lra Lia Arith.
From Coquelicot Require Import Coquelicot.
From Verif Require Import Res Vec Arr SpecLogit ChoiceCalcs ChoiceFacts Transforms Ids Mappings
  MappingFacts LongData LogitFacts RowDeriv HessFacts ProbFacts PropMappings PropProbs PropGradient
  PropHessian PropLikelihood PropPooled.
Import ListNotations.
Open Scope R_scope.

(** ** Specification *)

(** The same log-likelihood, gradient, Hessian and BHHH matrix at [theta]. *)
Definition same_estimation (k : logit_kind) (D D' : Data) (theta : arr) : Prop :=
  est_log_likelihood k D' theta = est_log_likelihood k D theta /\
  (exists g g', est_gradient k D theta = Ok g /\ est_gradient k D' theta = Ok g' /\
     alen g' = alen g /\ forall j, (j < alen g)%nat -> aget g' j = aget g j) /\
  (exists H H', est_hessian k D theta = Ok H /\ est_hessian k D' theta = Ok H' /\
     sqn H' = sqn H /\ forall a b, (a < sqn H)%nat -> (b < sqn H)%nat -> sqe H' a b = sqe H a b) /\
  (exists F F', est_fisher k D theta = Ok F /\ est_fisher k D' theta = Ok F' /\
     sqn F' = sqn F /\ forall a b, (a < sqn F)%nat -> (b < sqn F)%nat -> sqe F' a b = sqe F a b).

(** ** Weights of copied observations *)

Section Weights.
  Context (d d' : long_cols) (phi : nat -> nat) (w w' : option vec).
  Hypothesis Hcop : lists_copies d d' phi.
  Hypothesis Hww : weights_add_up d d' phi w w'.
  Hypothesis Hsw' : same_weight_within_observation d' w'.

  (** The total weight of a row is that of its observation. *)
  Lemma copies_weight i : (i < length (obs_ids d))%nat ->
    eff_weights w i =
    sumn (length (first_seen (obs_ids d'))) (fun j =>
      id_sum (obs_ids d') (nth j (first_seen (obs_ids d')) 0%Z) (fun r =>
        if (phi r =? i)%nat then eff_weights w' r else 0)).
  Proof. intros Hi. rewrite Hww by exact Hi. rewrite sumn_by_ids, suml_seq. reflexivity. Qed.

  Lemma copies_same_weight : same_weight_within_observation d w.
  Proof.
    intros i i' Hi Hi' E. rewrite !copies_weight by assumption. apply sumn_ext. intros j Hj.
    assert (Hin : In (nth j (first_seen (obs_ids d')) 0%Z) (obs_ids d')) by (apply first_seen_In, nth_In; exact Hj).
    destruct (In_row _ _ Hin) as (r0 & Hr0 & <-).
    assert (G : forall x, (x < length (obs_ids d))%nat ->
      id_sum (obs_ids d') (nth r0 (obs_ids d') 0%Z) (fun r => if (phi r =? x)%nat then eff_weights w' r else 0) =
      (if (nth x (obs_ids d) 0 =? nth (phi r0) (obs_ids d) 0)%Z then eff_weights w' r0 else 0)).
    { intros x Hx. transitivity (id_sum (obs_ids d') (nth r0 (obs_ids d') 0%Z)
          (fun r => (fun y => if (y =? x)%nat then eff_weights w' r0 else 0) (phi r))).
      - apply id_sum_ext. intros r Hr Er. destruct (phi r =? x)%nat; [|reflexivity]. apply Hsw'; assumption.
      - rewrite (copies_id_sum d d' phi (fun y => if (y =? x)%nat then eff_weights w' r0 else 0) r0 Hcop Hr0).
        unfold id_sum.
        rewrite (sumn_ext _ _ (fun y => if (y =? x)%nat then
           (if (nth x (obs_ids d) 0 =? nth (phi r0) (obs_ids d) 0)%Z then eff_weights w' r0 else 0) else 0)).
        + apply (sumn_single _ x (fun _ => _)). exact Hx.
        + intros y Hy. destruct (Nat.eqb_spec y x) as [->|]; [reflexivity|]. destruct (_ =? _)%Z; reflexivity. }
    rewrite !G by assumption. rewrite E. reflexivity.
  Qed.

  Hypothesis Hnn' : nonneg_weights d' w'.

  Lemma copies_nonneg : nonneg_weights d w.
  Proof.
    intros i Hi. rewrite Hww by exact Hi. apply sumn_ge0. intros r Hr.
    destruct (phi r =? i)%nat; [apply Hnn'; exact Hr|lra].
  Qed.
End Weights.

(** ** C38 for the Hessian and the BHHH matrix *)

Section Curvature.
  Context (k : logit_kind) (d d' : long_cols) (spec spec' : option nest_spec) (mp mp' : mappings)
    (phi : nat -> nat) (K : nat) (X X' : mat) (w w' : option vec) (ridge : option R) (theta : arr).
  Hypothesis Hmp : create_long_form_mappings d spec = Ok mp.
  Hypothesis Hmp' : create_long_form_mappings d' spec' = Ok mp'.
  Hypothesis HK : (0 < K)%nat.
  Hypothesis Hcop : lists_copies d d' phi.
  Hypothesis HX : forall r q, (r < length (obs_ids d'))%nat -> (q < K)%nat -> X' r q = X (phi r) q.
  Hypothesis Hww : weights_add_up d d' phi w w'.
  Hypothesis Hsw' : same_weight_within_observation d' w'.
  Hypothesis Hnn' : nonneg_weights d' w'.
  Let D := data_of d mp K X w ridge.
  Let D' := data_of d' mp' K X' w' ridge.
  Hypothesis Hk : kind_ok k (d_J D).
  Hypothesis Hlen : check_length_of_initial_values k (d_J D) K theta = Ok tt.

  Let N := length (obs_ids d).
  Let N' := length (obs_ids d').
  Let id i := nth i (obs_ids d) 0%Z.
  Let id' r := nth r (obs_ids d') 0%Z.

  Lemma cu_L : alen theta = (num_shapes k (d_J D) + num_icpts k (d_J D) + K)%nat.
  Proof. rewrite <- dims_eq by exact Hk. apply check_length_ok. exact Hlen. Qed.

  Lemma cu_J : d_J D' = d_J D.
  Proof. exact (proj1 (copies_cols d d' spec spec' mp mp' phi K X X' w w' ridge Hmp Hmp' HK Hcop)). Qed.

  Lemma cu_phi r : (r < N')%nat -> (phi r < N)%nat.
  Proof. intros Hr. destruct Hcop as (_ & _ & H & _). apply (H r Hr). Qed.

  Lemma cu_P r : (r < N')%nat -> probs_at k D' theta r = probs_at k D theta (phi r).
  Proof.
    intros Hr. unfold probs_at. rewrite cu_J.
    exact (copies_probs k d d' spec spec' mp mp' phi K X X' w w' ridge Hmp Hmp' HK Hcop HX _ _ _ r Hr).
  Qed.

  Lemma cu_DH r a : (r < N')%nat -> (a < alen theta)%nat -> DH k D' theta r a = DH k D theta (phi r) a.
  Proof.
    intros Hr Ha. apply DH_rowwise; [exact cu_J|reflexivity|exact Hk|exact (cu_phi r Hr)|exact Hr| | |].
    - intros j Hj. exact (proj2 (copies_cols d d' spec spec' mp mp' phi K X X' w w' ridge Hmp Hmp' HK Hcop) r j Hr Hj).
    - intros q Hq. exact (HX r q Hr Hq).
    - change (d_K D) with K. rewrite <- cu_L. exact Ha.
  Qed.

  Lemma cu_y r : (r < N')%nat -> choice_vec d' r = choice_vec d (phi r).
  Proof. intros Hr. destruct Hcop as (_ & _ & H & _). apply (H r Hr). Qed.

  (** A weighted sum over the rows of [d'] of something read off the rows of [d]. *)
  Lemma cu_rows f : sumn N' (fun r => eff_weights w' r * f (phi r)) = sumn N (fun i => eff_weights w i * f i).
  Proof.
    rewrite (sumn_ext N' _ (fun r => f (phi r) * eff_weights w' r)) by (intros; ring).
    rewrite (sumn_fiber N' N phi f (eff_weights w') cu_phi). apply sumn_ext. intros i Hi.
    rewrite <- Hww by exact Hi. ring.
  Qed.

  Lemma cu_obs f' f r : (r < N')%nat -> (forall r', (r' < N')%nat -> f' r' = f (phi r')) ->
    id_sum (obs_ids d') (id' r) f' = id_sum (obs_ids d) (id (phi r)) f.
  Proof.
    intros Hr H. etransitivity; [|exact (copies_id_sum d d' phi f r Hcop Hr)].
    apply id_sum_ext. intros r' Hr' _. apply H. exact Hr'.
  Qed.

  Theorem C38_frequency_weights_curvature : same_estimation k D D' theta.
  Proof.
    pose proof cu_L as L. pose proof cu_J as J.
    pose proof (copies_same_weight d d' phi w w' Hcop Hww Hsw') as Hsw.
    pose proof (copies_nonneg d d' phi w w' Hww Hnn') as Hnn.
    assert (L' : alen theta = (num_shapes k (d_J D') + num_icpts k (d_J D') + K)%nat) by (rewrite J; exact L).
    destruct (C38_frequency_weights k d d' spec spec' mp mp' phi K X X' w w' ridge theta Hmp Hmp' HK Hcop HX Hww Hk Hlen)
      as (EL & EG).
    split; [exact EL|]. split; [exact EG|]. split.
    - pose proof (data_obs_indicator d spec mp K X w ridge Hmp) as Ho. fold D in Ho.
      pose proof (data_obs_indicator d' spec' mp' K X' w' ridge Hmp') as Ho'. fold D' in Ho'.
      destruct (hess_form k D _ theta HK L Ho (or_intror (weights_of d w Hsw))) as (H & EH & LH & F).
      destruct (hess_form k D' _ theta HK L' Ho' (or_intror (weights_of d' w' Hsw'))) as (H' & EH' & LH' & F').
      exists H, H'. split; [exact EH|]. split; [exact EH'|]. split; [congruence|]. rewrite LH. intros a b Ha Hb.
      rewrite F, F' by assumption. f_equal. f_equal. unfold Qf. 
      change (d_N D') with N'. change (d_N D) with N. change (eff_weights (d_w D')) with (eff_weights w').
      change (eff_weights (d_w D)) with (eff_weights w). f_equal.
      + set (f := fun i => probs_at k D theta i * DH k D theta i a * DH k D theta i b).
        rewrite (sumn_ext N' _ (fun r => eff_weights w' r * f (phi r))).
        * rewrite cu_rows. apply sumn_ext. intros i Hi. unfold f. ring.
        * intros r Hr. unfold f. rewrite cu_P, !cu_DH by assumption. ring.
      + set (f := fun i => probs_at k D theta i * DH k D theta i a *
           id_sum (obs_ids d) (id i) (fun x => probs_at k D theta x * DH k D theta x b)).
        rewrite (sumn_ext N' _ (fun r => eff_weights w' r * f (phi r))).
        * rewrite cu_rows. apply sumn_ext. intros i Hi. unfold f, N.
          rewrite (osum_id_sum (obs_ids d) i) by exact Hi. fold (id i). ring.
        * intros r Hr. unfold N'. rewrite (osum_id_sum (obs_ids d') r) by exact Hr. fold (id' r).
          rewrite (cu_obs _ (fun x => probs_at k D theta x * DH k D theta x b) r Hr).
          -- unfold f. rewrite cu_P, cu_DH by assumption. ring.
          -- intros r' Hr'. rewrite cu_P, cu_DH by assumption. reflexivity.
    - destruct (fisher_rows_ridge k d spec mp K X w ridge theta Hmp HK L Hsw Hnn) as (F & EF & LF & G).
      destruct (fisher_rows_ridge k d' spec' mp' K X' w' ridge theta Hmp' HK L' Hsw' Hnn') as (F' & EF' & LF' & G').
      exists F, F'. split; [exact EF|]. split; [exact EF'|]. split; [congruence|]. rewrite LF. intros a b Ha Hb.
      rewrite G, G' by assumption. fold D D'. f_equal. fold N N'.
      set (s := fun c i => (choice_vec d i - probs_at k D theta i) * DH k D theta i c).
      set (f := fun i => s a i * id_sum (obs_ids d) (id i) (s b)).
      rewrite (sumn_ext N' _ (fun r => eff_weights w' r * f (phi r))).
      + rewrite cu_rows. apply sumn_ext. intros i Hi. unfold f, s. fold (id i). ring.
      + intros r Hr. fold (id' r). rewrite (cu_obs _ (s b) r Hr).
        * unfold f, s. rewrite cu_P, cu_DH, cu_y by assumption. ring.
        * intros r' Hr'. unfold s. rewrite cu_P, cu_DH, cu_y by assumption. reflexivity.
  Qed.
End Curvature.

(** ** Observations of weight zero *)

(** [d'] lists some of the observations of [d], once each, with the weights they have
    there; the others have weight zero. *)
Definition leaves_out_weight_zero (d d' : long_cols) (phi : nat -> nat) (w w' : option vec) : Prop :=
  lists_copies d d' phi /\
  (forall r r', (r < length (obs_ids d'))%nat -> (r' < length (obs_ids d'))%nat -> phi r = phi r' -> r = r') /\
  (forall r, (r < length (obs_ids d'))%nat -> eff_weights w' r = eff_weights w (phi r)) /\
  (forall i, (i < length (obs_ids d))%nat -> (forall r, (r < length (obs_ids d'))%nat -> phi r <> i) -> eff_weights w i = 0).

Lemma left_out_weights d d' phi w w' :
  leaves_out_weight_zero d d' phi w w' -> weights_add_up d d' phi w w'.
Proof.
  intros (Hc & Hinj & Hw & H0) i Hi.
  destruct (find (fun r => (phi r =? i)%nat) (seq 0 (length (obs_ids d')))) as [r0|] eqn:Ef.
  - apply find_some in Ef. destruct Ef as (Hin & E). apply in_seq in Hin. apply Nat.eqb_eq in E.
    rewrite (sumn_ext _ _ (fun r => if (r =? r0)%nat then eff_weights w i else 0)).
    + symmetry. apply (sumn_single _ r0 (fun _ => eff_weights w i)). lia.
    + intros r Hr. destruct (Nat.eqb_spec (phi r) i) as [Ei|Ei].
      * assert (r = r0) by (apply Hinj; [exact Hr|lia|congruence]). subst r. rewrite Nat.eqb_refl. rewrite Hw by exact Hr. congruence.
      * destruct (Nat.eqb_spec r r0); [subst; congruence|reflexivity].
  - rewrite (sumn_ext _ _ (fun _ => 0)).
    + rewrite sumn_const, Rmult_0_r. apply H0; [exact Hi|]. intros r Hr E.
      pose proof (find_none _ _ Ef r ltac:(apply in_seq; lia)) as H. cbv beta in H. apply Nat.eqb_neq in H. contradiction.
    + intros r Hr. pose proof (find_none _ _ Ef r ltac:(apply in_seq; lia)) as H. cbv beta in H. rewrite H. reflexivity.
Qed.

Theorem C38_weight_zero_is_left_out k d d' spec spec' mp mp' phi K X X' w w' ridge theta :
  create_long_form_mappings d spec = Ok mp -> create_long_form_mappings d' spec' = Ok mp' -> (0 < K)%nat ->
  leaves_out_weight_zero d d' phi w w' ->
  (forall r q, (r < length (obs_ids d'))%nat -> (q < K)%nat -> X' r q = X (phi r) q) ->
  same_weight_within_observation d' w' -> nonneg_weights d' w' ->
  let D := data_of d mp K X w ridge in let D' := data_of d' mp' K X' w' ridge in
  kind_ok k (d_J D) -> check_length_of_initial_values k (d_J D) K theta = Ok tt ->
  same_estimation k D D' theta.
Proof.
  intros Hmp Hmp' HK Hlv HX Hsw Hnn D D' Hk Hl.
  apply (C38_frequency_weights_curvature k d d' spec spec' mp mp' phi); try assumption.
  - apply Hlv.
  - apply left_out_weights. exact Hlv.
Qed.

(** ** C112: sorting the table *)

Lemma perm_onto n p i : perm_on n p -> (i < n)%nat -> exists r, (r < n)%nat /\ p r = i.
Proof.
  intros (Hp & Hinj) Hi.
  assert (H : incl (seq 0 n) (map p (seq 0 n))).
  { apply NoDup_length_incl.
    - apply NoDup_map_inj_in; [|apply seq_NoDup]. intros x y Hx Hy. apply in_seq in Hx. apply in_seq in Hy. apply Hinj; lia.
    - rewrite map_length. lia.
    - intros x Hx. apply in_map_iff in Hx. destruct Hx as (y & <- & Hy). apply in_seq in Hy. apply in_seq.
      assert (p y < n)%nat by (apply Hp; lia). lia. }
  assert (Hin : In i (seq 0 n)) by (apply in_seq; lia). apply H in Hin. apply in_map_iff in Hin.
  destruct Hin as (r & E & Hr). apply in_seq in Hr. exists r. split; [lia|exact E].
Qed.

Lemma rearranged_copies d d' p f : rearranged d d' p f -> lists_copies d d' p.
Proof.
  intros Hre. pose proof (rearranged_alts _ _ _ _ Hre) as Hal.
  destruct Hre as (L1 & L2 & L3 & Hperm & Hf & Hrow). pose proof Hperm as (Hp & Hinj).
  unfold lists_copies. rewrite L1. split; [exact L2|]. split; [exact L3|]. split; [|split; [|split; [|split]]].
  - intros r Hr. destruct (Hrow r Hr) as (_ & Ea & Ec). auto.
  - intros x Hx. apply Hal. exact Hx.
  - intros r r' Hr Hr' E. destruct (Hrow r Hr) as (E1 & _). destruct (Hrow r' Hr') as (E2 & _).
    rewrite E1, E2 in E. apply Hf; [apply nth_In, Hp; exact Hr|apply nth_In, Hp; exact Hr'|exact E].
  - intros r i Hr Hi E. destruct (perm_onto _ p i Hperm Hi) as (r' & Hr' & <-). exists r'.
    destruct (Hrow r Hr) as (E1 & _). destruct (Hrow r' Hr') as (E2 & _). rewrite E1, E2, E. auto.
  - intros r r' Hr Hr' _ E. apply Hinj; assumption.
Qed.

Lemma rearranged_weights d d' p f w w' :
  rearranged d d' p f ->
  (forall r, (r < length (obs_ids d))%nat -> eff_weights w' r = eff_weights w (p r)) ->
  same_weight_within_observation d w -> nonneg_weights d w ->
  leaves_out_weight_zero d d' p w w' /\ same_weight_within_observation d' w' /\ nonneg_weights d' w'.
Proof.
  intros Hre HW Hsw Hnn. pose proof (rearranged_copies _ _ _ _ Hre) as Hcop.
  destruct Hre as (L1 & L2 & L3 & Hperm & Hf & Hrow). pose proof Hperm as (Hp & Hinj). split; [|split].
  - split; [exact Hcop|]. rewrite L1. split; [exact Hinj|]. split; [exact HW|].
    intros i Hi Hno. destruct (perm_onto _ p i Hperm Hi) as (r & Hr & E). exfalso. exact (Hno r Hr E).
  - intros r r' Hr Hr' E. rewrite L1 in Hr, Hr'. rewrite !HW by assumption. apply Hsw; [auto|auto|].
    destruct (Hrow r Hr) as (E1 & _). destruct (Hrow r' Hr') as (E2 & _).
    rewrite E1, E2 in E. apply Hf; [apply nth_In, Hp; exact Hr|apply nth_In, Hp; exact Hr'|exact E].
  - intros r Hr. rewrite L1 in Hr. rewrite HW by exact Hr. apply Hnn. apply Hp. exact Hr.
Qed.

(** Rows in another order, observation ids renamed: nothing that estimation computes
    changes. *)
Theorem C112_order_of_the_rows k d d' spec spec' mp mp' p f K X X' w w' ridge theta :
  create_long_form_mappings d spec = Ok mp -> create_long_form_mappings d' spec' = Ok mp' -> (0 < K)%nat ->
  rearranged d d' p f ->
  (forall r q, (r < length (obs_ids d))%nat -> (q < K)%nat -> X' r q = X (p r) q) ->
  (forall r, (r < length (obs_ids d))%nat -> eff_weights w' r = eff_weights w (p r)) ->
  same_weight_within_observation d w -> nonneg_weights d w ->
  let D := data_of d mp K X w ridge in let D' := data_of d' mp' K X' w' ridge in
  kind_ok k (d_J D) -> check_length_of_initial_values k (d_J D) K theta = Ok tt ->
  same_estimation k D D' theta.
Proof.
  intros Hmp Hmp' HK Hre HX HW Hsw Hnn D D' Hk Hl.
  destruct (rearranged_weights d d' p f w w' Hre HW Hsw Hnn) as (Hlv & Hsw' & Hnn').
  apply (C38_weight_zero_is_left_out k d d' spec spec' mp mp' p K X X' w w' ridge theta); try assumption.
  destruct Hre as (L1 & _). rewrite L1. exact HX.
Qed.


(** ** Non-vacuity *)

(** The table of the C38 example: one observation copied, all weights one in the copy. *)
Example ex_copies_weights :
  same_weight_within_observation ex_twice None /\ nonneg_weights ex_twice None.
Proof. split; [intros i i' _ _ _; reflexivity|intros i _; cbn; lra]. Qed.

(** ex_cols without its second observation, which has weight zero. *)
Definition ex_left : long_cols := mkLong [1; 1; 1]%Z [30; 10; 20]%Z (Some [0; 1; 0]%Z) None.
Example ex_leaves_out :
  leaves_out_weight_zero ex_cols ex_left (fun r => r) (Some (fun i => if (i <? 3)%nat then 5 else 0)) (Some (fun _ => 5)) /\
  same_weight_within_observation ex_left (Some (fun _ => 5)) /\ nonneg_weights ex_left (Some (fun _ => 5)).
Proof.
  split; [|split; [intros i i' _ _ _; reflexivity|intros i _; cbn; lra]].
  split; [|split; [|split]].
  - unfold lists_copies. cbn [ex_cols ex_left obs_ids alt_ids length]. split; [reflexivity|]. split; [reflexivity|].
    split; [|split; [|split; [|split]]].
    + intros r Hr. do 3 (destruct r as [|r]; [cbn; repeat split; lia|]). lia.
    + intros x Hx. simpl in *. intuition.
    + intros r r' Hr Hr' E. do 3 (destruct r as [|r]; [do 3 (destruct r' as [|r']; [cbn in *; first [reflexivity|discriminate]|]); lia|]). lia.
    + intros r i Hr Hi E. exists i.
      do 3 (destruct r as [|r]; [do 5 (destruct i as [|i]; [cbn in *; first [discriminate|repeat split; lia]|]); lia|]). lia.
    + intros r r' Hr Hr' E E2. exact E2.
  - intros r r' _ _ E. exact E.
  - intros r Hr. cbn in Hr. cbn [eff_weights]. destruct (Nat.ltb_spec r 3); [reflexivity|lia].
  - intros i Hi Hno. cbn [eff_weights]. destruct (Nat.ltb_spec i 3); [|reflexivity].
    exfalso. apply (Hno i); [cbn; lia|reflexivity].
Qed.

(** The rearrangement of C21 with weights that go with the rows. *)
Example ex_rearranged_weights :
  let p := (fun r => match r with 0 => 4 | 4 => 0 | _ => r end)%nat in
  rearranged ex_cols ex_cols' p (fun x => x + 100)%Z /\
  same_weight_within_observation ex_cols (Some (fun i => if (i <? 3)%nat then 5 else 2)) /\
  nonneg_weights ex_cols (Some (fun i => if (i <? 3)%nat then 5 else 2)) /\
  check_length_of_initial_values KMNL 3 2 (mkArr 2 INR) = Ok tt.
Proof.
  split; [exact ex_rearranged|]. split; [|split; [|reflexivity]].
  - intros i i' Hi Hi' E. cbn in Hi, Hi'.
    do 5 (destruct i as [|i]; [do 5 (destruct i' as [|i']; [cbn in *; first [discriminate|reflexivity]|]); lia|]). lia.
  - intros i _. cbn [eff_weights]. destruct (i <? 3)%nat; lra.
Qed.

Print Assumptions C38_frequency_weights_curvature.
Print Assumptions C38_weight_zero_is_left_out.
Print Assumptions C112_order_of_the_rows.
