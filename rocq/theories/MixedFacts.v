(** Facts about the mixed-logit calculations for arbitrary mapping matrices. *)
From Coq Require Import String ZArith List Reals Lra Lia Arith Bool.
From Coquelicot Require Import Coquelicot.
From Verif Require Import Res Vec Arr SpecLogit ChoiceCalcs ChoiceFacts Transforms Ids Mappings
  MappingFacts LongData LogitFacts RowDeriv HessFacts ProbFacts PropMappings PropProbs PropGradient
  PropGradientLimits PropHessian NestedCalcs NestedFacts PropNested MixedCalcs.
Import ListNotations.
Open Scope R_scope.

(** ** The expanded design *)
Lemma fold_cols (K m : nat) (f : nat -> mat) (x0 : design3) i r k :
  fold_left (fun (x : design3) pos => fun i r k => if (k =? K + pos)%nat then x i r k * f pos i r else x i r k)
    (seq 0 m) x0 i r k =
  if ((K <=? k) && (k <? K + m))%nat then x0 i r k * f (k - K)%nat i r else x0 i r k.
Proof.
  induction m as [|m IH].
  - simpl. destruct (Nat.leb_spec K k); destruct (Nat.ltb_spec k (K + 0)); simpl; try reflexivity. lia.
  - rewrite seq_S, fold_left_app. simpl. rewrite IH.
    destruct (Nat.eqb_spec k (K + m)) as [->|Ne].
    + replace (K + m - K)%nat with m by lia.
      destruct (Nat.leb_spec K (K + m)); [|lia]. destruct (Nat.ltb_spec (K + m) (K + m)); [lia|].
      destruct (Nat.ltb_spec (K + m) (K + S m)); [reflexivity|lia].
    + destruct (Nat.leb_spec K k); destruct (Nat.ltb_spec k (K + m)); destruct (Nat.ltb_spec k (K + S m));
        simpl; try reflexivity; lia.
Qed.

Lemma expanded_ok K X draws pos mixers R2m vars x3 :
  create_expanded_design_for_mixing K X draws pos mixers R2m = Ok (vars, x3) ->
  vars = (K + length pos)%nat /\ length pos = length draws /\ (0 < length pos)%nat /\
  (forall p, (p < length pos)%nat -> (nth p pos 0 < K)%nat) /\
  (forall i r k, (k < K)%nat -> x3 i r k = X i k) /\
  (forall i r p, (p < length pos)%nat ->
     x3 i r (K + p)%nat = X i (nth p pos 0%nat) * mdot mixers R2m (nth p draws (fun _ _ => 0)) i r).
Proof.
  unfold create_expanded_design_for_mixing. intros H.
  destruct (Nat.eqb_spec (length pos) (length draws)) as [EL|]; [|discriminate]. cbn [negb] in H.
  destruct draws as [|d0 dr] eqn:Ed; [discriminate|]. rewrite <- Ed in *.
  destruct (existsb (fun p => (K <=? p)%nat) pos) eqn:Ex; [discriminate|].
  inversion H; subst vars x3; clear H. split; [reflexivity|]. split; [exact EL|].
  split; [rewrite EL, Ed; simpl; lia|]. split.
  { intros p Hp. destruct (Nat.le_gt_cases K (nth p pos 0%nat)) as [Hle|]; [|assumption].
    exfalso. assert (existsb (fun p => (K <=? p)%nat) pos = true); [|congruence].
    apply existsb_exists. exists (nth p pos 0%nat). split; [apply nth_In; exact Hp|]. apply Nat.leb_le. exact Hle. }
  split.
  - intros i r k Hk.
    rewrite (fold_cols K (length pos) (fun pos => mdot mixers R2m (nth pos draws (fun _ _ => 0)))).
    destruct (Nat.leb_spec K k); [lia|]. simpl. unfold hcat, vcat. destruct (Nat.ltb_spec k K); [reflexivity|lia].
  - intros i r p Hp.
    rewrite (fold_cols K (length pos) (fun pos => mdot mixers R2m (nth pos draws (fun _ _ => 0)))).
    destruct (Nat.leb_spec K (K + p)); [|lia]. destruct (Nat.ltb_spec (K + p) (K + length pos)); [|lia].
    simpl. unfold hcat, vcat. destruct (Nat.ltb_spec (K + p) K); [lia|].
    replace (K + p - K)%nat with p by lia. reflexivity.
Qed.

(** ** Sequence probabilities and their derivative *)
Section Seq.
  Context (E : MData) (own unit : nat -> nat).
  Notation D := (x_D E).
  Notation N := (d_N D).
  Notation nR := (x_draws E).
  Notation U := (x_mixers E).
  Hypothesis Hown : indicator_of N (d_obs D) (d_M D) own.
  Hypothesis Hunit : indicator_of N U (x_R E) unit.

  Lemma bc_many : nR <> 1%nat ->
    bc_cols E = nR /\ (forall th, bc_probs E th = prob_array E th) /\ bc_design E = x_X E.
  Proof.
    intros H. unfold bc_cols, bc_probs, bc_design. destruct (Nat.eqb_spec nR 1); [contradiction|]. auto.
  Qed.

  Lemma unit_lt i : (i < N)%nat -> (unit i < U)%nat.
  Proof. intros Hi. apply Hunit. exact Hi. Qed.

  Definition vv (th : arr) (i r : nat) : R := sys_utilities (draw_data E r) th i.

  Lemma pa_eq th i r :
    (i < N)%nat ->
    prob_array E th i r =
    exp (clip_exponent (vv th i r)) / osum N own (own i) (fun k => exp (clip_exponent (vv th k r))).
  Proof. intros Hi. unfold prob_array. rewrite (long_probs_eq MNL_model (draw_data E r) own Hown) by exact Hi. reflexivity. Qed.

  Lemma pa_pos th i r : (i < N)%nat -> 0 < prob_array E th i r.
  Proof. intros Hi. apply (long_probs_pos MNL_model (draw_data E r) own Hown). exact Hi. Qed.

  Lemma pa_le1 th i r : (i < N)%nat -> prob_array E th i r <= 1.
  Proof. intros Hi. apply (long_probs_le1 MNL_model (draw_data E r) own Hown). exact Hi. Qed.

  Lemma pa_sum th i r : (i < N)%nat -> osum N own (own i) (fun k => prob_array E th k r) = 1.
  Proof. intros Hi. apply (long_probs_sum MNL_model (draw_data E r) own Hown). exact Hi. Qed.

  (** log of the probability of unit u's choices under draw r *)
  Definition lseq (th : arr) (u r : nat) : R := osum N unit u (fun i => d_y D i * ln (prob_array E th i r)).

  Lemma seq_eq th u r :
    (u < U)%nat -> expanded_sequence_probs N (prob_array E th) (d_y D) (x_R E) u r = exp (lseq th u r).
  Proof.
    intros Hu. unfold expanded_sequence_probs. rewrite guard_id by (apply Rgt_not_eq, exp_pos). f_equal.
    unfold mdot, transp, lseq, osum. apply sumn_ext. intros i Hi.
    destruct (Hunit i Hi) as [_ Hr]. rewrite Hr by exact Hu. destruct (unit i =? u)%nat; ring.
  Qed.

  Definition sim (th : arr) (u : nat) : R := sumn nR (fun r => exp (lseq th u r)) / INR nR.

  Lemma sim_eq th u : (u < U)%nat -> sequence_probs N nR (prob_array E th) (d_y D) (x_R E) u = sim th u.
  Proof.
    intros Hu. unfold sequence_probs, row_mean, sim. f_equal. apply sumn_ext. intros r _. apply seq_eq. exact Hu.
  Qed.

  Lemma sim_sum_pos th u : (0 < nR)%nat -> 0 < sumn nR (fun r => exp (lseq th u r)).
  Proof. intros H. apply (sumn_pos nR _ 0%nat); [intros; left; apply exp_pos|exact H|apply exp_pos]. Qed.

  Lemma sim_pos th u : (0 < nR)%nat -> 0 < sim th u.
  Proof. intros H. apply Rdiv_lt_0_compat; [apply sim_sum_pos; exact H|apply lt_0_INR; exact H]. Qed.

  Lemma unit_dot f i : (i < N)%nat -> mvec U (x_R E) f i = f (unit i).
  Proof. intros Hi. apply (indicator_dot N U). exact Hunit. exact Hi. Qed.

  Lemma unit_mdot (f : mat) i r : (i < N)%nat -> mdot U (x_R E) f i r = f (unit i) r.
  Proof. intros Hi. apply (indicator_dot N U (x_R E) unit (fun u => f u r)). exact Hunit. exact Hi. Qed.

  Hypothesis HR1 : nR <> 1%nat.

  Lemma scaled_error_eq th i r :
    (i < N)%nat ->
    scaled_error E th i r =
    (d_y D i - prob_array E th i r) * (exp (lseq th (unit i) r) / sim th (unit i)).
  Proof.
    intros Hi. unfold scaled_error. destruct (bc_many HR1) as (-> & -> & _). rewrite unit_mdot, unit_dot by exact Hi.
    rewrite seq_eq, sim_eq by (apply unit_lt; exact Hi). reflexivity.
  Qed.

  (** ** Derivative *)
  Context (W : vec).
  Hypothesis HW : forall i, (i < N)%nat -> eff_weights (d_w D) i = W (unit i).
  Hypothesis HWu : forall u, (u < U)%nat -> weights_per_mixer E u = W u.
  Hypothesis H1 : forall i, (i < N)%nat -> osum N own (own i) (d_y D) = 1.
  Hypothesis Hsame : forall i i', (i < N)%nat -> (i' < N)%nat -> own i = own i' -> unit i = unit i'.
  Hypothesis HR : (0 < nR)%nat.

  Definition mridge : R := match d_ridge D with Some c => c | None => 0 end.

  Lemma mll_eq th :
    calc_mixed_log_likelihood E th = sumn U (fun u => W u * ln (sim th u)) - mridge * asumsq th.
  Proof.
    unfold calc_mixed_log_likelihood, mridge. destruct (bc_many HR1) as (-> & -> & _).
    assert (B : vdot U (weights_per_mixer E)
        (fun u => ln (sequence_probs N nR (prob_array E th) (d_y D) (x_R E) u)) =
        sumn U (fun u => W u * ln (sim th u))).
    { unfold vdot. apply sumn_ext. intros u Hu. rewrite HWu, sim_eq by exact Hu. reflexivity. }
    destruct (d_ridge D); rewrite B; ring.
  Qed.

  (** derivative of one unit's log sequence probability *)
  Definition dseq (th : arr) (u r k : nat) : R :=
    osum N unit u (fun i => (d_y D i - prob_array E th i r) * x_X E i r k).

  Lemma lseq_derive th u r k :
    (u < U)%nat -> (k < x_vars E)%nat ->
    (forall i, (i < N)%nat -> strictly_unclipped (vv th i r)) ->
    is_derive (fun t => lseq (aupd th k t) u r) (aget th k) (dseq th u r k).
  Proof.
    intros Hu Hk Hun. set (ind := fun i => if (unit i =? u)%nat then 1 else 0).
    set (uu := fun i t => clip_exponent (vv (aupd th k t) i r)).
    apply is_derive_ext with (f := fun t => sumn N (fun i => d_y D i * (ind i *
       ln (exp (uu i t) / osum N own (own i) (fun q => exp (uu q t)))))).
    { intros t. unfold lseq, osum at 2. apply sumn_ext. intros i Hi. rewrite pa_eq by exact Hi. fold (uu i t).
      unfold ind. destruct (unit i =? u)%nat; unfold uu; match goal with |- @eq _ ?a ?b => change (@eq R a b) end; ring. }
    evar_last.
    - apply (is_derive_weighted_ll N own uu (fun i => x_X E i r k) (d_y D) ind).
      + intros i Hi. apply is_derive_clip.
        * apply (is_derive_dot_upd (x_vars E) (fun q => x_X E i r q) (aget th) k). exact Hk.
        * unfold uu. rewrite aupd_id. apply Hun. exact Hi.
      + intros i Hi. unfold ind.
        rewrite (osum_ext N own (own i) _ (fun q => d_y D q * (if (unit i =? u)%nat then 1 else 0))).
        * rewrite osum_scal_r, H1 by exact Hi. ring.
        * intros q Hq Eq. rewrite (Hsame q i Hq Hi Eq). reflexivity.
    - unfold dseq. unfold osum at 2. apply sumn_ext. intros i Hi.
      rewrite pa_eq by exact Hi. unfold ind, uu. rewrite aupd_id.
      destruct (unit i =? u)%nat; match goal with |- @eq _ ?a ?b => change (@eq R a b) end; ring.
  Qed.

  Lemma log_sim_derive th u k :
    (u < U)%nat -> (k < x_vars E)%nat ->
    (forall i r, (i < N)%nat -> (r < nR)%nat -> strictly_unclipped (vv th i r)) ->
    is_derive (fun t => ln (sim (aupd th k t) u)) (aget th k)
      (sumn nR (fun r => exp (lseq th u r) * dseq th u r k) / INR nR / sim th u).
  Proof.
    intros Hu Hk Hun. evar_last.
    - apply (is_derive_comp ln (fun t => sim (aupd th k t) u)).
      + apply is_derive_ln. apply sim_pos. exact HR.
      + unfold sim. apply is_derive_ext with (f := fun t => / INR nR * sumn nR (fun r => exp (lseq (aupd th k t) u r))).
        { intros t. match goal with |- @eq _ ?a ?b => change (@eq R a b) end. unfold Rdiv. ring. }
        apply (is_derive_scal (fun t => sumn nR (fun r => exp (lseq (aupd th k t) u r)))).
        apply (is_derive_sumn nR (fun r t => exp (lseq (aupd th k t) u r)) (fun r => exp (lseq th u r) * dseq th u r k)).
        intros r Hr. evar_last.
        * apply (is_derive_comp exp (fun t => lseq (aupd th k t) u r)); [apply is_derive_exp|].
          apply lseq_derive; [exact Hu|exact Hk|]. intros i Hi. apply Hun; assumption.
        * rewrite aupd_id. unfold scal; simpl; unfold mult; simpl. ring.
    - rewrite aupd_id. unfold scal; simpl; unfold mult; simpl. unfold Rdiv.
      match goal with |- @eq _ ?a ?b => change (@eq R a b) end. ring.
  Qed.

  Lemma mgrad_eq th k :
    aget (calc_mixed_logit_gradient E th) k =
    sumn U (fun u => W u * (sumn nR (fun r => exp (lseq th u r) * dseq th u r k) / INR nR / sim th u))
    - 2 * mridge * aget th k.
  Proof.
    unfold calc_mixed_logit_gradient. cbn [aget]. destruct (bc_many HR1) as (-> & _ & ->).
    assert (B : sumn nR (fun r => sumn N (fun i => scaled_error E th i r * x_X E i r k * eff_weights (d_w D) i)) / INR nR =
       sumn U (fun u => W u * (sumn nR (fun r => exp (lseq th u r) * dseq th u r k) / INR nR / sim th u))).
    { rewrite (sumn_ext nR _ (fun r => sumn U (fun u => W u / sim th u * (exp (lseq th u r) * dseq th u r k)))).
      - rewrite sumn_swap. unfold Rdiv at 1. rewrite <- sumn_scal_r. apply sumn_ext. intros u _.
        rewrite sumn_scal_l. unfold Rdiv. ring.
      - intros r _. rewrite (sumn_by_obs N U unit) by apply unit_lt. apply sumn_ext. intros u Hu.
        unfold dseq. rewrite <- !osum_scal_l. apply osum_ext. intros i Hi Eu.
        rewrite scaled_error_eq, HW by exact Hi. rewrite Eu. unfold Rdiv. ring. }
    unfold mridge. destruct (d_ridge D) as [c|]; rewrite B; ring.
  Qed.

  Lemma mixed_gradient_derive th k :
    alen th = x_vars E -> (k < x_vars E)%nat ->
    (forall i r, (i < N)%nat -> (r < nR)%nat -> strictly_unclipped (vv th i r)) ->
    is_derive (fun t => calc_mixed_log_likelihood E (aupd th k t)) (aget th k)
      (aget (calc_mixed_logit_gradient E th) k).
  Proof.
    intros HL Hk Hun. rewrite mgrad_eq.
    apply is_derive_ext with (f := fun t => sumn U (fun u => W u * ln (sim (aupd th k t) u)) - mridge * asumsq (aupd th k t)).
    { intros t. symmetry. apply mll_eq. }
    apply (is_derive_minus (K := R_AbsRing) (V := R_NormedModule)).
    - apply (is_derive_sumn U (fun u t => W u * ln (sim (aupd th k t) u))). intros u Hu.
      apply (is_derive_scal (fun t => ln (sim (aupd th k t) u))). apply log_sim_derive; assumption.
    - replace (2 * mridge * aget th k) with (mridge * (2 * aget th k)) by ring.
      apply (is_derive_scal (fun t => asumsq (aupd th k t))). apply is_derive_asumsq. rewrite HL. exact Hk.
  Qed.

  (** rows of the score matrix *)
  Lemma mscore_eq th u k :
    (u < U)%nat ->
    mixed_score_matrix E th u k = sumn nR (fun r => exp (lseq th u r) * dseq th u r k) / INR nR / sim th u.
  Proof.
    intros Hu. unfold mixed_score_matrix, mdot, transp. destruct (bc_many HR1) as (-> & _ & ->).
    rewrite (sumn_ext N _ (fun i => if (unit i =? u)%nat then
       sumn nR (fun r => exp (lseq th u r) * ((d_y D i - prob_array E th i r) * x_X E i r k)) * (/ INR nR * / sim th u) else 0)).
    - change (osum N unit u (fun i =>
       sumn nR (fun r => exp (lseq th u r) * ((d_y D i - prob_array E th i r) * x_X E i r k)) * (/ INR nR * / sim th u)) =
       sumn nR (fun r => exp (lseq th u r) * dseq th u r k) / INR nR / sim th u).
      rewrite osum_scal_r. unfold Rdiv. rewrite Rmult_assoc. f_equal. unfold osum.
      rewrite (sumn_ext N _ (fun i => sumn nR (fun r => exp (lseq th u r) *
         (if (unit i =? u)%nat then (d_y D i - prob_array E th i r) * x_X E i r k else 0)))).
      + rewrite sumn_swap. apply sumn_ext. intros r _. rewrite sumn_scal_l. reflexivity.
      + intros i _. destruct (unit i =? u)%nat; [reflexivity|]. symmetry. apply sumn_eq0. intros; ring.
    - intros i Hi. destruct (Hunit i Hi) as [_ Hr]. rewrite Hr by exact Hu.
      destruct (Nat.eqb_spec (unit i) u) as [Eu|]; [|ring].
      unfold Rdiv. rewrite Rmult_1_l.
      rewrite (sumn_ext nR _ (fun r => exp (lseq th u r) * ((d_y D i - prob_array E th i r) * x_X E i r k) * / sim th u)).
      + rewrite sumn_scal_r. ring.
      + intros r _. rewrite scaled_error_eq by exact Hi. rewrite Eu. unfold Rdiv. ring.
  Qed.
End Seq.
