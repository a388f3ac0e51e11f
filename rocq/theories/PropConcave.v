(** Property C33: the MNL log-likelihood is concave, so a stationary point is a
    maximum, and with a positive ridge penalty it is the only one. *)
From Coq Require Import String ZArith List Reals Lra Lia Arith.
From Coquelicot Require Import Coquelicot.
From Verif Require Import Res Vec Arr SpecLogit ChoiceCalcs ChoiceFacts Transforms Ids Mappings
  MappingFacts LongData LogitFacts RowDeriv HessFacts ProbFacts PropMappings PropProbs PropGradient
  PropHessian.
Import ListNotations.
Open Scope R_scope.

(** Jensen's inequality for the exponential: log-sum-exp lies above its tangent. *)
Lemma log_sum_exp_tangent N own i (u u' : vec) :
  (i < N)%nat ->
  let S := osum N own (own i) (fun r => exp (u r)) in
  let S' := osum N own (own i) (fun r => exp (u' r)) in
  ln S + osum N own (own i) (fun r => exp (u r) / S * (u' r - u r)) <= ln S'.
Proof.
  intros Hi S S'.
  assert (HS : 0 < S) by (apply osum_pos; [intros; apply exp_pos|exact Hi]).
  assert (HS' : 0 < S') by (apply osum_pos; [intros; apply exp_pos|exact Hi]).
  set (m := osum N own (own i) (fun r => exp (u r) / S * (u' r - u r))).
  assert (HP1 : osum N own (own i) (fun r => exp (u r) / S) = 1).
  { rewrite osum_div. fold S. field. lra. }
  assert (E : 1 <= osum N own (own i) (fun r => exp (u r) / S * exp (u' r - u r - m))).
  { apply Rle_trans with (osum N own (own i) (fun r => exp (u r) / S * (1 + (u' r - u r - m)))).
    - right. symmetry.
      rewrite (osum_ext _ _ _ _ (fun r => (1 - m) * (exp (u r) / S) + exp (u r) / S * (u' r - u r))) by (intros; ring).
      rewrite osum_plus, osum_scal_l, HP1. fold m. ring.
    - apply osum_le. intros r _ _. apply Rmult_le_compat_l.
      + left. apply Rdiv_lt_0_compat; [apply exp_pos|exact HS].
      + destruct (Req_dec (u' r - u r - m) 0) as [->|Hne]; [rewrite exp_0; lra|].
        left. apply exp_ineq1. exact Hne. }
  assert (E2 : osum N own (own i) (fun r => exp (u r) / S * exp (u' r - u r - m)) = S' * (exp (- m) / S)).
  { unfold S'. rewrite <- osum_scal_r. apply osum_ext. intros r _ _.
    replace (u' r - u r - m) with (u' r + - u r + - m) by ring. rewrite !exp_plus, exp_Ropp.
    pose proof (exp_pos (u r)). field. lra. }
  rewrite E2 in E.
  assert (E3 : S * exp m <= S').
  { pose proof (exp_pos m). rewrite exp_Ropp in E.
    apply Rmult_le_compat_r with (r := S * exp m) in E; [|nra].
    replace (S' * (/ exp m / S) * (S * exp m)) with S' in E by (field; lra). lra. }
  replace (ln S + m) with (ln (S * exp m)).
  - destruct E3 as [E3|E3]; [left; apply ln_increasing; [pose proof (exp_pos m); nra|exact E3]|rewrite E3; lra].
  - rewrite ln_mult, ln_exp; [reflexivity|exact HS|apply exp_pos].
Qed.

Lemma between a b x y s : a < x < b -> a < y < b -> 0 <= s <= 1 -> a < (1 - s) * x + s * y < b.
Proof.
  intros Hx Hy Hs. replace ((1 - s) * x + s * y) with (x + s * (y - x)) by ring.
  destruct (Rle_dec x y).
  - assert (0 <= s * (y - x) <= y - x) by (split; nra). lra.
  - assert (y - x <= s * (y - x) <= 0) by (split; nra). lra.
Qed.

(** [a . b] of two parameter vectors of the same length. *)
Definition dot (n : nat) (a b : vec) : R := sumn n (fun j => a j * b j).

Section Concave.
  Context (d : long_cols) (spec : option nest_spec) (mp : mappings) (K : nat) (X : mat)
          (w : option vec) (ridge : option R).
  Hypothesis Hmp : create_long_form_mappings d spec = Ok mp.
  Hypothesis HK : (0 < K)%nat.
  Hypothesis Hone : exactly_one_choice d.
  Hypothesis Hw : same_weight_within_observation d w.
  Hypothesis Hnn : nonneg_weights d w.
  Let D := data_of d mp K X w ridge.

  Lemma mnl_tangent theta theta' g :
    check_length_of_initial_values KMNL (d_J D) K theta = Ok tt ->
    check_length_of_initial_values KMNL (d_J D) K theta' = Ok tt ->
    no_clipping KMNL D theta -> no_clipping KMNL D theta' ->
    est_gradient KMNL D theta = Ok g ->
    est_log_likelihood KMNL D theta' <=
      est_log_likelihood KMNL D theta
      + dot K (aget g) (fun j => aget theta' j - aget theta j)
      - ridge_or_0 D * sumn K (fun j => Rsqr (aget theta' j - aget theta j)).
  Proof.
    intros Hl Hl' Hc Hc' Eg.
    pose proof (data_obs_indicator d spec mp K X w ridge Hmp) as Hown. fold D in Hown.
    set (own := own_of (obs_ids d)) in *.
    apply check_length_ok in Hl. apply check_length_ok in Hl'. simpl in Hl, Hl'.
    change K with (d_K D) in Hl, Hl'. assert (HKD : (0 < d_K D)%nat) by exact HK.
    assert (HL : alen theta = (num_shapes KMNL (d_J D) + num_icpts KMNL (d_J D) + d_K D)%nat) by exact Hl.
    assert (HL' : alen theta' = (num_shapes KMNL (d_J D) + num_icpts KMNL (d_J D) + d_K D)%nat) by exact Hl'.
    destruct (grad_form KMNL D theta HKD HL) as (g' & E & _ & G).
    rewrite Eg in E. inversion E; subst g'. clear E.
    set (u := utility KMNL D theta). set (u' := utility KMNL D theta').
    set (W := eff_weights (d_w D)) in *.
    assert (Eu : forall th i, alen th = K -> utility KMNL D th i = sumn K (fun q => X i q * aget th q)).
    { intros th i _. unfold utility. cbn. unfold mnl_transform, sys_utilities, mvec. reflexivity. }
    assert (CU : forall th i, alen th = K -> no_clipping KMNL D th -> (i < d_N D)%nat ->
       clip_exponent (utility KMNL D th i) = utility KMNL D th i).
    { intros th i Hth Hcl Hi. apply clip_id. specialize (Hcl i Hi).
      rewrite est_utilities_eq in Hcl; [|exact HK|exact Hth].
      unfold unclipped, min_exponent_val, max_exponent_val. lra. }
    assert (PR : forall th i, alen th = K -> no_clipping KMNL D th -> (i < d_N D)%nat ->
       probs_at KMNL D th i = exp (utility KMNL D th i) / osum (d_N D) own (own i) (fun r => exp (utility KMNL D th r))).
    { intros th i Hth Hcl Hi. unfold probs_at. rewrite (long_probs_eq _ _ _ Hown) by exact Hi.
      assert (EE : forall r, (r < d_N D)%nat -> long_exponentials (model_of KMNL) D (sh KMNL (d_J D) th) (ic KMNL (d_J D) th) (be KMNL (d_J D) (d_K D) th) r
                   = exp (utility KMNL D th r)).
      { intros r Hr. change (exp (clip_exponent (utility KMNL D th r)) = exp (utility KMNL D th r)).
        rewrite CU; auto. }
      rewrite EE by exact Hi. f_equal. apply osum_ext. intros r Hr _. apply EE. exact Hr. }
    assert (LN : forall th i, alen th = K -> no_clipping KMNL D th -> (i < d_N D)%nat ->
       ln (probs_at KMNL D th i) = utility KMNL D th i - ln (osum (d_N D) own (own i) (fun r => exp (utility KMNL D th r)))).
    { intros th i Hth Hcl Hi. rewrite PR by assumption.
      assert (0 < osum (d_N D) own (own i) (fun r => exp (utility KMNL D th r))) by (apply osum_pos; [intros; apply exp_pos|exact Hi]).
      unfold Rdiv. rewrite ln_mult, ln_exp, ln_Rinv; try assumption; try apply exp_pos; [ring|].
      apply Rinv_0_lt_compat. assumption. }
    assert (WC := weight_condition _ own _ W (one_choice_of d Hone) (weights_of d w Hw)).
    destruct (one_choice_of d Hone) as [Y01 _]. fold own in Y01.
    rewrite !est_ll_eq by (try exact HKD; assumption).
    fold (probs_at KMNL D theta). fold (probs_at KMNL D theta'). fold W.
    set (m := fun i => osum (d_N D) own (own i) (fun r => probs_at KMNL D theta r * (u' r - u r))).
    assert (S1 : sumn (d_N D) (fun i => d_y D i * (W i * ln (probs_at KMNL D theta' i)))
              <= sumn (d_N D) (fun i => d_y D i * (W i * ln (probs_at KMNL D theta i)))
                 + sumn (d_N D) (fun i => d_y D i * W i * (u' i - u i - m i))).
    { rewrite <- sumn_plus. apply sumn_le. intros i Hi.
      rewrite !LN by assumption. fold u u'.
      pose proof (log_sum_exp_tangent (d_N D) own i u u' Hi) as T. cbv zeta in T.
      assert (Em : m i = osum (d_N D) own (own i) (fun r => exp (u r) / osum (d_N D) own (own i) (fun q => exp (u q)) * (u' r - u r))).
      { apply osum_ext. intros r Hr Eo. rewrite PR by assumption. rewrite Eo. reflexivity. }
      rewrite <- Em in T.
      assert (0 <= d_y D i * W i).
      { apply Rmult_le_pos; [|apply Hnn; exact Hi]. destruct (Y01 i Hi) as [Ey|Ey]; cbn [D data_of d_y] in *; rewrite Ey; lra. }
      nra. }
    assert (S2 : sumn (d_N D) (fun i => d_y D i * W i * (u' i - u i - m i))
              = sumn (d_N D) (fun i => W i * (d_y D i - probs_at KMNL D theta i) * (u' i - u i))).
    { rewrite (sumn_ext (d_N D) (fun i => d_y D i * W i * (u' i - u i - m i))
          (fun i => d_y D i * W i * (u' i - u i) - (d_y D i * W i) * m i)) by (intros; ring).
      rewrite sumn_minus. unfold m.
      rewrite (osum_sym (d_N D) own (fun r => probs_at KMNL D theta r * (u' r - u r)) (fun i => d_y D i * W i)).
      rewrite <- sumn_minus. apply sumn_ext. intros i Hi.
      change (d_y D) with (choice_vec d). change (d_N D) with (length (obs_ids d)) in *.
      rewrite (WC i Hi). ring. }
    assert (S3 : sumn (d_N D) (fun i => W i * (d_y D i - probs_at KMNL D theta i) * (u' i - u i))
              = dot K (aget g) (fun j => aget theta' j - aget theta j)
                + 2 * ridge_or_0 D * sumn K (fun j => aget theta j * (aget theta' j - aget theta j))).
    { unfold dot. rewrite <- sumn_scal_l, <- sumn_plus.
      rewrite (sumn_ext (d_N D) _ (fun i => sumn K (fun j => W i * (d_y D i - probs_at KMNL D theta i) * X i j * (aget theta' j - aget theta j)))).
      2: { intros i Hi. unfold u, u'. rewrite !Eu by assumption. rewrite <- sumn_minus, <- sumn_scal_l.
           apply sumn_ext. intros; ring. }
      rewrite sumn_swap. apply sumn_ext. intros j Hj.
      rewrite G by (rewrite Hl; exact Hj). fold (probs_at KMNL D theta). fold W.
      rewrite sumn_scal_r.
      rewrite (sumn_ext (d_N D) (fun i => W i * (d_y D i - probs_at KMNL D theta i) * DH KMNL D theta i j)
                (fun i => W i * (d_y D i - probs_at KMNL D theta i) * X i j)).
      - ring.
      - intros i Hi. f_equal. unfold DH. cbn [num_shapes num_icpts kind_iref model_of]. unfold hcat, vcat.
        cbn [Nat.ltb Nat.leb]. rewrite !Nat.sub_0_r. unfold dh_db. cbn [MNL_model m_dh_dv].
        rewrite diag_dot by exact Hi. cbn [D data_of d_X]. ring. }
    assert (S4 : asumsq theta' = asumsq theta + 2 * sumn K (fun j => aget theta j * (aget theta' j - aget theta j))
                  + sumn K (fun j => Rsqr (aget theta' j - aget theta j))).
    { unfold asumsq. rewrite Hl, Hl'. change (d_K D) with K. rewrite <- sumn_scal_l, <- !sumn_plus.
      apply sumn_ext. intros j _. unfold Rsqr. ring. }
    rewrite S4. rewrite S2, S3 in S1. lra.
  Qed.

  (** A stationary point is a global maximum over the unclipped region. *)
  Theorem C33_stationary_point_is_maximum theta theta' g :
    nonneg_ridge ridge ->
    check_length_of_initial_values KMNL (d_J D) K theta = Ok tt ->
    check_length_of_initial_values KMNL (d_J D) K theta' = Ok tt ->
    no_clipping KMNL D theta -> no_clipping KMNL D theta' ->
    est_gradient KMNL D theta = Ok g -> (forall j, (j < K)%nat -> aget g j = 0) ->
    est_log_likelihood KMNL D theta' <= est_log_likelihood KMNL D theta.
  Proof.
    intros Hr Hl Hl' Hc Hc' Eg Hz.
    pose proof (mnl_tangent theta theta' g Hl Hl' Hc Hc' Eg) as T.
    assert (E0 : dot K (aget g) (fun j => aget theta' j - aget theta j) = 0).
    { apply sumn_eq0. intros j Hj. rewrite Hz by exact Hj. ring. }
    assert (0 <= ridge_or_0 D).
    { unfold ridge_or_0, D, data_of; cbn [d_ridge]. destruct ridge; [exact Hr|lra]. }
    assert (0 <= sumn K (fun j => Rsqr (aget theta' j - aget theta j))) by (apply sumn_ge0; intros; apply Rle_0_sqr).
    nra.
  Qed.

  (** With a positive penalty it is the only maximum. *)
  Theorem C33_ridge_maximum_is_unique theta theta' g r :
    ridge = Some r -> 0 < r ->
    check_length_of_initial_values KMNL (d_J D) K theta = Ok tt ->
    check_length_of_initial_values KMNL (d_J D) K theta' = Ok tt ->
    no_clipping KMNL D theta -> no_clipping KMNL D theta' ->
    est_gradient KMNL D theta = Ok g -> (forall j, (j < K)%nat -> aget g j = 0) ->
    est_log_likelihood KMNL D theta <= est_log_likelihood KMNL D theta' ->
    forall j, (j < K)%nat -> aget theta' j = aget theta j.
  Proof.
    intros Er Hr Hl Hl' Hc Hc' Eg Hz Hge j Hj.
    pose proof (mnl_tangent theta theta' g Hl Hl' Hc Hc' Eg) as T.
    assert (E0 : dot K (aget g) (fun j => aget theta' j - aget theta j) = 0).
    { apply sumn_eq0. intros q Hq. rewrite Hz by exact Hq. ring. }
    assert (Erd : ridge_or_0 D = r) by (unfold ridge_or_0, D, data_of; cbn [d_ridge]; rewrite Er; reflexivity).
    set (S := sumn K (fun j => Rsqr (aget theta' j - aget theta j))) in *.
    assert (HS0 : 0 <= S) by (apply sumn_ge0; intros; apply Rle_0_sqr).
    assert (HS : S = 0) by nra.
    pose proof (sumn_eq0_inv K _ (fun i _ => Rle_0_sqr _) HS j Hj) as Z. cbv beta in Z.
    apply Rsqr_0_uniq in Z. lra.
  Qed.

  (** Concavity along the segment between two parameter vectors. *)
  Theorem C33_log_likelihood_concave theta0 theta1 s :
    nonneg_ridge ridge -> 0 <= s <= 1 ->
    let mid := mkArr K (fun j => (1 - s) * aget theta0 j + s * aget theta1 j) in
    check_length_of_initial_values KMNL (d_J D) K theta0 = Ok tt ->
    check_length_of_initial_values KMNL (d_J D) K theta1 = Ok tt ->
    no_clipping KMNL D theta0 -> no_clipping KMNL D theta1 ->
    (1 - s) * est_log_likelihood KMNL D theta0 + s * est_log_likelihood KMNL D theta1
    <= est_log_likelihood KMNL D mid.
  Proof.
    intros Hr Hs mid Hl0 Hl1 Hc0 Hc1.
    assert (Hlm : check_length_of_initial_values KMNL (d_J D) K mid = Ok tt).
    { unfold check_length_of_initial_values, mid. cbn. rewrite Nat.eqb_refl. reflexivity. }
    assert (A0 := check_length_ok _ _ _ _ Hl0). assert (A1 := check_length_ok _ _ _ _ Hl1). simpl in A0, A1.
    assert (Hcm : no_clipping KMNL D mid).
    { intros i Hi. specialize (Hc0 i Hi). specialize (Hc1 i Hi).
      rewrite est_utilities_eq in Hc0 by (try exact HK; exact A0).
      rewrite est_utilities_eq in Hc1 by (try exact HK; exact A1).
      rewrite est_utilities_eq by (try exact HK; reflexivity).
      assert (Eu : utility KMNL D mid i = (1 - s) * utility KMNL D theta0 i + s * utility KMNL D theta1 i).
      { unfold utility. cbn. unfold mnl_transform, sys_utilities, mvec. rewrite <- !sumn_scal_l, <- sumn_plus.
        apply sumn_ext. intros j _. cbn. ring. }
      rewrite Eu. apply between; assumption. }
    destruct (grad_form KMNL D mid HK eq_refl) as (g & Eg & _).
    pose proof (mnl_tangent mid theta0 g Hlm Hl0 Hcm Hc0 Eg) as T0.
    pose proof (mnl_tangent mid theta1 g Hlm Hl1 Hcm Hc1 Eg) as T1.
    assert (0 <= ridge_or_0 D).
    { unfold ridge_or_0, D, data_of; cbn [d_ridge]. destruct ridge; [exact Hr|lra]. }
    set (S0 := sumn K (fun j => Rsqr (aget theta0 j - aget mid j))) in *.
    set (S1 := sumn K (fun j => Rsqr (aget theta1 j - aget mid j))) in *.
    assert (0 <= S0) by (apply sumn_ge0; intros; apply Rle_0_sqr).
    assert (0 <= S1) by (apply sumn_ge0; intros; apply Rle_0_sqr).
    assert (E : (1 - s) * dot K (aget g) (fun j => aget theta0 j - aget mid j)
                + s * dot K (aget g) (fun j => aget theta1 j - aget mid j) = 0).
    { unfold dot. rewrite <- !sumn_scal_l, <- sumn_plus. apply sumn_eq0. intros j _. cbn. ring. }
    set (d0 := dot K _ _) in *. set (d1 := dot K _ _) in *.
    assert (0 <= ridge_or_0 D * S0) by (apply Rmult_le_pos; assumption).
    assert (0 <= ridge_or_0 D * S1) by (apply Rmult_le_pos; assumption).
    assert (I0 := Rmult_le_compat_l (1 - s) _ _ ltac:(lra) T0).
    assert (I1 := Rmult_le_compat_l s _ _ ltac:(lra) T1).
    assert (0 <= (1 - s) * (ridge_or_0 D * S0)) by (apply Rmult_le_pos; lra).
    assert (0 <= s * (ridge_or_0 D * S1)) by (apply Rmult_le_pos; lra).
    nra.
  Qed.
End Concave.

(** A stationary point exists in a concrete case: one observation, two rows with
    the same attributes. *)
Example ex_stationary : exists mp, create_long_form_mappings ex_cols None = Ok mp /\
  nonneg_weights ex_cols ex_w /\
  let D := data_of ex_cols mp 1 (fun _ _ => 2) ex_w (Some 1) in
  check_length_of_initial_values KMNL (d_J D) 1 (mkArr 1 (fun _ => 0)) = Ok tt /\
  no_clipping KMNL D (mkArr 1 (fun _ => 0)) /\
  exists g, est_gradient KMNL D (mkArr 1 (fun _ => 0)) = Ok g /\ aget g 0%nat = 0.
Proof.
  eexists. split; [reflexivity|]. split.
  { intros i _. unfold ex_w, eff_weights. destruct (i <? 3)%nat; lra. }
  split; [reflexivity|]. split.
  { intros i Hi. unfold est_utilities. simpl. unfold mnl_transform, sys_utilities, mvec. simpl. lra. }
  set (mp := mkMappings _ _ _ _ _).
  set (D := data_of ex_cols mp 1 (fun _ _ => 2) ex_w (Some 1)).
  destruct (grad_form KMNL D (mkArr 1 (fun _ => 0)) ltac:(cbn; lia) eq_refl) as (g & Eg & _ & G).
  exists g. split; [exact Eg|]. rewrite G by (cbn; lia).
  assert (Hmp : create_long_form_mappings ex_cols None = Ok mp) by reflexivity.
  assert (EX : forall r, long_exponentials (model_of KMNL) D (sh KMNL (d_J D) (mkArr 1 (fun _ => 0)))
       (ic KMNL (d_J D) (mkArr 1 (fun _ => 0))) (be KMNL (d_J D) (d_K D) (mkArr 1 (fun _ => 0))) r = 1).
  { intros r. unfold long_exponentials. cbn [model_of MNL_model m_transform]. unfold mnl_transform, sys_utilities, mvec.
    cbn [D data_of d_K d_X sumn be aslice aget]. rewrite Rmult_0_r, Rplus_0_l.
    rewrite clip_id by (unfold unclipped, min_exponent_val, max_exponent_val; lra). apply exp_0. }
  assert (EP : forall i, (i < 5)%nat -> long_probs (model_of KMNL) D (sh KMNL (d_J D) (mkArr 1 (fun _ => 0)))
       (ic KMNL (d_J D) (mkArr 1 (fun _ => 0))) (be KMNL (d_J D) (d_K D) (mkArr 1 (fun _ => 0))) i
       = / (if (i <? 3)%nat then 3 else 2)).
  { intros i Hi. unfold D. rewrite (probs_closed (model_of KMNL) ex_cols None mp 1 _ _ _ Hmp) by exact Hi.
    fold D. rewrite EX. unfold id_sum. cbn [ex_cols obs_ids length sumn]. rewrite !EX.
    destruct i as [|[|[|[|[|i]]]]]; try lia; cbn; field. }
  assert (EDH : forall i, (i < 5)%nat -> DH KMNL D (mkArr 1 (fun _ => 0)) i 0%nat = 2).
  { intros i Hi. unfold DH. cbn [num_shapes num_icpts kind_iref model_of]. unfold hcat, vcat.
    cbn [Nat.ltb Nat.leb]. rewrite !Nat.sub_0_r. unfold dh_db. cbn [MNL_model m_dh_dv].
    rewrite diag_dot by exact Hi. cbn [D data_of d_X]. ring. }
  change (d_N D) with 5%nat. cbn [sumn]. rewrite !EP, !EDH by lia.
  cbn. field.
Qed.

Print Assumptions C33_stationary_point_is_maximum.
Print Assumptions C33_ridge_maximum_is_unique.
Print Assumptions C33_log_likelihood_concave.
