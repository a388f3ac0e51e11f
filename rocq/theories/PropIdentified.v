(** Property C99: identification of the multinomial logit.  When no combination of the
    variables is constant within every observation, the maximum of the likelihood is unique,
    the Hessian is negative definite and invertible, and the standard errors are positive;
    when one is, none of this holds. *)
From Coq Require Import String ZArith List Reals Lra Lia Arith.
From Coquelicot Require Import Coquelicot.
From Verif Require Import Res Vec Arr SpecLogit ChoiceCalcs ChoiceFacts Transforms Ids Mappings
  MappingFacts LongData LogitFacts RowDeriv HessFacts ProbFacts PropMappings PropProbs PropGradient
  PropHessian PropConcave DefiniteMat.
Import ListNotations.
Open Scope R_scope.

(** ** Specification *)

(** X_i . v *)
Definition index (K : nat) (X : mat) (v : arr) (i : nat) : R := sumn K (fun q => X i q * aget v q).

(** The combination [v] of the variables takes the same value on all rows of every
    observation that has a non-zero weight: it cannot influence the choices. *)
Definition constant_within_observations (d : long_cols) (w : option vec) (K : nat) (X : mat) (v : vec) : Prop :=
  forall i i', (i < length (obs_ids d))%nat -> (i' < length (obs_ids d))%nat ->
    nth i (obs_ids d) 0%Z = nth i' (obs_ids d) 0%Z -> eff_weights w i <> 0 ->
    sumn K (fun q => X i q * v q) = sumn K (fun q => X i' q * v q).

(** Only the zero combination is like that. *)
Definition identified (d : long_cols) (w : option vec) (K : nat) (X : mat) : Prop :=
  forall v, constant_within_observations d w K X v -> forall j, (j < K)%nat -> v j = 0.

(** ** Log-sum-exp is strictly convex up to constants *)
Definition lse_gap (N : nat) (own : nat -> nat) (i : nat) (u u' : vec) : R :=
  let S := osum N own (own i) (fun r => exp (u r)) in
  let S' := osum N own (own i) (fun r => exp (u' r)) in
  ln S' - ln S - osum N own (own i) (fun r => exp (u r) / S * (u' r - u r)).

Lemma lse_gap_nonneg N own i u u' : (i < N)%nat -> 0 <= lse_gap N own i u u'.
Proof. intros Hi. unfold lse_gap. pose proof (log_sum_exp_tangent N own i u u' Hi) as T. cbv zeta in *. lra. Qed.

Lemma osum_eq0_inv N own o f :
  (forall i, (i < N)%nat -> own i = o -> 0 <= f i) -> osum N own o f = 0 ->
  forall i, (i < N)%nat -> own i = o -> f i = 0.
Proof.
  intros Hf H i Hi Ho. unfold osum in H.
  pose proof (sumn_eq0_inv N (fun i => if (own i =? o)%nat then f i else 0)) as E.
  specialize (E ltac:(intros k Hk; cbv beta; destruct (Nat.eqb_spec (own k) o); [apply Hf; assumption|lra]) H i Hi).
  cbv beta in E. rewrite Ho, Nat.eqb_refl in E. exact E.
Qed.

Lemma exp_tangent_eq x : exp x = 1 + x -> x = 0.
Proof. intros H. destruct (Req_dec x 0) as [E|E]; [exact E|]. pose proof (exp_ineq1 x E). lra. Qed.

Lemma lse_gap_zero N own i u u' :
  (i < N)%nat -> lse_gap N own i u u' = 0 ->
  forall r, (r < N)%nat -> own r = own i -> u' r - u r = u' i - u i.
Proof.
  intros Hi H. unfold lse_gap in H.
  set (S := osum N own (own i) (fun r => exp (u r))) in *.
  set (S' := osum N own (own i) (fun r => exp (u' r))) in *.
  assert (HS : 0 < S) by (apply osum_pos; [intros; apply exp_pos|exact Hi]).
  assert (HS' : 0 < S') by (apply osum_pos; [intros; apply exp_pos|exact Hi]).
  set (m := osum N own (own i) (fun r => exp (u r) / S * (u' r - u r))) in *.
  assert (HP1 : osum N own (own i) (fun r => exp (u r) / S) = 1).
  { rewrite osum_div. fold S. field. lra. }
  assert (ES : S' = S * exp m).
  { apply ln_inv; [exact HS'|apply Rmult_lt_0_compat; [exact HS|apply exp_pos]|].
    rewrite ln_mult, ln_exp; [lra|exact HS|apply exp_pos]. }
  assert (E2 : osum N own (own i) (fun r => exp (u r) / S * exp (u' r - u r - m)) = 1).
  { rewrite (osum_ext _ _ _ _ (fun r => exp (u' r) * (exp (- m) / S))).
    - rewrite osum_scal_r. fold S'. rewrite ES, exp_Ropp. pose proof (exp_pos m). field. lra.
    - intros r _ _. replace (u' r - u r - m) with (u' r + - u r + - m) by ring. rewrite !exp_plus, (exp_Ropp (u r)).
      pose proof (exp_pos (u r)). field. lra. }
  assert (E3 : osum N own (own i) (fun r => exp (u r) / S * (exp (u' r - u r - m) - 1 - (u' r - u r - m))) = 0).
  { rewrite (osum_ext _ _ _ _ (fun r => exp (u r) / S * exp (u' r - u r - m) -
       ((1 - m) * (exp (u r) / S) + exp (u r) / S * (u' r - u r)))) by (intros; ring).
    rewrite osum_minus, osum_plus, osum_scal_l, HP1, E2. fold m. ring. }
  assert (Z : forall r, (r < N)%nat -> own r = own i -> u' r - u r = m).
  { intros r Hr Ho.
    assert (Q : forall k, (k < N)%nat -> own k = own i ->
      0 <= exp (u k) / S * (exp (u' k - u k - m) - 1 - (u' k - u k - m))).
    { intros k _ _. apply Rmult_le_pos; [left; apply Rdiv_lt_0_compat; [apply exp_pos|exact HS]|].
      destruct (Req_dec (u' k - u k - m) 0) as [E0|Hne]; [rewrite E0, exp_0; lra|pose proof (exp_ineq1 _ Hne); lra]. }
    pose proof (osum_eq0_inv N own (own i) _ Q E3 r Hr Ho) as Zr.
    cbv beta in Zr. apply Rmult_integral in Zr. destruct Zr as [Zr|Zr].
    - exfalso. assert (0 < exp (u r) / S) by (apply Rdiv_lt_0_compat; [apply exp_pos|exact HS]). lra.
    - assert (u' r - u r - m = 0) by (apply exp_tangent_eq; lra). lra. }
  intros r Hr Ho. rewrite (Z r Hr Ho), (Z i Hi eq_refl). reflexivity.
Qed.

Section Identified.
  Context (d : long_cols) (spec : option nest_spec) (mp : mappings) (K : nat) (X : mat)
          (w : option vec) (ridge : option R).
  Hypothesis Hmp : create_long_form_mappings d spec = Ok mp.
  Hypothesis HK : (0 < K)%nat.
  Hypothesis Hone : exactly_one_choice d.
  Hypothesis Hw : same_weight_within_observation d w.
  Hypothesis Hnn : nonneg_weights d w.
  Let D := data_of d mp K X w ridge.

  (** The second-order expansion of the log-likelihood, with its exact remainder. *)
  Lemma mnl_expansion theta theta' g :
    check_length_of_initial_values KMNL (d_J D) K theta = Ok tt ->
    check_length_of_initial_values KMNL (d_J D) K theta' = Ok tt ->
    no_clipping KMNL D theta -> no_clipping KMNL D theta' ->
    est_gradient KMNL D theta = Ok g ->
    est_log_likelihood KMNL D theta' =
      est_log_likelihood KMNL D theta
      + dot K (aget g) (fun j => aget theta' j - aget theta j)
      - ridge_or_0 D * sumn K (fun j => Rsqr (aget theta' j - aget theta j))
      - sumn (length (obs_ids d)) (fun i => choice_vec d i * eff_weights w i *
          lse_gap (length (obs_ids d)) (own_of (obs_ids d)) i
            (fun r => index K X theta r) (fun r => index K X theta' r)).
  Proof.
    intros Hl Hl' Hc Hc' Eg.
    pose proof (data_obs_indicator d spec mp K X w ridge Hmp) as Hown. fold D in Hown.
    set (own := own_of (obs_ids d)) in *.
    apply check_length_ok in Hl. apply check_length_ok in Hl'. simpl in Hl, Hl'.
    change K with (d_K D) in Hl, Hl'. assert (HKD : (0 < d_K D)%nat) by exact HK.
    assert (HL : alen theta = (num_shapes KMNL (d_J D) + num_icpts KMNL (d_J D) + d_K D)%nat) by exact Hl.
    assert (HL' : alen theta' = (num_shapes KMNL (d_J D) + num_icpts KMNL (d_J D) + d_K D)%nat) by exact Hl'.
    destruct (grad_form KMNL D theta HKD HL) as (g' & E & _ & G).
    rewrite Eg in E. inversion E; subst g'. clear E.
    set (u := utility KMNL D theta). set (u' := utility KMNL D theta').
    set (W := eff_weights (d_w D)) in *.
    assert (Eu : forall th i, alen th = K -> utility KMNL D th i = sumn K (fun q => X i q * aget th q)).
    { intros th i _. unfold utility. cbn. unfold mnl_transform, sys_utilities, mvec. reflexivity. }
    assert (CU : forall th i, alen th = K -> no_clipping KMNL D th -> (i < d_N D)%nat ->
       clip_exponent (utility KMNL D th i) = utility KMNL D th i).
    { intros th i Hth Hcl Hi. apply clip_id. specialize (Hcl i Hi).
      rewrite est_utilities_eq in Hcl; [|exact HK|exact Hth].
      unfold unclipped, min_exponent_val, max_exponent_val. lra. }
    assert (PR : forall th i, alen th = K -> no_clipping KMNL D th -> (i < d_N D)%nat ->
       probs_at KMNL D th i = exp (utility KMNL D th i) / osum (d_N D) own (own i) (fun r => exp (utility KMNL D th r))).
    { intros th i Hth Hcl Hi. unfold probs_at. rewrite (long_probs_eq _ _ _ Hown) by exact Hi.
      assert (EE : forall r, (r < d_N D)%nat -> long_exponentials (model_of KMNL) D (sh KMNL (d_J D) th) (ic KMNL (d_J D) th) (be KMNL (d_J D) (d_K D) th) r
                   = exp (utility KMNL D th r)).
      { intros r Hr. change (exp (clip_exponent (utility KMNL D th r)) = exp (utility KMNL D th r)).
        rewrite CU; auto. }
      rewrite EE by exact Hi. f_equal. apply osum_ext. intros r Hr _. apply EE. exact Hr. }
    assert (LN : forall th i, alen th = K -> no_clipping KMNL D th -> (i < d_N D)%nat ->
       ln (probs_at KMNL D th i) = utility KMNL D th i - ln (osum (d_N D) own (own i) (fun r => exp (utility KMNL D th r)))).
    { intros th i Hth Hcl Hi. rewrite PR by assumption.
      assert (0 < osum (d_N D) own (own i) (fun r => exp (utility KMNL D th r))) by (apply osum_pos; [intros; apply exp_pos|exact Hi]).
      unfold Rdiv. rewrite ln_mult, ln_exp, ln_Rinv; try assumption; try apply exp_pos; [ring|].
      apply Rinv_0_lt_compat. assumption. }
    assert (WC := weight_condition _ own _ W (one_choice_of d Hone) (weights_of d w Hw)).
    destruct (one_choice_of d Hone) as [Y01 _]. fold own in Y01.
    rewrite !est_ll_eq by (try exact HKD; assumption).
    fold (probs_at KMNL D theta). fold (probs_at KMNL D theta'). fold W.
    set (m := fun i => osum (d_N D) own (own i) (fun r => probs_at KMNL D theta r * (u' r - u r))).
    assert (S1 : sumn (d_N D) (fun i => d_y D i * (W i * ln (probs_at KMNL D theta' i)))
              = sumn (d_N D) (fun i => d_y D i * (W i * ln (probs_at KMNL D theta i)))
                 + sumn (d_N D) (fun i => d_y D i * W i * (u' i - u i - m i))
                 - sumn (d_N D) (fun i => d_y D i * W i * lse_gap (d_N D) own i u u')).
    { rewrite <- sumn_plus, <- sumn_minus. apply sumn_ext. intros i Hi.
      rewrite !LN by assumption. fold u u'. unfold lse_gap.
      assert (Em : m i = osum (d_N D) own (own i) (fun r => exp (u r) / osum (d_N D) own (own i) (fun q => exp (u q)) * (u' r - u r))).
      { apply osum_ext. intros r Hr Eo. rewrite PR by assumption. rewrite Eo. reflexivity. }
      rewrite <- Em. ring. }
    assert (S2 : sumn (d_N D) (fun i => d_y D i * W i * (u' i - u i - m i))
              = sumn (d_N D) (fun i => W i * (d_y D i - probs_at KMNL D theta i) * (u' i - u i))).
    { rewrite (sumn_ext (d_N D) (fun i => d_y D i * W i * (u' i - u i - m i))
          (fun i => d_y D i * W i * (u' i - u i) - (d_y D i * W i) * m i)) by (intros; ring).
      rewrite sumn_minus. unfold m.
      rewrite (osum_sym (d_N D) own (fun r => probs_at KMNL D theta r * (u' r - u r)) (fun i => d_y D i * W i)).
      rewrite <- sumn_minus. apply sumn_ext. intros i Hi.
      change (d_y D) with (choice_vec d). change (d_N D) with (length (obs_ids d)) in *.
      rewrite (WC i Hi). ring. }
    assert (S3 : sumn (d_N D) (fun i => W i * (d_y D i - probs_at KMNL D theta i) * (u' i - u i))
              = dot K (aget g) (fun j => aget theta' j - aget theta j)
                + 2 * ridge_or_0 D * sumn K (fun j => aget theta j * (aget theta' j - aget theta j))).
    { unfold dot. rewrite <- sumn_scal_l, <- sumn_plus.
      rewrite (sumn_ext (d_N D) _ (fun i => sumn K (fun j => W i * (d_y D i - probs_at KMNL D theta i) * X i j * (aget theta' j - aget theta j)))).
      2: { intros i Hi. unfold u, u'. rewrite !Eu by assumption. rewrite <- sumn_minus, <- sumn_scal_l.
           apply sumn_ext. intros; ring. }
      rewrite sumn_swap. apply sumn_ext. intros j Hj.
      rewrite G by (rewrite Hl; exact Hj). fold (probs_at KMNL D theta). fold W.
      rewrite sumn_scal_r.
      rewrite (sumn_ext (d_N D) (fun i => W i * (d_y D i - probs_at KMNL D theta i) * DH KMNL D theta i j)
                (fun i => W i * (d_y D i - probs_at KMNL D theta i) * X i j)).
      - ring.
      - intros i Hi. f_equal. unfold DH. cbn [num_shapes num_icpts kind_iref model_of]. unfold hcat, vcat.
        cbn [Nat.ltb Nat.leb]. rewrite !Nat.sub_0_r. unfold dh_db. cbn [MNL_model m_dh_dv].
        rewrite diag_dot by exact Hi. cbn [D data_of d_X]. ring. }
    assert (S4 : asumsq theta' = asumsq theta + 2 * sumn K (fun j => aget theta j * (aget theta' j - aget theta j))
                  + sumn K (fun j => Rsqr (aget theta' j - aget theta j))).
    { unfold asumsq. rewrite Hl, Hl'. change (d_K D) with K. rewrite <- sumn_scal_l, <- !sumn_plus.
      apply sumn_ext. intros j _. unfold Rsqr. ring. }
    rewrite S4. rewrite S2, S3 in S1. rewrite S1.
    change (sumn (length (obs_ids d)) _) with (sumn (d_N D) (fun i => d_y D i * W i * lse_gap (d_N D) own i u u')). lra.
  Qed.


  (** At a stationary point of an identified model every other parameter vector is worse. *)
  Theorem C99_maximum_is_unique theta theta' g :
    nonneg_ridge ridge -> identified d w K X ->
    check_length_of_initial_values KMNL (d_J D) K theta = Ok tt ->
    check_length_of_initial_values KMNL (d_J D) K theta' = Ok tt ->
    no_clipping KMNL D theta -> no_clipping KMNL D theta' ->
    est_gradient KMNL D theta = Ok g -> (forall j, (j < K)%nat -> aget g j = 0) ->
    est_log_likelihood KMNL D theta <= est_log_likelihood KMNL D theta' ->
    forall j, (j < K)%nat -> aget theta' j = aget theta j.
  Proof.
    intros Hr Hid Hl Hl' Hc Hc' Eg Hz Hge j Hj.
    pose proof (mnl_expansion theta theta' g Hl Hl' Hc Hc' Eg) as T.
    assert (E0 : dot K (aget g) (fun j => aget theta' j - aget theta j) = 0).
    { apply sumn_eq0. intros q Hq. rewrite Hz by exact Hq. ring. }
    assert (R0 : 0 <= ridge_or_0 D).
    { unfold ridge_or_0, D, data_of; cbn [d_ridge]. destruct ridge; [exact Hr|lra]. }
    set (S := sumn K (fun j => Rsqr (aget theta' j - aget theta j))) in *.
    assert (HS0 : 0 <= S) by (apply sumn_ge0; intros; apply Rle_0_sqr).
    assert (HRS : 0 <= ridge_or_0 D * S) by (apply Rmult_le_pos; assumption).
    set (N := length (obs_ids d)) in *. set (own := own_of (obs_ids d)) in *.
    destruct (one_choice_of d Hone) as [Y01 Y1]. fold N own in Y01, Y1.
    set (gap := fun i => choice_vec d i * eff_weights w i * lse_gap N own i (fun r => index K X theta r) (fun r => index K X theta' r)) in *.
    assert (G0 : forall i, (i < N)%nat -> 0 <= gap i).
    { intros i Hi. unfold gap. apply Rmult_le_pos; [|apply lse_gap_nonneg; exact Hi].
      apply Rmult_le_pos; [|apply Hnn; exact Hi]. destruct (Y01 i Hi) as [-> | ->]; lra. }
    assert (GS : sumn N gap = 0) by (pose proof (sumn_ge0 N gap G0); lra).
    pose proof (sumn_eq0_inv N gap G0 GS) as GZ.
    assert (V : constant_within_observations d w K X (fun q => aget theta' q - aget theta q)).
    { assert (C : forall i, (i < N)%nat -> eff_weights w i <> 0 -> exists c,
        forall r, (r < N)%nat -> own r = own i -> sumn K (fun q => X r q * (aget theta' q - aget theta q)) = c).
      { intros i Hi Hwi.
        assert (exists k, (k < N)%nat /\ own k = own i /\ choice_vec d k = 1) as (k & Hk & Ok_ & Yk).
        { destruct Hone as (c & Ec & _ & Hex).
          destruct (Hex (nth i (obs_ids d) 0%Z)) as (r & Hr' & Er & Cr & _); [apply nth_In; exact Hi|].
          exists r. split; [exact Hr'|]. split; [apply (own_of_eq (obs_ids d)); assumption|].
          unfold choice_vec. rewrite Ec, Cr. reflexivity. }
        specialize (GZ k Hk). unfold gap in GZ. rewrite Yk in GZ.
        assert (eff_weights w k = eff_weights w i).
        { apply Hw; [exact Hk|exact Hi|]. apply (own_of_eq (obs_ids d)); assumption. }
        assert (Z : lse_gap N own k (fun r => index K X theta r) (fun r => index K X theta' r) = 0).
        { rewrite H in GZ. apply Rmult_integral in GZ. destruct GZ as [GZ|GZ]; [exfalso; lra|exact GZ]. }
        pose proof (lse_gap_zero N own k _ _ Hk Z) as CZ. cbv beta in CZ.
        exists (index K X theta' k - index K X theta k). intros r Hr' Ho.
        rewrite <- (CZ r Hr' ltac:(congruence)). unfold index. rewrite <- sumn_minus. apply sumn_ext. intros; ring. }
      intros i i' Hi Hi' Ei Hwi. destruct (C i Hi Hwi) as (c & Hc0).
      rewrite (Hc0 i Hi eq_refl), (Hc0 i' Hi'); [reflexivity|]. symmetry. apply (own_of_eq (obs_ids d)); assumption. }
    pose proof (Hid _ V j Hj) as E. cbv beta in E. lra.
  Qed.

  (** So two runs that both end at a stationary point report the same estimates. *)
  Theorem C99_estimates_do_not_depend_on_the_start theta theta' g g' :
    nonneg_ridge ridge -> identified d w K X ->
    check_length_of_initial_values KMNL (d_J D) K theta = Ok tt ->
    check_length_of_initial_values KMNL (d_J D) K theta' = Ok tt ->
    no_clipping KMNL D theta -> no_clipping KMNL D theta' ->
    est_gradient KMNL D theta = Ok g -> (forall j, (j < K)%nat -> aget g j = 0) ->
    est_gradient KMNL D theta' = Ok g' -> (forall j, (j < K)%nat -> aget g' j = 0) ->
    forall j, (j < K)%nat -> aget theta' j = aget theta j.
  Proof.
    intros Hr Hid Hl Hl' Hc Hc' Eg Hz Eg' Hz'.
    apply (C99_maximum_is_unique theta theta' g Hr Hid Hl Hl' Hc Hc' Eg Hz).
    exact (C33_stationary_point_is_maximum d spec mp K X w ridge Hmp HK Hone Hw Hnn theta' theta g' Hr Hl' Hl Hc' Hc Eg' Hz').
  Qed.

  Lemma mnl_probs th i :
    check_length_of_initial_values KMNL (d_J D) K th = Ok tt -> no_clipping KMNL D th -> (i < d_N D)%nat ->
    probs_at KMNL D th i =
      exp (index K X th i) / osum (d_N D) (own_of (obs_ids d)) (own_of (obs_ids d) i) (fun r => exp (index K X th r)).
  Proof.
    intros Hl Hc Hi. apply check_length_ok in Hl. cbn in Hl.
    pose proof (data_obs_indicator d spec mp K X w ridge Hmp) as Hown. fold D in Hown.
    unfold probs_at. rewrite (long_probs_eq _ _ _ Hown) by exact Hi.
    assert (EE : forall r, (r < d_N D)%nat -> long_exponentials (model_of KMNL) D (sh KMNL (d_J D) th) (ic KMNL (d_J D) th) (be KMNL (d_J D) (d_K D) th) r
                 = exp (index K X th r)).
    { intros r Hr. change (exp (clip_exponent (index K X th r)) = exp (index K X th r)). f_equal.
      apply clip_id. specialize (Hc r Hr). rewrite est_utilities_eq in Hc; [|exact HK|exact Hl].
      change (min_exponent_val < index K X th r < max_exponent_val) in Hc.
      unfold unclipped. lra. }
    rewrite EE by exact Hi. f_equal. apply osum_ext. intros r Hr _. apply EE. exact Hr.
  Qed.

  (** Conversely, without ridge penalty the log-likelihood is the same at any two parameter
      vectors that differ by a combination of the variables that is constant within every
      observation: no data of this shape can tell them apart. *)
  Theorem C99_unidentified_parameters_are_not_estimable theta theta' :
    ridge = None ->
    check_length_of_initial_values KMNL (d_J D) K theta = Ok tt ->
    check_length_of_initial_values KMNL (d_J D) K theta' = Ok tt ->
    no_clipping KMNL D theta -> no_clipping KMNL D theta' ->
    constant_within_observations d w K X (fun q => aget theta' q - aget theta q) ->
    est_log_likelihood KMNL D theta' = est_log_likelihood KMNL D theta.
  Proof.
    intros Hr Hl Hl' Hc Hc' Hv.
    assert (A := check_length_ok _ _ _ _ Hl). assert (A' := check_length_ok _ _ _ _ Hl'). cbn in A, A'.
    rewrite !est_ll_eq by (try exact HK; assumption).
    fold (probs_at KMNL D theta). fold (probs_at KMNL D theta').
    assert (R0 : ridge_or_0 D = 0) by (unfold ridge_or_0, D, data_of; cbn [d_ridge]; rewrite Hr; reflexivity).
    rewrite R0, !Rmult_0_l. f_equal. apply sumn_ext. intros i Hi.
    change (d_w D) with w. destruct (Req_dec (eff_weights w i) 0) as [->|Hwi]; [ring|].
    f_equal. f_equal. f_equal.
    rewrite (mnl_probs theta' i Hl' Hc' Hi), (mnl_probs theta i Hl Hc Hi).
    set (own := own_of (obs_ids d)).
    assert (E : forall r, (r < d_N D)%nat -> own r = own i ->
      exp (index K X theta' r) = exp (index K X theta r) * exp (index K X theta' i - index K X theta i)).
    { intros r Hr' Ho. rewrite <- exp_plus. f_equal.
      assert (C := Hv r i Hr' Hi).
      assert (Eid : nth r (obs_ids d) 0%Z = nth i (obs_ids d) 0%Z) by (apply (own_of_eq (obs_ids d)); assumption).
      specialize (C Eid). rewrite (Hw r i Hr' Hi Eid) in C. specialize (C Hwi).
      assert (F : forall r, sumn K (fun q => X r q * (aget theta' q - aget theta q)) = index K X theta' r - index K X theta r).
      { intros r0. unfold index. rewrite <- sumn_minus. apply sumn_ext. intros; ring. }
      rewrite !F in C. lra. }
    rewrite (E i Hi eq_refl).
    rewrite (osum_ext _ _ _ (fun r => exp (index K X theta' r)) (fun r => exp (index K X theta r) * exp (index K X theta' i - index K X theta i))) by exact E.
    rewrite osum_scal_r.
    assert (0 < osum (d_N D) own (own i) (fun r => exp (index K X theta r))) by (apply osum_pos; [intros; apply exp_pos|exact Hi]).
    pose proof (exp_pos (index K X theta' i - index K X theta i)). field. lra.
  Qed.
End Identified.

(** ** The Hessian *)
Section Definite.
  Context (d : long_cols) (spec : option nest_spec) (mp : mappings) (K : nat) (X : mat)
          (w : option vec) (ridge : option R).
  Hypothesis Hmp : create_long_form_mappings d spec = Ok mp.
  Hypothesis HK : (0 < K)%nat.
  Hypothesis Hw : same_weight_within_observation d w.
  Let D := data_of d mp K X w ridge.

  Lemma mnl_DH th i q : (i < d_N D)%nat -> DH KMNL D th i q = X i q.
  Proof.
    intros Hi. unfold DH. cbn [num_shapes num_icpts kind_iref model_of MNL_model]. unfold hcat, vcat.
    cbn [Nat.ltb Nat.leb]. rewrite !Nat.sub_0_r. unfold dh_db. cbn [m_dh_dv MNL_model].
    rewrite diag_dot by exact Hi. change (d_X D i q) with (X i q). ring.
  Qed.

  (** At every parameter vector (even where utilities are clipped) the Hessian of an
      identified model, or of any model with a positive ridge penalty, is symmetric and
      negative definite and has an inverse, whose diagonal is negative: all the estimated
      variances are positive. *)
  Theorem C100_hessian_negative_definite theta :
    nonneg_weights d w -> nonneg_ridge ridge ->
    identified d w K X \/ (exists r, ridge = Some r /\ 0 < r) ->
    check_length_of_initial_values KMNL (d_J D) K theta = Ok tt ->
    exists H, est_hessian KMNL D theta = Ok H /\ sqn H = K /\
      symmetric K (sqe H) /\ negdef K (sqe H) /\
      (exists G, is_inverse K (sqe H) G) /\
      (forall G, is_inverse K (sqe H) G -> forall j, (j < K)%nat -> G j j < 0).
  Proof.
    intros Hnn Hr Hid Hlen.
    pose proof (data_obs_indicator d spec mp K X w ridge Hmp) as Hown. fold D in Hown.
    apply check_length_ok in Hlen. cbn in Hlen.
    assert (Hw' : weights_per_observation (d_N D) (own_of (obs_ids d)) (eff_weights (d_w D))) by (apply weights_of; exact Hw).
    destruct (hess_form KMNL D (own_of (obs_ids d)) theta HK Hlen Hown (or_intror Hw')) as (H & EH & LH & FH).
    rewrite Hlen in LH, FH. change (num_shapes KMNL (d_J D) + num_icpts KMNL (d_J D) + d_K D)%nat with K in *.
    set (own := own_of (obs_ids d)) in *. set (P := probs_at KMNL D theta) in *. change (d_w D) with w in *.
    assert (Sy : symmetric K (sqe H)).
    { intros a b Ha Hb. rewrite !FH by assumption. rewrite Qf_sym by exact Hw'.
      unfold ident. rewrite Nat.eqb_sym. reflexivity. }
    assert (Nd : negdef K (sqe H)).
    { intros z (j & Hj & Hz).
      rewrite (quad_ext _ _ (fun a b => - Qf (d_N D) own (eff_weights w) P (fun i => DH KMNL D theta i a) (fun i => DH KMNL D theta i b)
                  + (- (2 * ridge_or_0 D)) * ident a b)).
      2: { intros a b Ha Hb. rewrite FH by assumption. ring. }
      rewrite quad_plus, quad_opp, quad_Qf, quad_ident.
      assert (HP : forall i, (i < d_N D)%nat -> osum (d_N D) own (own i) P = 1).
      { intros i Hi. apply (long_probs_sum _ _ _ Hown). exact Hi. }
      assert (PP : forall i, (i < d_N D)%nat -> 0 < P i) by (intros i Hi; apply (long_probs_pos _ _ _ Hown); exact Hi).
      rewrite (Qf_square _ _ _ _ _ Hw' HP).
      set (gz := fun i => sumn K (fun a => z a * DH KMNL D theta i a)).
      set (mean := fun i => osum (d_N D) own (own i) (fun k => P k * gz k)).
      change (- sumn (d_N D) (fun i => eff_weights w i * P i * Rsqr (gz i - mean i)) + - (2 * ridge_or_0 D) * sumn K (fun a => Rsqr (z a)) < 0).
      set (S2 := sumn K (fun a => Rsqr (z a))).
      assert (T1 : forall i, (i < d_N D)%nat -> 0 <= eff_weights w i * P i * Rsqr (gz i - mean i)).
      { intros i Hi. apply Rmult_le_pos; [|apply Rle_0_sqr].
        apply Rmult_le_pos; [apply Hnn; exact Hi|]. left. apply PP. exact Hi. }
      pose proof (sumn_ge0 (d_N D) _ T1) as HS1.
      assert (HS2 : 0 < S2).
      { unfold S2. apply (sumn_pos K _ j); [intros; apply Rle_0_sqr|exact Hj|apply Rlt_0_sqr; exact Hz]. }
      assert (R0 : 0 <= ridge_or_0 D).
      { unfold ridge_or_0, D, data_of; cbn [d_ridge]. destruct ridge; [exact Hr|lra]. }
      destruct Hid as [Hid|(r & Er & Hrp)].
      - assert (HS1' : sumn (d_N D) (fun i => eff_weights w i * P i * Rsqr (gz i - mean i)) <> 0).
        { intros E0. pose proof (sumn_eq0_inv (d_N D) _ T1 E0) as Z. cbv beta in Z.
          apply Hz. apply (Hid z); [|exact Hj]. intros i i' Hi Hi' Eid Hwi.
          assert (Eo : own i = own i') by (apply (own_of_eq (obs_ids d)); assumption).
          assert (Hwi' : eff_weights w i' <> 0) by (rewrite <- (Hw i i' Hi Hi' Eid); exact Hwi).
          assert (C : forall k, (k < d_N D)%nat -> eff_weights w k <> 0 -> gz k = mean k).
          { intros k Hk Hwk. specialize (Z k Hk). specialize (PP k Hk).
            apply Rmult_integral in Z. destruct Z as [Z|Z].
            - apply Rmult_integral in Z. destruct Z; [contradiction|lra].
            - apply Rsqr_0_uniq in Z. lra. }
          assert (Eg : forall k, (k < d_N D)%nat -> sumn K (fun q => X k q * z q) = gz k).
          { intros k Hk. unfold gz. apply sumn_ext. intros q _. rewrite mnl_DH by exact Hk. ring. }
          rewrite (Eg i Hi), (Eg i' Hi'), (C i Hi Hwi), (C i' Hi' Hwi'). unfold mean. rewrite Eo. reflexivity. }
        assert (0 <= ridge_or_0 D * S2) by (apply Rmult_le_pos; lra). lra.
      - assert (ridge_or_0 D = r) by (unfold ridge_or_0, D, data_of; cbn [d_ridge]; rewrite Er; reflexivity).
        assert (0 < ridge_or_0 D * S2) by (apply Rmult_lt_0_compat; lra). lra. }
    exists H. split; [exact EH|]. split; [exact LH|]. split; [exact Sy|]. split; [exact Nd|].
    split; [apply negdef_inverse; assumption|].
    intros G [HG _] j Hj. exact (negdef_inverse_diag K (sqe H) G j Nd HG Hj).
  Qed.

  (** Without identification and without penalty the Hessian has no inverse, anywhere. *)
  Theorem C100_unidentified_hessian_is_singular theta v j :
    ridge = None -> constant_within_observations d w K X v -> (j < K)%nat -> v j <> 0 ->
    check_length_of_initial_values KMNL (d_J D) K theta = Ok tt ->
    exists H, est_hessian KMNL D theta = Ok H /\ sqn H = K /\
      (forall i, (i < K)%nat -> sumn K (fun q => sqe H i q * v q) = 0) /\
      forall G, ~ is_inverse K (sqe H) G.
  Proof.
    intros Hr Hv Hj Hvj Hlen.
    pose proof (data_obs_indicator d spec mp K X w ridge Hmp) as Hown. fold D in Hown.
    apply check_length_ok in Hlen. cbn in Hlen.
    assert (Hw' : weights_per_observation (d_N D) (own_of (obs_ids d)) (eff_weights (d_w D))) by (apply weights_of; exact Hw).
    destruct (hess_form KMNL D (own_of (obs_ids d)) theta HK Hlen Hown (or_intror Hw')) as (H & EH & LH & FH).
    rewrite Hlen in LH, FH. change (num_shapes KMNL (d_J D) + num_icpts KMNL (d_J D) + d_K D)%nat with K in *.
    set (own := own_of (obs_ids d)) in *. set (P := probs_at KMNL D theta) in *. change (d_w D) with w in *.
    assert (R0 : ridge_or_0 D = 0) by (unfold ridge_or_0, D, data_of; cbn [d_ridge]; rewrite Hr; reflexivity).
    assert (Z : forall i, (i < K)%nat -> sumn K (fun q => sqe H i q * v q) = 0).
    { intros i Hi.
      rewrite (sumn_ext K _ (fun q => -1 * (v q * Qf (d_N D) own (eff_weights w) P (fun r => DH KMNL D theta r i) (fun r => DH KMNL D theta r q)))).
      2: { intros q Hq. rewrite FH by assumption. rewrite R0. ring. }
      rewrite sumn_scal_l, Qf_sum_r. unfold Qf.
      set (gz := fun r => sumn K (fun a => v a * DH KMNL D theta r a)).
      assert (HP : forall i, (i < d_N D)%nat -> osum (d_N D) own (own i) P = 1).
      { intros k Hk. apply (long_probs_sum _ _ _ Hown). exact Hk. }
      enough (E : sumn (d_N D) (fun r => eff_weights w r * P r * DH KMNL D theta r i * gz r) =
        sumn (d_N D) (fun r => eff_weights w r * P r * DH KMNL D theta r i * osum (d_N D) own (own r) (fun k => P k * gz k))).
      { apply Rminus_diag_eq in E. unfold gz in E. cbv beta in E. rewrite E. ring. }
      apply sumn_ext. intros r Hr'. destruct (Req_dec (eff_weights w r) 0) as [->|Hwr]; [ring|].
      f_equal.
      rewrite (osum_ext _ _ _ (fun k => P k * gz k) (fun k => P k * gz r)).
      - rewrite osum_scal_r, HP by exact Hr'. ring.
      - intros k Hk Ho. f_equal.
        assert (Eid : nth k (obs_ids d) 0%Z = nth r (obs_ids d) 0%Z) by (apply (own_of_eq (obs_ids d)); assumption).
        assert (Eg : forall k, (k < d_N D)%nat -> gz k = sumn K (fun q => X k q * v q)).
        { intros k' Hk'. unfold gz. apply sumn_ext. intros q _. rewrite mnl_DH by exact Hk'. ring. }
        rewrite (Eg k Hk), (Eg r Hr'). apply Hv; [exact Hk|exact Hr'|exact Eid|].
        rewrite (Hw k r Hk Hr' Eid). exact Hwr. }
    exists H. split; [exact EH|]. split; [exact LH|]. split; [exact Z|].
    intros G. apply (singular_no_inverse K (sqe H) v j G); assumption.
  Qed.
End Definite.

(** ** Cases *)

(** One variable that takes the values 0, 1, 2 in the first observation, where the middle
    row is chosen: the model is identified and zero is a stationary point. *)
Definition ladder : mat := fun i _ => match i with 0%nat => 0 | 1%nat => 1 | 2%nat => 2 | _ => 5 end.

Example ex_identified : identified ex_cols None 1 ladder.
Proof.
  intros v Hv j Hj. assert (j = 0%nat) by lia. subst j.
  specialize (Hv 0%nat 1%nat ltac:(cbn; lia) ltac:(cbn; lia) eq_refl). cbn in Hv. lra.
Qed.

Example ex_identified_stationary : exists mp, create_long_form_mappings ex_cols None = Ok mp /\
  nonneg_weights ex_cols None /\ same_weight_within_observation ex_cols None /\
  let D := data_of ex_cols mp 1 ladder None None in
  check_length_of_initial_values KMNL (d_J D) 1 (mkArr 1 (fun _ => 0)) = Ok tt /\
  no_clipping KMNL D (mkArr 1 (fun _ => 0)) /\
  exists g, est_gradient KMNL D (mkArr 1 (fun _ => 0)) = Ok g /\ aget g 0%nat = 0.
Proof.
  eexists. split; [reflexivity|]. split.
  { intros i _. cbn. lra. }
  split; [intros i j _ _ _; reflexivity|].
  split; [reflexivity|].
  set (mp := mkMappings _ _ _ _ _). set (D := data_of ex_cols mp 1 ladder None None).
  assert (Hmp : create_long_form_mappings ex_cols None = Ok mp) by reflexivity.
  assert (Hc : no_clipping KMNL D (mkArr 1 (fun _ => 0))).
  { intros i Hi. unfold est_utilities. simpl. unfold mnl_transform, sys_utilities, mvec. simpl. lra. }
  split; [exact Hc|].
  destruct (grad_form KMNL D (mkArr 1 (fun _ => 0)) ltac:(cbn; lia) eq_refl) as (g & Eg & _ & G).
  exists g. split; [exact Eg|]. rewrite G by (cbn; lia).
  fold (probs_at KMNL D (mkArr 1 (fun _ => 0))).
  assert (EP : forall i, (i < 5)%nat -> probs_at KMNL D (mkArr 1 (fun _ => 0)) i = / (if (i <? 3)%nat then 3 else 2)).
  { intros i Hi. unfold D. rewrite (mnl_probs ex_cols None mp 1 ladder None None Hmp ltac:(lia)) by (first [exact Hc | exact Hi | reflexivity]).
    assert (EX : forall r, exp (index 1 ladder (mkArr 1 (fun _ => 0)) r) = 1).
    { intros r. unfold index. cbn [sumn aget]. rewrite Rmult_0_r, Rplus_0_l. apply exp_0. }
    rewrite EX. unfold osum. cbn [data_of d_N ex_cols obs_ids length sumn]. rewrite !EX.
    destruct i as [|[|[|[|[|i]]]]]; try lia; cbn; field. }
  change (d_N D) with 5%nat. cbn [sumn]. rewrite !EP by lia.
  unfold D. rewrite !(mnl_DH ex_cols mp 1 ladder None None) by (cbn; lia).
  cbn. field.
Qed.

(** A constant for every one of the three alternatives: adding the same number to all
    three changes nothing. *)
Definition all_constants : mat := fun i q =>
  if (nth i (alt_ids ex_cols) 0 =? nth q [10; 20; 30]%Z 0)%Z then 1 else 0.
Example ex_all_constants : constant_within_observations ex_cols None 3 all_constants (fun _ => 1).
Proof.
  intros i i' Hi Hi' _ _. cbn in Hi, Hi'.
  assert (E : forall i, (i < 5)%nat -> sumn 3 (fun q => all_constants i q * 1) = 1).
  { intros k Hk. destruct k as [|[|[|[|[|k]]]]]; try lia; cbn; ring. }
  rewrite (E i Hi), (E i' Hi'). reflexivity.
Qed.

Print Assumptions C99_maximum_is_unique.
Print Assumptions C99_estimates_do_not_depend_on_the_start.
Print Assumptions C99_unidentified_parameters_are_not_estimable.
Print Assumptions C100_hessian_negative_definite.
Print Assumptions C100_unidentified_hessian_is_singular.
