(** Properties C31, C32, C34, C35, C36: Hessian, BHHH matrix, robust covariance. *)
From Coq Require Import String ZArith List Reals Lra Lia Arith.
From Coquelicot Require Import Coquelicot.
From Verif Require Import Res Vec Arr SpecLogit ChoiceCalcs ChoiceFacts Transforms Ids Mappings
  MappingFacts LongData LogitFacts RowDeriv HessFacts ProbFacts PropMappings PropProbs PropGradient
  PropGradientLimits.
Import ListNotations.
Open Scope R_scope.

(** ** Derivatives of the probabilities *)
Lemma is_derive_prob N own (u : nat -> R -> R) (du : nat -> R) t0 i :
  (i < N)%nat ->
  (forall k, (k < N)%nat -> is_derive (u k) t0 (du k)) ->
  let P := fun k => exp (u k t0) / osum N own (own i) (fun r => exp (u r t0)) in
  is_derive (fun t => exp (u i t) / osum N own (own i) (fun k => exp (u k t))) t0
    (P i * (du i - osum N own (own i) (fun k => P k * du k))).
Proof.
  intros Hi Hu P.
  assert (Dpos : forall t, 0 < osum N own (own i) (fun k => exp (u k t))).
  { intros t. apply osum_pos; [|exact Hi]. intros. apply exp_pos. }
  assert (HL := is_derive_log_prob N own u du t0 i Hi Hu).
  apply is_derive_ext with (f := fun t => exp (ln (exp (u i t) / osum N own (own i) (fun k => exp (u k t))))).
  { intros t. apply exp_ln. apply Rdiv_lt_0_compat; [apply exp_pos|apply Dpos]. }
  evar_last.
  - apply (is_derive_comp exp _ t0 _ _ (is_derive_exp _) HL).
  - rewrite exp_ln by (apply Rdiv_lt_0_compat; [apply exp_pos|apply Dpos]).
    unfold scal; simpl; unfold mult; simpl. unfold P. ring.
Qed.

Lemma probs_at_derive k D own th b i :
  indicator_of (d_N D) (d_obs D) (d_M D) own ->
  (forall r, (r < d_N D)%nat -> strictly_unclipped (utility k D th r)) ->
  (forall r, (r < d_N D)%nat ->
     is_derive (fun t => utility k D (aupd th b t) r) (aget th b) (DH k D th r b)) ->
  (i < d_N D)%nat ->
  is_derive (fun t => probs_at k D (aupd th b t) i) (aget th b)
    (probs_at k D th i * (DH k D th i b - osum (d_N D) own (own i) (fun r => probs_at k D th r * DH k D th r b))).
Proof.
  intros Hown Hu Hd Hi.
  set (u := fun r t => clip_exponent (utility k D (aupd th b t) r)).
  assert (E : forall t r, (r < d_N D)%nat -> probs_at k D (aupd th b t) r
     = exp (u r t) / osum (d_N D) own (own r) (fun q => exp (u q t))).
  { intros t r Hr. unfold probs_at. rewrite (long_probs_eq _ _ _ Hown) by exact Hr. reflexivity. }
  apply is_derive_ext with (f := fun t => exp (u i t) / osum (d_N D) own (own i) (fun q => exp (u q t))).
  { intros t. symmetry. apply E. exact Hi. }
  assert (E0 : forall r, (r < d_N D)%nat -> own r = own i ->
     probs_at k D th r = exp (u r (aget th b)) / osum (d_N D) own (own i) (fun q => exp (u q (aget th b)))).
  { intros r Hr Eo. rewrite <- (aupd_id th b) at 1. rewrite E by exact Hr. rewrite Eo. reflexivity. }
  rewrite E0 by (try exact Hi; reflexivity).
  rewrite (osum_ext _ _ _ (fun r => probs_at k D th r * DH k D th r b) (fun r => exp (u r (aget th b)) / osum (d_N D) own (own i) (fun q => exp (u q (aget th b))) * DH k D th r b)).
  2: { intros r Hr Eo. rewrite E0 by assumption. reflexivity. }
  apply (is_derive_prob (d_N D) own u (fun r => DH k D th r b)); [exact Hi|].
  intros r Hr. apply is_derive_clip; [apply Hd; exact Hr|]. rewrite aupd_id. apply Hu. exact Hr.
Qed.

Lemma est_long_probs_eq k D th :
  (0 < d_K D)%nat -> alen th = (num_shapes k (d_J D) + num_icpts k (d_J D) + d_K D)%nat ->
  est_long_probs k D th = probs_at k D th.
Proof. intros HK HL. unfold est_long_probs. rewrite split_eq by assumption. reflexivity. Qed.

(** ** Specification *)

(** Entry (a,b) of the estimator's Hessian is the partial derivative, in
    parameter b, of component a of the estimator's gradient. *)
Definition hessian_is_derivative (k : logit_kind) (D : Data) (theta : arr) : Prop :=
  exists H, est_hessian k D theta = Ok H /\ sqn H = alen theta /\
    forall b, (b < alen theta)%nat ->
      exists grad_along : R -> arr,
        (forall t, est_gradient k D (aupd theta b t) = Ok (grad_along t)) /\
        forall a, (a < alen theta)%nat ->
          is_derive (fun t => aget (grad_along t) a) (aget theta b) (sqe H a b).

(** ** C31: multinomial logit.  Any weights, any choice column. *)
Theorem C31_mnl_hessian d spec mp K X w ridge theta :
  create_long_form_mappings d spec = Ok mp -> (0 < K)%nat ->
  let D := data_of d mp K X w ridge in
  check_length_of_initial_values KMNL (d_J D) K theta = Ok tt ->
  no_clipping KMNL D theta ->
  hessian_is_derivative KMNL D theta.
Proof.
  intros Hmp HK D Hlen Hclip.
  pose proof (data_obs_indicator d spec mp K X w ridge Hmp) as Hown. fold D in Hown.
  apply check_length_ok in Hlen. simpl in Hlen. change K with (d_K D) in Hlen, HK.
  destruct (hess_form KMNL D (own_of (obs_ids d)) theta HK Hlen Hown (or_introl eq_refl)) as (H & EH & LH & FH).
  exists H. split; [exact EH|]. split; [exact LH|]. intros b Hb.
  assert (HLt : forall t, alen (aupd theta b t) = (num_shapes KMNL (d_J D) + num_icpts KMNL (d_J D) + d_K D)%nat)
    by (intros t; exact Hlen).
  set (ga := fun t => match est_gradient KMNL D (aupd theta b t) with Ok g => g | Err _ => theta end).
  assert (Ega : forall t, est_gradient KMNL D (aupd theta b t) = Ok (ga t)).
  { intros t. unfold ga. destruct (grad_form KMNL D (aupd theta b t) HK (HLt t)) as (g & E & _). rewrite E. reflexivity. }
  exists ga. split; [exact Ega|]. intros a Ha.
  assert (EDH : forall th i q, (i < d_N D)%nat -> DH KMNL D th i q = d_X D i q).
  { intros th i q Hi. unfold DH. cbn [num_shapes num_icpts kind_iref model_of MNL_model]. unfold hcat, vcat.
    cbn [Nat.ltb Nat.leb]. rewrite !Nat.sub_0_r. unfold dh_db. cbn [m_dh_dv MNL_model].
    rewrite diag_dot by exact Hi. ring. }
  set (own := own_of (obs_ids d)) in *. set (W := eff_weights (d_w D)).
  apply is_derive_ext with (f := fun t =>
    sumn (d_N D) (fun i => W i * (d_y D i - probs_at KMNL D (aupd theta b t) i) * d_X D i a)
    - 2 * ridge_or_0 D * upd (aget theta) b t a).
  { intros t. destruct (grad_form KMNL D (aupd theta b t) HK (HLt t)) as (g & E & _ & G).
    rewrite Ega in E. inversion E; subst g. rewrite G by exact Ha. eqR. f_equal.
    apply sumn_ext. intros i Hi. rewrite EDH by exact Hi. reflexivity. }
  rewrite FH by assumption.
  assert (HU : forall r, (r < d_N D)%nat -> strictly_unclipped (utility KMNL D theta r)).
  { intros r Hr. specialize (Hclip r Hr). rewrite est_utilities_eq in Hclip by assumption. exact Hclip. }
  assert (HD : forall r, (r < d_N D)%nat ->
     is_derive (fun t => utility KMNL D (aupd theta b t) r) (aget theta b) (DH KMNL D theta r b)).
  { intros r Hr. rewrite EDH by exact Hr. unfold utility. cbn [model_of MNL_model m_transform].
    unfold mnl_transform, sys_utilities, mvec, be. cbn [num_shapes num_icpts kind_iref aslice aget Nat.add aupd].
    apply is_derive_dot_upd. change (d_K D) with K. cbn in Hlen. lia. }
  evar_last.
  - apply (is_derive_minus (K := R_AbsRing) (V := R_NormedModule)).
    + apply (is_derive_sumn (d_N D)
         (fun i t => W i * (d_y D i - probs_at KMNL D (aupd theta b t) i) * d_X D i a)
         (fun i => W i * (0 - probs_at KMNL D theta i * (DH KMNL D theta i b
             - osum (d_N D) own (own i) (fun r => probs_at KMNL D theta r * DH KMNL D theta r b))) * d_X D i a)).
      intros i Hi.
      pose proof (probs_at_derive KMNL D own theta b i Hown HU HD Hi) as Hp.
      assert (Hq := is_derive_minus (K := R_AbsRing) (V := R_NormedModule) (fun _ => d_y D i) _ _ _ _
                 (is_derive_const (K := R_AbsRing) (V := R_NormedModule) (d_y D i) (aget theta b)) Hp).
      assert (Hs := is_derive_scal _ _ (W i * d_X D i a) _ Hq).
      eapply is_derive_ext; [|evar_last; [exact Hs|]].
      * intros t. cbv beta. unfold minus, plus, opp, mult, scal; simpl. eqR. ring.
      * unfold minus, plus, opp, mult, scal, zero; simpl. ring.
    + apply (is_derive_scal (fun t => upd (aget theta) b t a)). apply is_derive_upd.
  - match goal with |- minus ?x ?y = ?z => change (x - y = z) end. unfold Qf, ident. fold W.
    rewrite (sumn_ext (d_N D)
      (fun i => W i * (0 - probs_at KMNL D theta i * (DH KMNL D theta i b
             - osum (d_N D) own (own i) (fun r => probs_at KMNL D theta r * DH KMNL D theta r b))) * d_X D i a)
      (fun i => - (W i * probs_at KMNL D theta i * DH KMNL D theta i a * DH KMNL D theta i b
       - W i * probs_at KMNL D theta i * DH KMNL D theta i a *
         osum (d_N D) own (own i) (fun r => probs_at KMNL D theta r * DH KMNL D theta r b)))).
    2: { intros i Hi. rewrite (EDH theta i a) by exact Hi. ring. }
    rewrite sumn_opp, sumn_minus. destruct (a =? b)%nat; ring.
Qed.

(** ** C32: symmetry and negative semidefiniteness *)
Definition nonneg_ridge (ridge : option R) : Prop := match ridge with Some r => 0 <= r | None => True end.
Definition nonneg_weights (d : long_cols) (w : option vec) : Prop :=
  forall i, (i < length (obs_ids d))%nat -> 0 <= eff_weights w i.

Theorem C32_hessian_symmetric_nsd k d spec mp K X w ridge theta :
  create_long_form_mappings d spec = Ok mp -> (0 < K)%nat ->
  same_weight_within_observation d w ->
  let D := data_of d mp K X w ridge in
  kind_ok k (d_J D) ->
  check_length_of_initial_values k (d_J D) K theta = Ok tt ->
  exists H, est_hessian k D theta = Ok H /\ sqn H = alen theta /\
    symmetric (alen theta) (sqe H) /\
    (nonneg_weights d w -> nonneg_ridge ridge -> nsd (alen theta) (sqe H)).
Proof.
  intros Hmp HK Hw D Hok Hlen.
  pose proof (data_obs_indicator d spec mp K X w ridge Hmp) as Hown. fold D in Hown.
  apply check_length_ok in Hlen. rewrite dims_eq in Hlen by exact Hok. change K with (d_K D) in Hlen, HK.
  assert (Hw' : weights_per_observation (d_N D) (own_of (obs_ids d)) (eff_weights (d_w D))) by (apply weights_of; exact Hw).
  destruct (hess_form k D (own_of (obs_ids d)) theta HK Hlen Hown (or_intror Hw')) as (H & EH & LH & FH).
  exists H. split; [exact EH|]. split; [exact LH|]. split.
  - intros a b Ha Hb. rewrite !FH by assumption. rewrite Qf_sym by exact Hw'.
    unfold ident. rewrite Nat.eqb_sym. reflexivity.
  - intros Hnn Hr z.
    set (own := own_of (obs_ids d)) in *. set (P := probs_at k D theta) in *. set (W := eff_weights (d_w D)) in *.
    rewrite (quad_ext _ _ (fun a b => - Qf (d_N D) own W P (fun i => DH k D theta i a) (fun i => DH k D theta i b)
                + (- (2 * ridge_or_0 D)) * ident a b)).
    2: { intros a b Ha Hb. rewrite FH by assumption. ring. }
    rewrite quad_plus, quad_opp, quad_Qf, quad_ident.
    assert (HP : forall i, (i < d_N D)%nat -> osum (d_N D) own (own i) P = 1).
    { intros i Hi. apply (long_probs_sum _ _ _ Hown). exact Hi. }
    rewrite (Qf_square _ _ _ _ _ Hw' HP).
    set (S1 := sumn (d_N D) _). set (S2 := sumn (alen theta) _).
    assert (0 <= S1).
    { apply sumn_ge0. intros i Hi. apply Rmult_le_pos; [|apply Rle_0_sqr].
      apply Rmult_le_pos; [apply Hnn; exact Hi|]. left. apply (long_probs_pos _ _ _ Hown). exact Hi. }
    assert (0 <= S2) by (apply sumn_ge0; intros; apply Rle_0_sqr).
    assert (0 <= ridge_or_0 D).
    { unfold ridge_or_0, D, data_of; cbn [d_ridge]. destruct ridge; [exact Hr|lra]. }
    nra.
Qed.

(** ** C34: what calc_hessian computes for every model: the second derivative with
    the curvature of the utilities left out. *)
Theorem C34_hessian_is_first_order_part k d spec mp K X w ridge theta H a b (dP dh : vec) :
  create_long_form_mappings d spec = Ok mp ->
  length (alt_ids d) = length (obs_ids d) -> (0 < K)%nat ->
  same_weight_within_observation d w ->
  let D := data_of d mp K X w ridge in
  kind_ok k (d_J D) ->
  check_length_of_initial_values k (d_J D) K theta = Ok tt ->
  no_clipping k D theta ->
  (forall i, (i < d_N D)%nat -> regular k (est_index k D theta i)) ->
  est_hessian k D theta = Ok H -> (a < alen theta)%nat -> (b < alen theta)%nat ->
  (* dP: derivatives of the probabilities in parameter b *)
  (forall i, (i < d_N D)%nat ->
     is_derive (fun t => est_long_probs k D (aupd theta b t) i) (aget theta b) (dP i)) ->
  (* dh: derivatives of the transformed utilities in parameter a *)
  (forall i, (i < d_N D)%nat ->
     is_derive (fun t => est_utilities k D (aupd theta a t) i) (aget theta a) (dh i)) ->
  sqe H a b = - sumn (d_N D) (fun i => eff_weights w i * dP i * dh i)
              - (if (a =? b)%nat then 2 * ridge_or_0 D else 0).
Proof.
  intros Hmp HL HK Hw D Hok Hlen Hclip Hreg EH Ha Hb HdP Hdh.
  pose proof (data_obs_indicator d spec mp K X w ridge Hmp) as Hown. fold D in Hown.
  pose proof (data_alt_indicator d spec mp K X w ridge Hmp HL) as Halt. fold D in Halt.
  apply check_length_ok in Hlen. rewrite dims_eq in Hlen by exact Hok. change K with (d_K D) in Hlen, HK.
  assert (Hw' : weights_per_observation (d_N D) (own_of (obs_ids d)) (eff_weights (d_w D))) by (apply weights_of; exact Hw).
  destruct (hess_form k D (own_of (obs_ids d)) theta HK Hlen Hown (or_intror Hw')) as (H' & EH' & LH & FH).
  rewrite EH in EH'. inversion EH'; subst H'. rewrite FH by assumption. clear EH'.
  set (own := own_of (obs_ids d)) in *. set (P := probs_at k D theta) in *.
  change (eff_weights w) with (eff_weights (d_w D)). set (W := eff_weights (d_w D)) in *.
  assert (HU : forall r, (r < d_N D)%nat -> strictly_unclipped (utility k D theta r)).
  { intros r Hr. specialize (Hclip r Hr). rewrite est_utilities_eq in Hclip by assumption. exact Hclip. }
  assert (HD : forall j r, (j < alen theta)%nat -> (r < d_N D)%nat ->
     is_derive (fun t => utility k D (aupd theta j t) r) (aget theta j) (DH k D theta r j)).
  { intros j r Hj Hr. apply (row_derivative k D (alt_of (alt_ids d)) Hok HK Halt); try assumption.
    rewrite <- est_index_eq by assumption. apply Hreg. exact Hr. }
  assert (E1 : forall i, (i < d_N D)%nat -> dh i = DH k D theta i a).
  { intros i Hi. specialize (Hdh i Hi). apply is_derive_unique in Hdh. rewrite <- Hdh.
    rewrite (Derive_ext _ (fun t => utility k D (aupd theta a t) i)).
    - apply is_derive_unique. apply HD; assumption.
    - intros t. rewrite est_utilities_eq; [reflexivity|exact HK|exact Hlen]. }
  assert (E2 : forall i, (i < d_N D)%nat ->
     dP i = P i * (DH k D theta i b - osum (d_N D) own (own i) (fun r => P r * DH k D theta r b))).
  { intros i Hi. specialize (HdP i Hi). apply is_derive_unique in HdP. rewrite <- HdP.
    rewrite (Derive_ext _ (fun t => probs_at k D (aupd theta b t) i)).
    - apply is_derive_unique. apply (probs_at_derive k D own theta b i Hown HU); [|exact Hi].
      intros r Hr. apply HD; assumption.
    - intros t. rewrite est_long_probs_eq; [reflexivity|exact HK|exact Hlen]. }
  unfold Qf, ident.
  rewrite (sumn_ext (d_N D) (fun i => W i * dP i * dh i)
     (fun i => W i * P i * DH k D theta i a * DH k D theta i b
       - W i * P i * DH k D theta i a * osum (d_N D) own (own i) (fun r => P r * DH k D theta r b))).
  2: { intros i Hi. rewrite E1, E2 by exact Hi. ring. }
  rewrite sumn_minus. destruct (a =? b)%nat; ring.
Qed.

(** ** C35: the BHHH matrix *)

(** The gradient contributed by observation [o]: all other observations have
    weight 0 and there is no penalty. *)
Definition observation_gradient (k : logit_kind) (d : long_cols) (mp : mappings) (K : nat) (X : mat)
    (theta : arr) (o : Z) : Res arr :=
  est_gradient k (data_of d mp K X (Some (fun i => if (nth i (obs_ids d) 0%Z =? o)%Z then 1 else 0)) None) theta.

Lemma maxn_eq n f c :
  (forall i, (i < n)%nat -> f i <= c) -> (exists i, (i < n)%nat /\ f i = c) -> maxn n f = c.
Proof.
  assert (UB : forall q, (forall i, (i < q)%nat -> f i <= c) -> (0 < q)%nat -> maxn q f <= c).
  { induction q as [|m IH]; intros H Hn; [lia|]. destruct m as [|m]; [apply H; lia|].
    cbn [maxn]. apply Rmax_lub; [|apply H; lia]. apply IH; [intros; apply H; lia|lia]. }
  assert (LB : forall q i, (i < q)%nat -> f i <= maxn q f).
  { induction q as [|m IH]; intros i Hi; [lia|]. destruct m as [|m].
    - assert (i = 0)%nat by lia. subst. cbn. lra.
    - cbn [maxn]. destruct (Nat.eq_dec i (S m)) as [->|Hne]; [apply Rmax_r|].
      apply Rle_trans with (maxn (S m) f); [apply IH; lia|apply Rmax_l]. }
  intros H (i & Hi & E). apply Rle_antisym; [apply UB; [exact H|lia]|]. rewrite <- E. apply LB. exact Hi.
Qed.

Section Bhhh.
  Context (k : logit_kind) (d : long_cols) (spec : option nest_spec) (mp : mappings) (K : nat) (X : mat)
          (w : option vec) (theta : arr).
  Hypothesis Hmp : create_long_form_mappings d spec = Ok mp.
  Hypothesis HK : (0 < K)%nat.
  Let D ridge := data_of d mp K X w ridge.
  Hypothesis Hok : kind_ok k (d_J (D None)).
  Hypothesis Hlen : check_length_of_initial_values k (d_J (D None)) K theta = Ok tt.

  Let Hlen' : alen theta = (num_shapes k (d_J (D None)) + num_icpts k (d_J (D None)) + d_K (D None))%nat.
  Proof. apply check_length_ok in Hlen. rewrite dims_eq in Hlen by exact Hok. exact Hlen. Qed.

  Lemma observation_gradient_eq j :
    (j < length (first_seen (obs_ids d)))%nat ->
    exists g, observation_gradient k d mp K X theta (nth j (first_seen (obs_ids d)) 0%Z) = Ok g /\
      alen g = alen theta /\
      forall a, (a < alen theta)%nat ->
        aget g a = osum (length (obs_ids d)) (own_of (obs_ids d)) j
                     (fun i => (choice_vec d i - probs_at k (D None) theta i) * DH k (D None) theta i a).
  Proof.
    intros Hj. unfold observation_gradient. set (w1 := Some _). set (D1 := data_of d mp K X w1 None).
    destruct (grad_form k D1 theta HK Hlen') as (g & E & L & G).
    exists g. split; [exact E|]. split; [exact L|]. intros a Ha. rewrite G by exact Ha.
    rewrite osum_column by exact Hj. unfold id_sum. change (ridge_or_0 D1) with 0.
    rewrite Rmult_0_r, Rmult_0_l, Rminus_0_r. apply sumn_ext. intros i Hi.
    change (DH k D1 theta i a) with (DH k (D None) theta i a).
    change (long_probs (model_of k) D1 (sh k (d_J D1) theta) (ic k (d_J D1) theta) (be k (d_J D1) (d_K D1) theta) i)
      with (probs_at k (D None) theta i).
    change (eff_weights (d_w D1) i) with (if (nth i (obs_ids d) 0%Z =? nth j (first_seen (obs_ids d)) 0%Z)%Z then 1 else 0).
    change (d_y D1 i) with (choice_vec d i).
    destruct (nth i (obs_ids d) 0%Z =? nth j (first_seen (obs_ids d)) 0%Z)%Z; ring.
  Qed.

  Context (wobs : Z -> R).
  Hypothesis Hwobs : forall i, (i < length (obs_ids d))%nat -> eff_weights w i = wobs (nth i (obs_ids d) 0%Z).

  Lemma gradient_adds_up ridge g (gobs : Z -> arr) :
    est_gradient k (D ridge) theta = Ok g ->
    (forall o, In o (obs_ids d) -> observation_gradient k d mp K X theta o = Ok (gobs o)) ->
    forall a, (a < alen theta)%nat ->
    aget g a = sumn (length (first_seen (obs_ids d)))
                 (fun j => let o := nth j (first_seen (obs_ids d)) 0%Z in wobs o * aget (gobs o) a)
               - 2 * ridge_or_0 (D ridge) * aget theta a.
  Proof.
    intros Eg Hgo a Ha.
    destruct (grad_form k (D ridge) theta HK Hlen') as (g' & E & _ & G).
    rewrite Eg in E. inversion E; subst g'. rewrite G by exact Ha. f_equal.
    change (d_N (D ridge)) with (length (obs_ids d)). rewrite sumn_by_ids, suml_seq.
    apply sumn_ext. intros j Hj. cbv zeta.
    set (o := nth j (first_seen (obs_ids d)) 0%Z).
    assert (Ho : In o (obs_ids d)) by (apply first_seen_In, nth_In; exact Hj).
    destruct (observation_gradient_eq j Hj) as (g1 & E1 & _ & G1). fold o in E1.
    rewrite (Hgo o Ho) in E1. inversion E1; subst g1. rewrite G1 by exact Ha.
    rewrite osum_column by exact Hj. fold o. rewrite <- id_sum_scal_l. apply id_sum_ext.
    intros i Hi Eo. change (d_w (D ridge)) with w. rewrite Hwobs by exact Hi. rewrite Eo.
    change (DH k (D ridge) theta i a) with (DH k (D None) theta i a).
    change (d_y (D ridge) i) with (choice_vec d i).
    change (long_probs (model_of k) (D ridge) _ _ _ i) with (probs_at k (D None) theta i). ring.
  Qed.

  Hypothesis Hnn : nonneg_weights d w.

  Lemma weights_per_obs_eq ridge j :
    (j < length (first_seen (obs_ids d)))%nat ->
    weights_per_obs (D ridge) j = wobs (nth j (first_seen (obs_ids d)) 0%Z).
  Proof.
    intros Hj. unfold weights_per_obs.
    pose proof (data_obs_indicator d spec mp K X w ridge Hmp) as Hown. fold (D ridge) in Hown.
    set (o := nth j (first_seen (obs_ids d)) 0%Z).
    assert (Hjo : (j < d_obs (D ridge))%nat) by (unfold D; rewrite (data_nobs d spec) by exact Hmp; exact Hj).
    assert (Ho : In o (obs_ids d)) by (apply first_seen_In, nth_In; exact Hj).
    assert (Eown : forall i, (i < length (obs_ids d))%nat ->
       (own_of (obs_ids d) i = j <-> nth i (obs_ids d) 0%Z = o)).
    { intros i Hi. unfold own_of. split.
      - intros E. unfold o. rewrite <- E. symmetry. apply nth_index_of. apply first_seen_In, nth_In. exact Hi.
      - intros ->. apply index_of_nth; [apply first_seen_NoDup|exact Hj]. }
    destruct (In_row _ _ Ho) as (i0 & Hi0 & E0).
    assert (H0 : 0 <= wobs o) by (rewrite <- E0, <- Hwobs by exact Hi0; apply Hnn; exact Hi0).
    apply maxn_eq.
    - intros i Hi. change (d_N (D ridge)) with (length (obs_ids d)) in Hi.
      destruct (Hown i Hi) as [_ Em]. rewrite Em by exact Hjo.
      destruct (Nat.eqb_spec (own_of (obs_ids d) i) j) as [Ej|Ej].
      + apply Eown in Ej; [|exact Hi]. change (d_w (D ridge)) with w. rewrite Hwobs, Ej by exact Hi. lra.
      + rewrite Rmult_0_l. exact H0.
    - exists i0. split; [exact Hi0|]. destruct (Hown i0 Hi0) as [_ Em]. rewrite Em by exact Hjo.
      destruct (Nat.eqb_spec (own_of (obs_ids d) i0) j) as [Ej|Ej].
      + change (d_w (D ridge)) with w. rewrite Hwobs, E0 by exact Hi0. ring.
      + exfalso. apply Ej. apply Eown; assumption.
  Qed.

  Lemma fisher_outer ridge F (gobs : Z -> arr) :
    est_fisher k (D ridge) theta = Ok F ->
    (forall o, In o (obs_ids d) -> observation_gradient k d mp K X theta o = Ok (gobs o)) ->
    sqn F = alen theta /\
    forall a b, (a < alen theta)%nat -> (b < alen theta)%nat ->
    sqe F a b = sumn (length (first_seen (obs_ids d)))
                 (fun j => let o := nth j (first_seen (obs_ids d)) 0%Z in
                           wobs o * aget (gobs o) a * aget (gobs o) b)
                - (if (a =? b)%nat then 2 * ridge_or_0 (D ridge) else 0).
  Proof.
    intros EF Hgo.
    destruct (fisher_form k (D ridge) theta HK Hlen') as (F' & E & L & G).
    rewrite EF in E. inversion E; subst F'. split; [exact L|]. intros a b Ha Hb. rewrite G by assumption.
    pose proof (data_obs_indicator d spec mp K X w ridge Hmp) as Hown. fold (D ridge) in Hown.
    assert (Eo : d_obs (D ridge) = length (first_seen (obs_ids d))) by (unfold D; apply (data_nobs d spec); exact Hmp).
    f_equal.
    2: { unfold ident. destruct (a =? b)%nat; ring. }
    rewrite Eo. apply sumn_ext. intros j Hj. cbv zeta.
    rewrite weights_per_obs_eq by exact Hj. set (o := nth j (first_seen (obs_ids d)) 0%Z).
    assert (Ho : In o (obs_ids d)) by (apply first_seen_In, nth_In; exact Hj).
    destruct (observation_gradient_eq j Hj) as (g1 & E1 & _ & G1). fold o in E1.
    rewrite (Hgo o Ho) in E1. inversion E1; subst g1.
    assert (R1 : forall c, (c < alen theta)%nat ->
       sumn (d_N (D ridge)) (fun i => d_M (D ridge) i j * ((d_y (D ridge) i - probs_at k (D ridge) theta i) * DH k (D ridge) theta i c))
       = aget (gobs o) c).
    { intros c Hc. rewrite G1 by exact Hc. unfold osum. apply sumn_ext. intros i Hi.
      destruct (Hown i Hi) as [_ Em]. rewrite Em by (rewrite Eo; exact Hj).
      change (DH k (D ridge) theta i c) with (DH k (D None) theta i c).
      change (d_y (D ridge) i) with (choice_vec d i).
      change (probs_at k (D ridge) theta i) with (probs_at k (D None) theta i).
      destruct (own_of (obs_ids d) i =? j)%nat; ring. }
    rewrite !R1 by assumption. ring.
  Qed.
End Bhhh.

Theorem C35_bhhh_matrix k d spec mp K X w theta F g (wobs : Z -> R) (gobs : Z -> arr) :
  create_long_form_mappings d spec = Ok mp -> (0 < K)%nat ->
  let D := data_of d mp K X w None in
  kind_ok k (d_J D) ->
  check_length_of_initial_values k (d_J D) K theta = Ok tt ->
  (* weights are non-negative and per observation *)
  (forall i, (i < length (obs_ids d))%nat ->
     eff_weights w i = wobs (nth i (obs_ids d) 0%Z) /\ 0 <= eff_weights w i) ->
  est_fisher k D theta = Ok F -> est_gradient k D theta = Ok g ->
  (forall o, In o (obs_ids d) -> observation_gradient k d mp K X theta o = Ok (gobs o)) ->
  (* sum of weighted outer products, over the distinct observation ids *)
  (forall a b, (a < alen theta)%nat -> (b < alen theta)%nat ->
     sqe F a b = sumn (length (first_seen (obs_ids d)))
       (fun j => let o := nth j (first_seen (obs_ids d)) 0%Z in
                 wobs o * aget (gobs o) a * aget (gobs o) b)) /\
  (* the per-observation gradients add up to the gradient *)
  (forall a, (a < alen theta)%nat ->
     aget g a = sumn (length (first_seen (obs_ids d)))
       (fun j => let o := nth j (first_seen (obs_ids d)) 0%Z in wobs o * aget (gobs o) a)) /\
  symmetric (alen theta) (sqe F) /\ psd (alen theta) (sqe F).
Proof.
  intros Hmp HK D Hok Hlen Hw EF Eg Hgo.
  assert (Hw1 : forall i, (i < length (obs_ids d))%nat -> eff_weights w i = wobs (nth i (obs_ids d) 0%Z)) by (intros; apply Hw; assumption).
  assert (Hw2 : nonneg_weights d w) by (intros i Hi; apply Hw; assumption).
  destruct (fisher_outer k d spec mp K X w theta Hmp HK Hok Hlen wobs Hw1 Hw2 None F gobs EF Hgo) as [LF HF].
  assert (HF' : forall a b, (a < alen theta)%nat -> (b < alen theta)%nat ->
     sqe F a b = sumn (length (first_seen (obs_ids d)))
       (fun j => let o := nth j (first_seen (obs_ids d)) 0%Z in
                 wobs o * aget (gobs o) a * aget (gobs o) b)).
  { intros a b Ha Hb. rewrite HF by assumption. cbn [ridge_or_0 data_of d_ridge]. destruct (a =? b)%nat; ring. }
  split; [exact HF'|]. split.
  { intros a Ha. rewrite (gradient_adds_up k d mp K X w theta HK Hok Hlen wobs Hw1 None g gobs Eg Hgo a Ha).
    cbn [ridge_or_0 data_of d_ridge]. ring. }
  split.
  { intros a b Ha Hb. rewrite !HF' by assumption. apply sumn_ext. intros j _. cbv zeta. ring. }
  intros z.
  rewrite (quad_ext _ _ _ z HF'). unfold quad.
  rewrite (sumn_ext (alen theta) _ (fun a => sumn (length (first_seen (obs_ids d))) (fun j =>
     let o := nth j (first_seen (obs_ids d)) 0%Z in
     z a * aget (gobs o) a * (wobs o * sumn (alen theta) (fun b => aget (gobs o) b * z b))))).
  2: { intros a _. rewrite (sumn_ext (alen theta) _ (fun b => sumn (length (first_seen (obs_ids d))) (fun j =>
         let o := nth j (first_seen (obs_ids d)) 0%Z in
         z a * aget (gobs o) a * wobs o * (aget (gobs o) b * z b)))).
       2: { intros b _. cbv zeta. rewrite <- sumn_scal_l, <- sumn_scal_r. apply sumn_ext. intros j _. ring. }
       rewrite sumn_swap. apply sumn_ext. intros j _. cbv zeta. rewrite sumn_scal_l. ring. }
  rewrite sumn_swap. apply sumn_ge0. intros j Hj. cbv zeta. set (o := nth j (first_seen (obs_ids d)) 0%Z).
  rewrite sumn_scal_r.
  rewrite (sumn_ext (alen theta) (fun i => z i * aget (gobs o) i) (fun b => aget (gobs o) b * z b)) by (intros; ring).
  assert (0 <= wobs o).
  { assert (Ho : In o (obs_ids d)) by (apply first_seen_In, nth_In; exact Hj).
    destruct (In_row _ _ Ho) as (i0 & Hi0 & E0). destruct (Hw i0 Hi0) as [A B]. rewrite A, E0 in B. exact B. }
  set (s := sumn _ _). assert (0 <= s * s) by (apply Rle_0_sqr). nra.
Qed.

(** ** C36: the sandwich *)
Definition is_inverse (n : nat) (a b : mat) : Prop :=
  (forall i j, (i < n)%nat -> (j < n)%nat -> mdot n a b i j = if (i =? j)%nat then 1 else 0) /\
  (forall i j, (i < n)%nat -> (j < n)%nat -> mdot n b a i j = if (i =? j)%nat then 1 else 0).

Lemma inverse_symmetric n a b : symmetric n a -> is_inverse n a b -> symmetric n b.
Proof.
  intros Hs [H1 H2] i j Hi Hj.
  (* b = b a b^T-like argument: b i j = sum_k b i k delta_kj, delta = (a b)^T = b^T a *)
  assert (T : forall p q, (p < n)%nat -> (q < n)%nat -> sumn n (fun k => a p k * b q k) = if (p =? q)%nat then 1 else 0).
  { intros p q Hp Hq. specialize (H2 q p Hq Hp). unfold mdot in H2. rewrite Nat.eqb_sym. rewrite <- H2.
    apply sumn_ext. intros k Hk. rewrite (Hs p k Hp Hk). ring. }
  transitivity (sumn n (fun p => b i p * sumn n (fun k => a p k * b j k))).
  - rewrite (sumn_ext n _ (fun p => if (p =? j)%nat then b i p else 0)).
    + symmetry. apply (sumn_single n j (fun p => b i p) Hj).
    + intros p Hp. rewrite T by assumption. destruct (p =? j)%nat; ring.
  - rewrite (sumn_ext n _ (fun p => sumn n (fun k => b i p * a p k * b j k))).
    2: { intros p _. rewrite <- sumn_scal_l. apply sumn_ext. intros; ring. }
    rewrite sumn_swap.
    rewrite (sumn_ext n _ (fun k => if (i =? k)%nat then b j k else 0)).
    + apply (sumn_single' n i (fun k => b j k) Hi).
    + intros k Hk. rewrite sumn_scal_r. specialize (H2 i k Hi Hk). unfold mdot in H2. rewrite H2.
      destruct (i =? k)%nat; ring.
Qed.

Lemma quad_sandwich n b f z :
  symmetric n b ->
  quad n (mdot n b (mdot n f b)) z = quad n f (mvec n b z).
Proof.
  intros Hs. unfold quad, mdot, mvec.
  (* both sides: sum over i,j,p,q of z_i b_ip f_pq b_qj z_j *)
  set (L := fun i p => z i * b i p).
  assert (EL : forall p, (p < n)%nat -> sumn n (fun i => L i p) = sumn n (fun k => b p k * z k)).
  { intros p Hp. apply sumn_ext. intros i Hi. unfold L. rewrite (Hs i p Hi Hp). ring. }
  transitivity (sumn n (fun i => sumn n (fun p => L i p * sumn n (fun q => f p q * sumn n (fun j => b q j * z j))))).
  - apply sumn_ext. intros i _.
    rewrite (sumn_ext n _ (fun j => sumn n (fun p => L i p * (sumn n (fun q => f p q * b q j) * z j)))).
    2: { intros j _. rewrite Rmult_assoc, <- sumn_scal_r, <- sumn_scal_l. apply sumn_ext. intros p _. unfold L. ring. }
    rewrite sumn_swap. apply sumn_ext. intros p _. rewrite sumn_scal_l. f_equal.
    rewrite (sumn_ext n _ (fun j => sumn n (fun q => f p q * (b q j * z j)))).
    2: { intros j _. rewrite <- sumn_scal_r. apply sumn_ext. intros; ring. }
    rewrite sumn_swap. apply sumn_ext. intros q _. rewrite sumn_scal_l. reflexivity.
  - rewrite sumn_swap. apply sumn_ext. intros p Hp. rewrite sumn_scal_r, EL by exact Hp.
    rewrite <- sumn_scal_l. apply sumn_ext. intros q Hq. ring.
Qed.

Theorem C36_sandwich_symmetric_psd n hess hess_inv fisher :
  symmetric n hess -> is_inverse n hess hess_inv -> symmetric n fisher -> psd n fisher ->
  symmetric n (calc_asymptotic_covariance n hess_inv fisher) /\
  psd n (calc_asymptotic_covariance n hess_inv fisher).
Proof.
  intros Hs Hi Hf Hp. pose proof (inverse_symmetric n _ _ Hs Hi) as Hb.
  unfold calc_asymptotic_covariance. split.
  - intros i j Hi' Hj. unfold mdot.
    transitivity (sumn n (fun p => sumn n (fun q => hess_inv i p * fisher p q * hess_inv q j))).
    { apply sumn_ext. intros p _. rewrite <- sumn_scal_l. apply sumn_ext. intros; ring. }
    rewrite sumn_swap. apply sumn_ext. intros q Hq. rewrite <- sumn_scal_l. apply sumn_ext. intros p Hpp.
    rewrite (Hb q j Hq Hj), (Hf p q Hpp Hq), (Hb i p Hi' Hpp). ring.
  - intros z. rewrite quad_sandwich by exact Hb. apply Hp.
Qed.

(** The covariance the estimators report, without ridge. *)
Theorem C36_reported_robust_covariance k d spec mp K X w theta H F hess_inv (wobs : Z -> R) :
  create_long_form_mappings d spec = Ok mp -> (0 < K)%nat ->
  let D := data_of d mp K X w None in
  kind_ok k (d_J D) ->
  check_length_of_initial_values k (d_J D) K theta = Ok tt ->
  (forall i, (i < length (obs_ids d))%nat ->
     eff_weights w i = wobs (nth i (obs_ids d) 0%Z) /\ 0 <= eff_weights w i) ->
  est_hessian k D theta = Ok H -> est_fisher k D theta = Ok F ->
  is_inverse (alen theta) (sqe H) hess_inv ->
  symmetric (alen theta) (calc_asymptotic_covariance (alen theta) hess_inv (sqe F)) /\
  psd (alen theta) (calc_asymptotic_covariance (alen theta) hess_inv (sqe F)).
Proof.
  intros Hmp HK D Hok Hlen Hw EH EF Hinv.
  assert (Hw0 : same_weight_within_observation d w).
  { intros i i' Hi Hi' E. destruct (Hw i Hi) as [-> _]. destruct (Hw i' Hi') as [-> _]. rewrite E. reflexivity. }
  destruct (C32_hessian_symmetric_nsd k d spec mp K X w None theta Hmp HK Hw0 Hok Hlen) as (H' & EH' & _ & Hs & _).
  fold D in EH'. rewrite EH in EH'. inversion EH'; subst H'.
  set (gobs := fun o => match observation_gradient k d mp K X theta o with Ok g => g | Err _ => theta end).
  assert (Hgo : forall o, In o (obs_ids d) -> observation_gradient k d mp K X theta o = Ok (gobs o)).
  { intros o Ho.
    assert (Hf : In o (first_seen (obs_ids d))) by (apply first_seen_In; exact Ho).
    apply (In_nth _ _ 0%Z) in Hf. destruct Hf as (j & Hj & Ej).
    destruct (observation_gradient_eq k d mp K X w theta HK Hok Hlen j Hj) as (g & E & _).
    rewrite Ej in E. unfold gobs. rewrite E. reflexivity. }
  assert (Hlen' := Hlen). apply check_length_ok in Hlen'. rewrite dims_eq in Hlen' by exact Hok.
  destruct (grad_form k D theta HK Hlen') as (g & Eg & _).
  destruct (C35_bhhh_matrix k d spec mp K X w theta F g wobs gobs Hmp HK Hok Hlen Hw EF Eg Hgo) as (_ & _ & Fs & Fp).
  apply (C36_sandwich_symmetric_psd _ (sqe H)); assumption.
Qed.
