(** Properties C120 (choices that a combination of the variables predicts perfectly) and
    C121 (a penalty keeps the estimates in a ball). *)
From Coq Require Import String ZArith List Reals Lra Lia Arith.
From Coquelicot Require Import Coquelicot.
From Verif Require Import Res Vec Arr SpecLogit ChoiceCalcs ChoiceFacts Transforms Ids Mappings
  MappingFacts LongData LogitFacts RowDeriv HessFacts ProbFacts PropMappings PropProbs PropGradient
  PropHessian PropLikelihood PropConcave PropReparam DefiniteMat PropIdentified Frame ChoiceTools BaseModel
  PropBaseModel NestedCalcs MixedCalcs Estimation PropEstimation PropFit PropInference PropIdentifiedFit PropRicher
  NestedFacts PropNested MixedFacts PropMixed PropNull.
Import ListNotations.
Open Scope R_scope.

(** ** Specification *)

(** In every observation that counts, no row has a higher value of the combination [v] of
    the variables than the chosen one; in one of them some row has a lower one. *)
Definition separates (d : long_cols) (w : option vec) (K : nat) (X : mat) (v : vec) : Prop :=
  let value i := sumn K (fun q => X i q * v q) in
  let rivals c i := (c < length (obs_ids d))%nat /\ (i < length (obs_ids d))%nat /\
    nth i (obs_ids d) 0%Z = nth c (obs_ids d) 0%Z /\ choice_vec d c = 1 /\ eff_weights w c <> 0 in
  (forall c i, rivals c i -> value i <= value c) /\ (exists c i, rivals c i /\ value i < value c).

(** theta + t v *)
Definition moved (theta : arr) (t : R) (v : vec) : arr := mkArr (alen theta) (fun q => aget theta q + t * v q).

Lemma room N (u x : vec) a b : (forall i, (i < N)%nat -> a < u i < b) ->
  exists t, 0 < t /\ forall i, (i < N)%nat -> a < u i + t * x i < b.
Proof.
  intros H.
  assert (G : exists t0, 0 < t0 /\ forall t i, 0 <= t <= t0 -> (i < N)%nat -> a < u i + t * x i < b).
  { induction N as [|N IH].
    - exists 1. split; [lra|]. intros; lia.
    - destruct IH as (t0 & H0 & Ht); [intros; apply H; lia|].
      assert (HN := H N ltac:(lia)).
      set (m := Rmin (u N - a) (b - u N)). assert (Hm : 0 < m) by (apply Rmin_glb_lt; lra).
      assert (m <= u N - a) by apply Rmin_l. assert (m <= b - u N) by apply Rmin_r.
      pose proof (Rabs_pos (x N)) as Hx.
      set (s := m / (1 + Rabs (x N))). assert (Hs : 0 < s) by (apply Rdiv_lt_0_compat; lra).
      assert (Es : s * (1 + Rabs (x N)) = m) by (unfold s; field; lra).
      exists (Rmin t0 s). split; [apply Rmin_glb_lt; assumption|].
      intros t i (Hp & Hle) Hi. assert (t <= t0) by (eapply Rle_trans; [exact Hle|apply Rmin_l]).
      assert (t <= s) by (eapply Rle_trans; [exact Hle|apply Rmin_r]).
      destruct (Nat.eq_dec i N) as [->|Hne]; [|apply Ht; [lra|lia]].
      assert (B : Rabs (t * x N) < m).
      { rewrite Rabs_mult, (Rabs_right t) by lra.
        assert (t * Rabs (x N) <= s * Rabs (x N)) by (apply Rmult_le_compat_r; lra). nra. }
      apply Rabs_def2 in B. lra. }
  destruct G as (t0 & H0 & Ht). exists t0. split; [exact H0|]. intros i Hi. apply Ht; [lra|exact Hi].
Qed.

Section Separation.
  Context (d : long_cols) (spec : option nest_spec) (mp : mappings) (K : nat) (X : mat) (w : option vec).
  Hypothesis Hmp : create_long_form_mappings d spec = Ok mp.
  Hypothesis HK : (0 < K)%nat.
  Hypothesis Hone : exactly_one_choice d.
  Hypothesis Hw : same_weight_within_observation d w.
  Hypothesis Hnn : nonneg_weights d w.
  Let D := data_of d mp K X w None.
  Context (v : vec).
  Hypothesis Hsep : separates d w K X v.

  (** At every parameter vector, even where utilities are clipped, the gradient has a
      positive component along [v]. *)
  Theorem C120_gradient_points_along_the_separation theta :
    check_length_of_initial_values KMNL (d_J D) K theta = Ok tt ->
    exists g, est_gradient KMNL D theta = Ok g /\ alen g = K /\ 0 < sumn K (fun j => aget g j * v j).
  Proof.
    intros Hl. apply check_length_ok in Hl. cbn in Hl.
    assert (HL : alen theta = (num_shapes KMNL (d_J D) + num_icpts KMNL (d_J D) + d_K D)%nat) by exact Hl.
    destruct (grad_form KMNL D theta HK HL) as (g & Eg & Lg & G).
    exists g. split; [exact Eg|]. split; [rewrite Lg; exact Hl|].
    pose proof (data_obs_indicator d spec mp K X w None Hmp) as Hown. fold D in Hown.
    set (own := own_of (obs_ids d)) in *. set (N := length (obs_ids d)) in *.
    fold (probs_at KMNL D theta) in G.
    set (P := probs_at KMNL D theta) in *. set (W := eff_weights w) in *. set (y := choice_vec d) in *.
    set (x := fun i => sumn K (fun q => X i q * v q)) in *.
    assert (Ppos : forall i, (i < N)%nat -> 0 < P i) by (intros i Hi; apply (long_probs_pos (model_of KMNL) _ _ Hown); exact Hi).
    assert (Psum : forall i, (i < N)%nat -> osum N own (own i) P = 1) by (intros i Hi; apply (long_probs_sum (model_of KMNL) _ _ Hown); exact Hi).
    set (m := fun i => osum N own (own i) (fun r => P r * x r)).
    assert (WC := weight_condition _ own _ W (one_choice_of d Hone) (weights_of d w Hw)). fold N y in WC.
    assert (E : sumn K (fun j => aget g j * v j) = sumn N (fun i => y i * W i * (x i - m i))).
    { transitivity (sumn N (fun i => W i * (y i - P i) * x i)).
      - rewrite (sumn_ext K _ (fun j => sumn N (fun i => W i * (y i - P i) * (X i j * v j)))).
        + rewrite sumn_swap. apply sumn_ext. intros i _. unfold x. rewrite sumn_scal_l. reflexivity.
        + intros j Hj. rewrite G by (rewrite HL; exact Hj).
          change (ridge_or_0 D) with 0. rewrite Rmult_0_r, Rmult_0_l, Rminus_0_r.
          change (d_N D) with N. rewrite <- sumn_scal_r. apply sumn_ext. intros i Hi.
          rewrite (mnl_DH d mp K X w None theta i j Hi : DH KMNL D theta i j = X i j). change (d_w D) with w. change (d_y D) with y. fold W. fold P. ring.
      - rewrite (sumn_ext N (fun i => y i * W i * (x i - m i)) (fun i => y i * W i * x i - (y i * W i) * m i)) by (intros; ring).
        rewrite sumn_minus. unfold m.
        rewrite (osum_sym N own (fun r => P r * x r) (fun i => y i * W i)).
        rewrite <- sumn_minus. apply sumn_ext. intros i Hi. rewrite (WC i Hi). ring. }
    rewrite E. destruct Hsep as (Hall & c & i0 & (Hc & Hi0 & Eo & Yc & Wc) & Hlt). fold x in Hlt.
    destruct (one_choice_of d Hone) as [Y01 _]. fold N own y in Y01.
    assert (Hm : forall i, (i < N)%nat -> x i - m i = osum N own (own i) (fun r => P r * (x i - x r))).
    { intros i Hi. rewrite (osum_ext _ _ _ (fun r => P r * (x i - x r)) (fun r => x i * P r - P r * x r)) by (intros; ring).
      rewrite osum_minus, osum_scal_l, Psum by exact Hi. unfold m. ring. }
    assert (Hge : forall i r, (i < N)%nat -> y i = 1 -> W i <> 0 -> (r < N)%nat -> own r = own i -> 0 <= P r * (x i - x r)).
    { intros i r Hi Yi Wi Hr Ho. apply Rmult_le_pos; [left; auto|].
      assert (x r <= x i); [|lra]. apply Hall. repeat split; try assumption. apply (own_of_eq (obs_ids d)); assumption. }
    assert (T0 : forall i, (i < N)%nat -> 0 <= y i * W i * (x i - m i)).
    { intros i Hi. destruct (Y01 i Hi) as [-> |Yi]; [lra|]. rewrite Yi, Rmult_1_l.
      destruct (Req_dec (W i) 0) as [->|Wi]; [lra|]. apply Rmult_le_pos; [apply Hnn; exact Hi|].
      rewrite (Hm i Hi). apply osum_ge0. intros r Hr Ho. auto. }
    apply Rlt_le_trans with (y c * W c * (x c - m c)); [|apply (sumn_ge_term N (fun i => y i * W i * (x i - m i))); [exact T0|exact Hc]].
    rewrite (Yc : y c = 1), Rmult_1_l. apply Rmult_lt_0_compat; [destruct (Hnn c Hc) as [L|L]; [exact L|exfalso; apply Wc; symmetry; exact L]|].
    rewrite (Hm c Hc). apply Rlt_le_trans with (P i0 * (x c - x i0)); [apply Rmult_lt_0_compat; [auto|unfold x in *; lra]|].
    assert (Ho : own i0 = own c) by (apply (own_of_eq (obs_ids d)); assumption).
    rewrite <- Ho. apply (osum_ge_term N own i0 (fun r => P r * (x c - x r))); [|exact Hi0].
    intros r Hr Hor. apply Hge; try assumption. congruence.
  Qed.

  (** So no parameter vector is a stationary point of the log-likelihood. *)
  Theorem C120_no_stationary_point theta g :
    check_length_of_initial_values KMNL (d_J D) K theta = Ok tt ->
    est_gradient KMNL D theta = Ok g -> exists j, (j < K)%nat /\ aget g j <> 0.
  Proof.
    intros Hl Eg. destruct (C120_gradient_points_along_the_separation theta Hl) as (g' & E & _ & Hp).
    rewrite Eg in E. injection E as <-.
    assert (B : forall n, (forall j, (j < n)%nat -> aget g j = 0) \/ exists j, (j < n)%nat /\ aget g j <> 0).
    { induction n as [|n [IH|(j & Hj & Hne)]].
      - left. intros; lia.
      - destruct (Req_dec (aget g n) 0) as [E|E]; [left|right; exists n; split; [lia|exact E]].
        intros j Hj. destruct (Nat.eq_dec j n) as [->|]; [exact E|apply IH; lia].
      - right. exists j. split; [lia|exact Hne]. }
    destruct (B K) as [Z|Z]; [|exact Z]. exfalso.
    rewrite sumn_eq0 in Hp; [lra|]. intros j Hj. rewrite Z by exact Hj. ring.
  Qed.

  (** Moving any distance along [v], as long as no utility is clipped, raises it. *)
  Theorem C120_likelihood_increases_along_the_separation theta t :
    check_length_of_initial_values KMNL (d_J D) K theta = Ok tt -> 0 < t ->
    no_clipping KMNL D theta -> no_clipping KMNL D (moved theta t v) ->
    est_log_likelihood KMNL D theta < est_log_likelihood KMNL D (moved theta t v).
  Proof.
    intros Hl Ht Hc Hc'.
    assert (Hl' : check_length_of_initial_values KMNL (d_J D) K (moved theta t v) = Ok tt) by exact Hl.
    destruct (C120_gradient_points_along_the_separation _ Hl') as (g & Eg & _ & Hp).
    pose proof (mnl_tangent d spec mp K X w None Hmp HK Hone Hw Hnn (moved theta t v) theta g Hl' Hl Hc' Hc Eg) as T.
    fold D in T. change (ridge_or_0 D) with 0 in T. rewrite Rmult_0_l, Rminus_0_r in T.
    assert (E : dot K (aget g) (fun j => aget theta j - aget (moved theta t v) j) = - t * sumn K (fun j => aget g j * v j)).
    { unfold dot. rewrite <- sumn_scal_l. apply sumn_ext. intros j _. cbn [moved aget]. ring. }
    rewrite E in T. assert (0 < t * sumn K (fun j => aget g j * v j)) by (apply Rmult_lt_0_compat; assumption). lra.
  Qed.

  (** No parameter vector maximises it: there is always a better one (and its utilities are
      not clipped either). *)
  Theorem C120_no_maximum theta :
    check_length_of_initial_values KMNL (d_J D) K theta = Ok tt -> no_clipping KMNL D theta ->
    exists theta', check_length_of_initial_values KMNL (d_J D) K theta' = Ok tt /\ no_clipping KMNL D theta' /\
      est_log_likelihood KMNL D theta < est_log_likelihood KMNL D theta'.
  Proof.
    intros Hl Hc. pose proof (check_length_ok _ _ _ _ Hl) as A. cbn in A.
    assert (Eu : forall th i, alen th = K -> est_utilities KMNL D th i = sumn K (fun q => X i q * aget th q)).
    { intros th i E. rewrite est_utilities_eq by assumption. reflexivity. }
    destruct (room (d_N D) (est_utilities KMNL D theta) (fun i => sumn K (fun q => X i q * v q)) (-700) 700 Hc) as (t & Ht & Hr).
    assert (Hc' : no_clipping KMNL D (moved theta t v)).
    { intros i Hi. specialize (Hr i Hi). rewrite (Eu theta i A) in Hr. rewrite (Eu (moved theta t v) i A). cbn [moved aget].
      rewrite <- sumn_scal_l, <- sumn_plus in Hr.
      rewrite (sumn_ext K _ (fun q => X i q * aget theta q + t * (X i q * v q))) by (intros; ring). exact Hr. }
    exists (moved theta t v). split; [exact Hl|]. split; [exact Hc'|].
    apply C120_likelihood_increases_along_the_separation; assumption.
  Qed.
End Separation.

(** A table of gradients reported by fit_mle without penalty has a non-zero entry, whatever
    the optimizer does. *)
Theorem C120_no_fit_reaches_a_stationary_point d K X names mixing nd rvs fa mz nm v p out :
  (0 < K)%nat -> exactly_one_choice d -> separates d None K X v ->
  keeps_length mz -> fa_ridge fa = RidgeNone ->
  fit_mle mz nm names mixing (mkModel (ClassLogit KMNL) d K X) nd rvs fa = Ok (Stored p out) ->
  exists name x, In (name, x) (f_gradient out) /\ x <> 0.
Proof.
  intros HK Hone Hsep Hkl Hr H.
  apply fit_mle_inv in H. destruct H as (e & init & mr & He & Hm & _ & Hpost & Hst).
  apply mnl_estimator_inv in He. destruct He as (mp & Hmp & Ec & Li & _).
  apply Hkl in Hm. apply post_inv in Hpost.
  destruct Hpost as (Em & _ & _ & _ & _ & _ & _ & _ & _ & Hg & _).
  rewrite Ec in Hg. rewrite Hr in Hg. cbn [est_grad ridge_value] in Hg.
  set (D := data_of d mp K X (Some (fun _ => 1)) None) in *.
  assert (Hl : check_length_of_initial_values KMNL (d_J D) K (mr_x mr) = Ok tt).
  { unfold check_length_of_initial_values. cbn. rewrite Hm, Li, Nat.eqb_refl. reflexivity. }
  assert (Hsep' : separates d (Some (fun _ => 1)) K X v) by exact Hsep.
  destruct (C120_gradient_points_along_the_separation d None mp K X (Some (fun _ => 1)) Hmp HK Hone (PropIdentifiedFit.unit_weights d)
    ltac:(intros i _; cbn; lra) v Hsep' (mr_x mr) Hl) as (g & Eg & Lg & _).
  fold D in Eg. rewrite Hg in Eg. injection Eg as <-.
  destruct (C120_no_stationary_point d None mp K X (Some (fun _ => 1)) Hmp HK Hone (PropIdentifiedFit.unit_weights d)
    ltac:(intros i _; cbn; lra) v Hsep' (mr_x mr) _ Hl Hg) as (j & Hj & Hne).
  pose proof (C15_parameter_table nm names mixing _ out Hst) as (_ & _ & _ & _ & _ & _ & Ef & Es & _).
  assert (L : (j < length (f_gradient out))%nat).
  { rewrite <- (map_length snd), Es. cbn [results_of r_gradient]. unfold alist. rewrite map_length, seq_length, Lg. exact Hj. }
  destruct (nth j (f_gradient out) (""%string, 0)) as [name x] eqn:En.
  exists name, x. split.
  - rewrite <- En. apply nth_In. exact L.
  - assert (Ex : x = nth j (map snd (f_gradient out)) 0).
    { change 0 with (snd (""%string, 0)). rewrite map_nth, En. reflexivity. }
    rewrite Ex, Es. cbn [results_of r_gradient].
    assert (Ea : nth j (alist (po_gradient p)) 0 = aget (po_gradient p) j).
    { unfold alist. rewrite (nth_indep _ 0 (aget (po_gradient p) 0%nat)) by (rewrite map_length, seq_length, Lg; exact Hj).
      rewrite map_nth, seq_nth by (rewrite Lg; exact Hj). reflexivity. }
    rewrite Ea. exact Hne.
Qed.

(** ** C121: penalised estimates *)

Section Penalty.
  Context (k : logit_kind) (d : long_cols) (spec : option nest_spec) (mp : mappings) (K : nat) (X : mat)
          (w : option vec) (r : R).
  Hypothesis Hmp : create_long_form_mappings d spec = Ok mp.
  Hypothesis HK : (0 < K)%nat.
  Hypothesis Hone : exactly_one_choice d.
  Hypothesis Hnn : nonneg_weights d w.
  Let D := data_of d mp K X w (Some r).
  Hypothesis Hk : kind_ok k (d_J D).

  (** A parameter vector that is at least as good as another is no further from zero than the
      log-likelihood of the other allows. *)
  Theorem C121_penalty_bounds_the_parameters theta c :
    check_length_of_initial_values k (d_J D) K theta = Ok tt ->
    c <= est_log_likelihood k D theta ->
    r * sumn (alen theta) (fun j => Rsqr (aget theta j)) <= - c.
  Proof.
    intros Hl Hc.
    pose proof (C24_log_likelihood_nonpositive k d spec mp K X w None theta Hmp HK Hk Hl Hone Hnn I) as Z.
    assert (L := len_ok k d mp K X w (Some r) theta Hk Hl). fold D in L.
    rewrite (est_ll_eq k D theta HK L) in Hc.
    set (D0 := data_of d mp K X w None) in *.
    rewrite (est_ll_eq k D0 theta HK L) in Z. change (ridge_or_0 D0) with 0 in Z. rewrite Rmult_0_l in Z.
    change (ridge_or_0 D) with r in Hc. unfold asumsq in Hc.
    match type of Z with ?A - 0 <= 0 => match type of Hc with c <= ?B - _ => assert (E : B = A) end end; [|unfold Rsqr; lra].
    reflexivity.
  Qed.

  (** In particular, the estimates: they lie in a ball about zero whose squared radius is
      the sum over observations of weight times the log of the number of available
      alternatives, divided by the penalty. *)
  Theorem C121_penalised_estimates_lie_in_a_ball theta row :
    length (alt_ids d) = length (obs_ids d) -> picks_chosen_rows d row ->
    best k D theta ->
    r * sumn (alen theta) (fun j => Rsqr (aget theta j)) <=
      sumn (length (first_seen (obs_ids d)))
        (fun j => eff_weights w (row j) * ln (INR (rows_of (obs_ids d) (nth j (first_seen (obs_ids d)) 0%Z)))).
  Proof.
    intros HL Hrow (Hl & B).
    pose proof (C37_null_log_likelihood k d spec mp K X w (Some r) row Hmp HL HK Hone Hrow Hk) as E. fold D in E. cbv zeta in E.
    assert (B0 := B (zeros (assumed_param_dimensions k (d_J D) K))).
    unfold check_length_of_initial_values in B0. cbn [zeros alen] in B0. rewrite Nat.eqb_refl in B0. specialize (B0 eq_refl).
    fold (zeros (assumed_param_dimensions k (d_J D) K)) in B0. rewrite E in B0.
    apply C121_penalty_bounds_the_parameters in B0; [|exact Hl]. lra.
  Qed.
End Penalty.

(** At the level of fit_mle: whenever a logit-type model reports a log-likelihood that is no
    worse than the null log-likelihood, the reported parameters satisfy the bound. *)
Theorem C121_reported_parameters_are_bounded mz nm names mixing d K X k nd rvs fa p out r :
  (0 < K)%nat -> exactly_one_choice d -> kind_ok k (length (np_unique (alt_ids d))) ->
  reports_objective mz -> keeps_length mz ->
  ridge_value (fa_ridge fa) = Some r ->
  fit_mle mz nm names mixing (mkModel (ClassLogit k) d K X) nd rvs fa = Ok (Stored p out) ->
  po_null_ll p <= f_log_likelihood out ->
  r * fold_right Rplus 0 (map (fun q => Rsqr (snd q)) (f_params out)) <= - po_null_ll p.
Proof.
  intros HK Hone Hk Hro Hkl Er H Hge.
  pose proof (C73_reported_parameters mz nm names mixing (mkModel (ClassLogit k) d K X) k nd rvs fa p out eq_refl Hk HK Hkl H) as Ep.
  destruct (C73_reported_log_likelihood _ _ _ _ _ _ _ _ _ _ Hro H) as (e & init & He & EL & _). cbv zeta in EL.
  apply fit_mle_inv in H. destruct H as (e' & init' & mr & He' & Hm & _ & Hpost & _).
  rewrite He in He'. injection He' as <- <-.
  apply post_inv in Hpost. destruct Hpost as (Em & _).
  apply fit_estimator_inv in He. destruct He as (_ & Hlen & _ & _ & _ & Hcore).
  apply Hkl in Hm. rewrite <- (check_length_ext _ _ _ Hm) in Hlen. rewrite <- Em in Hlen.
  unfold estimator_core in Hcore. cbn [mo_class mo_cols mo_K mo_X] in Hcore.
  apply bind_ok in Hcore. destruct Hcore as (mp & Hmp & Hcore). injection Hcore as Ec _.
  rewrite <- Ec in *. cbn [est_check_length est_ll] in *. rewrite Er in *.
  set (D := data_of d mp K X (Some (fun _ => 1)) (Some r)) in *.
  assert (EJ : d_J D = length (np_unique (alt_ids d))) by (apply (data_J _ _ _ _ _ _ _ Hmp)).
  rewrite EL in Hge. rewrite <- EJ in Hk.
  pose proof (C121_penalty_bounds_the_parameters k d None mp K X (Some (fun _ => 1)) r Hmp HK Hone
    ltac:(intros i _; cbn; lra) Hk (mr_x (po_min p)) _ Hlen Hge) as B.
  assert (ES : forall l : list (string * R), fold_right Rplus 0 (map (fun q => Rsqr (snd q)) l) = fold_right Rplus 0 (map Rsqr (map snd l))).
  { intros l. rewrite map_map. reflexivity. }
  rewrite ES, Ep.
  assert (EA : forall a, fold_right Rplus 0 (map Rsqr (alist a)) = sumn (alen a) (fun j => Rsqr (aget a j))).
  { intros a. unfold alist. rewrite map_map.
    assert (Q : forall n (f : nat -> R), fold_right Rplus 0 (map f (seq 0 n)) = sumn n f).
    { intros n f. induction n as [|n IH]; [reflexivity|].
      rewrite seq_S, map_app, fold_right_app. cbn [map fold_right Nat.add sumn]. rewrite <- IH.
      generalize (map f (seq 0 n)). intros l. induction l as [|z l IHl]; cbn [fold_right]; [ring|]. rewrite IHl. ring. }
    apply Q. }
  rewrite EA. exact B.
Qed.

(** The nested logit penalises the distance of the nest coefficients from one and the index
    coefficients. *)
Theorem C121_nested_penalty_bounds_the_parameters d t mp rn K X w r theta c :
  nested_setup d t mp rn -> exactly_one_choice d -> nonneg_weights d w ->
  alen theta = (length t + K)%nat ->
  let E := ndata_of d mp rn K X w (Some r) in
  c <= nested_est_log_likelihood E theta ->
  r * (sumn (length t) (fun q => Rsqr (naturalize_nest_coefs (aget theta) q - 1)) +
       sumn K (fun q => Rsqr (aget theta (length t + q)%nat))) <= - c.
Proof.
  intros HS (ch & Ech & H01 & _) Hnn L E Hc.
  pose proof (su_Q d t mp rn HS K X w (Some r)) as EQ. fold E in EQ.
  unfold nested_est_log_likelihood, nested_split in Hc. rewrite EQ in Hc.
  unfold calc_nested_log_likelihood in Hc. change (d_ridge (n_D E)) with (Some r) in Hc. cbv iota zeta in Hc.
  set (nests := naturalize_nest_coefs (aget (aslice 0 (length t) theta))) in *.
  set (beta := aslice (length t) (alen theta - length t) theta) in *.
  assert (Lb : alen beta = K) by (unfold beta, aslice; cbn [alen]; lia).
  assert (Hpos : positive_nests t nests).
  { intros q _. apply nat_bounds. }
  destruct (C39_nested_probabilities d t mp rn K X w (Some r) nests beta _ HS Hpos eq_refl) as (P & _). fold E in P.
  assert (A : vdot (d_N (n_D E)) (d_y (n_D E)) (fun i => eff_weights (d_w (n_D E)) i * ln (nested_long_probs E nests beta i)) <= 0).
  { apply Ropp_le_cancel. rewrite Ropp_0. unfold vdot. rewrite <- sumn_opp. apply sumn_ge0. intros i Hi.
    change (d_N (n_D E)) with (length (obs_ids d)) in Hi. specialize (P i Hi).
    assert (Q : ln (nested_long_probs E nests beta i) <= 0).
    { rewrite <- ln_1. destruct (proj2 P) as [Hlt| ->]; [left; apply ln_increasing; lra|lra]. }
    assert (Y : 0 <= choice_vec d i) by (unfold choice_vec; rewrite Ech; destruct (H01 i Hi) as [->| ->]; lra).
    specialize (Hnn i Hi). change (d_y (n_D E)) with (choice_vec d). change (d_w (n_D E)) with w.
    assert (0 <= choice_vec d i * (eff_weights w i * - ln (nested_long_probs E nests beta i))).
    { apply Rmult_le_pos; [exact Y|]. apply Rmult_le_pos; lra. }
    lra. }
  assert (S : asumsq (acat (mkArr (n_Q E) (fun q => nests q - 1)) beta) =
    sumn (length t) (fun q => Rsqr (naturalize_nest_coefs (aget theta) q - 1)) +
    sumn K (fun q => Rsqr (aget theta (length t + q)%nat))).
  { unfold asumsq. cbn [acat alen aget]. rewrite EQ, Lb, sumn_app. f_equal; apply sumn_ext; intros q Hq.
    - unfold vcat. destruct (Nat.ltb_spec q (length t)); [|lia]. unfold Rsqr. reflexivity.
    - unfold vcat. destruct (Nat.ltb_spec (length t + q) (length t)); [lia|].
      replace (length t + q - length t)%nat with q by lia. unfold beta, aslice. cbn [aget]. unfold Rsqr. reflexivity. }
  rewrite S in Hc. lra.
Qed.

(** The mixed logit (two or more draws), whatever the draws are. *)
Theorem C121_mixed_penalty_bounds_the_parameters d K X pos nR draws w r E wu theta c :
  mixed_data_of d K X pos nR draws w (Some r) = Ok E -> mixing_ids_per_row d -> (1 < nR)%nat ->
  PropMixed.unit_weights d w wu -> exactly_one_choice d ->
  c <= calc_mixed_log_likelihood E theta ->
  r * sumn (alen theta) (fun j => Rsqr (aget theta j)) <= - c.
Proof.
  intros H HL HR Hw (ch & Ech & H01 & _) Hc.
  pose proof (mixed_own _ _ _ _ _ _ _ _ _ H) as HO. pose proof (mixed_unit _ _ _ _ _ _ _ _ _ H HL) as HU.
  pose proof (mixed_N _ _ _ _ _ _ _ _ _ H) as HN.
  destruct (mixed_setup _ _ _ _ _ _ _ _ _ H) as (mp & Hmp & ED & Er & EV & Em & _).
  assert (HR1 : x_draws E <> 1%nat) by lia.
  rewrite (mll_eq E _ HU HR1 (fun j => wu (nth j (first_seen (mix_of d)) 0%Z)) (unit_Wu d K X pos nR draws w (Some r) E wu H HL Hw)) in Hc.
  assert (Em' : mridge E = r) by (unfold mridge; rewrite ED; reflexivity). rewrite Em' in Hc.
  assert (A : sumn (x_mixers E) (fun u => wu (nth u (first_seen (mix_of d)) 0%Z) * ln (sim E (own_of (mix_of d)) theta u)) <= 0).
  { apply Ropp_le_cancel. rewrite Ropp_0, <- sumn_opp. apply sumn_ge0. intros u Hu.
    assert (W0 : 0 <= wu (nth u (first_seen (mix_of d)) 0%Z)).
    { rewrite Em in Hu. assert (Hin : In (nth u (first_seen (mix_of d)) 0%Z) (mix_of d)) by (apply first_seen_In, nth_In; exact Hu).
      destruct (In_row _ _ Hin) as (i0 & Hi0 & Ei0). rewrite HL in Hi0. rewrite <- Ei0. apply Hw. exact Hi0. }
    assert (L1 : ln (sim E (own_of (mix_of d)) theta u) <= 0).
    { assert (S1 : 0 < sim E (own_of (mix_of d)) theta u) by (apply sim_pos; lia).
      assert (S2 : sim E (own_of (mix_of d)) theta u <= 1).
      { unfold sim. rewrite Er. assert (0 < INR nR) by (apply lt_0_INR; lia).
        apply (Rmult_le_reg_r (INR nR)); [assumption|]. unfold Rdiv. rewrite Rmult_assoc, Rinv_l, Rmult_1_r by lra.
        rewrite Rmult_1_l. rewrite <- (Rmult_1_r (INR nR)), <- (sumn_const nR 1). apply sumn_le. intros q _.
        rewrite <- exp_0. assert (LS : lseq E (own_of (mix_of d)) theta u q <= 0).
        { unfold lseq. rewrite <- (Ropp_involutive (osum _ _ _ _)). apply Ropp_le_cancel. rewrite Ropp_0, Ropp_involutive.
          unfold osum. rewrite <- sumn_opp. apply sumn_ge0. intros i Hi.
          destruct (own_of (mix_of d) i =? u)%nat; [|lra].
          pose proof (pa_pos E _ HO theta i q Hi). pose proof (pa_le1 E _ HO theta i q Hi) as P1.
          assert (ln (prob_array E theta i q) <= 0).
          { rewrite <- ln_1. destruct P1 as [Hlt| ->]; [left; apply ln_increasing; lra|lra]. }
          assert (Y : 0 <= d_y (x_D E) i).
          { rewrite ED. change (0 <= choice_vec d i). unfold choice_vec. rewrite Ech. rewrite HN in Hi. destruct (H01 i Hi) as [->| ->]; lra. }
          assert (0 <= d_y (x_D E) i * - ln (prob_array E theta i q)) by (apply Rmult_le_pos; lra). lra. }
        destruct LS as [LS| ->]; [left; apply exp_increasing; exact LS|lra]. }
      rewrite <- ln_1. destruct S2 as [Hlt| ->]; [left; apply ln_increasing; lra|lra]. }
    assert (0 <= wu (nth u (first_seen (mix_of d)) 0%Z) * - ln (sim E (own_of (mix_of d)) theta u)) by (apply Rmult_le_pos; lra). lra. }
  unfold asumsq in Hc. unfold Rsqr. lra.
Qed.

(** ** Cases *)

(** Two observations of two alternatives, and both chose the first; one constant, for the
    first alternative. *)
Definition sep_cols : long_cols := mkLong [1; 1; 2; 2]%Z [1; 2; 1; 2]%Z (Some [1; 0; 1; 0]%Z) None.
Definition sep_model : model_obj := mkModel (ClassLogit KMNL) sep_cols 1 asc_one.
Definition sep_args (r : ridge_arg) : fit_args :=
  mkFitArgs (Some (mkArr 1 (fun _ => 0))) None None None r None false WNone.
Definition sep_map : mappings :=
  mkMappings (create_sparse_mapping [1; 1; 2; 2]%Z None) (create_sparse_mapping [1; 2; 1; 2]%Z (Some [1; 2]%Z))
    (Some (multiply_rows (create_sparse_mapping [1; 1; 2; 2]%Z None) [1; 0; 1; 0]%Z)) None None.
Definition sep_names : model_names := mkModelNames ["asc"%string] None None None.

Lemma sep_one_choice : exactly_one_choice sep_cols.
Proof.
  exists [1; 0; 1; 0]%Z. split; [reflexivity|]. split.
  - intros [|[|[|[|i]]]] Hi; cbn in *; try lia; auto.
  - intros o Ho. cbn in Ho. destruct Ho as [<-|[<-|[<-|[<-|[]]]]].
    + exists 0%nat. repeat split; try (cbn; lia). intros [|[|[|[|i]]]] Hi E C; cbn in *; try lia.
    + exists 0%nat. repeat split; try (cbn; lia). intros [|[|[|[|i]]]] Hi E C; cbn in *; try lia.
    + exists 2%nat. repeat split; try (cbn; lia). intros [|[|[|[|i]]]] Hi E C; cbn in *; try lia.
    + exists 2%nat. repeat split; try (cbn; lia). intros [|[|[|[|i]]]] Hi E C; cbn in *; try lia.
Qed.

(** The constant separates. *)
Example ex_separates : separates sep_cols None 1 asc_one (fun _ => 1).
Proof.
  split.
  - intros c i (Hc & Hi & E & Y & _). unfold choice_vec in Y.
    destruct c as [|[|[|[|c]]]]; cbn in Hc; try lia; cbn in Y; try lra;
      destruct i as [|[|[|[|i]]]]; cbn in Hi; try lia; cbn; lra.
  - exists 0%nat, 1%nat. cbn. repeat split; try lia; lra.
Qed.

(** In the table of PropFit nothing does. *)
Example ex_does_not_separate v : ~ separates fit_cols None 1 asc_one v.
Proof.
  intros (Ha & c & i & (Hc & Hi & E & Y & _) & Hlt).
  assert (A1 := Ha 0%nat 1%nat). assert (A2 := Ha 3%nat 2%nat). cbn in A1, A2.
  assert (0 + 0 * v 0%nat <= 0 + 1 * v 0%nat) by (apply A1; repeat split; try lia; lra).
  assert (0 + 1 * v 0%nat <= 0 + 0 * v 0%nat) by (apply A2; repeat split; try lia; lra).
  unfold choice_vec in Y.
  destruct c as [|[|[|[|c]]]]; cbn in Hc; try lia; cbn in Y; try lra;
    destruct i as [|[|[|[|i]]]]; cbn in Hi; try lia; cbn in E; try lia; cbn in Hlt; lra.
Qed.

Lemma sep_identified : identified sep_cols None 1 asc_one.
Proof.
  intros v Hv j Hj. assert (j = 0%nat) by lia. subst j.
  specialize (Hv 0%nat 1%nat ltac:(cbn; lia) ltac:(cbn; lia) eq_refl). cbn in Hv. lra.
Qed.

(** A fit of it completes with every optimizer that answers, with or without penalty. *)
Lemma sep_fit_completes mz r rg :
  keeps_length mz -> (rg = RidgeNone \/ exists a, rg = RidgeNumber a /\ 0 < a) ->
  (forall e init, fit_estimator sep_model 0 no_draws (sep_args rg) = Ok (e, init) ->
     mz (neg_ll_and_neg_gradient e) (Some (calc_neg_hessian e)) init = Ok (r e)) ->
  exists p out, fit_mle mz scalar_numerics sep_names None sep_model 0 no_draws (sep_args rg) = Ok (Stored p out).
Proof.
  intros Hkl Hrg Hm.
  assert (EF : exists e init, fit_estimator sep_model 0 no_draws (sep_args rg) = Ok (e, init)).
  { destruct Hrg as [->|(a & -> & _)]; eexists; eexists; reflexivity. }
  destruct EF as (e & init & EF).
  eapply (C100_fit_completes_when_identified sep_cols 1 asc_one sep_names None 0 no_draws (sep_args rg) ltac:(lia) mz scalar_numerics e init (r e));
    try reflexivity; try assumption.
  - exact ex_scalar_numerics.
  - exact ex_scalar_inverts.
  - left. exact sep_identified.
  - destruct Hrg as [->|(a & -> & Ha)]; cbn; [exact I|lra].
  - discriminate.
  - apply Hm. exact EF.
Qed.

(** Without penalty: the optimizer returns its starting values, and the reported gradient
    is not zero. *)
Example ex_separated_fit : exists p out name x,
  fit_mle (fun _ _ x0 => Ok (mkMin x0 0)) scalar_numerics sep_names None sep_model 0 no_draws (sep_args RidgeNone) = Ok (Stored p out) /\
  In (name, x) (f_gradient out) /\ x <> 0.
Proof.
  set (mz := fun _ _ x0 => Ok (mkMin x0 0)).
  assert (Hkl : keeps_length mz) by (intros f h x0 r H; injection H as <-; reflexivity).
  assert (E : exists p out, fit_mle mz scalar_numerics sep_names None sep_model 0 no_draws (sep_args RidgeNone) = Ok (Stored p out)).
  { apply (sep_fit_completes mz (fun _ => mkMin (mkArr 1 (fun _ => 0)) 0)); auto.
    intros e init H. unfold mz.
    unfold fit_estimator in H. cbn in H. injection H as _ <-. reflexivity. }
  destruct E as (p & out & E). exists p, out.
  destruct (C120_no_fit_reaches_a_stationary_point sep_cols 1 asc_one sep_names None 0 no_draws (sep_args RidgeNone) mz scalar_numerics
    (fun _ => 1) p out ltac:(lia) sep_one_choice ex_separates Hkl eq_refl E) as (name & x & Hin & Hx).
  exists name, x. auto.
Qed.

(** With penalty: one careful step of gradient descent from zero.  Its result is not worse
    than the null model, so the bound holds for it. *)
Example ex_penalised_fit a : 0 < a -> exists p out,
  fit_mle (careful_step 1) scalar_numerics sep_names None sep_model 0 no_draws (sep_args (RidgeNumber a)) = Ok (Stored p out) /\
  po_null_ll p <= f_log_likelihood out /\
  a * fold_right Rplus 0 (map (fun q => Rsqr (snd q)) (f_params out)) <= - po_null_ll p.
Proof.
  intros Ha. destruct (careful_step_meets_assumptions 1) as (_ & Hkl & Hro & Hnw).
  assert (EF : exists e, fit_estimator sep_model 0 no_draws (sep_args (RidgeNumber a)) = Ok (e, mkArr 1 (fun _ => 0)) /\
    e_core e = CoreLogit KMNL (data_of sep_cols sep_map 1 asc_one (Some (fun _ => 1)) (Some a)) /\ e_constrained e = None)
    by (eexists; repeat split; reflexivity).
  destruct EF as (e & EF & Ec & Econ).
  set (D := data_of sep_cols sep_map 1 asc_one (Some (fun _ => 1)) (Some a)) in *.
  assert (EO : forall x, alen x = 1%nat -> exists g, neg_ll_and_neg_gradient e x = Ok (- est_log_likelihood KMNL D x, g)).
  { intros x Lx. destruct (grad_form KMNL D x ltac:(cbn; lia) Lx) as (g & Eg & _).
    unfold neg_ll_and_neg_gradient. rewrite Ec, Econ. cbn [est_ll est_grad]. rewrite Eg. cbn [bind].
    eexists. f_equal. f_equal. ring. }
  destruct (EO (mkArr 1 (fun _ => 0)) eq_refl) as (g0 & E0).
  destruct (EO (mkArr 1 (fun i => 0 + Ropp 1 * aget g0 i)) eq_refl) as (g1 & E1).
  assert (EM : exists r, careful_step 1 (neg_ll_and_neg_gradient e) (Some (calc_neg_hessian e)) (mkArr 1 (fun _ => 0)) = Ok r).
  { unfold careful_step. rewrite E0. cbn [bind snd fst alen aget]. rewrite E1. cbn [bind fst].
    destruct (Rle_dec _ _); eexists; reflexivity. }
  destruct EM as (r & EM).
  destruct (sep_fit_completes (careful_step 1) (fun _ => r) (RidgeNumber a) Hkl ltac:(right; eauto)) as (p & out & E).
  { intros e' init' H. rewrite EF in H. injection H as <- <-. exact EM. }
  exists p, out. split; [exact E|].
  destruct (C73_reported_log_likelihood _ _ _ _ _ _ _ _ _ _ Hro E) as (e2 & init & He2 & _ & EN & _ & _ & NW).
  rewrite EF in He2. injection He2 as <- <-. cbn [alen] in EN.
  assert (Hge : po_null_ll p <= f_log_likelihood out).
  { rewrite EN. apply (NW Hnw _ _ E0). }
  split; [exact Hge|].
  apply (C121_reported_parameters_are_bounded (careful_step 1) scalar_numerics sep_names None sep_cols 1 asc_one KMNL 0 no_draws
    (sep_args (RidgeNumber a)) p out a ltac:(lia) sep_one_choice ltac:(cbn; repeat split; lia) Hro Hkl eq_refl E Hge).
Qed.

(** The ball of C121 for another type of model. *)
Example ex_ball a : 0 < a ->
  best (KUneven None) (data_of twin_cols twin_mp 3 twin_X None (Some a)) (zeros 5) /\
  picks_chosen_rows twin_cols (fun j => if (j =? 0)%nat then 0%nat else 3%nat).
Proof.
  intros Ha. split; [|apply twin_one_choice].
  apply (twin_best (KUneven None) 3 (Some a)); [lia|cbn; lra|cbn; repeat split; lia].
Qed.

(** The mixed and the nested case: in the tables of PropMixed and PropNested, any vector at
    least as good as zero is bounded. *)
Example ex_mixed_ball a theta : 0 < a -> exists E,
  mixed_data_of exm_cols 2 exm_X [1%nat] 2 exm_draws None (Some a) = Ok E /\
  (calc_mixed_log_likelihood E (zeros (x_vars E)) <= calc_mixed_log_likelihood E theta ->
   a * sumn (alen theta) (fun j => Rsqr (aget theta j)) <= 3 * ln 2).
Proof.
  intros Ha. destruct (exm_null (Some a)) as (E & H & N). exists E. split; [exact H|]. rewrite N. intros Hc.
  destruct exm_hypotheses as (HL & _ & _ & Hone & Hw & _).
  pose proof (C121_mixed_penalty_bounds_the_parameters _ _ _ _ _ _ _ a E (fun _ => 1) theta _ H HL ltac:(lia) Hw Hone Hc). lra.
Qed.

Example ex_nested_ball : (exists mp rn, nested_setup exn_cols exn_nests mp rn) /\ exactly_one_choice exn_cols /\ nonneg_weights exn_cols None.
Proof.
  split; [exact exn_setup|]. split; [|intros i _; cbn; lra].
  exists [0; 0; 1; 0; 1; 0]%Z. split; [reflexivity|]. split.
  - intros i Hi. cbn in Hi. do 6 (destruct i as [|i]; [cbn; auto|]). lia.
  - intros o Ho. cbn in Ho. assert (o = 5 \/ o = 2)%Z as [-> | ->] by lia; [exists 2%nat|exists 4%nat];
      cbn; repeat split; try lia; intros i' Hi' E C; do 6 (destruct i' as [|i']; [cbn in *; try lia; try discriminate|]); lia.
Qed.

Print Assumptions C120_gradient_points_along_the_separation.
Print Assumptions C120_no_stationary_point.
Print Assumptions C120_likelihood_increases_along_the_separation.
Print Assumptions C120_no_maximum.
Print Assumptions C120_no_fit_reaches_a_stationary_point.
Print Assumptions C121_penalty_bounds_the_parameters.
Print Assumptions C121_penalised_estimates_lie_in_a_ball.
Print Assumptions C121_reported_parameters_are_bounded.
Print Assumptions C121_nested_penalty_bounds_the_parameters.
Print Assumptions C121_mixed_penalty_bounds_the_parameters.
