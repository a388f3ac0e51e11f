(** Properties C25-C29: the gradient is the derivative of the log-likelihood. *)
From Coq Require Import String ZArith List Reals Lra Lia Arith.
From Coquelicot Require Import Coquelicot.
From Verif Require Import Res Vec Arr SpecLogit ChoiceCalcs ChoiceFacts Transforms Ids Mappings
  MappingFacts LongData LogitFacts RowDeriv ProbFacts PropMappings PropProbs.
Import ListNotations.
Open Scope R_scope.

(** ** Specification *)

(** The estimator returns a gradient with one entry per parameter, and entry j is
    the partial derivative of the estimator's log-likelihood in parameter j. *)
Definition gradient_is_derivative (k : logit_kind) (D : Data) (theta : arr) : Prop :=
  exists g, est_gradient k D theta = Ok g /\ alen g = alen theta /\
    forall j, (j < alen theta)%nat ->
      is_derive (fun t => est_log_likelihood k D (aupd theta j t)) (aget theta j) (aget g j).

(** No utility is clipped. *)
Definition no_clipping (k : logit_kind) (D : Data) (theta : arr) : Prop :=
  forall i, (i < d_N D)%nat -> -700 < est_utilities k D theta i < 700.

(** A reference position, if any, is one of the alternatives' positions. *)
Definition valid_ref (iref : option nat) (J : nat) : Prop :=
  match iref with Some r => (r < J)%nat | None => True end.

(** ** Facts *)

Lemma check_length_ok k J K th :
  check_length_of_initial_values k J K th = Ok tt -> alen th = assumed_param_dimensions k J K.
Proof.
  unfold check_length_of_initial_values.
  destruct (Nat.eqb_spec (alen th) (assumed_param_dimensions k J K)); [auto|discriminate].
Qed.

Lemma est_utilities_eq k D th :
  (0 < d_K D)%nat -> alen th = (num_shapes k (d_J D) + num_icpts k (d_J D) + d_K D)%nat ->
  est_utilities k D th = utility k D th.
Proof. intros HK HL. unfold est_utilities. rewrite split_eq by assumption. reflexivity. Qed.

Lemma est_index_eq k D th :
  (0 < d_K D)%nat -> alen th = (num_shapes k (d_J D) + num_icpts k (d_J D) + d_K D)%nat ->
  est_index k D th = vrow k D th.
Proof. intros HK HL. unfold est_index. rewrite split_eq by assumption. reflexivity. Qed.

Lemma num_alts_pos d spec mp K X w ridge :
  create_long_form_mappings d spec = Ok mp -> alt_ids d <> [] ->
  (0 < d_J (data_of d mp K X w ridge))%nat.
Proof.
  intros H Hne. rewrite (data_J d spec) by exact H.
  destruct (alt_ids d) as [|a r] eqn:E; [congruence|].
  assert (Hin : In a (np_unique (a :: r))) by (apply np_unique_In; left; reflexivity).
  destruct (np_unique (a :: r)); [destruct Hin|simpl; lia].
Qed.

Lemma gradient_correct k d spec mp K X w ridge theta :
  create_long_form_mappings d spec = Ok mp ->
  length (alt_ids d) = length (obs_ids d) -> (0 < K)%nat ->
  exactly_one_choice d -> same_weight_within_observation d w ->
  let D := data_of d mp K X w ridge in
  kind_ok k (d_J D) ->
  check_length_of_initial_values k (d_J D) K theta = Ok tt ->
  no_clipping k D theta ->
  (forall i, (i < d_N D)%nat -> regular k (est_index k D theta i)) ->
  gradient_is_derivative k D theta.
Proof.
  intros Hmp HL HK Hone Hw D Hok Hlen Hclip Hreg.
  apply check_length_ok in Hlen. rewrite dims_eq in Hlen by exact Hok.
  change K with (d_K D) in Hlen, HK.
  pose proof (data_obs_indicator d spec mp K X w ridge Hmp) as Hown.
  pose proof (data_alt_indicator d spec mp K X w ridge Hmp HL) as Halt.
  destruct (grad_form k D theta HK Hlen) as (g & Eg & Lg & _).
  exists g. split; [exact Eg|]. split; [exact Lg|]. intros j Hj.
  apply (ll_derive k D (own_of (obs_ids d)) theta j HK Hlen Hown); try assumption.
  - apply weight_condition; [apply one_choice_of; exact Hone|apply weights_of; exact Hw].
  - intros i Hi. specialize (Hclip i Hi). rewrite est_utilities_eq in Hclip by assumption.
    exact Hclip.
  - intros i Hi. apply (row_derivative k D (alt_of (alt_ids d)) Hok HK Halt); try assumption.
    rewrite <- est_index_eq by assumption. apply Hreg. exact Hi.
Qed.

(** ** C25: multinomial logit *)
Theorem C25_mnl_gradient d spec mp K X w ridge theta :
  create_long_form_mappings d spec = Ok mp ->
  length (alt_ids d) = length (obs_ids d) -> (0 < K)%nat ->
  exactly_one_choice d -> same_weight_within_observation d w ->
  let D := data_of d mp K X w ridge in
  check_length_of_initial_values KMNL (d_J D) K theta = Ok tt ->
  no_clipping KMNL D theta ->
  gradient_is_derivative KMNL D theta.
Proof.
  intros Hmp HL HK Hone Hw D Hlen Hclip.
  destruct (alt_ids d) as [|a r] eqn:E.
  - (* no rows: nothing is chosen, everything is the ridge *)
    assert (Hown := data_obs_indicator d spec mp K X w ridge Hmp).
    apply check_length_ok in Hlen. simpl in Hlen. change K with (d_K D) in Hlen, HK.
    destruct (grad_form KMNL D theta HK Hlen) as (g & Eg & Lg & _).
    exists g. split; [exact Eg|]. split; [exact Lg|]. intros j Hj.
    assert (N0 : d_N D = 0%nat) by (unfold D, data_of; cbn; rewrite <- HL; reflexivity).
    apply (ll_derive KMNL D (own_of (obs_ids d)) theta j HK Hlen Hown); try assumption;
      intros i Hi; rewrite N0 in Hi; lia.
  - apply (gradient_correct KMNL d spec); try assumption.
    + rewrite E. exact HL.
    + split; [|split; exact I]. apply (num_alts_pos d spec mp K X w ridge Hmp). rewrite E. discriminate.
    + intros. exact I.
Qed.

(** ** C26: clog-log, below the switch-over point 3.7 of the transform *)
Theorem C26_clog_log_gradient iref d spec mp K X w ridge theta :
  create_long_form_mappings d spec = Ok mp ->
  length (alt_ids d) = length (obs_ids d) -> alt_ids d <> [] -> (0 < K)%nat ->
  exactly_one_choice d -> same_weight_within_observation d w ->
  let D := data_of d mp K X w ridge in
  valid_ref iref (length (np_unique (alt_ids d))) ->
  check_length_of_initial_values (KClog iref) (d_J D) K theta = Ok tt ->
  no_clipping (KClog iref) D theta ->
  (forall i, (i < d_N D)%nat -> est_index (KClog iref) D theta i < 3.7) ->
  gradient_is_derivative (KClog iref) D theta.
Proof.
  intros Hmp HL Hne HK Hone Hw D Hr Hlen Hclip Hreg.
  apply (gradient_correct (KClog iref) d spec); try assumption.
  split; [apply (num_alts_pos d spec mp K X w ridge Hmp Hne)|].
  split; [|exact I]. fold D. unfold D. rewrite (data_J d spec) by exact Hmp. exact Hr.
Qed.

(** ** C27: scobit *)
Theorem C27_scobit_gradient iref d spec mp K X w ridge theta :
  create_long_form_mappings d spec = Ok mp ->
  length (alt_ids d) = length (obs_ids d) -> alt_ids d <> [] -> (0 < K)%nat ->
  exactly_one_choice d -> same_weight_within_observation d w ->
  let D := data_of d mp K X w ridge in
  valid_ref iref (length (np_unique (alt_ids d))) ->
  check_length_of_initial_values (KScobit iref) (d_J D) K theta = Ok tt ->
  no_clipping (KScobit iref) D theta ->
  gradient_is_derivative (KScobit iref) D theta.
Proof.
  intros Hmp HL Hne HK Hone Hw D Hr Hlen Hclip.
  apply (gradient_correct (KScobit iref) d spec); try assumption.
  - split; [apply (num_alts_pos d spec mp K X w ridge Hmp Hne)|].
    split; [|exact I]. rewrite (data_J d spec) by exact Hmp. exact Hr.
  - intros. exact I.
Qed.

(** ** C28: uneven logit *)
Theorem C28_uneven_gradient iref d spec mp K X w ridge theta :
  create_long_form_mappings d spec = Ok mp ->
  length (alt_ids d) = length (obs_ids d) -> alt_ids d <> [] -> (0 < K)%nat ->
  exactly_one_choice d -> same_weight_within_observation d w ->
  let D := data_of d mp K X w ridge in
  valid_ref iref (length (np_unique (alt_ids d))) ->
  check_length_of_initial_values (KUneven iref) (d_J D) K theta = Ok tt ->
  no_clipping (KUneven iref) D theta ->
  gradient_is_derivative (KUneven iref) D theta.
Proof.
  intros Hmp HL Hne HK Hone Hw D Hr Hlen Hclip.
  apply (gradient_correct (KUneven iref) d spec); try assumption.
  - split; [apply (num_alts_pos d spec mp K X w ridge Hmp Hne)|].
    split; [|exact I]. rewrite (data_J d spec) by exact Hmp. exact Hr.
  - intros. exact I.
Qed.

(** ** C29: asymmetric logit, away from the kink of the transform at zero index *)
Theorem C29_asym_gradient sref iref d spec mp K X w ridge theta :
  create_long_form_mappings d spec = Ok mp ->
  length (alt_ids d) = length (obs_ids d) -> (0 < K)%nat ->
  exactly_one_choice d -> same_weight_within_observation d w ->
  let D := data_of d mp K X w ridge in
  valid_ref iref (length (np_unique (alt_ids d))) ->
  (sref < length (np_unique (alt_ids d)))%nat -> (2 <= length (np_unique (alt_ids d)))%nat ->
  check_length_of_initial_values (KAsym sref iref) (d_J D) K theta = Ok tt ->
  no_clipping (KAsym sref iref) D theta ->
  (forall i, (i < d_N D)%nat -> est_index (KAsym sref iref) D theta i <> 0) ->
  gradient_is_derivative (KAsym sref iref) D theta.
Proof.
  intros Hmp HL HK Hone Hw D Hr Hs HJ Hlen Hclip Hreg.
  apply (gradient_correct (KAsym sref iref) d spec); try assumption.
  split; [|split]; unfold D; rewrite (data_J d spec) by exact Hmp; [lia|exact Hr|split; assumption].
Qed.

(** ** Concrete cases meeting the hypotheses: the dataset of PropMappings (two
    observations, three alternatives), an intercept for alternatives 2 and 3. *)
Definition ex_X1 : mat := fun i q => if (i =? 0)%nat then 1 else if (i =? 4)%nat then -1 else / 2.


Lemma ex_weights : same_weight_within_observation ex_cols (Some (fun i => if (i <? 3)%nat then 2 else 1)).
Proof.
  intros i i' Hi Hi' E. cbn [obs_ids ex_cols length] in *.
  destruct i as [|[|[|[|[|i]]]]]; try lia; destruct i' as [|[|[|[|[|i']]]]]; try lia;
    simpl in *; try reflexivity; discriminate.
Qed.

Definition ex_w : option vec := Some (fun i => if (i <? 3)%nat then 2 else 1).

Example ex_mnl_case : exists mp,
  create_long_form_mappings ex_cols None = Ok mp /\
  length (alt_ids ex_cols) = length (obs_ids ex_cols) /\ exactly_one_choice ex_cols /\
  same_weight_within_observation ex_cols ex_w /\
  let D := data_of ex_cols mp 1 ex_X1 ex_w (Some (/ 10)) in
  check_length_of_initial_values KMNL (d_J D) 1 (mkArr 1 (fun _ => 3)) = Ok tt /\
  no_clipping KMNL D (mkArr 1 (fun _ => 3)).
Proof.
  eexists. split; [reflexivity|]. split; [reflexivity|]. split; [exact ex_exactly_one|].
  split; [exact ex_weights|]. split; [reflexivity|].
  intros i Hi. unfold est_utilities. simpl. unfold mnl_transform, sys_utilities, mvec. simpl.
  unfold ex_X1. destruct (i =? 0)%nat; [lra|]. destruct (i =? 4)%nat; lra.
Qed.

Example ex_uneven_case : exists mp,
  create_long_form_mappings ex_cols None = Ok mp /\
  valid_ref (Some 0%nat) (length (np_unique (alt_ids ex_cols))) /\
  let D := data_of ex_cols mp 1 ex_X1 None None in
  check_length_of_initial_values (KUneven (Some 0%nat)) (d_J D) 1 (mkArr 6 (fun _ => 0)) = Ok tt /\
  no_clipping (KUneven (Some 0%nat)) D (mkArr 6 (fun _ => 0)).
Proof.
  eexists. split; [reflexivity|]. split; [simpl; lia|]. split; [reflexivity|].
  intros i Hi. cbn in Hi.
  assert (V0 : forall i, sys_utilities (data_of ex_cols
      (mkMappings (create_sparse_mapping (obs_ids ex_cols) None)
         (create_sparse_mapping (alt_ids ex_cols) (Some (np_unique (alt_ids ex_cols)))) None None None) 1 ex_X1 None None)
      (mkArr 6 (fun _ => 0)) i = 0).
  { intros r. unfold sys_utilities, mvec. simpl. ring. }
  unfold est_utilities. cbn [split_param_vec]. unfold model_of, Uneven_model, m_transform, uneven_transform.
  unfold neg_slice. cbn [alen Nat.eqb]. unfold sys_utilities, mvec, long_intercepts, long_natural_shapes, mvec.
  cbn [d_K data_of sumn]. cbn [aslice aget]. cbn.
  unfold fill_others. cbn. 
  rewrite !Rmult_0_r, !Rplus_0_l, !Rmult_0_r. rewrite exp_0.
  match goal with |- _ < ?x < _ => replace x with 0 by ring end. lra.
Qed.

Lemma ln3_bounds : 0 < ln 3 < 3.
Proof.
  split; [rewrite <- ln_1; apply ln_increasing; lra|].
  apply Rlt_le_trans with (ln (exp 3)); [|rewrite ln_exp; lra]. apply ln_increasing; [lra|]. assert (1 + 3 < exp 3) by (apply exp_ineq1; lra). lra.
Qed.

Example ex_clog_case : exists mp,
  create_long_form_mappings ex_cols None = Ok mp /\
  let D := data_of ex_cols mp 1 ex_X1 None None in
  check_length_of_initial_values (KClog None) (d_J D) 1 (mkArr 1 (fun _ => 0)) = Ok tt /\
  no_clipping (KClog None) D (mkArr 1 (fun _ => 0)) /\
  forall i, (i < d_N D)%nat -> est_index (KClog None) D (mkArr 1 (fun _ => 0)) i < 3.7.
Proof.
  eexists. split; [reflexivity|]. split; [reflexivity|].
  assert (V0 : forall i, ex_X1 i 0%nat * 0 = 0) by (intros; ring).
  split.
  - intros i Hi. unfold est_utilities. simpl. unfold cloglog_transform, sys_utilities, mvec, long_intercepts. simpl.
    rewrite V0, !Rplus_0_l. rewrite exp_0.
    destruct (Rle_dec 3.7 0); [lra|]. pose proof exp_le_3. assert (1 + 1 < exp 1) by (apply exp_ineq1; lra).
    assert (0 < ln (exp 1 - 1) < 3); [|lra]. split.
    + rewrite <- ln_1. apply ln_increasing; lra.
    + apply Rlt_trans with (ln 3); [apply ln_increasing; lra|apply ln3_bounds].
  - intros i Hi. unfold est_index. simpl. unfold sys_utilities, mvec. simpl. rewrite V0. lra.
Qed.

Example ex_scobit_case : exists mp,
  create_long_form_mappings ex_cols None = Ok mp /\
  let D := data_of ex_cols mp 1 ex_X1 None None in
  check_length_of_initial_values (KScobit None) (d_J D) 1 (mkArr 4 (fun _ => 0)) = Ok tt /\
  no_clipping (KScobit None) D (mkArr 4 (fun _ => 0)).
Proof.
  eexists. split; [reflexivity|]. split; [reflexivity|].
  set (mp := mkMappings _ _ _ _ _).
  intros i Hi.
  rewrite est_utilities_eq by (cbn; lia).
  rewrite (utility_row _ _ (alt_of (alt_ids ex_cols))).
  - unfold arow, Gk, srow, vrow, sys_utilities, mvec, scobit_G. simpl. rewrite Rmult_0_r, Rplus_0_l, Rmult_0_r, exp_0.
    rewrite Rpower_1 by lra. replace (1 + 1 - 1) with 1 by ring. rewrite ln_1. lra.
  - split; [cbn; lia|]. split; exact I.
  - cbn; lia.
  - apply (data_alt_indicator ex_cols None mp 1 ex_X1 None None); reflexivity.
  - exact Hi.
Qed.

Example ex_asym_case : exists mp,
  create_long_form_mappings ex_cols None = Ok mp /\
  (1 < length (np_unique (alt_ids ex_cols)))%nat /\
  let D := data_of ex_cols mp 1 ex_X1 None None in
  let theta := mkArr 3 (fun i => if (i =? 2)%nat then 1 else 0) in
  check_length_of_initial_values (KAsym 1 None) (d_J D) 1 theta = Ok tt /\
  no_clipping (KAsym 1 None) D theta /\
  forall i, (i < d_N D)%nat -> est_index (KAsym 1 None) D theta i <> 0.
Proof.
  eexists. split; [reflexivity|]. split; [cbn; lia|]. split; [reflexivity|].
  set (mp := mkMappings _ _ _ _ _).
  split.
  - intros i Hi.
    rewrite est_utilities_eq by (cbn; lia).
    rewrite (utility_row _ _ (alt_of (alt_ids ex_cols))).
    + assert (C3 : convert_eta_to_c (aslice 0 2 (mkArr 3 (fun i => if (i =? 2)%nat then 1 else 0))) 1
                     (alt_of (alt_ids ex_cols) i) = / 3).
      { assert (Ha : (alt_of (alt_ids ex_cols) i < 3)%nat).
        { cbn in Hi. destruct i as [|[|[|[|[|i]]]]]; try lia; cbv; lia. }
        generalize dependent (alt_of (alt_ids ex_cols) i). intros a Ha.
        rewrite convert_eta_eq. unfold eta_denom. destruct a as [|[|[|]]]; try lia;
          unfold unskip; cbn; rewrite !exp_0; field. }
      unfold arow, Gk, srow, vrow, sys_utilities, mvec, asym_G. cbn [kind_iref].
      replace (d_J (data_of ex_cols mp 1 ex_X1 None None) - 1)%nat with 2%nat by reflexivity.
      rewrite C3. simpl.
      replace ((1 - / 3) / (1 + 1 + 1 - 1)) with (/ 3) by field.
      rewrite ln_Rinv by lra. pose proof ln3_bounds.
      replace (if Rle_dec 0 (0 + ex_X1 i 0%nat * 1) then - ln 3 else - ln 3) with (- ln 3)
        by (destruct (Rle_dec 0 (0 + ex_X1 i 0%nat * 1)); reflexivity).
      assert (B : -1 <= ex_X1 i 0%nat <= 1).
      { unfold ex_X1. destruct (i =? 0)%nat; [lra|]. destruct (i =? 4)%nat; lra. }
      nra.
    + split; [cbn; lia|]. split; [exact I|cbn; lia].
    + cbn; lia.
    + apply (data_alt_indicator ex_cols None mp 1 ex_X1 None None); reflexivity.
    + exact Hi.
  - intros i Hi. unfold est_index. simpl. unfold sys_utilities, mvec. simpl.
    unfold ex_X1. destruct (i =? 0)%nat; [lra|]. destruct (i =? 4)%nat; lra.
Qed.

Print Assumptions C25_mnl_gradient.
Print Assumptions C26_clog_log_gradient.
Print Assumptions C27_scobit_gradient.
Print Assumptions C28_uneven_gradient.
Print Assumptions C29_asym_gradient.
