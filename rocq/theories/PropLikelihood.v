(** Properties C22, C23, C24, C37, C38: special cases, the log-likelihood as a
    sum over observations, the null model and frequency weights. *)
From Coq Require Import String ZArith List Reals Lra Lia Arith.
From Coquelicot Require Import Coquelicot.
From Verif Require Import Res Vec Arr SpecLogit ChoiceCalcs ChoiceFacts Transforms Ids Mappings
  MappingFacts LongData LogitFacts RowDeriv HessFacts ProbFacts PropMappings PropProbs PropGradient
  PropHessian.
Import ListNotations.
Open Scope R_scope.

Definition zeros (n : nat) : arr := mkArr n (fun _ => 0).

(** ** C23: natural shape parameters of the asymmetric logit *)
Theorem C23_natural_shapes_are_probabilities eta ref J :
  (ref < J)%nat -> alen eta = (J - 1)%nat ->
  let c := convert_eta_to_c eta ref in
  (forall j, (j < J)%nat -> 0 < c j <= 1) /\
  sumn J c = 1 /\
  (* log-odds against the reference are the free parameters, in order *)
  (forall q, (q < J - 1)%nat -> ln (c (skip ref q) / c ref) = aget eta q).
Proof.
  intros Hr HL c. split; [|split].
  - intros j Hj. split; [apply convert_eta_pos|].
    rewrite <- (convert_eta_sum eta ref J Hr HL). apply sumn_ge_term; [|exact Hj].
    intros i _. left. apply convert_eta_pos.
  - apply convert_eta_sum; assumption.
  - intros q Hq. unfold c. rewrite !convert_eta_eq, Nat.eqb_refl.
    destruct (Nat.eqb_spec (skip ref q) ref) as [E|_]; [destruct (skip_ne ref q E)|].
    replace (unskip ref (skip ref q)) with q by (symmetry; apply (skip_unskip ref q); reflexivity).
    pose proof (eta_denom_pos eta).
    replace (exp (aget eta q) / eta_denom eta / (1 / eta_denom eta)) with (exp (aget eta q)) by (field; lra).
    apply ln_exp.
Qed.

(** Hence different free vectors give different natural shapes. *)
Theorem C23_natural_shapes_injective eta eta' ref J :
  (ref < J)%nat -> alen eta = (J - 1)%nat -> alen eta' = (J - 1)%nat ->
  (forall j, (j < J)%nat -> convert_eta_to_c eta ref j = convert_eta_to_c eta' ref j) ->
  forall q, (q < J - 1)%nat -> aget eta q = aget eta' q.
Proof.
  intros Hr HL HL' E q Hq.
  destruct (C23_natural_shapes_are_probabilities eta ref J Hr HL) as (_ & _ & A).
  destruct (C23_natural_shapes_are_probabilities eta' ref J Hr HL') as (_ & _ & A').
  rewrite <- A, <- A' by exact Hq. rewrite !E; [reflexivity|exact Hr|]. apply skip_lt; assumption.
Qed.

(** ** C24: the log-likelihood as a sum over observations *)

(** [row] picks, for the j-th distinct observation id in order of appearance, its
    chosen row. *)
Definition picks_chosen_rows (d : long_cols) (row : nat -> nat) : Prop :=
  forall j, (j < length (first_seen (obs_ids d)))%nat ->
    (row j < length (obs_ids d))%nat /\
    nth (row j) (obs_ids d) 0%Z = nth j (first_seen (obs_ids d)) 0%Z /\
    choice_vec d (row j) = 1.

Lemma id_sum_chosen d row f j :
  exactly_one_choice d -> picks_chosen_rows d row -> (j < length (first_seen (obs_ids d)))%nat ->
  id_sum (obs_ids d) (nth j (first_seen (obs_ids d)) 0%Z) (fun i => choice_vec d i * f i) = f (row j).
Proof.
  intros (c & Ec & H01 & Hex) Hrow Hj. destruct (Hrow j Hj) as (Hr & Er & Cr).
  rewrite (id_sum_single _ _ _ (row j) Hr Er).
  - rewrite Cr. ring.
  - intros i' Hi' E' Hne.
    assert (Hc : forall r, choice_vec d r = IZR (nth r c 0%Z)) by (intros r; unfold choice_vec; rewrite Ec; reflexivity).
    destruct (H01 i' Hi') as [Z0|Z1]; [rewrite Hc, Z0; ring|].
    exfalso. apply Hne. destruct (Hex (nth j (first_seen (obs_ids d)) 0%Z)) as (r & _ & _ & _ & Hu).
    { rewrite <- Er. apply nth_In. exact Hr. }
    rewrite (Hu i' Hi' E' Z1). symmetry. apply Hu; try assumption.
    rewrite Hc in Cr. apply eq_IZR. exact Cr.
Qed.

Section LL.
  Context (k : logit_kind) (d : long_cols) (spec : option nest_spec) (mp : mappings) (K : nat)
          (X : mat) (w : option vec) (ridge : option R) (theta : arr).
  Hypothesis Hmp : create_long_form_mappings d spec = Ok mp.
  Hypothesis HK : (0 < K)%nat.
  Let D := data_of d mp K X w ridge.
  Hypothesis Hk : kind_ok k (d_J D).
  Hypothesis Hlen : check_length_of_initial_values k (d_J D) K theta = Ok tt.

  Lemma len_ok : alen theta = (num_shapes k (d_J D) + num_icpts k (d_J D) + d_K D)%nat.
  Proof. rewrite (check_length_ok _ _ _ _ Hlen). apply dims_eq. exact Hk. Qed.

  Theorem C24_log_likelihood_sum row :
    exactly_one_choice d -> picks_chosen_rows d row ->
    est_log_likelihood k D theta =
    sumn (length (first_seen (obs_ids d)))
      (fun j => eff_weights w (row j) * ln (est_long_probs k D theta (row j)))
    - match ridge with Some r => r * sumn (alen theta) (fun j => Rsqr (aget theta j)) | None => 0 end.
  Proof.
    intros Hone Hrow. rewrite est_ll_eq by (try exact HK; apply len_ok).
    rewrite est_long_probs_eq by (try exact HK; apply len_ok).
    fold (probs_at k D theta). f_equal.
    - change (d_N D) with (length (obs_ids d)). rewrite sumn_by_ids, suml_seq. apply sumn_ext.
      intros j Hj. apply (id_sum_chosen d row (fun i => eff_weights w i * ln (probs_at k D theta i))); assumption.
    - unfold ridge_or_0, D, data_of; cbn [d_ridge]. destruct ridge; [reflexivity|ring].
  Qed.

  Theorem C24_log_likelihood_nonpositive :
    exactly_one_choice d -> nonneg_weights d w -> nonneg_ridge ridge ->
    est_log_likelihood k D theta <= 0.
  Proof.
    intros (c & Ec & H01 & _) Hw Hr. rewrite est_ll_eq by (try exact HK; apply len_ok).
    fold (probs_at k D theta).
    assert (A : 0 <= sumn (d_N D) (fun i => - (d_y D i * (eff_weights (d_w D) i * ln (probs_at k D theta i))))).
    { apply sumn_ge0. intros i Hi. pose proof (data_obs_indicator d spec mp K X w ridge Hmp) as Ho. fold D in Ho.
      assert (P : 0 < probs_at k D theta i <= 1).
      { split; [apply (long_probs_pos (model_of k) _ _ Ho)|apply (long_probs_le1 (model_of k) _ _ Ho)]; exact Hi. }
      assert (L : ln (probs_at k D theta i) <= 0).
      { rewrite <- ln_1. destruct (proj2 P) as [Hlt| ->]; [left; apply ln_increasing; lra|lra]. }
      assert (Y : 0 <= d_y D i).
      { change (d_y D) with (choice_vec d). unfold choice_vec. rewrite Ec. destruct (H01 i Hi) as [->| ->]; lra. }
      specialize (Hw i Hi). change (eff_weights w i) with (eff_weights (d_w D) i) in Hw.
      assert (0 <= d_y D i * (eff_weights (d_w D) i * - ln (probs_at k D theta i))).
      { apply Rmult_le_pos; [exact Y|]. apply Rmult_le_pos; lra. }
      lra. }
    rewrite sumn_opp in A.
    assert (B : 0 <= ridge_or_0 D * asumsq theta).
    { apply Rmult_le_pos.
      - unfold ridge_or_0, D, data_of; cbn [d_ridge]. destruct ridge; [exact Hr|lra].
      - apply sumn_ge0. intros i _. apply Rle_0_sqr. }
    lra.
  Qed.
End LL.

(** ** C37: the zero vector is the equal-shares model *)

Lemma zero_utility k D th i own :
  (2 <= d_J D)%nat \/ (forall s r, k <> KAsym s r) ->
  indicator_of (d_N D) (d_J D) (d_A D) own -> kind_ok k (d_J D) ->
  (forall j, (j < num_shapes k (d_J D) + num_icpts k (d_J D) + d_K D)%nat -> aget th j = 0) ->
  (i < d_N D)%nat ->
  utility k D th i =
  match k with
  | KClog _ => ln (exp 1 - 1)
  | KAsym _ _ => - ln (INR (d_J D))
  | _ => 0
  end.
Proof.
  intros H2 HA Hk Hz Hi.
  assert (V : sys_utilities D (be k (d_J D) (d_K D) th) i = 0).
  { unfold sys_utilities, mvec. apply sumn_eq0. intros q Hq. cbn [be aslice aget]. rewrite Hz by lia. ring. }
  assert (IC : forall r, kind_iref k = r -> long_intercepts (d_J D) (d_A D) r (ic k (d_J D) th) i = 0).
  { intros r Er. unfold long_intercepts, ic. destruct (Nat.ltb_spec 0 (num_icpts k (d_J D))) as [Hp|]; [|reflexivity].
    destruct r as [r|]; [|reflexivity]. unfold mvec. apply sumn_eq0. intros j Hj. unfold fill_others.
    destruct (Nat.eqb_spec j r); [ring|]. cbn [aslice aget]. rewrite Hz; [ring|].
    unfold num_icpts. rewrite Er. destruct (Nat.ltb_spec j r) as [Hl|Hl];
      [destruct Hk as (_ & Hr & _); rewrite Er in Hr|]; lia. }
  assert (NS : (num_shapes k (d_J D) = d_J D) -> has_shape k = true -> long_natural_shapes (d_J D) (d_A D) (sh k (d_J D) th) i = 1).
  { intros E Eh. unfold sh. rewrite Eh. unfold long_natural_shapes. rewrite (indicator_dot _ _ _ _ _ _ HA Hi).
    destruct (HA i Hi) as [Ho _]. cbn [aslice aget Nat.add]. rewrite Hz by lia. apply exp_0. }
  unfold utility. destruct k as [|r|r|r|s r]; cbn [model_of m_transform MNL_model Clog_model Scobit_model Uneven_model Asym_model].
  - exact V.
  - unfold cloglog_transform. rewrite V, IC by reflexivity. destruct (Rle_dec 3.7 0); [lra|].
    rewrite exp_0. ring.
  - unfold scobit_transform. rewrite V, IC, NS by reflexivity. rewrite Rmult_0_r, exp_0, Rpower_1 by lra.
    replace (1 + 1 - 1) with 1 by ring. rewrite ln_1. ring.
  - unfold uneven_transform. rewrite V, IC, NS by reflexivity. rewrite !Rmult_0_r. ring.
  - unfold asym_transform, asym_long_shapes. rewrite V, IC by reflexivity.
    rewrite (indicator_dot _ _ _ _ _ _ HA Hi). cbn [sh has_shape asym_natural_shapes].
    destruct Hk as (_ & _ & Hs & HJ2).
    assert (E : convert_eta_to_c (aslice 0 (num_shapes (KAsym s r) (d_J D)) th) s (own i) = / INR (d_J D)).
    { rewrite convert_eta_eq. unfold eta_denom. cbn [aslice alen aget num_shapes Nat.add].
      rewrite (sumn_ext _ _ (fun _ => 1)).
      2: { intros q Hq. rewrite Hz by (cbn [num_shapes]; lia). apply exp_0. }
      rewrite sumn_const, minus_INR by lia. cbn [INR].
      replace (INR (d_J D) - 1) with (INR (d_J D) + -1) by ring.
      assert (0 < INR (d_J D)) by (apply lt_0_INR; lia).
      destruct (HA i Hi) as [Ho _].
      destruct (Nat.eqb_spec (own i) s) as [|Hne].
      - field. lra.
      - rewrite Hz; [rewrite exp_0; field; lra|]. cbn [num_shapes]. unfold unskip.
        destruct (Nat.ltb_spec (own i) s); lia. }
    rewrite E, ln_Rinv by (apply lt_0_INR; lia). ring.
Qed.

(** Number of rows of an observation. *)
Definition rows_of (ids : list Z) (o : Z) : nat := count_occ Z.eq_dec ids o.

Lemma id_sum_const ids o c : id_sum ids o (fun _ => c) = INR (rows_of ids o) * c.
Proof.
  unfold id_sum, rows_of. induction ids as [|a ids IH] using rev_ind; [simpl; ring|].
  rewrite app_length, Nat.add_1_r. cbn [sumn].
  rewrite count_occ_app, plus_INR, Rmult_plus_distr_r.
  rewrite (sumn_ext _ _ (fun i => if (nth i ids 0 =? o)%Z then c else 0)).
  2: { intros i Hi. rewrite app_nth1 by exact Hi. reflexivity. }
  rewrite IH. f_equal. rewrite app_nth2, Nat.sub_diag by lia. cbn [nth count_occ].
  destruct (Z.eqb_spec a o); destruct (Z.eq_dec a o); try contradiction; simpl; ring.
Qed.

Theorem C37_equal_shares k d spec mp K X w ridge i :
  create_long_form_mappings d spec = Ok mp ->
  length (alt_ids d) = length (obs_ids d) -> (0 < K)%nat ->
  let D := data_of d mp K X w ridge in
  kind_ok k (d_J D) ->
  (i < length (obs_ids d))%nat ->
  est_long_probs k D (zeros (assumed_param_dimensions k (d_J D) K)) i
  = / INR (rows_of (obs_ids d) (nth i (obs_ids d) 0%Z)).
Proof.
  intros Hmp HL HK D Hk Hi.
  set (th := zeros (assumed_param_dimensions k (d_J D) K)).
  rewrite est_long_probs_eq; [|exact HK|apply dims_eq; exact Hk]. unfold probs_at, D.
  rewrite (probs_closed (model_of k) d spec mp K X w ridge Hmp) by exact Hi. fold D.
  assert (U : exists c, forall r, (r < length (obs_ids d))%nat ->
     long_exponentials (model_of k) D (sh k (d_J D) th) (ic k (d_J D) th) (be k (d_J D) (d_K D) th) r = exp c).
  { eexists (clip_exponent _). intros r Hr. unfold long_exponentials. f_equal. f_equal.
    apply (zero_utility k D th r (alt_of (alt_ids d))); try assumption.
    - destruct k; try (right; discriminate). left. apply Hk.
    - apply (data_alt_indicator d spec); assumption.
    - intros; reflexivity. }
  destruct U as (c & U). rewrite (id_sum_ext _ _ _ (fun _ => exp c)) by (intros; apply U; assumption).
  rewrite U, id_sum_const by exact Hi. pose proof (exp_pos c).
  assert (0 < INR (rows_of (obs_ids d) (nth i (obs_ids d) 0%Z))).
  { apply lt_0_INR. apply count_occ_In. apply nth_In. exact Hi. }
  field. lra.
Qed.

Theorem C37_null_log_likelihood k d spec mp K X w ridge row :
  create_long_form_mappings d spec = Ok mp ->
  length (alt_ids d) = length (obs_ids d) -> (0 < K)%nat ->
  exactly_one_choice d -> picks_chosen_rows d row ->
  let D := data_of d mp K X w ridge in
  kind_ok k (d_J D) ->
  est_log_likelihood k D (zeros (assumed_param_dimensions k (d_J D) K)) =
  - sumn (length (first_seen (obs_ids d)))
      (fun j => eff_weights w (row j) * ln (INR (rows_of (obs_ids d) (nth j (first_seen (obs_ids d)) 0%Z)))).
Proof.
  intros Hmp HL HK Hone Hrow D Hk.
  unfold D. rewrite (C24_log_likelihood_sum k d mp K X w ridge _ HK Hk) with (row := row); try assumption.
  2: { unfold check_length_of_initial_values. cbn [zeros alen]. rewrite Nat.eqb_refl. reflexivity. }
  rewrite (sumn_ext _ _ (fun j => - (eff_weights w (row j) * ln (INR (rows_of (obs_ids d) (nth j (first_seen (obs_ids d)) 0%Z)))))).
  - rewrite sumn_opp. destruct ridge; [|ring]. cbn [zeros aget alen]. rewrite Rsqr_0, sumn_zero. ring.
  - intros j Hj. destruct (Hrow j Hj) as (Hr & Er & _).
    rewrite (C37_equal_shares k d spec mp K X w ridge) by assumption. rewrite Er, ln_Rinv; [ring|].
    apply lt_0_INR. apply count_occ_In. rewrite <- Er. apply nth_In. exact Hr.
Qed.

(** ** C22: asymmetric models contain the MNL *)

(** The design matrix with one column of alternative-specific constants for every
    alternative except the reference, in front of the given columns. *)
Definition with_constants (iref : option nat) (J : nat) (A X : mat) : mat :=
  match iref with Some r => hcat (J - 1) (fun i q => A i (skip r q)) X | None => X end.

Definition num_constants (iref : option nat) (J : nat) : nat :=
  match iref with Some _ => (J - 1)%nat | None => 0%nat end.

Lemma constants_dot iref J A X K (a b : vec) i :
  valid_ref iref J ->
  sumn (num_constants iref J + K) (fun q => with_constants iref J A X i q * vcat (num_constants iref J) a b q)
  = (match iref with Some r => mvec J A (fill_others r a 0) i | None => 0 end) + sumn K (fun q => X i q * b q).
Proof.
  intros Hr. destruct iref as [r|]; cbn [num_constants with_constants].
  - rewrite sumn_app. f_equal.
    + simpl in Hr.
      assert (E : mvec J A (fill_others r a 0) i = sumn J (fill_others r (fun q => A i (skip r q) * a q) 0)).
      { unfold mvec. apply sumn_ext. intros j Hj. rewrite !fill_unskip.
        destruct (Nat.eqb_spec j r) as [|Hne]; [ring|]. f_equal. f_equal.
        symmetry. apply skip_unskip. auto. }
      rewrite E, sumn_fill by exact Hr. rewrite Rplus_0_l. apply sumn_ext. intros q Hq.
      unfold hcat. rewrite !vcat_l by exact Hq. reflexivity.
    + apply sumn_ext. intros q Hq. unfold hcat. rewrite !vcat_r. reflexivity.
  - rewrite Nat.add_0_l, Rplus_0_l. apply sumn_ext. intros q Hq. unfold vcat. cbn [Nat.ltb Nat.leb].
    rewrite Nat.sub_0_r. reflexivity.
Qed.

Section Nesting.
  Context (d : long_cols) (spec : option nest_spec) (mp : mappings) (K : nat)
          (X : mat) (w : option vec) (ridge : option R).
  Hypothesis Hmp : create_long_form_mappings d spec = Ok mp.
  Hypothesis HL : length (alt_ids d) = length (obs_ids d).
  Hypothesis HK : (0 < K)%nat.
  Let D := data_of d mp K X w ridge.
  Context (iref : option nat).
  Hypothesis Href : valid_ref iref (d_J D).
  Let n := num_constants iref (d_J D).
  (* The MNL's data: the constants are ordinary columns. *)
  Let Dm := data_of d mp (n + K) (with_constants iref (d_J D) (d_A D) X) w ridge.
  Context (icpts betas : vec).
  Let mnl_params (c : R) := mkArr (n + K) (vcat n icpts (fun q => c * betas q)).

  Lemma mnl_util c i :
    utility KMNL Dm (mnl_params c) i =
    match iref with Some r => mvec (d_J D) (d_A D) (fill_others r icpts 0) i | None => 0 end
    + c * sumn K (fun q => X i q * betas q).
  Proof.
    etransitivity; [exact (constants_dot iref (d_J D) (d_A D) X K icpts (fun q => c * betas q) i Href)|].
    f_equal. rewrite <- sumn_scal_l. apply sumn_ext. intros; ring.
  Qed.

  Lemma intercept_part k ns i (sp : vec) :
    num_shapes k (d_J D) = ns -> kind_iref k = iref ->
    long_intercepts (d_J D) (d_A D) iref
      (ic k (d_J D) (mkArr (ns + (n + K)) (vcat ns sp (vcat n icpts betas)))) i =
    match iref with Some r => mvec (d_J D) (d_A D) (fill_others r icpts 0) i | None => 0 end.
  Proof.
    intros Ens Eir. unfold ic, long_intercepts, num_icpts. rewrite Eir.
    destruct iref as [r|]; [|reflexivity]. cbn [valid_ref] in Href.
    destruct (Nat.ltb_spec 0 (d_J D - 1)) as [H1|H1].
    - unfold mvec. apply sumn_ext. intros j Hj. f_equal. rewrite !fill_unskip.
      destruct (Nat.eqb_spec j r); [reflexivity|]. cbn [aslice aget]. rewrite Ens, vcat_r.
      apply vcat_l. unfold n, num_constants, unskip. destruct (Nat.ltb_spec j r); lia.
    - symmetry. unfold mvec. apply sumn_eq0. intros j Hj. unfold fill_others.
      destruct (Nat.eqb_spec j r); [ring|lia].
  Qed.

  Lemma index_part k ns i (sp : vec) :
    num_shapes k (d_J D) = ns -> kind_iref k = iref ->
    sys_utilities D (be k (d_J D) (d_K D) (mkArr (ns + (n + K)) (vcat ns sp (vcat n icpts betas)))) i
    = sumn K (fun q => X i q * betas q).
  Proof.
    intros Ens Eir. unfold sys_utilities, mvec. cbn [D data_of d_K d_X be aslice aget].
    apply sumn_ext. intros q Hq. f_equal. fold D.
    assert (Ei : num_icpts k (d_J D) = n) by (unfold num_icpts; rewrite Eir; reflexivity).
    rewrite Ei, Ens, <- Nat.add_assoc, vcat_r, vcat_r. reflexivity.
  Qed.

  (* equal utilities up to a common constant, unclipped or equal *)
  Lemma probs_shift k th th' c i :
    (0 < d_K D)%nat ->
    (forall r, (r < length (obs_ids d))%nat ->
       long_exponentials (model_of k) D (sh k (d_J D) th) (ic k (d_J D) th) (be k (d_J D) (d_K D) th) r =
       exp c * long_exponentials (model_of KMNL) Dm (sh KMNL (d_J Dm) th') (ic KMNL (d_J Dm) th') (be KMNL (d_J Dm) (d_K Dm) th') r) ->
    (i < length (obs_ids d))%nat ->
    probs_at k D th i = probs_at KMNL Dm th' i.
  Proof.
    intros _ HE Hi. unfold probs_at, D, Dm.
    rewrite !(probs_closed _ d spec mp _ _ w ridge Hmp) by exact Hi. fold D. fold Dm.
    rewrite HE by exact Hi. rewrite (id_sum_ext _ _ _ _ (fun r Hr _ => HE r Hr)).
    rewrite id_sum_scal_l. pose proof (exp_pos c).
    match goal with |- exp c * ?a / (exp c * ?b) = _ => assert (HS : 0 < b) end.
    { apply id_sum_pos; [apply nth_In; exact Hi|intros; apply exp_pos]. }
    match goal with |- exp c * ?a / (exp c * ?b) = _ => set (S := b) in * end.
    field. lra.
  Qed.

  Hypothesis HJ : (0 < d_J D)%nat.

  Lemma same_util_probs k ns sp i :
    (0 < n + K)%nat ->
    num_shapes k (d_J D) = ns -> kind_iref k = iref -> kind_ok k (d_J D) ->
    let th := mkArr (ns + (n + K)) (vcat ns sp (vcat n icpts betas)) in
    (forall r, (r < length (obs_ids d))%nat -> utility k D th r = utility KMNL Dm (mnl_params 1) r) ->
    (i < length (obs_ids d))%nat ->
    est_long_probs k D th i = est_long_probs KMNL Dm (mkArr (n + K) (vcat n icpts betas)) i.
  Proof.
    intros HnK Ens Eir Hk th HU Hi.
    rewrite est_long_probs_eq.
    2: exact HK.
    2: { cbn [th alen]. rewrite Ens. unfold num_icpts. rewrite Eir. cbn [D data_of d_K]. fold n. unfold n, num_constants.
         fold D. lia. }
    rewrite est_long_probs_eq; [|exact HnK|reflexivity].
    transitivity (probs_at KMNL Dm (mnl_params 1) i).
    - apply (probs_shift k th (mnl_params 1) 0); [exact HK| |exact Hi].
      intros r Hr. rewrite exp_0, Rmult_1_l. unfold long_exponentials. f_equal. f_equal. apply HU. exact Hr.
    - f_equal. unfold mnl_params. f_equal. apply FunctionalExtensionality.functional_extensionality.
      intros q. unfold vcat. destruct (q <? n)%nat; ring.
  Qed.

  Theorem C22_scobit_at_zero_shape_is_mnl i :
    (i < length (obs_ids d))%nat ->
    est_long_probs (KScobit iref) D
      (mkArr (d_J D + (n + K)) (vcat (d_J D) (fun _ => 0) (vcat n icpts betas))) i
    = est_long_probs KMNL Dm (mkArr (n + K) (vcat n icpts betas)) i.
  Proof.
    intros Hi. apply same_util_probs; try reflexivity; [lia| | |exact Hi].
    - split; [exact HJ|]. split; [exact Href|exact I].
    - intros r Hr. rewrite mnl_util. unfold utility.
      cbn [model_of Scobit_model m_transform]. unfold scobit_transform.
      rewrite (intercept_part (KScobit iref) (d_J D) r (fun _ => 0) eq_refl eq_refl).
      rewrite (index_part (KScobit iref) (d_J D) r (fun _ => 0) eq_refl eq_refl).
      assert (ES : forall th, (forall j, (j < d_J D)%nat -> aget th j = 0) ->
               long_natural_shapes (d_J D) (d_A D) (sh (KScobit iref) (d_J D) th) r = 1).
      { intros th Hz. cbn [sh has_shape long_natural_shapes].
        pose proof (data_alt_indicator d spec mp K X w ridge Hmp HL) as HA. fold D in HA.
        rewrite (indicator_dot _ _ _ _ _ _ HA Hr). destruct (HA r Hr) as [Ho _]. cbn [aslice aget Nat.add].
        rewrite Hz by exact Ho. apply exp_0. }
      rewrite ES by (intros j Hj; cbn [aget]; apply vcat_l; exact Hj).
      set (v := sumn K (fun q => X r q * betas q)).
      rewrite Rpower_1 by (pose proof (exp_pos (-1 * v)); lra).
      replace (1 + exp (-1 * v) - 1) with (exp (-1 * v)) by ring. rewrite ln_exp. ring.
  Qed.

  Theorem C22_uneven_at_zero_shape_is_mnl i :
    (i < length (obs_ids d))%nat ->
    est_long_probs (KUneven iref) D
      (mkArr (d_J D + (n + K)) (vcat (d_J D) (fun _ => 0) (vcat n icpts betas))) i
    = est_long_probs KMNL Dm (mkArr (n + K) (vcat n icpts betas)) i.
  Proof.
    intros Hi. apply same_util_probs; try reflexivity; [lia| | |exact Hi].
    - split; [exact HJ|]. split; [exact Href|exact I].
    - intros r Hr. rewrite mnl_util. unfold utility.
      cbn [model_of Uneven_model m_transform]. unfold uneven_transform.
      rewrite (intercept_part (KUneven iref) (d_J D) r (fun _ => 0) eq_refl eq_refl).
      rewrite (index_part (KUneven iref) (d_J D) r (fun _ => 0) eq_refl eq_refl).
      assert (ES : forall th, (forall j, (j < d_J D)%nat -> aget th j = 0) ->
               long_natural_shapes (d_J D) (d_A D) (sh (KUneven iref) (d_J D) th) r = 1).
      { intros th Hz. cbn [sh has_shape long_natural_shapes].
        pose proof (data_alt_indicator d spec mp K X w ridge Hmp HL) as HA. fold D in HA.
        rewrite (indicator_dot _ _ _ _ _ _ HA Hr). destruct (HA r Hr) as [Ho _]. cbn [aslice aget Nat.add].
        rewrite Hz by exact Ho. apply exp_0. }
      rewrite ES by (intros j Hj; cbn [aget]; apply vcat_l; exact Hj).
      rewrite Rmult_1_r. ring.
  Qed.

  (** The asymmetric logit at zero free shapes: coefficients scaled by ln J. *)
  Theorem C22_asym_at_zero_shape_is_scaled_mnl sref i :
    (sref < d_J D)%nat -> (2 <= d_J D)%nat ->
    let th := mkArr ((d_J D - 1) + (n + K)) (vcat (d_J D - 1) (fun _ => 0) (vcat n icpts betas)) in
    let th' := mkArr (n + K) (vcat n icpts (fun q => ln (INR (d_J D)) * betas q)) in
    no_clipping (KAsym sref iref) D th -> no_clipping KMNL Dm th' ->
    (i < length (obs_ids d))%nat ->
    est_long_probs (KAsym sref iref) D th i = est_long_probs KMNL Dm th' i.
  Proof.
    intros Hs HJ2 th th' Hc Hc' Hi.
    assert (HLth : alen th = (num_shapes (KAsym sref iref) (d_J D) + num_icpts (KAsym sref iref) (d_J D) + d_K D)%nat).
    { cbn [th alen num_shapes kind_iref]. unfold num_icpts. cbn [kind_iref]. fold n. unfold n, num_constants. cbn [D data_of d_K]. fold D. lia. }
    rewrite est_long_probs_eq; [|exact HK|exact HLth].
    rewrite est_long_probs_eq; [|cbn; lia|reflexivity].
    assert (U : forall r, (r < length (obs_ids d))%nat ->
      utility (KAsym sref iref) D th r = - ln (INR (d_J D)) + utility KMNL Dm th' r).
    { intros r Hr. change th' with (mnl_params (ln (INR (d_J D)))). rewrite mnl_util. unfold utility.
      cbn [model_of Asym_model m_transform]. unfold asym_transform, th.
      rewrite (intercept_part (KAsym sref iref) (d_J D - 1) r (fun _ => 0) eq_refl eq_refl).
      rewrite (index_part (KAsym sref iref) (d_J D - 1) r (fun _ => 0) eq_refl eq_refl).
      fold th. unfold asym_long_shapes.
      pose proof (data_alt_indicator d spec mp K X w ridge Hmp HL) as HA. fold D in HA.
      rewrite (indicator_dot _ _ _ _ _ _ HA Hr). destruct (HA r Hr) as [Ho _].
      cbn [sh has_shape asym_natural_shapes].
      assert (0 < INR (d_J D)) by (apply lt_0_INR; lia).
      assert (E : convert_eta_to_c (aslice 0 (num_shapes (KAsym sref iref) (d_J D)) th) sref (alt_of (alt_ids d) r) = / INR (d_J D)).
      { assert (Hz : forall q, (q < d_J D - 1)%nat -> aget th q = 0) by (intros q Hq; cbn [th aget]; apply vcat_l; exact Hq).
        rewrite convert_eta_eq. unfold eta_denom. cbn [aslice alen aget num_shapes Nat.add].
        rewrite (sumn_ext _ _ (fun _ => 1)).
        2: { intros q Hq. rewrite Hz by exact Hq. apply exp_0. }
        rewrite sumn_const, minus_INR by lia. cbn [INR].
        replace (INR (d_J D) - 1) with (INR (d_J D) + -1) by ring.
        destruct (Nat.eqb_spec (alt_of (alt_ids d) r) sref) as [|Hne].
        - field. lra.
        - rewrite Hz; [rewrite exp_0; field; lra|]. unfold unskip.
          destruct (Nat.ltb_spec (alt_of (alt_ids d) r) sref); lia. }
      rewrite E.
      assert (2 <= INR (d_J D)) by (replace 2 with (INR 2) by (simpl; ring); apply le_INR; exact HJ2).
      replace ((1 - / INR (d_J D)) / (INR (d_J D) - 1)) with (/ INR (d_J D)) by (field; lra).
      rewrite ln_Rinv by assumption.
      destruct (Rle_dec 0 (sumn K (fun q => X r q * betas q))); ring. }
    apply (probs_shift (KAsym sref iref) th th' (- ln (INR (d_J D)))); [exact HK| |exact Hi].
    intros r Hr. unfold long_exponentials.
    change (exp (clip_exponent (utility (KAsym sref iref) D th r)) =
            exp (- ln (INR (d_J D))) * exp (clip_exponent (utility KMNL Dm th' r))).
    specialize (Hc r Hr). specialize (Hc' r Hr).
    rewrite est_utilities_eq in Hc by (try exact HK; exact HLth).
    rewrite est_utilities_eq in Hc' by (first [reflexivity|cbn; lia]).
    rewrite !clip_id by (unfold unclipped, min_exponent_val, max_exponent_val; lra).
    rewrite U by exact Hr. apply exp_plus.
  Qed.
End Nesting.

(** ** C38: frequency weights *)

(** Scaling all weights (and the penalty) by [c] scales objective and gradient. *)
Theorem C38_weight_scaling k d spec mp K X w w' ridge c theta :
  create_long_form_mappings d spec = Ok mp -> (0 < K)%nat ->
  (forall i, (i < length (obs_ids d))%nat -> eff_weights w' i = c * eff_weights w i) ->
  let ridge' := match ridge with Some r => Some (c * r) | None => None end in
  let D := data_of d mp K X w ridge in let D' := data_of d mp K X w' ridge' in
  kind_ok k (d_J D) -> check_length_of_initial_values k (d_J D) K theta = Ok tt ->
  est_log_likelihood k D' theta = c * est_log_likelihood k D theta /\
  exists g g', est_gradient k D theta = Ok g /\ est_gradient k D' theta = Ok g' /\
    alen g' = alen g /\ forall j, (j < alen g)%nat -> aget g' j = c * aget g j.
Proof.
  intros Hmp HK Hw ridge' D D' Hk Hl.
  pose proof (len_ok k d mp K X w ridge theta Hk Hl) as HL. fold D in HL.
  assert (HL' : alen theta = (num_shapes k (d_J D') + num_icpts k (d_J D') + d_K D')%nat) by exact HL.
  assert (ER : ridge_or_0 D' = c * ridge_or_0 D).
  { unfold ridge_or_0, D, D', ridge', data_of; cbn [d_ridge]. destruct ridge; ring. }
  assert (EP : forall s a b, long_probs (model_of k) D' s a b = long_probs (model_of k) D s a b) by reflexivity.
  split.
  - rewrite !est_ll_eq by (try exact HK; assumption). rewrite ER, Rmult_minus_distr_l. f_equal; [|ring].
    rewrite <- sumn_scal_l. apply sumn_ext. intros i Hi. rewrite EP.
    change (eff_weights (d_w D') i) with (eff_weights w' i). rewrite Hw by exact Hi.
    change (d_y D i * (c * eff_weights w i * ln (probs_at k D theta i))
            = c * (d_y D i * (eff_weights w i * ln (probs_at k D theta i)))). ring.
  - destruct (grad_form k D theta HK HL) as (g & Eg & Lg & G).
    destruct (grad_form k D' theta HK HL') as (g' & Eg' & Lg' & G').
    exists g, g'. rewrite Lg, Lg'. repeat split; try assumption. intros j Hj.
    rewrite G, G' by exact Hj. rewrite ER, Rmult_minus_distr_l. f_equal; [|ring].
    rewrite <- sumn_scal_l. apply sumn_ext. intros i Hi. rewrite EP.
    change (eff_weights (d_w D') i) with (eff_weights w' i). rewrite Hw by exact Hi.
    change (c * eff_weights w i * (d_y D i - probs_at k D theta i) * DH k D theta i j
            = c * (eff_weights w i * (d_y D i - probs_at k D theta i) * DH k D theta i j)). ring.
Qed.

(** [d'] lists copies of the observations of [d]: row [r] of [d'] is a copy of row
    [phi r] of [d], and every observation of [d'] is a copy of one entire
    observation of [d].  An observation may be copied any number of times. *)
Definition lists_copies (d d' : long_cols) (phi : nat -> nat) : Prop :=
  let N := length (obs_ids d) in let N' := length (obs_ids d') in
  let id i := nth i (obs_ids d) 0%Z in let id' r := nth r (obs_ids d') 0%Z in
  length (alt_ids d) = N /\ length (alt_ids d') = N' /\
  (forall r, (r < N')%nat -> (phi r < N)%nat /\
     nth r (alt_ids d') 0%Z = nth (phi r) (alt_ids d) 0%Z /\ choice_vec d' r = choice_vec d (phi r)) /\
  (forall x, In x (alt_ids d) -> In x (alt_ids d')) /\
  (* rows of one observation of d' are copies of rows of one observation of d *)
  (forall r r', (r < N')%nat -> (r' < N')%nat -> id' r = id' r' -> id (phi r) = id (phi r')) /\
  (* all of them *)
  (forall r i, (r < N')%nat -> (i < N)%nat -> id i = id (phi r) ->
     exists r', (r' < N')%nat /\ id' r' = id' r /\ phi r' = i) /\
  (* once *)
  (forall r r', (r < N')%nat -> (r' < N')%nat -> id' r = id' r' -> phi r = phi r' -> r = r').

(** The weight of a row is the total weight of its copies. *)
Definition weights_add_up (d d' : long_cols) (phi : nat -> nat) (w w' : option vec) : Prop :=
  forall i, (i < length (obs_ids d))%nat ->
    eff_weights w i =
    sumn (length (obs_ids d')) (fun r => if (phi r =? i)%nat then eff_weights w' r else 0).

Lemma sumn_fiber N' N phi (f : vec) (g : vec) :
  (forall r, (r < N')%nat -> (phi r < N)%nat) ->
  sumn N' (fun r => f (phi r) * g r) = sumn N (fun i => f i * sumn N' (fun r => if (phi r =? i)%nat then g r else 0)).
Proof.
  intros H. rewrite (sumn_ext N _ (fun i => sumn N' (fun r => if (phi r =? i)%nat then f i * g r else 0))).
  2: { intros i _. rewrite <- sumn_scal_l. apply sumn_ext. intros r _. destruct (phi r =? i)%nat; ring. }
  rewrite sumn_swap. apply sumn_ext. intros r Hr.
  rewrite (sumn_single' N (phi r) (fun i => f i * g r)); [reflexivity|auto].
Qed.

Lemma copies_id_sum d d' phi f r0 :
  lists_copies d d' phi -> (r0 < length (obs_ids d'))%nat ->
  id_sum (obs_ids d') (nth r0 (obs_ids d') 0%Z) (fun r => f (phi r)) =
  id_sum (obs_ids d) (nth (phi r0) (obs_ids d) 0%Z) f.
Proof.
  intros (L & L' & Hphi & _ & Hsame & Hall & Honce) Hr0. unfold id_sum.
  set (o' := nth r0 (obs_ids d') 0%Z). set (o := nth (phi r0) (obs_ids d) 0%Z).
  rewrite (sumn_ext _ _ (fun r => f (phi r) * (if (nth r (obs_ids d') 0 =? o')%Z then 1 else 0))).
  2: { intros r _. destruct (_ =? _)%Z; ring. }
  rewrite (sumn_fiber _ (length (obs_ids d)) phi f) by (intros r Hr; apply Hphi; exact Hr).
  apply sumn_ext. intros i Hi. destruct (Z.eqb_spec (nth i (obs_ids d) 0%Z) o) as [E|E].
  - destruct (Hall r0 i Hr0 Hi E) as (r' & Hr' & Eid & Ephi).
    rewrite (sumn_ext _ _ (fun r => if (r =? r')%nat then 1 else 0)).
    + rewrite (sumn_single _ r' (fun _ => 1)) by exact Hr'. ring.
    + intros r Hr. destruct (Nat.eqb_spec (phi r) i) as [Ep|Ep]; destruct (Nat.eqb_spec r r') as [Er|Er]; try (subst; congruence).
      * subst r. unfold o'. rewrite Eid, Z.eqb_refl. reflexivity.
      * destruct (Z.eqb_spec (nth r (obs_ids d') 0%Z) o') as [Eo|]; [|reflexivity].
        exfalso. apply Er. apply Honce; try assumption; [|congruence]. unfold o' in Eo. congruence.
  - rewrite sumn_eq0; [ring|]. intros r Hr.
    destruct (Nat.eqb_spec (phi r) i) as [Ep|Ep]; [|reflexivity].
    destruct (Z.eqb_spec (nth r (obs_ids d') 0%Z) o') as [Eo|]; [|reflexivity].
    exfalso. apply E. rewrite <- Ep. unfold o. apply Hsame; assumption.
Qed.

(** The derivative of a row's utility depends on that row alone. *)
Lemma DH_rowwise k D D' th i i' j :
  d_J D' = d_J D -> d_K D' = d_K D -> kind_ok k (d_J D) ->
  (i < d_N D)%nat -> (i' < d_N D')%nat ->
  (forall a, (a < d_J D)%nat -> d_A D' i' a = d_A D i a) ->
  (forall q, (q < d_K D)%nat -> d_X D' i' q = d_X D i q) ->
  (j < num_shapes k (d_J D) + num_icpts k (d_J D) + d_K D)%nat ->
  DH k D' th i' j = DH k D th i j.
Proof.
  intros EJ EK Hk Hi Hi' HA HX Hj. unfold DH. rewrite EJ, EK.
  set (b := be k (d_J D) (d_K D) th). set (s := sh k (d_J D) th). set (c := ic k (d_J D) th).
  assert (V : sys_utilities D' b i' = sys_utilities D b i).
  { unfold sys_utilities, mvec. rewrite EK. apply sumn_ext. intros q Hq. rewrite HX by exact Hq. reflexivity. }
  assert (MV : forall f, mvec (d_J D) (d_A D') f i' = mvec (d_J D) (d_A D) f i).
  { intros f. unfold mvec. apply sumn_ext. intros a Ha. rewrite HA by exact Ha. reflexivity. }
  assert (LS : long_natural_shapes (d_J D) (d_A D') s i' = long_natural_shapes (d_J D) (d_A D) s i).
  { unfold long_natural_shapes. destruct s; [apply MV|reflexivity]. }
  unfold hcat. unfold vcat at 1 3.
  destruct (Nat.ltb_spec j (num_shapes k (d_J D))) as [Hs|Hs].
  { destruct k; cbn [model_of MNL_model Clog_model Scobit_model Uneven_model Asym_model m_dh_dc cent_or_zero cent];
      try reflexivity.
    - cbn [num_shapes] in Hs. unfold with_data, scobit_deriv_shape. rewrite HA, V, LS by exact Hs. reflexivity.
    - cbn [num_shapes] in Hs. unfold with_data, uneven_deriv_shape. rewrite HA, V, LS by exact Hs. reflexivity.
    - unfold asym_deriv_shape, mdot. apply sumn_ext. intros a Ha. unfold with_data, asym_dh_dc_values, asym_long_shapes.
      rewrite HA, V, MV by exact Ha. reflexivity. }
  unfold vcat. destruct (Nat.ltb_spec (j - num_shapes k (d_J D)) (num_icpts k (d_J D))) as [Hc|Hc].
  { unfold num_icpts in Hc. destruct (kind_iref k) as [r|] eqn:Er; [|lia].
    assert (Hr : (r < d_J D)%nat) by (destruct Hk as (_ & Hr & _); rewrite Er in Hr; exact Hr).
    destruct k; cbn [kind_iref] in Er; try discriminate; subst iref; 
      cbn [model_of MNL_model Clog_model Scobit_model Uneven_model Asym_model m_dh_da dh_d_alpha cent_or_zero cent];
      apply HA; apply skip_lt; assumption. }
  assert (Hq : (j - num_shapes k (d_J D) - num_icpts k (d_J D) < d_K D)%nat) by lia.
  unfold dh_db. rewrite EJ.
  destruct k; cbn [model_of MNL_model Clog_model Scobit_model Uneven_model Asym_model m_dh_dv];
    rewrite !diag_dot by assumption; rewrite HX by exact Hq; f_equal.
  - unfold cloglog_deriv_v. rewrite V. reflexivity.
  - unfold scobit_deriv_v. rewrite V, LS. reflexivity.
  - unfold uneven_deriv_v. rewrite V, LS. reflexivity.
  - unfold asym_deriv_v, asym_long_shapes. rewrite V, MV. reflexivity.
Qed.

Section Copies.
  Context (k : logit_kind) (d d' : long_cols) (spec spec' : option nest_spec) (mp mp' : mappings)
    (phi : nat -> nat) (K : nat) (X X' : mat) (w w' : option vec) (ridge : option R) (theta : arr).
  Hypothesis Hmp : create_long_form_mappings d spec = Ok mp.
  Hypothesis Hmp' : create_long_form_mappings d' spec' = Ok mp'.
  Hypothesis HK : (0 < K)%nat.
  Hypothesis Hcop : lists_copies d d' phi.
  Hypothesis HX : forall r q, (r < length (obs_ids d'))%nat -> (q < K)%nat -> X' r q = X (phi r) q.
  Hypothesis Hww : weights_add_up d d' phi w w'.
  Let D := data_of d mp K X w ridge.
  Let D' := data_of d' mp' K X' w' ridge.
  Hypothesis Hk : kind_ok k (d_J D).
  Hypothesis Hlen : check_length_of_initial_values k (d_J D) K theta = Ok tt.

  Lemma copies_cols : d_J D' = d_J D /\
    forall r a, (r < length (obs_ids d'))%nat -> (a < d_J D)%nat -> d_A D' r a = d_A D (phi r) a.
  Proof.
    destruct Hcop as (L & L' & Hphi & Hal & _).
    assert (Hal2 : forall x, In x (alt_ids d) <-> In x (alt_ids d')).
    { intros x. split; [apply Hal|]. intros Hx. apply (In_nth _ _ 0%Z) in Hx. destruct Hx as (r & Hr & E).
      rewrite L' in Hr. destruct (Hphi r Hr) as (Hp & Ea & _). rewrite <- E, Ea. apply nth_In. lia. }
    destruct (C02_column_independent_of_row_order d d' spec spec' mp mp' Hmp Hmp' Hal2) as [Ecol Ecells].
    split; [symmetry; exact Ecol|]. intros r a Hr Ha. unfold D', D, data_of; cbn [d_A]. unfold smat_R. f_equal.
    symmetry. destruct (Hphi r Hr) as (Hp & Ea & _). apply Ecells; [lia|lia|exact Ha|auto].
  Qed.

  Lemma copies_exp s c b r :
    (r < length (obs_ids d'))%nat ->
    long_exponentials (model_of k) D' s c b r = long_exponentials (model_of k) D s c b (phi r).
  Proof.
    intros Hr. destruct copies_cols as [EJ EA]. unfold long_exponentials. f_equal. f_equal. rewrite EJ.
    apply transform_rowwise.
    - unfold sys_utilities, mvec, D, D', data_of; cbn [d_K d_X]. apply sumn_ext. intros q Hq.
      rewrite HX by assumption. reflexivity.
    - intros j Hj. apply EA; assumption.
  Qed.

  Lemma copies_probs s c b r :
    (r < length (obs_ids d'))%nat ->
    long_probs (model_of k) D' s c b r = long_probs (model_of k) D s c b (phi r).
  Proof.
    intros Hr. assert (Hp : (phi r < length (obs_ids d))%nat) by (apply Hcop; exact Hr).
    unfold D, D'. rewrite (probs_closed _ d spec mp _ _ w ridge Hmp) by exact Hp.
    rewrite (probs_closed _ d' spec' mp' _ _ w' ridge Hmp') by exact Hr. fold D D'.
    rewrite copies_exp by exact Hr. f_equal.
    rewrite <- (copies_id_sum d d' phi) by assumption. apply id_sum_ext. intros i Hi _. apply copies_exp. exact Hi.
  Qed.

  Theorem C38_copies_have_same_probabilities r :
    (r < length (obs_ids d'))%nat ->
    est_long_probs k D' theta r = est_long_probs k D theta (phi r).
  Proof.
    intros Hr. pose proof (len_ok k d mp K X w ridge theta Hk Hlen) as HL. fold D in HL.
    destruct copies_cols as [EJ _].
    rewrite !est_long_probs_eq; [|exact HK|exact HL|exact HK|rewrite EJ; exact HL].
    unfold probs_at. rewrite EJ. apply copies_probs. exact Hr.
  Qed.

  (** Listing an observation several times = giving it the total weight. *)
  Theorem C38_frequency_weights :
    est_log_likelihood k D' theta = est_log_likelihood k D theta /\
    exists g g', est_gradient k D theta = Ok g /\ est_gradient k D' theta = Ok g' /\
      alen g' = alen g /\ forall j, (j < alen g)%nat -> aget g' j = aget g j.
  Proof.
    pose proof (len_ok k d mp K X w ridge theta Hk Hlen) as HL. fold D in HL.
    destruct copies_cols as [EJ EA].
    assert (HL' : alen theta = (num_shapes k (d_J D') + num_icpts k (d_J D') + d_K D')%nat) by (rewrite EJ; exact HL).
    assert (Hphi : forall r, (r < length (obs_ids d'))%nat -> (phi r < length (obs_ids d))%nat) by (intros r Hr; apply Hcop; exact Hr).
    split.
    - rewrite !est_ll_eq by (try exact HK; assumption). rewrite EJ. f_equal.
      change (d_N D') with (length (obs_ids d')). change (d_N D) with (length (obs_ids d)).
      set (F := fun i => choice_vec d i * ln (probs_at k D theta i)).
      rewrite (sumn_ext (length (obs_ids d')) _ (fun r => F (phi r) * eff_weights w' r)).
      + rewrite (sumn_fiber _ (length (obs_ids d)) phi) by exact Hphi.
        apply sumn_ext. intros i Hi. rewrite <- Hww by exact Hi. unfold F, probs_at.
        change (d_y D) with (choice_vec d). change (d_w D) with w. ring.
      + intros r Hr. rewrite copies_probs by exact Hr. change (d_y D' r) with (choice_vec d' r).
        destruct Hcop as (_ & _ & Hrow & _). destruct (Hrow r Hr) as (_ & _ & ->). change (d_w D') with w'.
        unfold F, probs_at. change (d_K D') with (d_K D). ring.
    - destruct (grad_form k D theta HK HL) as (g & Eg & Lg & G).
      destruct (grad_form k D' theta HK HL') as (g' & Eg' & Lg' & G').
      exists g, g'. rewrite Lg, Lg'. repeat split; try assumption. intros j Hj.
      rewrite G, G' by exact Hj. f_equal. rewrite EJ.
      change (d_N D') with (length (obs_ids d')). change (d_N D) with (length (obs_ids d)).
      set (F := fun i => (choice_vec d i - probs_at k D theta i) * DH k D theta i j).
      rewrite (sumn_ext (length (obs_ids d')) _ (fun r => F (phi r) * eff_weights w' r)).
      + rewrite (sumn_fiber _ (length (obs_ids d)) phi) by exact Hphi.
        apply sumn_ext. intros i Hi. rewrite <- Hww by exact Hi. unfold F, probs_at.
        change (d_y D) with (choice_vec d). change (d_w D) with w. ring.
      + intros r Hr. rewrite copies_probs by exact Hr. change (d_y D' r) with (choice_vec d' r).
        rewrite (DH_rowwise k D D' theta (phi r) r j EJ eq_refl Hk (Hphi r Hr) Hr);
          [|intros a Ha; apply EA; assumption|intros q Hq; apply HX; assumption|rewrite <- HL; exact Hj].
        destruct Hcop as (_ & _ & Hrow & _). destruct (Hrow r Hr) as (_ & _ & ->). change (d_w D') with w'.
        unfold F, probs_at. change (d_K D') with (d_K D). ring.
  Qed.
End Copies.

(** ** Concrete cases *)
Example ex_picks : picks_chosen_rows ex_cols (fun j => match j with 0%nat => 1%nat | _ => 3%nat end).
Proof.
  intros j Hj. simpl in Hj. destruct j as [|[|j]]; [| |lia]; cbn; repeat split; try lia; lra.
Qed.

(** Observation 7 listed twice (with ids 8 and 9), observation 3 once, all with
    weight 1, against weights 2 and 1. *)
Definition ex_twice : long_cols :=
  mkLong [8; 8; 8; 3; 3; 9; 9; 9]%Z [30; 10; 20; 20; 10; 30; 10; 20]%Z (Some [0; 1; 0; 1; 0; 0; 1; 0]%Z) None.
Definition ex_phi (r : nat) : nat := if (r <? 5)%nat then r else (r - 5)%nat.

Example ex_copies :
  lists_copies ex_cols ex_twice ex_phi /\
  weights_add_up ex_cols ex_twice ex_phi (Some (fun i => if (i <? 3)%nat then 2 else 1)) None.
Proof.
  split.
  - unfold lists_copies. cbn [ex_cols ex_twice obs_ids alt_ids length]. split; [reflexivity|]. split; [reflexivity|].
    split; [|split; [|split; [|split]]].
    + intros r Hr. do 8 (destruct r as [|r]; [cbn; repeat split; lia|]). lia.
    + intros x Hx. simpl in *. intuition.
    + intros r r' Hr Hr' E. do 8 (destruct r as [|r]; [do 8 (destruct r' as [|r']; [cbn in *; first [reflexivity|discriminate]|]); lia|]). lia.
    + intros r i Hr Hi E.
      do 8 (destruct r as [|r]; [do 5 (destruct i as [|i]; [cbn in *; first [discriminate|
        (exists 0%nat; cbn; repeat split; lia)|(exists 1%nat; cbn; repeat split; lia)|(exists 2%nat; cbn; repeat split; lia)|
        (exists 3%nat; cbn; repeat split; lia)|(exists 4%nat; cbn; repeat split; lia)|(exists 5%nat; cbn; repeat split; lia)|
        (exists 6%nat; cbn; repeat split; lia)|(exists 7%nat; cbn; repeat split; lia)]|]); lia|]). lia.
    + intros r r' Hr Hr' E E2. do 8 (destruct r as [|r]; [do 8 (destruct r' as [|r']; [cbn in *; first [reflexivity|discriminate]|]); lia|]). lia.
  - intros i Hi. cbn in Hi. do 5 (destruct i as [|i]; [cbn; ring|]). lia.
Qed.

Print Assumptions C23_natural_shapes_are_probabilities.
Print Assumptions C23_natural_shapes_injective.
Print Assumptions C24_log_likelihood_sum.
Print Assumptions C24_log_likelihood_nonpositive.
Print Assumptions C37_equal_shares.
Print Assumptions C37_null_log_likelihood.
Print Assumptions C22_scobit_at_zero_shape_is_mnl.
Print Assumptions C22_uneven_at_zero_shape_is_mnl.
Print Assumptions C22_asym_at_zero_shape_is_scaled_mnl.
Print Assumptions C38_weight_scaling.
Print Assumptions C38_copies_have_same_probabilities.
Print Assumptions C38_frequency_weights.
