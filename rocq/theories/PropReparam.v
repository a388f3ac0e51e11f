(** Property C101: what a change of units, or any linear recombination of the variables,
    does to a logit-type model. *)
From Coq Require Import String ZArith List Reals Lra Lia Arith.
From Coquelicot Require Import Coquelicot.
From Verif Require Import Res Vec Arr SpecLogit ChoiceCalcs ChoiceFacts Transforms Ids Mappings
  MappingFacts LongData LogitFacts RowDeriv HessFacts ProbFacts PropMappings PropProbs PropGradient
  PropHessian PropConcave DefiniteMat PropIdentified.
Import ListNotations.
Open Scope R_scope.

(** ** Specification *)

(** X' is the design X . T: column b of X' is the combination sum_a T a b * (column a of X). *)
Definition recombined (N K K' : nat) (X X' T : mat) : Prop :=
  forall i b, (i < N)%nat -> (b < K')%nat -> X' i b = sumn K (fun a => X i a * T a b).

(** The same map on whole parameter vectors, of which the first [p] entries (shapes and
    intercepts) are not coefficients of variables. *)
Definition lifted (p : nat) (T : mat) : mat := fun a b =>
  if (a <? p)%nat then (if (a =? b)%nat then 1 else 0)
  else if (b <? p)%nat then 0 else T (a - p)%nat (b - p)%nat.

(** theta = lifted T . theta' *)
Definition corresponding (p K K' : nat) (T : mat) (theta theta' : arr) : Prop :=
  alen theta = (p + K)%nat /\ alen theta' = (p + K')%nat /\
  forall a, (a < p + K)%nat -> aget theta a = sumn (p + K') (fun b => lifted p T a b * aget theta' b).

(** ** Facts *)

Lemma lifted_low p T n a f : (a < p)%nat -> (p <= n)%nat -> sumn n (fun b => lifted p T a b * f b) = f a.
Proof.
  intros Ha Hn. rewrite (sumn_ext n _ (fun b => if (a =? b)%nat then f b else 0)).
  - apply (sumn_single' n a f). lia.
  - intros b Hb. unfold lifted. destruct (Nat.ltb_spec a p); [|lia]. destruct (a =? b)%nat; ring.
Qed.

Lemma lifted_high p T K' a f : sumn (p + K') (fun b => lifted p T (p + a)%nat b * f b) =
  sumn K' (fun b => T a b * f (p + b)%nat).
Proof.
  rewrite sumn_app. rewrite sumn_eq0.
  - rewrite Rplus_0_l. apply sumn_ext. intros b Hb. unfold lifted.
    destruct (Nat.ltb_spec (p + a) p); [lia|]. destruct (Nat.ltb_spec (p + b) p); [lia|].
    repeat f_equal; lia.
  - intros b Hb. unfold lifted. destruct (Nat.ltb_spec (p + a) p); [lia|]. destruct (Nat.ltb_spec b p); [ring|lia].
Qed.

Lemma lifted_low_col p T n b f : (b < p)%nat -> (p <= n)%nat -> sumn n (fun a => lifted p T a b * f a) = f b.
Proof.
  intros Hb Hn. rewrite (sumn_ext n _ (fun a => if (a =? b)%nat then f a else 0)).
  - apply (sumn_single n b f). lia.
  - intros a Ha. unfold lifted. destruct (Nat.ltb_spec a p); [destruct (a =? b)%nat; ring|].
    destruct (Nat.ltb_spec b p); [|lia]. destruct (Nat.eqb_spec a b); [lia|ring].
Qed.

Lemma lifted_high_col p T K b f : sumn (p + K) (fun a => lifted p T a (p + b)%nat * f a) =
  sumn K (fun a => T a b * f (p + a)%nat).
Proof.
  rewrite sumn_app. rewrite sumn_eq0.
  - rewrite Rplus_0_l. apply sumn_ext. intros a Ha. unfold lifted.
    destruct (Nat.ltb_spec (p + a) p); [lia|]. destruct (Nat.ltb_spec (p + b) p); [lia|].
    repeat f_equal; lia.
  - intros a Ha. unfold lifted. destruct (Nat.ltb_spec a p); [|lia]. destruct (Nat.eqb_spec a (p + b)); [lia|ring].
Qed.

(** The parts of a model, row by row. *)
Lemma natural_shapes_same sref e e' J : (sref < J)%nat -> (2 <= J)%nat -> alen e = (J - 1)%nat -> alen e' = (J - 1)%nat ->
  (forall q, (q < J - 1)%nat -> aget e q = aget e' q) ->
  forall j, (j < J)%nat -> asym_natural_shapes sref (Some e) j = asym_natural_shapes sref (Some e') j.
Proof.
  intros Hs HJ L L' H j Hj. cbn [asym_natural_shapes]. unfold convert_eta_to_c. rewrite L, L'.
  rewrite (sumn_ext (J - 1) (fun k => if Req_EM_T (exp (aget e k)) 0 then min_comp_value else exp (aget e k))
                    (fun k => if Req_EM_T (exp (aget e' k)) 0 then min_comp_value else exp (aget e' k)))
    by (intros k Hk; rewrite H by exact Hk; reflexivity).
  unfold fill_others. destruct (Nat.eqb_spec j sref); [reflexivity|].
  destruct (Nat.ltb_spec j sref); rewrite H by lia; reflexivity.
Qed.

Lemma model_row_same k J A v v' th th' i :
  kind_ok k J -> v i = v' i ->
  (forall q, (q < num_shapes k J + num_icpts k J)%nat -> aget th q = aget th' q) ->
  m_transform (model_of k) J A v (sh k J th) (ic k J th) i = m_transform (model_of k) J A v' (sh k J th') (ic k J th') i /\
  m_dh_dv (model_of k) J A v (sh k J th) i i = m_dh_dv (model_of k) J A v' (sh k J th') i i /\
  (forall q, (q < num_shapes k J)%nat ->
     cent_or_zero (m_dh_dc (model_of k) J A v (sh k J th)) i q = cent_or_zero (m_dh_dc (model_of k) J A v' (sh k J th')) i q).
Proof.
  intros Hk Hv Hp.
  assert (EI : long_intercepts J A (kind_iref k) (ic k J th) i = long_intercepts J A (kind_iref k) (ic k J th') i).
  { unfold ic. destruct (Nat.ltb_spec 0 (num_icpts k J)); [|reflexivity]. unfold long_intercepts.
    destruct (kind_iref k) as [r|] eqn:Er; [|reflexivity]. apply sumn_ext. intros j Hj. f_equal.
    destruct Hk as (_ & Hk & _). rewrite Er in Hk. unfold num_icpts in *. rewrite Er in *.
    unfold fill_others. destruct (Nat.eqb_spec j r); [reflexivity|]. cbn [aslice aget].
    destruct (Nat.ltb_spec j r); apply Hp; lia. }
  assert (ES : forall r, k = KScobit r \/ k = KUneven r ->
    long_natural_shapes J A (sh k J th) i = long_natural_shapes J A (sh k J th') i).
  { intros r HR. assert (num_shapes k J = J /\ has_shape k = true) as (En & Eh) by (destruct HR; subst k; auto).
    unfold sh. rewrite Eh. cbn [long_natural_shapes]. apply sumn_ext. intros j Hj. cbn [aslice aget].
    rewrite Hp by lia. reflexivity. }
  destruct k as [|r|r|r|s r]; cbn [model_of kind_iref] in *.
  - cbn. unfold mnl_transform. split; [exact Hv|]. split; [reflexivity|]. intros q Hq. reflexivity.
  - cbn [Clog_model m_transform m_dh_dv m_dh_dc cent_or_zero]. unfold cloglog_transform. rewrite EI, Hv.
    split; [reflexivity|]. split; [|reflexivity]. unfold diagm. rewrite Nat.eqb_refl. unfold cloglog_deriv_v. rewrite Hv. reflexivity.
  - cbn [Scobit_model m_transform m_dh_dv m_dh_dc cent_or_zero cent]. specialize (ES r (or_introl eq_refl)).
    unfold scobit_transform. rewrite EI, Hv, ES. split; [reflexivity|]. split.
    + unfold diagm. rewrite Nat.eqb_refl. unfold scobit_deriv_v. rewrite Hv, ES. reflexivity.
    + intros q _. unfold with_data, scobit_deriv_shape. rewrite Hv, ES. reflexivity.
  - cbn [Uneven_model m_transform m_dh_dv m_dh_dc cent_or_zero cent]. specialize (ES r (or_intror eq_refl)).
    unfold uneven_transform. rewrite EI, Hv, ES. split; [reflexivity|]. split.
    + unfold diagm. rewrite Nat.eqb_refl. unfold uneven_deriv_v. rewrite Hv, ES. reflexivity.
    + intros q _. unfold with_data, uneven_deriv_shape. rewrite Hv, ES. reflexivity.
  - cbn [Asym_model m_transform m_dh_dv m_dh_dc cent_or_zero cent].
    destruct Hk as (_ & _ & Hs & HJ).
    assert (EN : forall j, (j < J)%nat -> asym_natural_shapes s (sh (KAsym s r) J th) j = asym_natural_shapes s (sh (KAsym s r) J th') j).
    { unfold sh. cbn [has_shape num_shapes]. apply natural_shapes_same; try assumption; try reflexivity.
      intros q Hq. cbn [aslice aget]. apply Hp. cbn [num_shapes]. lia. }
    assert (EA : asym_long_shapes s J A (sh (KAsym s r) J th) i = asym_long_shapes s J A (sh (KAsym s r) J th') i).
    { unfold asym_long_shapes, mvec. apply sumn_ext. intros j Hj. rewrite EN by exact Hj. reflexivity. }
    unfold asym_transform. rewrite EI, Hv, EA. split; [reflexivity|]. split.
    + unfold diagm. rewrite Nat.eqb_refl. unfold asym_deriv_v. rewrite Hv, EA. reflexivity.
    + intros q Hq. cbn [num_shapes] in Hq. unfold asym_deriv_shape, mdot. apply sumn_ext. intros j Hj. f_equal.
      * unfold with_data, asym_dh_dc_values. rewrite Hv, EA. reflexivity.
      * unfold deriv_c_wrt_eta, diagm.
        assert (Hq' : (skip s q < J)%nat) by (unfold skip; destruct (q <? s)%nat; lia).
        rewrite (EN j Hj), (EN (skip s q) Hq'). reflexivity.
Qed.

Section Reparam.
  Context (k : logit_kind) (d : long_cols) (spec : option nest_spec) (mp : mappings) (K K' : nat) (X X' T : mat)
          (w : option vec) (ridge : option R).
  Hypothesis Hmp : create_long_form_mappings d spec = Ok mp.
  Hypothesis HK : (0 < K)%nat.
  Hypothesis HK' : (0 < K')%nat.
  Hypothesis HX : recombined (length (obs_ids d)) K K' X X' T.
  Let D := data_of d mp K X w ridge.
  Let D' := data_of d mp K' X' w ridge.
  Let p := (num_shapes k (d_J D) + num_icpts k (d_J D))%nat.
  Hypothesis Hk : kind_ok k (d_J D).
  Context (theta theta' : arr).
  Hypothesis Hth : corresponding p K K' T theta theta'.

  Lemma rp_low q : (q < p)%nat -> aget theta q = aget theta' q.
  Proof.
    intros Hq. destruct Hth as (_ & _ & H). rewrite H by lia. apply (lifted_low p T (p + K') q (aget theta')); lia.
  Qed.

  Lemma rp_v i : (i < length (obs_ids d))%nat ->
    sys_utilities D (be k (d_J D) K theta) i = sys_utilities D' (be k (d_J D') K' theta') i.
  Proof.
    intros Hi. unfold sys_utilities, mvec. change (d_K D) with K. change (d_K D') with K'.
    change (d_X D) with X. change (d_X D') with X'. unfold be. change (d_J D') with (d_J D). fold p. cbn [aslice aget].
    rewrite (sumn_ext K' _ (fun b => sumn K (fun a => X i a * (T a b * aget theta' (p + b)%nat)))).
    2: { intros b Hb. rewrite HX by assumption. rewrite <- sumn_scal_r. apply sumn_ext. intros; ring. }
    rewrite sumn_swap. apply sumn_ext. intros a Ha. rewrite sumn_scal_l. f_equal.
    destruct Hth as (_ & _ & H). rewrite H by lia. apply lifted_high.
  Qed.

  Lemma rp_row i : (i < length (obs_ids d))%nat ->
    utility k D theta i = utility k D' theta' i /\
    forall b, (b < p + K')%nat -> DH k D' theta' i b = sumn (p + K) (fun a => lifted p T a b * DH k D theta i a).
  Proof.
    intros Hi.
    destruct (model_row_same k (d_J D) (d_A D) (sys_utilities D (be k (d_J D) K theta)) (sys_utilities D' (be k (d_J D') K' theta'))
       theta theta' i Hk (rp_v i Hi) rp_low) as (E1 & E2 & E3).
    split; [exact E1|]. intros b Hb.
    assert (Dh : forall K0 X0 th a, DH k (data_of d mp K0 X0 w ridge) th i (p + a)%nat =
        dh_db (model_of k) (data_of d mp K0 X0 w ridge) (sh k (d_J D) th) (be k (d_J D) K0 th) i a).
    { intros K0 X0 th a. unfold DH, hcat, vcat. change (d_J (data_of d mp K0 X0 w ridge)) with (d_J D).
      destruct (Nat.ltb_spec (p + a) (num_shapes k (d_J D))); [unfold p in *; lia|].
      destruct (Nat.ltb_spec (p + a - num_shapes k (d_J D)) (num_icpts k (d_J D))); [unfold p in *; lia|].
      replace (p + a - num_shapes k (d_J D) - num_icpts k (d_J D))%nat with a by (unfold p; lia). reflexivity. }
    assert (Hdb : forall K0 X0 th a, dh_db (model_of k) (data_of d mp K0 X0 w ridge) (sh k (d_J D) th) (be k (d_J D) K0 th) i a
      = m_dh_dv (model_of k) (d_J D) (d_A D) (sys_utilities (data_of d mp K0 X0 w ridge) (be k (d_J D) K0 th)) (sh k (d_J D) th) i i * X0 i a).
    { intros K0 X0 th a. unfold dh_db. cbn [data_of d_N d_X]. change (d_J (data_of d mp K0 X0 w ridge)) with (d_J D).
      change (d_A (data_of d mp K0 X0 w ridge)) with (d_A D).
      unfold mdot. rewrite (sumn_ext _ _ (fun j => if (i =? j)%nat then
         m_dh_dv (model_of k) (d_J D) (d_A D) (sys_utilities (data_of d mp K0 X0 w ridge) (be k (d_J D) K0 th)) (sh k (d_J D) th) i j * X0 j a else 0)).
      - apply (sumn_single' (length (obs_ids d)) i (fun j => m_dh_dv (model_of k) (d_J D) (d_A D) (sys_utilities (data_of d mp K0 X0 w ridge) (be k (d_J D) K0 th)) (sh k (d_J D) th) i j * X0 j a)). exact Hi.
      - intros j Hj. destruct (Nat.eqb_spec i j) as [->|Hne]; [reflexivity|].
        destruct k; cbn [model_of MNL_model Clog_model Scobit_model Uneven_model Asym_model m_dh_dv]; unfold diagm;
          (destruct (Nat.eqb_spec i j); [lia|ring]). }
    destruct (Nat.lt_ge_cases b p) as [Lb|Lb].
    - rewrite lifted_low_col by lia. unfold DH, hcat, vcat. change (d_J D') with (d_J D). change (d_A D') with (d_A D).
      change (d_K D') with K'. change (d_K D) with K.
      destruct (Nat.ltb_spec b (num_shapes k (d_J D))) as [Lb'|Lb'].
      + symmetry. apply E3. exact Lb'.
      + destruct (Nat.ltb_spec (b - num_shapes k (d_J D)) (num_icpts k (d_J D))); [|unfold p in *; lia].
        destruct k; reflexivity.
    - replace b with (p + (b - p))%nat by lia. rewrite lifted_high_col.
      transitivity (m_dh_dv (model_of k) (d_J D) (d_A D) (sys_utilities D (be k (d_J D) K theta)) (sh k (d_J D) theta) i i * X' i (b - p)%nat).
      { rewrite E2. etransitivity; [exact (Dh K' X' theta' (b - p)%nat)|exact (Hdb K' X' theta' (b - p)%nat)]. }
      rewrite HX by (try exact Hi; lia). rewrite <- sumn_scal_l. apply sumn_ext. intros a Ha.
      transitivity (T a (b - p)%nat * (m_dh_dv (model_of k) (d_J D) (d_A D) (sys_utilities D (be k (d_J D) K theta)) (sh k (d_J D) theta) i i * X i a)); [ring|].
      f_equal. symmetry. etransitivity; [exact (Dh K X theta a)|exact (Hdb K X theta a)].
  Qed.

  Lemma rp_probs i : (i < length (obs_ids d))%nat -> probs_at k D theta i = probs_at k D' theta' i.
  Proof.
    intros Hi. pose proof (data_obs_indicator d spec mp K X w ridge Hmp) as Hown. fold D in Hown.
    pose proof (data_obs_indicator d spec mp K' X' w ridge Hmp) as Hown'. fold D' in Hown'.
    unfold probs_at. rewrite (long_probs_eq _ _ _ Hown) by exact Hi. rewrite (long_probs_eq _ _ _ Hown') by exact Hi.
    assert (E : forall r, (r < length (obs_ids d))%nat ->
      long_exponentials (model_of k) D (sh k (d_J D) theta) (ic k (d_J D) theta) (be k (d_J D) (d_K D) theta) r =
      long_exponentials (model_of k) D' (sh k (d_J D') theta') (ic k (d_J D') theta') (be k (d_J D') (d_K D') theta') r).
    { intros r Hr. unfold long_exponentials. do 2 f_equal. exact (proj1 (rp_row r Hr)). }
    rewrite E by exact Hi. f_equal. apply osum_ext. intros r Hr _. apply E. exact Hr.
  Qed.

  Lemma rp_len : alen theta = (num_shapes k (d_J D) + num_icpts k (d_J D) + d_K D)%nat /\
    alen theta' = (num_shapes k (d_J D') + num_icpts k (d_J D') + d_K D')%nat.
  Proof. destruct Hth as (L & L' & _). split; assumption. Qed.

  (** The two models are the same model: same utilities, same probabilities. *)
  Theorem C101_same_probabilities i : (i < length (obs_ids d))%nat ->
    est_utilities k D theta i = est_utilities k D' theta' i /\
    est_long_probs k D theta i = est_long_probs k D' theta' i.
  Proof.
    intros Hi. destruct rp_len as (L & L').
    rewrite !est_utilities_eq, !est_long_probs_eq by assumption. split; [exact (proj1 (rp_row i Hi))|apply rp_probs; exact Hi].
  Qed.

  (** Without ridge penalty: same log-likelihood, and gradient and Hessian transform with
      the chain rule. *)
  Theorem C101_log_likelihood_and_derivatives :
    ridge = None -> same_weight_within_observation d w ->
    est_log_likelihood k D theta = est_log_likelihood k D' theta' /\
    exists g g' H H',
      est_gradient k D theta = Ok g /\ est_gradient k D' theta' = Ok g' /\
      est_hessian k D theta = Ok H /\ est_hessian k D' theta' = Ok H' /\
      sqn H = alen theta /\ sqn H' = alen theta' /\
      forall b, (b < p + K')%nat ->
        aget g' b = sumn (p + K) (fun a => lifted p T a b * aget g a) /\
        forall c, (c < p + K')%nat ->
          sqe H' b c = sumn (p + K) (fun a => lifted p T a b * sumn (p + K) (fun e => lifted p T e c * sqe H a e)).
  Proof.
    intros Hr Hw. destruct rp_len as (L & L').
    assert (R0 : ridge_or_0 D = 0) by (unfold ridge_or_0, D, data_of; cbn [d_ridge]; rewrite Hr; reflexivity).
    assert (R0' : ridge_or_0 D' = 0) by (unfold ridge_or_0, D', data_of; cbn [d_ridge]; rewrite Hr; reflexivity).
    split.
    { rewrite !est_ll_eq by assumption. rewrite R0, R0', !Rmult_0_l. f_equal. apply sumn_ext. intros i Hi.
      change (d_y D i * (eff_weights w i * ln (probs_at k D theta i)) = d_y D i * (eff_weights w i * ln (probs_at k D' theta' i))).
      rewrite rp_probs by exact Hi. reflexivity. }
    pose proof (data_obs_indicator d spec mp K X w ridge Hmp) as Hown. fold D in Hown.
    pose proof (data_obs_indicator d spec mp K' X' w ridge Hmp) as Hown'. fold D' in Hown'.
    assert (Hw' : weights_per_observation (d_N D) (own_of (obs_ids d)) (eff_weights (d_w D))) by (apply weights_of; exact Hw).
    destruct (grad_form k D theta HK L) as (g & Eg & _ & G). destruct (grad_form k D' theta' HK' L') as (g' & Eg' & _ & G').
    destruct (hess_form k D (own_of (obs_ids d)) theta HK L Hown (or_intror Hw')) as (H & EH & LH & FH).
    destruct (hess_form k D' (own_of (obs_ids d)) theta' HK' L' Hown' (or_intror Hw')) as (H' & EH' & LH' & FH').
    exists g, g', H, H'. do 4 (split; [assumption|]). split; [exact LH|]. split; [exact LH'|].
    assert (La : alen theta = (p + K)%nat) by exact L. assert (La' : alen theta' = (p + K')%nat) by exact L'.
    rewrite La in G, FH. rewrite La' in G', FH'.
    intros b Hb. split.
    - rewrite G' by exact Hb. rewrite R0'.
      rewrite (sumn_ext (p + K) _ (fun a => sumn (d_N D) (fun i => eff_weights w i * (d_y D i - probs_at k D theta i) * (lifted p T a b * DH k D theta i a)))).
      2: { intros a Ha. rewrite G by exact Ha. rewrite R0. rewrite Rmult_0_r, Rmult_0_l, Rminus_0_r, <- sumn_scal_l. apply sumn_ext. intros i _.
           change (eff_weights (d_w D)) with (eff_weights w). fold (probs_at k D theta). ring. }
      rewrite sumn_swap, Rmult_0_r, Rmult_0_l, Rminus_0_r. apply sumn_ext. intros i Hi.
      fold (probs_at k D' theta'). change (eff_weights (d_w D')) with (eff_weights w). change (d_y D') with (d_y D).
      rewrite <- rp_probs by exact Hi. rewrite sumn_scal_l. f_equal. apply (proj2 (rp_row i Hi) b Hb).
    - intros c Hc. rewrite FH' by assumption. rewrite R0'. 
      set (own := own_of (obs_ids d)) in *.
      rewrite (sumn_ext (p + K) _ (fun a => lifted p T a b * - Qf (d_N D) own (eff_weights w) (probs_at k D theta) (fun i => DH k D theta i a)
          (fun i => sumn (p + K) (fun e => lifted p T e c * DH k D theta i e)))).
      2: { intros a Ha. f_equal. rewrite <- Qf_sum_r, <- sumn_opp. apply sumn_ext. intros e He. rewrite FH by assumption. rewrite R0.
           change (eff_weights (d_w D)) with (eff_weights w). ring. }
      rewrite (sumn_ext (p + K) _ (fun a => - (lifted p T a b * Qf (d_N D) own (eff_weights w) (probs_at k D theta) (fun i => DH k D theta i a)
          (fun i => sumn (p + K) (fun e => lifted p T e c * DH k D theta i e))))) by (intros; ring).
      rewrite sumn_opp, Qf_sum_l. rewrite Rmult_0_r, Rmult_0_l, Rminus_0_r. f_equal.
      change (d_N D') with (d_N D). change (eff_weights (d_w D')) with (eff_weights w).
      unfold Qf. f_equal; apply sumn_ext; intros i Hi; rewrite <- (rp_probs i Hi); rewrite !(proj2 (rp_row i Hi)) by assumption.
      + reflexivity.
      + f_equal. apply osum_ext. intros r Hr' _. rewrite <- (rp_probs r Hr'). rewrite !(proj2 (rp_row r Hr')) by assumption. reflexivity.
  Qed.
End Reparam.

(** ** Change of units *)

(** Variable b is multiplied by c b. *)
Definition rescaled (N K : nat) (X X' : mat) (c : vec) : Prop :=
  forall i b, (i < N)%nat -> (b < K)%nat -> X' i b = c b * X i b.
(** ... and what that does to entry a of the parameter vector: nothing to the first p. *)
Definition unit_of (p : nat) (c : vec) (a : nat) : R := if (a <? p)%nat then 1 else c (a - p)%nat.

Lemma rescaled_recombined N K X X' c : rescaled N K X X' c -> recombined N K K X X' (diagm c).
Proof.
  intros H i b Hi Hb. rewrite H by assumption.
  rewrite (sumn_ext K _ (fun a => if (a =? b)%nat then X i a * c a else 0)).
  - rewrite (sumn_single K b (fun a => X i a * c a) Hb). ring.
  - intros a _. unfold diagm. destruct (a =? b)%nat; ring.
Qed.

Lemma lifted_diag p c n b f : (b < n)%nat -> sumn n (fun a => lifted p (diagm c) a b * f a) = unit_of p c b * f b.
Proof.
  intros Hb. rewrite (sumn_ext n _ (fun a => if (a =? b)%nat then unit_of p c a * f a else 0)).
  - apply (sumn_single n b (fun a => unit_of p c a * f a) Hb).
  - intros a _. unfold lifted, unit_of, diagm. destruct (Nat.ltb_spec a p).
    + destruct (a =? b)%nat; ring.
    + destruct (Nat.eqb_spec a b) as [->|Hne].
      * destruct (Nat.ltb_spec b p); [lia|]. rewrite Nat.eqb_refl. ring.
      * destruct (Nat.ltb_spec b p); [ring|]. destruct (Nat.eqb_spec (a - p) (b - p)); [lia|ring].
Qed.

Lemma lifted_diag_row p c n a f : (a < n)%nat -> sumn n (fun b => lifted p (diagm c) a b * f b) = unit_of p c a * f a.
Proof.
  intros Ha. rewrite (sumn_ext n _ (fun b => if (a =? b)%nat then unit_of p c b * f b else 0)).
  - apply (sumn_single' n a (fun b => unit_of p c b * f b) Ha).
  - intros b _. unfold lifted, unit_of, diagm. destruct (Nat.eqb_spec a b) as [->|Hne].
    + destruct (Nat.ltb_spec b p); [ring|]. rewrite Nat.eqb_refl. ring.
    + destruct (Nat.ltb_spec a p); [ring|]. destruct (Nat.ltb_spec b p); [ring|].
      destruct (Nat.eqb_spec (a - p) (b - p)); [lia|ring].
Qed.

(** Multiplying the variables by non-zero constants and dividing the coefficients by them
    leaves probabilities and log-likelihood unchanged; slopes are multiplied, and covariances
    of the estimates (entries of minus the inverse of the Hessian) divided, by the constants.
    In particular a standard error is divided by the same |constant| as its coefficient. *)
Theorem C101_change_of_units k d spec mp K X X' c w theta theta' :
  create_long_form_mappings d spec = Ok mp -> (0 < K)%nat ->
  rescaled (length (obs_ids d)) K X X' c -> (forall b, (b < K)%nat -> c b <> 0) ->
  same_weight_within_observation d w ->
  let D := data_of d mp K X w None in
  let D' := data_of d mp K X' w None in
  kind_ok k (d_J D) ->
  let p := (num_shapes k (d_J D) + num_icpts k (d_J D))%nat in
  alen theta = (p + K)%nat -> alen theta' = (p + K)%nat ->
  (forall a, (a < p + K)%nat -> aget theta' a = aget theta a / unit_of p c a) ->
  (forall i, (i < length (obs_ids d))%nat -> est_long_probs k D' theta' i = est_long_probs k D theta i) /\
  est_log_likelihood k D' theta' = est_log_likelihood k D theta /\
  exists g g' H H',
    est_gradient k D theta = Ok g /\ est_gradient k D' theta' = Ok g' /\
    est_hessian k D theta = Ok H /\ est_hessian k D' theta' = Ok H' /\
    (forall a, (a < p + K)%nat -> aget g' a = unit_of p c a * aget g a) /\
    forall V, is_inverse (p + K) (sqe H) V ->
      is_inverse (p + K) (sqe H') (fun a b => V a b / (unit_of p c a * unit_of p c b)).
Proof.
  intros Hmp HK Hres Hc Hw D D' Hk p L L' Hth.
  assert (U : forall a, (a < p + K)%nat -> unit_of p c a <> 0).
  { intros a Ha. unfold unit_of. destruct (Nat.ltb_spec a p); [lra|]. apply Hc. lia. }
  pose proof (rescaled_recombined _ _ _ _ _ Hres) as HX.
  assert (Hcor : corresponding p K K (diagm c) theta theta').
  { split; [exact L|]. split; [exact L'|]. intros a Ha. rewrite lifted_diag_row by exact Ha. rewrite Hth by exact Ha. field. apply U. exact Ha. }
  pose proof (fun i Hi => proj2 (C101_same_probabilities k d spec mp K K X X' (diagm c) w None Hmp HK HK HX Hk theta theta' Hcor i Hi)) as P.
  destruct (C101_log_likelihood_and_derivatives k d spec mp K K X X' (diagm c) w None Hmp HK HK HX Hk theta theta' Hcor eq_refl Hw)
    as (LL & g & g' & H & H' & Eg & Eg' & EH & EH' & LH & LH' & F).
  split; [intros i Hi; symmetry; exact (P i Hi)|]. split; [symmetry; exact LL|].
  exists g, g', H, H'. do 4 (split; [assumption|]). split.
  - intros a Ha. rewrite (proj1 (F a Ha)). apply (lifted_diag p c (p + K) a (aget g) Ha).
  - intros V [V1 V2].
    assert (FH : forall a b, (a < p + K)%nat -> (b < p + K)%nat -> sqe H' a b = unit_of p c a * unit_of p c b * sqe H a b).
    { intros a b Ha Hb. rewrite (proj2 (F a Ha) b Hb). unfold p, D. rewrite lifted_diag by exact Ha. rewrite lifted_diag by exact Hb. ring. }
    split; intros a b Ha Hb; unfold mdot.
    + rewrite (sumn_ext (p + K) _ (fun e => unit_of p c a / unit_of p c b * (sqe H a e * V e b))).
      2: { intros e He. rewrite FH by assumption. field. split; apply U; assumption. }
      rewrite sumn_scal_l. specialize (V1 a b Ha Hb). unfold mdot in V1. rewrite V1.
      destruct (Nat.eqb_spec a b) as [->|]; [field; apply U; exact Hb|ring].
    + rewrite (sumn_ext (p + K) _ (fun e => unit_of p c b / unit_of p c a * (V a e * sqe H e b))).
      2: { intros e He. rewrite FH by assumption. field. split; apply U; assumption. }
      rewrite sumn_scal_l. specialize (V2 a b Ha Hb). unfold mdot in V2. rewrite V2.
      destruct (Nat.eqb_spec a b) as [->|]; [field; apply U; exact Hb|ring].
Qed.

(** For the identified multinomial logit the estimates themselves are divided by the
    constants: any two stationary points, one for each choice of units, are related so. *)
Theorem C101_mnl_estimates_change_units d spec mp K X X' c w theta theta' g g' :
  create_long_form_mappings d spec = Ok mp -> (0 < K)%nat ->
  exactly_one_choice d -> same_weight_within_observation d w -> nonneg_weights d w ->
  rescaled (length (obs_ids d)) K X X' c -> (forall b, (b < K)%nat -> c b <> 0) ->
  identified d w K X ->
  let D := data_of d mp K X w None in
  let D' := data_of d mp K X' w None in
  (0 < d_J D)%nat ->
  check_length_of_initial_values KMNL (d_J D) K theta = Ok tt ->
  check_length_of_initial_values KMNL (d_J D') K theta' = Ok tt ->
  no_clipping KMNL D theta -> no_clipping KMNL D' theta' ->
  est_gradient KMNL D theta = Ok g -> (forall j, (j < K)%nat -> aget g j = 0) ->
  est_gradient KMNL D' theta' = Ok g' -> (forall j, (j < K)%nat -> aget g' j = 0) ->
  forall j, (j < K)%nat -> aget theta' j = aget theta j / c j.
Proof.
  intros Hmp HK Hone Hw Hnn Hres Hc Hid D D' HJ Hl Hl' Hcl Hcl' Eg Hz Eg' Hz' j Hj.
  assert (L := check_length_ok _ _ _ _ Hl). cbn in L.
  set (t := mkArr K (fun a => aget theta a / c a)).
  assert (Ht : check_length_of_initial_values KMNL (d_J D') K t = Ok tt).
  { unfold check_length_of_initial_values. cbn. rewrite Nat.eqb_refl. reflexivity. }
  assert (Uc : forall a, unit_of (num_shapes KMNL (d_J D) + num_icpts KMNL (d_J D)) c a = c a).
  { intros a. unfold unit_of. cbn. rewrite Nat.sub_0_r. reflexivity. }
  destruct (C101_change_of_units KMNL d spec mp K X X' c w theta t Hmp HK Hres Hc Hw
     ltac:(split; [exact HJ|split; exact I]) L eq_refl) as (_ & _ & g1 & g2 & H1 & H2 & E1 & E2 & _ & _ & F & _).
  { intros a Ha. rewrite Uc. reflexivity. }
  fold D D' in E1, E2. rewrite Eg in E1. injection E1 as <-.
  assert (Hz2 : forall j, (j < K)%nat -> aget g2 j = 0).
  { intros a Ha. rewrite (F a Ha). rewrite Hz by exact Ha. ring. }
  assert (Hclt : no_clipping KMNL D' t).
  { intros i Hi. specialize (Hcl i Hi). rewrite est_utilities_eq in Hcl; [|exact HK|exact L].
    rewrite est_utilities_eq; [|exact HK|reflexivity].
    enough (E : utility KMNL D' t i = utility KMNL D theta i) by (rewrite E; exact Hcl).
    unfold utility. cbn. unfold mnl_transform, sys_utilities, mvec. apply sumn_ext. intros a Ha. cbn.
    change (X' i a * (aget theta a / c a) = X i a * aget theta a). rewrite (Hres i a Hi Ha). field. apply Hc. exact Ha. }
  assert (Hid' : identified d w K X').
  { intros v Hv q Hq. assert (E : c q * v q = 0).
    { apply (Hid (fun q => c q * v q)); [|exact Hq]. intros i i' Hi Hi' Eid Hwi. specialize (Hv i i' Hi Hi' Eid Hwi).
      rewrite !(sumn_ext K _ _ (fun q _ => eq_sym (Rmult_assoc _ (c q) (v q)))).
      rewrite (sumn_ext K _ (fun q => X' i q * v q)), (sumn_ext K (fun q => X i' q * c q * v q) (fun q => X' i' q * v q)); [exact Hv| |];
        intros b Hb; rewrite Hres by assumption; ring. }
    apply Rmult_integral in E. destruct E as [E|E]; [exfalso; apply (Hc q Hq E)|exact E]. }
  rewrite (C99_estimates_do_not_depend_on_the_start d spec mp K X' w None Hmp HK Hone Hw Hnn t theta' g2 g' I Hid' Ht Hl' Hclt Hcl' E2 Hz2 Eg' Hz' j Hj).
  reflexivity.
Qed.

(** ** Cases *)

(** Metres to kilometres for the first variable, and a sum of variables as a new one. *)
Example ex_rescaled : rescaled 5 3 (fun i q => INR i + INR q) (fun i q => (if (q =? 0)%nat then / 1000 else 1) * (INR i + INR q))
  (fun q => if (q =? 0)%nat then / 1000 else 1).
Proof. intros i b _ _. reflexivity. Qed.
Example ex_recombined : recombined 5 2 2 (fun i q => INR i * INR q) (fun i q => sumn 2 (fun a => INR i * INR a * (if (a <=? q)%nat then 1 else 0)))
  (fun a q => if (a <=? q)%nat then 1 else 0).
Proof. intros i b _ _. reflexivity. Qed.
Example ex_corresponding : corresponding 2 1 1 (diagm (fun _ => 10)) (mkArr 3 (fun a => if (a =? 2)%nat then 70 else 3)) (mkArr 3 (fun a => if (a =? 2)%nat then 7 else 3)).
Proof.
  split; [reflexivity|]. split; [reflexivity|]. intros [|[|[|a]]] Ha; try lia; cbn; ring.
Qed.

Print Assumptions C101_same_probabilities.
Print Assumptions C101_log_likelihood_and_derivatives.
Print Assumptions C101_change_of_units.
Print Assumptions C101_mnl_estimates_change_units.
