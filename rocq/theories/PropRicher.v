(** Properties C105 (a richer model never fits worse) and C106 (a larger penalty shrinks). *)
From Coq Require Import String ZArith List Reals Lra Lia Arith.
From Coquelicot Require Import Coquelicot.
From Verif Require Import Res Vec Arr SpecLogit ChoiceCalcs ChoiceFacts Transforms Ids Mappings
  MappingFacts LongData LogitFacts RowDeriv HessFacts ProbFacts PropMappings PropProbs PropGradient
  PropHessian PropLikelihood PropConcave PropReparam.
Import ListNotations.
Open Scope R_scope.

(** ** Specification *)

(** The penalised log-likelihood of no other parameter vector of the right length is higher. *)
Definition best (k : logit_kind) (D : Data) (theta : arr) : Prop :=
  check_length_of_initial_values k (d_J D) (d_K D) theta = Ok tt /\
  forall theta', check_length_of_initial_values k (d_J D) (d_K D) theta' = Ok tt ->
    est_log_likelihood k D theta' <= est_log_likelihood k D theta.

(** X' has the columns of X and then others. *)
Definition extends (N K K' : nat) (X X' : mat) : Prop :=
  (K <= K')%nat /\ forall i q, (i < N)%nat -> (q < K)%nat -> X' i q = X i q.

(** theta followed by zeros *)
Definition padded (n : nat) (theta : arr) : arr :=
  mkArr (alen theta + n) (fun q => if (q <? alen theta)%nat then aget theta q else 0).

(** ** C105: more variables *)

Definition first_columns : mat := fun a b => if (a =? b)%nat then 1 else 0.

Lemma padded_sumsq n th : asumsq (padded n th) = asumsq th.
Proof.
  unfold asumsq. cbn [padded alen aget]. rewrite sumn_app.
  rewrite (sumn_eq0 n).
  - rewrite Rplus_0_r. apply sumn_ext. intros q Hq. destruct (Nat.ltb_spec q (alen th)); [reflexivity|lia].
  - intros q _. destruct (Nat.ltb_spec (alen th + q) (alen th)); [lia|]. unfold Rsqr. ring.
Qed.

Section More.
  Context (k : logit_kind) (d : long_cols) (spec : option nest_spec) (mp : mappings) (K K' : nat) (X X' : mat)
          (w : option vec) (ridge : option R).
  Hypothesis Hmp : create_long_form_mappings d spec = Ok mp.
  Hypothesis HK : (0 < K)%nat.
  Hypothesis HX : extends (length (obs_ids d)) K K' X X'.
  Let D := data_of d mp K X w ridge.
  Let D' := data_of d mp K' X' w ridge.
  Hypothesis Hk : kind_ok k (d_J D).
  Context (theta : arr).
  Hypothesis Hlen : check_length_of_initial_values k (d_J D) K theta = Ok tt.

  Let p := (num_shapes k (d_J D) + num_icpts k (d_J D))%nat.

  Lemma mo_len : alen theta = (p + K)%nat.
  Proof. unfold p. rewrite <- dims_eq by exact Hk. apply check_length_ok. exact Hlen. Qed.

  Lemma mo_recombined : recombined (length (obs_ids d)) K' K X' X first_columns.
  Proof.
    intros i b Hi Hb. destruct HX as (HKK & E). rewrite <- (E i b Hi Hb).
    rewrite (sumn_ext K' _ (fun a => if (a =? b)%nat then X' i a else 0)).
    - symmetry. apply sumn_single. lia.
    - intros a _. unfold first_columns. destruct (a =? b)%nat; ring.
  Qed.

  Lemma mo_corresponding : corresponding p K' K first_columns (padded (K' - K) theta) theta.
  Proof.
    pose proof mo_len as L. destruct HX as (HKK & _).
    split; [cbn [padded alen]; lia|]. split; [exact L|]. intros a Ha. cbn [padded aget].
    destruct (Nat.ltb_spec a p) as [Hp|Hp].
    - destruct (Nat.ltb_spec a (alen theta)); [|lia]. symmetry. apply (lifted_low p first_columns (p + K) a (aget theta)); lia.
    - replace a with (p + (a - p))%nat by lia. rewrite lifted_high. unfold first_columns.
      set (q := (a - p)%nat). destruct (Nat.ltb_spec (p + q) (alen theta)).
      + rewrite (sumn_ext K _ (fun b => if (q =? b)%nat then aget theta (p + b)%nat else 0)).
        * symmetry. apply (sumn_single' K q (fun b => aget theta (p + b)%nat)). lia.
        * intros b _. destruct (q =? b)%nat; ring.
      + symmetry. apply sumn_eq0. intros b Hb. destruct (Nat.eqb_spec q b); [lia|ring].
  Qed.

  (** A vector of the smaller model, padded with zeros, is a vector of the larger model with
      the same probabilities and the same (penalised) log-likelihood. *)
  Theorem C105_zero_coefficients :
    check_length_of_initial_values k (d_J D') K' (padded (K' - K) theta) = Ok tt /\
    (forall i, (i < length (obs_ids d))%nat -> est_long_probs k D' (padded (K' - K) theta) i = est_long_probs k D theta i) /\
    est_log_likelihood k D' (padded (K' - K) theta) = est_log_likelihood k D theta.
  Proof.
    pose proof mo_len as L. pose proof HX as (HKK & _). assert (HK' : (0 < K')%nat) by lia.
    assert (L' : alen (padded (K' - K) theta) = (p + K')%nat) by (cbn [padded alen]; lia).
    assert (P : forall i, (i < length (obs_ids d))%nat -> est_long_probs k D' (padded (K' - K) theta) i = est_long_probs k D theta i).
    { intros i Hi. exact (proj2 (C101_same_probabilities k d spec mp K' K X' X first_columns w ridge Hmp HK' HK mo_recombined Hk _ _ mo_corresponding i Hi)). }
    split; [|split; [exact P|]].
    - unfold check_length_of_initial_values. rewrite L'. change (d_J D') with (d_J D).
      rewrite (dims_eq k (d_J D) K' Hk). fold p. rewrite Nat.eqb_refl. reflexivity.
    - rewrite (est_ll_eq k D' _ HK' L'), (est_ll_eq k D _ HK L), padded_sumsq. f_equal.
      apply sumn_ext. intros i Hi. f_equal. f_equal. f_equal. specialize (P i Hi).
      rewrite (est_long_probs_eq k D' _ HK' L'), (est_long_probs_eq k D _ HK L) in P. exact P.
  Qed.

  Theorem C105_more_variables_never_fit_worse theta' :
    best k D' theta' -> est_log_likelihood k D theta <= est_log_likelihood k D' theta'.
  Proof.
    intros (_ & B). destruct C105_zero_coefficients as (L & _ & E). rewrite <- E. apply B. exact L.
  Qed.
End More.

(** ** C105: shape parameters *)

Section Shapes.
  Context (d : long_cols) (spec : option nest_spec) (mp : mappings) (K : nat) (X : mat) (w : option vec) (ridge : option R).
  Hypothesis Hmp : create_long_form_mappings d spec = Ok mp.
  Hypothesis HL : length (alt_ids d) = length (obs_ids d).
  Hypothesis HK : (0 < K)%nat.
  Let D := data_of d mp K X w ridge.
  Hypothesis HJ : (0 < d_J D)%nat.
  Context (iref : option nat).
  Hypothesis Href : valid_ref iref (d_J D).
  Let n := num_constants iref (d_J D).
  (** The multinomial logit with the same variables and, if the other model has outside
      intercepts, a constant for each of those alternatives. *)
  Let Dm := data_of d mp (n + K) (with_constants iref (d_J D) (d_A D) X) w ridge.

  Lemma ri_ll k th th' :
    kind_iref k = iref -> kind_ok k (d_J D) ->
    alen th = (num_shapes k (d_J D) + (n + K))%nat -> alen th' = (n + K)%nat ->
    (forall i, (i < length (obs_ids d))%nat -> est_long_probs k D th i = est_long_probs KMNL Dm th' i) ->
    asumsq th = asumsq th' \/ ridge = None ->
    check_length_of_initial_values k (d_J D) K th = Ok tt /\ est_log_likelihood k D th = est_log_likelihood KMNL Dm th'.
  Proof.
    intros Er Hk L L' P S.
    assert (LL : alen th = (num_shapes k (d_J D) + num_icpts k (d_J D) + d_K D)%nat).
    { rewrite L. unfold num_icpts. rewrite Er. unfold n, num_constants. change (d_K D) with K. destruct iref; lia. }
    assert (LM : alen th' = (num_shapes KMNL (d_J Dm) + num_icpts KMNL (d_J Dm) + d_K Dm)%nat).
    { rewrite L'. reflexivity. }
    assert (HKm : (0 < d_K Dm)%nat) by (change (d_K Dm) with (n + K)%nat; lia).
    split.
    - unfold check_length_of_initial_values. rewrite LL, (dims_eq k (d_J D) K Hk). change (d_K D) with K. rewrite Nat.eqb_refl. reflexivity.
    - rewrite (est_ll_eq k D th HK LL), (est_ll_eq KMNL Dm th' HKm LM). f_equal.
      + apply sumn_ext. intros i Hi. f_equal. f_equal. f_equal. specialize (P i Hi).
        rewrite (est_long_probs_eq k D th HK LL), (est_long_probs_eq KMNL Dm th' HKm LM) in P. exact P.
      + destruct S as [->|S]; [reflexivity|].
        assert (R0 : ridge_or_0 D = 0) by (unfold ridge_or_0, D, data_of; cbn [d_ridge]; rewrite S; reflexivity).
        assert (R0' : ridge_or_0 Dm = 0) by (unfold ridge_or_0, Dm, data_of; cbn [d_ridge]; rewrite S; reflexivity).
        rewrite R0, R0'. ring.
  Qed.

  Lemma zero_front m th : asumsq (mkArr (m + (n + K)) (vcat m (fun _ => 0) th)) = asumsq (mkArr (n + K) th).
  Proof.
    unfold asumsq. cbn [alen aget]. rewrite sumn_app. rewrite (sumn_eq0 m).
    - rewrite Rplus_0_l. apply sumn_ext. intros q _. rewrite vcat_r. reflexivity.
    - intros q Hq. rewrite vcat_l by exact Hq. unfold Rsqr. ring.
  Qed.

  Lemma vcat_split m (a : vec) : vcat m a (fun q => a (m + q)%nat) = a.
  Proof.
    apply FunctionalExtensionality.functional_extensionality. intros q. unfold vcat.
    destruct (Nat.ltb_spec q m); [reflexivity|]. f_equal. lia.
  Qed.

  (** The best scobit and the best uneven logit fit at least as well as any multinomial logit. *)
  Theorem C105_scobit_and_uneven_contain_mnl k theta_mnl theta :
    k = KScobit iref \/ k = KUneven iref ->
    check_length_of_initial_values KMNL (d_J Dm) (n + K) theta_mnl = Ok tt ->
    best k D theta ->
    est_log_likelihood KMNL Dm theta_mnl <= est_log_likelihood k D theta.
  Proof.
    intros Hkk Hm (_ & B). apply check_length_ok in Hm. cbn [assumed_param_dimensions] in Hm.
    set (a := aget theta_mnl).
    set (th := mkArr (d_J D + (n + K)) (vcat (d_J D) (fun _ => 0) (vcat n a (fun q => a (n + q)%nat)))).
    assert (Hk : kind_ok k (d_J D)) by (destruct Hkk; subst k; (split; [exact HJ|split; [exact Href|exact I]])).
    assert (Em : mkArr (n + K) (vcat n a (fun q => a (n + q)%nat)) = theta_mnl).
    { rewrite vcat_split. unfold a. destruct theta_mnl as [l g]. cbn in Hm |- *. rewrite Hm. reflexivity. }
    destruct (ri_ll k th theta_mnl) as (Lth & E).
    - destruct Hkk; subst k; reflexivity.
    - exact Hk.
    - destruct Hkk; subst k; reflexivity.
    - exact Hm.
    - intros i Hi. rewrite <- Em. destruct Hkk; subst k.
      + exact (C22_scobit_at_zero_shape_is_mnl d spec mp K X w ridge Hmp HL HK iref Href a (fun q => a (n + q)%nat) HJ i Hi).
      + exact (C22_uneven_at_zero_shape_is_mnl d spec mp K X w ridge Hmp HL HK iref Href a (fun q => a (n + q)%nat) HJ i Hi).
    - left. unfold th. rewrite zero_front. rewrite Em. reflexivity.
    - rewrite <- E. apply B. exact Lth.
  Qed.

  (** So does the asymmetric logit, when there is no penalty (its coefficients are those of
      the multinomial logit divided by ln J) and no utility of these two is clipped. *)
  Theorem C105_asym_contains_mnl sref theta_mnl theta :
    (sref < d_J D)%nat -> (2 <= d_J D)%nat -> ridge = None ->
    check_length_of_initial_values KMNL (d_J Dm) (n + K) theta_mnl = Ok tt ->
    no_clipping KMNL Dm theta_mnl ->
    no_clipping (KAsym sref iref) D
      (mkArr ((d_J D - 1) + (n + K)) (vcat (d_J D - 1) (fun _ => 0)
         (vcat n (aget theta_mnl) (fun q => aget theta_mnl (n + q)%nat / ln (INR (d_J D)))))) ->
    best (KAsym sref iref) D theta ->
    est_log_likelihood KMNL Dm theta_mnl <= est_log_likelihood (KAsym sref iref) D theta.
  Proof.
    intros Hs HJ2 Hr Hm Hc Hc' (_ & B). apply check_length_ok in Hm. cbn [assumed_param_dimensions] in Hm.
    set (a := aget theta_mnl) in *. set (b := fun q => a (n + q)%nat / ln (INR (d_J D))) in *.
    set (th := mkArr ((d_J D - 1) + (n + K)) (vcat (d_J D - 1) (fun _ => 0) (vcat n a b))) in *.
    assert (LJ : ln (INR (d_J D)) <> 0).
    { apply Rgt_not_eq. rewrite <- ln_1. apply ln_increasing; [lra|].
      assert (H2 : INR 2 <= INR (d_J D)) by (apply le_INR; exact HJ2). replace (INR 2) with 2 in H2 by (cbn; ring). lra. }
    assert (Em : mkArr (n + K) (vcat n a (fun q => ln (INR (d_J D)) * b q)) = theta_mnl).
    { transitivity (mkArr (n + K) a).
      - f_equal. rewrite <- (vcat_split n a) at 2. f_equal. apply FunctionalExtensionality.functional_extensionality.
        intros q. unfold b. field. exact LJ.
      - unfold a. destruct theta_mnl as [l g]. cbn in Hm |- *. rewrite Hm. reflexivity. }
    destruct (ri_ll (KAsym sref iref) th theta_mnl) as (Lth & E).
    - reflexivity.
    - split; [exact HJ|]. split; [exact Href|]. split; assumption.
    - reflexivity.
    - exact Hm.
    - intros i Hi. rewrite <- Em.
      apply (C22_asym_at_zero_shape_is_scaled_mnl d spec mp K X w ridge Hmp HL HK iref Href a b HJ sref i Hs HJ2); [exact Hc'| |exact Hi].
      fold D n Dm. rewrite Em. exact Hc.
    - right. exact Hr.
    - rewrite <- E. apply B. exact Lth.
  Qed.
End Shapes.

(** ** C106: the penalty *)

Section Penalty.
  Context (k : logit_kind) (d : long_cols) (spec : option nest_spec) (mp : mappings) (K : nat) (X : mat) (w : option vec).
  Hypothesis HK : (0 < K)%nat.
  (** Without penalty, and with penalties r1 < r2. *)
  Let D0 := data_of d mp K X w None.
  Let D r := data_of d mp K X w (Some r).
  Hypothesis Hk : kind_ok k (d_J D0).
  Context (r1 r2 : R) (theta1 theta2 : arr).
  Hypothesis Hr : r1 < r2.
  Hypothesis B1 : best k (D r1) theta1.
  Hypothesis B2 : best k (D r2) theta2.

  Lemma pe_ll r th : check_length_of_initial_values k (d_J D0) K th = Ok tt ->
    est_log_likelihood k (D r) th = est_log_likelihood k D0 th - r * asumsq th.
  Proof.
    intros Hl. assert (L : alen th = (num_shapes k (d_J D0) + num_icpts k (d_J D0) + K)%nat)
      by (rewrite <- dims_eq by exact Hk; apply check_length_ok; exact Hl).
    rewrite (est_ll_eq k (D r) th HK L), (est_ll_eq k D0 th HK L).
    change (ridge_or_0 (D r)) with r. change (ridge_or_0 D0) with 0. rewrite Rmult_0_l, Rminus_0_r. reflexivity.
  Qed.

  (** The larger the penalty, the shorter the estimates, and the worse the plain fit. *)
  Theorem C106_penalty_shrinks :
    sumn (alen theta2) (fun j => Rsqr (aget theta2 j)) <= sumn (alen theta1) (fun j => Rsqr (aget theta1 j)) /\
    (0 <= r1 -> est_log_likelihood k D0 theta2 <= est_log_likelihood k D0 theta1) /\
    (0 <= r1 -> est_log_likelihood k (D r2) theta2 <= est_log_likelihood k (D r1) theta1).
  Proof.
    destruct B1 as (L1 & M1). destruct B2 as (L2 & M2). change (d_J (D r1)) with (d_J D0) in *. change (d_J (D r2)) with (d_J D0) in *.
    change (d_K (D r1)) with K in *. change (d_K (D r2)) with K in *.
    pose proof (M1 _ L2) as A1. pose proof (M2 _ L1) as A2. rewrite !pe_ll in * by assumption.
    change (sumn (alen theta2) (fun j => Rsqr (aget theta2 j))) with (asumsq theta2).
    change (sumn (alen theta1) (fun j => Rsqr (aget theta1 j))) with (asumsq theta1).
    assert (S : asumsq theta2 <= asumsq theta1) by nra.
    assert (S2 : 0 <= asumsq theta2) by (apply sumn_ge0; intros; apply Rle_0_sqr).
    split; [exact S|]. split; intros H0; nra.
  Qed.

  (** Penalties are compared with no penalty at all in the same way. *)
End Penalty.

Theorem C106_penalty_against_none k d mp K X w r theta0 theta :
  (0 < K)%nat -> let D0 := data_of d mp K X w None in
  kind_ok k (d_J D0) -> 0 < r -> best k D0 theta0 -> best k (data_of d mp K X w (Some r)) theta ->
  sumn (alen theta) (fun j => Rsqr (aget theta j)) <= sumn (alen theta0) (fun j => Rsqr (aget theta0 j)) /\
  est_log_likelihood k D0 theta <= est_log_likelihood k D0 theta0.
Proof.
  intros HK D0 Hk Hr (L0 & M0) (L & M).
  change (d_J (data_of d mp K X w (Some r))) with (d_J D0) in *. change (d_K (data_of d mp K X w (Some r))) with K in *.
  change (d_K D0) with K in *. pose proof (M0 _ L) as A0. pose proof (M _ L0) as A.
  unfold D0 in *. rewrite !(pe_ll k d mp K X w HK Hk r) in A by assumption. split; [|exact A0].
  change (asumsq theta <= asumsq theta0). nra.
Qed.

(** ** A concrete case: two observations with the same two alternatives, one choice of each.
    For every model type the zero vector is best, with and without penalty. *)

Definition twin_cols : long_cols := mkLong [1; 1; 2; 2]%Z [5; 7; 5; 7]%Z (Some [1; 0; 0; 1]%Z) None.
Definition twin_mp : mappings :=
  match create_long_form_mappings twin_cols None with Ok mp => mp | Err _ => mkMappings (mkSmat 0 0 []) (mkSmat 0 0 []) None None None end.
Definition twin_X : mat := fun i q => if Nat.even i then INR (S q) else - INR (S q).

Lemma twin_mappings : create_long_form_mappings twin_cols None = Ok twin_mp.
Proof. reflexivity. Qed.

Lemma twin_probs k K w ridge theta : (0 < K)%nat ->
  let D := data_of twin_cols twin_mp K twin_X w ridge in
  alen theta = (num_shapes k (d_J D) + num_icpts k (d_J D) + d_K D)%nat ->
  est_long_probs k D theta 0%nat + est_long_probs k D theta 3%nat = 1 /\
  0 < est_long_probs k D theta 0%nat /\ 0 < est_long_probs k D theta 3%nat.
Proof.
  intros HK D L. rewrite (est_long_probs_eq k D theta HK L).
  unfold D, probs_at. rewrite !(probs_closed _ twin_cols None twin_mp K twin_X w ridge twin_mappings) by (cbn; lia). fold D.
  set (e := long_exponentials (model_of k) D (sh k (d_J D) theta) (ic k (d_J D) theta) (be k (d_J D) (d_K D) theta)).
  assert (P : forall i, 0 < e i) by (intros i; apply exp_pos).
  assert (T : forall a b, (a = 0 /\ b = 2 \/ a = 1 /\ b = 3)%nat -> e a = e b).
  { intros a b H. unfold e, long_exponentials. f_equal. f_equal. apply transform_rowwise.
    - unfold sys_utilities, mvec. apply sumn_ext. intros q _. f_equal. destruct H as [(-> & ->)|(-> & ->)]; reflexivity.
    - intros j Hj. destruct H as [(-> & ->)|(-> & ->)]; reflexivity. }
  unfold id_sum. cbn [twin_cols obs_ids length sumn nth Z.eqb Pos.eqb].
  rewrite <- (T 1 3)%nat by auto. rewrite <- (T 0 2)%nat by auto.
  pose proof (P 0%nat) as P0. pose proof (P 1%nat) as P1.
  repeat split; [field; lra|apply Rdiv_lt_0_compat; lra|apply Rdiv_lt_0_compat; lra].
Qed.

Lemma twin_one_choice : exactly_one_choice twin_cols /\ picks_chosen_rows twin_cols (fun j => if (j =? 0)%nat then 0%nat else 3%nat).
Proof.
  split.
  - exists [1; 0; 0; 1]%Z. split; [reflexivity|]. split.
    + intros i Hi. cbn in Hi. do 4 (destruct i as [|i]; [cbn; auto|]). lia.
    + intros o Ho. cbn in Ho. assert (o = 1 \/ o = 2)%Z as [-> | ->] by lia; [exists 0%nat|exists 3%nat];
        cbn; repeat split; try lia; intros i' Hi' E C;
        do 4 (destruct i' as [|i']; [cbn in *; try lia; try discriminate|]); lia.
  - intros j Hj. cbn in Hj. do 2 (destruct j as [|j]; [cbn; repeat split; try lia; try reflexivity|]). lia.
Qed.

Example twin_best k K ridge : (0 < K)%nat -> nonneg_ridge ridge ->
  let D := data_of twin_cols twin_mp K twin_X None ridge in
  kind_ok k (d_J D) -> best k D (zeros (assumed_param_dimensions k (d_J D) K)).
Proof.
  intros HK Hr D Hk.
  assert (C : check_length_of_initial_values k (d_J D) K (zeros (assumed_param_dimensions k (d_J D) K)) = Ok tt)
    by (unfold check_length_of_initial_values; cbn [zeros alen]; rewrite Nat.eqb_refl; reflexivity).
  split; [exact C|]. intros theta' Hl'. change (d_K D) with K in Hl'.
  destruct twin_one_choice as (H1 & H2).
  unfold D. rewrite (C37_null_log_likelihood k twin_cols None twin_mp K twin_X None ridge _ twin_mappings eq_refl HK H1 H2 Hk).
  rewrite (C24_log_likelihood_sum k twin_cols twin_mp K twin_X None ridge _ HK Hk Hl' _ H1 H2).
  fold D. change (length (first_seen (obs_ids twin_cols))) with 2%nat. cbn [sumn Nat.eqb eff_weights].
  change (rows_of (obs_ids twin_cols) (nth 0 (first_seen (obs_ids twin_cols)) 0%Z)) with 2%nat.
  change (rows_of (obs_ids twin_cols) (nth 1 (first_seen (obs_ids twin_cols)) 0%Z)) with 2%nat.
  assert (L : alen theta' = (num_shapes k (d_J D) + num_icpts k (d_J D) + d_K D)%nat)
    by (change (d_K D) with K; rewrite <- dims_eq by exact Hk; apply check_length_ok; exact Hl').
  destruct (twin_probs k K None ridge theta' HK L) as (S & P0 & P3). fold D in S, P0, P3.
  set (p0 := est_long_probs k D theta' 0%nat) in *. set (p3 := est_long_probs k D theta' 3%nat) in *.
  assert (Q : 0 <= match ridge with Some r => r * sumn (alen theta') (fun j => Rsqr (aget theta' j)) | None => 0 end).
  { destruct ridge as [r|]; [|lra]. apply Rmult_le_pos; [exact Hr|]. apply sumn_ge0. intros; apply Rle_0_sqr. }
  assert (G : ln p0 + ln p3 <= - ln (INR 2) - ln (INR 2)).
  { cbn [INR]. replace (1 + 1) with 2 by ring. rewrite <- ln_mult by assumption.
    replace (- ln 2 - ln 2) with (ln (/ 4)).
    - assert (p0 * p3 <= / 4) by (replace p3 with (1 - p0) by lra; pose proof (Rle_0_sqr (p0 - / 2)) as A; unfold Rsqr in A; lra).
      destruct H as [H|H]; [left; apply ln_increasing; [apply Rmult_lt_0_compat; assumption|exact H]|rewrite H; lra].
    - replace (/ 4) with (/ (2 * 2)) by field. rewrite ln_Rinv, ln_mult by lra. ring. }
  lra.
Qed.

(** Both sides of C105 and C106 can be met: nested designs and increasing penalties. *)
Example ex_richer : extends (length (obs_ids twin_cols)) 1 3 twin_X twin_X /\
  best (KUneven None) (data_of twin_cols twin_mp 3 twin_X None None) (zeros 5) /\
  best (KUneven None) (data_of twin_cols twin_mp 3 twin_X None (Some 1)) (zeros 5) /\
  best (KUneven None) (data_of twin_cols twin_mp 3 twin_X None (Some 2)) (zeros 5).
Proof.
  split; [split; [lia|reflexivity]|].
  assert (Hk : kind_ok (KUneven None) (d_J (data_of twin_cols twin_mp 3 twin_X None None))) by (cbn; repeat split; lia).
  split; [|split].
  - apply (twin_best (KUneven None) 3 None); [lia|exact I|exact Hk].
  - apply (twin_best (KUneven None) 3 (Some 1)); [lia|cbn; lra|exact Hk].
  - apply (twin_best (KUneven None) 3 (Some 2)); [lia|cbn; lra|exact Hk].
Qed.

Print Assumptions C105_zero_coefficients.
Print Assumptions C105_more_variables_never_fit_worse.
Print Assumptions C105_scobit_and_uneven_contain_mnl.
Print Assumptions C105_asym_contains_mnl.
Print Assumptions C106_penalty_shrinks.
Print Assumptions C106_penalty_against_none.
