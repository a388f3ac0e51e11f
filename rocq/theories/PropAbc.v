(** Properties of ABC intervals: C59 (the weights of the finite differences), C77 (what
    the interval is when the estimator ignores the weights, as fit_mle does), C78 (what
    it is when the estimator is a weighted mean). *)
From Coq Require Import Reals Lra Lia ZArith List Bool Arith FunctionalExtensionality.
From Verif Require Import Res Vec Arr Ids Mappings MappingFacts LongData PropMappings Frame ChoiceTools BaseModel PropLikelihood Estimation PropEstimation
  BootCalcs PropBca BootAbc.
Import ListNotations.
Open Scope R_scope.

(** ** Facts *)

Lemma xadd_0_l a : xadd (XFin 0) a = a.
Proof. destruct a; simpl; try reflexivity. f_equal. lra. Qed.
Lemma xscale_1 a : xscale 1 a = a.
Proof.
  destruct a; simpl; try reflexivity; [f_equal; lra| |];
    (destruct (Req_EM_T 1 0); [lra|]; destruct (Rlt_dec 0 1); [reflexivity|lra]).
Qed.

Lemma sparse_row_zero n row w : (forall j, (j < n)%nat -> row j = 0) -> sparse_row_dot n row w = XFin 0.
Proof.
  induction n as [|n IH]; intros H; simpl; [reflexivity|].
  destruct (Req_EM_T (row n) 0) as [_|E]; [apply IH; intros; apply H; lia|elim E; apply H; lia].
Qed.

Lemma sparse_row_single n row w k :
  (k < n)%nat -> row k = 1 -> (forall j, (j < n)%nat -> j <> k -> row j = 0) -> sparse_row_dot n row w = w k.
Proof.
  induction n as [|n IH]; intros Hk H1 H0; [lia|]. simpl. destruct (Nat.eq_dec n k) as [->|Hne].
  - destruct (Req_EM_T (row k) 0) as [E|_]; [lra|]. rewrite H1, xscale_1, sparse_row_zero.
    + apply xadd_0_l.
    + intros j Hj. apply H0; lia.
  - destruct (Req_EM_T (row n) 0) as [_|E].
    + apply IH; [lia|exact H1|]. intros; apply H0; lia.
    + elim E. apply H0; lia.
Qed.

Lemma finite_diff_loop_form n r2o orig fit eps left : forall obs l,
  finite_diff_loop n r2o orig fit eps obs left = Ok l ->
  length l = left /\
  forall k, (k < left)%nat -> forall d,
    fit (long_of n r2o orig (finite (wide_weights_plus n eps (obs + k)))) = Ok (fst (nth k l d)) /\
    fit (long_of n r2o orig (finite (wide_weights_minus n eps (obs + k)))) = Ok (snd (nth k l d)).
Proof.
  induction left as [|left IH]; intros obs l H; cbn [finite_diff_loop] in H.
  - injection H as <-. split; [reflexivity|]. intros; lia.
  - apply bind_ok in H. destruct H as (p & Hp & H). apply bind_ok in H. destruct H as (m & Hm & H).
    apply bind_ok in H. destruct H as (rest & Hr & H). injection H as <-.
    destruct (IH _ _ Hr) as (Hl & HI). split; [simpl; lia|]. intros [|k] Hk d; cbn [nth].
    + rewrite Nat.add_0_r. split; assumption.
    + replace (obs + S k)%nat with (S obs + k)%nat by lia. apply HI. lia.
Qed.

Lemma finite_diff_loop_ok n r2o orig fit eps P M left : forall obs,
  (forall o, fit (long_of n r2o orig (finite (wide_weights_plus n eps o))) = Ok (P o)) ->
  (forall o, fit (long_of n r2o orig (finite (wide_weights_minus n eps o))) = Ok (M o)) ->
  finite_diff_loop n r2o orig fit eps obs left = Ok (map (fun o => (P o, M o)) (seq obs left)).
Proof.
  induction left as [|left IH]; intros obs HP HM; [reflexivity|]. cbn [finite_diff_loop seq map].
  rewrite HP, HM. cbn [bind]. rewrite IH by assumption. reflexivity.
Qed.

Lemma quadratic_loop_ok n r2o orig fit w1 w3 T1 T3 left : forall p,
  (forall j, (p <= j < p + left)%nat -> fit (long_of n r2o orig (w1 j)) = Ok (T1 j)) ->
  (forall j, (p <= j < p + left)%nat -> fit (long_of n r2o orig (w3 j)) = Ok (T3 j)) ->
  quadratic_loop n r2o orig fit w1 w3 p left = Ok (map (fun j => (T1 j, T3 j)) (seq p left)).
Proof.
  induction left as [|left IH]; intros p H1 H3; [reflexivity|]. cbn [quadratic_loop seq map].
  rewrite H1, H3 by lia. cbn [bind]. rewrite IH by (intros; (apply H1 || apply H3); lia). reflexivity.
Qed.

Lemma endpoint_loop_ok n r2o orig fit w T left : forall p,
  (forall j, (p <= j < p + left)%nat -> fit (long_of n r2o orig (w j)) = Ok (T j)) ->
  endpoint_loop n r2o orig fit w p left = Ok (map (fun j => T j j) (seq p left)).
Proof.
  induction left as [|left IH]; intros p H; [reflexivity|]. cbn [endpoint_loop seq map].
  rewrite H by lia. cbn [bind]. rewrite IH by (intros; apply H; lia). reflexivity.
Qed.

Lemma nth_map_seq0 {A} (f : nat -> A) n k d : (k < n)%nat -> nth k (map f (seq 0 n)) d = f k.
Proof.
  intros H. rewrite (nth_indep _ d (f 0%nat)) by (rewrite map_length, seq_length; exact H).
  rewrite map_nth. f_equal. rewrite seq_nth by exact H. reflexivity.
Qed.

Lemma combine_map {A B C} (f : A -> B) (g : A -> C) l : combine (map f l) (map g l) = map (fun x => (f x, g x)) l.
Proof. induction l as [|a l IH]; simpl; [reflexivity|]. f_equal. exact IH. Qed.

Lemma sum_plus_weights n eps o (t : vec) :
  (o < n)%nat ->
  sumn n (fun i => wide_weights_plus n eps o i * t i) = (1 - eps) * (sumn n t / INR n) + eps * t o.
Proof.
  intros Ho.
  rewrite (sumn_ext _ (fun i => wide_weights_plus n eps o i * t i)
             (fun i => (1 - eps) * (1 / INR n) * t i + (if (i =? o)%nat then eps * t i else 0))).
  2:{ intros i _. unfold wide_weights_plus. destruct (i =? o)%nat; lra. }
  rewrite sumn_plus, sumn_scal_l, (sumn_single n o) by exact Ho.
  field. apply not_0_INR. lia.
Qed.

Lemma sum_minus_weights n eps o (t : vec) :
  (o < n)%nat ->
  sumn n (fun i => wide_weights_minus n eps o i * t i) = (1 + eps) * (sumn n t / INR n) - eps * t o.
Proof.
  intros Ho.
  rewrite (sumn_ext _ (fun i => wide_weights_minus n eps o i * t i)
             (fun i => (1 + eps) * (1 / INR n) * t i + (if (i =? o)%nat then - eps * t i else 0))).
  2:{ intros i _. unfold wide_weights_minus. destruct (i =? o)%nat; lra. }
  rewrite sumn_plus, sumn_scal_l, (sumn_single n o) by exact Ho.
  field. apply not_0_INR. lia.
Qed.

(** ** C59: the weights of the finite differences *)

(** Over the observations the perturbed weights sum to one. *)
Theorem C59_weights_sum_to_one n eps o :
  (o < n)%nat ->
  sumn n (wide_weights_plus n eps o) = 1 /\ sumn n (wide_weights_minus n eps o) = 1.
Proof.
  intros Ho. assert (INR n <> 0) by (apply not_0_INR; lia).
  pose proof (sum_plus_weights n eps o (fun _ => 1) Ho) as H1.
  pose proof (sum_minus_weights n eps o (fun _ => 1) Ho) as H2.
  rewrite sumn_const in H1, H2. split.
  - rewrite (sumn_ext _ _ (fun i => wide_weights_plus n eps o i * 1)) by (intros; lra). rewrite H1. field; assumption.
  - rewrite (sumn_ext _ _ (fun i => wide_weights_minus n eps o i * 1)) by (intros; lra). rewrite H2. field; assumption.
Qed.

(** Every row of the long data gets the weight of its own observation. *)
Theorem C59_long_row_gets_its_observations_weight d spec mp :
  create_long_form_mappings d spec = Ok mp ->
  exists u, distinct_in_order_of_appearance (obs_ids d) u /\
    forall w i o, (i < length (obs_ids d))%nat -> (o < length u)%nat -> nth i (obs_ids d) 0%Z = nth o u 0%Z ->
      create_long_form_weights (length u) (smat_R (rows_to_obs mp)) w i = w o.
Proof.
  intros H. destruct (C01_rows_to_obs _ _ _ H) as (u & Hu & (_ & _ & He)). exists u. split; [exact Hu|].
  intros w i o Hi Ho E. unfold create_long_form_weights. apply sparse_row_single; [exact Ho| |].
  - unfold smat_R. destruct (He i o Hi Ho) as [E1 _]. rewrite E1 by exact E. reflexivity.
  - intros j Hj Hne. unfold smat_R. destruct (He i j Hi Hj) as [_ E0]. rewrite E0; [reflexivity|].
    intros E'. apply Hne. apply (proj1 (NoDup_nth u 0%Z) (proj1 Hu)); [exact Hj|exact Ho|congruence].
Qed.

(** The refits behind row [o] of the two arrays: the rows of the [o]-th observation
    weigh (1-eps)/n + eps (resp. (1+eps)/n - eps), all others (1-eps)/n (resp.
    (1+eps)/n), times the user's weights when there are any. *)
Theorem C59_weights_of_the_refits d spec mp :
  create_long_form_mappings d spec = Ok mp ->
  exists u, distinct_in_order_of_appearance (obs_ids d) u /\
    forall orig fit eps term_plus term_minus,
      calc_finite_diff_terms_for_abc (length u) (smat_R (rows_to_obs mp)) orig fit eps = Ok (term_plus, term_minus) ->
      forall o, (o < length u)%nat ->
      exists wp wm, fit wp = Ok (term_plus o) /\ fit wm = Ok (term_minus o) /\
        forall i, (i < length (obs_ids d))%nat ->
          let mine := if Z.eqb (nth i (obs_ids d) 0%Z) (nth o u 0%Z) then eps else 0 in
          let user := match orig with None => 1 | Some v => v i end in
          wp i = XFin (user * ((1 - eps) / INR (length u) + mine)) /\
          wm i = XFin (user * ((1 + eps) / INR (length u) - mine)).
Proof.
  intros H. destruct (C59_long_row_gets_its_observations_weight _ _ _ H) as (u & Hu & Hw).
  exists u. split; [exact Hu|]. intros orig fit eps tp tm HT o Ho.
  unfold calc_finite_diff_terms_for_abc in HT. apply bind_ok in HT. destruct HT as (l & Hl & HT).
  injection HT as <- <-. destruct (finite_diff_loop_form _ _ _ _ _ _ _ _ Hl) as (_ & HF).
  destruct (HF o Ho (fun _ => 0, fun _ => 0)) as (HP & HM). cbn [Nat.add] in HP, HM.
  do 2 eexists. split; [exact HP|]. split; [exact HM|].
  intros i Hi mine user. destruct Hu as (Hn & Hin & _).
  assert (Hx : In (nth i (obs_ids d) 0%Z) u) by (apply Hin, nth_In; exact Hi).
  destruct (In_nth u _ 0%Z Hx) as (k & Hk & Ek).
  unfold long_of, times_orig. rewrite !(Hw _ i k Hi Hk (eq_sym Ek)).
  assert (Em : mine = if (k =? o)%nat then eps else 0).
  { unfold mine. rewrite <- Ek. destruct (Nat.eqb_spec k o) as [->|Hne]; [rewrite Z.eqb_refl; reflexivity|].
    destruct (Z.eqb_spec (nth k u 0%Z) (nth o u 0%Z)) as [E|]; [|reflexivity].
    elim Hne. apply (proj1 (NoDup_nth u 0%Z) Hn); assumption. }
  unfold finite, wide_weights_plus, wide_weights_minus. rewrite Em. unfold user.
  destruct orig; cbn [xscale]; destruct (k =? o)%nat; split; f_equal; unfold Rdiv; ring.
Qed.

Theorem C59_plus_weights_nonneg n eps o i :
  0 <= eps <= 1 -> 0 <= wide_weights_plus n eps o i.
Proof.
  intros He. unfold wide_weights_plus.
  assert (0 <= 1 / INR n).
  { destruct n as [|n]; [simpl; unfold Rdiv; rewrite Rmult_1_l; rewrite Rinv_0; lra|].
    left. unfold Rdiv. rewrite Rmult_1_l. apply Rinv_0_lt_compat. apply lt_0_INR. lia. }
  assert (0 <= (1 - eps) * (1 / INR n)) by (apply Rmult_le_pos; lra).
  destruct (i =? o)%nat; lra.
Qed.

(** The minus-weight of the perturbed observation, in contrast, is negative as soon as
    eps > 1/(n-1): with the default eps = 0.001, from 1002 observations on. *)
Theorem C59_refuted_minus_weights_nonneg n eps o :
  (2 <= n)%nat -> / (INR n - 1) < eps -> wide_weights_minus n eps o o < 0.
Proof.
  intros Hn He. unfold wide_weights_minus. rewrite Nat.eqb_refl.
  assert (H2 : 2 <= INR n) by (replace 2 with (INR 2) by (simpl; lra); apply le_INR; exact Hn).
  assert (1 < eps * (INR n - 1)).
  { apply (Rmult_lt_compat_r (INR n - 1)) in He; [|lra]. rewrite Rinv_l in He by lra. exact He. }
  apply (Rmult_lt_reg_r (INR n)); [lra|]. replace (((1 + eps) * (1 / INR n) - eps) * INR n)
    with (1 + eps - eps * INR n) by (field; lra). lra.
Qed.

Example ex_minus_weights_default_epsilon : wide_weights_minus 1002 (1 / 1000) 0%nat 0%nat < 0.
Proof.
  apply C59_refuted_minus_weights_nonneg; [lia|]. rewrite INR_IZR_INZ. simpl Z.of_nat. lra.
Qed.

(** Two observations of two rows each. *)
Definition abc_cols : long_cols :=
  mkLong [7; 7; 4; 4]%Z [1; 2; 1; 2]%Z (Some [1; 0; 0; 1]%Z) None.
Example ex_abc_weights : exists mp, create_long_form_mappings abc_cols None = Ok mp /\
  create_long_form_weights 2 (smat_R (rows_to_obs mp)) (finite (wide_weights_plus 2 (1 / 10) 1)) 2%nat = XFin (11 / 20) /\
  create_long_form_weights 2 (smat_R (rows_to_obs mp)) (finite (wide_weights_plus 2 (1 / 10) 1)) 1%nat = XFin (9 / 20).
Proof.
  eexists. split; [reflexivity|]. unfold create_long_form_weights. cbn [rows_to_obs]. split.
  - rewrite (sparse_row_single _ _ _ 1%nat); [unfold finite, wide_weights_plus; simpl; f_equal; lra|lia|reflexivity|].
    intros [|[|j]] Hj Hne; [reflexivity|lia|lia].
  - rewrite (sparse_row_single _ _ _ 0%nat); [unfold finite, wide_weights_plus; simpl; f_equal; lra|lia|reflexivity|].
    intros [|[|j]] Hj Hne; [lia|reflexivity|lia].
Qed.

(** ** C77: ABC intervals of the models *)

Lemma isclose_refl atol a : 0 <= atol -> isclose atol a a = true.
Proof.
  intros H. unfold isclose. destruct (Rle_dec (Rabs (a - a)) atol) as [|Hn]; [reflexivity|].
  elim Hn. replace (a - a) with 0 by lra. rewrite Rabs_R0. exact H.
Qed.
Lemma tiny_pos k : 0 <= / 10 ^ k.
Proof. left. apply Rinv_0_lt_compat. apply pow_lt. lra. Qed.

(** An estimator that returns the same value whatever the weights: the call fails when
    that value differs from the given estimate in some but not all components,
    otherwise both endpoints are that value. *)
Lemma constant_fit_outcome n r2o K orig fit nd mle conf eps c x :
  (forall w, fit w = Ok x) -> check_conf_percentage_validity conf = Ok c ->
  let same j := isclose (/ 10 ^ 10) (x j + x j) (2 * mle j) in
  calc_abc_interval n r2o K orig fit nd mle conf eps =
  if (existsb same (seq 0 K) && existsb (fun j => negb (same j)) (seq 0 K))%bool then Err ValueError
  else Ok (map (fun j => (x j, x j)) (seq 0 K)).
Proof.
  intros Hfit Hc same. unfold calc_abc_interval. rewrite Hc. cbn [bind].
  unfold calc_finite_diff_terms_for_abc.
  rewrite (finite_diff_loop_ok n r2o orig fit eps (fun _ => x) (fun _ => x)) by (intros; apply Hfit). cbn [bind].
  set (infl := calc_empirical_influence_abc _ _ _). set (snd_ord := calc_2nd_order_influence_abc _ _ _ _).
  unfold efron_quadratic_coef_abc.
  rewrite (quadratic_loop_ok n r2o orig fit _ _ (fun _ => x) (fun _ => x)) by (intros; apply Hfit). cbn [bind].
  unfold diag_terms. set (l := map _ (seq 0 K)).
  set (close := fun j : nat => isclose (/ 10 ^ 10) (fst (nth j l (fun _ => 0, fun _ => 0)) j + snd (nth j l (fun _ => 0, fun _ => 0)) j) (2 * mle j)).
  assert (Ecl : forall j, (j < K)%nat -> close j = same j).
  { intros j Hj. unfold close, same, l. rewrite nth_map_seq0 by exact Hj. reflexivity. }
  assert (Enum : (0 <? length (filter (fun j => negb (close j)) (seq 0 K)))%nat = existsb (fun j => negb (same j)) (seq 0 K) /\
                 (length (filter (fun j => negb (close j)) (seq 0 K)) <? K)%nat = existsb same (seq 0 K)).
  { assert (G : forall L, (forall j, In j L -> (j < K)%nat) ->
       (0 <? length (filter (fun j => negb (close j)) L))%nat = existsb (fun j => negb (same j)) L /\
       (length (filter (fun j => negb (close j)) L) <? length L)%nat = existsb same L /\
       (length (filter (fun j => negb (close j)) L) <= length L)%nat).
    { induction L as [|j L IH]; intros HL; [simpl; auto|].
      destruct (IH ltac:(intros; apply HL; right; assumption)) as (I1 & I2 & I3).
      cbn [filter existsb]. rewrite (Ecl j) by (apply HL; left; reflexivity).
      destruct (same j); cbn [negb orb length].
      - split; [exact I1|]. split; [apply Nat.ltb_lt; lia|lia].
      - split; [reflexivity|]. split; [|lia]. rewrite <- I2. destruct (Nat.ltb_spec (length (filter (fun j => negb (close j)) L)) (length L));
          [apply Nat.ltb_lt; lia|apply Nat.ltb_ge; lia]. }
    destruct (G (seq 0 K)) as (G1 & G2 & _); [intros j Hj; apply in_seq in Hj; lia|].
    rewrite seq_length in G2. split; assumption. }
  destruct Enum as (E1 & E2). unfold close in E1, E2. rewrite E1, E2, (andb_comm (existsb (fun j => negb (same j)) (seq 0 K))).
  destruct (existsb same (seq 0 K) && existsb (fun j => negb (same j)) (seq 0 K))%bool; [reflexivity|].
  cbn [bind]. unfold efron_endpoint_from_percentile_abc.
  rewrite (endpoint_loop_ok n r2o orig fit _ (fun _ => x)) by (intros; apply Hfit). cbn [bind].
  rewrite (endpoint_loop_ok n r2o orig fit _ (fun _ => x)) by (intros; apply Hfit). cbn [bind].
  rewrite combine_map. reflexivity.
Qed.

(** fit_mle does not use the weights it is given, so for every model, dataset, optimizer,
    confidence level and epsilon the lower and the upper ABC endpoint coincide: the
    interval is the point estimate, whatever the sampling variation. *)
Theorem C77_refuted_abc_interval_is_a_point
    n r2o K orig mz nm names mixing m num_draws rvs fa embed nd mle conf eps ints :
  calc_abc_interval n r2o K orig (fit_of_model mz nm names mixing m num_draws rvs fa embed) nd mle conf eps = Ok ints ->
  (0 < K)%nat ->
  exists x, (forall w, fit_of_model mz nm names mixing m num_draws rvs fa embed w = Ok x) /\
    ints = map (fun j => (x j, x j)) (seq 0 K).
Proof.
  set (fit := fit_of_model _ _ _ _ _ _ _ _ _). intros H HK.
  assert (Hw : forall w w', fit w = fit w').
  { intros w w'. unfold fit, fit_of_model. reflexivity. }
  destruct (fit (fun _ => XNaN)) as [x|e] eqn:Ex.
  - assert (Hx : forall w, fit w = Ok x) by (intros w; rewrite <- Ex; apply Hw).
    exists x. split; [exact Hx|]. destruct (check_conf_percentage_validity conf) as [c|e] eqn:Ec.
    + rewrite (constant_fit_outcome n r2o K orig fit nd mle conf eps c x Hx Ec) in H.
      destruct (_ && _)%bool in H; [discriminate|]. injection H as <-. reflexivity.
    + unfold calc_abc_interval in H. rewrite Ec in H. discriminate.
  - exfalso. assert (He : forall w, fit w = Err e) by (intros w; rewrite <- Ex; apply Hw).
    unfold calc_abc_interval in H.
    apply bind_ok in H. destruct H as (c & _ & H). apply bind_ok in H. destruct H as ([tp tm] & _ & H).
    apply bind_ok in H. destruct H as (q & _ & H). apply bind_ok in H. destruct H as (lo & Hlo & _).
    unfold efron_endpoint_from_percentile_abc in Hlo. destruct K as [|K]; [lia|]. cbn [endpoint_loop] in Hlo.
    rewrite He in Hlo. discriminate.
Qed.

(** And when refitting moves one coefficient away from the given estimate (by more than
    1e-10 in sum) but not another, no interval is returned at all. *)
Theorem C77_refuted_abc_fails_when_one_coefficient_moves
    n r2o K orig mz nm names mixing m num_draws rvs fa embed nd mle conf eps c w x i j :
  check_conf_percentage_validity conf = Ok c ->
  fit_of_model mz nm names mixing m num_draws rvs fa embed w = Ok x ->
  (i < K)%nat -> x i = mle i ->
  (j < K)%nat -> / 10 ^ 10 < Rabs (2 * x j - 2 * mle j) ->
  calc_abc_interval n r2o K orig (fit_of_model mz nm names mixing m num_draws rvs fa embed) nd mle conf eps = Err ValueError.
Proof.
  set (fit := fit_of_model _ _ _ _ _ _ _ _ _). intros Hc Hx Hi Ei Hj Ej.
  rewrite (constant_fit_outcome n r2o K orig fit nd mle conf eps c x); [| |exact Hc].
  - replace (existsb _ (seq 0 K) && existsb _ (seq 0 K))%bool with true; [reflexivity|]. symmetry.
    apply andb_true_intro. split; apply existsb_exists.
    + exists i. split; [apply in_seq; lia|]. rewrite Ei. replace (mle i + mle i) with (2 * mle i) by lra.
      apply isclose_refl, tiny_pos.
    + exists j. split; [apply in_seq; lia|]. unfold isclose.
      destruct (Rle_dec (Rabs (x j + x j - 2 * mle j)) (/ 10 ^ 10)) as [Hle|]; [|reflexivity].
      exfalso. replace (x j + x j - 2 * mle j) with (2 * x j - 2 * mle j) in Hle by lra. lra.
  - intros w'. transitivity (fit w); [reflexivity|exact Hx].
Qed.

(** ** C78: ABC intervals of a weighted mean *)

(** z -> (a+z) / (1 - a (a+z))^2, the least favorable family parameter of Efron's ABC
    method at bias correction = acceleration = a *)
Definition abc_lambda (a z : R) : R := (a + z) / (1 - a * (a + z)) ^ 2.

Section Linear.
  Variables (n K : nat) (r2o : mat) (orig : option vec) (fit : xvec -> Res vec) (t : mat) (eps : R).
  Let mean (j : nat) : R := sumn n (fun o => t o j) / INR n.
  Let dev (o j : nat) : R := t o j - mean j.
  Let ss (j : nat) : R := sumn n (fun o => dev o j ^ 2).
  Let se (j : nat) : R := sqrt (ss j) / INR n.
  Let acc (j : nat) : R := sumn n (fun o => dev o j ^ 3) / (6 * (ss j * sqrt (ss j))).
  Hypothesis Hn : (0 < n)%nat.
  Hypothesis Heps : 0 < eps.
  Hypothesis Hfit : forall wide : vec,
    fit (long_of n r2o orig (finite wide)) = Ok (fun j => sumn n (fun o => wide o * t o j)).
  Hypothesis Hvar : forall j, (j < K)%nat -> exists o, (o < n)%nat /\ t o j <> mean j.
  Hypothesis Htol : forall o j, (o < n)%nat -> (j < K)%nat -> t o j = mean j \/ / 10 ^ 12 < 2 * eps * Rabs (t o j - mean j).

  Let INRn : INR n <> 0.
  Proof. apply not_0_INR. lia. Qed.
  Let INRpos : 0 < INR n.
  Proof. apply lt_0_INR. lia. Qed.

  Let ss_pos j : (j < K)%nat -> 0 < ss j.
  Proof.
    intros Hj. destruct (Hvar j Hj) as (o & Ho & Hne). unfold ss. apply (sumn_pos n _ o).
    - intros i _. apply pow2_ge_0.
    - exact Ho.
    - rewrite <- Rsqr_pow2. apply Rsqr_pos_lt. unfold dev. lra.
  Qed.
  Let se_pos j : (j < K)%nat -> 0 < se j.
  Proof. intros Hj. unfold se, Rdiv. apply Rmult_lt_0_compat; [apply sqrt_lt_R0, ss_pos, Hj|apply Rinv_0_lt_compat, INRpos]. Qed.

  Let dev_t j : sumn n (fun o => dev o j * t o j) = ss j.
  Proof.
    assert (E0 : sumn n (fun o => dev o j) = 0).
    { unfold dev. rewrite sumn_minus, sumn_const. unfold mean. field. exact INRn. }
    unfold ss. rewrite (sumn_ext _ (fun o => dev o j * t o j) (fun o => dev o j ^ 2 + mean j * dev o j))
      by (intros; unfold dev; ring).
    rewrite sumn_plus, sumn_scal_l, E0. ring.
  Qed.

  Let P (o : nat) : vec := fun j => sumn n (fun i => wide_weights_plus n eps o i * t i j).
  Let M (o : nat) : vec := fun j => sumn n (fun i => wide_weights_minus n eps o i * t i j).
  Let terms := map (fun o => (P o, M o)) (seq 0 n).
  Let tp : mat := fun o => fst (nth o terms (fun _ => 0, fun _ => 0)).
  Let tm : mat := fun o => snd (nth o terms (fun _ => 0, fun _ => 0)).

  Let terms_ok : calc_finite_diff_terms_for_abc n r2o orig fit eps = Ok (tp, tm).
  Proof.
    unfold calc_finite_diff_terms_for_abc.
    rewrite (finite_diff_loop_ok n r2o orig fit eps P M) by (intros; apply Hfit). reflexivity.
  Qed.
  Let tp_val o j : (o < n)%nat -> tp o j = mean j + eps * dev o j.
  Proof.
    intros Ho. unfold tp, terms. rewrite nth_map_seq0 by exact Ho. cbn [fst]. unfold P.
    rewrite (sum_plus_weights n eps o (fun i => t i j) Ho). fold (mean j). unfold dev. ring.
  Qed.
  Let tm_val o j : (o < n)%nat -> tm o j = mean j - eps * dev o j.
  Proof.
    intros Ho. unfold tm, terms. rewrite nth_map_seq0 by exact Ho. cbn [snd]. unfold M.
    rewrite (sum_minus_weights n eps o (fun i => t i j) Ho). fold (mean j). unfold dev. ring.
  Qed.

  (** The influence values are the deviations from the mean. *)
  Lemma linear_influence o j : (o < n)%nat -> (j < K)%nat -> calc_empirical_influence_abc tp tm eps o j = dev o j.
  Proof.
    intros Ho Hj. unfold calc_empirical_influence_abc. rewrite tp_val, tm_val by exact Ho. unfold isclose.
    replace (mean j + eps * dev o j - (mean j - eps * dev o j)) with (2 * eps * dev o j) by ring.
    destruct (Rle_dec (Rabs (2 * eps * dev o j)) (/ 10 ^ 12)) as [Hle|_].
    - destruct (Htol o j Ho Hj) as [E|Hgt]; [unfold dev; lra|]. exfalso.
      rewrite Rabs_mult, (Rabs_right (2 * eps)) in Hle by lra. unfold dev in Hle. lra.
    - field. lra.
  Qed.

  Lemma linear_second_order o j : (o < n)%nat -> calc_2nd_order_influence_abc mean tp tm eps o j = 0.
  Proof.
    intros Ho. unfold calc_2nd_order_influence_abc. rewrite tp_val, tm_val by exact Ho.
    replace (mean j + eps * dev o j + (mean j - eps * dev o j)) with (2 * mean j) by ring.
    rewrite isclose_refl by apply tiny_pos. reflexivity.
  Qed.

  Let infl := calc_empirical_influence_abc tp tm eps.

  Lemma linear_std_error j : (j < K)%nat -> calc_std_error_abc n infl j = se j.
  Proof.
    intros Hj. unfold calc_std_error_abc, se, ss.
    rewrite (sumn_ext _ (fun o => infl o j ^ 2) (fun o => dev o j ^ 2))
      by (intros o Ho; unfold infl; rewrite linear_influence by assumption; reflexivity). reflexivity.
  Qed.

  Lemma linear_acceleration j : (j < K)%nat -> calc_acceleration_abc n infl j = XFin (acc j).
  Proof.
    intros Hj. unfold calc_acceleration_abc, acc.
    rewrite (sumn_ext _ (fun o => infl o j ^ 3) (fun o => dev o j ^ 3))
      by (intros o Ho; unfold infl; rewrite linear_influence by assumption; reflexivity).
    rewrite (sumn_ext _ (fun o => infl o j ^ 2) (fun o => dev o j ^ 2))
      by (intros o Ho; unfold infl; rewrite linear_influence by assumption; reflexivity).
    fold (ss j). unfold pow_1_5. cbn [xdiv].
    pose proof (ss_pos j Hj) as Hs. pose proof (sqrt_lt_R0 _ Hs) as Hq.
    assert (0 < ss j * sqrt (ss j)) by (apply Rmult_lt_0_compat; assumption).
    destruct (Req_EM_T (6 * (ss j * sqrt (ss j))) 0) as [E|_]; [lra|]. reflexivity.
  Qed.

  Lemma linear_bias j : calc_bias_abc n (calc_2nd_order_influence_abc mean tp tm eps) j = 0.
  Proof.
    unfold calc_bias_abc. rewrite sumn_eq0 by (intros o Ho; apply linear_second_order; exact Ho).
    unfold Rdiv. ring.
  Qed.

  Let sum_shift j c : (j < K)%nat ->
    sumn n (fun o => (1 / INR n + c * infl o j) * t o j) = mean j + c * ss j.
  Proof.
    intros Hj. rewrite (sumn_ext _ _ (fun o => 1 / INR n * t o j + c * (dev o j * t o j)))
      by (intros o Ho; unfold infl; rewrite linear_influence by assumption; ring).
    rewrite sumn_plus, !sumn_scal_l, dev_t. unfold mean. field. exact INRn.
  Qed.

  Let fit_ext (w : xvec) (v : vec) : (forall o, w o = XFin (v o)) ->
    fit (long_of n r2o orig w) = Ok (fun j => sumn n (fun o => v o * t o j)).
  Proof.
    intros Hw. replace w with (finite v) by (apply functional_extensionality; intros o; symmetry; apply Hw).
    apply Hfit.
  Qed.

  Lemma linear_quadratic_coef std :
    (forall j, (j < K)%nat -> std j = se j) ->
    exists q, efron_quadratic_coef_abc n r2o K orig fit mean infl std eps = Ok q /\
      forall j, (j < K)%nat -> q j = XFin 0.
  Proof.
    intros Hstd. unfold efron_quadratic_coef_abc.
    set (c := fun j => eps / (INR n ^ 2 * std j)).
    assert (HW : forall s j o, (j < K)%nat ->
      xadd (XFin (1 / INR n)) (xscale (s * eps) (standardized_influence n infl std o j)) =
      XFin (1 / INR n + s * c j * infl o j)).
    { intros s j o Hj. unfold standardized_influence. cbn [xdiv].
      pose proof (se_pos j Hj) as Hs. rewrite <- Hstd in Hs by exact Hj.
      assert (0 < INR n ^ 2 * std j) by (apply Rmult_lt_0_compat; [apply pow_lt, INRpos|exact Hs]).
      destruct (Req_EM_T (INR n ^ 2 * std j) 0) as [E|_]; [lra|]. cbn [xscale xadd]. f_equal. unfold c. field. split; lra. }
    set (T := fun s j => (fun k => sumn n (fun o => (1 / INR n + s * c j * infl o j) * t o k))).
    assert (HT : forall s j, (0 <= j < 0 + K)%nat ->
      fit (long_of n r2o orig (fun o => xadd (XFin (1 / INR n)) (xscale (s * eps) (standardized_influence n infl std o j)))) = Ok (T s j)).
    { intros s j Hj. apply fit_ext. intros o. apply HW. lia. }
    rewrite (quadratic_loop_ok n r2o orig fit _ _ (T 1) (T (-1))) by (intros; apply HT; assumption).
    cbn [bind]. unfold diag_terms. set (l := map _ (seq 0 K)).
    set (close := fun j : nat => isclose (/ 10 ^ 10) (fst (nth j l (fun _ => 0, fun _ => 0)) j + snd (nth j l (fun _ => 0, fun _ => 0)) j) (2 * mean j)).
    assert (Hclose : forall j, (j < K)%nat -> close j = true).
    { intros j Hj. unfold close, l. rewrite nth_map_seq0 by exact Hj. cbn [fst snd]. unfold T.
      rewrite !sum_shift by exact Hj.
      replace (mean j + 1 * c j * ss j + (mean j + -1 * c j * ss j)) with (2 * mean j) by ring.
      apply isclose_refl, tiny_pos. }
    assert (Ef : filter (fun j => negb (close j)) (seq 0 K) = []).
    { assert (G : forall L, (forall j, In j L -> (j < K)%nat) -> filter (fun j => negb (close j)) L = []).
      { induction L as [|j L IH]; intros HL; [reflexivity|]. cbn [filter].
        rewrite Hclose by (apply HL; left; reflexivity). cbn [negb]. apply IH. intros; apply HL; right; assumption. }
      apply G. intros j Hj. apply in_seq in Hj. lia. }
    unfold close in Ef. rewrite Ef. cbn [length Nat.ltb Nat.leb andb]. eexists. split; [reflexivity|].
    intros j Hj. cbv beta. specialize (Hclose j Hj). unfold close in Hclose. rewrite Hclose. reflexivity.
  Qed.

  Variables (nd : normal_dist) (c : R).
  Hypothesis Hnd : normal_law nd.
  Hypothesis Hmed : nd_cdf nd 0 = 1 / 2.
  Hypothesis Hc : 0 < c < 100.

  Let ppf_cdf x : nd_ppf nd (nd_cdf nd x) = x.
  Proof.
    destruct Hnd as (H1 & H2 & H3). pose proof (H3 _ (H1 x)) as E.
    destruct (Rtotal_order (nd_ppf nd (nd_cdf nd x)) x) as [H|[H|H]]; [|exact H|];
      pose proof (H2 _ _ H); lra.
  Qed.

  Lemma linear_endpoint pct (bc ac : xvec) std :
    0 < pct < 100 ->
    (forall j, (j < K)%nat -> std j = se j) -> (forall j, (j < K)%nat -> ac j = XFin (acc j)) ->
    (forall j, (j < K)%nat -> bc j = XFin (acc j)) ->
    (forall j, (j < K)%nat -> acc j * (acc j + nd_ppf nd (pct / 100)) <> 1) ->
    efron_endpoint_from_percentile_abc n r2o K orig fit nd pct bc ac std infl =
    Ok (map (fun j => mean j + se j * abc_lambda (acc j) (nd_ppf nd (pct / 100))) (seq 0 K)).
  Proof.
    intros Hp Hstd Hac Hbc Hne. unfold efron_endpoint_from_percentile_abc.
    set (m := fun j => abc_lambda (acc j) (nd_ppf nd (pct / 100)) / (se j * INR n ^ 2)).
    assert (HW : forall j o, (j < K)%nat ->
      xadd (XFin (1 / INR n)) (xmul (xdiv (least_favorable_lambda nd pct (bc j) (ac j)) (XFin (std j * INR n ^ 2))) (XFin (infl o j)))
      = XFin (1 / INR n + m j * infl o j)).
    { intros j o Hj. rewrite Hac, Hbc, Hstd by exact Hj. unfold least_favorable_lambda, norm_ppf_x.
      replace (pct * (1 / 100)) with (pct / 100) by lra.
      destruct (Rle_dec 0 (pct / 100)) as [_|Hx]; [|lra]. destruct (Rle_dec (pct / 100) 1) as [_|Hx]; [|lra].
      unfold norm_ppf. destruct (Req_EM_T (pct / 100) 0) as [Hx|_]; [lra|].
      destruct (Req_EM_T (pct / 100) 1) as [Hx|_]; [lra|]. cbn [xadd xmul xscale xopp].
      specialize (Hne j Hj). set (z := nd_ppf nd (pct / 100)) in *. cbn [xdiv].
      assert (Hd : (1 + - (acc j * (acc j + z))) * (1 + - (acc j * (acc j + z))) <> 0)
        by (intros E; apply Rmult_integral in E; destruct E as [E|E]; apply Hne; lra).
      destruct (Req_EM_T _ 0) as [E|_]; [contradiction|]. cbn [xdiv].
      pose proof (se_pos j Hj) as Hs.
      assert (0 < se j * INR n ^ 2) by (apply Rmult_lt_0_compat; [exact Hs|apply pow_lt, INRpos]).
      destruct (Req_EM_T (se j * INR n ^ 2) 0) as [E|_]; [lra|]. cbn [xmul xscale xadd]. f_equal.
      unfold m, abc_lambda. fold z. field. repeat split; try lra; exact INRn || (intros E; apply Hne; lra). }
    set (T := fun j => (fun k => sumn n (fun o => (1 / INR n + m j * infl o j) * t o k))).
    rewrite (endpoint_loop_ok n r2o orig fit _ T).
    - f_equal. apply map_ext_in. intros j Hj. apply in_seq in Hj. unfold T. rewrite sum_shift by lia. f_equal.
      unfold m. pose proof (se_pos j ltac:(lia)) as Hs.
      assert (E : ss j = (se j * INR n) ^ 2).
      { unfold se. replace (sqrt (ss j) / INR n * INR n) with (sqrt (ss j)) by (field; exact INRn).
        rewrite pow2_sqrt; [reflexivity|left; apply ss_pos; lia]. }
      rewrite E. field. split; [exact INRn|lra].
    - intros j Hj. apply fit_ext. intros o. apply HW. lia.
  Qed.

  Lemma abc_weighted_mean :
    let zlo := nd_ppf nd ((100 - c) / 200) in
    let zhi := nd_ppf nd (1 - (100 - c) / 200) in
    (forall j, (j < K)%nat -> acc j * (acc j + zlo) <> 1 /\ acc j * (acc j + zhi) <> 1) ->
    calc_abc_interval n r2o K orig fit nd mean (ConfNumber c) eps =
    Ok (map (fun j => (mean j + se j * abc_lambda (acc j) zlo, mean j + se j * abc_lambda (acc j) zhi)) (seq 0 K)).
  Proof.
    intros zlo zhi Hne. unfold calc_abc_interval. cbn [check_conf_percentage_validity].
    destruct (Rlt_dec 0 c) as [_|Hx]; [|lra]. destruct (Rlt_dec c 100) as [_|Hx]; [|lra]. cbn [bind].
    rewrite terms_ok. cbn [bind]. fold infl.
    destruct (linear_quadratic_coef (calc_std_error_abc n infl)) as (q & Eq & Hq); [apply linear_std_error|].
    rewrite Eq. cbn [bind]. set (bc := calc_bias_correction_abc _ _ _).
    assert (Hbc : forall j, (j < K)%nat -> bc j = XFin (acc j)).
    { intros j Hj. unfold bc, calc_bias_correction_abc. rewrite linear_acceleration by exact Hj.
      unfold calc_total_curvature_abc. rewrite Hq, linear_bias, linear_std_error by exact Hj.
      pose proof (se_pos j Hj) as Hs. cbn [xdiv]. destruct (Req_EM_T (se j) 0) as [E|_]; [lra|].
      cbn [xopp xadd xscale norm_cdf xmul]. replace (-1 * (0 / se j + - 0)) with 0 by (unfold Rdiv; ring).
      rewrite Hmed. replace (2 * nd_cdf nd (acc j) * (1 / 2)) with (nd_cdf nd (acc j)) by field.
      destruct Hnd as (H1 & _ & _). specialize (H1 (acc j)). unfold norm_ppf_x.
      destruct (Rle_dec 0 (nd_cdf nd (acc j))) as [_|Hx]; [|lra].
      destruct (Rle_dec (nd_cdf nd (acc j)) 1) as [_|Hx]; [|lra]. unfold norm_ppf.
      destruct (Req_EM_T (nd_cdf nd (acc j)) 0) as [Hx|_]; [lra|].
      destruct (Req_EM_T (nd_cdf nd (acc j)) 1) as [Hx|_]; [lra|]. f_equal. apply ppf_cdf. }
    unfold get_alpha_from_conf_percentage.
    assert (E1 : (100 - c) / 2 / 100 = (100 - c) / 200) by field.
    assert (E2 : (100 - (100 - c) / 2) / 100 = 1 - (100 - c) / 200) by field.
    rewrite (linear_endpoint ((100 - c) / 2)); [|lra|apply linear_std_error|apply linear_acceleration|exact Hbc|].
    2:{ intros j Hj. rewrite E1. apply Hne. exact Hj. }
    cbn [bind]. rewrite (linear_endpoint (100 - (100 - c) / 2)); [|lra|apply linear_std_error|apply linear_acceleration|exact Hbc|].
    2:{ intros j Hj. rewrite E2. apply Hne. exact Hj. }
    cbn [bind]. rewrite combine_map, E1, E2. reflexivity.
  Qed.
End Linear.

(** Specification: the mean of the values t_o, their deviations, the standard error
    sqrt(sum of squares)/n and Efron's acceleration. *)
Definition sample_mean (n : nat) (t : mat) (j : nat) : R := sumn n (fun o => t o j) / INR n.
Definition sum_of_powers (n : nat) (t : mat) (k j : nat) : R := sumn n (fun o => (t o j - sample_mean n t j) ^ k).
Definition mean_std_error (n : nat) (t : mat) (j : nat) : R := sqrt (sum_of_powers n t 2 j) / INR n.
Definition mean_acceleration (n : nat) (t : mat) (j : nat) : R :=
  sum_of_powers n t 3 j / (6 * (sum_of_powers n t 2 j * sqrt (sum_of_powers n t 2 j))).

(** If refitting with observation weights w returns the weighted mean sum_o w_o t_o of
    values t_o of the observations, the interval is
      mean + se * (a+z) / (1 - a (a+z))^2   at the two standard normal quantiles z. *)
Theorem C78_abc_interval_of_a_weighted_mean n K r2o orig fit t eps nd c :
  (0 < n)%nat -> 0 < eps -> 0 < c < 100 ->
  normal_law nd -> nd_cdf nd 0 = 1 / 2 ->
  (forall w : vec, fit (long_of n r2o orig (finite w)) = Ok (fun j => sumn n (fun o => w o * t o j))) ->
  (forall j, (j < K)%nat -> exists o, (o < n)%nat /\ t o j <> sample_mean n t j) ->
  (forall o j, (o < n)%nat -> (j < K)%nat ->
     t o j = sample_mean n t j \/ / 10 ^ 12 < 2 * eps * Rabs (t o j - sample_mean n t j)) ->
  let a := mean_acceleration n t in
  let zlo := nd_ppf nd ((100 - c) / 200) in
  let zhi := nd_ppf nd (1 - (100 - c) / 200) in
  (forall j, (j < K)%nat -> a j * (a j + zlo) <> 1 /\ a j * (a j + zhi) <> 1) ->
  calc_abc_interval n r2o K orig fit nd (sample_mean n t) (ConfNumber c) eps =
  Ok (map (fun j => (sample_mean n t j + mean_std_error n t j * abc_lambda (a j) zlo,
                     sample_mean n t j + mean_std_error n t j * abc_lambda (a j) zhi)) (seq 0 K)).
Proof.
  intros Hn He Hc Hnd Hm Hfit Hv Ht a zlo zhi Hne.
  exact (abc_weighted_mean n K r2o orig fit t eps Hn He Hfit Hv Ht nd c Hnd Hm Hc Hne).
Qed.

(** ** The assumptions can be met *)

(** Three observations with values 0, 0, 3 and the 50% interval of their mean. *)
Definition value_of (a : xnum) : R := match a with XFin x => x | _ => 0 end.
Definition mean_t : mat := fun o _ => nth o [0; 0; 3] 0.
Definition mean_fit (w : xvec) : Res vec := Ok (fun j => sumn 3 (fun o => value_of (w o) * mean_t o j)).

Example ex_abc_mean :
  let a := / (6 * sqrt 6) in
  calc_abc_interval 3 ident 1 None mean_fit logistic (fun _ => 1) (ConfNumber 50) (1 / 1000) =
  Ok [(1 + sqrt 6 / 3 * abc_lambda a (- ln 3), 1 + sqrt 6 / 3 * abc_lambda a (ln 3))].
Proof.
  intros a.
  assert (Hs : 2 < sqrt 6) by (rewrite <- (sqrt_square 2) by lra; apply sqrt_lt_1; lra).
  assert (Em : forall j, sumn 3 (fun o => mean_t o j) / INR 3 = 1) by (intros j; unfold mean_t; simpl; field).
  assert (Ess : sumn 3 (fun o => (mean_t o 0%nat - sumn 3 (fun o => mean_t o 0%nat) / INR 3) ^ 2) = 6)
    by (unfold mean_t; simpl; field).
  assert (Ec : sumn 3 (fun o => (mean_t o 0%nat - sumn 3 (fun o => mean_t o 0%nat) / INR 3) ^ 3) = 6)
    by (unfold mean_t; simpl; field).
  assert (Ea : 6 / (6 * (6 * sqrt 6)) = a) by (unfold a; field; lra).
  assert (Ha : 0 < a < 1 / 12).
  { unfold a. split; [apply Rinv_0_lt_compat; lra|]. replace (1 / 12) with (/ 12) by lra.
    apply Rinv_lt_contravar; lra. }
  assert (Hln : 0 < ln 3 < 2).
  { split; [rewrite <- ln_1; apply ln_increasing; lra|].
    rewrite <- (ln_exp 2). apply ln_increasing; [lra|]. pose proof (exp_ineq1 2 ltac:(lra)). lra. }
  assert (Elo : nd_ppf logistic ((100 - 50) / 200) = - ln 3)
    by (simpl; replace (/ ((100 - 50) / 200) - 1) with 3 by field; reflexivity).
  assert (Ehi : nd_ppf logistic (1 - (100 - 50) / 200) = ln 3).
  { simpl. replace (/ (1 - (100 - 50) / 200) - 1) with (/ 3) by field. rewrite ln_Rinv by lra. ring. }
  pose proof (abc_weighted_mean 3 1 ident None mean_fit mean_t (1 / 1000)) as H.
  replace (fun _ : nat => 1) with (fun j => sumn 3 (fun o => mean_t o j) / INR 3)
    by (apply functional_extensionality; exact Em).
  rewrite (H ltac:(lia) ltac:(lra)).
  - cbn [seq map]. rewrite Ess, Ec, Em, Ea, Elo, Ehi. replace (INR 3) with 3 by (simpl; ring). reflexivity.
  - intros wide. unfold mean_fit. f_equal. apply functional_extensionality. intros j. apply sumn_ext. intros o Ho.
    f_equal. unfold long_of, times_orig, create_long_form_weights. rewrite (sparse_row_single 3 _ _ o).
    + simpl. ring.
    + exact Ho.
    + unfold ident. rewrite Nat.eqb_refl. reflexivity.
    + intros k Hk Hne. unfold ident. destruct (Nat.eqb_spec o k); [lia|reflexivity].
  - intros j Hj. exists 2%nat. split; [lia|]. rewrite Em. unfold mean_t. simpl. lra.
  - intros o j Ho Hj. right. rewrite Em. unfold mean_t.
    assert (E : / 10 ^ 12 < 1 / 1000).
    { replace (1 / 1000) with (/ 10 ^ 3) by (simpl; field). apply Rinv_lt_contravar.
      - apply Rmult_lt_0_compat; apply pow_lt; lra.
      - apply Rlt_pow; [lra|lia]. }
    destruct o as [|[|[|o]]]; [| | |lia]; cbn [nth].
    + rewrite Rabs_left by lra. lra.
    + rewrite Rabs_left by lra. lra.
    + rewrite Rabs_right by lra. lra.
  - apply logistic_law.
  - simpl. rewrite Ropp_0, exp_0. lra.
  - lra.
  - intros j Hj. assert (j = 0)%nat by lia. subst j. rewrite Ess, Ec, Ea, Elo, Ehi. split; intros E; nra.
Qed.

(** A one-coefficient MNL and an optimizer that stays at its starting value. *)
Definition lazy_optimizer : minimizer := fun f _ x0 => do r <- f x0; Ok (mkMin x0 (fst r)).
Definition abc_args : fit_args := mkFitArgs (Some (zeros 1)) None None None RidgeNone None false WNone.

Example ex_abc_point nm names mixing embed nd :
  calc_abc_interval 1 (fun _ _ => 1) 1 None
    (fit_of_model lazy_optimizer nm names mixing weights_model 0 (fun _ _ _ => 0) abc_args embed)
    nd (fun _ => 0) (ConfNumber 95) (1 / 1000) = Ok [(0, 0)].
Proof.
  assert (Hfit : forall w, fit_of_model lazy_optimizer nm names mixing weights_model 0 (fun _ _ _ => 0) abc_args embed w
                           = Ok (aget (zeros 1))).
  { intros w. reflexivity. }
  rewrite (constant_fit_outcome _ _ _ _ _ _ _ (ConfNumber 95) _ 95 (aget (zeros 1)) Hfit).
  - cbn [seq existsb]. cbv zeta. cbn [aget zeros]. replace (0 + 0) with (2 * 0) by lra. rewrite isclose_refl by apply tiny_pos.
    reflexivity.
  - simpl. destruct (Rlt_dec 0 95); [|lra]. destruct (Rlt_dec 95 100); [reflexivity|lra].
Qed.

Print Assumptions C59_weights_sum_to_one.
Print Assumptions C59_long_row_gets_its_observations_weight.
Print Assumptions C59_weights_of_the_refits.
Print Assumptions C59_plus_weights_nonneg.
Print Assumptions C59_refuted_minus_weights_nonneg.
Print Assumptions C77_refuted_abc_interval_is_a_point.
Print Assumptions C77_refuted_abc_fails_when_one_coefficient_moves.
Print Assumptions C78_abc_interval_of_a_weighted_mean.
