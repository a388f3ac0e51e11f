(** C129: the nested logit's probabilities in double precision. *)
From Coq Require Import ZArith Reals Lra Lia List Permutation Bool Arith.
From Flocq Require Import Core.
From Flocq Require Import Relative Plus_error.
From Verif Require Import Res Vec Arr ChoiceCalcs NestedCalcs Floats FloatFacts FloatTransforms FloatNested FloatNear PropFloats.
Import ListNotations.
Open Scope R_scope.

#[local] Instance prec_53n : Prec_gt_0 53 := FloatFacts.prec_53.

(** ** Specification *)

(** np.power on doubles of moderate size, exponents in [-1, 1]: a double, with relative error
    at most [ep]. *)
Definition accurate_pow (pw : R -> R -> R) (ep : R) : Prop :=
  forall a b, double_format a -> double_format b -> bpow radix2 (-1000) <= a <= bpow radix2 1000 -> -1 <= b <= 1 ->
  double_format (pw a b) /\ Rabs (pw a b - Rpower a b) <= ep * Rpower a b.

(** The rows of one observation in nest [q]. *)
Definition rows_in_nest (nst : nat -> nat) (rows : list nat) (q : nat) : list nat :=
  filter (fun k => (nst k =? q)%nat) rows.

(** The textbook formula: a nest is chosen with a probability in proportion to the power of
    the sum of exp(v / lambda) over its rows, the alternative within the nest in proportion to
    exp(v / lambda). *)
Definition nest_total (v lam : nat -> R) (nst : nat -> nat) (rows : list nat) (q : nat) : R :=
  total (fun k => exp (v k / lam q)) (rows_in_nest nst rows q).
Definition attraction (v lam : nat -> R) (nst : nat -> nat) (rows : list nat) (q : nat) : R :=
  match rows_in_nest nst rows q with [] => 0 | _ => Rpower (nest_total v lam nst rows q) (lam q) end.
Definition exact_nested_prob (v lam : nat -> R) (nst : nat -> nat) (rows qs : list nat) (i : nat) : R :=
  attraction v lam nst rows (nst i) / total (attraction v lam nst rows) qs *
  (exp (v i / lam (nst i)) / nest_total v lam nst rows (nst i)).

(** The rows of one observation: finite utilities that exceed 600 nest coefficients in no
    row; nest coefficients in (0, 1]; all nests [qs], each once. *)
Definition nested_observation (V : nat -> fl) (v : nat -> R) (nst : nat -> nat) (lam : nat -> R) (rows qs : list nat)
    (t : nat -> sum_order) (tq : sum_order) : Prop :=
  (forall k, In k rows -> V k = FNum (v k) /\ Rabs (v k / lam (nst k)) <= 600 /\ In (nst k) qs) /\
  (forall q, In q qs -> double_format (lam q) /\ 0 < lam q <= 1 /\ Permutation (terms_of (t q)) (rows_in_nest nst rows q)) /\
  Permutation (terms_of tq) qs /\ NoDup qs /\ (Z.of_nat (length rows) <= 1000000)%Z /\ (Z.of_nat (length qs) <= 1000000)%Z.

(** The accumulated error for [n] rows and [m] nests. *)
Definition nested_error (eps ep : R) (n m : nat) : R :=
  6 * eps + 4 * ep + (2510 + 4 * INR n + 2 * INR m) * / 2 ^ 53.

(** ** Auxiliary facts *)
Lemma exp_600 : bpow radix2 800 <= exp 600 <= bpow radix2 867.
Proof.
  split; [apply bpow_le_exp|apply exp_le_bpow]; (lia || lra).
Qed.
Lemma exp_range_600 c : -600 <= c <= 600 -> bpow radix2 (-867) <= exp c <= bpow radix2 867.
Proof.
  intros H. destruct exp_600 as (_ & U). split.
  - change (-867)%Z with (Z.opp 867). rewrite bpow_opp. apply Rle_trans with (exp (- (600))).
    + rewrite (exp_Ropp 600). apply Rinv_le_contravar; [apply exp_pos|exact U].
    + apply exp_le_mono. lra.
  - eapply Rle_trans; [|exact U]. apply exp_le_mono. lra.
Qed.

Lemma double_600 : double_format 600.
Proof.
  replace 600 with (INR 600 * bpow radix2 0) by (rewrite INR_IZR_INZ; cbn; lra). apply format_scaled; lia.
Qed.
Lemma double_1 : double_format 1.
Proof. change 1 with (bpow radix2 0). apply generic_format_bpow. cbn. lia. Qed.

Lemma rnd_opp x : rnd (- x) = - rnd x.
Proof. unfold rnd. apply round_NE_opp. Qed.

(** the absolute error of rounding a number of at most 600 *)
Lemma rnd_600 x : Rabs x <= 600 -> Rabs (rnd x - x) <= 601 * uround /\ Rabs (rnd x) <= 600.
Proof.
  intros H. pose proof uround_pos. split.
  - destruct (rnd_error x) as (d & h & Hd & Hh & ->). replace (x * (1 + d) + h - x) with (x * d + h) by ring.
    eapply Rle_trans; [apply Rabs_triang|]. rewrite Rabs_mult.
    assert (Rabs x * Rabs d <= 600 * uround) by (apply Rmult_le_compat; try apply Rabs_pos; assumption).
    assert (/ 2 * bpow radix2 (-1074) <= uround).
    { rewrite <- uround_eq. apply Rmult_le_compat_l; [lra|]. apply bpow_le. lia. }
    lra.
  - apply Rabs_le_inv in H. apply Rabs_le. split.
    + apply Rle_trans with (rnd (- (600))); [|apply rnd_le; lra]. rewrite rnd_opp, (rnd_id 600 double_600). lra.
    + rewrite <- (rnd_id 600 double_600). apply rnd_le. lra.
Qed.

(** the computed lambda - 1 *)
Lemma rnd_minus_one l : 0 < l <= 1 -> -1 <= rnd (l + - (1)) <= 0 /\ Rabs (rnd (l + - (1)) - (l - 1)) <= uround.
Proof.
  intros H. pose proof uround_pos. split.
  - split.
    + apply Rle_trans with (rnd (- (1))); [|apply rnd_le; lra]. rewrite rnd_opp, (rnd_id 1 double_1). lra.
    + rewrite <- rnd_0. apply rnd_le. lra.
  - destruct (Req_dec l 1) as [->|Hn]; [replace (1 + - (1)) with 0 by ring; rewrite rnd_0; rewrite Rabs_right; lra|].
    assert (E : rnd (l + - (1)) = - rnd (1 - l)) by (rewrite <- rnd_opp; f_equal; ring). rewrite E.
    destruct (rnd_error (1 - l)) as (d & h & Hd & Hh & Er).
    assert (W : Rabs (rnd (1 - l) - (1 - l)) <= uround).
    { (* half an ulp of a number below one is at most half of 2^-53 *)
      pose proof (error_le_half_ulp radix2 (FLT_exp (-1074) 53) (fun x => negb (Z.even x)) (1 - l)) as H1.
      change (round radix2 (FLT_exp (-1074) 53) (Znearest (fun x => negb (Z.even x))) (1 - l)) with (rnd (1 - l)) in H1.
      eapply Rle_trans; [exact H1|]. rewrite <- uround_eq.
      apply Rmult_le_compat_l; [lra|].
      rewrite ulp_neq_0 by lra. apply bpow_le. unfold cexp, FLT_exp.
      assert (mag radix2 (1 - l) <= 0)%Z.
      { apply mag_le_bpow; [lra|]. rewrite Rabs_right by lra. cbn. lra. }
      lia. }
    replace (- rnd (1 - l) - (l - 1)) with (- (rnd (1 - l) - (1 - l))) by ring. rewrite Rabs_Ropp. exact W.
Qed.

Lemma ln_bpow_1000 s : bpow radix2 (-1000) <= s <= bpow radix2 1000 -> Rabs (ln s) <= 700.
Proof.
  intros (L & U). pose proof (bpow_gt_0 radix2 (-1000)) as P.
  destruct exp_700 as (E & _).
  assert (U' : s <= exp 700) by (eapply Rle_trans; [exact U|]; eapply Rle_trans; [|exact E]; apply bpow_le; lia).
  assert (L' : exp (- (700)) <= s).
  { rewrite (exp_Ropp 700). eapply Rle_trans; [|exact L]. change (-1000)%Z with (Z.opp 1000). rewrite bpow_opp.
    apply Rinv_le_contravar; [apply bpow_gt_0|]. eapply Rle_trans; [|exact E]. apply bpow_le. lia. }
  apply Rabs_le. split.
  - rewrite <- (ln_exp (- (700))). apply ln_mono; [apply exp_pos|exact L'].
  - rewrite <- (ln_exp 700). apply ln_mono; [lra|exact U'].
Qed.

Lemma Rpower_between a b : bpow radix2 (-1000) <= a <= bpow radix2 1000 -> -1 <= b <= 1 ->
  exp (- (700)) <= Rpower a b <= exp 700.
Proof.
  intros Ha Hb. pose proof (ln_bpow_1000 a Ha) as H. apply Rabs_le_inv in H. unfold Rpower. split; apply exp_le_mono; nra.
Qed.

Lemma rows_in_nest_length nst rows q : (length (rows_in_nest nst rows q) <= length rows)%nat.
Proof.
  unfold rows_in_nest. induction rows as [|a l IH]; [apply le_n|]. cbn [filter length]. destruct (nst a =? q)%nat; cbn [length]; lia.
Qed.

Definition fval (f : fl) : R := match f with FNum x => x | _ => 0 end.

Lemma fguard_zero_pos x : 0 < x -> fguard_zero (FNum x) = FNum x.
Proof. intros H. unfold fguard_zero. destruct (Req_EM_T x 0); [lra|reflexivity]. Qed.

Lemma tiny_bounds : 0 < / 10 ^ 300 <= / 2 ^ 50 /\ 4 * bpow radix2 (-1022) <= / 10 ^ 300.
Proof.
  split; [split|].
  - apply Rinv_0_lt_compat. apply pow_lt. lra.
  - apply Rinv_le_contravar; [apply pow_lt; lra|]. apply Rle_trans with (10 ^ 50); [apply pow_incr; lra|apply Rle_pow; [lra|lia]].
  - replace (4 * bpow radix2 (-1022)) with (bpow radix2 (-1020)) by (change (-1020)%Z with (2 + -1022)%Z; rewrite bpow_plus; reflexivity).
    change (-1020)%Z with (Z.opp 1020). rewrite bpow_opp.
    apply Rinv_le_contravar; [apply pow_lt; lra|]. eapply Rle_trans; [apply ten_300|apply bpow_le; lia].
Qed.

(** rounding a quotient and replacing a zero *)
Lemma guarded w : 0 < w <= 2 ->
  exists x, fguard_zero (overflow (rnd w)) = FNum x /\ double_format x /\ 0 < x /\
    ((bpow radix2 (-1022) <= w /\ x = rnd w) \/ (w < bpow radix2 (-1022) /\ x <= (1 + uround) * / 10 ^ 300)).
Proof.
  intros Hw. pose proof (bpow_gt_0 radix2 (-1022)) as P22. destruct min_comp_bounds as ((ML & _) & _ & _ & MU).
  assert (F2 : double_format 2) by (change 2 with (bpow radix2 1); apply generic_format_bpow; cbn; lia).
  assert (R0 : 0 <= rnd w <= 2) by (split; [apply Rle_trans with (rnd 0); [rewrite rnd_0; lra|]|apply Rle_trans with (rnd 2); [|rewrite (rnd_id 2 F2); lra]]; apply rnd_le; lra).
  rewrite overflow_num.
  2: { rewrite Rabs_right by lra. apply Rle_lt_trans with (bpow radix2 1); [apply R0|apply bpow_lt; lia]. }
  unfold fguard_zero. destruct (Req_EM_T (rnd w) 0) as [E0|E0].
  - exists fmin_comp_value. split; [reflexivity|]. split; [apply rnd_format|]. split; [lra|]. right. split; [|exact MU].
    apply Rnot_le_lt. intros G. pose proof (rnd_relative w G) as (L & _). pose proof uround_small. nra.
  - exists (rnd w). split; [reflexivity|]. split; [apply rnd_format|]. split; [lra|].
    destruct (Rle_lt_dec (bpow radix2 (-1022)) w) as [G|G]; [left; split; [exact G|reflexivity]|]. right. split; [exact G|].
    eapply Rle_trans; [|exact MU]. eapply Rle_trans; [|exact ML].
    rewrite <- (rnd_id (bpow radix2 (-1022))) by (apply generic_format_bpow; cbn; lia). apply rnd_le. lra.
Qed.

Section Observation.
  Context (ex : R -> R) (eps : R) (pw : R -> R -> R) (ep : R).
  Hypothesis Hex : accurate_exp ex eps.
  Hypothesis Heps : 0 <= eps <= / 2 ^ 40.
  Hypothesis Hpw : accurate_pow pw ep.
  Hypothesis Hep : 0 <= ep <= / 2 ^ 40.
  Context (V : nat -> fl) (v : nat -> R) (nst : nat -> nat) (lam : nat -> R) (rows qs : list nat) (t : nat -> sum_order) (tq : sum_order).
  Hypothesis HO : nested_observation V v nst lam rows qs t tq.

  Let de := 601 * uround + 2 * eps.
  Let n := length rows.
  Let ds := 2 * INR n * uround + de.

  Lemma small40 : / 2 ^ 40 <= / 2 ^ 10.
  Proof. apply Rinv_le_contravar; [apply pow_lt; lra|apply Rle_pow; [lra|lia]]. Qed.
  Lemma de_bounds : 0 <= de <= / 2 ^ 8.
  Proof. unfold de. pose proof uround_pos. pose proof uround_small. pose proof small40. split; lra. Qed.
  Lemma n_bound : 0 <= INR n <= 1000000.
  Proof.
    split; [apply pos_INR|]. destruct HO as (_ & _ & _ & _ & H & _). unfold n.
    rewrite INR_IZR_INZ. apply IZR_le. exact H.
  Qed.
  Lemma ds_bounds : 0 <= ds <= / 2 ^ 7.
  Proof.
    unfold ds. pose proof uround_pos. pose proof uround_small. pose proof de_bounds. pose proof n_bound.
    assert (2 * INR n * uround <= 2 * 1000000 * / 2 ^ 50) by (apply Rmult_le_compat; lra).
    assert (0 <= 2 * INR n * uround) by (apply Rmult_le_pos; lra). lra.
  Qed.

  Let ehat k := fval (frow_exp ex V nst lam k).

  Lemma row_exponential k : In k rows ->
    frow_exp ex V nst lam k = FNum (ehat k) /\ double_format (ehat k) /\
    near de (ehat k) (exp (v k / lam (nst k))) /\ bpow radix2 (-868) <= ehat k <= bpow radix2 868.
  Proof.
    intros Hk. destruct HO as (H1 & H2 & _). destruct (H1 k Hk) as (EV & HV & HQ). destruct (H2 _ HQ) as (FL & HL & _).
    set (l := lam (nst k)) in *. destruct (rnd_600 _ HV) as (RE & RB).
    pose proof (Rabs_le_inv _ _ RB) as RB'.
    assert (OV : Rabs (rnd (v k / l)) < bpow radix2 1024).
    { eapply Rle_lt_trans; [exact RB|]. apply Rlt_trans with (bpow radix2 10); [cbn; lra|apply bpow_lt; lia]. }
    assert (ES : fscaled_index (V k) l = FNum (rnd (v k / l))).
    { unfold fscaled_index. rewrite EV. cbn [fdiv]. destruct (Req_EM_T l 0); [lra|]. rewrite overflow_num by exact OV. reflexivity. }
    destruct (Hex (rnd (v k / l)) ltac:(lra)) as (FE & EE).
    pose proof (exp_range_600 (rnd (v k / l)) RB') as ER. pose proof (bpow_gt_0 radix2 (-867)) as P867.
    pose proof small40.
    assert (NE : near (2 * eps) (ex (rnd (v k / l))) (exp (rnd (v k / l)))).
    { apply near_relative; [lra|lra|exact EE]. }
    assert (EB : bpow radix2 (-868) <= ex (rnd (v k / l)) <= bpow radix2 868).
    { apply Rabs_le_inv in EE.
      assert (B1 : bpow radix2 (-867) = 2 * bpow radix2 (-868)) by (change (-867)%Z with (1 + -868)%Z; rewrite bpow_plus; reflexivity).
      assert (B2 : bpow radix2 868 = 2 * bpow radix2 867) by (change 868%Z with (1 + 867)%Z; rewrite bpow_plus; reflexivity).
      pose proof (exp_pos (rnd (v k / l))). pose proof (bpow_gt_0 radix2 867). nra. }
    pose proof (bpow_gt_0 radix2 (-868)) as P868.
    assert (EF : frow_exp ex V nst lam k = FNum (ex (rnd (v k / l)))).
    { unfold frow_exp, fexp_scaled. fold l. rewrite ES. cbn [fexp].
      rewrite overflow_num by (rewrite Rabs_right by lra; eapply Rle_lt_trans; [apply EB|apply bpow_lt; lia]).
      cbn [on_posinf]. apply fguard_zero_pos. lra. }
    unfold ehat. rewrite EF. cbn [fval]. split; [reflexivity|]. split; [exact FE|]. split; [|exact EB].
    unfold de. rewrite Rplus_comm. apply (near_trans _ _ _ (exp (rnd (v k / l)))); [exact NE|]. apply near_exp. exact RE.
  Qed.

  Let S q := nest_total v lam nst rows q.
  Let shat q := fval (fnest_sum ex V nst lam t q).

  Lemma in_nest q k : In k (rows_in_nest nst rows q) <-> In k rows /\ nst k = q.
  Proof. unfold rows_in_nest. rewrite filter_In, Nat.eqb_eq. reflexivity. Qed.

  Lemma nest_length q : (length (rows_in_nest nst rows q) <= n)%nat.
  Proof. apply rows_in_nest_length. Qed.

  Lemma S_nonneg q : 0 <= S q.
  Proof. unfold S, nest_total. rewrite total_lsum. apply lsum_ge0. intros. left. apply exp_pos. Qed.

  Lemma nest_sums q : In q qs ->
    fnest_sum ex V nst lam t q = FNum (shat q) /\ double_format (shat q) /\ near ds (shat q) (S q) /\
    0 <= shat q <= bpow radix2 991 /\ (rows_in_nest nst rows q = [] -> shat q = 0) /\
    (forall k, In k (rows_in_nest nst rows q) -> ehat k <= shat q).
  Proof.
    intros Hq. destruct HO as (H1 & H2 & _ & _ & Hn & _). destruct (H2 q Hq) as (_ & _ & HP).
    assert (HL : length (terms_of (t q)) = length (rows_in_nest nst rows q)) by (apply Permutation_length; exact HP).
    pose proof (nest_length q) as NL.
    destruct (fsum_nonneg 971 (t q) (frow_exp ex V nst lam) ehat) as (s & E & F & B & N & T & Z).
    - lia.
    - rewrite HL. apply Z.le_lt_trans with 1000000%Z; [unfold n in NL; lia|reflexivity].
    - lia.
    - intros k Hk. apply (Permutation_in _ HP) in Hk. apply in_nest in Hk. destruct Hk as (Hk & _).
      destruct (row_exponential k Hk) as (E & F & _ & B). split; [exact E|]. split; [exact F|].
      pose proof (bpow_gt_0 radix2 (-868)). split; [lra|]. eapply Rle_trans; [apply B|]. apply bpow_le. lia.
    - rewrite HL in B, N, Z.
      assert (SB : s <= bpow radix2 991).
      { eapply Rle_trans; [exact B|]. change 991%Z with (20 + 971)%Z. rewrite bpow_plus. apply Rmult_le_compat_r; [apply bpow_ge_0|].
        apply Rle_trans with 1000000; [|cbn; lra]. pose proof n_bound as (_ & NB). apply le_INR in NL. lra. }
      assert (ES : fnest_sum ex V nst lam t q = FNum s) by (unfold fnest_sum; rewrite E; reflexivity).
      assert (LS : lsum ehat (terms_of (t q)) = lsum ehat (rows_in_nest nst rows q)) by (apply lsum_perm; exact HP).
      rewrite LS in N.
      assert (NS : near de (lsum ehat (rows_in_nest nst rows q)) (S q)).
      { unfold S, nest_total. rewrite (total_lsum (fun k => exp (v k / lam q))). apply near_sum. intros k Hk. apply in_nest in Hk. destruct Hk as (Hk & Hkq).
        destruct (row_exponential k Hk) as (_ & _ & NN & _). rewrite Hkq in NN. split; [left; apply exp_pos|exact NN]. }
      unfold shat. rewrite ES. cbn [fval]. split; [reflexivity|]. split; [exact F|]. split.
      + unfold ds. apply (near_weaken (2 * INR (length (rows_in_nest nst rows q)) * uround + de)).
        * apply S_nonneg.
        * apply le_INR in NL. pose proof uround_pos. nra.
        * exact (near_trans _ _ _ _ _ N NS).
      + assert (N0 : 0 <= lsum ehat (rows_in_nest nst rows q)) by (exact (near_nonneg _ _ _ NS (S_nonneg q))).
        split; [split; [exact (near_nonneg _ _ _ N N0)|exact SB]|]. split.
        * intros E0. apply Z. rewrite E0. reflexivity.
        * intros k Hk. apply T. apply (Permutation_in _ (Permutation_sym HP)). exact Hk.
  Qed.

  Lemma S_pos q k : In k (rows_in_nest nst rows q) -> 0 < S q.
  Proof.
    intros Hk. unfold S, nest_total. rewrite total_lsum. apply Rlt_le_trans with (exp (v k / lam q)); [apply exp_pos|].
    apply (lsum_term (fun k => exp (v k / lam q))); [intros; left; apply exp_pos|exact Hk].
  Qed.

  Let A q := attraction v lam nst rows q.
  Let ahat q := fval (fpower pw (fnest_sum ex V nst lam t q) (FNum (lam q))).
  Lemma A_nonneg q : 0 <= A q.
  Proof. unfold A, attraction. destruct (rows_in_nest nst rows q); [lra|]. left. apply exp_pos. Qed.

  Lemma shat_range q k : In q qs -> In k (rows_in_nest nst rows q) -> bpow radix2 (-1000) <= shat q <= bpow radix2 1000.
  Proof.
    intros Hq Hk. destruct (nest_sums q Hq) as (_ & _ & _ & (_ & U) & _ & T). specialize (T k Hk).
    apply in_nest in Hk. destruct (row_exponential k (proj1 Hk)) as (_ & _ & _ & B). split.
    - eapply Rle_trans; [|exact T]. eapply Rle_trans; [|apply B]. apply bpow_le. lia.
    - eapply Rle_trans; [exact U|]. apply bpow_le. lia.
  Qed.

  Lemma power_step q k y : In q qs -> In k (rows_in_nest nst rows q) -> double_format y -> -1 <= y <= 1 ->
    fpower pw (fnest_sum ex V nst lam t q) (FNum y) = FNum (pw (shat q) y) /\ double_format (pw (shat q) y) /\
    near (2 * ep + ds) (pw (shat q) y) (Rpower (S q) y) /\ near (2 * ep) (pw (shat q) y) (Rpower (shat q) y) /\
    0 < pw (shat q) y.
  Proof.
    intros Hq Hk Fy Hy. destruct (nest_sums q Hq) as (E & F & N & B & _ & _). pose proof (shat_range q k Hq Hk) as SR.
    destruct (Hpw _ _ F Fy SR Hy) as (FP & EP). pose proof (Rpower_between _ _ SR Hy) as PB.
    pose proof small40. pose proof (exp_pos (- (700))) as P7. pose proof (bpow_gt_0 radix2 (-1000)) as P1.
    assert (NP : near (2 * ep) (pw (shat q) y) (Rpower (shat q) y)) by (apply near_relative; [lra|lra|exact EP]).
    assert (PP : 0 < pw (shat q) y) by (apply (near_pos _ _ _ NP); lra).
    assert (OV : Rabs (pw (shat q) y) < bpow radix2 1024).
    { rewrite Rabs_right by lra. apply Rabs_le_inv in EP. destruct exp_700 as (_ & U7).
      apply Rle_lt_trans with (2 * bpow radix2 1011); [nra|].
      replace (2 * bpow radix2 1011) with (bpow radix2 1012) by (change 1012%Z with (1 + 1011)%Z; rewrite bpow_plus; reflexivity).
      apply bpow_lt. lia. }
    split; [|split; [exact FP|split; [|split; [exact NP|exact PP]]]].
    - rewrite E. cbn [fpower]. destruct (Req_EM_T (shat q) 0); [lra|]. apply overflow_num. exact OV.
    - apply (near_trans _ _ _ (Rpower (shat q) y)); [exact NP|].
      apply (near_weaken (Rabs y * ds)); [left; apply exp_pos| |apply near_Rpower; [exact (S_pos q k Hk)|apply ds_bounds|exact N]].
      pose proof ds_bounds. assert (Rabs y <= 1) by (apply Rabs_le; lra). pose proof (Rabs_pos y). nra.
  Qed.

  Lemma attractions q : In q qs ->
    fpower pw (fnest_sum ex V nst lam t q) (FNum (lam q)) = FNum (ahat q) /\ double_format (ahat q) /\
    near (2 * ep + ds) (ahat q) (A q) /\ 0 <= ahat q <= bpow radix2 992.
  Proof.
    intros Hq. destruct HO as (_ & H2 & _). destruct (H2 q Hq) as (FL & HL & _).
    destruct (nest_sums q Hq) as (E & F & N & B & Z & T).
    unfold ahat, A, attraction. destruct (rows_in_nest nst rows q) as [|k r] eqn:ER.
    - rewrite (Z eq_refl) in E. rewrite E. cbn [fpower]. destruct (Req_EM_T 0 0) as [_|C]; [|lra].
      destruct (Rlt_dec 0 (lam q)) as [_|C]; [|lra]. cbn [fval].
      split; [reflexivity|]. split; [apply generic_format_0|]. split; [unfold near; lra|]. pose proof (bpow_gt_0 radix2 992). lra.
    - assert (Hk : In k (rows_in_nest nst rows q)) by (rewrite ER; left; reflexivity).
      destruct (power_step q k (lam q) Hq Hk FL ltac:(lra)) as (E' & F' & N' & NP & PP).
      rewrite E'. cbn [fval]. split; [reflexivity|]. split; [exact F'|]. split; [exact N'|].
      split; [lra|]. destruct NP as (_ & U). pose proof (bpow_gt_0 radix2 (-1000)) as P1000. pose proof (shat_range q k Hq Hk) as SR.
      assert (R1 : Rpower (shat q) (lam q) <= bpow radix2 991).
      { destruct (Rle_dec 1 (shat q)) as [G|G].
        - apply Rle_trans with (Rpower (shat q) 1); [apply Rle_Rpower; lra|]. rewrite Rpower_1 by lra. apply B.
        - apply Rle_trans with 1; [|apply (bpow_le radix2 0 991); lia]. unfold Rpower. rewrite <- exp_0. apply exp_le_mono.
          assert (ln (shat q) <= 0) by (rewrite <- ln_1; apply ln_mono; lra). nra. }
      assert (X : exp (2 * ep) <= 2).
      { pose proof small40. pose proof (near_absolute (2 * ep) (exp (2 * ep)) 1 ltac:(lra) ltac:(lra)) as NA.
        assert (NN : near (2 * ep) (exp (2 * ep)) 1).
        { unfold near. rewrite !Rmult_1_r. split; [apply exp_le_mono; lra|lra]. }
        specialize (NA NN). apply Rabs_le_inv in NA. lra. }
      eapply Rle_trans; [exact U|]. change 992%Z with (1 + 991)%Z. rewrite bpow_plus. change (bpow radix2 1) with 2.
      apply Rmult_le_compat; [left; apply exp_pos|left; apply exp_pos|exact X|exact R1].
  Qed.

  Let m := length qs.
  Let dd := 2 * INR m * uround + (2 * ep + ds).
  Let T := total A qs.
  Let mhat := fval (fnest_denominator ex pw V nst lam t tq).

  Lemma m_bound : 0 <= INR m <= 1000000.
  Proof.
    split; [apply pos_INR|]. destruct HO as (_ & _ & _ & _ & _ & H). unfold m.
    rewrite INR_IZR_INZ. apply IZR_le. exact H.
  Qed.
  Lemma dd_bounds : 0 <= dd <= / 2 ^ 6.
  Proof.
    unfold dd. pose proof uround_pos. pose proof uround_small. pose proof ds_bounds. pose proof m_bound. pose proof small40.
    assert (2 * INR m * uround <= 2 * 1000000 * / 2 ^ 50) by (apply Rmult_le_compat; lra).
    assert (0 <= 2 * INR m * uround) by (apply Rmult_le_pos; lra). lra.
  Qed.

  Lemma denominator i : In i rows ->
    fnest_denominator ex pw V nst lam t tq = FNum mhat /\ double_format mhat /\ near dd mhat T /\
    (forall q, In q qs -> ahat q <= mhat) /\ 0 < mhat /\ 0 < T /\ A (nst i) <= T.
  Proof.
    intros Hi. destruct HO as (H1 & H2 & HP & _ & _ & Hm). destruct (H1 i Hi) as (_ & _ & Hq).
    assert (HL : length (terms_of tq) = m) by (apply Permutation_length; exact HP).
    destruct (fsum_nonneg 992 tq (fun q => fpower pw (fnest_sum ex V nst lam t q) (FNum (lam q))) ahat) as (s & E & F & B & N & TT & _).
    - lia.
    - rewrite HL. apply Z.le_lt_trans with 1000000%Z; [unfold m; lia|reflexivity].
    - lia.
    - intros q Hk. apply (Permutation_in _ HP) in Hk. destruct (attractions q Hk) as (EA & FA & _ & BA). auto.
    - rewrite HL in N.
      assert (NT : near (2 * ep + ds) (lsum ahat (terms_of tq)) T).
      { unfold T. rewrite (total_lsum A), (lsum_perm _ _ _ HP). apply near_sum. intros q Hk. split; [apply A_nonneg|].
        apply (attractions q Hk). }
      assert (AT : A (nst i) <= T).
      { unfold T. rewrite total_lsum. apply lsum_term; [intros; apply A_nonneg|exact Hq]. }
      assert (Hin : In i (rows_in_nest nst rows (nst i))) by (apply in_nest; auto).
      assert (A0 : 0 < A (nst i)).
      { unfold A, attraction. destruct (rows_in_nest nst rows (nst i)); [contradiction|]. apply exp_pos. }
      assert (NN : near dd s T) by (exact (near_trans _ _ _ _ _ N NT)).
      assert (S0 : 0 < s) by (apply (near_pos _ _ _ NN); lra).
      assert (EM : fnest_denominator ex pw V nst lam t tq = FNum s).
      { unfold fnest_denominator. rewrite E. cbn [on_posinf]. apply fguard_zero_pos. exact S0. }
      unfold mhat. rewrite EM. cbn [fval]. split; [reflexivity|]. split; [exact F|]. split; [exact NN|].
      split; [|split; [exact S0|split; [lra|exact AT]]].
      intros q Hk. apply TT. apply (Permutation_in _ (Permutation_sym HP)). exact Hk.
  Qed.

  Let P i := exact_nested_prob v lam nst rows qs i.
  (** exact numerator *)
  Let Num i := exp (v i / lam (nst i)) * Rpower (S (nst i)) (lam (nst i) - 1).

  Lemma P_quotient i : In i rows -> P i = Num i / T.
  Proof.
    intros Hi. assert (Hin : In i (rows_in_nest nst rows (nst i))) by (apply in_nest; auto).
    destruct (denominator i Hi) as (_ & _ & _ & _ & _ & HT & _). pose proof (S_pos _ _ Hin) as HS.
    unfold P, exact_nested_prob. fold (A (nst i)). change (total (attraction v lam nst rows) qs) with T.
    assert (EA : A (nst i) = Rpower (S (nst i)) (lam (nst i))).
    { unfold A, attraction. destruct (rows_in_nest nst rows (nst i)); [contradiction|]. reflexivity. }
    rewrite EA. unfold Num. change (nest_total v lam nst rows (nst i)) with (S (nst i)).
    unfold Rminus. rewrite Rpower_plus, Rpower_Ropp, Rpower_1 by exact HS. field. split; lra.
  Qed.

  Let dn := de + (2 * ep + ds + 700 * uround).

  (** the computed numerator before the last rounding, and after it *)
  Lemma numerator i : In i rows ->
    exists z, near dn z (Num i) /\ 0 < z /\
      ((bpow radix2 (-1022) <= z /\ fnest_numerator ex pw V nst lam t i = FNum (rnd z) /\ 0 < rnd z /\ near (2 * uround) (rnd z) z) \/
       (z < bpow radix2 (-1022) /\ 1 <= T /\ exists y, fnest_numerator ex pw V nst lam t i = FNum y /\ 0 < y <= (1 + uround) * / 10 ^ 300)).
  Proof.
    intros Hi. destruct HO as (H1 & H2 & _). destruct (H1 i Hi) as (_ & _ & Hq). destruct (H2 _ Hq) as (FL & HL & _).
    assert (Hin : In i (rows_in_nest nst rows (nst i))) by (apply in_nest; auto).
    destruct (row_exponential i Hi) as (EE & FE & NE & BE). destruct (nest_sums _ Hq) as (_ & _ & NS & BS & _ & TS).
    destruct (rnd_minus_one _ HL) as (Y1 & Y2). set (y := rnd (lam (nst i) + - (1))) in *.
    destruct (power_step _ i y Hq Hin (rnd_format _) ltac:(lra)) as (EP & FP & NP & NP' & PP).
    pose proof (S_pos _ _ Hin) as HS. pose proof ds_bounds as DS. pose proof de_bounds as DE. pose proof uround_pos as U0. pose proof uround_small as U1.
    pose proof small40 as S40. pose proof (shat_range _ _ Hq Hin) as SR.
    pose proof (bpow_gt_0 radix2 (-868)) as P868. pose proof (bpow_gt_0 radix2 (-1000)) as P1000.
    set (z := ehat i * pw (shat (nst i)) y).
    assert (Z0 : 0 < z) by (apply Rmult_lt_0_compat; lra).
    assert (NZ : near dn z (Num i)).
    { unfold z, dn, Num. apply near_mult; [left; apply exp_pos|left; apply exp_pos|exact NE|].
      replace (2 * ep + ds + 700 * uround) with (2 * ep + (uround * 700 + ds)) by ring.
      apply (near_trans _ _ _ (Rpower (shat (nst i)) y)); [exact NP'|].
      apply (near_trans _ _ _ (Rpower (shat (nst i)) (lam (nst i) - 1))).
      - apply near_exponent; [exact Y2|apply ln_bpow_1000; exact SR].
      - apply (near_weaken (Rabs (lam (nst i) - 1) * ds)); [left; apply exp_pos| |apply near_Rpower; [exact HS|lra|exact NS]].
        assert (Rabs (lam (nst i) - 1) <= 1) by (apply Rabs_le; lra). pose proof (Rabs_pos (lam (nst i) - 1)). nra. }
    assert (ES : fsub (FNum (lam (nst i))) (FNum 1) = FNum y).
    { unfold fsub. cbn [fneg fadd]. fold y. apply overflow_num. apply Rle_lt_trans with 1; [apply Rabs_le; lra|]. apply (bpow_lt radix2 0 1024). lia. }
    (* the product is at most the power of the sum, so it does not overflow *)
    assert (ZU : z <= bpow radix2 1000).
    { unfold z. specialize (TS i Hin).
      assert (R0 : Rpower (shat (nst i)) y <= Rmax 1 (/ shat (nst i))).
      { destruct (Rle_dec 1 (shat (nst i))) as [G|G].
        - eapply Rle_trans; [|apply Rmax_l]. unfold Rpower. rewrite <- exp_0. apply exp_le_mono.
          assert (0 <= ln (shat (nst i))) by (rewrite <- ln_1; apply ln_mono; lra). nra.
        - eapply Rle_trans; [|apply Rmax_r]. rewrite <- (Rpower_1 (/ shat (nst i))) by (apply Rinv_0_lt_compat; lra).
          unfold Rpower. apply exp_le_mono. rewrite ln_Rinv by lra.
          assert (ln (shat (nst i)) <= 0) by (rewrite <- ln_1; apply ln_mono; lra). nra. }
      assert (X : exp (2 * ep) <= 2).
      { pose proof (near_absolute (2 * ep) (exp (2 * ep)) 1 ltac:(lra) ltac:(lra)) as NA.
        assert (NN : near (2 * ep) (exp (2 * ep)) 1) by (unfold near; rewrite !Rmult_1_r; split; [apply exp_le_mono; lra|lra]).
        specialize (NA NN). apply Rabs_le_inv in NA. lra. }
      assert (PU : pw (shat (nst i)) y <= 2 * Rmax 1 (/ shat (nst i))).
      { eapply Rle_trans; [apply NP'|]. apply Rmult_le_compat; [left; apply exp_pos|left; apply exp_pos|exact X|exact R0]. }
      assert (SP : 0 < shat (nst i)) by lra.
      apply Rle_trans with (shat (nst i) * (2 * Rmax 1 (/ shat (nst i)))); [apply Rmult_le_compat; lra|].
      unfold Rmax. destruct (Rle_dec 1 (/ shat (nst i))).
      - replace (shat (nst i) * (2 * / shat (nst i))) with 2 by (field; lra). apply (bpow_le radix2 1 1000). lia.
      - apply Rle_trans with (2 * bpow radix2 991); [lra|].
        replace (2 * bpow radix2 991) with (bpow radix2 992) by (change 992%Z with (1 + 991)%Z; rewrite bpow_plus; reflexivity). apply bpow_le. lia. }
    assert (RU : rnd z <= bpow radix2 1000) by (rewrite <- (rnd_id (bpow radix2 1000)) by (apply generic_format_bpow; cbn; lia); apply rnd_le; exact ZU).
    assert (R0 : 0 <= rnd z) by (rewrite <- rnd_0; apply rnd_le; lra).
    assert (EN : fnest_numerator ex pw V nst lam t i = fguard_zero (FNum (rnd z))).
    { unfold fnest_numerator. rewrite EE, ES, EP. cbn [fmul]. fold z.
      rewrite overflow_num by (rewrite Rabs_right by lra; eapply Rle_lt_trans; [exact RU|apply bpow_lt; lia]). reflexivity. }
    exists z. split; [exact NZ|]. split; [exact Z0|].
    destruct (Rle_lt_dec (bpow radix2 (-1022)) z) as [G|G].
    - left. pose proof (near_rnd z G) as NR. assert (RP : 0 < rnd z) by (apply (near_pos _ _ _ NR); exact Z0).
      split; [exact G|]. split; [rewrite EN; apply fguard_zero_pos; exact RP|]. split; [exact RP|exact NR].
    - right. split; [exact G|]. split.
      + (* the nest sum is larger than one *)
        destruct (denominator i Hi) as (_ & _ & _ & _ & _ & _ & AT). apply Rle_trans with (A (nst i)); [|exact AT].
        assert (EA : A (nst i) = Rpower (S (nst i)) (lam (nst i))).
        { unfold A, attraction. destruct (rows_in_nest nst rows (nst i)); [contradiction|]. reflexivity. }
        rewrite EA. destruct (Rle_dec 1 (S (nst i))) as [G1|G1].
        * unfold Rpower. rewrite <- exp_0 at 1. apply exp_le_mono.
          assert (0 <= ln (S (nst i))) by (rewrite <- ln_1; apply ln_mono; lra). nra.
        * exfalso. assert (N1 : 1 <= Rpower (S (nst i)) y).
          { unfold Rpower. rewrite <- exp_0 at 1. apply exp_le_mono.
            assert (ln (S (nst i)) <= 0) by (rewrite <- ln_1; apply ln_mono; lra). nra. }
          assert (L1 : / 2 <= pw (shat (nst i)) y).
          { pose proof (near_absolute (2 * ep + ds) (pw (shat (nst i)) y) (Rpower (S (nst i)) y) ltac:(lra) ltac:(split; lra) NP) as NA. apply Rabs_le_inv in NA.
            assert (2 * (2 * ep + ds) <= / 2) by lra. nra. }
          assert (bpow radix2 (-868) * / 2 <= z) by (unfold z; apply Rmult_le_compat; lra).
          assert (bpow radix2 (-868) * / 2 = bpow radix2 (-869)) by (change (-868)%Z with (1 + -869)%Z; rewrite bpow_plus; change (bpow radix2 1) with 2; field).
          assert (bpow radix2 (-1022) <= bpow radix2 (-869)) by (apply bpow_le; lia). lra.
      + destruct (min_comp_bounds) as ((ML & _) & _ & _ & MU). pose proof (bpow_gt_0 radix2 (-1022)) as P22.
        rewrite EN. unfold fguard_zero. destruct (Req_EM_T (rnd z) 0) as [E0|E0].
        * exists fmin_comp_value. split; [reflexivity|]. lra.
        * exists (rnd z). split; [reflexivity|]. split; [lra|].
          apply Rle_trans with fmin_comp_value; [|exact MU]. apply Rle_trans with (bpow radix2 (-1022)); [|exact ML].
          rewrite <- (rnd_id (bpow radix2 (-1022))) by (apply generic_format_bpow; cbn; lia). apply rnd_le. lra.
  Qed.
  Lemma P_range i : In i rows -> 0 < P i <= 1.
  Proof.
    intros Hi. assert (Hin : In i (rows_in_nest nst rows (nst i))) by (apply in_nest; auto).
    destruct (denominator i Hi) as (_ & _ & _ & _ & _ & HT & AT). pose proof (S_pos _ _ Hin) as HS.
    assert (A0 : 0 < A (nst i)).
    { unfold A, attraction. destruct (rows_in_nest nst rows (nst i)); [contradiction|]. apply exp_pos. }
    assert (E0 : 0 < exp (v i / lam (nst i))) by apply exp_pos.
    assert (ES : exp (v i / lam (nst i)) <= S (nst i)).
    { unfold S, nest_total. rewrite total_lsum. apply (lsum_term (fun k => exp (v k / lam (nst i)))); [intros; left; apply exp_pos|exact Hin]. }
    unfold P, exact_nested_prob. fold (A (nst i)). change (total (attraction v lam nst rows) qs) with T.
    change (nest_total v lam nst rows (nst i)) with (S (nst i)).
    assert (Q1 : 0 < A (nst i) / T <= 1).
    { split; [apply Rdiv_lt_0_compat; lra|]. apply (Rmult_le_reg_r T); [lra|]. unfold Rdiv. rewrite Rmult_assoc, Rinv_l by lra. lra. }
    assert (Q2 : 0 < exp (v i / lam (nst i)) / S (nst i) <= 1).
    { split; [apply Rdiv_lt_0_compat; lra|]. apply (Rmult_le_reg_r (S (nst i))); [lra|]. unfold Rdiv at 1. rewrite Rmult_assoc, Rinv_l by lra. lra. }
    split; [apply Rmult_lt_0_compat; lra|]. apply mul_le_1; lra.
  Qed.

  Let D := nested_error eps ep n m.
  Lemma D_enough : dn + dd + 4 * uround <= D <= / 4 /\ 0 <= D.
  Proof.
    unfold D, nested_error. change (/ 2 ^ 53) with uround. unfold dn, dd, ds, de. pose proof uround_pos. pose proof uround_small.
    pose proof n_bound. pose proof m_bound. pose proof small40.
    assert (0 <= INR n * uround) by (apply Rmult_le_pos; lra). assert (0 <= INR m * uround) by (apply Rmult_le_pos; lra).
    assert (INR n * uround <= 1000000 * / 2 ^ 50) by (apply Rmult_le_compat; lra).
    assert (INR m * uround <= 1000000 * / 2 ^ 50) by (apply Rmult_le_compat; lra). lra.
  Qed.

  Lemma probability i : In i rows ->
    exists x, float_nested_prob ex pw V nst lam t tq i = FNum x /\ double_format x /\ 0 < x /\
      Rabs (x - P i) <= 2 * D * P i + 3 * / 10 ^ 300.
  Proof.
    intros Hi. destruct (denominator i Hi) as (ED & FD & ND & _ & M0 & T0 & _).
    destruct (numerator i Hi) as (z & NZ & Z0 & Hz). pose proof (P_quotient i Hi) as EQ. pose proof (P_range i Hi) as PR.
    destruct D_enough as ((DE & DE') & D0). pose proof uround_pos as U0. pose proof uround_small as U1.
    pose proof dd_bounds as DD. pose proof tiny_bounds as TB. set (h := / 10 ^ 300) in *.
    assert (Hdn : 0 <= dn).
    { unfold dn. pose proof de_bounds. pose proof ds_bounds. lra. }
    assert (N0 : 0 < Num i) by (unfold Num; apply Rmult_lt_0_compat; apply exp_pos).
    destruct Hz as [(G & EN & RP & NR)|(G & GT & y & EN & Hy)].
    - (* the numerator is a normal number *)
      set (w := rnd z / mhat).
      assert (NW : near (2 * uround + dn + dd) w (P i)).
      { unfold w. rewrite EQ. apply near_div; [lra|exact T0| |exact ND]. exact (near_trans _ _ _ _ _ NR NZ). }
      assert (W0 : 0 < w) by (apply (near_pos _ _ _ NW); lra).
      pose proof (near_absolute (2 * uround + dn + dd) w (P i) ltac:(lra) ltac:(split; lra) NW) as AW. apply Rabs_le_inv in AW.
      assert (W2 : w <= 2) by nra.
      destruct (guarded w ltac:(lra)) as (x & EX & FX & X0 & HX). exists x.
      assert (EF : float_nested_prob ex pw V nst lam t tq i = FNum x).
      { unfold float_nested_prob. rewrite EN, ED. cbn [fdiv]. destruct (Req_EM_T mhat 0); [lra|]. exact EX. }
      split; [exact EF|]. split; [exact FX|]. split; [exact X0|].
      destruct HX as [(GW & EW)|(GW & EW)].
      + assert (NX : near D x (P i)).
        { apply (near_weaken (2 * uround + (2 * uround + dn + dd))); [lra|lra|]. rewrite EW.
          exact (near_trans _ _ _ _ _ (near_rnd w GW) NW). }
        pose proof (near_absolute D x (P i) ltac:(lra) ltac:(lra) NX). lra.
      + (* the quotient is not *)
        fold h in EW. assert (uround * h <= / 2 ^ 50 * h) by (apply Rmult_le_compat_r; lra). assert (P i <= 2 * w) by nra. assert (0 <= D * P i) by (apply Rmult_le_pos; lra). apply Rabs_le. lra.
    - fold h in Hy.
      assert (M1 : / 2 <= mhat).
      { pose proof (near_absolute dd mhat T ltac:(lra) ltac:(lra) ND) as AM. apply Rabs_le_inv in AM. nra. }
      assert (MI : 0 < / mhat <= 2).
      { split; [apply Rinv_0_lt_compat; lra|]. replace 2 with (/ (/ 2)) by (field). apply Rinv_le_contravar; lra. }
      assert (YI : 0 < y / mhat <= 2 * y) by (unfold Rdiv; split; [apply Rmult_lt_0_compat; lra|nra]).
      assert (H2 : h <= / 4) by lra.
      destruct (guarded (y / mhat) ltac:(split; [lra|]; nra)) as (x & EX & FX & X0 & HX). exists x.
      assert (EF : float_nested_prob ex pw V nst lam t tq i = FNum x).
      { unfold float_nested_prob. rewrite EN, ED. cbn [fdiv]. destruct (Req_EM_T mhat 0); [lra|]. exact EX. }
      split; [exact EF|]. split; [exact FX|]. split; [exact X0|].
      assert (XU : x <= 5 / 2 * h).
      { destruct HX as [(GW & EW)|(GW & EW)].
        - rewrite EW. pose proof (rnd_relative _ GW) as (_ & RU).
          assert (y <= (1 + / 2 ^ 50) * h) by nra. assert (y / mhat <= 2 * ((1 + / 2 ^ 50) * h)) by lra.
          assert ((1 + uround) * (y / mhat) <= (1 + / 2 ^ 50) * (2 * ((1 + / 2 ^ 50) * h))) by (apply Rmult_le_compat; lra). lra.
        - fold h in EW. assert (uround * h <= / 2 ^ 50 * h) by (apply Rmult_le_compat_r; lra). lra. }
      assert (PU : P i <= 2 * z).
      { rewrite EQ. apply Rle_trans with (Num i).
        - apply (Rmult_le_reg_r T); [exact T0|]. unfold Rdiv. rewrite Rmult_assoc, Rinv_l by lra. nra.
        - pose proof (near_absolute dn z (Num i) ltac:(lra) ltac:(lra) NZ) as AN. apply Rabs_le_inv in AN. nra. }
      assert (0 <= D * P i) by (apply Rmult_le_pos; lra). apply Rabs_le. lra.
  Qed.
End Observation.

(** ** The computed probabilities *)

(** With utilities of at most 600 nest coefficients, the computed probability of every row is
    a positive double, near the textbook value. *)
Theorem C129_nested_probabilities_are_accurate :
  forall ex eps pw ep V v nst lam rows qs t tq i,
  accurate_exp ex eps -> 0 <= eps <= / 2 ^ 40 -> accurate_pow pw ep -> 0 <= ep <= / 2 ^ 40 ->
  nested_observation V v nst lam rows qs t tq -> In i rows ->
  let p := exact_nested_prob v lam nst rows qs i in
  exists x, float_nested_prob ex pw V nst lam t tq i = FNum x /\ double_format x /\ 0 < x /\
    Rabs (x - p) <= 2 * nested_error eps ep (length rows) (length qs) * p + 3 * / 10 ^ 300.
Proof.
  intros ex eps pw ep V v nst lam rows qs t tq i Hex Heps Hpw Hep HO Hi p.
  exact (probability ex eps pw ep Hex Heps Hpw Hep V v nst lam rows qs t tq HO i Hi).
Qed.

(** the error is small *)
Lemma nested_error_bounds eps ep rows qs : 0 <= eps <= / 2 ^ 40 -> 0 <= ep <= / 2 ^ 40 ->
  (Z.of_nat rows <= 1000000)%Z -> (Z.of_nat qs <= 1000000)%Z -> 0 <= nested_error eps ep rows qs <= / 4.
Proof.
  intros Heps Hep Hr Hq. unfold nested_error. change (/ 2 ^ 53) with uround. pose proof uround_pos. pose proof uround_small.
  assert (/ 2 ^ 40 <= / 2 ^ 10) by (apply Rinv_le_contravar; [apply pow_lt; lra|apply Rle_pow; [lra|lia]]).
  pose proof (pos_INR rows). pose proof (pos_INR qs).
  assert (INR rows <= 1000000) by (rewrite INR_IZR_INZ; apply IZR_le; exact Hr).
  assert (INR qs <= 1000000) by (rewrite INR_IZR_INZ; apply IZR_le; exact Hq).
  assert (0 <= INR rows * uround) by (apply Rmult_le_pos; lra). assert (0 <= INR qs * uround) by (apply Rmult_le_pos; lra).
  assert (INR rows * uround <= 1000000 * / 2 ^ 50) by (apply Rmult_le_compat; lra).
  assert (INR qs * uround <= 1000000 * / 2 ^ 50) by (apply Rmult_le_compat; lra). lra.
Qed.

(** The exact probabilities sum to one *)
Lemma lsum_rows_by_nest (nst : nat -> nat) f qs rows : NoDup qs -> (forall k, In k rows -> In (nst k) qs) ->
  lsum f rows = lsum (fun q => lsum f (rows_in_nest nst rows q)) qs.
Proof.
  intros ND. induction rows as [|k rows IH]; intros H.
  - cbn [rows_in_nest filter lsum]. clear. induction qs as [|q qs IH]; [reflexivity|]. cbn [lsum]. rewrite <- IH. cbn. ring.
  - cbn [lsum]. rewrite IH by (intros; apply H; right; assumption). clear IH.
    assert (G : forall l, NoDup l ->
       lsum (fun q => lsum f (rows_in_nest nst (k :: rows) q)) l =
       (if in_dec Nat.eq_dec (nst k) l then f k else 0) + lsum (fun q => lsum f (rows_in_nest nst rows q)) l).
    { induction l as [|q l IH]; intros NDl; [cbn [lsum]; destruct (in_dec Nat.eq_dec (nst k) []) as [[]|]; ring|].
      inversion NDl as [|? ? Nq NDl']; subst. specialize (IH NDl'). cbn [lsum]. rewrite IH. unfold rows_in_nest at 1. cbn [filter].
      destruct (Nat.eqb_spec (nst k) q) as [Eq|Nq'].
      - cbn [lsum]. destruct (in_dec Nat.eq_dec (nst k) l) as [I|_]; [congruence|].
        destruct (in_dec Nat.eq_dec (nst k) (q :: l)) as [_|N]; [|exfalso; apply N; left; congruence]. unfold rows_in_nest. ring.
      - destruct (in_dec Nat.eq_dec (nst k) l) as [I|N], (in_dec Nat.eq_dec (nst k) (q :: l)) as [I'|N']; unfold rows_in_nest; try ring.
        + exfalso. apply N'. right. exact I.
        + exfalso. destruct I' as [I'|I']; [congruence|contradiction]. }
    rewrite (G qs ND). destruct (in_dec Nat.eq_dec (nst k) qs) as [_|N]; [reflexivity|]. exfalso. apply N. apply H. left. reflexivity.
Qed.

Lemma lsum_ext f g l : (forall i, In i l -> f i = g i) -> lsum f l = lsum g l.
Proof. induction l as [|a l IH]; intros H; [reflexivity|]. cbn [lsum]. rewrite H, IH; [reflexivity| |left; reflexivity]. intros; apply H; right; assumption. Qed.

Lemma exact_nested_sum v lam nst rows qs : rows <> [] -> NoDup qs -> (forall k, In k rows -> In (nst k) qs) ->
  total (exact_nested_prob v lam nst rows qs) rows = 1.
Proof.
  intros HN ND HQ. rewrite total_lsum, (lsum_rows_by_nest nst _ qs rows ND HQ).
  set (T := total (attraction v lam nst rows) qs).
  assert (A0 : forall q, 0 <= attraction v lam nst rows q).
  { intros q. unfold attraction. destruct (rows_in_nest nst rows q); [lra|left; apply exp_pos]. }
  assert (T0 : 0 < T).
  { assert (exists k, In k rows) as (k & Hk) by (destruct rows as [|k r]; [contradiction|exists k; left; reflexivity]).
    apply Rlt_le_trans with (attraction v lam nst rows (nst k)).
    - unfold attraction. assert (In k (rows_in_nest nst rows (nst k))) by (apply filter_In; split; [exact Hk|apply Nat.eqb_refl]).
      destruct (rows_in_nest nst rows (nst k)); [contradiction|apply exp_pos].
    - unfold T. rewrite total_lsum. apply lsum_term; [intros; apply A0|apply HQ; exact Hk]. }
  rewrite (lsum_ext _ (fun q => / T * attraction v lam nst rows q)).
  - rewrite lsum_scal, <- total_lsum. fold T. apply Rinv_l. lra.
  - intros q _.
    rewrite (lsum_ext _ (fun k => attraction v lam nst rows q / T / nest_total v lam nst rows q * exp (v k / lam q))).
    + rewrite lsum_scal, <- total_lsum. fold (nest_total v lam nst rows q).
      destruct (rows_in_nest nst rows q) as [|k r] eqn:Er.
      * unfold attraction. rewrite Er. unfold Rdiv. ring.
      * assert (0 < nest_total v lam nst rows q).
        { unfold nest_total. rewrite Er, total_lsum. cbn [lsum]. apply Rplus_lt_le_0_compat; [apply exp_pos|].
          apply lsum_ge0. intros. left. apply exp_pos. }
        field. split; lra.
    + intros k Hk. apply filter_In in Hk. destruct Hk as (_ & Hk). apply Nat.eqb_eq in Hk. unfold exact_nested_prob. rewrite Hk.
      fold T. unfold Rdiv. ring.
Qed.

(** so the computed ones nearly do *)
Theorem C129_nested_probabilities_sum_to_one :
  forall ex eps pw ep V v nst lam rows qs t tq,
  accurate_exp ex eps -> 0 <= eps <= / 2 ^ 40 -> accurate_pow pw ep -> 0 <= ep <= / 2 ^ 40 ->
  nested_observation V v nst lam rows qs t tq -> rows <> [] ->
  exists x : nat -> R, (forall i, In i rows -> float_nested_prob ex pw V nst lam t tq i = FNum (x i)) /\
    Rabs (total x rows - 1) <= 2 * nested_error eps ep (length rows) (length qs) + INR (length rows) * (3 * / 10 ^ 300).
Proof.
  intros ex eps pw ep V v nst lam rows qs t tq Hex Heps Hpw Hep HO HN.
  set (x := fun i => fval (float_nested_prob ex pw V nst lam t tq i)). exists x.
  set (p := exact_nested_prob v lam nst rows qs). set (D := nested_error eps ep (length rows) (length qs)).
  assert (HX : forall i, In i rows -> float_nested_prob ex pw V nst lam t tq i = FNum (x i) /\ Rabs (x i - p i) <= 2 * D * p i + 3 * / 10 ^ 300).
  { intros i Hi. destruct (C129_nested_probabilities_are_accurate ex eps pw ep V v nst lam rows qs t tq i Hex Heps Hpw Hep HO Hi) as (z & E & _ & _ & A).
    unfold x. rewrite E. split; [reflexivity|exact A]. }
  split; [intros i Hi; apply HX; exact Hi|].
  assert (E1 : lsum p rows = 1).
  { unfold p. rewrite <- total_lsum. destruct HO as (H1 & _ & _ & ND & _). apply exact_nested_sum; [exact HN|exact ND|]. intros k Hk. apply (H1 k Hk). }
  rewrite total_lsum.
  assert (G : forall l, incl l rows -> Rabs (lsum x l - lsum p l) <= 2 * D * lsum p l + INR (length l) * (3 * / 10 ^ 300)).
  { induction l as [|a l IH]; intros I.
    - cbn [lsum length INR]. rewrite Rminus_0_r, Rabs_R0. lra.
    - specialize (IH (fun k Hk => I k (or_intror Hk))). destruct (HX a (I a (or_introl eq_refl))) as (_ & A).
      cbn [lsum length]. rewrite S_INR. apply Rabs_le_inv in IH, A. apply Rabs_le. lra. }
  specialize (G rows (incl_refl _)). rewrite E1 in G. lra.
Qed.

(** ** Outside that range *)

Lemma Rpower_le_bpow s l k : (0 <= k)%Z -> 0 < s <= bpow radix2 k -> 0 <= l <= 1 -> Rpower s l <= bpow radix2 k.
Proof.
  intros Hk Hs Hl. destruct (Rle_dec 1 s) as [G|G].
  - apply Rle_trans with (Rpower s 1); [apply Rle_Rpower; lra|]. rewrite Rpower_1 by lra. apply Hs.
  - apply Rle_trans with 1; [|apply (bpow_le radix2 0 k); exact Hk]. unfold Rpower. rewrite <- exp_0. apply exp_le_mono.
    assert (ln s <= 0) by (rewrite <- ln_1; apply ln_mono; lra). nra.
Qed.

(** Near means at most twice and at least half. *)
Lemma near_half d a b : near d a b -> 0 <= b -> 0 <= d <= / 4 -> / 2 * b <= a <= 3 / 2 * b.
Proof. intros H Hb Hd. pose proof (near_absolute d a b Hb ltac:(lra) H) as A. apply Rabs_le_inv in A. nra. Qed.

(** An observation with one nest: the computed probability is near the quotient of the
    computed exponential and the computed sum. *)
Lemma one_nest ex pw ep V nst lam t tq q i a s :
  accurate_pow pw ep -> 0 <= ep <= / 2 ^ 40 -> double_format (lam q) -> 0 < lam q <= 1 -> nst i = q ->
  Permutation (terms_of tq) [q] -> frow_exp ex V nst lam i = FNum a -> 0 < a ->
  fnest_sum ex V nst lam t q = FNum s -> double_format s -> bpow radix2 (-1000) <= s <= bpow radix2 1000 ->
  bpow radix2 (-1021) <= a * Rpower s (lam q - 1) <= 3 / 2 * bpow radix2 1023 ->
  bpow radix2 (-1000) <= a / s <= bpow radix2 1000 ->
  exists x, float_nested_prob ex pw V nst lam t tq i = FNum x /\ near (4 * ep + 706 * uround) x (a / s).
Proof.
  intros Hpw Hep FL HL Hq HP EA A0 ES FS SR ZR QR.
  pose proof uround_pos as U0. pose proof uround_small as U1.
  assert (S40 : / 2 ^ 40 <= / 2 ^ 20) by (apply Rinv_le_contravar; [apply pow_lt; lra|apply Rle_pow; [lra|lia]]).
  pose proof (bpow_gt_0 radix2 (-1000)) as P1000. assert (S0 : 0 < s) by lra.
  destruct (rnd_minus_one _ HL) as (Y1 & Y2). set (y := rnd (lam q + - (1))) in *.
  assert (POW : forall b, double_format b -> -1 <= b <= 1 ->
            fpower pw (FNum s) (FNum b) = FNum (pw s b) /\ double_format (pw s b) /\ near (2 * ep) (pw s b) (Rpower s b)).
  { intros b Fb Hb. destruct (Hpw s b FS Fb SR Hb) as (FP & EP). pose proof (Rpower_between s b SR Hb) as PB.
    pose proof (exp_pos (- (700))).
    assert (N : near (2 * ep) (pw s b) (Rpower s b)) by (apply near_relative; [lra|lra|exact EP]).
    pose proof (near_half _ _ _ N ltac:(lra) ltac:(lra)) as NH.
    split; [|split; assumption]. cbn [fpower]. destruct (Req_EM_T s 0); [lra|]. apply overflow_num.
    rewrite Rabs_right by lra. destruct exp_700 as (_ & U7). apply Rle_lt_trans with (2 * bpow radix2 1011); [lra|].
    replace (2 * bpow radix2 1011) with (bpow radix2 1012) by (change 1012%Z with (1 + 1011)%Z; rewrite bpow_plus; reflexivity). apply bpow_lt. lia. }
  destruct (POW y (rnd_format _) ltac:(lra)) as (EP & FP & NP). destruct (POW (lam q) FL ltac:(lra)) as (EL & FLp & NL).
  set (Z := a * Rpower s (lam q - 1)) in *. set (z := a * pw s y).
  pose proof (bpow_gt_0 radix2 (-1021)) as P1021.
  assert (NZ : near (2 * ep + 700 * uround) z Z).
  { unfold z, Z. replace (2 * ep + 700 * uround) with (0 + (2 * ep + uround * 700)) by ring.
    apply near_mult; [lra|left; apply exp_pos|apply near_refl|].
    apply (near_trans _ _ _ (Rpower s y)); [exact NP|]. apply near_exponent; [exact Y2|apply ln_bpow_1000; exact SR]. }
  pose proof (near_half _ _ _ NZ ltac:(lra) ltac:(lra)) as ZH.
  assert (ZL : bpow radix2 (-1022) <= z).
  { assert (B1 : bpow radix2 (-1021) = 2 * bpow radix2 (-1022)) by (change (-1021)%Z with (1 + -1022)%Z; rewrite bpow_plus; reflexivity). lra. }
  assert (F7 : double_format (7 * bpow radix2 1021)).
  { replace 7 with (INR 7) by (cbn; ring). apply format_scaled; lia. }
  assert (B23 : bpow radix2 1023 = 4 * bpow radix2 1021) by (change 1023%Z with (2 + 1021)%Z; rewrite bpow_plus; reflexivity).
  assert (B24 : bpow radix2 1024 = 8 * bpow radix2 1021) by (change 1024%Z with (3 + 1021)%Z; rewrite bpow_plus; reflexivity).
  pose proof (bpow_gt_0 radix2 1021) as P21.
  assert (ZU : z <= 7 * bpow radix2 1021).
  { pose proof (near_absolute (2 * ep + 700 * uround) z Z ltac:(lra) ltac:(lra) NZ) as AZ. apply Rabs_le_inv in AZ.
    assert (2 * (2 * ep + 700 * uround) * Z <= / 100 * Z) by (apply Rmult_le_compat_r; lra). lra. }
  assert (RU : rnd z <= 7 * bpow radix2 1021) by (rewrite <- (rnd_id _ F7); apply rnd_le; exact ZU).
  pose proof (near_rnd z ZL) as NR. pose proof (bpow_gt_0 radix2 (-1022)) as P1022.
  assert (R0 : 0 < rnd z) by (apply (near_pos _ _ _ NR); lra).
  assert (ESub : fsub (FNum (lam q)) (FNum 1) = FNum y).
  { unfold fsub. cbn [fneg fadd]. fold y. apply overflow_num. apply Rle_lt_trans with 1; [apply Rabs_le; lra|]. apply (bpow_lt radix2 0 1024). lia. }
  assert (EN : fnest_numerator ex pw V nst lam t i = FNum (rnd z)).
  { unfold fnest_numerator. rewrite Hq, EA, ESub, ES, EP. cbn [fmul]. fold z.
    rewrite overflow_num by (rewrite Rabs_right by lra; lra). cbn [on_posinf]. apply fguard_zero_pos. exact R0. }
  (* the denominator *)
  pose proof (exp_pos (lam q * ln s)) as RP. fold (Rpower s (lam q)) in RP.
  pose proof (near_half _ _ _ NL (Rlt_le _ _ RP) ltac:(lra)) as LH.
  pose proof (Rpower_le_bpow s (lam q) 1000 ltac:(lia) ltac:(lra) ltac:(lra)) as LB.
  assert (B1001 : bpow radix2 1001 = 2 * bpow radix2 1000) by (change 1001%Z with (1 + 1000)%Z; rewrite bpow_plus; reflexivity).
  pose proof (bpow_gt_0 radix2 1000) as P1k.
  assert (HLn : length (terms_of tq) = 1%nat) by (rewrite (Permutation_length HP); reflexivity).
  destruct (fsum_nonneg 1001 tq (fun q => fpower pw (fnest_sum ex V nst lam t q) (FNum (lam q))) (fun _ => pw s (lam q))) as (m & EM & FM & _ & NM & _).
  { lia. } { rewrite HLn. reflexivity. } { lia. }
  { intros k Hk. apply (Permutation_in _ HP) in Hk. destruct Hk as [<-|[]]. rewrite ES. split; [exact EL|]. split; [exact FLp|]. lra. }
  rewrite HLn in NM. rewrite (lsum_perm _ _ _ HP) in NM. cbn [lsum INR] in NM. rewrite Rplus_0_r, Rmult_1_r in NM.
  assert (NM' : near (2 * uround + 2 * ep) m (Rpower s (lam q))) by exact (near_trans _ _ _ _ _ NM NL).
  assert (M0 : 0 < m) by (apply (near_pos _ _ _ NM'); exact RP).
  assert (ED : fnest_denominator ex pw V nst lam t tq = FNum m).
  { unfold fnest_denominator. rewrite EM. cbn [on_posinf]. apply fguard_zero_pos. exact M0. }
  set (w := rnd z / m).
  assert (EZ : Z / Rpower s (lam q) = a / s).
  { unfold Z, Rminus. rewrite Rpower_plus, Rpower_Ropp, Rpower_1 by exact S0. field. split; lra. }
  assert (NW : near (4 * ep + 704 * uround) w (a / s)).
  { rewrite <- EZ. replace (4 * ep + 704 * uround) with ((2 * uround + (2 * ep + 700 * uround)) + (2 * uround + 2 * ep)) by ring.
    unfold w. apply near_div; [lra|exact RP| |exact NM']. exact (near_trans _ _ _ _ _ NR NZ). }
  pose proof (near_half _ _ _ NW ltac:(lra) ltac:(lra)) as WH.
  assert (WL : bpow radix2 (-1022) <= w).
  { assert (B1 : bpow radix2 (-1000) = 2 * bpow radix2 (-1001)) by (change (-1000)%Z with (1 + -1001)%Z; rewrite bpow_plus; reflexivity).
    assert (bpow radix2 (-1022) <= bpow radix2 (-1001)) by (apply bpow_le; lia). lra. }
  pose proof (near_rnd w WL) as NRw. assert (W0 : 0 < rnd w) by (apply (near_pos _ _ _ NRw); lra).
  exists (rnd w). split.
  - unfold float_nested_prob. rewrite EN, ED. cbn [fdiv]. destruct (Req_EM_T m 0); [lra|]. fold w.
    rewrite overflow_num; [apply fguard_zero_pos; exact W0|]. rewrite Rabs_right by lra.
    pose proof (near_half _ _ _ NRw ltac:(lra) ltac:(lra)) as RH. apply Rle_lt_trans with (4 * bpow radix2 1000); [lra|].
    replace (4 * bpow radix2 1000) with (bpow radix2 1002) by (change 1002%Z with (2 + 1000)%Z; rewrite bpow_plus; reflexivity). apply bpow_lt. lia.
  - replace (4 * ep + 706 * uround) with (2 * uround + (4 * ep + 704 * uround)) by ring. exact (near_trans _ _ _ _ _ NRw NW).
Qed.

Lemma exp_709 : 5 / 4 * bpow radix2 1022 <= exp 709 <= 11 / 8 * bpow radix2 1023.
Proof.
  split.
  - replace 709 with (3 / 10 + 7087 / 10) by lra. rewrite exp_plus. apply Rmult_le_compat; [lra|apply bpow_ge_0| |apply bpow_le_exp; [lia|lra]].
    pose proof (exp_ge_linear (3 / 10)). lra.
  - replace 709 with (3 / 10 + 7087 / 10) by lra. rewrite exp_plus. apply Rmult_le_compat; [left; apply exp_pos|left; apply exp_pos| |apply exp_le_bpow; [lia|lra]].
    pose proof (exp_cubic_neg (3 / 10) ltac:(lra)) as H. rewrite exp_Ropp in H. pose proof (exp_pos (3 / 10)) as P.
    apply (Rmult_le_compat_r (exp (3 / 10))) in H; [|lra]. rewrite Rinv_l in H by lra. lra.
Qed.

(** 1e300 in double precision *)
Lemma big_bounds : bpow radix2 996 <= fmax_comp <= bpow radix2 997 /\ double_format fmax_comp.
Proof.
  unfold fmax_comp, max_comp_value. split; [|apply rnd_format]. split.
  - rewrite <- (rnd_id (bpow radix2 996)) by (apply generic_format_bpow; cbn; lia). apply rnd_le. apply ten_300.
  - rewrite <- (rnd_id (bpow radix2 997)) by (apply generic_format_bpow; cbn; lia). apply rnd_le. apply ten_300.
Qed.

Lemma double_of_Z z : (Z.abs z < 2 ^ 53)%Z -> double_format (IZR z).
Proof.
  intros H. destruct (Z_le_gt_dec 0 z) as [G|G].
  - replace (IZR z) with (INR (Z.to_nat z) * bpow radix2 0) by (rewrite INR_IZR_INZ, Z2Nat.id by lia; cbn; ring). apply format_scaled; lia.
  - replace (IZR z) with (- (INR (Z.to_nat (- z)) * bpow radix2 0)) by (rewrite INR_IZR_INZ, Z2Nat.id, opp_IZR by lia; cbn; ring).
    apply generic_format_opp. apply format_scaled; lia.
Qed.

(** Four or more rows of one nest whose utilities are 709 nest coefficients: the sum of their
    exponentials overflows and is replaced by 1e300, the exponentials are not, and the
    computed probabilities exceed ten million; the exact ones are one over the number of rows. *)
Theorem C129_refuted_probabilities_above_ten_million :
  forall ex eps pw ep V v nst lam rows q t tq i,
  double_format (ex 709) -> Rabs (ex 709 - exp 709) <= eps * exp 709 -> 0 <= eps <= / 2 ^ 40 ->
  accurate_pow pw ep -> 0 <= ep <= / 2 ^ 40 -> double_format (lam q) -> 0 < lam q <= 1 ->
  (forall k, In k rows -> V k = FNum (v k) /\ nst k = q /\ v k / lam q = 709) ->
  Permutation (terms_of (t q)) rows -> Permutation (terms_of tq) [q] ->
  (4 <= length rows)%nat -> (Z.of_nat (length rows) < 2 ^ 53)%Z -> In i rows ->
  (exists x, float_nested_prob ex pw V nst lam t tq i = FNum x /\ 10 ^ 7 <= x) /\
  exact_nested_prob v lam nst rows [q] i = / INR (length rows).
Proof.
  intros ex eps pw ep V v nst lam rows q t tq i Fx Ex Heps Hpw Hep FL HL HV HP HPq H4 Hn Hi.
  pose proof uround_pos as U0. pose proof uround_small as U1.
  assert (S40 : / 2 ^ 40 <= / 2 ^ 20) by (apply Rinv_le_contravar; [apply pow_lt; lra|apply Rle_pow; [lra|lia]]).
  destruct exp_709 as (EL & EU). set (a := ex 709) in *. apply Rabs_le_inv in Ex.
  pose proof (bpow_gt_0 radix2 1022) as P22. pose proof (bpow_gt_0 radix2 1023) as P23.
  assert (EX : eps * exp 709 <= / 100 * exp 709) by (apply Rmult_le_compat_r; lra).
  assert (AL : bpow radix2 1022 <= a) by lra. assert (AU : a <= 3 / 2 * bpow radix2 1023) by lra.
  assert (B24 : bpow radix2 1024 = 2 * bpow radix2 1023) by (change 1024%Z with (1 + 1023)%Z; rewrite bpow_plus; reflexivity).
  assert (EF : forall k, In k rows -> frow_exp ex V nst lam k = FNum a).
  { intros k Hk. destruct (HV k Hk) as (EV & Ek & Ev). unfold frow_exp, fexp_scaled, fscaled_index. rewrite EV, Ek. cbn [fdiv].
    destruct (Req_EM_T (lam q) 0); [lra|]. rewrite Ev. rewrite (rnd_id 709) by (apply double_of_Z; reflexivity).
    rewrite (overflow_num 709).
    2: { rewrite Rabs_right by lra. apply Rlt_trans with (bpow radix2 10); [cbn; lra|apply bpow_lt; lia]. }
    cbn [on_posinf on_neginf fexp]. fold a. rewrite overflow_num by (rewrite Rabs_right; lra). cbn [on_posinf]. apply fguard_zero_pos. lra. }
  assert (LP : length (terms_of (t q)) = length rows) by (apply Permutation_length; exact HP).
  assert (ES : fnest_sum ex V nst lam t q = FNum fmax_comp).
  { unfold fnest_sum. destruct (fsum_overflows 1022 (t q) (frow_exp ex V nst lam) (fun _ => a)) as [E|(s & E & G)].
    - lia.
    - rewrite LP. exact Hn.
    - intros k Hk. split; [apply EF; apply (Permutation_in _ HP); exact Hk|]. lra.
    - rewrite E. reflexivity.
    - exfalso. rewrite LP in G. apply le_INR in H4. replace (INR 4) with 4 in H4 by (cbn; ring).
      assert (B : bpow radix2 1024 = 4 * bpow radix2 1022) by (change 1024%Z with (2 + 1022)%Z; rewrite bpow_plus; reflexivity). nra. }
  destruct big_bounds as ((BL & BU) & FB). set (s := fmax_comp) in *. pose proof (bpow_gt_0 radix2 996) as P996.
  destruct (HV i Hi) as (_ & Eqi & Evi). split.
  - assert (RS : / s <= Rpower s (lam q - 1) <= 1).
    { assert (S1 : 1 <= s) by (eapply Rle_trans; [|exact BL]; apply (bpow_le radix2 0 996); lia).
      assert (0 <= ln s) by (rewrite <- ln_1; apply ln_mono; lra). split.
      - rewrite <- (Rpower_1 s) at 1 by lra. rewrite <- Rpower_Ropp. unfold Rpower. apply exp_le_mono. nra.
      - apply Rle_trans with (exp 0); [|rewrite exp_0; lra]. unfold Rpower. apply exp_le_mono. nra. }
    assert (SI : 0 < / s) by (apply Rinv_0_lt_compat; lra).
    assert (QL : bpow radix2 25 <= a / s).
    { apply (Rmult_le_reg_r s); [lra|]. unfold Rdiv. rewrite Rmult_assoc, Rinv_l, Rmult_1_r by lra.
      apply Rle_trans with (bpow radix2 25 * bpow radix2 997); [apply Rmult_le_compat_l; [apply bpow_ge_0|exact BU]|].
      rewrite <- bpow_plus. exact AL. }
    assert (QU : a / s <= bpow radix2 1000).
    { apply (Rmult_le_reg_r s); [lra|]. unfold Rdiv. rewrite Rmult_assoc, Rinv_l, Rmult_1_r by lra.
      apply Rle_trans with (bpow radix2 1000 * bpow radix2 996); [|apply Rmult_le_compat_l; [apply bpow_ge_0|exact BL]].
      rewrite <- bpow_plus. apply Rle_trans with (bpow radix2 1024); [lra|apply bpow_le; lia]. }
    assert (AP : a / s <= a * Rpower s (lam q - 1) <= a).
    { split; [unfold Rdiv; apply Rmult_le_compat_l; lra|]. rewrite <- (Rmult_1_r a) at 2. apply Rmult_le_compat_l; lra. }
    destruct (one_nest ex pw ep V nst lam t tq q i a s Hpw Hep FL HL Eqi HPq (EF i Hi) ltac:(lra) ES FB) as (x & EX' & NX).
    + split; [eapply Rle_trans; [|exact BL]; apply bpow_le; lia|eapply Rle_trans; [exact BU|]; apply bpow_le; lia].
    + split; [|lra]. eapply Rle_trans; [|apply AP]. eapply Rle_trans; [|exact QL]. apply bpow_le. lia.
    + split; [|exact QU]. eapply Rle_trans; [|exact QL]. apply bpow_le. lia.
    + exists x. split; [exact EX'|]. pose proof (bpow_gt_0 radix2 25) as P25.
      pose proof (near_half _ _ _ NX ltac:(lra) ltac:(lra)) as NH.
      assert (B25 : bpow radix2 25 = 33554432) by reflexivity. cbn [pow]. lra.
  - assert (RN : rows_in_nest nst rows q = rows).
    { clear - HV. unfold rows_in_nest. induction rows as [|k r IH]; [reflexivity|]. cbn [filter].
      destruct (HV k (or_introl eq_refl)) as (_ & E & _). rewrite E, Nat.eqb_refl, IH; [reflexivity|]. intros; apply HV; right; assumption. }
    assert (NT : nest_total v lam nst rows q = INR (length rows) * exp 709).
    { unfold nest_total. rewrite RN, total_lsum. clear - HV. induction rows as [|k r IH]; [cbn; ring|].
      cbn [lsum length]. rewrite S_INR, IH by (intros; apply HV; right; assumption). destruct (HV k (or_introl eq_refl)) as (_ & _ & E). rewrite E. ring. }
    assert (N0 : 0 < INR (length rows)) by (apply lt_0_INR; lia). pose proof (exp_pos 709) as E7.
    assert (A0 : 0 < attraction v lam nst rows q).
    { unfold attraction. rewrite RN. destruct rows; [contradiction|apply exp_pos]. }
    unfold exact_nested_prob. rewrite Eqi, Evi, NT. cbn [total]. field. lra.
Qed.

(** Rows of one nest at or above 710 nest coefficients have the same computed probability:
    their exponentials are all replaced by 1e300.  The exact probabilities differ by the
    factor exp of their difference in nest coefficients. *)
Lemma replaced_high ex v l : (forall x, 710 <= x -> bpow radix2 1024 <= ex x) -> 0 < l -> 710 <= v / l ->
  fexp_scaled ex (FNum v) l = FNum fmax_comp.
Proof.
  intros Hex Hl Hv. destruct big_bounds as ((BL & BU) & _). pose proof (bpow_gt_0 radix2 996) as P.
  assert (B10 : 710 <= bpow radix2 996) by (apply Rle_trans with (bpow radix2 10); [cbn; lra|apply bpow_le; lia]).
  assert (R : 710 <= rnd (v / l)) by (rewrite <- (rnd_id 710) by (apply double_of_Z; reflexivity); apply rnd_le; exact Hv).
  assert (E : exists y, fscaled_index (FNum v) l = FNum y /\ 710 <= y).
  { unfold fscaled_index. cbn [fdiv]. destruct (Req_EM_T l 0); [lra|]. unfold overflow. destruct (Rle_dec _ _).
    - destruct (Rlt_dec _ _); [lra|]. exists fmax_comp. cbn. split; [reflexivity|lra].
    - eexists. cbn. split; [reflexivity|exact R]. }
  destruct E as (y & Ey & Hy). unfold fexp_scaled. rewrite Ey. cbn [fexp]. specialize (Hex y Hy). pose proof (bpow_gt_0 radix2 1024).
  unfold overflow. rewrite Rabs_right by lra. destruct (Rle_dec _ _) as [_|]; [|lra]. destruct (Rlt_dec _ _); [lra|].
  cbn [on_posinf]. apply fguard_zero_pos. lra.
Qed.

Lemma exact_ratio v lam nst rows qs i j : nst i = nst j -> lam (nst j) <> 0 ->
  exact_nested_prob v lam nst rows qs i = exp ((v i - v j) / lam (nst j)) * exact_nested_prob v lam nst rows qs j.
Proof.
  intros E L. unfold exact_nested_prob. rewrite E. replace (v i / lam (nst j)) with ((v i - v j) / lam (nst j) + v j / lam (nst j)) by (field; exact L).
  rewrite exp_plus. unfold Rdiv. ring.
Qed.

Lemma exact_nested_nonneg v lam nst rows qs i : In i rows -> In (nst i) qs -> 0 <= exact_nested_prob v lam nst rows qs i.
Proof.
  intros Hi Hq. assert (Hin : In i (rows_in_nest nst rows (nst i))) by (apply filter_In; split; [exact Hi|apply Nat.eqb_refl]).
  assert (A0 : forall q, 0 <= attraction v lam nst rows q).
  { intros q. unfold attraction. destruct (rows_in_nest nst rows q); [lra|left; apply exp_pos]. }
  assert (A1 : 0 < attraction v lam nst rows (nst i)).
  { unfold attraction. destruct (rows_in_nest nst rows (nst i)); [contradiction|apply exp_pos]. }
  assert (T0 : 0 < total (attraction v lam nst rows) qs).
  { rewrite total_lsum. eapply Rlt_le_trans; [exact A1|]. apply lsum_term; [intros; apply A0|exact Hq]. }
  assert (N0 : 0 < nest_total v lam nst rows (nst i)).
  { unfold nest_total. rewrite total_lsum. eapply Rlt_le_trans; [apply (exp_pos (v i / lam (nst i)))|].
    apply (lsum_term (fun k => exp (v k / lam (nst i)))); [intros; left; apply exp_pos|exact Hin]. }
  unfold exact_nested_prob. apply Rmult_le_pos; left; apply Rdiv_lt_0_compat; try assumption. apply exp_pos.
Qed.

Theorem C129_refuted_high_utilities_of_a_nest_are_not_told_apart :
  forall ex pw V v nst lam rows qs t tq i j,
  (forall x, 710 <= x -> bpow radix2 1024 <= ex x) -> nst i = nst j -> 0 < lam (nst j) ->
  V i = FNum (v i) -> V j = FNum (v j) -> 710 <= v i / lam (nst j) -> 710 <= v j / lam (nst j) ->
  float_nested_prob ex pw V nst lam t tq i = float_nested_prob ex pw V nst lam t tq j /\
  exact_nested_prob v lam nst rows qs i = exp ((v i - v j) / lam (nst j)) * exact_nested_prob v lam nst rows qs j.
Proof.
  intros ex pw V v nst lam rows qs t tq i j Hex E L Vi Vj Gi Gj. split; [|apply exact_ratio; [exact E|lra]].
  assert (EE : frow_exp ex V nst lam i = frow_exp ex V nst lam j).
  { unfold frow_exp. rewrite E, Vi, Vj, !replaced_high by assumption. reflexivity. }
  unfold float_nested_prob, fnest_numerator. rewrite E, EE. reflexivity.
Qed.

(** An exponential that underflows is replaced by 1e-300, which is larger than the one of a
    row that is better by up to 46 nest coefficients: the computed ranking is reversed. *)
Lemma replaced_low ex v l : (forall x, x <= -746 -> ex x = 0) -> 0 < l -> v / l <= -746 ->
  fexp_scaled ex (FNum v) l = FNum fmin_comp_value.
Proof.
  intros Hex Hl Hv. destruct big_bounds as ((BL & BU) & _). pose proof (bpow_gt_0 radix2 996) as P.
  assert (B10 : 746 <= bpow radix2 996) by (apply Rle_trans with (bpow radix2 10); [cbn; lra|apply bpow_le; lia]).
  assert (R : rnd (v / l) <= -746) by (rewrite <- (rnd_id (-746)) by (apply double_of_Z; reflexivity); apply rnd_le; exact Hv).
  assert (E : exists y, fscaled_index (FNum v) l = FNum y /\ y <= -746).
  { unfold fscaled_index. cbn [fdiv]. destruct (Req_EM_T l 0); [lra|]. unfold overflow. destruct (Rle_dec _ _).
    - destruct (Rlt_dec _ _); [|lra]. exists (- fmax_comp). cbn. split; [reflexivity|lra].
    - eexists. cbn. split; [reflexivity|exact R]. }
  destruct E as (y & Ey & Hy). unfold fexp_scaled. rewrite Ey. cbn [fexp]. rewrite (Hex y Hy).
  rewrite overflow_num by (rewrite Rabs_R0; apply bpow_gt_0). cbn [on_posinf]. unfold fguard_zero.
  destruct (Req_EM_T 0 0); [reflexivity|lra].
Qed.

Lemma exp_699 : bpow radix2 1005 <= exp 699 <= bpow radix2 1010.
Proof.
  split; [apply bpow_le_exp|apply exp_le_bpow]; (lia || lra).
Qed.

Theorem C129_refuted_ranking_within_a_nest :
  forall ex eps pw ep V v nst lam q t tq i j,
  accurate_exp ex eps -> 0 <= eps <= / 2 ^ 40 -> (forall x, x <= -746 -> ex x = 0) ->
  accurate_pow pw ep -> 0 <= ep <= / 2 ^ 40 -> double_format (lam q) -> 0 < lam q <= 1 ->
  V i = FNum (v i) -> V j = FNum (v j) -> nst i = q -> nst j = q ->
  v i / lam q <= -746 -> -700 <= v j / lam q <= -699 ->
  Permutation (terms_of (t q)) [i; j] -> Permutation (terms_of tq) [q] ->
  (exists x y, float_nested_prob ex pw V nst lam t tq i = FNum x /\ float_nested_prob ex pw V nst lam t tq j = FNum y /\
     9 / 10 <= x /\ y <= / 10) /\
  exact_nested_prob v lam nst [i; j] [q] i <= exp (-46) * exact_nested_prob v lam nst [i; j] [q] j.
Proof.
  intros ex eps pw ep V v nst lam q t tq i j Hex Heps Hlow Hpw Hep FL HL Vi Vj Ni Nj Gi Gj HP HPq.
  pose proof uround_pos as U0. pose proof uround_small as U1.
  assert (S40 : / 2 ^ 40 <= / 2 ^ 20) by (apply Rinv_le_contravar; [apply pow_lt; lra|apply Rle_pow; [lra|lia]]).
  split.
  2: { rewrite (exact_ratio v lam nst [i; j] [q] i j) by (first [congruence|rewrite Nj; lra]). rewrite Nj. apply Rmult_le_compat_r.
    - apply exact_nested_nonneg; [right; left; reflexivity|rewrite Nj; left; reflexivity].
    - apply exp_le_mono. unfold Rdiv in *. lra. }
  set (mc := fmin_comp_value) in *.
  assert (EI : frow_exp ex V nst lam i = FNum mc) by (unfold frow_exp; rewrite Vi, Ni; apply replaced_low; [exact Hlow|lra|exact Gi]).
  (* the better row *)
  assert (RJ : -700 <= rnd (v j / lam q) <= -699).
  { split; [rewrite <- (rnd_id (-700)) by (apply double_of_Z; reflexivity)|rewrite <- (rnd_id (-699)) by (apply double_of_Z; reflexivity)]; apply rnd_le; lra. }
  destruct (Hex (rnd (v j / lam q)) ltac:(lra)) as (Fa & Ea). set (c := rnd (v j / lam q)) in *. set (a := ex c) in *.
  assert (EB : bpow radix2 (-1011) <= exp c <= bpow radix2 (-1005)).
  { split; [apply exp_range; lra|]. change (-1005)%Z with (Z.opp 1005). rewrite bpow_opp.
    apply Rle_trans with (exp (- (699))); [apply exp_le_mono; lra|]. rewrite (exp_Ropp 699). apply Rinv_le_contravar; [apply bpow_gt_0|apply exp_699]. }
  pose proof (bpow_gt_0 radix2 (-1011)) as P11. pose proof (bpow_gt_0 radix2 (-1005)) as P5.
  assert (AB : / 2 * bpow radix2 (-1011) <= a <= 3 / 2 * bpow radix2 (-1005)).
  { apply Rabs_le_inv in Ea. assert (eps * exp c <= / 100 * exp c) by (apply Rmult_le_compat_r; lra). lra. }
  assert (EJ : frow_exp ex V nst lam j = FNum a).
  { unfold frow_exp, fexp_scaled, fscaled_index. rewrite Vj, Nj. cbn [fdiv]. destruct (Req_EM_T (lam q) 0); [lra|]. fold c.
    rewrite (overflow_num c).
    2: { rewrite Rabs_left by lra. apply Rlt_trans with (bpow radix2 10); [cbn; lra|apply bpow_lt; lia]. }
    cbn [on_posinf on_neginf fexp]. fold a. rewrite overflow_num.
    - cbn [on_posinf]. apply fguard_zero_pos. lra.
    - rewrite Rabs_right by lra. apply Rle_lt_trans with (2 * bpow radix2 (-1005)); [lra|].
      replace (2 * bpow radix2 (-1005)) with (bpow radix2 (-1004)) by (change (-1004)%Z with (1 + -1005)%Z; rewrite bpow_plus; reflexivity). apply bpow_lt. lia. }
  (* 1e-300 *)
  assert (ML : bpow radix2 (-997) <= mc <= bpow radix2 (-996)).
  { unfold mc, fmin_comp_value, min_comp_value. split.
    - rewrite <- (rnd_id (bpow radix2 (-997))) by (apply generic_format_bpow; cbn; lia). apply rnd_le.
      change (-997)%Z with (Z.opp 997). rewrite bpow_opp. apply Rinv_le_contravar; [apply pow_lt; lra|apply ten_300].
    - rewrite <- (rnd_id (bpow radix2 (-996))) by (apply generic_format_bpow; cbn; lia). apply rnd_le.
      change (-996)%Z with (Z.opp 996). rewrite bpow_opp. apply Rinv_le_contravar; [apply bpow_gt_0|apply ten_300]. }
  assert (B97 : bpow radix2 (-997) = 256 * bpow radix2 (-1005)) by (change (-997)%Z with (8 + -1005)%Z; rewrite bpow_plus; reflexivity).
  (* their sum *)
  assert (LP : length (terms_of (t q)) = 2%nat) by (rewrite (Permutation_length HP); reflexivity).
  set (x := fun k => fval (frow_exp ex V nst lam k)).
  assert (XI : x i = mc) by (unfold x; rewrite EI; reflexivity). assert (XJ : x j = a) by (unfold x; rewrite EJ; reflexivity).
  assert (BIG : forall e, (e <= 0)%Z -> bpow radix2 e <= bpow radix2 1000) by (intros; apply bpow_le; lia).
  destruct (fsum_nonneg 1000 (t q) (frow_exp ex V nst lam) x) as (s & Es & Fs & _ & Ns & Ts & _).
  { lia. } { rewrite LP. reflexivity. } { lia. }
  { intros k Hk. apply (Permutation_in _ HP) in Hk. destruct Hk as [<-|[<-|[]]].
    - rewrite XI, EI. split; [reflexivity|]. split; [apply rnd_format|]. pose proof (BIG (-996)%Z ltac:(lia)). lra.
    - rewrite XJ, EJ. split; [reflexivity|]. split; [exact Fa|]. pose proof (BIG (-1005)%Z ltac:(lia)). pose proof (bpow_le radix2 (-996) 0 ltac:(lia)).
      pose proof (bpow_le radix2 (-997) (-996) ltac:(lia)). pose proof (BIG (-996)%Z ltac:(lia)). lra. }
  rewrite LP, (lsum_perm _ _ _ HP) in Ns. cbn [lsum INR] in Ns. rewrite XI, XJ in Ns.
  assert (SB : mc <= s <= 101 / 100 * mc).
  { split; [rewrite <- XI; apply Ts; apply (Permutation_in _ (Permutation_sym HP)); left; reflexivity|].
    pose proof (near_absolute (2 * (1 + 1) * uround) s (mc + (a + 0)) ltac:(lra) ltac:(lra) Ns) as A. apply Rabs_le_inv in A.
    assert (2 * (2 * (1 + 1) * uround) * (mc + (a + 0)) <= / 1000 * (mc + (a + 0))) by (apply Rmult_le_compat_r; lra). lra. }
  assert (ES : fnest_sum ex V nst lam t q = FNum s) by (unfold fnest_sum; rewrite Es; reflexivity).
  assert (S0 : 0 < s) by lra. assert (S1 : s <= 1).
  { assert (bpow radix2 (-996) <= bpow radix2 (-2)) by (apply bpow_le; lia). change (bpow radix2 (-2)) with (/ 4) in H. lra. }
  assert (SR : bpow radix2 (-1000) <= s <= bpow radix2 1000).
  { split; [apply Rle_trans with (bpow radix2 (-997)); [apply bpow_le; lia|lra]|]. apply Rle_trans with 1; [exact S1|]. apply (bpow_le radix2 0). lia. }
  assert (RS : 1 <= Rpower s (lam q - 1) <= / s).
  { assert (ln s <= 0) by (rewrite <- ln_1; apply ln_mono; lra). split.
    - rewrite <- exp_0 at 1. unfold Rpower. apply exp_le_mono. nra.
    - rewrite <- (Rpower_1 s) at 2 by lra. rewrite <- Rpower_Ropp. unfold Rpower. apply exp_le_mono. nra. }
  assert (SI : 0 < / s) by (apply Rinv_0_lt_compat; lra). assert (SS : s * / s = 1) by (apply Rinv_r; lra).
  assert (QI : 99 / 100 <= mc / s <= 1).
  { unfold Rdiv at 2 3. split; apply (Rmult_le_reg_r s); try lra; rewrite Rmult_assoc, (Rmult_comm (/ s)), SS; lra. }
  assert (QJ : bpow radix2 (-100) <= a / s <= / 100).
  { split; apply (Rmult_le_reg_r s); try lra; unfold Rdiv; rewrite Rmult_assoc, (Rmult_comm (/ s)), SS, Rmult_1_r.
    - apply Rle_trans with (bpow radix2 (-100) * (2 * bpow radix2 (-996))); [apply Rmult_le_compat_l; [apply bpow_ge_0|lra]|].
      replace (bpow radix2 (-100) * (2 * bpow radix2 (-996))) with (bpow radix2 (-1095)) by (change (-1095)%Z with (1 + (-100 + -996))%Z; rewrite !bpow_plus; change (bpow radix2 1) with 2; ring).
      assert (bpow radix2 (-1095) <= bpow radix2 (-1012)) by (apply bpow_le; lia).
      assert (bpow radix2 (-1011) = 2 * bpow radix2 (-1012)) by (change (-1011)%Z with (1 + -1012)%Z; rewrite bpow_plus; reflexivity). lra.
    - lra. }
  assert (one : 1 <= bpow radix2 1000) by (apply (bpow_le radix2 0 1000); lia).
  assert (one' : 1 <= bpow radix2 1023) by (apply (bpow_le radix2 0 1023); lia).
  destruct (one_nest ex pw ep V nst lam t tq q i mc s Hpw Hep FL HL Ni HPq EI ltac:(lra) ES Fs SR) as (xi & EXi & NXi).
  { split.
    - apply Rle_trans with (bpow radix2 (-997)); [apply bpow_le; lia|]. rewrite <- (Rmult_1_r (bpow radix2 (-997))). apply Rmult_le_compat; lra.
    - apply Rle_trans with (mc / s); [unfold Rdiv; apply Rmult_le_compat_l; lra|lra]. }
  { split; [|lra]. apply Rle_trans with (bpow radix2 (-1)); [apply bpow_le; lia|]. change (bpow radix2 (-1)) with (/ 2). lra. }
  destruct (one_nest ex pw ep V nst lam t tq q j a s Hpw Hep FL HL Nj HPq EJ ltac:(lra) ES Fs SR) as (xj & EXj & NXj).
  { split.
    - apply Rle_trans with (bpow radix2 (-1012)); [apply bpow_le; lia|].
      assert (bpow radix2 (-1011) = 2 * bpow radix2 (-1012)) by (change (-1011)%Z with (1 + -1012)%Z; rewrite bpow_plus; reflexivity).
      apply Rle_trans with (a * 1); [lra|apply Rmult_le_compat_l; lra].
    - apply Rle_trans with (a / s); [unfold Rdiv; apply Rmult_le_compat_l; lra|lra]. }
  { split; [|lra]. apply Rle_trans with (bpow radix2 (-100)); [apply bpow_le; lia|lra]. }
  exists xi, xj. split; [exact EXi|]. split; [exact EXj|].
  pose proof (near_absolute (4 * ep + 706 * uround) xi (mc / s) ltac:(lra) ltac:(lra) NXi) as A1. apply Rabs_le_inv in A1.
  pose proof (bpow_gt_0 radix2 (-100)).
  pose proof (near_absolute (4 * ep + 706 * uround) xj (a / s) ltac:(lra) ltac:(lra) NXj) as A2. apply Rabs_le_inv in A2.
  assert (2 * (4 * ep + 706 * uround) * (mc / s) <= / 100 * (mc / s)) by (apply Rmult_le_compat_r; lra).
  assert (2 * (4 * ep + 706 * uround) * (a / s) <= / 100 * (a / s)) by (apply Rmult_le_compat_r; lra). lra.
Qed.

(** ** Non-vacuity *)

(** correctly rounded np.power *)
Lemma C129_rounded_power : accurate_pow (fun a b => rnd (Rpower a b)) (/ 2 ^ 53).
Proof.
  intros a b _ _ Ha Hb. split; [apply rnd_format|]. pose proof (Rpower_between a b Ha Hb) as (L & _).
  assert (N : bpow radix2 (-1022) <= Rpower a b).
  { eapply Rle_trans; [|exact L]. destruct (exp_range (-700) ltac:(lra)) as (Q & _). replace (- (700)) with (-700) by ring.
    eapply Rle_trans; [|exact Q]. apply bpow_le. lia. }
  pose proof (rnd_relative _ N) as (L1 & U1). fold uround. apply Rabs_le. lra.
Qed.

Lemma exp_710 : bpow radix2 1024 <= exp 710.
Proof. apply bpow_le_exp; [lia|lra]. Qed.

Lemma exp_746 : bpow radix2 1075 < exp 746.
Proof. apply Rle_lt_trans with (exp 745.5); [apply bpow_le_exp; [lia|lra]|apply exp_increasing; lra]. Qed.

(** The correctly rounded exponential overflows from 710 on and vanishes below -746. *)
Lemma C129_rounded_exp_overflows x : 710 <= x -> bpow radix2 1024 <= rnd (exp x).
Proof.
  intros H. rewrite <- (rnd_id (bpow radix2 1024)) by (apply generic_format_bpow; cbn; lia). apply rnd_le.
  eapply Rle_trans; [exact exp_710|]. apply exp_le_mono. exact H.
Qed.
Lemma C129_rounded_exp_underflows x : x <= -746 -> rnd (exp x) = 0.
Proof.
  intros H. apply rnd_tiny; [apply exp_pos|]. apply Rle_lt_trans with (exp (- (746))); [apply exp_le_mono; lra|].
  rewrite (exp_Ropp 746). change (-1075)%Z with (Z.opp 1075). rewrite bpow_opp. apply Rinv_lt_contravar; [|exact exp_746].
  apply Rmult_lt_0_compat; [apply bpow_gt_0|apply exp_pos].
Qed.

Lemma double_thousandth : double_format (/ 1024).
Proof. change (/ 1024) with (bpow radix2 (-10)). apply generic_format_bpow. cbn. lia. Qed.

Definition rexp (x : R) : R := rnd (exp x).
Definition rpow (a b : R) : R := rnd (Rpower a b).
Lemma small53 : 0 <= / 2 ^ 53 <= / 2 ^ 40.
Proof. split; [left; apply Rinv_0_lt_compat, pow_lt; lra|]. apply Rinv_le_contravar; [apply pow_lt; lra|]. apply Rle_pow; [lra|lia]. Qed.

(** three rows, two nests with coefficients 1/2 and 1, and a nest without rows *)
Definition ex_v (k : nat) : R := match k with 0%nat => 1 | 1%nat => 2 | _ => / 2 end.
Definition ex_nst (k : nat) : nat := match k with 0%nat | 1%nat => 0%nat | _ => 1%nat end.
Definition ex_lam (q : nat) : R := match q with 0%nat => / 2 | _ => 1 end.
Definition ex_t (q : nat) : sum_order := match q with 0%nat => SPlus (STerm 1) (STerm 0) | 1%nat => STerm 2 | _ => SNothing end.
Definition ex_tq : sum_order := SPlus (STerm 2) (SPlus (STerm 0) (STerm 1)).
Lemma ex_observation : nested_observation (fun k => FNum (ex_v k)) ex_v ex_nst ex_lam [0; 1; 2]%nat [0; 1; 2]%nat ex_t ex_tq.
Proof.
  split; [|split; [|split; [|split; [|split; [cbn; lia|cbn; lia]]]]].
  - intros k [<-|[<-|[<-|[]]]]; (split; [reflexivity|]; split; [cbn; rewrite Rabs_right; lra|cbn; auto]).
  - assert (double_format (/ 2)) by (change (/ 2) with (bpow radix2 (-1)); apply generic_format_bpow; cbn; lia).
    pose proof double_1.
    intros q [<-|[<-|[<-|[]]]]; cbn; (split; [assumption|]; split; [lra|]); [apply perm_swap|apply Permutation_refl|apply Permutation_refl].
  - cbn. apply (Permutation_cons_append [0; 1]%nat 2%nat).
  - repeat constructor; cbn; intuition discriminate.
Qed.
Example C129_ex_accurate : forall i, In i [0; 1; 2]%nat ->
  let p := exact_nested_prob ex_v ex_lam ex_nst [0; 1; 2]%nat [0; 1; 2]%nat i in
  exists x, float_nested_prob rexp rpow (fun k => FNum (ex_v k)) ex_nst ex_lam ex_t ex_tq i = FNum x /\ double_format x /\ 0 < x /\
    Rabs (x - p) <= 2 * nested_error (/ 2 ^ 53) (/ 2 ^ 53) 3 3 * p + 3 * / 10 ^ 300.
Proof.
  intros i Hi. apply (C129_nested_probabilities_are_accurate rexp (/ 2 ^ 53) rpow (/ 2 ^ 53) _ ex_v ex_nst ex_lam [0; 1; 2]%nat [0; 1; 2]%nat ex_t ex_tq i);
    try exact small53; [apply C122_correctly_rounded_exp|apply C129_rounded_power|apply ex_observation|exact Hi].
Qed.

(** four rows with utility 0.692 in a nest with coefficient 1/1024 *)
Example C129_ex_above_ten_million :
  exists x, float_nested_prob rexp rpow (fun _ => FNum (709 / 1024)) (fun _ => 0%nat) (fun _ => / 1024)
      (fun _ => SPlus (SPlus (STerm 0) (STerm 1)) (SPlus (STerm 2) (STerm 3))) (STerm 0) 2 = FNum x /\ 10 ^ 7 <= x.
Proof.
  refine (proj1 (C129_refuted_probabilities_above_ten_million rexp (/ 2 ^ 53) rpow (/ 2 ^ 53) _ (fun _ => 709 / 1024) _ (fun _ => / 1024)
    [0; 1; 2; 3]%nat 0 _ _ 2 (rnd_format _) _ small53 C129_rounded_power small53 double_thousandth _ _ _ _ _ _ _)).
  - assert (N : bpow radix2 (-1022) <= exp 709).
    { destruct exp_709 as (L & _). assert (bpow radix2 (-1022) <= bpow radix2 1022) by (apply bpow_le; lia). pose proof (bpow_gt_0 radix2 1022). lra. }
    pose proof (rnd_relative _ N) as (L1 & U1). unfold rexp. fold uround. apply Rabs_le. lra.
  - lra.
  - intros k _. split; [reflexivity|]. split; [reflexivity|]. field.
  - apply Permutation_refl.
  - apply Permutation_refl.
  - cbn. lia.
  - reflexivity.
  - cbn. auto.
Qed.

(** utilities 1 and 2 in a nest with coefficient 1/1024: the computed probabilities agree, the
    exact ones differ by the factor exp 1024 *)
Example C129_ex_not_told_apart : forall t tq,
  let V := fun k => match k with 0%nat => FNum 2 | _ => FNum 1 end in
  let v := fun k => match k with 0%nat => 2 | _ => 1 end in
  float_nested_prob rexp rpow V (fun _ => 0%nat) (fun _ => / 1024) t tq 0 = float_nested_prob rexp rpow V (fun _ => 0%nat) (fun _ => / 1024) t tq 1 /\
  exact_nested_prob v (fun _ => / 1024) (fun _ => 0%nat) [0; 1]%nat [0]%nat 0 =
    exp ((2 - 1) / / 1024) * exact_nested_prob v (fun _ => / 1024) (fun _ => 0%nat) [0; 1]%nat [0]%nat 1.
Proof.
  intros t tq V v.
  apply (C129_refuted_high_utilities_of_a_nest_are_not_told_apart rexp rpow V v (fun _ => 0%nat) (fun _ => / 1024) [0; 1]%nat [0]%nat t tq 0 1);
    try reflexivity; try (unfold v; lra). exact C129_rounded_exp_overflows.
Qed.

(** utilities -0.729 and -0.684 in a nest with coefficient 1/1024: the worse one gets more
    than nine tenths *)
Example C129_ex_reversed :
  let V := fun k => match k with 0%nat => FNum (-746 / 1024) | _ => FNum (-700 / 1024) end in
  exists x y, float_nested_prob rexp rpow V (fun _ => 0%nat) (fun _ => / 1024) (fun _ => SPlus (STerm 0) (STerm 1)) (STerm 0) 0 = FNum x /\
    float_nested_prob rexp rpow V (fun _ => 0%nat) (fun _ => / 1024) (fun _ => SPlus (STerm 0) (STerm 1)) (STerm 0) 1 = FNum y /\ 9 / 10 <= x /\ y <= / 10.
Proof.
  intros V.
  refine (proj1 (C129_refuted_ranking_within_a_nest rexp (/ 2 ^ 53) rpow (/ 2 ^ 53) V
    (fun k => match k with 0%nat => -746 / 1024 | _ => -700 / 1024 end) (fun _ => 0%nat) (fun _ => / 1024) 0 _ _ 0 1
    C122_correctly_rounded_exp small53 C129_rounded_exp_underflows C129_rounded_power small53 double_thousandth _ eq_refl eq_refl eq_refl eq_refl _ _ _ _));
    try apply Permutation_refl; lra.
Qed.

Print Assumptions C129_nested_probabilities_are_accurate.
Print Assumptions C129_nested_probabilities_sum_to_one.
Print Assumptions C129_refuted_probabilities_above_ten_million.
Print Assumptions C129_refuted_high_utilities_of_a_nest_are_not_told_apart.
Print Assumptions C129_refuted_ranking_within_a_nest.
