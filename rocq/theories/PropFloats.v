(** C122-C124: the probabilities and the log-likelihood in double precision. *)
From Coq Require Import ZArith Reals Lra Lia List Permutation.
From Flocq Require Import Core.
From Flocq Require Import Relative Plus_error.
From Verif Require Import Res Vec Arr ChoiceCalcs SpecLogit ChoiceFacts Floats FloatFacts.
Import ListNotations.
Open Scope R_scope.

(** ** Specification *)

(** np.exp on [-700, 700]: a double, with relative error at most [eps]. *)
Definition accurate_exp (ex : R -> R) (eps : R) : Prop :=
  forall c, -700 <= c <= 700 -> double_format (ex c) /\ Rabs (ex c - exp c) <= eps * exp c.

(** np.log on (0, 1]: a double that is not positive, with relative error at most [eps]. *)
Definition accurate_log (lg : R -> R) (eps : R) : Prop :=
  forall x, double_format x -> 0 < x <= 1 -> double_format (lg x) /\ Rabs (lg x - ln x) <= eps * - ln x.

(** The utility limited to [-700, 700]. *)
Definition clipped (u : fl) : R :=
  match u with FNum r => Rmax (-700) (Rmin 700 r) | FInf true => -700 | FInf false => 700 | FNaN => 0 end.

Fixpoint total (f : nat -> R) (rows : list nat) : R :=
  match rows with [] => 0 | i :: rest => f i + total f rest end.

(** The exact logit formula for row [i] among [rows]. *)
Definition exact_prob (u : nat -> fl) (rows : list nat) (i : nat) : R :=
  exp (clipped (u i)) / total (fun k => exp (clipped (u k))) rows.

(** The rows of one observation, none with an undefined utility, added in the order [t]. *)
Definition one_observation (u : nat -> fl) (rows : list nat) (t : sum_order) : Prop :=
  Permutation (terms_of t) rows /\ (length rows <= 4095)%nat /\ (forall k, In k rows -> u k <> FNaN).

(** ** Auxiliary facts *)
Lemma total_lsum f l : total f l = lsum f l.
Proof. induction l; cbn; congruence. Qed.

Lemma fclip_clipped u : u <> FNaN -> fclip u = FNum (clipped u).
Proof.
  destruct u as [r|[|]|]; intros H; [|reflexivity|reflexivity|congruence].
  unfold fclip, clipped, clip_exponent, min_exponent_val, max_exponent_val. f_equal. unfold Rmax, Rmin.
  destruct (Rlt_dec r (-700)), (Rlt_dec 700 r), (Rle_dec 700 r); try lra; destruct (Rle_dec _ _); lra.
Qed.

Lemma clipped_range u : -700 <= clipped u <= 700.
Proof.
  destruct u as [r|[|]|]; cbn; try lra. unfold Rmax, Rmin. destruct (Rle_dec 700 r); destruct (Rle_dec _ _); lra.
Qed.

Lemma exp_range c : -700 <= c <= 700 -> bpow radix2 (-1011) <= exp c <= bpow radix2 1011.
Proof.
  intros H. destruct exp_700 as (_ & U). split.
  - change (-1011)%Z with (Z.opp 1011). rewrite bpow_opp. apply Rle_trans with (exp (- (700))).
    + rewrite exp_Ropp. apply Rinv_le_contravar; [apply exp_pos|exact U].
    + destruct (Rle_lt_or_eq_dec (- (700)) c ltac:(lra)) as [L| <-]; [left; apply exp_increasing; exact L|right; reflexivity].
  - eapply Rle_trans; [|exact U]. destruct (Rle_lt_or_eq_dec c 700 ltac:(lra)) as [L| ->]; [left; apply exp_increasing; exact L|right; reflexivity].
Qed.

Lemma mul_le_1 a b : 0 <= a -> a <= 1 -> 0 <= b -> b <= 1 -> a * b <= 1.
Proof. intros. nra. Qed.

Section Numbers.
  Context (ex : R -> R) (eps : R).
  Hypothesis Hex : accurate_exp ex eps.
  Hypothesis Heps : 0 <= eps <= / 2 ^ 40.

  Lemma eps_small : eps <= / 1000.
  Proof. destruct Heps. assert (/ 2 ^ 40 <= / 1000); [apply Rinv_le_contravar; lra|lra]. Qed.

  Lemma ex_bounds c : -700 <= c <= 700 ->
    double_format (ex c) /\ (1 - eps) * exp c <= ex c <= (1 + eps) * exp c /\ bpow radix2 (-1012) <= ex c <= bpow radix2 1012.
  Proof.
    intros Hc. destruct (Hex c Hc) as (F & E). apply Rabs_le_inv in E. pose proof (exp_range c Hc) as (L & U).
    pose proof eps_small. split; [exact F|]. split; [lra|].
    assert (B1 : bpow radix2 (-1011) = 2 * bpow radix2 (-1012)) by (change (-1011)%Z with (1 + -1012)%Z; rewrite bpow_plus; reflexivity).
    assert (B2 : bpow radix2 1012 = 2 * bpow radix2 1011) by (change 1012%Z with (1 + 1011)%Z; rewrite bpow_plus; reflexivity).
    pose proof (bpow_gt_0 radix2 (-1012)). pose proof (bpow_gt_0 radix2 1011). pose proof (exp_pos c). nra.
  Qed.

  Lemma fexponential_num u : u <> FNaN -> fexponential ex u = FNum (ex (clipped u)).
  Proof.
    intros H. unfold fexponential. rewrite (fclip_clipped u H).
    destruct (ex_bounds _ (clipped_range u)) as (_ & _ & L & U).
    apply overflow_num. pose proof (bpow_gt_0 radix2 (-1012)). rewrite Rabs_right by lra.
    eapply Rle_lt_trans; [exact U|]. apply bpow_lt. lia.
  Qed.

  Lemma min_comp_bounds : bpow radix2 (-1022) <= fmin_comp_value <= 2 * / 10 ^ 300 /\ 4 * bpow radix2 (-1074) <= / 10 ^ 300 /\ fmin_comp_value <= 1 / 2 /\ fmin_comp_value <= (1 + uround) * / 10 ^ 300.
  Proof.
    assert (G : bpow radix2 (-1022) <= / 10 ^ 300).
    { change (-1022)%Z with (Z.opp 1022). rewrite bpow_opp. apply Rinv_le_contravar; [apply pow_lt; lra|].
      eapply Rle_trans; [apply ten_300|apply bpow_le; lia]. }
    pose proof (rnd_relative _ G) as (L & U). pose proof uround_pos.
    assert (uround <= / 1000) by (unfold uround; apply Rinv_le_contravar; lra).
    assert (T : / 10 ^ 300 <= / 1000) by (apply Rinv_le_contravar; [lra|]; change 300%nat with (3 + 297)%nat; rewrite pow_add; pose proof (pow_R1_Rle 10 297 ltac:(lra)); lra).
    assert (0 < / 10 ^ 300) by (apply Rinv_0_lt_compat, pow_lt; lra).
    unfold fmin_comp_value, min_comp_value. repeat split; try nra.
    - rewrite <- (rnd_id (bpow radix2 (-1022))) by (apply generic_format_bpow; cbn; lia). apply rnd_le. exact G.
    - eapply Rle_trans; [|exact G]. replace (4 * bpow radix2 (-1074)) with (bpow radix2 (-1072)); [apply bpow_le; lia|].
      change (-1072)%Z with (2 + -1074)%Z. rewrite bpow_plus. reflexivity.
  Qed.

  (** numerator, denominator and their relation to the exact ones *)
  Lemma parts u rows t i : one_observation u rows t -> In i rows ->
    exists a s, fexponential ex (u i) = FNum a /\ fsum t (fun k => fexponential ex (u k)) = FNum s /\
      double_format a /\ double_format s /\ 0 < a <= s /\
      (1 - eps) * exp (clipped (u i)) <= a <= (1 + eps) * exp (clipped (u i)) /\
      (1 - uround) ^ length rows * ((1 - eps) * total (fun k => exp (clipped (u k))) rows) <= s /\
      s <= (1 + uround) ^ length rows * ((1 + eps) * total (fun k => exp (clipped (u k))) rows).
  Proof.
    intros (HP & Hn & Hu) Hi.
    assert (HL : length (terms_of t) = length rows) by (apply Permutation_length; exact HP).
    assert (HI : forall k, In k (terms_of t) <-> In k rows)
      by (intros k; split; apply Permutation_in; [exact HP|apply Permutation_sym; exact HP]).
    destruct (fsum_positive 1012 t (fun k => fexponential ex (u k)) (fun k => ex (clipped (u k)))) as (s & E & F & B & (R1 & R2) & T & _).
    - lia.
    - lia.
    - rewrite HL. change (2 ^ (1024 - 1012))%Z with 4096%Z. lia.
    - lia.
    - intros k Hk. split; [apply fexponential_num, Hu, HI; exact Hk|].
      destruct (ex_bounds _ (clipped_range (u k))) as (Fk & _ & Bk). split; assumption.
    - destruct (ex_bounds _ (clipped_range (u i))) as (Fi & Ei & Bi).
      exists (ex (clipped (u i))), s. rewrite HL in R1, R2.
      pose proof (bpow_gt_0 radix2 (-1012)).
      assert (SE : (1 - eps) * total (fun k => exp (clipped (u k))) rows <= lsum (fun k => ex (clipped (u k))) (terms_of t)
                   <= (1 + eps) * total (fun k => exp (clipped (u k))) rows).
      { rewrite total_lsum, <- !lsum_scal, (lsum_perm _ _ _ HP).
        split; apply lsum_le; intros k _; apply (ex_bounds _ (clipped_range (u k))). }
      pose proof uround_pos. assert (uround <= / 1000) by (unfold uround; apply Rinv_le_contravar; lra).
      assert (0 <= (1 - uround) ^ length rows) by (apply pow_le; lra).
      assert (0 <= (1 + uround) ^ length rows) by (apply pow_le; lra).
      split; [apply fexponential_num, Hu; exact Hi|]. split; [exact E|]. split; [exact Fi|]. split; [exact F|].
      split; [split; [lra|apply T, HI; exact Hi]|]. split; [exact Ei|]. split.
      + eapply Rle_trans; [|exact R1]. apply Rmult_le_compat_l; [assumption|apply SE].
      + eapply Rle_trans; [exact R2|]. apply Rmult_le_compat_l; [assumption|apply SE].
  Qed.

  Lemma quotient_unit q : 0 <= q <= 1 -> overflow (rnd q) = FNum (rnd q) /\ 0 <= rnd q <= 1.
  Proof.
    intros (H0 & H1). assert (P : 0 <= rnd q <= 1) by (rewrite <- rnd_0, <- rnd_1 at 1; split; apply rnd_le; assumption).
    split; [|exact P]. apply overflow_num. rewrite Rabs_right by lra.
    apply Rle_lt_trans with 1; [lra|]. apply (bpow_lt radix2 0 1024). lia.
  Qed.

  Lemma float_prob_eq u rows t i : one_observation u rows t -> In i rows ->
    exists a s, float_prob ex u t i = FNum (if Req_EM_T (rnd (a / s)) 0 then fmin_comp_value else rnd (a / s)) /\
      double_format a /\ double_format s /\ 0 < a <= s /\ 0 <= rnd (a / s) <= 1 /\
      fexponential ex (u i) = FNum a /\ fsum t (fun k => fexponential ex (u k)) = FNum s /\
      (1 - eps) * exp (clipped (u i)) <= a <= (1 + eps) * exp (clipped (u i)) /\
      (1 - uround) ^ length rows * ((1 - eps) * total (fun k => exp (clipped (u k))) rows) <= s /\
      s <= (1 + uround) ^ length rows * ((1 + eps) * total (fun k => exp (clipped (u k))) rows).
  Proof.
    intros H Hi. destruct (parts u rows t i H Hi) as (a & s & Ea & Es & Fa & Fs & P & A & S1 & S2).
    exists a, s. assert (Q : 0 <= a / s <= 1).
    { split; [apply Rlt_le, Rdiv_lt_0_compat; lra|]. apply (Rmult_le_reg_r s); [lra|]. unfold Rdiv. rewrite Rmult_assoc, Rinv_l; lra. }
    destruct (quotient_unit _ Q) as (O & B).
    split; [|auto 12].
    unfold float_prob. rewrite Ea, Es. cbn [fdiv]. destruct (Req_EM_T s 0); [lra|]. rewrite O. cbn [fguard_zero].
    destruct (Req_EM_T _ _); reflexivity.
  Qed.
End Numbers.

(** ** C122 *)

(** Whatever the utilities of the observation (infinite ones included), and in whatever
    order the exponentials are added, the computed probability of a row is a number in (0, 1]. *)
Theorem C122_computed_probabilities_are_numbers_in_the_unit_interval :
  forall ex eps u rows t i,
  accurate_exp ex eps -> 0 <= eps <= / 2 ^ 40 ->
  one_observation u rows t -> In i rows ->
  exists x, float_prob ex u t i = FNum x /\ double_format x /\ 0 < x <= 1.
Proof.
  intros ex eps u rows t i Hex Heps H Hi.
  destruct (float_prob_eq ex eps Hex Heps u rows t i H Hi) as (a & s & E & Fa & Fs & P & B & _).
  rewrite E. eexists. split; [reflexivity|].
  destruct (min_comp_bounds) as ((L & _) & _ & U & _). pose proof (bpow_gt_0 radix2 (-1022)).
  destruct (Req_EM_T _ _); split; try apply rnd_format; lra.
Qed.

Lemma kappa (eps : R) (n : nat) : 0 <= eps <= / 2 ^ 40 -> (n <= 4095)%nat ->
  let delta := 2 * eps + (INR n + 1) * uround in
  1 - delta <= (1 - eps) * (1 - eps) * (1 - uround) ^ S n /\ 0 < (1 - eps) * (1 - eps) * (1 - uround) ^ S n <= 1 /\ 0 <= delta <= / 2.
Proof.
  intros He Hn delta. pose proof uround_pos as U0.
  assert (U1 : uround <= / 1000000) by (unfold uround; apply Rinv_le_contravar; lra).
  assert (E1 : eps <= / 1000) by (assert (/ 2 ^ 40 <= / 1000) by (apply Rinv_le_contravar; lra); lra).
  assert (N : 0 <= INR n <= 4095) by (split; [apply pos_INR|replace 4095 with (INR 4095) by (rewrite INR_IZR_INZ; reflexivity); apply le_INR; exact Hn]).
  assert (BER : forall k, 1 - INR k * uround <= (1 - uround) ^ k <= 1).
  { induction k as [|k IH]; [cbn; lra|]. rewrite S_INR. cbn [pow]. pose proof (pos_INR k). nra. }
  pose proof (BER (S n)) as (B1 & B2). rewrite S_INR in B1.
  assert (P : 0 < (1 - uround) ^ S n) by (apply pow_lt; lra).
  assert (D : 0 <= delta <= / 2) by (unfold delta; nra).
  assert (Q : 1 - 2 * eps <= (1 - eps) * (1 - eps) <= 1) by nra.
  split; [|split; [|exact D]].
  - unfold delta. nra.
  - split; [apply Rmult_lt_0_compat; nra|nra].
Qed.

Lemma inv_pow_lower n : (1 - uround) ^ n <= / (1 + uround) ^ n.
Proof.
  pose proof uround_pos. assert (uround <= / 1000) by (unfold uround; apply Rinv_le_contravar; lra).
  rewrite <- pow_inv. apply pow_incr. split; [lra|].
  apply (Rmult_le_reg_r (1 + uround)); [lra|]. rewrite Rinv_l by lra. nra.
Qed.

(** The computed probability differs from the exact formula by at most the accumulated
    rounding errors (relative), plus twice 1e-300. *)
Theorem C122_computed_probabilities_are_accurate :
  forall ex eps u rows t i,
  accurate_exp ex eps -> 0 <= eps <= / 2 ^ 40 ->
  one_observation u rows t -> In i rows ->
  exists x, float_prob ex u t i = FNum x /\
    Rabs (x - exact_prob u rows i)
      <= 2 * (2 * eps + (INR (length rows) + 1) * / 2 ^ 53) * exact_prob u rows i + 2 * / 10 ^ 300.
Proof.
  intros ex eps u rows t i Hex Heps H Hi.
  destruct (float_prob_eq ex eps Hex Heps u rows t i H Hi) as (a & s & E & Fa & Fs & P & B & _ & _ & (A1 & A2) & S1 & S2).
  rewrite E. eexists. split; [reflexivity|].
  set (T := total (fun k => exp (clipped (u k))) rows) in *. set (A := exp (clipped (u i))) in *.
  assert (A0 : 0 < A) by apply exp_pos.
  assert (T0 : 0 < T).
  { apply Rlt_le_trans with A; [exact A0|]. unfold T, A. rewrite total_lsum.
    apply (lsum_term (fun k => exp (clipped (u k)))); [intros; left; apply exp_pos|exact Hi]. }
  set (p := exact_prob u rows i). assert (Ep : p = A / T) by reflexivity.
  assert (p0 : 0 < p) by (rewrite Ep; apply Rdiv_lt_0_compat; assumption).
  destruct H as (_ & Hn & _). set (n := length rows) in *.
  destruct (kappa eps n Heps Hn) as (K1 & K2 & D). fold uround.
  set (delta := 2 * eps + (INR n + 1) * uround) in *. set (ka := (1 - eps) * (1 - eps) * (1 - uround) ^ S n) in *.
  pose proof uround_pos as U0. assert (U1 : uround <= / 1000) by (unfold uround; apply Rinv_le_contravar; lra).
  assert (e1 : eps <= / 1000) by (assert (/ 2 ^ 40 <= / 1000) by (apply Rinv_le_contravar; lra); lra).
  assert (W0 : 0 < (1 - uround) ^ n) by (apply pow_lt; lra). assert (V0 : 0 < (1 + uround) ^ n) by (apply pow_lt; lra).
  destruct (rnd_error (a / s)) as (d & h & Hd & Hh & Er). apply Rabs_le_inv in Hd.
  assert (s0 : 0 < s) by lra.
  assert (QP : ka * p <= a / s * (1 + d)).
  { apply (Rmult_le_reg_r s); [exact s0|]. replace (a / s * (1 + d) * s) with (a * (1 + d)) by (field; lra).
    rewrite Ep. apply Rle_trans with (ka * (A / T) * ((1 + uround) ^ n * ((1 + eps) * T))).
    - apply Rmult_le_compat_l; [rewrite <- Ep; nra|exact S2].
    - replace (ka * (A / T) * ((1 + uround) ^ n * ((1 + eps) * T))) with (ka * (1 + uround) ^ n * (1 + eps) * A) by (field; lra).
      assert (J : (1 - uround) ^ n * (1 + uround) ^ n <= 1).
      { pose proof (inv_pow_lower n) as IL. apply (Rmult_le_compat_r ((1 + uround) ^ n)) in IL; [|lra]. rewrite Rinv_l in IL; lra. }
      assert (J2 : (1 - eps) * (1 + eps) <= 1) by nra.
      assert (J3 : ka * (1 + uround) ^ n * (1 + eps) <= (1 - eps) * (1 - uround)).
      { unfold ka. cbn [pow].
        replace ((1 - eps) * (1 - eps) * ((1 - uround) * (1 - uround) ^ n) * (1 + uround) ^ n * (1 + eps))
          with ((1 - eps) * (1 - uround) * (((1 - eps) * (1 + eps)) * ((1 - uround) ^ n * (1 + uround) ^ n))) by ring.
        rewrite <- (Rmult_1_r ((1 - eps) * (1 - uround))) at 2. apply Rmult_le_compat_l; [nra|].
        apply mul_le_1; [nra|exact J2|apply Rmult_le_pos; lra|exact J]. }
      apply Rle_trans with ((1 - eps) * (1 - uround) * A); [apply Rmult_le_compat_r; lra|].
      replace ((1 - eps) * (1 - uround) * A) with ((1 - eps) * A * (1 - uround)) by ring.
      apply Rmult_le_compat; nra. }
  assert (QU : a / s * (1 + d) * ka <= p).
  { apply (Rmult_le_reg_r s); [exact s0|]. replace (a / s * (1 + d) * ka * s) with (a * (1 + d) * ka) by (field; lra).
    rewrite Ep. apply Rle_trans with (A / T * ((1 - uround) ^ n * ((1 - eps) * T))).
    - replace (A / T * ((1 - uround) ^ n * ((1 - eps) * T))) with (A * ((1 - uround) ^ n * (1 - eps))) by (field; lra).
      apply Rle_trans with ((1 + eps) * A * (1 + uround) * ka).
      + apply Rmult_le_compat_r; [lra|]. apply Rmult_le_compat; lra.
      + unfold ka. cbn [pow].
        replace ((1 + eps) * A * (1 + uround) * ((1 - eps) * (1 - eps) * ((1 - uround) * (1 - uround) ^ n)))
          with (A * ((1 - uround) ^ n * (1 - eps)) * (((1 + eps) * (1 - eps)) * ((1 + uround) * (1 - uround)))) by ring.
        rewrite <- (Rmult_1_r (A * ((1 - uround) ^ n * (1 - eps)))) at 2.
        apply Rmult_le_compat_l; [apply Rmult_le_pos; [lra|apply Rmult_le_pos; lra]|].
        apply mul_le_1; nra.
    - apply Rmult_le_compat_l; [rewrite <- Ep; lra|exact S1]. }
  set (q := a / s * (1 + d)) in *.
  assert (QD : Rabs (q - p) <= 2 * delta * p).
  { apply Rabs_le. split; [nra|].
    assert (q * (1 - delta) <= p) by (assert (0 <= q) by (unfold q; apply Rmult_le_pos; [left; apply Rdiv_lt_0_compat; lra|lra]); nra).
    assert (0 <= q) by (unfold q; apply Rmult_le_pos; [left; apply Rdiv_lt_0_compat; lra|lra]).
    assert (1 <= (1 + 2 * delta) * (1 - delta)) by nra.
    assert (q * (1 - delta) <= (1 + 2 * delta) * (1 - delta) * p)
      by (apply Rle_trans with (1 * p); [lra|apply Rmult_le_compat_r; lra]).
    assert (q <= (1 + 2 * delta) * p).
    { apply (Rmult_le_reg_r (1 - delta)); [lra|]. lra. }
    lra. }
  destruct (min_comp_bounds) as ((Lm & _) & Hh2 & _ & Um). pose proof (bpow_gt_0 radix2 (-1022)) as Z1.
  assert (Z0 : 0 < / 10 ^ 300) by (apply Rinv_0_lt_compat, pow_lt; lra).
  apply Rabs_le_inv in Hh. apply Rabs_le_inv in QD.
  destruct (Req_EM_T (rnd (a / s)) 0) as [R0|R0]; apply Rabs_le; [|rewrite Er; split; lra].
  rewrite R0 in Er. assert (q = - h) by lra.
  assert (uround * / 10 ^ 300 <= / 1000 * / 10 ^ 300) by (apply Rmult_le_compat_r; lra).
  split; lra.
Qed.

(** The computed probabilities of an observation add up to one, up to the same errors. *)
Theorem C122_computed_probabilities_sum_to_one :
  forall ex eps u rows t x,
  accurate_exp ex eps -> 0 <= eps <= / 2 ^ 40 ->
  one_observation u rows t -> rows <> [] ->
  (forall i, In i rows -> float_prob ex u t i = FNum (x i)) ->
  Rabs (total x rows - 1)
    <= 2 * (2 * eps + (INR (length rows) + 1) * / 2 ^ 53) + INR (length rows) * (2 * / 10 ^ 300).
Proof.
  intros ex eps u rows t x Hex Heps H Hne Hx.
  set (c := 2 * (2 * eps + (INR (length rows) + 1) * / 2 ^ 53)).
  assert (S1 : total (exact_prob u rows) rows = 1).
  { unfold exact_prob. set (T := total (fun k => exp (clipped (u k))) rows).
    assert (T0 : 0 < T).
    { unfold T. rewrite total_lsum. destruct rows as [|i l]; [congruence|].
      apply Rlt_le_trans with (exp (clipped (u i))); [apply exp_pos|].
      apply (lsum_term (fun k => exp (clipped (u k)))); [intros; left; apply exp_pos|left; reflexivity]. }
    assert (G : forall l, total (fun i => exp (clipped (u i)) / T) l = total (fun i => exp (clipped (u i))) l / T).
    { induction l as [|i l IH]; cbn [total]; [field; lra|]. rewrite IH. field. lra. }
    rewrite G. fold T. field. lra. }
  rewrite <- S1 at 1.
  assert (G : forall l, (forall i, In i l -> In i rows) ->
    Rabs (total x l - total (exact_prob u rows) l) <= c * total (exact_prob u rows) l + INR (length l) * (2 * / 10 ^ 300)).
  { induction l as [|i l IH]; intros Hl.
    - cbn. rewrite Rminus_0_r, Rabs_R0. lra.
    - cbn [total length]. rewrite S_INR.
      destruct (C122_computed_probabilities_are_accurate ex eps u rows t i Hex Heps H (Hl i (or_introl eq_refl))) as (y & E & A).
      rewrite (Hx i (Hl i (or_introl eq_refl))) in E. injection E as <-. fold c in A.
      specialize (IH (fun k Hk => Hl k (or_intror Hk))).
      replace (x i + total x l - (exact_prob u rows i + total (exact_prob u rows) l))
        with ((x i - exact_prob u rows i) + (total x l - total (exact_prob u rows) l)) by ring.
      eapply Rle_trans; [apply Rabs_triang|]. lra. }
  specialize (G rows (fun i Hi => Hi)). rewrite S1 in G at 2. lra.
Qed.

(** ** The computed and the exact model *)

Lemma osum_total N own o f : osum N own o f = total f (filter (fun k => (own k =? o)%nat) (seq 0 N)).
Proof.
  unfold osum. induction N as [|N IH]; [reflexivity|].
  rewrite seq_S, filter_app. cbn [Nat.add filter sumn]. rewrite IH, !total_lsum, lsum_app.
  destruct (own N =? o)%nat; cbn; ring.
Qed.

Lemma clip_lipschitz r v eta : Rabs (r - v) <= eta -> Rabs (clipped (FNum r) - clip_exponent v) <= eta.
Proof.
  intros H. apply Rabs_le_inv in H. apply Rabs_le. unfold clipped, clip_exponent, min_exponent_val, max_exponent_val, Rmax, Rmin.
  destruct (Rlt_dec v (-700)), (Rlt_dec 700 v), (Rle_dec 700 r); try lra; destruct (Rle_dec _ _); lra.
Qed.

Lemma exp_within a b eta : Rabs (a - b) <= eta -> exp (- eta) * exp b <= exp a <= exp eta * exp b.
Proof.
  intros H. apply Rabs_le_inv in H. rewrite <- !exp_plus.
  assert (M : forall x y, x <= y -> exp x <= exp y) by (intros x y [L| ->]; [left; apply exp_increasing; exact L|right; reflexivity]).
  split; apply M; lra.
Qed.

(** End to end: if the computed transformed utilities of the observation's rows are finite
    and within [eta] of those of the exact model, the computed probability is within
    e^(2 eta) of the exact model's, up to rounding. *)
Theorem C122_computed_probabilities_follow_the_model :
  forall ex eps m D own shape icpt beta r eta t i,
  accurate_exp ex eps -> 0 <= eps <= / 2 ^ 40 ->
  indicator_of (d_N D) (d_obs D) (d_M D) own -> (i < d_N D)%nat ->
  let rows := filter (fun k => (own k =? own i)%nat) (seq 0 (d_N D)) in
  (length rows <= 4095)%nat -> Permutation (terms_of t) rows ->
  (forall k, In k rows -> Rabs (r k - m_transform m (d_J D) (d_A D) (sys_utilities D beta) shape icpt k) <= eta) ->
  let p := long_probs m D shape icpt beta i in
  exists x, float_prob ex (fun k => FNum (r k)) t i = FNum x /\
    Rabs (x - p) <= (exp (2 * eta) * (1 + 2 * (2 * eps + (INR (length rows) + 1) * / 2 ^ 53)) - 1) * p + 2 * / 10 ^ 300.
Proof.
  intros ex eps m D own shape icpt beta r eta t i Hex Heps Hown Hi rows Hn HP Hr p.
  set (u := fun k => FNum (r k)).
  assert (Ii : In i rows) by (apply filter_In; split; [apply in_seq; lia|apply Nat.eqb_refl]).
  assert (OB : one_observation u rows t) by (split; [exact HP|]; split; [exact Hn|intros k _; discriminate]).
  destruct (C122_computed_probabilities_are_accurate ex eps u rows t i Hex Heps OB Ii) as (x & E & A).
  exists x. split; [exact E|]. fold uround in A |- *. apply Rabs_le_inv in A.
  destruct (kappa eps (length rows) Heps Hn) as (_ & _ & Dl).
  set (delta := 2 * eps + (INR (length rows) + 1) * uround) in *. set (q := exact_prob u rows i) in *.
  assert (eta0 : 0 <= eta) by (eapply Rle_trans; [apply Rabs_pos|apply (Hr i Ii)]).
  set (v := m_transform m (d_J D) (d_A D) (sys_utilities D beta) shape icpt) in *.
  set (e' := fun k => exp (clip_exponent (v k))).
  assert (Ep : p = e' i / total e' rows).
  { unfold p. rewrite (long_probs_eq _ _ _ Hown) by exact Hi. rewrite osum_total. reflexivity. }
  set (ew := fun k => exp (clipped (u k))).
  assert (W : forall k, In k rows -> exp (- eta) * e' k <= ew k <= exp eta * e' k).
  { intros k Hk. apply exp_within. apply clip_lipschitz. apply Hr. exact Hk. }
  assert (TW : exp (- eta) * total e' rows <= total ew rows <= exp eta * total e' rows).
  { rewrite !total_lsum, <- !lsum_scal. split; apply lsum_le; intros k Hk; apply W; exact Hk. }
  assert (P1 : 0 < e' i) by apply exp_pos. assert (P2 : 0 < ew i) by apply exp_pos.
  assert (T1 : 0 < total e' rows).
  { rewrite total_lsum. apply Rlt_le_trans with (e' i); [exact P1|]. apply lsum_term; [intros; left; apply exp_pos|exact Ii]. }
  assert (T2 : 0 < total ew rows).
  { rewrite total_lsum. apply Rlt_le_trans with (ew i); [exact P2|]. apply lsum_term; [intros; left; apply exp_pos|exact Ii]. }
  assert (p0 : 0 < p) by (rewrite Ep; apply Rdiv_lt_0_compat; assumption).
  set (G := exp eta) in *. assert (G1 : 1 <= G) by (unfold G; destruct (Req_dec eta 0) as [-> |]; [rewrite exp_0; lra|pose proof (exp_ineq1 eta ltac:(assumption)); lra]).
  assert (Gi : exp (- eta) = / G) by (unfold G; apply exp_Ropp). rewrite Gi in *.
  assert (GG : exp (2 * eta) = G * G) by (unfold G; rewrite <- exp_plus; f_equal; ring). rewrite GG.
  assert (G0 : 0 < / G) by (apply Rinv_0_lt_compat; lra). assert (GI : G * / G = 1) by (apply Rinv_r; lra).
  assert (Eq : q = ew i / total ew rows) by reflexivity.
  assert (Q1 : q <= G * G * p).
  { rewrite Eq, Ep. apply (Rmult_le_reg_r (total ew rows)); [exact T2|].
    replace (ew i / total ew rows * total ew rows) with (ew i) by (field; lra).
    apply Rle_trans with (G * e' i); [apply W; exact Ii|].
    apply Rle_trans with (G * G * (e' i / total e' rows) * (/ G * total e' rows)).
    - right. field. lra.
    - apply Rmult_le_compat_l; [rewrite <- Ep; nra|apply TW]. }
  assert (Q2 : / G * / G * p <= q).
  { rewrite Eq, Ep. apply (Rmult_le_reg_r (total ew rows)); [exact T2|].
    replace (ew i / total ew rows * total ew rows) with (ew i) by (field; lra).
    apply Rle_trans with (/ G * e' i); [|apply W; exact Ii].
    apply Rle_trans with (/ G * / G * (e' i / total e' rows) * (G * total e' rows)).
    - apply Rmult_le_compat_l; [rewrite <- Ep; nra|apply TW].
    - right. field. lra. }
  assert (q0 : 0 < q) by (rewrite Eq; apply Rdiv_lt_0_compat; assumption).
  apply Rabs_le. set (E2 := G * G) in *. assert (E2' : / G * / G = / E2) by (unfold E2; field; lra). rewrite E2' in Q2.
  assert (B1 : 1 <= E2) by (unfold E2; nra). assert (B2 : 0 < / E2) by (apply Rinv_0_lt_compat; lra). assert (B3 : E2 * / E2 = 1) by (apply Rinv_r; lra).
  assert (B4 : / E2 <= 1) by nra.
  assert (B5 : 2 <= E2 + / E2) by nra.
  split.
  - assert (q * (1 - 2 * delta) >= / E2 * p * (1 - 2 * delta)) by (apply Rle_ge, Rmult_le_compat_r; lra).
    assert (p * (E2 * (1 + 2 * delta) - 1) >= p * (1 - / E2 * (1 - 2 * delta))).
    { apply Rle_ge, Rmult_le_compat_l; [lra|]. nra. }
    lra.
  - assert (q * (1 + 2 * delta) <= E2 * p * (1 + 2 * delta)) by (apply Rmult_le_compat_r; lra). lra.
Qed.

(** ** Too many rows *)

(** With half a million rows whose utilities reach the upper limit, the denominator
    overflows and every probability is 1e-300 instead of one over the number of rows. *)
Theorem C122_refuted_for_many_rows :
  forall ex eps u rows t i,
  accurate_exp ex eps -> 0 <= eps <= / 2 ^ 40 ->
  Permutation (terms_of t) rows -> (2 ^ 19 <= Z.of_nat (length rows) < 2 ^ 53)%Z ->
  (forall k, In k rows -> exists r, u k = FNum r /\ 700 <= r) -> In i rows ->
  float_prob ex u t i = FNum fmin_comp_value /\ exact_prob u rows i = / INR (length rows).
Proof.
  intros ex eps u rows t i Hex Heps HP Hn Hu Hi.
  assert (C : forall k, In k rows -> u k <> FNaN /\ clipped (u k) = 700).
  { intros k Hk. destruct (Hu k Hk) as (r & -> & Hr). split; [discriminate|]. cbn. unfold Rmin, Rmax.
    destruct (Rle_dec 700 r); [|lra]. destruct (Rle_dec _ _); lra. }
  split.
  - unfold float_prob. rewrite (fexponential_num ex eps Hex Heps _ (proj1 (C i Hi))).
    destruct (ex_bounds ex eps Hex Heps 700 ltac:(lra)) as (_ & (L1 & _) & _ & L3).
    pose proof (eps_small eps Heps) as e1. destruct exp_700 as (L2 & _).
    assert (B : bpow radix2 1006 = 2 * bpow radix2 1005) by (change 1006%Z with (1 + 1005)%Z; rewrite bpow_plus; reflexivity).
    pose proof (bpow_gt_0 radix2 1005) as B0.
    destruct (fsum_overflows 1005 t (fun k => fexponential ex (u k)) (fun _ => ex 700)) as [E|(s & _ & S1 & S2)].
    + lia.
    + rewrite (Permutation_length HP). lia.
    + intros k Hk. apply (Permutation_in _ HP) in Hk. destruct (C k Hk) as (N & Ec). split.
      * rewrite (fexponential_num ex eps Hex Heps _ N), Ec. reflexivity.
      * split; [nra|]. eapply Rle_lt_trans; [exact L3|]. apply bpow_lt. lia.
    + rewrite E. cbn [fdiv fguard_zero]. destruct (Req_EM_T 0 0); [reflexivity|lra].
    + exfalso. rewrite (Permutation_length HP) in S1.
      assert (bpow radix2 1024 <= INR (length rows) * bpow radix2 1005).
      { change 1024%Z with (19 + 1005)%Z. rewrite bpow_plus. apply Rmult_le_compat_r; [lra|].
        rewrite INR_IZR_INZ, <- IZR_Zpower by lia. apply IZR_le. exact (proj1 Hn). }
      lra.
  - unfold exact_prob. rewrite (proj2 (C i Hi)).
    assert (G : forall l, (forall k, In k l -> In k rows) -> total (fun k => exp (clipped (u k))) l = INR (length l) * exp 700).
    { induction l as [|k l IH]; intros Hl; [cbn; ring|]. cbn [total length]. rewrite S_INR, IH by (intros; apply Hl; right; assumption).
      rewrite (proj2 (C k (Hl k (or_introl eq_refl)))). ring. }
    rewrite G by auto. pose proof (exp_pos 700).
    assert (0 < INR (length rows)) by (apply lt_0_INR; lia). field. lra.
Qed.

(** ** C123 *)

(** Within an observation, a row whose utility is not larger gets a computed probability
    that is not larger, unless the larger one's is below 1e-300 and the other was replaced
    by 1e-300. *)
Theorem C123_computed_ranking_follows_utilities :
  forall ex eps u rows t i j xi xj,
  accurate_exp ex eps -> 0 <= eps <= / 2 ^ 40 ->
  (forall c d, -700 <= c <= d -> d <= 700 -> ex c <= ex d) ->
  one_observation u rows t -> In i rows -> In j rows ->
  clipped (u i) <= clipped (u j) ->
  float_prob ex u t i = FNum xi -> float_prob ex u t j = FNum xj ->
  xi <= xj \/ (xi = fmin_comp_value /\ xj < fmin_comp_value).
Proof.
  intros ex eps u rows t i j xi xj Hex Heps Hmono H Hi Hj Hij Ei Ej.
  destruct (float_prob_eq ex eps Hex Heps u rows t i H Hi) as (a & s & E & Fa & Fs & P & B & Ea & Es & _).
  destruct (float_prob_eq ex eps Hex Heps u rows t j H Hj) as (a' & s' & E' & Fa' & Fs' & P' & B' & Ea' & Es' & _).
  rewrite Es in Es'. injection Es' as <-.
  assert (La : a <= a').
  { destruct H as (_ & _ & Hu). rewrite (fexponential_num ex eps Hex Heps _ (Hu i Hi)) in Ea.
    rewrite (fexponential_num ex eps Hex Heps _ (Hu j Hj)) in Ea'. injection Ea as <-. injection Ea' as <-.
    apply Hmono; pose proof (clipped_range (u i)); pose proof (clipped_range (u j)); lra. }
  assert (LQ : rnd (a / s) <= rnd (a' / s)).
  { apply rnd_le. apply Rmult_le_compat_r; [left; apply Rinv_0_lt_compat; lra|exact La]. }
  rewrite E in Ei. rewrite E' in Ej. injection Ei as <-. injection Ej as <-.
  destruct (Req_EM_T (rnd (a / s)) 0), (Req_EM_T (rnd (a' / s)) 0); try lra.
Qed.

(** A row at the lower limit next to one at the upper limit: its probability underflows to
    zero and is replaced by 1e-300. *)
Lemma lowest_is_replaced ex eps u rows t i j :
  accurate_exp ex eps -> 0 <= eps <= / 2 ^ 40 -> one_observation u rows t -> In i rows -> In j rows ->
  clipped (u i) = -700 -> clipped (u j) = 700 -> float_prob ex u t i = FNum fmin_comp_value.
Proof.
  intros Hex Heps H Hi Hj Ci Cj.
  destruct (float_prob_eq ex eps Hex Heps u rows t i H Hi) as (a & s & E & _ & _ & P & _ & _ & Es & (_ & A2) & _).
  destruct (float_prob_eq ex eps Hex Heps u rows t j H Hj) as (a' & s' & _ & _ & _ & P' & _ & _ & Es' & (A1 & _) & _).
  rewrite Es in Es'. injection Es' as <-. rewrite Ci in A2. rewrite Cj in A1.
  pose proof (eps_small eps Heps). destruct exp_700 as (L & U). destruct Heps as (e0 & _).
  assert (L' : exp (-700) <= bpow radix2 (-1006)).
  { replace (-700) with (- (700)) by lra. rewrite exp_Ropp. change (-1006)%Z with (Z.opp 1006). rewrite bpow_opp.
    apply Rinv_le_contravar; [apply bpow_gt_0|exact L]. }
  assert (B1 : bpow radix2 1006 = 2 * bpow radix2 1005) by (change 1006%Z with (1 + 1005)%Z; rewrite bpow_plus; reflexivity).
  assert (B2 : bpow radix2 (-1005) = 2 * bpow radix2 (-1006)) by (change (-1005)%Z with (1 + -1006)%Z; rewrite bpow_plus; reflexivity).
  pose proof (bpow_gt_0 radix2 1005). pose proof (bpow_gt_0 radix2 (-1006)). pose proof (exp_pos (-700)). pose proof (exp_pos 700).
  assert (Sa : a <= bpow radix2 (-1005)) by nra. assert (Ss : bpow radix2 1005 <= s) by nra.
  assert (Q : a / s < bpow radix2 (-1075)).
  { apply (Rmult_lt_reg_r s); [lra|]. unfold Rdiv. rewrite Rmult_assoc, Rinv_l, Rmult_1_r by lra.
    apply Rle_lt_trans with (bpow radix2 (-1005)); [exact Sa|].
    apply Rlt_le_trans with (bpow radix2 (-1075) * bpow radix2 1005); [rewrite <- bpow_plus; apply bpow_lt; lia|].
    apply Rmult_le_compat_l; [left; apply bpow_gt_0|exact Ss]. }
  rewrite E, (rnd_tiny _ (Rdiv_lt_0_compat a s ltac:(lra) ltac:(lra)) Q). destruct (Req_EM_T 0 0); [reflexivity|lra].
Qed.

(** A row with utility -20 next to one at the upper limit keeps a tiny probability. *)
Lemma low_is_tiny ex eps u rows t i j :
  accurate_exp ex eps -> 0 <= eps <= / 2 ^ 40 -> one_observation u rows t -> (length rows <= 4)%nat -> In i rows -> In j rows ->
  clipped (u i) = -20 -> clipped (u j) = 700 -> exists x, float_prob ex u t i = FNum x /\ x < fmin_comp_value.
Proof.
  intros Hex Heps H Hn Hi Hj Ci Cj.
  destruct (float_prob_eq ex eps Hex Heps u rows t i H Hi) as (a & s & E & _ & _ & P & _ & _ & Es & (A0 & A2) & _ & S2).
  destruct (float_prob_eq ex eps Hex Heps u rows t j H Hj) as (a' & s' & _ & _ & _ & P' & _ & _ & Es' & (A1 & _) & _).
  rewrite Es in Es'. injection Es' as <-. rewrite Ci in A0, A2. rewrite Cj in A1.
  pose proof (eps_small eps Heps) as e1. destruct exp_700 as (L & U). destruct exp_20 as (L20 & U20). destruct Heps as (e0 & _).
  assert (L' : exp (-20) <= bpow radix2 (-28)).
  { replace (-20) with (- (20)) by lra. rewrite exp_Ropp. change (-28)%Z with (Z.opp 28). rewrite bpow_opp.
    apply Rinv_le_contravar; [apply bpow_gt_0|exact L20]. }
  assert (U' : bpow radix2 (-29) <= exp (-20)).
  { replace (-20) with (- (20)) by lra. rewrite exp_Ropp. change (-29)%Z with (Z.opp 29). rewrite bpow_opp.
    apply Rinv_le_contravar; [apply exp_pos|exact U20]. }
  assert (B1 : bpow radix2 1006 = 2 * bpow radix2 1005) by (change 1006%Z with (1 + 1005)%Z; rewrite bpow_plus; reflexivity).
  assert (B2 : bpow radix2 (-27) = 2 * bpow radix2 (-28)) by (change (-27)%Z with (1 + -28)%Z; rewrite bpow_plus; reflexivity).
  assert (B3 : bpow radix2 (-29) = 2 * bpow radix2 (-30)) by (change (-29)%Z with (1 + -30)%Z; rewrite bpow_plus; reflexivity).
  pose proof (bpow_gt_0 radix2 1005). pose proof (bpow_gt_0 radix2 (-28)). pose proof (bpow_gt_0 radix2 (-30)). pose proof (exp_pos (-20)). pose proof (exp_pos 700).
  assert (Sa : a <= bpow radix2 (-27)) by nra. assert (Ss : bpow radix2 1005 <= s) by nra.
  assert (Sa' : bpow radix2 (-30) <= a) by nra.
  assert (Su : s <= bpow radix2 1017).
  { eapply Rle_trans; [exact S2|].
    assert (T : total (fun k => exp (clipped (u k))) rows <= INR (length rows) * bpow radix2 1011).
    { clear. induction rows as [|k l IH]; [cbn; lra|]. cbn [total length]. rewrite S_INR.
      pose proof (exp_range _ (clipped_range (u k))). lra. }
    assert (T0 : 0 <= total (fun k => exp (clipped (u k))) rows) by (rewrite total_lsum; apply lsum_ge0; intros; left; apply exp_pos).
    assert (N4 : INR (length rows) <= 4) by (replace 4 with (INR 4) by (cbn; ring); apply le_INR; exact Hn).
    pose proof uround_pos. assert (U1 : uround <= / 1000) by (unfold uround; apply Rinv_le_contravar; lra).
    assert (W : (1 + uround) ^ length rows <= 2).
    { apply Rle_trans with ((1 + uround) ^ 4); [apply pow_u_le; exact Hn|].
      apply Rle_trans with ((1001 / 1000) ^ 4); [apply pow_incr; lra|lra]. }
    assert (W0 : 0 <= (1 + uround) ^ length rows) by (apply pow_le; lra).
    assert (B4 : bpow radix2 1017 = 64 * bpow radix2 1011) by (change 1017%Z with (6 + 1011)%Z; rewrite bpow_plus; reflexivity).
    pose proof (bpow_gt_0 radix2 1011) as B0.
    apply Rle_trans with (2 * (2 * (4 * bpow radix2 1011))); [|lra].
    apply Rmult_le_compat; [exact W0|apply Rmult_le_pos; lra|exact W|].
    apply Rmult_le_compat; [lra|exact T0|lra|]. eapply Rle_trans; [exact T|]. apply Rmult_le_compat_r; lra. }
  assert (Q1 : a / s <= bpow radix2 (-1032)).
  { apply (Rmult_le_reg_r s); [lra|]. unfold Rdiv. rewrite Rmult_assoc, Rinv_l, Rmult_1_r by lra.
    apply Rle_trans with (bpow radix2 (-27)); [exact Sa|].
    apply Rle_trans with (bpow radix2 (-1032) * bpow radix2 1005); [rewrite <- bpow_plus; right; reflexivity|].
    apply Rmult_le_compat_l; [left; apply bpow_gt_0|exact Ss]. }
  assert (Q2 : bpow radix2 (-1047) <= a / s).
  { apply (Rmult_le_reg_r s); [lra|]. unfold Rdiv. rewrite Rmult_assoc, Rinv_l, Rmult_1_r by lra.
    apply Rle_trans with (bpow radix2 (-30)); [|exact Sa'].
    apply Rle_trans with (bpow radix2 (-1047) * bpow radix2 1017); [|rewrite <- bpow_plus; right; reflexivity].
    apply Rmult_le_compat_l; [left; apply bpow_gt_0|exact Su]. }
  assert (R1 : rnd (a / s) <= bpow radix2 (-1032)).
  { rewrite <- (rnd_id (bpow radix2 (-1032))) by (apply generic_format_bpow; cbn; lia). apply rnd_le. exact Q1. }
  assert (R2 : bpow radix2 (-1047) <= rnd (a / s)).
  { rewrite <- (rnd_id (bpow radix2 (-1047))) by (apply generic_format_bpow; cbn; lia). apply rnd_le. exact Q2. }
  pose proof (bpow_gt_0 radix2 (-1047)) as Z0.
  exists (rnd (a / s)). split; [rewrite E; destruct (Req_EM_T _ _); [lra|reflexivity]|].
  destruct min_comp_bounds as ((M & _) & _). apply Rle_lt_trans with (bpow radix2 (-1032)); [exact R1|].
  apply Rlt_le_trans with (bpow radix2 (-1022)); [apply bpow_lt; lia|exact M].
Qed.

(** In one observation with utilities -700, -20 and 700, the first row gets a larger
    probability than the second, in every order of summation. *)
Theorem C123_refuted_computed_ranking :
  forall ex eps t,
  accurate_exp ex eps -> 0 <= eps <= / 2 ^ 40 -> Permutation (terms_of t) [0; 1; 2]%nat ->
  let u := fun k : nat => match k with 0%nat => FNum (-700) | 1%nat => FNum (-20) | _ => FNum 700 end in
  exists x0 x1, float_prob ex u t 0 = FNum x0 /\ float_prob ex u t 1 = FNum x1 /\ x1 < x0.
Proof.
  intros ex eps t Hex Heps HP u.
  assert (H : one_observation u [0; 1; 2]%nat t).
  { split; [exact HP|]. split; [cbn; lia|]. intros k _. destruct k as [|[|k]]; discriminate. }
  assert (C0 : clipped (u 0%nat) = -700) by (cbn; unfold Rmin, Rmax; destruct (Rle_dec 700 (-700)); [lra|]; destruct (Rle_dec _ _); lra).
  assert (C1 : clipped (u 1%nat) = -20) by (cbn; unfold Rmin, Rmax; destruct (Rle_dec 700 (-20)); [lra|]; destruct (Rle_dec _ _); lra).
  assert (C2 : clipped (u 2%nat) = 700) by (cbn; unfold Rmin, Rmax; destruct (Rle_dec 700 700); [|lra]; destruct (Rle_dec _ _); lra).
  destruct (low_is_tiny ex eps u _ t 1%nat 2%nat Hex Heps H ltac:(cbn; lia) ltac:(cbn; auto) ltac:(cbn; auto) C1 C2) as (x1 & E1 & L1).
  exists fmin_comp_value, x1. split; [|split; [exact E1|exact L1]].
  apply (lowest_is_replaced ex eps u _ t 0%nat 2%nat Hex Heps H ltac:(cbn; auto) ltac:(cbn; auto) C0 C2).
Qed.

(** Raising the utility of one alternative from -700 to -20, with the other one at 700,
    lowers its computed probability. *)
Theorem C123_refuted_computed_monotonicity :
  forall ex eps t,
  accurate_exp ex eps -> 0 <= eps <= / 2 ^ 40 -> Permutation (terms_of t) [0; 1]%nat ->
  let u v := fun k : nat => match k with 0%nat => FNum v | _ => FNum 700 end in
  exists x y, float_prob ex (u (-700)) t 0 = FNum x /\ float_prob ex (u (-20)) t 0 = FNum y /\ y < x.
Proof.
  intros ex eps t Hex Heps HP u.
  assert (H : forall v, one_observation (u v) [0; 1]%nat t).
  { intros v. split; [exact HP|]. split; [cbn; lia|]. intros k _. destruct k as [|k]; discriminate. }
  assert (C0 : clipped (u (-700) 0%nat) = -700) by (cbn; unfold Rmin, Rmax; destruct (Rle_dec 700 (-700)); [lra|]; destruct (Rle_dec _ _); lra).
  assert (C1 : clipped (u (-20) 0%nat) = -20) by (cbn; unfold Rmin, Rmax; destruct (Rle_dec 700 (-20)); [lra|]; destruct (Rle_dec _ _); lra).
  assert (C2 : forall v, clipped (u v 1%nat) = 700) by (intros v; cbn; unfold Rmin, Rmax; destruct (Rle_dec 700 700); [|lra]; destruct (Rle_dec _ _); lra).
  destruct (low_is_tiny ex eps (u (-20)) _ t 0%nat 1%nat Hex Heps (H _) ltac:(cbn; lia) ltac:(cbn; auto) ltac:(cbn; auto) C1 (C2 _)) as (y & E1 & L1).
  exists fmin_comp_value, y. split; [|split; [exact E1|exact L1]].
  apply (lowest_is_replaced ex eps (u (-700)) _ t 0%nat 1%nat Hex Heps (H _) ltac:(cbn; auto) ltac:(cbn; auto) C0 (C2 _)).
Qed.

(** ** C124 *)

(** The rows of a whole data set: row [i] belongs to observation [own i]; the exponentials
    of observation [o] are added in the order [order o]. *)
Definition observations (u : nat -> fl) (N : nat) (own : nat -> nat) (order : nat -> sum_order) : Prop :=
  forall i, (i < N)%nat -> one_observation u (filter (fun k => (own k =? own i)%nat) (seq 0 N)) (order (own i)).

(** Minus the sum of the logarithms of the probabilities [x] of the chosen rows. *)
Definition minus_log_sum (N : nat) (y : nat -> bool) (x : nat -> R) : R :=
  total (fun i => if y i then - ln (x i) else 0) (seq 0 N).

Lemma ln_mono x y : 0 < x -> x <= y -> ln x <= ln y.
Proof. intros H [L| ->]; [left; apply ln_increasing; assumption|right; reflexivity]. Qed.

Lemma ln_lower x : double_format x -> 0 < x -> - 1074 <= ln x.
Proof.
  intros F H.
  assert (B : bpow radix2 (-1074) <= x).
  { destruct (Rle_or_lt (bpow radix2 (-1074)) x) as [L|L]; [exact L|]. exfalso.
    pose proof (generic_format_ge_bpow radix2 (FLT_exp (-1074) 53) (-1074)) as G.
    assert (forall e, (-1074 <= FLT_exp (-1074) 53 e)%Z) as G1 by (intros e; unfold FLT_exp; lia).
    specialize (G G1 x H F). lra. }
  assert (L2 : ln 2 <= 1).
  { rewrite <- (ln_exp 1). apply ln_mono; [lra|]. destruct exp_1_bounds. lra. }
  apply Rle_trans with (ln (bpow radix2 (-1074))); [|apply ln_mono; [apply bpow_gt_0|exact B]].
  change (-1074)%Z with (Z.opp 1074). rewrite bpow_opp, ln_Rinv by apply bpow_gt_0.
  rewrite <- (IZR_Zpower radix2 1074) by lia.
  replace (IZR (radix2 ^ 1074)) with (2 ^ 1074) by (rewrite pow_IZR; reflexivity).
  rewrite ln_pow by lra. replace (INR 1074) with 1074 by (rewrite INR_IZR_INZ; reflexivity). change (- (1074))%Z with (-1074)%Z. lra.
Qed.

Lemma log_terms lg el (y : nat -> bool) (x : nat -> R) i :
  accurate_log lg el -> 0 <= el <= / 2 -> double_format (x i) -> 0 < x i <= 1 ->
  let z := if y i then lg (x i) else 0 in
  (if y i then flog lg (FNum (x i)) else match flog lg (FNum (x i)) with FNum _ => FNum 0 | _ => FNaN end) = FNum z /\
  double_format z /\ - bpow radix2 11 <= z <= 0 /\
  - ((1 + el) * (if y i then - ln (x i) else 0)) <= z <= - ((1 - el) * (if y i then - ln (x i) else 0)).
Proof.
  intros Hlg Hel F P z. unfold z. destruct (y i); cbn [flog].
  - destruct (Hlg (x i) F P) as (Fl & A). apply Rabs_le_inv in A. pose proof (ln_lower _ F (proj1 P)).
    assert (ln (x i) <= 0) by (rewrite <- ln_1; apply ln_mono; lra).
    assert (B : bpow radix2 11 = 2048) by (cbn; lra).
    split; [reflexivity|]. split; [exact Fl|]. split; [rewrite B; nra|lra].
  - split; [reflexivity|]. split; [apply generic_format_0|]. pose proof (bpow_gt_0 radix2 11). split; lra.
Qed.

(** For probabilities that are doubles in (0, 1]: the computed log-likelihood is a finite
    number, not positive, with a relative error that is that of the logarithm and of one
    rounding per row, whatever the order of summation. *)
Theorem C124_computed_log_likelihood_is_accurate :
  forall lg el N y x t,
  accurate_log lg el -> 0 <= el <= / 2 -> (Z.of_nat N < 2 ^ 53)%Z ->
  (forall i, (i < N)%nat -> double_format (x i) /\ 0 < x i <= 1) ->
  Permutation (terms_of t) (seq 0 N) ->
  exists L, float_log_likelihood lg y (fun i => FNum (x i)) t = FNum L /\ L <= 0 /\
    (1 - el) * (1 - / 2 ^ 53) ^ N * minus_log_sum N y x <= - L <= (1 + el) * (1 + / 2 ^ 53) ^ N * minus_log_sum N y x.
Proof.
  intros lg el N y x t Hlg Hel HN Hx HP. fold uround.
  assert (HL : length (terms_of t) = N) by (rewrite (Permutation_length HP); apply seq_length).
  set (z := fun i => if y i then lg (x i) else 0).
  assert (HZ : forall i, In i (terms_of t) ->
    (if y i then flog lg (FNum (x i)) else match flog lg (FNum (x i)) with FNum _ => FNum 0 | _ => FNaN end) = FNum (z i) /\
    double_format (z i) /\ - bpow radix2 11 <= z i <= 0 /\
    - ((1 + el) * (if y i then - ln (x i) else 0)) <= z i <= - ((1 - el) * (if y i then - ln (x i) else 0))).
  { intros i Hi. apply (Permutation_in _ HP) in Hi. apply in_seq in Hi. destruct (Hx i ltac:(lia)) as (F & P).
    apply (log_terms lg el y x i Hlg Hel F P). }
  destruct (fsum_nonpositive t (fun i => if y i then flog lg (FNum (x i)) else match flog lg (FNum (x i)) with FNum _ => FNum 0 | _ => FNaN end) z)
    as (s & E & _ & B & (R1 & R2) & _).
  - rewrite HL. exact HN.
  - intros i Hi. destruct (HZ i Hi) as (A1 & A2 & A3 & _). auto.
  - exists s. split; [exact E|]. split; [apply B|]. rewrite HL in R1, R2.
    set (M := minus_log_sum N y x).
    assert (EM : M = lsum (fun i => if y i then - ln (x i) else 0) (terms_of t)).
    { unfold M, minus_log_sum. rewrite total_lsum. symmetry. apply lsum_perm. exact HP. }
    assert (SL : (1 - el) * M <= - lsum z (terms_of t) <= (1 + el) * M).
    { rewrite EM, <- !lsum_scal. replace (- lsum z (terms_of t)) with (lsum (fun i => Ropp 1 * z i) (terms_of t)) by (rewrite lsum_scal; ring).
      split; apply lsum_le; intros i Hi; destruct (HZ i Hi) as (_ & _ & _ & A); lra. }
    pose proof uround_pos. assert (uround <= / 1000) by (unfold uround; apply Rinv_le_contravar; lra).
    assert (W0 : 0 <= (1 - uround) ^ N) by (apply pow_le; lra). assert (V0 : 0 <= (1 + uround) ^ N) by (apply pow_le; lra).
    split.
    + apply Rle_trans with ((1 - uround) ^ N * - lsum z (terms_of t)); [|lra].
      replace ((1 - el) * (1 - uround) ^ N * M) with ((1 - uround) ^ N * ((1 - el) * M)) by ring.
      apply Rmult_le_compat_l; [exact W0|apply SL].
    + apply Rle_trans with ((1 + uround) ^ N * - lsum z (terms_of t)); [lra|].
      replace ((1 + el) * (1 + uround) ^ N * M) with ((1 + uround) ^ N * ((1 + el) * M)) by ring.
      apply Rmult_le_compat_l; [exact V0|apply SL].
Qed.

Lemma fsum_ext t f g : (forall i, In i (terms_of t) -> f i = g i) -> fsum t f = fsum t g.
Proof.
  induction t as [|i|a IHa b IHb]; cbn; intros H; [reflexivity|apply H; auto|].
  rewrite IHa, IHb; [reflexivity|intros; apply H, in_or_app; auto|intros; apply H, in_or_app; auto].
Qed.

(** From the utilities to the log-likelihood: with no undefined utility, the computed
    log-likelihood is a finite number and not positive, whatever the choices, the utilities
    (infinite ones included) and the orders of summation. *)
Theorem C124_computed_log_likelihood_is_finite :
  forall ex eps lg el u N own order y t,
  accurate_exp ex eps -> 0 <= eps <= / 2 ^ 40 -> accurate_log lg el -> 0 <= el <= / 2 ->
  (Z.of_nat N < 2 ^ 53)%Z -> observations u N own order -> Permutation (terms_of t) (seq 0 N) ->
  exists L, float_log_likelihood lg y (fun i => float_prob ex u (order (own i)) i) t = FNum L /\ L <= 0.
Proof.
  intros ex eps lg el u N own order y t Hex Heps Hlg Hel HN Hobs HP.
  set (x := fun i => match float_prob ex u (order (own i)) i with FNum v => v | _ => 0 end).
  assert (Hx : forall i, (i < N)%nat -> float_prob ex u (order (own i)) i = FNum (x i) /\ double_format (x i) /\ 0 < x i <= 1).
  { intros i Hi. unfold x.
    destruct (C122_computed_probabilities_are_numbers_in_the_unit_interval ex eps u _ _ i Hex Heps (Hobs i Hi)) as (v & E & F & P).
    - apply filter_In. split; [apply in_seq; lia|apply Nat.eqb_refl].
    - rewrite E. auto. }
  destruct (C124_computed_log_likelihood_is_accurate lg el N y x t Hlg Hel HN) as (L & E & L0 & _).
  - intros i Hi. apply Hx. exact Hi.
  - exact HP.
  - exists L. split; [|exact L0]. rewrite <- E. unfold float_log_likelihood. apply fsum_ext.
    intros i Hi. apply (Permutation_in _ HP) in Hi. apply in_seq in Hi. rewrite (proj1 (Hx i ltac:(lia))). reflexivity.
Qed.

(** The guard hides how unlikely a choice is: a chosen row at -700 next to one at 700 has
    an exact log-probability of at most -1400, and the logarithm of the computed one is above -1000. *)
Theorem C124_refuted_log_of_an_unlikely_choice :
  forall ex eps t,
  accurate_exp ex eps -> 0 <= eps <= / 2 ^ 40 -> Permutation (terms_of t) [0; 1]%nat ->
  let u := fun k : nat => match k with 0%nat => FNum (-700) | _ => FNum 700 end in
  exists x, float_prob ex u t 0 = FNum x /\ ln (exact_prob u [0; 1]%nat 0) <= -1400 /\ -1000 <= ln x.
Proof.
  intros ex eps t Hex Heps HP u.
  assert (H : one_observation u [0; 1]%nat t).
  { split; [exact HP|]. split; [cbn; lia|]. intros k _. destruct k as [|k]; discriminate. }
  assert (C0 : clipped (u 0%nat) = -700) by (cbn; unfold Rmin, Rmax; destruct (Rle_dec 700 (-700)); [lra|]; destruct (Rle_dec _ _); lra).
  assert (C1 : clipped (u 1%nat) = 700) by (cbn; unfold Rmin, Rmax; destruct (Rle_dec 700 700); [|lra]; destruct (Rle_dec _ _); lra).
  exists fmin_comp_value. split; [apply (lowest_is_replaced ex eps u _ t 0%nat 1%nat Hex Heps H ltac:(cbn; auto) ltac:(cbn; auto) C0 C1)|].
  split.
  - unfold exact_prob. cbn [total]. rewrite C0, C1. rewrite <- (ln_exp (-1400)).
    pose proof (exp_pos (-700)). pose proof (exp_pos 700). apply ln_mono; [apply Rdiv_lt_0_compat; lra|].
    apply (Rmult_le_reg_r (exp (-700) + (exp 700 + 0))); [lra|]. unfold Rdiv. rewrite Rmult_assoc, Rinv_l, Rmult_1_r by lra.
    replace (exp (-700)) with (exp (-1400) * exp 700) at 1 by (rewrite <- exp_plus; f_equal; lra).
    apply Rmult_le_compat_l; [left; apply exp_pos|lra].
  - destruct min_comp_bounds as ((M & _) & _).
    assert (G : exp (-1000) <= fmin_comp_value).
    { eapply Rle_trans; [|exact M]. replace (-1000) with (- (1000)) by lra. rewrite exp_Ropp. change (-1022)%Z with (Z.opp 1022). rewrite bpow_opp.
      apply Rinv_le_contravar; [apply bpow_gt_0|]. apply Rle_trans with (bpow radix2 1430); [apply bpow_le; lia|].
      replace 1000 with (INR 1000) by (rewrite INR_IZR_INZ; reflexivity).
      apply (exp_nat_bounds 1000 1430 1450); lia. }
    rewrite <- (ln_exp (-1000)). apply ln_mono; [apply exp_pos|exact G].
Qed.

(** ** Non-vacuity *)

(** The correctly rounded exponential and logarithm meet the requirements. *)
Example C122_correctly_rounded_exp : accurate_exp (fun c => rnd (exp c)) (/ 2 ^ 53).
Proof.
  intros c Hc. split; [apply rnd_format|]. pose proof (exp_range c Hc) as (L & _).
  assert (bpow radix2 (-1022) <= exp c) as B by (eapply Rle_trans; [|exact L]; apply bpow_le; lia).
  pose proof (rnd_relative _ B) as (R1 & R2). fold uround. apply Rabs_le. lra.
Qed.

Lemma rnd_ln_relative x : double_format x -> 0 < x <= 1 -> Rabs (rnd (ln x) - ln x) <= / 2 ^ 53 * - ln x.
Proof.
  intros F H. destruct (Req_dec x 1) as [-> | N1]; [rewrite ln_1, rnd_0; replace (0 - 0) with 0 by ring; rewrite Rabs_R0; lra|].
  (* a double below one is at most 1 - 2^-54 *)
  assert (NX : ln x <= - bpow radix2 (-60)).
  { assert (X : x <= 1 - bpow radix2 (-60)).
    { destruct (Rle_or_lt x (1 - bpow radix2 (-60))) as [L|L]; [exact L|]. exfalso.
      assert (B60 : bpow radix2 (-60) <= / 4) by (replace (/ 4) with (bpow radix2 (-2)) by (cbn; lra); apply bpow_le; lia).
      assert (M : mag radix2 x = 0%Z :> Z).
      { apply mag_unique_pos. change (0 - 1)%Z with (-1)%Z. replace (bpow radix2 (-1)) with (/ 2) by (cbn; lra). change (bpow radix2 0) with 1. lra. }
      unfold generic_format, F2R, scaled_mantissa, cexp in F. rewrite M in F. change (FLT_exp (-1074) 53 0) with (-53)%Z in F.
      cbn [Fnum Fexp] in F. set (k := Ztrunc (x * bpow radix2 (- (-53)))) in F.
      assert (P53 : bpow radix2 53 * bpow radix2 (-53) = 1) by (rewrite <- bpow_plus; reflexivity).
      pose proof (bpow_gt_0 radix2 (-53)) as Q53.
      assert (K1 : IZR k < IZR (2 ^ 53)) by (change (IZR (2 ^ 53)) with (bpow radix2 53); apply (Rmult_lt_reg_r (bpow radix2 (-53))); [exact Q53|]; rewrite P53, <- F; lra).
      apply lt_IZR in K1. assert (K2 : IZR k <= IZR (2 ^ 53 - 1)) by (apply IZR_le; lia). rewrite minus_IZR in K2. change (IZR (2 ^ 53)) with (bpow radix2 53) in K2.
      assert (x <= 1 - bpow radix2 (-53)) by (rewrite F; apply (Rmult_le_compat_r (bpow radix2 (-53))) in K2; lra).
      assert (bpow radix2 (-60) <= bpow radix2 (-53)) by (apply bpow_le; lia). lra. }
    pose proof (bpow_gt_0 radix2 (-60)).
    pose proof (exp_ineq1 (- bpow radix2 (-60)) ltac:(lra)) as X1.
    assert (ln x <= ln (exp (- bpow radix2 (-60)))); [apply ln_mono; lra|]. rewrite ln_exp in *. assumption. }
  assert (B : bpow radix2 (-1022) <= - ln x).
  { apply Rle_trans with (bpow radix2 (-60)); [apply bpow_le; lia|lra]. }
  pose proof (rnd_relative _ B) as R0.
  assert (EO : rnd (- ln x) = - rnd (ln x)) by (unfold rnd; apply round_NE_opp). rewrite EO in R0.
  fold uround. apply Rabs_le. lra.
Qed.

Example C124_correctly_rounded_log : accurate_log (fun x => rnd (ln x)) (/ 2 ^ 53).
Proof. intros x F H. split; [apply rnd_format|apply rnd_ln_relative; assumption]. Qed.

(** Three rows, one with an infinite utility, added from the left after a zero. *)
Example C122_an_observation :
  one_observation (fun k : nat => match k with 0%nat => FNum 1 | 1%nat => FInf true | _ => FNum 1000 end) [0; 1; 2]%nat
    (SPlus (SPlus (SPlus SNothing (STerm 0)) (STerm 1)) (STerm 2)).
Proof.
  split; [apply Permutation_refl|]. split; [cbn; lia|]. intros k _. destruct k as [|[|k]]; discriminate.
Qed.

(** Two observations of two rows each. *)
Example C124_two_observations :
  observations (fun _ => FNum 3) 4 (fun i => (i / 2)%nat)
    (fun o => match o with 0%nat => SPlus (STerm 0) (STerm 1) | _ => SPlus (STerm 3) (STerm 2) end).
Proof.
  intros i Hi. assert (E : (i = 0 \/ i = 1 \/ i = 2 \/ i = 3)%nat) by lia.
  split; [|split; [|intros; discriminate]].
  - destruct E as [-> |[-> |[-> | ->]]]; cbn; try apply Permutation_refl; apply perm_swap.
  - destruct E as [-> |[-> |[-> | ->]]]; cbn; lia.
Qed.

Print Assumptions C122_computed_probabilities_are_numbers_in_the_unit_interval.
Print Assumptions C122_computed_probabilities_are_accurate.
Print Assumptions C122_computed_probabilities_sum_to_one.
Print Assumptions C122_computed_probabilities_follow_the_model.
Print Assumptions C122_refuted_for_many_rows.
Print Assumptions C123_computed_ranking_follows_utilities.
Print Assumptions C123_refuted_computed_ranking.
Print Assumptions C123_refuted_computed_monotonicity.
Print Assumptions C124_computed_log_likelihood_is_accurate.
Print Assumptions C124_computed_log_likelihood_is_finite.
Print Assumptions C124_refuted_log_of_an_unlikely_choice.
