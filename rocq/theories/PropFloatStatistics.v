(** C137: the accuracy of the reported statistics in double precision. *)
From Coq Require Import ZArith Reals Lra Lia List Bool.
From Flocq Require Import Core.
From Verif Require BaseModel Estimation.
From Verif Require Import Floats FloatFacts FloatNear FloatTransforms FloatReport PropFloatTransforms PropFloatUtilities PropFloatAccuracy PropFloatObjective PropFloatReport.
Open Scope R_scope.

#[local] Instance prec_53s : Prec_gt_0 53 := FloatFacts.prec_53.

(** ** Specification *)

(** A computed value is a number within [e] of [x]. *)
Definition within (e : R) (v : fl) (x : R) : Prop := exists r, v = FNum r /\ Rabs (r - x) <= e.

(** ** Facts *)

Lemma tiny_300 : 0 < tiny /\ 10 * tiny <= / 10 ^ 300.
Proof.
  destruct ten_300 as (_ & T). split; [pose proof (bpow_gt_0 radix2 (-1074)); lra|].
  apply Rle_trans with (bpow radix2 (-997)).
  - apply Rle_trans with (bpow radix2 3 * bpow radix2 (-1074)); [cbn [bpow]; change (Z.pow_pos radix2 3) with 8%Z; pose proof (bpow_gt_0 radix2 (-1074)) as P; cbn [bpow] in P; lra|].
    rewrite <- bpow_plus. apply bpow_le. lia.
  - change (-997)%Z with (Z.opp 997). rewrite bpow_opp. apply Rinv_le_contravar; [apply pow_lt; lra|exact T].
Qed.

(** one rounded operation *)
Lemma op_close x B : Rabs x <= B -> B <= 2 ^ 1000 -> overflow (rnd x) = FNum (rnd x) /\ Rabs (rnd x - x) <= uround * B + tiny.
Proof.
  intros H HB. split; [apply (overflow_close x B H HB)|]. eapply Rle_trans; [apply rnd_abs|]. pose proof uround_pos.
  assert (uround * Rabs x <= uround * B) by (apply Rmult_le_compat_l; lra). lra.
Qed.

Lemma abs_diff a b d : Rabs (a - b) <= d -> Rabs a <= Rabs b + d.
Proof. intros H. replace a with ((a - b) + b) by ring. eapply Rle_trans; [apply Rabs_triang|]. lra. Qed.

Lemma u_small : 0 < uround <= / 1000000.
Proof. split; [apply uround_pos|]. pose proof FloatNear.uround_small. assert (/ 2 ^ 50 <= / 1000000) by lra. lra. Qed.

Lemma count_exact k : (Z.of_nat k < 2 ^ 52)%Z -> rnd (INR k) = INR k /\ 0 <= INR k <= 2 ^ 52.
Proof.
  intros H. split; [|split; [apply pos_INR|]].
  - rewrite INR_IZR_INZ. apply rnd_id, small_integer. lia.
  - rewrite INR_IZR_INZ, pow_IZR. apply IZR_le. apply Z.lt_le_incl. exact H.
Qed.

Lemma pow_900 : 1 <= 2 ^ 900 /\ 2 ^ 1000 = 2 ^ 100 * 2 ^ 900 /\ 2 ^ 52 <= 2 ^ 900.
Proof.
  split; [apply pow_R1_Rle; lra|]. split; [rewrite <- pow_add; reflexivity|apply Rle_pow; [lra|lia]].
Qed.

(** ** C137 *)

(** The BIC: [L] is the computed logarithm of the number of observations. *)
Theorem C137_bic :
  forall L el ll nobs k,
  double_format ll -> Rabs ll <= 2 ^ 900 -> (Z.of_nat k < 2 ^ 52)%Z ->
  0 <= el <= 1 -> 0 <= ln (INR nobs) <= 1000 -> Rabs (L - ln (INR nobs)) <= el * ln (INR nobs) ->
  within (/ 2 ^ 53 * (2 * Rabs ll) + (el + 6 * / 2 ^ 53) * (ln (INR nobs) * INR k) + / 10 ^ 300)
    (fbic (FNum L) (FNum ll) k) (BaseModel.compute_bic ll nobs k).
Proof.
  intros L el ll nobs k Fl Bl Hk Hel Hln HL. fold uround. destruct u_small as (U0 & U1). destruct tiny_300 as (T0 & T1).
  destruct pow_900 as (P1 & P2 & P3). destruct (count_exact k Hk) as (Ek & Bk). assert (P100 : 1000000 <= 2 ^ 100) by (apply Rle_trans with (2 ^ 20); [lra|apply Rle_pow; [lra|lia]]).
  assert (BIG : forall x, x <= 100000 * 2 ^ 900 -> x <= 2 ^ 1000).
  { intros x Hx. rewrite P2. eapply Rle_trans; [exact Hx|]. apply Rmult_le_compat_r; lra. }
  unfold fbic, fint, BaseModel.compute_bic. cbn [fmul]. rewrite (rnd_id _ (minus_two_exact ll Fl)), Ek.
  assert (A2 : Rabs (-2 * ll) = 2 * Rabs ll) by (rewrite Rabs_mult, (Rabs_left (-2)) by lra; lra).
  rewrite overflow_num.
  2: { rewrite A2. apply Rle_lt_trans with (2 ^ 1000); [apply BIG; lra|]. rewrite (pow2_bpow 1000). apply bpow_lt. lia. }
  set (l := ln (INR nobs)) in *. set (c := l * INR k). assert (c0 : 0 <= c) by (unfold c; apply Rmult_le_pos; lra).
  assert (D1 : Rabs (L * INR k - c) <= el * c).
  { unfold c. rewrite <- Rmult_minus_distr_r, Rabs_mult, (Rabs_right (INR k)) by lra. rewrite <- Rmult_assoc. apply Rmult_le_compat_r; lra. }
  pose proof (abs_diff _ _ _ D1) as D2. rewrite (Rabs_right c) in D2 by lra.
  assert (EC : el * c <= c) by nra.
  assert (CB : c <= 1000 * 2 ^ 900) by (unfold c; apply Rmult_le_compat; lra).
  destruct (op_close (L * INR k) (2 * c)) as (E3 & D3); [lra|apply BIG; lra|]. rewrite E3. cbn [fadd].
  set (z := rnd (L * INR k)) in *.
  assert (UC : uround * c <= / 1000000 * c) by (apply Rmult_le_compat_r; lra). assert (UC0 : 0 <= uround * c) by (apply Rmult_le_pos; lra).
  assert (ZB : Rabs z <= 3 * c + tiny) by (pose proof (abs_diff _ _ _ D3); lra).
  assert (TS : tiny <= / 1000).
  { assert (/ 10 ^ 300 <= / 1000); [|lra]. apply Rinv_le_contravar; [lra|]. apply Rle_trans with (10 ^ 3); [lra|apply Rle_pow; [lra|lia]]. }
  destruct (op_close (-2 * ll + z) (2 * Rabs ll + (3 * c + tiny))) as (E4 & D4).
  { eapply Rle_trans; [apply Rabs_triang|]. rewrite A2. lra. }
  { apply BIG. pose proof (Rabs_pos ll). lra. }
  exists (rnd (-2 * ll + z)). split; [exact E4|].
  replace (rnd (-2 * ll + z) - (-2 * ll + c)) with ((rnd (-2 * ll + z) - (-2 * ll + z)) + ((z - L * INR k) + (L * INR k - c))) by ring.
  eapply Rle_trans; [apply Rabs_triang|]. eapply Rle_trans; [apply Rplus_le_compat; [exact D4|apply Rabs_triang]|].
  assert (uround * tiny <= tiny) by nra. lra.
Qed.

(** rho-squared and rho-bar-squared, for a null log-likelihood that is not tiny. *)
Theorem C137_rho_squared :
  forall ll null k,
  Rabs ll <= 2 ^ 800 -> / 2 ^ 50 <= Rabs null -> (Z.of_nat k < 2 ^ 52)%Z ->
  let rho := Estimation.calc_rho_and_rho_bar_squared ll null k in
  within (/ 2 ^ 53 * (1 + 3 * (Rabs ll / Rabs null)) + / 10 ^ 300) (frho (FNum ll) (FNum null)) (fst rho) /\
  within (/ 2 ^ 53 * (1 + 6 * ((Rabs ll + INR k) / Rabs null)) + / 10 ^ 200) (frho_bar (FNum ll) (FNum null) k) (snd rho).
Proof.
  intros ll null k Bl Bn Hk rho. fold uround. destruct u_small as (U0 & U1). destruct tiny_300 as (T0 & T1).
  destruct pow_900 as (P1 & P2 & P3). destruct (count_exact k Hk) as (Ek & Bk).
  assert (P100 : 1000000 <= 2 ^ 100) by (apply Rle_trans with (2 ^ 20); [lra|apply Rle_pow; [lra|lia]]).
  assert (BIG : forall x, x <= 100000 * 2 ^ 900 -> x <= 2 ^ 1000).
  { intros x Hx. rewrite P2. eapply Rle_trans; [exact Hx|]. apply Rmult_le_compat_r; lra. }
  assert (I50 : 0 < / 2 ^ 50) by (apply Rinv_0_lt_compat; lra).
  assert (N0 : null <> 0) by (intros ->; rewrite Rabs_R0 in Bn; lra).
  assert (TS : tiny <= / 1000).
  { assert (/ 10 ^ 300 <= / 1000); [|lra]. apply Rinv_le_contravar; [lra|]. apply Rle_trans with (10 ^ 3); [lra|apply Rle_pow; [lra|lia]]. }
  assert (NI : 0 < / Rabs null <= 2 ^ 50).
  { split; [apply Rinv_0_lt_compat; lra|]. rewrite <- (Rinv_inv (2 ^ 50)). apply Rinv_le_contravar; lra. }
  assert (P850 : 2 ^ 800 * 2 ^ 100 = 2 ^ 900) by (rewrite <- pow_add; reflexivity).
  assert (P8 : 2 ^ 52 <= 2 ^ 800) by (apply Rle_pow; [lra|lia]).
  (* a quotient and its distance from one *)
  assert (QUOT : forall a e s B, 0 <= e -> Rabs (a - s) <= e -> Rabs a <= B -> B <= 4 * 2 ^ 800 ->
     within (uround * (1 + 3 * (B / Rabs null)) + e / Rabs null + 4 * tiny) (fsub (FNum 1) (fdiv (FNum a) (FNum null))) (1 - s / null)).
  { intros a e s B e0 He HB HB8. cbn [fdiv]. destruct (Req_EM_T null 0); [contradiction|].
    assert (B0 : 0 <= B) by (pose proof (Rabs_pos a); lra).
    set (b := B / Rabs null). assert (b0 : 0 <= b) by (unfold b, Rdiv; apply Rmult_le_pos; lra).
    assert (QB : Rabs (a / null) <= b).
    { unfold Rdiv, b. rewrite Rabs_mult, Rabs_inv. apply Rmult_le_compat_r; lra. }
    assert (bB : b <= 4 * 2 ^ 900).
    { unfold b, Rdiv. apply Rle_trans with (4 * 2 ^ 800 * 2 ^ 100); [|rewrite Rmult_assoc, P850; lra].
      apply Rmult_le_compat; lra. }
    destruct (op_close (a / null) b QB) as (E1 & D1); [apply BIG; lra|]. rewrite E1. unfold fsub. cbn [fneg fadd].
    set (q := rnd (a / null)) in *.
    assert (UB : 0 <= uround * b <= / 1000000 * b) by (split; [apply Rmult_le_pos; lra|apply Rmult_le_compat_r; lra]).
    assert (q2 : Rabs q <= 2 * b + tiny) by (pose proof (abs_diff _ _ _ D1); lra).
    destruct (op_close (1 + - q) (1 + (2 * b + tiny))) as (E2 & D2).
    { eapply Rle_trans; [apply Rabs_triang|]. rewrite Rabs_R1, Rabs_Ropp. lra. }
    { apply BIG. lra. }
    exists (rnd (1 + - q)). split; [exact E2|].
    assert (D3 : Rabs (a / null - s / null) <= e / Rabs null).
    { replace (a / null - s / null) with ((a - s) / null) by (field; exact N0). unfold Rdiv. rewrite Rabs_mult, Rabs_inv. apply Rmult_le_compat_r; lra. }
    replace (rnd (1 + - q) - (1 - s / null)) with ((rnd (1 + - q) - (1 + - q)) + (- (q - a / null) + - (a / null - s / null))) by ring.
    eapply Rle_trans; [apply Rabs_triang|]. eapply Rle_trans; [apply Rplus_le_compat; [exact D2|apply Rabs_triang]|]. rewrite !Rabs_Ropp.
    assert (uround * tiny <= tiny) by nra. lra. }
  assert (WK : forall e e' v x, e <= e' -> within e v x -> within e' v x) by (intros e e' v x He (r & E & D); exists r; split; [exact E|lra]).
  split.
  - cbn [rho fst Estimation.calc_rho_and_rho_bar_squared]. unfold frho.
    apply (WK (uround * (1 + 3 * (Rabs ll / Rabs null)) + 0 / Rabs null + 4 * tiny)); [lra|].
    apply (QUOT ll 0 ll (Rabs ll)); try lra. rewrite Rminus_eq_0, Rabs_R0. lra.
  - cbn [rho snd Estimation.calc_rho_and_rho_bar_squared]. unfold frho_bar, fint. rewrite Ek. unfold fsub at 2. cbn [fneg fadd].
    set (B := Rabs ll + INR k). pose proof (Rabs_pos ll) as R0. assert (B0 : 0 <= B) by (unfold B; lra).
    destruct (op_close (ll + - INR k) B) as (E1 & D1).
    { eapply Rle_trans; [apply Rabs_triang|]. rewrite Rabs_Ropp, (Rabs_right (INR k)) by lra. unfold B. lra. }
    { apply BIG. assert (2 ^ 800 <= 2 ^ 900) by (apply Rle_pow; [lra|lia]). unfold B. lra. }
    rewrite E1. set (a := rnd (ll + - INR k)) in *.
    assert (UB : 0 <= uround * B <= / 1000000 * B) by (split; [apply Rmult_le_pos; lra|apply Rmult_le_compat_r; lra]).
    assert (AB : Rabs a <= B + (uround * B + tiny)).
    { eapply Rle_trans; [exact (abs_diff _ _ _ D1)|]. apply Rplus_le_compat_r. eapply Rle_trans; [apply Rabs_triang|]. rewrite Rabs_Ropp, (Rabs_right (INR k)) by lra. unfold B. lra. }
    apply (WK (uround * (1 + 3 * ((B + (uround * B + tiny)) / Rabs null)) + (uround * B + tiny) / Rabs null + 4 * tiny)).
    + set (i := / Rabs null) in *. unfold Rdiv. fold i.
      assert (BI : 0 <= B * i) by (apply Rmult_le_pos; lra). assert (UBI : 0 <= uround * (B * i)) by (apply Rmult_le_pos; lra).
      assert (UUBI : uround * (uround * (B * i)) <= / 1000000 * (uround * (B * i))) by (apply Rmult_le_compat_r; lra).
      assert (TI : 10 * (tiny * i) <= / 10 ^ 200 * / 2).
      { apply Rle_trans with (/ 10 ^ 300 * 2 ^ 50); [apply Rle_trans with ((10 * tiny) * i); [lra|apply Rmult_le_compat; lra]|].
        change 300%nat with (200 + 100)%nat. rewrite pow_add, Rinv_mult.
        assert (H1 : 0 < / 10 ^ 200) by (apply Rinv_0_lt_compat, pow_lt; lra).
        assert (H2 : / 10 ^ 100 <= / 10 ^ 20) by (apply Rinv_le_contravar; [lra|apply Rle_pow; [lra|lia]]).
        rewrite Rmult_assoc. apply Rmult_le_compat_l; [lra|]. apply Rle_trans with (/ 10 ^ 20 * 2 ^ 50); [apply Rmult_le_compat_r; lra|]. lra. }
      assert (TI0 : 0 <= tiny * i) by (apply Rmult_le_pos; lra).
      assert (UTI : uround * (tiny * i) <= tiny * i) by nra.
      assert (T2 : 4 * tiny <= / 10 ^ 200 * / 2).
      { apply Rle_trans with (/ 10 ^ 300); [lra|]. change 300%nat with (200 + 100)%nat. rewrite pow_add, Rinv_mult.
        apply Rmult_le_compat_l; [left; apply Rinv_0_lt_compat, pow_lt; lra|]. apply Rinv_le_contravar; [lra|]. apply Rle_trans with (10 ^ 1); [lra|apply Rle_pow; [lra|lia]]. }
      lra.
    + apply (QUOT a (uround * B + tiny) (ll - INR k) (B + (uround * B + tiny))); [lra|exact D1|exact AB|]. unfold B in *. lra.
Qed.

Lemma sqrt_bpow : sqrt (bpow radix2 (-1074)) = bpow radix2 (-537).
Proof. change (-1074)%Z with (-537 + -537)%Z. rewrite bpow_plus. apply sqrt_square. apply bpow_ge_0. Qed.

(** The standard error is the root of the variance up to one relative rounding, for every
    variance that is a double. *)
Theorem C137_standard_error :
  forall v, double_format v -> 0 <= v -> within (/ 2 ^ 53 * sqrt v) (fstd_err (FNum v)) (sqrt v).
Proof.
  intros v F H. fold uround. cbn [fstd_err]. destruct (Rlt_dec v 0); [lra|]. exists (rnd (sqrt v)). split; [reflexivity|].
  destruct H as [H|<-]; [|rewrite sqrt_0, rnd_0, Rminus_0_r, Rabs_R0; lra].
  assert (T : bpow radix2 (-1074) <= v).
  { apply (generic_format_ge_bpow radix2 (FLT_exp (-1074) 53) (-1074)); [|exact H|exact F]. intros e. unfold FLT_exp. lia. }
  assert (S : bpow radix2 (-1022) <= sqrt v).
  { apply Rle_trans with (sqrt (bpow radix2 (-1074))); [rewrite sqrt_bpow; apply bpow_le; lia|apply sqrt_le_1_alt; exact T]. }
  pose proof (rnd_relative _ S) as (A & B). apply Rabs_le. lra.
Qed.

Theorem C137_t_statistic :
  forall p se, Rabs p <= 2 ^ 500 -> / 2 ^ 500 <= se ->
  within (/ 2 ^ 53 * (Rabs p / se) + / 10 ^ 300) (ftvalue (FNum p) (FNum se)) (p / se).
Proof.
  intros p se Hp Hs. fold uround. destruct tiny_300 as (T0 & T1). assert (I0 : 0 < / 2 ^ 500) by (apply Rinv_0_lt_compat, pow_lt; lra).
  unfold ftvalue. cbn [fdiv]. destruct (Req_EM_T se 0); [lra|].
  assert (Q : Rabs (p / se) = Rabs p / se) by (unfold Rdiv; rewrite Rabs_mult, Rabs_inv, (Rabs_right se) by lra; reflexivity).
  destruct (op_close (p / se) (Rabs p / se)) as (E & D); [lra| |].
  - change 1000%nat with (500 + 500)%nat. rewrite pow_add. unfold Rdiv. apply Rmult_le_compat; [apply Rabs_pos|left; apply Rinv_0_lt_compat; lra|exact Hp|].
    rewrite <- (Rinv_inv (2 ^ 500)). apply Rinv_le_contravar; lra.
  - exists (rnd (p / se)). split; [exact E|]. lra.
Qed.

(** The p-value is exactly twice the tail probability. *)
Theorem C137_p_value :
  forall sf x, sane_sf sf -> fpvalue sf (FNum x) = FNum (2 * sf (Rabs x)).
Proof.
  intros sf x (S1 & _). destruct (S1 (Rabs x) (Rabs_pos x)) as (F & B). unfold fpvalue. cbn [fmul].
  assert (F2 : double_format (2 * sf (Rabs x))).
  { replace (2 * sf (Rabs x)) with (- (-2 * sf (Rabs x))) by ring. apply generic_format_opp, minus_two_exact. exact F. }
  rewrite rnd_id by exact F2. apply overflow_num. rewrite Rabs_right by lra. pose proof big_one. lra.
Qed.

(** The ends of a confidence interval with critical value [z]. *)
Theorem C137_confidence_interval :
  forall z p se, Rabs p <= 2 ^ 900 -> Rabs (z * se) <= 2 ^ 900 ->
  let e := / 2 ^ 53 * (Rabs p + 3 * Rabs (z * se)) + / 10 ^ 300 in
  within e (flower (FNum z) (FNum p) (FNum se)) (p - z * se) /\ within e (fupper (FNum z) (FNum p) (FNum se)) (p + z * se).
Proof.
  intros z p se Hp Hz e. unfold e. fold uround. destruct u_small as (U0 & U1). destruct tiny_300 as (T0 & T1). destruct pow_900 as (P1 & P2 & P3).
  assert (P100 : 1000000 <= 2 ^ 100) by (apply Rle_trans with (2 ^ 20); [lra|apply Rle_pow; [lra|lia]]).
  assert (BIG : forall x, x <= 100000 * 2 ^ 900 -> x <= 2 ^ 1000).
  { intros x Hx. rewrite P2. eapply Rle_trans; [exact Hx|]. apply Rmult_le_compat_r; lra. }
  assert (TS : tiny <= / 1000).
  { assert (/ 10 ^ 300 <= / 1000); [|lra]. apply Rinv_le_contravar; [lra|]. apply Rle_trans with (10 ^ 3); [lra|apply Rle_pow; [lra|lia]]. }
  unfold flower, fupper. cbn [fmul]. set (c := Rabs (z * se)) in *. assert (c0 : 0 <= c) by apply Rabs_pos.
  destruct (op_close (z * se) c) as (E1 & D1); [unfold c; lra|apply BIG; lra|]. rewrite E1. set (m := rnd (z * se)) in *.
  assert (UC : 0 <= uround * c <= / 1000000 * c) by (split; [apply Rmult_le_pos; lra|apply Rmult_le_compat_r; lra]).
  assert (MB : Rabs m <= 2 * c + tiny) by (pose proof (abs_diff _ _ _ D1) as A; fold c in A; lra).
  assert (uround * tiny <= tiny) by nra. pose proof (Rabs_pos p).
  unfold fsub. cbn [fneg fadd]. split.
  - destruct (op_close (p + - m) (Rabs p + (2 * c + tiny))) as (E2 & D2); [eapply Rle_trans; [apply Rabs_triang|]; rewrite Rabs_Ropp; lra|apply BIG; lra|].
    exists (rnd (p + - m)). split; [exact E2|]. replace (rnd (p + - m) - (p - z * se)) with ((rnd (p + - m) - (p + - m)) + - (m - z * se)) by ring.
    eapply Rle_trans; [apply Rabs_triang|]. rewrite Rabs_Ropp. lra.
  - destruct (op_close (p + m) (Rabs p + (2 * c + tiny))) as (E2 & D2); [eapply Rle_trans; [apply Rabs_triang|]; lra|apply BIG; lra|].
    exists (rnd (p + m)). split; [exact E2|]. replace (rnd (p + m) - (p + z * se)) with ((rnd (p + m) - (p + m)) + (m - z * se)) by ring.
    eapply Rle_trans; [apply Rabs_triang|]. lra.
Qed.

(** ** Non-vacuity *)

(** 1000 observations, 5 parameters, log-likelihood -500, null log-likelihood -700. *)
Example C137_bic_of_a_model :
  within (/ 10 ^ 10) (fbic (FNum (rnd (ln (INR 1000)))) (FNum (-500)) 5) (1000 + 5 * ln 1000).
Proof.
  assert (E : INR 1000 = 1000) by (rewrite INR_IZR_INZ; reflexivity). rewrite E.
  assert (L : 1 <= ln 1000 <= 1000).
  { split; [rewrite <- (ln_exp 1); apply ln_le_mono; [apply exp_pos|pose proof exp_1_bounds; lra]|].
    rewrite <- (ln_exp 1000) at 2. apply ln_le_mono; [lra|]. pose proof (exp_ge_linear 1000). lra. }
  destruct (C137_bic (rnd (ln 1000)) (/ 2 ^ 53) (-500) 1000 5) as (r & R1 & R2).
  - apply (small_integer (-500)). reflexivity.
  - rewrite Rabs_left by lra. apply Rle_trans with (2 ^ 9); [lra|apply Rle_pow; [lra|lia]].
  - reflexivity.
  - lra.
  - rewrite E. lra.
  - rewrite E. pose proof (rnd_relative (ln 1000)) as R. destruct R as (A & B).
    { apply Rle_trans with 1; [apply (bpow_le radix2 _ 0); lia|lra]. }
    fold uround. apply Rabs_le. lra.
  - exists r. split; [exact R1|]. unfold BaseModel.compute_bic in R2. rewrite E in R2. change (INR 5) with (1 + 1 + 1 + 1 + 1) in R2.
    replace (1000 + 5 * ln 1000) with (-2 * -500 + ln 1000 * (1 + 1 + 1 + 1 + 1)) by ring.
    eapply Rle_trans; [exact R2|]. rewrite (Rabs_left (-500)) by lra.
    assert (/ 10 ^ 300 <= / 10 ^ 20) by (apply Rinv_le_contravar; [lra|apply Rle_pow; [lra|lia]]).
    set (t := / 10 ^ 300) in *. clearbody t. set (l := ln 1000) in *. clearbody l.
    replace (/ 2 ^ 53) with (/ 9007199254740992) by (f_equal; lra). replace (/ 10 ^ 20) with (/ 100000000000000000000) in H by (f_equal; lra).
    replace (/ 10 ^ 10) with (/ 10000000000) by (f_equal; lra). lra.
Qed.

Example C137_rho_of_a_model : within (/ 10 ^ 12) (frho (FNum (-500)) (FNum (-700))) (2 / 7).
Proof.
  destruct (C137_rho_squared (-500) (-700) 5) as ((r & R1 & R2) & _).
  - rewrite Rabs_left by lra. apply Rle_trans with (2 ^ 9); [lra|apply Rle_pow; [lra|lia]].
  - rewrite Rabs_left by lra. lra.
  - reflexivity.
  - exists r. split; [exact R1|]. cbn [fst Estimation.calc_rho_and_rho_bar_squared] in R2. replace (1 - -500 / -700) with (2 / 7) in R2 by lra.
    eapply Rle_trans; [exact R2|]. rewrite (Rabs_left (-500)), (Rabs_left (-700)) by lra.
    assert (/ 10 ^ 300 <= / 10 ^ 20) by (apply Rinv_le_contravar; [lra|apply Rle_pow; [lra|lia]]). replace (- (-500) / - (-700)) with (5 / 7) by (replace (- (-500)) with 500 by lra; replace (- (-700)) with 700 by lra; lra). lra.
Qed.

(** An estimate of 5 with variance 4: t-statistic and interval meet the bounds. *)
Example C137_an_estimate :
  within (/ 10 ^ 12) (fstd_err (FNum 4)) 2 /\ within (/ 10 ^ 12) (ftvalue (FNum 5) (FNum 2)) (5 / 2) /\
  within (/ 10 ^ 12) (flower (FNum 2) (FNum 5) (FNum 2)) 1.
Proof.
  assert (H : / 10 ^ 300 <= / 10 ^ 20) by (apply Rinv_le_contravar; [lra|apply Rle_pow; [lra|lia]]).
  assert (G : 2 ^ 9 <= 2 ^ 500) by (apply Rle_pow; [lra|lia]). assert (G' : 2 ^ 9 <= 2 ^ 900) by (apply Rle_pow; [lra|lia]).
  split; [|split].
  - destruct (C137_standard_error 4) as (r & R1 & R2); [apply (small_integer 4); reflexivity|lra|].
    replace (sqrt 4) with 2 in R2 by (replace 4 with (2 * 2) by lra; rewrite sqrt_square; lra). exists r. split; [exact R1|lra].
  - destruct (C137_t_statistic 5 2) as (r & R1 & R2); [rewrite Rabs_right by lra; lra| |].
    { apply Rle_trans with (/ 1); [apply Rinv_le_contravar; lra|lra]. }
    rewrite (Rabs_right 5) in R2 by lra. exists r. split; [exact R1|lra].
  - destruct (C137_confidence_interval 2 5 2) as ((r & R1 & R2) & _); [rewrite Rabs_right by lra; lra|rewrite Rabs_right by lra; lra|].
    rewrite (Rabs_right 5), (Rabs_right (2 * 2)) in R2 by lra. replace (5 - 2 * 2) with 1 in R2 by lra. exists r. split; [exact R1|lra].
Qed.

Print Assumptions C137_bic.
Print Assumptions C137_rho_squared.
Print Assumptions C137_standard_error.
Print Assumptions C137_t_statistic.
Print Assumptions C137_p_value.
Print Assumptions C137_confidence_interval.
