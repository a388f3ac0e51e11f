(** C134: the derivatives of the transformed utilities for utilities far from zero, where the
    guards replace the formula. *)
From Coq Require Import ZArith Reals Lra Lia List Permutation Bool Arith.
From Flocq Require Import Core.
From Verif Require Import Res Vec Arr ChoiceCalcs NestedCalcs SpecLogit Transforms ChoiceFacts Floats FloatFacts FloatTransforms PropFloatTransforms FloatUtilities FloatLogit FloatNear FloatObjective FloatGradient FloatDerivatives LogitFacts RowDeriv PropFloats PropFloatUtilities PropFloatAccuracy PropFloatLogit PropFloatNested PropFloatObjective PropFloatGradient PropFloatDerivatives PropFloatGuards.
Import ListNotations.
Open Scope R_scope.

#[local] Instance prec_53t : Prec_gt_0 53 := FloatFacts.prec_53.

(** x / (1 - exp(-x)), the factor all the limits come down to *)
Lemma slope_factor x : 0 < x <= / 2 -> 1 <= x * exp x / (exp x - 1) <= 1 + 2 * x.
Proof.
  intros Hx. pose proof (exp_ge_linear x) as L1. pose proof (exp_ge_linear (- x)) as L2. rewrite exp_Ropp in L2. pose proof (exp_below x ltac:(lra)) as U. pose proof (exp_pos x) as E.
  set (e := exp x) in *. assert (D : 0 < e - 1) by lra. 
  assert (e - 1 <= x * e). { assert (e * (1 + - x) <= e * / e) by (apply Rmult_le_compat_l; lra). rewrite Rinv_r in H by lra. lra. }
  split; apply (Rmult_le_reg_r (e - 1)); try lra; unfold Rdiv; rewrite (Rmult_assoc (x * e)), Rinv_l, Rmult_1_r by lra; [lra|].
  apply Rle_trans with (e * (e - 1)); [rewrite (Rmult_comm x); apply Rmult_le_compat_l; lra|apply Rmult_le_compat_r; lra].
Qed.

Lemma log_bounds t : 0 < t -> t / (1 + t) <= ln (1 + t) <= t.
Proof.
  intros Ht. split.
  - pose proof (exp_ge_linear (- ln (1 + t))) as Q. rewrite exp_Ropp, exp_ln in Q by lra. replace (t / (1 + t)) with (1 - / (1 + t)) by (field; lra). lra.
  - rewrite <- (ln_exp t) at 2. apply ln_mono; [lra|]. apply exp_ge_linear.
Qed.

(** exp(-40) is below 2^-57 *)
Lemma exp_m40 x : x <= -40 -> exp x <= bpow radix2 (-57).
Proof.
  intros Hx. eapply Rle_trans; [apply (exp_mono x (- (40))); lra|]. rewrite exp_Ropp, <- (Z.opp_involutive (-57)), bpow_opp. apply Rinv_le_contravar; [apply bpow_gt_0|]. apply bpow_le_exp; [lia|cbn [Z.opp]; lra].
Qed.

(** The exact scobit derivatives for large utilities *)
Lemma scobit_rates_tend_to_one s v : 0 < s -> 40 <= v -> s * exp (- v) <= / 2 ->
  1 - exp (- v) <= scobit_rate s v <= 1 + 2 * (s * exp (- v)) /\ - (1 + 2 * (s * exp (- v))) <= scobit_shape_rate s v <= -1.
Proof.
  intros Hs Hv HX. unfold scobit_rate, scobit_shape_rate. cbv zeta. replace (-1 * v) with (- v) by ring. pose proof (exp_pos (- v)) as T. set (t := exp (- v)) in *.
  destruct (log_bounds t T) as (L1 & L2). assert (L0 : 0 < t / (1 + t)) by (apply Rdiv_lt_0_compat; lra). set (l := ln (1 + t)) in *.
  replace (Rpower (1 + t) (s - 1)) with (Rpower (1 + t) s * / (1 + t)) by (unfold Rminus; rewrite Rpower_plus, Rpower_Ropp, Rpower_1 by lra; reflexivity).
  change (Rpower (1 + t) s) with (exp (s * l)). assert (X0 : 0 < s * l) by (apply Rmult_lt_0_compat; lra). assert (X1 : s * l <= s * t) by (apply Rmult_le_compat_l; lra).
  destruct (slope_factor (s * l) ltac:(lra)) as (F1 & F2). assert (E1 : 1 < exp (s * l)) by (rewrite <- exp_0; apply exp_increasing; exact X0).
  set (P := exp (s * l)) in *. set (F := s * l * P / (P - 1)) in *.
  replace (s * t * (P * / (1 + t)) / (P - 1)) with (F * (t / (1 + t) / l)) by (unfold F; field; lra).
  replace (-1 * l * P / (P - 1) * s) with (- F) by (unfold F; field; lra).
  assert (G1 : t / (1 + t) / l <= 1) by (apply (Rmult_le_reg_r l); [lra|]; unfold Rdiv; rewrite Rmult_assoc, Rinv_l by lra; unfold Rdiv in L1; lra).
  assert (G2 : 1 - t <= t / (1 + t) / l).
  { apply Rle_trans with (t / (1 + t) / t); [|unfold Rdiv at 1 3; apply Rmult_le_compat_l; [left; exact L0|apply Rinv_le_contravar; lra]].
    replace (t / (1 + t) / t) with (/ (1 + t)) by (field; lra). apply (Rmult_le_reg_r (1 + t)); [lra|]. rewrite Rinv_l by lra. nra. }
  set (G := t / (1 + t) / l) in *. assert (t <= 1). { apply Rle_trans with (bpow radix2 (-57)); [apply exp_m40; lra|apply (bpow_le radix2 (-57) 0); lia]. }
  split; [|lra]. split.
  - apply Rle_trans with (1 * (1 - t)); [lra|]. apply Rmult_le_compat; lra.
  - apply Rle_trans with (F * 1); [apply Rmult_le_compat_l; lra|lra].
Qed.

(** Scobit, utilities from 40 on: the derivatives are 1 and -1, and that is right to twelve
    digits for shape parameters between -700 and 10. *)
Theorem C134_scobit_large_utilities :
  forall v b, double_format v -> 40 <= v < bpow radix2 1024 -> double_format b -> -700 <= b <= 10 ->
  fscobit_deriv_v rexp rpow (FNum v) (FNum b) = FNum 1 /\ Rabs (scobit_rate (exp b) v - 1) <= / 2 ^ 40 /\
  fscobit_deriv_shape rexp rlog1p rpow (FNum v) (FNum b) = FNum (-1) /\ Rabs (scobit_shape_rate (exp b) v - (-1)) <= / 2 ^ 40.
Proof.
  intros v b Fv Hv Fb Hb. pose proof (exp_pos (- v)) as T0. pose proof (exp_m40 (- v) ltac:(lra)) as T1. pose proof (exp_pos b) as S0.
  assert (b57 : bpow radix2 (-57) = / 32 * bpow radix2 (-52)) by (change (-57)%Z with (-5 + -52)%Z; rewrite bpow_plus; f_equal; cbn; lra).
  assert (b8 : bpow radix2 (-52) <= 1) by (apply (bpow_le radix2 (-52) 0); lia).
  assert (ST : exp b * exp (- v) <= bpow radix2 (-42)).
  { apply Rle_trans with (bpow radix2 15 * bpow radix2 (-57)); [|rewrite <- bpow_plus; right; reflexivity]. apply Rmult_le_compat; [lra|lra| |exact T1].
    eapply Rle_trans; [apply (exp_mono b 10); lra|]. apply exp_le_bpow; [lia|lra]. }
  assert (b42 : bpow radix2 (-42) = / 4 * / 2 ^ 40) by (rewrite (pow2_bpow 40), <- bpow_opp; change (-42)%Z with (-2 + -40)%Z; rewrite bpow_plus; f_equal; cbn; lra).
  assert (I40 : 0 < / 2 ^ 40 <= 1) by (split; [apply Rinv_0_lt_compat, pow_lt; lra|rewrite <- Rinv_1; apply Rinv_le_contravar; [lra|apply pow_R1_Rle; lra]]).
  assert (T40 : exp (- v) <= / 2 ^ 40) by (eapply Rle_trans; [exact T1|]; rewrite (pow2_bpow 40), <- bpow_opp; apply bpow_le; cbn; lia).
  destruct (scobit_rates_tend_to_one (exp b) v S0 ltac:(lra) ltac:(lra)) as ((R1 & R2) & (R3 & R4)).
  assert (BV : Rabs v < bpow radix2 1024) by (rewrite Rabs_right; lra).
  assert (EN : exists e, fexp rexp (fmul (FNum (-1)) (FNum v)) = FNum e /\ 0 <= e <= bpow radix2 (-57)).
  { rewrite (finite_opp v (conj Fv BV)). cbn [fexp]. assert (R : 0 <= rexp (- v) <= bpow radix2 (-57)).
    { unfold rexp. rewrite <- rnd_0 at 1. rewrite <- (rnd_id (bpow radix2 (-57))) by (apply generic_format_bpow; cbv; discriminate). split; apply rnd_le; lra. }
    exists (rexp (- v)). split; [apply overflow_num; rewrite Rabs_right by lra; apply big_gt; lra|exact R]. }
  destruct EN as (e & EE & He).
  assert (A1 : fadd (FNum 1) (FNum e) = FNum 1) by (cbn [fadd]; rewrite rnd_near_one by lra; apply overflow_1).
  assert (E53 := small53). destruct (exp_num rexp _ b C122_correctly_rounded_exp E53 ltac:(lra)) as (Es & Fs & Bs & As).
  assert (ES : fnatural_shape rexp (FNum b) = FNum (rexp b)) by (unfold fnatural_shape; rewrite Es; reflexivity).
  assert (PW : forall x, fpow rpow (FNum 1) (FNum x) = FNum 1) by (intros x; cbn [fpow]; unfold rpow, Rpower; rewrite ln_1, Rmult_0_r, exp_0, rnd_1; apply overflow_1).
  assert (Z : fsub (FNum 1) (FNum 1) = FNum 0) by (cbn; replace (1 + - (1)) with 0 by ring; rewrite rnd_0; apply overflow_num; rewrite Rabs_R0; apply bpow_gt_0).
  assert (IZ : is_zero (FNum 0) = true) by (cbn; destruct (Req_EM_T 0 0); [reflexivity|lra]).
  split; [|split; [|split]].
  - unfold fscobit_deriv_v. cbv zeta. rewrite ES, EE, A1, PW, Z, IZ, orb_true_r. reflexivity.
  - apply Rabs_le. lra.
  - unfold fscobit_deriv_shape. cbv zeta. rewrite ES, EE, A1, PW, Z, IZ. cbn [is_posinf]. rewrite andb_false_r. reflexivity.
  - apply Rabs_le. lra.
Qed.

(** Scobit, utilities below -712 (where exp(-V) overflows): the derivative in the utility is the
    natural shape as computed, and that is right to twelve digits for shape parameters
    from -3 on. *)
Theorem C134_scobit_low_utilities :
  forall v b, double_format v -> - bpow radix2 1024 < v <= -712 -> double_format b -> -3 <= b <= 700 ->
  fscobit_deriv_v rexp rpow (FNum v) (FNum b) = FNum (rexp b) /\ Rabs (rexp b - exp b) <= / 2 ^ 53 * exp b /\
  Rabs (scobit_rate (exp b) v - exp b) <= / 2 ^ 40 * exp b.
Proof.
  intros v b Fv Hv Fb Hb. pose proof (exp_pos b) as S0. assert (BV : Rabs v < bpow radix2 1024) by (rewrite Rabs_left; lra).
  assert (E53 := small53). destruct (exp_num rexp _ b C122_correctly_rounded_exp E53 ltac:(lra)) as (Es & Fs & Bs & As).
  assert (ES : fnatural_shape rexp (FNum b) = FNum (rexp b)) by (unfold fnatural_shape; rewrite Es; reflexivity).
  pose proof As as As'. apply Rabs_le_inv in As'. assert (/ 2 ^ 53 * exp b <= / 2 * exp b) by (apply Rmult_le_compat_r; [lra|]; apply Rinv_le_contravar; [lra|]; rewrite <- (pow_1 2) at 1; apply Rle_pow; [lra|lia]).
  assert (EE : fexp rexp (fmul (FNum (-1)) (FNum v)) = FInf false).
  { rewrite (finite_opp v (conj Fv BV)). cbn [fexp]. unfold rexp. apply rnd_overflow. apply exp_mono. lra. }
  split; [|split; [exact As|]].
  - unfold fscobit_deriv_v. cbv zeta. rewrite ES, EE. cbn [fadd fpow is_posinf is_zero]. destruct (Rlt_dec 0 (rexp b)) as [_|N]; [|lra]. cbn [fsub fneg fadd is_zero is_posinf].
    rewrite !orb_true_r. reflexivity.
  - unfold scobit_rate. replace (-1 * v) with (- v) by ring. set (s := exp b) in *. 
    assert (T : bpow radix2 50 <= exp (- v)) by (eapply Rle_trans; [|apply (exp_mono 712); lra]; apply bpow_le_exp; [lia|lra]).
    assert (L : 712 <= ln (1 + exp (- v))) by (rewrite <- (ln_exp 712); apply ln_mono; [apply exp_pos|]; pose proof (exp_mono 712 (- v) ltac:(lra)); lra).
    set (t := exp (- v)) in *. set (l := ln (1 + t)) in *. pose proof (bpow_gt_0 radix2 50) as B50.
    assert (I50 : / bpow radix2 50 = / 1024 * / 2 ^ 40) by (rewrite (pow2_bpow 40), <- !bpow_opp; change (Z.opp 50) with (-10 + -40)%Z; rewrite bpow_plus; f_equal; cbn; lra).
    assert (B50' : 2 <= bpow radix2 50) by (apply (bpow_le radix2 1 50); lia).
    assert (S : / 21 <= s).
    { unfold s. eapply Rle_trans; [|apply (exp_mono (- (3))); lra]. rewrite exp_Ropp. apply Rinv_le_contravar; [apply exp_pos|]. replace (exp 3) with (exp 1 * exp 1 * exp 1) by (rewrite <- !exp_plus; f_equal; lra).
      destruct exp_1_sharp. set (e1 := exp 1) in *. assert (e1 * e1 <= 74 / 10) by nra. nra. }
    replace (Rpower (1 + t) (s - 1)) with (Rpower (1 + t) s * / (1 + t)) by (unfold Rminus; rewrite Rpower_plus, Rpower_Ropp, Rpower_1 by lra; reflexivity).
    change (Rpower (1 + t) s) with (exp (s * l)). assert (P : bpow radix2 48 <= exp (s * l)).
    { apply bpow_le_exp; [lia|]. apply Rle_trans with (/ 21 * 712); [lra|apply Rmult_le_compat; lra]. }
    assert (B48 : 4 * bpow radix2 48 = bpow radix2 50) by (change 50%Z with (2 + 48)%Z; rewrite bpow_plus; reflexivity).
    set (P' := exp (s * l)) in *. set (B := bpow radix2 48) in *. assert (BB : 2 <= B) by (apply (bpow_le radix2 1 48); lia).
    replace (s * t * (P' * / (1 + t)) / (P' - 1) - s) with (s * ((/ (P' - 1)) * (t / (1 + t)) - / (1 + t))) by (field; lra).
    rewrite Rabs_mult, (Rabs_right s) by lra. rewrite (Rmult_comm s). apply Rmult_le_compat_r; [lra|].
    assert (J1 : 0 < / (P' - 1) <= 8 * / bpow radix2 50).
    { split; [apply Rinv_0_lt_compat; lra|]. rewrite <- B48. replace (8 * / (4 * B)) with (/ (B / 2)) by (field; lra). apply Rinv_le_contravar; lra. }
    assert (J2 : 0 < / (1 + t) <= / bpow radix2 50) by (split; [apply Rinv_0_lt_compat; lra|apply Rinv_le_contravar; lra]).
    assert (J3 : 0 <= t / (1 + t) <= 1) by (replace (t / (1 + t)) with (1 - / (1 + t)) by (field; lra); split; [assert (/ bpow radix2 50 <= / 2) by (apply Rinv_le_contravar; lra); lra|lra]).
    assert (I0 : 0 < / bpow radix2 50) by (apply Rinv_0_lt_compat; lra).
    assert (J4 : 0 <= / (P' - 1) * (t / (1 + t)) <= 8 * / bpow radix2 50) by (split; [apply Rmult_le_pos; lra|]; rewrite <- (Rmult_1_r (8 * / bpow radix2 50)); apply Rmult_le_compat; lra).
    apply Rabs_le. lra.
Qed.

Lemma rnd_below_one y : 1 - bpow radix2 (-55) <= y <= 1 -> rnd y = 1.
Proof.
  intros H. apply Rle_antisym; [rewrite <- rnd_1; apply rnd_le; lra|]. unfold rnd.
  apply round_N_ge_midp; [apply FLT_exp_valid; exact prec_53t|apply (generic_format_bpow radix2 (FLT_exp (-1074) 53) 0); cbv; discriminate|].
  change 1 with (bpow radix2 0). rewrite pred_bpow. change (FLT_exp (-1074) 53 0) with (-53)%Z. change (bpow radix2 0) with 1.
  assert (bpow radix2 (-53) = 4 * bpow radix2 (-55)) by (change (-53)%Z with (2 + -55)%Z; rewrite bpow_plus; reflexivity). pose proof (bpow_gt_0 radix2 (-55)). lra.
Qed.

(** Clog-log, utilities from -40 down: the derivative is 1, right to twelve digits. *)
Theorem C134_clog_low_utilities :
  forall v, double_format v -> - bpow radix2 1024 < v <= -40 ->
  fcloglog_deriv rexp (FNum v) = FNum 1 /\ Rabs (clog_rate v - 1) <= / 2 ^ 40.
Proof.
  intros v Fv Hv. pose proof (exp_m40 v ltac:(lra)) as T1. pose proof (exp_pos v) as T0.
  assert (B55 : bpow radix2 (-55) = 4 * bpow radix2 (-57)) by (change (-55)%Z with (2 + -57)%Z; rewrite bpow_plus; reflexivity).
  assert (B57 : bpow radix2 (-57) <= / 8 * / 2 ^ 40).
  { rewrite (pow2_bpow 40), <- bpow_opp. replace (/ 8 * bpow radix2 (- Z.of_nat 40)) with (bpow radix2 (-43)) by (change (-43)%Z with (-3 + -40)%Z; rewrite bpow_plus; f_equal; cbn; lra). apply bpow_le. lia. }
  assert (I40 : 0 < / 2 ^ 40 <= 1) by (split; [apply Rinv_0_lt_compat, pow_lt; lra|rewrite <- Rinv_1; apply Rinv_le_contravar; [lra|apply pow_R1_Rle; lra]]).
  split.
  - assert (R : 0 <= rexp v <= bpow radix2 (-57)).
    { unfold rexp. rewrite <- rnd_0 at 1. rewrite <- (rnd_id (bpow radix2 (-57))) by (apply generic_format_bpow; cbv; discriminate). split; apply rnd_le; lra. }
    assert (E1 : fexp rexp (FNum v) = FNum (rexp v)) by (cbn [fexp]; apply overflow_num; rewrite Rabs_right by lra; apply big_gt; lra).
    assert (E2 : fmul (FNum (-1)) (FNum (rexp v)) = FNum (- rexp v)) by (apply finite_opp; split; [apply rnd_format|rewrite Rabs_right by lra; apply big_gt; lra]).
    assert (E3 : fexp rexp (FNum (- rexp v)) = FNum 1).
    { cbn [fexp]. unfold rexp at 1. rewrite rnd_below_one; [apply overflow_1|]. split; [pose proof (exp_ge_linear (- rexp v)); lra|]. rewrite <- exp_0. apply exp_mono. lra. }
    assert (Z : fsub (FNum 1) (FNum 1) = FNum 0) by (cbn; replace (1 + - (1)) with 0 by ring; rewrite rnd_0; apply overflow_num; rewrite Rabs_R0; apply bpow_gt_0).
    assert (IZ : is_zero (FNum 0) = true) by (cbn; destruct (Req_EM_T 0 0); [reflexivity|lra]).
    unfold fcloglog_deriv. cbv zeta. rewrite E1, E2, E3, Z, IZ. reflexivity.
  - unfold clog_rate. set (x := exp v) in *. replace (exp (-1 * v)) with (/ x) by (unfold x; rewrite <- exp_Ropp; f_equal; ring). replace (-1 * x) with (- x) by ring. rewrite exp_Ropp.
    destruct (slope_factor x ltac:(lra)) as (F1 & F2). pose proof (exp_ge_linear x). 
    replace (1 / ((1 - / exp x) * / x)) with (x * exp x / (exp x - 1)) by (field; lra). apply Rabs_le. lra.
Qed.

(** Clog-log, utilities from 40 to 690: the derivative is right to twelve digits although the
    exponential of the exponential underflows. *)
Theorem C134_clog_large_utilities :
  forall v, double_format v -> 40 <= v <= 690 ->
  exists z, fcloglog_deriv rexp (FNum v) = FNum z /\ Rabs (z - clog_rate v) <= / 2 ^ 40 * clog_rate v.
Proof.
  intros v Fv Hv. assert (E53 := small53). pose proof inv_2_40 as T40.
  destruct (exp_num rexp _ v C122_correctly_rounded_exp E53 ltac:(lra)) as (E1 & F1 & B1 & A1). apply Rabs_le_inv in A1.
  destruct (exp_num rexp _ (- v) C122_correctly_rounded_exp E53 ltac:(lra)) as (E2 & F2 & B2 & A2). apply Rabs_le_inv in A2.
  assert (X57 : bpow radix2 57 <= exp v) by (eapply Rle_trans; [|apply (exp_mono 40); lra]; apply bpow_le_exp; [lia|lra]).
  assert (B56 : bpow radix2 57 = 2 * bpow radix2 56) by (change 57%Z with (1 + 56)%Z; rewrite bpow_plus; reflexivity). pose proof (bpow_gt_0 radix2 56) as P56.
  pose proof (exp_pos v) as PV. pose proof (exp_pos (- v)) as PN. assert (/ 2 ^ 53 * exp v <= / 2 * exp v) by (apply Rmult_le_compat_r; lra).
  set (y := exp (- rexp v)). assert (Y : 0 < y <= bpow radix2 (-57)).
  { split; [apply exp_pos|]. apply exp_m40. assert (40 <= bpow radix2 56) by (apply Rle_trans with (bpow radix2 6); [cbn; lra|apply bpow_le; lia]). lra. }
  assert (D : fsub (FNum 1) (fexp rexp (fmul (FNum (-1)) (fexp rexp (FNum v)))) = FNum 1).
  { assert (BE : Rabs (rexp v) < bpow radix2 1024) by (rewrite Rabs_right; lra). rewrite E1, (finite_opp _ (conj F1 BE)). cbn [fexp]. assert (R : 0 <= rexp (- rexp v) <= bpow radix2 (-57)).
    { unfold rexp at 1 3. fold y. rewrite <- rnd_0 at 1. rewrite <- (rnd_id (bpow radix2 (-57))) by (apply generic_format_bpow; cbv; discriminate). split; apply rnd_le; lra. }
    assert (bpow radix2 (-57) <= bpow radix2 (-55) <= 1) by (split; [apply bpow_le; lia|apply (bpow_le radix2 (-55) 0); lia]).
    rewrite overflow_num by (rewrite Rabs_right by lra; apply big_gt; lra). cbn [fsub fneg fadd]. rewrite rnd_below_one by lra. apply overflow_1. }
  set (n := rexp (- v)) in *. assert (N : (1 - / 2 ^ 53) * exp (- v) <= n <= (1 + / 2 ^ 53) * exp (- v)) by lra.
  assert (I53 : 0 < / 2 ^ 53 <= / 8 * / 2 ^ 40).
  { split; [apply Rinv_0_lt_compat, pow_lt; lra|]. rewrite <- Rinv_mult. apply Rinv_le_contravar; [apply Rmult_lt_0_compat; [lra|apply pow_lt; lra]|]. replace (8 * 2 ^ 40) with (2 ^ 43) by ring. apply Rle_pow; [lra|lia]. }
  set (u := / 2 ^ 53) in *. set (k := / 2 ^ 40) in *.
  assert (XN : exp (- v) = / exp v) by apply exp_Ropp. set (x := exp v) in *. rewrite XN in N. pose proof (Rinv_0_lt_compat x PV) as IX.
  assert (Q : (1 - 2 * u) * x <= 1 / n <= (1 + 2 * u) * x).
  { unfold Rdiv. rewrite Rmult_1_l. split.
    - apply Rle_trans with (/ ((1 + u) * / x)); [|apply Rinv_le_contravar; [lra|lra]]. rewrite Rinv_mult, Rinv_inv. apply Rmult_le_compat_r; [lra|]. apply (Rmult_le_reg_r (1 + u)); [lra|]. rewrite Rinv_l by lra. nra.
    - apply Rle_trans with (/ ((1 - u) * / x)); [apply Rinv_le_contravar; [apply Rmult_lt_0_compat; lra|lra]|]. rewrite Rinv_mult, Rinv_inv. apply Rmult_le_compat_r; [lra|]. apply (Rmult_le_reg_r (1 - u)); [lra|]. rewrite Rinv_l by lra. nra. }
  assert (Xhi : x <= bpow radix2 996) by (eapply Rle_trans; [apply (exp_mono v 690); lra|]; apply exp_le_bpow; [lia|lra]).
  assert (B996 : 2 * bpow radix2 996 = bpow radix2 997) by (change 997%Z with (1 + 996)%Z; rewrite bpow_plus; reflexivity).
  assert (G : (1 - uround) * (1 / n) <= rnd (1 / n) <= (1 + uround) * (1 / n)).
  { apply rnd_relative. apply Rle_trans with 1; [apply (bpow_le radix2 (-1022) 0); lia|]. assert (1 <= bpow radix2 56) by (apply (bpow_le radix2 0 56); lia). assert (1 / 2 * x <= (1 - 2 * u) * x) by (apply Rmult_le_compat_r; lra). lra. }
  assert (UU : uround = u) by (unfold uround, u; rewrite (pow2_bpow 53), <- bpow_opp; reflexivity). rewrite UU in G. set (q := 1 / n) in *. set (z := rnd q) in *.
  assert (Zb : (1 - 4 * u) * x <= z <= (1 + 4 * u) * x).
  { split.
    - apply Rle_trans with ((1 - u) * ((1 - 2 * u) * x)); [rewrite <- Rmult_assoc; apply Rmult_le_compat_r; [lra|nra]|]. eapply Rle_trans; [apply Rmult_le_compat_l; [lra|apply Q]|apply G].
    - apply Rle_trans with ((1 + u) * ((1 + 2 * u) * x)); [eapply Rle_trans; [apply G|apply Rmult_le_compat_l; [lra|apply Q]]|]. rewrite <- Rmult_assoc. apply Rmult_le_compat_r; [lra|nra]. }
  exists z. split.
  - unfold fcloglog_deriv. cbv zeta. rewrite D. rewrite (minus_exact v Fv) by (rewrite Rabs_right; lra). rewrite E2. fold n. cbn [on_posinf].
    assert (Z0 : forall r, r <> 0 -> is_zero (FNum r) = false) by (intros r Hr; cbn; destruct (Req_EM_T r 0); [contradiction|reflexivity]). rewrite (Z0 n), (Z0 1) by lra.
    assert (EM : fmul (FNum 1) (FNum n) = FNum n) by (cbn [fmul]; rewrite Rmult_1_l, rnd_id by exact F2; apply overflow_num; rewrite Rabs_right; lra). rewrite EM.
    cbn [fdiv]. destruct (Req_EM_T n 0); [lra|]. fold q z. rewrite overflow_num; [reflexivity|]. 
    assert (0 <= (1 - 4 * u) * x) by (apply Rmult_le_pos; lra). rewrite Rabs_right by lra. apply Rle_lt_trans with (bpow radix2 997); [|apply bpow_lt; lia].
    assert ((1 + 4 * u) * x <= 2 * x) by (apply Rmult_le_compat_r; lra). lra.
  - unfold clog_rate. fold x. replace (exp (-1 * v)) with (/ x) by (unfold x; rewrite <- exp_Ropp; f_equal; ring). replace (-1 * x) with (- x) by ring. 
    assert (W : 0 < exp (- x) <= u).
    { split; [apply exp_pos|]. eapply Rle_trans; [apply exp_m40|unfold u; rewrite (pow2_bpow 53), <- bpow_opp; apply bpow_le; lia]. assert (40 <= bpow radix2 56) by (apply Rle_trans with (bpow radix2 6); [cbn; lra|apply bpow_le; lia]). lra. }
    set (w := exp (- x)) in *. replace (1 / ((1 - w) * / x)) with (x * / (1 - w)) by (field; lra).
    assert (W2 : 1 <= / (1 - w) <= 1 + 2 * u). { split; [rewrite <- Rinv_1 at 1; apply Rinv_le_contravar; lra|]. apply (Rmult_le_reg_r (1 - w)); [lra|]. rewrite Rinv_l by lra. nra. }
    set (g := / (1 - w)) in *. assert (XG : x * 1 <= x * g <= x * (1 + 2 * u)) by (split; apply Rmult_le_compat_l; lra).
    assert (KX : 8 * u * x <= k * (x * g)) by (apply Rle_trans with (k * x); [apply Rmult_le_compat_r; lra|apply Rmult_le_compat_l; lra]). apply Rabs_le. lra.
Qed.

(** The product of a finite utility with a shape of at least one, as an exponent *)
Lemma shape_exponent s v : double_format s -> 1 <= s < bpow radix2 1024 -> double_format v -> 40 <= Rabs v < bpow radix2 1024 ->
  (0 < v -> fexp rexp (fmul (FNum s) (FNum v)) = FInf false \/ exists e, fexp rexp (fmul (FNum s) (FNum v)) = FNum e /\ double_format e /\ bpow radix2 57 <= e < bpow radix2 1024) /\
  (v < 0 -> exists e, fexp rexp (fmul (FNum s) (FNum v)) = FNum e /\ double_format e /\ 0 <= e <= bpow radix2 (-57)).
Proof.
  intros Fs Hs Fv Hv. cbn [fmul]. split; intros S.
  - rewrite Rabs_right in Hv by lra. assert (M : 40 <= rnd (s * v)).
    { rewrite <- (rnd_id 40) by (apply small_integer; reflexivity). apply rnd_le. rewrite <- (Rmult_1_l 40). apply Rmult_le_compat; lra. }
    destruct (overflow_cases (rnd (s * v))) as [(-> & _)|(([|] & E) & _)].
    + cbn [fexp]. assert (X : bpow radix2 57 <= rexp (rnd (s * v))).
      { unfold rexp. rewrite <- (rnd_id (bpow radix2 57)) by (apply generic_format_bpow; cbv; discriminate). apply rnd_le. eapply Rle_trans; [|apply (exp_mono 40); exact M]. apply bpow_le_exp; [lia|lra]. }
      pose proof (bpow_gt_0 radix2 57). destruct (overflow_cases (rexp (rnd (s * v)))) as [(-> & B)|(([|] & E) & _)].
      * right. eexists. split; [reflexivity|]. split; [apply rnd_format|]. rewrite Rabs_right in B by lra. split; assumption.
      * exfalso. unfold overflow in E. destruct (Rle_dec _ _); [|discriminate]. destruct (Rlt_dec _ 0); [lra|discriminate].
      * left. exact E.
    + exfalso. unfold overflow in E. destruct (Rle_dec _ _); [|discriminate]. destruct (Rlt_dec _ 0); [lra|discriminate].
    + rewrite E. left. reflexivity.
  - rewrite Rabs_left in Hv by lra. assert (M : rnd (s * v) <= -40).
    { rewrite <- (rnd_id (-40)) by (apply small_integer; reflexivity). apply rnd_le. assert (1 * 40 <= s * - v) by (apply Rmult_le_compat; lra). lra. }
    destruct (overflow_cases (rnd (s * v))) as [(-> & _)|(([|] & E) & _)].
    + cbn [fexp]. assert (X : 0 <= rexp (rnd (s * v)) <= bpow radix2 (-57)).
      { unfold rexp. rewrite <- rnd_0 at 1. rewrite <- (rnd_id (bpow radix2 (-57))) by (apply generic_format_bpow; cbv; discriminate). split; apply rnd_le; [left; apply exp_pos|apply exp_m40; exact M]. }
      exists (rexp (rnd (s * v))). split; [|split; [apply rnd_format|exact X]]. apply overflow_num. rewrite Rabs_right by lra. apply big_gt. assert (bpow radix2 (-57) <= 1) by (apply (bpow_le radix2 (-57) 0); lia). lra.
    + rewrite E. exists 0. split; [reflexivity|]. split; [apply generic_format_0|]. pose proof (bpow_gt_0 radix2 (-57)). lra.
    + exfalso. unfold overflow in E. destruct (Rle_dec _ _); [|discriminate]. destruct (Rlt_dec _ 0); [discriminate|lra].
Qed.

(** 1 / (1 + e) for a large or a small e *)
Lemma quotient_small s e : double_format s -> 0 <= s <= bpow radix2 15 -> double_format e -> bpow radix2 57 <= e < bpow radix2 1024 ->
  exists q, fdiv (FNum s) (fadd (FNum 1) (FNum e)) = FNum q /\ double_format q /\ 0 <= q <= bpow radix2 (-42).
Proof.
  intros Fs Hs Fe He. pose proof (bpow_gt_0 radix2 57) as P. destruct (add_one_finite e 1 Fe ltac:(lra) ltac:(lra)) as (d & Ed). rewrite Ed.
  assert (D : bpow radix2 57 <= d).
  { cbn [fadd] in Ed. unfold overflow in Ed. destruct (Rle_dec _ _); [discriminate|]. injection Ed as <-. eapply Rle_trans; [apply He|]. rewrite <- (rnd_id e Fe) at 1. apply rnd_le. lra. }
  cbn [fdiv]. destruct (Req_EM_T d 0); [lra|]. assert (Q : 0 <= rnd (s / d) <= bpow radix2 (-42)).
  { rewrite <- rnd_0 at 1. rewrite <- (rnd_id (bpow radix2 (-42))) by (apply generic_format_bpow; cbv; discriminate). split; apply rnd_le.
    - apply Rmult_le_pos; [lra|left; apply Rinv_0_lt_compat; lra].
    - apply Rle_trans with (bpow radix2 15 * / bpow radix2 57); [apply Rmult_le_compat; [lra|left; apply Rinv_0_lt_compat; lra|lra|apply Rinv_le_contravar; lra]|]. rewrite <- bpow_opp, <- bpow_plus. right. reflexivity. }
  exists (rnd (s / d)). split; [|split; [apply rnd_format|exact Q]]. apply overflow_num. rewrite Rabs_right by lra. apply big_gt. assert (bpow radix2 (-42) <= 1) by (apply (bpow_le radix2 (-42) 0); lia). lra.
Qed.
Lemma quotient_same s e : double_format s -> 0 <= s < bpow radix2 1024 -> 0 <= e <= bpow radix2 (-57) -> fdiv (FNum s) (fadd (FNum 1) (FNum e)) = FNum s.
Proof.
  intros Fs Hs He. assert (bpow radix2 (-57) = / 32 * bpow radix2 (-52)) by (change (-57)%Z with (-5 + -52)%Z; rewrite bpow_plus; f_equal; cbn; lra). pose proof (bpow_gt_0 radix2 (-52)).
  cbn [fadd]. rewrite rnd_near_one by lra. rewrite overflow_1. cbn [fdiv]. destruct (Req_EM_T 1 0); [lra|]. unfold Rdiv. rewrite Rinv_1, Rmult_1_r, rnd_id by exact Fs. apply overflow_num. rewrite Rabs_right; lra.
Qed.

(** Uneven, utilities 40 or more from zero, up to the end of the range of doubles: the derivative
    in the utility is right to twelve digits for shape parameters between 0 and 10. *)
Theorem C134_uneven_extreme_utilities :
  forall v b, double_format v -> 40 <= Rabs v < bpow radix2 1024 -> double_format b -> 0 <= b <= 10 ->
  exists z, funeven_deriv_v rexp (FNum v) (FNum b) = FNum z /\ Rabs (z - uneven_rate (exp b) v) <= / 2 ^ 40 * exp b.
Proof.
  intros v b Fv Hv Fb Hb. assert (E53 := small53). pose proof inv_2_40 as T40.
  destruct (exp_num rexp _ b C122_correctly_rounded_exp E53 ltac:(lra)) as (Es & Fs & Bs & As). apply Rabs_le_inv in As.
  assert (ES : fnatural_shape rexp (FNum b) = FNum (rexp b)) by (unfold fnatural_shape; rewrite Es; reflexivity).
  assert (S1 : 1 <= exp b <= bpow radix2 15) by (split; [rewrite <- exp_0; apply exp_mono; lra|]; eapply Rle_trans; [apply (exp_mono b 10); lra|]; apply exp_le_bpow; [lia|lra]).
  assert (R1 : 1 <= rexp b <= bpow radix2 15).
  { unfold rexp. rewrite <- rnd_1 at 1. rewrite <- (rnd_id (bpow radix2 15)) by (apply generic_format_bpow; cbv; discriminate). split; apply rnd_le; lra. }
  assert (I53 : 0 < / 2 ^ 53 <= / 16 * / 2 ^ 40).
  { split; [apply Rinv_0_lt_compat, pow_lt; lra|]. rewrite <- Rinv_mult. apply Rinv_le_contravar; [apply Rmult_lt_0_compat; [lra|apply pow_lt; lra]|]. replace (16 * 2 ^ 40) with (2 ^ 44) by ring. apply Rle_pow; [lra|lia]. }
  assert (b42 : bpow radix2 (-42) = / 4 * / 2 ^ 40) by (rewrite (pow2_bpow 40), <- bpow_opp; change (-42)%Z with (-2 + -40)%Z; rewrite bpow_plus; f_equal; cbn; lra).
  assert (b57 : bpow radix2 (-57) <= / 16 * / 2 ^ 40).
  { eapply Rle_trans; [|apply I53]. rewrite (pow2_bpow 53), <- bpow_opp. apply bpow_le. lia. }
  destruct (shape_exponent (rexp b) v Fs ltac:(lra) Fv Hv) as (XP & XN).
  destruct (shape_exponent 1 (- v) (ltac:(apply small_integer; reflexivity)) ltac:(split; [lra|apply big_gt; lra]) (generic_format_opp _ _ _ Fv) ltac:(rewrite Rabs_Ropp; exact Hv)) as (YP & YN).
  assert (EM : fmul (FNum 1) (FNum (- v)) = fmul (FNum (-1)) (FNum v)) by (cbn [fmul]; f_equal; f_equal; ring). rewrite EM in YP, YN. clear EM.
  assert (F1 : double_format 1) by (apply small_integer; reflexivity). assert (B15 : 1 <= bpow radix2 15) by lra. assert (B1024 : bpow radix2 15 < bpow radix2 1024) by (apply bpow_lt; lia). pose proof (bpow_gt_0 radix2 57) as P57.
  unfold funeven_deriv_v. cbv zeta. rewrite ES. set (s := rexp b) in *. set (k := / 2 ^ 40) in *. set (u := / 2 ^ 53) in *. set (s0 := exp b) in *.
  assert (US : u * s0 <= / 16 * k * s0) by (apply Rmult_le_compat_r; lra). assert (KS : k * 1 <= k * s0) by (apply Rmult_le_compat_l; lra).
  unfold uneven_rate. replace (-1 * v) with (- v) by ring. 
  destruct (Rle_lt_dec 0 v) as [Sg|Sg].
  - rewrite Rabs_right in Hv by lra. destruct (YN ltac:(lra)) as (e & -> & Fe & He). rewrite (quotient_same 1 e F1 ltac:(lra) He).
    assert (Q : exists q, fdiv (FNum s) (fadd (FNum 1) (fexp rexp (fmul (FNum s) (FNum v)))) = FNum q /\ double_format q /\ 0 <= q <= bpow radix2 (-42)).
    { destruct (XP ltac:(lra)) as [-> |(e' & -> & Fe' & He')]; [|apply quotient_small; [exact Fs|lra|exact Fe'|exact He']]. exists 0. split; [reflexivity|]. split; [apply generic_format_0|]. lra. }
    destruct Q as (q & -> & Fq & Hq). cbn [fadd].
    assert (Z : 1 <= rnd (1 + q) <= 1 + / 2 * k).
    { split; [rewrite <- rnd_1 at 1; apply rnd_le; lra|]. assert (G : (1 - uround) * (1 + q) <= rnd (1 + q) <= (1 + uround) * (1 + q)) by (apply rnd_relative; apply Rle_trans with 1; [apply (bpow_le radix2 (-1022) 0); lia|lra]).
      change uround with u in G. eapply Rle_trans; [apply G|]. nra. }
    exists (rnd (1 + q)). split; [apply overflow_num; rewrite Rabs_right by lra; apply big_gt; lra|].
    pose proof (exp_pos (- v)) as PN. pose proof (exp_m40 (- v) ltac:(lra)) as T1.
    assert (A : 1 - / 16 * k <= 1 / (1 + exp (- v)) <= 1).
    { set (t := exp (- v)) in *. unfold Rdiv. rewrite Rmult_1_l. split; [|rewrite <- Rinv_1; apply Rinv_le_contravar; lra]. apply (Rmult_le_reg_r (1 + t)); [lra|]. rewrite Rinv_l by lra. nra. }
    assert (C : 0 <= s0 / (1 + exp (s0 * v)) <= bpow radix2 (-42)).
    { assert (X : bpow radix2 57 <= exp (s0 * v)) by (eapply Rle_trans; [|apply (exp_mono 40); rewrite <- (Rmult_1_l 40); apply Rmult_le_compat; lra]; apply bpow_le_exp; [lia|lra]).
      split; [apply Rmult_le_pos; [lra|left; apply Rinv_0_lt_compat; lra]|]. apply Rle_trans with (bpow radix2 15 * / bpow radix2 57); [apply Rmult_le_compat; [lra|left; apply Rinv_0_lt_compat; lra|lra|apply Rinv_le_contravar; lra]|]. rewrite <- bpow_opp, <- bpow_plus. right. reflexivity. }
    apply Rabs_le. lra.
  - rewrite Rabs_left in Hv by lra. destruct (XN Sg) as (e & -> & Fe & He). rewrite (quotient_same s e Fs ltac:(lra) He).
    assert (Q : exists q, fdiv (FNum 1) (fadd (FNum 1) (fexp rexp (fmul (FNum (-1)) (FNum v)))) = FNum q /\ double_format q /\ 0 <= q <= bpow radix2 (-42)).
    { destruct (YP ltac:(lra)) as [-> |(e' & -> & Fe' & He')]; [|apply quotient_small; [exact F1|lra|exact Fe'|exact He']]. exists 0. split; [reflexivity|]. split; [apply generic_format_0|]. lra. }
    destruct Q as (q & -> & Fq & Hq). cbn [fadd].
    assert (G : (1 - uround) * (q + s) <= rnd (q + s) <= (1 + uround) * (q + s)) by (apply rnd_relative; apply Rle_trans with 1; [apply (bpow_le radix2 (-1022) 0); lia|lra]). change uround with u in G.
    assert (S2 : s <= 2 * s0) by (assert (u * s0 <= 1 * s0) by (apply Rmult_le_compat_r; lra); lra).
    assert (G1 : u * (q + s) <= u * (3 * s0)) by (apply Rmult_le_compat_l; lra). assert (KS1 : k * s0 <= / 1000000 * s0) by (apply Rmult_le_compat_r; lra).
    exists (rnd (q + s)). split.
    { apply overflow_num. rewrite Rabs_right by lra. apply Rle_lt_trans with (bpow radix2 18); [|apply bpow_lt; lia]. assert (bpow radix2 18 = 8 * bpow radix2 15) by (change 18%Z with (3 + 15)%Z; rewrite bpow_plus; reflexivity). lra. }
    assert (A : 0 <= 1 / (1 + exp (- v)) <= / 16 * k).
    { assert (X : bpow radix2 57 <= exp (- v)) by (eapply Rle_trans; [|apply (exp_mono 40); lra]; apply bpow_le_exp; [lia|lra]). unfold Rdiv. rewrite Rmult_1_l. split; [left; apply Rinv_0_lt_compat; lra|]. eapply Rle_trans; [|exact b57]. change (-57)%Z with (- (57))%Z. rewrite bpow_opp. apply Rinv_le_contravar; lra. }
    assert (C : s0 - / 16 * k * s0 <= s0 / (1 + exp (s0 * v)) <= s0).
    { assert (X : exp (s0 * v) <= bpow radix2 (-57)) by (apply exp_m40; assert (1 * 40 <= s0 * - v) by (apply Rmult_le_compat; lra); lra). pose proof (exp_pos (s0 * v)). set (t := exp (s0 * v)) in *.
      assert (W : 1 - / 16 * k <= / (1 + t) <= 1) by (split; [apply (Rmult_le_reg_r (1 + t)); [lra|]; rewrite Rinv_l by lra; nra|rewrite <- Rinv_1; apply Rinv_le_contravar; lra]).
      unfold Rdiv. set (w := / (1 + t)) in *. assert (s0 * (1 - / 16 * k) <= s0 * w <= s0 * 1) by (split; apply Rmult_le_compat_l; lra). lra. }
    apply Rabs_le. lra.
Qed.

(** Uneven, a utility that overflowed: the derivative in the shape parameter is zero for plus
    infinity and a large negative number for minus infinity. *)
Theorem C134_uneven_infinite_utilities :
  forall b, double_format b -> -700 <= b <= 0 ->
  funeven_deriv_shape rexp (FInf false) (FNum b) = FNum 0 /\
  exists z, funeven_deriv_shape rexp (FInf true) (FNum b) = FNum z /\ - fmax_comp <= z <= 0 /\ Rabs (z - (- fmax_comp * exp b)) <= / 2 ^ 40 * (fmax_comp * exp b).
Proof.
  intros b Fb Hb. assert (E53 := small53). pose proof inv_2_40 as T40. destruct big_bounds as ((M1 & M2) & FM).
  destruct (exp_num rexp _ b C122_correctly_rounded_exp E53 ltac:(lra)) as (Es & Fs & Bs & As). apply Rabs_le_inv in As.
  assert (ES : fnatural_shape rexp (FNum b) = FNum (rexp b)) by (unfold fnatural_shape; rewrite Es; reflexivity).
  unfold funeven_deriv_shape. cbv zeta. rewrite ES. split.
  - cbn [fmul]. rewrite Rmult_0_l, rnd_0. apply overflow_num. rewrite Rabs_R0. apply bpow_gt_0.
  - assert (R1 : rexp b <= 1) by (unfold rexp; rewrite <- rnd_1; apply rnd_le; rewrite <- exp_0; apply exp_mono; lra).
    set (s := rexp b) in *. set (s0 := exp b) in *. set (M := fmax_comp) in *. pose proof (bpow_gt_0 radix2 996) as P996. assert (S0 : 0 < s0) by apply exp_pos.
    assert (SL : bpow radix2 (-1012) <= s0).
    { unfold s0. eapply Rle_trans; [|apply (exp_mono (- (700))); lra]. rewrite exp_Ropp. change (-1012)%Z with (- (1012))%Z. rewrite bpow_opp. apply Rinv_le_contravar; [apply exp_pos|]. eapply Rle_trans; [apply exp_700|apply bpow_le; lia]. }
    set (u := / 2 ^ 53) in *. set (k := / 2 ^ 40) in *. assert (US : u * s0 <= / 2 * s0) by (apply Rmult_le_compat_r; lra).
    assert (I53 : 8 * u <= k). { unfold u, k. replace (8 * / 2 ^ 53) with (/ 2 ^ 50) by (field; apply pow_nonzero; lra). apply Rinv_le_contravar; [apply pow_lt; lra|]. apply Rle_pow; [lra|lia]. }
    assert (MS : 0 < M * s0) by (apply Rmult_lt_0_compat; lra).
    assert (X : (1 - u) * (M * s0) <= M * s <= (1 + u) * (M * s0)) by (split; [replace ((1 - u) * (M * s0)) with (M * ((1 - u) * s0)) by ring|replace ((1 + u) * (M * s0)) with (M * ((1 + u) * s0)) by ring]; apply Rmult_le_compat_l; lra).
    assert (XM : 0 <= M * s <= M) by (split; [apply Rmult_le_pos; lra|]; rewrite <- (Rmult_1_r M) at 2; apply Rmult_le_compat_l; lra).
    assert (G : (1 - uround) * (M * s) <= rnd (M * s) <= (1 + uround) * (M * s)).
    { apply rnd_relative. apply Rle_trans with (bpow radix2 996 * bpow radix2 (-1013)); [rewrite <- bpow_plus; apply bpow_le; lia|]. apply Rmult_le_compat; [lra|apply bpow_ge_0|exact M1|].
      assert (bpow radix2 (-1012) = 2 * bpow radix2 (-1013)) by (change (-1012)%Z with (1 + -1013)%Z; rewrite bpow_plus; reflexivity). lra. }
    change uround with u in G. assert (O : rnd (- M * s) = - rnd (M * s)) by (replace (- M * s) with (- (M * s)) by ring; unfold rnd; apply round_NE_opp).
    assert (RM : 0 <= rnd (M * s) <= M) by (split; [rewrite <- rnd_0; apply rnd_le; lra|]; apply Rle_trans with (rnd M); [apply rnd_le; lra|right; apply rnd_id; exact FM]).
    exists (- rnd (M * s)). split; [|split].
    + cbn [fmul]. unfold fminus_big. cbn [fmul]. fold M. rewrite O. apply overflow_num. rewrite Rabs_Ropp, Rabs_right by lra. apply Rle_lt_trans with (bpow radix2 997); [lra|apply bpow_lt; lia].
    + lra.
    + set (w := M * s0) in *. set (x := M * s) in *. assert (u * x <= u * (2 * w)) by (apply Rmult_le_compat_l; [lra|]; assert (u * w <= 1 * w) by (apply Rmult_le_compat_r; lra); lra). assert (8 * u * w <= k * w) by (apply Rmult_le_compat_r; lra). 
      replace (- rnd x - - M * s0) with (w - rnd x) by (unfold w; ring). apply Rabs_le. lra.
Qed.

(** ** Non-vacuity: doubles far from zero *)
Example C134_concrete_cases :
  fscobit_deriv_v rexp rpow (FNum 50) (FNum 2) = FNum 1 /\ fscobit_deriv_shape rexp rlog1p rpow (FNum 50) (FNum 2) = FNum (-1) /\
  fscobit_deriv_v rexp rpow (FNum (-1000)) (FNum 0) = FNum (rexp 0) /\ fcloglog_deriv rexp (FNum (-100)) = FNum 1.
Proof.
  assert (D : forall k : Z, (Z.abs k < 2 ^ 53)%Z -> double_format (IZR k)) by (intros k Hk; apply small_integer; exact Hk).
  assert (B : 1000 < bpow radix2 1024) by (apply big_gt; lra).
  destruct (C134_scobit_large_utilities 50 2 (D 50%Z eq_refl) ltac:(lra) (D 2%Z eq_refl) ltac:(lra)) as (A1 & _ & A2 & _).
  destruct (C134_scobit_low_utilities (-1000) 0 (D (-1000)%Z eq_refl) ltac:(lra) (D 0%Z eq_refl) ltac:(lra)) as (A3 & _).
  destruct (C134_clog_low_utilities (-100) (D (-100)%Z eq_refl) ltac:(lra)) as (A4 & _). repeat split; assumption.
Qed.

Print Assumptions C134_scobit_large_utilities.
Print Assumptions C134_scobit_low_utilities.
Print Assumptions C134_clog_low_utilities.
Print Assumptions C134_clog_large_utilities.
Print Assumptions C134_uneven_extreme_utilities.
Print Assumptions C134_uneven_infinite_utilities.
