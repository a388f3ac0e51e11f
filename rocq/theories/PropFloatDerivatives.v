(** C132: the derivatives of the transformed utilities, and with them the whole gradient of
    every logit-type model, in double precision. *)
From Coq Require Import ZArith Reals Lra Lia List Permutation Bool Arith.
From Coquelicot Require Import Coquelicot.
From Flocq Require Import Core.
From Verif Require Import Res Vec Arr ChoiceCalcs NestedCalcs SpecLogit Transforms ChoiceFacts Floats FloatFacts FloatTransforms PropFloatTransforms FloatUtilities FloatLogit FloatNear FloatObjective FloatGradient FloatDerivatives LogitFacts RowDeriv Mappings LongData PropMappings PropProbs PropGradient PropFloats PropFloatUtilities PropFloatAccuracy PropFloatLogit PropFloatNested PropFloatObjective PropFloatGradient.
Import ListNotations.
Open Scope R_scope.

#[local] Instance prec_53d : Prec_gt_0 53 := FloatFacts.prec_53.

(** ** Specification *)

(** np.power of a positive base and any exponent, as long as the result is far from overflow
    and underflow. *)
Definition accurate_np_power (pw : R -> R -> R) (ep : R) : Prop :=
  forall a b, double_format a -> double_format b -> 0 < a -> exp (-700) <= Rpower a b <= exp 700 ->
  double_format (pw a b) /\ Rabs (pw a b - Rpower a b) <= ep * Rpower a b.

Lemma np_power_enough pw ep : accurate_np_power pw ep -> accurate_power pw ep.
Proof.
  intros H a b Fa Fb Ha Hb Hr. apply H; try assumption; [lra|]. split; [|exact Hr].
  unfold Rpower. apply exp_mono. assert (0 <= b * ln a) by (apply Rmult_le_pos; [exact Hb|rewrite <- ln_1; apply ln_mono; lra]). lra.
Qed.

(** ** A computed value within a factor e^d of a positive real *)
Definition fnear (d : R) (f : fl) (a : R) : Prop := exists x, f = FNum x /\ double_format x /\ near d x a.
(** far from overflow and underflow *)
Definition ordinary (a : R) : Prop := bpow radix2 (-900) <= a <= bpow radix2 900.

Lemma ordinary_pos a : ordinary a -> 0 < a.
Proof. intros (H & _). eapply Rlt_le_trans; [apply bpow_gt_0|exact H]. Qed.
Lemma ordinary_in a : / 2 ^ 60 <= a <= 2 ^ 60 -> ordinary a.
Proof.
  rewrite (pow2_bpow 60). intros (L & U). rewrite <- bpow_opp in L. split; eapply Rle_trans; try eassumption; apply bpow_le; cbn; lia.
Qed.
Lemma fn_weaken d d' f a : 0 <= a -> d <= d' -> fnear d f a -> fnear d' f a.
Proof. intros Ha Hd (x & E & F & N). exists x. split; [exact E|]. split; [exact F|]. eapply near_weaken; eassumption. Qed.
Lemma fn_num x : double_format x -> fnear 0 (FNum x) x.
Proof. intros F. exists x. split; [reflexivity|]. split; [exact F|apply near_refl]. Qed.
Lemma fn_one : fnear 0 (FNum 1) 1.
Proof. apply fn_num, double_1. Qed.

Lemma fn_round d x a : ordinary a -> 0 <= d <= / 4 -> near d x a -> fnear (d + 2 * uround) (overflow (rnd x)) a.
Proof.
  intros O Hd N. pose proof (ordinary_pos a O) as A0. destruct O as (OL & OU). destruct (near_half d x a N ltac:(lra) Hd) as (L & U).
  assert (X : bpow radix2 (-1022) <= x).
  { eapply Rle_trans; [|exact L]. apply Rle_trans with (/ 2 * bpow radix2 (-900)); [|apply Rmult_le_compat_l; lra].
    replace (/ 2) with (bpow radix2 (-1)) by reflexivity. rewrite <- bpow_plus. apply bpow_le. lia. }
  pose proof (near_rnd x X) as Q. exists (rnd x). split; [|split; [apply rnd_format|]].
  - apply overflow_num. pose proof (rnd_relative x X) as (R1 & R2). pose proof uround_pos as u0. pose proof FloatNear.uround_small as u1.
    assert (0 < x) by (eapply Rlt_le_trans; [apply bpow_gt_0|exact X]). assert (0 <= (1 - uround) * x) by (apply Rmult_le_pos; lra). rewrite Rabs_right by lra.
    apply Rle_lt_trans with (bpow radix2 903); [|apply bpow_lt; lia]. replace (bpow radix2 903) with (8 * bpow radix2 900) by (change 903%Z with (3 + 900)%Z; rewrite bpow_plus; reflexivity).
    assert (uround * x <= 1 * x) by (apply Rmult_le_compat_r; lra). lra.
  - rewrite Rplus_comm. eapply near_trans; eassumption.
Qed.

Lemma fn_mul d d' f g a b : 0 < a -> 0 < b -> ordinary (a * b) -> 0 <= d + d' <= / 4 -> fnear d f a -> fnear d' g b -> fnear (d + d' + 2 * uround) (fmul f g) (a * b).
Proof. intros A B O Hd (x & -> & Fx & Nx) (y & -> & Fy & Ny). cbn [fmul]. apply fn_round; try assumption. apply near_mult; try assumption; lra. Qed.
Lemma fn_div d d' f g a b : 0 < a -> 0 < b -> ordinary (a / b) -> 0 <= d + d' <= / 4 -> fnear d f a -> fnear d' g b -> fnear (d + d' + 2 * uround) (fdiv f g) (a / b).
Proof.
  intros A B O Hd (x & -> & Fx & Nx) (y & -> & Fy & Ny). cbn [fdiv]. pose proof (near_pos _ _ _ Ny B). destruct (Req_EM_T y 0); [lra|].
  apply fn_round; try assumption. apply near_div; try assumption; lra.
Qed.
Lemma fn_add d f g a b : 0 < a -> 0 < b -> ordinary (a + b) -> 0 <= d <= / 4 -> fnear d f a -> fnear d g b -> fnear (d + 2 * uround) (fadd f g) (a + b).
Proof.
  intros A B O Hd (x & -> & Fx & (L & U)) (y & -> & Fy & (L' & U')). cbn [fadd]. apply fn_round; try assumption. unfold near. lra.
Qed.
Lemma fn_sub d d' e f g a b : 0 <= b < a -> ordinary (a - b) -> 0 <= d <= / 2 -> 0 <= d' <= / 2 -> 0 <= e <= / 8 -> 2 * d * a + 2 * d' * b <= e * (a - b) ->
  fnear d f a -> fnear d' g b -> fnear (2 * e + 2 * uround) (fsub f g) (a - b).
Proof.
  intros B O Hd Hd' He HE (x & -> & Fx & Nx) (y & -> & Fy & Ny). cbn [fsub fneg fadd]. apply fn_round; [exact O|lra|].
  apply near_absolute in Nx; [|lra|lra]. apply near_absolute in Ny; [|lra|lra]. apply near_relative; [lra|lra|].
  replace (x + - y - (a - b)) with ((x - a) - (y - b)) by ring. eapply Rle_trans; [apply Rabs_triang|]. rewrite Rabs_Ropp. lra.
Qed.
Lemma fn_exp ex eps y Y h : accurate_exp ex eps -> 0 <= eps <= 2 * uround -> Rabs (y - Y) <= h -> Rabs y <= 690 -> fnear (h + 4 * uround) (fexp ex (FNum y)) (exp Y).
Proof.
  intros Hex Heps Hy By. apply Rabs_le_inv in By. pose proof uround_pos. pose proof uround_tiny as U40. pose proof FloatNear.uround_small as U50.
  assert (E40 : 2 * uround <= / 2 ^ 40).
  { unfold uround. replace (2 * / 2 ^ 53) with (/ 2 ^ 52) by (change (2 ^ 53) with (2 * 2 ^ 52); rewrite Rinv_mult; field; apply pow_nonzero; lra). apply Rinv_le_contravar; [apply pow_lt; lra|apply Rle_pow; [lra|lia]]. }
  pose proof inv_2_40.
  destruct (exp_num ex eps y Hex ltac:(lra) ltac:(lra)) as (E & F & P & A). exists (ex y). split; [exact E|]. split; [exact F|].
  rewrite Rplus_comm. eapply near_trans; [|apply near_exp; exact Hy]. pose proof (exp_pos y). eapply near_weaken; [| |apply near_relative; [| |exact A]]; lra.
Qed.
Lemma fn_pow pw ep f a d y Y h B : accurate_np_power pw ep -> 0 <= ep <= 2 * uround -> fnear d f a -> 0 <= d <= / 4 -> 0 < a -> double_format y -> Rabs (y - Y) <= h -> h <= 1 ->
  Rabs Y <= 5 -> Rabs (ln a) <= B -> B <= 100 -> fnear (Rabs Y * d + h * (B + 1) + 4 * uround) (fpow pw f (FNum y)) (Rpower a Y).
Proof.
  intros Hpw Hep (x & -> & Fx & Nx) Hd A0 Fy Hy Hh HY HB B100. pose proof uround_pos. pose proof FloatNear.uround_small as U50. pose proof (near_pos _ _ _ Nx A0) as X0.
  pose proof (near_ln _ _ _ A0 Nx) as LX.
  assert (BX : Rabs (ln x) <= B + 1) by (replace (ln x) with ((ln x - ln a) + ln a) by ring; eapply Rle_trans; [apply Rabs_triang|]; lra).
  assert (yB : Rabs y <= 6) by (replace y with ((y - Y) + Y) by ring; eapply Rle_trans; [apply Rabs_triang|]; lra).
  assert (YL : Rabs (y * ln x) <= 6 * (B + 1)) by (rewrite Rabs_mult; apply Rmult_le_compat; try apply Rabs_pos; assumption). apply Rabs_le_inv in YL.
  assert (N1 : near (Rabs Y * d + h * (B + 1)) (Rpower x y) (Rpower a Y)).
  { rewrite Rplus_comm. eapply near_trans; [apply (near_exponent h (B + 1) x y Y Hy BX)|apply near_Rpower; [exact A0|lra|exact Nx]]. }
  assert (R : exp (-700) <= Rpower x y <= exp 700) by (unfold Rpower; split; apply exp_mono; lra).
  destruct (Hpw x y Fx Fy X0 R) as (F & A). exists (pw x y). split; [|split; [exact F|]].
  - cbn [fpow]. apply overflow_num. pose proof bpow_1013 as B13. assert (0 < Rpower x y) by (unfold Rpower; apply exp_pos).
    replace (pw x y) with ((pw x y - Rpower x y) + Rpower x y) by ring. eapply Rle_lt_trans; [apply Rabs_triang|]. rewrite (Rabs_right (Rpower x y)) by lra.
    assert (ep * Rpower x y <= 1 * Rpower x y) by (apply Rmult_le_compat_r; lra). lra.
  - rewrite Rplus_comm. eapply near_trans; [|exact N1]. assert (0 < Rpower x y) by (unfold Rpower; apply exp_pos). eapply near_weaken; [| |apply near_relative; [| |exact A]]; lra.
Qed.

(** ** Small facts *)

Lemma ord a : / 1000000000000000 <= a <= 1000000000000000 -> ordinary a.
Proof.
  intros (L & U). apply ordinary_in. assert (X : 1000000000000000 <= 2 ^ 60).
  { apply Rle_trans with (2 ^ 50); [|apply Rle_pow; [lra|lia]]. replace (2 ^ 50) with (IZR (2 ^ 50)) by (rewrite (pow_IZR 2); reflexivity). apply IZR_le. lia. }
  split; [|lra]. apply Rle_trans with (/ 1000000000000000); [apply Rinv_le_contravar; [lra|exact X]|exact L].
Qed.
Lemma mul_between l1 u1 l2 u2 a b : 0 <= l1 -> 0 <= l2 -> l1 <= a <= u1 -> l2 <= b <= u2 -> l1 * l2 <= a * b <= u1 * u2.
Proof. intros. split; apply Rmult_le_compat; lra. Qed.
Lemma div_between l1 u1 l2 u2 a b : 0 <= l1 -> 0 < l2 -> l1 <= a <= u1 -> l2 <= b <= u2 -> l1 * / u2 <= a / b <= u1 * / l2.
Proof.
  intros. unfold Rdiv. apply mul_between; try lra; [left; apply Rinv_0_lt_compat; lra|]. split; apply Rinv_le_contravar; lra.
Qed.
Lemma u_small : 0 < uround /\ 90000000 * uround <= / 100000000.
Proof. split; [apply uround_pos|]. pose proof uround_ten_8 as H. replace (10 ^ 8) with 100000000 in H by (cbn; ring). exact H. Qed.
Lemma e_1 : 2 <= exp 1 <= 272 / 100.
Proof. destruct exp_1_bounds as (L & U). lra. Qed.
Lemma e_pm1 c : Rabs c <= 1 -> 36 / 100 <= exp c <= 272 / 100.
Proof.
  intros H. apply Rabs_le_inv in H. pose proof e_1 as (L & U). split; [|eapply Rle_trans; [apply exp_mono with (y := 1); lra|lra]].
  apply Rle_trans with (exp (-1)); [|apply exp_mono; lra]. replace (-1) with (- (1)) by ring. rewrite exp_Ropp. apply Rle_trans with (/ (272 / 100)); [lra|apply Rinv_le_contravar; lra].
Qed.
Lemma e_pm6 c : Rabs c <= 6 -> / 405 <= exp c <= 405.
Proof.
  intros H. apply Rabs_le_inv in H. pose proof e_1 as (L & U).
  assert (E : exp 6 <= 405) by (replace 6 with (INR 6) by (cbn; ring); rewrite exp_INR; apply Rle_trans with ((272 / 100) ^ 6); [apply pow_incr; lra|cbn; lra]).
  split; [|eapply Rle_trans; [apply exp_mono with (y := 6); lra|exact E]].
  apply Rle_trans with (exp (-6)); [|apply exp_mono; lra]. replace (-6) with (- (6)) by ring. rewrite exp_Ropp. apply Rinv_le_contravar; [apply exp_pos|exact E].
Qed.
Lemma b1024 : 1000000000000000 < bpow radix2 1024.
Proof.
  apply Rle_lt_trans with (bpow radix2 50); [|apply bpow_lt; lia]. rewrite <- (IZR_Zpower radix2 50) by lia. apply IZR_le. cbn. lia.
Qed.
Lemma minus_exact v : double_format v -> Rabs v <= 1000000000000000 -> fmul (FNum (-1)) (FNum v) = FNum (- v).
Proof.
  intros F B. pose proof b1024. cbn [fmul]. replace (-1 * v) with (- v) by ring. rewrite rnd_id by (apply generic_format_opp; exact F). apply overflow_num. rewrite Rabs_Ropp. lra.
Qed.
Lemma fn_abs d f a : 0 <= a -> 0 <= d <= / 2 -> fnear d f a -> exists x, f = FNum x /\ double_format x /\ Rabs (x - a) <= 2 * d * a.
Proof. intros A D (x & E & F & N). exists x. split; [exact E|]. split; [exact F|]. apply near_absolute; assumption. Qed.

(** ** The four derivatives in the utility *)

Definition clog_rate (V : R) : R := 1 / ((1 - exp (-1 * exp V)) * exp (-1 * V)).
Definition scobit_rate (s V : R) : R := s * exp (-1 * V) * Rpower (1 + exp (-1 * V)) (s - 1) / (Rpower (1 + exp (-1 * V)) s - 1).
Definition uneven_rate (s V : R) : R := 1 / (1 + exp (-1 * V)) + s / (1 + exp (s * V)).

(** exp (- V) in double precision *)
Lemma exp_neg ex eps v V : accurate_exp ex eps -> 0 <= eps <= 2 * uround -> double_format v -> Rabs (v - V) <= 1400 * uround -> Rabs V <= 6 ->
  fnear (1404 * uround) (fexp ex (fmul (FNum (-1)) (FNum v))) (exp (-1 * V)).
Proof.
  intros Hex Heps Fv Hv HV. pose proof u_small as (U0 & U1). apply Rabs_le_inv in HV. pose proof Hv as Hv'. apply Rabs_le_inv in Hv'.
  rewrite minus_exact by (try exact Fv; apply Rabs_le; lra). replace (1404 * uround) with (1400 * uround + 4 * uround) by ring.
  apply (fn_exp ex eps); try assumption; [|rewrite Rabs_Ropp; apply Rabs_le; lra]. replace (- v - -1 * V) with (- (v - V)) by ring. rewrite Rabs_Ropp. exact Hv.
Qed.

Theorem C132_clog_derivative :
  forall ex eps v V, accurate_exp ex eps -> 0 <= eps <= 2 * uround -> double_format v -> Rabs (v - V) <= 1400 * uround -> Rabs V <= 6 ->
  fnear (20000 * uround) (fcloglog_deriv ex (FNum v)) (clog_rate V) /\ 0 < clog_rate V <= 406.
Proof.
  intros ex eps v V Hex Heps Fv Hv HV. pose proof u_small as (U0 & U1). pose proof (e_pm6 V HV) as T. set (t := exp V) in *.
  pose proof (e_pm6 (-1 * V) ltac:(replace (-1 * V) with (- V) by ring; rewrite Rabs_Ropp; exact HV)) as T'. set (t' := exp (-1 * V)) in *.
  destruct (exp_neg ex eps v V Hex Heps Fv Hv HV) as (en & Een & Fen & Nen). fold t' in Nen.
  pose proof Hv as Hv'. pose proof HV as HV'. apply Rabs_le_inv in Hv', HV'.
  destruct (fn_exp ex eps v V (1400 * uround) Hex Heps Hv) as (ev & Eev & Fev & Nev); [apply Rabs_le; lra|]. fold t in Nev. 
  replace (1400 * uround + 4 * uround) with (1404 * uround) in Nev by ring.
  assert (Aev : Rabs (ev - t) <= 2 * (1404 * uround) * t) by (apply near_absolute; [lra|lra|exact Nev]). assert (ev0 : 0 < ev) by (apply (near_pos _ _ _ Nev); lra). assert (en0 : 0 < en) by (apply (near_pos _ _ _ Nen); lra).
  assert (TU : 2 * (1404 * uround) * t <= 2 * (1404 * uround) * 405) by (apply Rmult_le_compat_l; lra).
  pose proof Aev as Aev'. apply Rabs_le_inv in Aev'.
  set (q := exp (-1 * t)). assert (q0 : 0 < q) by apply exp_pos.
  (* q t <= 1 - q *)
  assert (QT : q * t <= 1 - q).
  { pose proof (exp_ineq1_le t) as X. assert (q * exp t = 1) by (unfold q; rewrite <- exp_plus; replace (-1 * t + t) with 0 by ring; apply exp_0). assert (q * (1 + t) <= q * exp t) by (apply Rmult_le_compat_l; lra). lra. }
  assert (Q1 : / 406 <= 1 - q <= 1).
  { assert (q * / 405 <= q * t) by (apply Rmult_le_compat_l; lra). lra. }
  assert (Q404 : q <= 405 * (1 - q)) by (assert (q * / 405 <= q * t) by (apply Rmult_le_compat_l; lra); lra).
  destruct (fn_exp ex eps (- ev) (-1 * t) (2 * (1404 * uround) * t) Hex Heps) as (qh & Eqh & Fqh & Nqh).
  { replace (- ev - -1 * t) with (- (ev - t)) by ring. rewrite Rabs_Ropp. exact Aev. }
  { rewrite Rabs_Ropp, Rabs_right; lra. }
  fold q in Nqh. set (dq := 2 * (1404 * uround) * t + 4 * uround) in *.
  assert (P1 : fnear (2 * (8900 * uround) + 2 * uround) (fsub (FNum 1) (FNum qh)) (1 - q)).
  { apply (fn_sub 0 dq); try lra.
    - apply ord. lra.
    - unfold dq. lra.
    - unfold dq. assert (uround * (q * t) <= uround * (1 - q)) by (apply Rmult_le_compat_l; lra). assert (uround * q <= uround * (405 * (1 - q))) by (apply Rmult_le_compat_l; lra). lra.
    - apply fn_one.
    - exists qh. auto. }
  pose proof (mul_between (/ 406) 1 (/ 405) 405 (1 - q) t' ltac:(lra) ltac:(lra) Q1 T') as M.
  assert (P2 : fnear (2 * (8900 * uround) + 2 * uround + 1404 * uround + 2 * uround) (fmul (fsub (FNum 1) (FNum qh)) (FNum en)) ((1 - q) * t')).
  { apply fn_mul; try lra; [apply ord; lra|exact P1|exists en; auto]. }
  assert (P3 : fnear (0 + (2 * (8900 * uround) + 2 * uround + 1404 * uround + 2 * uround) + 2 * uround) (fdiv (FNum 1) (fmul (fsub (FNum 1) (FNum qh)) (FNum en))) (1 / ((1 - q) * t'))).
  { apply fn_div; try lra; [|apply fn_one|exact P2]. apply ord. pose proof (div_between 1 1 (/ 406 * / 405) (1 * 405) 1 ((1 - q) * t') ltac:(lra) ltac:(lra) ltac:(lra) M) as D1. lra. }
  fold t' q in P3. assert (R0 : 0 < clog_rate V).
  { unfold clog_rate. fold t t' q. apply Rdiv_lt_0_compat; lra. }
  split; [|split; [exact R0|]].
  - unfold fcloglog_deriv. rewrite Een, Eev, minus_exact by (try exact Fev; rewrite Rabs_right; lra). rewrite Eqh. cbn [on_posinf is_zero]. destruct (Req_EM_T en 0); [lra|].
    destruct P1 as (p1 & E1 & F1 & N1). assert (0 < p1) by (apply (near_pos _ _ _ N1); lra). rewrite E1 in *. cbn [is_zero]. destruct (Req_EM_T p1 0); [lra|].
    destruct P3 as (p3 & E3 & F3 & N3). rewrite E3. cbn [on_posinf]. exists p3. split; [reflexivity|]. split; [exact F3|]. unfold clog_rate. fold t t' q.
    eapply near_weaken; [| |exact N3]; [unfold clog_rate in R0; fold t t' q in R0; lra|lra].
  - unfold clog_rate. fold t t' q. assert (TT : t * t' = 1) by (unfold t, t'; rewrite <- exp_plus; replace (V + -1 * V) with 0 by ring; apply exp_0).
    replace (1 / ((1 - q) * t')) with (t / (1 - q)) by (replace t with (t * (t * t') / (t * t')) at 1 by (field; lra); replace (1 / ((1 - q) * t')) with (t * t' / ((1 - q) * t')) by (rewrite TT; reflexivity); field; lra).
    apply (Rmult_le_reg_r (1 - q)); [lra|]. replace (t / (1 - q) * (1 - q)) with t by (field; lra).
    (* t <= (1 + t)(1 - q) <= 406 (1 - q) *)
    assert (t <= (1 + t) * (1 - q)) by lra. assert ((1 + t) * (1 - q) <= 406 * (1 - q)) by (apply Rmult_le_compat_r; lra). lra.
Qed.

Lemma shape_near ex eps c : accurate_exp ex eps -> 0 <= eps <= 2 * uround -> Rabs c <= 1 -> fnear (4 * uround) (fnatural_shape ex (FNum c)) (exp c).
Proof.
  intros Hex Heps Hc. apply Rabs_le_inv in Hc. destruct (fn_exp ex eps c c 0 Hex Heps) as (x & E & F & N); [rewrite Rminus_diag_eq, Rabs_R0 by reflexivity; lra|apply Rabs_le; lra|].
  unfold fnatural_shape. rewrite E. cbn [on_posinf]. exists x. split; [reflexivity|]. split; [exact F|]. eapply near_weaken; [left; apply exp_pos| |exact N]. lra.
Qed.

(** what the scobit derivatives have in common *)
Lemma scobit_parts ex eps pw ep v V c : accurate_exp ex eps -> 0 <= eps <= 2 * uround -> accurate_np_power pw ep -> 0 <= ep <= 2 * uround ->
  double_format v -> Rabs (v - V) <= 1400 * uround -> Rabs V <= 6 -> Rabs c <= 1 ->
  let s := exp c in let t' := exp (-1 * V) in let P := Rpower (1 + t') s in let l := ln (1 + t') in
  exists sh en p, fnatural_shape ex (FNum c) = FNum sh /\ double_format sh /\ near (4 * uround) sh s /\ Rabs (sh - s) <= 22 * uround /\
    fexp ex (fmul (FNum (-1)) (FNum v)) = FNum en /\ double_format en /\ near (1404 * uround) en t' /\
    fnear (1406 * uround) (fadd (FNum 1) (FNum en)) (1 + t') /\
    fpow pw (fadd (FNum 1) (FNum en)) (FNum sh) = FNum p /\ double_format p /\ near (4010 * uround) p P /\
    fnear (18110000 * uround) (fsub (FNum p) (FNum 1)) (P - 1) /\
    / 406 <= l <= 7 /\ / 1200 <= P - 1 <= 500000000 /\ P <= (1 + / (s * l)) * (P - 1).
Proof.
  intros Hex Heps Hpw Hep Fv Hv HV Hc s t' P l. pose proof u_small as (U0 & U1). pose proof (e_pm1 c Hc) as Sb. fold s in Sb.
  pose proof (e_pm6 (-1 * V) ltac:(replace (-1 * V) with (- V) by ring; rewrite Rabs_Ropp; exact HV)) as T'. fold t' in T'.
  destruct (shape_near ex eps c Hex Heps Hc) as (sh & Es & Fs & Ns). fold s in Ns.
  destruct (exp_neg ex eps v V Hex Heps Fv Hv HV) as (en & Een & Fen & Nen). fold t' in Nen.
  assert (As : Rabs (sh - s) <= 22 * uround).
  { eapply Rle_trans; [apply (near_absolute (4 * uround)); [lra|lra|exact Ns]|]. assert (8 * uround * s <= 8 * uround * (272 / 100)) by (apply Rmult_le_compat_l; lra). lra. }
  assert (N1 : fnear (1404 * uround + 2 * uround) (fadd (FNum 1) (FNum en)) (1 + t')).
  { apply fn_add; try lra; [apply ord; lra| |exists en; auto]. apply (fn_weaken 0); [lra|lra|apply fn_one]. }
  apply (fn_weaken _ (1406 * uround)) in N1; [|lra|lra].
  assert (lb : / 406 <= l <= 7).
  { unfold l. split.
    - eapply Rle_trans; [|apply ln_1p_ge; unfold t'; apply exp_pos]. assert (/ (1 + t') <= / (1 + / 405)) by (apply Rinv_le_contravar; lra). lra.
    - unfold t'. replace 7 with (6 + 1) by ring. apply softplus_le; [|lra]. apply Rabs_le_inv in HV. lra. }
  assert (LP : P = exp (s * l)) by reflexivity.
  assert (Lb : / 1128 <= s * l <= 1904 / 100).
  { pose proof (mul_between (36 / 100) (272 / 100) (/ 406) 7 s l ltac:(lra) ltac:(lra) Sb lb). lra. }
  assert (PB : 1 + / 1128 <= P <= 495000000).
  { rewrite LP. split; [pose proof (exp_ineq1_le (s * l)); lra|]. apply Rle_trans with (exp 20); [apply exp_mono; lra|]. pose proof e_1. replace 20 with (INR 20) by (rewrite INR_IZR_INZ; reflexivity). rewrite exp_INR.
    apply Rle_trans with ((272 / 100) ^ 20); [apply pow_incr; lra|cbn; lra]. }
  assert (AMP : P <= (1 + / (s * l)) * (P - 1)) by (apply amplification; [lra|exact LP]).
  assert (AMP' : P <= 1129 * (P - 1)).
  { eapply Rle_trans; [exact AMP|]. apply Rmult_le_compat_r; [lra|]. assert (/ (s * l) <= / / 1128) by (apply Rinv_le_contravar; lra). rewrite Rinv_inv in H. lra. }
  destruct (fn_pow pw ep (fadd (FNum 1) (FNum en)) (1 + t') (1406 * uround) sh s (22 * uround) 7 Hpw Hep N1) as (p & Ep & Fp & Np); try lra; try assumption.
  { rewrite Rabs_right; lra. }
  { fold l. rewrite Rabs_right; lra. }
  fold P in Np. rewrite (Rabs_right s) in Np by lra.
  assert (Np' : near (4010 * uround) p P).
  { eapply near_weaken; [| |exact Np]; [lra|]. assert (s * (1406 * uround) <= 272 / 100 * (1406 * uround)) by (apply Rmult_le_compat_r; lra). lra. }
  exists sh, en, p. do 11 (split; [assumption|]). split; [|split; [exact lb|split; [lra|exact AMP]]].
  replace (18110000 * uround) with (2 * (9054999 * uround) + 2 * uround) by ring. apply (fn_sub (4010 * uround) 0); try lra.
  - apply ord. lra.
  - assert (uround * P <= uround * (1129 * (P - 1))) by (apply Rmult_le_compat_l; lra). lra.
  - exists p. auto.
  - apply fn_one.
Qed.

Theorem C132_scobit_derivative :
  forall ex eps pw ep v V c, accurate_exp ex eps -> 0 <= eps <= 2 * uround -> accurate_np_power pw ep -> 0 <= ep <= 2 * uround ->
  double_format v -> Rabs (v - V) <= 1400 * uround -> Rabs V <= 6 -> Rabs c <= 1 ->
  fnear (18120000 * uround) (fscobit_deriv_v ex pw (FNum v) (FNum c)) (scobit_rate (exp c) V) /\ 0 < scobit_rate (exp c) V <= 372 / 100.
Proof.
  intros ex eps pw ep v V c Hex Heps Hpw Hep Fv Hv HV Hc. pose proof u_small as (U0 & U1). pose proof (e_pm1 c Hc) as Sb.
  pose proof (e_pm6 (-1 * V) ltac:(replace (-1 * V) with (- V) by ring; rewrite Rabs_Ropp; exact HV)) as T'.
  destruct (scobit_parts ex eps pw ep v V c Hex Heps Hpw Hep Fv Hv HV Hc) as (sh & en & p & Es & Fs & Ns & As & Een & Fen & Nen & N1 & Ep & Fp & Np & Nm & lb & PB & _).
  pose proof (scobit_slope (exp c) V ltac:(lra)) as SL. unfold scobit_rate.
  set (s := exp c) in *. set (t' := exp (-1 * V)) in *. set (P := Rpower (1 + t') s) in *. set (l := ln (1 + t')) in *. set (q := Rpower (1 + t') (s - 1)) in *.
  (* the exponent s - 1 *)
  apply Rabs_le_inv in As. assert (SB : Rabs (sh + Ropp 1) <= 2) by (apply Rabs_le; lra).
  destruct (fadd_close sh (Ropp 1) 2 SB ltac:(apply big_1000; lra)) as (s1 & Es1 & Fs1 & As1). apply Rabs_le_inv in As1.
  assert (Y1 : Rabs (s - 1) <= 172 / 100) by (apply Rabs_le; lra).
  destruct (fn_pow pw ep (fadd (FNum 1) (FNum en)) (1 + t') (1406 * uround) s1 (s - 1) (26 * uround) 7 Hpw Hep N1) as (sp & Esp & Fsp & Nsp); try lra; try assumption.
  { apply Rabs_le; lra. }
  { fold l. rewrite Rabs_right; lra. }
  fold q in Nsp.
  assert (qb : / 10000000000 <= q <= 10000000000).
  { assert (Q : - (13) <= (s - 1) * l <= 13).
    { assert (Rabs ((s - 1) * l) <= 172 / 100 * 7) by (rewrite Rabs_mult; apply Rmult_le_compat; try apply Rabs_pos; try assumption; rewrite Rabs_right; lra). apply Rabs_le_inv in H. lra. }
    change q with (exp ((s - 1) * l)). pose proof e_1.
    assert (E13 : exp 13 <= 10000000000) by (replace 13 with (INR 13) by (rewrite INR_IZR_INZ; reflexivity); rewrite exp_INR; apply Rle_trans with ((272 / 100) ^ 13); [apply pow_incr; lra|cbn; lra]).
    split; [|eapply Rle_trans; [apply exp_mono with (y := 13); lra|exact E13]].
    apply Rle_trans with (exp (- (13))); [|apply exp_mono; lra]. rewrite exp_Ropp. apply Rinv_le_contravar; [apply exp_pos|exact E13]. }
  apply (near_weaken _ (2640 * uround)) in Nsp; [|lra|assert (Rabs (s - 1) * (1406 * uround) <= 172 / 100 * (1406 * uround)) by (apply Rmult_le_compat_r; lra); lra].
  pose proof (mul_between (36 / 100) (272 / 100) (/ 405) 405 s t' ltac:(lra) ltac:(lra) Sb T') as M1.
  assert (P1 : fnear (4 * uround + 1404 * uround + 2 * uround) (fmul (FNum sh) (FNum en)) (s * t')) by (apply fn_mul; try lra; [apply ord; lra|exists sh; auto|exists en; auto]).
  pose proof (mul_between (36 / 100 * / 405) (272 / 100 * 405) (/ 10000000000) 10000000000 (s * t') q ltac:(lra) ltac:(lra) M1 qb) as M2.
  assert (P2 : fnear (4 * uround + 1404 * uround + 2 * uround + 2640 * uround + 2 * uround) (fmul (fmul (FNum sh) (FNum en)) (FNum sp)) (s * t' * q)) by (apply fn_mul; try lra; [apply ord; lra|exact P1|exists sp; auto]).
  assert (S0 : 0 < s * t' * q / (P - 1)) by (apply Rdiv_lt_0_compat; lra). rewrite Rabs_right in SL by lra.
  assert (P3 : fnear (4 * uround + 1404 * uround + 2 * uround + 2640 * uround + 2 * uround + 18110000 * uround + 2 * uround) (fdiv (fmul (fmul (FNum sh) (FNum en)) (FNum sp)) (fsub (FNum p) (FNum 1))) (s * t' * q / (P - 1))).
  { apply fn_div; try lra; [|exact P2|exact Nm]. assert (LO : / 1000000000000000000000000 <= s * t' * q / (P - 1)).
    { apply Rle_trans with (36 / 100 * / 405 * / 10000000000 * / 500000000); [lra|]. unfold Rdiv. apply Rmult_le_compat; try lra. apply Rinv_le_contravar; lra. }
    split; [|apply Rle_trans with (bpow radix2 2); [change (bpow radix2 2) with 4; lra|apply bpow_le; lia]].
    eapply Rle_trans; [|exact LO]. change (-900)%Z with (- (900))%Z. rewrite bpow_opp. apply Rinv_le_contravar; [lra|]. apply Rle_trans with (bpow radix2 80); [|apply bpow_le; lia].
    rewrite <- (IZR_Zpower radix2 80) by lia. apply IZR_le. cbn. lia. }
  split; [|lra]. unfold fscobit_deriv_v. rewrite Es, Een, Ep. change (fsub (FNum sh) (FNum 1)) with (fadd (FNum sh) (FNum (Ropp 1))). rewrite Es1, Esp.
  destruct P3 as (d & Ed & Fd & Nd). rewrite Ed. destruct Nm as (m & Em & Fm & Nm). rewrite Em. cbn [is_posinf is_zero orb].
  assert (0 < en) by (apply (near_pos _ _ _ Nen); lra). assert (0 < m) by (apply (near_pos _ _ _ Nm); lra). destruct (Req_EM_T en 0); [lra|]. destruct (Req_EM_T m 0); [lra|]. cbn [orb].
  exists d. split; [reflexivity|]. split; [exact Fd|]. eapply near_weaken; [| |exact Nd]; lra.
Qed.

Theorem C132_uneven_derivative :
  forall ex eps v V c, accurate_exp ex eps -> 0 <= eps <= 2 * uround -> double_format v -> Rabs (v - V) <= 1400 * uround -> Rabs V <= 6 -> Rabs c <= 1 ->
  fnear (4100 * uround) (funeven_deriv_v ex (FNum v) (FNum c)) (uneven_rate (exp c) V) /\ 0 < uneven_rate (exp c) V <= 372 / 100 /\
  exists r, funeven_deriv_shape ex (FNum v) (FNum c) = FNum r /\ double_format r /\
    Rabs (r - V / (1 + exp (exp c * V)) * exp c) <= 200000 * uround /\ Rabs (V / (1 + exp (exp c * V)) * exp c) <= 17.
Proof.
  intros ex eps v V c Hex Heps Fv Hv HV Hc. pose proof u_small as (U0 & U1). pose proof (e_pm1 c Hc) as Sb.
  pose proof (e_pm6 (-1 * V) ltac:(replace (-1 * V) with (- V) by ring; rewrite Rabs_Ropp; exact HV)) as T'.
  destruct (shape_near ex eps c Hex Heps Hc) as (sh & Es & Fs & Ns). destruct (exp_neg ex eps v V Hex Heps Fv Hv HV) as (en & Een & Fen & Nen).
  unfold uneven_rate. set (s := exp c) in *. set (t' := exp (-1 * V)) in *.
  assert (As : Rabs (sh - s) <= 22 * uround).
  { eapply Rle_trans; [apply (near_absolute (4 * uround)); [lra|lra|exact Ns]|]. assert (8 * uround * s <= 8 * uround * (272 / 100)) by (apply Rmult_le_compat_l; lra). lra. }
  pose proof As as As'. pose proof Hv as Hv'. pose proof HV as HV'. apply Rabs_le_inv in As', Hv', HV'.
  assert (N1 : fnear (1404 * uround + 2 * uround) (fadd (FNum 1) (FNum en)) (1 + t')).
  { apply fn_add; try lra; [apply ord; lra| |exists en; auto]. apply (fn_weaken 0); [lra|lra|apply fn_one]. }
  assert (N2 : fnear (0 + (1404 * uround + 2 * uround) + 2 * uround) (fdiv (FNum 1) (fadd (FNum 1) (FNum en))) (1 / (1 + t'))).
  { apply fn_div; try lra; [|apply fn_one|exact N1]. apply ord. pose proof (div_between 1 1 1 406 1 (1 + t') ltac:(lra) ltac:(lra) ltac:(lra) ltac:(lra)). lra. }
  (* s V *)
  assert (SV : Rabs (sh * v) <= 20).
  { rewrite Rabs_mult. replace 20 with (3 * (20 / 3)) by field. apply Rmult_le_compat; try apply Rabs_pos; apply Rabs_le; lra. }
  destruct (fmul_close sh v 20 SV ltac:(apply big_1000; lra)) as (sv & Esv & Fsv & Asv).
  assert (DSV : Rabs (sv - s * V) <= 4000 * uround).
  { replace (sv - s * V) with ((sv - sh * v) + ((sh - s) * v + s * (v - V))) by ring. eapply Rle_trans; [apply Rabs_triang|]. pose proof (Rabs_triang ((sh - s) * v) (s * (v - V))) as Q. rewrite !Rabs_mult in Q.
    assert (Rabs (sh - s) * Rabs v <= 22 * uround * 7) by (apply Rmult_le_compat; try apply Rabs_pos; [lra|apply Rabs_le; lra]).
    assert (Rabs s * Rabs (v - V) <= 272 / 100 * (1400 * uround)) by (apply Rmult_le_compat; try apply Rabs_pos; [rewrite Rabs_right; lra|lra]). lra. }
  assert (sVb : Rabs (s * V) <= 1632 / 100) by (rewrite Rabs_mult; replace (1632 / 100) with (272 / 100 * 6) by field; apply Rmult_le_compat; try apply Rabs_pos; [rewrite Rabs_right; lra|exact HV]).
  pose proof sVb as sVb'. apply Rabs_le_inv in sVb'. pose proof DSV as DSV'. apply Rabs_le_inv in DSV'.
  destruct (fn_exp ex eps sv (s * V) (4000 * uround) Hex Heps DSV) as (es & Ees & Fes & Nes); [apply Rabs_le; lra|]. set (b := exp (s * V)) in *.
  assert (bb : 0 < b <= 50000000).
  { split; [apply exp_pos|]. unfold b. apply Rle_trans with (exp 17); [apply exp_mono; lra|]. pose proof e_1. replace 17 with (INR 17) by (rewrite INR_IZR_INZ; reflexivity). rewrite exp_INR.
    apply Rle_trans with ((272 / 100) ^ 17); [apply pow_incr; lra|cbn; lra]. }
  assert (N3 : fnear (4000 * uround + 4 * uround + 2 * uround) (fadd (FNum 1) (FNum es)) (1 + b)).
  { apply fn_add; try lra; [apply ord; lra| |exists es; auto]. apply (fn_weaken 0); [lra|lra|apply fn_one]. }
  pose proof (div_between (36 / 100) (272 / 100) 1 50000001 s (1 + b) ltac:(lra) ltac:(lra) Sb ltac:(lra)) as D3.
  pose proof (div_between 1 1 1 406 1 (1 + t') ltac:(lra) ltac:(lra) ltac:(lra) ltac:(lra)) as D2.
  assert (N4 : fnear (4 * uround + (4000 * uround + 4 * uround + 2 * uround) + 2 * uround) (fdiv (FNum sh) (fadd (FNum 1) (FNum es))) (s / (1 + b))).
  { apply fn_div; try lra; [|exists sh; auto|exact N3]. apply ord. lra. }
  assert (N5 : fnear (4012 * uround + 2 * uround) (fadd (fdiv (FNum 1) (fadd (FNum 1) (FNum en))) (fdiv (FNum sh) (fadd (FNum 1) (FNum es)))) (1 / (1 + t') + s / (1 + b))).
  { apply fn_add; try lra; [apply ord; lra| |]; (eapply fn_weaken; [| |eassumption]; lra). }
  split; [|split; [lra|]].
  - unfold funeven_deriv_v. rewrite Es, Een, Esv, Ees. eapply fn_weaken; [| |exact N5]; lra.
  - destruct N3 as (x & Ex & Fx & Nx). assert (x0 : 1 / 2 <= x) by (destruct (near_half _ _ _ Nx ltac:(lra) ltac:(lra)); lra).
    unfold funeven_deriv_shape. rewrite Es, Esv, Ees, Ex. cbn [fdiv]. destruct (Req_EM_T x 0); [lra|].
    assert (NI : near (4000 * uround + 4 * uround + 2 * uround) (/ x) (/ (1 + b))) by (apply near_inv; [lra|exact Nx]).
    assert (I1 : 0 < / (1 + b) <= 1) by (split; [apply Rinv_0_lt_compat; lra|rewrite <- Rinv_1; apply Rinv_le_contravar; lra]).
    assert (AI : Rabs (/ x - / (1 + b)) <= 8012 * uround).
    { eapply Rle_trans; [apply near_absolute; [| |exact NI]; lra|]. assert (uround * / (1 + b) <= uround * 1) by (apply Rmult_le_compat_l; lra). lra. }
    assert (X2 : 0 < / x <= 2) by (split; [apply Rinv_0_lt_compat; lra|replace 2 with (/ (1 / 2)) by field; apply Rinv_le_contravar; lra]).
    assert (DQ : Rabs (v / x - V / (1 + b)) <= 51000 * uround).
    { unfold Rdiv. replace (v * / x - V * / (1 + b)) with ((v - V) * / x + V * (/ x - / (1 + b))) by ring. eapply Rle_trans; [apply Rabs_triang|]. rewrite !Rabs_mult.
      assert (Rabs (v - V) * Rabs (/ x) <= 1400 * uround * 2) by (apply Rmult_le_compat; try apply Rabs_pos; [lra|rewrite Rabs_right; lra]).
      assert (Rabs V * Rabs (/ x - / (1 + b)) <= 6 * (8012 * uround)) by (apply Rmult_le_compat; try apply Rabs_pos; lra). lra. }
    assert (BQ : Rabs (V / (1 + b)) <= 6) by (unfold Rdiv; rewrite Rabs_mult; replace 6 with (6 * 1) by ring; apply Rmult_le_compat; try apply Rabs_pos; [lra|rewrite Rabs_right; lra]).
    pose proof BQ as BQ'. pose proof DQ as DQ'. apply Rabs_le_inv in BQ', DQ'. assert (BQx : Rabs (v / x) <= 7) by (apply Rabs_le; lra).
    rewrite (overflow_close (v / x) 7 BQx) by (apply big_1000; lra). pose proof (rnd_close (v / x) 7 BQx) as RQ. set (q := rnd (v / x)) in *. apply Rabs_le_inv in RQ.
    assert (Bq : Rabs (q * sh) <= 30) by (rewrite Rabs_mult; replace 30 with (10 * 3) by ring; apply Rmult_le_compat; try apply Rabs_pos; apply Rabs_le; lra).
    destruct (fmul_close q sh 30 Bq ltac:(apply big_1000; lra)) as (r & Er & Fr & Ar). exists r. split; [exact Er|]. split; [exact Fr|].
    set (Q := V / (1 + b)) in *. split.
    + replace (r - Q * s) with ((r - q * sh) + ((q - Q) * sh + Q * (sh - s))) by ring. eapply Rle_trans; [apply Rabs_triang|]. pose proof (Rabs_triang ((q - Q) * sh) (Q * (sh - s))) as T. rewrite !Rabs_mult in T.
      assert (Rabs (q - Q) * Rabs sh <= 51010 * uround * 3) by (apply Rmult_le_compat; try apply Rabs_pos; apply Rabs_le; lra).
      assert (Rabs Q * Rabs (sh - s) <= 6 * (22 * uround)) by (apply Rmult_le_compat; try apply Rabs_pos; lra). lra.
    + rewrite Rabs_mult. apply Rle_trans with (6 * (272 / 100)); [apply Rmult_le_compat; try apply Rabs_pos; [lra|rewrite Rabs_right; lra]|lra].
Qed.

(** ** The derivatives in the shape parameters *)

Lemma overflow_opp r z : overflow r = FNum z -> overflow (- r) = FNum (- z).
Proof. unfold overflow. rewrite Rabs_Ropp. destruct (Rle_dec (bpow radix2 1024) (Rabs r)); [discriminate|]. intros H. injection H as ->. reflexivity. Qed.
Lemma fmul_opp x y z : fmul (FNum x) (FNum y) = FNum z -> fmul (FNum (- x)) (FNum y) = FNum (- z).
Proof. cbn [fmul]. intros H. replace (- x * y) with (- (x * y)) by ring. rewrite rnd_opp. apply overflow_opp, H. Qed.
Lemma fdiv_opp x y z : y <> 0 -> fdiv (FNum x) (FNum y) = FNum z -> fdiv (FNum (- x)) (FNum y) = FNum (- z).
Proof. intros Hy. cbn [fdiv]. destruct (Req_EM_T y 0); [contradiction|]. intros H. replace (- x / y) with (- (x / y)) by (field; exact Hy). rewrite rnd_opp. apply overflow_opp, H. Qed.

Theorem C132_scobit_shape_derivative :
  forall ex eps l1 e1 pw ep v V c, accurate_exp ex eps -> 0 <= eps <= 2 * uround -> accurate_log1p l1 e1 -> 0 <= e1 <= 2 * uround -> accurate_np_power pw ep -> 0 <= ep <= 2 * uround ->
  double_format v -> Rabs (v - V) <= 1400 * uround -> Rabs V <= 6 -> Rabs c <= 1 ->
  let s := exp c in let t' := exp (-1 * V) in let P := Rpower (1 + t') s in
  exists r, fscobit_deriv_shape ex l1 pw (FNum v) (FNum c) = FNum r /\ double_format r /\
    Rabs (r - (-1 * ln (1 + t') * P / (P - 1)) * s) <= 820000000 * uround /\ Rabs ((-1 * ln (1 + t') * P / (P - 1)) * s) <= 21.
Proof.
  intros ex eps l1 e1 pw ep v V c Hex Heps Hl1 He1 Hpw Hep Fv Hv HV Hc. cbv zeta. pose proof u_small as (U0 & U1). pose proof (e_pm1 c Hc) as Sb.
  pose proof (e_pm6 (-1 * V) ltac:(replace (-1 * V) with (- V) by ring; rewrite Rabs_Ropp; exact HV)) as T'.
  destruct (scobit_parts ex eps pw ep v V c Hex Heps Hpw Hep Fv Hv HV Hc) as (sh & en & p & Es & Fs & Ns & As & Een & Fen & Nen & N1 & Ep & Fp & Np & Nm & lb & PB & AMP).
  set (s := exp c) in *. set (t' := exp (-1 * V)) in *. set (P := Rpower (1 + t') s) in *. set (l := ln (1 + t')) in *.
  assert (en0 : 0 < en) by (apply (near_pos _ _ _ Nen); lra).
  assert (enB : en < bpow radix2 1024).
  { destruct (near_half _ _ _ Nen ltac:(lra) ltac:(lra)). pose proof b1024. lra. }
  (* log1p *)
  pose proof (Hl1 en Fen ltac:(lra)) as A1.
  assert (NP : near (1404 * uround) (1 + en) (1 + t')).
  { destruct Nen as (L & U). unfold near. assert (exp (- (1404 * uround)) <= 1) by (rewrite <- exp_0; apply exp_mono; lra). assert (1 <= exp (1404 * uround)) by (rewrite <- exp_0; apply exp_mono; lra). lra. }
  assert (LN : Rabs (ln (1 + en) - l) <= 1404 * uround) by (apply near_ln; [lra|exact NP]). pose proof LN as LN'. apply Rabs_le_inv in LN'.
  set (le := ln (1 + en)) in *. assert (A2 : e1 * le <= 2 * uround * 8) by (apply Rmult_le_compat; lra).
  assert (NL : near (2 * (577000 * uround)) (l1 en) l).
  { apply near_relative; [lra|lra|]. replace (l1 en - l) with ((l1 en - le) + (le - l)) by ring. eapply Rle_trans; [apply Rabs_triang|].
    assert (uround * / 406 <= uround * l) by (apply Rmult_le_compat_l; lra). lra. }
  assert (ML : exists m, fmul (FNum (-1)) (FNum (l1 en)) = FNum (- m) /\ double_format m /\ near (2 * (577000 * uround) + 2 * uround) m l).
  { destruct (fn_round (2 * (577000 * uround)) (l1 en) l) as (m & Em & Fm & Nm'); [apply ord; lra|lra|exact NL|]. exists m. split; [|split; assumption].
    cbn [fmul]. replace (-1 * l1 en) with (- l1 en) by ring. rewrite rnd_opp. apply overflow_opp, Em. }
  destruct ML as (m & Em & Fm & Nl). assert (m0 : 0 < m) by (apply (near_pos _ _ _ Nl); lra).
  assert (L1 : l * (P / (P - 1)) * s <= 1 + s * l).
  { apply (Rmult_le_reg_r (P - 1)); [lra|]. replace (l * (P / (P - 1)) * s * (P - 1)) with (s * l * P) by (field; lra).
    assert (s0 : 0 < s * l) by (apply Rmult_lt_0_compat; lra). apply Rle_trans with (s * l * ((1 + / (s * l)) * (P - 1))); [apply Rmult_le_compat_l; lra|]. right. field. lra. }
  assert (SLB : s * l <= 272 / 100 * 7) by (apply Rmult_le_compat; lra).
  pose proof (mul_between (/ 406) 7 1 500000001 l P ltac:(lra) ltac:(lra) lb ltac:(lra)) as M1.
  pose proof (div_between (/ 406 * 1) (7 * 500000001) (/ 1200) 500000000 (l * P) (P - 1) ltac:(lra) ltac:(lra) M1 PB) as M2.
  pose proof (mul_between (/ 406 * 1 * / 500000000) (7 * 500000001 * / / 1200) (36 / 100) (272 / 100) (l * P / (P - 1)) s ltac:(lra) ltac:(lra) M2 Sb) as M3.
  assert (Q1 : fnear (2 * (577000 * uround) + 2 * uround + 4010 * uround + 2 * uround) (fmul (FNum m) (FNum p)) (l * P)).
  { apply fn_mul; try lra; [apply ord; lra|exists m; auto|exists p; auto]. }
  assert (Q2 : fnear (2 * (577000 * uround) + 2 * uround + 4010 * uround + 2 * uround + 18110000 * uround + 2 * uround) (fdiv (fmul (FNum m) (FNum p)) (fsub (FNum p) (FNum 1))) (l * P / (P - 1))).
  { apply fn_div; try lra; [apply ord; lra|exact Q1|exact Nm]. }
  assert (Q3 : fnear (2 * (577000 * uround) + 2 * uround + 4010 * uround + 2 * uround + 18110000 * uround + 2 * uround + 4 * uround + 2 * uround) (fmul (fdiv (fmul (FNum m) (FNum p)) (fsub (FNum p) (FNum 1))) (FNum sh)) (l * P / (P - 1) * s)).
  { apply fn_mul; try lra; [apply ord; lra|exact Q2|exists sh; auto]. }
  destruct Q1 as (q1 & E1 & F1 & _). rewrite E1 in *. destruct Nm as (pm & Epm & Fpm & Npm). rewrite Epm in *. assert (pm0 : 0 < pm) by (apply (near_pos _ _ _ Npm); lra).
  destruct Q2 as (q2 & E2 & F2 & _). rewrite E2 in *. destruct Q3 as (q3 & E3 & F3 & N3).
  assert (V3 : l * P / (P - 1) * s <= 21) by (replace (l * P / (P - 1) * s) with (l * (P / (P - 1)) * s) by (field; lra); lra).
  exists (- q3). split; [|split; [apply generic_format_opp; exact F3|]].
  - unfold fscobit_deriv_shape. rewrite Es, Een, Ep. cbn [fln1p is_posinf]. destruct (Rlt_dec (-1) en); [|lra]. rewrite Em, (fmul_opp _ _ _ E1), Epm.
    rewrite (fdiv_opp _ pm _ ltac:(lra) E2), (fmul_opp _ _ _ E3). cbn [is_zero]. destruct (Req_EM_T pm 0); [lra|]. rewrite andb_false_r. reflexivity.
  - replace (-1 * l * P / (P - 1) * s) with (- (l * P / (P - 1) * s)) by (field; lra). rewrite Rabs_Ropp, (Rabs_right (l * P / (P - 1) * s)) by lra. split; [|exact V3].
    replace (- q3 - - (l * P / (P - 1) * s)) with (- (q3 - l * P / (P - 1) * s)) by ring. rewrite Rabs_Ropp. eapply Rle_trans; [apply near_absolute; [| |exact N3]; lra|].
    assert (uround * (l * P / (P - 1) * s) <= uround * 21) by (apply Rmult_le_compat_l; lra). lra.
Qed.

(** *** Asymmetric logit *)

Lemma complement_bound eta sref J j : (sref < J)%nat -> alen eta = (J - 1)%nat -> (2 <= J)%nat -> (j < J)%nat -> (forall k, (k < alen eta)%nat -> Rabs (aget eta k) <= 1) ->
  let c := convert_eta_to_c eta sref j in 0 < c /\ / 9 <= 1 - c.
Proof.
  intros Hr HL HJ Hj He c. split; [apply convert_eta_pos|].
  assert (form : forall k, (k < J)%nat -> exists n, convert_eta_to_c eta sref k = n / eta_denom eta /\ 36 / 100 <= n <= 272 / 100).
  { intros k Hk. rewrite convert_eta_eq. destruct (Nat.eqb_spec k sref); [exists 1; split; [reflexivity|lra]|]. eexists. split; [reflexivity|]. apply e_pm1, He. unfold unskip. destruct (Nat.ltb_spec k sref); lia. }
  set (k := if (j =? 0)%nat then 1%nat else 0%nat).
  assert (Hk : (k < J)%nat /\ k <> j) by (unfold k; destruct (Nat.eqb_spec j 0); lia).
  pose proof (convert_eta_sum eta sref J Hr HL) as T.
  assert (S2 : convert_eta_to_c eta sref j + convert_eta_to_c eta sref k <= sumn J (convert_eta_to_c eta sref)).
  { apply sumn_ge_two; try lia. intros q _. left. apply convert_eta_pos. }
  destruct (form j Hj) as (n & En & Bn). destruct (form k (proj1 Hk)) as (m & Em & Bm). fold c in En, S2. pose proof (eta_denom_pos eta) as D1.
  assert (R : 13 / 100 * c <= convert_eta_to_c eta sref k).
  { rewrite En, Em. unfold Rdiv at 2 3. rewrite <- Rmult_assoc. apply Rmult_le_compat_r; [left; apply Rinv_0_lt_compat; lra|lra]. }
  lra.
Qed.

Lemma select_branch v a b : double_format a -> double_format b -> Rabs a <= 1000000000000000 -> Rabs b <= 1000000000000000 ->
  fadd (fmul (fis_ge0 (FNum v)) (FNum a)) (fmul (fis_lt0 (FNum v)) (FNum b)) = FNum (if Rle_dec 0 v then a else b).
Proof.
  intros Fa Fb Ba Bb. pose proof b1024 as B. assert (b0 : Rabs 0 < bpow radix2 1024) by (rewrite Rabs_R0; lra).
  unfold fis_ge0, fis_lt0. destruct (Rle_dec 0 v), (Rlt_dec v 0); try lra; cbn [fmul]; rewrite Rmult_1_l, Rmult_0_l, rnd_0, (overflow_num 0) by exact b0.
  - rewrite (rnd_id _ Fa), (overflow_num a) by lra. cbn [fadd]. rewrite Rplus_0_r, (rnd_id _ Fa). apply overflow_num. lra.
  - rewrite (rnd_id _ Fb), (overflow_num b) by lra. cbn [fadd]. rewrite Rplus_0_l, (rnd_id _ Fb). apply overflow_num. lra.
Qed.

(** natural shapes of the usual size *)
Lemma asym_shape_near ex eps eta sref J alt t : accurate_exp ex eps -> 0 <= eps <= 2 * uround -> (2 <= J <= 100)%nat -> (sref < J)%nat -> alen eta = (J - 1)%nat ->
  Permutation (terms_of t) (seq 0 (alen eta)) -> (forall j, (j < alen eta)%nat -> Rabs (aget eta j) <= 1) -> (alt < J)%nat ->
  let c := convert_eta_to_c eta sref alt in
  exists x, fasym_shape ex (fun j => FNum (aget eta j)) t (eta_position sref alt) = FNum x /\ double_format x /\ near (2424 * uround) x c /\ Rabs (x - c) <= 1212 * uround * c /\
    / 740 <= c <= 8 / 9 /\ / 9 <= 1 - c.
Proof.
  intros Hex Heps HJ Hs HL HP He Ha c. pose proof u_small as (U0 & U1). pose proof e_1 as (e1l & e1u).
  destruct (complement_bound eta sref J alt Hs HL ltac:(lia) Ha He) as (c0 & c1). fold c in c0, c1.
  destruct (shapes_between eta sref J alt 1 Hs HL ltac:(lia) Ha ltac:(lra) He) as (c2 & _). fold c in c2.
  assert (MM : 0 < INR J * exp (2 * 1) <= 740).
  { assert (Q : INR J <= 100) by (replace 100 with (INR 100) by (rewrite INR_IZR_INZ; reflexivity); apply le_INR; lia). assert (0 < INR J) by (apply lt_0_INR; lia).
    replace (2 * 1) with (1 + 1) by ring. rewrite exp_plus. assert (exp 1 * exp 1 <= 272 / 100 * (272 / 100)) by (apply Rmult_le_compat; lra).
    assert (0 < exp 1 * exp 1) by (apply Rmult_lt_0_compat; lra). split; [apply Rmult_lt_0_compat; lra|]. apply Rle_trans with (100 * 7.4); [apply Rmult_le_compat; lra|lra]. }
  assert (/ 740 <= / (INR J * exp (2 * 1))) by (apply Rinv_le_contravar; lra).
  assert (E40 : 2 * uround <= / 2 ^ 40).
  { unfold uround. replace (2 * / 2 ^ 53) with (/ 2 ^ 52) by (change (2 ^ 53) with (2 * 2 ^ 52); rewrite Rinv_mult; field; apply pow_nonzero; lra). apply Rinv_le_contravar; [apply pow_lt; lra|apply Rle_pow; [lra|lia]]. }
  destruct (C128_natural_shapes_are_accurate ex eps eta sref alt t Hex ltac:(lra)) as (x & Ex & Fx & Ax); try lia; try assumption.
  { intros j Hj. pose proof (He j Hj). lra. }
  fold c in Ax. assert (SE : 0 <= shape_error eps (alen eta) <= 1212 * uround).
  { unfold shape_error. fold uround. assert (Q : INR (alen eta) <= 99) by (replace 99 with (INR 99) by (rewrite INR_IZR_INZ; reflexivity); apply le_INR; lia).
    pose proof (pos_INR (alen eta)). assert ((INR (alen eta) + 1) * uround <= 100 * uround) by (apply Rmult_le_compat_r; lra). assert (0 <= (INR (alen eta) + 1) * uround) by (apply Rmult_le_pos; lra). lra. }
  assert (Ax' : Rabs (x - c) <= 1212 * uround * c) by (eapply Rle_trans; [exact Ax|]; apply Rmult_le_compat_r; lra).
  exists x. split; [exact Ex|]. split; [exact Fx|]. split; [|split; [exact Ax'|lra]]. replace (2424 * uround) with (2 * (1212 * uround)) by ring. apply near_relative; [lra|lra|exact Ax'].
Qed.

Definition asym_rate (J : nat) (c V : R) : R := -1 * (if Rle_dec 0 V then ln c else ln ((1 - c) / (INR J - 1))).
Definition asym_dh_dc (c V : R) : R := 1 / c - V * (if Rle_dec 0 V then 1 / c else -1 / (1 - c)).

Lemma ln_740 a : / 1000 <= a <= 1 -> Rabs (ln a) <= 10.
Proof.
  intros (L & U). assert (E : 1000 <= exp 10) by (pose proof e_1; replace 10 with (INR 10) by (rewrite INR_IZR_INZ; reflexivity); rewrite exp_INR; apply Rle_trans with (2 ^ 10); [cbn; lra|apply pow_incr; lra]).
  assert (ln a <= 0) by (rewrite <- ln_1; apply ln_mono; lra). assert (ln (/ 1000) <= ln a) by (apply ln_mono; lra). rewrite ln_Rinv in H0 by lra.
  assert (ln 1000 <= 10) by (rewrite <- (ln_exp 10); apply ln_mono; lra). apply Rabs_le. lra.
Qed.

(** [x]: the computed natural shape.  The computed utility has the sign of the utility. *)
Theorem C132_asym_derivatives :
  forall lg el J c x v V, accurate_ln lg el -> 0 <= el <= 2 * uround -> (2 <= J <= 100)%nat ->
  double_format x -> near (2424 * uround) x c -> Rabs (x - c) <= 1212 * uround * c -> / 740 <= c <= 8 / 9 ->
  double_format v -> Rabs (v - V) <= 1400 * uround -> Rabs V <= 6 -> (0 <= V <-> 0 <= v) ->
  (exists r, fasym_deriv_v lg J (FNum x) (FNum v) = FNum r /\ double_format r /\ Rabs (r - asym_rate J c V) <= 330000 * uround /\ Rabs (asym_rate J c V) <= 10) /\
  exists r, fasym_dh_dc (FNum x) (FNum v) = FNum r /\ double_format r /\ Rabs (r - asym_dh_dc c V) <= 26400000 * uround /\ Rabs (asym_dh_dc c V) <= 5180.
Proof.
  intros lg el J c x v V Hlg Hel HJ Fx Nx Ax cb Fv Hv HV HS. pose proof u_small as (U0 & U1). pose proof b1024 as B24.
  assert (J2 : 1 <= INR J - 1 <= 99).
  { split; [assert (INR 2 <= INR J) by (apply le_INR; lia); cbn in H; lra|assert (INR J <= INR 100) by (apply le_INR; lia); replace (INR 100) with 100 in H by (rewrite INR_IZR_INZ; reflexivity); lra]. }
  assert (Fn : double_format (INR J - 1)).
  { rewrite INR_IZR_INZ, <- minus_IZR. apply small_integer. rewrite Z.abs_eq by lia. apply Z.le_lt_trans with 100%Z; [lia|reflexivity]. }
  set (n := INR J - 1) in *.
  assert (Ny : fnear (2 * (38784 * uround) + 2 * uround) (fsub (FNum 1) (FNum x)) (1 - c)).
  { apply (fn_sub 0 (2424 * uround)); try lra; [apply ord; lra| |apply fn_one|exists x; auto]. assert (uround * c <= uround * (8 * (1 - c))) by (apply Rmult_le_compat_l; lra). lra. }
  split.
  - assert (xb : 0 < x < bpow radix2 1024) by (assert (1212 * uround * c <= / 1000 * c) by (apply Rmult_le_compat_r; lra); apply Rabs_le_inv in Ax; lra).
    destruct (log_rel lg el x c (1212 * uround) Hlg ltac:(lra) Fx ltac:(lra) ltac:(lra) ltac:(lra) Ax) as (E1 & F1 & A1).
    pose proof (div_between (/ 9) 1 1 99 (1 - c) n ltac:(lra) ltac:(lra) ltac:(lra) J2) as M1.
    assert (Nq : fnear (2 * (38784 * uround) + 2 * uround + 0 + 2 * uround) (fdiv (fsub (FNum 1) (FNum x)) (FNum n)) ((1 - c) / n)).
    { apply fn_div; try lra; [apply ord; lra|exact Ny|apply fn_num; exact Fn]. }
    destruct Nq as (q & Eq & Fq & Nq). set (Q := (1 - c) / n) in *.
    assert (Aq : Rabs (q - Q) <= 2 * (2 * (38784 * uround) + 2 * uround + 0 + 2 * uround) * Q) by (apply near_absolute; [lra|lra|exact Nq]).
    assert (qb : q < bpow radix2 1024) by (destruct (near_half _ _ _ Nq ltac:(lra) ltac:(lra)); lra).
    destruct (log_rel lg el q Q (2 * (2 * (38784 * uround) + 2 * uround + 0 + 2 * uround)) Hlg ltac:(lra) Fq ltac:(lra) ltac:(lra) qb Aq) as (E2 & F2 & A2).
    pose proof (ln_740 c ltac:(lra)) as L1. pose proof (ln_740 Q ltac:(lra)) as L2.
    assert (el * (Rabs (ln c) + 1) <= 2 * uround * 11) by (pose proof (Rabs_pos (ln c)); apply Rmult_le_compat; lra).
    assert (el * (Rabs (ln Q) + 1) <= 2 * uround * 11) by (pose proof (Rabs_pos (ln Q)); apply Rmult_le_compat; lra).
    assert (A1' : Rabs (lg x - ln c) <= 330000 * uround) by lra. assert (A2' : Rabs (lg q - ln Q) <= 330000 * uround) by lra.
    assert (G : forall l L, Rabs (l - L) <= 330000 * uround -> Rabs L <= 10 -> Rabs l <= 11).
    { intros l0 L0 H1 H2. replace l0 with (L0 + (l0 - L0)) by ring. eapply Rle_trans; [apply Rabs_triang|]. lra. }
    pose proof (G _ _ A1' L1) as G1. pose proof (G _ _ A2' L2) as G2.
    set (r := if Rle_dec 0 v then lg x else lg q). exists (- r).
    assert (Fr : double_format r) by (unfold r; destruct (Rle_dec 0 v); assumption). assert (Br : Rabs r <= 11) by (unfold r; destruct (Rle_dec 0 v); assumption).
    split; [|split; [apply generic_format_opp; exact Fr|]].
    + unfold fasym_deriv_v. fold n. rewrite E1, Eq, E2. cbn [on_neginf]. rewrite select_branch by (try assumption; lra). fold r. apply minus_exact; [exact Fr|lra].
    + unfold asym_rate. fold n Q. replace (-1 * (if Rle_dec 0 V then ln c else ln Q)) with (- (if Rle_dec 0 V then ln c else ln Q)) by ring. rewrite Rabs_Ropp.
      replace (- r - - (if Rle_dec 0 V then ln c else ln Q)) with (- (r - (if Rle_dec 0 V then ln c else ln Q))) by ring. rewrite Rabs_Ropp. unfold r.
      destruct (Rle_dec 0 v), (Rle_dec 0 V); try tauto; auto.
  - pose proof (div_between 1 1 (/ 740) 1 1 c ltac:(lra) ltac:(lra) ltac:(lra) ltac:(lra)) as M1. pose proof (div_between 1 1 (/ 9) 1 1 (1 - c) ltac:(lra) ltac:(lra) ltac:(lra) ltac:(lra)) as M2.
    assert (N1 : fnear (0 + 2424 * uround + 2 * uround) (fdiv (FNum 1) (FNum x)) (1 / c)) by (apply fn_div; try lra; [apply ord; lra|apply fn_one|exists x; auto]).
    assert (N2 : fnear (0 + (2 * (38784 * uround) + 2 * uround) + 2 * uround) (fdiv (FNum 1) (fsub (FNum 1) (FNum x))) (1 / (1 - c))) by (apply fn_div; try lra; [apply ord; lra|apply fn_one|exact Ny]).
    destruct (fn_abs (0 + 2424 * uround + 2 * uround) _ (1 / c) ltac:(lra) ltac:(lra) N1) as (d1 & E1 & F1 & A1). destruct (fn_abs (0 + (2 * (38784 * uround) + 2 * uround) + 2 * uround) _ (1 / (1 - c)) ltac:(lra) ltac:(lra) N2) as (d2 & E2 & F2 & A2).
    destruct Ny as (y & Ey & Fy & Ny). assert (y0 : 0 < y) by (apply (near_pos _ _ _ Ny); lra). rewrite Ey in E2.
    assert (uround * (1 / c) <= uround * 740) by (apply Rmult_le_compat_l; lra). assert (uround * (1 / (1 - c)) <= uround * 9) by (apply Rmult_le_compat_l; lra).
    assert (A1' : Rabs (d1 - 1 / c) <= 3600000 * uround) by lra. assert (A2' : Rabs (- d2 - -1 / (1 - c)) <= 3600000 * uround).
    { replace (- d2 - -1 / (1 - c)) with (- (d2 - 1 / (1 - c))) by (field; lra). rewrite Rabs_Ropp. lra. }
    set (mx := if Rle_dec 0 v then d1 else - d2). set (m := if Rle_dec 0 V then 1 / c else -1 / (1 - c)).
    assert (Am : Rabs (mx - m) <= 3600000 * uround) by (unfold mx, m; destruct (Rle_dec 0 v), (Rle_dec 0 V); try tauto; assumption).
    assert (Bm : Rabs m <= 740).
    { unfold m. destruct (Rle_dec 0 V); [rewrite Rabs_right; lra|]. replace (-1 / (1 - c)) with (- (1 / (1 - c))) by (field; lra). rewrite Rabs_Ropp, Rabs_right; lra. }
    pose proof Am as Am'. pose proof Bm as Bm'. pose proof A1' as A1''. pose proof A2' as A2''. pose proof Hv as Hv'. pose proof HV as HV'. apply Rabs_le_inv in Am', Bm', A1'', A2'', Hv', HV'.
    assert (D2' : -1 / (1 - c) = - (1 / (1 - c))) by (field; lra).
    assert (VM : Rabs (v * mx) <= 5000).
    { rewrite Rabs_mult. apply Rle_trans with (6.5 * 741); [|lra]. apply Rmult_le_compat; try apply Rabs_pos; apply Rabs_le; lra. }
    destruct (fmul_close v mx 5000 VM ltac:(apply big_1000; lra)) as (w & Ew & Fw & Aw).
    assert (DW : Rabs (w - V * m) <= 22700000 * uround).
    { replace (w - V * m) with ((w - v * mx) + ((v - V) * mx + V * (mx - m))) by ring. eapply Rle_trans; [apply Rabs_triang|]. pose proof (Rabs_triang ((v - V) * mx) (V * (mx - m))) as Q. rewrite !Rabs_mult in Q.
      assert (Rabs (v - V) * Rabs mx <= 1400 * uround * 741) by (apply Rmult_le_compat; try apply Rabs_pos; [lra|apply Rabs_le; lra]).
      assert (Rabs V * Rabs (mx - m) <= 6 * (3600000 * uround)) by (apply Rmult_le_compat; try apply Rabs_pos; lra). lra. }
    assert (BV : Rabs (V * m) <= 4440) by (rewrite Rabs_mult; replace 4440 with (6 * 740) by ring; apply Rmult_le_compat; try apply Rabs_pos; lra).
    pose proof DW as DW'. pose proof BV as BV'. apply Rabs_le_inv in DW', BV'.
    assert (BD : Rabs (d1 + - w) <= 6000) by (apply Rabs_le; lra).
    destruct (fadd_close d1 (- w) 6000 BD ltac:(apply big_1000; lra)) as (r & Er & Fr & Ar). exists r. split; [|split; [exact Fr|]].
    + unfold fasym_dh_dc. rewrite E1, Ey. cbn [on_posinf]. change (FNum (-1)) with (FNum (Ropp 1)). rewrite (fdiv_opp 1 y d2 ltac:(lra) E2). cbn [on_neginf].
      rewrite select_branch by (try assumption; try (apply generic_format_opp; assumption); apply Rabs_le; lra). fold mx. rewrite Ew. unfold fsub. cbn [fneg]. rewrite Er. reflexivity.
    + unfold asym_dh_dc. fold m. apply Rabs_le_inv in Ar. split; apply Rabs_le; lra.
Qed.

Lemma asym_dc_deta c c' x x' same : double_format x -> near (2424 * uround) x c -> Rabs (x - c) <= 1212 * uround * c -> / 740 <= c <= 8 / 9 ->
  double_format x' -> near (2424 * uround) x' c' -> / 740 <= c' <= 8 / 9 ->
  exists r, fdc_deta (FNum x) (FNum x') same = FNum r /\ double_format r /\ Rabs (r - ((if same then c else 0) - c * c')) <= 11000 * uround /\ Rabs ((if same then c else 0) - c * c') <= 1.
Proof.
  intros Fx Nx Ax cb Fx' Nx' cb'. pose proof u_small as (U0 & U1).
  pose proof (mul_between (/ 740) (8 / 9) (/ 740) (8 / 9) c c' ltac:(lra) ltac:(lra) cb cb') as M.
  assert (N : fnear (2424 * uround + 2424 * uround + 2 * uround) (fmul (FNum x) (FNum x')) (c * c')) by (apply fn_mul; try lra; [apply ord; lra|exists x; auto|exists x'; auto]).
  destruct (fn_abs (2424 * uround + 2424 * uround + 2 * uround) _ (c * c') ltac:(lra) ltac:(lra) N) as (p & Ep & Fp & Ap). assert (uround * (c * c') <= uround * 1) by (apply Rmult_le_compat_l; lra). assert (uround * c <= uround * 1) by (apply Rmult_le_compat_l; lra).
  apply Rabs_le_inv in Ap, Ax. unfold fdc_deta. rewrite Ep. unfold fsub. cbn [fneg]. set (a := if same then x else 0).
  replace (if same then FNum x else FNum 0) with (FNum a) by (unfold a; destruct same; reflexivity). set (b := if same then c else 0).
  assert (AB : - (1212 * uround) <= a - b <= 1212 * uround) by (unfold a, b; destruct same; lra). assert (Bb : 0 <= b <= 1) by (unfold b; destruct same; lra).
  assert (B2 : Rabs (a + - p) <= 2) by (apply Rabs_le; lra).
  destruct (fadd_close a (- p) 2 B2 ltac:(apply big_1000; lra)) as (r & Er & Fr & Ar). exists r. split; [exact Er|]. split; [exact Fr|]. apply Rabs_le_inv in Ar. split; apply Rabs_le; [|unfold b in *; destruct same; lra]. lra.
Qed.

(** ** C132: the columns of the gradient *)

(** The derivative of the asymmetric model's transformation jumps where the utility changes
    sign: the computed utility has the sign of the utility. *)
Definition same_side (k : logit_kind) (D : Data) (beta : arr) (order : nat -> dot_order) : Prop :=
  match k with
  | Transforms.KAsym _ _ => forall i v, (i < d_N D)%nat ->
      float_utility (fun i j => FNum (d_X D i j)) (fun j => FNum (aget beta j)) order i = FNum v -> (0 <= sys_utilities D beta i <-> 0 <= v)
  | _ => True
  end.

(** How much of a parameter a row sees: the entry of the design matrix for a coefficient, one
    for a shape or an intercept. *)
Definition exposure (k : logit_kind) (D : Data) (j i : nat) : R :=
  let n := (num_shapes k (d_J D) + num_icpts k (d_J D))%nat in if (j <? n)%nat then 1 else Rabs (d_X D i (j - n)%nat).

Lemma same_side_away k D beta order : rows_in_range D beta order 6 ->
  (forall i, (i < d_N D)%nat -> utility_error (d_K D) 6 < Rabs (sys_utilities D beta i)) -> same_side k D beta order.
Proof.
  intros HR H. destruct k; try exact I. intros i v Hi E. destruct (computed_utility D beta order 6 i HR Hi ltac:(lra)) as (v' & E' & _ & A & _). rewrite E in E'. injection E' as <-.
  pose proof (H i Hi) as Q. apply Rabs_le_inv in A. destruct (Rle_dec 0 (sys_utilities D beta i)) as [P|P].
  - rewrite Rabs_right in Q by lra. split; intros; lra.
  - rewrite Rabs_left in Q by lra. split; intros; lra.
Qed.

(** The exact derivative in the utility, row by row. *)
Definition row_rate (k : logit_kind) (D : Data) (th : arr) (i : nat) : R :=
  let v := sys_utilities D (be k (d_J D) (d_K D) th) in let shape := sh k (d_J D) th in
  match k with
  | Transforms.KMNL => 1
  | Transforms.KClog _ => cloglog_deriv_v v i
  | Transforms.KScobit _ => scobit_deriv_v (d_J D) (d_A D) v shape i
  | Transforms.KUneven _ => uneven_deriv_v (d_J D) (d_A D) v shape i
  | Transforms.KAsym s _ => asym_deriv_v s (d_J D) (d_A D) v shape i
  end.

Lemma DH_coefficient k D th i j : (i < d_N D)%nat -> let n := (num_shapes k (d_J D) + num_icpts k (d_J D))%nat in (n <= j)%nat ->
  DH k D th i j = row_rate k D th i * d_X D i (j - n)%nat.
Proof.
  intros Hi n Hj. unfold DH, hcat, vcat. rewrite (proj2 (Nat.ltb_ge j (num_shapes k (d_J D)))) by (unfold n in Hj; lia).
  rewrite (proj2 (Nat.ltb_ge (j - num_shapes k (d_J D)) (num_icpts k (d_J D)))) by (unfold n in Hj; lia).
  replace (j - num_shapes k (d_J D) - num_icpts k (d_J D))%nat with (j - n)%nat by (unfold n; lia).
  unfold dh_db, row_rate. destruct k; cbn [model_of MNL_model Clog_model Scobit_model Uneven_model Asym_model m_dh_dv]; rewrite diag_dot by exact Hi; reflexivity.
Qed.

Lemma DH_intercept k D th i j r : (j < num_shapes k (d_J D) + num_icpts k (d_J D))%nat -> (num_shapes k (d_J D) <= j)%nat -> kind_iref k = Some r ->
  DH k D th i j = d_A D i (skip r (j - num_shapes k (d_J D))%nat).
Proof.
  intros Hj Hs Hr. unfold DH, hcat, vcat. rewrite (proj2 (Nat.ltb_ge j (num_shapes k (d_J D)))) by lia. rewrite (proj2 (Nat.ltb_lt (j - num_shapes k (d_J D)) (num_icpts k (d_J D)))) by lia.
  destruct (dh_da_some k (d_J D) (d_A D) (sys_utilities D (be k (d_J D) (d_K D) th)) (ic k (d_J D) th) ltac:(lia)) as (r' & Er & E). rewrite Hr in Er. injection Er as <-. rewrite E. reflexivity.
Qed.

Theorem C132_rates_are_accurate :
  forall k ex eps lg el pw ep st D alt uorder th i,
  accurate_exp ex eps -> 0 <= eps <= / 2 ^ 52 -> accurate_ln lg el -> 0 <= el <= / 2 ^ 52 -> accurate_np_power pw ep -> 0 <= ep <= / 2 ^ 52 ->
  let shape := sh k (d_J D) th in let beta := be k (d_J D) (d_K D) th in
  alternatives_of D alt -> rows_in_range D beta uorder 6 -> (d_K D <= 100)%nat -> usual_shapes k (d_J D) st shape -> same_side k D beta uorder ->
  (i < d_N D)%nat ->
  exists r, frow_deriv_v k ex lg pw (d_J D) st shape (alt i) (float_utility (fun i j => FNum (d_X D i j)) (fun j => FNum (aget beta j)) uorder i) = FNum r /\ double_format r /\
    Rabs (r - row_rate k D th i) <= 2 * / 10 ^ 8 /\ Rabs (row_rate k D th i) <= 406.
Proof.
  intros k ex eps lg el pw ep st D alt uorder th i Hex Heps Hlg Hel Hpw Hep shape beta HA HR HK HS Hside Hi.
  assert (E52 : / 2 ^ 52 = 2 * uround) by (unfold uround; change (2 ^ 53) with (2 * 2 ^ 52); rewrite Rinv_mult; field; apply pow_nonzero; lra). rewrite E52 in *.
  pose proof u_small as (U0 & U1). replace (2 * / 10 ^ 8) with (2 * / 100000000) by (cbn; lra).
  destruct (computed_utility D beta uorder 6 i HR Hi ltac:(lra)) as (v & Ev & Fv & Av & Bv & _).
  assert (UE : utility_error (d_K D) 6 <= 1400 * uround).
  { unfold utility_error. rewrite <- tiny_eq. fold uround. pose proof tiny_le_u as T. pose proof (pos_INR (d_K D)) as K0.
    apply le_INR in HK. replace (INR 100) with 100 in HK by (rewrite INR_IZR_INZ; reflexivity). apply Rle_trans with (2 * 100 * (uround * 7)); [apply Rmult_le_compat; lra|lra]. }
  assert (Hv : Rabs (v - sys_utilities D beta i) <= 1400 * uround) by lra. destruct (HA i Hi) as (Ha & Hrow). rewrite Ev.
  unfold row_rate. fold shape beta. destruct k as [|iref|iref|iref|sref iref]; cbn [usual_shapes] in HS; cbn [frow_deriv_v].
  - exists 1. split; [reflexivity|]. split; [apply double_1|]. rewrite Rminus_diag_eq, Rabs_R0, Rabs_R1 by reflexivity. lra.
  - set (V := sys_utilities D beta i) in *. destruct (C132_clog_derivative ex eps v V Hex Heps Fv Hv Bv) as (N & B).
    assert (E : cloglog_deriv_v (sys_utilities D beta) i = clog_rate V).
    { unfold cloglog_deriv_v, clog_rate. fold V. destruct (Req_EM_T (exp (-1 * V)) 0) as [Z|_]; [pose proof (exp_pos (-1 * V)); lra|]. destruct (Req_EM_T (1 - exp (-1 * exp V)) 0) as [Z|_]; [|reflexivity].
      assert (exp (-1 * exp V) < exp 0) by (apply exp_increasing; pose proof (exp_pos V); lra). rewrite exp_0 in *. lra. }
    rewrite E. destruct (fn_abs (20000 * uround) _ (clog_rate V) ltac:(lra) ltac:(lra) N) as (r & Er & Fr & Ar). exists r. split; [exact Er|]. split; [exact Fr|]. rewrite (Rabs_right (clog_rate V)) by lra. split; [|lra].
    eapply Rle_trans; [exact Ar|]. assert (uround * clog_rate V <= uround * 406) by (apply Rmult_le_compat_l; lra). lra.
  - change shape with (Some (aslice 0 (d_J D) th)) in *. cbv iota in HS |- *. set (c := aslice 0 (d_J D) th) in *. set (V := sys_utilities D beta i) in *.
    destruct (C132_scobit_derivative ex eps pw ep v V (aget c (alt i)) Hex Heps Hpw Hep Fv Hv Bv (HS _ Ha)) as (N & B).
    assert (E : scobit_deriv_v (d_J D) (d_A D) (sys_utilities D beta) (Some c) i = scobit_rate (exp (aget c (alt i))) V).
    { unfold scobit_deriv_v, long_natural_shapes. rewrite (select _ _ _ i (alt i) Ha Hrow). fold V. unfold scobit_rate.
      destruct (Req_EM_T (exp (-1 * V)) 0) as [Z|_]; [pose proof (exp_pos (-1 * V)); lra|]. destruct (Req_EM_T _ 0) as [Z|_]; [|reflexivity].
      pose proof (scobit_pow_gt1 V (exp (aget c (alt i))) (exp_pos _)). lra. }
    rewrite E. destruct (fn_abs (18120000 * uround) _ (scobit_rate (exp (aget c (alt i))) V) ltac:(lra) ltac:(lra) N) as (r & Er & Fr & Ar). exists r. split; [exact Er|]. split; [exact Fr|].
    set (z := scobit_rate (exp (aget c (alt i))) V) in *. rewrite (Rabs_right z) by lra. split; [|lra]. eapply Rle_trans; [exact Ar|]. assert (uround * z <= uround * (372 / 100)) by (apply Rmult_le_compat_l; lra). lra.
  - change shape with (Some (aslice 0 (d_J D) th)) in *. cbv iota in HS |- *. set (c := aslice 0 (d_J D) th) in *. set (V := sys_utilities D beta i) in *.
    destruct (C132_uneven_derivative ex eps v V (aget c (alt i)) Hex Heps Fv Hv Bv (HS _ Ha)) as (N & B & _).
    assert (E : uneven_deriv_v (d_J D) (d_A D) (sys_utilities D beta) (Some c) i = uneven_rate (exp (aget c (alt i))) V).
    { unfold uneven_deriv_v, long_natural_shapes. rewrite (select _ _ _ i (alt i) Ha Hrow). reflexivity. }
    rewrite E. destruct (fn_abs (4100 * uround) _ (uneven_rate (exp (aget c (alt i))) V) ltac:(lra) ltac:(lra) N) as (r & Er & Fr & Ar). exists r. split; [exact Er|]. split; [exact Fr|].
    set (z := uneven_rate (exp (aget c (alt i))) V) in *. rewrite (Rabs_right z) by lra. split; [|lra]. eapply Rle_trans; [exact Ar|]. assert (uround * z <= uround * (372 / 100)) by (apply Rmult_le_compat_l; lra). lra.
  - change shape with (Some (aslice 0 (d_J D - 1) th)) in *. cbv iota in HS |- *. set (c := aslice 0 (d_J D - 1) th) in *. set (V := sys_utilities D beta i) in *.
    destruct HS as (HJ & Hs & HL & HP & Hc).
    destruct (asym_shape_near ex eps c sref (d_J D) (alt i) st Hex Heps HJ Hs HL HP Hc Ha) as (x & Ex & Fx & Nx & Ax & cb & _). rewrite Ex.
    destruct (C132_asym_derivatives lg el (d_J D) _ x v V Hlg Hel HJ Fx Nx Ax cb Fv Hv Bv (Hside i v Hi Ev)) as ((r & Er & Fr & Ar & Br) & _).
    assert (E : asym_deriv_v sref (d_J D) (d_A D) (sys_utilities D beta) (Some c) i = asym_rate (d_J D) (convert_eta_to_c c sref (alt i)) V).
    { unfold asym_deriv_v, asym_long_shapes, asym_natural_shapes. rewrite (select _ _ _ i (alt i) Ha Hrow). reflexivity. }
    rewrite E. exists r. split; [exact Er|]. split; [exact Fr|]. lra.
Qed.

Theorem C132_shape_columns_are_accurate :
  forall k ex eps lg el l1 e1 pw ep st D alt uorder th i j,
  accurate_exp ex eps -> 0 <= eps <= / 2 ^ 52 -> accurate_ln lg el -> 0 <= el <= / 2 ^ 52 ->
  accurate_log1p l1 e1 -> 0 <= e1 <= / 2 ^ 52 -> accurate_np_power pw ep -> 0 <= ep <= / 2 ^ 52 ->
  let shape := sh k (d_J D) th in let beta := be k (d_J D) (d_K D) th in
  alternatives_of D alt -> rows_in_range D beta uorder 6 -> (d_K D <= 100)%nat -> usual_shapes k (d_J D) st shape -> same_side k D beta uorder ->
  (i < d_N D)%nat -> (j < num_shapes k (d_J D))%nat ->
  exists r, frow_deriv_shape k ex l1 pw st shape (alt i) (float_utility (fun i j => FNum (d_X D i j)) (fun j => FNum (aget beta j)) uorder i) j = FNum r /\ double_format r /\
    Rabs (r - DH k D th i j) <= / 10 ^ 7 /\ Rabs (DH k D th i j) <= 5200.
Proof.
  intros k ex eps lg el l1 e1 pw ep st D alt uorder th i j Hex Heps Hlg Hel Hl1 He1 Hpw Hep shape beta HA HR HK HS Hside Hi Hj.
  assert (E52 : / 2 ^ 52 = 2 * uround) by (unfold uround; change (2 ^ 53) with (2 * 2 ^ 52); rewrite Rinv_mult; field; apply pow_nonzero; lra). rewrite E52 in *.
  pose proof u_small as (U0 & U1). replace (/ 10 ^ 7) with (10 * / 100000000) by (cbn; lra).
  destruct (computed_utility D beta uorder 6 i HR Hi ltac:(lra)) as (v & Ev & Fv & Av & Bv & _).
  assert (UE : utility_error (d_K D) 6 <= 1400 * uround).
  { unfold utility_error. rewrite <- tiny_eq. fold uround. pose proof tiny_le_u as T. pose proof (pos_INR (d_K D)) as K0.
    apply le_INR in HK. replace (INR 100) with 100 in HK by (rewrite INR_IZR_INZ; reflexivity). apply Rle_trans with (2 * 100 * (uround * 7)); [apply Rmult_le_compat; lra|lra]. }
  assert (Hv : Rabs (v - sys_utilities D beta i) <= 1400 * uround) by lra. destruct (HA i Hi) as (Ha & Hrow). rewrite Ev.
  unfold DH, hcat, vcat. rewrite (proj2 (Nat.ltb_lt j (num_shapes k (d_J D))) Hj). fold shape beta.
  destruct k as [|iref|iref|iref|sref iref]; cbn [usual_shapes num_shapes] in HS, Hj; try lia; cbn [frow_deriv_shape model_of Scobit_model Uneven_model Asym_model m_dh_dc cent_or_zero cent].
  - change shape with (Some (aslice 0 (d_J D) th)) in *. cbv iota in HS |- *. set (c := aslice 0 (d_J D) th) in *. set (V := sys_utilities D beta i) in *.
    destruct (C132_scobit_shape_derivative ex eps l1 e1 pw ep v V (aget c (alt i)) Hex Heps Hl1 He1 Hpw Hep Fv Hv Bv (HS _ Ha)) as (r & Er & Fr & Ar & Br). cbv zeta in Ar, Br.
    unfold with_data. rewrite (Hrow j Hj). destruct (j =? alt i)%nat.
    + exists r. split; [exact Er|]. split; [exact Fr|]. rewrite Rmult_1_l.
      assert (E : scobit_deriv_shape (d_J D) (d_A D) (sys_utilities D beta) (Some c) i =
        -1 * ln (1 + exp (-1 * V)) * Rpower (1 + exp (-1 * V)) (exp (aget c (alt i))) / (Rpower (1 + exp (-1 * V)) (exp (aget c (alt i))) - 1) * exp (aget c (alt i))).
      { unfold scobit_deriv_shape, long_natural_shapes. rewrite (select _ _ _ i (alt i) Ha Hrow). fold V.
        destruct (Req_EM_T _ 0) as [Z|_]; [|reflexivity]. pose proof (scobit_pow_gt1 V (exp (aget c (alt i))) (exp_pos _)). lra. }
      rewrite E. lra.
    + exists 0. split; [reflexivity|]. split; [apply generic_format_0|]. rewrite Rmult_0_l, Rminus_0_r, Rabs_R0. lra.
  - change shape with (Some (aslice 0 (d_J D) th)) in *. cbv iota in HS |- *. set (c := aslice 0 (d_J D) th) in *. set (V := sys_utilities D beta i) in *.
    destruct (C132_uneven_derivative ex eps v V (aget c (alt i)) Hex Heps Fv Hv Bv (HS _ Ha)) as (_ & _ & r & Er & Fr & Ar & Br).
    unfold with_data. rewrite (Hrow j Hj). destruct (j =? alt i)%nat.
    + exists r. split; [exact Er|]. split; [exact Fr|]. rewrite Rmult_1_l.
      assert (E : uneven_deriv_shape (d_J D) (d_A D) (sys_utilities D beta) (Some c) i = V / (1 + exp (exp (aget c (alt i)) * V)) * exp (aget c (alt i))).
      { unfold uneven_deriv_shape, long_natural_shapes. rewrite (select _ _ _ i (alt i) Ha Hrow). reflexivity. }
      rewrite E. lra.
    + exists 0. split; [reflexivity|]. split; [apply generic_format_0|]. rewrite Rmult_0_l, Rminus_0_r, Rabs_R0. lra.
  - change shape with (Some (aslice 0 (d_J D - 1) th)) in *. cbv iota in HS |- *. set (c := aslice 0 (d_J D - 1) th) in *. set (V := sys_utilities D beta i) in *.
    destruct HS as (HJ & Hs & HL & HP & Hc). set (a' := skip sref j).
    assert (Ha' : (a' < d_J D)%nat) by (apply skip_lt; assumption).
    destruct (asym_shape_near ex eps c sref (d_J D) (alt i) st Hex Heps HJ Hs HL HP Hc Ha) as (x & Ex & Fx & Nx & Ax & cb & _). rewrite Ex.
    destruct (asym_shape_near ex eps c sref (d_J D) a' st Hex Heps HJ Hs HL HP Hc Ha') as (x' & Ex' & Fx' & Nx' & Ax' & cb' & _). rewrite Ex'.
    destruct (C132_asym_derivatives lg el (d_J D) _ x v V Hlg Hel HJ Fx Nx Ax cb Fv Hv Bv (Hside i v Hi Ev)) as (_ & r & Er & Fr & Ar & Br).
    destruct (asym_dc_deta _ _ x x' (alt i =? a')%nat Fx Nx Ax cb Fx' Nx' cb') as (d & Ed & Fd & Ad & Bd). rewrite Er, Ed.
    assert (E : asym_deriv_shape sref (d_J D) (d_A D) (sys_utilities D beta) (Some c) i j =
      asym_dh_dc (convert_eta_to_c c sref (alt i)) V * ((if (alt i =? a')%nat then convert_eta_to_c c sref (alt i) else 0) - convert_eta_to_c c sref (alt i) * convert_eta_to_c c sref a')).
    { unfold asym_deriv_shape, mdot. rewrite (sumn_ext _ _ (fun r => d_A D i r * (asym_dh_dc_values sref (d_J D) (d_A D) (sys_utilities D beta) (Some c) i * deriv_c_wrt_eta (asym_natural_shapes sref (Some c)) sref r j))).
      2: { intros q Hq. unfold with_data. ring. }
      etransitivity; [apply (select (d_J D) (d_A D) (fun r => asym_dh_dc_values sref (d_J D) (d_A D) (sys_utilities D beta) (Some c) i * deriv_c_wrt_eta (asym_natural_shapes sref (Some c)) sref r j) i (alt i) Ha Hrow)|].
      f_equal. unfold asym_dh_dc_values, asym_long_shapes, asym_natural_shapes. rewrite (select _ _ _ i (alt i) Ha Hrow). reflexivity. }
    rewrite E. set (h := asym_dh_dc _ V) in *. set (e := (if (alt i =? a')%nat then _ else 0) - _) in *.
    pose proof Ar as Ar'. pose proof Br as Br'. pose proof Ad as Ad'. pose proof Bd as Bd'. apply Rabs_le_inv in Ar', Br', Ad', Bd'.
    assert (BP : Rabs (r * d) <= 6000) by (rewrite Rabs_mult; apply Rle_trans with (5190 * (11 / 10)); [apply Rmult_le_compat; try apply Rabs_pos; apply Rabs_le; lra|lra]).
    destruct (fmul_close r d 6000 BP ltac:(apply big_1000; lra)) as (p & Ep & Fp & Ap). exists p. split; [exact Ep|]. split; [exact Fp|]. split.
    + replace (p - h * e) with ((p - r * d) + (r * (d - e) + (r - h) * e)) by ring. eapply Rle_trans; [apply Rabs_triang|]. pose proof (Rabs_triang (r * (d - e)) ((r - h) * e)) as Q. rewrite !Rabs_mult in Q.
      assert (Rabs r * Rabs (d - e) <= 5190 * (11000 * uround)) by (apply Rmult_le_compat; try apply Rabs_pos; [apply Rabs_le; lra|lra]).
      assert (Rabs (r - h) * Rabs e <= 26400000 * uround * 1) by (apply Rmult_le_compat; try apply Rabs_pos; lra). lra.
    + rewrite Rabs_mult. apply Rle_trans with (5180 * 1); [apply Rmult_le_compat; try apply Rabs_pos; assumption|lra].
Qed.

(** Entries of the design matrix far from overflow. *)
Definition design_in_range (D : Data) : Prop := forall i q, (i < d_N D)%nat -> (q < d_K D)%nat -> Rabs (d_X D i q) <= 2 ^ 300.

Theorem C132_columns_are_accurate :
  forall k ex eps lg el l1 e1 pw ep st D alt uorder th i j,
  accurate_exp ex eps -> 0 <= eps <= / 2 ^ 52 -> accurate_ln lg el -> 0 <= el <= / 2 ^ 52 ->
  accurate_log1p l1 e1 -> 0 <= e1 <= / 2 ^ 52 -> accurate_np_power pw ep -> 0 <= ep <= / 2 ^ 52 ->
  let shape := sh k (d_J D) th in let beta := be k (d_J D) (d_K D) th in
  alternatives_of D alt -> rows_in_range D beta uorder 6 -> design_in_range D -> (d_K D <= 100)%nat -> usual_shapes k (d_J D) st shape -> same_side k D beta uorder ->
  (forall r, kind_iref k = Some r -> (r < d_J D)%nat) ->
  (i < d_N D)%nat -> (j < num_shapes k (d_J D) + num_icpts k (d_J D) + d_K D)%nat ->
  exists x, float_column k ex lg l1 pw st D alt uorder th j i = FNum x /\ double_format x /\ Rabs x <= 2 ^ 400 /\
    Rabs (x - DH k D th i j) <= / 10 ^ 7 * exposure k D j i + / 2 ^ 1075 /\ Rabs (DH k D th i j) <= 5200 * exposure k D j i.
Proof.
  intros k ex eps lg el l1 e1 pw ep st D alt uorder th i j Hex Heps Hlg Hel Hl1 He1 Hpw Hep shape beta HA HR HD HK HS Hside Hr Hi Hj.
  pose proof u_small as (U0 & U1). rewrite <- tiny_eq. pose proof tiny_le_u as T.
  assert (P400 : 6000 <= 2 ^ 400) by (apply Rle_trans with (2 ^ 13); [cbn; lra|apply Rle_pow; [lra|lia]]).
  assert (T7 : / 10 ^ 7 = 10 * / 100000000) by (cbn; lra).
  unfold float_column. fold shape beta. unfold exposure. destruct (Nat.ltb_spec j (num_shapes k (d_J D))) as [L1|L1].
  - rewrite (proj2 (Nat.ltb_lt j (num_shapes k (d_J D) + num_icpts k (d_J D)))) by lia.
    destruct (C132_shape_columns_are_accurate k ex eps lg el l1 e1 pw ep st D alt uorder th i j Hex Heps Hlg Hel Hl1 He1 Hpw Hep HA HR HK HS Hside Hi L1) as (r & Er & Fr & Ar & Br).
    exists r. split; [exact Er|]. split; [exact Fr|]. rewrite !Rmult_1_r. split; [|lra].
    replace r with ((r - DH k D th i j) + DH k D th i j) by ring. eapply Rle_trans; [apply Rabs_triang|]. lra.
  - destruct (Nat.ltb_spec (j - num_shapes k (d_J D)) (num_icpts k (d_J D))) as [L2|L2].
    + rewrite (proj2 (Nat.ltb_lt j (num_shapes k (d_J D) + num_icpts k (d_J D)))) by lia.
      destruct (kind_iref k) as [r|] eqn:Ek; [|unfold num_icpts in L2; rewrite Ek in L2; lia]. rewrite (DH_intercept k D th i j r ltac:(lia) L1 Ek).
      assert (NI : num_icpts k (d_J D) = (d_J D - 1)%nat) by (unfold num_icpts; rewrite Ek; reflexivity).
      rewrite (proj2 (HA i Hi)) by (apply skip_lt; [apply Hr; reflexivity|lia]).
      exists (if (skip r (j - num_shapes k (d_J D)) =? alt i)%nat then 1 else 0). split; [reflexivity|]. rewrite Rminus_diag_eq, Rabs_R0 by reflexivity.
      destruct (skip r (j - num_shapes k (d_J D)) =? alt i)%nat; (split; [apply small_integer; reflexivity|]); rewrite ?Rabs_R1, ?Rabs_R0; lra.
    + rewrite (proj2 (Nat.ltb_ge j (num_shapes k (d_J D) + num_icpts k (d_J D)))) by lia.
      destruct (C132_rates_are_accurate k ex eps lg el pw ep st D alt uorder th i Hex Heps Hlg Hel Hpw Hep HA HR HK HS Hside Hi) as (r & Er & Fr & Ar & Br).
      fold shape beta in Er. rewrite Er. rewrite DH_coefficient by (try exact Hi; lia). rewrite Nat.sub_add_distr.
      set (q := (j - num_shapes k (d_J D) - num_icpts k (d_J D))%nat) in *. set (X := d_X D i q) in *. set (rho := row_rate k D th i) in *.
      assert (BX : Rabs X <= 2 ^ 300) by (apply HD; [exact Hi|unfold q; lia]). pose proof (Rabs_pos X) as X0.
      replace (2 * / 10 ^ 8) with (2 * / 100000000) in Ar by (cbn; lra). 
      assert (Br' : Rabs r <= 407) by (replace r with ((r - rho) + rho) by ring; eapply Rle_trans; [apply Rabs_triang|]; lra).
      assert (RX : Rabs (r * X) <= 407 * Rabs X) by (rewrite Rabs_mult; apply Rmult_le_compat_r; lra).
      assert (P3 : 512 * 2 ^ 300 <= 2 ^ 400).
      { replace 512 with (2 ^ 9) by (cbn; ring). rewrite <- pow_add. apply Rle_pow; [lra|lia]. }
      assert (P310 : 1 <= 2 ^ 300) by (apply pow_R1_Rle; lra).
      exists (rnd (r * X)). destruct (rnd_error (r * X)) as (d & h & Hd & Hh & E). pose proof (Rabs_pos d) as d0.
      assert (RD : Rabs (r * X * d) <= 407 * Rabs X * uround) by (rewrite Rabs_mult; apply Rmult_le_compat; try apply Rabs_pos; lra).
      assert (XU : Rabs X * uround <= Rabs X * / 900000000000) by (apply Rmult_le_compat_l; lra).
      assert (ER : Rabs (rnd (r * X) - r * X) <= / 100000000 * Rabs X + tiny).
      { rewrite E. replace (r * X * (1 + d) + h - r * X) with (r * X * d + h) by ring. eapply Rle_trans; [apply Rabs_triang|]. lra. }
      split; [|split; [apply rnd_format|split; [|split]]].
      * cbn [fmul]. apply (overflow_close _ (2 ^ 400)); [lra|apply Rle_pow; [lra|lia]].
      * replace (rnd (r * X)) with ((rnd (r * X) - r * X) + r * X) by ring. eapply Rle_trans; [apply Rabs_triang|]. lra.
      * replace (rnd (r * X) - rho * X) with ((rnd (r * X) - r * X) + (r - rho) * X) by ring. eapply Rle_trans; [apply Rabs_triang|]. rewrite (Rabs_mult (r - rho) X).
        assert (Rabs (r - rho) * Rabs X <= 2 * / 100000000 * Rabs X) by (apply Rmult_le_compat_r; lra). rewrite T7. lra.
      * rewrite Rabs_mult. apply Rmult_le_compat_r; lra.
Qed.

(** ** C132: the gradient *)

Lemma column_ext y w p H H' order ridge theta N : Permutation (dterms order) (seq 0 N) ->
  (forall i, (i < N)%nat -> H i = H' i) -> float_gradient_entry y w p H order ridge theta = float_gradient_entry y w p H' order ridge theta.
Proof.
  intros HP E. unfold float_gradient_entry, float_score. rewrite (fdot_ext order (float_residual y w p) H (float_residual y w p) H'); [reflexivity|].
  intros k Hk. split; [reflexivity|]. apply (Permutation_in _ HP), in_seq in Hk. apply E. lia.
Qed.

Lemma weights_tiny N w : (Z.of_nat N <= 2 ^ 20)%Z -> (forall i, (i < N)%nat -> Rabs (w i) <= 2 ^ 400) -> total (fun i => Rabs (w i) * / 2 ^ 1075) (seq 0 N) <= / 4 * / 10 ^ 100.
Proof.
  intros HN Hw. assert (B : total (fun i => Rabs (w i) * / 2 ^ 1075) (seq 0 N) <= INR N * (2 ^ 400 * / 2 ^ 1075)).
  { assert (G : forall l, (forall i, In i l -> (i < N)%nat) -> total (fun i => Rabs (w i) * / 2 ^ 1075) l <= INR (length l) * (2 ^ 400 * / 2 ^ 1075)).
    { induction l as [|i l IH]; intros Hl; cbn [total length]; [cbn [INR]; lra|]. rewrite S_INR. pose proof (IH (fun q Hq => Hl q (or_intror Hq))).
      assert (Rabs (w i) * / 2 ^ 1075 <= 2 ^ 400 * / 2 ^ 1075) by (apply Rmult_le_compat_r; [left; apply Rinv_0_lt_compat, pow_lt; lra|apply Hw, Hl; left; reflexivity]).
      set (z := 2 ^ 400 * / 2 ^ 1075) in *. set (y := Rabs (w i) * / 2 ^ 1075) in *. set (a := total _ _) in *. clearbody z y a. lra. }
    specialize (G (seq 0 N)). rewrite seq_length in G. apply G. intros i Hi. apply in_seq in Hi. lia. }
  eapply Rle_trans; [exact B|]. assert (HN' : INR N <= 2 ^ 20).
  { rewrite INR_IZR_INZ, (pow_IZR 2 20). apply IZR_le. change (2 ^ Z.of_nat 20)%Z with (2 ^ 20)%Z. exact HN. }
  apply Rle_trans with (2 ^ 20 * (2 ^ 400 * / 2 ^ 1075)); [apply Rmult_le_compat_r; [apply Rmult_le_pos; [apply pow_le; lra|left; apply Rinv_0_lt_compat, pow_lt; lra]|exact HN']|].
  assert (10 ^ 100 <= 2 ^ 400) by (replace 400%nat with (4 * 100)%nat by reflexivity; rewrite pow_mult; apply pow_incr; cbn; lra).
  apply Rle_trans with (/ 4 * / 2 ^ 400); [|apply Rmult_le_compat_l; [lra|apply Rinv_le_contravar; [apply pow_lt; lra|assumption]]].
  replace 1075%nat with (20 + 400 + 2 + 400 + 253)%nat by reflexivity. rewrite !pow_add. assert (P20 : 2 ^ 20 <> 0) by (apply pow_nonzero; lra). assert (P400 : 2 ^ 400 <> 0) by (apply pow_nonzero; lra). assert (P253 : 1 <= 2 ^ 253) by (apply pow_R1_Rle; lra).
  set (a := 2 ^ 20) in *. set (b := 2 ^ 400) in *. set (c := 2 ^ 253) in *. replace (2 ^ 2) with 4 by (cbn; ring). assert (0 < b) by (apply pow_lt; lra). clearbody a b c.
  replace (a * (b * / (a * b * 4 * b * c))) with (/ 4 * (/ b * / c)) by (field; repeat split; lra). apply Rmult_le_compat_l; [lra|].
  rewrite <- (Rmult_1_r (/ b)) at 2. apply Rmult_le_compat_l; [left; apply Rinv_0_lt_compat; lra|]. rewrite <- Rinv_1. apply Rinv_le_contravar; lra.
Qed.

(** All entries of the gradient of every model: the code's own columns and probabilities in
    double precision, weights and ridge penalty. *)
Theorem C132_gradient_in_figures :
  forall k ex eps lg el l1 e1 pw ep st D own alt uorder order th j dorder,
  accurate_exp ex eps -> 0 <= eps <= / 2 ^ 52 -> accurate_ln lg el -> 0 <= el <= / 2 ^ 52 ->
  accurate_log1p l1 e1 -> 0 <= e1 <= / 2 ^ 52 -> accurate_np_power pw ep -> 0 <= ep <= / 2 ^ 52 ->
  indicator_of (d_N D) (d_obs D) (d_M D) own -> (Z.of_nat (d_N D) <= 2 ^ 20)%Z ->
  let w := eff_weights (d_w D) in
  (forall i, (i < d_N D)%nat -> d_y D i = 0 \/ d_y D i = 1) -> column_in_range (d_N D) w ->
  (forall i, (i < d_N D)%nat ->
     let rows := filter (fun q => (own q =? own i)%nat) (seq 0 (d_N D)) in
     Permutation (terms_of (order (own i))) rows /\ (length rows <= 4095)%nat) ->
  Permutation (dterms dorder) (seq 0 (d_N D)) ->
  (0 < d_K D <= 100)%nat -> alen th = (num_shapes k (d_J D) + num_icpts k (d_J D) + d_K D)%nat -> (j < alen th)%nat ->
  (forall r, kind_iref k = Some r -> (r < d_J D)%nat) ->
  let shape := sh k (d_J D) th in let icpt := ic k (d_J D) th in let beta := be k (d_J D) (d_K D) th in
  alternatives_of D alt -> rows_in_range D beta uorder 6 -> design_in_range D -> intercepts_in_range icpt -> usual_shapes k (d_J D) st shape -> same_side k D beta uorder ->
  ridge_in_range (d_ridge D) (aget th j) ->
  exists g G, est_gradient k D th = Ok g /\
    float_gradient k ex lg l1 pw st D alt uorder th
      (fun i => float_prob ex (float_transformed k ex lg l1 pw st D alt uorder shape icpt beta) (order (own i)) i) dorder j = FNum G /\ double_format G /\
    Rabs (G - aget g j) <=
      2 * / 10 ^ 7 * (column_size (d_N D) w (fun i => DH k D th i j) + column_size (d_N D) w (exposure k D j)) +
      / 10 ^ 14 * ridge_part (d_ridge D) (aget th j) + 2 * / 10 ^ 100.
Proof.
  intros k ex eps lg el l1 e1 pw ep st D own alt uorder order th j dorder Hex Heps Hlg Hel Hl1 He1 Hpw Hep Hown HN w Hy Hw Hobs HP HK HL Hj Hr shape icpt beta HA HR HD HI HS Hside HRi.
  assert (COL : forall i, (i < d_N D)%nat -> exists x, float_column k ex lg l1 pw st D alt uorder th j i = FNum x /\ double_format x /\ Rabs x <= 2 ^ 400 /\
    Rabs (x - DH k D th i j) <= / 10 ^ 7 * exposure k D j i + / 2 ^ 1075 /\ Rabs (DH k D th i j) <= 5200 * exposure k D j i).
  { intros i Hi. apply (C132_columns_are_accurate k ex eps lg el l1 e1 pw ep st D alt uorder th i j); try assumption; lia. }
  set (Hc := fun i => fval (float_column k ex lg l1 pw st D alt uorder th j i)).
  set (h := fun i => / 10 ^ 7 * exposure k D j i + / 2 ^ 1075).
  destruct (C131_logit_gradient_in_figures k ex eps lg el l1 e1 pw ep st D own alt uorder order th j Hc h dorder) as (g & G & Eg & EG & FG & AG); try assumption; try lia.
  - apply np_power_enough. exact Hpw.
  - intros i Hi. destruct (COL i Hi) as (x & E & F & B & _). unfold Hc. rewrite E. split; assumption.
  - intros i Hi. destruct (COL i Hi) as (x & E & _ & _ & A & _). unfold Hc, h. rewrite E. exact A.
  - exists g, G. split; [exact Eg|]. split; [|split; [exact FG|]].
    + rewrite <- EG. unfold float_gradient. apply (column_ext _ _ _ _ _ _ _ _ (d_N D) HP). intros i Hi. destruct (COL i Hi) as (x & E & _). unfold Hc. rewrite E. reflexivity.
    + cbv zeta in AG. fold w in AG. eapply Rle_trans; [exact AG|].
      set (S := column_size (d_N D) w (fun i => DH k D th i j)). set (Z := column_size (d_N D) w (exposure k D j)).
      assert (EE : total (fun i => Rabs (w i) * h i) (seq 0 (d_N D)) = / 10 ^ 7 * Z + total (fun i => Rabs (w i) * / 2 ^ 1075) (seq 0 (d_N D))).
      { unfold Z, column_size, h. assert (X0 : forall i, 0 <= exposure k D j i) by (intros i; unfold exposure; destruct (_ <? _)%nat; [lra|apply Rabs_pos]).
        generalize (seq 0 (d_N D)) as l. induction l as [|i l IH]; cbn [total]; [ring|]. rewrite IH, (Rabs_right (exposure k D j i)) by (apply Rle_ge, X0). ring. }
      pose proof (weights_tiny (d_N D) w HN (fun i Hi => proj2 (Hw i Hi))) as WT.
      assert (S0 : 0 <= S) by (apply total_nonneg; intros i Hi; apply Rmult_le_pos; apply Rabs_pos). assert (Z0 : 0 <= Z) by (apply total_nonneg; intros i Hi; apply Rmult_le_pos; apply Rabs_pos).
      assert (W0 : 0 <= total (fun i => Rabs (w i) * / 2 ^ 1075) (seq 0 (d_N D))) by (apply total_nonneg; intros i Hi; apply Rmult_le_pos; [apply Rabs_pos|left; apply Rinv_0_lt_compat, pow_lt; lra]).
      rewrite EE. set (W := total (fun i => Rabs (w i) * / 2 ^ 1075) (seq 0 (d_N D))) in *. replace (/ 10 ^ 7) with (/ 10000000) by (cbn; lra).
      set (I := / 10 ^ 100) in *. set (P := / 10 ^ 14 * ridge_part (d_ridge D) (aget th j)). clearbody I P W. lra.
Qed.

(** With data as the estimators build them: the distance to the derivative of the
    log-likelihood.  [no_clipping], [regular]: see C25 to C30. *)
Theorem C132_gradient_is_the_derivative :
  forall k d spec mp K X wt ridge theta j ex eps lg el l1 e1 pw ep st uorder order dorder,
  accurate_exp ex eps -> 0 <= eps <= / 2 ^ 52 -> accurate_ln lg el -> 0 <= el <= / 2 ^ 52 ->
  accurate_log1p l1 e1 -> 0 <= e1 <= / 2 ^ 52 -> accurate_np_power pw ep -> 0 <= ep <= / 2 ^ 52 ->
  create_long_form_mappings d spec = Ok mp ->
  length (alt_ids d) = length (obs_ids d) -> (0 < K <= 100)%nat ->
  exactly_one_choice d -> same_weight_within_observation d wt ->
  let D := data_of d mp K X wt ridge in let own := own_of (obs_ids d) in let alt := alt_of (alt_ids d) in
  kind_ok k (d_J D) -> check_length_of_initial_values k (d_J D) K theta = Ok tt -> (j < alen theta)%nat ->
  no_clipping k D theta -> (forall i, (i < d_N D)%nat -> regular k (est_index k D theta i)) ->
  (Z.of_nat (d_N D) <= 2 ^ 20)%Z ->
  let w := eff_weights wt in column_in_range (d_N D) w ->
  (forall i, (i < d_N D)%nat ->
     let rows := filter (fun q => (own q =? own i)%nat) (seq 0 (d_N D)) in
     Permutation (terms_of (order (own i))) rows /\ (length rows <= 4095)%nat) ->
  Permutation (dterms dorder) (seq 0 (d_N D)) ->
  let shape := sh k (d_J D) theta in let icpt := ic k (d_J D) theta in let beta := be k (d_J D) K theta in
  rows_in_range D beta uorder 6 -> design_in_range D -> intercepts_in_range icpt -> usual_shapes k (d_J D) st shape -> same_side k D beta uorder ->
  ridge_in_range ridge (aget theta j) ->
  exists g G : R,
    is_derive (fun t => est_log_likelihood k D (aupd theta j t)) (aget theta j) g /\
    float_gradient k ex lg l1 pw st D alt uorder theta
      (fun i => float_prob ex (float_transformed k ex lg l1 pw st D alt uorder shape icpt beta) (order (own i)) i) dorder j = FNum G /\ double_format G /\
    Rabs (G - g) <=
      2 * / 10 ^ 7 * (column_size (d_N D) w (fun i => DH k D theta i j) + column_size (d_N D) w (exposure k D j)) +
      / 10 ^ 14 * ridge_part ridge (aget theta j) + 2 * / 10 ^ 100.
Proof.
  intros k d spec mp K X wt ridge theta j ex eps lg el l1 e1 pw ep st uorder order dorder Hex Heps Hlg Hel Hl1 He1 Hpw Hep Hmp HL HK Hone Hsw D own alt Hok Hlen Hj HC Hreg HN w Hw Hobs HP shape icpt beta HR HD HI HS Hside HRi.
  destruct (gradient_correct k d spec mp K X wt ridge theta Hmp HL ltac:(lia) Hone Hsw Hok Hlen HC Hreg) as (g & Eg & Lg & Dg).
  pose proof (check_length_ok _ _ _ _ Hlen) as HLen. rewrite dims_eq in HLen by exact Hok.
  pose proof (data_obs_indicator d spec mp K X wt ridge Hmp) as Hown. pose proof (data_alt_indicator d spec mp K X wt ridge Hmp HL) as Halt.
  assert (HA : alternatives_of D alt).
  { intros i Hi. destruct (Halt i Hi) as (A & B). split; [exact A|]. intros q Hq. rewrite B by exact Hq. rewrite Nat.eqb_sym. reflexivity. }
  assert (Hy : forall i, (i < d_N D)%nat -> d_y D i = 0 \/ d_y D i = 1).
  { intros i Hi. destruct Hone as (c & Ec & Hc & _). unfold D, data_of. cbn [d_y]. unfold choice_vec. rewrite Ec. destruct (Hc i Hi) as [-> | ->]; [left|right]; reflexivity. }
  assert (Hr : forall r, kind_iref k = Some r -> (r < d_J D)%nat) by (intros r Er; destruct Hok as (_ & Q & _); rewrite Er in Q; exact Q).
  destruct (C132_gradient_in_figures k ex eps lg el l1 e1 pw ep st D own alt uorder order theta j dorder) as (g' & G & Eg' & EG & FG & AG); try assumption.
  change (est_gradient k D theta = Ok g) in Eg. rewrite Eg in Eg'. injection Eg' as <-. exists (aget g j), G. split; [apply Dg; exact Hj|]. split; [exact EG|]. split; [exact FG|exact AG].
Qed.

(** ** Non-vacuity *)

(** A correctly rounded power is accurate in this sense. *)
Example C132_rounded_power : accurate_np_power (fun a b => rnd (Rpower a b)) (/ 2 ^ 53).
Proof.
  intros a b _ _ Ha (Hl & Hr). split; [apply rnd_format|].
  assert (P : bpow radix2 (-1022) <= Rpower a b) by (eapply Rle_trans; [|exact Hl]; eapply Rle_trans; [|apply exp_neg_700]; apply bpow_le; lia).
  assert (0 < Rpower a b) by apply exp_pos.
  rewrite <- (Rabs_right (Rpower a b)) at 3 by lra. apply rnd_rel_abs. rewrite Rabs_right by lra. exact P.
Qed.

(** The asymmetric logit for five rows, with weights and a penalty: both shapes and the coefficient. *)
Example C132_five_rows : exists mp, create_long_form_mappings ex_cols None = Ok mp /\
  let lg := fun x => rnd (ln x) in let l1 := fun x => rnd (ln (1 + x)) in let pw := fun a b => rnd (Rpower a b) in
  let k := Transforms.KAsym 1 None in
  let D := data_of ex_cols mp 1 ex_X1 ex_w (Some 2) in let theta := mkArr 3 (fun i => if (i =? 2)%nat then 1 else 0) in
  let shape := sh k (d_J D) theta in let icpt := ic k (d_J D) theta in let beta := be k (d_J D) 1 theta in
  let alt := alt_of (alt_ids ex_cols) in let st := SPlus (STerm 1) (STerm 0) in
  let order := fun o : nat => match o with 0%nat => SPlus (SPlus (STerm 2) (STerm 0)) (STerm 1) | _ => SPlus (STerm 3) (STerm 4) end in
  forall j, (j < 3)%nat ->
  exists g G : R, is_derive (fun t => est_log_likelihood k D (aupd theta j t)) (aget theta j) g /\
    float_gradient k rexp lg l1 pw st D alt (fun _ => DTerm 0) theta
      (fun i => float_prob rexp (float_transformed k rexp lg l1 pw st D alt (fun _ => DTerm 0) shape icpt beta) (order (own_of (obs_ids ex_cols) i)) i)
      (DFma (DPlus (DPlus (DTerm 0) (DTerm 1)) (DPlus (DTerm 2) (DTerm 3))) 4) j = FNum G /\
    Rabs (G - g) <= 2 * / 10 ^ 7 * (column_size 5 (eff_weights ex_w) (fun i => DH k D theta i j) + column_size 5 (eff_weights ex_w) (exposure k D j)) + / 10 ^ 14 * ridge_part (Some 2) (aget theta j) + 2 * / 10 ^ 100.
Proof.
  destruct (create_long_form_mappings ex_cols None) as [mp|e] eqn:Emp; [|discriminate Emp]. exists mp. split; [reflexivity|]. intros lg l1 pw k D theta shape icpt beta alt st order j Hj.
  assert (C5 : forall i, (i < 5)%nat -> (i = 0 \/ i = 1 \/ i = 2 \/ i = 3 \/ i = 4)%nat) by (intros; lia).
  assert (U : 0 <= / 2 ^ 53 <= / 2 ^ 52).
  { split; [left; apply Rinv_0_lt_compat, pow_lt; lra|]. apply Rinv_le_contravar; [apply pow_lt; lra|]. apply Rle_pow; [lra|lia]. }
  assert (P400 : 8 <= 2 ^ 400) by (apply Rle_trans with (2 ^ 3); [lra|apply Rle_pow; [lra|lia]]).
  assert (P300 : 8 <= 2 ^ 300) by (apply Rle_trans with (2 ^ 3); [lra|apply Rle_pow; [lra|lia]]).
  assert (A0 : Rabs 0 = 0) by apply Rabs_R0. assert (A1 : Rabs 1 = 1) by apply Rabs_R1. assert (A2 : Rabs 2 = 2) by (apply Rabs_right; lra). assert (A3 : Rabs (/ 2) = / 2) by (apply Rabs_right; lra). assert (A4 : Rabs (-1) = 1) by (rewrite Rabs_left; lra).
  assert (FH : double_format (/ 2)) by (replace (/ 2) with (bpow radix2 (-1)) by reflexivity; apply generic_format_bpow; cbv; discriminate).
  assert (FX : forall i, double_format (ex_X1 i 0%nat) /\ / 2 <= Rabs (ex_X1 i 0%nat) <= 1).
  { intros i. unfold ex_X1. destruct (i =? 0)%nat; [split; [apply small_integer; reflexivity|lra]|]. destruct (i =? 4)%nat; [split; [apply small_integer; reflexivity|lra]|split; [exact FH|lra]]. }
  assert (EJ : d_J D = 3%nat) by (injection Emp as <-; reflexivity). assert (B0 : aget beta 0%nat = 1) by (unfold beta; rewrite EJ; reflexivity).
  assert (HR : rows_in_range D beta (fun _ => DTerm 0) 6).
  { split; [apply Nat.le_trans with (2 ^ 1)%nat; [cbn; lia|apply Nat.pow_le_mono_r; lia]|]. intros i Hi. split; [apply Permutation_refl|]. destruct (FX i) as (F & B). split.
    - unfold magnitude. replace (d_K D) with 1%nat by reflexivity. cbn [seq total]. rewrite B0. change (d_X D i 0%nat) with (ex_X1 i 0%nat). rewrite Rmult_1_r. lra.
    - intros q Hq. cbn in Hq. replace q with 0%nat by lia. split; [exact F|]. rewrite B0. apply double_1. }
  destruct ex_asym_case as (mp' & Emp' & _ & _ & HC & HV). rewrite Emp in Emp'. injection Emp' as <-.
  destruct (C132_gradient_is_the_derivative k ex_cols None mp 1%nat ex_X1 ex_w (Some 2) theta j rexp (/ 2 ^ 53) lg (/ 2 ^ 53) l1 (/ 2 ^ 53) pw (/ 2 ^ 53) st (fun _ => DTerm 0) order
     (DFma (DPlus (DPlus (DTerm 0) (DTerm 1)) (DPlus (DTerm 2) (DTerm 3))) 4)) as (g & G & Dg & EG & _ & AG); try exact U; try exact Emp; try reflexivity.
  - apply C122_correctly_rounded_exp.
  - apply C126_rounded_ln.
  - apply C126_rounded_log1p.
  - apply C132_rounded_power.
  - lia.
  - exact ex_exactly_one.
  - exact ex_weights.
  - change (kind_ok k (d_J D)). rewrite EJ. split; [cbn; lia|]. split; [exact I|cbn; lia].
  - change (check_length_of_initial_values k (d_J D) 1 theta = Ok tt). rewrite EJ. reflexivity.
  - exact Hj.
  - exact HC.
  - exact HV.
  - cbn. lia.
  - intros i Hi. cbn [eff_weights ex_w]. destruct (i <? 3)%nat; (split; [apply small_integer; reflexivity|lra]).
  - intros i Hi. cbn in Hi. destruct (C5 i Hi) as [-> |[-> |[-> |[-> | ->]]]]; (split; [|cbn; lia]); cbn; try apply Permutation_refl;
      (apply perm_trans with [0; 2; 1]%nat; [apply perm_swap|apply perm_skip, perm_swap]).
  - exact HR.
  - intros i q Hi Hq. cbn in Hq. replace q with 0%nat by lia. destruct (FX i). cbn [d_X data_of D]. lra.
  - change (usual_shapes k (d_J D) st shape). unfold shape. rewrite EJ. cbn. split; [lia|]. split; [lia|]. split; [reflexivity|]. split; [apply perm_swap|]. intros q Hq.
    destruct (q =? 2)%nat; lra.
  - change (same_side k D beta (fun _ => DTerm 0)). apply same_side_away; [exact HR|]. intros i Hi. unfold sys_utilities, mvec. replace (d_K D) with 1%nat by reflexivity. cbn [sumn]. rewrite B0. change (d_X D i 0%nat) with (ex_X1 i 0%nat). rewrite Rplus_0_l, Rmult_1_r. destruct (FX i) as (_ & B). eapply Rlt_le_trans; [|exact (proj1 B)].
    unfold utility_error. fold uround. rewrite <- tiny_eq. pose proof u_small. pose proof tiny_le_u. cbn [INR]. lra.
  - cbn. destruct (j =? 2)%nat; rewrite ?A1, ?A0, A2; set (X := 2 ^ 400) in *; (split; [apply small_integer; reflexivity|]); (split; [lra|]); (split; [apply small_integer; reflexivity|lra]).
  - exists g, G. split; [exact Dg|]. split; [exact EG|exact AG].
Qed.

(** ** Where the derivatives go wrong *)

Lemma exp_below x : 0 <= x <= / 2 -> exp x <= 1 + 2 * x.
Proof. intros H. pose proof (exp_rel x 0 x ltac:(rewrite Rminus_0_r, Rabs_right; lra) ltac:(lra)) as Q. rewrite exp_0 in Q. apply Rabs_le_inv in Q. lra. Qed.

Lemma exact_scobit_rate s v : 0 < s -> v < 0 -> s * ln (1 + exp (-1 * v)) <= ln 2 -> scobit_rate s v <= 2 / - v.
Proof.
  intros Hs Hv Hl. unfold scobit_rate. pose proof (exp_pos (-1 * v)) as E. set (e := exp (-1 * v)) in *. 
  assert (L : - v <= ln (1 + e)) by (rewrite <- (ln_exp (- v)); apply ln_mono; [apply exp_pos|]; unfold e; replace (-1 * v) with (- v) by ring; lra).
  set (l := ln (1 + e)) in *. assert (P : Rpower (1 + e) s <= 2) by (unfold Rpower; rewrite <- (exp_ln 2) by lra; apply exp_mono; exact Hl).
  assert (Q : s * l <= Rpower (1 + e) s - 1) by (unfold Rpower; pose proof (exp_ge_linear (s * l)); unfold l in *; lra).
  assert (SL : 0 < s * l) by (apply Rmult_lt_0_compat; lra).
  replace (Rpower (1 + e) (s - 1)) with (Rpower (1 + e) s * / (1 + e)).
  2: { unfold Rminus. rewrite Rpower_plus, Rpower_Ropp, Rpower_1 by lra. reflexivity. }
  set (p := Rpower (1 + e) s) in *. assert (P0 : 0 < p) by apply exp_pos.
  apply Rle_trans with (s * 2 / (s * l)).
  - unfold Rdiv. apply Rmult_le_compat.
    + repeat apply Rmult_le_pos; try lra. left; apply Rinv_0_lt_compat; lra.
    + left; apply Rinv_0_lt_compat; lra.
    + rewrite Rmult_assoc. apply Rmult_le_compat_l; [lra|]. replace (e * (p * / (1 + e))) with (p * (e / (1 + e))) by (field; lra).
      assert (e / (1 + e) <= 1) by (apply (Rmult_le_reg_r (1 + e)); [lra|]; unfold Rdiv; rewrite Rmult_assoc, Rinv_l by lra; lra).
      assert (p * (e / (1 + e)) <= p * 1) by (apply Rmult_le_compat_l; lra). lra.
    + apply Rinv_le_contravar; lra.
  - replace (s * 2 / (s * l)) with (2 * / l) by (field; lra). apply Rmult_le_compat_l; [lra|]. apply Rinv_le_contravar; lra.
Qed.

(** The scobit model with a natural shape below e^-50: the derivative in the utility is taken to
    be one for every utility between -30 and -4; it is at most one half, and at -30 at most 1/15. *)
Theorem C132_refuted_scobit_small_shapes :
  forall v b, double_format v -> -30 <= v <= -4 -> double_format b -> -700 <= b <= -50 ->
  fscobit_deriv_v rexp rpow (FNum v) (FNum b) = FNum 1 /\ scobit_rate (exp b) v <= 2 / - v /\ 2 / - v <= / 2.
Proof.
  intros v b Fv Hv Fb Hb. pose proof small53 as E53. pose proof inv_2_40 as T40.
  assert (B72 : exp (-50) <= / 2 ^ 72).
  { replace (-50) with (- (50)) by lra. rewrite exp_Ropp, (pow2_bpow 72). apply Rinv_le_contravar; [apply bpow_gt_0|]. apply bpow_le_exp; [cbn; lia|cbn; lra]. }
  assert (T72 : 0 < / 2 ^ 72 /\ 200 * / 2 ^ 72 <= / 8 * bpow radix2 (-52)).
  { rewrite (pow2_bpow 72), <- bpow_opp. split; [apply bpow_gt_0|]. change (Z.of_nat 72) with 72%Z. replace (bpow radix2 (-52)) with (2 ^ 20 * bpow radix2 (-72)) by (rewrite (pow2_bpow 20), <- bpow_plus; reflexivity).
    pose proof (bpow_gt_0 radix2 (-72)). assert (200 * 8 <= 2 ^ 20) by (cbn; lra). replace (/ 8 * (2 ^ 20 * bpow radix2 (-72))) with (/ 8 * 2 ^ 20 * bpow radix2 (-72)) by ring. apply Rmult_le_compat_r; [lra|]. lra. }
  pose proof (exp_mono b (-50) ltac:(lra)) as MB. pose proof (exp_pos b) as PB.
  split; [|split].
  - unfold fscobit_deriv_v, fnatural_shape.
    destruct (exp_num rexp _ b C122_correctly_rounded_exp E53 ltac:(lra)) as (Es & Fs & Bs & As). rewrite Es. cbn [on_posinf]. apply Rabs_le_inv in As. set (s := rexp b) in *.
    rewrite (minus_exact v Fv) by (rewrite Rabs_left; lra).
    destruct (exp_num rexp _ (- v) C122_correctly_rounded_exp E53 ltac:(lra)) as (Ee & Fe & Be & Ae). rewrite Ee. apply Rabs_le_inv in Ae. set (e := rexp (- v)) in *.
    assert (M30 : exp (- v) <= bpow radix2 44) by (eapply Rle_trans; [apply (exp_mono _ 30); lra|]; apply exp_le_bpow; [lia|lra]).
    pose proof (exp_pos (- v)) as PV. assert (/ 2 ^ 53 * exp (- v) <= 1 * exp (- v)) by (apply Rmult_le_compat_r; lra). assert (/ 2 ^ 53 * exp b <= 1 * exp b) by (apply Rmult_le_compat_r; lra).
    assert (S2 : s <= 2 * / 2 ^ 72) by lra.
    assert (A46 : 1 <= rnd (1 + e) <= bpow radix2 46).
    { split; [rewrite <- rnd_1 at 1; apply rnd_le; lra|]. rewrite <- (rnd_id (bpow radix2 46)) by (apply generic_format_bpow; cbv; discriminate). apply rnd_le.
      assert (bpow radix2 46 = 4 * bpow radix2 44) by (change 46%Z with (2 + 44)%Z; rewrite bpow_plus; reflexivity). assert (1 <= bpow radix2 44) by (apply (bpow_le radix2 0 44); lia). lra. }
    assert (OA : overflow (rnd (1 + e)) = FNum (rnd (1 + e))) by (apply overflow_num; rewrite Rabs_right by lra; apply Rle_lt_trans with (bpow radix2 46); [lra|apply bpow_lt; lia]).
    cbn [fadd]. rewrite OA. set (a := rnd (1 + e)) in *. cbn [fpow].
    assert (LA : 0 <= ln a <= 46).
    { split; [rewrite <- ln_1; apply ln_mono; lra|]. rewrite <- (ln_exp 46). apply ln_mono; [lra|]. eapply Rle_trans; [apply A46|]. apply bpow_le_exp; [lia|lra]. }
    assert (SL : 0 <= s * ln a <= 92 * / 2 ^ 72) by (split; [apply Rmult_le_pos; lra|]; apply Rle_trans with (2 * / 2 ^ 72 * 46); [apply Rmult_le_compat; lra|lra]).
    assert (b8 : bpow radix2 (-52) <= 1) by (apply (bpow_le radix2 (-52) 0); lia).
    assert (RP : rpow a s = 1).
    { unfold rpow. apply rnd_near_one. unfold Rpower. split; [pose proof (exp_ge_linear (s * ln a)); lra|]. pose proof (exp_below (s * ln a) ltac:(lra)). lra. }
    rewrite RP, overflow_1. 
    assert (Z : fsub (FNum 1) (FNum 1) = FNum 0).
    { cbn. replace (1 + - (1)) with 0 by ring. rewrite rnd_0. apply overflow_num. rewrite Rabs_R0. apply bpow_gt_0. }
    rewrite Z. replace (is_zero (FNum 0)) with true by (cbn; destruct (Req_EM_T 0 0); [reflexivity|lra]). rewrite orb_true_r. reflexivity.
  - apply exact_scobit_rate; [exact PB|lra|].
    assert (b8 : bpow radix2 (-52) <= 1) by (apply (bpow_le radix2 (-52) 0); lia). pose proof ln_2_sharp. 
    assert (L : 0 <= ln (1 + exp (-1 * v)) <= 31) by (split; [apply softplus_pos|replace 31 with (30 + 1) by ring; apply softplus_le; lra]).
    apply Rle_trans with (/ 2 ^ 72 * 31); [apply Rmult_le_compat; lra|lra].
  - apply (Rmult_le_reg_r (- v)); [lra|]. unfold Rdiv. rewrite Rmult_assoc, Rinv_l by lra. lra.
Qed.

Lemma rnd_below_one z : 1 - bpow radix2 (-53) <= z <= 1 - 6 / 10 * bpow radix2 (-53) -> rnd z = 1 - bpow radix2 (-53).
Proof.
  intros H. pose proof (bpow_gt_0 radix2 (-53)) as B0.
  assert (P1 : pred radix2 (FLT_exp (-1074) 53) 1 = 1 - bpow radix2 (-53)) by (apply (pred_bpow radix2 (FLT_exp (-1074) 53) 0)).
  assert (F1 : double_format (1 - bpow radix2 (-53))) by (rewrite <- P1; apply generic_format_pred; [apply FLT_exp_valid; apply FloatFacts.prec_53|apply double_1]).
  assert (L : 1 - bpow radix2 (-53) <= rnd z) by (rewrite <- (rnd_id _ F1) at 1; apply rnd_le; lra).
  apply Rle_antisym; [|exact L]. rewrite <- P1. apply pred_ge_gt; [apply FLT_exp_valid; apply FloatFacts.prec_53|apply rnd_format|apply double_1|].
  destruct (round_N_pt radix2 (FLT_exp (-1074) 53) (fun x => negb (Z.even x)) z) as (_ & N).
  specialize (N _ F1). fold (rnd z) in N. rewrite (Rabs_left1 (1 - bpow radix2 (-53) - z)) in N by lra. apply Rabs_le_inv in N. lra.
Qed.

Lemma exact_clog_rate v : 1 <= clog_rate v.
Proof.
  unfold clog_rate. pose proof (exp_pos v) as P. set (t := exp v) in *. replace (-1 * v) with (- v) by ring. rewrite exp_Ropp. fold t. replace (-1 * t) with (- t) by ring.
  pose proof (exp_ge_linear (- t)) as Q. assert (E1 : exp (- t) < 1) by (rewrite <- exp_0; apply exp_increasing; lra).
  assert (D0 : 0 < (1 - exp (- t)) * / t) by (apply Rmult_lt_0_compat; [lra|apply Rinv_0_lt_compat; lra]).
  apply (Rmult_le_reg_r ((1 - exp (- t)) * / t)); [exact D0|]. unfold Rdiv. rewrite Rmult_assoc, Rinv_l, Rmult_1_l, Rmult_1_r by lra.
  apply (Rmult_le_reg_r t); [lra|]. rewrite Rmult_assoc, Rinv_l by lra. lra.
Qed.

(** The clog-log model at a utility of -37: the derivative is at least one, the computed one at
    most 7/8. *)
Theorem C132_refuted_clog_near_minus_37 :
  exists x, fcloglog_deriv rexp (FNum (-37)) = FNum x /\ 0 <= x <= 7 / 8 /\ 1 <= clog_rate (-37).
Proof.
  pose proof small53 as E53. pose proof inv_2_40 as T40. pose proof ln_2_sharp as L2. pose proof (bpow_gt_0 radix2 (-53)) as Q0. pose proof (bpow_gt_0 radix2 53) as Q1.
  assert (QQ : bpow radix2 (-53) * bpow radix2 53 = 1) by (rewrite <- bpow_plus; reflexivity).
  assert (Eq : / 2 ^ 53 = bpow radix2 (-53)) by (rewrite (pow2_bpow 53), <- bpow_opp; reflexivity).
  assert (S53 : bpow radix2 (-53) <= / 1000000) by (rewrite <- Eq; lra).
  set (q := bpow radix2 (-53)) in *.
  assert (X37 : 73 / 100 * q <= exp (-37) <= 794 / 1000 * q).
  { assert (Q : q = exp (- (53 * ln 2))) by (unfold q; rewrite bpow_exp; f_equal; cbn; ring).
    replace (exp (-37)) with (exp (- (37 - 53 * ln 2)) * q) by (rewrite Q, <- exp_plus; f_equal; ring).
    split; apply Rmult_le_compat_r; try lra.
    - pose proof (exp_ge_linear (- (37 - 53 * ln 2))). lra.
    - rewrite exp_Ropp. pose proof (exp_ge_linear (37 - 53 * ln 2)). apply Rle_trans with (/ (126 / 100)); [apply Rinv_le_contravar; lra|lra]. }
  unfold fcloglog_deriv. assert (F37 : double_format (-37)) by (apply small_integer; reflexivity).
  rewrite (minus_exact (-37) F37) by (rewrite Rabs_left; lra). replace (- -37) with 37 by lra.
  destruct (exp_num rexp _ 37 C122_correctly_rounded_exp E53 ltac:(lra)) as (Ey & Fy & By & _). rewrite Ey. cbn [on_posinf].
  destruct (exp_num rexp _ (-37) C122_correctly_rounded_exp E53 ltac:(lra)) as (Et & Ft & Bt & At). rewrite Et. apply Rabs_le_inv in At. rewrite Eq in At. set (t := rexp (-37)) in *.
  assert (Ht : 7 / 10 * q <= t <= 8 / 10 * q). { assert (q * exp (-37) <= / 1000000 * exp (-37)) by (apply Rmult_le_compat_r; lra). lra. }
  rewrite (minus_exact t Ft) by (rewrite Rabs_right; lra).
  destruct (exp_num rexp _ (- t) C122_correctly_rounded_exp E53 ltac:(lra)) as (Ez & _ & _ & _). rewrite Ez.
  assert (Rz : rexp (- t) = 1 - q).
  { unfold rexp. apply rnd_below_one. fold q. pose proof (exp_ge_linear (- t)). split; [lra|]. rewrite exp_Ropp. pose proof (exp_ge_linear t).
    apply Rle_trans with (/ (1 + t)); [apply Rinv_le_contravar; lra|]. apply (Rmult_le_reg_r (1 + t)); [lra|]. rewrite Rinv_l by lra.
    assert (q * t <= / 1000000 * t) by (apply Rmult_le_compat_r; lra). assert (q * q <= / 1000000 * q) by (apply Rmult_le_compat_r; lra). lra. }
  rewrite Rz. cbn [fsub fneg fadd]. replace (1 + - (1 - q)) with q by ring.
  assert (Fq : double_format q) by (apply generic_format_bpow; cbv; discriminate). rewrite (rnd_id q Fq).
  assert (B1024 : 100 < bpow radix2 1024) by (apply Rlt_le_trans with (bpow radix2 10); [cbn; lra|apply bpow_le; lia]).
  rewrite (overflow_num q) by (rewrite Rabs_right by lra; lra).
  assert (Hy : 5 / 4 * bpow radix2 53 <= rexp 37 <= bpow radix2 54).
  { assert (E : exp 37 = / exp (-37)) by (replace (-37) with (- (37)) by lra; rewrite exp_Ropp, Rinv_inv; reflexivity).
    assert (Fz : double_format (5 / 4 * bpow radix2 53)).
    { replace (5 / 4 * bpow radix2 53) with (F2R (Float radix2 5 51)) by (replace (bpow radix2 53) with (4 * bpow radix2 51) by (change 53%Z with (2 + 51)%Z; rewrite bpow_plus; reflexivity); unfold F2R; cbn [Fnum Fexp]; lra).
      apply generic_format_F2R. intros _. rewrite (cexp_fexp _ _ _ 54). { cbv. discriminate. }
      unfold F2R. cbn [Fnum Fexp]. change (54 - 1)%Z with (2 + 51)%Z. change 54%Z with (3 + 51)%Z. rewrite !bpow_plus. pose proof (bpow_gt_0 radix2 51). change (bpow radix2 2) with 4. change (bpow radix2 3) with 8. rewrite Rabs_right by lra. lra. }
    split.
    - rewrite <- (rnd_id _ Fz). apply rnd_le. rewrite E. rewrite <- (Rinv_inv (5 / 4 * bpow radix2 53)). apply Rinv_le_contravar; [apply exp_pos|].
      replace (/ (5 / 4 * bpow radix2 53)) with (8 / 10 * q) by (assert (q = / bpow radix2 53) as -> by (apply (Rmult_eq_reg_r (bpow radix2 53)); [rewrite Rinv_l by lra; exact QQ|lra]); field; lra). lra.
    - rewrite <- (rnd_id (bpow radix2 54)) by (apply generic_format_bpow; cbv; discriminate). apply rnd_le. apply exp_le_bpow; [lia|lra]. }
  destruct (Req_EM_T (rexp 37) 0); [lra|]. replace (is_zero (FNum (rexp 37))) with false by (cbn; destruct (Req_EM_T (rexp 37) 0); [lra|reflexivity]).
  set (y := rexp 37) in *. assert (E54 : bpow radix2 54 = 2 * bpow radix2 53) by (change 54%Z with (1 + 53)%Z; rewrite bpow_plus; reflexivity).
  assert (PY : 5 / 4 <= q * y <= 2).
  { split.
    - apply Rle_trans with (q * (5 / 4 * bpow radix2 53)); [replace (q * (5 / 4 * bpow radix2 53)) with (5 / 4 * (q * bpow radix2 53)) by ring; rewrite QQ; lra|apply Rmult_le_compat_l; lra].
    - apply Rle_trans with (q * (2 * bpow radix2 53)); [apply Rmult_le_compat_l; lra|replace (q * (2 * bpow radix2 53)) with (2 * (q * bpow radix2 53)) by ring; rewrite QQ; lra]. }
  assert (F54 : double_format (5 / 4)).
  { replace (5 / 4) with (F2R (Float radix2 5 (-2))) by (unfold F2R; cbn; lra). apply generic_format_F2R. intros _. rewrite (cexp_fexp _ _ _ 1). { cbv. discriminate. }
    unfold F2R. cbn. rewrite Rabs_right; lra. }
  assert (F78 : double_format (7 / 8)).
  { replace (7 / 8) with (F2R (Float radix2 7 (-3))) by (unfold F2R; cbn; lra). apply generic_format_F2R. intros _. rewrite (cexp_fexp _ _ _ 0). { cbv. discriminate. }
    unfold F2R. cbn. rewrite Rabs_right; lra. }
  assert (F2 : double_format 2) by (apply small_integer; reflexivity).
  assert (RP : 5 / 4 <= rnd (q * y) <= 2) by (rewrite <- (rnd_id _ F54), <- (rnd_id _ F2); split; apply rnd_le; lra).
  cbn [fmul]. rewrite (overflow_num (rnd (q * y))) by (rewrite Rabs_right by lra; lra). cbn [fdiv]. set (p := rnd (q * y)) in *. destruct (Req_EM_T p 0); [lra|].
  assert (I : 0 <= 1 / p <= 7 / 8).
  { unfold Rdiv at 1 2. rewrite Rmult_1_l. split; [left; apply Rinv_0_lt_compat; lra|]. apply Rle_trans with (/ (5 / 4)); [apply Rinv_le_contravar; lra|lra]. }
  assert (RI : 0 <= rnd (1 / p) <= 7 / 8) by (split; [rewrite <- rnd_0|rewrite <- (rnd_id _ F78)]; apply rnd_le; lra).
  rewrite (overflow_num (rnd (1 / p))) by (rewrite Rabs_right by lra; lra).
  unfold is_zero. destruct (Req_EM_T q 0); [lra|]. cbn [on_posinf]. exists (rnd (1 / p)). split; [reflexivity|]. split; [exact RI|apply exact_clog_rate].
Qed.

Print Assumptions C132_clog_derivative.
Print Assumptions C132_scobit_derivative.
Print Assumptions C132_scobit_shape_derivative.
Print Assumptions C132_uneven_derivative.
Print Assumptions C132_asym_derivatives.
Print Assumptions C132_rates_are_accurate.
Print Assumptions C132_shape_columns_are_accurate.
Print Assumptions C132_columns_are_accurate.
Print Assumptions C132_gradient_in_figures.
Print Assumptions C132_gradient_is_the_derivative.
Print Assumptions C132_five_rows.
Print Assumptions C132_refuted_scobit_small_shapes.
Print Assumptions C132_refuted_clog_near_minus_37.
