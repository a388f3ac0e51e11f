(** C126, positive part: where the computed transformed utilities are close to the formulas. *)
From Coq Require Import ZArith Reals Lra Lia List Permutation.
From Flocq Require Import Core.
From Verif Require Import Res Vec Arr ChoiceCalcs Transforms NestedCalcs SpecLogit ChoiceFacts Floats FloatFacts FloatTransforms FloatUtilities PropFloats PropFloatTransforms PropFloatUtilities.
Import ListNotations.
Open Scope R_scope.

(** ** Specification *)

(** np.log on positive finite doubles: relative error at most [el]. *)
Definition accurate_ln (lg : R -> R) (el : R) : Prop :=
  forall x, double_format x -> 0 < x < bpow radix2 1024 -> double_format (lg x) /\ Rabs (lg x - ln x) <= el * Rabs (ln x).
(** np.log1p on finite doubles that are not negative. *)
Definition accurate_log1p (l1 : R -> R) (el : R) : Prop :=
  forall x, double_format x -> 0 <= x < bpow radix2 1024 -> Rabs (l1 x - ln (1 + x)) <= el * ln (1 + x).
(** np.power of a base of at least one and an exponent that is not negative, as long as the
    result is not near overflow. *)
Definition accurate_power (pw : R -> R -> R) (ep : R) : Prop :=
  forall a b, double_format a -> double_format b -> 1 <= a -> 0 <= b -> Rpower a b <= exp 700 ->
  double_format (pw a b) /\ Rabs (pw a b - Rpower a b) <= ep * Rpower a b.

(** The transformations as functions of utility and natural shape. *)
Definition clog_formula (v : R) : R := if Rle_dec 3.7 v then exp v else ln (exp (exp v) - 1).
Definition scobit_formula (s v : R) : R := - ln (Rpower (1 + exp (- v)) s - 1).
Definition uneven_formula (s v : R) : R := v + ln (1 + exp (- v)) - ln (1 + exp (- (s * v))).
Definition asym_formula (J : nat) (c v : R) : R :=
  ln c - v * (if Rle_dec 0 v then ln c else ln ((1 - c) / (INR J - 1))).

(** ** Auxiliary facts *)

Lemma tiny_le_u : 0 < tiny <= uround.
Proof. pose proof (bpow_gt_0 radix2 (-1074)). split; [lra|]. rewrite <- uround_eq. apply Rmult_le_compat_l; [lra|]. apply bpow_le. lia. Qed.

Lemma uround_tiny : uround <= / 2 ^ 40.
Proof. unfold uround. apply Rinv_le_contravar; [apply pow_lt; lra|]. apply Rle_pow; [lra|lia]. Qed.

Lemma inv_2_40 : 0 < / 2 ^ 40 <= / 1000000.
Proof.
  split; [apply Rinv_0_lt_compat, pow_lt; lra|]. apply Rinv_le_contravar; [lra|]. apply Rle_trans with (2 ^ 20); [cbn; lra|apply Rle_pow; [lra|lia]].
Qed.

Lemma rnd_close x B : Rabs x <= B -> Rabs (rnd x - x) <= uround * (B + 1).
Proof.
  intros H. destruct (rnd_error x) as (d & h & Hd & Hh & ->). pose proof tiny_le_u as (_ & T).
  replace (x * (1 + d) + h - x) with (x * d + h) by ring. eapply Rle_trans; [apply Rabs_triang|]. rewrite Rabs_mult.
  pose proof uround_pos. pose proof (Rabs_pos x). pose proof (Rabs_pos d).
  assert (Rabs x * Rabs d <= B * uround) by (apply Rmult_le_compat; lra). lra.
Qed.

Lemma overflow_close x B : Rabs x <= B -> B <= 2 ^ 1000 -> overflow (rnd x) = FNum (rnd x).
Proof.
  intros H HB. apply overflow_num. pose proof (rnd_close x B H) as C. pose proof uround_pos as U. pose proof uround_tiny. pose proof inv_2_40.
  assert (B0 : 0 <= B) by (pose proof (Rabs_pos x); lra).
  apply Rle_lt_trans with (2 * B + 1).
  - replace (rnd x) with ((rnd x - x) + x) by ring. eapply Rle_trans; [apply Rabs_triang|]. nra.
  - assert (E1000 : 2 ^ 1000 = bpow radix2 1000) by (rewrite <- (IZR_Zpower radix2 1000) by lia; rewrite pow_IZR; reflexivity).
    rewrite E1000 in HB. apply Rlt_le_trans with (bpow radix2 1002); [|apply bpow_le; lia].
    change 1002%Z with (2 + 1000)%Z. rewrite bpow_plus. change (bpow radix2 2) with 4.
    assert (1 < bpow radix2 1000) by (apply (bpow_lt radix2 0 1000); lia). lra.
Qed.

Lemma fadd_close x y B : Rabs (x + y) <= B -> B <= 2 ^ 1000 ->
  exists z, fadd (FNum x) (FNum y) = FNum z /\ double_format z /\ Rabs (z - (x + y)) <= uround * (B + 1).
Proof.
  intros H HB. exists (rnd (x + y)). split; [cbn; apply (overflow_close _ B); assumption|]. split; [apply rnd_format|apply rnd_close, H].
Qed.

Lemma fmul_close x y B : Rabs (x * y) <= B -> B <= 2 ^ 1000 ->
  exists z, fmul (FNum x) (FNum y) = FNum z /\ double_format z /\ Rabs (z - (x * y)) <= uround * (B + 1).
Proof.
  intros H HB. exists (rnd (x * y)). split; [cbn; apply (overflow_close _ B); assumption|]. split; [apply rnd_format|apply rnd_close, H].
Qed.

Lemma big_1000 x : x <= 10000000 -> x <= 2 ^ 1000.
Proof. intros H. apply Rle_trans with (2 ^ 24); [cbn; lra|]. apply Rle_pow; [lra|lia]. Qed.

Lemma exp_mono x y : x <= y -> exp x <= exp y.
Proof. intros [L| ->]; [left; apply exp_increasing; exact L|right; reflexivity]. Qed.

Lemma exp_rel a b d : Rabs (a - b) <= d -> d <= / 2 -> Rabs (exp a - exp b) <= 2 * d * exp b.
Proof.
  intros H Hd. apply Rabs_le_inv in H. assert (d0 : 0 <= d) by lra. pose proof (exp_pos b) as P.
  replace a with (b + (a - b)) by ring. set (e := a - b) in *. rewrite exp_plus.
  replace (exp b * exp e - exp b) with ((exp e - 1) * exp b) by ring. rewrite Rabs_mult, (Rabs_right (exp b)) by lra.
  apply Rmult_le_compat_r; [lra|].
  assert (Lo : forall z, 1 + z <= exp z) by (intros z; destruct (Req_dec z 0) as [-> | N]; [rewrite exp_0; lra|pose proof (exp_ineq1 z N); lra]).
  apply Rabs_le. split; [pose proof (Lo e); lra|].
  assert (Q : exp e * (1 - e) <= 1).
  { pose proof (Lo (- e)) as L. rewrite exp_Ropp in L. pose proof (exp_pos e). apply (Rmult_le_compat_l (exp e)) in L; [|lra]. rewrite Rinv_r in L; lra. }
  assert (exp e <= 1 + 2 * d); [|lra]. destruct (Rle_or_lt e 0) as [L|L].
  - pose proof (exp_mono e 0 L) as M. rewrite exp_0 in M. lra.
  - apply (Rmult_le_reg_r (1 - e)); [lra|]. nra.
Qed.

Lemma softplus_pos x : 0 <= ln (1 + exp x).
Proof. rewrite <- ln_1. apply ln_mono; [lra|]. pose proof (exp_pos x). lra. Qed.

Lemma softplus_le x B : x <= B -> 0 <= B -> ln (1 + exp x) <= B + 1.
Proof.
  intros H HB. rewrite <- (ln_exp (B + 1)). apply ln_mono; [pose proof (exp_pos x); lra|]. rewrite exp_plus.
  pose proof (exp_mono x B H). pose proof (exp_mono 0 B HB) as Q. rewrite exp_0 in Q. destruct exp_1_bounds as (E1 & _). nra.
Qed.

Lemma softplus_lipschitz x y d : Rabs (x - y) <= d -> Rabs (ln (1 + exp x) - ln (1 + exp y)) <= d.
Proof.
  assert (M : forall x y, x <= y -> ln (1 + exp x) <= ln (1 + exp y) <= ln (1 + exp x) + (y - x)).
  { intros a b H. pose proof (exp_pos a) as Pa. pose proof (exp_mono a b H) as Q. split; [apply ln_mono; lra|].
    rewrite <- (ln_exp (b - a)), <- ln_mult by (try apply exp_pos; lra). apply ln_mono; [lra|].
    rewrite Rmult_plus_distr_r, <- exp_plus, Rmult_1_l. replace (a + (b - a)) with b by ring.
    pose proof (exp_mono 0 (b - a) ltac:(lra)) as Q0. rewrite exp_0 in Q0. lra. }
  intros H. apply Rabs_le_inv in H. apply Rabs_le. destruct (Rle_or_lt x y) as [L|L].
  - pose proof (M x y L). lra.
  - pose proof (M y x ltac:(lra)). lra.
Qed.

Lemma add_intercept_close z f icpt a e :
  (match icpt with Some x => exists r, x = FNum r /\ r = a | None => a = 0 end) ->
  Rabs (z - f) <= e -> Rabs f + Rabs a + e <= 10000000 ->
  exists z', add_intercept (FNum z) icpt = FNum z' /\ Rabs (z' - (f + a)) <= e + uround * (Rabs f + Rabs a + e + 1).
Proof.
  intros Hi Hz HB. pose proof uround_pos as U. pose proof (Rabs_pos f). pose proof (Rabs_pos a). assert (e0 : 0 <= e) by (pose proof (Rabs_pos (z - f)); lra).
  destruct icpt as [x|].
  - destruct Hi as (r & -> & ->). cbn [add_intercept].
    assert (B : Rabs (z + a) <= Rabs f + Rabs a + e).
    { replace (z + a) with (f + a + (z - f)) by ring. eapply Rle_trans; [apply Rabs_triang|]. pose proof (Rabs_triang f a). lra. }
    destruct (fadd_close z a _ B ltac:(apply big_1000; lra)) as (z' & E & _ & D). exists z'. split; [exact E|].
    replace (z' - (f + a)) with ((z' - (z + a)) + (z - f)) by ring. eapply Rle_trans; [apply Rabs_triang|]. lra.
  - subst a. exists z. split; [reflexivity|]. rewrite Rplus_0_r. assert (0 <= uround * (Rabs f + Rabs 0 + e + 1)) by (apply Rmult_le_pos; lra). lra.
Qed.

(** ** The uneven logit *)
Theorem C126_uneven_logit_is_accurate :
  forall ex eps l1 el v sigma icpt a,
  accurate_exp ex eps -> 0 <= eps <= / 2 ^ 40 -> accurate_log1p l1 el -> 0 <= el <= / 2 ^ 40 ->
  double_format v -> -700 <= v <= 700 -> -700 <= sigma <= 700 -> exp sigma * Rabs v <= 699 ->
  (match icpt with Some x => exists r, x = FNum r /\ r = a | None => a = 0 end) -> Rabs a <= 1000 ->
  exists z, funeven ex l1 (FNum v) (FNum sigma) icpt = FNum z /\
    Rabs (z - (uneven_formula (exp sigma) v + a)) <= 800 * eps + 1500 * el + 6000 * / 2 ^ 53.
Proof.
  intros ex eps l1 el v sigma icpt a Hex Heps Hl1 Hel Fv Hv Hs Hsv Hic Ha. fold uround.
  pose proof uround_pos as U. pose proof uround_tiny as U40. pose proof inv_2_40 as T40.
  assert (B700 : exp 700 * (1 + eps) < bpow radix2 1024).
  { destruct exp_700 as (_ & Q). apply Rle_lt_trans with (bpow radix2 1011 * 2); [apply Rmult_le_compat; try lra; left; apply exp_pos|].
    replace (bpow radix2 1011 * 2) with (bpow radix2 (1011 + 1)) by (rewrite bpow_plus; reflexivity). apply bpow_lt. lia. }
  assert (EX : forall c, -700 <= c <= 700 -> fexp ex (FNum c) = FNum (ex c) /\ double_format (ex c) /\ 0 < ex c < bpow radix2 1024 /\ Rabs (ex c - exp c) <= eps * exp c).
  { intros c Hc. destruct (Hex c Hc) as (F & A). pose proof (exp_pos c) as P. pose proof (exp_mono c 700 ltac:(lra)) as M.
    pose proof A as A'. apply Rabs_le_inv in A'. assert (Q : 0 < ex c < bpow radix2 1024) by (split; nra).
    split; [cbn; apply overflow_num; rewrite Rabs_right; lra|]. auto. }
  set (s := exp sigma) in *. assert (s0 : 0 < s) by apply exp_pos.
  (* the natural shape *)
  destruct (EX sigma Hs) as (Es & Fs & Ps & As). fold s in As.
  unfold funeven, fnatural_shape. rewrite Es. cbn [on_posinf].
  (* log(1 + exp(-v)) *)
  assert (Vf : Rabs v < bpow radix2 1024).
  { apply Rle_lt_trans with 1024; [apply Rabs_le; lra|]. change 1024 with (bpow radix2 10). apply bpow_lt. lia. }
  rewrite (finite_opp v) by (split; assumption).
  assert (L1 : forall c, -700 <= c <= 700 -> exists z, fexp ex (FNum c) = FNum (ex c) /\ fln1p l1 (FNum (ex c)) = FNum z /\
    Rabs (z - ln (1 + exp c)) <= 702 * el + 2 * eps).
  { intros c Hc. destruct (EX c Hc) as (Ec & Fc & Pc & Ac). exists (l1 (ex c)). split; [exact Ec|]. split.
    - cbn [fln1p]. destruct (Rlt_dec (-1) (ex c)); [reflexivity|lra].
    - pose proof (Hl1 (ex c) Fc ltac:(lra)) as B. pose proof (exp_pos c) as P.
      assert (R : Rabs (ln (1 + ex c) - ln (1 + exp c)) <= 2 * eps).
      { apply ln_rel; [lra|lra|]. replace (1 + ex c - (1 + exp c)) with (ex c - exp c) by ring. eapply Rle_trans; [exact Ac|]. nra. }
      pose proof (softplus_le c 700 ltac:(lra) ltac:(lra)) as S1. pose proof (softplus_pos c) as S0.
      replace (l1 (ex c) - ln (1 + exp c)) with ((l1 (ex c) - ln (1 + ex c)) + (ln (1 + ex c) - ln (1 + exp c))) by ring.
      eapply Rle_trans; [apply Rabs_triang|]. apply Rabs_le_inv in R.
      assert (el * ln (1 + ex c) <= el * 702) by (apply Rmult_le_compat_l; lra). apply Rplus_le_compat; [lra|apply Rabs_le; lra]. }
  destruct (L1 (- v) ltac:(lra)) as (z1 & E1 & G1 & D1). rewrite E1, G1. cbn [on_inf].
  (* the exponent -s v *)
  rewrite (finite_opp (ex sigma)) by (split; [exact Fs|rewrite Rabs_right; lra]).
  apply Rabs_le_inv in As.
  assert (Psv : Rabs (- ex sigma * v) <= 6995 / 10).
  { rewrite Rabs_mult, Rabs_Ropp, (Rabs_right (ex sigma)) by lra. pose proof (Rabs_pos v).
    apply Rle_trans with ((1 + eps) * (s * Rabs v)); [|nra]. rewrite <- Rmult_assoc. apply Rmult_le_compat_r; lra. }
  destruct (fmul_close (- ex sigma) v (6995 / 10) Psv ltac:(apply big_1000; lra)) as (w & Ew & Fw & Dw). rewrite Ew.
  assert (Dw2 : Rabs (w - - (s * v)) <= 699 * eps + 701 * uround).
  { replace (w - - (s * v)) with ((w - - ex sigma * v) + (s - ex sigma) * v) by ring. eapply Rle_trans; [apply Rabs_triang|].
    assert (Rabs ((s - ex sigma) * v) <= 699 * eps); [|lra]. rewrite Rabs_mult.
    apply Rle_trans with (eps * s * Rabs v); [apply Rmult_le_compat_r; [apply Rabs_pos|apply Rabs_le; lra]|]. nra. }
  assert (Rw : -700 <= w <= 700) by (apply Rabs_le_inv in Dw; apply Rabs_le_inv in Psv; lra).
  destruct (L1 w Rw) as (z2 & E2 & G2 & D2). rewrite E2, G2. cbn [on_inf].
  pose proof (softplus_lipschitz w (- (s * v)) _ Dw2) as Sl.
  assert (D2' : Rabs (z2 - ln (1 + exp (- (s * v)))) <= 702 * el + 701 * eps + 701 * uround).
  { replace (z2 - ln (1 + exp (- (s * v)))) with ((z2 - ln (1 + exp w)) + (ln (1 + exp w) - ln (1 + exp (- (s * v))))) by ring.
    eapply Rle_trans; [apply Rabs_triang|]. lra. }
  set (A1 := ln (1 + exp (- v))) in *. set (A2 := ln (1 + exp (- (s * v)))) in *.
  assert (SV : Rabs (s * v) <= 699) by (rewrite Rabs_mult, (Rabs_right s) by lra; exact Hsv). apply Rabs_le_inv in SV.
  assert (R2 : 0 <= A2 <= 700) by (split; [apply softplus_pos|replace 700 with (699 + 1) by lra; apply softplus_le; lra]).
  assert (R1 : Rabs (v + A1) <= 701).
  { assert (EQ : v + A1 = ln (1 + exp v)).
    { unfold A1. rewrite <- (ln_exp v) at 1. rewrite <- ln_mult by (try apply exp_pos; pose proof (exp_pos (- v)); lra).
      f_equal. rewrite Rmult_plus_distr_l, <- exp_plus. replace (v + - v) with 0 by ring. rewrite exp_0. ring. }
    rewrite EQ. rewrite Rabs_right; [replace 701 with (700 + 1) by lra; apply softplus_le; lra|]. apply Rle_ge, softplus_pos. }
  apply Rabs_le_inv in R1. apply Rabs_le_inv in D1. apply Rabs_le_inv in D2'.
  destruct (fadd_close v z1 702 ltac:(apply Rabs_le; lra) ltac:(apply big_1000; lra)) as (t1 & Et1 & _ & Dt1). rewrite Et1.
  unfold fsub. cbn [fneg]. apply Rabs_le_inv in Dt1.
  destruct (fadd_close t1 (- z2) 1410 ltac:(apply Rabs_le; lra) ltac:(apply big_1000; lra)) as (t2 & Et2 & _ & Dt2). rewrite Et2.
  cbn [on_posinf on_neginf]. apply Rabs_le_inv in Dt2.
  assert (DF : Rabs (t2 - uneven_formula s v) <= 703 * eps + 1404 * el + 2815 * uround).
  { unfold uneven_formula. fold A1 A2. apply Rabs_le. lra. }
  assert (FB : Rabs (uneven_formula s v) <= 1401) by (unfold uneven_formula; fold A1 A2; apply Rabs_le; lra).
  destruct (add_intercept_close t2 (uneven_formula s v) icpt a _ Hic DF ltac:(lra)) as (z & Ez & Dz).
  exists z. split; [exact Ez|]. eapply Rle_trans; [exact Dz|].
  assert (uround * (Rabs (uneven_formula s v) + Rabs a + (703 * eps + 1404 * el + 2815 * uround) + 1) <= uround * 2403) by (apply Rmult_le_compat_l; lra).
  lra.
Qed.

(** ** Logarithms of differences from one *)

Lemma bpow_1013 : exp 700 * 4 < bpow radix2 1024.
Proof.
  destruct exp_700 as (_ & Q). apply Rle_lt_trans with (bpow radix2 1011 * 4); [lra|].
  replace (bpow radix2 1011 * 4) with (bpow radix2 (1011 + 2)) by (rewrite bpow_plus; reflexivity). apply bpow_lt. lia.
Qed.

Lemma exp_num ex eps c : accurate_exp ex eps -> 0 <= eps <= / 2 ^ 40 -> -700 <= c <= 700 ->
  fexp ex (FNum c) = FNum (ex c) /\ double_format (ex c) /\ 0 < ex c < bpow radix2 1024 /\ Rabs (ex c - exp c) <= eps * exp c.
Proof.
  intros Hex Heps Hc. pose proof inv_2_40 as T40. destruct (Hex c Hc) as (F & A). pose proof (exp_pos c) as P. pose proof (exp_mono c 700 ltac:(lra)) as M.
  pose proof bpow_1013 as B. pose proof (exp_pos 700).
  pose proof A as A'. apply Rabs_le_inv in A'. assert (Q : 0 < ex c < bpow radix2 1024) by (split; nra).
  split; [cbn; apply overflow_num; rewrite Rabs_right; lra|]. auto.
Qed.

Lemma log_minus_one lg el P x rho kappa :
  accurate_ln lg el -> 0 <= el <= 1 -> double_format x -> 1 < P <= exp 700 -> 0 <= rho ->
  Rabs (x - P) <= rho * P -> P <= kappa * (P - 1) -> 2 * (rho * kappa) + uround <= / 2 ->
  exists z, fln lg (fsub (FNum x) (FNum 1)) = FNum z /\ double_format z /\
    Rabs (z - ln (P - 1)) <= 4 * (rho * kappa) + 2 * uround + el * (Rabs (ln (P - 1)) + 1).
Proof.
  intros Hlg Hel Fx HP Hrho Hx Hk Hd. pose proof uround_pos as U. pose proof uround_tiny. pose proof inv_2_40. pose proof bpow_1013 as B.
  unfold fsub. cbn [fneg fadd].
  destruct (fadd_error x (- (1)) Fx) as (d & Hd' & E); [apply generic_format_opp; apply (generic_format_bpow radix2 _ 0); cbn; lia|].
  rewrite E. set (q := (x + - (1)) * (1 + d)) in *. set (Q := P - 1) in *. assert (Q0 : 0 < Q) by (unfold Q; lra).
  set (D := 2 * (rho * kappa) + uround) in *.
  assert (C : Rabs (q - Q) <= D * Q).
  { unfold q, Q. replace ((x + - (1)) * (1 + d) - (P - 1)) with ((x - P) * (1 + d) + (P - 1) * d) by ring.
    eapply Rle_trans; [apply Rabs_triang|]. rewrite !Rabs_mult, (Rabs_right (P - 1)) by (fold Q; lra). fold Q.
    assert (A1 : Rabs (1 + d) <= 2) by (eapply Rle_trans; [apply Rabs_triang|]; rewrite Rabs_R1; lra).
    apply Rle_trans with (rho * P * 2 + Q * uround).
    - apply Rplus_le_compat; [apply Rmult_le_compat; try apply Rabs_pos; assumption|apply Rmult_le_compat_l; lra].
    - unfold D. assert (rho * P <= rho * (kappa * Q)) by (apply Rmult_le_compat_l; assumption). lra. }
  assert (D0 : 0 <= D) by (pose proof (Rabs_pos (q - Q)); nra).
  pose proof C as C'. apply Rabs_le_inv in C'. assert (Qr : 0 < q <= 2 * Q) by (split; nra).
  assert (QB : q < bpow radix2 1024) by (unfold Q in Qr; lra).
  rewrite overflow_num by (rewrite Rabs_right; lra). cbn [fln]. destruct (Rlt_dec 0 q); [|lra].
  assert (Fq : double_format q) by (rewrite <- E; apply rnd_format).
  destruct (Hlg q Fq ltac:(lra)) as (Fz & A). exists (lg q). split; [reflexivity|]. split; [exact Fz|].
  pose proof (ln_rel q Q D Q0 ltac:(lra) C) as R.
  replace (lg q - ln Q) with ((lg q - ln q) + (ln q - ln Q)) by ring. eapply Rle_trans; [apply Rabs_triang|].
  assert (LQ : Rabs (ln q) <= Rabs (ln Q) + 1).
  { replace (ln q) with (ln Q + (ln q - ln Q)) by ring. eapply Rle_trans; [apply Rabs_triang|]. lra. }
  assert (el * Rabs (ln q) <= el * (Rabs (ln Q) + 1)) by (apply Rmult_le_compat_l; lra). unfold D in R. lra.
Qed.

(** P / (P - 1) <= 1 + 1 / ln P *)
Lemma amplification P L : 0 < L -> P = exp L -> P <= (1 + / L) * (P - 1).
Proof.
  intros HL ->. pose proof (exp_ineq1 L ltac:(lra)) as Q. assert (I : 0 < / L) by (apply Rinv_0_lt_compat; lra).
  assert (/ L * (exp L - 1) >= / L * L) by (apply Rle_ge, Rmult_le_compat_l; lra). rewrite Rinv_l in H by lra. lra.
Qed.

(** ** The clog-log model: the error grows with exp(-v) *)

Lemma rnd_37 r : double_format r -> (rnd 3.7 <= r <-> 3.7 <= r).
Proof.
  intros F. split; intros H; [|rewrite <- (rnd_id r F); apply rnd_le; exact H].
  assert (L : 3.7 <= rnd 3.7).
  { unfold rnd, round, scaled_mantissa, cexp.
    assert (M : mag radix2 3.7 = 2%Z :> Z) by (apply mag_unique_pos; change (bpow radix2 (2 - 1)) with 2; change (bpow radix2 2) with 4; lra).
    rewrite M. change (FLT_exp (-1074) 53 2) with (-51)%Z. change (- (-51))%Z with 51%Z.
    rewrite (Znearest_imp _ (3.7 * bpow radix2 51) 8331659310635418).
    - unfold F2R. cbn [Fnum Fexp]. change (-51)%Z with (Z.opp 51). rewrite bpow_opp, <- (IZR_Zpower radix2 51) by lia.
      change (radix2 ^ 51)%Z with 2251799813685248%Z. lra.
    - rewrite <- (IZR_Zpower radix2 51) by lia. change (radix2 ^ 51)%Z with 2251799813685248%Z. apply Rabs_lt. lra. }
  lra.
Qed.

Theorem C126_clog_log_is_accurate :
  forall ex eps lg el v icpt a,
  accurate_exp ex eps -> 0 <= eps <= / 2 ^ 40 -> accurate_ln lg el -> 0 <= el <= / 2 ^ 40 ->
  double_format v -> -700 <= v <= 7 -> 340 * eps * (1 + exp (- v)) + / 2 ^ 53 <= / 2 ->
  (match icpt with Some x => exists r, x = FNum r /\ r = a | None => a = 0 end) -> Rabs a <= 1000 ->
  exists z, fcloglog ex lg (FNum v) icpt = FNum z /\
    Rabs (z - (clog_formula v + a)) <= 1400 * eps * (1 + exp (- v)) + 800 * el + 6000 * / 2 ^ 53.
Proof.
  intros ex eps lg el v icpt a Hex Heps Hlg Hel Fv Hv Hsmall Hic Ha. fold uround in *.
  pose proof uround_pos as U. pose proof uround_tiny as U40. pose proof inv_2_40 as T40.
  pose proof (exp_pos v) as Pv. pose proof (exp_pos (- v)) as Pn.
  unfold fcloglog, fge. destruct (exp_num ex eps v Hex Heps ltac:(lra)) as (E1 & F1 & P1 & A1). rewrite E1.
  assert (BR : (if Rle_dec (rnd 3.7) v then true else false) = (if Rle_dec 3.7 v then true else false)).
  { pose proof (rnd_37 v Fv). destruct (Rle_dec (rnd 3.7) v), (Rle_dec 3.7 v); try reflexivity; tauto. }
  rewrite BR. unfold clog_formula.
  assert (E7 : exp 7 <= 1102).
  { replace 7 with (INR 7) by (cbn; ring). rewrite exp_INR. destruct exp_1_bounds as (L7 & U7).
    apply Rle_trans with ((272 / 100) ^ 7); [apply pow_incr; lra|]. cbn. lra. }
  destruct (Rle_dec 3.7 v) as [G|G].
  - (* the exponential itself *)
    cbn [on_posinf]. pose proof (exp_mono v 7 ltac:(lra)) as M7.
    assert (EN : exp v * exp (- v) = 1) by (rewrite <- exp_plus; replace (v + - v) with 0 by ring; apply exp_0).
    assert (D : Rabs (ex v - exp v) <= 1400 * eps) by (eapply Rle_trans; [exact A1|]; nra).
    destruct (add_intercept_close (ex v) (exp v) icpt a _ Hic D) as (z & Ez & Dz).
    { rewrite (Rabs_right (exp v)) by lra. lra. }
    exists z. split; [exact Ez|]. eapply Rle_trans; [exact Dz|]. rewrite (Rabs_right (exp v)) by lra.
    assert (uround * (exp v + Rabs a + 1400 * eps + 1) <= uround * 4000) by (apply Rmult_le_compat_l; lra). nra.
  - (* log(exp(exp v) - 1) *)
    set (E := exp v) in *. assert (E4 : E <= 55).
    { apply Rle_trans with (exp 4); [apply exp_mono; lra|]. replace 4 with (INR 4) by (cbn; ring). rewrite exp_INR. destruct exp_1_bounds as (L4 & U4).
      apply Rle_trans with ((272 / 100) ^ 4); [apply pow_incr; lra|]. cbn. lra. }
    pose proof A1 as A1'. apply Rabs_le_inv in A1'.
    assert (R1 : Rabs (ex v - E) <= 55 * eps) by (eapply Rle_trans; [exact A1|]; nra). pose proof R1 as R1'. apply Rabs_le_inv in R1'.
    destruct (exp_num ex eps (ex v) Hex Heps ltac:(lra)) as (E2 & F2 & P2 & A2). rewrite E2.
    pose proof (exp_rel (ex v) E _ R1 ltac:(lra)) as X. set (P := exp E) in *. assert (P0 : 0 < P) by apply exp_pos.
    assert (RP : Rabs (ex (ex v) - P) <= 112 * eps * P).
    { replace (ex (ex v) - P) with ((ex (ex v) - exp (ex v)) + (exp (ex v) - P)) by ring. eapply Rle_trans; [apply Rabs_triang|].
      apply Rabs_le_inv in X. assert (exp (ex v) <= 2 * P) by nra. pose proof (exp_pos (ex v)).
      assert (eps * exp (ex v) <= eps * (2 * P)) by (apply Rmult_le_compat_l; lra). assert (Rabs (exp (ex v) - P) <= 2 * (55 * eps) * P) by (apply Rabs_le; lra). lra. }
    assert (IE : / E = exp (- v)) by (unfold E; symmetry; apply exp_Ropp).
    assert (P1' : 1 < P) by (unfold P; rewrite <- exp_0; apply exp_increasing; exact Pv).
    pose proof (amplification P E Pv eq_refl) as AM. rewrite IE in AM. set (kappa := 1 + exp (- v)) in *.
    assert (k1 : 1 < kappa) by (unfold kappa; lra). assert (ek : 0 <= eps * kappa) by nra.
    destruct (log_minus_one lg el P (ex (ex v)) (112 * eps) kappa) as (t & Et & _ & Dt); try assumption; try lra.
    { split; [exact P1'|]. apply exp_mono. lra. }
    rewrite Et. cbn [on_neginf on_posinf].
    assert (LB : Rabs (ln (P - 1)) <= 700).
    { apply Rabs_le. pose proof (exp_ineq1 E ltac:(lra)) as Q. fold P in Q. split.
      - apply Rle_trans with v; [lra|]. rewrite <- (ln_exp v). apply ln_mono; [exact Pv|]. fold E. lra.
      - apply Rle_trans with (ln P); [apply ln_mono; lra|]. unfold P. rewrite ln_exp. lra. }
    assert (D : Rabs (t - ln (P - 1)) <= 448 * (eps * kappa) + 2 * uround + 701 * el).
    { eapply Rle_trans; [exact Dt|]. assert (el * (Rabs (ln (P - 1)) + 1) <= el * 701) by (apply Rmult_le_compat_l; lra). lra. }
    destruct (add_intercept_close t (ln (P - 1)) icpt a _ Hic D) as (z & Ez & Dz).
    { lra. }
    exists z. split; [exact Ez|]. eapply Rle_trans; [exact Dz|].
    assert (uround * (Rabs (ln (P - 1)) + Rabs a + (448 * (eps * kappa) + 2 * uround + 701 * el) + 1) <= uround * 2000) by (apply Rmult_le_compat_l; lra).
    lra.
Qed.

(** ** Scobit: the error grows with the shape and with 1 / ln P, where P = (1 + exp(-v))^shape *)
Theorem C126_scobit_is_accurate :
  forall ex eps lg el pw ep v sigma a,
  accurate_exp ex eps -> 0 <= eps <= / 2 ^ 40 -> accurate_ln lg el -> 0 <= el <= / 2 ^ 40 -> accurate_power pw ep -> 0 <= ep <= / 2 ^ 40 ->
  double_format v -> -700 <= v <= 700 -> -700 <= sigma <= 700 -> Rabs a <= 1000 ->
  let s := exp sigma in
  let L := s * ln (1 + exp (- v)) in
  let rho := 7 * s * (2 * eps + / 2 ^ 53) + 1400 * eps + 2 * ep in
  L <= 690 -> 2 * (rho * (1 + / L)) + / 2 ^ 53 <= / 2 -> Rabs (scobit_formula s v) <= 1000 ->
  exists z, fscobit ex lg pw (FNum v) (FNum sigma) (FNum a) = FNum z /\
    Rabs (z - (scobit_formula s v + a)) <= 4 * (rho * (1 + / L)) + 1001 * el + 3000 * / 2 ^ 53.
Proof.
  intros ex eps lg el pw ep v sigma a Hex Heps Hlg Hel Hpw Hep Fv Hv Hs Ha s L rho HL Hsmall Hf. fold uround in *.
  pose proof uround_pos as U. pose proof uround_tiny as U40. pose proof inv_2_40 as T40. pose proof bpow_1013 as B1013.
  assert (s0 : 0 < s) by apply exp_pos. set (E := exp (- v)) in *. assert (E0 : 0 < E) by apply exp_pos.
  assert (lb0 : 0 < ln (1 + E)) by (rewrite <- ln_1; apply ln_increasing; lra).
  assert (L0 : 0 < L) by (unfold L; nra).
  destruct (exp_num ex eps sigma Hex Heps Hs) as (Es & Fs & Ps & As). fold s in As.
  unfold fscobit, fnatural_shape. rewrite Es. cbn [on_posinf].
  assert (Vf : Rabs v < bpow radix2 1024).
  { apply Rle_lt_trans with 1024; [apply Rabs_le; lra|]. change 1024 with (bpow radix2 10). apply bpow_lt. lia. }
  rewrite (finite_opp v) by (split; assumption).
  destruct (exp_num ex eps (- v) Hex Heps ltac:(lra)) as (Ee & Fe & Pe & Ae). fold E in Ae. rewrite Ee. cbn [on_posinf].
  (* the base *)
  destruct (fadd_error 1 (ex (- v))) as (d & Hd & Ed); [apply (generic_format_bpow radix2 _ 0); cbn; lia|exact Fe|].
  apply Rabs_le_inv in Ae. set (b := 1 + E) in *. set (bh := rnd (1 + ex (- v))) in *.
  assert (Db : Rabs (bh - b) <= (2 * eps + uround) * b).
  { rewrite Ed. unfold b. replace ((1 + ex (- v)) * (1 + d) - (1 + E)) with ((ex (- v) - E) * (1 + d) + (1 + E) * d) by ring.
    eapply Rle_trans; [apply Rabs_triang|]. rewrite !Rabs_mult, (Rabs_right (1 + E)) by lra.
    assert (A1 : Rabs (1 + d) <= 2) by (eapply Rle_trans; [apply Rabs_triang|]; rewrite Rabs_R1; lra).
    assert (A2 : Rabs (ex (- v) - E) <= eps * E) by (apply Rabs_le; lra).
    apply Rle_trans with (eps * E * 2 + (1 + E) * uround); [apply Rplus_le_compat; [apply Rmult_le_compat; try apply Rabs_pos; assumption|apply Rmult_le_compat_l; lra]|]. nra. }
  assert (bh1 : 1 <= bh) by (unfold bh; rewrite <- rnd_1 at 1; apply rnd_le; lra).
  assert (Eb : E <= exp 700) by (apply exp_mono; lra). assert (X700 : 1 <= exp 700) by (rewrite <- exp_0; apply exp_mono; lra).
  assert (bhB : bh < bpow radix2 1024) by (apply Rabs_le_inv in Db; assert ((2 * eps + uround) * b <= / 2 * b) by (apply Rmult_le_compat_r; unfold b; lra); unfold b in *; lra).
  cbn [fadd]. fold bh. rewrite (overflow_num bh) by (rewrite Rabs_right; lra). cbn [fpow].
  pose proof (ln_rel bh b (2 * eps + uround) ltac:(unfold b; lra) ltac:(lra) Db) as Dl.
  (* the power *)
  apply Rabs_le_inv in As. set (theta := 3 * s * (2 * eps + uround) + 690 * eps).
  assert (w0 : 0 <= 2 * eps + uround) by lra. assert (sw0 : 0 <= s * (2 * eps + uround)) by (apply Rmult_le_pos; lra).
  assert (LN : Rabs (ex sigma * ln bh - L) <= theta).
  { unfold L. fold b. replace (ex sigma * ln bh - s * ln b) with (ex sigma * (ln bh - ln b) + (ex sigma - s) * ln b) by ring.
    eapply Rle_trans; [apply Rabs_triang|]. rewrite !Rabs_mult, (Rabs_right (ex sigma)), (Rabs_right (ln b)) by lra.
    assert (Q1 : ex sigma * Rabs (ln bh - ln b) <= 3 / 2 * s * (2 * (2 * eps + uround))).
    { assert (eps * s <= / 2 * s) by (apply Rmult_le_compat_r; lra). apply Rmult_le_compat; [lra|apply Rabs_pos|lra|exact Dl]. }
    assert (Q2 : Rabs (ex sigma - s) * ln b <= eps * s * ln b) by (apply Rmult_le_compat_r; [lra|apply Rabs_le; lra]).
    assert (Q3 : eps * (s * ln b) <= eps * 690) by (apply Rmult_le_compat_l; [lra|exact HL]). unfold theta. lra. }
  assert (rho0 : 2 * theta + 2 * ep <= rho) by (unfold rho, theta; lra).
  assert (th0 : 0 <= theta) by (unfold theta; lra).
  assert (iL : 0 < / L) by (apply Rinv_0_lt_compat; lra).
  assert (rh0 : 0 <= rho) by lra. assert (ri : 0 <= rho * / L) by (apply Rmult_le_pos; lra).
  assert (rL : rho <= rho * (1 + / L)) by (rewrite Rmult_plus_distr_l; lra).
  set (P := exp L) in *. assert (P0 : 0 < P) by apply exp_pos.
  assert (EP : Rpower (1 + E) s = P) by reflexivity.
  pose proof (exp_rel _ L theta LN ltac:(lra)) as DP. change (exp (ex sigma * ln bh)) with (Rpower bh (ex sigma)) in DP. fold P in DP.
  assert (PB : Rpower bh (ex sigma) <= exp 700) by (apply exp_mono; apply Rabs_le_inv in LN; lra).
  destruct (Hpw bh (ex sigma)) as (Fp & Dp); [apply rnd_format|exact Fs|exact bh1|lra|exact PB|].
  assert (DPP : Rabs (pw bh (ex sigma) - P) <= rho * P).
  { replace (pw bh (ex sigma) - P) with ((pw bh (ex sigma) - Rpower bh (ex sigma)) + (Rpower bh (ex sigma) - P)) by ring.
    eapply Rle_trans; [apply Rabs_triang|]. pose proof DP as DP'. apply Rabs_le_inv in DP'.
    assert (theta * P <= / 2 * P) by (apply Rmult_le_compat_r; lra). assert (Rpower bh (ex sigma) <= 2 * P) by lra. assert (ep * Rpower bh (ex sigma) <= ep * (2 * P)) by (apply Rmult_le_compat_l; lra).
    assert ((2 * theta + 2 * ep) * P <= rho * P) by (apply Rmult_le_compat_r; lra). lra. }
  assert (PL : P <= exp 690) by (apply exp_mono; exact HL). assert (P70 : exp 690 <= exp 700) by (apply exp_mono; lra).
  assert (pwB : overflow (pw bh (ex sigma)) = FNum (pw bh (ex sigma))).
  { apply overflow_num. apply Rabs_le_inv in DPP. assert (rho * P <= / 2 * P) by (apply Rmult_le_compat_r; lra). apply Rabs_lt. lra. }
  rewrite pwB. cbn [on_posinf].
  assert (P1 : 1 < P) by (unfold P; rewrite <- exp_0; apply exp_increasing; exact L0).
  destruct (log_minus_one lg el P (pw bh (ex sigma)) rho (1 + / L)) as (t & Et & _ & Dt); try assumption; try lra.
  { apply amplification; [exact L0|reflexivity]. }
  rewrite Et. assert (SF : scobit_formula s v = - ln (P - 1)) by (unfold scobit_formula; rewrite <- EP; reflexivity).
  rewrite SF in *. rewrite Rabs_Ropp in Hf.
  assert (D : Rabs (t - ln (P - 1)) <= 4 * (rho * (1 + / L)) + 2 * uround + 1001 * el).
  { eapply Rle_trans; [exact Dt|]. assert (el * (Rabs (ln (P - 1)) + 1) <= el * 1001) by (apply Rmult_le_compat_l; lra). lra. }
  assert (B : Rabs (a + - t) <= 2002).
  { replace (a + - t) with (a + (- ln (P - 1) + - (t - ln (P - 1)))) by ring. eapply Rle_trans; [apply Rabs_triang|].
    pose proof (Rabs_triang (- ln (P - 1)) (- (t - ln (P - 1)))) as Q. rewrite !Rabs_Ropp in Q. lra. }
  unfold fsub. cbn [fneg]. destruct (fadd_close a (- t) 2002 B ltac:(apply big_1000; lra)) as (z & Ez & _ & Dz).
  rewrite Ez. cbn [on_posinf on_neginf]. exists z. split; [reflexivity|].
  replace (z - (- ln (P - 1) + a)) with ((z - (a + - t)) + - (t - ln (P - 1))) by ring.
  eapply Rle_trans; [apply Rabs_triang|]. rewrite Rabs_Ropp. lra.
Qed.

(** ** Asymmetric logit: the error grows with 1 / (1 - c) and with |v| *)
Lemma log_rel lg el q Q D : accurate_ln lg el -> 0 <= el -> double_format q -> 0 < Q -> 0 <= D <= / 2 -> q < bpow radix2 1024 ->
  Rabs (q - Q) <= D * Q -> fln lg (FNum q) = FNum (lg q) /\ double_format (lg q) /\ Rabs (lg q - ln Q) <= 2 * D + el * (Rabs (ln Q) + 1).
Proof.
  intros Hlg Hel Fq Q0 HD QB C. pose proof C as C'. apply Rabs_le_inv in C'. assert (q0 : 0 < q) by nra.
  cbn [fln]. destruct (Rlt_dec 0 q); [|lra]. destruct (Hlg q Fq ltac:(lra)) as (Fz & A). split; [reflexivity|]. split; [exact Fz|].
  pose proof (ln_rel q Q D Q0 HD C) as R.
  replace (lg q - ln Q) with ((lg q - ln q) + (ln q - ln Q)) by ring. eapply Rle_trans; [apply Rabs_triang|].
  assert (LQ : Rabs (ln q) <= Rabs (ln Q) + 1).
  { replace (ln q) with (ln Q + (ln q - ln Q)) by ring. eapply Rle_trans; [apply Rabs_triang|]. lra. }
  assert (el * Rabs (ln q) <= el * (Rabs (ln Q) + 1)) by (apply Rmult_le_compat_l; lra). lra.
Qed.

Lemma exp_neg_700 : bpow radix2 (-1011) <= exp (-700).
Proof.
  destruct exp_700 as (_ & Q). replace (-700) with (- (700)) by ring. rewrite exp_Ropp. change (-1011)%Z with (- (1011))%Z. rewrite (bpow_opp radix2 1011). apply Rinv_le_contravar; [apply exp_pos|exact Q].
Qed.

Theorem C126_asym_is_accurate :
  forall lg el J x c gamma v icpt a,
  accurate_ln lg el -> 0 <= el <= / 2 ^ 40 -> (2 <= J)%nat ->
  double_format x -> 0 < c < 1 -> Rabs (x - c) <= gamma * c ->
  let kappa := / (1 - c) in
  gamma * kappa <= / 100 -> Rabs (ln c) <= 690 -> Rabs (ln ((1 - c) / (INR J - 1))) <= 690 ->
  double_format v -> Rabs v <= 700 ->
  (match icpt with Some x => exists r, x = FNum r /\ r = a | None => a = 0 end) -> Rabs a <= 1000 ->
  exists z, fasym lg J (FNum x) (FNum v) icpt = FNum z /\
    Rabs (z - (asym_formula J c v + a)) <= (1 + Rabs v) * (6 * (gamma * kappa) + 700 * el) + 2000000 * / 2 ^ 53.
Proof.
  intros lg el J x c gamma v icpt a Hlg Hel HJ Fx Hc Hx kappa Hg Hlc Hl1 Fv Hv Hic Ha. fold uround in *.
  pose proof uround_pos as U. pose proof uround_tiny as U40. pose proof inv_2_40 as T40. pose proof (Rabs_pos v) as v0.
  assert (n1 : 1 <= INR J - 1) by (apply le_INR in HJ; cbn in HJ; lra). set (n := INR J - 1) in *.
  assert (k1 : 1 < kappa) by (unfold kappa; rewrite <- Rinv_1 at 1; apply Rinv_lt_contravar; lra).
  assert (g0 : 0 <= gamma) by (pose proof (Rabs_pos (x - c)); nra).
  assert (kc : kappa * (1 - c) = 1) by (unfold kappa; apply Rinv_l; lra).
  assert (gk : gamma <= gamma * kappa) by nra.
  set (gkk := gamma * kappa) in *.
  assert (gc : gamma * c <= gkk * (1 - c)).
  { unfold gkk. replace (gamma * kappa * (1 - c)) with (gamma * (kappa * (1 - c))) by ring. rewrite kc. nra. }
  pose proof Hx as Hx'. apply Rabs_le_inv in Hx'.
  assert (B1024 : 4 < bpow radix2 1024) by (change 4 with (bpow radix2 2); apply bpow_lt; lia).
  (* ln c *)
  assert (x2 : x < 2) by nra.
  destruct (log_rel lg el x c gamma Hlg ltac:(lra) Fx ltac:(lra) ltac:(lra) ltac:(lra) Hx) as (E1 & F1 & A1).
  (* ln ((1 - c) / (J - 1)) *)
  destruct (fadd_error 1 (- x)) as (d & Hd & Ed); [apply (generic_format_bpow radix2 _ 0); cbn; lia|apply generic_format_opp; exact Fx|].
  set (w := rnd (1 + - x)) in *.
  assert (Dw : Rabs (w - (1 - c)) <= (2 * gkk + uround) * (1 - c)).
  { rewrite Ed. replace ((1 + - x) * (1 + d) - (1 - c)) with (- (x - c) * (1 + d) + (1 - c) * d) by ring.
    eapply Rle_trans; [apply Rabs_triang|]. rewrite !Rabs_mult, Rabs_Ropp, (Rabs_right (1 - c)) by lra.
    assert (A2 : Rabs (1 + d) <= 2) by (eapply Rle_trans; [apply Rabs_triang|]; rewrite Rabs_R1; lra).
    apply Rle_trans with (gkk * (1 - c) * 2 + (1 - c) * uround); [apply Rplus_le_compat; [apply Rmult_le_compat; try apply Rabs_pos; [lra|assumption]|apply Rmult_le_compat_l; lra]|]. lra. }
  pose proof Dw as Dw'. apply Rabs_le_inv in Dw'.
  assert (wb : (1 - c) / 2 <= w <= 2 * (1 - c)).
  { assert ((2 * gkk + uround) * (1 - c) <= / 2 * (1 - c)) by (apply Rmult_le_compat_r; lra). lra. }
  assert (Ew : fsub (FNum 1) (FNum x) = FNum w).
  { unfold fsub. cbn [fneg fadd]. fold w. apply overflow_num. rewrite Rabs_right; lra. }
  set (Q := (1 - c) / n) in *. assert (in0 : 0 < / n) by (apply Rinv_0_lt_compat; lra).
  assert (in1 : / n <= 1) by (rewrite <- Rinv_1; apply Rinv_le_contravar; lra).
  assert (Q0 : 0 < Q) by (unfold Q, Rdiv; nra). assert (Q1 : Q < 1) by (unfold Q, Rdiv; nra).
  assert (QL : bpow radix2 (-1010) <= Q).
  { rewrite <- (exp_ln Q Q0). apply Rabs_le_inv in Hl1. apply Rle_trans with (exp (-690)); [|apply exp_mono; lra].
    replace (-690) with (-700 + 10) by ring. rewrite exp_plus. pose proof exp_neg_700 as X.
    replace (-1010)%Z with (-1011 + 1)%Z by lia. rewrite bpow_plus. change (bpow radix2 1) with 2.
    pose proof (bpow_gt_0 radix2 (-1011)). pose proof (exp_ineq1 10 ltac:(lra)). apply Rmult_le_compat; lra. }
  assert (Dq0 : Rabs (w / n - Q) <= (2 * gkk + uround) * Q).
  { unfold Q, Rdiv. rewrite <- Rmult_minus_distr_r, Rabs_mult, (Rabs_right (/ n)) by lra.
    apply Rle_trans with ((2 * gkk + uround) * (1 - c) * / n); [apply Rmult_le_compat_r; lra|lra]. }
  pose proof Dq0 as Dq0'. apply Rabs_le_inv in Dq0'.
  assert (sQ : (2 * gkk + uround) * Q <= / 4 * Q) by (apply Rmult_le_compat_r; lra).
  assert (lowq : bpow radix2 (-1022) <= w / n).
  { apply Rle_trans with (bpow radix2 (-1010) / 2); [|lra]. replace (-1010)%Z with (-1022 + 12)%Z by lia. rewrite bpow_plus.
    change (bpow radix2 12) with 4096. pose proof (bpow_gt_0 radix2 (-1022)). lra. }
  pose proof (rnd_relative (w / n) lowq) as Rq. set (q := rnd (w / n)) in *.
  assert (Dq : Rabs (q - Q) <= (3 * gkk + 3 * uround) * Q).
  { assert (uw : uround * (w / n) <= uround * (2 * Q)) by (apply Rmult_le_compat_l; lra).
    apply Rle_trans with (uround * (2 * Q) + (2 * gkk + uround) * Q); [apply Rabs_le; lra|]. assert (0 <= gkk * Q) by (apply Rmult_le_pos; lra). lra. }
  pose proof Dq as Dq'. apply Rabs_le_inv in Dq'.
  assert (qb : 0 < q < 2).
  { assert ((3 * gkk + 3 * uround) * Q <= / 4 * Q) by (apply Rmult_le_compat_r; lra). lra. }
  assert (Eq : fdiv (FNum w) (FNum n) = FNum q).
  { cbn [fdiv]. destruct (Req_EM_T n 0); [lra|]. fold q. apply overflow_num. rewrite Rabs_right; lra. }
  destruct (log_rel lg el q Q (3 * gkk + 3 * uround) Hlg ltac:(lra) (rnd_format _) Q0 ltac:(lra) ltac:(lra) Dq) as (E2 & F2 & A2).
  set (e := 6 * gkk + 6 * uround + 691 * el).
  assert (A1e : Rabs (lg x - ln c) <= e) by (eapply Rle_trans; [exact A1|]; assert (el * (Rabs (ln c) + 1) <= el * 691) by (apply Rmult_le_compat_l; lra); unfold e; lra).
  assert (A2e : Rabs (lg q - ln Q) <= e) by (eapply Rle_trans; [exact A2|]; assert (el * (Rabs (ln Q) + 1) <= el * 691) by (apply Rmult_le_compat_l; lra); unfold e; lra).
  assert (eb : 0 <= e <= 1) by (split; [eapply Rle_trans; [apply Rabs_pos|exact A1e]|unfold e; lra]).
  set (m := if Rle_dec 0 v then ln c else ln Q). set (mh := if Rle_dec 0 v then lg x else lg q).
  assert (Am : Rabs (mh - m) <= e) by (unfold mh, m; destruct (Rle_dec 0 v); assumption).
  assert (Bm : Rabs m <= 690) by (unfold m; destruct (Rle_dec 0 v); assumption).
  unfold fasym. fold n. rewrite E1, Ew, Eq, E2. cbn [on_neginf].
  assert (small : forall l L, Rabs (l - L) <= e -> Rabs L <= 690 -> Rabs l < bpow radix2 1024).
  { intros l L H1 H2. apply Rle_lt_trans with 1024; [|change 1024 with (bpow radix2 10); apply bpow_lt; lia].
    replace l with (L + (l - L)) by ring. eapply Rle_trans; [apply Rabs_triang|]. lra. }
  assert (b0 : Rabs 0 < bpow radix2 1024) by (rewrite Rabs_R0; apply bpow_gt_0).
  assert (EM : fadd (fmul (fis_ge0 (FNum v)) (FNum (lg x))) (fmul (fis_lt0 (FNum v)) (FNum (lg q))) = FNum mh).
  { unfold fis_ge0, fis_lt0, mh. destruct (Rle_dec 0 v), (Rlt_dec v 0); try lra; cbn [fmul]; rewrite Rmult_1_l, Rmult_0_l, rnd_0, (overflow_num 0) by exact b0.
    - rewrite (rnd_id _ F1), (overflow_num _ (small _ _ A1e Hlc)). cbn [fadd]. rewrite Rplus_0_r, (rnd_id _ F1). exact (overflow_num _ (small _ _ A1e Hlc)).
    - rewrite (rnd_id _ F2), (overflow_num _ (small _ _ A2e Hl1)). cbn [fadd]. rewrite Rplus_0_l, (rnd_id _ F2). exact (overflow_num _ (small _ _ A2e Hl1)). }
  rewrite EM.
  (* v times the multiplier *)
  assert (vm : Rabs (v * m) <= 483000) by (rewrite Rabs_mult; replace 483000 with (700 * 690) by ring; apply Rmult_le_compat; try apply Rabs_pos; assumption).
  assert (vd : Rabs (v * mh - v * m) <= Rabs v * e) by (rewrite <- Rmult_minus_distr_l, Rabs_mult; apply Rmult_le_compat_l; assumption).
  assert (ve : 0 <= Rabs v * e <= 700) by (split; [apply Rmult_le_pos; lra|]; replace 700 with (700 * 1) by ring; apply Rmult_le_compat; lra).
  assert (vB : Rabs (v * mh) <= 484000).
  { replace (v * mh) with (v * m + (v * mh - v * m)) by ring. eapply Rle_trans; [apply Rabs_triang|]. lra. }
  destruct (fmul_close v mh 484000 vB ltac:(apply big_1000; lra)) as (t1 & Et1 & _ & D1). rewrite Et1.
  assert (tB : Rabs (lg x + - t1) <= 490000).
  { replace (lg x + - t1) with (ln c + ((lg x - ln c) + (- (t1 - v * mh) + - (v * mh)))) by ring. eapply Rle_trans; [apply Rabs_triang|].
    pose proof (Rabs_triang (lg x - ln c) (- (t1 - v * mh) + - (v * mh))). pose proof (Rabs_triang (- (t1 - v * mh)) (- (v * mh))) as Q2. rewrite !Rabs_Ropp in Q2. lra. }
  unfold fsub. cbn [fneg]. destruct (fadd_close (lg x) (- t1) 490000 tB ltac:(apply big_1000; lra)) as (t2 & Et2 & _ & D2). rewrite Et2.
  set (f := asym_formula J c v). assert (Ef : f = ln c - v * m) by reflexivity.
  assert (fB : Rabs f <= 484000).
  { rewrite Ef. unfold Rminus. eapply Rle_trans; [apply Rabs_triang|]. rewrite Rabs_Ropp. lra. }
  assert (DF : Rabs (t2 - f) <= (1 + Rabs v) * e + 980000 * uround).
  { rewrite Ef. replace (t2 - (ln c - v * m)) with ((t2 - (lg x + - t1)) + ((lg x - ln c) + (- (t1 - v * mh) + - (v * mh - v * m)))) by ring.
    eapply Rle_trans; [apply Rabs_triang|]. pose proof (Rabs_triang (lg x - ln c) (- (t1 - v * mh) + - (v * mh - v * m))).
    pose proof (Rabs_triang (- (t1 - v * mh)) (- (v * mh - v * m))) as Q2. rewrite !Rabs_Ropp in Q2. lra. }
  assert (eB : (1 + Rabs v) * e <= 701) by lra.
  destruct (add_intercept_close t2 f icpt a _ Hic DF ltac:(lra)) as (z & Ez & Dz).
  rewrite Ez. cbn [on_posinf on_neginf]. exists z. split; [reflexivity|]. eapply Rle_trans; [exact Dz|].
  assert (uround * (Rabs f + Rabs a + ((1 + Rabs v) * e + 980000 * uround) + 1) <= uround * 490000) by (apply Rmult_le_compat_l; lra).
  assert ((1 + Rabs v) * e <= (1 + Rabs v) * (6 * gkk + 700 * el) + 701 * (6 * uround)).
  { assert ((1 + Rabs v) * (6 * uround) <= 701 * (6 * uround)) by (apply Rmult_le_compat_r; lra).
    assert (0 <= (1 + Rabs v) * (9 * el)) by (apply Rmult_le_pos; lra). unfold e. lra. }
  lra.
Qed.

(** ** Correctly rounded functions meet the assumptions *)

#[local] Instance prec_53' : Prec_gt_0 53 := FloatFacts.prec_53.

Lemma rnd_rel_abs z : bpow radix2 (-1022) <= Rabs z -> Rabs (rnd z - z) <= / 2 ^ 53 * Rabs z.
Proof.
  fold uround. intros H. pose proof uround_pos. destruct (Rle_lt_dec 0 z) as [G|G].
  - rewrite (Rabs_right z) in * by lra. pose proof (rnd_relative z H). apply Rabs_le. lra.
  - rewrite (Rabs_left z) in * by lra. pose proof (rnd_relative (- z) H) as Q.
    assert (E : rnd (- z) = - rnd z) by (unfold rnd; apply round_NE_opp). rewrite E in Q. apply Rabs_le. lra.
Qed.

Lemma apart_from_one x : double_format x -> 0 < x -> x <> 1 -> bpow radix2 (-55) <= Rabs (ln x).
Proof.
  intros F H N. pose proof (bpow_gt_0 radix2 (-53)) as P.
  assert (F1 : double_format 1) by (apply (generic_format_bpow radix2 _ 0); cbn; lia).
  assert (b53 : bpow radix2 (-53) <= / 8) by (replace (/ 8) with (bpow radix2 (-3)) by (cbn; lra); apply bpow_le; lia).
  assert (b55 : bpow radix2 (-53) = 4 * bpow radix2 (-55)) by (replace (-53)%Z with (2 + -55)%Z by lia; rewrite bpow_plus; reflexivity).
  destruct (Rlt_le_dec x 1) as [L|L].
  - assert (Q : x <= 1 - bpow radix2 (-53)).
    { eapply Rle_trans; [apply (pred_ge_gt radix2 (FLT_exp (-1074) 53) x 1 F F1 L)|].
      change 1 with (bpow radix2 0) at 1. rewrite pred_bpow. right. reflexivity. }
    assert (M : ln x <= x - 1).
    { pose proof (exp_ineq1 (ln x)) as X. rewrite exp_ln in X by exact H.
      assert (ln x <> 0) by (intros Z; apply N; rewrite <- (exp_ln x H), Z; apply exp_0). specialize (X H0). lra. }
    rewrite Rabs_left by lra. lra.
  - assert (L1 : 1 < x) by lra.
    assert (Q : 1 + bpow radix2 (-53) <= x).
    { eapply Rle_trans; [|apply (succ_le_lt radix2 (FLT_exp (-1074) 53) 1 x F1 F L1)].
      rewrite succ_eq_pos by lra. replace (ulp radix2 (FLT_exp (-1074) 53) 1) with (bpow radix2 (-52)) by (change 1 with (bpow radix2 0); rewrite ulp_bpow; reflexivity). apply Rplus_le_compat_l, bpow_le. lia. }
    assert (L0 : 0 < ln x) by (rewrite <- ln_1; apply ln_increasing; lra). rewrite Rabs_right by lra.
    assert (M : 1 - / x <= ln x).
    { pose proof (exp_ineq1 (- ln x) ltac:(lra)) as X. rewrite exp_Ropp, exp_ln in X by lra. lra. }
    apply Rle_trans with (1 - / (1 + bpow radix2 (-53))).
    + apply Rmult_le_reg_r with (1 + bpow radix2 (-53)); [lra|]. rewrite Rmult_minus_distr_r, Rinv_l by lra. nra.
    + assert (/ x <= / (1 + bpow radix2 (-53))) by (apply Rinv_le_contravar; lra). lra.
Qed.

Example C126_rounded_ln : accurate_ln (fun x => rnd (ln x)) (/ 2 ^ 53).
Proof.
  intros x F (H & _). split; [apply rnd_format|]. destruct (Req_dec x 1) as [-> | N].
  - rewrite ln_1, rnd_0, Rminus_0_r, Rabs_R0. lra.
  - apply rnd_rel_abs. eapply Rle_trans; [|apply (apart_from_one x F H N)]. apply bpow_le. lia.
Qed.

Example C126_rounded_log1p : accurate_log1p (fun x => rnd (ln (1 + x))) (/ 2 ^ 53).
Proof.
  intros x F (H & _). fold uround. pose proof uround_pos as U. destruct (Rle_lt_dec (bpow radix2 (-1000)) x) as [G|G].
  - assert (P : 0 < x) by (pose proof (bpow_gt_0 radix2 (-1000)); lra).
    assert (L0 : 0 < ln (1 + x)) by (rewrite <- ln_1; apply ln_increasing; lra).
    pose proof (rnd_rel_abs (ln (1 + x))) as Q. fold uround in Q. rewrite (Rabs_right (ln (1 + x))) in Q by lra. apply Q.
    set (b := bpow radix2 (-1000)) in *.
    assert (M : 1 - / (1 + x) <= ln (1 + x)).
    { pose proof (exp_ineq1 (- ln (1 + x)) ltac:(lra)) as X. rewrite exp_Ropp, exp_ln in X by lra. lra. }
    assert (b0 : 0 < b <= 1) by (unfold b; split; [apply bpow_gt_0|change 1 with (bpow radix2 0); apply bpow_le; lia]).
    apply Rle_trans with (b / 4).
    + unfold b. replace (-1022)%Z with (-20 + -2 + -1000)%Z by lia. rewrite !bpow_plus. fold b. change (bpow radix2 (-2)) with (/ 4).
      assert (bpow radix2 (-20) <= 1) by (change 1 with (bpow radix2 0); apply bpow_le; lia). nra.
    + eapply Rle_trans; [|exact M]. apply Rmult_le_reg_r with (1 + x); [lra|]. rewrite Rmult_minus_distr_r, Rinv_l by lra. nra.
  - destruct (Req_dec x 0) as [-> | N]; [rewrite Rplus_0_r, ln_1, rnd_0, Rminus_0_r, Rabs_R0; lra|].
    assert (P : 0 < x) by lra.
    assert (M : 1 - / (1 + x) <= ln (1 + x) <= x).
    { assert (L0 : 0 < ln (1 + x)) by (rewrite <- ln_1; apply ln_increasing; lra).
      pose proof (exp_ineq1 (- ln (1 + x)) ltac:(lra)) as X. rewrite exp_Ropp, exp_ln in X by lra.
      pose proof (exp_ineq1 (ln (1 + x)) ltac:(lra)) as Y. rewrite exp_ln in Y by lra. lra. }
    assert (b3 : bpow radix2 (-1000) <= uround / 4).
    { rewrite <- uround_eq. replace (/ 2 * bpow radix2 (- (53) + 1) / 4) with (bpow radix2 (-3) * bpow radix2 (-52)) by (change (- (53) + 1)%Z with (-52)%Z; change (bpow radix2 (-3)) with (/ 8); field).
      rewrite <- bpow_plus. apply bpow_le. lia. }
    assert (Lx : x - x * x <= ln (1 + x)).
    { apply Rle_trans with (1 - / (1 + x)); [|lra]. apply Rmult_le_reg_r with (1 + x); [lra|]. replace ((1 - / (1 + x)) * (1 + x)) with x by (field; lra).
      replace ((x - x * x) * (1 + x)) with (x - x * x * x) by ring. assert (0 <= x * x * x) by (repeat apply Rmult_le_pos; lra). lra. }
    pose proof (round_N_pt radix2 (FLT_exp (-1074) 53) (fun z => negb (Z.even z)) (ln (1 + x))) as (_ & Q). specialize (Q x F).
    change (round radix2 (FLT_exp (-1074) 53) (Znearest (fun z => negb (Z.even z))) (ln (1 + x))) with (rnd (ln (1 + x))) in Q.
    eapply Rle_trans; [exact Q|]. rewrite Rabs_right by lra.
    assert (x * x <= uround / 4 * x) by (apply Rmult_le_compat_r; lra).
    assert (U1 : uround <= 1) by (pose proof uround_tiny; pose proof inv_2_40; lra).
    assert (uround / 4 * x <= / 4 * x) by (apply Rmult_le_compat_r; lra).
    assert (x / 2 <= ln (1 + x)) by lra. assert (uround * (x / 2) <= uround * ln (1 + x)) by (apply Rmult_le_compat_l; lra). lra.
Qed.

Example C126_rounded_power : accurate_power (fun a b => rnd (Rpower a b)) (/ 2 ^ 53).
Proof.
  intros a b Fa Fb Ha Hb _. split; [apply rnd_format|].
  assert (P : 1 <= Rpower a b).
  { unfold Rpower. rewrite <- exp_0 at 1. apply exp_mono. apply Rmult_le_pos; [exact Hb|]. rewrite <- ln_1. apply ln_mono; lra. }
  pose proof (rnd_rel_abs (Rpower a b)) as Q. rewrite (Rabs_right (Rpower a b)) in Q by lra. apply Q.
  apply Rle_trans with 1; [change 1 with (bpow radix2 0); apply bpow_le; lia|exact P].
Qed.

Lemma ln_1p_ge x : 0 < x -> 1 - / (1 + x) <= ln (1 + x).
Proof.
  intros H. assert (L0 : 0 < ln (1 + x)) by (rewrite <- ln_1; apply ln_increasing; lra).
  pose proof (exp_ineq1 (- ln (1 + x)) ltac:(lra)) as X. rewrite (exp_Ropp (ln (1 + x))), exp_ln in X by lra. lra.
Qed.

(** Utility one, natural shape one (asymmetric logit: one half, two alternatives): all four
    computed values are within 10^-9 of the formulas. *)
Example C126_at_one :
  let ex := fun x => rnd (exp x) in let lg := fun x => rnd (ln x) in
  let l1 := fun x => rnd (ln (1 + x)) in let pw := fun a b => rnd (Rpower a b) in
  (exists z, fcloglog ex lg (FNum 1) None = FNum z /\ Rabs (z - clog_formula 1) <= / 10 ^ 9) /\
  (exists z, fscobit ex lg pw (FNum 1) (FNum 0) (FNum 0) = FNum z /\ Rabs (z - scobit_formula 1 1) <= / 10 ^ 9) /\
  (exists z, funeven ex l1 (FNum 1) (FNum 0) (Some (FNum 2)) = FNum z /\ Rabs (z - (uneven_formula 1 1 + 2)) <= / 10 ^ 9) /\
  (exists z, fasym lg 2 (FNum (/ 2)) (FNum 1) None = FNum z /\ Rabs (z - asym_formula 2 (/ 2) 1) <= / 10 ^ 9).
Proof.
  cbn zeta. pose proof uround_pos as U. pose proof uround_tiny as U40. pose proof inv_2_40 as T40.
  assert (U50 : uround <= / 10 ^ 9 / 9000000).
  { unfold uround. replace (/ 10 ^ 9 / 9000000) with (/ (9 * 10 ^ 15)) by (cbn; lra). apply Rinv_le_contravar; [apply Rmult_lt_0_compat; [lra|apply pow_lt; lra]|].
    replace (2 ^ 53) with (IZR (2 ^ 53)) by (rewrite (pow_IZR 2); reflexivity). replace (9 * 10 ^ 15) with (IZR (9 * 10 ^ 15)) by (rewrite mult_IZR, (pow_IZR 10); reflexivity). apply IZR_le. lia. }
  set (T := / 10 ^ 9) in *. assert (T0 : 0 < T) by (apply Rinv_0_lt_compat, pow_lt; lra).
  assert (F1 : double_format 1) by (apply (generic_format_bpow radix2 _ 0); cbn; lia).
  assert (Fh : double_format (/ 2)) by (replace (/ 2) with (bpow radix2 (-1)) by (cbn; lra); apply generic_format_bpow; cbn; lia).
  assert (Q : 0 <= / 2 ^ 53 <= / 2 ^ 40) by (fold uround; lra).
  assert (R0 : Rabs 0 <= 1000) by (rewrite Rabs_R0; lra). assert (R1 : Rabs 1 = 1) by apply Rabs_R1.
  destruct exp_1_bounds as (e1 & e2).
  assert (em : exp (- (1)) = / exp 1) by apply exp_Ropp. assert (em0 : 0 < exp (- (1)) <= 1).
  { split; [apply exp_pos|]. pose proof (exp_mono (- (1)) 0 ltac:(lra)) as Z. rewrite exp_0 in Z. exact Z. }
  fold uround in Q |- *. split; [|split; [|split]].
  - destruct (C126_clog_log_is_accurate _ _ _ _ 1 None 0 C122_correctly_rounded_exp Q C126_rounded_ln Q F1) as (z & E & A); try lra; try reflexivity; try exact R0.
    exists z. split; [exact E|]. rewrite Rplus_0_r in A. eapply Rle_trans; [exact A|]. fold uround.
    assert (1400 * uround * (1 + exp (- (1))) <= 1400 * uround * 2) by (apply Rmult_le_compat_l; lra). lra.
  - assert (S1 : scobit_formula 1 1 = 1).
    { unfold scobit_formula. rewrite Rpower_1 by lra. replace (1 + exp (- (1)) - 1) with (exp (- (1))) by ring. rewrite ln_exp. ring. }
    destruct (C126_scobit_is_accurate _ _ _ _ _ _ 1 0 0 C122_correctly_rounded_exp Q C126_rounded_ln Q C126_rounded_power Q F1) as (z & E & A); try lra; rewrite ?exp_0, ?Rmult_1_l in *.
    + eapply Rle_trans; [apply (softplus_le (- (1)) 1); lra|]. lra.
    + assert (L : / 4 <= ln (1 + exp (- (1)))).
      { pose proof (ln_1p_ge (exp (- (1))) ltac:(lra)) as X.
        assert (/ 3 <= exp (- (1))) by (rewrite em; apply Rinv_le_contravar; lra).
        assert (/ (1 + exp (- (1))) <= / (1 + / 3)) by (apply Rinv_le_contravar; lra). lra. }
      assert (I4 : / ln (1 + exp (- (1))) <= 4) by (rewrite <- (Rinv_inv 4); apply Rinv_le_contravar; lra).
      fold uround. set (iL := / ln (1 + exp (- (1)))) in *.
      assert (uround * (1 + iL) <= uround * 5) by (apply Rmult_le_compat_l; lra).
      replace (2 * ((7 * 1 * (2 * uround + uround) + 1400 * uround + 2 * uround) * (1 + iL))) with (2846 * (uround * (1 + iL))) by ring. lra.
    + rewrite S1, R1. lra.
    + exists z. split; [exact E|]. rewrite Rplus_0_r in A. eapply Rle_trans; [exact A|]. fold uround.
      assert (L : / 4 <= ln (1 + exp (- (1)))).
      { pose proof (ln_1p_ge (exp (- (1))) ltac:(lra)) as X.
        assert (/ 3 <= exp (- (1))) by (rewrite em; apply Rinv_le_contravar; lra).
        assert (/ (1 + exp (- (1))) <= / (1 + / 3)) by (apply Rinv_le_contravar; lra). lra. }
      assert (I4 : / ln (1 + exp (- (1))) <= 4) by (rewrite <- (Rinv_inv 4); apply Rinv_le_contravar; lra).
      set (iL := / ln (1 + exp (- (1)))) in *.
      assert (uround * (1 + iL) <= uround * 5) by (apply Rmult_le_compat_l; lra).
      replace (4 * ((7 * 1 * (2 * uround + uround) + 1400 * uround + 2 * uround) * (1 + iL))) with (5692 * (uround * (1 + iL))) by ring. lra.
  - destruct (C126_uneven_logit_is_accurate _ _ _ _ 1 0 (Some (FNum 2)) 2 C122_correctly_rounded_exp Q C126_rounded_log1p Q F1) as (z & E & A); try lra; rewrite ?exp_0, ?R1 in *; try lra.
    + exists 2. split; reflexivity.
    + rewrite Rabs_right; lra.
    + exists z. split; [exact E|]. eapply Rle_trans; [exact A|]. fold uround. lra.
  - assert (L2 : Rabs (ln (/ 2)) <= 690).
    { rewrite ln_Rinv by lra. rewrite Rabs_Ropp, Rabs_right by (apply Rle_ge; rewrite <- ln_1; apply ln_mono; lra).
      apply Rle_trans with (ln (exp 1)); [apply ln_mono; lra|rewrite ln_exp; lra]. }
    destruct (C126_asym_is_accurate _ _ 2 (/ 2) (/ 2) 0 1 None 0 C126_rounded_ln Q) as (z & E & A); try lra; try lia; try reflexivity; try assumption; try (rewrite R1; lra).
    + replace (/ 2 - / 2) with 0 by ring. rewrite Rabs_R0. lra.
    + replace ((1 - / 2) / (INR 2 - 1)) with (/ 2) by (cbn; field). exact L2.
    + exists z. split; [exact E|]. rewrite Rplus_0_r in A. eapply Rle_trans; [exact A|]. fold uround. rewrite R1, Rmult_0_l. lra.
Qed.

Print Assumptions C126_uneven_logit_is_accurate.
Print Assumptions C126_clog_log_is_accurate.
Print Assumptions C126_scobit_is_accurate.
Print Assumptions C126_asym_is_accurate.
