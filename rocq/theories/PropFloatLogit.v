(** C128: the asymmetric models in double precision, from the data to the probabilities and
    the log-likelihood. *)
From Coq Require Import ZArith Reals Lra Lia List Permutation.
From Coquelicot Require Import Coquelicot.
From Flocq Require Import Core.
From Verif Require Import Res Vec Arr ChoiceCalcs Transforms NestedCalcs SpecLogit ChoiceFacts RowDeriv Floats FloatFacts FloatTransforms FloatUtilities FloatLogit PropFloats PropFloatTransforms PropFloatUtilities PropFloatAccuracy.
Import ListNotations.
Open Scope R_scope.

(** ** Specification *)

(** Row [i] belongs to alternative [alt i]: one entry of its row of the row-to-alternative
    matrix is one, the others are zero. *)
Definition alternatives_of (D : Data) (alt : nat -> nat) : Prop :=
  forall i, (i < d_N D)%nat -> (alt i < d_J D)%nat /\
    forall j, (j < d_J D)%nat -> d_A D i j = if (j =? alt i)%nat then 1 else 0.

(** The data and coefficients are doubles, at most [2^20] columns; [B] bounds the sum of the
    absolute values of the products in a row's utility; the products are added in any order. *)
Definition rows_in_range (D : Data) (beta : arr) (order : nat -> dot_order) (B : R) : Prop :=
  (d_K D <= 2 ^ 20)%nat /\
  forall i, (i < d_N D)%nat ->
    Permutation (dterms (order i)) (seq 0 (d_K D)) /\ magnitude (d_X D i) (aget beta) (d_K D) <= B /\
    (forall j, (j < d_K D)%nat -> double_format (d_X D i j) /\ double_format (aget beta j)).

(** Bound on the error of a computed utility (C127). *)
Definition utility_error (K : nat) (B : R) : R := 2 * INR K * (/ 2 ^ 53 * B + / 2 ^ 1075).

(** All intercepts are at most 1000 in absolute value (one is enough for the row's own). *)
Definition intercepts_in_range (icpt : option arr) : Prop :=
  match icpt with Some a => forall j, Rabs (aget a j) <= 1000 | None => True end.

(** The computed transformed utilities of all rows are within [eta] of the model's. *)
Definition rows_within (k : logit_kind) ex lg l1 pw t D alt order shape icpt beta eta : Prop :=
  forall i, (i < d_N D)%nat ->
  exists z, float_transformed k ex lg l1 pw t D alt order shape icpt beta i = FNum z /\
    Rabs (z - m_transform (model_of k) (d_J D) (d_A D) (sys_utilities D beta) shape icpt i) <= eta.

(** ** Facts *)

Lemma select J (A : mat) (x : vec) i a : (a < J)%nat -> (forall j, (j < J)%nat -> A i j = if (j =? a)%nat then 1 else 0) -> mvec J A x i = x a.
Proof.
  intros Ha H. unfold mvec. rewrite (sumn_ext _ _ (fun j => if (j =? a)%nat then x j else 0)).
  - rewrite sumn_single by exact Ha. reflexivity.
  - intros j Hj. rewrite (H j Hj). destruct (j =? a)%nat; ring.
Qed.

Lemma row_intercept D alt iref icpt i :
  alternatives_of D alt -> (i < d_N D)%nat -> intercepts_in_range icpt ->
  let a := long_intercepts (d_J D) (d_A D) iref icpt i in
  (match frow_intercept iref icpt (alt i) with Some x => exists r, x = FNum r /\ r = a | None => a = 0 end) /\ Rabs a <= 1000.
Proof.
  intros HA Hi Hr a. destruct (HA i Hi) as (Ha & Hrow). unfold a, long_intercepts, frow_intercept.
  destruct icpt as [c|]; [destruct iref as [r|]|]; try (split; [reflexivity|rewrite Rabs_R0; lra]).
  rewrite (select _ _ _ i (alt i) Ha Hrow). split; [eexists; split; reflexivity|].
  unfold fill_others. destruct (alt i =? r)%nat; [rewrite Rabs_R0; lra|apply Hr].
Qed.

Lemma computed_utility D beta order B i :
  rows_in_range D beta order B -> (i < d_N D)%nat -> B <= 700 ->
  exists v, float_utility (fun i j => FNum (d_X D i j)) (fun j => FNum (aget beta j)) order i = FNum v /\ double_format v /\
    Rabs (v - sys_utilities D beta i) <= utility_error (d_K D) B /\ Rabs (sys_utilities D beta i) <= B /\ utility_error (d_K D) B <= / 1000.
Proof.
  intros (HK & HR) Hi HB. destruct (HR i Hi) as (HP & HM & HF).
  assert (B1000 : 700 <= 2 ^ 1000) by (apply big_1000; lra).
  destruct (C127_computed_utilities_are_accurate (d_X D i) (aget beta) (d_K D) (order i) HP HK HF ltac:(lra)) as (z & E & F & A).
  exists z. split; [exact E|]. split; [exact F|]. split; [|split].
  - eapply Rle_trans; [exact A|]. unfold utility_error. apply Rmult_le_compat_l; [pose proof (pos_INR (d_K D)); lra|].
    apply Rplus_le_compat_r, Rmult_le_compat_l; [fold uround; pose proof uround_pos; lra|exact HM].
  - eapply Rle_trans; [apply sumn_abs_le|]. unfold magnitude in HM. rewrite <- sumn_total in HM. exact HM.
  - unfold utility_error. pose proof (uround_small (d_K D) HK) as KU. fold uround. rewrite <- tiny_eq. pose proof tiny_le_u as T. pose proof uround_pos as U.
    pose proof (pos_INR (d_K D)) as K0. assert (M0 : 0 <= magnitude (d_X D i) (aget beta) (d_K D)).
    { unfold magnitude. rewrite <- sumn_total. apply sumn_ge0. intros j Hj. apply Rabs_pos. }
    assert (P33 : / 2 ^ 33 <= / 10000000).
    { apply Rinv_le_contravar; [lra|]. apply Rle_trans with (2 ^ 24); [cbn; lra|apply Rle_pow; [lra|lia]]. }
    assert (uround * B + tiny <= uround * 701).
    { assert (uround * B <= uround * 700) by (apply Rmult_le_compat_l; lra). lra. }
    apply Rle_trans with (2 * INR (d_K D) * (uround * 701)); [apply Rmult_le_compat_l; lra|].
    replace (2 * INR (d_K D) * (uround * 701)) with (1402 * (INR (d_K D) * uround)) by ring. lra.
Qed.

(** Lipschitz bounds of the four formulas *)

Lemma uneven_lipschitz s x y : 0 <= s -> Rabs (uneven_formula s x - uneven_formula s y) <= (1 + s) * Rabs (x - y).
Proof.
  intros Hs. assert (E : forall v, v + ln (1 + exp (- v)) = ln (1 + exp v)).
  { intros v. rewrite <- (ln_exp v) at 1. pose proof (exp_pos v). pose proof (exp_pos (- v)). rewrite <- ln_mult by lra.
    f_equal. rewrite Rmult_plus_distr_l, <- exp_plus. replace (v + - v) with 0 by ring. rewrite exp_0. ring. }
  unfold uneven_formula. rewrite !E.
  replace (ln (1 + exp x) - ln (1 + exp (- (s * x))) - (ln (1 + exp y) - ln (1 + exp (- (s * y))))) with
    ((ln (1 + exp x) - ln (1 + exp y)) + - (ln (1 + exp (- (s * x))) - ln (1 + exp (- (s * y))))) by ring.
  eapply Rle_trans; [apply Rabs_triang|]. rewrite Rabs_Ropp.
  pose proof (softplus_lipschitz x y _ (Rle_refl _)).
  assert (Rabs (ln (1 + exp (- (s * x))) - ln (1 + exp (- (s * y)))) <= s * Rabs (x - y)); [|lra].
  apply softplus_lipschitz. replace (- (s * x) - - (s * y)) with (- (s * (x - y))) by ring. rewrite Rabs_Ropp, Rabs_mult, (Rabs_right s) by lra. lra.
Qed.

Lemma asym_lipschitz J c M x y : Rabs (ln c) <= M -> Rabs (ln ((1 - c) / (INR J - 1))) <= M ->
  Rabs (asym_formula J c x - asym_formula J c y) <= M * Rabs (x - y).
Proof.
  intros H1 H2. unfold asym_formula. set (L := ln c) in *. set (Q := ln ((1 - c) / (INR J - 1))) in *.
  assert (M0 : 0 <= M) by (pose proof (Rabs_pos L); lra).
  assert (S : forall a, Rabs a <= M -> forall d, Rabs (d * a) <= M * Rabs d).
  { intros a Ha d. rewrite Rabs_mult, Rmult_comm. apply Rmult_le_compat_r; [apply Rabs_pos|exact Ha]. }
  destruct (Rle_dec 0 x) as [G|G], (Rle_dec 0 y) as [G'|G'].
  - replace (L - x * L - (L - y * L)) with ((y - x) * L) by ring. rewrite (Rabs_minus_sym x y). apply S, H1.
  - replace (L - x * L - (L - y * Q)) with (- x * L + y * Q) by ring. eapply Rle_trans; [apply Rabs_triang|].
    eapply Rle_trans; [apply Rplus_le_compat; apply S; assumption|]. rewrite Rabs_Ropp, (Rabs_right x), (Rabs_left y), (Rabs_right (x - y)) by lra. right. ring.
  - replace (L - x * Q - (L - y * L)) with (- x * Q + y * L) by ring. eapply Rle_trans; [apply Rabs_triang|].
    eapply Rle_trans; [apply Rplus_le_compat; apply S; assumption|]. rewrite Rabs_Ropp, (Rabs_left x), (Rabs_right y), (Rabs_left (x - y)) by lra. right. ring.
  - replace (L - x * Q - (L - y * Q)) with ((y - x) * Q) by ring. rewrite (Rabs_minus_sym x y). apply S, H2.
Qed.

Lemma lipschitz_of_derivative f f' C x y :
  (forall z, Rmin x y <= z <= Rmax x y -> is_derive f z (f' z) /\ Rabs (f' z) <= C) -> Rabs (f x - f y) <= C * Rabs (x - y).
Proof.
  intros H. destruct (MVT_gen f y x f') as (c & Hc & E).
  - intros z Hz. apply H. rewrite (Rmin_comm x), (Rmax_comm x). lra.
  - intros z Hz. apply continuity_pt_filterlim. apply (ex_derive_continuous f). exists (f' z). apply H. rewrite (Rmin_comm x), (Rmax_comm x). exact Hz.
  - rewrite E, Rabs_mult. apply Rmult_le_compat_r; [apply Rabs_pos|]. apply H. rewrite (Rmin_comm x), (Rmax_comm x). exact Hc.
Qed.

Lemma expm1_ge x : 0 < x -> x / (1 + x) <= 1 - exp (- x).
Proof.
  intros H. pose proof (exp_ineq1 x ltac:(lra)) as Q. rewrite exp_Ropp.
  assert (/ exp x <= / (1 + x)) by (apply Rinv_le_contravar; lra). replace (x / (1 + x)) with (1 - / (1 + x)) by (field; lra). lra.
Qed.

Lemma scobit_slope s v : 0 < s ->
  Rabs (s * exp (-1 * v) * Rpower (1 + exp (-1 * v)) (s - 1) / (Rpower (1 + exp (-1 * v)) s - 1)) <= 1 + s.
Proof.
  intros Hs. pose proof (exp_pos (-1 * v)) as E0. set (E := exp (-1 * v)) in *.
  pose proof (scobit_pow_gt1 v s Hs) as P1. fold E in P1.
  set (l := ln (1 + E)). assert (l0 : 0 < l) by (unfold l; rewrite <- ln_1; apply ln_increasing; lra).
  assert (X : E * Rpower (1 + E) (s - 1) = Rpower (1 + E) s * (1 - exp (- l))).
  { unfold Rminus at 1. rewrite Rpower_plus, Rpower_Ropp, Rpower_1 by lra. rewrite exp_Ropp. unfold l. rewrite exp_ln by lra. field. lra. }
  assert (Y : Rpower (1 + E) s - 1 = Rpower (1 + E) s * (1 - exp (- (s * l)))).
  { unfold Rpower. fold l. rewrite Rmult_minus_distr_l, <- exp_plus. replace (s * l + - (s * l)) with 0 by ring. rewrite exp_0. ring. }
  set (P := Rpower (1 + E) s) in *. assert (sl0 : 0 < s * l) by (apply Rmult_lt_0_compat; assumption).
  assert (D1 : 0 < 1 - exp (- (s * l))) by (assert (exp (- (s * l)) < 1) by (rewrite <- exp_0; apply exp_increasing; lra); lra).
  assert (N1 : 0 < 1 - exp (- l)) by (assert (exp (- l) < 1) by (rewrite <- exp_0; apply exp_increasing; lra); lra).
  replace (s * E * Rpower (1 + E) (s - 1)) with (s * (P * (1 - exp (- l)))) by (rewrite <- X; ring). rewrite Y.
  replace (s * (P * (1 - exp (- l))) / (P * (1 - exp (- (s * l))))) with (s * (1 - exp (- l)) / (1 - exp (- (s * l)))) by (field; split; lra).
  assert (Nn : 0 < s * (1 - exp (- l))) by (apply Rmult_lt_0_compat; assumption).
  rewrite Rabs_right by (apply Rle_ge; left; apply Rdiv_lt_0_compat; assumption).
  apply Rmult_le_reg_r with (1 - exp (- (s * l))); [exact D1|]. unfold Rdiv. rewrite Rmult_assoc, Rinv_l, Rmult_1_r by lra.
  pose proof (expm1_ge (s * l) sl0) as Q. apply Rle_trans with ((1 + s) * (s * l / (1 + s * l))); [|apply Rmult_le_compat_l; lra].
  apply Rmult_le_reg_r with (1 + s * l); [lra|]. replace ((1 + s) * (s * l / (1 + s * l)) * (1 + s * l)) with (s * ((1 + s) * l)) by (field; lra).
  rewrite Rmult_assoc. apply Rmult_le_compat_l; [lra|].
  destruct (Rle_lt_dec l 1) as [G|G].
  - assert (1 - exp (- l) <= l) by (pose proof (exp_ineq1 (- l) ltac:(lra)); lra).
    apply Rle_trans with (l * (1 + s * l)); [apply Rmult_le_compat_r; lra|].
    assert (s * l * l <= s * l * 1) by (apply Rmult_le_compat_l; lra). lra.
  - pose proof (exp_pos (- l)). apply Rle_trans with (1 * (1 + s * l)); [apply Rmult_le_compat_r; lra|]. lra.
Qed.

Lemma scobit_lipschitz s x y : 0 < s -> Rabs (scobit_formula s x - scobit_formula s y) <= (1 + s) * Rabs (x - y).
Proof.
  intros Hs. assert (E : forall v, scobit_formula s v = scobit_G v s).
  { intros v. unfold scobit_formula, scobit_G. replace (- v) with (-1 * v) by ring. reflexivity. }
  rewrite !E. apply (lipschitz_of_derivative (fun v => scobit_G v s) (fun v => s * exp (-1 * v) * Rpower (1 + exp (-1 * v)) (s - 1) / (Rpower (1 + exp (-1 * v)) s - 1))).
  intros z _. split; [apply scobit_scalar_v, Hs|apply scobit_slope, Hs].
Qed.

(** the complementary log-log without its shortcut *)
Definition clog_smooth (v : R) : R := ln (exp (exp v) - 1).

Lemma clog_smooth_lipschitz x y B : x <= B -> y <= B -> Rabs (clog_smooth x - clog_smooth y) <= (1 + exp B) * Rabs (x - y).
Proof.
  intros Hx Hy. apply (lipschitz_of_derivative clog_smooth (fun v => exp v * exp (exp v) / (exp (exp v) - 1))).
  intros z Hz. assert (zB : z <= B) by (eapply Rle_trans; [apply Hz|]; apply Rmax_lub; assumption).
  pose proof (exp_pos z) as E0. pose proof (exp_ineq1 (exp z) ltac:(lra)) as Q. set (E := exp z) in *. split.
  - unfold clog_smooth. evar_last; [auto_derive; [fold E; lra|reflexivity]|]. fold E. field. lra.
  - rewrite Rabs_right by (apply Rle_ge, Rlt_le, Rdiv_lt_0_compat; [apply Rmult_lt_0_compat; lra|lra]).
    apply Rmult_le_reg_r with (exp E - 1); [lra|]. unfold Rdiv. rewrite Rmult_assoc, Rinv_l, Rmult_1_r by lra.
    assert (E <= exp B) by (apply exp_mono; exact zB). apply Rle_trans with ((1 + E) * (exp E - 1)); [lra|apply Rmult_le_compat_r; lra].
Qed.

Lemma clog_shortcut v : Rabs (clog_formula v - clog_smooth v) <= / 2 ^ 53.
Proof.
  fold uround. pose proof uround_pos as U. unfold clog_formula, clog_smooth. destruct (Rle_dec 3.7 v) as [G|G]; [|replace (_ - _) with 0 by ring; rewrite Rabs_R0; lra].
  assert (E38 : 38 <= exp v).
  { apply Rle_trans with (exp 3.7); [|apply exp_mono; exact G].
    replace 3.7 with (INR 3 + INR 8 * 0.0875) by (cbn; lra). rewrite exp_plus, exp_INR. destruct exp_1_bounds as (e1 & _).
    assert (X : exp (INR 8 * 0.0875) = exp 0.0875 ^ 8).
    { cbn [pow]. replace (INR 8 * 0.0875) with (0.0875 + (0.0875 + (0.0875 + (0.0875 + (0.0875 + (0.0875 + (0.0875 + 0.0875))))))) by (cbn; lra). rewrite !exp_plus. ring. }
    rewrite X. pose proof (exp_ineq1 0.0875 ltac:(lra)) as Y.
    apply Rle_trans with ((271 / 100) ^ 3 * (1.0875) ^ 8); [cbn; lra|]. apply Rmult_le_compat; try (apply pow_le; lra); apply pow_incr; lra. }
  set (E := exp v) in *. assert (X : exp (- E) <= / 2 ^ 54).
  { eapply Rle_trans; [|apply exp_38]. apply exp_mono. lra. }
  assert (U2 : / 2 ^ 54 = uround / 2) by (unfold uround; change (2 ^ 54) with (2 * 2 ^ 53); rewrite Rinv_mult; field; apply pow_nonzero; lra).
  assert (U1 : uround <= / 2) by (pose proof uround_tiny; pose proof inv_2_40; lra).
  pose proof (exp_pos (- E)) as x0. assert (EE : exp E - 1 = exp E * (1 - exp (- E))).
  { rewrite Rmult_minus_distr_l, <- exp_plus. replace (E + - E) with 0 by ring. rewrite exp_0. ring. }
  rewrite EE, ln_mult, ln_exp by (try apply exp_pos; lra).
  replace (E - (E + ln (1 - exp (- E)))) with (- ln (1 - exp (- E))) by ring. rewrite Rabs_Ropp.
  pose proof (ln_rel (1 - exp (- E)) 1 (exp (- E)) ltac:(lra) ltac:(lra)) as Q. rewrite ln_1, Rminus_0_r in Q. eapply Rle_trans; [apply Q|lra].
  replace (1 - exp (- E) - 1) with (- exp (- E)) by ring. rewrite Rabs_Ropp, Rabs_right by lra. lra.
Qed.

Lemma clog_lipschitz x y B : x <= B -> y <= B -> Rabs (clog_formula x - clog_formula y) <= (1 + exp B) * Rabs (x - y) + 2 * / 2 ^ 53.
Proof.
  intros Hx Hy. pose proof (clog_shortcut x) as A1. pose proof (clog_shortcut y) as A2. pose proof (clog_smooth_lipschitz x y B Hx Hy) as A3.
  apply Rabs_le_inv in A1, A2, A3. apply Rabs_le. lra.
Qed.

(** ** C128: the natural shapes of an asymmetric logit *)

Lemma ratio_close e eh d dh delta :
  0 < e -> 0 < d -> 0 <= delta <= / 100 -> uround <= delta -> Rabs (eh - e) <= delta * e -> Rabs (dh - d) <= 2 * delta * d ->
  bpow radix2 (-1000) <= e / d -> Rabs (rnd (eh / dh) - e / d) <= 6 * delta * (e / d).
Proof.
  intros He Hd Hdel HU H1 H2 Hlow. pose proof uround_pos as U. apply Rabs_le_inv in H1, H2. set (c := e / d) in *.
  assert (c0 : 0 < c) by (apply Rdiv_lt_0_compat; assumption).
  assert (d2 : delta * d <= / 100 * d) by (apply Rmult_le_compat_r; lra).
  assert (dh0 : 0.98 * d <= dh) by lra. assert (dhp : 0 < dh) by lra.
  assert (Q : Rabs (eh / dh - c) <= 4 * delta * c).
  { replace (eh / dh - c) with ((eh - c * dh) / dh) by (field; lra). unfold Rdiv. rewrite Rabs_mult, (Rabs_right (/ dh)) by (apply Rle_ge, Rlt_le, Rinv_0_lt_compat; lra).
    apply Rmult_le_reg_r with dh; [lra|]. rewrite Rmult_assoc, Rinv_l, Rmult_1_r by lra.
    assert (ec : e = c * d) by (unfold c; field; lra). replace (eh - c * dh) with ((eh - e) + c * - (dh - d)) by (rewrite ec; ring).
    eapply Rle_trans; [apply Rabs_triang|]. rewrite Rabs_mult, Rabs_Ropp, (Rabs_right c) by lra.
    assert (X : Rabs (eh - e) <= delta * e) by (apply Rabs_le; lra). assert (Y : Rabs (dh - d) <= 2 * delta * d) by (apply Rabs_le; lra).
    assert (c * Rabs (dh - d) <= c * (2 * delta * d)) by (apply Rmult_le_compat_l; lra).
    assert (dc0 : 0 <= delta * c) by (apply Rmult_le_pos; lra). assert (Z : delta * c * (0.98 * d) <= delta * c * dh) by (apply Rmult_le_compat_l; lra).
    assert (W : 0 <= delta * c * d) by (apply Rmult_le_pos; lra). assert (de : delta * e = delta * c * d) by (rewrite ec; ring). lra. }
  apply Rabs_le_inv in Q. assert (dc : delta * c <= / 100 * c) by (apply Rmult_le_compat_r; lra).
  assert (low : bpow radix2 (-1022) <= eh / dh).
  { apply Rle_trans with (c / 2); [|lra]. apply Rle_trans with (bpow radix2 (-1000) / 2); [|lra].
    replace (-1000)%Z with (1 + -1001)%Z by lia. rewrite bpow_plus. change (bpow radix2 1) with 2. replace (2 * bpow radix2 (-1001) / 2) with (bpow radix2 (-1001)) by field. apply bpow_le. lia. }
  pose proof (rnd_relative _ low) as R. set (q := eh / dh) in *.
  assert (uround * q <= delta * (2 * c)) by (apply Rmult_le_compat; lra). apply Rabs_le. lra.
Qed.

Definition shape_error (eps : R) (n : nat) : R := 6 * (eps + 2 * (INR n + 1) * / 2 ^ 53).

Lemma exp_300 : bpow radix2 (-440) <= exp (-300) /\ exp 300 <= bpow radix2 440.
Proof.
  destruct (exp_nat_bounds 300 430 440) as (_ & H); try lia.
  replace (INR 300) with 300 in H by (rewrite INR_IZR_INZ; reflexivity).
  split; [|exact H]. replace (-300) with (- (300)) by ring. rewrite exp_Ropp. change (-440)%Z with (- (440))%Z. rewrite bpow_opp. apply Rinv_le_contravar; [apply exp_pos|exact H].
Qed.

Theorem C128_natural_shapes_are_accurate :
  forall ex eps eta sref alt t,
  accurate_exp ex eps -> 0 <= eps <= / 2 ^ 40 ->
  (alen eta <= 4095)%nat -> Permutation (terms_of t) (seq 0 (alen eta)) -> (alt <= alen eta)%nat -> (sref <= alen eta)%nat ->
  (forall j, (j < alen eta)%nat -> Rabs (aget eta j) <= 300) ->
  exists x, fasym_shape ex (fun j => FNum (aget eta j)) t (eta_position sref alt) = FNum x /\ double_format x /\
    Rabs (x - convert_eta_to_c eta sref alt) <= shape_error eps (alen eta) * convert_eta_to_c eta sref alt.
Proof.
  intros ex eps eta sref alt t Hex Heps Hn HP Halt Hsref Heta. set (n := alen eta) in *.
  pose proof uround_pos as U. pose proof uround_tiny as U40. pose proof inv_2_40 as T40. destruct exp_300 as (E3l & E3u).
  assert (Hterm : forall j, In j (terms_of t) -> (j < n)%nat) by (intros j Hj; apply (Permutation_in _ HP), in_seq in Hj; lia).
  assert (EX : forall j, (j < n)%nat -> fexp_eta ex (fun j => FNum (aget eta j)) j = FNum (ex (aget eta j)) /\ double_format (ex (aget eta j)) /\
    0 < ex (aget eta j) /\ Rabs (ex (aget eta j) - exp (aget eta j)) <= eps * exp (aget eta j) /\ bpow radix2 (-440) <= exp (aget eta j) <= bpow radix2 440).
  { intros j Hj. pose proof (Heta j Hj) as Hb. apply Rabs_le_inv in Hb. destruct (exp_num ex eps (aget eta j) Hex Heps ltac:(lra)) as (E & F & P & A).
    unfold fexp_eta. rewrite E. cbn [on_posinf]. destruct (Req_EM_T (ex (aget eta j)) 0); [lra|].
    split; [reflexivity|]. split; [exact F|]. split; [lra|]. split; [exact A|]. pose proof (exp_mono (-300) (aget eta j) ltac:(lra)). pose proof (exp_mono (aget eta j) 300 ltac:(lra)). lra. }
  assert (HL : length (terms_of t) = n) by (rewrite (Permutation_length HP); apply seq_length).
  assert (b441 : 2 * bpow radix2 440 <= bpow radix2 1000).
  { replace (2 * bpow radix2 440) with (bpow radix2 (1 + 440)) by (rewrite bpow_plus; reflexivity). apply bpow_le. lia. }
  assert (b442 : bpow radix2 (-1000) <= bpow radix2 (-440) / 2).
  { replace (bpow radix2 (-440) / 2) with (bpow radix2 (-441)) by (replace (-440)%Z with (1 + -441)%Z by lia; rewrite bpow_plus; change (bpow radix2 1) with 2; field). apply bpow_le. lia. }
  destruct (fsum_positive 1000 t (fexp_eta ex (fun j => FNum (aget eta j))) (fun j => ex (aget eta j))) as (s & Es & Fs & Bs & Ss & _); try lia.
  { intros j Hj. destruct (EX j (Hterm j Hj)) as (A & B & C & D & E). split; [exact A|]. split; [exact B|]. change (- (1000))%Z with (-1000)%Z. apply Rabs_le_inv in D.
    pose proof (exp_pos (aget eta j)). assert (eps * exp (aget eta j) <= / 2 * exp (aget eta j)) by (apply Rmult_le_compat_r; lra). lra. }
  rewrite HL in *. set (S := sumn n (fun j => exp (aget eta j))).
  assert (ES : S = lsum (fun j => exp (aget eta j)) (terms_of t)).
  { unfold S. rewrite sumn_total, total_lsum. symmetry. apply lsum_perm, HP. }
  assert (S0 : 0 <= S) by (unfold S; apply sumn_ge0; intros; left; apply exp_pos).
  assert (SB : (1 - eps) * S <= lsum (fun j => ex (aget eta j)) (terms_of t) <= (1 + eps) * S).
  { rewrite ES, <- !lsum_scal. split; apply lsum_le; intros j Hj; destruct (EX j (Hterm j Hj)) as (_ & _ & _ & D & _); apply Rabs_le_inv in D; lra. }
  set (b := 2 * (INR n * uround)). assert (n0 := pos_INR n).
  assert (nu : INR n * uround <= / 2 ^ 33) by (apply uround_small; apply Nat.le_trans with (2 ^ 12)%nat; [change (2 ^ 12)%nat with 4096%nat; lia|apply Nat.pow_le_mono_r; lia]).
  assert (P33 : / 2 ^ 33 <= / 1000000) by (apply Rinv_le_contravar; [lra|]; apply Rle_trans with (2 ^ 20); [cbn; lra|apply Rle_pow; [lra|lia]]).
  assert (nu0 : 0 <= INR n * uround) by (apply Rmult_le_pos; lra).
  pose proof (pow1u_le n ltac:(lra)) as PG. pose proof (pow_1_minus n) as PL. pose proof (pow1u_ge1 n) as PG1.
  assert (b0 : 0 <= b <= / 100000) by (unfold b; lra).
  assert (SC : Rabs (s - S) <= 3 / 2 * (eps + b) * S).
  { assert (U1 : (1 + uround) ^ n * lsum (fun j => ex (aget eta j)) (terms_of t) <= (1 + b) * ((1 + eps) * S)).
    { apply Rmult_le_compat; [lra|eapply Rle_trans; [|apply (proj1 SB)]; apply Rmult_le_pos; lra|unfold b; lra|lra]. }
    assert (U2 : (1 - b) * ((1 - eps) * S) <= (1 - uround) ^ n * lsum (fun j => ex (aget eta j)) (terms_of t)).
    { apply Rmult_le_compat; [lra|apply Rmult_le_pos; lra|unfold b; lra|lra]. }
    assert (X : eps * b * S <= / 100000 * (b * S)) by (rewrite Rmult_assoc; apply Rmult_le_compat_r; [apply Rmult_le_pos; lra|lra]).
    assert (0 <= b * S) by (apply Rmult_le_pos; lra). assert (0 <= eps * S) by (apply Rmult_le_pos; lra). assert (0 <= eps * (b * S)) by (apply Rmult_le_pos; lra). apply Rabs_le. lra. }
  (* the denominator *)
  destruct (fadd_error s 1 Fs) as (d & Hd & Ed); [apply (generic_format_bpow radix2 _ 0); cbn; lia|].
  set (D := S + 1). set (dh := rnd (s + 1)) in *. set (delta := eps + b + 2 * uround).
  assert (D0 : 1 <= D) by (unfold D; lra).
  assert (DD : Rabs (dh - D) <= 2 * delta * D).
  { rewrite Ed. unfold D. replace ((s + 1) * (1 + d) - (S + 1)) with ((s - S) * (1 + d) + (S + 1) * d) by ring.
    eapply Rle_trans; [apply Rabs_triang|]. rewrite !Rabs_mult, (Rabs_right (S + 1)) by lra.
    assert (A1 : Rabs (1 + d) <= 4 / 3) by (eapply Rle_trans; [apply Rabs_triang|]; rewrite Rabs_R1; lra).
    apply Rle_trans with (3 / 2 * (eps + b) * S * (4 / 3) + (S + 1) * uround); [apply Rplus_le_compat; [apply Rmult_le_compat; try apply Rabs_pos; assumption|apply Rmult_le_compat_l; lra]|].
    unfold delta. assert (0 <= uround * S) by (apply Rmult_le_pos; lra). lra. }
  assert (del : 0 <= delta <= / 100) by (unfold delta; lra).
  assert (sB : s <= bpow radix2 1012).
  { eapply Rle_trans; [exact Bs|]. replace 1012%Z with (12 + 1000)%Z by lia. rewrite bpow_plus. apply Rmult_le_compat_r; [apply bpow_ge_0|].
    change (bpow radix2 12) with 4096. apply le_INR in Hn. replace (INR 4095) with 4095 in Hn by (rewrite INR_IZR_INZ; reflexivity). lra. }
  assert (s0 : 0 <= s) by (eapply Rle_trans; [|apply (proj1 Ss)]; apply Rmult_le_pos; [lra|eapply Rle_trans; [|apply (proj1 SB)]; apply Rmult_le_pos; lra]).
  assert (dh1 : 1 <= dh) by (unfold dh; rewrite <- rnd_1 at 1; apply rnd_le; lra).
  assert (dhB : dh < bpow radix2 1024).
  { rewrite Ed. apply Rle_lt_trans with ((s + 1) * 2); [apply Rmult_le_compat_l; [lra|]; apply Rabs_le_inv in Hd; lra|].
    assert (1 <= bpow radix2 1012) by (change 1 with (bpow radix2 0); apply bpow_le; lia).
    apply Rle_lt_trans with (bpow radix2 1012 * 4); [lra|]. change 4 with (bpow radix2 2). rewrite <- bpow_plus. apply bpow_lt. lia. }
  assert (Edh : fadd (fsum t (fexp_eta ex (fun j => FNum (aget eta j)))) (FNum 1) = FNum dh).
  { rewrite Es. cbn [fadd]. fold dh. apply overflow_num. rewrite Rabs_right; lra. }
  assert (DB : D <= bpow radix2 460).
  { unfold D. assert (X : S <= INR n * bpow radix2 440).
    { unfold S. rewrite <- sumn_const. apply sumn_le. intros j Hj. apply (EX j Hj). }
    assert (INR n <= 4095) by (apply le_INR in Hn; replace (INR 4095) with 4095 in Hn by (rewrite INR_IZR_INZ; reflexivity); lra).
    assert (Y : 1 <= bpow radix2 440) by (change 1 with (bpow radix2 0); apply bpow_le; lia).
    assert (INR n * bpow radix2 440 <= 4095 * bpow radix2 440) by (apply Rmult_le_compat_r; lra).
    replace 460%Z with (20 + 440)%Z by lia. rewrite bpow_plus. change (bpow radix2 20) with 1048576. nra. }
  assert (main : forall e eh, bpow radix2 (-440) <= e -> Rabs (eh - e) <= delta * e -> e / D <= 1 ->
    exists x, fdiv (FNum eh) (FNum dh) = FNum x /\ double_format x /\ Rabs (x - e / D) <= shape_error eps n * (e / D)).
  { intros e eh He Heh H1. pose proof (bpow_gt_0 radix2 (-440)) as P4.
    assert (low : bpow radix2 (-1000) <= e / D).
    { apply Rmult_le_reg_r with D; [lra|]. unfold Rdiv. rewrite Rmult_assoc, Rinv_l, Rmult_1_r by lra.
      apply Rle_trans with (bpow radix2 (-1000) * bpow radix2 460); [apply Rmult_le_compat_l; [apply bpow_ge_0|exact DB]|].
      rewrite <- bpow_plus. eapply Rle_trans; [|exact He]. apply bpow_le. lia. }
    pose proof (ratio_close e eh D dh delta ltac:(lra) ltac:(lra) del ltac:(unfold delta; lra) Heh DD low) as Q.
    exists (rnd (eh / dh)). cbn [fdiv]. destruct (Req_EM_T dh 0); [lra|]. split; [|split; [apply rnd_format|]].
    - apply overflow_num. assert (c0 : 0 < e / D) by (apply Rdiv_lt_0_compat; lra).
      assert (6 * delta * (e / D) <= 1) by (replace 1 with (1 * 1) by ring; apply Rmult_le_compat; lra).
      apply Rabs_le_inv in Q. assert (4 < bpow radix2 1024) by (change 4 with (bpow radix2 2); apply bpow_lt; lia). apply Rabs_lt. lra.
    - eapply Rle_trans; [exact Q|]. right. unfold shape_error, delta, b. fold uround. ring. }
  assert (P440 : bpow radix2 (-440) <= 1) by (change 1 with (bpow radix2 0); apply bpow_le; lia).
  rewrite convert_eta_eq. unfold fasym_shape, eta_position, eta_denom. fold n S D. rewrite Edh.
  destruct (Nat.eqb_spec alt sref) as [Eq|Ne].
  - apply (main 1 1); [exact P440|replace (1 - 1) with 0 by ring; rewrite Rabs_R0; lra|].
    apply Rmult_le_reg_r with D; [lra|]. unfold Rdiv. rewrite Rmult_1_l, Rinv_l; lra.
  - change (if (alt <? sref)%nat then alt else (alt - 1)%nat) with (unskip sref alt). set (k := unskip sref alt).
    assert (Hk : (k < n)%nat) by (unfold k, unskip; destruct (Nat.ltb_spec alt sref); lia).
    destruct (EX k Hk) as (Ek & _ & _ & Ak & Bk). rewrite Ek. apply main.
    + lra.
    + eapply Rle_trans; [exact Ak|]. apply Rmult_le_compat_r; [left; apply exp_pos|unfold delta; lra].
    + apply Rmult_le_reg_r with D; [lra|]. unfold Rdiv. rewrite Rmult_assoc, Rinv_l, Rmult_1_r, Rmult_1_l by lra. unfold D, S.
      pose proof (sumn_ge_term n (fun j => exp (aget eta j)) k) as G. cbn beta in G. assert (exp (aget eta k) <= sumn n (fun j => exp (aget eta j))); [|lra].
      apply G; [intros; left; apply exp_pos|exact Hk].
Qed.

(** ** C128: the transformed utilities of every row *)

Theorem C128_uneven_rows :
  forall ex eps lg l1 el pw t D alt order iref shapes icpt beta B S,
  accurate_exp ex eps -> 0 <= eps <= / 2 ^ 40 -> accurate_log1p l1 el -> 0 <= el <= / 2 ^ 40 ->
  alternatives_of D alt -> rows_in_range D beta order B -> intercepts_in_range icpt ->
  (forall j, (j < d_J D)%nat -> -700 <= aget shapes j <= 700 /\ exp (aget shapes j) <= S) ->
  B <= 690 -> S * (B + 1) <= 699 ->
  rows_within (Transforms.KUneven iref) ex lg l1 pw t D alt order (Some shapes) icpt beta
    ((1 + S) * utility_error (d_K D) B + 800 * eps + 1500 * el + 6000 * / 2 ^ 53).
Proof.
  intros ex eps lg l1 el pw t D alt order iref shapes icpt beta B S Hex Heps Hl1 Hel HA HR HI HS HB HSB i Hi.
  destruct (computed_utility D beta order B i HR Hi ltac:(lra)) as (v & Ev & Fv & Av & Bv & Be). set (e := utility_error (d_K D) B) in *.
  destruct (row_intercept D alt iref icpt i HA Hi HI) as (Ic & Ia). set (a := long_intercepts _ _ _ _ _) in *.
  destruct (HA i Hi) as (Ha & Hrow). destruct (HS (alt i) Ha) as (Hs & HsS). set (s := exp (aget shapes (alt i))) in *. assert (s0 : 0 < s) by apply exp_pos.
  pose proof Av as Av'. apply Rabs_le_inv in Av', Bv. assert (vB : Rabs v <= B + 1) by (apply Rabs_le; lra). pose proof (Rabs_pos v) as v0.
  destruct (C126_uneven_logit_is_accurate ex eps l1 el v (aget shapes (alt i)) (frow_intercept iref icpt (alt i)) a Hex Heps Hl1 Hel Fv) as (z & Ez & Az); try assumption.
  { apply Rabs_le_inv in vB. lra. }
  { fold s. eapply Rle_trans; [|exact HSB]. apply Rmult_le_compat; lra. }
  exists z. split; [unfold float_transformed; rewrite Ev; exact Ez|].
  assert (EM : m_transform (model_of (Transforms.KUneven iref)) (d_J D) (d_A D) (sys_utilities D beta) (Some shapes) icpt i = uneven_formula s (sys_utilities D beta i) + a).
  { cbn [model_of Uneven_model m_transform]. unfold uneven_transform. fold a. unfold long_natural_shapes. rewrite (select _ _ _ i (alt i) Ha Hrow). fold s. unfold uneven_formula.
    replace (-1 * sys_utilities D beta i) with (- sys_utilities D beta i) by ring. replace (-1 * s * sys_utilities D beta i) with (- (s * sys_utilities D beta i)) by ring. reflexivity. }
  rewrite EM. fold s in Az. set (w := sys_utilities D beta i) in *.
  replace (z - (uneven_formula s w + a)) with ((z - (uneven_formula s v + a)) + (uneven_formula s v - uneven_formula s w)) by ring.
  eapply Rle_trans; [apply Rabs_triang|]. pose proof (uneven_lipschitz s v w ltac:(lra)) as Lp.
  assert ((1 + s) * Rabs (v - w) <= (1 + S) * e) by (apply Rmult_le_compat; [lra|apply Rabs_pos|lra|exact Av]). lra.
Qed.

Theorem C128_clog_rows :
  forall ex eps lg el l1 pw t D alt order iref shape icpt beta B,
  accurate_exp ex eps -> 0 <= eps <= / 2 ^ 40 -> accurate_ln lg el -> 0 <= el <= / 2 ^ 40 ->
  alternatives_of D alt -> rows_in_range D beta order B -> intercepts_in_range icpt ->
  B <= 690 -> (forall i, (i < d_N D)%nat -> sys_utilities D beta i <= 6) -> 340 * eps * (1 + exp (B + 1)) + / 2 ^ 53 <= / 2 ->
  rows_within (Transforms.KClog iref) ex lg l1 pw t D alt order shape icpt beta
    (1200 * utility_error (d_K D) B + 1400 * eps * (1 + exp (B + 1)) + 800 * el + 6100 * / 2 ^ 53).
Proof.
  intros ex eps lg el l1 pw t D alt order iref shape icpt beta B Hex Heps Hlg Hel HA HR HI HB H6 Hsmall i Hi.
  destruct (computed_utility D beta order B i HR Hi ltac:(lra)) as (v & Ev & Fv & Av & Bv & Be). set (e := utility_error (d_K D) B) in *.
  destruct (row_intercept D alt iref icpt i HA Hi HI) as (Ic & Ia). set (a := long_intercepts _ _ _ _ _) in *.
  pose proof (H6 i Hi) as H6i. pose proof Av as Av'. apply Rabs_le_inv in Av', Bv. set (w := sys_utilities D beta i) in *.
  pose proof uround_pos as U. fold uround in *.
  assert (XE : eps * (1 + exp (- v)) <= eps * (1 + exp (B + 1))) by (apply Rmult_le_compat_l; [lra|]; pose proof (exp_mono (- v) (B + 1) ltac:(lra)); lra).
  destruct (C126_clog_log_is_accurate ex eps lg el v (frow_intercept iref icpt (alt i)) a Hex Heps Hlg Hel Fv) as (z & Ez & Az); try assumption; try (fold uround; lra).
  exists z. split; [unfold float_transformed; rewrite Ev; exact Ez|].
  assert (EM : m_transform (model_of (Transforms.KClog iref)) (d_J D) (d_A D) (sys_utilities D beta) shape icpt i = clog_formula w + a) by reflexivity.
  rewrite EM. replace (z - (clog_formula w + a)) with ((z - (clog_formula v + a)) + (clog_formula v - clog_formula w)) by ring.
  eapply Rle_trans; [apply Rabs_triang|]. pose proof (clog_lipschitz v w 7 ltac:(lra) ltac:(lra)) as Lp. fold uround in Lp, Az.
  assert (E7 : exp 7 <= 1102).
  { replace 7 with (INR 7) by (cbn; ring). rewrite exp_INR. destruct exp_1_bounds as (L7 & U7). apply Rle_trans with ((272 / 100) ^ 7); [apply pow_incr; lra|]. cbn. lra. }
  assert ((1 + exp 7) * Rabs (v - w) <= 1200 * e) by (apply Rmult_le_compat; [pose proof (exp_pos 7); lra|apply Rabs_pos|lra|exact Av]). lra.
Qed.

Theorem C128_scobit_rows :
  forall ex eps lg el l1 pw ep t D alt order iref shapes icpt beta B b,
  accurate_exp ex eps -> 0 <= eps <= / 2 ^ 40 -> accurate_ln lg el -> 0 <= el <= / 2 ^ 40 -> accurate_power pw ep -> 0 <= ep <= / 2 ^ 40 ->
  alternatives_of D alt -> rows_in_range D beta order B -> intercepts_in_range icpt ->
  (forall j, (j < d_J D)%nat -> Rabs (aget shapes j) <= b) ->
  B <= 690 -> b <= 200 -> exp b * (B + 2) <= 690 ->
  let rho := 7 * exp b * (2 * eps + / 2 ^ 53) + 1400 * eps + 2 * ep in
  let kappa := 1 + exp b * (1 + exp (B + 1)) in
  2 * (rho * kappa) + / 2 ^ 53 <= / 2 ->
  rows_within (Transforms.KScobit iref) ex lg l1 pw t D alt order (Some shapes) icpt beta
    ((1 + exp b) * utility_error (d_K D) B + 4 * (rho * kappa) + 1001 * el + 3000 * / 2 ^ 53).
Proof.
  intros ex eps lg el l1 pw ep t D alt order iref shapes icpt beta B b Hex Heps Hlg Hel Hpw Hep HA HR HI HS HB Hb HSB rho kappa Hsmall i Hi.
  destruct (computed_utility D beta order B i HR Hi ltac:(lra)) as (v & Ev & Fv & Av & Bv & Be). set (e := utility_error (d_K D) B) in *.
  destruct (row_intercept D alt iref icpt i HA Hi HI) as (Ic & Ia). set (a := long_intercepts _ _ _ _ _) in *.
  destruct (HA i Hi) as (Ha & Hrow). pose proof (HS (alt i) Ha) as Hs. apply Rabs_le_inv in Hs.
  set (s := exp (aget shapes (alt i))) in *. assert (s0 : 0 < s) by apply exp_pos. assert (sb : s <= exp b) by (apply exp_mono; lra).
  assert (sl : exp (- b) <= s) by (apply exp_mono; lra). pose proof (exp_pos (- b)) as eb0.
  pose proof Av as Av'. apply Rabs_le_inv in Av', Bv. set (w := sys_utilities D beta i) in *.
  pose proof uround_pos as U. fold uround in *.
  set (l := ln (1 + exp (- v))). pose proof (exp_pos (- v)) as n0. pose proof (exp_pos (B + 1)) as B0.
  assert (lu : l <= B + 2) by (unfold l; replace (B + 2) with (B + 1 + 1) by ring; apply softplus_le; lra).
  assert (ll : / (1 + exp (B + 1)) <= l).
  { eapply Rle_trans; [|apply ln_1p_ge; exact n0]. pose proof (exp_mono v (B + 1) ltac:(lra)) as M. pose proof (exp_pos v) as p0.
    replace (1 - / (1 + exp (- v))) with (/ (1 + exp v)) by (rewrite exp_Ropp; field; lra). apply Rinv_le_contravar; lra. }
  assert (l0 : 0 < l) by (eapply Rlt_le_trans; [|exact ll]; apply Rinv_0_lt_compat; lra).
  set (L := s * l). assert (L0 : 0 < L) by (apply Rmult_lt_0_compat; assumption).
  assert (LB : L <= 690) by (eapply Rle_trans; [|exact HSB]; apply Rmult_le_compat; lra).
  assert (iL : / L <= exp b * (1 + exp (B + 1))).
  { unfold L. rewrite Rinv_mult. apply Rmult_le_compat; try (left; apply Rinv_0_lt_compat; assumption).
    - rewrite <- (Rinv_inv (exp b)), <- exp_Ropp. apply Rinv_le_contravar; assumption.
    - rewrite <- (Rinv_inv (1 + exp (B + 1))). apply Rinv_le_contravar; [apply Rinv_0_lt_compat; lra|exact ll]. }
  assert (sf : Rabs (scobit_formula s v) <= 1000).
  { unfold scobit_formula. change (Rpower (1 + exp (- v)) s) with (exp L). rewrite Rabs_Ropp.
    pose proof (exp_ineq1 L ltac:(lra)) as Q. apply Rabs_le. split.
    - assert (X : ln (/ L) <= b + (B + 2)).
      { eapply Rle_trans; [apply ln_mono; [apply Rinv_0_lt_compat; lra|exact iL]|]. rewrite ln_mult, ln_exp by (try apply exp_pos; lra).
        apply Rplus_le_compat_l. replace (B + 2) with (B + 1 + 1) by ring. apply softplus_le; lra. }
      rewrite ln_Rinv in X by exact L0. assert (ln L <= ln (exp L - 1)) by (apply ln_mono; lra). lra.
    - apply Rle_trans with (ln (exp L)); [apply ln_mono; lra|rewrite ln_exp; lra]. }
  assert (rr : 7 * s * (2 * eps + uround) + 1400 * eps + 2 * ep <= rho).
  { unfold rho. assert (s * (2 * eps + uround) <= exp b * (2 * eps + uround)) by (apply Rmult_le_compat_r; lra). lra. }
  assert (r0 : 0 <= 7 * s * (2 * eps + uround) + 1400 * eps + 2 * ep) by (assert (0 <= s * (2 * eps + uround)) by (apply Rmult_le_pos; lra); lra).
  assert (RK : (7 * s * (2 * eps + uround) + 1400 * eps + 2 * ep) * (1 + / L) <= rho * kappa).
  { assert (0 < / L) by (apply Rinv_0_lt_compat; exact L0). apply Rmult_le_compat; try lra. unfold kappa. lra. }
  assert (FI : exists av, frow_intercept iref icpt (alt i) = av /\ (match av with Some x => x | None => FNum 0 end) = FNum a).
  { eexists. split; [reflexivity|]. destruct (frow_intercept iref icpt (alt i)) as [x|]; [destruct Ic as (r & -> & ->); reflexivity|rewrite Ic; reflexivity]. }
  destruct FI as (av & Eav & FI).
  destruct (C126_scobit_is_accurate ex eps lg el pw ep v (aget shapes (alt i)) a Hex Heps Hlg Hel Hpw Hep Fv) as (z & Ez & Az); try assumption; try lra.
  { fold s l L uround. lra. }
  exists z. split; [unfold float_transformed; rewrite Ev; cbn [frow_transform ftransform]; rewrite Eav, FI; exact Ez|].
  assert (EM : m_transform (model_of (Transforms.KScobit iref)) (d_J D) (d_A D) (sys_utilities D beta) (Some shapes) icpt i = scobit_formula s w + a).
  { cbn [model_of Scobit_model m_transform]. unfold scobit_transform. fold a. unfold long_natural_shapes. rewrite (select _ _ _ i (alt i) Ha Hrow). fold s. unfold scobit_formula. fold w.
    replace (-1 * w) with (- w) by ring. ring. }
  rewrite EM. fold s l L uround in Az. replace (z - (scobit_formula s w + a)) with ((z - (scobit_formula s v + a)) + (scobit_formula s v - scobit_formula s w)) by ring.
  eapply Rle_trans; [apply Rabs_triang|]. pose proof (scobit_lipschitz s v w s0) as Lp.
  assert ((1 + s) * Rabs (v - w) <= (1 + exp b) * e) by (apply Rmult_le_compat; [lra|apply Rabs_pos|lra|exact Av]). lra.
Qed.

(** Bounds on natural shapes when no transformed shape exceeds [b] in absolute value. *)
Lemma shapes_between eta sref J j b :
  (sref < J)%nat -> alen eta = (J - 1)%nat -> (2 <= J)%nat -> (j < J)%nat -> 0 <= b -> (forall k, (k < alen eta)%nat -> Rabs (aget eta k) <= b) ->
  let c := convert_eta_to_c eta sref j in let M := INR J * exp (2 * b) in / M <= c /\ / M <= 1 - c.
Proof.
  intros Hr HL HJ Hj Hb He c M.
  assert (all : forall j, (j < J)%nat -> / M <= convert_eta_to_c eta sref j).
  { intros k Hk. rewrite convert_eta_eq. pose proof (eta_denom_pos eta) as D1.
    assert (DB : eta_denom eta <= INR J * exp b).
    { unfold eta_denom. assert (X : sumn (alen eta) (fun k => exp (aget eta k)) <= INR (alen eta) * exp b).
      { rewrite <- sumn_const. apply sumn_le. intros q Hq. apply exp_mono. pose proof (He q Hq) as Q. apply Rabs_le_inv in Q. lra. }
      rewrite HL in X at 2. rewrite minus_INR in X by lia. cbn [INR] in X. pose proof (exp_mono 0 b Hb) as Y. rewrite exp_0 in Y. lra. }
    assert (eN : exp (- b) <= (if (k =? sref)%nat then 1 else exp (aget eta (unskip sref k)))).
    { destruct (Nat.eqb_spec k sref); [rewrite <- exp_0; apply exp_mono; lra|]. apply exp_mono.
      assert (Hu : (unskip sref k < alen eta)%nat) by (unfold unskip; destruct (Nat.ltb_spec k sref); lia). pose proof (He _ Hu) as Q. apply Rabs_le_inv in Q. lra. }
    assert (EMi : / M = exp (- b) / (INR J * exp b)).
    { unfold M. replace (2 * b) with (b + b) by ring. rewrite exp_plus, exp_Ropp. pose proof (exp_pos b). assert (INR J <> 0) by (apply not_0_INR; lia). field. split; lra. }
    rewrite EMi. pose proof (exp_pos (- b)) as P.
    replace (if (k =? sref)%nat then 1 / eta_denom eta else exp (aget eta (unskip sref k)) / eta_denom eta) with ((if (k =? sref)%nat then 1 else exp (aget eta (unskip sref k))) / eta_denom eta) by (destruct (k =? sref)%nat; reflexivity).
    unfold Rdiv. apply Rmult_le_compat; [lra|left; apply Rinv_0_lt_compat; lra|exact eN|apply Rinv_le_contravar; lra]. }
  split; [apply all, Hj|]. set (k := if (j =? 0)%nat then 1%nat else 0%nat).
  assert (Hk : (k < J)%nat /\ k <> j) by (unfold k; destruct (Nat.eqb_spec j 0); lia).
  pose proof (convert_eta_sum eta sref J Hr HL) as T.
  assert (convert_eta_to_c eta sref j + convert_eta_to_c eta sref k <= sumn J (convert_eta_to_c eta sref)).
  { apply sumn_ge_two; try lia. intros q _. left. apply convert_eta_pos. }
  pose proof (all k (proj1 Hk)). unfold c. lra.
Qed.

Theorem C128_asym_rows :
  forall ex eps lg el l1 pw t D alt order sref iref eta icpt beta B b,
  accurate_exp ex eps -> 0 <= eps <= / 2 ^ 40 -> accurate_ln lg el -> 0 <= el <= / 2 ^ 40 ->
  alternatives_of D alt -> rows_in_range D beta order B -> intercepts_in_range icpt ->
  (2 <= d_J D <= 4096)%nat -> (sref < d_J D)%nat -> alen eta = (d_J D - 1)%nat -> Permutation (terms_of t) (seq 0 (alen eta)) ->
  (forall j, (j < alen eta)%nat -> Rabs (aget eta j) <= b) -> b <= 300 -> B <= 690 ->
  let M := INR (d_J D) * exp (2 * b) in
  shape_error eps (alen eta) * M <= / 100 ->
  rows_within (Transforms.KAsym sref iref) ex lg l1 pw t D alt order (Some eta) icpt beta
    (690 * utility_error (d_K D) B + (B + 2) * (6 * (shape_error eps (alen eta) * M) + 700 * el) + 2000000 * / 2 ^ 53).
Proof.
  intros ex eps lg el l1 pw t D alt order sref iref eta icpt beta B b Hex Heps Hlg Hel HA HR HI HJ Hsref HL HP He Hb HB M Hsmall i Hi.
  destruct (computed_utility D beta order B i HR Hi ltac:(lra)) as (v & Ev & Fv & Av & Bv & Be). set (e := utility_error (d_K D) B) in *.
  destruct (row_intercept D alt iref icpt i HA Hi HI) as (Ic & Ia). set (a := long_intercepts _ _ _ _ _) in *.
  destruct (HA i Hi) as (Ha & Hrow). pose proof Av as Av'. apply Rabs_le_inv in Av', Bv. set (w := sys_utilities D beta i) in *.
  assert (vB : Rabs v <= B + 1) by (apply Rabs_le; lra). pose proof (Rabs_pos v) as v0.
  assert (b0 : 0 <= b) by (eapply Rle_trans; [apply Rabs_pos|apply (He 0%nat); lia]).
  pose proof uround_pos as U. fold uround in *. set (g := shape_error eps (alen eta)) in *.
  assert (g0 : 0 <= g) by (unfold g, shape_error; fold uround; pose proof (pos_INR (alen eta)); assert (0 <= (INR (alen eta) + 1) * uround) by (apply Rmult_le_pos; lra); lra).
  destruct (C128_natural_shapes_are_accurate ex eps eta sref (alt i) t Hex Heps) as (x & Ex & Fx & Ax); try lia; try exact HP.
  { intros j Hj. pose proof (He j Hj). lra. }
  fold g in Ax. set (c := convert_eta_to_c eta sref (alt i)) in *.
  destruct (shapes_between eta sref (d_J D) (alt i) b Hsref HL ltac:(lia) Ha b0 He) as (c1 & c2). fold c M in c1, c2.
  assert (J2 : 2 <= INR (d_J D) <= 4096).
  { split; [change 2 with (INR 2)|replace 4096 with (INR 4096) by (rewrite INR_IZR_INZ; reflexivity)]; apply le_INR; lia. }
  assert (M0 : 0 < M) by (unfold M; apply Rmult_lt_0_compat; [lra|apply exp_pos]). assert (iM : 0 < / M) by (apply Rinv_0_lt_compat; exact M0).
  assert (lJ : 0 <= ln (INR (d_J D)) <= 12).
  { split; [rewrite <- ln_1; apply ln_mono; lra|]. rewrite <- (ln_exp 12). apply ln_mono; [lra|].
    destruct exp_1_bounds as (q1 & _). replace 12 with (INR 12) by (cbn; ring). rewrite exp_INR. apply Rle_trans with (2 ^ 12); [cbn; lra|apply pow_incr; lra]. }
  assert (lM : ln M <= 612) by (unfold M; rewrite ln_mult, ln_exp by (try apply exp_pos; lra); lra).
  assert (LC : Rabs (ln c) <= 690).
  { apply Rabs_le. assert (ln (/ M) <= ln c) by (apply ln_mono; assumption). rewrite ln_Rinv in H by exact M0.
    assert (ln c <= ln 1) by (apply ln_mono; lra). rewrite ln_1 in *. lra. }
  assert (LQ : Rabs (ln ((1 - c) / (INR (d_J D) - 1))) <= 690).
  { set (n := INR (d_J D) - 1) in *. assert (in0 : 0 < / n) by (apply Rinv_0_lt_compat; unfold n; lra).
    unfold Rdiv. rewrite ln_mult by lra. rewrite ln_Rinv by (unfold n; lra).
    assert (ln (/ M) <= ln (1 - c)) by (apply ln_mono; assumption). rewrite ln_Rinv in H by exact M0.
    assert (ln (1 - c) <= ln 1) by (apply ln_mono; lra). rewrite ln_1 in *.
    assert (0 <= ln n) by (rewrite <- ln_1; apply ln_mono; unfold n; lra). assert (ln n <= ln (INR (d_J D))) by (apply ln_mono; unfold n; lra).
    apply Rabs_le. lra. }
  assert (KM : / (1 - c) <= M) by (rewrite <- (Rinv_inv M); apply Rinv_le_contravar; assumption).
  assert (GK : g * / (1 - c) <= g * M) by (apply Rmult_le_compat_l; assumption).
  destruct (C126_asym_is_accurate lg el (d_J D) x c g v (frow_intercept iref icpt (alt i)) a Hlg Hel) as (z & Ez & Az); try assumption; try lia; try lra.
  exists z. split.
  { unfold float_transformed. rewrite Ev. cbn [frow_transform ftransform]. rewrite Ex. exact Ez. }
  assert (EM : m_transform (model_of (Transforms.KAsym sref iref)) (d_J D) (d_A D) (sys_utilities D beta) (Some eta) icpt i = asym_formula (d_J D) c w + a).
  { cbn [model_of Asym_model m_transform]. unfold asym_transform. fold a. unfold asym_long_shapes, asym_natural_shapes. rewrite (select _ _ _ i (alt i) Ha Hrow). reflexivity. }
  rewrite EM. replace (z - (asym_formula (d_J D) c w + a)) with ((z - (asym_formula (d_J D) c v + a)) + (asym_formula (d_J D) c v - asym_formula (d_J D) c w)) by ring.
  eapply Rle_trans; [apply Rabs_triang|]. pose proof (asym_lipschitz (d_J D) c 690 v w LC LQ) as Lp. fold uround in Az.
  assert (690 * Rabs (v - w) <= 690 * e) by (apply Rmult_le_compat_l; [lra|exact Av]).
  assert (gk0 : 0 <= g * / (1 - c)) by (apply Rmult_le_pos; [exact g0|left; apply Rinv_0_lt_compat; lra]).
  assert ((1 + Rabs v) * (6 * (g * / (1 - c)) + 700 * el) <= (B + 2) * (6 * (g * M) + 700 * el)) by (apply Rmult_le_compat; lra). lra.
Qed.

(** ** C128: probabilities and log-likelihood *)

Theorem C128_probabilities :
  forall k ex eps lg l1 pw st D own alt order shape icpt beta eta t i,
  accurate_exp ex eps -> 0 <= eps <= / 2 ^ 40 ->
  indicator_of (d_N D) (d_obs D) (d_M D) own -> (i < d_N D)%nat ->
  let rows := filter (fun q => (own q =? own i)%nat) (seq 0 (d_N D)) in
  (length rows <= 4095)%nat -> Permutation (terms_of t) rows ->
  rows_within k ex lg l1 pw st D alt order shape icpt beta eta ->
  let p := long_probs (model_of k) D shape icpt beta i in
  exists x, float_prob ex (float_transformed k ex lg l1 pw st D alt order shape icpt beta) t i = FNum x /\
    Rabs (x - p) <= (exp (2 * eta) * (1 + 2 * (2 * eps + (INR (length rows) + 1) * / 2 ^ 53)) - 1) * p + 2 * / 10 ^ 300.
Proof.
  intros k ex eps lg l1 pw st D own alt order shape icpt beta eta t i Hex Heps Hown Hi rows Hn HP HW p.
  set (u := float_transformed k ex lg l1 pw st D alt order shape icpt beta). set (r := fun q => match u q with FNum z => z | _ => 0 end).
  assert (Ii : In i rows) by (apply filter_In; split; [apply in_seq; lia|apply Nat.eqb_refl]).
  assert (HU : forall q, In q rows -> u q = FNum (r q) /\ Rabs (r q - m_transform (model_of k) (d_J D) (d_A D) (sys_utilities D beta) shape icpt q) <= eta).
  { intros q Hq. apply filter_In in Hq. destruct Hq as (Hq & _). apply in_seq in Hq. destruct (HW q ltac:(lia)) as (z & E & A). fold u in E. unfold r. rewrite E. split; [reflexivity|exact A]. }
  rewrite (float_prob_ext ex u (fun q => FNum (r q))).
  - apply (C122_computed_probabilities_follow_the_model ex eps (model_of k) D own shape icpt beta r eta t i); try assumption. intros q Hq. apply (HU q Hq).
  - intros q Hq. apply HU. apply (Permutation_in _ HP Hq).
  - apply HU, Ii.
Qed.

Theorem C128_log_likelihood :
  forall k ex eps lg ll el l1 pw st D own alt uorder order shape icpt beta eta t (y : nat -> bool),
  accurate_exp ex eps -> 0 <= eps <= / 2 ^ 40 -> accurate_log ll el -> 0 <= el <= / 2 ->
  indicator_of (d_N D) (d_obs D) (d_M D) own -> (d_N D <= 2 ^ 20)%nat -> d_w D = None -> d_ridge D = None ->
  (forall i, (i < d_N D)%nat -> d_y D i = if y i then 1 else 0) ->
  (forall i, (i < d_N D)%nat ->
     let rows := filter (fun q => (own q =? own i)%nat) (seq 0 (d_N D)) in
     Permutation (terms_of (order (own i))) rows /\ (length rows <= 4095)%nat) ->
  Permutation (terms_of t) (seq 0 (d_N D)) ->
  rows_within k ex lg l1 pw st D alt uorder shape icpt beta eta -> 0 <= eta ->
  (forall i, (i < d_N D)%nat -> y i = true -> / 10 ^ 280 <= long_probs (model_of k) D shape icpt beta i) ->
  let LL := calc_log_likelihood (model_of k) D shape icpt beta in
  let rho := exp (2 * eta) * (1 + 2 * (2 * eps + 4096 * / 2 ^ 53)) - 1 in
  rho <= / 4 ->
  exists L, float_log_likelihood ll y (fun i => float_prob ex (float_transformed k ex lg l1 pw st D alt uorder shape icpt beta) (order (own i)) i) t = FNum L /\
    Rabs (L - LL) <= (el + 4 * INR (d_N D) * / 2 ^ 53) * Rabs LL + 4 * INR (d_N D) * (rho + 2 * / 10 ^ 20).
Proof.
  intros k ex eps lg ll el l1 pw st D own alt uorder order shape icpt beta eta t y Hex Heps Hll Hel Hown HN Hw Hr Hy Hobs HP HW Heta Hp LL rho Hrho.
  set (u := float_transformed k ex lg l1 pw st D alt uorder shape icpt beta). set (r := fun q => match u q with FNum z => z | _ => 0 end).
  assert (HU : forall q, (q < d_N D)%nat -> u q = FNum (r q) /\ Rabs (r q - m_transform (model_of k) (d_J D) (d_A D) (sys_utilities D beta) shape icpt q) <= eta).
  { intros q Hq. destruct (HW q Hq) as (z & E & A). fold u in E. unfold r. rewrite E. split; [reflexivity|exact A]. }
  destruct (C127_log_likelihood_follows_the_model ex eps ll el (model_of k) D own shape icpt beta r eta order t y) as (L & EL & AL); try assumption.
  { intros q Hq. apply HU, Hq. }
  exists L. split; [|exact AL]. rewrite <- EL.
  assert (X : forall i, (i < d_N D)%nat -> float_prob ex u (order (own i)) i = float_prob ex (fun q => FNum (r q)) (order (own i)) i).
  { intros i Hi. destruct (Hobs i Hi) as (Pi & _). apply float_prob_ext; [|apply HU, Hi].
    intros q Hq. apply (Permutation_in _ Pi), filter_In in Hq. destruct Hq as (Hq & _). apply in_seq in Hq. apply HU. lia. }
  unfold float_log_likelihood. apply fsum_ext. intros i Hi. apply (Permutation_in _ HP), in_seq in Hi. rewrite X by lia. reflexivity.
Qed.

(** ** C128 in figures *)

(** Shape parameters of the usual size: at most one in absolute value, at most 100
    alternatives in an asymmetric logit. *)
Definition usual_shapes (k : logit_kind) (J : nat) (st : sum_order) (shape : option arr) : Prop :=
  match k, shape with
  | Transforms.KMNL, _ | Transforms.KClog _, _ => True
  | Transforms.KScobit _, Some c | Transforms.KUneven _, Some c => forall j, (j < J)%nat -> Rabs (aget c j) <= 1
  | Transforms.KAsym sref _, Some c =>
      (2 <= J <= 100)%nat /\ (sref < J)%nat /\ alen c = (J - 1)%nat /\ Permutation (terms_of st) (seq 0 (alen c)) /\
      forall j, (j < alen c)%nat -> Rabs (aget c j) <= 1
  | _, None => False
  end.

Lemma uround_ten_8 : 90000000 * uround <= / 10 ^ 8.
Proof.
  replace (/ 10 ^ 8) with (90000000 * / (9 * 10 ^ 15)) by (cbn; lra). apply Rmult_le_compat_l; [lra|]. unfold uround.
  apply Rinv_le_contravar; [apply Rmult_lt_0_compat; [lra|apply pow_lt; lra]|].
  replace (2 ^ 53) with (IZR (2 ^ 53)) by (rewrite (pow_IZR 2); reflexivity). replace (9 * 10 ^ 15) with (IZR (9 * 10 ^ 15)) by (rewrite mult_IZR, (pow_IZR 10); reflexivity).
  apply IZR_le. lia.
Qed.

Lemma rows_within_weaken k ex lg l1 pw t D alt order shape icpt beta eta eta' :
  rows_within k ex lg l1 pw t D alt order shape icpt beta eta -> eta <= eta' -> rows_within k ex lg l1 pw t D alt order shape icpt beta eta'.
Proof. intros H L i Hi. destruct (H i Hi) as (z & E & A). exists z. split; [exact E|lra]. Qed.

Theorem C128_rows_in_figures :
  forall k ex eps lg el l1 e1 pw ep st D alt order shape icpt beta,
  accurate_exp ex eps -> 0 <= eps <= / 2 ^ 52 -> accurate_ln lg el -> 0 <= el <= / 2 ^ 52 ->
  accurate_log1p l1 e1 -> 0 <= e1 <= / 2 ^ 52 -> accurate_power pw ep -> 0 <= ep <= / 2 ^ 52 ->
  alternatives_of D alt -> rows_in_range D beta order 6 -> (d_K D <= 100)%nat -> intercepts_in_range icpt -> usual_shapes k (d_J D) st shape ->
  rows_within k ex lg l1 pw st D alt order shape icpt beta (/ 10 ^ 8).
Proof.
  intros k ex eps lg el l1 e1 pw ep st D alt order shape icpt beta Hex Heps Hlg Hel Hl1 He1 Hpw Hep HA HR HK HI HS.
  pose proof uround_pos as U. pose proof uround_tiny as U40. pose proof inv_2_40 as T40. pose proof uround_ten_8 as U8.
  assert (E52 : / 2 ^ 52 = 2 * uround) by (unfold uround; change (2 ^ 53) with (2 * 2 ^ 52); rewrite Rinv_mult; field; apply pow_nonzero; lra).
  assert (E40 : / 2 ^ 52 <= / 2 ^ 40) by (apply Rinv_le_contravar; [apply pow_lt; lra|]; apply Rle_pow; [lra|lia]).
  assert (UE : 0 <= utility_error (d_K D) 6 <= 1400 * uround).
  { unfold utility_error. rewrite <- tiny_eq. fold uround. pose proof tiny_le_u as T. pose proof (pos_INR (d_K D)) as K0.
    apply le_INR in HK. replace (INR 100) with 100 in HK by (rewrite INR_IZR_INZ; reflexivity). split; [apply Rmult_le_pos; lra|].
    apply Rle_trans with (2 * 100 * (uround * 7)); [apply Rmult_le_compat; lra|lra]. }
  destruct exp_1_bounds as (e1l & e1u).
  assert (E7 : exp (6 + 1) <= 1102).
  { replace (6 + 1) with (INR 7) by (cbn; ring). rewrite exp_INR. apply Rle_trans with ((272 / 100) ^ 7); [apply pow_incr; lra|]. cbn. lra. }
  pose proof (exp_pos (6 + 1)) as E70. set (ue := utility_error (d_K D) 6) in *. set (T8 := / 10 ^ 8) in *.
  destruct k as [|iref|iref|iref|sref iref]; cbn [usual_shapes] in HS.
  - (* multinomial logit *)
    intros i Hi. destruct (computed_utility D beta order 6 i HR Hi ltac:(lra)) as (v & Ev & Fv & Av & _). fold ue in Av.
    exists v. split; [unfold float_transformed; rewrite Ev; reflexivity|]. cbn [model_of MNL_model m_transform]. unfold mnl_transform. lra.
  - eapply rows_within_weaken; [apply (C128_clog_rows ex eps lg el l1 pw st D alt order iref shape icpt beta 6); try assumption; try lra|].
    + intros i Hi. destruct (computed_utility D beta order 6 i HR Hi ltac:(lra)) as (v & _ & _ & _ & Bv & _). apply Rabs_le_inv in Bv. lra.
    + fold uround. assert (eps * (1 + exp (6 + 1)) <= 2 * uround * 1103) by (apply Rmult_le_compat; lra). lra.
    + fold ue uround. assert (eps * (1 + exp (6 + 1)) <= 2 * uround * 1103) by (apply Rmult_le_compat; lra). lra.
  - destruct shape as [c|]; [|contradiction].
    assert (RHO : 0 <= 7 * exp 1 * (2 * eps + uround) + 1400 * eps + 2 * ep <= 2950 * uround).
    { assert (exp 1 * (2 * eps + uround) <= 272 / 100 * (5 * uround)) by (apply Rmult_le_compat; lra). assert (0 <= exp 1 * (2 * eps + uround)) by (apply Rmult_le_pos; lra). lra. }
    assert (KAP : 0 <= 1 + exp 1 * (1 + exp (6 + 1)) <= 3010).
    { assert (exp 1 * (1 + exp (6 + 1)) <= 272 / 100 * 1103) by (apply Rmult_le_compat; lra). assert (0 <= exp 1 * (1 + exp (6 + 1))) by (apply Rmult_le_pos; lra). lra. }
    assert (RK : (7 * exp 1 * (2 * eps + uround) + 1400 * eps + 2 * ep) * (1 + exp 1 * (1 + exp (6 + 1))) <= 2950 * uround * 3010) by (apply Rmult_le_compat; lra).
    eapply rows_within_weaken; [apply (C128_scobit_rows ex eps lg el l1 pw ep st D alt order iref c icpt beta 6 1); try assumption; try lra|].
    + fold uround. lra.
    + fold ue uround. assert ((1 + exp 1) * ue <= 4 * (1400 * uround)) by (apply Rmult_le_compat; lra). lra.
  - destruct shape as [c|]; [|contradiction].
    eapply rows_within_weaken; [apply (C128_uneven_rows ex eps lg l1 e1 pw st D alt order iref c icpt beta 6 (exp 1)); try assumption; try lra|].
    + intros j Hj. pose proof (HS j Hj) as Q. apply Rabs_le_inv in Q. split; [lra|apply exp_mono; lra].
    + fold ue uround. assert ((1 + exp 1) * ue <= 4 * (1400 * uround)) by (apply Rmult_le_compat; lra). lra.
  - destruct shape as [c|]; [|contradiction]. destruct HS as (HJ & Hs & HL & HP & Hc).
    assert (SE : 0 <= shape_error eps (alen c) <= 1212 * uround).
    { unfold shape_error. fold uround. assert (Q : INR (alen c) <= 99) by (replace 99 with (INR 99) by (rewrite INR_IZR_INZ; reflexivity); apply le_INR; lia).
      pose proof (pos_INR (alen c)). assert ((INR (alen c) + 1) * uround <= 100 * uround) by (apply Rmult_le_compat_r; lra). assert (0 <= (INR (alen c) + 1) * uround) by (apply Rmult_le_pos; lra). lra. }
    assert (MM : 0 <= INR (d_J D) * exp (2 * 1) <= 740).
    { assert (Q : INR (d_J D) <= 100) by (replace 100 with (INR 100) by (rewrite INR_IZR_INZ; reflexivity); apply le_INR; lia). pose proof (pos_INR (d_J D)).
      replace (2 * 1) with (1 + 1) by ring. rewrite exp_plus. assert (exp 1 * exp 1 <= 272 / 100 * (272 / 100)) by (apply Rmult_le_compat; lra).
      assert (0 <= exp 1 * exp 1) by (apply Rmult_le_pos; lra). split; [apply Rmult_le_pos; lra|]. apply Rle_trans with (100 * 7.4); [apply Rmult_le_compat; lra|lra]. }
    assert (SM : shape_error eps (alen c) * (INR (d_J D) * exp (2 * 1)) <= 1212 * uround * 740) by (apply Rmult_le_compat; lra).
    eapply rows_within_weaken; [apply (C128_asym_rows ex eps lg el l1 pw st D alt order sref iref c icpt beta 6 1); try assumption; try lra; try lia|].
    fold ue uround. lra.
Qed.

Theorem C128_probabilities_in_figures :
  forall k ex eps lg el l1 e1 pw ep st D own alt order shape icpt beta t i,
  accurate_exp ex eps -> 0 <= eps <= / 2 ^ 52 -> accurate_ln lg el -> 0 <= el <= / 2 ^ 52 ->
  accurate_log1p l1 e1 -> 0 <= e1 <= / 2 ^ 52 -> accurate_power pw ep -> 0 <= ep <= / 2 ^ 52 ->
  alternatives_of D alt -> rows_in_range D beta order 6 -> (d_K D <= 100)%nat -> intercepts_in_range icpt -> usual_shapes k (d_J D) st shape ->
  indicator_of (d_N D) (d_obs D) (d_M D) own -> (i < d_N D)%nat ->
  let rows := filter (fun q => (own q =? own i)%nat) (seq 0 (d_N D)) in
  (length rows <= 4095)%nat -> Permutation (terms_of t) rows ->
  let p := long_probs (model_of k) D shape icpt beta i in
  exists x, float_prob ex (float_transformed k ex lg l1 pw st D alt order shape icpt beta) t i = FNum x /\
    Rabs (x - p) <= / 10 ^ 7 * p + 2 * / 10 ^ 300.
Proof.
  intros k ex eps lg el l1 e1 pw ep st D own alt order shape icpt beta t i Hex Heps Hlg Hel Hl1 He1 Hpw Hep HA HR HK HI HS Hown Hi rows Hn HP p.
  pose proof (C128_rows_in_figures k ex eps lg el l1 e1 pw ep st D alt order shape icpt beta Hex Heps Hlg Hel Hl1 He1 Hpw Hep HA HR HK HI HS) as HW.
  assert (E52 : / 2 ^ 52 = 2 * uround) by (unfold uround; change (2 ^ 53) with (2 * 2 ^ 52); rewrite Rinv_mult; field; apply pow_nonzero; lra).
  assert (E40 : / 2 ^ 52 <= / 2 ^ 40) by (apply Rinv_le_contravar; [apply pow_lt; lra|]; apply Rle_pow; [lra|lia]).
  destruct (C128_probabilities k ex eps lg l1 pw st D own alt order shape icpt beta (/ 10 ^ 8) t i Hex ltac:(lra) Hown Hi Hn HP HW) as (x & E & A).
  exists x. split; [exact E|]. eapply Rle_trans; [exact A|]. apply Rplus_le_compat_r. fold p. fold rows.
  assert (p0 : 0 < p) by (apply (long_probs_pos (model_of k) D own Hown); exact Hi). apply Rmult_le_compat_r; [lra|].
  pose proof uround_pos as U. pose proof uround_ten_8 as U8. fold uround.
  assert (NR : INR (length rows) <= 4095) by (replace 4095 with (INR 4095) by (rewrite INR_IZR_INZ; reflexivity); apply le_INR; exact Hn). pose proof (pos_INR (length rows)) as N0.
  assert (X : (INR (length rows) + 1) * uround <= 4096 * uround) by (apply Rmult_le_compat_r; lra). assert (X0 : 0 <= (INR (length rows) + 1) * uround) by (apply Rmult_le_pos; lra).
  set (T8 := / 10 ^ 8) in *. assert (T80 : 0 < T8 <= / 100) by (unfold T8; cbn; lra). assert (T7 : / 10 ^ 7 = 10 * T8) by (unfold T8; cbn; lra).
  rewrite T7. set (Y := 2 * (2 * eps + (INR (length rows) + 1) * uround)) in *. assert (Y0 : 0 <= Y <= T8) by (unfold Y; lra).
  assert (EX : exp (2 * T8) <= 1 + 4 * T8).
  { pose proof (exp_rel (2 * T8) 0 (2 * T8) ltac:(rewrite Rminus_0_r, Rabs_right; lra) ltac:(lra)) as Q. rewrite exp_0 in Q. apply Rabs_le_inv in Q. lra. }
  pose proof (exp_pos (2 * T8)). assert (exp (2 * T8) * (1 + Y) <= (1 + 4 * T8) * (1 + T8)) by (apply Rmult_le_compat; lra).
  assert (T8 * T8 <= T8 * / 100) by (apply Rmult_le_compat_l; lra). lra.
Qed.

(** ** Non-vacuity: four rows, utilities 0, -2, -4, -6, every model, shapes and an intercept *)

Example C128_four_rows :
  let ex := fun x => rnd (exp x) in let lg := fun x => rnd (ln x) in
  let l1 := fun x => rnd (ln (1 + x)) in let pw := fun a b => rnd (Rpower a b) in
  let beta := mkArr 2 (fun j => if (j =? 0)%nat then -2 else 0) in
  let shape := fun k => match k with Transforms.KAsym _ _ => Some (mkArr 1 (fun _ => 1)) | _ => Some (mkArr 2 (fun j => if (j =? 0)%nat then 1 else -1)) end in
  let icpt := Some (mkArr 1 (fun _ => 5)) in
  let uorder := fun i : nat => if Nat.even i then DFma (DTerm 0) 1 else DPlus (DTerm 1) (DTerm 0) in
  forall k i, In k [Transforms.KMNL; Transforms.KClog (Some 0%nat); Transforms.KScobit (Some 1%nat); Transforms.KUneven (Some 0%nat); Transforms.KAsym 1 (Some 0%nat)] -> (i < 4)%nat ->
  let p := long_probs (model_of k) four_rows (shape k) icpt beta i in
  exists x, float_prob ex (float_transformed k ex lg l1 pw (STerm 0) four_rows (fun i => (i mod 2)%nat) uorder (shape k) icpt beta)
      (match (i / 2)%nat with 0%nat => SPlus (STerm 0) (STerm 1) | _ => SPlus (STerm 3) (STerm 2) end) i = FNum x /\
    Rabs (x - p) <= / 10 ^ 7 * p + 2 * / 10 ^ 300.
Proof.
  intros ex lg l1 pw beta shape icpt uorder k i Hk Hi p.
  assert (C4 : forall i, (i < 4)%nat -> (i = 0 \/ i = 1 \/ i = 2 \/ i = 3)%nat) by (intros; lia).
  assert (C2 : forall j, (j < 2)%nat -> (j = 0 \/ j = 1)%nat) by (intros; lia).
  assert (U : 0 <= / 2 ^ 53 <= / 2 ^ 52).
  { split; [left; apply Rinv_0_lt_compat, pow_lt; lra|]. apply Rinv_le_contravar; [apply pow_lt; lra|]. apply Rle_pow; [lra|lia]. }
  assert (Hown : indicator_of (d_N four_rows) (d_obs four_rows) (d_M four_rows) (fun i => (i / 2)%nat)).
  { intros q Hq. split; [|intros; reflexivity]. cbn in Hq |- *. destruct (C4 q Hq) as [-> |[-> |[-> | ->]]]; cbn; lia. }
  apply (C128_probabilities_in_figures k ex (/ 2 ^ 53) lg (/ 2 ^ 53) l1 (/ 2 ^ 53) pw (/ 2 ^ 53) (STerm 0) four_rows (fun i => (i / 2)%nat)); try exact U; try exact Hown; try exact Hi.
  - apply C122_correctly_rounded_exp.
  - apply C126_rounded_ln.
  - apply C126_rounded_log1p.
  - apply C126_rounded_power.
  - intros q Hq. cbn in Hq |- *. split; [destruct (C4 q Hq) as [-> |[-> |[-> | ->]]]; cbn; lia|].
    intros j Hj. rewrite Nat.eqb_sym. reflexivity.
  - split; [apply Nat.le_trans with (2 ^ 1)%nat; [cbn; lia|apply Nat.pow_le_mono_r; lia]|]. intros q Hq. cbn in Hq.
    split; [|split].
    + destruct (C4 q Hq) as [-> |[-> |[-> | ->]]]; cbn; try apply Permutation_refl; apply perm_swap.
    + destruct (C4 q Hq) as [-> |[-> |[-> | ->]]]; unfold magnitude; cbn; rewrite !Rabs_mult; unfold Rabs; repeat destruct (Rcase_abs _); lra.
    + intros j Hj. cbn in Hj |- *. split; [rewrite INR_IZR_INZ; apply small_integer; lia|].
      destruct (C2 j Hj) as [-> | ->]; cbn; apply small_integer; reflexivity.
  - cbn. lia.
  - intros j. cbn. rewrite Rabs_right; lra.
  - assert (A1 : Rabs 1 <= 1) by (rewrite Rabs_R1; lra). assert (A2 : Rabs (-1) <= 1) by (rewrite Rabs_left; lra).
    cbn in Hk. destruct Hk as [<- |[<- |[<- |[<- |[<- |[]]]]]]; cbn; try exact I.
    + intros j _. destruct (j =? 0)%nat; assumption.
    + intros j _. destruct (j =? 0)%nat; assumption.
    + repeat split; try lia; [apply Permutation_refl|]. intros j _. exact A1.
  - cbn in Hi. destruct (C4 i Hi) as [-> |[-> |[-> | ->]]]; cbn; lia.
  - cbn in Hi. destruct (C4 i Hi) as [-> |[-> |[-> | ->]]]; cbn; try apply Permutation_refl; apply perm_swap.
Qed.

Print Assumptions C128_natural_shapes_are_accurate.
Print Assumptions C128_uneven_rows.
Print Assumptions C128_clog_rows.
Print Assumptions C128_scobit_rows.
Print Assumptions C128_asym_rows.
Print Assumptions C128_probabilities.
Print Assumptions C128_log_likelihood.
Print Assumptions C128_rows_in_figures.
Print Assumptions C128_probabilities_in_figures.
