(** C127: computed probabilities of a multinomial logit, from design matrix and parameters. *)
From Coq Require Import ZArith Reals Lra Lia List Permutation.
From Flocq Require Import Core.
From Verif Require Import Res Vec Arr ChoiceCalcs Transforms NestedCalcs SpecLogit ChoiceFacts Floats FloatFacts FloatTransforms FloatUtilities PropFloats.
Import ListNotations.
Open Scope R_scope.

(** ** Specification *)

(** The sum of the absolute values of the terms of an inner product. *)
Definition magnitude (x y : nat -> R) (K : nat) : R := total (fun k => Rabs (x k * y k)) (seq 0 K).

(** ** Inner products *)

Lemma pow1u_ge1 n : 1 <= (1 + uround) ^ n.
Proof. apply pow_R1_Rle. pose proof uround_pos. lra. Qed.

Notation tiny := (/ 2 * bpow radix2 (-1074)).

Lemma lsum_abs_ge0 x y l : 0 <= lsum (fun k => Rabs (x k * y k)) l.
Proof. apply lsum_ge0. intros. apply Rabs_pos. Qed.

Lemma lsum_abs_le x y l : Rabs (lsum (fun k => x k * y k) l) <= lsum (fun k => Rabs (x k * y k)) l.
Proof.
  induction l as [|k l IH]; cbn; [rewrite Rabs_R0; lra|]. eapply Rle_trans; [apply Rabs_triang|]. lra.
Qed.

Lemma fdot_error x y t M :
  (forall k, In k (dterms t) -> double_format (x k) /\ double_format (y k)) ->
  let n := length (dterms t) in
  let S := lsum (fun k => Rabs (x k * y k)) (dterms t) in
  (1 + uround) ^ n * (S + INR n * tiny) <= M -> M < bpow radix2 1024 ->
  exists z, fdot t (fun k => FNum (x k)) (fun k => FNum (y k)) = FNum z /\ double_format z /\ (n = 0%nat -> z = 0) /\
    Rabs (z - lsum (fun k => x k * y k) (dterms t)) <= ((1 + uround) ^ n - 1) * S + (1 + uround) ^ n * (INR n * tiny).
Proof.
  pose proof uround_pos as U. assert (T0 : 0 < tiny) by (pose proof (bpow_gt_0 radix2 (-1074)); lra).
  assert (B1024 : 0 < bpow radix2 1024) by apply bpow_gt_0.
  (* a rounded value that is close to a bounded one is finite *)
  assert (FIN : forall z e g h S, Rabs (z - e) <= (g - 1) * S + g * h -> Rabs e <= S -> g * (S + h) <= M -> M < bpow radix2 1024 -> overflow z = FNum z).
  { intros z e g h S H1 H2 H3 H4. apply overflow_num. apply Rle_lt_trans with M; [|exact H4].
    replace z with ((z - e) + e) by ring. eapply Rle_trans; [apply Rabs_triang|]. lra. }
  induction t as [|k|a IHa b IHb|a IHa k]; intros HF n S HM HM'.
  - exists 0. cbn. split; [reflexivity|]. split; [apply generic_format_0|]. split; [reflexivity|].
    rewrite Rminus_0_r, Rabs_R0. unfold n. cbn. lra.
  - destruct (rnd_error (x k * y k)) as (d & h & Hd & Hh & E).
    assert (BD : Rabs (rnd (x k * y k) - (x k * y k + 0)) <= ((1 + uround) ^ n - 1) * S + (1 + uround) ^ n * (INR n * tiny)).
    { unfold n, S. cbn [dterms length lsum pow]. change (INR 1) with 1. rewrite E.
      replace (x k * y k * (1 + d) + h - (x k * y k + 0)) with (x k * y k * d + h) by ring.
      eapply Rle_trans; [apply Rabs_triang|]. rewrite Rabs_mult. pose proof (Rabs_pos (x k * y k)). pose proof (Rabs_pos d). nra. }
    exists (rnd (x k * y k)). cbn [fdot fmul dterms lsum]. split.
    + eapply FIN; [exact BD| |exact HM|exact HM']. unfold S. cbn [dterms lsum]. rewrite !Rplus_0_r. lra.
    + split; [apply rnd_format|]. split; [discriminate|exact BD].
  - (* sum *)
    cbn [dterms] in *. set (na := length (dterms a)) in *. set (nb := length (dterms b)) in *.
    assert (Hn : n = (na + nb)%nat) by (unfold n; apply app_length).
    set (Sa := lsum (fun k => Rabs (x k * y k)) (dterms a)) in *. set (Sb := lsum (fun k => Rabs (x k * y k)) (dterms b)) in *.
    assert (HS : S = Sa + Sb) by (unfold S; apply lsum_app).
    assert (Pa : 0 <= Sa) by apply lsum_abs_ge0. assert (Pb : 0 <= Sb) by apply lsum_abs_ge0.
    assert (Ia : 0 <= INR na) by apply pos_INR. assert (Ib : 0 <= INR nb) by apply pos_INR.
    pose proof (pow1u_ge1 na) as Ga. pose proof (pow1u_ge1 nb) as Gb.
    assert (Mul : (1 + uround) ^ n = (1 + uround) ^ na * (1 + uround) ^ nb) by (rewrite Hn; apply pow_add).
    assert (In' : INR n = INR na + INR nb) by (rewrite Hn; apply plus_INR).
    set (ga := (1 + uround) ^ na) in *. set (gb := (1 + uround) ^ nb) in *. rewrite Mul, In', HS in *.
    assert (GM : ga <= ga * gb /\ gb <= ga * gb) by (split; nra).
    destruct (IHa ltac:(intros; apply HF, in_or_app; auto)) as (za & Ea & Fa & Za & Da); [|exact HM'|].
    { eapply Rle_trans; [|exact HM]. apply Rmult_le_compat; try nra. }
    destruct (IHb ltac:(intros; apply HF, in_or_app; auto)) as (zb & Eb & Fb & Zb & Db); [|exact HM'|].
    { eapply Rle_trans; [|exact HM]. apply Rmult_le_compat; try nra. }
    rewrite lsum_app. set (ea := lsum (fun k => x k * y k) (dterms a)) in *. set (eb := lsum (fun k => x k * y k) (dterms b)) in *.
    fold ga Sa in Da. fold gb Sb in Db.
    assert (Aa : Rabs ea <= Sa) by apply lsum_abs_le. assert (Ab : Rabs eb <= Sb) by apply lsum_abs_le.
    assert (BD : Rabs (rnd (za + zb) - (ea + eb)) <= (ga * gb - 1) * (Sa + Sb) + ga * gb * ((INR na + INR nb) * tiny)).
    { destruct (Nat.eq_dec na 0) as [Na|Na].
      - rewrite (Za Na), Rplus_0_l, (rnd_id zb Fb).
        assert (Za0 : ea = 0) by (unfold ea; destruct (dterms a); [reflexivity|discriminate]). rewrite Za0, Rplus_0_l.
        eapply Rle_trans; [exact Db|]. apply Rplus_le_compat; [apply Rmult_le_compat; lra|]. apply Rmult_le_compat; try nra.
      - destruct (Nat.eq_dec nb 0) as [Nb|Nb].
        + rewrite (Zb Nb), Rplus_0_r, (rnd_id za Fa).
          assert (Zb0 : eb = 0) by (unfold eb; destruct (dterms b); [reflexivity|discriminate]). rewrite Zb0, Rplus_0_r.
          eapply Rle_trans; [exact Da|]. apply Rplus_le_compat; [apply Rmult_le_compat; lra|]. apply Rmult_le_compat; try nra.
        + destruct (fadd_error za zb Fa Fb) as (d & Hd & ->).
          assert (G1 : 1 + uround <= ga) by (unfold ga; rewrite <- (pow_1 (1 + uround)) at 1; apply (pow_u_le 1 na); lia).
          assert (G2 : 1 + uround <= gb) by (unfold gb; rewrite <- (pow_1 (1 + uround)) at 1; apply (pow_u_le 1 nb); lia).
          replace ((za + zb) * (1 + d) - (ea + eb)) with (((za - ea) + (zb - eb)) * (1 + d) + (ea + eb) * d) by ring.
          eapply Rle_trans; [apply Rabs_triang|]. rewrite !Rabs_mult.
          assert (D1 : Rabs (1 + d) <= 1 + uround) by (eapply Rle_trans; [apply Rabs_triang|]; rewrite Rabs_R1; lra).
          assert (D2 : Rabs (za - ea + (zb - eb)) <= ((ga - 1) * Sa + ga * (INR na * tiny)) + ((gb - 1) * Sb + gb * (INR nb * tiny)))
            by (eapply Rle_trans; [apply Rabs_triang|]; lra).
          assert (D3 : Rabs (ea + eb) <= Sa + Sb) by (eapply Rle_trans; [apply Rabs_triang|]; lra).
          set (ha := INR na * tiny) in *. set (hb := INR nb * tiny) in *.
          assert (ha0 : 0 <= ha) by (unfold ha; nra). assert (hb0 : 0 <= hb) by (unfold hb; nra).
          replace ((INR na + INR nb) * tiny) with (ha + hb) by (unfold ha, hb; ring).
          apply Rle_trans with (((ga - 1) * Sa + ga * ha + ((gb - 1) * Sb + gb * hb)) * (1 + uround) + (Sa + Sb) * uround).
          { apply Rplus_le_compat; apply Rmult_le_compat; try apply Rabs_pos; assumption. }
          assert (Q1 : ga * (1 + uround) <= ga * gb) by nra. assert (Q2 : gb * (1 + uround) <= ga * gb) by nra.
          replace (((ga - 1) * Sa + ga * ha + ((gb - 1) * Sb + gb * hb)) * (1 + uround) + (Sa + Sb) * uround)
            with ((ga * (1 + uround)) * (Sa + ha) + (gb * (1 + uround)) * (Sb + hb) - (Sa + Sb)) by ring.
          replace ((ga * gb - 1) * (Sa + Sb) + ga * gb * (ha + hb)) with (ga * gb * (Sa + ha) + ga * gb * (Sb + hb) - (Sa + Sb)) by ring.
          apply Rplus_le_compat_r. apply Rplus_le_compat; apply Rmult_le_compat_r; lra. }
    exists (rnd (za + zb)). cbn [fdot]. rewrite Ea, Eb. cbn [fadd]. split; [|split; [apply rnd_format|split; [|exact BD]]].
    + eapply FIN; [exact BD| |exact HM|exact HM']. eapply Rle_trans; [apply Rabs_triang|]. lra.
    + intros Z. rewrite (Za ltac:(lia)), (Zb ltac:(lia)), Rplus_0_l. apply rnd_0.
  - (* fused multiply-add *)
    cbn [dterms] in *. set (na := length (dterms a)) in *.
    assert (Hn : n = (na + 1)%nat) by (unfold n; rewrite app_length; reflexivity).
    set (Sa := lsum (fun k => Rabs (x k * y k)) (dterms a)) in *. set (sk := Rabs (x k * y k)).
    assert (HS : S = Sa + sk) by (unfold S; rewrite lsum_app; cbn; fold sk; fold Sa; lra).
    assert (Pa : 0 <= Sa) by apply lsum_abs_ge0. assert (Pk : 0 <= sk) by apply Rabs_pos.
    assert (Ia : 0 <= INR na) by apply pos_INR. pose proof (pow1u_ge1 na) as Ga.
    assert (Mul : (1 + uround) ^ n = (1 + uround) ^ na * (1 + uround)) by (rewrite Hn, pow_add, pow_1; reflexivity).
    assert (In' : INR n = INR na + 1) by (rewrite Hn, plus_INR; reflexivity).
    set (ga := (1 + uround) ^ na) in *. rewrite Mul, In', HS in *.
    destruct (IHa ltac:(intros; apply HF, in_or_app; auto)) as (za & Ea & Fa & Za & Da); [|exact HM'|].
    { eapply Rle_trans; [|exact HM]. apply Rmult_le_compat; try nra. }
    rewrite lsum_app. cbn [lsum]. rewrite Rplus_0_r. set (ea := lsum (fun k => x k * y k) (dterms a)) in *. set (xk := x k * y k) in *.
    fold ga Sa in Da. assert (Aa : Rabs ea <= Sa) by apply lsum_abs_le.
    destruct (rnd_error (za + xk)) as (d & h & Hd & Hh & E).
    assert (BD : Rabs (rnd (za + xk) - (ea + xk)) <= (ga * (1 + uround) - 1) * (Sa + sk) + ga * (1 + uround) * ((INR na + 1) * tiny)).
    { rewrite E. replace ((za + xk) * (1 + d) + h - (ea + xk)) with ((za - ea) * (1 + d) + (ea + xk) * d + h) by ring.
      eapply Rle_trans; [apply Rabs_triang|]. apply Rle_trans with (Rabs ((za - ea) * (1 + d)) + Rabs ((ea + xk) * d) + Rabs h);
        [apply Rplus_le_compat_r, Rabs_triang|]. rewrite !Rabs_mult.
      assert (D1 : Rabs (1 + d) <= 1 + uround) by (eapply Rle_trans; [apply Rabs_triang|]; rewrite Rabs_R1; lra).
      assert (D3 : Rabs (ea + xk) <= Sa + sk) by (eapply Rle_trans; [apply Rabs_triang|]; unfold sk; fold xk; lra).
      set (ha := INR na * tiny) in *. assert (ha0 : 0 <= ha) by (unfold ha; nra).
      replace ((INR na + 1) * tiny) with (ha + tiny) by (unfold ha; ring).
      apply Rle_trans with (((ga - 1) * Sa + ga * ha) * (1 + uround) + (Sa + sk) * uround + tiny).
      { apply Rplus_le_compat; [|exact Hh]. apply Rplus_le_compat; apply Rmult_le_compat; try apply Rabs_pos; assumption. }
      assert (Q1 : 1 + uround <= ga * (1 + uround)) by nra. set (G := ga * (1 + uround)) in *.
      replace (((ga - 1) * Sa + ga * ha) * (1 + uround)) with (G * (Sa + ha) - (1 + uround) * Sa) by (unfold G; ring).
      assert (Q2 : 0 <= (G - 1 - uround) * sk) by (apply Rmult_le_pos; lra).
      assert (Q3 : 0 <= (G - 1) * tiny) by (apply Rmult_le_pos; lra). lra. }
    exists (rnd (za + xk)). cbn [fdot]. rewrite Ea. cbn [ffma]. fold xk. split; [|split; [apply rnd_format|split; [|exact BD]]].
    + eapply FIN; [exact BD| |exact HM|exact HM']. eapply Rle_trans; [apply Rabs_triang|]. unfold sk. fold xk. lra.
    + intros Z. lia.
Qed.

Lemma tiny_eq : tiny = / 2 ^ 1075.
Proof.
  change (-1074)%Z with (Z.opp 1074). rewrite bpow_opp, <- (IZR_Zpower radix2 1074) by lia.
  replace (IZR (radix2 ^ 1074)) with (2 ^ 1074) by (rewrite pow_IZR; reflexivity).
  change (2 ^ 1075) with (2 * 2 ^ 1074). rewrite Rinv_mult. reflexivity.
Qed.

Lemma uround_small n : (n <= 2 ^ 20)%nat -> INR n * uround <= / 2 ^ 33.
Proof.
  intros H. apply le_INR in H. assert (E : INR (2 ^ 20) = 2 ^ 20) by (rewrite pow_INR; f_equal; cbn; ring). rewrite E in H.
  apply (Rmult_le_compat_r uround) in H; [|left; apply uround_pos]. eapply Rle_trans; [exact H|]. right. unfold uround.
  replace (2 ^ 53) with (2 ^ 20 * 2 ^ 33) by (rewrite <- pow_add; reflexivity). field.
Qed.

Lemma pow1u_le n : INR n * uround <= / 2 -> (1 + uround) ^ n <= 1 + 2 * (INR n * uround).
Proof.
  pose proof uround_pos as U. induction n as [|n IH]; intros H; [cbn; lra|]. rewrite S_INR in *. pose proof (pos_INR n).
  assert (Hn : INR n * uround <= / 2) by nra. specialize (IH Hn). cbn [pow].
  apply Rle_trans with ((1 + uround) * (1 + 2 * (INR n * uround))); [apply Rmult_le_compat_l; lra|]. nra.
Qed.

Lemma sumn_total n f : sumn n f = total f (seq 0 n).
Proof. induction n as [|n IH]; [reflexivity|]. rewrite seq_S, total_lsum, lsum_app, <- total_lsum, <- IH. cbn. ring. Qed.

(** ** C127 *)

(** The utilities: with up to 2^20 parameters and terms that are not astronomically large, the
    computed inner product is a number within 2 K (2^-53 * magnitude + 2^-1075) of the exact
    one, whatever the order of the additions. *)
Theorem C127_computed_utilities_are_accurate :
  forall x y K t,
  Permutation (dterms t) (seq 0 K) -> (K <= 2 ^ 20)%nat ->
  (forall k, (k < K)%nat -> double_format (x k) /\ double_format (y k)) ->
  magnitude x y K <= 2 ^ 1000 ->
  exists z, fdot t (fun k => FNum (x k)) (fun k => FNum (y k)) = FNum z /\ double_format z /\
    Rabs (z - sumn K (fun k => x k * y k)) <= 2 * INR K * (/ 2 ^ 53 * magnitude x y K + / 2 ^ 1075).
Proof.
  intros x y K t HP HK HF HM. fold uround. rewrite <- tiny_eq.
  assert (HL : length (dterms t) = K) by (rewrite (Permutation_length HP); apply seq_length).
  pose proof uround_pos as U. pose proof (pos_INR K) as I0.
  assert (T0 : 0 < tiny) by (pose proof (bpow_gt_0 radix2 (-1074)); lra).
  pose proof (uround_small K HK) as KU.
  assert (P33 : / 2 ^ 33 <= / 2) by (apply Rinv_le_contravar; [lra|]; rewrite <- (pow_1 2) at 1; apply Rle_pow; [lra|lia]).
  pose proof (pow1u_le K ltac:(lra)) as PG. pose proof (pow1u_ge1 K) as P1.
  assert (ES : lsum (fun k => Rabs (x k * y k)) (dterms t) = magnitude x y K) by (unfold magnitude; etransitivity; [apply lsum_perm, HP|symmetry; apply total_lsum]).
  assert (M0 : 0 <= magnitude x y K) by (rewrite <- ES; apply lsum_abs_ge0).
  assert (E1000 : 2 ^ 1000 = bpow radix2 1000).
  { rewrite <- (IZR_Zpower radix2 1000) by lia. rewrite pow_IZR. reflexivity. }
  assert (KT : INR K * tiny <= 1).
  { apply Rle_trans with (INR K * uround); [|lra]. apply Rmult_le_compat_l; [exact I0|]. rewrite <- uround_eq.
    apply Rmult_le_compat_l; [lra|]. apply bpow_le. lia. }
  destruct (fdot_error x y t (2 * (2 ^ 1000 + 1))) as (z & E & F & _ & D).
  - intros k Hk. apply HF. apply (Permutation_in _ HP), in_seq in Hk. lia.
  - rewrite HL, ES. apply Rmult_le_compat; try lra; nra.
  - rewrite E1000. apply Rlt_le_trans with (bpow radix2 1002); [|apply bpow_le; lia].
    change 1002%Z with (2 + 1000)%Z. rewrite bpow_plus. change (bpow radix2 2) with 4.
    assert (1 < bpow radix2 1000) by (apply (bpow_lt radix2 0 1000); lia). lra.
  - exists z. split; [exact E|]. split; [exact F|]. rewrite sumn_total, total_lsum, <- (lsum_perm _ _ _ HP).
    eapply Rle_trans; [exact D|]. rewrite HL, ES.
    apply Rle_trans with (2 * (INR K * uround) * magnitude x y K + 2 * (INR K * tiny)).
    + apply Rplus_le_compat; [apply Rmult_le_compat_r; lra|]. apply Rmult_le_compat_r; [nra|lra].
    + right. ring.
Qed.

Lemma float_prob_ext ex u v t i : (forall k, In k (terms_of t) -> u k = v k) -> u i = v i -> float_prob ex u t i = float_prob ex v t i.
Proof.
  intros H Hi. unfold float_prob. rewrite Hi. do 2 f_equal.
  induction t as [|k|a IHa b IHb]; cbn in *; [reflexivity|rewrite H by auto; reflexivity|].
  rewrite IHa, IHb; [reflexivity| |]; intros; apply H, in_or_app; auto.
Qed.

(** The probabilities of a multinomial logit, computed from design matrix and parameters. *)
Theorem C127_multinomial_logit_probabilities :
  forall ex eps D own beta order t i B,
  accurate_exp ex eps -> 0 <= eps <= / 2 ^ 40 ->
  indicator_of (d_N D) (d_obs D) (d_M D) own -> (i < d_N D)%nat -> (d_K D <= 2 ^ 20)%nat ->
  let rows := filter (fun k => (own k =? own i)%nat) (seq 0 (d_N D)) in
  (length rows <= 4095)%nat -> Permutation (terms_of t) rows ->
  (forall k, In k rows -> Permutation (dterms (order k)) (seq 0 (d_K D)) /\ magnitude (d_X D k) (aget beta) (d_K D) <= B /\
     (forall j, (j < d_K D)%nat -> double_format (d_X D k j) /\ double_format (aget beta j))) ->
  B <= 2 ^ 1000 ->
  let p := long_probs MNL_model D None None beta i in
  let eta := 2 * INR (d_K D) * (/ 2 ^ 53 * B + / 2 ^ 1075) in
  exists x, float_prob ex (float_utility (fun i j => FNum (d_X D i j)) (fun j => FNum (aget beta j)) order) t i = FNum x /\
    Rabs (x - p) <= (exp (2 * eta) * (1 + 2 * (2 * eps + (INR (length rows) + 1) * / 2 ^ 53)) - 1) * p + 2 * / 10 ^ 300.
Proof.
  intros ex eps D own beta order t i B Hex Heps Hown Hi HK rows Hn HP Hrows HB p eta.
  set (u := float_utility _ _ order). set (r := fun k => match u k with FNum z => z | _ => 0 end).
  assert (Ii : In i rows) by (apply filter_In; split; [apply in_seq; lia|apply Nat.eqb_refl]).
  assert (HU : forall k, In k rows -> u k = FNum (r k) /\ Rabs (r k - sys_utilities D beta k) <= eta).
  { intros k Hk. destruct (Hrows k Hk) as (Pk & Mk & Fk).
    destruct (C127_computed_utilities_are_accurate (d_X D k) (aget beta) (d_K D) (order k) Pk HK Fk ltac:(lra)) as (z & E & _ & A).
    unfold r, u, float_utility. rewrite E. split; [reflexivity|]. eapply Rle_trans; [exact A|]. unfold eta.
    apply Rmult_le_compat_l; [pose proof (pos_INR (d_K D)); lra|]. apply Rplus_le_compat_r, Rmult_le_compat_l; [fold uround; pose proof uround_pos; lra|exact Mk]. }
  rewrite (float_prob_ext ex u (fun k => FNum (r k))).
  - apply (C122_computed_probabilities_follow_the_model ex eps MNL_model D own None None beta r eta t i); try assumption.
    intros k Hk. apply (HU k Hk).
  - intros k Hk. apply HU. apply (Permutation_in _ HP Hk).
  - apply HU, Ii.
Qed.

Lemma ln_rel x y d : 0 < y -> 0 <= d <= / 2 -> Rabs (x - y) <= d * y -> Rabs (ln x - ln y) <= 2 * d.
Proof.
  intros Hy Hd H. apply Rabs_le_inv in H. assert (Hx : 0 < x) by nra.
  assert (L : forall a, 0 < a -> ln a <= a - 1).
  { intros a Ha. destruct (Req_dec a 1) as [-> | N]; [rewrite ln_1; lra|].
    pose proof (exp_ineq1 (ln a) ltac:(intros Z; apply N; rewrite <- (exp_ln a Ha), Z; apply exp_0)) as Q. rewrite exp_ln in Q by exact Ha. lra. }
  apply Rabs_le. split.
  - pose proof (L (y / x) ltac:(apply Rdiv_lt_0_compat; lra)) as Q. unfold Rdiv in Q. rewrite ln_mult, ln_Rinv in Q by (try apply Rinv_0_lt_compat; lra).
    assert (y * / x <= 1 + 2 * d); [|lra]. apply (Rmult_le_reg_r x); [exact Hx|]. rewrite Rmult_assoc, Rinv_l by lra. nra.
  - pose proof (L (x / y) ltac:(apply Rdiv_lt_0_compat; lra)) as Q. unfold Rdiv in Q. rewrite ln_mult, ln_Rinv in Q by (try apply Rinv_0_lt_compat; lra).
    assert (x * / y <= 1 + d); [|lra]. apply (Rmult_le_reg_r y); [exact Hy|]. rewrite Rmult_assoc, Rinv_l by lra. lra.
Qed.

Lemma pow_1_minus n : 1 - INR n * uround <= (1 - uround) ^ n.
Proof.
  pose proof uround_pos as U. assert (U1 : uround <= 1) by (unfold uround; rewrite <- Rinv_1; apply Rinv_le_contravar; [lra|apply pow_R1_Rle; lra]).
  induction n as [|n IH]; [cbn; lra|]. rewrite S_INR. cbn [pow]. pose proof (pos_INR n).
  apply Rle_trans with ((1 - uround) * (1 - INR n * uround)); [nra|]. apply Rmult_le_compat_l; lra.
Qed.

(** The log-likelihood of any logit type, given transformed utilities within [eta] of the
    exact ones: without weights and penalty, as long as no chosen row is less likely than
    1e-280. *)
Theorem C127_log_likelihood_follows_the_model :
  forall ex eps lg el m D own shape icpt beta r eta order t (y : nat -> bool),
  accurate_exp ex eps -> 0 <= eps <= / 2 ^ 40 -> accurate_log lg el -> 0 <= el <= / 2 ->
  indicator_of (d_N D) (d_obs D) (d_M D) own -> (d_N D <= 2 ^ 20)%nat -> d_w D = None -> d_ridge D = None ->
  (forall i, (i < d_N D)%nat -> d_y D i = if y i then 1 else 0) ->
  (forall i, (i < d_N D)%nat ->
     let rows := filter (fun k => (own k =? own i)%nat) (seq 0 (d_N D)) in
     Permutation (terms_of (order (own i))) rows /\ (length rows <= 4095)%nat) ->
  Permutation (terms_of t) (seq 0 (d_N D)) ->
  (forall i, (i < d_N D)%nat -> Rabs (r i - m_transform m (d_J D) (d_A D) (sys_utilities D beta) shape icpt i) <= eta) -> 0 <= eta ->
  (forall i, (i < d_N D)%nat -> y i = true -> / 10 ^ 280 <= long_probs m D shape icpt beta i) ->
  let LL := calc_log_likelihood m D shape icpt beta in
  let rho := exp (2 * eta) * (1 + 2 * (2 * eps + 4096 * / 2 ^ 53)) - 1 in
  rho <= / 4 ->
  exists L, float_log_likelihood lg y (fun i => float_prob ex (fun k => FNum (r k)) (order (own i)) i) t = FNum L /\
    Rabs (L - LL) <= (el + 4 * INR (d_N D) * / 2 ^ 53) * Rabs LL + 4 * INR (d_N D) * (rho + 2 * / 10 ^ 20).
Proof.
  intros ex eps lg el m D own shape icpt beta r eta order t y Hex Heps Hlg Hel Hown HN Hw Hr Hy Hobs HP Hu Heta Hp LL rho Hrho.
  set (N := d_N D) in *. set (p := long_probs m D shape icpt beta) in *. fold uround. fold uround in rho.
  set (x := fun i => match float_prob ex (fun k => FNum (r k)) (order (own i)) i with FNum v => v | _ => 0 end).
  assert (U0 := uround_pos).
  assert (Hx : forall i, (i < N)%nat -> float_prob ex (fun k => FNum (r k)) (order (own i)) i = FNum (x i) /\ double_format (x i) /\ 0 < x i <= 1 /\
    Rabs (x i - p i) <= rho * p i + 2 * / 10 ^ 300).
  { intros i Hi. destruct (Hobs i Hi) as (P & Ln).
    set (rows := filter (fun k => (own k =? own i)%nat) (seq 0 N)) in *.
    assert (Ii : In i rows) by (apply filter_In; split; [apply in_seq; lia|apply Nat.eqb_refl]).
    destruct (C122_computed_probabilities_are_numbers_in_the_unit_interval ex eps (fun k => FNum (r k)) rows (order (own i)) i Hex Heps) as (v & E & F & B).
    { split; [exact P|]. split; [exact Ln|discriminate]. }
    { exact Ii. }
    destruct (C122_computed_probabilities_follow_the_model ex eps m D own shape icpt beta r eta (order (own i)) i) as (v' & E' & A); try assumption.
    { intros k Hk. apply Hu. apply filter_In in Hk. destruct Hk as (Hk & _). apply in_seq in Hk. unfold N in *. lia. }
    rewrite E in E'. injection E' as <-. unfold x. rewrite E. split; [reflexivity|]. split; [exact F|]. split; [exact B|].
    eapply Rle_trans; [exact A|]. apply Rplus_le_compat_r. apply Rmult_le_compat_r.
    - left. apply (long_probs_pos m D own Hown). exact Hi.
    - unfold rho. apply Rplus_le_compat_r, Rmult_le_compat_l; [left; apply exp_pos|]. fold uround.
      assert (INR (length rows) <= 4095) by (apply le_INR in Ln; replace 4095 with (INR 4095) by (rewrite INR_IZR_INZ; reflexivity); exact Ln).
      assert ((INR (length rows) + 1) * uround <= 4096 * uround) by (apply Rmult_le_compat_r; lra). change N with (d_N D) in rows. fold rows. lra. }
  assert (rho0 : 0 <= rho).
  { unfold rho. assert (1 <= exp (2 * eta)) by (destruct (Req_dec eta 0) as [-> |]; [rewrite Rmult_0_r, exp_0; lra|pose proof (exp_ineq1 (2 * eta) ltac:(lra)); lra]). nra. }
  assert (ten : 0 < / 10 ^ 20 <= / 100).
  { split; [apply Rinv_0_lt_compat, pow_lt; lra|]. apply Rinv_le_contravar; [lra|]. replace 100 with (10 ^ 2) by (cbn; lra). apply Rle_pow; [lra|lia]. }
  set (rho' := rho + 2 * / 10 ^ 20) in *.
  assert (Hln : forall i, (i < N)%nat -> y i = true -> Rabs (ln (x i) - ln (p i)) <= 2 * rho').
  { intros i Hi Yi. destruct (Hx i Hi) as (_ & _ & B & A). pose proof (Hp i Hi Yi) as P.
    assert (P280 : 0 < / 10 ^ 280) by (apply Rinv_0_lt_compat, pow_lt; lra).
    apply ln_rel; [lra|unfold rho'; lra|]. eapply Rle_trans; [exact A|]. unfold rho'.
    assert (E300 : / 10 ^ 300 = / 10 ^ 20 * / 10 ^ 280) by (rewrite <- Rinv_mult, <- pow_add; reflexivity).
    rewrite E300. assert (/ 10 ^ 20 * / 10 ^ 280 <= / 10 ^ 20 * p i) by (apply Rmult_le_compat_l; lra). lra. }
  assert (N53 : (Z.of_nat N < 2 ^ 53)%Z) by (apply Z.le_lt_trans with (Z.of_nat (2 ^ 20)); [lia|rewrite Nat2Z.inj_pow; reflexivity]).
  destruct (C124_computed_log_likelihood_is_accurate lg el N y x t Hlg Hel N53) as (L & E & L0 & A1 & A2).
  { intros i Hi. destruct (Hx i Hi) as (_ & F & B & _). split; assumption. }
  { exact HP. }
  exists L. split.
  { rewrite <- E. unfold float_log_likelihood.
    assert (G : forall k, In k (terms_of t) -> float_prob ex (fun k => FNum (r k)) (order (own k)) k = FNum (x k)).
    { intros k Hk. apply Hx. apply (Permutation_in _ HP), in_seq in Hk. lia. }
    clear - G. induction t as [|k|a IHa b IHb]; cbn [fsum] in *; [reflexivity|rewrite G by (left; reflexivity); reflexivity|].
    rewrite IHa, IHb; [reflexivity| |]; intros; apply G, in_or_app; auto. }
  fold uround in A1, A2. set (mx := minus_log_sum N y x) in *. set (mp := minus_log_sum N y p).
  assert (ELL : LL = - mp).
  { unfold LL, calc_log_likelihood. rewrite Hr, Hw. unfold mp, minus_log_sum. fold p N. rewrite <- sumn_total, <- sumn_opp. unfold vdot. apply sumn_ext.
    intros i Hi. cbn [eff_weights]. rewrite Hy by exact Hi. destruct (y i); ring. }
  assert (Hp1 : forall i, (i < N)%nat -> 0 < p i <= 1).
  { intros i Hi. split; [apply (long_probs_pos m D own Hown); exact Hi|apply (long_probs_le1 m D own Hown); exact Hi]. }
  assert (neg : forall q, 0 < q <= 1 -> 0 <= - ln q) by (intros q Hq; pose proof (ln_mono q 1 ltac:(lra) ltac:(lra)) as Q; rewrite ln_1 in Q; lra).
  assert (mp0 : 0 <= mp).
  { unfold mp, minus_log_sum. rewrite total_lsum. apply lsum_ge0. intros i Hi. apply in_seq in Hi. destruct (y i); [apply neg, Hp1; lia|lra]. }
  assert (mx0 : 0 <= mx).
  { unfold mx, minus_log_sum. rewrite total_lsum. apply lsum_ge0. intros i Hi. apply in_seq in Hi. destruct (y i); [apply neg, (Hx i); lia|lra]. }
  assert (DM : Rabs (mx - mp) <= INR N * (2 * rho')).
  { unfold mx, mp, minus_log_sum. rewrite <- !sumn_total, <- sumn_minus, <- sumn_const. eapply Rle_trans; [apply sumn_abs_le|]. apply sumn_le.
    intros i Hi. destruct (y i) eqn:Yi; [|rewrite Rminus_0_r, Rabs_R0; unfold rho'; lra].
    replace (- ln (x i) - - ln (p i)) with (- (ln (x i) - ln (p i))) by ring. rewrite Rabs_Ropp. apply Hln; assumption. }
  pose proof (uround_small N HN) as KU.
  assert (P33 : / 2 ^ 33 <= / 16) by (replace 16 with (2 ^ 4) by (cbn; lra); apply Rinv_le_contravar; [apply pow_lt; lra|]; apply Rle_pow; [lra|lia]).
  pose proof (pow1u_le N ltac:(lra)) as PG. pose proof (pow_1_minus N) as PL. pose proof (pos_INR N) as N0.
  set (nu := INR N * uround) in *. assert (nu0 : 0 <= nu) by (unfold nu; nra).
  rewrite ELL, Rabs_Ropp, (Rabs_right mp) by lra. apply Rabs_le_inv in DM.
  replace (4 * INR N * uround) with (4 * nu) by (unfold nu; ring).
  assert (Q1 : - L <= (1 + el + 4 * nu) * mx).
  { eapply Rle_trans; [exact A2|]. apply Rmult_le_compat_r; [exact mx0|].
    apply Rle_trans with ((1 + el) * (1 + 2 * nu)); [apply Rmult_le_compat_l; lra|]. nra. }
  assert (Q2 : (1 - el - 4 * nu) * mx <= - L).
  { eapply Rle_trans; [|exact A1]. apply Rmult_le_compat_r; [exact mx0|].
    apply Rle_trans with ((1 - el) * (1 - nu)); [nra|apply Rmult_le_compat_l; lra]. }
  set (a := el + 4 * nu) in *. assert (a1 : 0 <= a <= 1) by (unfold a; lra).
  assert (W : 0 <= INR N * (2 * rho')) by (apply Rmult_le_pos; [exact N0|unfold rho'; lra]). set (w := INR N * (2 * rho')) in *.
  replace (4 * INR N * rho') with (2 * w) by (unfold w; ring).
  replace (1 + el + 4 * nu) with (1 + a) in Q1 by (unfold a; ring). replace (1 - el - 4 * nu) with (1 - a) in Q2 by (unfold a; ring).
  apply Rabs_le. split; nra.
Qed.

Lemma uround_decimal : uround <= / 9 * / 10 ^ 15.
Proof.
  unfold uround. rewrite <- Rinv_mult. apply Rinv_le_contravar; [apply Rmult_lt_0_compat; [lra|apply pow_lt; lra]|].
  rewrite !pow_IZR, <- mult_IZR. apply IZR_le. vm_compute. discriminate.
Qed.

(** In figures: exponentials and logarithms within one unit in the last place (2^-52), at most
    100 parameters, and utilities whose terms add up to at most 1000 in absolute value. *)
Lemma figures K B eps : (K <= 100)%nat -> 0 <= B <= 1000 -> 0 <= eps <= / 2 ^ 52 ->
  let eta := 2 * INR K * (/ 2 ^ 53 * B + / 2 ^ 1075) in
  0 <= eta /\ exp (2 * eta) * (1 + 2 * (2 * eps + 4096 * / 2 ^ 53)) - 1 <= / 10 ^ 10.
Proof.
  intros HK HB He eta. fold uround in *. pose proof uround_decimal as UD. pose proof uround_pos as U.
  assert (E52 : / 2 ^ 52 = 2 * uround) by (unfold uround; change (2 ^ 53) with (2 * 2 ^ 52); rewrite Rinv_mult; field; apply pow_nonzero; lra).
  rewrite E52 in He. apply le_INR in HK. replace (INR 100) with 100 in HK by (rewrite INR_IZR_INZ; reflexivity). pose proof (pos_INR K) as K0.
  assert (T : 0 <= / 2 ^ 1075 <= uround).
  { rewrite <- tiny_eq. pose proof (bpow_gt_0 radix2 (-1074)). split; [lra|]. rewrite <- uround_eq. apply Rmult_le_compat_l; [lra|]. apply bpow_le. lia. }
  assert (E15 : / 10 ^ 15 = / 100000 * / 10 ^ 10).
  { replace 100000 with (10 ^ 5) by (cbn; lra). rewrite <- Rinv_mult, <- pow_add. reflexivity. }
  assert (T10 : 0 < / 10 ^ 10 <= / 100).
  { split; [apply Rinv_0_lt_compat, pow_lt; lra|]. apply Rinv_le_contravar; [lra|]. replace 100 with (10 ^ 2) by (cbn; lra). apply Rle_pow; [lra|lia]. }
  rewrite E15 in UD. set (q := / 10 ^ 10) in *.
  assert (H1 : 0 <= eta <= 200 * (1001 * uround)).
  { unfold eta. split; [apply Rmult_le_pos; nra|]. apply Rmult_le_compat; try nra. }
  split; [apply H1|].
  assert (H2 : eta <= / 4 * q) by lra.
  assert (X : exp (2 * eta) * (1 - 2 * eta) <= 1).
  { pose proof (exp_pos (2 * eta)) as P. assert (Q : 1 - 2 * eta <= exp (- (2 * eta))).
    { destruct (Req_dec eta 0) as [-> | N]; [rewrite Rmult_0_r, Ropp_0, exp_0; lra|pose proof (exp_ineq1 (- (2 * eta)) ltac:(lra)); lra]. }
    rewrite exp_Ropp in Q. apply (Rmult_le_compat_l (exp (2 * eta))) in Q; [|lra]. rewrite Rinv_r in Q; lra. }
  assert (X2 : exp (2 * eta) <= 1 + 3 / 5 * q).
  { apply (Rmult_le_reg_r (1 - 2 * eta)); [lra|]. nra. }
  pose proof (exp_pos (2 * eta)).
  assert (D : 0 <= 2 * (2 * eps + 4096 * uround) <= / 10 * q) by lra.
  nra.
Qed.

Theorem C127_multinomial_logit_in_figures :
  forall ex eps lg el D own beta uorder order t (y : nat -> bool),
  accurate_exp ex eps -> 0 <= eps <= / 2 ^ 52 -> accurate_log lg el -> 0 <= el <= / 2 ^ 52 ->
  indicator_of (d_N D) (d_obs D) (d_M D) own -> INR (d_N D) <= 10 ^ 6 -> (d_K D <= 100)%nat -> d_w D = None -> d_ridge D = None ->
  (forall i, (i < d_N D)%nat -> d_y D i = if y i then 1 else 0) ->
  (forall i j, (i < d_N D)%nat -> (j < d_K D)%nat -> double_format (d_X D i j) /\ double_format (aget beta j)) ->
  (forall i, (i < d_N D)%nat -> magnitude (d_X D i) (aget beta) (d_K D) <= 1000 /\ Permutation (dterms (uorder i)) (seq 0 (d_K D))) ->
  (forall i, (i < d_N D)%nat ->
     let rows := filter (fun k => (own k =? own i)%nat) (seq 0 (d_N D)) in
     Permutation (terms_of (order (own i))) rows /\ (length rows <= 4095)%nat) ->
  Permutation (terms_of t) (seq 0 (d_N D)) ->
  let u := float_utility (fun i j => FNum (d_X D i j)) (fun j => FNum (aget beta j)) uorder in
  let p := long_probs MNL_model D None None beta in
  let LL := calc_log_likelihood MNL_model D None None beta in
  (forall i, (i < d_N D)%nat ->
     exists x, float_prob ex u (order (own i)) i = FNum x /\ Rabs (x - p i) <= / 10 ^ 10 * p i + 2 * / 10 ^ 300) /\
  ((forall i, (i < d_N D)%nat -> y i = true -> / 10 ^ 280 <= p i) ->
   exists L, float_log_likelihood lg y (fun i => float_prob ex u (order (own i)) i) t = FNum L /\
     Rabs (L - LL) <= / 10 ^ 9 * Rabs LL + / 10 ^ 9 * INR (d_N D)).
Proof.
  intros ex eps lg el D own beta uorder order t y Hex Heps Hlg Hel Hown HN HK Hw Hr Hy HF Hmag Hobs HP u p LL.
  pose proof uround_pos as U.
  assert (E52 : / 2 ^ 52 = 2 * uround) by (unfold uround; change (2 ^ 53) with (2 * 2 ^ 52); rewrite Rinv_mult; field; apply pow_nonzero; lra).
  assert (E40 : / 2 ^ 52 <= / 2 ^ 40) by (apply Rinv_le_contravar; [apply pow_lt; lra|]; apply Rle_pow; [lra|lia]).
  assert (E1 : / 2 ^ 40 <= / 2) by (apply Rinv_le_contravar; [lra|]; rewrite <- (pow_1 2) at 1; apply Rle_pow; [lra|lia]).
  destruct (figures (d_K D) 1000 eps HK ltac:(lra) Heps) as (eta0 & Hrho).
  set (eta := 2 * INR (d_K D) * (/ 2 ^ 53 * 1000 + / 2 ^ 1075)) in *.
  assert (HK20 : (d_K D <= 2 ^ 20)%nat) by (apply Nat.le_trans with 100%nat; [exact HK|apply Nat.le_trans with (2 ^ 7)%nat; [apply Nat.leb_le; reflexivity|apply Nat.pow_le_mono_r; lia]]).
  assert (B1000 : 1000 <= 2 ^ 1000) by (apply Rle_trans with (2 ^ 10); [cbn; lra|apply Rle_pow; [lra|lia]]).
  assert (p0 : forall i, (i < d_N D)%nat -> 0 < p i) by (intros i Hi; apply (long_probs_pos MNL_model D own Hown); exact Hi).
  split.
  - intros i Hi. destruct (Hobs i Hi) as (P & Ln).
    destruct (C127_multinomial_logit_probabilities ex eps D own beta uorder (order (own i)) i 1000) as (x & E & A); try assumption; try lra.
    { intros k Hk. apply filter_In in Hk. destruct Hk as (Hk & _). apply in_seq in Hk. destruct (Hmag k ltac:(lia)).
      split; [assumption|]. split; [assumption|]. intros j Hj. apply HF; [lia|exact Hj]. }
    exists x. split; [exact E|]. eapply Rle_trans; [exact A|]. apply Rplus_le_compat_r. fold eta. apply Rmult_le_compat_r; [left; apply p0, Hi|].
    eapply Rle_trans; [|exact Hrho]. apply Rplus_le_compat_r, Rmult_le_compat_l; [left; apply exp_pos|]. fold uround.
    set (n := length _) in Ln |- *. assert (INR n <= 4095) by (apply le_INR in Ln; replace 4095 with (INR 4095) by (rewrite INR_IZR_INZ; reflexivity); exact Ln).
    assert ((INR n + 1) * uround <= 4096 * uround) by (apply Rmult_le_compat_r; lra). lra.
  - intros Hp. set (r := fun k => match u k with FNum z => z | _ => 0 end).
    assert (HU : forall k, (k < d_N D)%nat -> u k = FNum (r k) /\ Rabs (r k - sys_utilities D beta k) <= eta).
    { intros k Hk. destruct (Hmag k Hk) as (Mk & Pk).
      destruct (C127_computed_utilities_are_accurate (d_X D k) (aget beta) (d_K D) (uorder k) Pk HK20 ltac:(intros; apply HF; assumption) ltac:(lra)) as (z & E & _ & A).
      unfold r, u, float_utility. rewrite E. split; [reflexivity|]. eapply Rle_trans; [exact A|]. unfold eta.
      apply Rmult_le_compat_l; [pose proof (pos_INR (d_K D)); lra|]. apply Rplus_le_compat_r, Rmult_le_compat_l; [fold uround; lra|exact Mk]. }
    assert (HN20 : (d_N D <= 2 ^ 20)%nat).
    { apply INR_le. eapply Rle_trans; [exact HN|]. rewrite pow_INR. replace (INR 2) with 2 by (cbn; ring). rewrite !pow_IZR. apply IZR_le. vm_compute. discriminate. }
    destruct (C127_log_likelihood_follows_the_model ex eps lg el MNL_model D own None None beta r eta order t y) as (L & E & A); try assumption; try lra.
    { intros i Hi. apply HU, Hi. }
    exists L. split.
    + rewrite <- E. unfold float_log_likelihood. apply fsum_ext. intros i Hi.
      apply (Permutation_in _ HP), in_seq in Hi. rewrite (float_prob_ext ex u (fun k => FNum (r k))); [reflexivity| |apply HU; lia].
      intros k Hk. destruct (Hobs i ltac:(lia)) as (P & _). apply (Permutation_in _ P) in Hk. apply filter_In in Hk. destruct Hk as (Hk & _). apply in_seq in Hk. apply HU. lia.
    + fold LL in A. eapply Rle_trans; [exact A|]. fold uround. set (rho := exp (2 * eta) * _ - 1) in *. fold uround in rho. pose proof (pos_INR (d_N D)) as N0. pose proof (Rabs_pos LL) as L0.
      assert (E10 : / 10 ^ 9 = 10 * / 10 ^ 10) by (change (10 ^ 10) with (10 * 10 ^ 9); rewrite Rinv_mult; field).
      assert (E20 : / 10 ^ 20 = / 10 ^ 10 * / 10 ^ 10) by (rewrite <- Rinv_mult, <- pow_add; reflexivity).
      assert (T10 : 0 < / 10 ^ 10 <= / 100).
      { split; [apply Rinv_0_lt_compat, pow_lt; lra|]. apply Rinv_le_contravar; [lra|]. replace 100 with (10 ^ 2) by (cbn; lra). apply Rle_pow; [lra|lia]. }
      pose proof uround_decimal as UD. assert (E15 : / 10 ^ 15 = / 100000 * / 10 ^ 10).
      { replace 100000 with (10 ^ 5) by (cbn; lra). rewrite <- Rinv_mult, <- pow_add. reflexivity. }
      assert (N6 : INR (d_N D) <= 1000000) by (replace 1000000 with (10 ^ 6) by (cbn; lra); exact HN).
      rewrite E10, E20. rewrite E15 in UD. rewrite E52 in Hel. set (q := / 10 ^ 10) in *.
      apply Rplus_le_compat.
      * apply Rmult_le_compat_r; [exact L0|]. assert (INR (d_N D) * uround <= 1000000 * uround) by (apply Rmult_le_compat_r; lra). lra.
      * assert (rho + 2 * (q * q) <= 2 * q) by nra. replace (10 * q * INR (d_N D)) with (INR (d_N D) * (10 * q)) by ring.
        replace (4 * INR (d_N D) * (rho + 2 * (q * q))) with (INR (d_N D) * (4 * (rho + 2 * (q * q)))) by ring. apply Rmult_le_compat_l; lra.
Qed.

(** ** Non-vacuity: four rows, two observations, two parameters, utilities 0, -1, -2, -3 *)

Definition four_rows : Data :=
  mkData 4 2 2 2 (fun i _ => INR i) (fun i o => if (i / 2 =? o)%nat then 1 else 0) (fun i j => if (i mod 2 =? j)%nat then 1 else 0)
    (fun i => if Nat.even i then 1 else 0) None None.

Lemma small_integer z : (Z.abs z < 2 ^ 53)%Z -> double_format (IZR z).
Proof.
  intros Hz. apply generic_format_FLT. exists (Float radix2 z 0); [unfold F2R; cbn; ring|exact Hz|cbn; lia].
Qed.

Example C127_four_rows :
  let ex := fun x => rnd (exp x) in let lg := fun x => rnd (ln x) in
  let beta := mkArr 2 (fun j => if (j =? 0)%nat then 1 else -2) in
  let u := float_utility (fun i j => FNum (d_X four_rows i j)) (fun j => FNum (aget beta j)) (fun i => if Nat.even i then DFma (DTerm 0) 1 else DPlus (DTerm 1) (DTerm 0)) in
  let order := fun o : nat => match o with 0%nat => SPlus (STerm 0) (STerm 1) | _ => SPlus (STerm 3) (STerm 2) end in
  let LL := calc_log_likelihood MNL_model four_rows None None beta in
  exists L, float_log_likelihood lg Nat.even (fun i => float_prob ex u (order (i / 2)%nat) i)
    (SPlus (STerm 0) (SPlus (STerm 1) (SPlus (STerm 2) (STerm 3)))) = FNum L /\
    Rabs (L - LL) <= / 10 ^ 9 * Rabs LL + / 10 ^ 9 * 4.
Proof.
  intros ex lg beta u order LL.
  assert (C4 : forall i, (i < 4)%nat -> (i = 0 \/ i = 1 \/ i = 2 \/ i = 3)%nat) by (intros; lia).
  assert (C2 : forall j, (j < 2)%nat -> (j = 0 \/ j = 1)%nat) by (intros; lia).
  assert (U : 0 <= / 2 ^ 53 <= / 2 ^ 52).
  { split; [left; apply Rinv_0_lt_compat, pow_lt; lra|]. apply Rinv_le_contravar; [apply pow_lt; lra|]. apply Rle_pow; [lra|lia]. }
  assert (Hown : indicator_of (d_N four_rows) (d_obs four_rows) (d_M four_rows) (fun i => (i / 2)%nat)).
  { intros i Hi. split; [|intros; reflexivity]. cbn in Hi |- *. destruct (C4 i Hi) as [-> |[-> |[-> | ->]]]; cbn; lia. }
  replace 4 with (INR (d_N four_rows)) by (cbn; ring).
  refine (proj2 (C127_multinomial_logit_in_figures ex (/ 2 ^ 53) lg (/ 2 ^ 53) four_rows (fun i => (i / 2)%nat) beta _ order _ Nat.even _ U _ U Hown _ _ eq_refl eq_refl _ _ _ _ _) _).
  - apply C122_correctly_rounded_exp.
  - apply C124_correctly_rounded_log.
  - cbn. lra.
  - cbn. lia.
  - intros i Hi. reflexivity.
  - intros i j Hi Hj. cbn in Hi, Hj |- *. split; [rewrite INR_IZR_INZ; apply small_integer; lia|].
    destruct (C2 j Hj) as [-> | ->]; cbn; apply small_integer; reflexivity.
  - intros i Hi. cbn in Hi. destruct (C4 i Hi) as [-> |[-> |[-> | ->]]]; (split; [unfold magnitude; cbn; rewrite !Rabs_mult; unfold Rabs; repeat destruct (Rcase_abs _); lra|]); cbn; try apply Permutation_refl; apply perm_swap.
  - intros i Hi. cbn in Hi. destruct (C4 i Hi) as [-> |[-> |[-> | ->]]]; (split; [|cbn; lia]); cbn; try apply Permutation_refl; apply perm_swap.
  - cbn. apply Permutation_refl.
  - intros i Hi Yi. apply Rle_trans with (/ 2).
    + apply Rinv_le_contravar; [lra|]. apply Rle_trans with (10 ^ 1); [lra|]. apply Rle_pow; [lra|lia].
    + assert (V : forall k, long_exponentials MNL_model four_rows None None beta k = exp (clip_exponent (- INR k))).
      { intros k. unfold long_exponentials. cbn [m_transform MNL_model]. unfold mnl_transform. do 2 f_equal. unfold sys_utilities, mvec. cbn. ring. }
      rewrite (long_probs_eq MNL_model four_rows _ Hown) by exact Hi. cbn in Hi.
      assert (M : forall k, (k < 4)%nat -> exp (clip_exponent (- INR (S k))) <= exp (clip_exponent (- INR k)) /\ 0 < exp (clip_exponent (- INR (S k)))).
      { intros k Hk. split; [|apply exp_pos]. rewrite S_INR. pose proof (pos_INR k). assert (INR k <= 4) by (replace 4 with (INR 4) by (cbn; ring); apply le_INR; lia).
        unfold clip_exponent, min_exponent_val, max_exponent_val. repeat destruct (Rlt_dec _ _); try lra. left. apply exp_increasing. lra. }
      assert (H2 : forall a b, 0 < b <= a -> / 2 <= a / (a + b)).
      { intros a b Hab. apply (Rmult_le_reg_r (a + b)); [lra|]. unfold Rdiv. rewrite Rmult_assoc, Rinv_l by lra. lra. }
      unfold osum. cbn [d_N four_rows sumn].
      destruct (C4 i Hi) as [-> |[-> |[-> | ->]]]; try discriminate Yi; cbn [Nat.div Nat.divmod fst Nat.eqb Nat.sub]; rewrite ?Rplus_0_l, ?Rplus_0_r.
      * rewrite !V. apply H2. destruct (M 0%nat ltac:(lia)). split; assumption.
      * rewrite !V. apply H2. destruct (M 2%nat ltac:(lia)). split; assumption.
Qed.

Print Assumptions C127_computed_utilities_are_accurate.
Print Assumptions C127_multinomial_logit_probabilities.
Print Assumptions C127_log_likelihood_follows_the_model.
Print Assumptions C127_multinomial_logit_in_figures.
