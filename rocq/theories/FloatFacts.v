(** Facts about the double precision layer of Floats.v. *)
From Coq Require Import ZArith Reals Lra Lia List Permutation.
From Flocq Require Import Core.
From Flocq Require Import Relative Plus_error.
From Verif Require Import Res Vec Arr ChoiceCalcs Floats.
Import ListNotations.
Open Scope R_scope.

(** ** Rounding *)

#[local] Instance prec_53 : Prec_gt_0 53.
Proof. unfold Prec_gt_0. lia. Qed.

Lemma rnd_le x y : x <= y -> rnd x <= rnd y.
Proof. apply round_le; typeclasses eauto. Qed.
Lemma rnd_id x : double_format x -> rnd x = x.
Proof. apply round_generic. typeclasses eauto. Qed.
Lemma rnd_format x : double_format (rnd x).
Proof. apply generic_format_round; typeclasses eauto. Qed.
Lemma rnd_0 : rnd 0 = 0.
Proof. apply round_0. typeclasses eauto. Qed.
Lemma rnd_1 : rnd 1 = 1.
Proof. apply rnd_id. apply (generic_format_bpow radix2 _ 0). cbn. lia. Qed.

Lemma format_scaled (k : nat) (e : Z) : (Z.of_nat k < 2 ^ 53)%Z -> (-1074 <= e)%Z -> double_format (INR k * bpow radix2 e).
Proof.
  intros Hk He. apply generic_format_FLT. exists (Float radix2 (Z.of_nat k) e).
  - unfold F2R. cbn [Fnum Fexp]. rewrite <- INR_IZR_INZ. reflexivity.
  - cbn [Fnum]. rewrite Z.abs_eq by lia. exact Hk.
  - exact He.
Qed.

Definition uround : R := / 2 ^ 53.
Lemma uround_pos : 0 < uround.
Proof. apply Rinv_0_lt_compat. apply pow_lt. lra. Qed.
Lemma uround_eq : / 2 * bpow radix2 (- (53) + 1) = uround.
Proof.
  unfold uround. replace (bpow radix2 (- (53) + 1)) with (/ 2 ^ 52).
  - change (2 ^ 53) with (2 * 2 ^ 52). rewrite Rinv_mult; reflexivity.
  - change (- (53) + 1)%Z with (Z.opp 52). rewrite (bpow_opp radix2 52), <- (IZR_Zpower radix2 52) by lia.
    change 2 with (IZR 2). rewrite pow_IZR. reflexivity.
Qed.

(** Every rounding: a relative error, or (near zero) an absolute one. *)
Lemma rnd_error x : exists d h, Rabs d <= uround /\ Rabs h <= / 2 * bpow radix2 (-1074) /\ rnd x = x * (1 + d) + h.
Proof.
  destruct (error_N_FLT radix2 (-1074) 53 ltac:(lia) (fun n => negb (Z.even n)) x) as (d & h & H1 & H2 & _ & H3).
  exists d, h. rewrite <- uround_eq. auto.
Qed.

(** Only a relative one for numbers of ordinary size. *)
Lemma rnd_relative x : bpow radix2 (-1022) <= x -> (1 - uround) * x <= rnd x <= (1 + uround) * x.
Proof.
  intros H. assert (P : 0 < x) by (eapply Rlt_le_trans; [apply bpow_gt_0|exact H]).
  pose proof (relative_error_N_FLT radix2 (-1074) 53 ltac:(lia) (fun n => negb (Z.even n)) x) as E.
  rewrite uround_eq in E. rewrite Rabs_right in E by lra. specialize (E H). fold (rnd x) in E.
  change (round radix2 (FLT_exp (-1074) 53) (Znearest (fun n => negb (Z.even n))) x) with (rnd x) in E.
  apply Rabs_le_inv in E. lra.
Qed.

Lemma overflow_num x : Rabs x < bpow radix2 1024 -> overflow x = FNum x.
Proof. intros H. unfold overflow. destruct (Rle_dec _ _); [lra|reflexivity]. Qed.

(** ** Sums of positive terms *)

Fixpoint lsum (f : nat -> R) (l : list nat) : R := match l with [] => 0 | i :: l' => f i + lsum f l' end.
Lemma lsum_app f l l' : lsum f (l ++ l') = lsum f l + lsum f l'.
Proof. induction l as [|i l IH]; cbn; [ring|]. rewrite IH. ring. Qed.
Lemma lsum_perm f l l' : Permutation l l' -> lsum f l = lsum f l'.
Proof. intros H. induction H; cbn in *; lra. Qed.
Lemma lsum_ge0 f l : (forall i, In i l -> 0 <= f i) -> 0 <= lsum f l.
Proof.
  intros H. induction l as [|i l IH]; cbn; [lra|].
  pose proof (H i (or_introl eq_refl)). assert (0 <= lsum f l) by (apply IH; intros; apply H; right; assumption). lra.
Qed.
Lemma lsum_term f l i : (forall i, In i l -> 0 <= f i) -> In i l -> f i <= lsum f l.
Proof.
  intros H Hi. induction l as [|k l IH]; [contradiction|]. cbn.
  assert (0 <= lsum f l) by (apply lsum_ge0; intros; apply H; right; assumption).
  pose proof (H k (or_introl eq_refl)).
  destruct Hi as [->|Hi]; [lra|]. assert (f i <= lsum f l) by (apply IH; [intros; apply H; right; assumption|exact Hi]). lra.
Qed.
Lemma lsum_le f g l : (forall i, In i l -> f i <= g i) -> lsum f l <= lsum g l.
Proof.
  intros H. induction l as [|i l IH]; cbn; [lra|].
  pose proof (H i (or_introl eq_refl)). assert (lsum f l <= lsum g l) by (apply IH; intros; apply H; right; assumption). lra.
Qed.
Lemma lsum_scal c f l : lsum (fun i => c * f i) l = c * lsum f l.
Proof. induction l as [|i l IH]; cbn; [ring|]. rewrite IH. ring. Qed.

Lemma pow_u_le n m : (n <= m)%nat -> (1 - uround) ^ m <= (1 - uround) ^ n /\ (1 + uround) ^ n <= (1 + uround) ^ m.
Proof.
  intros H. pose proof uround_pos.
  assert (uround <= 1) by (unfold uround; rewrite <- Rinv_1; apply Rinv_le_contravar; [lra|apply pow_R1_Rle; lra]).
  replace m with (n + (m - n))%nat by lia. rewrite !pow_add. split.
  - rewrite <- (Rmult_1_r ((1 - uround) ^ n)) at 2. apply Rmult_le_compat_l; [apply pow_le; lra|].
    eapply Rle_trans; [apply (pow_incr _ 1); lra|rewrite pow1; lra].
  - rewrite <- (Rmult_1_r ((1 + uround) ^ n)) at 1. apply Rmult_le_compat_l; [apply pow_le; lra|].
    apply pow_R1_Rle. lra.
Qed.

(** In whatever order positive doubles below 2^B are added, fewer than 2^(1024 - B) of them
    do not overflow, and the relative error is at most that of n roundings. *)
Lemma fsum_positive (B : Z) (t : sum_order) (f : nat -> fl) (x : nat -> R) :
  (-1022 <= - B)%Z -> (B <= 1024)%Z -> (Z.of_nat (length (terms_of t)) < 2 ^ (1024 - B))%Z -> (1024 - B <= 53)%Z ->
  (forall i, In i (terms_of t) -> f i = FNum (x i) /\ double_format (x i) /\ bpow radix2 (- B) <= x i <= bpow radix2 B) ->
  let n := length (terms_of t) in
  let S := lsum x (terms_of t) in
  exists s, fsum t f = FNum s /\ double_format s /\ s <= INR n * bpow radix2 B /\
    (1 - uround) ^ n * S <= s <= (1 + uround) ^ n * S /\
    (forall i, In i (terms_of t) -> x i <= s) /\ (n = 0%nat -> s = 0).
Proof.
  intros HB1 HB2 Hn HB3 Hx. pose proof uround_pos as U0.
  assert (U1 : uround <= / 2).
  { unfold uround. apply Rinv_le_contravar; [lra|]. change (2 ^ 53) with (2 * 2 ^ 52).
    pose proof (pow_R1_Rle 2 52 ltac:(lra)). lra. }
  induction t as [|i|a IHa b IHb]; intros n S; cbn [terms_of fsum length lsum] in *.
  - exists 0. unfold n, S. cbn [INR length pow lsum].
    split; [reflexivity|]. split; [apply generic_format_0|]. split; [lra|]. split; [lra|]. split; [intros i []|reflexivity].
  - destruct (Hx i (or_introl eq_refl)) as (E & F & P). exists (x i). unfold n, S. cbn [INR length pow lsum].
    assert (0 < x i) by (eapply Rlt_le_trans; [apply bpow_gt_0|apply P]).
    split; [exact E|]. split; [exact F|]. split; [lra|]. split; [rewrite !Rmult_1_r, Rplus_0_r; nra|]. split; [intros k [<-|[]]; lra|discriminate].
  - rewrite app_length in Hn.
    destruct IHa as (s1 & E1 & F1 & B1 & R1 & T1 & Z1); [lia|intros; apply Hx; apply in_or_app; auto|].
    destruct IHb as (s2 & E2 & F2 & B2 & R2 & T2 & Z2); [lia|intros; apply Hx; apply in_or_app; auto|].
    set (n1 := length (terms_of a)) in *. set (n2 := length (terms_of b)) in *.
    set (S1 := lsum x (terms_of a)) in *. set (S2 := lsum x (terms_of b)) in *.
    assert (En : n = (n1 + n2)%nat) by (unfold n; apply app_length).
    assert (ES : S = S1 + S2) by (unfold S; apply lsum_app).
    assert (X0 : forall i, In i (terms_of a ++ terms_of b) -> 0 <= x i).
    { intros i Hi. left. eapply Rlt_le_trans; [apply bpow_gt_0|apply (Hx i Hi)]. }
    assert (P1 : 0 <= S1) by (apply lsum_ge0; intros; apply X0; apply in_or_app; auto).
    assert (P2 : 0 <= S2) by (apply lsum_ge0; intros; apply X0; apply in_or_app; auto).
    assert (Q1 : 0 <= s1) by (eapply Rle_trans; [|apply R1]; apply Rmult_le_pos; [apply pow_le; lra|exact P1]).
    assert (Q2 : 0 <= s2) by (eapply Rle_trans; [|apply R2]; apply Rmult_le_pos; [apply pow_le; lra|exact P2]).
    set (s := rnd (s1 + s2)).
    assert (HBn : s <= INR n * bpow radix2 B).
    { unfold s. rewrite <- (rnd_id (INR n * bpow radix2 B)).
      - apply rnd_le. rewrite En, plus_INR. lra.
      - apply format_scaled; [|lia]. rewrite En. eapply Z.lt_le_trans; [exact Hn|]. apply Z.pow_le_mono_r; lia. }
    assert (Hge : forall z, double_format z -> z <= s1 + s2 -> z <= s).
    { intros z Fz Hz. rewrite <- (rnd_id z Fz). apply rnd_le. exact Hz. }
    assert (Hs0 : 0 <= s) by (apply Hge; [apply generic_format_0|lra]).
    assert (Hlt : s < bpow radix2 1024).
    { eapply Rle_lt_trans; [exact HBn|]. replace 1024%Z with ((1024 - B) + B)%Z by ring. rewrite bpow_plus.
      apply Rmult_lt_compat_r; [apply bpow_gt_0|]. rewrite INR_IZR_INZ, <- IZR_Zpower by lia. apply IZR_lt. rewrite En. exact Hn. }
    exists s. split; [rewrite E1, E2; cbn [fadd]; apply overflow_num; rewrite Rabs_right by lra; exact Hlt|].
    split; [apply rnd_format|]. split; [exact HBn|].
    assert (XI : forall i, In i (terms_of a ++ terms_of b) -> x i <= s1 + s2).
    { intros i Hi. apply in_app_or in Hi. destruct Hi as [Hi|Hi]; [specialize (T1 i Hi)|specialize (T2 i Hi)]; lra. }
    split; [|split].
    + destruct (Nat.eq_dec n1 0) as [N1|N1]; [|destruct (Nat.eq_dec n2 0) as [N2|N2]].
      * assert (terms_of a = []) as Ta by (destruct (terms_of a); [reflexivity|discriminate N1]).
        assert (S1 = 0) by (unfold S1; rewrite Ta; reflexivity).
        assert (Es : s = s2) by (unfold s; rewrite (Z1 N1), Rplus_0_l; apply rnd_id; exact F2).
        rewrite Es, En, N1, ES, H, Rplus_0_l. exact R2.
      * assert (terms_of b = []) as Tb by (destruct (terms_of b); [reflexivity|discriminate N2]).
        assert (S2 = 0) by (unfold S2; rewrite Tb; reflexivity).
        assert (Es : s = s1) by (unfold s; rewrite (Z2 N2), Rplus_0_r; apply rnd_id; exact F1).
        rewrite Es, En, N2, ES, H, Rplus_0_r, Nat.add_0_r. exact R1.
      * assert (BIG : bpow radix2 (-1022) <= s1 + s2).
        { assert (exists i, In i (terms_of a)) as (i & Hi) by (destruct (terms_of a) as [|i l]; [exfalso; apply N1; reflexivity|exists i; left; reflexivity]).
          assert (Hi' : In i (terms_of a ++ terms_of b)) by (apply in_or_app; auto).
          eapply Rle_trans; [|apply (XI i Hi')]. eapply Rle_trans; [|apply (Hx i Hi')]. apply bpow_le. lia. }
        pose proof (rnd_relative _ BIG) as (RL & RU). fold s in RL, RU.
        destruct (pow_u_le n1 (n - 1) ltac:(lia)) as (A1 & A2). destruct (pow_u_le n2 (n - 1) ltac:(lia)) as (A3 & A4).
        assert (L : (1 - uround) ^ (n - 1) * S <= s1 + s2).
        { rewrite ES, Rmult_plus_distr_l. apply Rplus_le_compat; (eapply Rle_trans; [|apply R1 || apply R2]; apply Rmult_le_compat_r; assumption). }
        assert (V : s1 + s2 <= (1 + uround) ^ (n - 1) * S).
        { rewrite ES, Rmult_plus_distr_l. apply Rplus_le_compat; (eapply Rle_trans; [apply R1 || apply R2|]; apply Rmult_le_compat_r; assumption). }
        replace n with (Datatypes.S (n - 1)) by lia. cbn [pow]. rewrite !Rmult_assoc. split.
        -- eapply Rle_trans; [|exact RL]. apply Rmult_le_compat_l; [lra|exact L].
        -- eapply Rle_trans; [exact RU|]. apply Rmult_le_compat_l; [lra|exact V].
    + intros i Hi. apply Hge; [apply (Hx i Hi)|apply XI; exact Hi].
    + intros N0. rewrite En in N0. unfold s. rewrite Z1, Z2, Rplus_0_r by lia. apply rnd_0.
Qed.

(** Infinitely large: at least 2^(1024 - L) terms of at least 2^L overflow in any order. *)
Lemma fsum_overflows (L : Z) (t : sum_order) (f : nat -> fl) (x : nat -> R) :
  (0 <= L <= 1024)%Z -> (Z.of_nat (length (terms_of t)) < 2 ^ 53)%Z ->
  (forall i, In i (terms_of t) -> f i = FNum (x i) /\ bpow radix2 L <= x i < bpow radix2 1024) ->
  fsum t f = FInf false \/
  exists s, fsum t f = FNum s /\ INR (length (terms_of t)) * bpow radix2 L <= s < bpow radix2 1024.
Proof.
  intros HL Hn Hx. induction t as [|i|a IHa b IHb]; cbn [terms_of fsum length] in *.
  - right. exists 0. split; [reflexivity|]. cbn [INR]. pose proof (bpow_gt_0 radix2 1024). lra.
  - destruct (Hx i (or_introl eq_refl)) as (E & P). right. exists (x i). cbn [INR]. rewrite Rmult_1_l. auto.
  - rewrite app_length in *. specialize (IHa ltac:(lia) ltac:(intros; apply Hx; apply in_or_app; auto)).
    specialize (IHb ltac:(lia) ltac:(intros; apply Hx; apply in_or_app; auto)).
    destruct IHa as [->|(s1 & -> & P1)]; destruct IHb as [->|(s2 & -> & P2)]; try (left; reflexivity).
    cbn [fadd]. set (s := rnd (s1 + s2)).
    assert (G : INR (length (terms_of a) + length (terms_of b)) * bpow radix2 L <= s).
    { unfold s. rewrite <- (rnd_id (INR (length (terms_of a) + length (terms_of b)) * bpow radix2 L)).
      - apply rnd_le. rewrite plus_INR. lra.
      - apply format_scaled; lia. }
    pose proof (pos_INR (length (terms_of a) + length (terms_of b))). pose proof (bpow_gt_0 radix2 L).
    assert (0 <= s) by nra. unfold overflow. rewrite Rabs_right by lra.
    destruct (Rle_dec _ _); [left; destruct (Rlt_dec s 0); [lra|reflexivity]|].
    right. exists s. split; [reflexivity|]. lra.
Qed.

(** ** The exponential *)

Lemma exp_INR n : exp (INR n) = exp 1 ^ n.
Proof. induction n as [|n IH]; [cbn; apply exp_0|]. rewrite S_INR, exp_plus, IH. cbn [pow]. ring. Qed.

(** Taylor bounds *)
Lemma mvt_nonneg f f' x : 0 <= x -> f 0 = 0 -> (forall c, derivable_pt_lim f c (f' c)) -> (forall c, 0 <= c -> 0 <= f' c) -> 0 <= f x.
Proof.
  intros Hx H0 D P. destruct (Req_EM_T x 0) as [-> |Hn]; [lra|].
  destruct (MVT_cor2 f f' 0 x ltac:(lra) (fun c _ => D c)) as (c & E & Hc).
  assert (0 <= f' c * (x - 0)) by (apply Rmult_le_pos; [apply P; lra|lra]). lra.
Qed.
Lemma exp_der k c : derivable_pt_lim (fun y => exp (k * y)) c (k * exp (k * c)).
Proof.
  replace (k * exp (k * c)) with (exp (k * c) * (k * 1)) by ring.
  apply (derivable_pt_lim_comp (fun y => k * y) exp); [apply (derivable_pt_lim_scal id k c 1); apply derivable_pt_lim_id|apply derivable_pt_lim_exp].
Qed.
(** the cubic [1 + k y + (k y)^2/2 + (k y)^3/6] and its derivative, in Horner form *)
Lemma poly_der a0 a1 a2 a3 c : derivable_pt_lim (fun y => a0 + y * (a1 + y * (a2 + y * a3))) c (a1 + c * (2 * a2 + c * (3 * a3))).
Proof.
  replace (a1 + c * (2 * a2 + c * (3 * a3))) with (0 + (1 * (a1 + c * (a2 + c * a3)) + c * (0 + (1 * (a2 + c * a3) + c * (0 + (1 * a3 + c * 0)))))) by ring.
  apply (derivable_pt_lim_plus (fun _ => a0)); [apply derivable_pt_lim_const|].
  apply (derivable_pt_lim_mult id (fun y => a1 + y * (a2 + y * a3))); [apply derivable_pt_lim_id|].
  apply (derivable_pt_lim_plus (fun _ => a1)); [apply derivable_pt_lim_const|].
  apply (derivable_pt_lim_mult id (fun y => a2 + y * a3)); [apply derivable_pt_lim_id|].
  apply (derivable_pt_lim_plus (fun _ => a2)); [apply derivable_pt_lim_const|].
  apply (derivable_pt_lim_mult id (fun _ => a3)); [apply derivable_pt_lim_id|apply derivable_pt_lim_const].
Qed.
Lemma exp_ge_linear x : 1 + x <= exp x.
Proof. destruct (Req_EM_T x 0) as [-> |H]; [rewrite exp_0; lra|left; apply exp_ineq1; exact H]. Qed.
Lemma exp_cubic x : 0 <= x -> 1 + x * (1 + x * (/ 2 + x * / 6)) <= exp x.
Proof.
  intros Hx.
  assert (Q : forall c, 0 <= c -> 0 <= exp (1 * c) - (1 + c * (1 + c * (/ 2 + c * 0)))).
  { intros c Hc. apply (mvt_nonneg (fun c => exp (1 * c) - (1 + c * (1 + c * (/ 2 + c * 0)))) (fun c => 1 * exp (1 * c) - (1 + c * (2 * / 2 + c * (3 * 0))))); [exact Hc|cbv beta; rewrite (Rmult_0_r 1), exp_0; ring| |].
    - intros d. apply derivable_pt_lim_minus; [apply exp_der|apply poly_der].
    - intros d _. pose proof (exp_ge_linear (1 * d)). lra. }
  assert (G : 0 <= exp (1 * x) - (1 + x * (1 + x * (/ 2 + x * / 6)))).
  { apply (mvt_nonneg (fun c => exp (1 * c) - (1 + c * (1 + c * (/ 2 + c * / 6)))) (fun c => 1 * exp (1 * c) - (1 + c * (2 * / 2 + c * (3 * / 6))))); [exact Hx|cbv beta; rewrite (Rmult_0_r 1), exp_0; ring| |].
    - intros d. apply derivable_pt_lim_minus; [apply exp_der|apply poly_der].
    - intros d Hd. specialize (Q d Hd). lra. }
  rewrite Rmult_1_l in G. lra.
Qed.
Lemma exp_cubic_neg x : 0 <= x -> 1 + x * (-1 + x * (/ 2 + x * - / 6)) <= exp (- x).
Proof.
  intros Hx.
  assert (Q : forall c, 0 <= c -> 0 <= (1 + c * (-1 + c * (/ 2 + c * 0))) - exp (-1 * c)).
  { intros c Hc. apply (mvt_nonneg (fun c => (1 + c * (-1 + c * (/ 2 + c * 0))) - exp (-1 * c)) (fun c => (-1 + c * (2 * / 2 + c * (3 * 0))) - -1 * exp (-1 * c))); [exact Hc|cbv beta; rewrite (Rmult_0_r (-1)), exp_0; ring| |].
    - intros d. apply derivable_pt_lim_minus; [apply poly_der|apply exp_der].
    - intros d _. pose proof (exp_ge_linear (-1 * d)). lra. }
  assert (G : 0 <= exp (-1 * x) - (1 + x * (-1 + x * (/ 2 + x * - / 6)))).
  { apply (mvt_nonneg (fun c => exp (-1 * c) - (1 + c * (-1 + c * (/ 2 + c * - / 6)))) (fun c => -1 * exp (-1 * c) - (-1 + c * (2 * / 2 + c * (3 * - / 6))))); [exact Hx|cbv beta; rewrite (Rmult_0_r (-1)), exp_0; ring| |].
    - intros d. apply derivable_pt_lim_minus; [apply exp_der|apply poly_der].
    - intros d Hd. specialize (Q d Hd). lra. }
  replace (- x) with (-1 * x) by ring. lra.
Qed.

Lemma exp_double x a b : 0 <= a -> b <= a * a -> a <= exp x -> b <= exp (2 * x).
Proof. intros H0 H1 H2. replace (2 * x) with (x + x) by ring. rewrite exp_plus. eapply Rle_trans; [exact H1|]. apply Rmult_le_compat; lra. Qed.

(** bounds for e: sixteenth root, then squares *)
Lemma exp_1_sharp : 27181 / 10000 <= exp 1 <= 27184 / 10000.
Proof.
  split.
  - pose proof (exp_cubic (/ 16) ltac:(lra)) as H'.
    assert (K0 : 10644938 / 10000000 <= exp (/ 16)) by lra.
    apply (exp_double _ _ (11331470 / 10000000)) in K0; [|lra|lra]. apply (exp_double _ _ (12840221 / 10000000)) in K0; [|lra|lra].
    apply (exp_double _ _ (16487127 / 10000000)) in K0; [|lra|lra]. apply (exp_double _ _ (27181 / 10000)) in K0; [|lra|lra].
    replace (2 * (2 * (2 * (2 * / 16)))) with 1 in K0 by field. exact K0.
  - pose proof (exp_cubic_neg (/ 16) ltac:(lra)) as H.
    assert (K0 : 9394124 / 10000000 <= exp (- / 16)) by lra.
    apply (exp_double _ _ (8824956 / 10000000)) in K0; [|lra|lra]. apply (exp_double _ _ (7787984 / 10000000)) in K0; [|lra|lra].
    apply (exp_double _ _ (6065269 / 10000000)) in K0; [|lra|lra]. apply (exp_double _ _ (3678748 / 10000000)) in K0; [|lra|lra].
    replace (2 * (2 * (2 * (2 * - / 16)))) with (- (1)) in K0 by field. rewrite exp_Ropp in K0. pose proof (exp_pos 1) as P.
    apply (Rmult_le_compat_r (exp 1)) in K0; [|lra]. rewrite Rinv_l in K0 by lra. lra.
Qed.
Lemma exp_1_bounds : 271 / 100 <= exp 1 <= 272 / 100.
Proof. pose proof exp_1_sharp. lra. Qed.

Lemma ln_le_mono x y : 0 < x -> x <= y -> ln x <= ln y.
Proof. intros H [L|E]; [left; apply ln_increasing; assumption|right; f_equal; exact E]. Qed.
(** bounds for the logarithm of two *)
Lemma ln_2_sharp : 69304 / 100000 <= ln 2 <= 6932 / 10000.
Proof.
  split.
  - rewrite <- (ln_exp (69304 / 100000)). apply ln_le_mono; [apply exp_pos|].
    pose proof (exp_cubic_neg (8663 / 100000) ltac:(lra)) as H.
    assert (K0 : 9170140 / 10000000 <= exp (- (8663 / 100000))) by lra.
    apply (exp_double _ _ (8409146 / 10000000)) in K0; [|lra|lra]. apply (exp_double _ _ (7071373 / 10000000)) in K0; [|lra|lra].
    apply (exp_double _ _ (5 / 10)) in K0; [|lra|lra].
    replace (2 * (2 * (2 * - (8663 / 100000)))) with (- (69304 / 100000)) in K0 by field. rewrite exp_Ropp in K0. pose proof (exp_pos (69304 / 100000)) as P.
    apply (Rmult_le_compat_r (exp (69304 / 100000))) in K0; [|lra]. rewrite Rinv_l in K0 by lra. lra.
  - rewrite <- (ln_exp (6932 / 10000)). apply ln_le_mono; [lra|].
    pose proof (exp_cubic (8665 / 100000) ltac:(lra)) as H.
    assert (K0 : 10905125 / 10000000 <= exp (8665 / 100000)) by lra.
    apply (exp_double _ _ (11892175 / 10000000)) in K0; [|lra|lra]. apply (exp_double _ _ (14142382 / 10000000)) in K0; [|lra|lra].
    apply (exp_double _ _ 2) in K0; [|lra|lra].
    replace (2 * (2 * (2 * (8665 / 100000)))) with (6932 / 10000) in K0 by field. exact K0.
Qed.

(** powers of two below and above an exponential *)
Lemma bpow_le_exp e x : (0 <= e)%Z -> IZR e * (6932 / 10000) <= x -> bpow radix2 e <= exp x.
Proof.
  intros He H. rewrite bpow_exp. destruct ln_2_sharp as (_ & U). cbn [radix_val radix2] in *.
  assert (IZR e * ln 2 <= IZR e * (6932 / 10000)) by (apply Rmult_le_compat_l; [apply IZR_le; exact He|exact U]).
  destruct (Rle_lt_or_eq_dec (IZR e * ln 2) x ltac:(lra)) as [L|L]; [left; apply exp_increasing; exact L|rewrite L; lra].
Qed.
Lemma exp_le_bpow e x : (0 <= e)%Z -> x <= IZR e * (69304 / 100000) -> exp x <= bpow radix2 e.
Proof.
  intros He H. rewrite bpow_exp. destruct ln_2_sharp as (L2 & _). cbn [radix_val radix2] in *.
  assert (IZR e * (69304 / 100000) <= IZR e * ln 2) by (apply Rmult_le_compat_l; [apply IZR_le; exact He|exact L2]).
  destruct (Rle_lt_or_eq_dec x (IZR e * ln 2) ltac:(lra)) as [L|L]; [left; apply exp_increasing; exact L|rewrite <- L; lra].
Qed.

(** 2^lo <= e^n <= 2^hi *)
Lemma exp_nat_bounds (n : nat) (lo hi : Z) :
  (0 <= lo)%Z -> (0 <= hi)%Z ->
  (lo * 6932 <= Z.of_nat n * 10000)%Z -> (Z.of_nat n * 100000 <= hi * 69304)%Z ->
  bpow radix2 lo <= exp (INR n) <= bpow radix2 hi.
Proof.
  intros Hlo Hhi H1 H2. apply IZR_le in H1, H2. rewrite !mult_IZR in H1, H2. rewrite <- INR_IZR_INZ in H1, H2.
  split; [apply bpow_le_exp; [exact Hlo|lra]|apply exp_le_bpow; [exact Hhi|lra]].
Qed.

(** 10^300 lies between 2^996 and 2^997 *)
Lemma ten_300 : bpow radix2 996 <= 10 ^ 300 <= bpow radix2 997.
Proof.
  assert (B : forall e : nat, bpow radix2 (Z.of_nat e) = 2 ^ e) by (intros e; rewrite bpow_powerRZ; cbn [radix_val radix2]; rewrite <- pow_powerRZ; reflexivity).
  change 996%Z with (Z.of_nat 996). change 997%Z with (Z.of_nat 997). rewrite !B. split.
  - change 996%nat with (93 * 10 + 66)%nat. change 300%nat with (28 * 10 + 20)%nat. rewrite !pow_add, !pow_mult.
    apply Rmult_le_compat; [apply pow_le, pow_le; lra|apply pow_le; lra|apply pow_incr; cbn; lra|cbn; lra].
  - change 997%nat with (103 * 9 + 70)%nat. change 300%nat with (31 * 9 + 21)%nat. rewrite !pow_add, !pow_mult.
    apply Rmult_le_compat; [apply pow_le, pow_le; lra|apply pow_le; lra|apply pow_incr; cbn; lra|cbn; lra].
Qed.

Lemma exp_700 : bpow radix2 1006 <= exp 700 <= bpow radix2 1011.
Proof.
  replace 700 with (INR 700) by (rewrite INR_IZR_INZ; reflexivity).
  apply exp_nat_bounds; lia.
Qed.

(** ** Sums of terms that are not positive *)
Lemma fadd_error x y : double_format x -> double_format y ->
  exists d, Rabs d <= uround /\ rnd (x + y) = (x + y) * (1 + d).
Proof.
  intros Fx Fy. destruct (FLT_plus_error_N_ex radix2 (-1074) 53 (fun n => negb (Z.even n)) x y Fx Fy) as (d & Hd & E).
  exists d. split; [|exact E]. eapply Rle_trans; [exact Hd|]. unfold u_ro. rewrite uround_eq.
  pose proof uround_pos. apply (Rmult_le_reg_r (1 + uround)); [lra|]. unfold Rdiv. rewrite Rmult_assoc, Rinv_l by lra. nra.
Qed.

Lemma neg_le_r a b c : c <= 0 -> b <= a -> a * c <= b * c.
Proof. intros. nra. Qed.

Lemma fsum_nonpositive (t : sum_order) (f : nat -> fl) (z : nat -> R) :
  (Z.of_nat (length (terms_of t)) < 2 ^ 53)%Z ->
  (forall i, In i (terms_of t) -> f i = FNum (z i) /\ double_format (z i) /\ - bpow radix2 11 <= z i <= 0) ->
  let n := length (terms_of t) in
  let S := lsum z (terms_of t) in
  exists s, fsum t f = FNum s /\ double_format s /\ - (INR n * bpow radix2 11) <= s <= 0 /\
    (1 + uround) ^ n * S <= s <= (1 - uround) ^ n * S /\ (n = 0%nat -> s = 0).
Proof.
  intros Hn Hz. pose proof uround_pos as U0.
  assert (U1 : uround <= / 2).
  { unfold uround. apply Rinv_le_contravar; [lra|]. change (2 ^ 53) with (2 * 2 ^ 52).
    pose proof (pow_R1_Rle 2 52 ltac:(lra)). lra. }
  induction t as [|i|a IHa b IHb]; intros n S; cbn [terms_of fsum length lsum] in *.
  - exists 0. unfold n, S. cbn [INR length pow lsum].
    split; [reflexivity|]. split; [apply generic_format_0|]. split; [lra|]. split; [lra|]. reflexivity.
  - destruct (Hz i (or_introl eq_refl)) as (E & F & P). exists (z i). unfold n, S. cbn [INR length pow lsum].
    split; [exact E|]. split; [exact F|]. split; [lra|]. split; [rewrite !Rmult_1_r, Rplus_0_r; nra|discriminate].
  - rewrite app_length in Hn.
    destruct IHa as (s1 & E1 & F1 & B1 & R1 & Z1); [lia|intros; apply Hz; apply in_or_app; auto|].
    destruct IHb as (s2 & E2 & F2 & B2 & R2 & Z2); [lia|intros; apply Hz; apply in_or_app; auto|].
    set (n1 := length (terms_of a)) in *. set (n2 := length (terms_of b)) in *.
    set (S1 := lsum z (terms_of a)) in *. set (S2 := lsum z (terms_of b)) in *.
    assert (En : n = (n1 + n2)%nat) by (unfold n; apply app_length).
    assert (ES : S = S1 + S2) by (unfold S; apply lsum_app).
    assert (NEG : forall l, (forall i, In i l -> z i <= 0) -> lsum z l <= 0).
    { induction l as [|i l IH]; intros H; cbn; [lra|]. pose proof (H i (or_introl eq_refl)).
      assert (lsum z l <= 0) by (apply IH; intros; apply H; right; assumption). lra. }
    assert (P1 : S1 <= 0) by (apply NEG; intros; apply Hz; apply in_or_app; auto).
    assert (P2 : S2 <= 0) by (apply NEG; intros; apply Hz; apply in_or_app; auto).
    set (s := rnd (s1 + s2)).
    assert (HBn : - (INR n * bpow radix2 11) <= s).
    { unfold s. rewrite <- (rnd_id (- (INR n * bpow radix2 11))).
      - apply rnd_le. rewrite En, plus_INR. lra.
      - apply generic_format_opp. apply format_scaled; [|lia]. rewrite En. exact Hn. }
    assert (Hs0 : s <= 0) by (unfold s; rewrite <- rnd_0; apply rnd_le; lra).
    assert (Hlt : Rabs s < bpow radix2 1024).
    { rewrite Rabs_left1 by exact Hs0. apply Rle_lt_trans with (INR n * bpow radix2 11); [lra|].
      apply Rlt_trans with (bpow radix2 53 * bpow radix2 11); [|rewrite <- bpow_plus; apply bpow_lt; lia].
      apply Rmult_lt_compat_r; [apply bpow_gt_0|]. rewrite INR_IZR_INZ, <- IZR_Zpower by lia. apply IZR_lt. rewrite En. exact Hn. }
    exists s. split; [rewrite E1, E2; cbn [fadd]; apply overflow_num; exact Hlt|].
    split; [apply rnd_format|]. split; [lra|]. split.
    + destruct (Nat.eq_dec n1 0) as [N1|N1]; [|destruct (Nat.eq_dec n2 0) as [N2|N2]].
      * assert (terms_of a = []) as Ta by (destruct (terms_of a); [reflexivity|discriminate N1]).
        assert (S1 = 0) by (unfold S1; rewrite Ta; reflexivity).
        assert (Es : s = s2) by (unfold s; rewrite (Z1 N1), Rplus_0_l; apply rnd_id; exact F2).
        rewrite Es, En, N1, ES, H, Rplus_0_l. exact R2.
      * assert (terms_of b = []) as Tb by (destruct (terms_of b); [reflexivity|discriminate N2]).
        assert (S2 = 0) by (unfold S2; rewrite Tb; reflexivity).
        assert (Es : s = s1) by (unfold s; rewrite (Z2 N2), Rplus_0_r; apply rnd_id; exact F1).
        rewrite Es, En, N2, ES, H, Rplus_0_r, Nat.add_0_r. exact R1.
      * destruct (fadd_error s1 s2 F1 F2) as (d & Hd & Er). fold s in Er. apply Rabs_le_inv in Hd.
        destruct (pow_u_le n1 (n - 1) ltac:(lia)) as (A1 & A2). destruct (pow_u_le n2 (n - 1) ltac:(lia)) as (A3 & A4).
        assert (V : s1 + s2 <= (1 - uround) ^ (n - 1) * S).
        { rewrite ES, Rmult_plus_distr_l. apply Rplus_le_compat; [eapply Rle_trans; [apply R1|]|eapply Rle_trans; [apply R2|]];
            apply neg_le_r; assumption. }
        assert (L : (1 + uround) ^ (n - 1) * S <= s1 + s2).
        { rewrite ES, Rmult_plus_distr_l. apply Rplus_le_compat; [eapply Rle_trans; [|apply R1]|eapply Rle_trans; [|apply R2]];
            apply neg_le_r; assumption. }
        replace n with (Datatypes.S (n - 1)) by lia. cbn [pow]. rewrite !Rmult_assoc, Er. split.
        -- apply Rle_trans with ((1 + uround) * (s1 + s2)); [apply Rmult_le_compat_l; [lra|exact L]|]. nra.
        -- apply Rle_trans with ((1 - uround) * (s1 + s2)); [nra|apply Rmult_le_compat_l; [lra|exact V]].
    + intros N0. rewrite En in N0. unfold s. rewrite Z1, Z2, Rplus_0_r by lia. apply rnd_0.
Qed.

(** Numbers below 2^-1075 round to zero. *)
Lemma rnd_tiny x : 0 < x -> x < bpow radix2 (-1075) -> rnd x = 0.
Proof.
  intros H0 H. apply round_N_small with (ex := mag radix2 x).
  - destruct (mag radix2 x) as (e & He). cbn. apply He. lra.
  - assert (mag radix2 x <= -1075)%Z by (apply mag_le_bpow; [lra|rewrite Rabs_right by lra; exact H]).
    unfold FLT_exp. lia.
Qed.

Lemma exp_20 : bpow radix2 28 <= exp 20 <= bpow radix2 29.
Proof.
  replace 20 with (INR 20) by (rewrite INR_IZR_INZ; reflexivity).
  apply exp_nat_bounds; lia.
Qed.
