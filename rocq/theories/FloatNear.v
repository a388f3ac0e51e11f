(** Relative errors on the scale of logarithms: [near d a b] if a lies between b / e^d and
    b * e^d.  The errors of products, quotients, powers and sums then add up. *)
From Coq Require Import ZArith Reals Lra Lia List.
From Flocq Require Import Core.
From Flocq Require Import Relative Plus_error.
From Verif Require Import Floats FloatFacts.
Import ListNotations.
Open Scope R_scope.

Definition near (d a b : R) : Prop := exp (- d) * b <= a <= exp d * b.

Lemma near_refl a : near 0 a a.
Proof. unfold near. rewrite Ropp_0, exp_0. lra. Qed.

Lemma exp_le_mono x y : x <= y -> exp x <= exp y.
Proof. intros [H| ->]; [left; apply exp_increasing; exact H|right; reflexivity]. Qed.

Lemma near_weaken d d' a b : 0 <= b -> d <= d' -> near d a b -> near d' a b.
Proof.
  unfold near. intros Hb Hd (L & U). split.
  - eapply Rle_trans; [|exact L]. apply Rmult_le_compat_r; [exact Hb|apply exp_le_mono; lra].
  - eapply Rle_trans; [exact U|]. apply Rmult_le_compat_r; [exact Hb|apply exp_le_mono; lra].
Qed.

Lemma near_nonneg d a b : near d a b -> 0 <= b -> 0 <= a.
Proof. intros (L & _) H. eapply Rle_trans; [|exact L]. apply Rmult_le_pos; [left; apply exp_pos|exact H]. Qed.
Lemma near_pos d a b : near d a b -> 0 < b -> 0 < a.
Proof. intros (L & _) H. eapply Rlt_le_trans; [|exact L]. apply Rmult_lt_0_compat; [apply exp_pos|exact H]. Qed.

Lemma near_trans d d' a b c : near d a b -> near d' b c -> near (d + d') a c.
Proof.
  unfold near. intros (L & U) (L' & U'). rewrite Ropp_plus_distr, !exp_plus, !Rmult_assoc. split.
  - eapply Rle_trans; [|exact L]. apply Rmult_le_compat_l; [left; apply exp_pos|exact L'].
  - eapply Rle_trans; [exact U|]. apply Rmult_le_compat_l; [left; apply exp_pos|exact U'].
Qed.

Lemma near_sym d a b : near d a b -> near d b a.
Proof.
  unfold near. intros (L & U). split.
  - apply (Rmult_le_reg_l (exp d)); [apply exp_pos|]. rewrite <- Rmult_assoc, <- exp_plus. replace (d + - d) with 0 by ring. rewrite exp_0. lra.
  - apply (Rmult_le_reg_l (exp (- d))); [apply exp_pos|]. rewrite <- Rmult_assoc, <- exp_plus. replace (- d + d) with 0 by ring. rewrite exp_0. lra.
Qed.

Lemma near_mult d d' a b a' b' : 0 <= b -> 0 <= b' -> near d a b -> near d' a' b' -> near (d + d') (a * a') (b * b').
Proof.
  intros Hb Hb' H H'. pose proof (near_nonneg _ _ _ H Hb). pose proof (near_nonneg _ _ _ H' Hb').
  destruct H as (L & U), H' as (L' & U'). unfold near. rewrite Ropp_plus_distr, !exp_plus.
  pose proof (exp_pos d). pose proof (exp_pos d'). pose proof (exp_pos (- d)). pose proof (exp_pos (- d')).
  split.
  - replace (exp (- d) * exp (- d') * (b * b')) with ((exp (- d) * b) * (exp (- d') * b')) by ring.
    apply Rmult_le_compat; try assumption; apply Rmult_le_pos; lra.
  - replace (exp d * exp d' * (b * b')) with ((exp d * b) * (exp d' * b')) by ring.
    apply Rmult_le_compat; assumption.
Qed.

Lemma near_inv d a b : 0 < b -> near d a b -> near d (/ a) (/ b).
Proof.
  intros Hb H. pose proof (near_pos _ _ _ H Hb) as Ha. apply near_sym in H. destruct H as (L & U). unfold near.
  assert (0 < / a) by (apply Rinv_0_lt_compat; exact Ha). assert (0 < / b) by (apply Rinv_0_lt_compat; exact Hb).
  split.
  - apply (Rmult_le_reg_r (a * b)); [apply Rmult_lt_0_compat; assumption|].
    replace (exp (- d) * / b * (a * b)) with (exp (- d) * a) by (field; lra). replace (/ a * (a * b)) with b by (field; lra). exact L.
  - apply (Rmult_le_reg_r (a * b)); [apply Rmult_lt_0_compat; assumption|].
    replace (exp d * / b * (a * b)) with (exp d * a) by (field; lra). replace (/ a * (a * b)) with b by (field; lra). exact U.
Qed.
Lemma near_div d d' a b a' b' : 0 <= b -> 0 < b' -> near d a b -> near d' a' b' -> near (d + d') (a / a') (b / b').
Proof.
  intros Hb Hb' H H'. unfold Rdiv. apply near_mult; [exact Hb|left; apply Rinv_0_lt_compat; exact Hb'|exact H|apply near_inv; assumption].
Qed.

Lemma near_ln d a b : 0 < b -> near d a b -> Rabs (ln a - ln b) <= d.
Proof.
  intros Hb H. pose proof (near_pos _ _ _ H Hb) as Ha. destruct H as (L & U).
  assert (ln (exp (- d) * b) <= ln a).
  { destruct L as [L| <-]; [left; apply ln_increasing; [apply Rmult_lt_0_compat; [apply exp_pos|exact Hb]|exact L]|right; reflexivity]. }
  assert (ln a <= ln (exp d * b)).
  { destruct U as [U| ->]; [left; apply ln_increasing; [exact Ha|exact U]|right; reflexivity]. }
  rewrite ln_mult, ln_exp in * by (try apply exp_pos; exact Hb). apply Rabs_le. lra.
Qed.
Lemma near_exp h x y : Rabs (x - y) <= h -> near h (exp x) (exp y).
Proof. intros H. apply Rabs_le_inv in H. unfold near. rewrite <- !exp_plus. split; apply exp_le_mono; lra. Qed.

(** powers: the base *)
Lemma near_Rpower d a b y : 0 < b -> 0 <= d -> near d a b -> near (Rabs y * d) (Rpower a y) (Rpower b y).
Proof.
  intros Hb Hd H. unfold Rpower. apply near_exp. apply near_ln in H; [|exact Hb].
  replace (y * ln a - y * ln b) with (y * (ln a - ln b)) by ring. rewrite Rabs_mult. apply Rmult_le_compat_l; [apply Rabs_pos|exact H].
Qed.
(** powers: the exponent *)
Lemma near_exponent h L b y y' : Rabs (y - y') <= h -> Rabs (ln b) <= L -> near (h * L) (Rpower b y) (Rpower b y').
Proof.
  intros H HL. unfold Rpower. apply near_exp. replace (y * ln b - y' * ln b) with ((y - y') * ln b) by ring.
  rewrite Rabs_mult. apply Rmult_le_compat; try apply Rabs_pos; assumption.
Qed.

(** relative errors *)
Lemma near_relative e a b : 0 <= b -> 0 <= e <= / 2 -> Rabs (a - b) <= e * b -> near (2 * e) a b.
Proof.
  intros Hb He H. apply Rabs_le_inv in H. unfold near.
  assert (U : 1 + e <= exp (2 * e)).
  { destruct (Req_dec e 0) as [->|Hn]; [rewrite Rmult_0_r, exp_0; lra|]. pose proof (exp_ineq1 (2 * e) ltac:(lra)). lra. }
  assert (L : exp (- (2 * e)) <= 1 - e).
  { rewrite exp_Ropp. apply (Rmult_le_reg_l (exp (2 * e))); [apply exp_pos|].
    rewrite Rinv_r by (pose proof (exp_pos (2 * e)); lra).
    assert (1 + 2 * e <= exp (2 * e)).
    { destruct (Req_dec e 0) as [->|Hn]; [rewrite Rmult_0_r, exp_0; lra|]. pose proof (exp_ineq1 (2 * e) ltac:(lra)). lra. }
    apply Rle_trans with ((1 + 2 * e) * (1 - e)); [nra|]. apply Rmult_le_compat_r; lra. }
  split; nra.
Qed.
Lemma near_absolute d a b : 0 <= b -> 0 <= d <= / 2 -> near d a b -> Rabs (a - b) <= 2 * d * b.
Proof.
  intros Hb Hd (L & U).
  assert (E1 : exp d <= 1 + 2 * d).
  { pose proof (exp_pos d) as P. assert (1 - d <= exp (- d)).
    { destruct (Req_dec d 0) as [->|Hn]; [rewrite Ropp_0, exp_0; lra|]. pose proof (exp_ineq1 (- d) ltac:(lra)). lra. }
    rewrite exp_Ropp in H. assert ((1 - d) * exp d <= 1).
    { apply (Rmult_le_compat_r (exp d)) in H; [|lra]. rewrite Rinv_l in H by lra. exact H. }
    assert (exp d <= 2) by nra. nra. }
  assert (E2 : 1 - d <= exp (- d)).
  { destruct (Req_dec d 0) as [->|Hn]; [rewrite Ropp_0, exp_0; lra|]. pose proof (exp_ineq1 (- d) ltac:(lra)). lra. }
  apply Rabs_le. nra.
Qed.

Lemma uround_small : uround <= / 2 ^ 50.
Proof. unfold uround. apply Rinv_le_contravar; [apply pow_lt; lra|]. apply Rle_pow; [lra|lia]. Qed.

Lemma near_rnd x : bpow radix2 (-1022) <= x -> near (2 * uround) (rnd x) x.
Proof.
  intros H. pose proof (rnd_relative x H) as (L & U). pose proof uround_pos. pose proof uround_small.
  assert (0 < x) by (eapply Rlt_le_trans; [apply bpow_gt_0|exact H]).
  assert (/ 2 ^ 50 <= / 2) by lra.
  apply near_relative; [lra|lra|]. apply Rabs_le. lra.
Qed.

Lemma near_sum d f g l : (forall i, In i l -> 0 <= g i /\ near d (f i) (g i)) -> near d (lsum f l) (lsum g l).
Proof.
  intros H. induction l as [|i l IH]; cbn [lsum].
  - unfold near. lra.
  - destruct (H i (or_introl eq_refl)) as (_ & L & U). destruct IH as (L' & U'); [intros; apply H; right; assumption|].
    unfold near. split; lra.
Qed.

(** Sums of doubles that are not negative, in any order: zeros may occur. *)
Lemma fsum_nonneg (B : Z) (t : sum_order) (f : nat -> fl) (x : nat -> R) :
  (0 <= B <= 1024)%Z -> (Z.of_nat (length (terms_of t)) < 2 ^ (1024 - B))%Z -> (1024 - B <= 53)%Z ->
  (forall i, In i (terms_of t) -> f i = FNum (x i) /\ double_format (x i) /\ 0 <= x i <= bpow radix2 B) ->
  let n := length (terms_of t) in
  let S := lsum x (terms_of t) in
  exists s, fsum t f = FNum s /\ double_format s /\ s <= INR n * bpow radix2 B /\
    near (2 * INR n * uround) s S /\ (forall i, In i (terms_of t) -> x i <= s) /\ (n = 0%nat -> s = 0).
Proof.
  intros HB Hn HB3 Hx. pose proof uround_pos as U0. pose proof uround_small as U1.
  assert (U2 : / 2 ^ 50 <= / 2) by lra.
  induction t as [|i|a IHa b IHb]; intros n S; cbn [terms_of fsum length lsum] in *.
  - exists 0. unfold n, S. cbn [INR length lsum].
    split; [reflexivity|]. split; [apply generic_format_0|]. split; [lra|]. split; [unfold near; lra|]. split; [intros i []|reflexivity].
  - destruct (Hx i (or_introl eq_refl)) as (E & F & P). exists (x i). unfold n, S. cbn [INR length lsum].
    split; [exact E|]. split; [exact F|]. split; [lra|]. split.
    + rewrite Rplus_0_r. apply (near_weaken 0); [lra|lra|apply near_refl].
    + split; [intros k [<-|[]]; lra|discriminate].
  - rewrite app_length in Hn.
    destruct IHa as (s1 & E1 & F1 & B1 & R1 & T1 & Z1); [lia|intros; apply Hx; apply in_or_app; auto|].
    destruct IHb as (s2 & E2 & F2 & B2 & R2 & T2 & Z2); [lia|intros; apply Hx; apply in_or_app; auto|].
    set (n1 := length (terms_of a)) in *. set (n2 := length (terms_of b)) in *.
    set (S1 := lsum x (terms_of a)) in *. set (S2 := lsum x (terms_of b)) in *.
    assert (En : n = (n1 + n2)%nat) by (unfold n; apply app_length).
    assert (ES : S = S1 + S2) by (unfold S; apply lsum_app).
    assert (X0 : forall i, In i (terms_of a ++ terms_of b) -> 0 <= x i) by (intros i Hi; apply (Hx i Hi)).
    assert (P1 : 0 <= S1) by (apply lsum_ge0; intros; apply X0; apply in_or_app; auto).
    assert (P2 : 0 <= S2) by (apply lsum_ge0; intros; apply X0; apply in_or_app; auto).
    pose proof (near_nonneg _ _ _ R1 P1) as Q1. pose proof (near_nonneg _ _ _ R2 P2) as Q2.
    set (s := rnd (s1 + s2)).
    assert (HBn : s <= INR n * bpow radix2 B).
    { unfold s. rewrite <- (rnd_id (INR n * bpow radix2 B)).
      - apply rnd_le. rewrite En, plus_INR. lra.
      - apply format_scaled; [|lia]. rewrite En. eapply Z.lt_le_trans; [exact Hn|]. apply Z.pow_le_mono_r; lia. }
    assert (Hge : forall z, double_format z -> z <= s1 + s2 -> z <= s).
    { intros z Fz Hz. rewrite <- (rnd_id z Fz). apply rnd_le. exact Hz. }
    assert (Hs0 : 0 <= s) by (apply Hge; [apply generic_format_0|lra]).
    assert (Hlt : s < bpow radix2 1024).
    { eapply Rle_lt_trans; [exact HBn|]. replace 1024%Z with ((1024 - B) + B)%Z by ring. rewrite bpow_plus.
      apply Rmult_lt_compat_r; [apply bpow_gt_0|]. rewrite INR_IZR_INZ, <- IZR_Zpower by lia. apply IZR_lt. rewrite En. exact Hn. }
    exists s. split; [rewrite E1, E2; cbn [fadd]; apply overflow_num; rewrite Rabs_right by lra; exact Hlt|].
    split; [apply rnd_format|]. split; [exact HBn|].
    assert (XI : forall i, In i (terms_of a ++ terms_of b) -> x i <= s1 + s2).
    { intros i Hi. apply in_app_or in Hi. destruct Hi as [Hi|Hi]; [specialize (T1 i Hi)|specialize (T2 i Hi)]; lra. }
    split; [|split].
    + destruct (Nat.eq_dec n1 0) as [N1|N1]; [|destruct (Nat.eq_dec n2 0) as [N2|N2]].
      * assert (terms_of a = []) as Ta by (destruct (terms_of a); [reflexivity|discriminate N1]).
        assert (S1 = 0) by (unfold S1; rewrite Ta; reflexivity).
        assert (Es : s = s2) by (unfold s; rewrite (Z1 N1), Rplus_0_l; apply rnd_id; exact F2).
        rewrite Es, En, N1, ES, H, Rplus_0_l. exact R2.
      * assert (terms_of b = []) as Tb by (destruct (terms_of b); [reflexivity|discriminate N2]).
        assert (S2 = 0) by (unfold S2; rewrite Tb; reflexivity).
        assert (Es : s = s1) by (unfold s; rewrite (Z2 N2), Rplus_0_r; apply rnd_id; exact F1).
        rewrite Es, En, N2, ES, H, Rplus_0_r, Nat.add_0_r. exact R1.
      * destruct (fadd_error s1 s2 F1 F2) as (dl & Hd & Er). fold s in Er.
        assert (NR : near (2 * uround) s (s1 + s2)).
        { apply near_relative; [lra|lra|]. rewrite Er. replace ((s1 + s2) * (1 + dl) - (s1 + s2)) with (dl * (s1 + s2)) by ring.
          rewrite Rabs_mult, (Rabs_right (s1 + s2)) by lra. apply Rmult_le_compat_r; [lra|exact Hd]. }
        assert (I1 : 1 <= INR n1) by (apply (le_INR 1); lia). assert (I2 : 1 <= INR n2) by (apply (le_INR 1); lia).
        assert (NS : near (2 * (INR n - 1) * uround) (s1 + s2) S).
        { rewrite ES, En, plus_INR.
          assert (A1 : near (2 * (INR n1 + INR n2 - 1) * uround) s1 S1) by (apply (near_weaken (2 * INR n1 * uround)); [exact P1|nra|exact R1]).
          assert (A2 : near (2 * (INR n1 + INR n2 - 1) * uround) s2 S2) by (apply (near_weaken (2 * INR n2 * uround)); [exact P2|nra|exact R2]).
          destruct A1 as (A1 & A1'), A2 as (A2 & A2'). unfold near. split; lra. }
        replace (2 * INR n * uround) with (2 * uround + 2 * (INR n - 1) * uround) by ring.
        exact (near_trans _ _ _ _ _ NR NS).
    + intros i Hi. apply Hge; [apply (Hx i Hi)|apply XI; exact Hi].
    + intros N0. rewrite En in N0. unfold s. rewrite Z1, Z2, Rplus_0_r by lia. apply rnd_0.
Qed.
