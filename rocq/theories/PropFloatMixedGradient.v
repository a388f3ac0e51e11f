(** C138: the gradient of the mixed logit in double precision. *)
From Coq Require Import ZArith Reals Lra Lia List Permutation Bool Arith.
From Flocq Require Import Core.
From Verif Require Import Vec SpecLogit Floats FloatFacts FloatNear FloatTransforms FloatUtilities FloatObjective FloatMixed FloatMixedGradient PropFloats PropFloatTransforms PropFloatUtilities PropFloatAccuracy PropFloatNested PropFloatObjective PropFloatGradient PropFloatMixed PropFloatStatistics.
Import ListNotations.
Open Scope R_scope.

#[local] Instance prec_53mg : Prec_gt_0 53 := FloatFacts.prec_53.

(** ** Specification *)

(** Weight of draw [r] in the gradient: how likely it makes the choices, relative to the
    average draw. *)
Definition draw_weight (y : nat -> bool) (p : nat -> nat -> R) (rows : list nat) (n r : nat) : R :=
  sequence_probability y (fun i => p i r) rows / simulated_probability y p rows n.

(** ** Facts *)

(** rounding at most halves a number that is not below the smallest double *)
Lemma rnd_half x : bpow radix2 (-1074) <= x -> x / 2 <= rnd x.
Proof.
  intros H. pose proof (bpow_gt_0 radix2 (-1074)) as B0.
  destruct (Rle_or_lt (2 * bpow radix2 (-1074)) x) as [L|L].
  - destruct (rnd_error x) as (d & h & Hd & Hh & ->). apply Rabs_le_inv in Hd. apply Rabs_le_inv in Hh.
    pose proof uround_pos. pose proof FloatNear.uround_small as U1. assert (/ 2 ^ 50 <= / 8) by lra.
    assert (- (/ 8) * x <= d * x) by (apply Rmult_le_compat_r; lra). lra.
  - apply Rle_trans with (bpow radix2 (-1074)); [lra|].
    rewrite <- (rnd_id (bpow radix2 (-1074))) at 1; [apply rnd_le; exact H|]. apply generic_format_bpow. unfold FLT_exp. lia.
Qed.

Lemma sequence_number ex lg el y p rows n t tr r :
  sane_exp ex -> accurate_ln lg el -> 0 <= el <= / 2 -> decision_maker p rows n t tr -> (r < n)%nat ->
  exists x, fsequence_prob ex lg y (fun i => FNum (p i r)) t = FNum x /\ double_format x /\ bpow radix2 (-1074) <= x <= 1.
Proof.
  intros Hex Hlg Hel (HP & HPr & HN & n0 & Hn & Hp) Hr.
  destruct (log_sequence lg el y (fun i => p i r) rows t Hlg Hel HN HP) as (L & EL & L0 & _); [intros i Hi; apply Hp; assumption|].
  unfold fsequence_prob. rewrite EL. cbn [fexp]. destruct (Hex L) as (Fx & X0 & _ & X1). specialize (X1 L0).
  rewrite overflow_num by (rewrite Rabs_right by lra; apply Rle_lt_trans with 1; [lra|apply (bpow_lt radix2 0); lia]).
  cbn [fguard_zero]. destruct min_comp_bounds as ((M1 & _) & _ & M2 & _).
  destruct (Req_EM_T (ex L) 0) as [Z|Z].
  - exists fmin_comp_value. split; [reflexivity|]. split; [apply rnd_format|]. split; [|lra].
    eapply Rle_trans; [|exact M1]. apply bpow_le. lia.
  - exists (ex L). split; [reflexivity|]. split; [exact Fx|]. split; [apply double_ge_tiny; [exact Fx|lra]|lra].
Qed.

(** the sum over the draws *)
Lemma draws_sum ex lg el y p rows n t tr :
  sane_exp ex -> accurate_ln lg el -> 0 <= el <= / 2 -> decision_maker p rows n t tr ->
  exists x S, (forall r, (r < n)%nat -> fsequence_prob ex lg y (fun i => FNum (p i r)) t = FNum (x r) /\ double_format (x r) /\ bpow radix2 (-1074) <= x r <= S) /\
    fsimulated_prob ex lg y (fun i r => FNum (p i r)) t tr n = FNum (rnd (S / INR n)) /\
    bpow radix2 (-1074) <= S / INR n <= 1.
Proof.
  intros Hex Hlg Hel HD. set (f := fun r => fsequence_prob ex lg y (fun i => FNum (p i r)) t).
  set (x := fun r => match f r with FNum v => v | _ => 0 end).
  assert (HX : forall r, (r < n)%nat -> f r = FNum (x r) /\ double_format (x r) /\ bpow radix2 (-1074) <= x r <= 1).
  { intros r Hr. destruct (sequence_number ex lg el y p rows n t tr r Hex Hlg Hel HD Hr) as (v & E & R). unfold x. fold (f r) in E. rewrite E. auto. }
  destruct HD as (HP & HPr & HN & n0 & Hn & Hp).
  assert (LEN : length (terms_of tr) = n) by (rewrite (Permutation_length HPr); apply seq_length).
  assert (INr : forall r, In r (terms_of tr) <-> (r < n)%nat).
  { intros r. split; intros Hr; [apply (Permutation_in _ HPr), in_seq in Hr; lia|]. apply (Permutation_in _ (Permutation_sym HPr)), in_seq. lia. }
  pose proof (bpow_gt_0 radix2 (-1074)) as B0.
  destruct (fsum_nonneg 971 tr f x) as (S & ES & _ & _ & _ & LE & _); try lia.
  { intros r Hr. apply INr in Hr. destruct (HX r Hr) as (A1 & A2 & A3). split; [exact A1|]. split; [exact A2|].
    assert (1 <= bpow radix2 971) by (apply (bpow_le radix2 0); lia). lra. }
  destruct (fsum_between (-1074) 0 tr f) as (S' & ES' & _ & SB); try lia.
  { intros r Hr. apply INr in Hr. exists (x r). apply HX. exact Hr. }
  assert (S' = S) by congruence. subst S'. rewrite LEN in SB. change (bpow radix2 0) with 1 in SB.
  assert (RN : 0 < INR n) by (apply lt_0_INR; exact n0).
  assert (Q : bpow radix2 (-1074) <= S / INR n <= 1).
  { split; (apply (Rmult_le_reg_r (INR n)); [exact RN|]; unfold Rdiv; rewrite ?Rmult_assoc, ?Rinv_l by lra; lra). }
  exists x, S. split; [|split; [|exact Q]].
  - intros r Hr. destruct (HX r Hr) as (A1 & A2 & A3). split; [exact A1|]. split; [exact A2|]. split; [apply A3|apply LE, INr, Hr].
  - unfold fsimulated_prob. fold f. rewrite ES. cbn [fdiv]. destruct (Req_EM_T (INR n) 0); [lra|]. apply overflow_num.
    assert (0 <= rnd (S / INR n) <= 1).
    { split; [apply Rle_trans with (rnd 0); [rewrite rnd_0; lra|apply rnd_le; lra]|apply Rle_trans with (rnd 1); [apply rnd_le; lra|rewrite rnd_1; lra]]. }
    rewrite Rabs_right by lra. apply Rle_lt_trans with 1; [lra|apply (bpow_lt radix2 0); lia].
Qed.

(** ** C138 *)

(** The weight of every draw is a number between 0 and twice the number of draws, whatever the
    probabilities: no division by zero and no overflow. *)
Theorem C138_draw_weights_are_numbers :
  forall ex lg el y p rows n t tr r,
  sane_exp ex -> accurate_ln lg el -> 0 <= el <= / 2 -> decision_maker p rows n t tr -> (r < n)%nat ->
  exists g, fdraw_weight ex lg y (fun i r => FNum (p i r)) t tr n r = FNum g /\ double_format g /\ 0 <= g <= 2 * INR n.
Proof.
  intros ex lg el y p rows n t tr r Hex Hlg Hel HD Hr.
  destruct (draws_sum ex lg el y p rows n t tr Hex Hlg Hel HD) as (x & S & HX & EM & Q).
  destruct (HX r Hr) as (E & F & B). destruct HD as (_ & _ & _ & n0 & Hn & _).
  pose proof (bpow_gt_0 radix2 (-1074)) as B0. assert (RN : 0 < INR n) by (apply lt_0_INR; exact n0).
  pose proof (rnd_half (S / INR n) (proj1 Q)) as H. set (m := rnd (S / INR n)) in *. assert (m0 : 0 < m) by lra.
  unfold fdraw_weight. rewrite E, EM. cbn [fdiv]. destruct (Req_EM_T m 0); [lra|].
  assert (W : 0 <= x r / m <= 2 * INR n).
  { split; [unfold Rdiv; apply Rmult_le_pos; [lra|left; apply Rinv_0_lt_compat; exact m0]|].
    apply (Rmult_le_reg_r m); [exact m0|]. unfold Rdiv at 1. rewrite Rmult_assoc, Rinv_l, Rmult_1_r by lra.
    apply Rle_trans with S; [apply B|]. replace S with (2 * INR n * (S / INR n / 2)) by (field; lra). apply Rmult_le_compat_l; lra. }
  assert (EN : 2 * INR n = INR (2 * n)) by (rewrite mult_INR; reflexivity).
  assert (F2 : double_format (2 * INR n)) by (rewrite EN, INR_IZR_INZ; apply small_integer; lia).
  assert (RB : 0 <= rnd (x r / m) <= 2 * INR n).
  { split; [apply Rle_trans with (rnd 0); [rewrite rnd_0; lra|apply rnd_le; lra]|apply Rle_trans with (rnd (2 * INR n)); [apply rnd_le; lra|rewrite rnd_id by exact F2; lra]]. }
  exists (rnd (x r / m)). split; [|split; [apply rnd_format|exact RB]]. apply overflow_num. rewrite Rabs_right by lra.
  eapply Rle_lt_trans; [apply RB|]. rewrite EN, INR_IZR_INZ. apply Rlt_le_trans with (IZR (2 ^ 53)); [apply IZR_lt; lia|].
  change (IZR (2 ^ 53)) with (IZR (radix2 ^ 53)). rewrite (IZR_Zpower radix2 53) by lia. apply bpow_le. lia.
Qed.

(** If no draw makes the choices less likely than exp(-690), the weights are those of the
    model. *)
Theorem C138_draw_weights_are_accurate :
  forall ex eps lg el y p rows n t tr r,
  accurate_exp ex eps -> 0 <= eps <= / 2 ^ 40 -> accurate_ln lg el -> 0 <= el <= / 2 ^ 40 -> sane_exp ex -> decision_maker p rows n t tr ->
  (forall r, (r < n)%nat -> exp (-690) <= sequence_probability y (fun i => p i r) rows) -> (r < n)%nat ->
  exists g, fdraw_weight ex lg y (fun i r => FNum (p i r)) t tr n r = FNum g /\
    0 < g /\ Rabs (ln g - ln (draw_weight y p rows n r)) <= 2 * simulated_error eps el (length rows) n + 2 * / 2 ^ 53.
Proof.
  intros ex eps lg el y p rows n t tr r Hex Heps Hlg Hel Hsane HD Hq Hr. pose proof inv_2_40 as T40.
  destruct (C136_simulated_probability_is_accurate ex eps lg el y p rows n t tr Hex Heps Hlg Hel Hsane HD Hq) as (s & Es & Fs & Bs & As).
  (* the sequence probability is the simulated probability of a single draw *)
  set (p1 := fun i (_ : nat) => p i r). pose proof HD as (HP & HPr & HN & n0 & Hn & Hp).
  assert (HD1 : decision_maker p1 rows 1 t (STerm 0)).
  { unfold decision_maker. cbn [terms_of seq]. split; [exact HP|]. split; [reflexivity|]. split; [exact HN|]. split; [lia|]. split; [lia|].
    intros i k Hi _. apply Hp; assumption. }
  destruct (C136_simulated_probability_is_accurate ex eps lg el y p1 rows 1 t (STerm 0) Hex Heps Hlg Hel Hsane HD1) as (q & Eq & Fq & Bq & Aq).
  { intros k _. apply Hq. exact Hr. }
  destruct (sequence_number ex lg el y p rows n t tr r Hsane Hlg ltac:(lra) HD Hr) as (x & Ex & Fx & Bx).
  assert (x = q).
  { unfold fsimulated_prob in Eq. cbn [fsum] in Eq. unfold p1 in Eq. rewrite Ex in Eq. cbn [fdiv INR] in Eq.
    destruct (Req_EM_T 1 0); [lra|]. replace (x / 1) with x in Eq by field. rewrite (rnd_id x Fx) in Eq. rewrite overflow_num in Eq; [congruence|].
    pose proof (bpow_gt_0 radix2 (-1074)). rewrite Rabs_right by lra. apply Rle_lt_trans with 1; [lra|apply (bpow_lt radix2 0); lia]. }
  subst q.
  set (Q := sequence_probability y (fun i => p i r) rows) in *. set (M := simulated_probability y p rows n) in *.
  assert (EQ : simulated_probability y p1 rows 1 = Q) by (unfold simulated_probability; cbn [seq total INR]; fold Q; unfold p1; fold Q; field).
  rewrite EQ in Aq.
  assert (Q0 : 0 < Q) by (eapply Rlt_le_trans; [apply exp_pos|apply Hq; exact Hr]).
  assert (RN : 1 <= INR n) by (change 1 with (INR 1); apply le_INR; lia).
  assert (T1 : INR n * exp (-690) <= total (fun r => sequence_probability y (fun i => p i r) rows) (seq 0 n)).
  { rewrite total_lsum. replace (INR n) with (INR (length (seq 0 n))) by (rewrite seq_length; reflexivity). rewrite <- lsum_const.
    apply lsum_le. intros k Hk. apply in_seq in Hk. apply Hq. lia. }
  pose proof (exp_pos (-690)) as E690.
  assert (M0 : 0 < M).
  { unfold M, simulated_probability. apply Rdiv_lt_0_compat; [|lra]. eapply Rlt_le_trans; [|exact T1]. apply Rmult_lt_0_compat; lra. }
  pose proof uround_pos as U0. pose proof FloatNear.uround_small as U1.
  set (N := length rows) in *.
  assert (N20 : 0 <= INR N <= 2 ^ 20).
  { split; [apply pos_INR|]. rewrite INR_IZR_INZ. rewrite pow_IZR. apply IZR_le. exact HN. }
  assert (n20 : INR n <= 2 ^ 20).
  { rewrite INR_IZR_INZ. rewrite pow_IZR. apply IZR_le. apply Z.lt_le_incl. exact Hn. }
  assert (NU : 0 <= INR N * uround <= / 2 ^ 30).
  { split; [apply Rmult_le_pos; lra|]. apply Rle_trans with (2 ^ 20 * uround); [apply Rmult_le_compat_r; lra|]. unfold uround. lra. }
  assert (nU : 0 <= INR n * uround <= / 2 ^ 30).
  { split; [apply Rmult_le_pos; lra|]. apply Rle_trans with (2 ^ 20 * uround); [apply Rmult_le_compat_r; lra|]. unfold uround. lra. }
  (* the quotient is not small *)
  assert (M1 : M <= 1).
  { unfold M, simulated_probability. apply (Rmult_le_reg_r (INR n)); [lra|]. unfold Rdiv. rewrite Rmult_assoc, Rinv_l by lra. rewrite Rmult_1_r.
    replace (INR n) with (INR (length (seq 0 n))) by (rewrite seq_length; reflexivity).
    rewrite (Rmult_comm 1). apply total_const_le. intros k Hk. apply in_seq in Hk. apply sequence_positive. intros i Hi. apply Hp; [exact Hi|lia]. }
  assert (SE : simulated_error eps el N n <= / 100 /\ simulated_error eps el N 1 <= / 100) by (unfold simulated_error; fold uround; cbn [INR]; lra).
  assert (LQ : -690 <= ln Q) by (rewrite <- (ln_exp (-690)); apply ln_mono; [exact E690|apply Hq; exact Hr]).
  assert (X0 : 0 < x) by lra.
  assert (LX : -691 <= ln x) by (apply Rabs_le_inv in Aq; lra).
  assert (XB : bpow radix2 (-1004) <= x).
  { rewrite <- (exp_ln x X0). apply Rle_trans with (exp (- (691))); [|apply exp_mono; lra]. rewrite exp_Ropp.
    change (-1004)%Z with (Z.opp 1004). rewrite bpow_opp. apply Rinv_le_contravar; [apply exp_pos|]. apply exp_le_bpow; [lia|]. lra. }
  assert (XS : bpow radix2 (-1022) <= x / s).
  { apply Rle_trans with x; [eapply Rle_trans; [|exact XB]; apply bpow_le; lia|].
    apply (Rmult_le_reg_r s); [lra|]. unfold Rdiv. rewrite Rmult_assoc, Rinv_l, Rmult_1_r by lra. nra. }
  destruct (C138_draw_weights_are_numbers ex lg el y p rows n t tr r Hsane Hlg ltac:(lra) HD Hr) as (g & Eg & Fg & Bg).
  exists g. split; [exact Eg|].
  assert (g = rnd (x / s)).
  { unfold fdraw_weight in Eg. rewrite Ex, Es in Eg. cbn [fdiv] in Eg. destruct (Req_EM_T s 0); [lra|]. unfold overflow in Eg. destruct (Rle_dec _ _); [discriminate|congruence]. }
  subst g.
  assert (XS0 : 0 < x / s) by (eapply Rlt_le_trans; [apply bpow_gt_0|exact XS]).
  split; [exact (near_pos _ _ _ (near_rnd _ XS) XS0)|].
  pose proof (near_ln _ _ _ XS0 (near_rnd _ XS)) as R1.
  assert (LD : ln (x / s) = ln x - ln s) by (unfold Rdiv; rewrite ln_mult, ln_Rinv by (try apply Rinv_0_lt_compat; lra); ring).
  assert (LW : ln (draw_weight y p rows n r) = ln Q - ln M).
  { unfold draw_weight. fold Q M. unfold Rdiv. rewrite ln_mult, ln_Rinv by (try apply Rinv_0_lt_compat; lra). ring. }
  rewrite LW. rewrite LD in R1.
  replace (ln (rnd (x / s)) - (ln Q - ln M)) with ((ln (rnd (x / s)) - (ln x - ln s)) + ((ln x - ln Q) + - (ln s - ln M))) by ring.
  eapply Rle_trans; [apply Rabs_triang|]. eapply Rle_trans; [apply Rplus_le_compat; [exact R1|apply Rabs_triang]|]. rewrite Rabs_Ropp.
  unfold simulated_error in *. fold uround in Aq, As. fold uround. cbn [INR] in Aq. assert (1 * uround <= INR n * uround) by (apply Rmult_le_compat_r; lra).
  lra.
Qed.

(** For sequences less likely than exp(-750) under every draw, all draws get the same weight,
    however much the draws differ and whatever the probabilities. *)
Theorem C138_refuted_equal_weights_for_unlikely_sequences :
  forall ex lg el y rows n t tr,
  vanishing_exp ex -> accurate_ln lg el -> 0 <= el <= / 2 ^ 40 ->
  exists g, / 2 <= g <= 2 /\
  forall p r, decision_maker p rows n t tr ->
    (forall r, (r < n)%nat -> sequence_probability y (fun i => p i r) rows <= exp (-750)) -> (r < n)%nat ->
    fdraw_weight ex lg y (fun i r => FNum (p i r)) t tr n r = FNum g.
Proof.
  intros ex lg el y rows n t tr Hv Hlg Hel.
  destruct (C136_refuted_flat_for_unlikely_sequences ex lg el y rows n t tr Hv Hlg Hel) as (s & Bs & Ks).
  pose proof fmin_size as Bm. pose proof (bpow_gt_0 radix2 (-997)) as P0.
  assert (E2 : bpow radix2 (-996) = 2 * bpow radix2 (-997)) by (change (-996)%Z with (1 + -997)%Z; rewrite bpow_plus; reflexivity).
  assert (Q : / 2 <= fmin_comp_value / s <= 2).
  { split; (apply (Rmult_le_reg_r s); [lra|]; unfold Rdiv; rewrite ?Rmult_assoc, ?Rinv_l by lra; lra). }
  assert (F2 : double_format 2) by (apply (small_integer 2); reflexivity).
  assert (RQ : / 2 <= rnd (fmin_comp_value / s) <= 2).
  { split; [apply Rle_trans with (rnd (/ 2)); [rewrite (rnd_id _ half_format); lra|apply rnd_le; lra]|apply Rle_trans with (rnd 2); [apply rnd_le; lra|rewrite (rnd_id _ F2); lra]]. }
  exists (rnd (fmin_comp_value / s)). split; [exact RQ|]. intros p r HD Hq Hr. unfold fdraw_weight. rewrite (Ks p HD Hq).
  destruct HD as (HP & HPr & HN & n0 & Hn & Hp).
  rewrite (unlikely_sequence ex lg el y (fun i => p i r) rows t Hv Hlg Hel HN HP); [|intros i Hi; apply Hp; assumption|apply Hq; exact Hr].
  cbn [fdiv]. destruct (Req_EM_T s 0); [lra|]. apply overflow_num. rewrite Rabs_right by lra.
  apply Rle_lt_trans with (bpow radix2 1); [cbn; lra|apply bpow_lt; lia].
Qed.

(** ** The gradient *)

(** Entry of the gradient for the column [X]: mean over the draws of the sum over the rows of
    residual times draw weight times regressor times weight; the same without regard to sign. *)
Definition mixed_entry (N n : nat) (y w : nat -> R) (p g X : nat -> nat -> R) : R :=
  total (fun r => total (fun i => (y i - p i r) * g i r * X i r * w i) (seq 0 N)) (seq 0 n) / INR n.
Definition mixed_entry_size (N n : nat) (y w : nat -> R) (p g X : nat -> nat -> R) : R :=
  total (fun r => total (fun i => Rabs ((y i - p i r) * g i r * X i r * w i)) (seq 0 N)) (seq 0 n) / INR n.

Definition apx (k e a A : R) : Prop := Rabs (a - A) <= k * Rabs A + e.

Lemma apx_mult k e a A B : apx k e a A -> 0 <= k <= / 2 -> 0 <= e -> apx (k + 2 * uround) (2 * Rabs B * e + tiny) (rnd (a * B)) (A * B).
Proof.
  unfold apx. intros H Hk He. pose proof uround_pos as U0. pose proof FloatNear.uround_small as U1. assert (U2 : / 2 ^ 50 <= / 8) by lra.
  pose proof (rnd_abs (a * B)) as R1. pose proof (Rabs_pos A) as A0. pose proof (Rabs_pos B) as B0.
  assert (D : Rabs (a * B - A * B) <= Rabs B * (k * Rabs A + e)).
  { replace (a * B - A * B) with (B * (a - A)) by ring. rewrite Rabs_mult. apply Rmult_le_compat_l; assumption. }
  assert (S : Rabs (a * B) <= Rabs A * Rabs B + Rabs B * (k * Rabs A + e)).
  { replace (a * B) with ((a * B - A * B) + A * B) by ring. eapply Rle_trans; [apply Rabs_triang|]. rewrite (Rabs_mult A B). lra. }
  rewrite (Rabs_mult A B). set (P := Rabs A * Rabs B) in *. assert (P0 : 0 <= P) by (unfold P; apply Rmult_le_pos; assumption).
  replace (Rabs B * (k * Rabs A + e)) with (k * P + Rabs B * e) in * by (unfold P; ring).
  replace (rnd (a * B) - A * B) with ((rnd (a * B) - a * B) + (a * B - A * B)) by ring. eapply Rle_trans; [apply Rabs_triang|].
  assert (BE : 0 <= Rabs B * e) by (apply Rmult_le_pos; assumption).
  assert (KP : k * P <= / 2 * P) by (apply Rmult_le_compat_r; lra).
  assert (uround * Rabs (a * B) <= uround * (2 * P + Rabs B * e)) by (apply Rmult_le_compat_l; lra).
  assert (uround * (Rabs B * e) <= 1 * (Rabs B * e)) by (apply Rmult_le_compat_r; lra). lra.
Qed.

Lemma apx_size k e a A : apx k e a A -> Rabs a <= (1 + k) * Rabs A + e.
Proof. unfold apx. intros H. replace a with ((a - A) + A) by ring. eapply Rle_trans; [apply Rabs_triang|]. lra. Qed.

Lemma dot_error_simple x y t N : length (dterms t) = N -> (Z.of_nat N <= 2 ^ 20)%Z ->
  (forall k, In k (dterms t) -> double_format (x k) /\ double_format (y k)) ->
  let S := lsum (fun k => Rabs (x k * y k)) (dterms t) in S <= 2 ^ 800 ->
  exists z, fdot t (fun k => FNum (x k)) (fun k => FNum (y k)) = FNum z /\ double_format z /\
    Rabs (z - lsum (fun k => x k * y k) (dterms t)) <= 2 * (INR N * uround) * S + 2 * (INR N * tiny).
Proof.
  intros LEN HN HF S HS. pose proof uround_pos as U0. pose proof FloatNear.uround_small as U1. pose proof tiny_le_u as (T0 & TU).
  assert (N20 : 0 <= INR N <= 2 ^ 20).
  { split; [apply pos_INR|]. rewrite INR_IZR_INZ. rewrite pow_IZR. apply IZR_le. exact HN. }
  assert (NU : 0 <= INR N * uround <= / 2 ^ 30).
  { split; [apply Rmult_le_pos; lra|]. apply Rle_trans with (2 ^ 20 * uround); [apply Rmult_le_compat_r; lra|]. unfold uround. lra. }
  assert (NT : 0 <= INR N * tiny <= INR N * uround) by (split; [apply Rmult_le_pos; lra|apply Rmult_le_compat_l; lra]).
  assert (S0 : 0 <= S) by (unfold S; apply lsum_abs_ge0).
  pose proof (pow1u_le N ltac:(lra)) as PG. pose proof (pow1u_ge1 N) as PG1.
  rewrite (pow2_bpow 800) in HS. change (Z.of_nat 800) with 800%Z in HS.
  destruct (fdot_error x y t (bpow radix2 803) HF) as (z & E & F & _ & A).
  - rewrite LEN. fold S. assert (1 <= bpow radix2 800) by (apply (bpow_le radix2 0); lia).
    assert (B803 : bpow radix2 803 = 8 * bpow radix2 800) by (change 803%Z with (3 + 800)%Z; rewrite bpow_plus; reflexivity). rewrite B803.
    apply Rle_trans with (2 * (2 * bpow radix2 800)); [apply Rmult_le_compat; lra|lra].
  - apply bpow_lt. lia.
  - exists z. split; [exact E|]. split; [exact F|]. rewrite LEN in A. fold S in A. eapply Rle_trans; [exact A|].
    apply Rplus_le_compat; apply Rmult_le_compat_r; lra.
Qed.

(** The computed weights [c] of the draws are doubles of at most 2^30 within a relative
    distance [d] of [g]; regressors and weights are doubles of at most 2^100. *)
Theorem C138_gradient_entry_is_accurate :
  forall N n (y w : nat -> R) (p c g X : nat -> nat -> R) d t tr,
  (Z.of_nat N <= 2 ^ 20)%Z -> (0 < n)%nat -> (Z.of_nat n <= 2 ^ 20)%Z ->
  Permutation (terms_of t) (seq 0 N) -> Permutation (terms_of tr) (seq 0 n) -> 0 <= d <= / 10 ->
  (forall i, (i < N)%nat -> (y i = 0 \/ y i = 1) /\ double_format (w i) /\ Rabs (w i) <= 2 ^ 100) ->
  (forall i r, (i < N)%nat -> (r < n)%nat -> double_format (p i r) /\ 0 <= p i r <= 1) ->
  (forall i r, (i < N)%nat -> (r < n)%nat -> double_format (c i r) /\ Rabs (c i r) <= 2 ^ 30 /\ Rabs (c i r - g i r) <= d * Rabs (g i r)) ->
  (forall i r, (i < N)%nat -> (r < n)%nat -> double_format (X i r) /\ Rabs (X i r) <= 2 ^ 100) ->
  exists e, fmixed_gradient_entry y w (fun i r => FNum (p i r)) (fun i r => FNum (c i r)) X t tr n = FNum e /\ Rabs e <= 2 ^ 290 /\
    Rabs (e - mixed_entry N n y w p g X) <=
      (d + (3 * INR N + 3 * INR n + 10) * / 2 ^ 53) * mixed_entry_size N n y w p g X + / 10 ^ 200.
Proof.
  intros N n y w p c g X d t tr HN n0 Hn HP HPr Hd Hw Hp Hc HX. fold uround.
  pose proof uround_pos as U0. pose proof FloatNear.uround_small as U1. pose proof tiny_le_u as (T0 & TU).
  assert (U2 : / 2 ^ 50 <= / 1000000000000) by lra.
  assert (SMALL : forall m : nat, (Z.of_nat m <= 2 ^ 20)%Z -> 0 <= INR m <= 2 ^ 20 /\ 0 <= INR m * uround <= / 2 ^ 30).
  { intros m Hm. assert (A : 0 <= INR m <= 2 ^ 20).
    { split; [apply pos_INR|]. rewrite INR_IZR_INZ. rewrite pow_IZR. apply IZR_le. exact Hm. }
    split; [exact A|]. split; [apply Rmult_le_pos; lra|]. apply Rle_trans with (2 ^ 20 * uround); [apply Rmult_le_compat_r; lra|]. unfold uround. lra. }
  destruct (SMALL N HN) as (N20 & NU). destruct (SMALL n Hn) as (n20 & nU).
  assert (INi : forall i, In i (terms_of t) -> (i < N)%nat) by (intros i Hi; apply (Permutation_in _ HP), in_seq in Hi; lia).
  assert (INr : forall r, In r (terms_of tr) -> (r < n)%nat) by (intros r Hr; apply (Permutation_in _ HPr), in_seq in Hr; lia).
  assert (LT : length (terms_of t) = N) by (rewrite (Permutation_length HP); apply seq_length).
  assert (LR : length (terms_of tr) = n) by (rewrite (Permutation_length HPr); apply seq_length).
  assert (P100 : 1 <= 2 ^ 100) by (apply pow_R1_Rle; lra). assert (P30 : 1 <= 2 ^ 30) by (apply pow_R1_Rle; lra).
  assert (P130 : 2 ^ 30 * 2 ^ 100 = 2 ^ 130) by (rewrite <- pow_add; reflexivity).
  assert (P230 : 2 ^ 130 * 2 ^ 100 = 2 ^ 230) by (rewrite <- pow_add; reflexivity).
  assert (P1000 : forall k, (k <= 999)%nat -> 2 * 2 ^ k <= 2 ^ 1000).
  { intros k Hk. change (2 * 2 ^ k) with (2 ^ S k). apply Rle_pow; [lra|lia]. }
  (* one row under one draw *)
  set (A2 := fun i r => (y i - p i r) * g i r * X i r).
  set (tau := 3 * 2 ^ 100 * tiny). assert (tau0 : 0 <= tau) by (unfold tau; apply Rmult_le_pos; [apply Rmult_le_pos|]; lra).
  set (k := d + 8 * uround).
  assert (ROW : forall i r, (i < N)%nat -> (r < n)%nat -> exists a,
     fmul (fmul (fsub (FNum (y i)) (FNum (p i r))) (FNum (c i r))) (FNum (X i r)) = FNum a /\ double_format a /\ apx k tau a (A2 i r) /\ Rabs a <= 8 * 2 ^ 130).
  { intros i r Hi Hr. destruct (Hw i Hi) as (Hy & _). destruct (Hp i r Hi Hr) as (Fp & Bp). destruct (Hc i r Hi Hr) as (Fc & Bc & Dc). destruct (HX i r Hi Hr) as (FX & BX).
    assert (Fy : double_format (y i)) by (destruct Hy as [-> | ->]; [apply generic_format_0|apply double_1]).
    set (r0 := y i - p i r). assert (R0 : Rabs r0 <= 1) by (unfold r0; apply Rabs_le; destruct Hy as [-> | ->]; lra).
    unfold fsub. cbn [fneg fadd]. replace (y i + - p i r) with r0 by (unfold r0; ring).
    rewrite (overflow_close r0 1 R0) by (apply Rle_trans with (2 * 2 ^ 0); [lra|apply P1000; lia]).
    assert (AE : apx uround 0 (rnd r0) r0).
    { unfold apx. destruct (fadd_error (y i) (- p i r) Fy (generic_format_opp _ _ _ Fp)) as (dl & Hdl & Er).
      replace (y i + - p i r) with r0 in Er by (unfold r0; ring). rewrite Er. replace (r0 * (1 + dl) - r0) with (dl * r0) by ring. rewrite Rabs_mult.
      assert (Rabs dl * Rabs r0 <= uround * Rabs r0) by (apply Rmult_le_compat_r; [apply Rabs_pos|exact Hdl]). lra. }
    pose proof (apx_size _ _ _ _ AE) as S0. assert (S1 : Rabs (rnd r0) <= 2) by (pose proof (Rabs_pos r0); nra).
    cbn [fmul]. assert (B1 : Rabs (rnd r0 * c i r) <= 2 * 2 ^ 30) by (rewrite Rabs_mult; apply Rmult_le_compat; try apply Rabs_pos; lra).
    rewrite (overflow_close _ _ B1) by (apply P1000; lia).
    pose proof (apx_mult uround 0 (rnd r0) r0 (c i r) AE ltac:(lra) ltac:(lra)) as AM.
    set (a1 := rnd (rnd r0 * c i r)) in *. rewrite Rmult_0_r, Rplus_0_l in AM. cbn [fmul].
    (* the weight of the model *)
    assert (AG : apx (d + 6 * uround) tiny a1 (r0 * g i r)).
    { unfold apx in *. replace (a1 - r0 * g i r) with ((a1 - r0 * c i r) + r0 * (c i r - g i r)) by ring. eapply Rle_trans; [apply Rabs_triang|].
      rewrite (Rabs_mult r0 (c i r - g i r)), (Rabs_mult r0 (g i r)). rewrite (Rabs_mult r0 (c i r)) in AM. pose proof (Rabs_pos r0) as q0. pose proof (Rabs_pos (g i r)) as q1.
      assert (CG : Rabs (c i r) <= 2 * Rabs (g i r)).
      { replace (c i r) with ((c i r - g i r) + g i r) by ring. eapply Rle_trans; [apply Rabs_triang|]. nra. }
      assert (D1 : Rabs r0 * Rabs (c i r - g i r) <= Rabs r0 * (d * Rabs (g i r))) by (apply Rmult_le_compat_l; assumption).
      assert (D2 : Rabs r0 * Rabs (c i r) <= Rabs r0 * (2 * Rabs (g i r))) by (apply Rmult_le_compat_l; assumption).
      assert (D3 : (uround + 2 * uround) * (Rabs r0 * Rabs (c i r)) <= (uround + 2 * uround) * (Rabs r0 * (2 * Rabs (g i r)))) by (apply Rmult_le_compat_l; lra).
      lra. }
    assert (B2 : Rabs a1 <= 4 * 2 ^ 30).
    { pose proof (apx_size _ _ _ _ AM) as Q. rewrite Rabs_mult in Q. assert (Rabs r0 * Rabs (c i r) <= 1 * 2 ^ 30) by (apply Rmult_le_compat; try apply Rabs_pos; lra).
      assert (0 <= Rabs r0 * Rabs (c i r)) by (apply Rmult_le_pos; apply Rabs_pos).
      assert ((1 + (uround + 2 * uround)) * (Rabs r0 * Rabs (c i r)) <= 2 * 2 ^ 30) by (apply Rmult_le_compat; lra). lra. }
    assert (B3 : Rabs (a1 * X i r) <= 4 * 2 ^ 130).
    { rewrite Rabs_mult, <- P130, <- Rmult_assoc. apply Rmult_le_compat; try apply Rabs_pos; assumption. }
    exists (rnd (a1 * X i r)). split; [|split; [apply rnd_format|split]].
    - apply (overflow_close _ _ B3). replace (4 * 2 ^ 130) with (2 * 2 ^ 131) by (change (2 ^ 131) with (2 * 2 ^ 130); lra). apply P1000. lia.
    - pose proof (apx_mult _ _ _ _ (X i r) AG ltac:(lra) ltac:(lra)) as Q. unfold apx in *. unfold A2. fold r0. eapply Rle_trans; [exact Q|].
      unfold k, tau. pose proof (Rabs_pos (X i r)). assert (Rabs (X i r) * tiny <= 2 ^ 100 * tiny) by (apply Rmult_le_compat_r; lra).
      assert (1 * tiny <= 2 ^ 100 * tiny) by (apply Rmult_le_compat_r; lra). lra.
    - pose proof (rnd_abs (a1 * X i r)) as Q. assert (P130' : 1 <= 2 ^ 130) by (apply pow_R1_Rle; lra).
      replace (rnd (a1 * X i r)) with ((rnd (a1 * X i r) - a1 * X i r) + a1 * X i r) by ring. eapply Rle_trans; [apply Rabs_triang|].
      assert (uround * Rabs (a1 * X i r) <= / 2 * (4 * 2 ^ 130)) by (apply Rmult_le_compat; try apply Rabs_pos; lra). lra. }
  set (val := fun f => match f with FNum x => x | _ => 0 end).
  set (a := fun i r => val (fmul (fmul (fsub (FNum (y i)) (FNum (p i r))) (FNum (c i r))) (FNum (X i r)))).
  assert (ROWa : forall i r, (i < N)%nat -> (r < n)%nat ->
     fmul (fmul (fsub (FNum (y i)) (FNum (p i r))) (FNum (c i r))) (FNum (X i r)) = FNum (a i r) /\ double_format (a i r) /\ apx k tau (a i r) (A2 i r) /\ Rabs (a i r) <= 8 * 2 ^ 130).
  { intros i r Hi Hr. destruct (ROW i r Hi Hr) as (z & E & Q). unfold a. rewrite E. split; [reflexivity|exact Q]. }
  clear ROW.
  assert (P120 : 2 ^ 20 * 2 ^ 230 = 2 ^ 250) by (rewrite <- pow_add; reflexivity).
  assert (P270 : 2 ^ 20 * 2 ^ 260 = 2 ^ 280) by (rewrite <- pow_add; reflexivity).
  assert (P260 : 8 * 2 ^ 250 <= 2 ^ 253) by (change (2 ^ 253) with (2 * (2 * (2 * 2 ^ 250))); lra).
  assert (MON : forall q q', (q <= q')%nat -> 2 ^ q <= 2 ^ q') by (intros; apply Rle_pow; [lra|lia]).
  assert (k0 : 0 <= k <= / 5) by (unfold k; lra).
  (* the sum over the rows under one draw *)
  set (T := fun r => total (fun i => A2 i r * w i) (seq 0 N)).
  set (V := fun r => total (fun i => Rabs (A2 i r * w i)) (seq 0 N)).
  set (ups := INR N * (4 * (2 ^ 100 * tau)) + 2 * (INR N * tiny)).
  assert (tau1 : 0 <= 2 ^ 100 * tau) by (apply Rmult_le_pos; lra).
  assert (ups0 : 0 <= ups) by (unfold ups; apply Rplus_le_le_0_compat; apply Rmult_le_pos; try apply Rmult_le_pos; lra).
  set (val2 := fun r => val (fsum t (fmixed_term y w (fun i r => FNum (p i r)) (fun i r => FNum (c i r)) X r))).
  assert (V0 : forall r, 0 <= V r) by (intros r; apply total_nonneg; intros; apply Rabs_pos).
  assert (DRAW : forall r, (r < n)%nat ->
     fsum t (fmixed_term y w (fun i r => FNum (p i r)) (fun i r => FNum (c i r)) X r) = FNum (val2 r) /\ double_format (val2 r) /\
     Rabs (val2 r - T r) <= (k + 3 * (INR N * uround)) * V r + ups /\ Rabs (val2 r) <= 2 ^ 260).
  { intros r Hr.
    assert (EX : fsum t (fmixed_term y w (fun i r => FNum (p i r)) (fun i r => FNum (c i r)) X r) = fdot (dot_of t) (fun i => FNum (a i r)) (fun i => FNum (w i))).
    { rewrite <- fsum_is_fdot. apply fsum_ext. intros i Hi. unfold fmixed_term. rewrite (proj1 (ROWa i r (INi i Hi) Hr)). reflexivity. }
    assert (SB : lsum (fun i => Rabs (a i r * w i)) (dterms (dot_of t)) <= 8 * 2 ^ 250).
    { rewrite dterms_dot_of, <- total_lsum. apply Rle_trans with (INR (length (terms_of t)) * (8 * 2 ^ 230)).
      - apply total_const_le. intros i Hi. destruct (ROWa i r (INi i Hi) Hr) as (_ & _ & _ & B). destruct (Hw i (INi i Hi)) as (_ & _ & Bw).
        rewrite Rabs_mult, <- P230. replace (8 * (2 ^ 130 * 2 ^ 100)) with ((8 * 2 ^ 130) * 2 ^ 100) by ring. apply Rmult_le_compat; try apply Rabs_pos; assumption.
      - rewrite LT. rewrite <- P120. replace (8 * (2 ^ 20 * 2 ^ 230)) with (2 ^ 20 * (8 * 2 ^ 230)) by ring. apply Rmult_le_compat_r; [|lra].
        apply Rmult_le_pos; [lra|apply pow_le; lra]. }
    destruct (dot_error_simple (fun i => a i r) w (dot_of t) N) as (z & Ez & Fz & Az).
    - rewrite dterms_dot_of. exact LT.
    - exact HN.
    - intros i Hi. rewrite dterms_dot_of in Hi. destruct (ROWa i r (INi i Hi) Hr) as (_ & F & _). split; [exact F|apply (Hw i (INi i Hi))].
    - eapply Rle_trans; [exact SB|]. eapply Rle_trans; [exact P260|]. apply MON. lia.
    - unfold val2. rewrite EX, Ez. cbn [val]. split; [reflexivity|]. split; [exact Fz|].
      rewrite !dterms_dot_of in *. rewrite <- !total_lsum in *. rewrite <- (total_lsum (fun i => Rabs (a i r * w i))) in Az.
      set (SA := total (fun i => Rabs (a i r * w i)) (terms_of t)) in *.
      assert (TT : T r = total (fun i => A2 i r * w i) (terms_of t)) by (unfold T; rewrite !total_lsum; apply lsum_perm; symmetry; exact HP).
      assert (VV : V r = total (fun i => Rabs (A2 i r * w i)) (terms_of t)) by (unfold V; rewrite !total_lsum; apply lsum_perm; symmetry; exact HP).
      assert (ONE : forall i, In i (terms_of t) -> Rabs (a i r * w i - A2 i r * w i) <= k * Rabs (A2 i r * w i) + 0 * 0 + 2 ^ 100 * tau).
      { intros i Hi. destruct (ROWa i r (INi i Hi) Hr) as (_ & _ & AP & _). destruct (Hw i (INi i Hi)) as (_ & _ & Bw). unfold apx in AP.
        replace (a i r * w i - A2 i r * w i) with (w i * (a i r - A2 i r)) by ring. rewrite (Rabs_mult (w i)), (Rabs_mult (A2 i r)). pose proof (Rabs_pos (w i)) as w0.
        assert (Rabs (w i) * Rabs (a i r - A2 i r) <= Rabs (w i) * (k * Rabs (A2 i r) + tau)) by (apply Rmult_le_compat_l; assumption).
        assert (Rabs (w i) * tau <= 2 ^ 100 * tau) by (apply Rmult_le_compat_r; assumption). lra. }
      assert (D : Rabs (total (fun i => a i r * w i) (terms_of t) - T r) <= k * V r + INR N * (2 ^ 100 * tau)).
      { rewrite TT. eapply Rle_trans; [apply (total_abs_diff _ _ (fun i => k * Rabs (A2 i r * w i) + 0 * 0 + 2 ^ 100 * tau)); exact ONE|].
        rewrite (total_lin k 0 (2 ^ 100 * tau) (fun i => Rabs (A2 i r * w i)) (fun _ => 0)), LT, VV. lra. }
      assert (SS : SA <= (1 + k) * V r + INR N * (2 ^ 100 * tau)).
      { apply Rle_trans with (total (fun i => (1 + k) * Rabs (A2 i r * w i) + 0 * 0 + 2 ^ 100 * tau) (terms_of t)).
        - apply total_le. intros i Hi. pose proof (ONE i Hi) as O. replace (a i r * w i) with ((a i r * w i - A2 i r * w i) + A2 i r * w i) by ring.
          eapply Rle_trans; [apply Rabs_triang|]. lra.
        - rewrite (total_lin (1 + k) 0 (2 ^ 100 * tau) (fun i => Rabs (A2 i r * w i)) (fun _ => 0)), LT, VV. lra. }
      assert (SA0 : 0 <= SA) by (apply total_nonneg; intros; apply Rabs_pos).
      pose proof (V0 r) as V0r. assert (P30' : / 2 ^ 30 <= / 1000) by lra. assert (NT0 : 0 <= INR N * (2 ^ 100 * tau)) by (apply Rmult_le_pos; lra).
      split.
      + replace (z - T r) with ((z - total (fun i => a i r * w i) (terms_of t)) + (total (fun i => a i r * w i) (terms_of t) - T r)) by ring.
        eapply Rle_trans; [apply Rabs_triang|]. set (q := INR N * uround) in *.
        assert (2 * q * SA <= 2 * q * ((1 + k) * V r + INR N * (2 ^ 100 * tau))) by (apply Rmult_le_compat_l; lra).
        assert (q * (k * V r) <= q * (/ 5 * V r)) by (apply Rmult_le_compat_l; [lra|]; apply Rmult_le_compat_r; lra).
        assert (0 <= q * V r) by (apply Rmult_le_pos; lra).
        assert (2 * q * (INR N * (2 ^ 100 * tau)) <= 1 * (INR N * (2 ^ 100 * tau))) by (apply Rmult_le_compat_r; lra).
        assert (EU : ups = 4 * (INR N * (2 ^ 100 * tau)) + 2 * (INR N * tiny)) by (unfold ups; ring). rewrite EU.
        set (B := INR N * (2 ^ 100 * tau)) in *. set (B' := INR N * tiny) in *. clearbody B B' q.
        lra.
      + replace z with ((z - total (fun i => a i r * w i) (terms_of t)) + total (fun i => a i r * w i) (terms_of t)) by ring.
        eapply Rle_trans; [apply Rabs_triang|].
        assert (Rabs (total (fun i => a i r * w i) (terms_of t)) <= SA) by (unfold SA; rewrite !total_lsum; apply lsum_abs_le).
        assert (2 * (INR N * uround) * SA <= 1 * SA) by (apply Rmult_le_compat_r; lra).
        assert (NT1 : INR N * tiny <= INR N * uround) by (apply Rmult_le_compat_l; lra).
        assert (Q1 : 1 <= 2 ^ 250) by (apply pow_R1_Rle; lra). assert (Q2 : 1024 * 2 ^ 250 = 2 ^ 260) by (replace 1024 with (2 ^ 10) by lra; rewrite <- pow_add; reflexivity). lra. }
  clearbody val2.
  (* the sum over the draws *)
  set (k2 := k + 3 * (INR N * uround)) in *. assert (P30' : / 2 ^ 30 <= / 1000) by lra. assert (k20 : 0 <= k2 <= / 4) by (unfold k2; lra).
  set (Q := total T (seq 0 n)). set (W := total V (seq 0 n)). assert (W0 : 0 <= W) by (apply total_nonneg; intros; apply V0).
  assert (QQ : Q = total T (terms_of tr)) by (unfold Q; rewrite !total_lsum; apply lsum_perm; symmetry; exact HPr).
  assert (WW : W = total V (terms_of tr)) by (unfold W; rewrite !total_lsum; apply lsum_perm; symmetry; exact HPr).
  assert (TV : forall r, Rabs (T r) <= V r) by (intros r; unfold T, V; rewrite !total_lsum; apply lsum_abs_le).
  assert (RN : 1 <= INR n) by (apply (le_INR 1); lia).
  assert (NU0 : 0 <= INR n * ups) by (apply Rmult_le_pos; lra). assert (NT0 : 0 <= INR n * tiny) by (apply Rmult_le_pos; lra).
  assert (EX : fsum tr (fun r => fsum t (fmixed_term y w (fun i r => FNum (p i r)) (fun i r => FNum (c i r)) X r)) = fdot (dot_of tr) (fun r => FNum (val2 r)) (fun _ => FNum 1)).
  { rewrite <- fsum_is_fdot. apply fsum_ext. intros r Hr. destruct (DRAW r (INr r Hr)) as (E & F & _ & B). rewrite E. cbn [fmul]. rewrite Rmult_1_r, (overflow_close _ _ B) by (apply MON; lia).
    rewrite (rnd_id _ F). reflexivity. }
  assert (SB : total (fun r => Rabs (val2 r * 1)) (terms_of tr) <= 2 ^ 280).
  { apply Rle_trans with (INR (length (terms_of tr)) * 2 ^ 260).
    - apply total_const_le. intros r Hr. rewrite Rmult_1_r. apply (DRAW r (INr r Hr)).
    - rewrite LR, <- P270. apply Rmult_le_compat_r; [apply pow_le; lra|lra]. }
  destruct (dot_error_simple val2 (fun _ => 1) (dot_of tr) n) as (z & Ez & Fz & Az).
  - rewrite dterms_dot_of. exact LR.
  - exact Hn.
  - intros r Hr. rewrite dterms_dot_of in Hr. split; [apply (DRAW r (INr r Hr))|apply double_1].
  - rewrite dterms_dot_of, <- total_lsum. eapply Rle_trans; [exact SB|]. apply MON. lia.
  - rewrite !dterms_dot_of in Az. cbv zeta in Az. rewrite <- (total_lsum (fun r => Rabs (val2 r * 1))), <- (total_lsum (fun r => val2 r * 1)) in Az.
    set (SV := total (fun r => Rabs (val2 r * 1)) (terms_of tr)) in *.
    assert (SV0 : 0 <= SV) by (apply total_nonneg; intros; apply Rabs_pos).
    assert (D : Rabs (total (fun r => val2 r * 1) (terms_of tr) - Q) <= k2 * W + INR n * ups).
    { rewrite QQ. eapply Rle_trans; [apply (total_abs_diff _ _ (fun r => k2 * V r + 0 * 0 + ups)); intros r Hr; rewrite Rmult_1_r; pose proof (DRAW r (INr r Hr)) as (_ & _ & B & _); lra|].
      rewrite (total_lin k2 0 ups V (fun _ => 0)), LR, WW. lra. }
    assert (SS : SV <= (1 + k2) * W + INR n * ups).
    { apply Rle_trans with (total (fun r => (1 + k2) * V r + 0 * 0 + ups) (terms_of tr)).
      - apply total_le. intros r Hr. rewrite Rmult_1_r. pose proof (DRAW r (INr r Hr)) as (_ & _ & B & _). pose proof (TV r).
        replace (val2 r) with ((val2 r - T r) + T r) by ring. eapply Rle_trans; [apply Rabs_triang|]. lra.
      - rewrite (total_lin (1 + k2) 0 ups V (fun _ => 0)), LR, WW. lra. }
    assert (QW : Rabs Q <= W).
    { assert (E1 : Q = total (fun r => T r * 1) (terms_of tr)) by (rewrite QQ, !total_lsum; apply lsum_ext; intros; ring).
      assert (E2 : W = lsum V (terms_of tr)) by (rewrite <- total_lsum; exact WW). rewrite E2.
      assert (E3 : Q = lsum (fun r => T r * 1) (terms_of tr)) by (rewrite <- (total_lsum (fun r => T r * 1)); exact E1). rewrite E3.
      eapply Rle_trans; [apply (lsum_abs_le T (fun _ => 1))|]. apply lsum_le. intros r _. rewrite Rmult_1_r. apply TV. }
    set (q := INR n * uround) in *. set (B := INR n * ups) in *. set (B' := INR n * tiny) in *.
    assert (H1 : 2 * q * SV <= 2 * q * ((1 + k2) * W + B)) by (apply Rmult_le_compat_l; lra).
    assert (H2 : q * (k2 * W) <= q * (/ 4 * W)) by (apply Rmult_le_compat_l; [lra|]; apply Rmult_le_compat_r; lra).
    assert (H3 : 0 <= q * W) by (apply Rmult_le_pos; lra). assert (H4 : 2 * q * B <= 1 * B) by (apply Rmult_le_compat_r; lra).
    assert (ZQ : Rabs (z - Q) <= (k2 + 3 * q) * W + 2 * B + 2 * B').
    { replace (z - Q) with ((z - total (fun r => val2 r * 1) (terms_of tr)) + (total (fun r => val2 r * 1) (terms_of tr) - Q)) by ring.
      eapply Rle_trans; [apply Rabs_triang|]. lra. }
    assert (H5 : (k2 + 3 * q) * W <= 1 * W) by (apply Rmult_le_compat_r; lra).
    assert (ZS : Rabs z <= 2 * W + 2 * B + 2 * B').
    { replace z with ((z - Q) + Q) by ring. eapply Rle_trans; [apply Rabs_triang|]. lra. }
    assert (ZB : Rabs z <= 8 * 2 ^ 280).
    { replace z with ((z - total (fun r => val2 r * 1) (terms_of tr)) + total (fun r => val2 r * 1) (terms_of tr)) by ring. eapply Rle_trans; [apply Rabs_triang|].
      assert (Rabs (total (fun r => val2 r * 1) (terms_of tr)) <= SV) by (unfold SV; rewrite !total_lsum; apply (lsum_abs_le val2 (fun _ => 1))).
      assert (2 * q * SV <= 1 * SV) by (apply Rmult_le_compat_r; lra). assert (B' <= q) by (apply Rmult_le_compat_l; lra).
      assert (1 <= 2 ^ 280) by (apply pow_R1_Rle; lra). lra. }
    assert (ZN : Rabs (z / INR n) <= 8 * 2 ^ 280 /\ Rabs (z / INR n) * INR n = Rabs z).
    { assert (E1 : Rabs (z / INR n) * INR n = Rabs z).
      { unfold Rdiv. rewrite Rabs_mult, (Rabs_right (/ INR n)) by (apply Rle_ge; left; apply Rinv_0_lt_compat; lra). field. lra. }
      split; [|exact E1]. pose proof (Rabs_pos (z / INR n)). assert (Rabs (z / INR n) * 1 <= Rabs (z / INR n) * INR n) by (apply Rmult_le_compat_l; lra). lra. }
    destruct ZN as (ZN & ZE). exists (rnd (z / INR n)). split; [|split].
    + unfold fmixed_gradient_entry. rewrite EX, Ez. cbn [fdiv]. destruct (Req_EM_T (INR n) 0); [lra|].
      apply (overflow_close _ _ ZN). replace (8 * 2 ^ 280) with (2 * 2 ^ 282) by (change (2 ^ 282) with (2 * (2 * 2 ^ 280)); lra). apply P1000. lia.
    + pose proof (rnd_abs (z / INR n)) as RA. replace (rnd (z / INR n)) with ((rnd (z / INR n) - z / INR n) + z / INR n) by ring. eapply Rle_trans; [apply Rabs_triang|].
      assert (uround * Rabs (z / INR n) <= 1 * (8 * 2 ^ 280)) by (apply Rmult_le_compat; try apply Rabs_pos; lra).
      assert (1 <= 2 ^ 280) by (apply pow_R1_Rle; lra). assert (Q3 : 1024 * 2 ^ 280 = 2 ^ 290) by (replace 1024 with (2 ^ 10) by lra; rewrite <- pow_add; reflexivity). lra.
    + change (mixed_entry N n y w p g X) with (Q / INR n). change (mixed_entry_size N n y w p g X) with (W / INR n).
      pose proof (rnd_abs (z / INR n)) as RA.
      (* the part that is not relative to the terms *)
      assert (TINY : 4 * ups + 5 * tiny <= / 10 ^ 200).
      { pose proof tiny_300 as (_ & T300). assert (L8 : 2 ^ 300 <= 10 ^ 100) by (change 300%nat with (3 * 100)%nat; rewrite pow_mult; apply pow_incr; lra).
        assert (P200 : 2 ^ 100 * 2 ^ 100 = 2 ^ 200) by (rewrite <- pow_add; reflexivity). assert (Q1 : 1 <= 2 ^ 200) by (apply pow_R1_Rle; lra).
        assert (U : ups <= 2 ^ 20 * (14 * 2 ^ 200 * tiny)).
        { unfold ups, tau. replace (2 ^ 100 * (3 * 2 ^ 100 * tiny)) with (3 * 2 ^ 200 * tiny) by (rewrite <- P200; ring).
          replace (INR N * (4 * (3 * 2 ^ 200 * tiny)) + 2 * (INR N * tiny)) with (INR N * (12 * 2 ^ 200 * tiny + 2 * tiny)) by ring.
          assert (1 * tiny <= 2 ^ 200 * tiny) by (apply Rmult_le_compat_r; lra). apply Rmult_le_compat; lra. }
        assert (P220 : 2 ^ 20 * 2 ^ 200 = 2 ^ 220) by (rewrite <- pow_add; reflexivity).
        replace (2 ^ 20 * (14 * 2 ^ 200 * tiny)) with (14 * 2 ^ 220 * tiny) in U by (rewrite <- P220; ring).
        assert (Q2 : 1 <= 2 ^ 220) by (apply pow_R1_Rle; lra). assert (Q3 : 1024 * 2 ^ 220 = 2 ^ 230) by (replace 1024 with (2 ^ 10) by lra; rewrite <- pow_add; reflexivity).
        assert (1 * tiny <= 2 ^ 220 * tiny) by (apply Rmult_le_compat_r; lra).
        assert (Q4 : 2 ^ 230 <= 10 ^ 100) by (eapply Rle_trans; [|exact L8]; apply MON; lia).
        assert (Q5 : 2 ^ 230 * tiny <= 10 ^ 100 * (/ 10 ^ 300)) by (apply Rmult_le_compat; lra).
        assert (E3 : 10 ^ 100 * / 10 ^ 300 = / 10 ^ 200).
        { replace (10 ^ 300) with (10 ^ 100 * 10 ^ 200) by (rewrite <- pow_add; reflexivity). field. }
        rewrite <- E3. rewrite <- Q3 in Q5. lra. }
      set (WN := W / INR n). assert (WE : WN * INR n = W) by (unfold WN; field; lra). assert (WN0 : 0 <= WN) by (unfold WN, Rdiv; apply Rmult_le_pos; [lra|left; apply Rinv_0_lt_compat; lra]).
      assert (A1 : Rabs (z / INR n) <= 2 * WN + 2 * ups + 2 * tiny).
      { apply (Rmult_le_reg_r (INR n)); [lra|]. rewrite ZE. unfold B, B' in ZS. rewrite <- WE in ZS. lra. }
      assert (A3 : Rabs (z / INR n - Q / INR n) <= (k2 + 3 * q) * WN + 2 * ups + 2 * tiny).
      { apply (Rmult_le_reg_r (INR n)); [lra|]. replace (z / INR n - Q / INR n) with ((z - Q) / INR n) by (field; lra).
        unfold Rdiv. rewrite Rabs_mult, (Rabs_right (/ INR n)) by (apply Rle_ge; left; apply Rinv_0_lt_compat; lra).
        rewrite Rmult_assoc, Rinv_l, Rmult_1_r by lra. unfold B, B' in ZQ. rewrite <- WE in ZQ. lra. }
      replace (rnd (z / INR n) - Q / INR n) with ((rnd (z / INR n) - z / INR n) + (z / INR n - Q / INR n)) by ring.
      eapply Rle_trans; [apply Rabs_triang|].
      assert (A4 : uround * Rabs (z / INR n) <= uround * (2 * WN + 2 * ups + 2 * tiny)) by (apply Rmult_le_compat_l; lra).
      assert (A5 : uround * (2 * ups + 2 * tiny) <= 1 * (2 * ups + 2 * tiny)) by (apply Rmult_le_compat_r; lra).
      unfold k2, k, q in A3. lra.
Qed.

Lemma relative_of_logs x g h : 0 < x -> 0 < g -> 0 <= h <= / 2 -> Rabs (ln x - ln g) <= h -> Rabs (x - g) <= 2 * h * Rabs g.
Proof.
  intros x0 g0 Hh H. apply Rabs_le_inv in H. assert (E : x = g * exp (ln x - ln g)).
  { unfold Rminus. rewrite exp_plus, exp_Ropp, !exp_ln by assumption. field. lra. }
  set (v := ln x - ln g) in *. assert (U : exp v <= 1 + 2 * h).
  { apply Rle_trans with (exp h); [apply exp_mono; lra|]. pose proof (exp_ge_linear (- h)) as L. rewrite exp_Ropp in L.
    pose proof (exp_pos h) as e0. apply (Rmult_le_compat_r (exp h)) in L; [|lra]. rewrite Rinv_l in L by lra.
    assert (h * exp h <= / 2 * exp h) by (apply Rmult_le_compat_r; lra). assert (exp h <= 2) by lra.
    assert (h * exp h <= h * 2) by (apply Rmult_le_compat_l; lra). lra. }
  pose proof (exp_ge_linear v) as L. rewrite (Rabs_right g) by lra. replace (x - g) with (g * (exp v - 1)) by lra.
  rewrite Rabs_mult, (Rabs_right g) by lra. rewrite (Rmult_comm (2 * h)). apply Rmult_le_compat_l; [lra|]. apply Rabs_le. lra.
Qed.

(** The whole gradient entry from the probabilities; [own i] is the decision maker of row [i],
    [members u] are the rows of decision maker [u]. *)
Theorem C138_gradient_before_ridge_is_accurate :
  forall ex eps lg el N n (y : nat -> bool) (w : nat -> R) (p X : nat -> nat -> R) (own : nat -> nat) (members : nat -> list nat) d t tr tu tm,
  accurate_exp ex eps -> 0 <= eps <= / 2 ^ 40 -> accurate_ln lg el -> 0 <= el <= / 2 ^ 40 -> sane_exp ex ->
  (Z.of_nat N <= 2 ^ 20)%Z -> Permutation (terms_of t) (seq 0 N) -> Permutation (terms_of tr) (seq 0 n) ->
  (forall i, (i < N)%nat -> In i (members (own i)) /\ decision_maker p (members (own i)) n (tu (own i)) tm /\
     (forall r, (r < n)%nat -> exp (-690) <= sequence_probability y (fun j => p j r) (members (own i))) /\
     2 * (2 * simulated_error eps el (length (members (own i))) n + 2 * / 2 ^ 53) <= d) -> 0 <= d <= / 10 ->
  (forall i, (i < N)%nat -> double_format (w i) /\ Rabs (w i) <= 2 ^ 100) ->
  (forall i r, (i < N)%nat -> (r < n)%nat -> double_format (X i r) /\ Rabs (X i r) <= 2 ^ 100) ->
  (0 < n)%nat -> (Z.of_nat n <= 2 ^ 20)%Z ->
  let ch := fun i => if y i then 1 else 0 in
  let g := fun i r => draw_weight y p (members (own i)) n r in
  exists e, fmixed_gradient_entry ch w (fun i r => FNum (p i r))
      (fun i r => fdraw_weight ex lg y (fun i r => FNum (p i r)) (tu (own i)) tm n r) X t tr n = FNum e /\ Rabs e <= 2 ^ 290 /\
    Rabs (e - mixed_entry N n ch w p g X) <=
      (d + (3 * INR N + 3 * INR n + 10) * / 2 ^ 53) * mixed_entry_size N n ch w p g X + / 10 ^ 200.
Proof.
  intros ex eps lg el N n y w p X own members d t tr tu tm Hex Heps Hlg Hel Hsane HN HP HPr HM Hd Hw HX n0 Hn ch g. pose proof inv_2_40 as T40.
  set (val := fun f => match f with FNum x => x | _ => 0 end).
  set (c := fun i r => val (fdraw_weight ex lg y (fun i r => FNum (p i r)) (tu (own i)) tm n r)).
  assert (C : forall i r, (i < N)%nat -> (r < n)%nat -> fdraw_weight ex lg y (fun i r => FNum (p i r)) (tu (own i)) tm n r = FNum (c i r) /\
     double_format (c i r) /\ Rabs (c i r) <= 2 ^ 30 /\ Rabs (c i r - g i r) <= d * Rabs (g i r)).
  { intros i r Hi Hr. destruct (HM i Hi) as (_ & HD & Hq & Hs).
    destruct (C138_draw_weights_are_numbers ex lg el y p (members (own i)) n (tu (own i)) tm r Hsane Hlg ltac:(lra) HD Hr) as (x & E & F & B).
    destruct (C138_draw_weights_are_accurate ex eps lg el y p (members (own i)) n (tu (own i)) tm r Hex Heps Hlg Hel Hsane HD Hq Hr) as (x' & E' & x0 & A).
    assert (x' = x) by congruence. subst x'. unfold c. rewrite E. cbn [val]. split; [reflexivity|]. split; [exact F|].
    set (h := 2 * simulated_error eps el (length (members (own i))) n + 2 * / 2 ^ 53) in *. assert (h0 : 0 <= h) by (pose proof (Rabs_pos (ln x - ln (draw_weight y p (members (own i)) n r))); lra).
    split.
    - rewrite Rabs_right by lra. assert (INR n <= 2 ^ 20) by (rewrite INR_IZR_INZ, pow_IZR; apply IZR_le; exact Hn). lra.
    - assert (g0 : 0 < g i r).
      { unfold g, draw_weight. assert (Q0 : forall s, (s < n)%nat -> 0 < sequence_probability y (fun j => p j s) (members (own i))) by (intros s Hs'; pose proof (Hq s Hs'); pose proof (exp_pos (-690)); lra).
        apply Rdiv_lt_0_compat; [apply Q0; exact Hr|]. unfold simulated_probability. apply Rdiv_lt_0_compat; [|apply lt_0_INR; exact n0].
        apply Rlt_le_trans with (sequence_probability y (fun j => p j r) (members (own i))); [apply Q0; exact Hr|].
        rewrite total_lsum. apply (lsum_term (fun r => sequence_probability y (fun j => p j r) (members (own i)))); [intros s Hs'; apply in_seq in Hs'; left; apply Q0; lia|apply in_seq; lia]. }
      eapply Rle_trans; [apply (relative_of_logs x (g i r) h x0 g0); [lra|exact A]|]. apply Rmult_le_compat_r; [apply Rabs_pos|exact Hs]. }
  assert (EQ : fmixed_gradient_entry ch w (fun i r => FNum (p i r)) (fun i r => fdraw_weight ex lg y (fun i r => FNum (p i r)) (tu (own i)) tm n r) X t tr n =
     fmixed_gradient_entry ch w (fun i r => FNum (p i r)) (fun i r => FNum (c i r)) X t tr n).
  { unfold fmixed_gradient_entry. f_equal. apply fsum_ext. intros r Hr. apply (Permutation_in _ HPr), in_seq in Hr. apply fsum_ext. intros i Hi. apply (Permutation_in _ HP), in_seq in Hi.
    unfold fmixed_term. rewrite (proj1 (C i r ltac:(lia) ltac:(lia))). reflexivity. }
  rewrite EQ. apply C138_gradient_entry_is_accurate; try assumption.
  - intros i Hi. split; [unfold ch; destruct (y i); [right|left]; reflexivity|apply Hw; exact Hi].
  - intros i r Hi Hr. destruct (HM i Hi) as (IN & HD & _). destruct HD as (_ & _ & _ & _ & _ & Q). destruct (Q i r IN Hr) as (F & B). split; [exact F|lra].
  - intros i r Hi Hr. apply (C i r Hi Hr).
Qed.

Lemma mixed_entry_le N n y w p g X : (0 < n)%nat -> Rabs (mixed_entry N n y w p g X) <= mixed_entry_size N n y w p g X.
Proof.
  intros n0. unfold mixed_entry, mixed_entry_size. assert (RN : 0 < INR n) by (apply lt_0_INR; exact n0). unfold Rdiv.
  rewrite Rabs_mult, (Rabs_right (/ INR n)) by (apply Rle_ge; left; apply Rinv_0_lt_compat; exact RN).
  apply Rmult_le_compat_r; [left; apply Rinv_0_lt_compat; exact RN|].
  set (f := fun r => total (fun i => (y i - p i r) * g i r * X i r * w i) (seq 0 N)).
  set (h := fun r => total (fun i => Rabs ((y i - p i r) * g i r * X i r * w i)) (seq 0 N)).
  assert (L : forall l, Rabs (total f l) <= total h l).
  { intros l. replace (total f l) with (total f l - total (fun _ => 0) l).
    - apply total_abs_diff. intros r _. rewrite Rminus_0_r. unfold f, h. rewrite !total_lsum. apply (lsum_abs_le (fun i => (y i - p i r) * g i r * X i r) w).
    - rewrite (total_lsum (fun _ => 0)), lsum_const. ring. }
  apply L.
Qed.

Theorem C138_gradient_is_accurate :
  forall ex eps lg el N n (y : nat -> bool) (w : nat -> R) (p X : nat -> nat -> R) (own : nat -> nat) (members : nat -> list nat) d t tr tu tm ridge theta,
  accurate_exp ex eps -> 0 <= eps <= / 2 ^ 40 -> accurate_ln lg el -> 0 <= el <= / 2 ^ 40 -> sane_exp ex ->
  (Z.of_nat N <= 2 ^ 20)%Z -> Permutation (terms_of t) (seq 0 N) -> Permutation (terms_of tr) (seq 0 n) ->
  (forall i, (i < N)%nat -> In i (members (own i)) /\ decision_maker p (members (own i)) n (tu (own i)) tm /\
     (forall r, (r < n)%nat -> exp (-690) <= sequence_probability y (fun j => p j r) (members (own i))) /\
     2 * (2 * simulated_error eps el (length (members (own i))) n + 2 * / 2 ^ 53) <= d) -> 0 <= d <= / 10 ->
  (forall i, (i < N)%nat -> double_format (w i) /\ Rabs (w i) <= 2 ^ 100) ->
  (forall i r, (i < N)%nat -> (r < n)%nat -> double_format (X i r) /\ Rabs (X i r) <= 2 ^ 100) ->
  (0 < n)%nat -> (Z.of_nat n <= 2 ^ 20)%Z ->
  match ridge with None => True | Some r => Rabs r <= 2 ^ 300 /\ Rabs theta <= 2 ^ 300 end ->
  let ch := fun i => if y i then 1 else 0 in
  let g := fun i r => draw_weight y p (members (own i)) n r in
  exists e, fmixed_gradient ch w (fun i r => FNum (p i r))
      (fun i r => fdraw_weight ex lg y (fun i r => FNum (p i r)) (tu (own i)) tm n r) X t tr n ridge theta = FNum e /\
    Rabs (e - (mixed_entry N n ch w p g X - match ridge with None => 0 | Some r => 2 * r * theta end)) <=
      (d + (3 * INR N + 3 * INR n + 12) * / 2 ^ 53) * mixed_entry_size N n ch w p g X +
      12 * / 2 ^ 53 * match ridge with None => 0 | Some r => Rabs (r * theta) end + 3 * / 10 ^ 200.
Proof.
  intros ex eps lg el N n y w p X own members d t tr tu tm ridge theta Hex Heps Hlg Hel Hsane HN HP HPr HM Hd Hw HX n0 Hn Hr ch g. fold uround.
  destruct (C138_gradient_before_ridge_is_accurate ex eps lg el N n y w p X own members d t tr tu tm Hex Heps Hlg Hel Hsane HN HP HPr HM Hd Hw HX n0 Hn) as (e & E & Be & A).
  fold ch in E, A. fold g in A. fold uround in A. pose proof (mixed_entry_le N n ch w p g X n0) as LE. set (S := mixed_entry_size N n ch w p g X) in *.
  set (M := mixed_entry N n ch w p g X) in *. assert (S0 : 0 <= S) by (pose proof (Rabs_pos M); lra).
  pose proof uround_pos as U0. pose proof FloatNear.uround_small as U1. pose proof tiny_le_u as (T0 & TU).
  assert (U2 : / 2 ^ 50 <= / 1000000000000) by lra. assert (US : 0 <= uround * S) by (apply Rmult_le_pos; lra).
  assert (T200 : 0 < / 10 ^ 200) by (apply Rinv_0_lt_compat, pow_lt; lra).
  unfold fmixed_gradient. cbv zeta. rewrite E. destruct ridge as [r|].
  2:{ exists e. split; [reflexivity|]. rewrite Rminus_0_r, Rmult_0_r. lra. }
  destruct Hr as (Br & Bt). assert (MON : forall q q', (q <= q')%nat -> 2 ^ q <= 2 ^ q') by (intros; apply Rle_pow; [lra|lia]).
  assert (P300 : 1 <= 2 ^ 300) by (apply pow_R1_Rle; lra). assert (P600 : 2 ^ 300 * 2 ^ 300 = 2 ^ 600) by (rewrite <- pow_add; reflexivity).
  assert (P1000 : 1024 * 2 ^ 600 <= 2 ^ 1000) by (replace 1024 with (2 ^ 10) by lra; rewrite <- pow_add; apply MON; lia).
  assert (P310 : 2 ^ 300 <= 2 ^ 600) by (apply MON; lia). assert (P290 : 2 ^ 290 <= 2 ^ 600) by (apply MON; lia).
  assert (A0 : apx 0 0 2 2) by (unfold apx; rewrite Rminus_eq_0, Rabs_R0; lra).
  pose proof (apx_mult 0 0 2 2 r A0 ltac:(lra) ltac:(lra)) as A1. rewrite Rmult_0_r, !Rplus_0_l in A1.
  cbn [fmul]. assert (B1 : Rabs (2 * r) <= 2 * 2 ^ 300) by (rewrite Rabs_mult, (Rabs_right 2) by lra; lra).
  rewrite (overflow_close _ _ B1) by lra. set (m1 := rnd (2 * r)) in *. cbn [fmul].
  pose proof (apx_mult _ _ _ _ theta A1 ltac:(lra) ltac:(lra)) as A2. pose proof (apx_size _ _ _ _ A1) as S1.
  assert (Bm : Rabs m1 <= 4 * 2 ^ 300).
  { assert ((1 + 2 * uround) * Rabs (2 * r) <= (1 + / 2) * (2 * 2 ^ 300)) by (apply Rmult_le_compat; try apply Rabs_pos; lra). lra. }
  assert (B2 : Rabs (m1 * theta) <= 4 * 2 ^ 600).
  { rewrite Rabs_mult, <- P600, <- Rmult_assoc. apply Rmult_le_compat; try apply Rabs_pos; lra. }
  rewrite (overflow_close _ _ B2) by lra. set (m2 := rnd (m1 * theta)) in *. unfold fsub. cbn [fneg fadd].
  assert (T2 : 2 * Rabs theta * tiny + tiny <= / 3 * / 10 ^ 200).
  { pose proof tiny_300 as (_ & T300). assert (L8 : 2 ^ 300 <= 10 ^ 100) by (change 300%nat with (3 * 100)%nat; rewrite pow_mult; apply pow_incr; lra).
    assert (E3 : 10 ^ 100 * / 10 ^ 300 = / 10 ^ 200).
    { replace (10 ^ 300) with (10 ^ 100 * 10 ^ 200) by (rewrite <- pow_add; reflexivity). field. }
    assert (Rabs theta * tiny <= 10 ^ 100 * (/ 10 * / 10 ^ 300)) by (apply Rmult_le_compat; try apply Rabs_pos; lra).
    assert (1 * tiny <= 10 ^ 100 * (/ 10 * / 10 ^ 300)) by (apply Rmult_le_compat; lra). lra. }
  assert (A3 : Rabs (m2 - 2 * r * theta) <= 4 * uround * Rabs (2 * r * theta) + / 3 * / 10 ^ 200) by (unfold apx in A2; lra).
  assert (RT : Rabs (2 * r * theta) = 2 * Rabs (r * theta)) by (rewrite Rmult_assoc, (Rabs_mult 2), (Rabs_right 2) by lra; reflexivity). rewrite RT in A3.
  assert (S2 : Rabs m2 <= 2 * Rabs (r * theta) + 4 * uround * (2 * Rabs (r * theta)) + / 3 * / 10 ^ 200).
  { replace m2 with ((m2 - 2 * r * theta) + 2 * r * theta) by ring. eapply Rle_trans; [apply Rabs_triang|]. rewrite RT. lra. }
  pose proof (Rabs_pos (r * theta)) as R0.
  assert (BR : Rabs (r * theta) <= 2 ^ 600) by (rewrite Rabs_mult, <- P600; apply Rmult_le_compat; try apply Rabs_pos; lra).
  assert (UR : uround * Rabs (r * theta) <= / 100 * Rabs (r * theta)) by (apply Rmult_le_compat_r; lra).
  assert (T1 : / 10 ^ 200 <= 1) by (rewrite <- Rinv_1; apply Rinv_le_contravar; [lra|apply pow_R1_Rle; lra]).
  assert (SUM : Rabs (e + - m2) <= Rabs e + Rabs m2) by (eapply Rle_trans; [apply Rabs_triang|rewrite Rabs_Ropp; lra]).
  assert (B3 : Rabs (e + - m2) <= 8 * 2 ^ 600) by lra.
  rewrite (overflow_close _ _ B3) by lra. exists (rnd (e + - m2)). split; [reflexivity|].
  pose proof (rnd_abs (e + - m2)) as RA.
  (* size of the entry *)
  assert (NN : 0 <= INR N <= 2 ^ 20 /\ 0 <= INR n <= 2 ^ 20) by (split; (split; [apply pos_INR|rewrite INR_IZR_INZ, pow_IZR; apply IZR_le; assumption])).
  assert (K : (d + (3 * INR N + 3 * INR n + 10) * uround) * S <= 1 * S).
  { apply Rmult_le_compat_r; [exact S0|]. assert ((3 * INR N + 3 * INR n + 10) * uround <= (8 * 2 ^ 20) * uround) by (apply Rmult_le_compat_r; lra). unfold uround in *. lra. }
  assert (Se : Rabs e <= 2 * S + / 10 ^ 200).
  { replace e with ((e - M) + M) by ring. eapply Rle_trans; [apply Rabs_triang|]. lra. }
  assert (C1 : uround * Rabs (e + - m2) <= uround * ((2 * S + / 10 ^ 200) + (2 * Rabs (r * theta) + 4 * uround * (2 * Rabs (r * theta)) + / 3 * / 10 ^ 200))) by (apply Rmult_le_compat_l; lra).
  assert (C2 : uround * (uround * Rabs (r * theta)) <= uround * (/ 100 * Rabs (r * theta))) by (apply Rmult_le_compat_l; lra).
  assert (C3 : uround * / 10 ^ 200 <= / 100 * / 10 ^ 200) by (apply Rmult_le_compat_r; lra).
  assert (UR0 : 0 <= uround * Rabs (r * theta)) by (apply Rmult_le_pos; lra).
  assert (C4 : tiny <= / 3 * / 10 ^ 200) by (pose proof (Rabs_pos theta); assert (0 <= Rabs theta * tiny) by (apply Rmult_le_pos; lra); lra).
  replace (rnd (e + - m2) - (M - 2 * r * theta)) with ((rnd (e + - m2) - (e + - m2)) + ((e - M) + (2 * r * theta - m2))) by ring.
  eapply Rle_trans; [apply Rabs_triang|]. assert (C5 : Rabs ((e - M) + (2 * r * theta - m2)) <= Rabs (e - M) + Rabs (m2 - 2 * r * theta)).
  { eapply Rle_trans; [apply Rabs_triang|]. rewrite (Rabs_minus_sym (2 * r * theta)). lra. }
  set (z := / 10 ^ 200) in *. clearbody z. lra.
Qed.

(** ** Concrete cases *)

(** Two decision makers with the rows 0, 1 and 2, 3 and two draws, numpy replaced by the correctly
    rounded functions. *)
Example C138_ordinary_gradient :
  let ex := fun x => rnd (exp x) in let lg := fun x => rnd (ln x) in
  let p := fun i r : nat => if (i =? r)%nat then / 2 else 1 in
  let own := fun i : nat => if (i <? 2)%nat then 0%nat else 1%nat in
  let members := fun u : nat => if (u =? 0)%nat then [0; 1]%nat else [2; 3]%nat in
  let tu := fun u => in_order (members u) in
  let y := fun i : nat => Nat.even i in let ch := fun i => if y i then 1 else 0 in
  let g := fun i r => draw_weight y p (members (own i)) 2 r in
  exists e, fmixed_gradient ch (fun _ => 1) (fun i r => FNum (p i r))
      (fun i r => fdraw_weight ex lg y (fun i r => FNum (p i r)) (tu (own i)) (in_order [0; 1]%nat) 2 r) (fun _ _ => 1)
      (in_order [0; 1; 2; 3]%nat) (in_order [0; 1]%nat) 2 (Some 1) 1 = FNum e /\
    Rabs (e - (mixed_entry 4 2 ch (fun _ => 1) p g (fun _ _ => 1) - 2 * 1 * 1)) <=
      (/ 10 ^ 9 + (3 * INR 4 + 3 * INR 2 + 12) * / 2 ^ 53) * mixed_entry_size 4 2 ch (fun _ => 1) p g (fun _ _ => 1) +
      12 * / 2 ^ 53 * Rabs (1 * 1) + 3 * / 10 ^ 200.
Proof.
  intros ex lg p own members tu y ch g.
  assert (F : forall i r, double_format (p i r) /\ 0 < p i r <= 1) by (intros i r; unfold p; destruct (i =? r)%nat; split; try lra; [apply half_format|apply double_1]).
    apply (C138_gradient_is_accurate ex (/ 2 ^ 53) lg (/ 2 ^ 53) 4 2 y (fun _ => 1) p (fun _ _ => 1) own members (/ 10 ^ 9) (in_order [0; 1; 2; 3]%nat) (in_order [0; 1]%nat) tu (in_order [0; 1]%nat) (Some 1) 1).
  - exact C122_correctly_rounded_exp.
  - lra.
  - exact C126_rounded_ln.
  - lra.
  - exact C125_rounded_exp.
  - cbn; lia.
  - rewrite in_order_terms. reflexivity.
  - rewrite in_order_terms. reflexivity.
  - intros i Hi. assert (E : In i (members (own i))).
    { destruct i as [|[|[|[|i]]]]; cbn; try lia; tauto. }
    split; [exact E|]. split; [|split].
    + unfold decision_maker, tu. rewrite !in_order_terms. split; [reflexivity|]. split; [reflexivity|].
      split; [unfold members; destruct (own i =? 0)%nat; cbn; lia|]. split; [lia|]. split; [cbn; lia|]. intros; apply F.
    + intros r _. assert (exp (-690) <= / 4).
      { apply Rle_trans with (exp (-3)); [apply exp_mono; lra|]. replace (-3) with (- (3)) by lra. rewrite exp_Ropp. apply Rinv_le_contravar; [lra|].
        pose proof (exp_ge_linear 3). lra. }
      assert (B : forall j, / 2 <= p j r) by (intros j; unfold p; destruct (j =? r)%nat; lra).
      unfold members. destruct (own i =? 0)%nat; cbn [sequence_probability y Nat.even]; [pose proof (B 0%nat)|pose proof (B 2%nat)]; lra.
    + replace (length (members (own i))) with 2%nat by (unfold members; destruct (own i =? 0)%nat; reflexivity).
      unfold simulated_error. cbn [INR]. lra.
  - lra.
  - intros i _. split; [apply double_1|rewrite Rabs_R1; apply pow_R1_Rle; lra].
  - intros i r _ _. split; [apply double_1|rewrite Rabs_R1; apply pow_R1_Rle; lra].
  - lia.
  - cbn; lia.
  - rewrite Rabs_R1. split; apply pow_R1_Rle; lra.
Qed.

(** The first draw makes 1100 choices 2^1100 times as likely as the second; both get the same
    computed weight. *)
Example C138_very_different_draws :
  let p := fun i r : nat => if (r =? 0)%nat then / 2 else / 4 in let y := fun _ : nat => true in
  decision_maker p (seq 0 1100) 2 (in_order (seq 0 1100)) (in_order (seq 0 2)) /\
  (forall r, (r < 2)%nat -> sequence_probability y (fun i => p i r) (seq 0 1100) <= exp (-750)) /\
  draw_weight y p (seq 0 1100) 2 0 = 2 ^ 1100 * draw_weight y p (seq 0 1100) 2 1.
Proof.
  intros p y.
  assert (SEQ : forall c l, sequence_probability y (fun _ => c) l = c ^ length l).
  { intros c l. induction l as [|i l IH]; cbn [sequence_probability length pow]; [reflexivity|]. rewrite IH. unfold y. ring. }
  assert (F4 : double_format (/ 4)) by (replace (/ 4) with (bpow radix2 (-2)) by (cbn; lra); apply generic_format_bpow; unfold FLT_exp; lia).
  assert (H0 : sequence_probability y (fun i => p i 0%nat) (seq 0 1100) = (/ 2) ^ 1100) by (unfold p; cbn [Nat.eqb]; rewrite SEQ, seq_length; reflexivity).
  assert (H1 : sequence_probability y (fun i => p i 1%nat) (seq 0 1100) = (/ 4) ^ 1100) by (unfold p; cbn [Nat.eqb]; rewrite SEQ, seq_length; reflexivity).
  split; [|split].
  - unfold decision_maker. rewrite !in_order_terms, seq_length. split; [reflexivity|]. split; [reflexivity|]. split; [cbn; lia|]. split; [lia|]. split; [cbn; lia|].
    intros i r _ _. unfold p. destruct (r =? 0)%nat; split; try lra; [apply half_format|exact F4].
  - destruct C136_shorter_sequence_is_more_likely as (Q & _). rewrite SEQ, seq_length in Q.
    intros [|[|r]] Hr; [rewrite H0; exact Q|rewrite H1|lia]. eapply Rle_trans; [|exact Q]. apply pow_incr. lra.
  - unfold draw_weight. rewrite H0, H1. assert (E : (/ 2) ^ 1100 = 2 ^ 1100 * (/ 4) ^ 1100) by (rewrite <- Rpow_mult_distr; f_equal; lra). rewrite E. unfold Rdiv. ring.
Qed.

Print Assumptions C138_draw_weights_are_numbers.
Print Assumptions C138_draw_weights_are_accurate.
Print Assumptions C138_refuted_equal_weights_for_unlikely_sequences.
Print Assumptions C138_gradient_entry_is_accurate.
Print Assumptions C138_gradient_before_ridge_is_accurate.
Print Assumptions C138_gradient_is_accurate.
