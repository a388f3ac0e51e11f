(** C136: the simulated log-likelihood of the mixed logit in double precision. *)
From Coq Require Import ZArith Reals Lra Lia List Permutation Bool Arith Classical.
From Flocq Require Import Core.
From Verif Require Import Vec SpecLogit Floats FloatFacts FloatNear FloatTransforms FloatUtilities FloatObjective FloatMixed PropFloats PropFloatTransforms PropFloatUtilities PropFloatAccuracy PropFloatNested PropFloatObjective.
Import ListNotations.
Open Scope R_scope.

#[local] Instance prec_53m : Prec_gt_0 53 := FloatFacts.prec_53.

(** ** Specification *)

(** Probability of the choices of a decision maker under one draw: the product of the
    probabilities of the chosen rows. *)
Fixpoint sequence_probability (y : nat -> bool) (p : nat -> R) (rows : list nat) : R :=
  match rows with [] => 1 | i :: rest => (if y i then p i else 1) * sequence_probability y p rest end.

(** Its mean over the draws. *)
Definition simulated_probability (y : nat -> bool) (p : nat -> nat -> R) (rows : list nat) (n : nat) : R :=
  total (fun r => sequence_probability y (fun i => p i r) rows) (seq 0 n) / INR n.

(** The decision maker has rows [rows], added up in the order [t]; the draws are 0, ..., n-1,
    added up in the order [tr]; the probabilities are doubles in (0, 1]. *)
Definition decision_maker (p : nat -> nat -> R) (rows : list nat) (n : nat) (t tr : sum_order) : Prop :=
  Permutation (terms_of t) rows /\ Permutation (terms_of tr) (seq 0 n) /\
  (Z.of_nat (length rows) <= 2 ^ 20)%Z /\ (0 < n)%nat /\ (Z.of_nat n < 2 ^ 20)%Z /\
  (forall i r, In i rows -> (r < n)%nat -> double_format (p i r) /\ 0 < p i r <= 1).

(** np.exp underflows to zero. *)
Definition vanishing_exp (ex : R -> R) : Prop := forall x, x <= -746 -> ex x = 0.

(** Error of the logarithm of a simulated probability: [N] rows, [n] draws. *)
Definition simulated_error (eps el : R) (N n : nat) : R :=
  1400 * (el + INR N * / 2 ^ 53) + 2 * eps + 2 * (INR n + 1) * / 2 ^ 53.

(** Weighted sum of the logarithms of the simulated probabilities [m] of [U] decision makers
    minus the penalty; total weight, and total without regard to sign. *)
Definition exact_mixed_objective (U : nat) (w m : nat -> R) (ridge : option R) (K : nat) (theta : nat -> R) : R :=
  total (fun u => w u * ln (m u)) (seq 0 U) -
  match ridge with None => 0 | Some r => r * total (fun j => theta j * theta j) (seq 0 K) end.
Definition total_weight (U : nat) (w : nat -> R) : R := total (fun u => Rabs (w u)) (seq 0 U).
Definition total_logs (U : nat) (w m : nat -> R) : R := total (fun u => Rabs (w u) * Rabs (ln (m u))) (seq 0 U).

(** ** Facts *)

Lemma sequence_positive y p rows : (forall i, In i rows -> 0 < p i <= 1) -> 0 < sequence_probability y p rows <= 1.
Proof.
  induction rows as [|i rows IH]; cbn [sequence_probability]; intros H; [lra|].
  destruct IH as (A & B); [intros; apply H; right; assumption|]. destruct (y i); [|lra].
  destruct (H i (or_introl eq_refl)). split; [apply Rmult_lt_0_compat; assumption|]. nra.
Qed.

Lemma sequence_log y p rows : (forall i, In i rows -> 0 < p i <= 1) ->
  ln (sequence_probability y p rows) = - lsum (fun i => if y i then - ln (p i) else 0) rows.
Proof.
  induction rows as [|i rows IH]; cbn [sequence_probability lsum]; intros H; [rewrite ln_1; ring|].
  assert (H' : forall i, In i rows -> 0 < p i <= 1) by (intros; apply H; right; assumption).
  pose proof (sequence_positive y p rows H') as (A & _). specialize (IH H'). destruct (H i (or_introl eq_refl)).
  destruct (y i); [rewrite ln_mult by assumption; lra|rewrite Rmult_1_l; lra].
Qed.

Lemma double_ge_tiny x : double_format x -> 0 < x -> bpow radix2 (-1074) <= x.
Proof.
  intros F H. apply (generic_format_ge_bpow radix2 (FLT_exp (-1074) 53) (-1074)); [|exact H|exact F].
  intros e. unfold FLT_exp. lia.
Qed.

Lemma lsum_const c l : lsum (fun _ => c) l = INR (length l) * c.
Proof. induction l as [|a l IH]; cbn [lsum length]; [cbn; ring|]. rewrite IH, S_INR. ring. Qed.

(** Sums of numbers between two powers of two. *)
Lemma fsum_between (a b : Z) (t : sum_order) (f : nat -> fl) :
  (-1074 <= a)%Z -> (a <= b)%Z -> (b <= 971)%Z -> (Z.of_nat (length (terms_of t)) < 2 ^ 53)%Z ->
  (forall i, In i (terms_of t) -> exists x, f i = FNum x /\ double_format x /\ bpow radix2 a <= x <= bpow radix2 b) ->
  exists s, fsum t f = FNum s /\ double_format s /\
    INR (length (terms_of t)) * bpow radix2 a <= s <= INR (length (terms_of t)) * bpow radix2 b.
Proof.
  intros Ha Hab Hb. induction t as [|i|t1 IH1 t2 IH2]; cbn [terms_of fsum length]; intros Hn H.
  - exists 0. cbn. split; [reflexivity|]. split; [apply generic_format_0|lra].
  - destruct (H i (or_introl eq_refl)) as (x & E & F & B). exists x. cbn [INR]. rewrite !Rmult_1_l. auto.
  - rewrite app_length in *. destruct IH1 as (s1 & E1 & F1 & B1); [lia|intros; apply H, in_or_app; auto|].
    destruct IH2 as (s2 & E2 & F2 & B2); [lia|intros; apply H, in_or_app; auto|].
    set (n1 := length (terms_of t1)) in *. set (n2 := length (terms_of t2)) in *.
    assert (L : INR (n1 + n2) * bpow radix2 a <= rnd (s1 + s2)).
    { rewrite <- (rnd_id (INR (n1 + n2) * bpow radix2 a)) by (apply format_scaled; lia). apply rnd_le. rewrite plus_INR. lra. }
    assert (U : rnd (s1 + s2) <= INR (n1 + n2) * bpow radix2 b).
    { rewrite <- (rnd_id (INR (n1 + n2) * bpow radix2 b)) by (apply format_scaled; lia). apply rnd_le. rewrite plus_INR. lra. }
    exists (rnd (s1 + s2)). rewrite E1, E2. cbn [fadd]. split; [|split; [apply rnd_format|auto]].
    apply overflow_num. pose proof (pos_INR (n1 + n2)). pose proof (bpow_gt_0 radix2 a).
    assert (0 <= INR (n1 + n2) * bpow radix2 a) by (apply Rmult_le_pos; lra).
    rewrite Rabs_right by lra. eapply Rle_lt_trans; [exact U|].
    apply Rle_lt_trans with (INR (n1 + n2) * bpow radix2 971); [apply Rmult_le_compat_l; [lra|apply bpow_le; lia]|].
    change 1024%Z with (53 + 971)%Z. rewrite bpow_plus. apply Rmult_lt_compat_r; [apply bpow_gt_0|].
    rewrite INR_IZR_INZ, <- IZR_Zpower by lia. apply IZR_lt. exact Hn.
Qed.

Lemma mean_between (a b : Z) (tr : sum_order) (n : nat) (f : nat -> fl) :
  (-1074 <= a)%Z -> (a <= b)%Z -> (b <= 971)%Z -> (0 < n)%nat -> (Z.of_nat n < 2 ^ 53)%Z -> Permutation (terms_of tr) (seq 0 n) ->
  (forall r, (r < n)%nat -> exists x, f r = FNum x /\ double_format x /\ bpow radix2 a <= x <= bpow radix2 b) ->
  exists s, fdiv (fsum tr f) (FNum (INR n)) = FNum s /\ double_format s /\ bpow radix2 a <= s <= bpow radix2 b.
Proof.
  intros Ha Hab Hb n0 Hn HP H. assert (LEN : length (terms_of tr) = n) by (rewrite (Permutation_length HP); apply seq_length).
  destruct (fsum_between a b tr f Ha Hab Hb) as (S & E & F & B).
  - rewrite LEN. exact Hn.
  - intros i Hi. apply H. apply (Permutation_in _ HP), in_seq in Hi. lia.
  - rewrite LEN in B. rewrite E. cbn [fdiv]. assert (N0 : 0 < INR n) by (apply lt_0_INR; exact n0).
    destruct (Req_EM_T (INR n) 0); [lra|].
    assert (Q : bpow radix2 a <= S / INR n <= bpow radix2 b).
    { split; (apply (Rmult_le_reg_r (INR n)); [exact N0|]; unfold Rdiv; rewrite ?Rmult_assoc, ?Rinv_l by lra; lra). }
    assert (FB : forall e, (-1074 <= e)%Z -> double_format (bpow radix2 e)) by (intros e He; apply generic_format_bpow; unfold FLT_exp; lia).
    assert (R1 : bpow radix2 a <= rnd (S / INR n) <= bpow radix2 b).
    { split; [rewrite <- (rnd_id (bpow radix2 a)) by (apply FB; lia)|rewrite <- (rnd_id (bpow radix2 b)) by (apply FB; lia)]; apply rnd_le; apply Q. }
    exists (rnd (S / INR n)). split; [|split; [apply rnd_format|exact R1]]. apply overflow_num.
    pose proof (bpow_gt_0 radix2 a). rewrite Rabs_right by lra. eapply Rle_lt_trans; [apply R1|apply bpow_lt; lia].
Qed.

(** the logarithm of a sequence *)
Lemma log_sequence lg el y p rows t :
  accurate_ln lg el -> 0 <= el <= / 2 -> (Z.of_nat (length rows) <= 2 ^ 20)%Z -> Permutation (terms_of t) rows ->
  (forall i, In i rows -> double_format (p i) /\ 0 < p i <= 1) ->
  let M := - ln (sequence_probability y p rows) in let n := length rows in
  exists s, flog_sequence lg y (fun i => FNum (p i)) t = FNum s /\ s <= 0 /\ 0 <= M /\
    (1 - el) * (1 - uround) ^ n * M <= - s <= (1 + el) * (1 + uround) ^ n * M.
Proof.
  intros Hlg Hel Hn HP Hp M n.
  assert (Hlg' : accurate_log lg el).
  { intros x F P. destruct (Hlg x F) as (A & B).
    - split; [lra|]. apply Rle_lt_trans with 1; [lra|]. apply (bpow_lt radix2 0). lia.
    - split; [exact A|]. rewrite (Rabs_left1 (ln x)) in B; [lra|]. rewrite <- ln_1. apply ln_mono; lra. }
  assert (EM : M = lsum (fun i => if y i then - ln (p i) else 0) (terms_of t)).
  { unfold M. rewrite sequence_log by (intros i Hi; apply Hp, Hi). rewrite Ropp_involutive. apply lsum_perm. symmetry. exact HP. }
  assert (LEN : length (terms_of t) = n) by (apply Permutation_length; exact HP).
  set (z := fun i => if y i then lg (p i) else 0).
  assert (HZ : forall i, In i (terms_of t) -> fmul (FNum (if y i then 1 else 0)) (fln lg (FNum (p i))) = FNum (z i) /\ double_format (z i) /\
      - bpow radix2 11 <= z i <= 0 /\ - ((1 + el) * (if y i then - ln (p i) else 0)) <= z i <= - ((1 - el) * (if y i then - ln (p i) else 0))).
  { intros i Hi. apply (Permutation_in _ HP) in Hi. destruct (Hp i Hi) as (F & P).
    destruct (log_terms lg el y p i Hlg' Hel F P) as (_ & A & B & C). fold (z i) in A, B, C. split; [|auto].
    cbn [fln]. destruct (Rlt_dec 0 (p i)); [|lra]. cbn [fmul].
    replace ((if y i then 1 else 0) * lg (p i)) with (z i) by (unfold z; destruct (y i); ring).
    rewrite (rnd_id _ A). apply overflow_num. apply Rabs_def1; pose proof (bpow_lt radix2 11 1024 ltac:(lia)); pose proof (bpow_gt_0 radix2 11); lra. }
  destruct (fsum_nonpositive t (fun i => fmul (FNum (if y i then 1 else 0)) (fln lg (FNum (p i)))) z) as (s & E & _ & B & (R1 & R2) & _).
  - rewrite LEN. unfold n. lia.
  - intros i Hi. destruct (HZ i Hi) as (A1 & A2 & A3 & _). auto.
  - exists s. split; [exact E|]. split; [apply B|]. rewrite LEN in R1, R2.
    assert (M0 : 0 <= M).
    { rewrite EM. apply lsum_ge0. intros i Hi. apply (Permutation_in _ HP) in Hi. destruct (Hp i Hi) as (F & P). destruct (y i); [|lra].
      assert (ln (p i) <= 0) by (rewrite <- ln_1; apply ln_mono; lra). lra. }
    split; [exact M0|].
    assert (SL : (1 - el) * M <= - lsum z (terms_of t) <= (1 + el) * M).
    { rewrite EM, <- !lsum_scal. replace (- lsum z (terms_of t)) with (lsum (fun i => Ropp 1 * z i) (terms_of t)) by (rewrite lsum_scal; ring).
      split; apply lsum_le; intros i Hi; destruct (HZ i Hi) as (_ & _ & _ & A); lra. }
    pose proof uround_pos. assert (uround <= / 1000) by (unfold uround; apply Rinv_le_contravar; lra).
    assert (W0 : 0 <= (1 - uround) ^ n) by (apply pow_le; lra). assert (V0 : 0 <= (1 + uround) ^ n) by (apply pow_le; lra).
    split.
    + apply Rle_trans with ((1 - uround) ^ n * - lsum z (terms_of t)); [|lra].
      replace ((1 - el) * (1 - uround) ^ n * M) with ((1 - uround) ^ n * ((1 - el) * M)) by ring.
      apply Rmult_le_compat_l; [exact W0|apply SL].
    + apply Rle_trans with ((1 + uround) ^ n * - lsum z (terms_of t)); [lra|].
      replace ((1 + el) * (1 + uround) ^ n * M) with ((1 + uround) ^ n * ((1 + el) * M)) by ring.
      apply Rmult_le_compat_l; [exact V0|apply SL].
Qed.

Lemma pow1mu_ge n : 1 - INR n * uround <= (1 - uround) ^ n.
Proof.
  pose proof uround_pos as U. pose proof FloatNear.uround_small as U1. assert (/ 2 ^ 50 <= / 2) by lra.
  induction n as [|n IH]; [cbn; lra|]. rewrite S_INR. cbn [pow]. pose proof (pos_INR n).
  apply Rle_trans with ((1 - uround) * (1 - INR n * uround)); [nra|]. apply Rmult_le_compat_l; lra.
Qed.

(** ** C136 *)

(** The simulated probability is a number in (0, 1], whatever the probabilities (doubles in
    (0, 1]), the choices and the orders of summation; its logarithm is a number. *)
Theorem C136_simulated_probability_is_a_number :
  forall ex lg el y p rows n t tr,
  sane_exp ex -> accurate_ln lg el -> 0 <= el <= / 2 -> decision_maker p rows n t tr ->
  exists s, fsimulated_prob ex lg y (fun i r => FNum (p i r)) t tr n = FNum s /\ double_format s /\ bpow radix2 (-1074) <= s <= 1 /\
    fln lg (FNum s) = FNum (lg s) /\ -1600 <= lg s <= 0.
Proof.
  intros ex lg el y p rows n t tr Hex Hlg Hel (HP & HPr & HN & n0 & Hn & Hp).
  destruct (mean_between (-1074) 0 tr n (fun r => fsequence_prob ex lg y (fun i => FNum (p i r)) t)) as (s & E & F & B); try lia; try assumption.
  - intros r Hr. destruct (log_sequence lg el y (fun i => p i r) rows t Hlg Hel HN HP) as (L & EL & L0 & _); [intros i Hi; apply Hp; assumption|].
    unfold fsequence_prob. rewrite EL. cbn [fexp]. destruct (Hex L) as (Fx & X0 & _ & X1). specialize (X1 L0).
    rewrite overflow_num by (rewrite Rabs_right by lra; apply Rle_lt_trans with 1; [lra|apply (bpow_lt radix2 0); lia]).
    cbn [fguard_zero]. change (bpow radix2 0) with 1. destruct min_comp_bounds as ((M1 & _) & _ & M2 & _).
    destruct (Req_EM_T (ex L) 0) as [Z|Z].
    + exists fmin_comp_value. split; [reflexivity|]. split; [apply rnd_format|]. split; [|lra].
      eapply Rle_trans; [|exact M1]. apply bpow_le. lia.
    + exists (ex L). split; [reflexivity|]. split; [exact Fx|]. split; [apply double_ge_tiny; [exact Fx|lra]|lra].
  - exists s. pose proof (bpow_gt_0 radix2 (-1074)). change (bpow radix2 0) with 1 in B. split; [exact E|]. split; [exact F|]. split; [exact B|].
    assert (S0 : 0 < s < bpow radix2 1024) by (split; [lra|apply Rle_lt_trans with 1; [lra|apply (bpow_lt radix2 0); lia]]).
    split; [cbn [fln]; destruct (Rlt_dec 0 s); [reflexivity|lra]|].
    destruct (Hlg s F S0) as (_ & A). pose proof (log_of_double s F S0) as LB.
    assert (ln s <= 0) by (rewrite <- ln_1; apply ln_mono; lra). rewrite (Rabs_left1 (ln s)) in A, LB by assumption. apply Rabs_le_inv in A. nra.
Qed.

(** If no draw makes the choices less likely than exp(-690), the logarithm of the computed
    simulated probability is that of the mean of the products, up to [simulated_error]. *)
Theorem C136_simulated_probability_is_accurate :
  forall ex eps lg el y p rows n t tr,
  accurate_exp ex eps -> 0 <= eps <= / 2 ^ 40 -> accurate_ln lg el -> 0 <= el <= / 2 ^ 40 -> sane_exp ex -> decision_maker p rows n t tr ->
  (forall r, (r < n)%nat -> exp (-690) <= sequence_probability y (fun i => p i r) rows) ->
  exists s, fsimulated_prob ex lg y (fun i r => FNum (p i r)) t tr n = FNum s /\ double_format s /\ 0 < s <= 1 /\
    Rabs (ln s - ln (simulated_probability y p rows n)) <= simulated_error eps el (length rows) n.
Proof.
  intros ex eps lg el y p rows n t tr Hex Heps Hlg Hel Hsane HD Hq. pose proof inv_2_40 as T40.
  destruct (C136_simulated_probability_is_a_number ex lg el y p rows n t tr Hsane Hlg ltac:(lra) HD) as (s & E & F & B & _).
  pose proof (bpow_gt_0 radix2 (-1074)) as B0.
  exists s. split; [exact E|]. split; [exact F|]. split; [lra|].
  destruct HD as (HP & HPr & HN & n0 & Hn & Hp). pose proof uround_pos as U0. pose proof FloatNear.uround_small as U1.
  assert (U2 : / 2 ^ 50 <= / 1000000000) by lra.
  set (N := length rows) in *.
  assert (N20 : 0 <= INR N <= 2 ^ 20).
  { split; [apply pos_INR|]. rewrite INR_IZR_INZ. rewrite pow_IZR. apply IZR_le. exact HN. }
  assert (NU : 0 <= INR N * uround <= / 2 ^ 30).
  { split; [apply Rmult_le_pos; lra|]. apply Rle_trans with (2 ^ 20 * uround); [apply Rmult_le_compat_r; lra|]. unfold uround. lra. }
  assert (NU3 : / 2 ^ 30 <= / 1000000000) by lra.
  set (h := 1400 * (el + INR N * uround)). assert (h0 : 0 <= h <= / 100) by (unfold h; lra).
  set (q := fun r => sequence_probability y (fun i => p i r) rows).
  set (f := fun r => fsequence_prob ex lg y (fun i => FNum (p i r)) t).
  assert (SEQ : forall r, (r < n)%nat -> exists x, f r = FNum x /\ double_format x /\ 0 < q r /\ near (h + 2 * eps) x (q r) /\ bpow radix2 (-1004) <= x <= 1).
  { intros r Hr. assert (Hpr : forall i, In i rows -> double_format (p i r) /\ 0 < p i r <= 1) by (intros i Hi; apply Hp; assumption).
    destruct (log_sequence lg el y (fun i => p i r) rows t Hlg ltac:(lra) HN HP Hpr) as (L & EL & L0 & M0 & LB).
    fold (q r) in M0, LB. set (M := - ln (q r)) in *. fold N in LB.
    destruct (sequence_positive y (fun i => p i r) rows) as (Q0 & Q1); [intros i Hi; apply Hpr; exact Hi|]. fold (q r) in Q0, Q1.
    assert (M690 : M <= 690).
    { unfold M. assert (-690 <= ln (q r)); [|lra]. rewrite <- (ln_exp (-690)). apply ln_mono; [apply exp_pos|apply Hq; exact Hr]. }
    pose proof (pow1u_le N ltac:(lra)) as PU. pose proof (pow1mu_ge N) as PL. pose proof (pow1u_ge1 N) as PG.
    assert (PL1 : (1 - uround) ^ N <= 1).
    { destruct (pow_u_le 0 N ltac:(lia)) as (W & _). exact W. }
    assert (CU : (1 + el) * (1 + uround) ^ N <= 1 + 2 * (el + INR N * uround)).
    { apply Rle_trans with ((1 + el) * (1 + 2 * (INR N * uround))); [apply Rmult_le_compat_l; lra|]. nra. }
    assert (CL : 1 - 2 * (el + INR N * uround) <= (1 - el) * (1 - uround) ^ N).
    { apply Rle_trans with ((1 - el) * (1 - INR N * uround)); [nra|apply Rmult_le_compat_l; lra]. }
    assert (D : Rabs (L - ln (q r)) <= h).
    { assert (UP : - L <= (1 + 2 * (el + INR N * uround)) * M) by (eapply Rle_trans; [apply LB|apply Rmult_le_compat_r; assumption]).
      assert (LO : (1 - 2 * (el + INR N * uround)) * M <= - L) by (eapply Rle_trans; [|apply LB]; apply Rmult_le_compat_r; assumption).
      replace (ln (q r)) with (- M) by (unfold M; ring).
      assert (K : (el + INR N * uround) * M <= (el + INR N * uround) * 690) by (apply Rmult_le_compat_l; lra).
      apply Rabs_le. unfold h. split; lra. }
    assert (LR : -700 <= L <= 700). { apply Rabs_le_inv in D. assert (ln (q r) = - M) by (unfold M; ring). lra. }
    destruct (exp_num ex eps L Hex Heps LR) as (Ex & Fx & X0 & Ax).
    assert (NE : near (h + 2 * eps) (ex L) (q r)).
    { rewrite Rplus_comm. apply near_trans with (exp L); [apply near_relative; [left; apply exp_pos|lra|exact Ax]|].
      rewrite <- (exp_ln (q r)) by exact Q0. apply near_exp. exact D. }
    exists (ex L). unfold f, fsequence_prob. rewrite EL, Ex. cbn [fguard_zero]. destruct (Req_EM_T (ex L) 0); [lra|].
    split; [reflexivity|]. split; [exact Fx|]. split; [exact Q0|]. split; [exact NE|]. split; [|apply (Hsane L); exact L0].
    destruct NE as (NE & _). eapply Rle_trans; [|exact NE].
    apply Rle_trans with (exp (- (h + 2 * eps)) * exp (-690)); [|apply Rmult_le_compat_l; [left; apply exp_pos|apply Hq; exact Hr]].
    rewrite <- exp_plus. replace (- (h + 2 * eps) + -690) with (- (690 + h + 2 * eps)) by ring. rewrite exp_Ropp.
    change (-1004)%Z with (Z.opp 1004). rewrite bpow_opp. apply Rinv_le_contravar; [apply exp_pos|]. apply exp_le_bpow; [lia|]. lra. }
  set (x := fun r => match f r with FNum v => v | _ => 0 end).
  assert (HX : forall r, (r < n)%nat -> f r = FNum (x r) /\ double_format (x r) /\ 0 < q r /\ near (h + 2 * eps) (x r) (q r) /\ bpow radix2 (-1004) <= x r <= 1).
  { intros r Hr. destruct (SEQ r Hr) as (v & Ev & R). unfold x. rewrite Ev. auto. }
  assert (LEN : length (terms_of tr) = n) by (rewrite (Permutation_length HPr); apply seq_length).
  assert (INr : forall r, In r (terms_of tr) -> (r < n)%nat) by (intros r Hr; apply (Permutation_in _ HPr), in_seq in Hr; lia).
  destruct (fsum_nonneg 971 tr f x) as (S & ES & FS & _ & NS & _); try lia.
  { intros r Hr. destruct (HX r (INr r Hr)) as (A1 & A2 & _ & _ & A3). split; [exact A1|]. split; [exact A2|].
    pose proof (bpow_gt_0 radix2 (-1004)). assert (1 <= bpow radix2 971) by (apply (bpow_le radix2 0); lia). lra. }
  rewrite LEN in NS.
  assert (RN : 0 < INR n) by (apply lt_0_INR; exact n0).
  destruct (fsum_between (-1004) 0 tr f) as (S' & ES' & _ & SB); try lia.
  { intros r Hr. destruct (HX r (INr r Hr)) as (A1 & A2 & _ & _ & A3). exists (x r). auto. }
  assert (S' = S) by congruence. subst S'. rewrite LEN in SB. change (bpow radix2 0) with 1 in SB.
  assert (SQ : bpow radix2 (-1004) <= S / INR n).
  { apply (Rmult_le_reg_r (INR n)); [exact RN|]. unfold Rdiv. rewrite Rmult_assoc, Rinv_l by lra. lra. }
  assert (Es : s = rnd (S / INR n)).
  { unfold fsimulated_prob in E. fold f in E. rewrite ES in E. cbn [fdiv] in E. destruct (Req_EM_T (INR n) 0); [lra|].
    unfold overflow in E. destruct (Rle_dec _ _); [discriminate|]. congruence. }
  assert (QS0 : 0 < lsum q (terms_of tr)).
  { destruct (terms_of tr) as [|r0 l] eqn:Et; [cbn in LEN; lia|]. cbn [lsum].
    destruct (HX r0 (INr r0 (or_introl eq_refl))) as (_ & _ & A & _).
    assert (0 <= lsum q l); [|lra]. apply lsum_ge0. intros i Hi. left. apply (HX i). apply INr. right. exact Hi. }
  assert (NQ : near (2 * INR n * uround + (h + 2 * eps)) S (lsum q (terms_of tr))).
  { eapply near_trans; [exact NS|]. apply near_sum. intros r Hr. destruct (HX r (INr r Hr)) as (_ & _ & A & A' & _). split; [lra|exact A']. }
  assert (EX : simulated_probability y p rows n = lsum q (terms_of tr) / INR n).
  { unfold simulated_probability. rewrite (total_lsum (fun r => sequence_probability y (fun i => p i r) rows)).
    rewrite <- (lsum_perm _ _ _ HPr). reflexivity. }
  rewrite EX, Es. unfold simulated_error. fold uround.
  replace (1400 * (el + INR N * uround) + 2 * eps + 2 * (INR n + 1) * uround) with (2 * uround + ((2 * INR n * uround + (h + 2 * eps)) + 0)) by (unfold h; ring).
  apply near_ln; [apply Rdiv_lt_0_compat; assumption|].
  eapply near_trans.
  - apply near_rnd. eapply Rle_trans; [|exact SQ]. apply bpow_le. lia.
  - apply near_div; [lra|exact RN|exact NQ|apply near_refl].
Qed.

(** From the simulated probabilities to the objective. *)
Lemma mixed_ll lg el N w (x m : nat -> R) g order :
  accurate_ln lg el -> 0 <= el <= 1 -> (Z.of_nat N <= 2 ^ 20)%Z ->
  (forall i, (i < N)%nat -> double_format (w i) /\ Rabs (w i) <= 2 ^ 900) ->
  (forall i, (i < N)%nat -> double_format (x i) /\ 0 < x i < bpow radix2 1024) ->
  (forall i, (i < N)%nat -> Rabs (ln (x i) - ln (m i)) <= g) -> 0 <= g ->
  Permutation (dterms order) (seq 0 N) ->
  let C := total_logs N w m + total_weight N w * g in
  exists L, fdot order (fun i => FNum (w i)) (fun i => fln lg (FNum (x i))) = FNum L /\ double_format L /\ Rabs L <= bpow radix2 960 /\
    Rabs (L - total (fun i => w i * ln (m i)) (seq 0 N)) <=
      (el + (6 * INR N + 2) * uround) * C + total_weight N w * g + 4 * INR N * tiny.
Proof.
  intros Hlg Hel HN Hw Hx Hg g0 HP C. pose proof uround_pos as U0. pose proof FloatNear.uround_small as U1. pose proof tiny_le_u as (T0 & TU).
  set (a := fun i => lg (x i)). set (c := fun i => Rabs (w i) * (Rabs (ln (m i)) + g)).
  assert (N20 : 0 <= INR N <= 2 ^ 20).
  { split; [apply pos_INR|]. rewrite INR_IZR_INZ. rewrite pow_IZR. apply IZR_le. exact HN. }
  assert (B900 : 2 ^ 900 = bpow radix2 900) by apply pow2_bpow. assert (P900 : 0 < bpow radix2 900) by apply bpow_gt_0.
  assert (B912 : 4096 * bpow radix2 900 = bpow radix2 912) by (change 912%Z with (12 + 900)%Z; rewrite bpow_plus; reflexivity).
  assert (HA : forall i, (i < N)%nat -> double_format (a i) /\ Rabs (a i - ln (x i)) <= el * Rabs (ln (x i)) /\ Rabs (a i) <= 1600).
  { intros i Hi. destruct (Hx i Hi) as (F & B). destruct (Hlg (x i) F B) as (Fa & Ea). fold (a i) in Fa, Ea. split; [exact Fa|]. split; [exact Ea|].
    pose proof (log_of_double (x i) F B) as LB. pose proof (Rabs_pos (ln (x i))) as R0.
    replace (a i) with ((a i - ln (x i)) + ln (x i)) by ring. eapply Rle_trans; [apply Rabs_triang|].
    assert (el * Rabs (ln (x i)) <= 1 * Rabs (ln (x i))) by (apply Rmult_le_compat_r; lra). lra. }
  assert (IN : forall k, In k (dterms order) -> (k < N)%nat) by (intros k Hk; apply (Permutation_in _ HP), in_seq in Hk; lia).
  assert (LEN : length (dterms order) = N) by (rewrite (Permutation_length HP); apply seq_length).
  set (S := lsum (fun k => Rabs (w k * a k)) (dterms order)).
  assert (ES : S = total (fun k => Rabs (w k * a k)) (seq 0 N)) by (unfold S; transitivity (lsum (fun k => Rabs (w k * a k)) (seq 0 N)); [apply lsum_perm; exact HP|symmetry; apply total_lsum]).
  assert (S0 : 0 <= S) by (unfold S; apply lsum_abs_ge0).
  assert (SB : S <= INR N * bpow radix2 912).
  { rewrite ES. replace (INR N) with (INR (length (seq 0 N))) by (rewrite seq_length; reflexivity). apply total_const_le. intros i Hi. apply in_seq in Hi.
    destruct (HA i ltac:(lia)) as (_ & _ & BB). destruct (Hw i ltac:(lia)) as (_ & WW). rewrite Rabs_mult.
    apply Rle_trans with (2 ^ 900 * 1600); [apply Rmult_le_compat; try apply Rabs_pos; assumption|]. lra. }
  assert (B20 : 2 ^ 20 = bpow radix2 20) by apply pow2_bpow.
  assert (B932 : bpow radix2 20 * bpow radix2 912 = bpow radix2 932) by (rewrite <- bpow_plus; reflexivity).
  assert (P912 : 0 < bpow radix2 912) by apply bpow_gt_0.
  assert (SB2 : S <= bpow radix2 932).
  { eapply Rle_trans; [exact SB|]. rewrite <- B932, <- B20. apply Rmult_le_compat_r; lra. }
  assert (NU : 0 <= INR N * uround <= / 2 ^ 30).
  { split; [apply Rmult_le_pos; lra|]. apply Rle_trans with (2 ^ 20 * uround); [apply Rmult_le_compat_r; lra|]. unfold uround. lra. }
  assert (NT1 : INR N * tiny <= INR N * uround) by (apply Rmult_le_compat_l; lra).
  destruct (fdot_error w a order (bpow radix2 935)) as (L & EL & FL & _ & AL).
  { intros k Hk. split; [apply Hw, IN, Hk|apply HA, IN, Hk]. }
  { rewrite LEN. fold S. pose proof (pow1u_le N ltac:(lra)) as PG. pose proof (pow1u_ge1 N).
    assert (1 <= bpow radix2 932) by (apply (bpow_le radix2 0); lia).
    assert (B935 : bpow radix2 935 = 8 * bpow radix2 932) by (change 935%Z with (3 + 932)%Z; rewrite bpow_plus; reflexivity). rewrite B935.
    assert (0 <= INR N * tiny) by (apply Rmult_le_pos; lra).
    apply Rle_trans with (2 * (2 * bpow radix2 932)); [apply Rmult_le_compat; lra|lra]. }
  { apply bpow_lt. lia. }
  rewrite LEN in AL. fold S in AL.
  assert (ESB : lsum (fun k => w k * a k) (dterms order) = total (fun k => w k * a k) (seq 0 N)) by (rewrite (total_lsum (fun k => w k * a k) (seq 0 N)); apply lsum_perm; exact HP).
  rewrite ESB in AL. set (YB := total (fun k => w k * a k) (seq 0 N)) in *.
  assert (ROW : forall i, (i < N)%nat -> Rabs (w i * a i - w i * ln (m i)) <= el * c i + g * Rabs (w i) + 0 /\
                                       Rabs (w i * a i) <= 2 * c i + 0 * Rabs (w i) + 0).
  { intros i Hi. destruct (HA i Hi) as (_ & Ea & _). specialize (Hg i Hi).
    pose proof (Rabs_pos (w i)) as W0. pose proof (Rabs_pos (ln (m i))) as LP0. pose proof (Rabs_pos (ln (x i))) as LX0.
    assert (LX : Rabs (ln (x i)) <= Rabs (ln (m i)) + g).
    { replace (ln (x i)) with ((ln (x i) - ln (m i)) + ln (m i)) by ring. eapply Rle_trans; [apply Rabs_triang|]. lra. }
    assert (EL0 : el * Rabs (ln (x i)) <= el * (Rabs (ln (m i)) + g)) by (apply Rmult_le_compat_l; lra).
    assert (D1 : Rabs (a i - ln (m i)) <= el * (Rabs (ln (m i)) + g) + g).
    { replace (a i - ln (m i)) with ((a i - ln (x i)) + (ln (x i) - ln (m i))) by ring. eapply Rle_trans; [apply Rabs_triang|]. lra. }
    split.
    - rewrite <- Rmult_minus_distr_l, Rabs_mult. unfold c. replace (el * (Rabs (w i) * (Rabs (ln (m i)) + g)) + g * Rabs (w i) + 0) with (Rabs (w i) * (el * (Rabs (ln (m i)) + g) + g)) by ring.
      apply Rmult_le_compat_l; assumption.
    - rewrite Rabs_mult. unfold c. replace (2 * (Rabs (w i) * (Rabs (ln (m i)) + g)) + 0 * Rabs (w i) + 0) with (Rabs (w i) * (2 * (Rabs (ln (m i)) + g))) by ring. apply Rmult_le_compat_l; [exact W0|].
      replace (a i) with ((a i - ln (x i)) + ln (x i)) by ring. eapply Rle_trans; [apply Rabs_triang|].
      assert (el * Rabs (ln (x i)) <= 1 * Rabs (ln (x i))) by (apply Rmult_le_compat_r; lra). lra. }
  assert (EC : total c (seq 0 N) = C).
  { unfold C, total_logs, total_weight. generalize (seq 0 N). induction l as [|k l IH]; cbn [total]; [ring|]. rewrite IH. unfold c. ring. }
  assert (RS : Rabs (YB - total (fun i => w i * ln (m i)) (seq 0 N)) <= el * C + g * total_weight N w).
  { rewrite <- EC. unfold total_weight. replace (el * total c (seq 0 N) + g * total (fun i => Rabs (w i)) (seq 0 N)) with (el * total c (seq 0 N) + g * total (fun i => Rabs (w i)) (seq 0 N) + INR (length (seq 0 N)) * 0) by ring.
    rewrite <- (total_lin el g 0 c (fun i => Rabs (w i))). apply total_abs_diff. intros i Hi. apply in_seq in Hi. apply ROW. lia. }
  assert (RB : S <= 2 * C).
  { rewrite ES, <- EC. replace (2 * total c (seq 0 N)) with (2 * total c (seq 0 N) + 0 * total (fun i => Rabs (w i)) (seq 0 N) + INR (length (seq 0 N)) * 0) by ring.
    rewrite <- (total_lin 2 0 0 c (fun i => Rabs (w i))). apply total_le. intros i Hi. apply in_seq in Hi. apply ROW. lia. }
  pose proof (pow1u_le N ltac:(lra)) as PG. pose proof (pow1u_ge1 N) as PG1.
  assert (NT0 : 0 <= INR N * tiny) by (apply Rmult_le_pos; lra).
  assert (A2 : Rabs (L - YB) <= 2 * (INR N * uround) * S + 2 * (INR N * tiny)).
  { eapply Rle_trans; [exact AL|]. apply Rplus_le_compat; apply Rmult_le_compat_r; lra. }
  exists L. split; [|split; [exact FL|split]].
  - rewrite <- EL. apply fdot_ext. intros k Hk. split; [reflexivity|]. destruct (Hx k (IN k Hk)) as (_ & B). cbn [fln]. destruct (Rlt_dec 0 (x k)); [reflexivity|lra].
  - replace L with ((L - YB) + YB) by ring. eapply Rle_trans; [apply Rabs_triang|].
    assert (Y1 : Rabs YB <= S) by (unfold S; rewrite <- ESB; apply lsum_abs_le).
    assert (2 * (INR N * uround) * S <= 1 * S) by (apply Rmult_le_compat_r; lra).
    assert (B960 : 8 * bpow radix2 932 <= bpow radix2 960) by (apply Rle_trans with (bpow radix2 935); [change 935%Z with (3 + 932)%Z; rewrite bpow_plus; cbn; lra|apply bpow_le; lia]).
    assert (1 <= bpow radix2 932) by (apply (bpow_le radix2 0); lia). lra.
  - replace (L - total (fun i => w i * ln (m i)) (seq 0 N)) with ((L - YB) + (YB - total (fun i => w i * ln (m i)) (seq 0 N))) by ring.
    eapply Rle_trans; [apply Rabs_triang|].
    assert (C0 : 0 <= C) by lra. assert (0 <= INR N * uround * C) by (apply Rmult_le_pos; lra). assert (0 <= uround * C) by (apply Rmult_le_pos; lra).
    assert (Q1 : 2 * (INR N * uround) * S <= 2 * (INR N * uround) * (2 * C)) by (apply Rmult_le_compat_l; lra). lra.
Qed.

Theorem C136_mixed_objective_is_accurate :
  forall lg el N w (x m : nat -> R) g order ridge K theta t,
  accurate_ln lg el -> 0 <= el <= 1 -> (Z.of_nat N <= 2 ^ 20)%Z ->
  (forall i, (i < N)%nat -> double_format (w i) /\ Rabs (w i) <= 2 ^ 900) ->
  (forall i, (i < N)%nat -> double_format (x i) /\ 0 < x i < bpow radix2 1024) ->
  (forall i, (i < N)%nat -> Rabs (ln (x i) - ln (m i)) <= g) -> 0 <= g ->
  Permutation (dterms order) (seq 0 N) ->
  (Z.of_nat K <= 2 ^ 20)%Z -> penalty_in_range ridge K theta -> Permutation (terms_of t) (seq 0 K) ->
  exists L, fmixed_objective lg w (fun i => FNum (x i)) order ridge (fun j => FNum (theta j)) t = FNum L /\
    Rabs (L - exact_mixed_objective N w m ridge K theta) <=
      objective_error el N K (total_weight N w) (total_logs N w m) (penalty_size ridge K theta) g.
Proof.
  intros lg el N w x m g order ridge K theta t Hlg Hel HN Hw Hx Hg g0 HP HK Hr HPt.
  pose proof uround_pos as U0. pose proof FloatNear.uround_small as U1. pose proof tiny_le_u as (T0 & TU).
  destruct (mixed_ll lg el N w x m g order Hlg Hel HN Hw Hx Hg g0 HP) as (L & EL & FL & BL & AL).
  assert (W0 : 0 <= total_weight N w) by (unfold total_weight; apply total_nonneg; intros; apply Rabs_pos).
  assert (M0 : 0 <= total_logs N w m) by (unfold total_logs; apply total_nonneg; intros; apply Rmult_le_pos; apply Rabs_pos).
  assert (LLM : Rabs (total (fun i => w i * ln (m i)) (seq 0 N)) <= total_logs N w m).
  { replace (total (fun i => w i * ln (m i)) (seq 0 N)) with (total (fun i => w i * ln (m i)) (seq 0 N) - total (fun _ => 0) (seq 0 N)).
    - unfold total_logs. apply total_abs_diff. intros i Hi. rewrite Rminus_0_r, !Rabs_mult. lra.
    - replace (total (fun _ => 0) (seq 0 N)) with 0; [ring|]. generalize (seq 0 N). induction l as [|k l IH]; cbn [total]; lra. }
  set (W := total_weight N w) in *. set (M := total_logs N w m) in *. set (LL := total (fun i => w i * ln (m i)) (seq 0 N)) in *.
  set (C := M + W * g) in *. assert (WG : 0 <= W * g) by (apply Rmult_le_pos; assumption). assert (C0 : 0 <= C) by (unfold C; lra).
  assert (N20 : 0 <= INR N <= 2 ^ 20).
  { split; [apply pos_INR|]. rewrite INR_IZR_INZ. rewrite pow_IZR. apply IZR_le. exact HN. }
  assert (K20 : 0 <= INR K <= 2 ^ 20).
  { split; [apply pos_INR|]. rewrite INR_IZR_INZ. rewrite pow_IZR. apply IZR_le. exact HK. }
  assert (NUs : 0 <= INR N * uround <= / 2 ^ 30).
  { split; [apply Rmult_le_pos; lra|]. apply Rle_trans with (2 ^ 20 * uround); [apply Rmult_le_compat_r; lra|]. unfold uround. lra. }
  assert (NC0 : 0 <= INR N * uround * C) by (apply Rmult_le_pos; lra).
  assert (UC0 : 0 <= uround * C) by (apply Rmult_le_pos; lra).
  (* underflow *)
  assert (H100 : bpow radix2 (-400) <= / 10 ^ 100).
  { change (-400)%Z with (Z.opp 400). rewrite bpow_opp. change 400%Z with (Z.of_nat 400). rewrite <- pow2_bpow. apply Rinv_le_contravar; [apply pow_lt; lra|].
    change 400%nat with (4 * 100)%nat. rewrite pow_mult. apply pow_incr. cbn. lra. }
  assert (TI : forall c, 0 <= c <= bpow radix2 600 -> c * tiny <= / 10 ^ 100).
  { intros c Hc. eapply Rle_trans; [|exact H100]. apply Rle_trans with (bpow radix2 600 * bpow radix2 (-1074)).
    - pose proof (bpow_gt_0 radix2 (-1074)). apply Rmult_le_compat; lra.
    - rewrite <- bpow_plus. apply bpow_le. lia. }
  assert (B600 : 2 ^ 40 <= bpow radix2 600) by (rewrite (pow2_bpow 40); apply bpow_le; lia).
  unfold fmixed_objective, exact_mixed_objective, objective_error, penalty_size. rewrite EL. fold uround. fold LL. fold C.
  destruct ridge as [r|].
  2: { exists L. split; [reflexivity|]. replace (L - (LL - 0)) with (L - LL) by ring. eapply Rle_trans; [exact AL|].
    rewrite Rmult_0_r. assert (4 * INR N * tiny <= / 10 ^ 100) by (apply TI; lra). lra. }
  destruct (penalty r K theta t HK Hr HPt) as (z & Ez & Fz & Bz & Az). rewrite Ez.
  destruct Hr as (_ & Br & _ & _ & BR). set (Q := total (fun j => theta j * theta j) (seq 0 K)) in *.
  assert (Q0 : 0 <= Q) by (unfold Q; apply total_nonneg; intros i _; apply Rle_0_sqr).
  pose proof (Rabs_pos r) as R0. set (P := Rabs r * Q) in *. assert (P0 : 0 <= P) by (unfold P; apply Rmult_le_pos; lra).
  assert (RQ : Rabs (r * Q) = P) by (unfold P; rewrite Rabs_mult, (Rabs_right Q) by lra; reflexivity).
  assert (KUs : 0 <= INR K * uround <= / 2 ^ 30).
  { split; [apply Rmult_le_pos; lra|]. apply Rle_trans with (2 ^ 20 * uround); [apply Rmult_le_compat_r; lra|]. unfold uround. lra. }
  assert (KP0 : 0 <= INR K * uround * P) by (apply Rmult_le_pos; lra).
  assert (UP0 : 0 <= uround * P) by (apply Rmult_le_pos; lra).
  set (E1 := (el + (6 * INR N + 2) * uround) * C + W * g + 4 * INR N * tiny) in *.
  set (E2 := (3 * INR K + 1) * uround * P + (3 * INR K * Rabs r + 1) * tiny) in *.
  pose proof (rnd_abs (L + - z)) as A. set (o := rnd (L + - z)) in *.
  assert (BLz : Rabs (L + - z) <= bpow radix2 960 + bpow radix2 1002).
  { eapply Rle_trans; [apply Rabs_triang|]. rewrite Rabs_Ropp. lra. }
  assert (SZ : Rabs (L + - z) <= C + E1 + (P + E2)).
  { replace (L + - z) with ((L - LL) + LL + (- (z - r * Q) + - (r * Q))) by ring.
    eapply Rle_trans; [apply Rabs_triang|]. apply Rplus_le_compat.
    - eapply Rle_trans; [apply Rabs_triang|]. unfold C. lra.
    - eapply Rle_trans; [apply Rabs_triang|]. rewrite !Rabs_Ropp, RQ. lra. }
  exists o. split.
  { unfold fsub. cbn [fneg fadd]. fold o. apply overflow_num.
    replace o with ((o - (L + - z)) + (L + - z)) by ring. eapply Rle_lt_trans; [apply Rabs_triang|].
    assert (uround * Rabs (L + - z) <= 1 * Rabs (L + - z)) by (apply Rmult_le_compat_r; [apply Rabs_pos|lra]).
    assert (bpow radix2 960 <= bpow radix2 1002) by (apply bpow_le; lia). assert (1 <= bpow radix2 1002) by (apply (bpow_le radix2 0); lia).
    apply Rle_lt_trans with (8 * bpow radix2 1002); [lra|]. replace (8 * bpow radix2 1002) with (bpow radix2 1005) by (change 1005%Z with (3 + 1002)%Z; rewrite bpow_plus; reflexivity). apply bpow_lt. lia. }
  assert (GO : Rabs (o - (LL - r * Q)) <= E1 + E2 + (uround * (C + E1 + (P + E2)) + tiny)).
  { replace (o - (LL - r * Q)) with ((L - LL) + - (z - r * Q) + (o - (L + - z))) by ring.
    eapply Rle_trans; [apply Rabs_triang|]. apply Rplus_le_compat.
    - eapply Rle_trans; [apply Rabs_triang|]. rewrite Rabs_Ropp. lra.
    - eapply Rle_trans; [exact A|]. apply Rplus_le_compat_r. apply Rmult_le_compat_l; lra. }
  eapply Rle_trans; [exact GO|].
  assert (KRT0 : 0 <= INR K * Rabs r * tiny) by (apply Rmult_le_pos; [apply Rmult_le_pos; lra|lra]).
  assert (NT0 : 0 <= INR N * tiny) by (apply Rmult_le_pos; lra).
  assert (F1 : uround * E1 <= 2 * (uround * C) + uround * (W * g) + INR N * tiny).
  { unfold E1. assert (el * (uround * C) <= 1 * (uround * C)) by (apply Rmult_le_compat_r; lra).
    assert ((6 * INR N + 2) * uround * (uround * C) <= 1 * (uround * C)) by (apply Rmult_le_compat_r; lra).
    assert (4 * uround * (INR N * tiny) <= 1 * (INR N * tiny)) by (apply Rmult_le_compat_r; lra). lra. }
  assert (UWG : uround * (W * g) <= uround * C) by (apply Rmult_le_compat_l; [lra|unfold C; lra]).
  assert (F2 : uround * E2 <= uround * P + INR K * Rabs r * tiny + tiny).
  { unfold E2. assert ((3 * INR K + 1) * uround * (uround * P) <= 1 * (uround * P)) by (apply Rmult_le_compat_r; lra).
    assert (3 * uround * (INR K * Rabs r * tiny) <= 1 * (INR K * Rabs r * tiny)) by (apply Rmult_le_compat_r; lra).
    assert (uround * tiny <= 1 * tiny) by (apply Rmult_le_compat_r; lra). lra. }
  assert (TT : (5 * INR N + 4 * (INR K * Rabs r) + 3) * tiny <= / 10 ^ 100).
  { apply TI. assert (KR : 0 <= INR K * Rabs r <= 2 ^ 20 * 2 ^ 500) by (split; [apply Rmult_le_pos; lra|apply Rmult_le_compat; lra]).
    rewrite <- pow_add in KR. rewrite (pow2_bpow (20 + 500)) in KR. change (Z.of_nat (20 + 500)) with 520%Z in KR.
    assert (B : 16 * bpow radix2 520 <= bpow radix2 600) by (apply Rle_trans with (bpow radix2 524); [change 524%Z with (4 + 520)%Z; rewrite bpow_plus; cbn; lra|apply bpow_le; lia]).
    assert (2 ^ 30 <= bpow radix2 520) by (rewrite (pow2_bpow 30); apply bpow_le; lia). lra. }
  assert (D1 : E1 = (el + (6 * INR N + 2) * uround) * C + W * g + 4 * INR N * tiny) by reflexivity.
  assert (D2 : E2 = (3 * INR K + 1) * uround * P + (3 * INR K * Rabs r + 1) * tiny) by reflexivity. clearbody E1 E2. lra.
Qed.

(** From the probabilities of all rows under all draws to the objective: the computed value is
    within [objective_error] of the weighted sum of the logarithms of the simulated
    probabilities minus the penalty. *)
Theorem C136_mixed_log_likelihood_follows_the_model :
  forall ex eps lg el U y p rows n rmax t tr w order ridge K theta tp,
  accurate_exp ex eps -> 0 <= eps <= / 2 ^ 40 -> accurate_ln lg el -> 0 <= el <= / 2 ^ 40 -> sane_exp ex ->
  (Z.of_nat U <= 2 ^ 20)%Z ->
  (forall u, (u < U)%nat -> decision_maker p (rows u) n (t u) tr /\ (length (rows u) <= rmax)%nat) ->
  (forall u r, (u < U)%nat -> (r < n)%nat -> exp (-690) <= sequence_probability y (fun i => p i r) (rows u)) ->
  (forall u, (u < U)%nat -> double_format (w u) /\ Rabs (w u) <= 2 ^ 900) ->
  Permutation (dterms order) (seq 0 U) ->
  (Z.of_nat K <= 2 ^ 20)%Z -> penalty_in_range ridge K theta -> Permutation (terms_of tp) (seq 0 K) ->
  let m := fun u => simulated_probability y p (rows u) n in
  exists L, fmixed_objective lg w (fun u => fsimulated_prob ex lg y (fun i r => FNum (p i r)) (t u) tr n) order ridge (fun j => FNum (theta j)) tp = FNum L /\
    Rabs (L - exact_mixed_objective U w m ridge K theta) <=
      objective_error el U K (total_weight U w) (total_logs U w m) (penalty_size ridge K theta) (simulated_error eps el rmax n).
Proof.
  intros ex eps lg el U y p rows n rmax t tr w order ridge K theta tp Hex Heps Hlg Hel Hsane HU HD Hq Hw HP HK Hr HPt m.
  pose proof inv_2_40 as T40. pose proof uround_pos as U0.
  set (s := fun u => fsimulated_prob ex lg y (fun i r => FNum (p i r)) (t u) tr n).
  set (x := fun u => match s u with FNum v => v | _ => 0 end).
  assert (HX : forall u, (u < U)%nat -> s u = FNum (x u) /\ double_format (x u) /\ 0 < x u <= 1 /\ Rabs (ln (x u) - ln (m u)) <= simulated_error eps el rmax n).
  { intros u Hu. destruct (HD u Hu) as (D & LR).
    destruct (C136_simulated_probability_is_accurate ex eps lg el y p (rows u) n (t u) tr Hex Heps Hlg Hel Hsane D) as (v & E & F & B & A); [intros r Hr'; apply Hq; assumption|].
    unfold x. fold (s u) in E. rewrite E. split; [reflexivity|]. split; [exact F|]. split; [exact B|]. eapply Rle_trans; [exact A|].
    unfold simulated_error. fold uround. apply le_INR in LR. assert (INR (length (rows u)) * uround <= INR rmax * uround) by (apply Rmult_le_compat_r; lra). lra. }
  destruct (C136_mixed_objective_is_accurate lg el U w x m (simulated_error eps el rmax n) order ridge K theta tp Hlg ltac:(lra) HU Hw) as (L & E & A); try assumption.
  - intros u Hu. destruct (HX u Hu) as (_ & F & B & _). split; [exact F|]. split; [lra|]. apply Rle_lt_trans with 1; [lra|apply (bpow_lt radix2 0); lia].
  - intros u Hu. apply HX. exact Hu.
  - unfold simulated_error. fold uround. pose proof (pos_INR rmax). pose proof (pos_INR n).
    assert (0 <= INR rmax * uround) by (apply Rmult_le_pos; lra). assert (0 <= (INR n + 1) * uround) by (apply Rmult_le_pos; lra). lra.
  - exists L. split; [|exact A]. rewrite <- E. unfold fmixed_objective.
    assert (EE : fdot order (fun u => FNum (w u)) (fun u => fln lg (s u)) = fdot order (fun u => FNum (w u)) (fun u => fln lg (FNum (x u)))).
    { apply fdot_ext. intros k Hk. split; [reflexivity|]. f_equal. apply HX. apply (Permutation_in _ HP), in_seq in Hk. lia. }
    rewrite EE. reflexivity.
Qed.

(** ** Long sequences of choices *)

Lemma unlikely_sequence ex lg el y p rows t :
  vanishing_exp ex -> accurate_ln lg el -> 0 <= el <= / 2 ^ 40 -> (Z.of_nat (length rows) <= 2 ^ 20)%Z -> Permutation (terms_of t) rows ->
  (forall i, In i rows -> double_format (p i) /\ 0 < p i <= 1) ->
  sequence_probability y p rows <= exp (-750) ->
  fsequence_prob ex lg y (fun i => FNum (p i)) t = FNum fmin_comp_value.
Proof.
  intros Hv Hlg Hel HN HP Hp Hq. pose proof inv_2_40 as T40. pose proof uround_pos as U0. pose proof FloatNear.uround_small as U1.
  destruct (log_sequence lg el y p rows t Hlg ltac:(lra) HN HP Hp) as (L & EL & L0 & M0 & LB & _).
  assert (N20 : 0 <= INR (length rows) <= 2 ^ 20).
  { split; [apply pos_INR|]. rewrite INR_IZR_INZ. rewrite pow_IZR. apply IZR_le. exact HN. }
  assert (NU : 0 <= INR (length rows) * uround <= / 2 ^ 30).
  { split; [apply Rmult_le_pos; lra|]. apply Rle_trans with (2 ^ 20 * uround); [apply Rmult_le_compat_r; lra|]. unfold uround. lra. }
  assert (M750 : 750 <= - ln (sequence_probability y p rows)).
  { assert (ln (sequence_probability y p rows) <= -750); [|lra]. rewrite <- (ln_exp (-750)). apply ln_mono; [|exact Hq]. apply sequence_positive. intros i Hi. apply Hp, Hi. }
  pose proof (pow1mu_ge (length rows)) as PL.
  assert (CL : 999 / 1000 <= (1 - el) * (1 - uround) ^ length rows).
  { apply Rle_trans with ((1 - el) * (1 - INR (length rows) * uround)); [nra|apply Rmult_le_compat_l; lra]. }
  assert (LL : L <= -746).
  { assert (999 / 1000 * 750 <= - L); [|lra]. eapply Rle_trans; [|exact LB]. apply Rmult_le_compat; lra. }
  unfold fsequence_prob. rewrite EL. cbn [fexp]. rewrite (Hv L LL). rewrite overflow_num by (rewrite Rabs_R0; apply bpow_gt_0).
  cbn [fguard_zero]. destruct (Req_EM_T 0 0); [reflexivity|lra].
Qed.

Lemma fmin_size : bpow radix2 (-997) <= fmin_comp_value <= bpow radix2 (-996).
Proof.
  destruct ten_300 as (A & B). pose proof (bpow_gt_0 radix2 996) as P.
  assert (Q : bpow radix2 (-997) <= / 10 ^ 300 <= bpow radix2 (-996)).
  { change (-997)%Z with (Z.opp 997). change (-996)%Z with (Z.opp 996). rewrite !bpow_opp. split; apply Rinv_le_contravar; lra. }
  assert (FB : forall e, (-1074 <= e)%Z -> double_format (bpow radix2 e)) by (intros e He; apply generic_format_bpow; unfold FLT_exp; lia).
  unfold fmin_comp_value. change ChoiceCalcs.min_comp_value with (/ 10 ^ 300).
  split; [rewrite <- (rnd_id (bpow radix2 (-997))) by (apply FB; lia)|rewrite <- (rnd_id (bpow radix2 (-996))) by (apply FB; lia)]; apply rnd_le; apply Q.
Qed.

(** Once every draw makes the choices of a decision maker less likely than exp(-750), their
    computed simulated probability no longer depends on the probabilities: it is the same
    number, near 1e-300, for all of them, so the objective is flat there. *)
Theorem C136_refuted_flat_for_unlikely_sequences :
  forall ex lg el y rows n t tr,
  vanishing_exp ex -> accurate_ln lg el -> 0 <= el <= / 2 ^ 40 ->
  exists s, bpow radix2 (-997) <= s <= bpow radix2 (-996) /\
  forall p, decision_maker p rows n t tr ->
    (forall r, (r < n)%nat -> sequence_probability y (fun i => p i r) rows <= exp (-750)) ->
    fsimulated_prob ex lg y (fun i r => FNum (p i r)) t tr n = FNum s.
Proof.
  intros ex lg el y rows n t tr Hv Hlg Hel.
  set (c := fdiv (fsum tr (fun _ => FNum fmin_comp_value)) (FNum (INR n))).
  assert (K : forall p, decision_maker p rows n t tr -> (forall r, (r < n)%nat -> sequence_probability y (fun i => p i r) rows <= exp (-750)) ->
     fsimulated_prob ex lg y (fun i r => FNum (p i r)) t tr n = c).
  { intros p (HP & HPr & HN & n0 & Hn & Hp) Hq. unfold fsimulated_prob, c. f_equal. apply fsum_ext. intros r Hr. apply (Permutation_in _ HPr), in_seq in Hr.
    apply (unlikely_sequence ex lg el y (fun i => p i r) rows t Hv Hlg Hel HN HP); [intros i Hi; apply Hp; [exact Hi|lia]|apply Hq; lia]. }
  destruct (classic (exists p, decision_maker p rows n t tr)) as [(p & HD)|HD].
  - destruct HD as (HP & HPr & HN & n0 & Hn & Hp).
    destruct (mean_between (-997) (-996) tr n (fun _ => FNum fmin_comp_value)) as (s & E & F & B); try lia; try assumption.
    { intros r Hr. exists fmin_comp_value. split; [reflexivity|]. split; [apply rnd_format|apply fmin_size]. }
    exists s. split; [exact B|]. intros p' HD' Hq'. rewrite <- E. apply K; assumption.
  - exists (bpow radix2 (-997)). split; [split; [lra|apply bpow_le; lia]|]. intros p HD'. exfalso. apply HD. exists p. exact HD'.
Qed.

(** The order of two decision makers is reversed: [A], whose choices are less likely than
    exp(-750) in every draw, gets a larger computed probability than [B], whose choices are
    more likely (between exp(-699) and exp(-696)). *)
Theorem C136_refuted_order_of_unlikely_sequences :
  forall ex eps lg el yA yB pA pB rowsA rowsB n tA tB tr,
  vanishing_exp ex -> accurate_exp ex eps -> 0 <= eps <= / 2 ^ 40 -> accurate_ln lg el -> 0 <= el <= / 2 ^ 40 ->
  decision_maker pA rowsA n tA tr -> decision_maker pB rowsB n tB tr ->
  (forall r, (r < n)%nat -> sequence_probability yA (fun i => pA i r) rowsA <= exp (-750)) ->
  (forall r, (r < n)%nat -> exp (-699) <= sequence_probability yB (fun i => pB i r) rowsB <= exp (-696)) ->
  exists a b, fsimulated_prob ex lg yA (fun i r => FNum (pA i r)) tA tr n = FNum a /\
    fsimulated_prob ex lg yB (fun i r => FNum (pB i r)) tB tr n = FNum b /\
    b < a /\ simulated_probability yA pA rowsA n < simulated_probability yB pB rowsB n.
Proof.
  intros ex eps lg el yA yB pA pB rowsA rowsB n tA tB tr Hv Hex Heps Hlg Hel DA DB HA HB.
  destruct (C136_refuted_flat_for_unlikely_sequences ex lg el yA rowsA n tA tr Hv Hlg Hel) as (a & Ba & Ka).
  exists a. pose proof inv_2_40 as T40. pose proof uround_pos as U0. pose proof FloatNear.uround_small as U1.
  destruct DB as (HP & HPr & HN & n0 & Hn & Hp).
  destruct (mean_between (-1074) (-1000) tr n (fun r => fsequence_prob ex lg yB (fun i => FNum (pB i r)) tB)) as (b & Eb & Fb & Bb); try lia; try assumption.
  - intros r Hr. assert (Hpr : forall i, In i rowsB -> double_format (pB i r) /\ 0 < pB i r <= 1) by (intros i Hi; apply Hp; assumption).
    destruct (log_sequence lg el yB (fun i => pB i r) rowsB tB Hlg ltac:(lra) HN HP Hpr) as (L & EL & L0 & M0 & LB).
    destruct (HB r Hr) as (Q1 & Q2). set (q := sequence_probability yB (fun i => pB i r) rowsB) in *.
    assert (q0 : 0 < q) by (eapply Rlt_le_trans; [apply exp_pos|exact Q1]).
    assert (M1 : 696 <= - ln q <= 699).
    { assert (ln q <= -696) by (rewrite <- (ln_exp (-696)); apply ln_mono; assumption).
      assert (-699 <= ln q) by (rewrite <- (ln_exp (-699)); apply ln_mono; [apply exp_pos|assumption]). lra. }
    set (N := length rowsB) in *.
    assert (N20 : 0 <= INR N <= 2 ^ 20).
    { split; [apply pos_INR|]. rewrite INR_IZR_INZ. rewrite pow_IZR. apply IZR_le. exact HN. }
    assert (NU : 0 <= INR N * uround <= / 2 ^ 30).
    { split; [apply Rmult_le_pos; lra|]. apply Rle_trans with (2 ^ 20 * uround); [apply Rmult_le_compat_r; lra|]. unfold uround. lra. }
    pose proof (pow1u_le N ltac:(lra)) as PU. pose proof (pow1mu_ge N) as PL. pose proof (pow1u_ge1 N) as PG.
    assert (CU : (1 + el) * (1 + uround) ^ N <= 10001 / 10000).
    { apply Rle_trans with ((1 + el) * (1 + 2 * (INR N * uround))); [apply Rmult_le_compat_l; lra|]. nra. }
    assert (CL : 9999 / 10000 <= (1 - el) * (1 - uround) ^ N).
    { apply Rle_trans with ((1 - el) * (1 - INR N * uround)); [nra|apply Rmult_le_compat_l; lra]. }
    assert (LR : -700 <= L <= -695).
    { assert (- L <= 10001 / 10000 * (- ln q)) by (eapply Rle_trans; [apply LB|apply Rmult_le_compat_r; assumption]).
      assert (9999 / 10000 * (- ln q) <= - L) by (eapply Rle_trans; [|apply LB]; apply Rmult_le_compat_r; assumption). lra. }
    destruct (exp_num ex eps L Hex Heps ltac:(lra)) as (Ex & Fx & X0 & Ax).
    exists (ex L). unfold fsequence_prob. rewrite EL, Ex. cbn [fguard_zero]. destruct (Req_EM_T (ex L) 0); [lra|].
    split; [reflexivity|]. split; [exact Fx|]. split; [apply double_ge_tiny; [exact Fx|lra]|].
    apply Rabs_le_inv in Ax. pose proof (exp_pos L). assert (EB : ex L <= 2 * exp L) by nra. eapply Rle_trans; [exact EB|].
    replace (bpow radix2 (-1000)) with (2 * bpow radix2 (-1001)) by (change (-1000)%Z with (1 + -1001)%Z; rewrite bpow_plus; reflexivity).
    apply Rmult_le_compat_l; [lra|]. apply Rle_trans with (exp (-695)); [apply exp_mono; lra|].
    replace (-695) with (- (695)) by lra. rewrite exp_Ropp. change (-1001)%Z with (Z.opp 1001). rewrite bpow_opp.
    apply Rinv_le_contravar; [apply bpow_gt_0|]. apply bpow_le_exp; [lia|]. lra.
  - exists b. split; [apply Ka; assumption|]. split; [exact Eb|]. split.
    + eapply Rle_lt_trans; [apply Bb|]. eapply Rlt_le_trans; [|apply Ba]. apply bpow_lt. lia.
    + unfold simulated_probability. assert (N0 : 0 < INR n) by (apply lt_0_INR; exact n0).
      apply Rmult_lt_compat_r; [apply Rinv_0_lt_compat; exact N0|].
      assert (T1 : total (fun r => sequence_probability yA (fun i => pA i r) rowsA) (seq 0 n) <= INR n * exp (-750)).
      { replace (INR n) with (INR (length (seq 0 n))) by (rewrite seq_length; reflexivity). apply total_const_le. intros r Hr. apply in_seq in Hr. apply HA. lia. }
      assert (T2 : INR n * exp (-699) <= total (fun r => sequence_probability yB (fun i => pB i r) rowsB) (seq 0 n)).
      { rewrite total_lsum. replace (INR n) with (INR (length (seq 0 n))) by (rewrite seq_length; reflexivity). rewrite <- lsum_const.
        apply lsum_le. intros r Hr. apply in_seq in Hr. apply HB. lia. }
      assert (exp (-750) < exp (-699)) by (apply exp_increasing; lra).
      eapply Rle_lt_trans; [exact T1|]. eapply Rlt_le_trans; [|exact T2]. apply Rmult_lt_compat_l; assumption.
Qed.

(** ** Non-vacuity *)

Fixpoint in_order (l : list nat) : sum_order := match l with [] => SNothing | i :: l => SPlus (STerm i) (in_order l) end.
Lemma in_order_terms l : terms_of (in_order l) = l.
Proof. induction l as [|i l IH]; cbn; [reflexivity|]. f_equal. exact IH. Qed.

Lemma half_format : double_format (/ 2).
Proof. change (/ 2) with (bpow radix2 (-1)). apply generic_format_bpow. cbn. lia. Qed.

Lemma sequence_of_halves rows : sequence_probability (fun _ => true) (fun _ => / 2) rows = exp (- (INR (length rows) * ln 2)).
Proof.
  induction rows as [|i rows IH]; cbn [sequence_probability length]; [rewrite Rmult_0_l, Ropp_0, exp_0; reflexivity|].
  rewrite IH, S_INR. replace (- ((INR (length rows) + 1) * ln 2)) with (- ln 2 + - (INR (length rows) * ln 2)) by ring.
  rewrite exp_plus, (exp_Ropp (ln 2)), exp_ln by lra. reflexivity.
Qed.

Example C136_correctly_rounded_exp_vanishes : vanishing_exp (fun c => rnd (exp c)).
Proof.
  intros x Hx. apply rnd_tiny; [apply exp_pos|]. apply Rlt_le_trans with (exp (- (7455 / 10))); [apply exp_increasing; lra|].
  rewrite exp_Ropp. change (-1075)%Z with (Z.opp 1075). rewrite bpow_opp. apply Rinv_le_contravar; [apply bpow_gt_0|]. apply bpow_le_exp; [lia|]. lra.
Qed.

(** 1005 and 1100 choices between two equally likely alternatives (only the chosen rows
    matter), three draws. *)
Example C136_long_sequences k : (Z.of_nat k <= 2 ^ 20)%Z ->
  decision_maker (fun _ _ => / 2) (seq 0 k) 3 (in_order (seq 0 k)) (in_order (seq 0 3)).
Proof.
  intros Hk. unfold decision_maker. rewrite !in_order_terms, seq_length. split; [reflexivity|]. split; [reflexivity|]. split.
  - exact Hk.
  - split; [lia|]. split; [reflexivity|]. intros i r _ _. split; [apply half_format|lra].
Qed.

Example C136_shorter_sequence_is_more_likely :
  let q := fun k => sequence_probability (fun _ => true) (fun _ => / 2) (seq 0 k) in
  q 1100%nat <= exp (-750) /\ exp (-699) <= q 1005%nat <= exp (-696).
Proof.
  cbv beta zeta. rewrite !sequence_of_halves, !seq_length. rewrite !INR_IZR_INZ.
  change (Z.of_nat 1100) with 1100%Z. change (Z.of_nat 1005) with 1005%Z. pose proof ln_2_sharp.
  split; [|split]; apply exp_mono; lra.
Qed.

(** Two rows, two draws. *)
Example C136_ordinary_decision_maker :
  let p := fun i r : nat => if (i =? r)%nat then / 2 else 1 in
  decision_maker p [0; 1]%nat 2 (in_order [0; 1]%nat) (in_order [0; 1]%nat) /\
  forall y r, (r < 2)%nat -> exp (-690) <= sequence_probability y (fun i => p i r) [0; 1]%nat.
Proof.
  intros p. split.
  - unfold decision_maker. rewrite !in_order_terms. split; [reflexivity|]. split; [reflexivity|]. split; [cbn; lia|]. split; [lia|]. split; [cbn; lia|].
    intros i r _ _. unfold p. destruct (i =? r)%nat; split; try lra; [apply half_format|apply double_1].
  - intros y r _. assert (exp (-690) <= / 4).
    { apply Rle_trans with (exp (-3)); [apply exp_mono; lra|]. replace (-3) with (- (3)) by lra. rewrite exp_Ropp. apply Rinv_le_contravar; [lra|].
      pose proof (exp_ge_linear 3). lra. }
    unfold p. cbn [sequence_probability]. destruct (y 0%nat), (y 1%nat), (0 =? r)%nat, (1 =? r)%nat; lra.
Qed.

Print Assumptions C136_simulated_probability_is_a_number.
Print Assumptions C136_simulated_probability_is_accurate.
Print Assumptions C136_mixed_objective_is_accurate.
Print Assumptions C136_mixed_log_likelihood_follows_the_model.
Print Assumptions C136_refuted_flat_for_unlikely_sequences.
Print Assumptions C136_refuted_order_of_unlikely_sequences.
