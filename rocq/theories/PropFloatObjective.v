(** C130: the objective of estimation in double precision. *)
From Coq Require Import ZArith Reals Lra Lia List Permutation Bool Arith.
From Flocq Require Import Core.
From Verif Require Import Res Vec Arr ChoiceCalcs NestedCalcs SpecLogit Transforms ChoiceFacts NestedFacts Floats FloatFacts FloatTransforms FloatUtilities FloatNested FloatLogit FloatNear FloatObjective PropFloats PropFloatUtilities PropFloatAccuracy PropFloatLogit PropFloatNested PropFloatNestedData.
Import ListNotations.
Open Scope R_scope.

#[local] Instance prec_53o : Prec_gt_0 53 := FloatFacts.prec_53.

(** ** Specification *)

(** Weighted log-likelihood minus ridge penalty. *)
Definition exact_objective (N : nat) (y w p : nat -> R) (ridge : option R) (K : nat) (theta : nat -> R) : R :=
  total (fun i => y i * (w i * ln (p i))) (seq 0 N) -
  match ridge with None => 0 | Some r => r * total (fun j => theta j * theta j) (seq 0 K) end.

(** Total weight of the chosen rows; their weighted logarithms without regard to sign; the
    penalty without regard to sign. *)
Definition chosen_weight (N : nat) (y w : nat -> R) : R := total (fun i => y i * Rabs (w i)) (seq 0 N).
Definition chosen_logs (N : nat) (y w p : nat -> R) : R := total (fun i => y i * (Rabs (w i) * Rabs (ln (p i)))) (seq 0 N).
Definition penalty_size (ridge : option R) (K : nat) (theta : nat -> R) : R :=
  match ridge with None => 0 | Some r => Rabs r * total (fun j => theta j * theta j) (seq 0 K) end.

(** [g]: error of the logarithms of the chosen probabilities; [el]: relative error of np.log. *)
Definition objective_error (el : R) (N K : nat) (W M P g : R) : R :=
  (el + 6 * (INR N + 1) * / 2 ^ 53) * (M + W * g) + W * g + 3 * (INR K + 1) * / 2 ^ 53 * P + / 10 ^ 100.

(** Weights and penalty factor are doubles of at most 2^900 and 2^500, parameters are doubles
    and their penalty is at most 2^1000. *)
Definition weights_in_range (N : nat) (y w : nat -> R) : Prop :=
  forall i, (i < N)%nat -> (y i = 0 \/ y i = 1) /\ double_format (w i) /\ Rabs (w i) <= 2 ^ 900.
Definition penalty_in_range (ridge : option R) (K : nat) (theta : nat -> R) : Prop :=
  match ridge with
  | None => True
  | Some r => double_format r /\ Rabs r <= 2 ^ 500 /\ (forall j, (j < K)%nat -> double_format (theta j)) /\
      total (fun j => theta j * theta j) (seq 0 K) <= 2 ^ 1000 /\ Rabs r * total (fun j => theta j * theta j) (seq 0 K) <= 2 ^ 1000
  end.

(** ** Facts *)
Lemma fdot_ext t x y x' y' : (forall k, In k (dterms t) -> x k = x' k /\ y k = y' k) -> fdot t x y = fdot t x' y'.
Proof.
  induction t as [|k|a IHa b IHb|a IHa k]; cbn [fdot dterms]; intros H; [reflexivity| | |].
  - destruct (H k (or_introl eq_refl)) as (-> & ->). reflexivity.
  - rewrite IHa, IHb; [reflexivity| |]; intros; apply H, in_or_app; auto.
  - rewrite IHa by (intros; apply H, in_or_app; auto). destruct (H k) as (-> & ->); [apply in_or_app; right; left; reflexivity|]. reflexivity.
Qed.

Fixpoint dot_of (t : sum_order) : dot_order :=
  match t with SNothing => DZero | STerm i => DTerm i | SPlus a b => DPlus (dot_of a) (dot_of b) end.
Lemma dterms_dot_of t : dterms (dot_of t) = terms_of t.
Proof. induction t as [|i|a IHa b IHb]; cbn; [reflexivity|reflexivity|rewrite IHa, IHb; reflexivity]. Qed.
Lemma fsum_is_fdot t x y : fsum t (fun k => fmul (x k) (y k)) = fdot (dot_of t) x y.
Proof. induction t as [|i|a IHa b IHb]; cbn; [reflexivity|reflexivity|rewrite IHa, IHb; reflexivity]. Qed.

Lemma rnd_abs x : Rabs (rnd x - x) <= uround * Rabs x + tiny.
Proof.
  destruct (rnd_error x) as (d & h & Hd & Hh & ->). replace (x * (1 + d) + h - x) with (d * x + h) by ring.
  eapply Rle_trans; [apply Rabs_triang|]. rewrite Rabs_mult. pose proof (Rabs_pos x).
  assert (Rabs d * Rabs x <= uround * Rabs x) by (apply Rmult_le_compat_r; assumption). lra.
Qed.

Lemma pow2_bpow (e : nat) : 2 ^ e = bpow radix2 (Z.of_nat e).
Proof. rewrite bpow_powerRZ. cbn [radix_val radix2]. rewrite <- pow_powerRZ. reflexivity. Qed.

(** logarithms of positive doubles *)
Lemma log_of_double x : double_format x -> 0 < x < bpow radix2 1024 -> Rabs (ln x) <= 800.
Proof.
  intros F H. destruct ln_2_sharp as (L & U).
  assert (B : bpow radix2 (-1074) <= x).
  { assert (Q : exists m, x = IZR m * bpow radix2 (-1074)).
    { destruct (FLT_format_generic radix2 (-1074) 53 x F) as [[m e] E1 E2 E3]. cbn in E2, E3. subst x. unfold F2R. cbn [Fnum Fexp].
      exists (m * 2 ^ (e + 1074))%Z. rewrite mult_IZR. change 2%Z with (radix_val radix2). rewrite IZR_Zpower by lia. rewrite Rmult_assoc, <- bpow_plus. f_equal. f_equal. lia. }
    destruct Q as (m & E). pose proof (bpow_gt_0 radix2 (-1074)) as P. assert (0 < IZR m) by (destruct (Rlt_dec 0 (IZR m)) as [|n]; [assumption|exfalso; apply Rnot_lt_le in n; nra]).
    apply lt_IZR in H0. assert (1 <= IZR m) by (apply IZR_le; lia). rewrite E. nra. }
  assert (LB : forall e, ln (bpow radix2 e) = IZR e * ln 2) by (intros e; rewrite bpow_exp, ln_exp; reflexivity).
  apply Rabs_le. split.
  - apply Rle_trans with (ln (bpow radix2 (-1074))); [rewrite LB; lra|apply ln_mono; [apply bpow_gt_0|exact B]].
  - apply Rle_trans with (ln (bpow radix2 1024)); [apply ln_mono; lra|rewrite LB; lra].
Qed.

Lemma total_le f g l : (forall i, In i l -> f i <= g i) -> total f l <= total g l.
Proof. rewrite !total_lsum. apply lsum_le. Qed.
Lemma total_abs_diff f g h l : (forall i, In i l -> Rabs (f i - g i) <= h i) -> Rabs (total f l - total g l) <= total h l.
Proof.
  intros H. induction l as [|i l IH]; cbn [total]; [rewrite Rminus_0_r, Rabs_R0; lra|].
  replace (f i + total f l - (g i + total g l)) with ((f i - g i) + (total f l - total g l)) by ring.
  eapply Rle_trans; [apply Rabs_triang|]. apply Rplus_le_compat; [apply H; left; reflexivity|apply IH; intros; apply H; right; assumption].
Qed.
Lemma total_const_le f c l : (forall i, In i l -> f i <= c) -> total f l <= INR (length l) * c.
Proof.
  intros H. induction l as [|i l IH]; cbn [total length]; [cbn; lra|]. rewrite S_INR.
  pose proof (H i (or_introl eq_refl)). assert (total f l <= INR (length l) * c) by (apply IH; intros; apply H; right; assumption). lra.
Qed.
Lemma total_lin a b c f g l : total (fun i => a * f i + b * g i + c) l = a * total f l + b * total g l + INR (length l) * c.
Proof. induction l as [|i l IH]; cbn [total length]; [cbn; ring|]. rewrite IH, S_INR. ring. Qed.
Lemma total_nonneg f l : (forall i, In i l -> 0 <= f i) -> 0 <= total f l.
Proof. rewrite total_lsum. apply lsum_ge0. Qed.

(** the weighted log-likelihood *)
Lemma weighted_ll lg el N y w (x p : nat -> R) g order :
  accurate_ln lg el -> 0 <= el <= 1 -> (Z.of_nat N <= 2 ^ 20)%Z -> weights_in_range N y w ->
  (forall i, (i < N)%nat -> double_format (x i) /\ 0 < x i < bpow radix2 1024) ->
  (forall i, (i < N)%nat -> y i = 1 -> Rabs (ln (x i) - ln (p i)) <= g) -> 0 <= g ->
  Permutation (dterms order) (seq 0 N) ->
  let C := chosen_logs N y w p + chosen_weight N y w * g in
  exists L, float_weighted_ll lg y w (fun i => FNum (x i)) order = FNum L /\ double_format L /\ Rabs L <= bpow radix2 960 /\
    Rabs (L - total (fun i => y i * (w i * ln (p i))) (seq 0 N)) <=
      (el + (6 * INR N + 2) * uround) * C + chosen_weight N y w * g + 4 * INR N * tiny.
Proof.
  intros Hlg Hel HN Hw Hx Hg g0 HP C. pose proof uround_pos as U0. pose proof FloatNear.uround_small as U1. pose proof tiny_le_u as (T0 & TU).
  set (a := fun i => lg (x i)). set (b := fun i => rnd (w i * a i)). set (c := fun i => Rabs (w i) * (Rabs (ln (p i)) + g)).
  assert (N20 : 0 <= INR N <= 2 ^ 20).
  { split; [apply pos_INR|]. rewrite INR_IZR_INZ. rewrite pow_IZR. apply IZR_le. exact HN. }
  assert (B900 : 2 ^ 900 = bpow radix2 900) by apply pow2_bpow. assert (P900 : 0 < bpow radix2 900) by apply bpow_gt_0.
  assert (B913 : 4096 * bpow radix2 900 = bpow radix2 912) by (change 912%Z with (12 + 900)%Z; rewrite bpow_plus; reflexivity).
  assert (one900 : 1 <= bpow radix2 900) by (apply (bpow_le radix2 0 900); lia).
  assert (HA : forall i, (i < N)%nat -> double_format (a i) /\ Rabs (a i - ln (x i)) <= el * Rabs (ln (x i)) /\ Rabs (a i) <= 1600).
  { intros i Hi. destruct (Hx i Hi) as (F & B). destruct (Hlg (x i) F B) as (Fa & Ea). fold (a i) in Fa, Ea. split; [exact Fa|]. split; [exact Ea|].
    pose proof (log_of_double (x i) F B) as LB. pose proof (Rabs_pos (ln (x i))) as R0.
    replace (a i) with ((a i - ln (x i)) + ln (x i)) by ring. eapply Rle_trans; [apply Rabs_triang|].
    assert (el * Rabs (ln (x i)) <= 1 * Rabs (ln (x i))) by (apply Rmult_le_compat_r; lra). lra. }
  assert (HB : forall i, (i < N)%nat -> Rabs (w i * a i) <= 1600 * bpow radix2 900 /\ Rabs (b i) <= bpow radix2 912 /\ Rabs (b i - w i * a i) <= uround * Rabs (w i * a i) + tiny).
  { intros i Hi. destruct (HA i Hi) as (_ & _ & LA). destruct (Hw i Hi) as (_ & _ & LW). rewrite B900 in LW.
    assert (Q : Rabs (w i * a i) <= 1600 * bpow radix2 900).
    { rewrite Rabs_mult. rewrite (Rmult_comm 1600). apply Rmult_le_compat; try apply Rabs_pos; lra. }
    split; [exact Q|]. pose proof (rnd_abs (w i * a i)) as R. fold (b i) in R. split; [|exact R].
    replace (b i) with ((b i - w i * a i) + w i * a i) by ring. eapply Rle_trans; [apply Rabs_triang|].
    assert (uround * Rabs (w i * a i) <= 1 * Rabs (w i * a i)) by (apply Rmult_le_compat_r; [apply Rabs_pos|lra]).
    assert (tiny <= bpow radix2 900) by lra. lra. }
  assert (HT : forall i, (i < N)%nat -> fmul (FNum (w i)) (fln lg (FNum (x i))) = FNum (b i)).
  { intros i Hi. destruct (Hx i Hi) as (_ & B). destruct (HB i Hi) as (_ & BB & _). cbn [fln]. destruct (Rlt_dec 0 (x i)); [|lra]. cbn [fmul].
    apply overflow_num. eapply Rle_lt_trans; [exact BB|apply bpow_lt; lia]. }
  assert (IN : forall k, In k (dterms order) -> (k < N)%nat) by (intros k Hk; apply (Permutation_in _ HP), in_seq in Hk; lia).
  assert (LEN : length (dterms order) = N) by (rewrite (Permutation_length HP); apply seq_length).
  assert (Y01 : forall i, (i < N)%nat -> 0 <= y i <= 1) by (intros i Hi; destruct (Hw i Hi) as ([-> | ->] & _); lra).
  set (S := lsum (fun k => Rabs (y k * b k)) (dterms order)).
  assert (ES : S = total (fun k => y k * Rabs (b k)) (seq 0 N)).
  { unfold S. rewrite (total_lsum (fun k => y k * Rabs (b k))). rewrite (lsum_perm _ _ _ HP). apply lsum_ext. intros i Hi. apply in_seq in Hi. rewrite Rabs_mult, (Rabs_right (y i)); [reflexivity|]. apply Rle_ge. apply Y01. lia. }
  assert (S0 : 0 <= S) by (unfold S; apply lsum_abs_ge0).
  assert (SB : S <= INR N * bpow radix2 912).
  { rewrite ES. replace (INR N) with (INR (length (seq 0 N))) by (rewrite seq_length; reflexivity). apply total_const_le. intros i Hi. apply in_seq in Hi.
    destruct (HB i ltac:(lia)) as (_ & BB & _). pose proof (Rabs_pos (b i)). pose proof (Y01 i ltac:(lia)).
    apply Rle_trans with (1 * Rabs (b i)); [apply Rmult_le_compat_r; lra|lra]. }
  assert (P912 : 1 <= bpow radix2 912) by (apply (bpow_le radix2 0 912); lia).
  assert (B20 : 2 ^ 20 = bpow radix2 20) by apply pow2_bpow.
  assert (B932 : bpow radix2 20 * bpow radix2 912 = bpow radix2 932) by (rewrite <- bpow_plus; reflexivity).
  assert (SB2 : S <= bpow radix2 932).
  { eapply Rle_trans; [exact SB|]. rewrite <- B932, <- B20. apply Rmult_le_compat_r; lra. }
  assert (NU : 0 <= INR N * uround <= / 2 ^ 30).
  { split; [apply Rmult_le_pos; lra|]. apply Rle_trans with (2 ^ 20 * uround); [apply Rmult_le_compat_r; lra|]. unfold uround. lra. }
  destruct (fdot_error y b order (bpow radix2 935)) as (L & EL & FL & _ & AL).
  { intros k Hk. split; [|apply rnd_format]. destruct (Hw k (IN k Hk)) as ([-> | ->] & _); [apply generic_format_0|apply double_1]. }
  { rewrite LEN. fold S. pose proof (pow1u_le N ltac:(lra)) as PG. pose proof (pow1u_ge1 N).
    assert (INR N * tiny <= bpow radix2 932).
    { apply Rle_trans with (INR N * uround); [apply Rmult_le_compat_l; lra|]. apply Rle_trans with 1; [lra|apply (bpow_le radix2 0); lia]. }
    assert (B935 : bpow radix2 935 = 8 * bpow radix2 932) by (change 935%Z with (3 + 932)%Z; rewrite bpow_plus; reflexivity). rewrite B935.
    assert (0 <= INR N * tiny) by (apply Rmult_le_pos; lra). pose proof (bpow_gt_0 radix2 932).
    apply Rle_trans with (2 * (2 * bpow radix2 932)); [apply Rmult_le_compat; lra|lra]. }
  { apply bpow_lt. lia. }
  rewrite LEN in AL. fold S in AL.
  assert (ESB : lsum (fun k => y k * b k) (dterms order) = total (fun k => y k * b k) (seq 0 N)) by (rewrite (total_lsum (fun k => y k * b k) (seq 0 N)); apply lsum_perm; exact HP).
  rewrite ESB in AL. set (YB := total (fun k => y k * b k) (seq 0 N)) in *.
  (* rows *)
  assert (ROW : forall i, (i < N)%nat -> Rabs (y i * b i - y i * (w i * ln (p i))) <= (el + 2 * uround) * (y i * c i) + g * (y i * Rabs (w i)) + tiny /\
                                       y i * Rabs (b i) <= 3 * (y i * c i) + 0 * (y i * Rabs (w i)) + tiny).
  { intros i Hi. destruct (Hw i Hi) as (Hy & _). destruct (HA i Hi) as (_ & Ea & _). destruct (HB i Hi) as (_ & _ & Eb).
    destruct Hy as [Y|Y]; [rewrite Y, !Rmult_0_l, Rminus_0_r, Rabs_R0; lra|]. specialize (Hg i Hi Y). rewrite Y, !Rmult_1_l.
    pose proof (Rabs_pos (w i)) as W0. pose proof (Rabs_pos (ln (p i))) as LP0. pose proof (Rabs_pos (ln (x i))) as LX0.
    assert (LX : Rabs (ln (x i)) <= Rabs (ln (p i)) + g).
    { replace (ln (x i)) with ((ln (x i) - ln (p i)) + ln (p i)) by ring. eapply Rle_trans; [apply Rabs_triang|]. lra. }
    assert (C0 : 0 <= c i) by (unfold c; apply Rmult_le_pos; lra).
    assert (EL0 : el * Rabs (ln (x i)) <= el * (Rabs (ln (p i)) + g)) by (apply Rmult_le_compat_l; lra).
    assert (D1 : Rabs (a i - ln (p i)) <= el * (Rabs (ln (p i)) + g) + g).
    { replace (a i - ln (p i)) with ((a i - ln (x i)) + (ln (x i) - ln (p i))) by ring. eapply Rle_trans; [apply Rabs_triang|]. lra. }
    assert (D2 : Rabs (w i * a i - w i * ln (p i)) <= el * c i + g * Rabs (w i)).
    { rewrite <- Rmult_minus_distr_l, Rabs_mult. unfold c. replace (el * (Rabs (w i) * (Rabs (ln (p i)) + g)) + g * Rabs (w i)) with (Rabs (w i) * (el * (Rabs (ln (p i)) + g) + g)) by ring.
      apply Rmult_le_compat_l; assumption. }
    assert (D3 : Rabs (w i * a i) <= 2 * c i).
    { rewrite Rabs_mult. unfold c. replace (2 * (Rabs (w i) * (Rabs (ln (p i)) + g))) with (Rabs (w i) * (2 * (Rabs (ln (p i)) + g))) by ring. apply Rmult_le_compat_l; [exact W0|].
      replace (a i) with ((a i - ln (x i)) + ln (x i)) by ring. eapply Rle_trans; [apply Rabs_triang|].
      assert (el * Rabs (ln (x i)) <= 1 * Rabs (ln (x i))) by (apply Rmult_le_compat_r; lra). lra. }
    assert (D4 : uround * Rabs (w i * a i) <= uround * (2 * c i)) by (apply Rmult_le_compat_l; lra).
    assert (D5 : uround * c i <= / 4 * c i) by (apply Rmult_le_compat_r; lra).
    split.
    - replace (b i - w i * ln (p i)) with ((b i - w i * a i) + (w i * a i - w i * ln (p i))) by ring. eapply Rle_trans; [apply Rabs_triang|]. lra.
    - replace (b i) with ((b i - w i * a i) + w i * a i) by ring. eapply Rle_trans; [apply Rabs_triang|]. lra. }
  assert (EC : total (fun i => y i * c i) (seq 0 N) = C).
  { unfold C, chosen_logs, chosen_weight. generalize (seq 0 N). induction l as [|k l IH]; cbn [total]; [ring|]. rewrite IH. unfold c. ring. }
  assert (RS : Rabs (YB - total (fun i => y i * (w i * ln (p i))) (seq 0 N)) <= (el + 2 * uround) * C + g * chosen_weight N y w + INR N * tiny).
  { rewrite <- EC. unfold chosen_weight. replace (INR N) with (INR (length (seq 0 N))) by (rewrite seq_length; reflexivity).
    rewrite <- (total_lin (el + 2 * uround) g tiny (fun i => y i * c i) (fun i => y i * Rabs (w i))). apply total_abs_diff. intros i Hi. apply in_seq in Hi. apply ROW. lia. }
  assert (RB : S <= 3 * C + INR N * tiny).
  { rewrite ES, <- EC. replace (INR N) with (INR (length (seq 0 N))) by (rewrite seq_length; reflexivity).
    replace (3 * total (fun i => y i * c i) (seq 0 N) + INR (length (seq 0 N)) * tiny) with (3 * total (fun i => y i * c i) (seq 0 N) + 0 * total (fun i => y i * Rabs (w i)) (seq 0 N) + INR (length (seq 0 N)) * tiny) by ring.
    rewrite <- (total_lin 3 0 tiny (fun i => y i * c i) (fun i => y i * Rabs (w i))). apply total_le. intros i Hi. apply in_seq in Hi. apply ROW. lia. }
  pose proof (pow1u_le N ltac:(lra)) as PG. pose proof (pow1u_ge1 N) as PG1.
  assert (NT0 : 0 <= INR N * tiny) by (apply Rmult_le_pos; lra).
  assert (A2 : Rabs (L - YB) <= 2 * (INR N * uround) * S + 2 * (INR N * tiny)).
  { eapply Rle_trans; [exact AL|]. apply Rplus_le_compat; apply Rmult_le_compat_r; lra. }
  exists L. split; [|split; [exact FL|split]].
  - unfold float_weighted_ll. rewrite <- EL. apply fdot_ext. intros k Hk. split; [reflexivity|apply HT, IN, Hk].
  - replace L with ((L - YB) + YB) by ring. eapply Rle_trans; [apply Rabs_triang|].
    assert (Y1 : Rabs YB <= S) by (unfold S; rewrite <- ESB; apply lsum_abs_le).
    assert (INR N * tiny <= 1) by (apply Rle_trans with (INR N * uround); [apply Rmult_le_compat_l; lra|lra]).
    assert (2 * (INR N * uround) * S <= 1 * S) by (apply Rmult_le_compat_r; lra).
    assert (B960 : 8 * bpow radix2 932 <= bpow radix2 960) by (apply Rle_trans with (bpow radix2 935); [change 935%Z with (3 + 932)%Z; rewrite bpow_plus; cbn; lra|apply bpow_le; lia]).
    assert (1 <= bpow radix2 932) by (apply (bpow_le radix2 0); lia). lra.
  - replace (L - total (fun i => y i * (w i * ln (p i))) (seq 0 N)) with ((L - YB) + (YB - total (fun i => y i * (w i * ln (p i))) (seq 0 N))) by ring.
    eapply Rle_trans; [apply Rabs_triang|].
    assert (Q1 : 2 * (INR N * uround) * S <= 2 * (INR N * uround) * (3 * C + INR N * tiny)) by (apply Rmult_le_compat_l; lra).
    assert (Q2 : 2 * (INR N * uround) * (INR N * tiny) <= 1 * (INR N * tiny)) by (apply Rmult_le_compat_r; lra). lra.
Qed.

(** the penalty *)
Lemma penalty r K theta t : (Z.of_nat K <= 2 ^ 20)%Z -> penalty_in_range (Some r) K theta -> Permutation (terms_of t) (seq 0 K) ->
  let Q := total (fun j => theta j * theta j) (seq 0 K) in
  exists z, float_penalty r (fun j => FNum (theta j)) t = FNum z /\ double_format z /\ Rabs z <= bpow radix2 1002 /\
    Rabs (z - r * Q) <= (3 * INR K + 1) * uround * (Rabs r * Q) + (3 * INR K * Rabs r + 1) * tiny.
Proof.
  intros HK (Fr & Br & Ft & BQ & BR) HP Q. fold Q in BQ, BR.
  pose proof uround_pos as U0. pose proof FloatNear.uround_small as U1. pose proof tiny_le_u as (T0 & TU).
  assert (K20 : 0 <= INR K <= 2 ^ 20).
  { split; [apply pos_INR|]. rewrite INR_IZR_INZ. rewrite pow_IZR. apply IZR_le. exact HK. }
  assert (KU : 0 <= INR K * uround <= / 2 ^ 30).
  { split; [apply Rmult_le_pos; lra|]. apply Rle_trans with (2 ^ 20 * uround); [apply Rmult_le_compat_r; lra|]. unfold uround. lra. }
  assert (KT : 0 <= INR K * tiny <= / 2 ^ 30).
  { split; [apply Rmult_le_pos; lra|]. apply Rle_trans with (INR K * uround); [apply Rmult_le_compat_l; lra|lra]. }
  assert (B1000 : 2 ^ 1000 = bpow radix2 1000) by apply pow2_bpow. rewrite B1000 in BQ, BR.
  assert (one : 1 <= bpow radix2 1000) by (apply (bpow_le radix2 0); lia).
  assert (B1002 : bpow radix2 1002 = 4 * bpow radix2 1000) by (change 1002%Z with (2 + 1000)%Z; rewrite bpow_plus; reflexivity).
  assert (Q0 : 0 <= Q) by (unfold Q; apply total_nonneg; intros i _; apply Rle_0_sqr).
  assert (LEN : length (dterms (dot_of t)) = K) by (rewrite dterms_dot_of, (Permutation_length HP); apply seq_length).
  assert (EQ : lsum (fun k => theta k * theta k) (dterms (dot_of t)) = Q).
  { unfold Q. rewrite dterms_dot_of, (total_lsum (fun j => theta j * theta j) (seq 0 K)). apply lsum_perm. exact HP. }
  assert (ES : lsum (fun k => Rabs (theta k * theta k)) (dterms (dot_of t)) = Q).
  { rewrite <- EQ. apply lsum_ext. intros k _. apply Rabs_right. apply Rle_ge. apply Rle_0_sqr. }
  pose proof (pow1u_le K ltac:(lra)) as PG. pose proof (pow1u_ge1 K) as PG1.
  destruct (fdot_error theta theta (dot_of t) (bpow radix2 1002)) as (q & Eq & Fq & _ & Aq).
  { intros k Hk. rewrite dterms_dot_of in Hk. apply (Permutation_in _ HP), in_seq in Hk. split; apply Ft; lia. }
  { rewrite LEN, ES, B1002. apply Rle_trans with (2 * (2 * bpow radix2 1000)); [apply Rmult_le_compat; lra|lra]. }
  { apply bpow_lt. lia. }
  rewrite LEN, ES, EQ in Aq.
  assert (A1 : Rabs (q - Q) <= 2 * (INR K * uround) * Q + 2 * (INR K * tiny)).
  { eapply Rle_trans; [exact Aq|]. apply Rplus_le_compat; apply Rmult_le_compat_r; lra. }
  pose proof (Rabs_pos r) as R0. set (P := Rabs r * Q) in *. assert (P0 : 0 <= P) by (unfold P; apply Rmult_le_pos; lra).
  assert (A2 : Rabs (r * q - r * Q) <= 2 * (INR K * uround) * P + 2 * (INR K * Rabs r) * tiny).
  { rewrite <- Rmult_minus_distr_l, Rabs_mult. unfold P.
    replace (2 * (INR K * uround) * (Rabs r * Q) + 2 * (INR K * Rabs r) * tiny) with (Rabs r * (2 * (INR K * uround) * Q + 2 * (INR K * tiny))) by ring. apply Rmult_le_compat_l; assumption. }
  assert (KR0 : 0 <= INR K * Rabs r * tiny) by (apply Rmult_le_pos; [apply Rmult_le_pos; lra|lra]).
  assert (A3 : Rabs (r * q) <= P + (2 * (INR K * uround) * P + 2 * (INR K * Rabs r) * tiny)).
  { replace (r * q) with ((r * q - r * Q) + r * Q) by ring. eapply Rle_trans; [apply Rabs_triang|]. rewrite (Rabs_mult r Q), (Rabs_right Q) by lra. fold P. lra. }
  pose proof (rnd_abs (r * q)) as A4. set (z := rnd (r * q)) in *.
  assert (A5 : uround * Rabs (r * q) <= uround * (P + (2 * (INR K * uround) * P + 2 * (INR K * Rabs r) * tiny))) by (apply Rmult_le_compat_l; lra).
  assert (S1 : uround * (2 * (INR K * uround) * P) <= / 2 * (INR K * uround * P)).
  { replace (uround * (2 * (INR K * uround) * P)) with (2 * uround * (INR K * uround * P)) by ring. apply Rmult_le_compat_r; [apply Rmult_le_pos; lra|lra]. }
  assert (S2 : uround * (2 * (INR K * Rabs r) * tiny) <= / 2 * (INR K * Rabs r * tiny)).
  { replace (uround * (2 * (INR K * Rabs r) * tiny)) with (2 * uround * (INR K * Rabs r * tiny)) by ring. apply Rmult_le_compat_r; [exact KR0|lra]. }
  assert (KP0 : 0 <= INR K * uround * P) by (apply Rmult_le_pos; lra).
  assert (A6 : Rabs (z - r * Q) <= (3 * INR K + 1) * uround * P + (3 * INR K * Rabs r + 1) * tiny).
  { replace (z - r * Q) with ((z - r * q) + (r * q - r * Q)) by ring. eapply Rle_trans; [apply Rabs_triang|]. lra. }
  assert (KRT : INR K * Rabs r * tiny <= 1).
  { apply Rle_trans with (2 ^ 20 * 2 ^ 500 * tiny).
    - apply Rmult_le_compat_r; [lra|]. apply Rmult_le_compat; lra.
    - rewrite (pow2_bpow 20), (pow2_bpow 500), <- bpow_plus. apply Rle_trans with (bpow radix2 520 * bpow radix2 (-1074)).
      + apply Rmult_le_compat_l; [apply bpow_ge_0|]. pose proof (bpow_gt_0 radix2 (-1074)). lra.
      + rewrite <- bpow_plus. apply (bpow_le radix2 _ 0). lia. }
  assert (ZB : Rabs z <= bpow radix2 1002).
  { replace z with ((z - r * Q) + r * Q) by ring. eapply Rle_trans; [apply Rabs_triang|]. rewrite (Rabs_mult r Q), (Rabs_right Q) by lra. fold P. rewrite B1002.
    assert (INR K * uround * P <= / 2 ^ 30 * P) by (apply Rmult_le_compat_r; lra). assert (uround * P <= / 2 ^ 30 * P) by (apply Rmult_le_compat_r; lra).
    assert (tiny <= 1) by lra. lra. }
  exists z. split; [|split; [apply rnd_format|split; [exact ZB|exact A6]]].
  unfold float_penalty. rewrite fsum_is_fdot, Eq. cbn [fmul]. fold z. apply overflow_num. eapply Rle_lt_trans; [exact ZB|apply bpow_lt; lia].
Qed.

(** ** C130 *)

(** The computed probabilities [x] are positive doubles, those of the chosen rows have
    logarithms within [g] of those of [p]. *)
Theorem C130_objective_is_accurate :
  forall lg el N y w (x p : nat -> R) g order ridge K theta t,
  accurate_ln lg el -> 0 <= el <= 1 -> (Z.of_nat N <= 2 ^ 20)%Z -> weights_in_range N y w ->
  (forall i, (i < N)%nat -> double_format (x i) /\ 0 < x i < bpow radix2 1024) ->
  (forall i, (i < N)%nat -> y i = 1 -> Rabs (ln (x i) - ln (p i)) <= g) -> 0 <= g ->
  Permutation (dterms order) (seq 0 N) ->
  (Z.of_nat K <= 2 ^ 20)%Z -> penalty_in_range ridge K theta -> Permutation (terms_of t) (seq 0 K) ->
  exists L, float_objective lg y w (fun i => FNum (x i)) order ridge (fun j => FNum (theta j)) t = FNum L /\
    Rabs (L - exact_objective N y w p ridge K theta) <=
      objective_error el N K (chosen_weight N y w) (chosen_logs N y w p) (penalty_size ridge K theta) g.
Proof.
  intros lg el N y w x p g order ridge K theta t Hlg Hel HN Hw Hx Hg g0 HP HK Hr HPt.
  pose proof uround_pos as U0. pose proof FloatNear.uround_small as U1. pose proof tiny_le_u as (T0 & TU).
  destruct (weighted_ll lg el N y w x p g order Hlg Hel HN Hw Hx Hg g0 HP) as (L & EL & FL & BL & AL).
  assert (Y01 : forall i, (i < N)%nat -> 0 <= y i) by (intros i Hi; destruct (Hw i Hi) as ([-> | ->] & _); lra).
  assert (W0 : 0 <= chosen_weight N y w).
  { unfold chosen_weight. apply total_nonneg. intros i Hi. apply in_seq in Hi. apply Rmult_le_pos; [apply Y01; lia|apply Rabs_pos]. }
  assert (M0 : 0 <= chosen_logs N y w p).
  { unfold chosen_logs. apply total_nonneg. intros i Hi. apply in_seq in Hi. apply Rmult_le_pos; [apply Y01; lia|]. apply Rmult_le_pos; apply Rabs_pos. }
  assert (LLM : Rabs (total (fun i => y i * (w i * ln (p i))) (seq 0 N)) <= chosen_logs N y w p).
  { replace (total (fun i => y i * (w i * ln (p i))) (seq 0 N)) with (total (fun i => y i * (w i * ln (p i))) (seq 0 N) - total (fun _ => 0) (seq 0 N)).
    - unfold chosen_logs. apply total_abs_diff. intros i Hi. apply in_seq in Hi. rewrite Rminus_0_r, !Rabs_mult, (Rabs_right (y i)); [lra|apply Rle_ge, Y01; lia].
    - replace (total (fun _ => 0) (seq 0 N)) with 0; [ring|]. generalize (seq 0 N). induction l as [|k l IH]; cbn [total]; lra. }
  set (W := chosen_weight N y w) in *. set (M := chosen_logs N y w p) in *. set (LL := total (fun i => y i * (w i * ln (p i))) (seq 0 N)) in *.
  set (C := M + W * g) in *. assert (WG : 0 <= W * g) by (apply Rmult_le_pos; assumption). assert (C0 : 0 <= C) by (unfold C; lra).
  assert (N20 : 0 <= INR N <= 2 ^ 20).
  { split; [apply pos_INR|]. rewrite INR_IZR_INZ. rewrite pow_IZR. apply IZR_le. exact HN. }
  assert (K20 : 0 <= INR K <= 2 ^ 20).
  { split; [apply pos_INR|]. rewrite INR_IZR_INZ. rewrite pow_IZR. apply IZR_le. exact HK. }
  assert (NUs : 0 <= INR N * uround <= / 2 ^ 30).
  { split; [apply Rmult_le_pos; lra|]. apply Rle_trans with (2 ^ 20 * uround); [apply Rmult_le_compat_r; lra|]. unfold uround. lra. }
  assert (NC0 : 0 <= INR N * uround * C) by (apply Rmult_le_pos; lra).
  assert (UC0 : 0 <= uround * C) by (apply Rmult_le_pos; lra).
  (* underflow *)
  assert (H100 : bpow radix2 (-400) <= / 10 ^ 100).
  { change (-400)%Z with (Z.opp 400). rewrite bpow_opp. change 400%Z with (Z.of_nat 400). rewrite <- pow2_bpow. apply Rinv_le_contravar; [apply pow_lt; lra|].
    change 400%nat with (4 * 100)%nat. rewrite pow_mult. apply pow_incr. cbn. lra. }
  assert (TI : forall c, 0 <= c <= bpow radix2 600 -> c * tiny <= / 10 ^ 100).
  { intros c Hc. eapply Rle_trans; [|exact H100]. apply Rle_trans with (bpow radix2 600 * bpow radix2 (-1074)).
    - pose proof (bpow_gt_0 radix2 (-1074)). apply Rmult_le_compat; lra.
    - rewrite <- bpow_plus. apply bpow_le. lia. }
  assert (B600 : 2 ^ 40 <= bpow radix2 600) by (rewrite (pow2_bpow 40); apply bpow_le; lia).
  unfold float_objective, exact_objective, objective_error, penalty_size. rewrite EL. fold uround. fold LL. fold C.
  destruct ridge as [r|].
  2: { exists L. split; [reflexivity|]. replace (L - (LL - 0)) with (L - LL) by ring. eapply Rle_trans; [exact AL|].
    rewrite Rmult_0_r. assert (4 * INR N * tiny <= / 10 ^ 100) by (apply TI; lra). lra. }
  destruct (penalty r K theta t HK Hr HPt) as (z & Ez & Fz & Bz & Az). rewrite Ez.
  destruct Hr as (_ & Br & _ & _ & BR). set (Q := total (fun j => theta j * theta j) (seq 0 K)) in *.
  assert (Q0 : 0 <= Q) by (unfold Q; apply total_nonneg; intros i _; apply Rle_0_sqr).
  pose proof (Rabs_pos r) as R0. set (P := Rabs r * Q) in *. assert (P0 : 0 <= P) by (unfold P; apply Rmult_le_pos; lra).
  assert (RQ : Rabs (r * Q) = P) by (unfold P; rewrite Rabs_mult, (Rabs_right Q) by lra; reflexivity).
  assert (KUs : 0 <= INR K * uround <= / 2 ^ 30).
  { split; [apply Rmult_le_pos; lra|]. apply Rle_trans with (2 ^ 20 * uround); [apply Rmult_le_compat_r; lra|]. unfold uround. lra. }
  assert (KP0 : 0 <= INR K * uround * P) by (apply Rmult_le_pos; lra).
  assert (UP0 : 0 <= uround * P) by (apply Rmult_le_pos; lra).
  set (E1 := (el + (6 * INR N + 2) * uround) * C + W * g + 4 * INR N * tiny) in *.
  set (E2 := (3 * INR K + 1) * uround * P + (3 * INR K * Rabs r + 1) * tiny) in *.
  pose proof (rnd_abs (L + - z)) as A. set (o := rnd (L + - z)) in *.
  assert (BLz : Rabs (L + - z) <= bpow radix2 960 + bpow radix2 1002).
  { eapply Rle_trans; [apply Rabs_triang|]. rewrite Rabs_Ropp. lra. }
  assert (SZ : Rabs (L + - z) <= C + E1 + (P + E2)).
  { replace (L + - z) with ((L - LL) + LL + (- (z - r * Q) + - (r * Q))) by ring.
    eapply Rle_trans; [apply Rabs_triang|]. apply Rplus_le_compat.
    - eapply Rle_trans; [apply Rabs_triang|]. unfold C. lra.
    - eapply Rle_trans; [apply Rabs_triang|]. rewrite !Rabs_Ropp, RQ. lra. }
  exists o. split.
  { unfold fsub. cbn [fneg fadd]. fold o. apply overflow_num.
    replace o with ((o - (L + - z)) + (L + - z)) by ring. eapply Rle_lt_trans; [apply Rabs_triang|].
    assert (uround * Rabs (L + - z) <= 1 * Rabs (L + - z)) by (apply Rmult_le_compat_r; [apply Rabs_pos|lra]).
    assert (bpow radix2 960 <= bpow radix2 1002) by (apply bpow_le; lia). assert (1 <= bpow radix2 1002) by (apply (bpow_le radix2 0); lia).
    apply Rle_lt_trans with (8 * bpow radix2 1002); [lra|]. replace (8 * bpow radix2 1002) with (bpow radix2 1005) by (change 1005%Z with (3 + 1002)%Z; rewrite bpow_plus; reflexivity). apply bpow_lt. lia. }
  assert (GO : Rabs (o - (LL - r * Q)) <= E1 + E2 + (uround * (C + E1 + (P + E2)) + tiny)).
  { replace (o - (LL - r * Q)) with ((L - LL) + - (z - r * Q) + (o - (L + - z))) by ring.
    eapply Rle_trans; [apply Rabs_triang|]. apply Rplus_le_compat.
    - eapply Rle_trans; [apply Rabs_triang|]. rewrite Rabs_Ropp. lra.
    - eapply Rle_trans; [exact A|]. apply Rplus_le_compat_r. apply Rmult_le_compat_l; lra. }
  eapply Rle_trans; [exact GO|].
  assert (KRT0 : 0 <= INR K * Rabs r * tiny) by (apply Rmult_le_pos; [apply Rmult_le_pos; lra|lra]).
  assert (NT0 : 0 <= INR N * tiny) by (apply Rmult_le_pos; lra).
  assert (F1 : uround * E1 <= 2 * (uround * C) + uround * (W * g) + INR N * tiny).
  { unfold E1. assert (el * (uround * C) <= 1 * (uround * C)) by (apply Rmult_le_compat_r; lra).
    assert ((6 * INR N + 2) * uround * (uround * C) <= 1 * (uround * C)) by (apply Rmult_le_compat_r; lra).
    assert (4 * uround * (INR N * tiny) <= 1 * (INR N * tiny)) by (apply Rmult_le_compat_r; lra). lra. }
  assert (UWG : uround * (W * g) <= uround * C) by (apply Rmult_le_compat_l; [lra|unfold C; lra]).
  assert (F2 : uround * E2 <= uround * P + INR K * Rabs r * tiny + tiny).
  { unfold E2. assert ((3 * INR K + 1) * uround * (uround * P) <= 1 * (uround * P)) by (apply Rmult_le_compat_r; lra).
    assert (3 * uround * (INR K * Rabs r * tiny) <= 1 * (INR K * Rabs r * tiny)) by (apply Rmult_le_compat_r; lra).
    assert (uround * tiny <= 1 * tiny) by (apply Rmult_le_compat_r; lra). lra. }
  assert (TT : (5 * INR N + 4 * (INR K * Rabs r) + 3) * tiny <= / 10 ^ 100).
  { apply TI. assert (KR : 0 <= INR K * Rabs r <= 2 ^ 20 * 2 ^ 500) by (split; [apply Rmult_le_pos; lra|apply Rmult_le_compat; lra]).
    rewrite <- pow_add in KR. rewrite (pow2_bpow (20 + 500)) in KR. change (Z.of_nat (20 + 500)) with 520%Z in KR.
    assert (B : 16 * bpow radix2 520 <= bpow radix2 600) by (apply Rle_trans with (bpow radix2 524); [change 524%Z with (4 + 520)%Z; rewrite bpow_plus; cbn; lra|apply bpow_le; lia]).
    assert (2 ^ 30 <= bpow radix2 520) by (rewrite (pow2_bpow 30); apply bpow_le; lia). lra. }
  assert (D1 : E1 = (el + (6 * INR N + 2) * uround) * C + W * g + 4 * INR N * tiny) by reflexivity.
  assert (D2 : E2 = (3 * INR K + 1) * uround * P + (3 * INR K * Rabs r + 1) * tiny) by reflexivity. clearbody E1 E2. lra.
Qed.

Lemma objective_ext lg y w p p' order ridge theta theta' t N K :
  Permutation (dterms order) (seq 0 N) -> Permutation (terms_of t) (seq 0 K) ->
  (forall i, (i < N)%nat -> p i = p' i) -> (ridge <> None -> forall j, (j < K)%nat -> theta j = theta' j) ->
  float_objective lg y w p order ridge theta t = float_objective lg y w p' order ridge theta' t.
Proof.
  intros HP HPt Hp Ht.
  assert (E : float_weighted_ll lg y w p order = float_weighted_ll lg y w p' order).
  { unfold float_weighted_ll. apply fdot_ext. intros k Hk. apply (Permutation_in _ HP), in_seq in Hk. split; [reflexivity|rewrite Hp by lia; reflexivity]. }
  unfold float_objective. rewrite E. destruct ridge as [r|]; [|reflexivity]. f_equal. unfold float_penalty. f_equal. apply fsum_ext.
  intros j Hj. apply (Permutation_in _ HPt), in_seq in Hj. rewrite Ht by (discriminate || lia). reflexivity.
Qed.

(** All models of choice_calcs.py, with weights and ridge penalty.  [eta] bounds the error of
    the computed transformed utilities (C128: [rows_within]). *)
Theorem C130_logit_objective_follows_the_model :
  forall k ex eps lg ll el l1 pw st D own alt uorder order shape icpt beta eta dorder t,
  accurate_exp ex eps -> 0 <= eps <= / 2 ^ 40 -> accurate_ln ll el -> 0 <= el <= 1 ->
  indicator_of (d_N D) (d_obs D) (d_M D) own -> (Z.of_nat (d_N D) <= 2 ^ 20)%Z ->
  let w := eff_weights (d_w D) in
  weights_in_range (d_N D) (d_y D) w ->
  (forall i, (i < d_N D)%nat ->
     let rows := filter (fun q => (own q =? own i)%nat) (seq 0 (d_N D)) in
     Permutation (terms_of (order (own i))) rows /\ (length rows <= 4095)%nat) ->
  Permutation (dterms dorder) (seq 0 (d_N D)) ->
  rows_within k ex lg l1 pw st D alt uorder shape icpt beta eta -> 0 <= eta ->
  let p := long_probs (model_of k) D shape icpt beta in
  (forall i, (i < d_N D)%nat -> d_y D i = 1 -> / 10 ^ 280 <= p i) ->
  let params := all_params shape icpt beta in
  (Z.of_nat (alen params) <= 2 ^ 20)%Z -> penalty_in_range (d_ridge D) (alen params) (aget params) ->
  Permutation (terms_of t) (seq 0 (alen params)) ->
  let rho := exp (2 * eta) * (1 + 2 * (2 * eps + 4096 * / 2 ^ 53)) - 1 in
  rho <= / 4 ->
  exists L, float_objective ll (d_y D) w
      (fun i => float_prob ex (float_transformed k ex lg l1 pw st D alt uorder shape icpt beta) (order (own i)) i) dorder
      (d_ridge D) (fun j => FNum (aget params j)) t = FNum L /\
    Rabs (L - calc_log_likelihood (model_of k) D shape icpt beta) <=
      objective_error el (d_N D) (alen params) (chosen_weight (d_N D) (d_y D) w) (chosen_logs (d_N D) (d_y D) w p)
        (penalty_size (d_ridge D) (alen params) (aget params)) (2 * (rho + 2 * / 10 ^ 20)).
Proof.
  intros k ex eps lg ll el l1 pw st D own alt uorder order shape icpt beta eta dorder t Hex Heps Hll Hel Hown HN w Hw Hobs HP HW Heta p Hp params HK HR HPt rho Hrho.
  set (u := float_transformed k ex lg l1 pw st D alt uorder shape icpt beta).
  set (x := fun i => fval (float_prob ex u (order (own i)) i)).
  assert (ten : 0 < / 10 ^ 20 <= / 100) by lra.
  assert (rho0 : 0 <= rho).
  { unfold rho. assert (1 <= exp (2 * eta)) by (pose proof (exp_ge_linear (2 * eta)); lra). nra. }
  assert (HX : forall i, (i < d_N D)%nat -> float_prob ex u (order (own i)) i = FNum (x i) /\ double_format (x i) /\ 0 < x i <= 1 /\ Rabs (x i - p i) <= rho * p i + 2 * / 10 ^ 300).
  { intros i Hi. destruct (Hobs i Hi) as (P & Ln). set (rows := filter (fun q => (own q =? own i)%nat) (seq 0 (d_N D))) in *.
    assert (Ii : In i rows) by (apply filter_In; split; [apply in_seq; lia|apply Nat.eqb_refl]).
    destruct (C122_computed_probabilities_are_numbers_in_the_unit_interval ex eps u rows (order (own i)) i Hex Heps) as (v & E & F & B).
    { split; [exact P|]. split; [exact Ln|]. intros q Hq. apply filter_In in Hq. destruct Hq as (Hq & _). apply in_seq in Hq. destruct (HW q ltac:(lia)) as (z & Ez & _). unfold u. rewrite Ez. discriminate. }
    { exact Ii. }
    destruct (C128_probabilities k ex eps lg l1 pw st D own alt uorder shape icpt beta eta (order (own i)) i Hex Heps Hown Hi Ln P HW) as (v' & E' & A).
    fold u in E'. rewrite E in E'. injection E' as <-. unfold x. rewrite E. cbn [fval]. split; [reflexivity|]. split; [exact F|]. split; [exact B|].
    eapply Rle_trans; [exact A|]. apply Rplus_le_compat_r. apply Rmult_le_compat_r.
    - left. apply (long_probs_pos (model_of k) D own Hown). exact Hi.
    - unfold rho. apply Rplus_le_compat_r, Rmult_le_compat_l; [left; apply exp_pos|]. fold rows. fold uround. pose proof uround_pos.
      assert (INR (length rows) <= 4095) by (apply le_INR in Ln; replace 4095 with (INR 4095) by (rewrite INR_IZR_INZ; reflexivity); exact Ln).
      assert ((INR (length rows) + 1) * uround <= 4096 * uround) by (apply Rmult_le_compat_r; lra). lra. }
  destruct (C130_objective_is_accurate ll el (d_N D) (d_y D) w x p (2 * (rho + 2 * / 10 ^ 20)) dorder (d_ridge D) (alen params) (aget params) t) as (L & EL & AL); try assumption.
  - intros i Hi. destruct (HX i Hi) as (_ & F & B & _). split; [exact F|]. split; [lra|]. apply Rle_lt_trans with 1; [lra|apply (bpow_lt radix2 0); lia].
  - intros i Hi Yi. destruct (HX i Hi) as (_ & _ & B & A). specialize (Hp i Hi Yi).
    assert (P280 : 0 < / 10 ^ 280) by (apply Rinv_0_lt_compat, pow_lt; lra).
    apply ln_rel; [lra|lra|]. eapply Rle_trans; [exact A|].
    assert (E300 : / 10 ^ 300 = / 10 ^ 20 * / 10 ^ 280) by (rewrite <- Rinv_mult, <- pow_add; reflexivity).
    rewrite E300. assert (/ 10 ^ 20 * / 10 ^ 280 <= / 10 ^ 20 * p i) by (apply Rmult_le_compat_l; lra). lra.
  - lra.
  - exists L. split.
    + rewrite <- EL. apply (objective_ext ll (d_y D) w _ _ dorder (d_ridge D) _ _ t (d_N D) (alen params) HP HPt); [|reflexivity]. intros i Hi. apply HX. exact Hi.
    + eapply Rle_trans; [|exact AL]. right. f_equal. f_equal. unfold calc_log_likelihood, exact_objective. fold p w params.
      unfold vdot, asumsq. rewrite !sumn_total. destruct (d_ridge D); [reflexivity|]. ring.
Qed.

(** The nested logit penalises the nest coefficients' distance from one, with the computed
    coefficients; the distance from the exact ones. *)
Definition nest_penalty_error (ridge : option R) (Q : nat) (eps : R) : R :=
  match ridge with None => 0 | Some r => Rabs r * (INR Q * (4 * (2 * eps + 5 * / 2 ^ 53))) end.

(** The data part of the conditions on the penalty: doubles, sizes with one bit to spare. *)
Definition nested_penalty_in_range (ridge : option R) (Q : nat) (params beta : arr) : Prop :=
  match ridge with
  | None => True
  | Some r => double_format r /\ Rabs r <= 2 ^ 500 /\ (forall j, (j < alen beta)%nat -> double_format (aget beta j)) /\
      total (fun j => aget params j * aget params j) (seq 0 (alen params)) <= 2 ^ 999 /\
      Rabs r * total (fun j => aget params j * aget params j) (seq 0 (alen params)) <= 2 ^ 999
  end.

Lemma total_prefix c Q K : total (fun j => if (j <? Q)%nat then c else 0) (seq 0 (Q + K)) = INR Q * c.
Proof.
  rewrite seq_app, !total_lsum, lsum_app. cbn [Nat.add].
  assert (A : forall s n, (s + n <= Q)%nat -> lsum (fun j => if (j <? Q)%nat then c else 0) (seq s n) = INR n * c).
  { intros s n. revert s. induction n as [|n IH]; intros s H; cbn [seq lsum]; [cbn; ring|]. rewrite IH by lia. rewrite S_INR.
    assert (E : (s <? Q)%nat = true) by (apply Nat.ltb_lt; lia). rewrite E. ring. }
  assert (B : forall s n, (Q <= s)%nat -> lsum (fun j => if (j <? Q)%nat then c else 0) (seq s n) = 0).
  { intros s n. revert s. induction n as [|n IH]; intros s H; cbn [seq lsum]; [reflexivity|]. rewrite IH by lia.
    assert (E : (s <? Q)%nat = false) by (apply Nat.ltb_ge; lia). rewrite E. ring. }
  rewrite A by lia. rewrite B by lia. ring.
Qed.

(** a computed nest coefficient minus one *)
Lemma nest_distance ex eps theta : accurate_exp ex eps -> 0 <= eps <= / 2 ^ 40 -> Rabs theta <= 700 ->
  let l := fval (fnatural_nest ex (FNum theta)) in let n := 1 / (1 + exp (-1 * theta)) in
  exists z, fsub (FNum l) (FNum 1) = FNum z /\ double_format z /\ Rabs (z * z - (n - 1) * (n - 1)) <= 4 * (2 * eps + 5 * uround).
Proof.
  intros Hex Heps Ht l n. pose proof uround_pos as U0. pose proof FloatNear.uround_small as U1. pose proof tiny_le_u as (T0 & TU).
  assert (S40 : / 2 ^ 40 <= / 2 ^ 20) by (apply Rinv_le_contravar; [apply pow_lt; lra|apply Rle_pow; [lra|lia]]).
  destruct (natural_nest ex eps theta Hex Heps Ht) as (l' & El & Fl & Bl & Nl). assert (E : l = l') by (unfold l; rewrite El; reflexivity). rewrite <- E in *. clear E l' El. fold n in Nl.
  assert (N1 : 0 < n < 1).
  { unfold n. pose proof (exp_pos (-1 * theta)). split; [apply Rdiv_lt_0_compat; lra|].
    apply (Rmult_lt_reg_r (1 + exp (-1 * theta))); [lra|]. unfold Rdiv. rewrite Rmult_assoc, Rinv_l by lra. lra. }
  apply near_absolute in Nl; [|lra|lra].
  set (d := 2 * eps + 4 * uround) in *. assert (D0 : 0 <= d) by (unfold d; lra).
  assert (2 * d * n <= 2 * d) by (rewrite <- (Rmult_1_r (2 * d)) at 2; apply Rmult_le_compat_l; lra).
  set (z := rnd (l + - (1))).
  assert (Z1 : -1 <= z <= 0).
  { unfold z. split; [rewrite <- (rnd_id (-1)) by (replace (-1) with (IZR (-1)) by reflexivity; apply small_integer; lia)|rewrite <- rnd_0]; apply rnd_le; lra. }
  exists z. split; [|split].
  - cbn [fsub fneg fadd]. fold z. apply overflow_num. apply Rle_lt_trans with 1; [apply Rabs_le; lra|apply (bpow_lt radix2 0); lia].
  - apply rnd_format.
  - assert (A : Rabs (z - (n - 1)) <= 2 * (2 * eps + 5 * uround)).
    { pose proof (rnd_abs (l + - (1))) as Q. fold z in Q. rewrite (Rabs_left1 (l + - (1))) in Q by lra.
      assert (uround * - (l + - (1)) <= uround * 1) by (apply Rmult_le_compat_l; lra).
      replace (z - (n - 1)) with ((z - (l + - (1))) + (l - n)) by ring. eapply Rle_trans; [apply Rabs_triang|]. unfold d in *. lra. }
    replace (z * z - (n - 1) * (n - 1)) with ((z - (n - 1)) * (z + (n - 1))) by ring. rewrite Rabs_mult.
    assert (Rabs (z + (n - 1)) <= 2) by (apply Rabs_le; lra). pose proof (Rabs_pos (z - (n - 1))). pose proof (Rabs_pos (z + (n - 1))).
    apply Rle_trans with ((2 * (2 * eps + 5 * uround)) * 2); [apply Rmult_le_compat; lra|lra].
Qed.

Theorem C130_nested_objective_follows_the_model :
  forall ex eps pw ep ll el E own nst orig beta B l0 order t tq dorder tp Nr rho,
  accurate_exp ex eps -> 0 <= eps <= / 2 ^ 40 -> accurate_pow pw ep -> 0 <= ep <= / 2 ^ 40 -> accurate_ln ll el -> 0 <= el <= 1 ->
  let D := n_D E in let w := eff_weights (d_w D) in
  indicator_of (d_N D) (d_obs D) (d_M D) own -> indicator_of (d_N D) (n_Q E) (n_R E) nst -> (Z.of_nat (d_N D) <= 2 ^ 20)%Z ->
  weights_in_range (d_N D) (d_y D) w ->
  rows_in_range D beta order B -> 0 < l0 -> B <= 500 * l0 -> 2 * utility_error (d_K D) B <= l0 ->
  (forall q, (q < n_Q E)%nat -> Rabs (orig q) <= 700 /\ l0 <= naturalize_nest_coefs orig q) ->
  (Z.of_nat Nr <= 1000000)%Z -> (Z.of_nat (n_Q E) <= 1000000)%Z ->
  (forall i, (i < d_N D)%nat -> let rows := rows_of (d_N D) own i in
     (length rows <= Nr)%nat /\ (forall q, (q < n_Q E)%nat -> Permutation (terms_of (t (own i) q)) (rows_in_nest nst rows q))) ->
  Permutation (terms_of tq) (seq 0 (n_Q E)) -> Permutation (dterms dorder) (seq 0 (d_N D)) ->
  let nests := naturalize_nest_coefs orig in
  let p := nested_long_probs E nests beta in
  (forall i, (i < d_N D)%nat -> d_y D i = 1 -> / 10 ^ 280 <= p i) ->
  let params := acat (mkArr (n_Q E) (fun q => nests q - 1)) beta in
  (Z.of_nat (alen params) <= 2 ^ 20)%Z -> nested_penalty_in_range (d_ridge D) (n_Q E) params beta ->
  Permutation (terms_of tp) (seq 0 (alen params)) ->
  0 <= rho <= / 4 -> exp (input_error eps (d_K D) B l0) * (1 + 2 * nested_error eps ep Nr (n_Q E)) - 1 <= rho ->
  exists L, float_objective ll (d_y D) w
      (fun i => float_nested_prob ex pw (computed_utilities D beta order) nst (computed_nest ex orig) (t (own i)) tq i) dorder
      (d_ridge D) (float_nested_params (n_Q E) (computed_nest ex orig) beta) tp = FNum L /\
    Rabs (L - calc_nested_log_likelihood E nests beta) <=
      objective_error el (d_N D) (alen params) (chosen_weight (d_N D) (d_y D) w) (chosen_logs (d_N D) (d_y D) w p)
        (penalty_size (d_ridge D) (alen params) (aget params) + nest_penalty_error (d_ridge D) (n_Q E) eps) (2 * (rho + 3 * / 10 ^ 20))
      + nest_penalty_error (d_ridge D) (n_Q E) eps.
Proof.
  intros ex eps pw ep ll el E own nst orig beta B l0 order t tq dorder tp Nr rho Hex Heps Hpw Hep Hll Hel D w Ho Hn HN Hw HR Hl0 HB HU HNst HNr HQ Hobs HPq HP nests p Hp params HK Hr HPt R0 Hrho.
  pose proof uround_pos as U0. pose proof FloatNear.uround_small as U1.
  set (lam := computed_nest ex orig).
  set (fp := fun i => float_nested_prob ex pw (computed_utilities D beta order) nst lam (t (own i)) tq i).
  set (x := fun i => fval (fp i)).
  assert (EN : forall q, nests q = 1 / (1 + exp (-1 * orig q))).
  { intros q. unfold nests, naturalize_nest_coefs. apply nonzero_id. pose proof (exp_pos (-1 * orig q)). apply Rgt_not_eq. apply Rdiv_lt_0_compat; lra. }
  assert (N1 : forall q, 0 < nests q) by (intros q; rewrite EN; pose proof (exp_pos (-1 * orig q)); apply Rdiv_lt_0_compat; lra).
  assert (PB : forall i, (i < d_N D)%nat -> 0 <= p i <= 1).
  { intros i Hi. set (rows := rows_of (d_N D) own i). assert (Ii : In i rows) by (apply filter_In; split; [apply in_seq; lia|apply Nat.eqb_refl]).
    assert (IN : forall k, In k rows -> In (nst k) (seq 0 (n_Q E))).
    { intros k Hk. apply filter_In in Hk. destruct Hk as (Hk & _). apply in_seq in Hk. apply in_seq. pose proof (nst_lt E nst Hn k ltac:(fold D; lia)). lia. }
    unfold p. rewrite (model_is_textbook E own nst nests beta i Ho Hn) by (try exact Hi; intros q _; apply N1). fold D rows.
    split; [apply exact_nested_nonneg; [exact Ii|apply IN; exact Ii]|].
    rewrite <- (exact_nested_sum (sys_utilities D beta) nests nst rows (seq 0 (n_Q E))); [|intros Q; rewrite Q in Ii; destruct Ii|apply seq_NoDup|exact IN].
    rewrite total_lsum. apply (lsum_term (exact_nested_prob (sys_utilities D beta) nests nst rows (seq 0 (n_Q E)))); [|exact Ii].
    intros k Hk. apply exact_nested_nonneg; [exact Hk|apply IN; exact Hk]. }
  assert (ten : 0 < / 10 ^ 20 <= / 100) by lra.
  assert (HX : forall i, (i < d_N D)%nat -> fp i = FNum (x i) /\ double_format (x i) /\ 0 < x i /\ Rabs (x i - p i) <= rho * p i + 3 * / 10 ^ 300).
  { intros i Hi. destruct (Hobs i Hi) as (Ln & P). set (rows := rows_of (d_N D) own i) in *.
    destruct (C129_nested_probabilities_follow_the_model ex eps pw ep E own nst orig beta B l0 order (t (own i)) tq i) as (v & Ev & F & V0 & A); try assumption.
    { fold D rows. lia. }
    fold D in Ev, A. fold lam in Ev. fold nests rows in A. fold p in A. unfold x, fp. rewrite Ev. cbn [fval]. split; [reflexivity|]. split; [exact F|]. split; [exact V0|].
    eapply Rle_trans; [exact A|]. apply Rplus_le_compat_r. apply Rmult_le_compat_r; [apply PB; exact Hi|].
    eapply Rle_trans; [|exact Hrho]. apply Rplus_le_compat_r, Rmult_le_compat_l; [left; apply exp_pos|].
    apply Rplus_le_compat_l, Rmult_le_compat_l; [lra|]. unfold nested_error. fold uround.
    apply le_INR in Ln. assert ((2510 + 4 * INR (length rows) + 2 * INR (n_Q E)) * uround <= (2510 + 4 * INR Nr + 2 * INR (n_Q E)) * uround) by (apply Rmult_le_compat_r; lra). lra. }
  assert (P280 : 0 < / 10 ^ 280) by (apply Rinv_0_lt_compat, pow_lt; lra).
  assert (E300 : / 10 ^ 300 = / 10 ^ 20 * / 10 ^ 280) by (rewrite <- Rinv_mult, <- pow_add; reflexivity).
  assert (T300 : 3 * / 10 ^ 300 <= / 4).
  { rewrite E300. assert (/ 10 ^ 280 <= 1) by (rewrite <- Rinv_1; apply Rinv_le_contravar; [lra|apply pow_R1_Rle; lra]).
    assert (/ 10 ^ 20 * / 10 ^ 280 <= / 100 * 1) by (apply Rmult_le_compat; lra). lra. }
  assert (HXB : forall i, (i < d_N D)%nat -> double_format (x i) /\ 0 < x i < bpow radix2 1024).
  { intros i Hi. destruct (HX i Hi) as (_ & F & V0 & A). split; [exact F|]. split; [exact V0|]. specialize (PB i Hi).
    assert (rho * p i <= / 4 * 1) by (apply Rle_trans with (/ 4 * p i); [apply Rmult_le_compat_r; lra|apply Rmult_le_compat_l; lra]).
    apply Rabs_le_inv in A. apply Rle_lt_trans with (bpow radix2 1); [cbn; lra|apply bpow_lt; lia]. }
  assert (G : forall i, (i < d_N D)%nat -> d_y D i = 1 -> Rabs (ln (x i) - ln (p i)) <= 2 * (rho + 3 * / 10 ^ 20)).
  { intros i Hi Yi. destruct (HX i Hi) as (_ & _ & V0 & A). specialize (Hp i Hi Yi).
    apply ln_rel; [lra|lra|]. eapply Rle_trans; [exact A|]. rewrite E300.
    assert (/ 10 ^ 20 * / 10 ^ 280 <= / 10 ^ 20 * p i) by (apply Rmult_le_compat_l; lra). lra. }
  (* the penalised parameters *)
  assert (KE : alen params = (n_Q E + alen beta)%nat) by reflexivity.
  set (th := fun j => fval (float_nested_params (n_Q E) lam beta j)).
  set (c := 4 * (2 * eps + 5 * uround)). assert (c0 : 0 <= c) by (unfold c; lra).
  assert (TH : forall j, (j < alen params)%nat -> float_nested_params (n_Q E) lam beta j = FNum (th j) /\
     ((forall i, (i < alen beta)%nat -> double_format (aget beta i)) -> double_format (th j)) /\
     Rabs (th j * th j - aget params j * aget params j) <= (if (j <? n_Q E)%nat then c else 0)).
  { intros j Hj. assert (GP : aget params j = if (j <? n_Q E)%nat then nests j - 1 else aget beta (j - n_Q E)%nat) by reflexivity.
    rewrite GP. clear GP. unfold th, float_nested_params. destruct (j <? n_Q E)%nat eqn:J.
    - apply Nat.ltb_lt in J. destruct (nest_distance ex eps (orig j) Hex Heps (proj1 (HNst j J))) as (z & Ez & Fz & Az).
      unfold lam, computed_nest. rewrite Ez. cbn [fval]. split; [reflexivity|]. split; [intros _; exact Fz|]. rewrite EN. exact Az.
    - apply Nat.ltb_ge in J. cbn [fval]. split; [reflexivity|]. split; [intros H; apply H; rewrite KE in Hj; lia|]. rewrite Rminus_diag_eq by reflexivity. rewrite Rabs_R0. lra. }
  assert (TD : Rabs (total (fun j => th j * th j) (seq 0 (alen params)) - total (fun j => aget params j * aget params j) (seq 0 (alen params))) <= INR (n_Q E) * c).
  { rewrite <- (total_prefix c (n_Q E) (alen beta)), <- KE. apply total_abs_diff. intros j Hj. apply in_seq in Hj. apply TH. lia. }
  set (T := total (fun j => aget params j * aget params j) (seq 0 (alen params))) in *.
  set (T' := total (fun j => th j * th j) (seq 0 (alen params))) in *.
  assert (T0 : 0 <= T) by (apply total_nonneg; intros; apply Rle_0_sqr).
  assert (QC : 0 <= INR (n_Q E) * c <= 2 ^ 20).
  { split; [apply Rmult_le_pos; [apply pos_INR|exact c0]|]. assert (INR (n_Q E) <= 1000000) by (rewrite INR_IZR_INZ; apply IZR_le; exact HQ).
    assert (c <= 1) by (unfold c; assert (/ 2 ^ 40 <= / 2 ^ 20) by (apply Rinv_le_contravar; [apply pow_lt; lra|apply Rle_pow; [lra|lia]]); lra).
    apply Rle_trans with (1000000 * 1); [apply Rmult_le_compat; [apply pos_INR|lra|lra|lra]|lra]. }
  assert (HR' : penalty_in_range (d_ridge D) (alen params) th).
  { unfold penalty_in_range, nested_penalty_in_range in *. destruct (d_ridge D) as [r|]; [|exact I]. destruct Hr as (Fr & Br & Fb & B1 & B2).
    fold T in B1, B2. fold T'. split; [exact Fr|]. split; [exact Br|]. split; [intros j Hj; apply TH; [exact Hj|exact Fb]|].
    apply Rabs_le_inv in TD. pose proof (Rabs_pos r).
    assert (D999 : 2 ^ 1000 = 2 * 2 ^ 999) by reflexivity. rewrite D999.
    assert (B20 : 2 ^ 20 <= 2 ^ 999) by (apply Rle_pow; [lra|lia]).
    assert (B520 : 2 ^ 500 * 2 ^ 20 <= 2 ^ 999) by (rewrite <- pow_add; apply Rle_pow; [lra|lia]).
    assert (Rabs r * (INR (n_Q E) * c) <= 2 ^ 500 * 2 ^ 20) by (apply Rmult_le_compat; lra).
    assert (Rabs r * T' <= Rabs r * T + Rabs r * (INR (n_Q E) * c)) by (rewrite <- Rmult_plus_distr_l; apply Rmult_le_compat_l; lra).
    set (X := 2 ^ 999) in *. set (Y := 2 ^ 500 * 2 ^ 20) in *. clearbody X Y. split; lra. }
  destruct (C130_objective_is_accurate ll el (d_N D) (d_y D) w x p (2 * (rho + 3 * / 10 ^ 20)) dorder (d_ridge D) (alen params) th tp) as (L & EL & AL); try assumption.
  { lra. }
  exists L. split.
  - rewrite <- EL. apply (objective_ext ll (d_y D) w _ _ dorder (d_ridge D) _ _ tp (d_N D) (alen params) HP HPt).
    + intros i Hi. apply HX. exact Hi.
    + intros _ j Hj. apply TH. exact Hj.
  - set (W := chosen_weight (d_N D) (d_y D) w) in *. set (M := chosen_logs (d_N D) (d_y D) w p) in *. set (g := 2 * (rho + 3 * / 10 ^ 20)) in *.
    set (e := nest_penalty_error (d_ridge D) (n_Q E) eps).
    assert (EO : calc_nested_log_likelihood E nests beta = exact_objective (d_N D) (d_y D) w p (d_ridge D) (alen params) (aget params)).
    { unfold calc_nested_log_likelihood, exact_objective. fold D. fold w p params. unfold vdot, asumsq. rewrite !sumn_total. destruct (d_ridge D); [reflexivity|]. ring. }
    rewrite EO.
    assert (DO : Rabs (exact_objective (d_N D) (d_y D) w p (d_ridge D) (alen params) th - exact_objective (d_N D) (d_y D) w p (d_ridge D) (alen params) (aget params)) <= e).
    { unfold exact_objective, e, nest_penalty_error. fold uround. fold c. destruct (d_ridge D) as [r|].
      - fold T T'. set (LL := total _ _). replace (LL - r * T' - (LL - r * T)) with (- r * (T' - T)) by ring. rewrite Rabs_mult, Rabs_Ropp.
        apply Rmult_le_compat_l; [apply Rabs_pos|exact TD].
      - rewrite Rminus_diag_eq by reflexivity. rewrite Rabs_R0. lra. }
    assert (PS : penalty_size (d_ridge D) (alen params) th <= penalty_size (d_ridge D) (alen params) (aget params) + e).
    { unfold penalty_size, e, nest_penalty_error. fold uround. fold c. destruct (d_ridge D) as [r|]; [|lra].
      fold T T'. rewrite <- Rmult_plus_distr_l. apply Rmult_le_compat_l; [apply Rabs_pos|]. apply Rabs_le_inv in TD. lra. }
    set (F := exact_objective _ _ _ _ _ _ (aget params)) in *. set (F' := exact_objective _ _ _ _ _ _ th) in *.
    replace (L - F) with ((L - F') + (F' - F)) by ring. eapply Rle_trans; [apply Rabs_triang|]. apply Rplus_le_compat; [|exact DO].
    eapply Rle_trans; [exact AL|]. unfold objective_error. apply Rplus_le_compat_r, Rplus_le_compat_l, Rmult_le_compat_l; [|exact PS].
    fold uround. apply Rmult_le_pos; [pose proof (pos_INR (alen params)); lra|lra].
Qed.

(** In figures: utilities up to 6, shapes up to 1, at most 2^20 rows and parameters. *)
Theorem C130_logit_objective_in_figures :
  forall k ex eps lg el l1 e1 pw ep st D own alt uorder order shape icpt beta dorder t,
  accurate_exp ex eps -> 0 <= eps <= / 2 ^ 52 -> accurate_ln lg el -> 0 <= el <= / 2 ^ 52 ->
  accurate_log1p l1 e1 -> 0 <= e1 <= / 2 ^ 52 -> accurate_power pw ep -> 0 <= ep <= / 2 ^ 52 ->
  alternatives_of D alt -> rows_in_range D beta uorder 6 -> (d_K D <= 100)%nat -> intercepts_in_range icpt -> usual_shapes k (d_J D) st shape ->
  indicator_of (d_N D) (d_obs D) (d_M D) own -> (Z.of_nat (d_N D) <= 2 ^ 20)%Z ->
  let w := eff_weights (d_w D) in
  weights_in_range (d_N D) (d_y D) w ->
  (forall i, (i < d_N D)%nat ->
     let rows := filter (fun q => (own q =? own i)%nat) (seq 0 (d_N D)) in
     Permutation (terms_of (order (own i))) rows /\ (length rows <= 4095)%nat) ->
  Permutation (dterms dorder) (seq 0 (d_N D)) ->
  let p := long_probs (model_of k) D shape icpt beta in
  (forall i, (i < d_N D)%nat -> d_y D i = 1 -> / 10 ^ 280 <= p i) ->
  let params := all_params shape icpt beta in
  (Z.of_nat (alen params) <= 2 ^ 20)%Z -> penalty_in_range (d_ridge D) (alen params) (aget params) ->
  Permutation (terms_of t) (seq 0 (alen params)) ->
  exists L, float_objective lg (d_y D) w
      (fun i => float_prob ex (float_transformed k ex lg l1 pw st D alt uorder shape icpt beta) (order (own i)) i) dorder
      (d_ridge D) (fun j => FNum (aget params j)) t = FNum L /\
    Rabs (L - calc_log_likelihood (model_of k) D shape icpt beta) <=
      3 * / 10 ^ 7 * (chosen_weight (d_N D) (d_y D) w + chosen_logs (d_N D) (d_y D) w p) +
      / 10 ^ 9 * penalty_size (d_ridge D) (alen params) (aget params) + / 10 ^ 100.
Proof.
  intros k ex eps lg el l1 e1 pw ep st D own alt uorder order shape icpt beta dorder t Hex Heps Hlg Hel Hl1 He1 Hpw Hep HA HR HK HI HS Hown HN w Hw Hobs HP p Hp params HKp HRp HPt.
  pose proof (C128_rows_in_figures k ex eps lg el l1 e1 pw ep st D alt uorder shape icpt beta Hex Heps Hlg Hel Hl1 He1 Hpw Hep HA HR HK HI HS) as HW.
  pose proof uround_pos as U. pose proof uround_ten_8 as U8.
  assert (E52 : / 2 ^ 52 = 2 * uround) by (unfold uround; change (2 ^ 53) with (2 * 2 ^ 52); rewrite Rinv_mult; field; apply pow_nonzero; lra).
  assert (E40 : / 2 ^ 52 <= / 2 ^ 40) by (apply Rinv_le_contravar; [apply pow_lt; lra|]; apply Rle_pow; [lra|lia]).
  set (T8 := / 10 ^ 8) in *. assert (T80 : 0 < T8 <= / 100) by (unfold T8; cbn; lra). assert (T7 : / 10 ^ 7 = 10 * T8) by (unfold T8; cbn; lra).
  assert (T9 : / 10 ^ 9 = T8 / 10) by (unfold T8; cbn; lra). assert (T20 : 0 < / 10 ^ 20 <= T8 * / 100) by (unfold T8; cbn; lra).
  set (rho := exp (2 * T8) * (1 + 2 * (2 * eps + 4096 * / 2 ^ 53)) - 1).
  assert (RHO : 0 <= rho <= 8 * T8).
  { unfold rho. fold uround. assert (EX : exp (2 * T8) <= 1 + 4 * T8).
    { pose proof (exp_rel (2 * T8) 0 (2 * T8) ltac:(rewrite Rminus_0_r, Rabs_right; lra) ltac:(lra)) as Q. rewrite exp_0 in Q. apply Rabs_le_inv in Q. lra. }
    pose proof (exp_ge_linear (2 * T8)). set (Y := 2 * (2 * eps + 4096 * uround)). assert (Y0 : 0 <= Y <= T8) by (unfold Y; lra).
    assert (exp (2 * T8) * (1 + Y) <= (1 + 4 * T8) * (1 + T8)) by (apply Rmult_le_compat; lra).
    assert (1 * 1 <= exp (2 * T8) * (1 + Y)) by (apply Rmult_le_compat; lra).
    assert (T8 * T8 <= T8 * / 100) by (apply Rmult_le_compat_l; lra). lra. }
  destruct (C130_logit_objective_follows_the_model k ex eps lg lg el l1 pw st D own alt uorder order shape icpt beta T8 dorder t) as (L & EL & AL); try assumption; try lra.
  { fold rho. lra. }
  exists L. split; [exact EL|]. eapply Rle_trans; [exact AL|]. fold params w p rho. unfold objective_error. fold uround.
  set (W := chosen_weight (d_N D) (d_y D) w). set (M := chosen_logs (d_N D) (d_y D) w p). set (P := penalty_size (d_ridge D) (alen params) (aget params)).
  assert (Y01 : forall i, (i < d_N D)%nat -> 0 <= d_y D i) by (intros i Hi; destruct (Hw i Hi) as ([-> | ->] & _); lra).
  assert (W0 : 0 <= W) by (apply total_nonneg; intros i Hi; apply in_seq in Hi; apply Rmult_le_pos; [apply Y01; lia|apply Rabs_pos]).
  assert (M0 : 0 <= M) by (apply total_nonneg; intros i Hi; apply in_seq in Hi; apply Rmult_le_pos; [apply Y01; lia|apply Rmult_le_pos; apply Rabs_pos]).
  assert (P0 : 0 <= P) by (unfold P, penalty_size; destruct (d_ridge D); [apply Rmult_le_pos; [apply Rabs_pos|apply total_nonneg; intros; apply Rle_0_sqr]|lra]).
  assert (BN : forall n, (Z.of_nat n <= 2 ^ 20)%Z -> 0 <= (INR n + 1) * uround <= / 60 * T8).
  { intros n Hn. apply IZR_le in Hn. rewrite <- INR_IZR_INZ in Hn. change (IZR (2 ^ 20)) with 1048576 in Hn. pose proof (pos_INR n).
    split; [apply Rmult_le_pos; lra|]. apply Rle_trans with (1048577 * uround); [apply Rmult_le_compat_r; lra|lra]. }
  pose proof (BN _ HN) as BN1. pose proof (BN _ HKp) as BN2.
  set (g := 2 * (rho + 2 * / 10 ^ 20)). assert (G : 0 <= g <= 17 * T8) by (unfold g; lra).
  set (a := el + 6 * (INR (d_N D) + 1) * uround). assert (A : 0 <= a <= T8) by (unfold a; lra).
  assert (0 <= W * g <= W * (17 * T8)) by (split; [apply Rmult_le_pos; lra|apply Rmult_le_compat_l; lra]).
  assert (a * (M + W * g) <= T8 * (M + W * (17 * T8))) by (apply Rmult_le_compat; lra).
  assert (T8 * (W * (17 * T8)) <= 1 * (W * (17 * T8))).
  { apply Rmult_le_compat_r; [apply Rmult_le_pos; lra|lra]. }
  assert (T8 * (W * (17 * T8)) <= / 100 * (W * (17 * T8))) by (apply Rmult_le_compat_r; [apply Rmult_le_pos; lra|lra]).
  assert (3 * (INR (alen params) + 1) * uround * P <= T8 / 10 * P) by (apply Rmult_le_compat_r; lra).
  assert (0 <= T8 * M) by (apply Rmult_le_pos; lra). assert (0 <= T8 * W) by (apply Rmult_le_pos; lra).
  rewrite T7, T9. lra.
Qed.

(** ** Non-vacuity: four rows, observation weights 1 and 2, ridge penalty 2 *)
Definition four_weighted : Data :=
  mkData 4 2 2 2 (fun i _ => INR i) (fun i o => if (i / 2 =? o)%nat then 1 else 0) (fun i j => if (i mod 2 =? j)%nat then 1 else 0)
    (fun i => if Nat.even i then 1 else 0) (Some (fun i => INR (1 + i / 2))) (Some 2).

Example C130_four_rows :
  let lg := fun x => rnd (ln x) in let l1 := fun x => rnd (ln (1 + x)) in let pw := fun a b => rnd (Rpower a b) in
  let beta := mkArr 2 (fun j => if (j =? 0)%nat then -2 else 0) in
  let uorder := fun i : nat => if Nat.even i then DFma (DTerm 0) 1 else DPlus (DTerm 1) (DTerm 0) in
  let order := fun o : nat => match o with 0%nat => SPlus (STerm 0) (STerm 1) | _ => SPlus (STerm 3) (STerm 2) end in
  let p := long_probs MNL_model four_weighted None None beta in
  exists L, float_objective lg (d_y four_weighted) (fun i => INR (1 + i / 2))
      (fun i => float_prob rexp (float_transformed Transforms.KMNL rexp lg l1 pw SNothing four_weighted (fun i => (i mod 2)%nat) uorder None None beta) (order (i / 2)%nat) i)
      (DFma (DPlus (DTerm 0) (DFma (DTerm 2) 1)) 3) (Some 2) (fun j => FNum (aget beta j)) (SPlus (STerm 1) (STerm 0)) = FNum L /\
    Rabs (L - calc_log_likelihood MNL_model four_weighted None None beta) <= 3 * / 10 ^ 7 * (3 + (Rabs (ln (p 0%nat)) + 2 * Rabs (ln (p 2%nat)))) + / 10 ^ 9 * 8 + / 10 ^ 100.
Proof.
  intros lg l1 pw beta uorder order p.
  assert (C4 : forall i, (i < 4)%nat -> (i = 0 \/ i = 1 \/ i = 2 \/ i = 3)%nat) by (intros; lia).
  assert (C2 : forall j, (j < 2)%nat -> (j = 0 \/ j = 1)%nat) by (intros; lia).
  assert (U : 0 <= / 2 ^ 53 <= / 2 ^ 52).
  { split; [left; apply Rinv_0_lt_compat, pow_lt; lra|]. apply Rinv_le_contravar; [apply pow_lt; lra|]. apply Rle_pow; [lra|lia]. }
  assert (Hown : indicator_of (d_N four_weighted) (d_obs four_weighted) (d_M four_weighted) (fun i => (i / 2)%nat)).
  { intros q Hq. split; [|intros; reflexivity]. cbn in Hq |- *. destruct (C4 q Hq) as [-> |[-> |[-> | ->]]]; cbn; lia. }
  assert (R2 : Rabs 2 = 2) by (apply Rabs_right; lra).
  assert (BT : 0 + (-2 * -2 + (0 * 0 + 0)) = 4) by ring.
  destruct (C130_logit_objective_in_figures Transforms.KMNL rexp (/ 2 ^ 53) lg (/ 2 ^ 53) l1 (/ 2 ^ 53) pw (/ 2 ^ 53) SNothing four_weighted (fun i => (i / 2)%nat) (fun i => (i mod 2)%nat) uorder order None None beta
     (DFma (DPlus (DTerm 0) (DFma (DTerm 2) 1)) 3) (SPlus (STerm 1) (STerm 0))) as (L & EL & AL); try exact U; try exact Hown; try exact I.
  - apply C122_correctly_rounded_exp.
  - apply C126_rounded_ln.
  - apply C126_rounded_log1p.
  - apply C126_rounded_power.
  - intros q Hq. cbn in Hq |- *. split; [destruct (C4 q Hq) as [-> |[-> |[-> | ->]]]; cbn; lia|]. intros j Hj. rewrite Nat.eqb_sym. reflexivity.
  - split; [apply Nat.le_trans with (2 ^ 1)%nat; [cbn; lia|apply Nat.pow_le_mono_r; lia]|]. intros q Hq. cbn in Hq.
    split; [|split].
    + destruct (C4 q Hq) as [-> |[-> |[-> | ->]]]; cbn; try apply Permutation_refl; apply perm_swap.
    + destruct (C4 q Hq) as [-> |[-> |[-> | ->]]]; unfold magnitude; cbn; rewrite !Rabs_mult; unfold Rabs; repeat destruct (Rcase_abs _); lra.
    + intros j Hj. cbn in Hj |- *. split; [rewrite INR_IZR_INZ; apply small_integer; lia|].
      destruct (C2 j Hj) as [-> | ->]; cbn; apply small_integer; reflexivity.
  - cbn. lia.
  - cbn. lia.
  - intros i Hi. cbn in Hi. split; [destruct (C4 i Hi) as [-> |[-> |[-> | ->]]]; cbn; auto|].
    assert (W : 1 <= INR (1 + i / 2) <= 2) by (destruct (C4 i Hi) as [-> |[-> |[-> | ->]]]; cbn; lra).
    cbn [eff_weights d_w four_weighted]. split; [rewrite INR_IZR_INZ; apply small_integer; destruct (C4 i Hi) as [-> |[-> |[-> | ->]]]; reflexivity|].
    rewrite Rabs_right by lra. apply Rle_trans with (2 ^ 1); [lra|apply Rle_pow; [lra|lia]].
  - intros i Hi. cbn in Hi. destruct (C4 i Hi) as [-> |[-> |[-> | ->]]]; (split; [|cbn; lia]); cbn; try apply Permutation_refl; apply perm_swap.
  - cbn. do 1 apply perm_skip. apply perm_swap.
  - intros i Hi Yi. apply Rle_trans with (/ 2).
    + apply Rinv_le_contravar; [lra|]. apply Rle_trans with (10 ^ 1); [lra|]. apply Rle_pow; [lra|lia].
    + assert (V : forall k, long_exponentials MNL_model four_weighted None None beta k = exp (clip_exponent (- 2 * INR k))).
      { intros k. unfold long_exponentials. cbn [m_transform MNL_model]. unfold mnl_transform. do 2 f_equal. unfold sys_utilities, mvec. cbn. ring. }
      change (model_of Transforms.KMNL) with MNL_model. rewrite (long_probs_eq MNL_model four_weighted _ Hown) by exact Hi. cbn in Hi.
      assert (M : forall k, (k < 4)%nat -> exp (clip_exponent (- 2 * INR (S k))) <= exp (clip_exponent (- 2 * INR k)) /\ 0 < exp (clip_exponent (- 2 * INR (S k)))).
      { intros k Hk. split; [|apply exp_pos]. rewrite S_INR. pose proof (pos_INR k). assert (INR k <= 4) by (replace 4 with (INR 4) by (cbn; ring); apply le_INR; lia).
        unfold clip_exponent, min_exponent_val, max_exponent_val. repeat destruct (Rlt_dec _ _); try lra. left. apply exp_increasing. lra. }
      assert (H2 : forall a b, 0 < b <= a -> / 2 <= a / (a + b)).
      { intros a b Hab. apply (Rmult_le_reg_r (a + b)); [lra|]. unfold Rdiv. rewrite Rmult_assoc, Rinv_l by lra. lra. }
      unfold osum. cbn [d_N four_weighted sumn].
      destruct (C4 i Hi) as [-> |[-> |[-> | ->]]]; try discriminate Yi; try (cbn in Yi; lra); cbn [Nat.div Nat.divmod fst Nat.eqb Nat.sub]; rewrite ?Rplus_0_l, ?Rplus_0_r.
      * rewrite !V. apply H2. destruct (M 0%nat ltac:(lia)). split; assumption.
      * rewrite !V. apply H2. destruct (M 2%nat ltac:(lia)). split; assumption.
  - cbn. lia.
  - assert (P2 : 8 <= 2 ^ 500) by (apply Rle_trans with (2 ^ 3); [lra|apply Rle_pow; [lra|lia]]).
    assert (P3 : 8 <= 2 ^ 1000) by (apply Rle_trans with (2 ^ 3); [lra|apply Rle_pow; [lra|lia]]).
    cbn [penalty_in_range four_weighted d_ridge all_params alen aget beta seq total Nat.eqb].
    set (X := 2 ^ 500) in *. set (Y := 2 ^ 1000) in *. clearbody X Y. rewrite R2.
    split; [apply small_integer; reflexivity|]. split; [lra|]. split; [|lra].
    intros j Hj. destruct (j =? 0)%nat; apply small_integer; reflexivity.
  - cbn. apply perm_swap.
  - exists L. split; [exact EL|]. eapply Rle_trans; [exact AL|]. fold p.
    apply Rplus_le_compat_r. apply Rplus_le_compat; apply Rmult_le_compat_l; try lra.
    + unfold chosen_weight, chosen_logs. cbn [four_weighted d_N d_y d_w eff_weights seq total Nat.even Nat.div Nat.divmod fst Nat.add Nat.sub]. 
      change (long_probs (model_of Transforms.KMNL) four_weighted None None beta) with p.
      replace (INR 1) with 1 by reflexivity. replace (INR 2) with 2 by (cbn; ring). rewrite R2, Rabs_R1. lra.
    + cbn [penalty_size four_weighted d_ridge all_params alen aget beta seq total Nat.eqb]. rewrite R2. lra.
Qed.

(** The nested logit in figures: utilities up to 10, nest coefficients of at least 1/50. *)
Theorem C130_nested_objective_in_figures :
  forall ex eps pw ep ll el E own nst orig beta order t tq dorder tp,
  accurate_exp ex eps -> 0 <= eps <= / 2 ^ 51 -> accurate_pow pw ep -> 0 <= ep <= / 2 ^ 51 -> accurate_ln ll el -> 0 <= el <= / 2 ^ 51 ->
  let D := n_D E in let w := eff_weights (d_w D) in
  indicator_of (d_N D) (d_obs D) (d_M D) own -> indicator_of (d_N D) (n_Q E) (n_R E) nst -> (Z.of_nat (d_N D) <= 2 ^ 20)%Z ->
  weights_in_range (d_N D) (d_y D) w ->
  rows_in_range D beta order 10 -> (d_K D <= 100)%nat ->
  (forall q, (q < n_Q E)%nat -> Rabs (orig q) <= 700 /\ / 50 <= naturalize_nest_coefs orig q) -> (n_Q E <= 100)%nat ->
  (forall i, (i < d_N D)%nat -> let rows := rows_of (d_N D) own i in
     (length rows <= 1000)%nat /\ (forall q, (q < n_Q E)%nat -> Permutation (terms_of (t (own i) q)) (rows_in_nest nst rows q))) ->
  Permutation (terms_of tq) (seq 0 (n_Q E)) -> Permutation (dterms dorder) (seq 0 (d_N D)) ->
  let nests := naturalize_nest_coefs orig in
  let p := nested_long_probs E nests beta in
  (forall i, (i < d_N D)%nat -> d_y D i = 1 -> / 10 ^ 280 <= p i) ->
  let params := acat (mkArr (n_Q E) (fun q => nests q - 1)) beta in
  (Z.of_nat (alen params) <= 2 ^ 20)%Z -> nested_penalty_in_range (d_ridge D) (n_Q E) params beta ->
  Permutation (terms_of tp) (seq 0 (alen params)) ->
  exists L, float_objective ll (d_y D) w
      (fun i => float_nested_prob ex pw (computed_utilities D beta order) nst (computed_nest ex orig) (t (own i)) tq i) dorder
      (d_ridge D) (float_nested_params (n_Q E) (computed_nest ex orig) beta) tp = FNum L /\
    Rabs (L - calc_nested_log_likelihood E nests beta) <=
      3 * / 10 ^ 9 * (chosen_weight (d_N D) (d_y D) w + chosen_logs (d_N D) (d_y D) w p) +
      / 10 ^ 9 * penalty_size (d_ridge D) (alen params) (aget params) +
      / 10 ^ 12 * match d_ridge D with None => 0 | Some r => Rabs r end + / 10 ^ 100.
Proof.
  intros ex eps pw ep ll el E own nst orig beta order t tq dorder tp Hex Heps Hpw Hep Hll Hel D w Ho Hn HN Hw HR HKd HNst HQ Hobs HPq HP nests p Hp params HK Hr HPt.
  pose proof uround_pos as U0. pose proof FloatNear.uround_small as U1. pose proof uround_ten_8 as U8.
  assert (E51 : / 2 ^ 51 = 4 * uround) by (unfold uround; change (2 ^ 53) with (2 * (2 * 2 ^ 51)); field; apply pow_nonzero; lra).
  assert (S40 : / 2 ^ 51 <= / 2 ^ 40) by (apply Rinv_le_contravar; [apply pow_lt; lra|apply Rle_pow; [lra|lia]]).
  set (T := / 10 ^ 10). assert (T8 : / 10 ^ 8 = 100 * T) by (unfold T; cbn; lra). assert (T9 : / 10 ^ 9 = 10 * T) by (unfold T; cbn; lra). assert (T0 : 0 < T <= / 100) by (unfold T; cbn; lra).
  assert (T12 : / 10 ^ 12 = T / 100) by (unfold T; cbn; lra). assert (T20 : 0 < / 10 ^ 20 <= T * / 100) by (unfold T; cbn; lra).
  rewrite T8 in U8.
  assert (UE : 0 <= utility_error (d_K D) 10 <= 2200 * uround).
  { unfold utility_error. rewrite <- tiny_eq. fold uround. pose proof tiny_le_u as Tt. pose proof (pos_INR (d_K D)) as K0.
    apply le_INR in HKd. replace (INR 100) with 100 in HKd by (rewrite INR_IZR_INZ; reflexivity). split; [apply Rmult_le_pos; lra|].
    apply Rle_trans with (2 * 100 * (uround * 11)); [apply Rmult_le_compat; lra|lra]. }
  assert (IE : 0 <= input_error eps (d_K D) 10 (/ 50) <= 2 * T).
  { unfold input_error. fold uround. unfold Rdiv. rewrite Rinv_inv. split; lra. }
  assert (QR : 0 <= INR (n_Q E) <= 100) by (split; [apply pos_INR|replace 100 with (INR 100) by (rewrite INR_IZR_INZ; reflexivity); apply le_INR; exact HQ]).
  assert (NR : INR 1000 = 1000) by (rewrite INR_IZR_INZ; reflexivity).
  assert (NE : 0 <= nested_error eps ep 1000 (n_Q E) <= T).
  { unfold nested_error. fold uround. rewrite NR. assert (0 <= (2510 + 4 * 1000 + 2 * INR (n_Q E)) * uround <= 6710 * uround) by (split; [apply Rmult_le_pos; lra|apply Rmult_le_compat_r; lra]). lra. }
  assert (EX : exp (input_error eps (d_K D) 10 (/ 50)) <= 1 + 4 * T).
  { apply Rle_trans with (exp (2 * T)); [apply exp_le_mono; lra|].
    pose proof (exp_rel (2 * T) 0 (2 * T) ltac:(rewrite Rminus_0_r, Rabs_right; lra) ltac:(lra)) as Q. rewrite exp_0 in Q. apply Rabs_le_inv in Q. lra. }
  assert (RHO : exp (input_error eps (d_K D) 10 (/ 50)) * (1 + 2 * nested_error eps ep 1000 (n_Q E)) - 1 <= 7 * T).
  { pose proof (exp_pos (input_error eps (d_K D) 10 (/ 50))).
    assert (exp (input_error eps (d_K D) 10 (/ 50)) * (1 + 2 * nested_error eps ep 1000 (n_Q E)) <= (1 + 4 * T) * (1 + 2 * T)) by (apply Rmult_le_compat; lra).
    assert (T * T <= T * / 100) by (apply Rmult_le_compat_l; lra). lra. }
  destruct (C130_nested_objective_follows_the_model ex eps pw ep ll el E own nst orig beta 10 (/ 50) order t tq dorder tp 1000 (7 * T)) as (L & EL & AL); try assumption; try lra; try lia.
  { fold D. lra. }
  exists L. split; [exact EL|]. eapply Rle_trans; [exact AL|]. clear AL. fold D. fold w nests. fold p params. unfold objective_error. fold uround.
  set (W := chosen_weight (d_N D) (d_y D) w). set (M := chosen_logs (d_N D) (d_y D) w p). set (P := penalty_size (d_ridge D) (alen params) (aget params)).
  assert (Y01 : forall i, (i < d_N D)%nat -> 0 <= d_y D i) by (intros i Hi; destruct (Hw i Hi) as ([-> | ->] & _); lra).
  assert (W0 : 0 <= W) by (apply total_nonneg; intros i Hi; apply in_seq in Hi; apply Rmult_le_pos; [apply Y01; lia|apply Rabs_pos]).
  assert (M0 : 0 <= M) by (apply total_nonneg; intros i Hi; apply in_seq in Hi; apply Rmult_le_pos; [apply Y01; lia|apply Rmult_le_pos; apply Rabs_pos]).
  assert (P0 : 0 <= P) by (unfold P, penalty_size; destruct (d_ridge D); [apply Rmult_le_pos; [apply Rabs_pos|apply total_nonneg; intros; apply Rle_0_sqr]|lra]).
  assert (BN : forall n, (Z.of_nat n <= 2 ^ 20)%Z -> 0 <= (INR n + 1) * uround <= 12 / 10 * T).
  { intros n Hz. apply IZR_le in Hz. rewrite <- INR_IZR_INZ in Hz. change (IZR (2 ^ 20)) with 1048576 in Hz. pose proof (pos_INR n).
    split; [apply Rmult_le_pos; lra|]. apply Rle_trans with (1048577 * uround); [apply Rmult_le_compat_r; lra|lra]. }
  pose proof (BN _ HN) as BN1. pose proof (BN _ HK) as BN2.
  set (g := 2 * (7 * T + 3 * / 10 ^ 20)). assert (G : 0 <= g <= 15 * T) by (unfold g; lra).
  set (a := el + 6 * (INR (d_N D) + 1) * uround). assert (A : 0 <= a <= 9 * T) by (unfold a; lra).
  set (R1 := match d_ridge D with None => 0 | Some r => Rabs r end). assert (R0 : 0 <= R1) by (unfold R1; destruct (d_ridge D); [apply Rabs_pos|lra]).
  set (e := nest_penalty_error (d_ridge D) (n_Q E) eps).
  assert (EE : 0 <= e <= / 150 * (T * R1)).
  { unfold e, nest_penalty_error, R1. fold uround. destruct (d_ridge D) as [r|]; [|lra]. pose proof (Rabs_pos r) as Rr.
    assert (C : 0 <= INR (n_Q E) * (4 * (2 * eps + 5 * uround)) <= / 150 * T).
    { split; [apply Rmult_le_pos; lra|]. apply Rle_trans with (100 * (52 * uround)); [apply Rmult_le_compat; lra|lra]. }
    split; [apply Rmult_le_pos; lra|]. apply Rle_trans with (Rabs r * (/ 150 * T)); [apply Rmult_le_compat_l; lra|lra]. }
  assert (0 <= W * g <= W * (15 * T)) by (split; [apply Rmult_le_pos; lra|apply Rmult_le_compat_l; lra]).
  assert (a * (M + W * g) <= 9 * T * (M + W * (15 * T))) by (apply Rmult_le_compat; lra).
  assert (T * (W * (15 * T)) <= / 100 * (W * (15 * T))) by (apply Rmult_le_compat_r; [apply Rmult_le_pos; lra|lra]).
  assert (3 * (INR (alen params) + 1) * uround * (P + e) <= 4 * T * (P + e)) by (apply Rmult_le_compat_r; lra).
  assert (T * e <= / 100 * e) by (apply Rmult_le_compat_r; lra).
  assert (0 <= T * M) by (apply Rmult_le_pos; lra). assert (0 <= T * W) by (apply Rmult_le_pos; lra). assert (0 <= T * P) by (apply Rmult_le_pos; lra).
  assert (0 <= T * R1) by (apply Rmult_le_pos; lra).
  rewrite T9, T12. lra.
Qed.

Definition four_nested_weighted : NData := mkNData four_weighted 2 (fun i q => if ((if (i =? 3)%nat then 1 else 0) =? q)%nat then 1 else 0).

Example C130_four_nested_rows :
  let lg := fun x => rnd (ln x) in
  let beta := mkArr 2 (fun j => if (j =? 0)%nat then -2 else 0) in
  let orig := fun q : nat => INR q in
  let uorder := fun i : nat => if Nat.even i then DFma (DTerm 0) 1 else DPlus (DTerm 1) (DTerm 0) in
  let t := fun o q : nat => match o, q with 0%nat, 0%nat => SPlus (STerm 0) (STerm 1) | 0%nat, _ => SNothing | _, 0%nat => STerm 2 | _, _ => STerm 3 end in
  exists L, float_objective lg (d_y four_weighted) (fun i => INR (1 + i / 2))
      (fun i => float_nested_prob rexp rpow (computed_utilities four_weighted beta uorder) (fun i => if (i =? 3)%nat then 1 else 0)%nat (computed_nest rexp orig) (t (i / 2)%nat) (SPlus (STerm 1) (STerm 0)) i)
      (DFma (DPlus (DTerm 0) (DFma (DTerm 2) 1)) 3) (Some 2) (float_nested_params 2 (computed_nest rexp orig) beta)
      (SPlus (SPlus (STerm 1) (STerm 0)) (SPlus (STerm 2) (STerm 3))) = FNum L /\
    Rabs (L - calc_nested_log_likelihood four_nested_weighted (naturalize_nest_coefs orig) beta) <= / 10 ^ 7.
Proof.
  intros lg beta orig uorder t.
  assert (C4 : forall i, (i < 4)%nat -> (i = 0 \/ i = 1 \/ i = 2 \/ i = 3)%nat) by (intros; lia).
  assert (C2 : forall j, (j < 2)%nat -> (j = 0 \/ j = 1)%nat) by (intros; lia).
  assert (U : 0 <= / 2 ^ 53 <= / 2 ^ 51).
  { split; [left; apply Rinv_0_lt_compat, pow_lt; lra|]. apply Rinv_le_contravar; [apply pow_lt; lra|]. apply Rle_pow; [lra|lia]. }
  set (nst := fun i : nat => (if (i =? 3)%nat then 1 else 0)%nat).
  assert (Ho : indicator_of (d_N four_weighted) (d_obs four_weighted) (d_M four_weighted) (fun i => (i / 2)%nat)).
  { intros q Hq. split; [|intros; reflexivity]. cbn in Hq |- *. destruct (C4 q Hq) as [-> |[-> |[-> | ->]]]; cbn; lia. }
  assert (Hn : indicator_of (d_N four_weighted) (n_Q four_nested_weighted) (n_R four_nested_weighted) nst).
  { intros q Hq. split; [|intros; reflexivity]. cbn in Hq |- *. unfold nst. destruct (q =? 3)%nat; lia. }
  set (nests := naturalize_nest_coefs orig).
  assert (HL : forall q, (q < 2)%nat -> / 2 <= nests q < 1).
  { intros q Hq. unfold nests, naturalize_nest_coefs, orig. assert (0 <= INR q <= 1) by (destruct (C2 q Hq) as [-> | ->]; cbn; lra).
    assert (E1 : exp (-1 * INR q) <= 1) by (apply Rle_trans with (exp 0); [apply exp_le_mono; lra|rewrite exp_0; lra]). pose proof (exp_pos (-1 * INR q)).
    assert (/ 2 <= 1 / (1 + exp (-1 * INR q))) by (unfold Rdiv; rewrite Rmult_1_l; apply Rinv_le_contravar; lra).
    rewrite nonzero_id by lra. split; [lra|]. apply (Rmult_lt_reg_r (1 + exp (-1 * INR q))); [lra|]. unfold Rdiv. rewrite Rmult_assoc, Rinv_l by lra. lra. }
  set (p := nested_long_probs four_nested_weighted nests beta).
  assert (R2 : Rabs 2 = 2) by (apply Rabs_right; lra).
  (* the chosen rows have a probability of at least one half *)
  assert (H2 : forall a b, 0 < b <= a -> / 2 <= a / (a + b) <= 1).
  { intros a b Hab. split; apply (Rmult_le_reg_r (a + b)); try lra; unfold Rdiv; rewrite Rmult_assoc, Rinv_l by lra; lra. }
  assert (PC : forall i, (i = 0 \/ i = 2)%nat -> / 2 <= p i <= 1).
  { intros i Hi. unfold p. rewrite (model_is_textbook four_nested_weighted (fun i => (i / 2)%nat) nst nests beta i Ho Hn);
      [|intros q Hq; cbn in Hq; specialize (HL q Hq); lra|cbn; destruct Hi; subst; lia].
    assert (V : forall k, sys_utilities four_weighted beta k = - 2 * INR k) by (intros k; unfold sys_utilities, mvec; cbn; ring).
    assert (RP : forall a l, 0 < l -> Rpower (exp (a / l) + 0) l = exp a).
    { intros a l Hl. rewrite Rplus_0_r. unfold Rpower. rewrite ln_exp. f_equal. field. lra. }
    destruct (HL 0%nat ltac:(lia)) as (L0 & L0'). destruct (HL 1%nat ltac:(lia)) as (L1 & L1').
    destruct Hi as [-> | ->]; unfold exact_nested_prob, attraction, nest_total; cbn; change (n_D four_nested_weighted) with four_weighted; rewrite ?V.
    - set (A := exp ((0 + 0 * -2 + 0 * 0) / nests 0%nat)). set (B := exp ((0 + 1 * -2 + 1 * 0) / nests 0%nat)).
      assert (B <= A).
      { unfold A, B. apply exp_le_mono. unfold Rdiv. apply Rmult_le_compat_r; [left; apply Rinv_0_lt_compat; lra|lra]. }
      assert (0 < B) by apply exp_pos. assert (Q : 0 < Rpower (A + (B + 0)) (nests 0%nat)) by apply exp_pos. set (Z := Rpower _ _) in *.
      replace (Z / (Z + (0 + 0)) * (A / (A + (B + 0)))) with (A / (A + B)) by (field; lra). apply H2. lra.
    - rewrite !RP by lra. rewrite !Rplus_0_r. set (A := exp (0 + (1 + 1) * -2 + (1 + 1) * 0)). set (B := exp (0 + (1 + 1 + 1) * -2 + (1 + 1 + 1) * 0)).
      assert (B <= A) by (unfold A, B; apply exp_le_mono; lra). assert (0 < B) by apply exp_pos. set (Z := exp (_ / _)). assert (0 < Z) by apply exp_pos.
      replace (A / (A + B) * (Z / Z)) with (A / (A + B)) by (field; lra). apply H2. lra. }
  assert (LC : forall i, (i = 0 \/ i = 2)%nat -> Rabs (ln (p i)) <= 1).
  { intros i Hi. destruct (PC i Hi) as (Q1 & Q2). destruct ln_2_sharp as (_ & L2). apply Rabs_le. split; [|apply Rle_trans with (ln 1); [apply ln_le_mono; lra|rewrite ln_1; lra]].
    apply Rle_trans with (ln (/ 2)); [rewrite ln_Rinv by lra; lra|apply ln_le_mono; lra]. }
  assert (PT : 0 <= total (fun j => aget (acat (mkArr 2 (fun q => nests q - 1)) beta) j * aget (acat (mkArr 2 (fun q => nests q - 1)) beta) j) (seq 0 4) <= 6).
  { destruct (HL 0%nat ltac:(lia)) as (L0 & L0'). destruct (HL 1%nat ltac:(lia)) as (L1 & L1'). cbn.
    assert (S : forall x, / 2 <= x < 1 -> 0 <= (x - 1) * (x - 1) <= 1) by (intros x Hx; split; nra). pose proof (S _ (conj L0 L0')). pose proof (S _ (conj L1 L1')). lra. }
  destruct (C130_nested_objective_in_figures rexp (/ 2 ^ 53) rpow (/ 2 ^ 53) lg (/ 2 ^ 53) four_nested_weighted (fun i => (i / 2)%nat) nst orig beta uorder t (SPlus (STerm 1) (STerm 0))
     (DFma (DPlus (DTerm 0) (DFma (DTerm 2) 1)) 3) (SPlus (SPlus (STerm 1) (STerm 0)) (SPlus (STerm 2) (STerm 3)))) as (L & EL & AL); try exact U; try exact Ho; try exact Hn.
  - apply C122_correctly_rounded_exp.
  - apply C129_rounded_power.
  - apply C126_rounded_ln.
  - cbn. lia.
  - intros i Hi. cbn in Hi. split; [destruct (C4 i Hi) as [-> |[-> |[-> | ->]]]; cbn; auto|].
    assert (W : 1 <= INR (1 + i / 2) <= 2) by (destruct (C4 i Hi) as [-> |[-> |[-> | ->]]]; cbn; lra).
    cbn [eff_weights d_w four_weighted n_D four_nested_weighted]. split; [rewrite INR_IZR_INZ; apply small_integer; destruct (C4 i Hi) as [-> |[-> |[-> | ->]]]; reflexivity|].
    rewrite Rabs_right by lra. apply Rle_trans with (2 ^ 1); [lra|apply Rle_pow; [lra|lia]].
  - split; [apply Nat.le_trans with (2 ^ 1)%nat; [cbn; lia|apply Nat.pow_le_mono_r; lia]|]. intros q Hq. cbn in Hq.
    split; [|split].
    + destruct (C4 q Hq) as [-> |[-> |[-> | ->]]]; cbn; try apply Permutation_refl; apply perm_swap.
    + destruct (C4 q Hq) as [-> |[-> |[-> | ->]]]; unfold magnitude; cbn; rewrite !Rabs_mult; unfold Rabs; repeat destruct (Rcase_abs _); lra.
    + intros j Hj. cbn in Hj |- *. split; [rewrite INR_IZR_INZ; apply small_integer; lia|].
      destruct (C2 j Hj) as [-> | ->]; cbn; apply small_integer; reflexivity.
  - cbn. lia.
  - intros q Hq. cbn in Hq. fold nests. destruct (HL q Hq) as (Q & _). split; [|lra]. unfold orig. destruct (C2 q Hq) as [-> | ->]; cbn; [rewrite Rabs_R0|rewrite Rabs_R1]; lra.
  - cbn. lia.
  - intros i Hi. cbn in Hi. destruct (C4 i Hi) as [-> |[-> |[-> | ->]]]; (split; [cbn; lia|]); intros q Hq; cbn in Hq; destruct (C2 q Hq) as [-> | ->]; cbn; apply Permutation_refl.
  - cbn. apply perm_swap.
  - cbn. do 1 apply perm_skip. apply perm_swap.
  - fold nests. fold p. intros i Hi Yi. cbn in Hi. apply Rle_trans with (/ 2).
    + apply Rinv_le_contravar; [lra|]. apply Rle_trans with (10 ^ 1); [lra|]. apply Rle_pow; [lra|lia].
    + apply PC. destruct (C4 i Hi) as [-> |[-> |[-> | ->]]]; cbn in Yi; try lra; [left|right]; reflexivity.
  - cbn. lia.
  - fold nests. change (acat (mkArr (n_Q four_nested_weighted) (fun q => nests q - 1)) beta) with (acat (mkArr 2 (fun q => nests q - 1)) beta).
    assert (P2 : 16 <= 2 ^ 500) by (apply Rle_trans with (2 ^ 4); [lra|apply Rle_pow; [lra|lia]]).
    assert (P3 : 16 <= 2 ^ 999) by (apply Rle_trans with (2 ^ 4); [lra|apply Rle_pow; [lra|lia]]).
    cbn [nested_penalty_in_range d_ridge n_D four_nested_weighted four_weighted]. change (alen (acat (mkArr 2 (fun q => nests q - 1)) beta)) with 4%nat.
    set (X := 2 ^ 500) in *. set (Y := 2 ^ 999) in *. clearbody X Y. rewrite R2.
    split; [apply small_integer; reflexivity|]. split; [lra|]. split; [|lra].
    intros j Hj. cbn [aget beta]. destruct (j =? 0)%nat; apply small_integer; reflexivity.
  - cbn. apply perm_swap.
  - exists L. split; [exact EL|]. eapply Rle_trans; [exact AL|]. clear EL AL. fold nests. fold p.
    assert (LA := LC 0%nat (or_introl eq_refl)). assert (LB := LC 2%nat (or_intror eq_refl)). pose proof (Rabs_pos (ln (p 0%nat))). pose proof (Rabs_pos (ln (p 2%nat))).
    change (acat (mkArr (n_Q four_nested_weighted) (fun q => nests q - 1)) beta) with (acat (mkArr 2 (fun q => nests q - 1)) beta).
    change (alen (acat (mkArr 2 (fun q => nests q - 1)) beta)) with 4%nat.
    unfold chosen_weight, chosen_logs, penalty_size. cbn [n_D four_nested_weighted d_ridge four_weighted]. set (PP := total (fun j => aget _ j * aget _ j) _) in *. clearbody PP.
    cbn [four_weighted d_N d_y d_w eff_weights seq total Nat.even Nat.div Nat.divmod fst Nat.add Nat.sub].
    replace (INR 1) with 1 by reflexivity. replace (INR 2) with 2 by (cbn; ring). rewrite R2, Rabs_R1.
    assert (T100 : / 10 ^ 100 <= / 10 ^ 10) by (apply Rinv_le_contravar; [apply pow_lt; lra|apply Rle_pow; [lra|lia]]).
    set (X := / 10 ^ 100) in *. clearbody X. clear PC LC H2. lra.
Qed.

Print Assumptions C130_objective_is_accurate.
Print Assumptions C130_logit_objective_follows_the_model.
Print Assumptions C130_logit_objective_in_figures.
Print Assumptions C130_nested_objective_follows_the_model.
Print Assumptions C130_nested_objective_in_figures.
