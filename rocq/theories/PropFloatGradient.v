(** C131: the gradient in double precision. *)
From Coq Require Import ZArith Reals Lra Lia List Permutation Bool Arith.
From Coquelicot Require Import Coquelicot.
From Flocq Require Import Core.
From Verif Require Import Res Vec Arr ChoiceCalcs NestedCalcs SpecLogit Transforms ChoiceFacts Floats FloatFacts FloatTransforms FloatUtilities FloatLogit FloatNear FloatObjective FloatGradient LogitFacts RowDeriv Mappings LongData PropMappings PropProbs PropGradient PropFloats PropFloatUtilities PropFloatAccuracy PropFloatLogit PropFloatNested PropFloatObjective.
Import ListNotations.
Open Scope R_scope.

#[local] Instance prec_53g : Prec_gt_0 53 := FloatFacts.prec_53.

(** ** Specification *)

(** The entry of the gradient that belongs to a parameter [theta] through which the
    transformed utility of row [i] changes at the rate [H i]. *)
Definition exact_gradient_entry (N : nat) (y w p H : nat -> R) (ridge : option R) (theta : R) : R :=
  total (fun i => w i * (y i - p i) * H i) (seq 0 N) - match ridge with None => 0 | Some r => 2 * r * theta end.

(** Weighted sizes of a column, and the penalty's part. *)
Definition column_size (N : nat) (w H : nat -> R) : R := total (fun i => Rabs (w i) * Rabs (H i)) (seq 0 N).
Definition ridge_part (ridge : option R) (theta : R) : R := match ridge with None => 0 | Some r => Rabs (r * theta) end.

(** [d]: error of the probabilities; [E]: error of the column, weighted. *)
Definition gradient_error (N : nat) (d S E P : R) : R :=
  (d + 12 * (INR N + 1) * / 2 ^ 53) * (S + E) + E + 10 * / 2 ^ 53 * P + / 10 ^ 100.

Definition column_in_range (N : nat) (H : nat -> R) : Prop := forall i, (i < N)%nat -> double_format (H i) /\ Rabs (H i) <= 2 ^ 400.
Definition ridge_in_range (ridge : option R) (theta : R) : Prop :=
  match ridge with None => True | Some r => double_format r /\ Rabs r <= 2 ^ 400 /\ double_format theta /\ Rabs theta <= 2 ^ 400 end.

(** ** C131 *)
Theorem C131_gradient_entry_is_accurate :
  forall N y w x p d (Hc H h : nat -> R) order ridge theta,
  (Z.of_nat N <= 2 ^ 20)%Z -> (forall i, (i < N)%nat -> y i = 0 \/ y i = 1) -> column_in_range N w ->
  (forall i, (i < N)%nat -> double_format (x i) /\ 0 <= p i <= 1 /\ Rabs (x i - p i) <= d) -> 0 <= d <= 1 ->
  column_in_range N Hc -> (forall i, (i < N)%nat -> Rabs (Hc i - H i) <= h i) ->
  Permutation (dterms order) (seq 0 N) -> ridge_in_range ridge theta ->
  exists G, float_gradient_entry y w (fun i => FNum (x i)) (fun i => FNum (Hc i)) order ridge (FNum theta) = FNum G /\ double_format G /\
    Rabs (G - exact_gradient_entry N y w p H ridge theta) <=
      gradient_error N d (column_size N w H) (total (fun i => Rabs (w i) * h i) (seq 0 N)) (ridge_part ridge theta).
Proof.
  intros N y w x p d Hc H h order ridge theta HN Hy Hw Hx Hd HHc Hh HP HR.
  pose proof uround_pos as U0. pose proof FloatNear.uround_small as U1. pose proof tiny_le_u as (T0 & TU).
  assert (N20 : 0 <= INR N <= 2 ^ 20).
  { split; [apply pos_INR|]. rewrite INR_IZR_INZ. rewrite pow_IZR. apply IZR_le. exact HN. }
  assert (B400 : 2 ^ 400 = bpow radix2 400) by apply pow2_bpow.
  set (Z := bpow radix2 400) in *. assert (Z1 : 1 <= Z) by (apply (bpow_le radix2 0); lia).
  assert (ZZ : Z * Z = bpow radix2 800) by (unfold Z; rewrite <- bpow_plus; reflexivity).
  set (e := fun i => rnd (y i + - x i)). set (q := fun i => rnd (w i * e i)). set (c := fun i => Rabs (w i) * (Rabs (H i) + h i)).
  assert (h0 : forall i, (i < N)%nat -> 0 <= h i) by (intros i Hi; pose proof (Hh i Hi); pose proof (Rabs_pos (Hc i - H i)); lra).
  assert (HE : forall i, (i < N)%nat -> Rabs (e i - (y i - p i)) <= d + 3 * uround /\ Rabs (e i) <= 3 /\ Rabs (y i - p i) <= 1).
  { intros i Hi. destruct (Hx i Hi) as (_ & Pi & Xi). pose proof (rnd_abs (y i + - x i)) as R. fold (e i) in R.
    assert (YP : Rabs (y i - p i) <= 1) by (apply Rabs_le; destruct (Hy i Hi) as [-> | ->]; lra).
    assert (YX : Rabs (y i + - x i) <= 2).
    { replace (y i + - x i) with ((y i - p i) - (x i - p i)) by ring. eapply Rle_trans; [apply Rabs_triang|]. rewrite Rabs_Ropp. lra. }
    assert (uround * Rabs (y i + - x i) <= uround * 2) by (apply Rmult_le_compat_l; lra).
    split; [|split; [|exact YP]].
    - replace (e i - (y i - p i)) with ((e i - (y i + - x i)) - (x i - p i)) by ring. eapply Rle_trans; [apply Rabs_triang|]. rewrite Rabs_Ropp. lra.
    - replace (e i) with ((e i - (y i + - x i)) + (y i + - x i)) by ring. eapply Rle_trans; [apply Rabs_triang|]. lra. }
  assert (HQ : forall i, (i < N)%nat -> Rabs (q i - w i * (y i - p i)) <= (d + 6 * uround) * Rabs (w i) + tiny /\ Rabs (q i) <= 4 * Rabs (w i) + tiny).
  { intros i Hi. destruct (HE i Hi) as (E1 & E2 & E3). pose proof (rnd_abs (w i * e i)) as R. fold (q i) in R. pose proof (Rabs_pos (w i)) as W0. pose proof (Rabs_pos (e i)).
    assert (WE : Rabs (w i * e i) <= Rabs (w i) * 3) by (rewrite Rabs_mult; apply Rmult_le_compat_l; lra).
    assert (uround * Rabs (w i * e i) <= uround * (Rabs (w i) * 3)) by (apply Rmult_le_compat_l; lra).
    assert (uround * Rabs (w i) <= / 100 * Rabs (w i)) by (apply Rmult_le_compat_r; lra).
    split.
    - replace (q i - w i * (y i - p i)) with ((q i - w i * e i) + w i * (e i - (y i - p i))) by ring. eapply Rle_trans; [apply Rabs_triang|]. rewrite (Rabs_mult (w i) (e i - _)).
      assert (Rabs (w i) * Rabs (e i - (y i - p i)) <= Rabs (w i) * (d + 3 * uround)) by (apply Rmult_le_compat_l; lra). lra.
    - replace (q i) with ((q i - w i * e i) + w i * e i) by ring. eapply Rle_trans; [apply Rabs_triang|]. lra. }
  assert (HB : forall i, (i < N)%nat -> Rabs (w i) <= Z /\ Rabs (Hc i) <= Z /\ Rabs (q i) <= 5 * Z).
  { intros i Hi. destruct (Hw i Hi) as (_ & W). destruct (HHc i Hi) as (_ & C). rewrite B400 in W, C. fold Z in W, C. destruct (HQ i Hi) as (_ & Q). split; [exact W|]. split; [exact C|]. lra. }
  assert (HT : forall i, (i < N)%nat -> float_residual y w (fun i => FNum (x i)) i = FNum (q i)).
  { intros i Hi. destruct (HB i Hi) as (_ & _ & Q). destruct (HE i Hi) as (_ & E2 & _). unfold float_residual. cbn [fsub fneg fadd]. fold (e i).
    rewrite overflow_num by (eapply Rle_lt_trans; [exact E2|]; apply Rle_lt_trans with (bpow radix2 2); [cbn; lra|apply bpow_lt; lia]).
    cbn [fmul]. fold (q i). apply overflow_num. eapply Rle_lt_trans; [exact Q|]. apply Rle_lt_trans with (bpow radix2 403); [|apply bpow_lt; lia].
    change 403%Z with (3 + 400)%Z. rewrite bpow_plus. fold Z. cbn. lra. }
  assert (IN : forall k, In k (dterms order) -> (k < N)%nat) by (intros k Hk; apply (Permutation_in _ HP), in_seq in Hk; lia).
  assert (LEN : length (dterms order) = N) by (rewrite (Permutation_length HP); apply seq_length).
  assert (NU : 0 <= INR N * uround <= / 2 ^ 30).
  { split; [apply Rmult_le_pos; lra|]. apply Rle_trans with (2 ^ 20 * uround); [apply Rmult_le_compat_r; lra|]. unfold uround. lra. }
  set (C := total c (seq 0 N)).
  assert (c0 : forall i, (i < N)%nat -> 0 <= c i) by (intros i Hi; unfold c; apply Rmult_le_pos; [apply Rabs_pos|]; pose proof (Rabs_pos (H i)); pose proof (h0 i Hi); lra).
  assert (C0 : 0 <= C) by (apply total_nonneg; intros i Hi; apply in_seq in Hi; apply c0; lia).
  assert (EC : C = column_size N w H + total (fun i => Rabs (w i) * h i) (seq 0 N)).
  { unfold C, column_size. generalize (seq 0 N). induction l as [|k l IH]; cbn [total]; [ring|]. rewrite IH. unfold c. ring. }
  set (S := lsum (fun k => Rabs (q k * Hc k)) (dterms order)).
  assert (ES : S = total (fun k => Rabs (q k * Hc k)) (seq 0 N)) by (unfold S; rewrite (total_lsum (fun k => Rabs (q k * Hc k)) (seq 0 N)); apply lsum_perm; exact HP).
  assert (S0 : 0 <= S) by (unfold S; apply lsum_abs_ge0).
  assert (HcB : forall i, (i < N)%nat -> Rabs (Hc i) <= Rabs (H i) + h i).
  { intros i Hi. replace (Hc i) with ((Hc i - H i) + H i) by ring. eapply Rle_trans; [apply Rabs_triang|]. pose proof (Hh i Hi). lra. }
  assert (LN : INR (length (seq 0 N)) = INR N) by (rewrite seq_length; reflexivity).
  set (tz := tiny * Z). assert (TZ : 0 < tz) by (unfold tz; apply Rmult_lt_0_compat; lra).
  assert (TT : tiny <= tz) by (unfold tz; rewrite <- (Rmult_1_r tiny) at 1; apply Rmult_le_compat_l; lra).
  assert (ROW : forall i, (i < N)%nat -> Rabs (q i * Hc i - w i * (y i - p i) * H i) <= (d + 6 * uround) * c i + 1 * (Rabs (w i) * h i) + tz /\ Rabs (q i * Hc i) <= 4 * c i + 0 * (Rabs (w i) * h i) + tz).
  { intros i Hi. destruct (HQ i Hi) as (Q1 & Q2). destruct (HE i Hi) as (_ & _ & E3). destruct (HB i Hi) as (_ & BH & _). pose proof (HcB i Hi) as HI. pose proof (Rabs_pos (Hc i)) as R0. pose proof (Rabs_pos (w i)) as W0.
    assert (M1 : Rabs (w i) * Rabs (Hc i) <= c i) by (unfold c; apply Rmult_le_compat_l; lra).
    assert (M2 : tiny * Rabs (Hc i) <= tz) by (unfold tz; apply Rmult_le_compat_l; lra).
    split.
    - replace (q i * Hc i - w i * (y i - p i) * H i) with ((q i - w i * (y i - p i)) * Hc i + w i * ((y i - p i) * (Hc i - H i))) by ring.
      eapply Rle_trans; [apply Rabs_triang|]. rewrite !Rabs_mult.
      assert (A1 : Rabs (q i - w i * (y i - p i)) * Rabs (Hc i) <= ((d + 6 * uround) * Rabs (w i) + tiny) * Rabs (Hc i)) by (apply Rmult_le_compat_r; lra).
      assert (A2 : Rabs (y i - p i) * Rabs (Hc i - H i) <= 1 * h i) by (apply Rmult_le_compat; try apply Rabs_pos; [exact E3|apply Hh; exact Hi]).
      assert (A3 : Rabs (w i) * (Rabs (y i - p i) * Rabs (Hc i - H i)) <= Rabs (w i) * (1 * h i)) by (apply Rmult_le_compat_l; assumption).
      assert (A4 : (d + 6 * uround) * (Rabs (w i) * Rabs (Hc i)) <= (d + 6 * uround) * c i) by (apply Rmult_le_compat_l; lra). lra.
    - rewrite Rabs_mult. assert (Rabs (q i) * Rabs (Hc i) <= (4 * Rabs (w i) + tiny) * Rabs (Hc i)) by (apply Rmult_le_compat_r; lra). lra. }
  assert (RS : S <= 4 * C + INR N * tz).
  { rewrite ES. rewrite <- LN. replace (4 * C + INR (length (seq 0 N)) * tz) with (4 * total c (seq 0 N) + 0 * total (fun i => Rabs (w i) * h i) (seq 0 N) + INR (length (seq 0 N)) * tz) by (fold C; ring).
    rewrite <- (total_lin 4 0 tz c (fun i => Rabs (w i) * h i)). apply total_le. intros i Hi. apply in_seq in Hi. apply ROW. lia. }
  set (X := total (fun i => w i * (y i - p i) * H i) (seq 0 N)). set (E := total (fun i => Rabs (w i) * h i) (seq 0 N)) in *.
  assert (E0 : 0 <= E) by (apply total_nonneg; intros i Hi; apply in_seq in Hi; apply Rmult_le_pos; [apply Rabs_pos|apply h0; lia]).
  assert (RX : Rabs (total (fun k => q k * Hc k) (seq 0 N) - X) <= (d + 6 * uround) * C + E + INR N * tz).
  { rewrite <- LN. replace ((d + 6 * uround) * C + E + INR (length (seq 0 N)) * tz) with ((d + 6 * uround) * total c (seq 0 N) + 1 * total (fun i => Rabs (w i) * h i) (seq 0 N) + INR (length (seq 0 N)) * tz) by (fold C E; ring).
    rewrite <- (total_lin (d + 6 * uround) 1 tz c (fun i => Rabs (w i) * h i)). apply total_abs_diff. intros i Hi. apply in_seq in Hi. apply ROW. lia. }
  assert (SB : S <= bpow radix2 840).
  { rewrite ES. apply Rle_trans with (INR N * (5 * (Z * Z))).
    - rewrite <- LN. apply total_const_le. intros i Hi. apply in_seq in Hi. destruct (HB i ltac:(lia)) as (_ & Q1 & Q2). rewrite Rabs_mult.
      replace (5 * (Z * Z)) with ((5 * Z) * Z) by ring. apply Rmult_le_compat; try apply Rabs_pos; assumption.
    - rewrite ZZ. apply Rle_trans with (2 ^ 20 * (8 * bpow radix2 800)); [apply Rmult_le_compat; try lra; pose proof (bpow_gt_0 radix2 800); lra|].
      rewrite (pow2_bpow 20). replace 8 with (bpow radix2 3) by reflexivity. rewrite <- !bpow_plus. apply bpow_le. lia. }
  pose proof (pow1u_le N ltac:(lra)) as PG. pose proof (pow1u_ge1 N) as PG1.
  assert (NT : 0 <= INR N * tiny <= INR N * tz) by (split; [apply Rmult_le_pos; lra|apply Rmult_le_compat_l; lra]).
  assert (NT1 : INR N * tz <= / 10 ^ 101).
  { apply Rle_trans with (2 ^ 20 * tz); [apply Rmult_le_compat_r; lra|]. unfold tz, Z. rewrite (pow2_bpow 20).
    apply Rle_trans with (bpow radix2 20 * (bpow radix2 (-1074) * bpow radix2 400)).
    { apply Rmult_le_compat_l; [apply bpow_ge_0|]. apply Rmult_le_compat_r; [apply bpow_ge_0|]. pose proof (bpow_gt_0 radix2 (-1074)). lra. }
    rewrite <- !bpow_plus. cbn [Z.add Z.of_nat]. apply Rle_trans with (/ (bpow radix2 4) ^ 101).
    - replace (bpow radix2 4 ^ 101) with (bpow radix2 404). 2:{ replace (bpow radix2 4) with (2 ^ 4) by (cbn; ring). rewrite <- pow_mult. symmetry. apply pow2_bpow. }
      rewrite <- bpow_opp. apply bpow_le. cbn. lia.
    - apply Rinv_le_contravar; [apply pow_lt; lra|]. apply pow_incr. cbn. lra. }
  assert (T101 : / 10 ^ 101 = / 10 * / 10 ^ 100) by (rewrite <- Rinv_mult; reflexivity).
  destruct (fdot_error q Hc order (bpow radix2 845)) as (s & Es & Fs & _ & As).
  { intros k Hk. split; [apply rnd_format|apply HHc, IN, Hk]. }
  { rewrite LEN. fold S. assert (B845 : bpow radix2 845 = 32 * bpow radix2 840) by (change 845%Z with (5 + 840)%Z; rewrite bpow_plus; reflexivity). rewrite B845.
    assert (1 <= bpow radix2 840) by (apply (bpow_le radix2 0); lia).
    assert (/ 10 ^ 101 <= 1) by (rewrite <- Rinv_1; apply Rinv_le_contravar; [lra|apply pow_R1_Rle; lra]).
    apply Rle_trans with (2 * (2 * bpow radix2 840)); [apply Rmult_le_compat; lra|lra]. }
  { apply bpow_lt. lia. }
  rewrite LEN in As. fold S in As.
  assert (ESX : lsum (fun k => q k * Hc k) (dterms order) = total (fun k => q k * Hc k) (seq 0 N)) by (rewrite (total_lsum (fun k => q k * Hc k) (seq 0 N)); apply lsum_perm; exact HP).
  rewrite ESX in As.
  assert (A2 : Rabs (s - total (fun k => q k * Hc k) (seq 0 N)) <= 2 * (INR N * uround) * S + 2 * (INR N * tiny)).
  { eapply Rle_trans; [exact As|]. apply Rplus_le_compat; apply Rmult_le_compat_r; lra. }
  assert (NS : 2 * (INR N * uround) * S <= 2 * (INR N * uround) * (4 * C + INR N * tz)) by (apply Rmult_le_compat_l; lra).
  assert (NS2 : 2 * (INR N * uround) * (INR N * tz) <= 1 * (INR N * tz)) by (apply Rmult_le_compat_r; lra).
  assert (A3 : Rabs (s - X) <= (d + (6 + 8 * INR N) * uround) * C + E + 4 * (INR N * tz)).
  { replace (s - X) with ((s - total (fun k => q k * Hc k) (seq 0 N)) + (total (fun k => q k * Hc k) (seq 0 N) - X)) by ring. eapply Rle_trans; [apply Rabs_triang|]. lra. }
  assert (SS : Rabs s <= 5 * C + 4 * (INR N * tz)).
  { replace s with ((s - total (fun k => q k * Hc k) (seq 0 N)) + total (fun k => q k * Hc k) (seq 0 N)) by ring. eapply Rle_trans; [apply Rabs_triang|].
    assert (Rabs (total (fun k => q k * Hc k) (seq 0 N)) <= S) by (unfold S; rewrite <- ESX; apply lsum_abs_le).
    assert (INR N * uround * C <= / 16 * C) by (apply Rmult_le_compat_r; lra). lra. }
  assert (SF : Rabs s <= bpow radix2 845).
  { replace s with ((s - total (fun k => q k * Hc k) (seq 0 N)) + total (fun k => q k * Hc k) (seq 0 N)) by ring. eapply Rle_trans; [apply Rabs_triang|].
    assert (Rabs (total (fun k => q k * Hc k) (seq 0 N)) <= S) by (unfold S; rewrite <- ESX; apply lsum_abs_le).
    assert (2 * (INR N * uround) * S <= 1 * S) by (apply Rmult_le_compat_r; lra).
    assert (B845 : bpow radix2 845 = 32 * bpow radix2 840) by (change 845%Z with (5 + 840)%Z; rewrite bpow_plus; reflexivity). rewrite B845.
    assert (1 <= bpow radix2 840) by (apply (bpow_le radix2 0); lia).
    assert (/ 10 ^ 101 <= 1) by (rewrite <- Rinv_1; apply Rinv_le_contravar; [lra|apply pow_R1_Rle; lra]). lra. }
  assert (EF : float_score y w (fun i => FNum (x i)) (fun i => FNum (Hc i)) order = FNum s).
  { unfold float_score. rewrite <- Es. apply fdot_ext. intros k Hk. split; [apply HT, IN, Hk|reflexivity]. }
  unfold float_gradient_entry, exact_gradient_entry, gradient_error, ridge_part. rewrite EF. fold uround X E. rewrite <- EC.
  assert (P100 : 0 < / 10 ^ 100) by (apply Rinv_0_lt_compat, pow_lt; lra).
  assert (NC : 0 <= INR N * uround * C) by (apply Rmult_le_pos; lra). assert (UC : 0 <= uround * C) by (apply Rmult_le_pos; lra).
  destruct ridge as [r|].
  2: { exists s. split; [reflexivity|]. split; [exact Fs|]. replace (s - (X - 0)) with (s - X) by ring. eapply Rle_trans; [exact A3|].
       set (I := / 10 ^ 100) in *. clearbody I. lra. }
  destruct HR as (Fr & Br & Ft & Bt). rewrite B400 in Br, Bt. fold Z in Br, Bt.
  pose proof (Rabs_pos r) as R0. pose proof (Rabs_pos theta) as TH0.
  set (a := rnd (2 * r)). pose proof (rnd_abs (2 * r)) as Aa. fold a in Aa. rewrite (Rabs_mult 2 r), (Rabs_right 2) in Aa by lra.
  assert (Ba : Rabs a <= 2 * Rabs r + (uround * (2 * Rabs r) + tiny)) by (replace a with ((a - 2 * r) + 2 * r) by ring; eapply Rle_trans; [apply Rabs_triang|]; rewrite (Rabs_mult 2 r), (Rabs_right 2) by lra; lra).
  assert (Ur : uround * Rabs r <= / 100 * Rabs r) by (apply Rmult_le_compat_r; lra).
  assert (Ba2 : Rabs a <= 4 * Z) by lra.
  set (z := rnd (a * theta)). pose proof (rnd_abs (a * theta)) as Az. fold z in Az. rewrite (Rabs_mult a theta) in Az.
  set (P := Rabs (r * theta)). assert (EP : P = Rabs r * Rabs theta) by (unfold P; apply Rabs_mult).
  assert (P0 : 0 <= P) by apply Rabs_pos.
  assert (Tt : 0 <= tiny * Rabs theta <= tz) by (split; [apply Rmult_le_pos; lra|unfold tz; apply Rmult_le_compat_l; lra]).
  assert (Dz1 : Rabs ((a - 2 * r) * theta) <= 2 * uround * P + tz).
  { rewrite Rabs_mult. apply Rle_trans with ((uround * (2 * Rabs r) + tiny) * Rabs theta); [apply Rmult_le_compat_r; lra|]. rewrite EP. lra. }
  assert (Ma : Rabs a * Rabs theta <= (2 * Rabs r + (uround * (2 * Rabs r) + tiny)) * Rabs theta) by (apply Rmult_le_compat_r; lra).
  assert (UP : 0 <= uround * P <= / 100 * P) by (split; [apply Rmult_le_pos; lra|apply Rmult_le_compat_r; lra]).
  assert (Ma2 : Rabs a * Rabs theta <= 3 * P + tz) by (rewrite EP in *; lra).
  assert (Dz2 : uround * (Rabs a * Rabs theta) <= uround * (3 * P + tz)) by (apply Rmult_le_compat_l; lra).
  assert (Utz : uround * tz <= 1 * tz) by (apply Rmult_le_compat_r; lra).
  assert (Dz : Rabs (z - 2 * r * theta) <= 5 * uround * P + 3 * tz).
  { replace (z - 2 * r * theta) with ((z - a * theta) + (a - 2 * r) * theta) by ring. eapply Rle_trans; [apply Rabs_triang|]. lra. }
  assert (Bz : Rabs z <= 4 * P + 4 * tz).
  { replace z with ((z - a * theta) + a * theta) by ring. eapply Rle_trans; [apply Rabs_triang|]. rewrite (Rabs_mult a theta). lra. }
  assert (B801 : Rabs a * Rabs theta <= 4 * bpow radix2 800) by (rewrite <- ZZ; replace (4 * (Z * Z)) with ((4 * Z) * Z) by ring; apply Rmult_le_compat; [apply Rabs_pos|apply Rabs_pos|exact Ba2|exact Bt]).
  assert (B845 : bpow radix2 845 = 32 * bpow radix2 840) by (change 845%Z with (5 + 840)%Z; rewrite bpow_plus; reflexivity).
  assert (B800 : bpow radix2 800 <= bpow radix2 840) by (apply bpow_le; lia). assert (P840 : 1 <= bpow radix2 840) by (apply (bpow_le radix2 0); lia).
  assert (ZF : Rabs z <= bpow radix2 845).
  { replace z with ((z - a * theta) + a * theta) by ring. eapply Rle_trans; [apply Rabs_triang|]. rewrite (Rabs_mult a theta).
    assert (uround * (Rabs a * Rabs theta) <= 1 * (Rabs a * Rabs theta)) by (apply Rmult_le_compat_r; [apply Rmult_le_pos; apply Rabs_pos|lra]). lra. }
  pose proof (rnd_abs (s + - z)) as Ag. set (G := rnd (s + - z)) in *.
  assert (Bsz : Rabs (s + - z) <= Rabs s + Rabs z) by (eapply Rle_trans; [apply Rabs_triang|]; rewrite Rabs_Ropp; lra).
  assert (GF : Rabs G < bpow radix2 1024).
  { apply Rle_lt_trans with (bpow radix2 848); [|apply bpow_lt; lia].
    assert (B848 : bpow radix2 848 = 8 * bpow radix2 845) by (change 848%Z with (3 + 845)%Z; rewrite bpow_plus; reflexivity). rewrite B848.
    replace G with ((G - (s + - z)) + (s + - z)) by ring. eapply Rle_trans; [apply Rabs_triang|].
    assert (uround * Rabs (s + - z) <= 1 * Rabs (s + - z)) by (apply Rmult_le_compat_r; [apply Rabs_pos|lra]). lra. }
  exists G. split; [|split].
  - cbn [fmul]. fold a. rewrite (overflow_num a) by (eapply Rle_lt_trans; [exact Ba2|]; apply Rle_lt_trans with (bpow radix2 402); [change 402%Z with (2 + 400)%Z; rewrite bpow_plus; fold Z; cbn; lra|apply bpow_lt; lia]).
    cbn [fmul]. fold z. rewrite (overflow_num z) by (eapply Rle_lt_trans; [exact ZF|apply bpow_lt; lia]). cbn [fsub fneg fadd]. fold G. apply overflow_num. exact GF.
  - apply rnd_format.
  - replace (G - (X - 2 * r * theta)) with ((G - (s + - z)) + (s - X) - (z - 2 * r * theta)) by ring.
    eapply Rle_trans; [apply Rabs_triang|]. rewrite Rabs_Ropp. eapply Rle_trans; [apply Rplus_le_compat_r; apply Rabs_triang|].
    assert (Q1 : uround * Rabs (s + - z) <= uround * (5 * C + 4 * (INR N * tz) + (4 * P + 4 * tz))) by (apply Rmult_le_compat_l; lra).
    assert (NTZ : 0 <= INR N * tz) by lra.
    assert (Q2 : uround * (INR N * tz) <= / 100 * (INR N * tz)) by (apply Rmult_le_compat_r; lra).
    assert (TZ1 : tz <= / 10 * / 10 ^ 101).
    { unfold tz, Z. apply Rle_trans with (bpow radix2 (-1074) * bpow radix2 400).
      { apply Rmult_le_compat_r; [apply bpow_ge_0|]. pose proof (bpow_gt_0 radix2 (-1074)). lra. }
      rewrite <- bpow_plus. cbn [Z.add Z.of_nat]. replace (/ 10 * / 10 ^ 101) with (/ 10 ^ 102) by (rewrite <- Rinv_mult; reflexivity). apply Rle_trans with (/ (bpow radix2 4) ^ 102).
      - replace (bpow radix2 4 ^ 102) with (bpow radix2 408). 2:{ replace (bpow radix2 4) with (2 ^ 4) by (cbn; ring). rewrite <- pow_mult. symmetry. apply pow2_bpow. }
        rewrite <- bpow_opp. apply bpow_le. cbn. lia.
      - apply Rinv_le_contravar; [apply pow_lt; lra|]. apply pow_incr. cbn. lra. }
    set (I := / 10 ^ 100) in *. set (J := / 10 ^ 101) in *. clearbody I J. lra.
Qed.

(** One more double for the error of the probabilities. *)
Lemma gradient_ext y w p p' H order ridge theta N : Permutation (dterms order) (seq 0 N) ->
  (forall i, (i < N)%nat -> p i = p' i) -> float_gradient_entry y w p H order ridge theta = float_gradient_entry y w p' H order ridge theta.
Proof.
  intros HP E. unfold float_gradient_entry, float_score.
  rewrite (fdot_ext order (float_residual y w p) H (float_residual y w p') H); [reflexivity|].
  intros k Hk. split; [|reflexivity]. apply (Permutation_in _ HP), in_seq in Hk. unfold float_residual. rewrite E by lia. reflexivity.
Qed.

(** Every model of choice_calcs.py: the computed probabilities, a computed column [Hc] that is
    within [h] of the column of derivatives of the transformed utilities, weights and ridge
    penalty, compared with the entry of the gradient that est_gradient returns. *)
Theorem C131_logit_gradient_follows_the_model :
  forall k ex eps lg l1 pw st D own alt uorder order th j Hc h eta dorder,
  accurate_exp ex eps -> 0 <= eps <= / 2 ^ 40 ->
  indicator_of (d_N D) (d_obs D) (d_M D) own -> (Z.of_nat (d_N D) <= 2 ^ 20)%Z ->
  let w := eff_weights (d_w D) in
  (forall i, (i < d_N D)%nat -> d_y D i = 0 \/ d_y D i = 1) -> column_in_range (d_N D) w ->
  (forall i, (i < d_N D)%nat ->
     let rows := filter (fun q => (own q =? own i)%nat) (seq 0 (d_N D)) in
     Permutation (terms_of (order (own i))) rows /\ (length rows <= 4095)%nat) ->
  Permutation (dterms dorder) (seq 0 (d_N D)) ->
  (0 < d_K D)%nat -> alen th = (num_shapes k (d_J D) + num_icpts k (d_J D) + d_K D)%nat -> (j < alen th)%nat ->
  let shape := sh k (d_J D) th in let icpt := ic k (d_J D) th in let beta := be k (d_J D) (d_K D) th in
  rows_within k ex lg l1 pw st D alt uorder shape icpt beta eta -> 0 <= eta ->
  column_in_range (d_N D) Hc -> (forall i, (i < d_N D)%nat -> Rabs (Hc i - DH k D th i j) <= h i) ->
  ridge_in_range (d_ridge D) (aget th j) ->
  let rho := exp (2 * eta) * (1 + 2 * (2 * eps + 4096 * / 2 ^ 53)) - 1 in
  rho <= / 4 ->
  exists g G, est_gradient k D th = Ok g /\ float_gradient_entry (d_y D) w
      (fun i => float_prob ex (float_transformed k ex lg l1 pw st D alt uorder shape icpt beta) (order (own i)) i) (fun i => FNum (Hc i)) dorder
      (d_ridge D) (FNum (aget th j)) = FNum G /\ double_format G /\
    Rabs (G - aget g j) <=
      gradient_error (d_N D) (rho + 2 * / 10 ^ 300) (column_size (d_N D) w (fun i => DH k D th i j))
        (total (fun i => Rabs (w i) * h i) (seq 0 (d_N D))) (ridge_part (d_ridge D) (aget th j)).
Proof.
  intros k ex eps lg l1 pw st D own alt uorder order th j Hc h eta dorder Hex Heps Hown HN w Hy Hw Hobs HP HK HL Hj shape icpt beta HW Heta HHc Hh HR rho Hrho.
  set (u := float_transformed k ex lg l1 pw st D alt uorder shape icpt beta). set (p := long_probs (model_of k) D shape icpt beta).
  set (x := fun i => fval (float_prob ex u (order (own i)) i)).
  assert (ten : 0 < / 10 ^ 300 <= / 100).
  { split; [apply Rinv_0_lt_compat, pow_lt; lra|]. apply Rinv_le_contravar; [lra|]. apply Rle_trans with (10 ^ 2); [lra|]. apply Rle_pow; [lra|lia]. }
  assert (rho0 : 0 <= rho).
  { unfold rho. assert (1 <= exp (2 * eta)) by (pose proof (exp_ge_linear (2 * eta)); lra). nra. }
  assert (PB : forall i, (i < d_N D)%nat -> 0 <= p i <= 1).
  { intros i Hi. split; [left; apply (long_probs_pos (model_of k) D own Hown); exact Hi|apply (long_probs_le1 (model_of k) D own Hown); exact Hi]. }
  assert (HX : forall i, (i < d_N D)%nat -> float_prob ex u (order (own i)) i = FNum (x i) /\ double_format (x i) /\ Rabs (x i - p i) <= rho + 2 * / 10 ^ 300).
  { intros i Hi. destruct (Hobs i Hi) as (P & Ln). set (rows := filter (fun q => (own q =? own i)%nat) (seq 0 (d_N D))) in *.
    assert (Ii : In i rows) by (apply filter_In; split; [apply in_seq; lia|apply Nat.eqb_refl]).
    destruct (C122_computed_probabilities_are_numbers_in_the_unit_interval ex eps u rows (order (own i)) i Hex Heps) as (v & E & F & B).
    { split; [exact P|]. split; [exact Ln|]. intros q Hq. apply filter_In in Hq. destruct Hq as (Hq & _). apply in_seq in Hq. destruct (HW q ltac:(lia)) as (z & Ez & _). unfold u. rewrite Ez. discriminate. }
    { exact Ii. }
    destruct (C128_probabilities k ex eps lg l1 pw st D own alt uorder shape icpt beta eta (order (own i)) i Hex Heps Hown Hi Ln P HW) as (v' & E' & A).
    fold u in E'. rewrite E in E'. injection E' as <-. unfold x. rewrite E. cbn [fval]. split; [reflexivity|]. split; [exact F|].
    destruct (PB i Hi) as (P0 & P1).
    eapply Rle_trans; [exact A|]. apply Rplus_le_compat_r. apply Rle_trans with (rho * p i); [|rewrite <- (Rmult_1_r rho) at 2; apply Rmult_le_compat_l; assumption].
    apply Rmult_le_compat_r; [exact P0|].
    unfold rho. apply Rplus_le_compat_r, Rmult_le_compat_l; [left; apply exp_pos|]. fold rows. fold uround. pose proof uround_pos.
      assert (INR (length rows) <= 4095) by (apply le_INR in Ln; replace 4095 with (INR 4095) by (rewrite INR_IZR_INZ; reflexivity); exact Ln).
      assert ((INR (length rows) + 1) * uround <= 4096 * uround) by (apply Rmult_le_compat_r; lra). lra. }
  destruct (grad_form k D th HK HL) as (g & Eg & _ & Vg). specialize (Vg j Hj).
  destruct (C131_gradient_entry_is_accurate (d_N D) (d_y D) w x p (rho + 2 * / 10 ^ 300) Hc (fun i => DH k D th i j) h dorder (d_ridge D) (aget th j)) as (G & EG & FG & AG); try assumption.
  - intros i Hi. destruct (HX i Hi) as (_ & F & A). split; [exact F|]. split; [apply PB; exact Hi|exact A].
  - lra.
  - exists g, G. split; [exact Eg|]. split; [|split; [exact FG|]].
    + rewrite <- EG. apply (gradient_ext _ _ _ _ _ _ _ _ (d_N D) HP). intros i Hi. apply HX. exact Hi.
    + eapply Rle_trans; [|exact AG]. right. f_equal. f_equal. rewrite Vg. unfold exact_gradient_entry, ridge_or_0. rewrite sumn_total. fold shape icpt beta p w.
      destruct (d_ridge D); [reflexivity|]. ring.
Qed.

(** With utilities up to 6 and usual shapes. *)
Theorem C131_logit_gradient_in_figures :
  forall k ex eps lg el l1 e1 pw ep st D own alt uorder order th j Hc h dorder,
  accurate_exp ex eps -> 0 <= eps <= / 2 ^ 52 -> accurate_ln lg el -> 0 <= el <= / 2 ^ 52 ->
  accurate_log1p l1 e1 -> 0 <= e1 <= / 2 ^ 52 -> accurate_power pw ep -> 0 <= ep <= / 2 ^ 52 ->
  indicator_of (d_N D) (d_obs D) (d_M D) own -> (Z.of_nat (d_N D) <= 2 ^ 20)%Z ->
  let w := eff_weights (d_w D) in
  (forall i, (i < d_N D)%nat -> d_y D i = 0 \/ d_y D i = 1) -> column_in_range (d_N D) w ->
  (forall i, (i < d_N D)%nat ->
     let rows := filter (fun q => (own q =? own i)%nat) (seq 0 (d_N D)) in
     Permutation (terms_of (order (own i))) rows /\ (length rows <= 4095)%nat) ->
  Permutation (dterms dorder) (seq 0 (d_N D)) ->
  (0 < d_K D)%nat -> alen th = (num_shapes k (d_J D) + num_icpts k (d_J D) + d_K D)%nat -> (j < alen th)%nat ->
  let shape := sh k (d_J D) th in let icpt := ic k (d_J D) th in let beta := be k (d_J D) (d_K D) th in
  alternatives_of D alt -> rows_in_range D beta uorder 6 -> (d_K D <= 100)%nat -> intercepts_in_range icpt -> usual_shapes k (d_J D) st shape ->
  column_in_range (d_N D) Hc -> (forall i, (i < d_N D)%nat -> Rabs (Hc i - DH k D th i j) <= h i) ->
  ridge_in_range (d_ridge D) (aget th j) ->
  exists g G, est_gradient k D th = Ok g /\ float_gradient_entry (d_y D) w
      (fun i => float_prob ex (float_transformed k ex lg l1 pw st D alt uorder shape icpt beta) (order (own i)) i) (fun i => FNum (Hc i)) dorder
      (d_ridge D) (FNum (aget th j)) = FNum G /\ double_format G /\
    let E := total (fun i => Rabs (w i) * h i) (seq 0 (d_N D)) in
    Rabs (G - aget g j) <=
      / 10 ^ 7 * (column_size (d_N D) w (fun i => DH k D th i j) + E) + E + / 10 ^ 14 * ridge_part (d_ridge D) (aget th j) + / 10 ^ 100.
Proof.
  intros k ex eps lg el l1 e1 pw ep st D own alt uorder order th j Hc h dorder Hex Heps Hlg Hel Hl1 He1 Hpw Hep Hown HN w Hy Hw Hobs HP HK HL Hj shape icpt beta HA HR HKu HI HS HHc Hh HRi.
  pose proof (C128_rows_in_figures k ex eps lg el l1 e1 pw ep st D alt uorder shape icpt beta Hex Heps Hlg Hel Hl1 He1 Hpw Hep HA HR HKu HI HS) as HW.
  pose proof uround_pos as U. pose proof uround_ten_8 as U8.
  assert (E52 : / 2 ^ 52 = 2 * uround) by (unfold uround; change (2 ^ 53) with (2 * 2 ^ 52); rewrite Rinv_mult; field; apply pow_nonzero; lra).
  assert (E40 : / 2 ^ 52 <= / 2 ^ 40) by (apply Rinv_le_contravar; [apply pow_lt; lra|]; apply Rle_pow; [lra|lia]).
  assert (U14 : 10 * uround <= / 10 ^ 14) by (unfold uround; cbn; lra).
  set (T8 := / 10 ^ 8) in *. assert (T80 : 0 < T8 <= / 100) by (unfold T8; cbn; lra). assert (T7 : / 10 ^ 7 = 10 * T8) by (unfold T8; cbn; lra).
  set (rho := exp (2 * T8) * (1 + 2 * (2 * eps + 4096 * / 2 ^ 53)) - 1).
  assert (RHO : 0 <= rho <= 8 * T8).
  { unfold rho. fold uround. assert (EX : exp (2 * T8) <= 1 + 4 * T8).
    { pose proof (exp_rel (2 * T8) 0 (2 * T8) ltac:(rewrite Rminus_0_r, Rabs_right; lra) ltac:(lra)) as Q. rewrite exp_0 in Q. apply Rabs_le_inv in Q. lra. }
    pose proof (exp_ge_linear (2 * T8)). set (Y := 2 * (2 * eps + 4096 * uround)). assert (Y0 : 0 <= Y <= T8) by (unfold Y; lra).
    assert (exp (2 * T8) * (1 + Y) <= (1 + 4 * T8) * (1 + T8)) by (apply Rmult_le_compat; lra).
    assert (1 * 1 <= exp (2 * T8) * (1 + Y)) by (apply Rmult_le_compat; lra).
    assert (T8 * T8 <= T8 * / 100) by (apply Rmult_le_compat_l; lra). lra. }
  destruct (C131_logit_gradient_follows_the_model k ex eps lg l1 pw st D own alt uorder order th j Hc h T8 dorder) as (g & G & Eg & EG & FG & AG); try assumption; try lra.
  { fold rho. lra. }
  exists g, G. split; [exact Eg|]. split; [exact EG|]. split; [exact FG|]. cbv zeta. eapply Rle_trans; [exact AG|]. fold w rho. unfold gradient_error. fold uround.
  set (S := column_size (d_N D) w (fun i => DH k D th i j)). set (E := total (fun i => Rabs (w i) * h i) (seq 0 (d_N D))). set (P := ridge_part (d_ridge D) (aget th j)).
  assert (S0 : 0 <= S) by (apply total_nonneg; intros i Hi; apply Rmult_le_pos; apply Rabs_pos).
  assert (E0 : 0 <= E).
  { apply total_nonneg; intros i Hi; apply in_seq in Hi. apply Rmult_le_pos; [apply Rabs_pos|]. eapply Rle_trans; [|apply (Hh i); lia]. apply Rabs_pos. }
  assert (P0 : 0 <= P) by (unfold P, ridge_part; destruct (d_ridge D); [apply Rabs_pos|lra]).
  assert (T300 : / 10 ^ 300 <= / 100 * T8).
  { unfold T8. replace (/ 100) with (/ 10 ^ 2) by (cbn; lra). rewrite <- Rinv_mult, <- pow_add. apply Rinv_le_contravar; [apply pow_lt; lra|]. apply Rle_pow; [lra|lia]. }
  assert (NU : 0 <= (INR (d_N D) + 1) * uround <= / 60 * T8).
  { apply IZR_le in HN. rewrite <- INR_IZR_INZ in HN. change (IZR (2 ^ 20)) with 1048576 in HN. pose proof (pos_INR (d_N D)).
    split; [apply Rmult_le_pos; lra|]. apply Rle_trans with (1048577 * uround); [apply Rmult_le_compat_r; lra|lra]. }
  assert ((rho + 2 * / 10 ^ 300 + 12 * (INR (d_N D) + 1) * uround) * (S + E) <= / 10 ^ 7 * (S + E)).
  { apply Rmult_le_compat_r; [lra|]. rewrite T7. lra. }
  assert (10 * uround * P <= / 10 ^ 14 * P) by (apply Rmult_le_compat_r; lra). lra.
Qed.

(** *** Multinomial logit: the column is the column of the design matrix, which
    scipy.sparse.identity * design leaves as it is (conditional_logit.py:103-124,
    choice_calcs.py:407). *)
Lemma mnl_column D th i j : (i < d_N D)%nat -> (j < d_K D)%nat -> DH KMNL D th i j = d_X D i j.
Proof.
  intros Hi Hj. unfold DH. cbn [num_shapes num_icpts]. unfold hcat, num_icpts. cbn. unfold dh_db, mdot. cbn [model_of MNL_model m_dh_dv].
  rewrite (sumn_ext _ _ (fun q => if (q =? i)%nat then d_X D q (j - 0 - 0)%nat else 0)).
  - rewrite sumn_single by exact Hi. f_equal. lia.
  - intros q Hq. unfold diagm. rewrite (Nat.eqb_sym i q). destruct (q =? i)%nat; [ring|ring].
Qed.

(** From the columns of the data frame to the derivative: the entry of the gradient that
    scipy's optimiser receives is close to the partial derivative of the model's log-likelihood. *)
Theorem C131_mnl_gradient_is_the_derivative :
  forall d spec mp K X wt ridge theta j ex eps lg el l1 e1 pw ep st uorder order dorder,
  accurate_exp ex eps -> 0 <= eps <= / 2 ^ 52 -> accurate_ln lg el -> 0 <= el <= / 2 ^ 52 ->
  accurate_log1p l1 e1 -> 0 <= e1 <= / 2 ^ 52 -> accurate_power pw ep -> 0 <= ep <= / 2 ^ 52 ->
  create_long_form_mappings d spec = Ok mp ->
  length (alt_ids d) = length (obs_ids d) -> (0 < K <= 100)%nat ->
  exactly_one_choice d -> same_weight_within_observation d wt ->
  let D := data_of d mp K X wt ridge in let own := own_of (obs_ids d) in
  check_length_of_initial_values Transforms.KMNL (d_J D) K theta = Ok tt -> (j < K)%nat ->
  (Z.of_nat (d_N D) <= 2 ^ 20)%Z ->
  let w := eff_weights wt in column_in_range (d_N D) w ->
  (forall i, (i < d_N D)%nat ->
     let rows := filter (fun q => (own q =? own i)%nat) (seq 0 (d_N D)) in
     Permutation (terms_of (order (own i))) rows /\ (length rows <= 4095)%nat) ->
  Permutation (dterms dorder) (seq 0 (d_N D)) ->
  rows_in_range D theta uorder 6 -> column_in_range (d_N D) (fun i => X i j) -> ridge_in_range ridge (aget theta j) ->
  exists g G : R,
    is_derive (fun t => est_log_likelihood Transforms.KMNL D (aupd theta j t)) (aget theta j) g /\
    float_gradient_entry (d_y D) w
      (fun i => float_prob ex (float_transformed Transforms.KMNL ex lg l1 pw st D (alt_of (alt_ids d)) uorder None None theta) (order (own i)) i)
      (fun i => FNum (X i j)) dorder ridge (FNum (aget theta j)) = FNum G /\ double_format G /\
    Rabs (G - g) <= / 10 ^ 7 * column_size (d_N D) w (fun i => X i j) + / 10 ^ 14 * ridge_part ridge (aget theta j) + / 10 ^ 100.
Proof.
  intros d spec mp K X wt ridge theta j ex eps lg el l1 e1 pw ep st uorder order dorder Hex Heps Hlg Hel Hl1 He1 Hpw Hep Hmp HL HK Hone Hsw D own Hlen Hj HN w Hw Hobs HP HR HX HRi.
  pose proof (check_length_ok _ _ _ _ Hlen) as HLen. cbn [assumed_param_dimensions] in HLen.
  assert (EB : be Transforms.KMNL (d_J D) (d_K D) theta = theta) by (unfold be; cbn [num_shapes]; apply aslice_all; exact HLen).
  pose proof (data_obs_indicator d spec mp K X wt ridge Hmp) as Hown. pose proof (data_alt_indicator d spec mp K X wt ridge Hmp HL) as Halt.
  assert (HA : alternatives_of D (alt_of (alt_ids d))).
  { intros i Hi. destruct (Halt i Hi) as (A & B). split; [exact A|]. intros q Hq. rewrite B by exact Hq. rewrite Nat.eqb_sym. reflexivity. }
  assert (HC : no_clipping Transforms.KMNL D theta).
  { intros i Hi. rewrite est_utilities_eq; [|cbn; lia|exact HLen]. unfold utility. rewrite EB. cbn [model_of MNL_model m_transform]. unfold mnl_transform.
    destruct (computed_utility D theta uorder 6 i HR Hi ltac:(lra)) as (v & _ & _ & _ & B & _). apply Rabs_le_inv in B. lra. }
  destruct (C25_mnl_gradient d spec mp K X wt ridge theta Hmp HL ltac:(lia) Hone Hsw Hlen HC) as (g & Eg & Lg & Dg).
  assert (Hy : forall i, (i < d_N D)%nat -> d_y D i = 0 \/ d_y D i = 1).
  { intros i Hi. destruct Hone as (c & Ec & Hc & _). unfold D, data_of. cbn [d_y]. unfold choice_vec. rewrite Ec. destruct (Hc i Hi) as [-> | ->]; [left|right]; reflexivity. }
  destruct (C131_logit_gradient_in_figures Transforms.KMNL ex eps lg el l1 e1 pw ep st D own (alt_of (alt_ids d)) uorder order theta j (fun i => X i j) (fun _ => 0) dorder) as (g' & G & Eg' & EG & FG & AG); try assumption; try exact I.
  - cbn; lia.
  - lia.
  - cbn; lia.
  - intros i Hi. rewrite mnl_column by assumption. change (d_X D i j) with (X i j). rewrite Rminus_diag_eq, Rabs_R0 by reflexivity. lra.
  - change (est_gradient Transforms.KMNL D theta = Ok g) in Eg. rewrite Eg in Eg'. injection Eg' as <-. exists (aget g j), G. split; [apply Dg; lia|]. rewrite EB in EG. split; [exact EG|]. split; [exact FG|].
    cbv zeta in AG. eapply Rle_trans; [exact AG|].
    assert (E0 : total (fun i => Rabs (eff_weights (d_w D) i) * 0) (seq 0 (d_N D)) = 0) by (generalize (seq 0 (d_N D)); induction l as [|q l IH]; cbn [total]; [reflexivity|]; rewrite IH; ring).
    rewrite E0, !Rplus_0_r. apply Rplus_le_compat_r, Rplus_le_compat_r. apply Rmult_le_compat_l; [left; apply Rinv_0_lt_compat, pow_lt; lra|].
    unfold column_size. apply total_le. intros i Hi. apply in_seq in Hi. rewrite mnl_column by (exact Hj || lia). right. reflexivity.
Qed.

(** *** Intercepts outside the index, every model: the column is the indicator of the
    alternative (dh_d_alpha: rows_to_alts without the reference column). *)
Theorem C131_intercept_gradient_in_figures :
  forall k r ex eps lg el l1 e1 pw ep st D own alt uorder order th j dorder,
  accurate_exp ex eps -> 0 <= eps <= / 2 ^ 52 -> accurate_ln lg el -> 0 <= el <= / 2 ^ 52 ->
  accurate_log1p l1 e1 -> 0 <= e1 <= / 2 ^ 52 -> accurate_power pw ep -> 0 <= ep <= / 2 ^ 52 ->
  indicator_of (d_N D) (d_obs D) (d_M D) own -> (Z.of_nat (d_N D) <= 2 ^ 20)%Z ->
  let w := eff_weights (d_w D) in
  (forall i, (i < d_N D)%nat -> d_y D i = 0 \/ d_y D i = 1) -> column_in_range (d_N D) w ->
  (forall i, (i < d_N D)%nat ->
     let rows := filter (fun q => (own q =? own i)%nat) (seq 0 (d_N D)) in
     Permutation (terms_of (order (own i))) rows /\ (length rows <= 4095)%nat) ->
  Permutation (dterms dorder) (seq 0 (d_N D)) ->
  (0 < d_K D)%nat -> alen th = (num_shapes k (d_J D) + num_icpts k (d_J D) + d_K D)%nat ->
  kind_iref k = Some r -> (r < d_J D)%nat -> (j < d_J D - 1)%nat ->
  let shape := sh k (d_J D) th in let icpt := ic k (d_J D) th in let beta := be k (d_J D) (d_K D) th in
  alternatives_of D alt -> rows_in_range D beta uorder 6 -> (d_K D <= 100)%nat -> intercepts_in_range icpt -> usual_shapes k (d_J D) st shape ->
  let q := (num_shapes k (d_J D) + j)%nat in
  ridge_in_range (d_ridge D) (aget th q) ->
  exists g G, est_gradient k D th = Ok g /\ float_gradient_entry (d_y D) w
      (fun i => float_prob ex (float_transformed k ex lg l1 pw st D alt uorder shape icpt beta) (order (own i)) i)
      (fun i => FNum (if (skip r j =? alt i)%nat then 1 else 0)) dorder
      (d_ridge D) (FNum (aget th q)) = FNum G /\ double_format G /\
    Rabs (G - aget g q) <=
      / 10 ^ 7 * total (fun i => Rabs (w i) * if (skip r j =? alt i)%nat then 1 else 0) (seq 0 (d_N D)) +
      / 10 ^ 14 * ridge_part (d_ridge D) (aget th q) + / 10 ^ 100.
Proof.
  intros k r ex eps lg el l1 e1 pw ep st D own alt uorder order th j dorder Hex Heps Hlg Hel Hl1 He1 Hpw Hep Hown HN w Hy Hw Hobs HP HK HL Hr HrJ Hj shape icpt beta HA HR HKu HI HS q HRi.
  assert (NI : num_icpts k (d_J D) = (d_J D - 1)%nat) by (unfold num_icpts; rewrite Hr; reflexivity).
  assert (COL : forall i, (i < d_N D)%nat -> DH k D th i q = if (skip r j =? alt i)%nat then 1 else 0).
  { intros i Hi. unfold DH, hcat, vcat, q. rewrite (proj2 (Nat.ltb_ge (num_shapes k (d_J D) + j) (num_shapes k (d_J D)))) by lia.
    replace (num_shapes k (d_J D) + j - num_shapes k (d_J D))%nat with j by lia. rewrite (proj2 (Nat.ltb_lt j (num_icpts k (d_J D)))) by lia.
    destruct (dh_da_some k (d_J D) (d_A D) (sys_utilities D (be k (d_J D) (d_K D) th)) (ic k (d_J D) th) ltac:(lia)) as (r' & Er & E). rewrite Hr in Er. injection Er as <-.
    rewrite E. cbn [cent_or_zero cent]. apply (HA i Hi). apply skip_lt; assumption. }
  destruct (C131_logit_gradient_in_figures k ex eps lg el l1 e1 pw ep st D own alt uorder order th q (fun i => if (skip r j =? alt i)%nat then 1 else 0) (fun _ => 0) dorder) as (g & G & Eg & EG & FG & AG); try assumption.
  - unfold q. lia.
  - intros i Hi. assert (1 <= 2 ^ 400) by (apply pow_R1_Rle; lra). destruct (skip r j =? alt i)%nat; (split; [|rewrite ?Rabs_R1, ?Rabs_R0; lra]).
    + apply small_integer; reflexivity.
    + apply small_integer; reflexivity.
  - intros i Hi. rewrite COL by exact Hi. rewrite Rminus_diag_eq, Rabs_R0 by reflexivity. lra.
  - exists g, G. split; [exact Eg|]. split; [exact EG|]. split; [exact FG|]. cbv zeta in AG. eapply Rle_trans; [exact AG|].
    assert (E0 : total (fun i => Rabs (eff_weights (d_w D) i) * 0) (seq 0 (d_N D)) = 0) by (generalize (seq 0 (d_N D)); induction l as [|m l IH]; cbn [total]; [reflexivity|]; rewrite IH; ring).
    rewrite E0, !Rplus_0_r. apply Rplus_le_compat_r, Rplus_le_compat_r. apply Rmult_le_compat_l; [left; apply Rinv_0_lt_compat, pow_lt; lra|].
    unfold column_size. apply total_le. intros i Hi. apply in_seq in Hi. rewrite COL by lia. right. f_equal. destruct (skip r j =? alt i)%nat; [apply Rabs_R1|apply Rabs_R0].
Qed.

(** ** Non-vacuity: two observations with three and two alternatives, weights 2 and 1, ridge
    penalty 2, one coefficient, at 3 *)
Example C131_five_rows : exists mp, create_long_form_mappings ex_cols None = Ok mp /\
  let lg := fun x => rnd (ln x) in let l1 := fun x => rnd (ln (1 + x)) in let pw := fun a b => rnd (Rpower a b) in
  let D := data_of ex_cols mp 1 ex_X1 ex_w (Some 2) in let theta := mkArr 1 (fun _ => 3) in
  let order := fun o : nat => match o with 0%nat => SPlus (SPlus (STerm 2) (STerm 0)) (STerm 1) | _ => SPlus (STerm 3) (STerm 4) end in
  exists g G : R, is_derive (fun t => est_log_likelihood Transforms.KMNL D (aupd theta 0 t)) 3 g /\
    float_gradient_entry (d_y D) (eff_weights ex_w)
      (fun i => float_prob rexp (float_transformed Transforms.KMNL rexp lg l1 pw SNothing D (alt_of (alt_ids ex_cols)) (fun _ => DTerm 0) None None theta) (order (own_of (obs_ids ex_cols) i)) i)
      (fun i => FNum (ex_X1 i 0%nat)) (DFma (DPlus (DPlus (DTerm 0) (DTerm 1)) (DPlus (DTerm 2) (DTerm 3))) 4) (Some 2) (FNum 3) = FNum G /\
    Rabs (G - g) <= / 10 ^ 7 * (11 / 2) + / 10 ^ 14 * 6 + / 10 ^ 100.
Proof.
  destruct (create_long_form_mappings ex_cols None) as [mp|e] eqn:Emp; [|discriminate Emp]. exists mp. split; [reflexivity|]. intros lg l1 pw D theta order.
  assert (C5 : forall i, (i < 5)%nat -> (i = 0 \/ i = 1 \/ i = 2 \/ i = 3 \/ i = 4)%nat) by (intros; lia).
  assert (U : 0 <= / 2 ^ 53 <= / 2 ^ 52).
  { split; [left; apply Rinv_0_lt_compat, pow_lt; lra|]. apply Rinv_le_contravar; [apply pow_lt; lra|]. apply Rle_pow; [lra|lia]. }
  assert (P400 : 8 <= 2 ^ 400) by (apply Rle_trans with (2 ^ 3); [lra|apply Rle_pow; [lra|lia]]).
  assert (A1 : Rabs 1 = 1) by apply Rabs_R1. assert (A2 : Rabs 2 = 2) by (apply Rabs_right; lra). assert (A3 : Rabs (/ 2) = / 2) by (apply Rabs_right; lra). assert (A4 : Rabs (-1) = 1) by (rewrite Rabs_left; lra).
  assert (FH : double_format (/ 2)) by (replace (/ 2) with (bpow radix2 (-1)) by reflexivity; apply generic_format_bpow; cbv; discriminate).
  assert (FX : forall i, double_format (ex_X1 i 0%nat) /\ Rabs (ex_X1 i 0%nat) <= 1).
  { intros i. unfold ex_X1. destruct (i =? 0)%nat; [split; [apply small_integer; reflexivity|lra]|]. destruct (i =? 4)%nat; [split; [apply small_integer; reflexivity|lra]|split; [exact FH|lra]]. }
  destruct (C131_mnl_gradient_is_the_derivative ex_cols None mp 1%nat ex_X1 ex_w (Some 2) theta 0%nat rexp (/ 2 ^ 53) lg (/ 2 ^ 53) l1 (/ 2 ^ 53) pw (/ 2 ^ 53) SNothing (fun _ => DTerm 0) order
     (DFma (DPlus (DPlus (DTerm 0) (DTerm 1)) (DPlus (DTerm 2) (DTerm 3))) 4)) as (g & G & Dg & EG & _ & AG); try exact U; try exact Emp; try reflexivity.
  - apply C122_correctly_rounded_exp.
  - apply C126_rounded_ln.
  - apply C126_rounded_log1p.
  - apply C126_rounded_power.
  - lia.
  - exact ex_exactly_one.
  - exact ex_weights.
  - lia.
  - cbn. lia.
  - intros i Hi. cbn [eff_weights ex_w]. destruct (i <? 3)%nat; (split; [apply small_integer; reflexivity|lra]).
  - intros i Hi. cbn in Hi. destruct (C5 i Hi) as [-> |[-> |[-> |[-> | ->]]]]; (split; [|cbn; lia]); cbn; try apply Permutation_refl;
      (apply perm_trans with [0; 2; 1]%nat; [apply perm_swap|apply perm_skip, perm_swap]).
  - split; [apply Nat.le_trans with (2 ^ 1)%nat; [cbn; lia|apply Nat.pow_le_mono_r; lia]|]. intros i Hi. split; [apply Permutation_refl|]. split.
    + unfold magnitude. cbn [d_X d_K data_of seq total aget]. destruct (FX i) as (_ & B). rewrite Rabs_mult. cbn [aget theta]. rewrite (Rabs_right 3) by lra. lra.
    + intros j Hj. cbn in Hj. replace j with 0%nat by lia. split; [apply FX|]. cbn. apply small_integer; reflexivity.
  - intros i Hi. destruct (FX i). split; [assumption|lra].
  - cbn. rewrite A2, (Rabs_right 3) by lra. set (X := 2 ^ 400) in *. split; [apply small_integer; reflexivity|]. split; [lra|]. split; [apply small_integer; reflexivity|lra].
  - exists g, G. split; [exact Dg|]. split; [exact EG|]. eapply Rle_trans; [exact AG|]. apply Rplus_le_compat_r, Rplus_le_compat; apply Rmult_le_compat_l; try (left; apply Rinv_0_lt_compat, pow_lt; lra).
    + unfold column_size. cbn [d_N data_of obs_ids ex_cols length seq total eff_weights ex_w]. unfold ex_X1. cbn [Nat.ltb Nat.leb Nat.eqb]. rewrite A1, A2, A3, A4. lra.
    + cbn [ridge_part aget theta]. rewrite Rabs_right by lra. lra.
Qed.

Print Assumptions C131_gradient_entry_is_accurate.
Print Assumptions C131_logit_gradient_follows_the_model.
Print Assumptions C131_logit_gradient_in_figures.
Print Assumptions C131_mnl_gradient_is_the_derivative.
Print Assumptions C131_intercept_gradient_in_figures.
Print Assumptions C131_five_rows.
