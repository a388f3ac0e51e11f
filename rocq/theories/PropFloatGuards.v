(** C133: the guards of the derivatives of the transformed utilities, for every finite double. *)
From Coq Require Import ZArith Reals Lra Lia List Permutation Bool Arith.
From Flocq Require Import Core.
From Verif Require Import Res Vec Arr ChoiceCalcs NestedCalcs SpecLogit Transforms ChoiceFacts Floats FloatFacts FloatTransforms PropFloatTransforms FloatUtilities FloatLogit FloatNear FloatObjective FloatGradient FloatDerivatives LogitFacts RowDeriv PropFloats PropFloatUtilities PropFloatAccuracy PropFloatLogit PropFloatNested PropFloatGradient PropFloatDerivatives.
Import ListNotations.
Open Scope R_scope.

#[local] Instance prec_53g : Prec_gt_0 53 := FloatFacts.prec_53.

(** ** Specification *)

(** Results and signs of np.power for a base of at least one: at least one for exponents that are not
    negative, positive for exponents from minus one on (1/a is a positive double for every
    finite a). *)
Definition sane_np_power (pw : R -> R -> R) : Prop :=
  forall a b, 1 <= a < bpow radix2 1024 -> -1 <= b -> double_format (pw a b) /\ 0 < pw a b /\ (0 <= b -> 1 <= pw a b).

(** The shape parameters of the model are finite doubles; in an asymmetric logit np.sum adds all
    of them. *)
Definition finite_shapes (k : logit_kind) (J : nat) (t : sum_order) (shape : option arr) : Prop :=
  match k, shape with
  | Transforms.KMNL, _ | Transforms.KClog _, _ => True
  | Transforms.KScobit _, Some c | Transforms.KUneven _, Some c => forall j, (j < J)%nat -> finite_double (FNum (aget c j))
  | Transforms.KAsym sref _, Some c => (2 <= J)%nat /\ (sref < J)%nat /\ Permutation (terms_of t) (seq 0 (J - 1)) /\
      forall j, (j < J - 1)%nat -> finite_double (FNum (aget c j))
  | _, None => False
  end.

(** ** Facts *)

Lemma big_gt x : x <= 2048 -> x < bpow radix2 1024.
Proof. intros H. apply Rle_lt_trans with 2048; [exact H|]. replace 2048 with (bpow radix2 11) by (cbn; lra). apply bpow_lt; lia. Qed.

(** The largest finite double and rounding of its sum with at most one. *)
Lemma add_one_finite x y : double_format x -> 0 <= x < bpow radix2 1024 -> 0 <= y <= 1 -> exists z, fadd (FNum y) (FNum x) = FNum z.
Proof.
  intros F (P & B) Hy. cbn [fadd]. exists (rnd (y + x)). apply overflow_num.
  assert (0 <= rnd (y + x)) by (rewrite <- rnd_0; apply rnd_le; lra). rewrite Rabs_right by lra.
  set (M := pred radix2 (FLT_exp (-1074) 53) (bpow radix2 1024)).
  assert (FB : double_format (bpow radix2 1024)) by (apply generic_format_bpow; cbv; discriminate).
  assert (VE : Valid_exp (FLT_exp (-1074) 53)) by (apply FLT_exp_valid; apply FloatFacts.prec_53).
  assert (FM : double_format M) by (apply generic_format_pred; assumption).
  assert (XM : x <= M) by (apply pred_ge_gt; assumption).
  assert (EM : M = bpow radix2 1024 - bpow radix2 971) by (unfold M; rewrite pred_bpow; reflexivity).
  assert (SM : succ radix2 (FLT_exp (-1074) 53) M = bpow radix2 1024) by (unfold M; apply succ_pred; assumption).
  assert (B971 : 4 <= bpow radix2 971) by (change 4 with (bpow radix2 2); apply bpow_le; lia).
  apply Rle_lt_trans with M; [|pose proof (bpow_gt_0 radix2 971); lra].
  apply round_N_le_midp; [exact VE|exact FM|]. rewrite SM. lra.
Qed.

Lemma fdiv_by_large s x : double_format s -> 0 <= s < bpow radix2 1024 -> 1 <= x -> exists z, fdiv (FNum s) (FNum x) = FNum z /\ double_format z /\ 0 <= z <= s.
Proof.
  intros F (P & B) Hx. cbn [fdiv]. destruct (Req_EM_T x 0); [lra|].
  assert (Q : 0 <= s / x <= s).
  { split; [apply Rmult_le_pos; [lra|left; apply Rinv_0_lt_compat; lra]|]. apply (Rmult_le_reg_r x); [lra|]. unfold Rdiv. rewrite Rmult_assoc, Rinv_l, Rmult_1_r by lra.
    rewrite <- (Rmult_1_r s) at 1. apply Rmult_le_compat_l; lra. }
  assert (R : 0 <= rnd (s / x) <= s) by (split; [rewrite <- rnd_0|rewrite <- (rnd_id s F) at 2]; apply rnd_le; lra).
  exists (rnd (s / x)). split; [apply overflow_num; rewrite Rabs_right; lra|]. split; [apply rnd_format|exact R].
Qed.

Section Oracles.
  Context (ex lg l1 : R -> R) (pw : R -> R -> R).
  Hypothesis Hex : sane_exp ex.
  Hypothesis Hlg : sane_log lg.
  Hypothesis Hpw : sane_np_power pw.

  (** exp of something that is not NaN: not negative or plus infinity *)
  Lemma fexp_cases x : x <> FNaN -> (exists e, fexp ex x = FNum e /\ double_format e /\ 0 <= e < bpow radix2 1024) \/ fexp ex x = FInf false.
  Proof.
    intros Hx. destruct x as [r|[|]|]; [| |right; reflexivity|congruence].
    - cbn [fexp]. destruct (Hex r) as (F & P & _). destruct (overflow_pos _ P) as [(-> & B)|(-> & _)]; [left|right; reflexivity]. exists (ex r). split; [reflexivity|]. split; [exact F|lra].
    - left. exists 0. split; [reflexivity|]. split; [apply generic_format_0|]. split; [lra|apply bpow_gt_0].
  Qed.

  Lemma clog_deriv_number V : finite_double V -> exists z, fcloglog_deriv ex V = FNum z.
  Proof.
    intros (v & -> & F & B). unfold fcloglog_deriv. rewrite (finite_opp v (conj F B)).
    pose proof fmax_bounds as MX. destruct min_comp_bounds as ((Lm & _) & _ & Um & _). pose proof (bpow_gt_0 radix2 (-1022)) as B22.
    assert (EN : exists e, on_posinf fbig (fexp ex (FNum (- v))) = FNum e /\ 0 <= e).
    { destruct (fexp_cases (FNum (- v)) ltac:(discriminate)) as [(e & -> & _ & P)| ->]; [exists e|exists fmax_comp]; (split; [reflexivity|lra]). }
    destruct EN as (e & -> & Pe).
    assert (DP : exists d, fsub (FNum 1) (fexp ex (fmul (FNum (-1)) (fexp ex (FNum v)))) = FNum d /\ 0 <= d).
    { assert (E1 : exists y, fexp ex (fmul (FNum (-1)) (fexp ex (FNum v))) = FNum y /\ 0 <= y <= 1).
      { destruct (fexp_cases (FNum v) ltac:(discriminate)) as [(x & -> & Fx & Px)| ->].
        - rewrite (finite_opp x) by (split; [exact Fx|rewrite Rabs_right; lra]). cbn [fexp]. destruct (Hex (- x)) as (_ & P & _ & Q). specialize (Q ltac:(lra)).
          exists (ex (- x)). split; [apply overflow_num; rewrite Rabs_right by lra; apply big_gt; lra|lra].
        - cbn [fmul]. destruct (Req_EM_T (-1) 0); [lra|]. unfold sign_of. destruct (Rlt_dec (-1) 0); [|lra]. cbn. exists 0. split; [reflexivity|lra]. }
      destruct E1 as (y & -> & Py). cbn [fsub fneg fadd]. assert (R : 0 <= rnd (1 + - y) <= 1) by (split; [rewrite <- rnd_0|rewrite <- rnd_1 at 2]; apply rnd_le; lra).
      exists (rnd (1 + - y)). split; [apply overflow_num; rewrite Rabs_right by lra; apply big_gt; lra|lra]. }
    destruct DP as (d & -> & Pd).
    set (g := if is_zero (FNum e) then FNum fmin_comp_value else FNum e).
    assert (HG : exists g', g = FNum g' /\ 0 < g').
    { unfold g, is_zero. destruct (Req_EM_T e 0); [exists fmin_comp_value|exists e]; (split; [reflexivity|lra]). }
    destruct HG as (g' & -> & Pg). cbn [is_zero]. destruct (Req_EM_T d 0) as [Zd|Zd]; [exists 1; reflexivity|].
    cbn [fmul]. assert (R0 : 0 <= rnd (d * g')) by (rewrite <- rnd_0; apply rnd_le; apply Rmult_le_pos; lra).
    destruct (overflow_pos _ R0) as [(-> & _)|(-> & _)]; [|exists 0; reflexivity]. cbn [fdiv].
    destruct (Req_EM_T (rnd (d * g')) 0) as [Z|Z].
    - destruct (Req_EM_T 1 0); [lra|]. destruct (Rlt_dec 1 0); [lra|]. exists fmax_comp. reflexivity.
    - assert (R1 : 0 <= rnd (1 / rnd (d * g'))) by (rewrite <- rnd_0; apply rnd_le; unfold Rdiv; rewrite Rmult_1_l; left; apply Rinv_0_lt_compat; lra).
      destruct (overflow_pos _ R1) as [(-> & _)|(-> & _)]; [eexists|exists fmax_comp]; reflexivity.
  Qed.

  Lemma scobit_deriv_number V shape : finite_double V -> finite_double shape -> exists z, fscobit_deriv_v ex pw V shape = FNum z.
  Proof.
    intros (v & -> & F & B) Hs. unfold fscobit_deriv_v. destruct (natural_shape_num ex Hex shape Hs) as (s & -> & Ps & Fs & Bs). rewrite (finite_opp v (conj F B)).
    destruct (fexp_cases (FNum (- v)) ltac:(discriminate)) as [(e & -> & Fe & Pe)| ->].
    2: { cbn [fadd is_posinf]. rewrite orb_true_r, !orb_true_l. destruct (is_zero _ || is_zero _); eexists; reflexivity. }
    cbn [fadd]. assert (R1 : 1 <= rnd (1 + e)) by (rewrite <- rnd_1 at 1; apply rnd_le; lra).
    set (d1 := fsub _ (FNum 1)). set (num := fdiv _ d1). destruct (is_zero (FNum e) || is_zero d1) eqn:Z; [exists 1; reflexivity|].
    apply orb_false_iff in Z. destruct Z as (Z1 & Z2).
    set (guard := is_posinf num || _ || _ || _). destruct guard eqn:G; [exists s; reflexivity|].
    unfold guard in G. apply orb_false_iff in G. destruct G as (G & G4). apply orb_false_iff in G. destruct G as (G & G3). apply orb_false_iff in G. destruct G as (G1 & _). clear guard.
    destruct (overflow_pos (rnd (1 + e)) ltac:(lra)) as [(EA & BA)|(EA & BA)].
    2: { exfalso. revert G3 Z2. unfold d1. rewrite EA. cbn [fpow]. destruct (Rlt_dec 0 s); [discriminate|]. intros _. destruct (Req_EM_T s 0); [|lra].
         assert (Z0 : fsub (FNum 1) (FNum 1) = FNum 0) by (cbn; replace (1 + - (1)) with 0 by ring; rewrite rnd_0; apply overflow_num; rewrite Rabs_R0; apply bpow_gt_0).
         rewrite Z0. cbn. destruct (Req_EM_T 0 0); [discriminate|lra]. }
    unfold num, d1 in *. clear num d1. rewrite EA in *. cbn [fpow] in *. set (a := rnd (1 + e)) in *.
    destruct (Hpw a s ltac:(lra) ltac:(lra)) as (FP & _ & Q1). specialize (Q1 Ps).
    destruct (overflow_pos (pw a s) ltac:(lra)) as [(EP & BP)|(EP & _)]; rewrite EP in *; [|discriminate G3].
    (* the exponent s - 1 *)
    assert (SM : exists s', fsub (FNum s) (FNum 1) = FNum s' /\ -1 <= s').
    { cbn [fsub fneg fadd]. assert (L : -1 <= rnd (s + - (1))).
      { rewrite <- (rnd_id (-1)) at 1 by (apply small_integer; reflexivity). apply rnd_le. lra. }
      assert (U : rnd (s + - (1)) <= s) by (rewrite <- (rnd_id s Fs) at 2; apply rnd_le; lra).
      exists (rnd (s + - (1))). split; [|exact L]. apply overflow_num. apply Rabs_lt. rewrite Rabs_right in Bs by lra. pose proof (big_gt 1 ltac:(lra)). lra. }
    destruct SM as (s' & ES & PS'). rewrite ES in *. cbn [fpow] in *. destruct (Hpw a s' ltac:(lra) PS') as (_ & Q2 & _).
    destruct (overflow_pos (pw a s') ltac:(lra)) as [(EP' & BP')|(EP' & _)]; rewrite EP' in *; [|discriminate G4].
    assert (DN : exists d, fsub (FNum (pw a s)) (FNum 1) = FNum d /\ 0 < d).
    { cbn [fsub fneg fadd] in *. assert (L : 0 <= rnd (pw a s + - (1))) by (rewrite <- rnd_0; apply rnd_le; lra).
      destruct (overflow_pos _ L) as [(EQ & _)|(EQ & C)]; rewrite EQ in *.
      - exists (rnd (pw a s + - (1))). split; [reflexivity|]. cbn in Z2. destruct (Req_EM_T (rnd (pw a s + - (1))) 0); [discriminate|lra].
      - exfalso. assert (rnd (pw a s + - (1)) <= pw a s) by (rewrite <- (rnd_id (pw a s) FP) at 2; apply rnd_le; lra). lra. }
    destruct DN as (d & ED & PD). rewrite ED in *.
    cbn [fmul] in *. assert (M0 : 0 <= rnd (s * e)) by (rewrite <- rnd_0; apply rnd_le, Rmult_le_pos; lra).
    destruct (overflow_pos _ M0) as [(EM & _)|(EM & _)]; rewrite EM in *.
    - cbn [fmul] in *. assert (N0 : 0 <= rnd (rnd (s * e) * pw a s')) by (rewrite <- rnd_0; apply rnd_le, Rmult_le_pos; lra).
      destruct (overflow_pos _ N0) as [(EN & _)|(EN & _)]; rewrite EN in *.
      + cbn [fdiv] in *. destruct (Req_EM_T d 0); [lra|]. set (q := rnd (rnd (s * e) * pw a s') / d) in *.
        assert (Q0 : 0 <= rnd q) by (rewrite <- rnd_0; apply rnd_le; unfold q; apply Rmult_le_pos; [exact N0|left; apply Rinv_0_lt_compat; exact PD]).
        destruct (overflow_pos _ Q0) as [(EQ & _)|(EQ & _)]; rewrite EQ in *; [eexists; reflexivity|discriminate G1].
      + exfalso. cbn [fdiv] in G1. destruct (Rlt_dec d 0); [lra|]. discriminate G1.
    - exfalso. cbn [fmul] in G1. destruct (Req_EM_T (pw a s') 0); [lra|]. unfold sign_of in G1. destruct (Rlt_dec (pw a s') 0); [lra|]. cbn [xorb fdiv] in G1. destruct (Rlt_dec d 0); [lra|]. discriminate G1.
  Qed.

  (** 1 + exp x for x that is not NaN: a number of at least one or plus infinity *)
  Lemma one_plus_exp x : x <> FNaN -> (exists d, fadd (FNum 1) (fexp ex x) = FNum d /\ 1 <= d) \/ fadd (FNum 1) (fexp ex x) = FInf false.
  Proof.
    intros Hx. destruct (fexp_cases x Hx) as [(e & -> & F & P)| ->]; [left|right; reflexivity].
    destruct (add_one_finite e 1 F P ltac:(lra)) as (z & E). exists z. split; [exact E|]. cbn [fadd] in E.
    assert (R1 : 1 <= rnd (1 + e)) by (rewrite <- rnd_1 at 1; apply rnd_le; lra).
    destruct (overflow_pos (rnd (1 + e)) ltac:(lra)) as [(E' & _)|(E' & _)]; rewrite E' in E; [injection E as <-; exact R1|discriminate].
  Qed.
  Lemma quotient_number s x : double_format s -> 0 <= s < bpow radix2 1024 -> x <> FNaN ->
    exists z, fdiv (FNum s) (fadd (FNum 1) (fexp ex x)) = FNum z /\ double_format z /\ 0 <= z <= s.
  Proof.
    intros F P Hx. destruct (one_plus_exp x Hx) as [(d & -> & D)| ->]; [apply fdiv_by_large; assumption|].
    exists 0. split; [reflexivity|]. split; [apply generic_format_0|lra].
  Qed.

  Lemma uneven_deriv_number V shape : finite_double V -> finite_double shape -> exists z, funeven_deriv_v ex V shape = FNum z.
  Proof.
    intros (v & -> & F & B) Hs. unfold funeven_deriv_v. destruct (natural_shape_num ex Hex shape Hs) as (s & -> & Ps & Fs & Bs). rewrite Rabs_right in Bs by lra.
    rewrite (finite_opp v (conj F B)).
    destruct (quotient_number 1 (FNum (- v)) double_1 ltac:(split; [lra|apply big_gt; lra]) ltac:(discriminate)) as (a & -> & _ & Pa).
    destruct (quotient_number s (fmul (FNum s) (FNum v)) Fs ltac:(lra) ltac:(cbn [fmul]; apply overflow_not_nan)) as (b & -> & Fb & Pb).
    apply add_one_finite; [exact Fb|lra|exact Pa].
  Qed.

  (** V / (1 + exp(s V)) is a number; times the shape it may be infinite *)
  Lemma uneven_shape_deriv_defined V shape : finite_double V -> finite_double shape -> funeven_deriv_shape ex V shape <> FNaN.
  Proof.
    intros (v & -> & F & B) Hs. unfold funeven_deriv_shape. destruct (natural_shape_num ex Hex shape Hs) as (s & -> & Ps & Fs & Bs).
    destruct (one_plus_exp (fmul (FNum s) (FNum v)) ltac:(cbn [fmul]; apply overflow_not_nan)) as [(d & -> & D)| ->]; cbn [fdiv].
    - destruct (Req_EM_T d 0); [lra|]. rewrite overflow_num; [cbn [fmul]; apply overflow_not_nan|].
      assert (Q : Rabs (v / d) <= Rabs v).
      { unfold Rdiv. rewrite Rabs_mult, (Rabs_right (/ d)) by (apply Rle_ge; left; apply Rinv_0_lt_compat; lra). rewrite <- (Rmult_1_r (Rabs v)) at 2.
        apply Rmult_le_compat_l; [apply Rabs_pos|]. rewrite <- Rinv_1. apply Rinv_le_contravar; lra. }
      eapply Rle_lt_trans; [|exact B]. apply Rabs_le. apply Rabs_le_inv in Q.
      assert (Fa : double_format (Rabs v)) by (apply generic_format_abs; exact F).
      split; [rewrite <- (rnd_id (- Rabs v)) by (apply generic_format_opp; exact Fa)|rewrite <- (rnd_id (Rabs v)) by exact Fa]; apply rnd_le; lra.
    - cbn [fmul]. apply overflow_not_nan.
  Qed.

  (** The complement of a natural shape, divided by the other alternatives *)
  Lemma complement_unit J r : (2 <= J)%nat -> 0 <= r <= 1 -> exists q, fdiv (fsub (FNum 1) (FNum r)) (FNum (INR J - 1)) = FNum q /\ double_format q /\ 0 <= q <= 1.
  Proof.
    intros HJ Pr. assert (R0 : 0 <= rnd (1 + - r) <= 1) by (split; [rewrite <- rnd_0|rewrite <- rnd_1 at 2]; apply rnd_le; lra).
    assert (E : fsub (FNum 1) (FNum r) = FNum (rnd (1 + - r))).
    { cbn. apply overflow_num. rewrite Rabs_right by lra. apply big_gt. lra. }
    rewrite E. assert (2 <= INR J) by (change 2 with (INR 2); apply le_INR; exact HJ). apply fdiv_unit; lra.
  Qed.

  (** One of two numbers, selected by the sign of the utility as the code does it *)
  Lemma select_number v x y B : (-1022 <= B <= 1000)%Z -> Rabs x <= bpow radix2 B -> Rabs y <= bpow radix2 B ->
    exists m, fadd (fmul (fis_ge0 (FNum v)) (FNum x)) (fmul (fis_lt0 (FNum v)) (FNum y)) = FNum m /\ Rabs m <= bpow radix2 (B + 1).
  Proof.
    intros HB Hx Hy. unfold fis_ge0, fis_lt0.
    assert (M1 : forall b z, (b = 0 \/ b = 1) -> Rabs z <= bpow radix2 B -> exists m, fmul (FNum b) (FNum z) = FNum m /\ Rabs m <= bpow radix2 B).
    { intros b z Hb Hz. cbn [fmul]. exists (rnd (b * z)).
      assert (Q : Rabs (rnd (b * z)) <= bpow radix2 B).
      { apply rnd_abs_le; [lia|]. destruct Hb as [-> | ->]; [rewrite Rmult_0_l, Rabs_R0; left; apply bpow_gt_0|rewrite Rmult_1_l; exact Hz]. }
      split; [|exact Q]. apply overflow_num. eapply Rle_lt_trans; [exact Q|apply bpow_lt; lia]. }
    destruct (M1 (if Rle_dec 0 v then 1 else 0) x ltac:(destruct (Rle_dec 0 v); auto) Hx) as (m1 & -> & B1).
    destruct (M1 (if Rlt_dec v 0 then 1 else 0) y ltac:(destruct (Rlt_dec v 0); auto) Hy) as (m2 & -> & B2).
    cbn [fadd]. assert (Q : Rabs (rnd (m1 + m2)) <= bpow radix2 (B + 1)).
    { apply rnd_abs_le; [lia|]. eapply Rle_trans; [apply Rabs_triang|]. rewrite bpow_plus. change (bpow radix2 1) with 2. lra. }
    exists (rnd (m1 + m2)). split; [|exact Q]. apply overflow_num. eapply Rle_lt_trans; [exact Q|apply bpow_lt; lia].
  Qed.

  Lemma asym_deriv_number J c V : (2 <= J)%nat -> double_format c -> 0 <= c <= 1 -> finite_double V -> exists z, fasym_deriv_v lg J (FNum c) V = FNum z.
  Proof.
    intros HJ Fc Pc (v & -> & Fv & Bv). unfold fasym_deriv_v.
    destruct (fln_unit lg Hlg c Fc Pc) as (l & -> & Bl). destruct (complement_unit J c HJ Pc) as (q & -> & Fq & Pq). destruct (fln_unit lg Hlg q Fq Pq) as (l' & -> & Bl').
    destruct (select_number v l l' 1000 ltac:(lia) Bl Bl') as (m & -> & Bm). exists (rnd (-1 * m)). cbn [fmul]. apply overflow_num.
    apply Rle_lt_trans with (bpow radix2 1001); [|apply bpow_lt; lia]. apply rnd_abs_le; [lia|]. rewrite Rabs_mult. replace (Rabs (-1)) with 1 by (rewrite Rabs_left; lra). rewrite Rmult_1_l. exact Bm.
  Qed.


  Definition finite_num (x : R) : Prop := double_format x /\ Rabs x < bpow radix2 1024.

  Lemma select_exact v x y : finite_num x -> finite_num y ->
    fadd (fmul (fis_ge0 (FNum v)) (FNum x)) (fmul (fis_lt0 (FNum v)) (FNum y)) = FNum (if Rle_dec 0 v then x else y).
  Proof.
    intros (Fx & Bx) (Fy & By). unfold fis_ge0, fis_lt0. assert (Z : overflow 0 = FNum 0) by (apply overflow_num; rewrite Rabs_R0; apply bpow_gt_0).
    assert (Ox : overflow x = FNum x) by (apply overflow_num; exact Bx). assert (Oy : overflow y = FNum y) by (apply overflow_num; exact By).
    destruct (Rle_dec 0 v), (Rlt_dec v 0); try lra; cbn [fmul]; rewrite Rmult_0_l, Rmult_1_l, rnd_0, Z.
    - rewrite (rnd_id x Fx), Ox. cbn [fadd]. rewrite Rplus_0_r, (rnd_id x Fx). exact Ox.
    - rewrite (rnd_id y Fy), Oy. cbn [fadd]. rewrite Rplus_0_l, (rnd_id y Fy). exact Oy.
  Qed.

  Lemma asym_dh_dc_number c V : double_format c -> 0 <= c <= 1 -> finite_double V -> exists z, fasym_dh_dc (FNum c) V = FNum z /\ finite_num z.
  Proof.
    intros Fc Pc (v & -> & Fv & Bv). unfold fasym_dh_dc. pose proof fmax_bounds as MX.
    assert (FB : finite_num fmax_comp).
    { split; [apply rnd_format|]. rewrite Rabs_right by lra. apply Rlt_trans with (bpow radix2 1000); [lra|apply bpow_lt; lia]. }
    assert (FMB : finite_num (- fmax_comp)) by (destruct FB; split; [apply generic_format_opp; assumption|rewrite Rabs_Ropp; assumption]).
    assert (D1 : exists d, on_posinf fbig (fdiv (FNum 1) (FNum c)) = FNum d /\ finite_num d).
    { cbn [fdiv]. destruct (Req_EM_T c 0).
      - destruct (Req_EM_T 1 0); [lra|]. destruct (Rlt_dec 1 0); [lra|]. exists fmax_comp. split; [reflexivity|exact FB].
      - assert (R : 0 <= rnd (1 / c)) by (rewrite <- rnd_0; apply rnd_le; unfold Rdiv; rewrite Rmult_1_l; left; apply Rinv_0_lt_compat; lra).
        destruct (overflow_pos _ R) as [(-> & B)|(-> & _)]; [exists (rnd (1 / c))|exists fmax_comp]; (split; [reflexivity|]); [|exact FB]. split; [apply rnd_format|rewrite Rabs_right; lra]. }
    assert (D2 : exists d, on_neginf fminus_big (fdiv (FNum (-1)) (fsub (FNum 1) (FNum c))) = FNum d /\ finite_num d).
    { cbn [fsub fneg fadd]. assert (R0 : 0 <= rnd (1 + - c) <= 1) by (split; [rewrite <- rnd_0|rewrite <- rnd_1 at 2]; apply rnd_le; lra).
      rewrite (overflow_num (rnd (1 + - c))) by (rewrite Rabs_right by lra; apply big_gt; lra). cbn [fdiv]. destruct (Req_EM_T (rnd (1 + - c)) 0).
      - destruct (Req_EM_T (-1) 0); [lra|]. destruct (Rlt_dec (-1) 0); [|lra]. exists (- fmax_comp). split; [reflexivity|exact FMB].
      - set (q := rnd (-1 / rnd (1 + - c))).
        assert (Q : q <= 0).
        { unfold q. rewrite <- rnd_0. apply rnd_le. unfold Rdiv. assert (0 < / rnd (1 + - c)) by (apply Rinv_0_lt_compat; lra). lra. }
        destruct (overflow_cases q) as [(-> & B)|((b & E) & B)].
        + exists q. split; [reflexivity|]. split; [apply rnd_format|exact B].
        + revert E. unfold overflow. destruct (Rle_dec _ _); [|discriminate]. intros E. destruct (Rlt_dec q 0) as [L|L]; [exists (- fmax_comp); split; [reflexivity|exact FMB]|].
          exfalso. assert (q = 0) as Z by lra. rewrite Z, Rabs_R0 in B. pose proof (bpow_gt_0 radix2 1024). lra. }
    destruct D1 as (d1 & -> & N1). destruct D2 as (d2 & -> & N2). rewrite (select_exact v d1 d2 N1 N2). set (m := if Rle_dec 0 v then d1 else d2). cbn [fmul].
    destruct (overflow_cases (rnd (v * m))) as [(-> & _)|((b & ->) & _)]; cbn [fsub fneg fadd].
    - destruct (overflow_cases (rnd (d1 + - rnd (v * m)))) as [(-> & B)|((b & ->) & _)]; cbn [on_inf].
      + eexists. split; [reflexivity|]. split; [apply rnd_format|exact B].
      + exists (- fmax_comp). split; [reflexivity|exact FMB].
    - exists (- fmax_comp). split; [reflexivity|exact FMB].
  Qed.

  Lemma dc_deta_unit c c' same : double_format c -> 0 <= c <= 1 -> 0 <= c' <= 1 -> exists z, fdc_deta (FNum c) (FNum c') same = FNum z /\ -1 <= z <= 1.
  Proof.
    intros Fc Pc Pc'. unfold fdc_deta. cbn [fmul].
    assert (P : 0 <= c * c' <= c) by (split; [apply Rmult_le_pos; lra|]; rewrite <- (Rmult_1_r c) at 2; apply Rmult_le_compat_l; lra).
    assert (R : 0 <= rnd (c * c') <= c) by (split; [rewrite <- rnd_0|rewrite <- (rnd_id c Fc) at 2]; apply rnd_le; lra).
    rewrite (overflow_num (rnd (c * c'))) by (rewrite Rabs_right by lra; apply big_gt; lra). set (r := rnd (c * c')) in *.
    assert (Q : forall x, -1 <= x <= 1 -> exists z, overflow (rnd x) = FNum z /\ -1 <= z <= 1).
    { intros x Hx. assert (-1 <= rnd x <= 1) by (split; [rewrite <- (rnd_id (-1)) at 1 by (apply small_integer; reflexivity)|rewrite <- rnd_1]; apply rnd_le; lra).
      exists (rnd x). split; [apply overflow_num; apply Rle_lt_trans with 1; [apply Rabs_le; lra|apply big_gt; lra]|assumption]. }
    destruct same; cbn [fsub fneg fadd]; apply Q; lra.
  Qed.

  Lemma shrink_number x y : finite_num x -> -1 <= y <= 1 -> exists z, fmul (FNum x) (FNum y) = FNum z.
  Proof.
    intros (F & B) Hy. cbn [fmul]. exists (rnd (x * y)). apply overflow_num. eapply Rle_lt_trans; [|exact B].
    assert (Q : Rabs (x * y) <= Rabs x).
    { rewrite Rabs_mult. rewrite <- (Rmult_1_r (Rabs x)) at 2. apply Rmult_le_compat_l; [apply Rabs_pos|apply Rabs_le; lra]. }
    apply Rabs_le. apply Rabs_le_inv in Q. assert (Fa : double_format (Rabs x)) by (apply generic_format_abs; exact F).
    split; [rewrite <- (rnd_id (- Rabs x)) by (apply generic_format_opp; exact Fa)|rewrite <- (rnd_id (Rabs x)) by exact Fa]; apply rnd_le; lra.
  Qed.

  (** the natural shape of any alternative *)
  Lemma any_shape_unit sref iref J t c a : finite_shapes (Transforms.KAsym sref iref) J t (Some c) -> (a < J)%nat ->
    exists r, fasym_shape ex (fun j => FNum (aget c j)) t (eta_position sref a) = FNum r /\ double_format r /\ 0 <= r <= 1.
  Proof.
    intros (HJ & Hr & HP & Hc) Ha. apply asym_shape_unit; [exact Hex| |].
    - intros i Hi. apply Hc. apply (Permutation_in _ HP) in Hi. apply in_seq in Hi. lia.
    - intros i Hi. apply (Permutation_in _ (Permutation_sym HP)). apply in_seq. unfold eta_position in Hi. destruct (Nat.eqb_spec a sref); [discriminate|]. injection Hi as <-.
      destruct (Nat.ltb_spec a sref); lia.
  Qed.
End Oracles.

(** ** C133 *)

(** The derivative in the utility is a finite number for every finite utility and all finite
    shape parameters, in every model. *)
Theorem C133_utility_derivatives_are_numbers :
  forall k ex lg pw J t shape a V,
  sane_exp ex -> sane_log lg -> sane_np_power pw -> finite_shapes k J t shape -> (a < J)%nat -> finite_double V ->
  exists z, frow_deriv_v k ex lg pw J t shape a V = FNum z.
Proof.
  intros k ex lg pw J t shape a V Hex Hlg Hpw Hs Ha HV. destruct k as [|i|i|i|sref i]; cbn [frow_deriv_v].
  - exists 1. reflexivity.
  - apply clog_deriv_number; assumption.
  - destruct shape as [c|]; [|destruct Hs]. apply scobit_deriv_number; try assumption. apply Hs, Ha.
  - destruct shape as [c|]; [|destruct Hs]. apply uneven_deriv_number; try assumption. apply Hs, Ha.
  - destruct shape as [c|]; [|destruct Hs]. destruct (any_shape_unit ex Hex _ _ _ _ _ a Hs Ha) as (r & -> & Fr & Pr). apply asym_deriv_number; try assumption. apply Hs.
Qed.

(** The derivatives in the shape parameters: defined in the uneven model, finite numbers in the
    asymmetric one. *)
Theorem C133_shape_derivatives_are_defined :
  forall k ex l1 pw J t shape a V q,
  sane_exp ex -> finite_shapes k J t shape -> (a < J)%nat -> (q < num_shapes k J)%nat -> finite_double V ->
  match k with
  | Transforms.KScobit _ => True
  | Transforms.KUneven _ => frow_deriv_shape k ex l1 pw t shape a V q <> FNaN
  | _ => exists z, frow_deriv_shape k ex l1 pw t shape a V q = FNum z
  end.
Proof.
  intros k ex l1 pw J t shape a V q Hex Hs Ha Hq HV. destruct k as [|i|i|i|sref i]; cbn [frow_deriv_shape]; try exact I.
  - eexists. reflexivity.
  - eexists. reflexivity.
  - destruct shape as [c|]; [|destruct Hs]. destruct (q =? a)%nat; [|discriminate]. apply uneven_shape_deriv_defined; try assumption. apply Hs, Ha.
  - destruct shape as [c|]; [|destruct Hs]. assert (Hq' : (skip sref q < J)%nat) by (cbn in Hq; unfold skip; destruct (q <? sref)%nat; lia).
    destruct (any_shape_unit ex Hex _ _ _ _ _ a Hs Ha) as (r & -> & Fr & Pr). destruct (any_shape_unit ex Hex _ _ _ _ _ _ Hs Hq') as (r' & -> & _ & Pr').
    destruct (asym_dh_dc_number r V Fr Pr HV) as (x & -> & Nx). destruct (dc_deta_unit r r' (a =? skip sref q)%nat Fr Pr Pr') as (y & -> & Py). apply shrink_number; assumption.
Qed.

(** ** The shape derivative of the scobit model *)

Lemma overflow_inf x : bpow radix2 1024 <= x -> overflow x = FInf false.
Proof. intros H. destruct (overflow_pos x) as [(_ & B)|(E & _)]; [pose proof (bpow_gt_0 radix2 1024); lra|lra|exact E]. Qed.

Lemma rnd_overflow x : exp 712 <= x -> overflow (rnd x) = FInf false.
Proof.
  intros H. apply overflow_inf. rewrite <- (rnd_id (bpow radix2 1024)) by (apply generic_format_bpow; cbv; discriminate). apply rnd_le.
  eapply Rle_trans; [|exact H]. apply bpow_le_exp; [lia|lra].
Qed.

(** The exact derivative, with the natural shape s *)
Definition scobit_shape_rate (s V : R) : R :=
  let P := Rpower (1 + exp (-1 * V)) s in (-1 * ln (1 + exp (-1 * V)) * P / (P - 1)) * s.

Lemma scobit_shape_rate_le s v : 0 < s -> scobit_shape_rate s v <= - (s * ln (1 + exp (-1 * v))).
Proof.
  intros Hs. unfold scobit_shape_rate. cbv zeta. pose proof (exp_pos (-1 * v)) as E. set (L := ln (1 + exp (-1 * v))) in *. assert (L0 : 0 < L) by (unfold L; rewrite <- ln_1; apply ln_increasing; lra).
  set (P := Rpower _ s). assert (P1 : 1 < P) by (unfold P, Rpower; rewrite <- exp_0 at 1; apply exp_increasing; apply Rmult_lt_0_compat; [exact Hs|exact L0]).
  assert (Q : 1 <= P / (P - 1)) by (apply (Rmult_le_reg_r (P - 1)); [lra|]; unfold Rdiv; rewrite Rmult_assoc, Rinv_l by lra; lra).
  replace (-1 * L * P / (P - 1) * s) with (- (s * L * (P / (P - 1)))) by (unfold Rdiv; ring). apply Ropp_le_contravar. rewrite <- (Rmult_1_r (s * L)) at 1.
  apply Rmult_le_compat_l; [left; apply Rmult_lt_0_compat; lra|exact Q].
Qed.

Definition rlog1p (x : R) : R := rnd (ln (1 + x)).

(** Natural shape and exp(-V), computed with a correctly rounded exponential *)
Lemma scobit_terms v b : double_format v -> -700 <= v <= 0 -> 5 <= b <= 700 ->
  fnatural_shape rexp (FNum b) = FNum (rexp b) /\ fexp rexp (fmul (FNum (-1)) (FNum v)) = FNum (rexp (- v)) /\
  fadd (FNum 1) (FNum (rexp (- v))) = FNum (rnd (1 + rexp (- v))) /\
  (1 - / 100) * exp b <= rexp b /\ (1 - / 100) * exp (- v) <= rexp (- v) <= (1 + / 100) * exp (- v) /\
  (1 - / 100) * (1 + exp (- v)) <= rnd (1 + rexp (- v)).
Proof.
  intros Fv Hv Hb. pose proof small53 as E53. pose proof inv_2_40 as T40.
  destruct (exp_num rexp _ b C122_correctly_rounded_exp E53 ltac:(lra)) as (Es & Fs & Bs & As). apply Rabs_le_inv in As.
  destruct (exp_num rexp _ (- v) C122_correctly_rounded_exp E53 ltac:(lra)) as (Ee & Fe & Be & Ae). apply Rabs_le_inv in Ae.
  pose proof (exp_pos b) as P1. pose proof (exp_pos (- v)) as P2.
  assert (/ 2 ^ 53 * exp b <= / 1000000 * exp b) by (apply Rmult_le_compat_r; lra). assert (/ 2 ^ 53 * exp (- v) <= / 1000000 * exp (- v)) by (apply Rmult_le_compat_r; lra).
  destruct (add_one_finite (rexp (- v)) 1 Fe ltac:(lra) ltac:(lra)) as (z & Ez). 
  assert (z = rnd (1 + rexp (- v))). { cbn [fadd] in Ez. unfold overflow in Ez. destruct (Rle_dec _ _); [discriminate|]. injection Ez as <-. reflexivity. } subst z.
  assert (BV : Rabs v <= 1000000000000000) by (rewrite Rabs_left1; lra).
  split; [unfold fnatural_shape; rewrite Es; reflexivity|]. split; [rewrite (minus_exact v Fv BV); exact Ee|]. split; [exact Ez|]. split; [lra|]. split; [lra|].
  assert (R : (1 - uround) * (1 + rexp (- v)) <= rnd (1 + rexp (- v))).
  { apply rnd_relative. apply Rle_trans with 1; [apply (bpow_le radix2 (-1022) 0); lia|lra]. }
  pose proof FloatNear.uround_small as U. pose proof uround_pos as U0. assert (uround * (1 + rexp (- v)) <= / 1000000 * (1 + rexp (- v))) by (apply Rmult_le_compat_r; [lra|unfold uround; lra]). lra.
Qed.

(** The powered term overflows if shape times log(1 + exp(-V)) is at least 760. *)
Lemma scobit_power_overflows v b : double_format v -> -700 <= v <= 0 -> 5 <= b <= 700 -> 760 <= exp b * ln (1 + exp (- v)) ->
  fpow rpow (FNum (rnd (1 + rexp (- v)))) (FNum (rexp b)) = FInf false.
Proof.
  intros Fv Hv Hb HL. destruct (scobit_terms v b Fv Hv Hb) as (_ & _ & _ & S & _ & A). cbn [fpow]. unfold rpow. apply rnd_overflow.
  unfold Rpower. apply exp_mono. set (a := rnd (1 + rexp (- v))) in *. set (s := rexp b) in *. set (L := ln (1 + exp (- v))) in *.
  pose proof (exp_pos (- v)) as E. assert (E1 : 1 <= exp (- v)) by (rewrite <- exp_0; apply exp_mono; lra).
  assert (L2 : 69304 / 100000 <= L) by (eapply Rle_trans; [apply ln_2_sharp|]; unfold L; apply ln_mono; lra).
  assert (LA : L - / 50 <= ln a).
  { apply Rle_trans with (ln ((1 - / 100) * (1 + exp (- v)))); [|apply ln_mono; [apply Rmult_lt_0_compat; lra|exact A]].
    rewrite ln_mult by lra. fold L. assert (- / 50 <= ln (1 - / 100)); [|lra]. rewrite <- (ln_exp (- / 50)). apply ln_mono; [apply exp_pos|].
    rewrite exp_Ropp. pose proof (exp_ge_linear (/ 50)). apply Rle_trans with (/ (1 + / 50)); [apply Rinv_le_contravar; lra|lra]. }
  assert (S0 : 0 < exp b) by apply exp_pos. apply Rle_trans with ((1 - / 100) * exp b * (97 / 100 * L)); [|apply Rmult_le_compat; lra].
  replace ((1 - / 100) * exp b * (97 / 100 * L)) with ((1 - / 100) * (97 / 100) * (exp b * L)) by ring. lra.
Qed.

Theorem C133_refuted_scobit_shape_derivative :
  forall v b, double_format v -> double_format b ->
  (** undefined for utilities from -700 to -11 and shape parameters from 5 on *)
  (-700 <= v <= -11 -> 5 <= b <= 700 -> fscobit_deriv_shape rexp rlog1p rpow (FNum v) (FNum b) = FNaN) /\
  (** without the factor of the chain rule for utilities from -10 to 0 and shape parameters from 8 on *)
  (-10 <= v <= 0 -> 8 <= b <= 700 -> exists z, fscobit_deriv_shape rexp rlog1p rpow (FNum v) (FNum b) = FNum z /\ -12 <= z <= 0 /\ scobit_shape_rate (exp b) v <= -2000) /\
  (** 1e300 instead of a negative number for utilities below -712 *)
  (- bpow radix2 1000 <= v <= -712 -> fscobit_deriv_shape rexp rlog1p rpow (FNum v) (FNum b) = FNum fmax_comp /\ scobit_shape_rate (exp b) v < 0).
Proof.
  intros v b Fv Fb. split; [|split].
  - intros Hv Hb. destruct (scobit_terms v b Fv ltac:(lra) ltac:(lra)) as (E1 & E2 & E3 & _ & X & _). unfold fscobit_deriv_shape. rewrite E1, E2, E3.
    assert (L : - v <= ln (1 + exp (- v))) by (rewrite <- (ln_exp (- v)) at 1; apply ln_mono; [apply exp_pos|lra]).
    assert (B : 148 <= exp b).
    { eapply Rle_trans; [|apply (exp_mono 5); lra]. replace (exp 5) with (exp 1 * exp 1 * exp 1 * exp 1 * exp 1) by (rewrite <- !exp_plus; f_equal; lra). destruct exp_1_sharp as (Q & _). set (e := exp 1) in *.
      assert (73 / 10 <= e * e) by nra. assert (198 / 10 <= e * e * e) by nra. assert (53 <= e * e * e * e) by nra. nra. }
    rewrite (scobit_power_overflows v b Fv ltac:(lra) ltac:(lra)) by (apply Rle_trans with (148 * 11); [lra|apply Rmult_le_compat; lra]).
    cbn [fln1p]. pose proof (exp_pos (- v)). destruct (Rlt_dec (-1) (rexp (- v))); [|lra].
    assert (Lp : rlog1p (rexp (- v)) <> 0).
    { unfold rlog1p. assert (1 <= rnd (ln (1 + rexp (- v)))); [|lra]. rewrite <- rnd_1 at 1. apply rnd_le. apply Rle_trans with (ln (exp 1)); [rewrite ln_exp; lra|]. apply ln_mono; [apply exp_pos|].
      pose proof (exp_ge_linear (- v)). pose proof exp_1_sharp. lra. }
    set (l := rlog1p (rexp (- v))) in *.
    assert (ML : exists m, fmul (FNum (-1)) (FNum l) = FNum m \/ fmul (FNum (-1)) (FNum l) = FInf true \/ fmul (FNum (-1)) (FNum l) = FInf false) by (exists (rnd (-1 * l)); cbn [fmul]; destruct (overflow_cases (rnd (-1 * l))) as [(-> & _)|(([|] & ->) & _)]; auto).
    destruct ML as (m & ML). cbn [is_zero is_posinf fsub fneg fadd].
    destruct (Rle_dec (Rabs v) 10) as [Q|Q]; [rewrite Rabs_left in Q; lra|]. cbn [andb].
    destruct ML as [-> |[-> | ->]]; cbn [fmul]; [|reflexivity|reflexivity].
    destruct (Req_EM_T m 0); reflexivity.
  - intros Hv Hb. destruct (scobit_terms v b Fv ltac:(lra) ltac:(lra)) as (E1 & E2 & E3 & _ & X & _). unfold fscobit_deriv_shape. rewrite E1, E2, E3.
    pose proof (exp_pos (- v)) as E0. assert (E10 : 1 <= exp (- v) <= exp 10) by (split; [rewrite <- exp_0|]; apply exp_mono; lra).
    assert (B : 2900 <= exp b).
    { eapply Rle_trans; [|apply (exp_mono 8); lra]. replace (exp 8) with (exp 1 * exp 1 * exp 1 * exp 1 * (exp 1 * exp 1 * exp 1 * exp 1)) by (rewrite <- !exp_plus; f_equal; lra). destruct exp_1_sharp as (Q & _). set (e := exp 1) in *.
      assert (738 / 100 <= e * e) by nra. assert (54 <= e * e * e * e) by nra. nra. }
    assert (L2 : 69304 / 100000 <= ln (1 + exp (- v))) by (eapply Rle_trans; [apply ln_2_sharp|]; apply ln_mono; lra).
    assert (BL : 2000 <= exp b * ln (1 + exp (- v))) by (apply Rle_trans with (2900 * (69304 / 100000)); [lra|apply Rmult_le_compat; lra]).
    rewrite (scobit_power_overflows v b Fv ltac:(lra) ltac:(lra)) by lra. cbn [fln1p]. destruct (Rlt_dec (-1) (rexp (- v))); [|lra].
    assert (Hl : 0 <= rlog1p (rexp (- v)) <= 12).
    { unfold rlog1p. rewrite <- rnd_0 at 1. rewrite <- (rnd_id 12) by (apply small_integer; reflexivity). split; apply rnd_le; [rewrite <- ln_1; apply ln_mono; lra|].
      rewrite <- (ln_exp 12). apply ln_mono; [lra|]. replace (exp 12) with (exp 10 * (exp 1 * exp 1)) by (rewrite <- !exp_plus; f_equal; lra). pose proof exp_1_sharp.
      assert (4 <= exp 1 * exp 1) by nra. assert (exp 10 * 4 <= exp 10 * (exp 1 * exp 1)) by (apply Rmult_le_compat_l; lra). lra. }
    cbn [is_posinf]. destruct (Rle_dec (Rabs v) 10) as [Q|Q]; [|exfalso; apply Q; rewrite Rabs_left1; lra]. cbn [andb].
    rewrite minus_exact by (try apply rnd_format; rewrite Rabs_right; lra). eexists. split; [reflexivity|]. split; [lra|].
    eapply Rle_trans; [apply scobit_shape_rate_le, exp_pos|]. replace (-1 * v) with (- v) by ring. lra.
  - intros (V1 & V2). assert (BV : Rabs v < bpow radix2 1024) by (rewrite Rabs_left1 by lra; apply Rle_lt_trans with (bpow radix2 1000); [lra|apply bpow_lt; lia]). split.
    + unfold fscobit_deriv_shape. rewrite (finite_opp v (conj Fv BV)). cbn [fexp]. unfold rexp at 1 2 3 4. rewrite (rnd_overflow (exp (- v))) by (apply exp_mono; lra). cbn [is_posinf].
      destruct (Rle_dec (Rabs v) 10) as [Q|Q]; [rewrite Rabs_left1 in Q; lra|]. reflexivity.
    + eapply Rle_lt_trans; [apply scobit_shape_rate_le, exp_pos|]. pose proof (exp_pos b). pose proof (exp_pos (-1 * v)). assert (0 < ln (1 + exp (-1 * v))) by (rewrite <- ln_1; apply ln_increasing; lra).
      assert (0 < exp b * ln (1 + exp (-1 * v))) by (apply Rmult_lt_0_compat; assumption). lra.
Qed.

(** One undefined derivative makes the entry of the gradient undefined. *)
Lemma undefined_term order (x y : nat -> fl) i : In i (dterms order) -> y i = FNaN -> fdot order x y = FNaN.
Proof.
  intros Hi Hy. induction order as [|q|a IHa b IHb|a IHa q]; cbn [dterms fdot] in *.
  - destruct Hi.
  - destruct Hi as [-> |[]]. rewrite Hy. destruct (x i); reflexivity.
  - apply in_app_or in Hi. destruct Hi as [Hi|Hi]; [rewrite (IHa Hi); reflexivity|rewrite (IHb Hi); destruct (fdot a x y); reflexivity].
  - assert (C : i = q \/ In i (dterms a)) by (try (destruct Hi as [<- |Hi]; [left; reflexivity|right; exact Hi]); apply in_app_or in Hi; destruct Hi as [Hi|[Hi|[]]]; auto).
    destruct C as [<- |C]; [unfold ffma; rewrite Hy; destruct (x i), (fdot a x y); reflexivity|rewrite (IHa C); unfold ffma; destruct (x q), (y q); reflexivity].
Qed.

(** A scobit model with one alternative whose shape parameter is between 5 and 700 and one row of
    it whose utility is computed as a number between -700 and -11: the entry of the gradient for
    that shape parameter is undefined, whatever the other rows, the weights, the probabilities,
    the penalty and the order of summation are. *)
Theorem C133_refuted_scobit_gradient_is_defined :
  forall iref st D alt uorder th p dorder i v lg,
  In i (dterms dorder) -> (alt i < d_J D)%nat ->
  float_utility (fun i j => FNum (d_X D i j)) (fun j => FNum (aget (be (Transforms.KScobit iref) (d_J D) (d_K D) th) j)) uorder i = FNum v ->
  double_format v -> -700 <= v <= -11 -> double_format (aget th (alt i)) -> 5 <= aget th (alt i) <= 700 ->
  float_gradient (Transforms.KScobit iref) rexp lg rlog1p rpow st D alt uorder th p dorder (alt i) = FNaN.
Proof.
  intros iref st D alt uorder th p dorder i v lg Hi Ha EV Fv Hv Fb Hb. unfold float_gradient, float_gradient_entry, float_score.
  rewrite (undefined_term dorder _ _ i Hi).
  - destruct (d_ridge D); reflexivity.
  - unfold float_column. cbn [num_shapes]. rewrite (proj2 (Nat.ltb_lt (alt i) (d_J D)) Ha), EV. cbn [frow_deriv_shape]. rewrite Nat.eqb_refl.
    apply (proj1 (C133_refuted_scobit_shape_derivative v (aget th (alt i)) Fv Fb)); assumption.
Qed.

(** ** Non-vacuity *)

Example C133_rounded_power : sane_np_power rpow.
Proof.
  intros a b (A1 & A2) Hb. unfold rpow. split; [apply rnd_format|].
  assert (L0 : 0 <= ln a) by (rewrite <- ln_1; apply ln_mono; lra).
  split.
  - assert (P : bpow radix2 (-1024) <= Rpower a b).
    { change (-1024)%Z with (- (1024))%Z. rewrite bpow_opp. apply Rle_trans with (/ a); [apply Rinv_le_contravar; lra|].
      rewrite <- (Rpower_1 a) at 1 by lra. rewrite <- Rpower_Ropp. unfold Rpower. apply exp_mono. apply Rmult_le_compat_r; lra. }
    apply Rlt_le_trans with (bpow radix2 (-1024)); [apply bpow_gt_0|].
    rewrite <- (rnd_id (bpow radix2 (-1024))) by (apply generic_format_bpow; cbv; discriminate). apply rnd_le. exact P.
  - intros H. rewrite <- rnd_1 at 1. apply rnd_le. unfold Rpower. rewrite <- exp_0 at 1. apply exp_mono, Rmult_le_pos; assumption.
Qed.

(** Utilities and shapes at the ends of the range of doubles *)
Example C133_extreme_rows :
  forall k a V, In k [Transforms.KClog None; Transforms.KScobit None; Transforms.KUneven None; Transforms.KAsym 1 None] -> (a < 2)%nat ->
  In V [FNum (- bpow radix2 1000); FNum 0; FNum (bpow radix2 1000)] ->
  exists z, frow_deriv_v k rexp (fun x => rnd (ln x)) rpow 2 (STerm 0) (Some (mkArr 2 (fun j => if (j =? 0)%nat then bpow radix2 900 else - bpow radix2 900))) a V = FNum z.
Proof.
  intros k a V Hk Ha HV.
  assert (FD : forall e : Z, (0 <= e < 1024)%Z -> finite_double (FNum (bpow radix2 e)) /\ finite_double (FNum (- bpow radix2 e))).
  { intros e He. assert (F : double_format (bpow radix2 e)) by (apply generic_format_bpow; unfold FLT_exp; lia).
    assert (B : Rabs (bpow radix2 e) < bpow radix2 1024) by (rewrite Rabs_right by (apply Rle_ge, bpow_ge_0); apply bpow_lt; lia).
    split; eexists; (split; [reflexivity|]); (split; [try exact F; apply generic_format_opp; exact F|rewrite ?Rabs_Ropp; exact B]). }
  apply C133_utility_derivatives_are_numbers.
  - exact C125_rounded_exp.
  - exact C125_rounded_log.
  - exact C133_rounded_power.
  - assert (Q : forall j, finite_double (FNum (if (j =? 0)%nat then bpow radix2 900 else - bpow radix2 900))) by (intros j; destruct (j =? 0)%nat; apply FD; lia).
    cbn in Hk. destruct Hk as [<- |[<- |[<- |[<- |[]]]]]; cbn [finite_shapes]; try exact I; try (intros j _; apply Q).
    split; [lia|]. split; [lia|]. split; [apply Permutation_refl|intros j _; apply Q].
  - exact Ha.
  - destruct HV as [<- |[<- |[<- |[]]]]; [apply FD; lia| |apply FD; lia]. exists 0. split; [reflexivity|]. split; [apply generic_format_0|rewrite Rabs_R0; apply bpow_gt_0].
Qed.

(** One observation with two alternatives, the first with utility -20 and shape parameter 6 *)
Definition guard_data : Data :=
  mkData 2 1 2 1 (fun i _ => if (i =? 0)%nat then -20 else 1) (fun _ _ => 1) (fun i j => if (i =? j)%nat then 1 else 0)
    (fun i => if (i =? 0)%nat then 0 else 1) None None.
Definition guard_params : arr := mkArr 3 (fun j => if (j =? 0)%nat then 6 else 1).

Example C133_undefined_gradient :
  forall p, float_gradient (Transforms.KScobit None) rexp (fun x => rnd (ln x)) rlog1p rpow SNothing guard_data (fun i => i) (fun _ => DTerm 0) guard_params p
    (DPlus (DTerm 0) (DTerm 1)) 0 = FNaN.
Proof.
  intros p. assert (F20 : double_format (-20)) by (apply small_integer; reflexivity).
  apply (C133_refuted_scobit_gradient_is_defined None SNothing guard_data (fun i => i) (fun _ => DTerm 0) guard_params p (DPlus (DTerm 0) (DTerm 1)) 0%nat (-20) (fun x => rnd (ln x))).
  - left. reflexivity.
  - cbn. lia.
  - unfold float_utility. cbn -[rnd overflow]. unfold overflow. rewrite Rmult_1_r, rnd_id by exact F20.
    destruct (Rle_dec (bpow radix2 1024) (Rabs (-20))) as [N|_]; [exfalso|reflexivity].
    revert N. apply Rlt_not_le. rewrite Rabs_left by lra. apply Rle_lt_trans with (bpow radix2 5); [cbn; lra|apply bpow_lt; lia].
  - exact F20.
  - lra.
  - cbn. apply small_integer. reflexivity.
  - cbn. lra.
Qed.

Print Assumptions C133_utility_derivatives_are_numbers.
Print Assumptions C133_shape_derivatives_are_defined.
Print Assumptions C133_refuted_scobit_shape_derivative.
Print Assumptions C133_refuted_scobit_gradient_is_defined.
