(** C125, C126: the utility transformations in double precision. *)
From Coq Require Import ZArith Reals Lra Lia List Permutation.
From Flocq Require Import Core.
From Verif Require Import Res Vec Arr ChoiceCalcs NestedCalcs SpecLogit Floats FloatFacts FloatTransforms PropFloats.
Import ListNotations.
Open Scope R_scope.

(** ** Specification *)

(** A finite double. *)
Definition finite_double (x : fl) : Prop := exists r, x = FNum r /\ double_format r /\ Rabs r < bpow radix2 1024.

(** Signs and ranges of np.exp, np.log1p and np.power on finite doubles. *)
Definition sane_exp (ex : R -> R) : Prop :=
  forall x, double_format (ex x) /\ 0 <= ex x /\ (0 <= x -> 1 <= ex x) /\ (x <= 0 -> ex x <= 1).
Definition sane_log (lg : R -> R) : Prop :=
  forall x, double_format x -> 0 < x <= 1 -> -2048 <= lg x <= 0.
Definition sane_log1p (l1 : R -> R) : Prop :=
  forall x, 0 <= x < bpow radix2 1024 -> 0 <= l1 x <= 2048.
Definition sane_power (pw : R -> R -> R) : Prop :=
  forall a b, 1 <= a -> 0 <= b -> 1 <= pw a b.

(** ** Auxiliary facts *)

Lemma fmax_bounds : 1 <= fmax_comp < bpow radix2 1000.
Proof.
  unfold fmax_comp, max_comp_value. split.
  - rewrite <- rnd_1 at 1. apply rnd_le. apply pow_R1_Rle. lra.
  - apply Rle_lt_trans with (bpow radix2 999); [|apply bpow_lt; lia].
    rewrite <- (rnd_id (bpow radix2 999)) by (apply generic_format_bpow; cbn; lia). apply rnd_le.
    eapply Rle_trans; [apply ten_300|apply bpow_le; lia].
Qed.

Lemma overflow_cases r : overflow r = FNum r /\ Rabs r < bpow radix2 1024 \/
  (exists s, overflow r = FInf s) /\ bpow radix2 1024 <= Rabs r.
Proof. unfold overflow. destruct (Rle_dec _ _); [right; split; [eauto|assumption]|left; split; [reflexivity|lra]]. Qed.

Lemma overflow_pos r : 0 <= r -> overflow r = FNum r /\ r < bpow radix2 1024 \/ overflow r = FInf false /\ bpow radix2 1024 <= r.
Proof.
  intros H. unfold overflow. rewrite Rabs_right by lra. destruct (Rle_dec _ _); [right; split; [destruct (Rlt_dec r 0); [lra|reflexivity]|assumption]|left; split; [reflexivity|lra]].
Qed.

Lemma overflow_not_nan r : overflow r <> FNaN.
Proof. unfold overflow. destruct (Rle_dec _ _); discriminate. Qed.

Lemma fadd_num_not_nan r x : x <> FNaN -> fadd (FNum r) x <> FNaN.
Proof. destruct x; cbn; intros H; [apply overflow_not_nan|discriminate|congruence]. Qed.
Lemma fadd_not_nan_num r x : x <> FNaN -> fadd x (FNum r) <> FNaN.
Proof. destruct x; cbn; intros H; [apply overflow_not_nan|discriminate|congruence]. Qed.
Lemma fneg_not_nan x : x <> FNaN -> fneg x <> FNaN.
Proof. destruct x; cbn; congruence. Qed.
Lemma fsub_num_not_nan r x : x <> FNaN -> fsub (FNum r) x <> FNaN.
Proof. intros H. apply fadd_num_not_nan, fneg_not_nan, H. Qed.

Lemma add_intercept_not_nan t icpt : (exists r, t = FNum r) \/ (t <> FNaN /\ True) ->
  (forall a, icpt = Some a -> finite_double a) -> add_intercept t icpt <> FNaN.
Proof.
  intros Ht Ha. assert (N : t <> FNaN) by (destruct Ht as [(r & ->)|(H & _)]; [discriminate|exact H]).
  destruct icpt as [a|]; [|exact N]. cbn. destruct (Ha a eq_refl) as (r & -> & _). apply fadd_not_nan_num, N.
Qed.

Lemma finite_opp r : double_format r /\ Rabs r < bpow radix2 1024 -> fmul (FNum (-1)) (FNum r) = FNum (- r).
Proof.
  intros (F & H). cbn. replace (-1 * r) with (- r) by ring. rewrite rnd_id by (apply generic_format_opp; exact F).
  apply overflow_num. rewrite Rabs_Ropp. exact H.
Qed.

Section Oracles.
  Context (ex lg l1 : R -> R) (pw : R -> R -> R).
  Hypothesis Hex : sane_exp ex.
  Hypothesis Hlg : sane_log lg.
  Hypothesis Hl1 : sane_log1p l1.
  Hypothesis Hpw : sane_power pw.

  Lemma fexp_num r : (exists e, fexp ex (FNum r) = FNum e /\ e = ex r /\ 0 <= e < bpow radix2 1024) \/ (fexp ex (FNum r) = FInf false /\ 0 < r).
  Proof.
    cbn. destruct (Hex r) as (F & P & U & L). destruct (overflow_pos _ P) as [(E & B)|(E & B)].
    - left. exists (ex r). rewrite E. auto.
    - right. split; [exact E|]. destruct (Rlt_dec 0 r); [assumption|]. exfalso.
      assert (ex r <= 1) by (apply L; lra). assert (1 < bpow radix2 1024) by (apply (bpow_lt radix2 0 1024); lia). lra.
  Qed.

  Lemma cloglog_not_nan V icpt : V <> FNaN -> (forall a, icpt = Some a -> finite_double a) ->
    fcloglog ex lg V icpt <> FNaN.
  Proof.
    intros HV Hi. unfold fcloglog. apply add_intercept_not_nan; [|exact Hi]. right. split; [|exact I].
    assert (EV : (exists e, fexp ex V = FNum e /\ 0 <= e) \/ fexp ex V = FInf false).
    { destruct V as [r|[|]|]; [|left; exists 0; split; [reflexivity|lra]|right; reflexivity|congruence].
      destruct (fexp_num r) as [(e & E & _ & P)|(E & _)]; [left; exists e; split; [exact E|lra]|right; exact E]. }
    assert (N1 : on_neginf fminus_big (fln lg (fsub (fexp ex (fexp ex V)) (FNum 1))) <> FNaN).
    { assert (EE : (exists g, fexp ex (fexp ex V) = FNum g /\ 1 <= g) \/ fexp ex (fexp ex V) = FInf false).
      { destruct EV as [(e & -> & P)| ->]; [|right; reflexivity].
        destruct (fexp_num e) as [(g & E & Eg & _)|(E & _)]; [left; exists g; split; [exact E|]|right; exact E].
        rewrite Eg. apply (Hex e). exact P. }
      destruct EE as [(g & -> & P)| ->]; [|cbn; discriminate]. cbn [fsub fneg fadd].
      assert (R0 : 0 <= rnd (g + - (1))) by (rewrite <- rnd_0; apply rnd_le; lra).
      destruct (overflow_pos _ R0) as [(-> & _)|(-> & _)]; [|cbn; discriminate]. cbn [fln].
      destruct (Rlt_dec 0 _); [cbn; discriminate|]. destruct (Req_EM_T _ 0); [cbn; discriminate|lra]. }
    destruct (fge V 3.7).
    - destruct EV as [(e & -> & _)| ->]; cbn; discriminate.
    - destruct (on_neginf _ _) as [|[|]|]; cbn; try discriminate. congruence.
  Qed.

  Lemma natural_shape_num shape : finite_double shape ->
    exists s, fnatural_shape ex shape = FNum s /\ 0 <= s /\ double_format s /\ Rabs s < bpow radix2 1024.
  Proof.
    intros (r & -> & _). unfold fnatural_shape. destruct (fexp_num r) as [(e & -> & Ee & P)|(-> & _)]; cbn [on_posinf].
    - exists e. split; [reflexivity|]. split; [lra|]. split; [rewrite Ee; apply Hex|rewrite Rabs_right; lra].
    - exists fmax_comp. pose proof fmax_bounds. split; [reflexivity|]. split; [lra|]. split; [apply rnd_format|].
      rewrite Rabs_right by lra. apply Rlt_trans with (bpow radix2 1000); [lra|apply bpow_lt; lia].
  Qed.

  Lemma scobit_not_nan V shape icpt : V <> FNaN -> finite_double shape -> finite_double icpt ->
    fscobit ex lg pw V shape icpt <> FNaN.
  Proof.
    intros HV Hs (ic & -> & _). unfold fscobit. destruct (natural_shape_num shape Hs) as (s & -> & Ps & _).
    pose proof fmax_bounds as MX.
    assert (EN : exists e, on_posinf fbig (fexp ex (fmul (FNum (-1)) V)) = FNum e /\ 0 <= e).
    { assert (MV : (exists r, fmul (FNum (-1)) V = FNum r) \/ (exists b, fmul (FNum (-1)) V = FInf b)).
      { destruct V as [r|b|]; [|right; cbn; destruct (Req_EM_T (-1) 0); [lra|eexists; reflexivity]|congruence].
        cbn. destruct (overflow_cases (rnd (-1 * r))) as [(-> & _)|((b & ->) & _)]; [left|right]; eauto. }
      destruct MV as [(r & ->)|([|] & ->)].
      - destruct (fexp_num r) as [(e & -> & _ & P)|(-> & _)]; cbn [on_posinf].
        + exists e. split; [reflexivity|lra].
        + exists fmax_comp. split; [reflexivity|lra].
      - exists 0. split; [reflexivity|lra].
      - exists fmax_comp. split; [reflexivity|lra]. }
    destruct EN as (e & -> & Pe).
    assert (PT : exists g, on_posinf fbig (fpow pw (fadd (FNum 1) (FNum e)) (FNum s)) = FNum g /\ 1 <= g).
    { cbn [fadd]. assert (R1 : 1 <= rnd (1 + e)) by (rewrite <- rnd_1 at 1; apply rnd_le; lra).
      destruct (overflow_pos (rnd (1 + e)) ltac:(lra)) as [(-> & _)|(-> & _)]; cbn [fpow].
      - pose proof (Hpw (rnd (1 + e)) s R1 Ps) as P1.
        destruct (overflow_pos (pw (rnd (1 + e)) s) ltac:(lra)) as [(-> & _)|(-> & _)]; cbn [on_posinf].
        + eexists. split; [reflexivity|exact P1].
        + exists fmax_comp. split; [reflexivity|lra].
      - destruct (Rlt_dec 0 s); [exists fmax_comp; split; [reflexivity|lra]|].
        destruct (Req_EM_T s 0); [|lra]. exists 1. split; [reflexivity|lra]. }
    destruct PT as (g & -> & Pg).
    assert (N2 : fln lg (fsub (FNum g) (FNum 1)) <> FNaN).
    { cbn [fsub fneg fadd].
      assert (R0 : 0 <= rnd (g + - (1))) by (rewrite <- rnd_0; apply rnd_le; lra).
      destruct (overflow_pos _ R0) as [(-> & _)|(-> & _)]; [|cbn; discriminate]. cbn [fln].
      destruct (Rlt_dec 0 _); [discriminate|]. destruct (Req_EM_T _ 0); [discriminate|lra]. }
    pose proof (fsub_num_not_nan ic _ N2) as N3.
    destruct (fsub (FNum ic) _) as [|[|]|]; cbn; try discriminate. congruence.
  Qed.

  (** A finite number, or plus infinity with a positive argument. *)
  Lemma log1p_exp x : x <> FNaN ->
    (exists l, fln1p l1 (fexp ex x) = FNum l /\ 0 <= l <= 2048) \/
    (fln1p l1 (fexp ex x) = FInf false /\ ((exists r, x = FNum r /\ 0 < r) \/ x = FInf false)).
  Proof.
    intros Hx. destruct x as [r|[|]|]; [| | |congruence].
    - destruct (fexp_num r) as [(e & -> & _ & P)|(-> & P)]; [left|right].
      + cbn [fln1p]. destruct (Rlt_dec (-1) e); [|lra]. exists (l1 e). split; [reflexivity|apply Hl1; lra].
      + split; [reflexivity|left; eauto].
    - left. cbn. destruct (Rlt_dec (-1) 0); [|lra]. exists (l1 0). split; [reflexivity|apply Hl1].
      split; [lra|apply bpow_gt_0].
    - right. split; [reflexivity|right; reflexivity].
  Qed.

  Lemma uneven_not_nan V shape icpt : finite_double V -> finite_double shape -> (forall a, icpt = Some a -> finite_double a) ->
    funeven ex l1 V shape icpt <> FNaN.
  Proof.
    intros (v & -> & Fv & Bv) Hs Hi. unfold funeven. destruct (natural_shape_num shape Hs) as (s & -> & Ps & Fs & Bs).
    rewrite (finite_opp v (conj Fv Bv)), (finite_opp s (conj Fs Bs)).
    apply add_intercept_not_nan; [|exact Hi]. right. split; [|exact I].
    set (sv := fmul (FNum (- s)) (FNum v)).
    assert (NS : sv <> FNaN) by (unfold sv; cbn [fmul]; apply overflow_not_nan).
    assert (SV : (exists r, sv = FNum r /\ 0 < r) \/ sv = FInf false -> v < 0).
    { intros H. destruct (Rlt_dec v 0) as [L|L]; [exact L|]. exfalso. revert H. unfold sv. cbn [fmul].
      assert (R0 : rnd (- s * v) <= 0) by (rewrite <- rnd_0; apply rnd_le; nra).
      unfold overflow. destruct (Rle_dec _ _) as [B|B].
      - intros [(r & E & _)|E]; [discriminate|]. destruct (Rlt_dec (rnd (- s * v)) 0) as [N|N]; [discriminate|].
        assert (rnd (- s * v) = 0) as Z by lra. rewrite Z, Rabs_R0 in B. pose proof (bpow_gt_0 radix2 1024). lra.
      - intros [(r & E & P)|E]; [injection E as <-; lra|discriminate]. }
    set (A := fadd (FNum v) (on_inf (FNum (- v)) (fln1p l1 (fexp ex (FNum (- v)))))).
    assert (HA : A <> FNaN /\ (v < 0 -> exists a, A = FNum a)).
    { unfold A. destruct (log1p_exp (FNum (- v)) ltac:(discriminate)) as [(l & -> & Pl)|(-> & _)]; cbn [on_inf fadd].
      - split; [apply overflow_not_nan|]. intros Hv. eexists. apply overflow_num.
        assert (L : v <= rnd (v + l)) by (rewrite <- (rnd_id v Fv) at 1; apply rnd_le; lra).
        assert (U : rnd (v + l) <= 2048).
        { assert (double_format 2048) by (replace 2048 with (bpow radix2 11) by (cbn; lra); apply generic_format_bpow; cbn; lia).
          rewrite <- (rnd_id 2048) by assumption. apply rnd_le. lra. }
        apply Rabs_lt. apply Rabs_lt_inv in Bv.
        assert (2048 < bpow radix2 1024) by (replace 2048 with (bpow radix2 11) by (cbn; lra); apply bpow_lt; lia). lra.
      - replace (v + - v) with 0 by ring. rewrite rnd_0, (overflow_num 0) by (rewrite Rabs_R0; apply bpow_gt_0).
        split; [discriminate|eauto]. }
    assert (T : fsub A (on_inf sv (fln1p l1 (fexp ex sv))) <> FNaN).
    { unfold fsub. destruct (log1p_exp sv NS) as [(l & -> & _)|(-> & Hsv)]; cbn [on_inf].
      - cbn [fneg]. apply fadd_not_nan_num. apply HA.
      - destruct (proj2 HA (SV Hsv)) as (a & ->). apply fadd_num_not_nan, fneg_not_nan, NS. }
    destruct (fsub A _) as [|[|]|]; cbn; try discriminate. congruence.
  Qed.

  Lemma fln_unit c : double_format c -> 0 <= c <= 1 ->
    exists l, on_neginf fminus_big (fln lg (FNum c)) = FNum l /\ Rabs l <= bpow radix2 1000.
  Proof.
    intros F H. pose proof fmax_bounds as MX. cbn [fln]. destruct (Rlt_dec 0 c) as [P|P].
    - exists (lg c). split; [reflexivity|]. pose proof (Hlg c F ltac:(lra)).
      assert (2048 < bpow radix2 1000) by (replace 2048 with (bpow radix2 11) by (cbn; lra); apply bpow_lt; lia).
      apply Rabs_le. lra.
    - destruct (Req_EM_T c 0); [|lra]. exists (- fmax_comp). split; [reflexivity|]. apply Rabs_le. lra.
  Qed.

  Lemma fdiv_unit a b : 0 <= a -> a <= b -> 0 < b -> exists q, fdiv (FNum a) (FNum b) = FNum q /\ double_format q /\ 0 <= q <= 1.
  Proof.
    intros Ha Hab Hb. cbn [fdiv]. destruct (Req_EM_T b 0); [lra|].
    assert (Q : 0 <= a / b <= 1).
    { split; [apply Rmult_le_pos; [lra|left; apply Rinv_0_lt_compat; lra]|].
      apply (Rmult_le_reg_r b); [lra|]. unfold Rdiv. rewrite Rmult_assoc, Rinv_l; lra. }
    destruct (quotient_unit _ Q) as (E & B). exists (rnd (a / b)). split; [exact E|]. split; [apply rnd_format|exact B].
  Qed.

  Lemma rnd_abs_le x e : (-1022 <= e)%Z -> Rabs x <= bpow radix2 e -> Rabs (rnd x) <= bpow radix2 e.
  Proof.
    intros He H. apply Rabs_le_inv in H. apply Rabs_le.
    assert (F : double_format (bpow radix2 e)) by (apply generic_format_bpow; unfold FLT_exp; lia).
    split; [rewrite <- (rnd_id (- bpow radix2 e)) by (apply generic_format_opp; exact F)|rewrite <- (rnd_id (bpow radix2 e)) by exact F];
      apply rnd_le; lra.
  Qed.

  Lemma asym_not_nan J c V icpt : (2 <= J)%nat -> (exists r, c = FNum r /\ double_format r /\ 0 <= r <= 1) -> finite_double V ->
    (forall a, icpt = Some a -> finite_double a) -> fasym lg J c V icpt <> FNaN.
  Proof.
    intros HJ (r & -> & Fr & Pr) (v & -> & Fv & Bv) Hi. unfold fasym.
    destruct (fln_unit r Fr Pr) as (l & -> & Bl).
    assert (Q : exists q, fdiv (fsub (FNum 1) (FNum r)) (FNum (INR J - 1)) = FNum q /\ double_format q /\ 0 <= q <= 1).
    { assert (R0 : 0 <= rnd (1 + - r) <= 1) by (split; [rewrite <- rnd_0|rewrite <- rnd_1 at 2]; apply rnd_le; lra).
      assert (E : fsub (FNum 1) (FNum r) = FNum (rnd (1 + - r))).
      { cbn. apply overflow_num. rewrite Rabs_right by lra. apply Rle_lt_trans with 1; [lra|apply (bpow_lt radix2 0 1024); lia]. }
      rewrite E. assert (2 <= INR J) by (change 2 with (INR 2); apply le_INR; exact HJ).
      apply fdiv_unit; lra. }
    destruct Q as (q & -> & Fq & Pq). destruct (fln_unit q Fq Pq) as (l' & -> & Bl').
    assert (M1 : forall b x, (b = 0 \/ b = 1) -> Rabs x <= bpow radix2 1000 ->
      exists m, fmul (FNum b) (FNum x) = FNum m /\ Rabs m <= bpow radix2 1000).
    { intros b x Hb Hx. cbn [fmul]. exists (rnd (b * x)).
      assert (B : Rabs (rnd (b * x)) <= bpow radix2 1000).
      { apply rnd_abs_le; [lia|]. destruct Hb as [-> | ->]; [rewrite Rmult_0_l, Rabs_R0; left; apply bpow_gt_0|rewrite Rmult_1_l; exact Hx]. }
      split; [|exact B]. apply overflow_num. eapply Rle_lt_trans; [exact B|apply bpow_lt; lia]. }
    destruct (M1 (if Rle_dec 0 v then 1 else 0) l ltac:(destruct (Rle_dec 0 v); auto) Bl) as (m1 & E1 & B1).
    destruct (M1 (if Rlt_dec v 0 then 1 else 0) l' ltac:(destruct (Rlt_dec v 0); auto) Bl') as (m2 & E2 & B2).
    unfold fis_ge0, fis_lt0. rewrite E1, E2.
    assert (EM : exists m, fadd (FNum m1) (FNum m2) = FNum m).
    { cbn [fadd]. eexists. apply overflow_num. apply Rle_lt_trans with (bpow radix2 1001); [|apply bpow_lt; lia].
      apply rnd_abs_le; [lia|]. eapply Rle_trans; [apply Rabs_triang|]. change 1001%Z with (1 + 1000)%Z. rewrite bpow_plus.
      change (bpow radix2 1) with 2. lra. }
    destruct EM as (m & ->).
    assert (T : fsub (FNum l) (fmul (FNum v) (FNum m)) <> FNaN) by (apply fsub_num_not_nan; cbn [fmul]; apply overflow_not_nan).
    assert (T2 : add_intercept (fsub (FNum l) (fmul (FNum v) (FNum m))) icpt <> FNaN) by (apply add_intercept_not_nan; auto).
    destruct (add_intercept _ _) as [|[|]|]; cbn; try discriminate. congruence.
  Qed.

  Lemma fsum_of_positive (t : sum_order) (f : nat -> fl) (x : nat -> R) :
    (forall i, In i (terms_of t) -> f i = FNum (x i) /\ double_format (x i) /\ 0 <= x i) ->
    fsum t f = FInf false \/
    exists s, fsum t f = FNum s /\ double_format s /\ 0 <= s /\ (forall i, In i (terms_of t) -> x i <= s).
  Proof.
    intros Hx. induction t as [|i|a IHa b IHb]; cbn [terms_of fsum] in *.
    - right. exists 0. split; [reflexivity|]. split; [apply generic_format_0|]. split; [lra|intros i []].
    - destruct (Hx i (or_introl eq_refl)) as (E & F & P). right. exists (x i). split; [exact E|]. split; [exact F|].
      split; [lra|]. intros k [<-|[]]. lra.
    - destruct IHa as [E1|(s1 & E1 & F1 & B1 & T1)]; [intros; apply Hx; apply in_or_app; auto| |];
      (destruct IHb as [E2|(s2 & E2 & F2 & B2 & T2)]; [intros; apply Hx; apply in_or_app; auto| |]);
      rewrite E1, E2; try (left; reflexivity). cbn [fadd].
      assert (G : forall z, double_format z -> z <= s1 + s2 -> z <= rnd (s1 + s2)) by (intros z Fz Hz; rewrite <- (rnd_id z Fz); apply rnd_le; exact Hz).
      assert (Z : 0 <= rnd (s1 + s2)) by (apply G; [apply generic_format_0|lra]).
      destruct (overflow_pos _ Z) as [(-> & _)|(-> & _)]; [right|left; reflexivity].
      exists (rnd (s1 + s2)). split; [reflexivity|]. split; [apply rnd_format|]. split; [lra|].
      intros i Hi. apply G; [apply (Hx i Hi)|].
      apply in_app_or in Hi. destruct Hi as [Hi|Hi]; [specialize (T1 i Hi)|specialize (T2 i Hi)]; lra.
  Qed.

  Lemma fexp_eta_num eta k : finite_double (eta k) ->
    exists e, fexp_eta ex eta k = FNum e /\ double_format e /\ 0 < e < bpow radix2 1024.
  Proof.
    intros (r & E & _). unfold fexp_eta. rewrite E. pose proof fmax_bounds. destruct min_comp_bounds as ((Lm & _) & _ & Um & _).
    pose proof (bpow_gt_0 radix2 (-1022)). assert (1 < bpow radix2 1024) by (apply (bpow_lt radix2 0 1024); lia).
    assert (bpow radix2 1000 < bpow radix2 1024) by (apply bpow_lt; lia).
    destruct (fexp_num r) as [(e & -> & Ee & P)|(-> & _)]; cbn [on_posinf fbig].
    - destruct (Req_EM_T e 0).
      + exists fmin_comp_value. split; [reflexivity|]. split; [apply rnd_format|lra].
      + exists e. split; [reflexivity|]. split; [rewrite Ee; apply Hex|lra].
    - unfold fbig. destruct (Req_EM_T fmax_comp 0); [lra|]. exists fmax_comp. split; [reflexivity|]. split; [apply rnd_format|lra].
  Qed.

  (** The natural shapes of the asymmetric logit lie between 0 and 1. *)
  Lemma asym_shape_unit eta t k : (forall i, In i (terms_of t) -> finite_double (eta i)) ->
    (forall i, k = Some i -> In i (terms_of t)) ->
    exists r, fasym_shape ex eta t k = FNum r /\ double_format r /\ 0 <= r <= 1.
  Proof.
    intros He Hk. unfold fasym_shape.
    set (x := fun i => match fexp_eta ex eta i with FNum v => v | _ => 0 end).
    assert (Hx : forall i, In i (terms_of t) -> fexp_eta ex eta i = FNum (x i) /\ double_format (x i) /\ 0 < x i < bpow radix2 1024).
    { intros i Hi. unfold x. destruct (fexp_eta_num eta i (He i Hi)) as (e & -> & F & P). auto. }
    assert (D : fadd (fsum t (fexp_eta ex eta)) (FNum 1) = FInf false \/
      exists d, fadd (fsum t (fexp_eta ex eta)) (FNum 1) = FNum d /\ 1 <= d /\ (forall i, In i (terms_of t) -> x i <= d)).
    { destruct (fsum_of_positive t (fexp_eta ex eta) x) as [-> |(s & -> & Fs & Ps & Ts)].
      - intros i Hi. destruct (Hx i Hi) as (E & F & P). split; [exact E|]. split; [exact F|lra].
      - left. reflexivity.
      - cbn [fadd].
        assert (G : forall z, double_format z -> z <= s + 1 -> z <= rnd (s + 1)) by (intros z Fz Hz; rewrite <- (rnd_id z Fz); apply rnd_le; exact Hz).
        assert (G1 : 1 <= rnd (s + 1)) by (rewrite <- rnd_1 at 1; apply rnd_le; lra).
        destruct (overflow_pos (rnd (s + 1)) ltac:(lra)) as [(-> & _)|(-> & _)]; [right|left; reflexivity].
        exists (rnd (s + 1)). split; [reflexivity|]. split; [exact G1|]. intros i Hi. apply G; [apply (Hx i Hi)|]. specialize (Ts i Hi). lra. }
    assert (Z : exists r, FNum 0 = FNum r /\ double_format r /\ 0 <= r <= 1) by (exists 0; split; [reflexivity|]; split; [apply generic_format_0|lra]).
    destruct k as [i|].
    - destruct (Hx i (Hk i eq_refl)) as (-> & F & P). destruct D as [-> |(d & -> & D1 & D2)]; [exact Z|].
      apply fdiv_unit; [lra|apply D2, Hk; reflexivity|lra].
    - destruct D as [-> |(d & -> & D1 & D2)]; [exact Z|]. apply fdiv_unit; lra.
  Qed.
End Oracles.

Lemma accurate_log_sane lg el : accurate_log lg el -> 0 <= el <= / 2 -> sane_log lg.
Proof.
  intros H He x F P. destruct (log_terms lg el (fun _ => true) (fun _ => x) 0 H He F P) as (_ & _ & B & _). cbn in B.
  change (Z.pow_pos 2 11) with 2048%Z in B. lra.
Qed.

(** ** C125 *)

(** No undefined transformed utility: clog-log and scobit for finite and infinite utilities,
    the uneven and the asymmetric logit for finite ones. *)
Theorem C125_transformed_utilities_are_defined :
  forall k ex lg l1 pw J V shape icpt,
  sane_exp ex -> sane_log lg -> sane_log1p l1 -> sane_power pw -> (2 <= J)%nat ->
  finite_double V -> (forall a, icpt = Some a -> finite_double a) ->
  match k with
  | KMnl | KClog => True
  | KScobit | KUneven => finite_double shape
  | KAsym => exists eta t n, shape = fasym_shape ex eta t n /\ (forall i, In i (terms_of t) -> finite_double (eta i)) /\
      (forall i, n = Some i -> In i (terms_of t))
  end ->
  ftransform k ex lg l1 pw J V shape icpt <> FNaN.
Proof.
  intros k ex lg l1 pw J V shape icpt Hex Hlg Hl1 Hpw HJ HV Hi Hs.
  assert (NV : V <> FNaN) by (destruct HV as (r & -> & _); discriminate).
  destruct k; cbn [ftransform].
  - exact NV.
  - apply cloglog_not_nan; assumption.
  - apply scobit_not_nan; try assumption. destruct icpt as [a|]; [apply Hi; reflexivity|].
    exists 0. split; [reflexivity|]. split; [apply generic_format_0|rewrite Rabs_R0; apply bpow_gt_0].
  - apply uneven_not_nan; assumption.
  - destruct Hs as (eta & t & n & -> & He & Hn). apply asym_not_nan; try assumption. apply asym_shape_unit; assumption.
Qed.

(** They are even finite numbers: no infinity is left, where the intercept is added after the
    replacement (clog-log, uneven) as long as there is none. *)
Theorem C125_transformed_utilities_are_numbers :
  forall k ex lg l1 pw J V shape icpt,
  sane_exp ex -> sane_log lg -> sane_log1p l1 -> sane_power pw -> (2 <= J)%nat ->
  finite_double V -> (forall a, icpt = Some a -> finite_double a) ->
  match k with
  | KMnl | KClog => True
  | KScobit | KUneven => finite_double shape
  | KAsym => exists eta t n, shape = fasym_shape ex eta t n /\ (forall i, In i (terms_of t) -> finite_double (eta i)) /\
      (forall i, n = Some i -> In i (terms_of t))
  end ->
  match k with KClog | KUneven => icpt = None | _ => True end ->
  exists z, ftransform k ex lg l1 pw J V shape icpt = FNum z.
Proof.
  intros k ex lg l1 pw J V shape icpt Hex Hlg Hl1 Hpw HJ HV Hi Hs Hn.
  pose proof (C125_transformed_utilities_are_defined k ex lg l1 pw J V shape icpt Hex Hlg Hl1 Hpw HJ HV Hi Hs) as ND.
  assert (I1 : forall x, on_neginf fminus_big (on_posinf fbig x) <> FNaN -> exists z, on_neginf fminus_big (on_posinf fbig x) = FNum z).
  { intros [r|[|]|] H; cbn in *; try (eexists; reflexivity). congruence. }
  destruct k; cbn [ftransform] in *.
  - destruct HV as (v & -> & _). exists v. reflexivity.
  - subst icpt. unfold fcloglog in *. cbn [add_intercept] in *. destruct (fge V 3.7) eqn:G.
    + destruct HV as (v & -> & _). cbn [fexp] in *. destruct (Hex v) as (_ & P & _). destruct (overflow_pos _ P) as [(E & _)|(E & _)]; rewrite E; cbn; eexists; reflexivity.
    + destruct (fln lg _) as [r|[|]|]; cbn in *; try (eexists; reflexivity). congruence.
  - unfold fscobit in *. apply I1. exact ND.
  - subst icpt. unfold funeven in *. cbn [add_intercept] in *. destruct HV as (v & -> & _). apply I1. exact ND.
  - unfold fasym in *. apply I1. exact ND.
Qed.

(** The two infinite utilities with a case of their own: minus infinity in the uneven logit and
    plus infinity with a shape of one in the asymmetric logit. *)
Theorem C125_infinite_utilities_with_a_case :
  forall ex lg l1 J shape a, finite_double a ->
  funeven ex l1 (FInf true) shape None = FNum (- fmax_comp) /\
  fasym lg J (FNum 1) (FInf false) None = FNum 0 /\
  fasym lg J (FNum 1) (FInf false) (Some a) = a.
Proof.
  intros ex lg l1 J shape a (r & -> & F & B). split; [reflexivity|].
  unfold fasym. destruct (Req_EM_T 1 1); [|lra]. split; [reflexivity|]. cbn [add_intercept fadd]. rewrite Rplus_0_l, (rnd_id r F), (overflow_num r B). reflexivity.
Qed.

(** From finite systematic utilities and parameters to the log-likelihood, for every model
    type: the computed log-likelihood is a finite number and not positive. *)
Theorem C125_log_likelihood_is_finite :
  forall k ex eps lg el l1 pw J (V shape : nat -> fl) (icpt : nat -> option fl) N own order y t,
  accurate_exp ex eps -> 0 <= eps <= / 2 ^ 40 -> accurate_log lg el -> 0 <= el <= / 2 ->
  sane_exp ex -> sane_log1p l1 -> sane_power pw -> (2 <= J)%nat -> (Z.of_nat N < 2 ^ 53)%Z ->
  (forall i, (i < N)%nat -> finite_double (V i) /\ (forall a, icpt i = Some a -> finite_double a) /\
    match k with
    | KMnl | KClog => True
    | KScobit | KUneven => finite_double (shape i)
    | KAsym => exists eta t n, shape i = fasym_shape ex eta t n /\ (forall i, In i (terms_of t) -> finite_double (eta i)) /\
        (forall i, n = Some i -> In i (terms_of t))
    end) ->
  (forall i, (i < N)%nat ->
     let rows := filter (fun k => (own k =? own i)%nat) (seq 0 N) in
     Permutation (terms_of (order (own i))) rows /\ (length rows <= 4095)%nat) ->
  Permutation (terms_of t) (seq 0 N) ->
  let u := fun i => ftransform k ex lg l1 pw J (V i) (shape i) (icpt i) in
  exists L, float_log_likelihood lg y (fun i => float_prob ex u (order (own i)) i) t = FNum L /\ L <= 0.
Proof.
  intros k ex eps lg el l1 pw J V shape icpt N own order y t Hex Heps Hlg Hel Hsx Hl1 Hpw HJ HN Hrows Hobs HP u.
  apply (C124_computed_log_likelihood_is_finite ex eps lg el u N own order y t); try assumption.
  intros i Hi. destruct (Hobs i Hi) as (P & L). split; [exact P|]. split; [exact L|].
  intros r Hr. apply filter_In in Hr. destruct Hr as (Hr & _). apply in_seq in Hr.
  destruct (Hrows r ltac:(lia)) as (HV & Hic & Hsh). unfold u.
  apply C125_transformed_utilities_are_defined; try assumption. eapply accurate_log_sane; eassumption.
Qed.

(** Infinite utilities can lead to undefined values: the uneven logit with a shape parameter
    whose exponential underflows, the asymmetric logit with two alternatives and a shape that
    underflows. *)
Theorem C125_refuted_infinite_utilities :
  forall ex lg l1 icpt, sane_exp ex -> ex (-800) = 0 -> lg 1 = 0 -> 
  funeven ex l1 (FInf false) (FNum (-800)) icpt = FNaN /\
  fasym lg 2 (FNum 0) (FInf true) icpt = FNaN.
Proof.
  intros ex lg l1 icpt Hex E Hl. split.
  - unfold funeven, fnatural_shape. cbn [fexp]. rewrite E, (overflow_num 0) by (rewrite Rabs_R0; apply bpow_gt_0). cbn [on_posinf].
    assert (F : fmul (FNum (-1)) (FNum 0) = FNum 0).
    { cbn. rewrite Rmult_0_r, rnd_0. apply overflow_num. rewrite Rabs_R0. apply bpow_gt_0. }
    rewrite F. cbn [fmul]. destruct (Req_EM_T 0 0); [|lra]. cbn [fexp fln1p on_inf].
    assert (G : forall x, fsub x FNaN = FNaN) by (intros []; reflexivity). rewrite G. destruct icpt as [[]|]; reflexivity.
  - unfold fasym. assert (Z : overflow 0 = FNum 0) by (apply overflow_num; rewrite Rabs_R0; apply bpow_gt_0).
    assert (E1 : fdiv (fsub (FNum 1) (FNum 0)) (FNum (INR 2 - 1)) = FNum 1).
    { assert (O1 : overflow 1 = FNum 1) by (apply overflow_num; rewrite Rabs_R1; apply (bpow_lt radix2 0 1024); lia).
      cbn [fsub fneg fadd]. replace (1 + - 0) with 1 by ring. rewrite rnd_1, O1. cbn [fdiv]. replace (INR 2 - 1) with 1 by (cbn; ring).
      destruct (Req_EM_T 1 0); [lra|]. unfold Rdiv. rewrite Rinv_1, Rmult_1_l, rnd_1. exact O1. }
    rewrite E1. cbn [fln fis_ge0 fis_lt0]. destruct (Rlt_dec 0 1); [|lra]. destruct (Rlt_dec 0 0); [lra|]. destruct (Req_EM_T 0 0); [|lra].
    cbn [on_neginf fminus_big]. unfold fminus_big. rewrite Hl.
    assert (M : fadd (fmul (fis_ge0 (FInf true)) (FNum (- fmax_comp))) (fmul (fis_lt0 (FInf true)) (FNum 0)) = FNum 0).
    { unfold fis_ge0, fis_lt0. cbn [fmul]. rewrite Rmult_0_l, Rmult_0_r, rnd_0, Z. cbn [fadd]. rewrite Rplus_0_l, rnd_0. exact Z. }
    rewrite M. cbn [fmul]. destruct (Req_EM_T 0 0); [|lra].
    cbn [fsub fneg fadd]. destruct icpt as [[]|]; reflexivity.
Qed.

(** ** C126 *)

(** np.exp is 1 for tiny positive numbers and tiny from -38 downwards. *)
Definition flat_exp (ex : R -> R) : Prop :=
  (forall x, 0 <= x <= / 2 ^ 54 -> ex x = 1) /\ (forall x, x <= -38 -> 0 <= ex x <= / 2 ^ 54).

Lemma small_finite r : 0 <= r <= / 2 ^ 54 -> overflow r = FNum r.
Proof.
  intros H. apply overflow_num. rewrite Rabs_right by lra. apply Rle_lt_trans with 1.
  - eapply Rle_trans; [apply H|]. rewrite <- Rinv_1. apply Rinv_le_contravar; [lra|apply pow_R1_Rle; lra].
  - apply (bpow_lt radix2 0 1024). lia.
Qed.

Lemma overflow_1 : overflow 1 = FNum 1.
Proof. apply overflow_num. rewrite Rabs_R1. apply (bpow_lt radix2 0 1024). lia. Qed.

(** Clog-log: every utility of -38 or less is transformed to -1e300. *)
Theorem C126_clog_log_below_minus_38 :
  forall ex lg v, flat_exp ex -> v <= -38 -> fcloglog ex lg (FNum v) None = FNum (- fmax_comp).
Proof.
  intros ex lg v (F1 & F2) Hv. unfold fcloglog. cbn [add_intercept].
  assert (G : fge (FNum v) 3.7 = false).
  { cbn. destruct (Rle_dec _ _) as [L|L]; [|reflexivity]. exfalso.
    assert (0 <= rnd 3.7) by (rewrite <- rnd_0; apply rnd_le; lra). lra. }
  rewrite G. cbn [fexp]. rewrite (small_finite _ (F2 v Hv)). cbn [fexp]. rewrite (F1 _ (F2 v Hv)), overflow_1.
  assert (Z : fsub (FNum 1) (FNum 1) = FNum 0).
  { cbn. replace (1 + - (1)) with 0 by ring. rewrite rnd_0. apply overflow_num. rewrite Rabs_R0. apply bpow_gt_0. }
  rewrite Z. cbn [fln]. destruct (Rlt_dec 0 0); [lra|]. destruct (Req_EM_T 0 0); [reflexivity|lra].
Qed.

(** The exact clog-log transformation of a utility that is not positive lies between the
    utility and the utility plus one. *)
Lemma clog_exact v : v <= 0 -> v <= ln (exp (exp v) - 1) <= v + 1.
Proof.
  intros H. pose proof (exp_pos v) as P. pose proof (exp_ineq1 (exp v) ltac:(lra)) as I1.
  assert (E1 : exp v <= 1) by (rewrite <- exp_0; destruct H as [L| ->]; [left; apply exp_increasing; exact L|right; reflexivity]).
  split.
  - rewrite <- (ln_exp v) at 1. apply ln_mono; lra.
  - rewrite <- (ln_exp (v + 1)). apply ln_mono; [lra|]. rewrite exp_plus.
    (* exp x <= 1 + e x on [0, 1], by convexity through exp x <= 1 / (1 - x) at ... *)
    assert (C : forall x, 0 <= x <= 1 -> exp x - 1 <= x * exp 1).
    { intros x Hx. destruct (Req_dec x 0) as [-> | N]; [rewrite exp_0; lra|].
      (* mean value: exp x - 1 = x exp c *)
      destruct (MVT_cor2 exp exp 0 x) as (c & Ec & Hc); [lra|intros c _; apply derivable_pt_lim_exp|].
      rewrite exp_0, Rminus_0_r in Ec. rewrite Ec, Rmult_comm. apply Rmult_le_compat_l; [lra|].
      left. apply exp_increasing. lra. }
    apply C. lra.
Qed.

(** An observation whose utilities are all -38 or less: the clog-log model computes the same
    probability for all its rows, although the exact odds of two rows are at least
    e^(difference of utilities - 1). *)
Theorem C126_refuted_clog_log_probabilities :
  forall ex lg (v : nat -> R) rows t i j,
  flat_exp ex -> (forall k, In k rows -> v k <= -38) -> In i rows -> In j rows ->
  let u k := fcloglog ex lg (FNum (v k)) None in
  let exact k := ln (exp (exp (v k)) - 1) in
  float_prob ex u t i = float_prob ex u t j /\ exp (v i - v j - 1) <= exp (exact i) / exp (exact j).
Proof.
  intros ex lg v rows t i j Hf Hv Hi Hj u exact. split.
  - unfold float_prob, u. rewrite !C126_clog_log_below_minus_38 by (try assumption; auto). reflexivity.
  - unfold Rdiv. rewrite <- exp_Ropp, <- exp_plus.
    pose proof (clog_exact (v i) ltac:(pose proof (Hv i Hi); lra)). pose proof (clog_exact (v j) ltac:(pose proof (Hv j Hj); lra)).
    unfold exact. assert (M : forall x y, x <= y -> exp x <= exp y) by (intros x y [L| ->]; [left; apply exp_increasing; exact L|right; reflexivity]).
    apply M. lra.
Qed.

Lemma inv_2_54 : / 2 ^ 54 = / 4 * bpow radix2 (-52).
Proof.
  change (-52)%Z with (Z.opp 52). rewrite bpow_opp, <- (IZR_Zpower radix2 52) by lia.
  replace (IZR (radix2 ^ 52)) with (2 ^ 52) by (rewrite pow_IZR; reflexivity).
  change (2 ^ 54) with (2 * (2 * 2 ^ 52)). rewrite !Rinv_mult. lra.
Qed.

Lemma rnd_near_one y : 1 <= y <= 1 + 3 / 8 * bpow radix2 (-52) -> rnd y = 1.
Proof.
  intros H. assert (L : 1 <= rnd y) by (rewrite <- rnd_1 at 1; apply rnd_le; lra).
  apply Rle_antisym; [|exact L]. apply Rnot_lt_le. intros G.
  assert (S : 1 + bpow radix2 (-52) <= rnd y).
  { pose proof (rnd_format y) as F. set (r := rnd y) in *.
    destruct (Rle_or_lt 2 r) as [B2|B2]; [assert (bpow radix2 (-52) <= bpow radix2 0) by (apply bpow_le; lia); change (bpow radix2 0) with 1 in *; lra|].
    assert (M : mag radix2 r = 1%Z :> Z) by (apply mag_unique_pos; change (bpow radix2 (1 - 1)) with 1; change (bpow radix2 1) with 2; lra).
    unfold generic_format, F2R, scaled_mantissa, cexp in F. rewrite M in F. change (FLT_exp (-1074) 53 1) with (-52)%Z in F.
    cbn [Fnum Fexp] in F. set (k := Ztrunc (r * bpow radix2 (- (-52)))) in F.
    assert (P52 : bpow radix2 52 * bpow radix2 (-52) = 1) by (rewrite <- bpow_plus; reflexivity).
    pose proof (bpow_gt_0 radix2 (-52)) as Q52.
    assert (K1 : IZR (2 ^ 52) < IZR k) by (change (IZR (2 ^ 52)) with (bpow radix2 52); apply (Rmult_lt_reg_r (bpow radix2 (-52))); [exact Q52|]; rewrite P52, <- F; exact G).
    apply lt_IZR in K1. assert (K2 : IZR (2 ^ 52 + 1) <= IZR k) by (apply IZR_le; lia). rewrite plus_IZR in K2. change (IZR (2 ^ 52)) with (bpow radix2 52) in K2.
    rewrite F. apply (Rmult_le_compat_r (bpow radix2 (-52))) in K2; lra. }
  destruct (rnd_relative y) as (_ & R2).
  { apply Rle_trans with 1; [|lra]. apply (bpow_le radix2 (-1022) 0). lia. }
  assert (U : uround = / 2 * bpow radix2 (-52)) by (rewrite <- uround_eq; reflexivity).
  assert (b52 : bpow radix2 (-52) <= / 8) by (replace (/ 8) with (bpow radix2 (-3)) by (cbn; lra); apply bpow_le; lia).
  pose proof (bpow_gt_0 radix2 (-52)). rewrite U in R2. nra.
Qed.

(** Scobit: every utility of 38 or more is transformed to 1e300, whatever the shape. *)
Theorem C126_scobit_above_38 :
  forall ex lg pw v shape ic,
  sane_exp ex -> flat_exp ex -> (forall b, pw 1 b = 1) -> double_format v -> 38 <= v < bpow radix2 1024 ->
  finite_double shape -> fscobit ex lg pw (FNum v) shape (FNum ic) = FNum fmax_comp.
Proof.
  intros ex lg pw v shape ic Hsx (F1 & F2) Hpw Fv Hv Hs. unfold fscobit.
  destruct (natural_shape_num ex Hsx shape Hs) as (s & -> & Ps & _).
  rewrite (finite_opp v) by (split; [exact Fv|rewrite Rabs_right; lra]). cbn [fexp].
  pose proof (F2 (- v) ltac:(lra)) as B. rewrite (small_finite _ B). cbn [on_posinf fadd].
  assert (R1 : rnd (1 + ex (- v)) = 1) by (apply rnd_near_one; rewrite inv_2_54 in B; pose proof (bpow_gt_0 radix2 (-52)); lra).
  rewrite R1, overflow_1. cbn [fpow]. rewrite Hpw, overflow_1. cbn [on_posinf].
  assert (Z : fsub (FNum 1) (FNum 1) = FNum 0).
  { cbn. replace (1 + - (1)) with 0 by ring. rewrite rnd_0. apply overflow_num. rewrite Rabs_R0. apply bpow_gt_0. }
  rewrite Z. cbn [fln]. destruct (Rlt_dec 0 0); [lra|]. destruct (Req_EM_T 0 0); [reflexivity|lra].
Qed.

(** With all shape parameters zero the scobit model is the multinomial logit, but an
    observation whose utilities are all 38 or more gets the same computed probability for all
    its rows. *)
Theorem C126_refuted_scobit_probabilities :
  forall ex lg pw (v : nat -> R) rows t i j,
  sane_exp ex -> flat_exp ex -> (forall b, pw 1 b = 1) ->
  (forall k, In k rows -> double_format (v k) /\ 38 <= v k < bpow radix2 1024) -> In i rows -> In j rows ->
  let u k := fscobit ex lg pw (FNum (v k)) (FNum 0) (FNum 0) in
  let exact k := - ln (Rpower (1 + exp (- v k)) (exp 0) - 1) in
  float_prob ex u t i = float_prob ex u t j /\ exp (exact i) / exp (exact j) = exp (v i - v j).
Proof.
  intros ex lg pw v rows t i j Hsx Hf Hpw Hv Hi Hj u exact.
  assert (F0 : finite_double (FNum 0)) by (exists 0; split; [reflexivity|]; split; [apply generic_format_0|rewrite Rabs_R0; apply bpow_gt_0]).
  split.
  - unfold float_prob, u. destruct (Hv i Hi), (Hv j Hj). rewrite !C126_scobit_above_38 by assumption. reflexivity.
  - assert (E : forall k, exact k = v k).
    { intros k. unfold exact. rewrite exp_0, Rpower_1 by (pose proof (exp_pos (- v k)); lra).
      replace (1 + exp (- v k) - 1) with (exp (- v k)) by ring. rewrite ln_exp. ring. }
    rewrite !E. unfold Rdiv. rewrite <- exp_Ropp, <- exp_plus. reflexivity.
Qed.

(** ** Non-vacuity: the correctly rounded functions meet all requirements *)

Example C125_rounded_exp : sane_exp (fun x => rnd (exp x)).
Proof.
  intros x. pose proof (exp_pos x). split; [apply rnd_format|]. split; [rewrite <- rnd_0; apply rnd_le; lra|].
  split; intros Hx; rewrite <- rnd_1; apply rnd_le; rewrite <- exp_0.
  - destruct Hx as [L| <-]; [left; apply exp_increasing; exact L|right; reflexivity].
  - destruct Hx as [L| ->]; [left; apply exp_increasing; exact L|right; reflexivity].
Qed.

Lemma exp_38 : exp (-38) <= / 2 ^ 54.
Proof.
  destruct (exp_nat_bounds 38 54 55) as (L & _); try lia.
  replace (-38) with (- INR 38) by (rewrite INR_IZR_INZ; cbn; lra). rewrite exp_Ropp.
  apply Rinv_le_contravar; [apply pow_lt; lra|]. eapply Rle_trans; [|exact L].
  rewrite pow_IZR, <- (IZR_Zpower radix2 54) by lia. right. reflexivity.
Qed.

Example C126_rounded_exp : flat_exp (fun x => rnd (exp x)).
Proof.
  pose proof inv_2_54 as E54. pose proof (bpow_gt_0 radix2 (-52)) as P52.
  assert (b52 : bpow radix2 (-52) <= / 8) by (replace (/ 8) with (bpow radix2 (-3)) by (cbn; lra); apply bpow_le; lia).
  split; intros x Hx.
  - apply rnd_near_one. split.
    + destruct (Req_dec x 0) as [-> | N]; [rewrite exp_0; lra|pose proof (exp_ineq1 x N); lra].
    + assert (Q : exp (- x) >= 1 - x).
      { destruct (Req_dec x 0) as [-> | N]; [rewrite Ropp_0, exp_0; lra|pose proof (exp_ineq1 (- x) ltac:(lra)); lra]. }
      rewrite exp_Ropp in Q. pose proof (exp_pos x) as Px.
      assert (exp x * (1 - x) <= 1) by (apply (Rmult_ge_compat_l (exp x)) in Q; [|lra]; rewrite Rinv_r in Q; lra).
      rewrite E54 in Hx. set (b := bpow radix2 (-52)) in *.
      apply (Rmult_le_reg_r (1 - x)); [lra|]. nra.
  - split; [rewrite <- rnd_0; apply rnd_le; left; apply exp_pos|].
    rewrite <- (rnd_id (/ 2 ^ 54)).
    + apply rnd_le. eapply Rle_trans; [|apply exp_38]. destruct Hx as [L| ->]; [left; apply exp_increasing; exact L|right; reflexivity].
    + rewrite E54. replace (/ 4 * bpow radix2 (-52)) with (bpow radix2 (-54)); [apply generic_format_bpow; cbn; lia|].
      change (-54)%Z with (-2 + -52)%Z. rewrite bpow_plus. cbn; lra.
Qed.

Example C125_rounded_log : sane_log (fun x => rnd (ln x)).
Proof. apply (accurate_log_sane _ (/ 2 ^ 53)); [apply C124_correctly_rounded_log|]. pose proof uround_pos. fold uround. split; [lra|]. unfold uround. apply Rinv_le_contravar; lra. Qed.

Example C125_exact_log1p : sane_log1p (fun x => ln (1 + x)).
Proof.
  intros x (H0 & H1). split; [rewrite <- ln_1; apply ln_mono; lra|].
  apply Rle_trans with (ln (2 ^ 1025)).
  - apply ln_mono; [lra|]. assert (E : 2 ^ 1025 = 2 * bpow radix2 1024).
    { rewrite <- (IZR_Zpower radix2 1024) by lia. replace (IZR (radix2 ^ 1024)) with (2 ^ 1024) by (rewrite pow_IZR; reflexivity). reflexivity. }
    rewrite E. assert (1 <= bpow radix2 1024) by (apply (bpow_le radix2 0 1024); lia). lra.
  - rewrite ln_pow by lra. replace (INR 1025) with 1025 by (rewrite INR_IZR_INZ; reflexivity).
    assert (ln 2 <= 1) by (rewrite <- (ln_exp 1); apply ln_mono; [lra|]; destruct exp_1_bounds; lra). lra.
Qed.

Example C125_exact_power : sane_power Rpower /\ (forall b, Rpower 1 b = 1).
Proof.
  split.
  - intros a b Ha Hb. unfold Rpower. rewrite <- exp_0 at 1.
    assert (0 <= b * ln a) by (apply Rmult_le_pos; [exact Hb|rewrite <- ln_1; apply ln_mono; lra]).
    destruct H as [L| <-]; [left; apply exp_increasing; exact L|right; reflexivity].
  - intros b. unfold Rpower. rewrite ln_1, Rmult_0_r. apply exp_0.
Qed.

(** Underflow of the exponential at -800. *)
Example C125_rounded_exp_underflows : rnd (exp (-800)) = 0.
Proof.
  apply rnd_tiny; [apply exp_pos|].
  destruct (exp_nat_bounds 800 1150 1160) as (L & _); try lia.
  replace (-800) with (- INR 800) by (rewrite INR_IZR_INZ; cbn; lra). rewrite exp_Ropp.
  apply Rle_lt_trans with (/ bpow radix2 1150); [apply Rinv_le_contravar; [apply bpow_gt_0|exact L]|].
  rewrite <- bpow_opp. apply bpow_lt. lia.
Qed.

(** Utilities -40 and -50 in a clog-log model: computed odds 1, exact odds at least e^9. *)
Example C126_two_rows : forall t,
  let ex := fun x => rnd (exp x) in let lg := fun x => rnd (ln x) in
  let v := fun k : nat => match k with 0%nat => -40 | _ => -50 end in
  let u k := fcloglog ex lg (FNum (v k)) None in
  float_prob ex u t 0 = float_prob ex u t 1 /\
  exp 9 <= exp (ln (exp (exp (-40)) - 1)) / exp (ln (exp (exp (-50)) - 1)).
Proof.
  intros t ex lg v u.
  destruct (C126_refuted_clog_log_probabilities ex lg v [0; 1]%nat t 0%nat 1%nat C126_rounded_exp) as (E & L); [| | |split; [exact E|]].
  - intros k _. destruct k; cbn; lra.
  - cbn; auto.
  - cbn; auto.
  - replace 9 with (-40 - -50 - 1) by lra. exact L.
Qed.

(** Four rows of an asymmetric logit with two alternatives, utilities 1000 and -1000: the
    computed log-likelihood is finite. *)
Example C125_four_rows :
  let ex := fun x => rnd (exp x) in let lg := fun x => rnd (ln x) in
  let V := fun i : nat => FNum (if Nat.even i then 1000 else -1000) in
  let shape := fun i : nat => fasym_shape ex (fun _ => FNum 900) (STerm 0) (if Nat.even i then Some 0%nat else None) in
  let u := fun i => ftransform KAsym ex lg (fun x => ln (1 + x)) Rpower 2 (V i) (shape i) None in
  let order := fun o : nat => match o with 0%nat => SPlus (STerm 0) (STerm 1) | _ => SPlus (STerm 3) (STerm 2) end in
  exists L, float_log_likelihood lg (fun i => Nat.even i) (fun i => float_prob ex u (order (i / 2)%nat) i)
    (SPlus (STerm 0) (SPlus (STerm 1) (SPlus (STerm 2) (STerm 3)))) = FNum L /\ L <= 0.
Proof.
  intros ex lg V shape u order.
  assert (W : forall z, (Z.abs z < 2 ^ 53)%Z -> finite_double (FNum (IZR z))).
  { intros z Hz. exists (IZR z). split; [reflexivity|]. split.
    - change (generic_format radix2 (FLT_exp (-1074) 53) (IZR z)). apply generic_format_FLT. exists (Float radix2 z 0).
      + unfold F2R. cbn. ring.
      + exact Hz.
      + cbn. lia.
    - rewrite <- abs_IZR. apply Rlt_trans with (IZR (2 ^ 53)); [apply IZR_lt; exact Hz|].
      change (IZR (2 ^ 53)) with (bpow radix2 53). apply bpow_lt. lia. }
  assert (P40 : 0 <= / 2 ^ 53 <= / 2 ^ 40).
  { split; [left; apply Rinv_0_lt_compat, pow_lt; lra|]. apply Rinv_le_contravar; [apply pow_lt; lra|]. apply Rle_pow; [lra|lia]. }
  assert (P2 : / 2 ^ 40 <= / 2) by (apply Rinv_le_contravar; [lra|]; rewrite <- (pow_1 2) at 1; apply Rle_pow; [lra|lia]).
  apply (C125_log_likelihood_is_finite KAsym ex (/ 2 ^ 53) lg (/ 2 ^ 53) (fun x => ln (1 + x)) Rpower 2 V shape (fun _ => None) 4 (fun i => (i / 2)%nat)).
  - apply C122_correctly_rounded_exp.
  - exact P40.
  - apply C124_correctly_rounded_log.
  - lra.
  - apply C125_rounded_exp.
  - apply C125_exact_log1p.
  - apply C125_exact_power.
  - lia.
  - reflexivity.
  - intros i _. split; [unfold V; destruct (Nat.even i); apply W; reflexivity|]. split; [discriminate|].
    exists (fun _ => FNum 900), (STerm 0), (if Nat.even i then Some 0%nat else None). split; [reflexivity|].
    split; [intros; apply W; reflexivity|]. intros j Hj. cbn. destruct (Nat.even i); [injection Hj as <-; auto|discriminate].
  - intros i Hi. assert (E : (i = 0 \/ i = 1 \/ i = 2 \/ i = 3)%nat) by lia. split.
    + destruct E as [-> |[-> |[-> | ->]]]; cbn; try apply Permutation_refl; apply perm_swap.
    + destruct E as [-> |[-> |[-> | ->]]]; cbn; lia.
  - apply Permutation_refl.
Qed.

Print Assumptions C125_transformed_utilities_are_defined.
Print Assumptions C125_transformed_utilities_are_numbers.
Print Assumptions C125_infinite_utilities_with_a_case.
Print Assumptions C125_log_likelihood_is_finite.
Print Assumptions C125_refuted_infinite_utilities.
Print Assumptions C126_refuted_clog_log_probabilities.
Print Assumptions C126_refuted_scobit_probabilities.
