(** C129, continued: the nested logit in double precision from the data, the coefficients and
    the nest parameters to the probabilities. *)
From Coq Require Import ZArith Reals Lra Lia List Permutation Bool Arith.
From Flocq Require Import Core.
From Verif Require Import Res Vec Arr ChoiceCalcs NestedCalcs SpecLogit ChoiceFacts NestedFacts Floats FloatFacts FloatTransforms FloatUtilities FloatNested FloatNear PropFloats PropFloatUtilities PropFloatAccuracy PropFloatLogit PropFloatNested.
Import ListNotations.
Open Scope R_scope.

#[local] Instance prec_53d : Prec_gt_0 53 := FloatFacts.prec_53.

(** ** Specification *)

(** The computed nest coefficients (nested_choice_calcs.py:466-496). *)
Definition computed_nest (ex : R -> R) (orig : vec) (q : nat) : R := fval (fnatural_nest ex (FNum (orig q))).
(** The computed utilities (nested_choice_calcs.py:120). *)
Definition computed_utilities (D : Data) (beta : arr) (order : nat -> dot_order) : nat -> fl :=
  float_utility (fun i j => FNum (d_X D i j)) (fun j => FNum (aget beta j)) order.

(** The rows of the observation of row [i]. *)
Definition rows_of (N : nat) (own : nat -> nat) (i : nat) : list nat := filter (fun k => (own k =? own i)%nat) (seq 0 N).

(** What errors in utilities and nest coefficients contribute. *)
Definition input_error (eps : R) (K : nat) (B l0 : R) : R :=
  8 * utility_error K B / l0 + 6800 * (2 * eps + 4 * / 2 ^ 53).

(** ** Facts *)

(** computed nest coefficients *)
Lemma natural_nest ex eps theta : accurate_exp ex eps -> 0 <= eps <= / 2 ^ 40 -> Rabs theta <= 700 ->
  exists l, fnatural_nest ex (FNum theta) = FNum l /\ double_format l /\ 0 < l <= 1 /\
    near (2 * eps + 4 * uround) l (1 / (1 + exp (-1 * theta))).
Proof.
  intros Hex Heps Ht. apply Rabs_le_inv in Ht. pose proof uround_pos as U0. pose proof FloatNear.uround_small as U1.
  assert (S40 : / 2 ^ 40 <= / 2 ^ 20) by (apply Rinv_le_contravar; [apply pow_lt; lra|apply Rle_pow; [lra|lia]]).
  destruct (Hex (- theta) ltac:(lra)) as (Fa & Ea). set (a := ex (- theta)) in *.
  pose proof (exp_range (- theta) ltac:(lra)) as ER. pose proof (bpow_gt_0 radix2 (-1011)) as P11.
  pose proof (exp_pos (- theta)) as EP.
  assert (NA : near (2 * eps) a (exp (- theta))) by (apply near_relative; [lra|lra|exact Ea]).
  pose proof (near_half _ _ _ NA ltac:(lra) ltac:(lra)) as AH.
  set (w := 1 + a).
  assert (NW : near (2 * eps) w (1 + exp (- theta))).
  { unfold w. destruct NA as (L & U). unfold near.
    assert (exp (- (2 * eps)) <= 1) by (apply Rle_trans with (exp 0); [apply exp_le_mono; lra|rewrite exp_0; lra]).
    assert (1 <= exp (2 * eps)) by (apply Rle_trans with (exp 0); [rewrite exp_0; lra|apply exp_le_mono; lra]). split; lra. }
  assert (W1 : 1 <= w) by (unfold w; lra).
  assert (one : bpow radix2 (-1022) <= 1) by (apply (bpow_le radix2 (-1022) 0); lia).
  pose proof (near_rnd w ltac:(lra)) as NR.
  assert (F1 : double_format 1) by apply double_1.
  assert (R1 : 1 <= rnd w) by (rewrite <- (rnd_id 1 F1) at 1; apply rnd_le; exact W1).
  assert (WU : w <= 2 * bpow radix2 1011).
  { unfold w. assert (1 <= / 4 * bpow radix2 1011) by (apply Rle_trans with (/ 4 * bpow radix2 3); [cbn; lra|apply Rmult_le_compat_l; [lra|apply bpow_le; lia]]). lra. }
  pose proof (near_half _ _ _ NR ltac:(lra) ltac:(lra)) as RH.
  assert (B1 : 4 * bpow radix2 1011 = bpow radix2 1013) by (change 1013%Z with (2 + 1011)%Z; rewrite bpow_plus; reflexivity).
  assert (RU : rnd w <= bpow radix2 1013) by (pose proof (bpow_gt_0 radix2 1011); lra).
  set (r := rnd w) in *. set (z := 1 / r).
  assert (R0 : 0 < / r) by (apply Rinv_0_lt_compat; lra).
  assert (Z1 : z <= 1).
  { unfold z, Rdiv. rewrite Rmult_1_l. rewrite <- Rinv_1. apply Rinv_le_contravar; lra. }
  assert (Z2 : bpow radix2 (-1013) <= z).
  { unfold z, Rdiv. rewrite Rmult_1_l. change (-1013)%Z with (Z.opp 1013). rewrite bpow_opp. apply Rinv_le_contravar; lra. }
  assert (Z3 : bpow radix2 (-1022) <= z) by (eapply Rle_trans; [|exact Z2]; apply bpow_le; lia).
  pose proof (near_rnd z Z3) as NZ. pose proof (bpow_gt_0 radix2 (-1013)) as P13.
  assert (RZ0 : 0 < rnd z) by (apply (near_pos _ _ _ NZ); lra).
  assert (RZ1 : rnd z <= 1) by (rewrite <- (rnd_id 1 F1); apply rnd_le; exact Z1).
  exists (rnd z). split; [|split; [apply rnd_format|split; [lra|]]].
  - unfold fnatural_nest. cbn [fneg fexp]. fold a.
    rewrite (overflow_num a).
    2: { rewrite Rabs_right by lra. apply Rle_lt_trans with (2 * bpow radix2 1011); [lra|].
         replace (2 * bpow radix2 1011) with (bpow radix2 1012) by (change 1012%Z with (1 + 1011)%Z; rewrite bpow_plus; reflexivity). apply bpow_lt. lia. }
    cbn [on_posinf fadd]. fold w r.
    rewrite (overflow_num r) by (rewrite Rabs_right by lra; eapply Rle_lt_trans; [exact RU|apply bpow_lt; lia]).
    cbn [fdiv]. destruct (Req_EM_T r 0); [lra|]. fold z.
    rewrite overflow_num by (rewrite Rabs_right by lra; apply Rle_lt_trans with 1; [exact RZ1|apply (bpow_lt radix2 0); lia]).
    apply fguard_zero_pos. exact RZ0.
  - replace (-1 * theta) with (- theta) by ring.
    replace (2 * eps + 4 * uround) with (2 * uround + (0 + (2 * uround + 2 * eps))) by ring.
    apply (near_trans _ _ _ z); [exact NZ|]. unfold z. apply near_div; [lra|lra|apply near_refl|].
    exact (near_trans _ _ _ _ _ NR NW).
Qed.

(** The textbook probabilities as functions of utilities and nest coefficients *)
Lemma exact_lipschitz v v' lam lam' nst rows qs h g L i :
  In i rows -> (forall k, In k rows -> In (nst k) qs) ->
  (forall k, In k rows -> Rabs (v k / lam (nst k) - v' k / lam' (nst k)) <= h) ->
  (forall q, In q qs -> Rabs (lam q - lam' q) <= g /\ 0 <= lam' q <= 1 /\ (rows_in_nest nst rows q <> [] -> Rabs (ln (nest_total v lam nst rows q)) <= L)) ->
  0 <= h -> 0 <= g -> 0 <= L ->
  near (4 * h + 2 * (g * L)) (exact_nested_prob v lam nst rows qs i) (exact_nested_prob v' lam' nst rows qs i).
Proof.
  intros Hi HQ HV HL h0 g0 L0.
  assert (Hin : In i (rows_in_nest nst rows (nst i))) by (apply filter_In; split; [exact Hi|apply Nat.eqb_refl]).
  assert (NE : near h (exp (v i / lam (nst i))) (exp (v' i / lam' (nst i)))) by (apply near_exp; apply HV; exact Hi).
  assert (NS : forall q, near h (nest_total v lam nst rows q) (nest_total v' lam' nst rows q)).
  { intros q. unfold nest_total. rewrite !total_lsum. apply near_sum. intros k Hk. apply filter_In in Hk. destruct Hk as (Hk & Ek).
    apply Nat.eqb_eq in Ek. split; [left; apply exp_pos|]. apply near_exp. rewrite <- Ek. apply HV. exact Hk. }
  assert (SP : forall w l q, rows_in_nest nst rows q <> [] -> 0 < nest_total w l nst rows q).
  { intros w l q Hn. unfold nest_total. destruct (rows_in_nest nst rows q) as [|k r]; [contradiction|]. rewrite total_lsum. cbn [lsum].
    apply Rplus_lt_le_0_compat; [apply exp_pos|]. apply lsum_ge0. intros. left. apply exp_pos. }
  assert (AN : forall w l q, 0 <= attraction w l nst rows q).
  { intros w l q. unfold attraction. destruct (rows_in_nest nst rows q); [lra|left; apply exp_pos]. }
  assert (NA : forall q, In q qs -> near (g * L + h) (attraction v lam nst rows q) (attraction v' lam' nst rows q)).
  { intros q Hq. destruct (HL q Hq) as (HG & HL' & HS). pose proof (NS q) as NSq. specialize (SP v' lam' q). unfold attraction.
    destruct (rows_in_nest nst rows q) as [|k r] eqn:Er; [unfold near; lra|].
    apply (near_trans _ _ _ (Rpower (nest_total v lam nst rows q) (lam' q))).
    - apply near_exponent; [exact HG|apply HS; discriminate].
    - apply (near_weaken (Rabs (lam' q) * h)); [left; apply exp_pos| |].
      + rewrite Rabs_right by lra. nra.
      + apply near_Rpower; [apply SP; discriminate|exact h0|exact NSq]. }
  assert (NT : near (g * L + h) (total (attraction v lam nst rows) qs) (total (attraction v' lam' nst rows) qs)).
  { rewrite !total_lsum. apply near_sum. intros q Hq. split; [apply AN|apply NA; exact Hq]. }
  assert (HN : rows_in_nest nst rows (nst i) <> []) by (intros E; rewrite E in Hin; exact Hin).
  assert (T0 : 0 < total (attraction v' lam' nst rows) qs).
  { rewrite total_lsum. apply Rlt_le_trans with (attraction v' lam' nst rows (nst i)).
    - unfold attraction. destruct (rows_in_nest nst rows (nst i)); [contradiction|apply exp_pos].
    - apply lsum_term; [intros; apply AN|apply HQ; exact Hi]. }
  unfold exact_nested_prob.
  replace (4 * h + 2 * (g * L)) with ((g * L + h + (g * L + h)) + (h + h)) by ring.
  apply near_mult.
  - apply Rmult_le_pos; [apply AN|left; apply Rinv_0_lt_compat; exact T0].
  - apply Rmult_le_pos; [left; apply exp_pos|left; apply Rinv_0_lt_compat; apply SP; exact HN].
  - apply near_div; [apply AN|exact T0|apply NA; apply HQ; exact Hi|exact NT].
  - apply near_div; [left; apply exp_pos|apply SP; exact HN|exact NE|apply NS].
Qed.

(** the model's probabilities are the textbook ones *)
Lemma nsum_total N own nst o q f :
  nsum N own nst o q f = total f (rows_in_nest nst (filter (fun k => (own k =? o)%nat) (seq 0 N)) q).
Proof.
  unfold nsum, rows_in_nest. induction N as [|N IH]; [reflexivity|].
  rewrite seq_S, !filter_app. cbn [Nat.add filter sumn]. rewrite IH, !total_lsum, lsum_app.
  destruct (own N =? o)%nat; cbn [filter andb lsum]; [destruct (nst N =? q)%nat; cbn; ring|cbn; ring].
Qed.

Lemma model_is_textbook E own nst nests beta i :
  indicator_of (d_N (n_D E)) (d_obs (n_D E)) (d_M (n_D E)) own -> indicator_of (d_N (n_D E)) (n_Q E) (n_R E) nst ->
  (forall q, (q < n_Q E)%nat -> 0 < nests q) -> (i < d_N (n_D E))%nat ->
  nested_long_probs E nests beta i =
  exact_nested_prob (sys_utilities (n_D E) beta) nests nst (rows_of (d_N (n_D E)) own i) (seq 0 (n_Q E)) i.
Proof.
  intros Ho Hn Hp Hi. rewrite (nlp_eq E own nst Ho Hn nests beta Hp i Hi). set (N := d_N (n_D E)) in *. set (V := sys_utilities (n_D E) beta).
  assert (ES : forall q, SS N own nst V nests (own i) q = nest_total V nests nst (rows_of N own i) q).
  { intros q. unfold SS, nest_total, rows_of. rewrite <- nsum_total. apply nsum_ext. intros k _ _ Ek. unfold es. rewrite Ek. reflexivity. }
  assert (EA : forall q, (q < n_Q E)%nat -> np_power (SS N own nst V nests (own i) q) (nests q) = attraction V nests nst (rows_of N own i) q).
  { intros q Hq. rewrite ES. unfold attraction. destruct (rows_in_nest nst (rows_of N own i) q) as [|k r] eqn:Er.
    - unfold nest_total. rewrite Er. cbn [total]. unfold np_power. destruct (Req_EM_T 0 0); [|lra]. destruct (Rlt_dec 0 (nests q)); [reflexivity|]. specialize (Hp q Hq). lra.
    - unfold np_power. destruct (Req_EM_T _ 0) as [Z|]; [|reflexivity]. exfalso. unfold nest_total in Z. rewrite Er in Z. rewrite total_lsum in Z. cbn [lsum] in Z.
      pose proof (exp_pos (V k / nests q)). assert (0 <= lsum (fun k => exp (V k / nests q)) r) by (apply lsum_ge0; intros; left; apply exp_pos). lra. }
  unfold pp, PQ, gg, DD, exact_nested_prob. rewrite (EA (nst i)) by (apply (nst_lt E nst Hn); exact Hi). rewrite ES.
  rewrite (sumn_ext _ _ (attraction V nests nst (rows_of N own i))) by (intros q Hq; apply EA; exact Hq).
  rewrite sumn_total. unfold es. reflexivity.
Qed.

Lemma log_of_nest_total v lam nst rows q : (Z.of_nat (length rows) <= 1000000)%Z ->
  (forall k, In k rows -> nst k = q -> Rabs (v k / lam q) <= 600) -> rows_in_nest nst rows q <> [] ->
  Rabs (ln (nest_total v lam nst rows q)) <= 700.
Proof.
  intros Hn Hv He. unfold nest_total. rewrite total_lsum. set (l := rows_in_nest nst rows q) in *.
  assert (T : forall k, In k l -> exp (- (600)) <= exp (v k / lam q) <= exp 600).
  { intros k Hk. apply filter_In in Hk. destruct Hk as (Hk & Ek). apply Nat.eqb_eq in Ek. specialize (Hv k Hk Ek). apply Rabs_le_inv in Hv. split; apply exp_le_mono; lra. }
  assert (LB : exp (- (600)) <= lsum (fun k => exp (v k / lam q)) l).
  { destruct l as [|k r] eqn:El; [contradiction|]. eapply Rle_trans; [apply (T k); left; reflexivity|].
    apply (lsum_term (fun k => exp (v k / lam q))); [intros; left; apply exp_pos|left; reflexivity]. }
  assert (UB : forall r, incl r l -> lsum (fun k => exp (v k / lam q)) r <= INR (length r) * exp 600).
  { induction r as [|k r IH]; intros I; [cbn; lra|]. cbn [lsum length]. rewrite S_INR. specialize (IH (fun x Hx => I x (or_intror Hx))).
    pose proof (T k (I k (or_introl eq_refl))). lra. }
  specialize (UB l (incl_refl _)). pose proof (exp_pos 600) as P6. pose proof (exp_pos (- (600))) as P6'.
  assert (NL : INR (length l) <= 1000000).
  { rewrite INR_IZR_INZ. apply IZR_le. pose proof (rows_in_nest_length nst rows q). fold l in H. lia. }
  assert (UB2 : lsum (fun k => exp (v k / lam q)) l <= exp 700).
  { replace 700 with (100 + 600) by ring. rewrite exp_plus. eapply Rle_trans; [exact UB|]. apply Rmult_le_compat_r; [lra|].
    eapply Rle_trans; [exact NL|]. destruct exp_20 as (E20 & _). apply Rle_trans with (exp 20); [|apply exp_le_mono; lra].
    eapply Rle_trans; [|exact E20]. cbn. lra. }
  apply Rabs_le. split.
  - apply Rle_trans with (ln (exp (- (600)))); [rewrite ln_exp; lra|]. apply ln_mono; assumption.
  - rewrite <- (ln_exp 700). apply ln_mono; lra.
Qed.

(** ** From the data to the probabilities *)
Theorem C129_nested_probabilities_follow_the_model :
  forall ex eps pw ep E own nst orig beta B l0 order t tq i,
  accurate_exp ex eps -> 0 <= eps <= / 2 ^ 40 -> accurate_pow pw ep -> 0 <= ep <= / 2 ^ 40 ->
  let D := n_D E in
  indicator_of (d_N D) (d_obs D) (d_M D) own -> indicator_of (d_N D) (n_Q E) (n_R E) nst -> (i < d_N D)%nat ->
  (* the data are doubles, no utility is larger than 500 of the smallest nest coefficients *)
  rows_in_range D beta order B -> 0 < l0 -> B <= 500 * l0 -> 2 * utility_error (d_K D) B <= l0 ->
  (forall q, (q < n_Q E)%nat -> Rabs (orig q) <= 700 /\ l0 <= naturalize_nest_coefs orig q) ->
  let rows := rows_of (d_N D) own i in
  (Z.of_nat (length rows) <= 1000000)%Z -> (Z.of_nat (n_Q E) <= 1000000)%Z ->
  (forall q, (q < n_Q E)%nat -> Permutation (terms_of (t q)) (rows_in_nest nst rows q)) -> Permutation (terms_of tq) (seq 0 (n_Q E)) ->
  let p := nested_long_probs E (naturalize_nest_coefs orig) beta i in
  exists x, float_nested_prob ex pw (computed_utilities D beta order) nst (computed_nest ex orig) t tq i = FNum x /\ double_format x /\ 0 < x /\
    Rabs (x - p) <= (exp (input_error eps (d_K D) B l0) * (1 + 2 * nested_error eps ep (length rows) (n_Q E)) - 1) * p + 3 * / 10 ^ 300.
Proof.
  intros ex eps pw ep E own nst orig beta B l0 order t tq i Hex Heps Hpw Hep D Ho Hn Hi HR Hl0 HB HU HN rows Hr Hq HP HPq p.
  pose proof uround_pos as U0. pose proof FloatNear.uround_small as U1.
  assert (S40 : / 2 ^ 40 <= / 2 ^ 20) by (apply Rinv_le_contravar; [apply pow_lt; lra|apply Rle_pow; [lra|lia]]).
  set (nests := naturalize_nest_coefs orig) in *. set (lam := computed_nest ex orig).
  set (delta := 2 * eps + 4 * uround). assert (D0 : 0 <= delta <= / 2 ^ 15) by (unfold delta; lra).
  assert (EN : forall q, nests q = 1 / (1 + exp (-1 * orig q))).
  { intros q. unfold nests, naturalize_nest_coefs. apply nonzero_id. pose proof (exp_pos (-1 * orig q)). apply Rgt_not_eq. apply Rdiv_lt_0_compat; lra. }
  assert (N1 : forall q, 0 < nests q < 1).
  { intros q. rewrite EN. pose proof (exp_pos (-1 * orig q)). split; [apply Rdiv_lt_0_compat; lra|].
    apply (Rmult_lt_reg_r (1 + exp (-1 * orig q))); [lra|]. unfold Rdiv. rewrite Rmult_assoc, Rinv_l by lra. lra. }
  assert (HLam : forall q, (q < n_Q E)%nat -> fnatural_nest ex (FNum (orig q)) = FNum (lam q) /\ double_format (lam q) /\ 0 < lam q <= 1 /\ near delta (lam q) (nests q)).
  { intros q Hqq. destruct (HN q Hqq) as (HO & _). destruct (natural_nest ex eps (orig q) Hex Heps HO) as (l & El & Fl & Bl & Nl).
    unfold lam, computed_nest. rewrite El. cbn [fval]. rewrite EN. split; [reflexivity|]. split; [exact Fl|]. split; [exact Bl|exact Nl]. }
  assert (L01 : l0 <= 1) by (destruct (HN (nst i) (nst_lt E nst Hn i Hi)) as (_ & Q); specialize (N1 (nst i)); lra).
  set (V := sys_utilities D beta). set (ue := utility_error (d_K D) B) in *.
  set (v := fun k => fval (computed_utilities D beta order k)).
  assert (Hv : forall k, (k < d_N D)%nat -> computed_utilities D beta order k = FNum (v k) /\ Rabs (v k - V k) <= ue /\ Rabs (V k) <= B).
  { intros k Hk. destruct (computed_utility D beta order B k HR Hk ltac:(lra)) as (z & Ez & _ & Az & Bz & _).
    unfold v, computed_utilities. rewrite Ez. cbn [fval]. split; [reflexivity|]. split; [exact Az|exact Bz]. }
  assert (INR_rows : forall k, In k rows -> (k < d_N D)%nat) by (intros k Hk; apply filter_In in Hk; destruct Hk as (Hk & _); apply in_seq in Hk; lia).
  assert (Ii : In i rows) by (apply filter_In; split; [apply in_seq; lia|apply Nat.eqb_refl]).
  assert (B0 : 0 <= B) by (destruct (Hv i Hi) as (_ & _ & Q); pose proof (Rabs_pos (V i)); lra).
  assert (UE0 : 0 <= ue) by (destruct (Hv i Hi) as (_ & Q & _); pose proof (Rabs_pos (v i - V i)); lra).
  set (h := 2 * ue / l0 + 1000 * delta).
  assert (IL : 0 < / l0) by (apply Rinv_0_lt_compat; exact Hl0).
  assert (UL : 0 <= 2 * ue / l0 <= 1).
  { split; [apply Rmult_le_pos; lra|]. apply (Rmult_le_reg_r l0); [exact Hl0|]. unfold Rdiv. rewrite Rmult_assoc, Rinv_l by lra. lra. }
  assert (h0 : 0 <= h <= 2) by (unfold h; lra).
  assert (HH : forall k, In k rows -> Rabs (v k / lam (nst k) - V k / nests (nst k)) <= h /\ Rabs (V k / nests (nst k)) <= 500).
  { intros k Hk. pose proof (INR_rows k Hk) as HkN. destruct (Hv k HkN) as (_ & Av & Bv). pose proof (nst_lt E nst Hn k HkN) as Hqk.
    destruct (HLam _ Hqk) as (_ & _ & Bl & Nl). destruct (HN _ Hqk) as (_ & Ll). fold nests in Ll.
    set (l := lam (nst k)) in *. set (m := nests (nst k)) in *. assert (m0 : 0 < m) by lra.
    pose proof (near_half _ _ _ Nl ltac:(lra) ltac:(lra)) as LH.
    pose proof (near_inv _ _ _ m0 Nl) as NI. assert (MI : 0 < / m) by (apply Rinv_0_lt_compat; exact m0).
    pose proof (near_absolute delta (/ l) (/ m) ltac:(lra) ltac:(lra) NI) as AI.
    assert (LI : / l <= 2 / l0).
    { replace (2 / l0) with (/ (/ 2 * l0)) by (field; lra). apply Rinv_le_contravar; lra. }
    assert (MI0 : / m <= / l0) by (apply Rinv_le_contravar; lra).
    assert (LI0 : 0 < / l) by (apply Rinv_0_lt_compat; lra).
    assert (BM : B * / m <= 500).
    { apply Rle_trans with (B * / l0); [apply Rmult_le_compat_l; lra|]. apply (Rmult_le_reg_r l0); [exact Hl0|]. rewrite Rmult_assoc, Rinv_l by lra. lra. }
    split.
    - replace (v k / l - V k / m) with ((v k - V k) * / l + V k * (/ l - / m)) by (unfold Rdiv; ring).
      eapply Rle_trans; [apply Rabs_triang|]. rewrite !Rabs_mult, (Rabs_right (/ l)) by lra.
      assert (T1 : Rabs (v k - V k) * / l <= ue * (2 / l0)) by (apply Rmult_le_compat; try apply Rabs_pos; lra).
      assert (T2 : Rabs (V k) * Rabs (/ l - / m) <= B * (2 * delta * / m)) by (apply Rmult_le_compat; try apply Rabs_pos; lra).
      replace (B * (2 * delta * / m)) with (2 * delta * (B * / m)) in T2 by ring.
      assert (2 * delta * (B * / m) <= 2 * delta * 500) by (apply Rmult_le_compat_l; lra).
      unfold h. replace (2 * ue / l0) with (ue * (2 / l0)) by (unfold Rdiv; ring). lra.
    - unfold Rdiv. rewrite Rabs_mult, (Rabs_right (/ m)) by lra. eapply Rle_trans; [|exact BM]. apply Rmult_le_compat_r; lra. }
  assert (OB : nested_observation (computed_utilities D beta order) v nst lam rows (seq 0 (n_Q E)) t tq).
  { split; [|split; [|split; [exact HPq|split; [apply seq_NoDup|split; [exact Hr|rewrite seq_length; exact Hq]]]]].
    - intros k Hk. pose proof (INR_rows k Hk) as HkN. destruct (Hv k HkN) as (Ev & _). split; [exact Ev|]. split.
      + destruct (HH k Hk) as (H1 & H2). replace (v k / lam (nst k)) with ((v k / lam (nst k) - V k / nests (nst k)) + V k / nests (nst k)) by ring.
        eapply Rle_trans; [apply Rabs_triang|]. lra.
      + apply in_seq. pose proof (nst_lt E nst Hn k HkN). lia.
    - intros q Hqq. apply in_seq in Hqq. destruct (HLam q ltac:(lia)) as (_ & Fl & Bl & _). split; [exact Fl|]. split; [exact Bl|apply HP; lia]. }
  destruct (C129_nested_probabilities_are_accurate ex eps pw ep _ v nst lam rows (seq 0 (n_Q E)) t tq i Hex Heps Hpw Hep OB Ii) as (x & Ex & Fx & x0 & Ax).
  exists x. split; [exact Ex|]. split; [exact Fx|]. split; [exact x0|].
  rewrite seq_length in Ax. set (e := nested_error eps ep (length rows) (n_Q E)) in *.
  assert (e0 : 0 <= e <= / 4) by (apply nested_error_bounds; assumption).
  assert (NP : near (input_error eps (d_K D) B l0) (exact_nested_prob v lam nst rows (seq 0 (n_Q E)) i) p).
  { unfold p. rewrite (model_is_textbook E own nst nests beta i Ho Hn) by (try exact Hi; intros q _; apply N1).
    fold D V rows. apply (near_weaken (4 * h + 2 * (2 * delta * 700))).
    - apply exact_nested_nonneg; [exact Ii|]. apply in_seq. pose proof (nst_lt E nst Hn i Hi). lia.
    - unfold input_error, h. fold uround. fold delta ue. unfold Rdiv. right. ring.
    - apply exact_lipschitz; try lra; try exact Ii.
      + intros k Hk. apply in_seq. pose proof (nst_lt E nst Hn k (INR_rows k Hk)). lia.
      + intros k Hk. apply (HH k Hk).
      + intros q Hqq. apply in_seq in Hqq. destruct (HLam q ltac:(lia)) as (_ & _ & _ & Nl). pose proof (N1 q) as Nq.
        split; [|split; [lra|]].
        * eapply Rle_trans; [apply (near_absolute delta (lam q) (nests q) ltac:(lra) ltac:(lra) Nl)|]. nra.
        * intros He. apply log_of_nest_total; [exact Hr| |exact He]. intros k Hk <-. destruct OB as (Q & _). apply (Q k Hk). }
  set (pr := exact_nested_prob v lam nst rows (seq 0 (n_Q E)) i) in *. destruct NP as (NL & NU). set (G := exp (input_error eps (d_K D) B l0)) in *.
  assert (p0 : 0 <= p).
  { unfold p. rewrite (model_is_textbook E own nst nests beta i Ho Hn) by (try exact Hi; intros q _; apply N1).
    apply exact_nested_nonneg; [exact Ii|]. apply in_seq. pose proof (nst_lt E nst Hn i Hi). lia. }
  assert (G1 : 1 <= G).
  { unfold G. apply Rle_trans with (exp 0); [rewrite exp_0; lra|]. apply exp_le_mono. unfold input_error. fold uround ue. fold delta.
    replace (8 * ue / l0) with (4 * (2 * ue / l0)) by (unfold Rdiv; ring). lra. }
  rewrite exp_Ropp in NL. fold G in NL. assert (GI : 0 < / G <= 1) by (split; [apply Rinv_0_lt_compat; lra|rewrite <- Rinv_1; apply Rinv_le_contravar; lra]).
  assert (GG : G * / G = 1) by (apply Rinv_r; lra).
  set (tt := 3 * / 10 ^ 300) in *. apply Rabs_le_inv in Ax. apply Rabs_le.
  assert (GP : 2 * p <= G * p + / G * p) by (rewrite <- Rmult_plus_distr_r; apply Rmult_le_compat_r; [exact p0|nra]).
  assert (M1 : e * pr <= e * (G * p)) by (apply Rmult_le_compat_l; lra).
  assert (M2 : (1 - 2 * e) * (/ G * p) <= (1 - 2 * e) * pr) by (apply Rmult_le_compat_l; lra).
  assert (M3 : e * (/ G * p) <= e * (G * p)) by (apply Rmult_le_compat_l; [lra|]; apply Rmult_le_compat_r; lra).
  split; lra.
Qed.

(** ** In figures: at most 100 columns, 1000 rows, 100 nests; nest coefficients of at least 1/50 *)
Theorem C129_nested_probabilities_in_figures :
  forall ex eps pw ep E own nst orig beta order t tq i,
  accurate_exp ex eps -> 0 <= eps <= / 2 ^ 51 -> accurate_pow pw ep -> 0 <= ep <= / 2 ^ 51 ->
  let D := n_D E in
  indicator_of (d_N D) (d_obs D) (d_M D) own -> indicator_of (d_N D) (n_Q E) (n_R E) nst -> (i < d_N D)%nat ->
  rows_in_range D beta order 10 -> (d_K D <= 100)%nat ->
  (forall q, (q < n_Q E)%nat -> Rabs (orig q) <= 700 /\ / 50 <= naturalize_nest_coefs orig q) ->
  let rows := rows_of (d_N D) own i in
  (length rows <= 1000)%nat -> (n_Q E <= 100)%nat ->
  (forall q, (q < n_Q E)%nat -> Permutation (terms_of (t q)) (rows_in_nest nst rows q)) -> Permutation (terms_of tq) (seq 0 (n_Q E)) ->
  let p := nested_long_probs E (naturalize_nest_coefs orig) beta i in
  exists x, float_nested_prob ex pw (computed_utilities D beta order) nst (computed_nest ex orig) t tq i = FNum x /\ double_format x /\ 0 < x /\
    Rabs (x - p) <= / 10 ^ 9 * p + 3 * / 10 ^ 300.
Proof.
  intros ex eps pw ep E own nst orig beta order t tq i Hex Heps Hpw Hep D Ho Hn Hi HR HK HN rows Hr Hq HP HPq p.
  pose proof uround_pos as U0. pose proof FloatNear.uround_small as U1.
  assert (E51 : / 2 ^ 51 = 4 * uround) by (unfold uround; change (2 ^ 53) with (2 * (2 * 2 ^ 51)); field; apply pow_nonzero; lra).
  assert (E40 : / 2 ^ 51 <= / 2 ^ 40) by (apply Rinv_le_contravar; [apply pow_lt; lra|]; apply Rle_pow; [lra|lia]).
  assert (U16 : uround <= 12 * / 10 ^ 17) by (unfold uround; cbn; lra).
  assert (KR : 0 <= INR (d_K D) <= 100) by (split; [apply pos_INR|replace 100 with (INR 100) by (rewrite INR_IZR_INZ; reflexivity); apply le_INR; exact HK]).
  assert (UE : 0 <= utility_error (d_K D) 10 <= 2200 * uround).
  { unfold utility_error. fold uround. rewrite <- tiny_eq. pose proof tiny_le_u as T. split; [apply Rmult_le_pos; lra|].
    apply Rle_trans with (2 * 100 * (uround * 11)); [apply Rmult_le_compat; lra|lra]. }
  destruct (C129_nested_probabilities_follow_the_model ex eps pw ep E own nst orig beta 10 (/ 50) order t tq i) as (x & Ex & Fx & x0 & Ax);
    try assumption; try lra; try (fold D rows; lia).
  - fold D. assert (2200 * uround <= / 1000) by lra. lra.
  - exists x. split; [exact Ex|]. split; [exact Fx|]. split; [exact x0|]. eapply Rle_trans; [exact Ax|]. apply Rplus_le_compat_r. fold p D rows.
    assert (p0 : 0 <= p).
    { unfold p. assert (N1 : forall q, 0 < naturalize_nest_coefs orig q).
      { intros q. unfold naturalize_nest_coefs. pose proof (exp_pos (-1 * orig q)) as EP. assert (PQ0 : 0 < 1 / (1 + exp (-1 * orig q))) by (apply Rdiv_lt_0_compat; lra).
        rewrite nonzero_id; lra. }
      rewrite (model_is_textbook E own nst _ beta i Ho Hn) by (try exact Hi; intros q _; apply N1).
      apply exact_nested_nonneg; [apply filter_In; split; [apply in_seq; fold D; lia|apply Nat.eqb_refl]|]. apply in_seq. pose proof (nst_lt E nst Hn i Hi). lia. }
    apply Rmult_le_compat_r; [exact p0|].
    set (T := / 10 ^ 10). assert (T9 : / 10 ^ 9 = 10 * T) by (unfold T; cbn; lra). assert (T0 : 0 < T <= / 100) by (unfold T; cbn; lra).
    assert (UT : uround <= 12 * / 10 ^ 7 * T) by (unfold T; eapply Rle_trans; [exact U16|]; cbn; lra).
    assert (IE : 0 <= input_error eps (d_K D) 10 (/ 50) <= 2 * T).
    { unfold input_error. fold uround. unfold Rdiv. rewrite Rinv_inv. split; lra. }
    assert (NR : 0 <= INR (length rows) <= 1000) by (split; [apply pos_INR|replace 1000 with (INR 1000) by (rewrite INR_IZR_INZ; reflexivity); apply le_INR; exact Hr]).
    assert (QR : 0 <= INR (n_Q E) <= 100) by (split; [apply pos_INR|replace 100 with (INR 100) by (rewrite INR_IZR_INZ; reflexivity); apply le_INR; exact Hq]).
    assert (NE : 0 <= nested_error eps ep (length rows) (n_Q E) <= T).
    { unfold nested_error. fold uround. assert (0 <= (2510 + 4 * INR (length rows) + 2 * INR (n_Q E)) * uround <= 6710 * uround) by (split; [apply Rmult_le_pos; lra|apply Rmult_le_compat_r; lra]). lra. }
    assert (EX : exp (input_error eps (d_K D) 10 (/ 50)) <= 1 + 4 * T).
    { apply Rle_trans with (exp (2 * T)); [apply exp_le_mono; lra|].
      pose proof (exp_rel (2 * T) 0 (2 * T) ltac:(rewrite Rminus_0_r, Rabs_right; lra) ltac:(lra)) as Q. rewrite exp_0 in Q. apply Rabs_le_inv in Q. lra. }
    pose proof (exp_pos (input_error eps (d_K D) 10 (/ 50))).
    assert (exp (input_error eps (d_K D) 10 (/ 50)) * (1 + 2 * nested_error eps ep (length rows) (n_Q E)) <= (1 + 4 * T) * (1 + 2 * T)) by (apply Rmult_le_compat; lra).
    assert (T * T <= T * / 100) by (apply Rmult_le_compat_l; lra). lra.
Qed.

(** ** Non-vacuity: two observations of two rows, two nests, the second empty in the first
    observation; utilities 0, -2, -4, -6 and nest coefficients 1/2 and 0.73 *)
Definition four_nested : NData := mkNData four_rows 2 (fun i q => if ((if (i =? 3)%nat then 1 else 0) =? q)%nat then 1 else 0).

Example C129_four_rows :
  let beta := mkArr 2 (fun j => if (j =? 0)%nat then -2 else 0) in
  let orig := fun q : nat => INR q in
  let uorder := fun i : nat => if Nat.even i then DFma (DTerm 0) 1 else DPlus (DTerm 1) (DTerm 0) in
  forall i, (i < 4)%nat ->
  let t := fun q : nat => match (i / 2)%nat, q with 0%nat, 0%nat => SPlus (STerm 0) (STerm 1) | 0%nat, _ => SNothing | _, 0%nat => STerm 2 | _, _ => STerm 3 end in
  let p := nested_long_probs four_nested (naturalize_nest_coefs orig) beta i in
  exists x, float_nested_prob rexp rpow (computed_utilities four_rows beta uorder) (fun i => if (i =? 3)%nat then 1 else 0)%nat (computed_nest rexp orig) t (SPlus (STerm 1) (STerm 0)) i = FNum x /\
    double_format x /\ 0 < x /\ Rabs (x - p) <= / 10 ^ 9 * p + 3 * / 10 ^ 300.
Proof.
  intros beta orig uorder i Hi t p.
  assert (C4 : forall i, (i < 4)%nat -> (i = 0 \/ i = 1 \/ i = 2 \/ i = 3)%nat) by (intros; lia).
  assert (C2 : forall j, (j < 2)%nat -> (j = 0 \/ j = 1)%nat) by (intros; lia).
  assert (U : 0 <= / 2 ^ 53 <= / 2 ^ 51).
  { split; [left; apply Rinv_0_lt_compat, pow_lt; lra|]. apply Rinv_le_contravar; [apply pow_lt; lra|]. apply Rle_pow; [lra|lia]. }
  apply (C129_nested_probabilities_in_figures rexp (/ 2 ^ 53) rpow (/ 2 ^ 53) four_nested (fun i => (i / 2)%nat)); try exact U.
  - apply C122_correctly_rounded_exp.
  - apply C129_rounded_power.
  - intros q Hq. split; [|intros; reflexivity]. cbn in Hq |- *. destruct (C4 q Hq) as [-> |[-> |[-> | ->]]]; cbn; lia.
  - intros q Hq. split; [|intros; reflexivity]. cbn in Hq |- *. destruct (q =? 3)%nat; lia.
  - exact Hi.
  - split; [apply Nat.le_trans with (2 ^ 1)%nat; [cbn; lia|apply Nat.pow_le_mono_r; lia]|]. intros q Hq. cbn in Hq.
    split; [|split].
    + destruct (C4 q Hq) as [-> |[-> |[-> | ->]]]; cbn; try apply Permutation_refl; apply perm_swap.
    + destruct (C4 q Hq) as [-> |[-> |[-> | ->]]]; unfold magnitude; cbn; rewrite !Rabs_mult; unfold Rabs; repeat destruct (Rcase_abs _); lra.
    + intros j Hj. cbn in Hj |- *. split; [rewrite INR_IZR_INZ; apply small_integer; lia|].
      destruct (C2 j Hj) as [-> | ->]; cbn; apply small_integer; reflexivity.
  - cbn. lia.
  - intros q Hq. cbn in Hq. unfold orig. assert (0 <= INR q <= 1) by (destruct (C2 q Hq) as [-> | ->]; cbn; lra).
    split; [rewrite Rabs_right; lra|]. unfold naturalize_nest_coefs.
    assert (E1 : exp (-1 * INR q) <= 1) by (apply Rle_trans with (exp 0); [apply exp_le_mono; lra|rewrite exp_0; lra]). pose proof (exp_pos (-1 * INR q)).
    assert (/ 2 <= 1 / (1 + exp (-1 * INR q))) by (unfold Rdiv; rewrite Rmult_1_l; apply Rinv_le_contravar; lra).
    rewrite nonzero_id; lra.
  - cbn in Hi. destruct (C4 i Hi) as [-> |[-> |[-> | ->]]]; cbn; lia.
  - cbn. lia.
  - intros q Hq. cbn in Hq. cbn in Hi. destruct (C4 i Hi) as [-> |[-> |[-> | ->]]]; destruct (C2 q Hq) as [-> | ->]; cbn; apply Permutation_refl.
  - cbn. apply perm_swap.
Qed.

Print Assumptions C129_nested_probabilities_follow_the_model.
Print Assumptions C129_nested_probabilities_in_figures.
