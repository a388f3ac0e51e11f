(** Property C30: "the gradient handed to the optimizer always matches the
    objective" is false of the code.  Each theorem below exhibits a dataset and a
    parameter vector that the code accepts and at which one of the hypotheses of
    C25-C29 fails, and shows that the conclusion then fails too. *)
From Coq Require Import String ZArith List Reals Lra Lia Arith.
From Coquelicot Require Import Coquelicot.
From Verif Require Import Res Vec Arr SpecLogit ChoiceCalcs ChoiceFacts Transforms Ids Mappings
  MappingFacts LongData LogitFacts RowDeriv ProbFacts PropMappings PropProbs PropGradient.
Import ListNotations.
Open Scope R_scope.

(** ** Tools *)

(** A function that agrees with a differentiable one on one side has, if any, its
    derivative. *)
Lemma derive_right_unique (f g : R -> R) x l a :
  is_derive f x l -> is_derive g x a -> (forall t, x <= t -> f t = g t) -> l = a.
Proof.
  intros Hf Hg E. destruct (Req_dec l a) as [|Hne]; [assumption|exfalso].
  assert (Hd : is_derive (fun t => f t - g t) x (l - a))
    by (apply (is_derive_minus (K := R_AbsRing) (V := R_NormedModule)); assumption).
  apply is_derive_Reals in Hd.
  assert (He : 0 < Rabs (l - a)) by (apply Rabs_pos_lt; lra).
  destruct (Hd _ He) as (dl & Hdl).
  assert (Hh : 0 < pos dl / 2) by (pose proof (cond_pos dl); lra).
  specialize (Hdl (pos dl / 2)). rewrite !E in Hdl by lra.
  assert (Habs : Rabs (pos dl / 2) < dl) by (rewrite Rabs_pos_eq; lra).
  specialize (Hdl ltac:(lra) Habs).
  replace ((g (x + pos dl / 2) - g (x + pos dl / 2) - (g x - g x)) / (pos dl / 2) - (l - a))
    with (- (l - a)) in Hdl by (field; lra).
  rewrite Rabs_Ropp in Hdl. lra.
Qed.

Lemma derive_left_unique (f g : R -> R) x l a :
  is_derive f x l -> is_derive g x a -> (forall t, t <= x -> f t = g t) -> l = a.
Proof.
  intros Hf Hg E. destruct (Req_dec l a) as [|Hne]; [assumption|exfalso].
  assert (Hd : is_derive (fun t => f t - g t) x (l - a))
    by (apply (is_derive_minus (K := R_AbsRing) (V := R_NormedModule)); assumption).
  apply is_derive_Reals in Hd.
  assert (He : 0 < Rabs (l - a)) by (apply Rabs_pos_lt; lra).
  destruct (Hd _ He) as (dl & Hdl).
  assert (Hh : 0 < pos dl / 2) by (pose proof (cond_pos dl); lra).
  specialize (Hdl (- (pos dl / 2))). rewrite !E in Hdl by lra.
  assert (Habs : Rabs (- (pos dl / 2)) < dl) by (rewrite Rabs_Ropp, Rabs_pos_eq; lra).
  specialize (Hdl ltac:(lra) Habs).
  replace ((g (x + - (pos dl / 2)) - g (x + - (pos dl / 2)) - (g x - g x)) / - (pos dl / 2) - (l - a))
    with (- (l - a)) in Hdl by (field; lra).
  rewrite Rabs_Ropp in Hdl. lra.
Qed.

(** Two rows, one observation. *)
Definition two_rows (c : list Z) : long_cols := mkLong [1; 1]%Z [1; 2]%Z (Some c) None.
Definition col (a b : R) : mat := fun i _ => match i with O => a | _ => b end.
Definition par1 (t : R) : arr := mkArr 1 (fun _ => t).

Definition two_map (c : list Z) : mappings :=
  mkMappings (create_sparse_mapping [1; 1]%Z None)
    (create_sparse_mapping [1; 2]%Z (Some [1; 2]%Z))
    (Some (multiply_rows (create_sparse_mapping [1; 1]%Z None) c)) None None.

Lemma two_map_ok c : create_long_form_mappings (two_rows c) None = Ok (two_map c).
Proof. reflexivity. Qed.

Definition two_data (k : list Z) a b w := data_of (two_rows k) (two_map k) 1 (col a b) w None.

Lemma two_exponentials m c a b w sh ic be i :
  long_exponentials m (two_data c a b w) sh ic be i =
  exp (clip_exponent (m_transform m 2 (d_A (two_data c a b w)) (sys_utilities (two_data c a b w) be) sh ic i)).
Proof. reflexivity. Qed.

Lemma two_probs m c a b w sh ic be i :
  (i < 2)%nat ->
  long_probs m (two_data c a b w) sh ic be i =
  long_exponentials m (two_data c a b w) sh ic be i /
  (long_exponentials m (two_data c a b w) sh ic be 0%nat + long_exponentials m (two_data c a b w) sh ic be 1%nat).
Proof.
  intros Hi. unfold two_data. rewrite (probs_closed m (two_rows c) None (two_map c) 1 (col a b) w None (two_map_ok c)) by exact Hi.
  f_equal. unfold id_sum. simpl. destruct i as [|[|]]; try lia; simpl; ring.
Qed.

Lemma two_ll m c0 c1 a b w sh ic be :
  calc_log_likelihood m (two_data [c0; c1] a b w) sh ic be =
  IZR c0 * (eff_weights w 0%nat * ln (long_probs m (two_data [c0; c1] a b w) sh ic be 0%nat)) +
  IZR c1 * (eff_weights w 1%nat * ln (long_probs m (two_data [c0; c1] a b w) sh ic be 1%nat)).
Proof. unfold calc_log_likelihood, vdot. cbn. ring. Qed.

Lemma mnl_two_exp c a b w be i :
  long_exponentials MNL_model (two_data c a b w) None None be i = exp (clip_exponent (col a b i 0%nat * aget be 0%nat)).
Proof.
  rewrite two_exponentials. do 2 f_equal. cbn. unfold mnl_transform, sys_utilities, mvec. cbn. ring.
Qed.

Lemma one_choice_10 : exactly_one_choice (two_rows [1; 0]%Z).
Proof.
  exists [1; 0]%Z. split; [reflexivity|]. split.
  - intros i Hi. cbn in Hi. destruct i as [|[|]]; simpl; auto; lia.
  - intros o Ho. cbn in Ho. assert (o = 1%Z) by lia. subst. exists 0%nat. cbn. repeat split; try lia.
    intros i' Hi' E C. destruct i' as [|[|]]; cbn in *; lia.
Qed.

Lemma clip_700 : clip_exponent 0 = 0.
Proof. apply clip_id. unfold unclipped, min_exponent_val, max_exponent_val. lra. Qed.

Lemma clip_above t : 700 < t -> clip_exponent t = 700.
Proof.
  intros Ht. unfold clip_exponent, min_exponent_val, max_exponent_val.
  destruct (Rlt_dec t (-700)); [lra|]. destruct (Rlt_dec 700 t); lra.
Qed.

(** ** 1. A clipped utility.  Everything else is as in C25. *)
Theorem C30_refuted_clipping :
  exists d mp K X theta,
    create_long_form_mappings d None = Ok mp /\ length (alt_ids d) = length (obs_ids d) /\
    exactly_one_choice d /\
    check_length_of_initial_values KMNL (d_J (data_of d mp K X None None)) K theta = Ok tt /\
    ~ gradient_is_derivative KMNL (data_of d mp K X None None) theta.
Proof.
  exists (two_rows [1; 0]%Z), (two_map [1; 0]%Z), 1%nat, (col 1 0), (par1 701).
  split; [reflexivity|]. split; [reflexivity|]. split; [exact one_choice_10|]. split; [reflexivity|].
  fold (two_data [1; 0]%Z 1 0 None). intros (g & Eg & _ & H). specialize (H 0%nat). cbn [par1 alen aget] in H.
  specialize (H ltac:(lia)).
  set (D := two_data [1; 0]%Z 1 0 None) in *.
  (* the log-likelihood is locally constant *)
  assert (HC : is_derive (fun t => est_log_likelihood KMNL D (aupd (par1 701) 0 t)) 701 0).
  { apply is_derive_ext_loc with (f := fun _ => ln (exp 700 / (exp 700 + 1))).
    - apply filter_imp with (P := fun t => 700 < t); [|exact (open_gt 700 701 ltac:(lra))].
      intros t Ht. unfold est_log_likelihood. cbn [split_param_vec]. unfold D. rewrite two_ll.
      rewrite !two_probs by lia. cbn [model_of]. rewrite !mnl_two_exp. cbn [col aupd par1 aget].
      rewrite upd_same, (Rmult_1_l t), (Rmult_0_l t), clip_700, exp_0, clip_above by exact Ht.
      simpl. ring.
    - apply (is_derive_const (K := R_AbsRing) (V := R_NormedModule)). }
  apply is_derive_unique in HC. apply is_derive_unique in H. rewrite HC in H.
  (* but the gradient is positive *)
  assert (Hg : aget g 0%nat = 1 - long_probs MNL_model D None None (par1 701) 0%nat).
  { inversion Eg; subst g. cbn. unfold vmat, dh_db, mdot, diagm. cbn. ring. }
  unfold D in Hg. rewrite two_probs in Hg by lia. rewrite !mnl_two_exp in Hg.
  cbn [col par1 aget] in Hg. rewrite (Rmult_0_l 701), clip_700, exp_0 in Hg.
  set (e := exp _) in Hg. assert (0 < e) by apply exp_pos.
  assert (0 < 1 - e / (e + 1)); [|lra].
  replace (1 - e / (e + 1)) with (/ (e + 1)) by (field; lra). apply Rinv_0_lt_compat. lra.
Qed.

Lemma locally_unclipped a t0 : -700 < a * t0 < 700 -> locally t0 (fun t => -700 < a * t < 700).
Proof.
  intros H.
  assert (Hc : continuous (fun t => a * t) t0).
  { apply (ex_derive_continuous (K := R_AbsRing) (V := R_NormedModule)). exists a.
    auto_derive; [exact I|ring]. }
  apply (Hc (fun z => -700 < z < 700)). apply (filter_and (F := locally (a * t0))).
  - exact (open_gt (-700) (a * t0) (proj1 H)).
  - exact (open_lt 700 (a * t0) (proj2 H)).
Qed.

Lemma clip_in t : -700 < t < 700 -> clip_exponent t = t.
Proof. intros H. apply clip_id. unfold unclipped, min_exponent_val, max_exponent_val. lra. Qed.

(** ** 2. Weights that differ between the rows of one observation. *)
Theorem C30_refuted_uneven_weights :
  exists d mp K X w theta,
    create_long_form_mappings d None = Ok mp /\ length (alt_ids d) = length (obs_ids d) /\
    exactly_one_choice d /\
    check_length_of_initial_values KMNL (d_J (data_of d mp K X (Some w) None)) K theta = Ok tt /\
    no_clipping KMNL (data_of d mp K X (Some w) None) theta /\
    ~ gradient_is_derivative KMNL (data_of d mp K X (Some w) None) theta.
Proof.
  set (w := fun i : nat => match i with O => 2 | _ => 1 end : R).
  exists (two_rows [1; 0]%Z), (two_map [1; 0]%Z), 1%nat, (col 0 1), w, (par1 0).
  split; [reflexivity|]. split; [reflexivity|]. split; [exact one_choice_10|]. split; [reflexivity|].
  fold (two_data [1; 0]%Z 0 1 (Some w)). set (D := two_data [1; 0]%Z 0 1 (Some w)).
  split.
  { intros i Hi. unfold est_utilities. cbn. unfold mnl_transform, sys_utilities, mvec. cbn. lra. }
  intros (g & Eg & _ & H). specialize (H 0%nat ltac:(cbn; lia)). cbn [par1 aget] in H.
  assert (HC : is_derive (fun t => est_log_likelihood KMNL D (aupd (par1 0) 0 t)) 0 (-1)).
  { apply is_derive_ext_loc with (f := fun t => 2 * ln (/ (1 + exp t))).
    - generalize (locally_unclipped 1 0 ltac:(lra)). apply filter_imp. intros t Ht.
      unfold est_log_likelihood. cbn [split_param_vec]. unfold D. rewrite two_ll.
      rewrite !two_probs by lia. cbn [model_of]. rewrite !mnl_two_exp. cbn [col aupd par1 aget].
      rewrite upd_same, (Rmult_0_l t), clip_700, exp_0, (clip_in (1 * t)) by exact Ht.
      rewrite (Rmult_1_l t). cbn [eff_weights w]. unfold w. unfold Rdiv. rewrite (Rmult_1_l (/ (1 + exp t))).
      eqR. ring.
    - evar_last.
      + auto_derive; [|reflexivity]. pose proof (exp_pos 0). split; [lra|]. split; [apply Rinv_0_lt_compat; lra|exact I].
      + rewrite exp_0. field. }
  apply is_derive_unique in HC. apply is_derive_unique in H. pose proof (eq_trans (eq_sym HC) H) as H'. clear H HC.
  assert (Hg : aget g 0%nat = - long_probs MNL_model D None None (par1 0) 1%nat).
  { change (est_gradient KMNL D (par1 0) = Ok g) in Eg. unfold est_gradient, calc_gradient in Eg. cbn [split_param_vec model_of] in Eg.
    set (p := long_probs MNL_model D None None (par1 0)) in *. clearbody p.
    inversion Eg; subst g. cbn. unfold vmat, dh_db, mdot, diagm. cbn. unfold w.
 ring. }
  unfold D in Hg. rewrite two_probs in Hg by lia. rewrite !mnl_two_exp in Hg.
  cbn [col par1 aget] in Hg. rewrite (Rmult_0_l 0), (Rmult_0_r 1), clip_700, exp_0 in Hg. lra.
Qed.

(** ** 3. As many chosen rows as observations, but two in one observation and none
    in the other: accepted by ensure_num_chosen_alts_equals_num_obs (see C06). *)
Definition four_rows : long_cols := mkLong [1; 1; 2; 2]%Z [1; 2; 1; 2]%Z (Some [1; 1; 0; 0]%Z) None.
Definition four_map : mappings :=
  mkMappings (create_sparse_mapping [1; 1; 2; 2]%Z None)
    (create_sparse_mapping [1; 2; 1; 2]%Z (Some [1; 2]%Z))
    (Some (multiply_rows (create_sparse_mapping [1; 1; 2; 2]%Z None) [1; 1; 0; 0]%Z)) None None.
Definition four_X : mat := fun i _ => match i with O => 1 | _ => 0 end.

Theorem C30_refuted_choices_per_observation :
  exists d mp K X theta,
    create_long_form_mappings d None = Ok mp /\ length (alt_ids d) = length (obs_ids d) /\
    (exists c, choices d = Some c /\ (forall x, In x c -> x = 0 \/ x = 1)%Z /\
               fold_right Z.add 0%Z c = Z.of_nat (length (first_seen (obs_ids d)))) /\
    check_length_of_initial_values KMNL (d_J (data_of d mp K X None None)) K theta = Ok tt /\
    no_clipping KMNL (data_of d mp K X None None) theta /\
    ~ gradient_is_derivative KMNL (data_of d mp K X None None) theta.
Proof.
  exists four_rows, four_map, 1%nat, four_X, (par1 0).
  split; [reflexivity|]. split; [reflexivity|]. split.
  { exists [1; 1; 0; 0]%Z. split; [reflexivity|]. split; [|reflexivity].
    intros x Hx. simpl in Hx. lia. }
  split; [reflexivity|].
  set (D := data_of four_rows four_map 1 four_X None None).
  split.
  { intros i Hi. unfold est_utilities. cbn. unfold mnl_transform, sys_utilities, mvec. cbn. lra. }
  intros (g & Eg & _ & H). specialize (H 0%nat ltac:(cbn; lia)). cbn [par1 aget] in H.
  assert (EX : forall be i, -700 < aget be 0%nat < 700 ->
     long_exponentials MNL_model D None None be i = exp (four_X i 0%nat * aget be 0%nat)).
  { intros be i Hb. unfold long_exponentials. rewrite clip_in.
    - cbn. unfold mnl_transform, sys_utilities, mvec. cbn. f_equal. ring.
    - cbn. unfold mnl_transform, sys_utilities, mvec. cbn. unfold four_X. destruct i; lra. }
  assert (PR : forall be i, (i < 2)%nat -> -700 < aget be 0%nat < 700 ->
     long_probs MNL_model D None None be i = exp (four_X i 0%nat * aget be 0%nat) / (exp (aget be 0%nat) + 1)).
  { intros be i Hi Hb. unfold D. rewrite (probs_closed MNL_model four_rows None four_map 1 four_X None None eq_refl).
    2: { cbn. lia. }
    fold D. rewrite EX by exact Hb. f_equal. unfold id_sum. cbn [four_rows obs_ids length sumn].
    rewrite !EX by exact Hb. unfold four_X at 1 2 3 4. rewrite Rmult_1_l, Rmult_0_l, exp_0.
    destruct i as [|[|]]; try lia; cbn; ring. }
  assert (HC : is_derive (fun t => est_log_likelihood KMNL D (aupd (par1 0) 0 t)) 0 0).
  { apply is_derive_ext_loc with (f := fun t => t - 2 * ln (exp t + 1)).
    - generalize (locally_unclipped 1 0 ltac:(lra)). apply filter_imp. intros t Ht.
      assert (Ht' : -700 < aget (aupd (par1 0) 0 t) 0%nat < 700) by (cbn [aupd aget]; rewrite upd_same; lra).
      unfold est_log_likelihood. cbn [split_param_vec model_of]. unfold calc_log_likelihood, vdot.
      set (p := long_probs MNL_model D None None (aupd (par1 0) 0 t)) in *.
      assert (P0 := PR _ 0%nat ltac:(lia) Ht'). assert (P1 := PR _ 1%nat ltac:(lia) Ht'). fold p in P0, P1.
      clearbody p. unfold D. cbn [data_of d_ridge d_N four_rows obs_ids length sumn d_y d_w eff_weights].
      rewrite P0, P1.
      cbn [aupd aget] in *. rewrite upd_same in *. cbn [four_X choice_vec choices nth].
      rewrite Rmult_1_l, Rmult_0_l, exp_0. pose proof (exp_pos t).
      unfold Rdiv. rewrite !ln_mult, ln_1, ln_exp, !ln_Rinv by (try lra; try (apply Rinv_0_lt_compat; lra); try apply exp_pos).
      eqR. cbn. ring.
    - evar_last.
      + auto_derive; [|reflexivity]. pose proof (exp_pos 0). repeat split; lra.
      + rewrite exp_0. field. }
  apply is_derive_unique in HC. apply is_derive_unique in H. pose proof (eq_trans (eq_sym HC) H) as H'. clear H HC.
  assert (Hg : aget g 0%nat = 1 - long_probs MNL_model D None None (par1 0) 0%nat).
  { change (est_gradient KMNL D (par1 0) = Ok g) in Eg. unfold est_gradient, calc_gradient in Eg. cbn [split_param_vec model_of] in Eg.
    set (p := long_probs MNL_model D None None (par1 0)) in *. clearbody p.
    inversion Eg; subst g. cbn. unfold vmat, dh_db, mdot, diagm. cbn. ring. }
  rewrite PR in Hg by (try lia; cbn; lra). cbn [par1 aget four_X] in Hg. rewrite Rmult_1_l, exp_0 in Hg. lra.
Qed.

(** ** 4. Clog-log indices at or above 3.7, where the code computes another utility
    than the one its derivative belongs to. *)
Lemma logit_curve (f : R -> R) t0 f' c :
  is_derive f t0 f' -> -700 < f t0 < 700 ->
  is_derive (fun t => ln (exp (clip_exponent (f t)) / (exp (clip_exponent (f t)) + exp c))) t0
    (f' * (exp c / (exp (f t0) + exp c))).
Proof.
  intros Hf Hb.
  assert (Hl : locally t0 (fun t => -700 < f t < 700)).
  { assert (Hc : continuous f t0).
    { apply (ex_derive_continuous (K := R_AbsRing) (V := R_NormedModule)). exists f'. exact Hf. }
    apply (Hc (fun z => -700 < z < 700)). apply (filter_and (F := locally (f t0))).
    - exact (open_gt (-700) (f t0) (proj1 Hb)).
    - exact (open_lt 700 (f t0) (proj2 Hb)). }
  apply is_derive_ext_loc with (f := fun t => f t - ln (exp (f t) + exp c)).
  - revert Hl. apply filter_imp. intros t Ht. rewrite clip_in by exact Ht.
    pose proof (exp_pos (f t)). pose proof (exp_pos c). unfold Rdiv.
    assert (0 < / (exp (f t) + exp c)) by (apply Rinv_0_lt_compat; lra).
    rewrite ln_mult, ln_exp, ln_Rinv by lra. eqR. ring.
  - pose proof (exp_pos (f t0)). pose proof (exp_pos c).
    apply (is_derive_comp (fun x => x - ln (exp x + exp c)) f t0 (exp c / (exp (f t0) + exp c)) f'); [|exact Hf].
    evar_last; [auto_derive; [lra|reflexivity]|field; lra].
Qed.

Lemma two_ll_curve m a b sh ic be :
  calc_log_likelihood m (two_data [1; 0]%Z a b None) sh ic be =
  ln (long_exponentials m (two_data [1; 0]%Z a b None) sh ic be 0%nat
      / (long_exponentials m (two_data [1; 0]%Z a b None) sh ic be 0%nat
         + long_exponentials m (two_data [1; 0]%Z a b None) sh ic be 1%nat)).
Proof. rewrite two_ll. rewrite two_probs by lia. simpl. ring. Qed.

Lemma exp_4_bounds : 0 < exp 4 < 100.
Proof.
  split; [apply exp_pos|].
  assert (E : exp 4 = exp 1 * exp 1 * (exp 1 * exp 1)) by (rewrite <- !exp_plus; f_equal; ring).
  rewrite E. pose proof exp_le_3. pose proof (exp_pos 1).
  assert (exp 1 * exp 1 <= 9) by nra. assert (0 < exp 1 * exp 1) by nra. nra.
Qed.

Lemma ln_e_minus_1 : -700 < ln (exp 1 - 1) < 700.
Proof.
  pose proof exp_le_3. assert (2 < exp 1).
  { assert (1 + 1 < exp 1) by (apply exp_ineq1; lra). lra. }
  split.
  - assert (0 < ln (exp 1 - 1)); [|lra]. rewrite <- ln_1. apply ln_increasing; lra.
  - assert (ln (exp 1 - 1) < ln (exp 1)); [apply ln_increasing; lra|]. rewrite ln_exp in *. lra.
Qed.

Theorem C30_refuted_clog_log_above_switch :
  exists d mp K X theta,
    create_long_form_mappings d None = Ok mp /\ length (alt_ids d) = length (obs_ids d) /\
    exactly_one_choice d /\
    check_length_of_initial_values (KClog None) (d_J (data_of d mp K X None None)) K theta = Ok tt /\
    no_clipping (KClog None) (data_of d mp K X None None) theta /\
    ~ gradient_is_derivative (KClog None) (data_of d mp K X None None) theta.
Proof.
  exists (two_rows [1; 0]%Z), (two_map [1; 0]%Z), 1%nat, (col 1 0), (par1 4).
  split; [reflexivity|]. split; [reflexivity|]. split; [exact one_choice_10|]. split; [reflexivity|].
  fold (two_data [1; 0]%Z 1 0 None).
  set (D := two_data [1; 0]%Z 1 0 None) in *.
  pose proof exp_4_bounds as E4. pose proof ln_e_minus_1 as EL.
  assert (U : forall be i, (i < 2)%nat -> m_transform (Clog_model None) 2 (d_A D) (sys_utilities D be) None None i
     = if (i =? 0)%nat then (if Rle_dec 3.7 (aget be 0%nat) then exp (aget be 0%nat) else ln (exp (exp (aget be 0%nat)) - 1))
       else ln (exp 1 - 1)).
  { intros be i Hi. cbn [Clog_model m_transform]. unfold cloglog_transform, sys_utilities, mvec. cbn.
    destruct i as [|[|]]; [| |lia]; cbn.
    - rewrite Rmult_1_l, Rplus_0_l. destruct (Rle_dec 3.7 (aget be 0%nat)); ring.
    - rewrite Rmult_0_l, Rplus_0_l, exp_0. destruct (Rle_dec 3.7 0); [lra|ring]. }
  split.
  { intros i Hi. change ((i < 2)%nat) in Hi. unfold est_utilities. cbn [split_param_vec model_of].
    change (-700 < m_transform (Clog_model None) 2 (d_A D) (sys_utilities D (par1 4)) None None i < 700).
    rewrite U by exact Hi. destruct (i =? 0)%nat; [|exact EL]. cbn [par1 aget].
    destruct (Rle_dec 3.7 4); lra. }
  intros (g & Eg & _ & H). specialize (H 0%nat ltac:(cbn; lia)). cbn [par1 aget] in H.
  change (est_gradient (KClog None) D (par1 4) = Ok g) in Eg.
  set (P1 := exp (ln (exp 1 - 1)) / (exp (exp 4) + exp (ln (exp 1 - 1)))).
  assert (HP1 : 0 < P1).
  { unfold P1. apply Rdiv_lt_0_compat; [apply exp_pos|]. pose proof (exp_pos (exp 4)).
    pose proof (exp_pos (ln (exp 1 - 1))). lra. }
  assert (HC : is_derive (fun t => est_log_likelihood (KClog None) D (aupd (par1 4) 0 t)) 4 (exp 4 * P1)).
  { apply is_derive_ext_loc with (f := fun t =>
      ln (exp (clip_exponent (exp t)) / (exp (clip_exponent (exp t)) + exp (ln (exp 1 - 1))))).
    - apply filter_imp with (P := fun t => 3.7 < t); [|exact (open_gt 3.7 4 ltac:(lra))].
      intros t Ht. unfold est_log_likelihood. cbn [split_param_vec model_of]. unfold D. rewrite two_ll_curve.
      rewrite !two_exponentials. fold D. rewrite !U by lia. cbn [Nat.eqb].
      change (aget (neg_slice (d_K D) (aupd (par1 4) 0 t)) 0%nat) with t.
      rewrite (clip_in (ln (exp 1 - 1))) by exact EL.
      destruct (Rle_dec 3.7 t); [reflexivity|lra].
    - apply (logit_curve exp 4 (exp 4)); [apply is_derive_exp|lra]. }
  apply is_derive_unique in HC. apply is_derive_unique in H. pose proof (eq_trans (eq_sym HC) H) as H'. clear H HC.
  assert (LP : long_probs (Clog_model None) D None None (par1 4) 0%nat = 1 - P1).
  { unfold D. rewrite two_probs by lia. rewrite !two_exponentials. fold D. rewrite !U by lia.
    cbn [Nat.eqb par1 aget]. rewrite (clip_in (ln (exp 1 - 1))) by exact EL.
    destruct (Rle_dec 3.7 4); [|lra]. rewrite clip_in by lra. unfold P1.
    pose proof (exp_pos (exp 4)). pose proof (exp_pos (ln (exp 1 - 1))). field. lra. }
  assert (Hg : aget g 0%nat = P1 * cloglog_deriv_v (fun _ => 4) 0%nat).
  { change (calc_gradient (Clog_model None) D None None (par1 4) = Ok g) in Eg. unfold calc_gradient in Eg.
    set (p := long_probs (Clog_model None) D None None (par1 4)) in *. clearbody p.
    assert (E : forall f, vmat 2 f (dh_db (Clog_model None) D None (par1 4)) 0%nat = f 0%nat * cloglog_deriv_v (fun _ => 4) 0%nat).
    { intros f. unfold vmat, dh_db. cbn [sumn d_N D two_data data_of two_rows obs_ids length].
      cbn [Clog_model m_dh_dv]. rewrite !diag_dot by (cbn; lia). cbn [d_X D two_data data_of col].
      assert (EV : cloglog_deriv_v (sys_utilities D (par1 4)) 0%nat = cloglog_deriv_v (fun _ => 4) 0%nat).
      { unfold cloglog_deriv_v. replace (sys_utilities D (par1 4) 0%nat) with 4; [reflexivity|].
        unfold sys_utilities, mvec. cbn. ring. }
      rewrite EV. ring. }
    cbn [Clog_model m_dh_dc m_dh_da dh_d_alpha] in Eg. inversion Eg; subst g. cbn [aget].
    rewrite E. rewrite LP. cbn. ring. }
  rewrite Hg in H'.
  assert (K : cloglog_deriv_v (fun _ => 4) 0%nat = exp 4 / (1 - exp (- exp 4))).
  { unfold cloglog_deriv_v. cbv zeta.
    assert (Hs : exp (-1 * exp 4) < 1) by (rewrite <- exp_0; apply exp_increasing; lra).
    destruct (Req_EM_T (exp (-1 * 4)) 0) as [Ez|_]; [pose proof (exp_pos (-1 * 4)); lra|].
    destruct (Req_EM_T (1 - exp (-1 * exp 4)) 0) as [Ez|_]; [lra|].
    replace (- exp 4) with (-1 * exp 4) by ring.
    replace (-1 * 4) with (- (4)) by ring. rewrite (exp_Ropp 4). field. lra. }
  rewrite K in H'. assert (Hs : exp (- exp 4) < 1) by (rewrite <- exp_0; apply exp_increasing; lra).
  pose proof (exp_pos (- exp 4)) as Hp.
  assert (exp 4 < exp 4 / (1 - exp (- exp 4))).
  { apply Rmult_lt_reg_r with (1 - exp (- exp 4)); [lra|]. unfold Rdiv. rewrite Rmult_assoc, Rinv_l by lra. nra. }
  nra.
Qed.

(** ** 5. The asymmetric logit at a zero index (for instance at the usual zero
    starting point): the log-likelihood has a kink, so it has no derivative there. *)
Definition par2 (s t : R) : arr := mkArr 2 (fun i => match i with O => s | _ => t end).

Theorem C30_refuted_asym_kink :
  exists d mp K X theta,
    create_long_form_mappings d None = Ok mp /\ length (alt_ids d) = length (obs_ids d) /\
    exactly_one_choice d /\
    check_length_of_initial_values (KAsym 1 None) (d_J (data_of d mp K X None None)) K theta = Ok tt /\
    no_clipping (KAsym 1 None) (data_of d mp K X None None) theta /\
    (exists g, est_gradient (KAsym 1 None) (data_of d mp K X None None) theta = Ok g) /\
    ~ exists l, is_derive (fun t => est_log_likelihood (KAsym 1 None) (data_of d mp K X None None) (aupd theta 1 t))
                  (aget theta 1%nat) l.
Proof.
  exists (two_rows [1; 0]%Z), (two_map [1; 0]%Z), 1%nat, (col 1 0), (par2 1 0).
  split; [reflexivity|]. split; [reflexivity|]. split; [exact one_choice_10|]. split; [reflexivity|].
  fold (two_data [1; 0]%Z 1 0 None).
  set (D := two_data [1; 0]%Z 1 0 None) in *.
  assert (He : 2 < exp 1) by (assert (1 + 1 < exp 1) by (apply exp_ineq1; lra); lra).
  pose proof exp_le_3 as He3.
  set (c := exp 1 / (exp 1 + 1)).
  assert (Hc : 1 / 2 < c < 1).
  { unfold c. split.
    - apply Rmult_lt_reg_r with (exp 1 + 1); [lra|]. unfold Rdiv. rewrite (Rmult_assoc (exp 1)), Rinv_l by lra. lra.
    - apply Rmult_lt_reg_r with (exp 1 + 1); [lra|]. unfold Rdiv. rewrite (Rmult_assoc (exp 1)), Rinv_l by lra. lra. }
  assert (Hc1 : 1 / 4 <= 1 - c).
  { replace (1 - c) with (/ (exp 1 + 1)) by (unfold c; field; lra).
    replace (1 / 4) with (/ 4) by field. apply Rinv_le_contravar; lra. }
  assert (LB : forall x, 1 / 4 <= x < 1 -> -3 <= ln x < 0).
  { intros x Hx. split.
    - left. apply exp_lt_inv. rewrite exp_ln by lra. replace (-3) with (- (3)) by lra. rewrite exp_Ropp.
      assert (8 < exp 3) .
      { replace 3 with (1 + 1 + 1) by ring. rewrite !exp_plus. nra. }
      assert (/ exp 3 < / 8) by (apply Rinv_lt_contravar; lra). lra.
    - rewrite <- ln_1. apply ln_increasing; lra. }
  assert (U : forall t i, (i < 2)%nat ->
     m_transform (Asym_model 1 None) 2 (d_A D) (sys_utilities D (par1 t)) (Some (par1 1)) None i
     = if (i =? 0)%nat then ln c - t * (if Rle_dec 0 t then ln c else ln (1 - c)) else ln (1 - c)).
  { intros t i Hi. cbn [Asym_model m_transform]. unfold asym_transform, asym_long_shapes, asym_natural_shapes.
    assert (Ha : indicator_of 2 2 (d_A D) (fun i => i)).
    { intros r Hr. destruct r as [|[|]]; [| |lia]; (split; [lia|]); intros j Hj; destruct j as [|[|]]; try lia; reflexivity. }
    rewrite (indicator_dot _ _ _ _ _ _ Ha Hi). unfold long_intercepts.
    assert (Hs : sys_utilities D (par1 t) i = (if (i =? 0)%nat then t else 0)).
    { unfold sys_utilities, mvec. destruct i as [|[|]]; [| |lia]; cbn; ring. }
    rewrite Hs, convert_eta_eq. unfold eta_denom. cbn [sumn par1 alen aget INR].
    rewrite !Rplus_0_l.
    destruct i as [|[|]]; [| |lia]; cbn.
    - fold c. replace ((1 - c) / (1 + 1 - 1)) with (1 - c) by field. ring.
    - replace (1 / (exp 1 + 1)) with (1 - c) by (unfold c; field; lra). ring. }
  assert (U0 : -700 < ln c < 700 /\ -700 < ln (1 - c) < 700).
  { pose proof (LB c ltac:(lra)). pose proof (LB (1 - c) ltac:(lra)). lra. }
  split.
  { intros i Hi. change ((i < 2)%nat) in Hi.
    change (-700 < m_transform (Asym_model 1 None) 2 (d_A D) (sys_utilities D (par1 0)) (Some (par1 1)) None i < 700).
    rewrite U by exact Hi. destruct (i =? 0)%nat; lra. }
  split; [eexists; reflexivity|].
  intros (l & H). cbn [par2 aget] in H.
  set (curve := fun (m t : R) => ln (exp (clip_exponent (ln c - t * m)) / (exp (clip_exponent (ln c - t * m)) + exp (ln (1 - c))))).
  assert (LLc : forall t, est_log_likelihood (KAsym 1 None) D (aupd (par2 1 0) 1 t)
                = curve (if Rle_dec 0 t then ln c else ln (1 - c)) t).
  { intros t.
    change (calc_log_likelihood (Asym_model 1 None) D (Some (par1 1)) None (par1 t)
            = curve (if Rle_dec 0 t then ln c else ln (1 - c)) t).
    unfold D. rewrite two_ll_curve. rewrite !two_exponentials. fold D. rewrite !U by lia.
    cbn [Nat.eqb]. rewrite (clip_in (ln (1 - c))) by apply U0. reflexivity. }
  assert (DC : forall m, is_derive (curve m) 0 (- m * (exp (ln (1 - c)) / (exp (ln c - 0 * m) + exp (ln (1 - c)))))).
  { intros m. apply (logit_curve (fun t => ln c - t * m) 0 (- m) (ln (1 - c))).
    - evar_last; [auto_derive; [exact I|reflexivity]|ring].
    - rewrite Rmult_0_l. lra. }
  assert (R1 := derive_right_unique _ _ 0 _ _ H (DC (ln c))).
  assert (R2 := derive_left_unique _ _ 0 _ _ H (DC (ln (1 - c)))).
  assert (E1 : l = - ln c * (exp (ln (1 - c)) / (exp (ln c - 0 * ln c) + exp (ln (1 - c))))).
  { apply R1. intros t Ht. rewrite LLc. destruct (Rle_dec 0 t); [reflexivity|lra]. }
  assert (E2 : l = - ln (1 - c) * (exp (ln (1 - c)) / (exp (ln c - 0 * ln (1 - c)) + exp (ln (1 - c))))).
  { apply R2. intros t Ht. rewrite LLc. destruct (Rle_dec 0 t); [|reflexivity].
    assert (t = 0) by lra. subst t. unfold curve. rewrite !Rmult_0_l. reflexivity. }
  rewrite Rmult_0_l, Rminus_0_r, !exp_ln in E1, E2 by lra.
  replace (c + (1 - c)) with 1 in E1, E2 by ring.
  assert (ln (1 - c) < ln c) by (apply ln_increasing; lra). nra.
Qed.

Print Assumptions C30_refuted_clipping.
Print Assumptions C30_refuted_uneven_weights.
Print Assumptions C30_refuted_choices_per_observation.
Print Assumptions C30_refuted_clog_log_above_switch.
Print Assumptions C30_refuted_asym_kink.
