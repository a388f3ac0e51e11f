(** Row-wise derivatives of the five utility transforms with respect to every
    parameter. *)
From Coq Require Import Reals Lra Lia Arith FunctionalExtensionality.
From Coquelicot Require Import Coquelicot.
From Verif Require Import Res Vec Arr SpecLogit ChoiceCalcs ChoiceFacts Transforms LogitFacts.
Open Scope R_scope.

(** ** Elementary facts *)
Lemma indicator_dot N n A own f i :
  indicator_of N n A own -> (i < N)%nat -> mvec n A f i = f (own i).
Proof.
  intros H Hi. destruct (H i Hi) as [Ho E]. unfold mvec.
  rewrite <- (sumn_single' n (own i) f Ho). apply sumn_ext.
  intros j Hj. rewrite E by exact Hj. destruct (own i =? j)%nat; lra.
Qed.

Lemma diag_dot N d X i q : (i < N)%nat -> mdot N (diagm d) X i q = d i * X i q.
Proof.
  intros Hi. unfold mdot, diagm. rewrite <- (sumn_single' N i (fun r => d r * X r q) Hi).
  apply sumn_ext. intros r _. destruct (Nat.eqb_spec i r); subst; lra.
Qed.

Definition unskip (ref a : nat) : nat := if (a <? ref)%nat then a else (a - 1)%nat.

Lemma skip_unskip ref q a : (skip ref q = a) <-> (a <> ref /\ unskip ref a = q).
Proof.
  unfold skip, unskip. destruct (Nat.ltb_spec q ref); destruct (Nat.ltb_spec a ref); lia.
Qed.

Lemma skip_lt ref q J : (ref < J)%nat -> (q < J - 1)%nat -> (skip ref q < J)%nat.
Proof. unfold skip. destruct (Nat.ltb_spec q ref); lia. Qed.

Lemma skip_ne ref q : skip ref q <> ref.
Proof. unfold skip. destruct (Nat.ltb_spec q ref); lia. Qed.

Lemma fill_unskip ref a r j : fill_others ref a r j = if (j =? ref)%nat then r else a (unskip ref j).
Proof. reflexivity. Qed.

Lemma fill_skip ref a r q : fill_others ref a r (skip ref q) = a q.
Proof.
  unfold fill_others. destruct (Nat.eqb_spec (skip ref q) ref) as [E|_]; [destruct (skip_ne ref q E)|].
  f_equal. apply (skip_unskip ref q). reflexivity.
Qed.

Lemma fill_ref ref a r : fill_others ref a r ref = r.
Proof. unfold fill_others. rewrite Nat.eqb_refl. reflexivity. Qed.

(** Summing over all positions = reference plus the others. *)
Lemma sumn_fill ref a r J :
  (ref < J)%nat -> sumn J (fill_others ref a r) = r + sumn (J - 1) a.
Proof.
  intros H. replace J with (ref + (1 + (J - 1 - ref)))%nat at 1 by lia.
  rewrite sumn_app, sumn_app. simpl. rewrite Nat.add_0_r, fill_ref.
  replace (J - 1)%nat with (ref + (J - 1 - ref))%nat at 2 by lia.
  rewrite sumn_app. rewrite (sumn_ext ref (fill_others ref a r) a).
  2: { intros i Hi. unfold fill_others. destruct (Nat.eqb_spec i ref); [lia|].
       destruct (Nat.ltb_spec i ref); [reflexivity|lia]. }
  rewrite (sumn_ext (J - 1 - ref) (fun i => fill_others ref a r (ref + S i)%nat) (fun i => a (ref + i)%nat)).
  2: { intros i _. unfold fill_others. destruct (Nat.eqb_spec (ref + S i) ref); [lia|].
       destruct (Nat.ltb_spec (ref + S i) ref); [lia|]. f_equal; lia. }
  ring.
Qed.

(** ** Scalar derivatives of the transforms *)

Lemma clog_scalar v :
  v < 3.7 ->
  is_derive (fun x => if Rle_dec 3.7 x then exp x else ln (exp (exp x) - 1)) v
    (cloglog_deriv_v (fun _ => v) 0%nat).
Proof.
  intros Hv.
  apply is_derive_ext_loc with (f := fun x => ln (exp (exp x) - 1)).
  { apply filter_imp with (P := fun x => x < 3.7).
    - intros x Hx. destruct (Rle_dec 3.7 x); [lra|reflexivity].
    - exact (open_lt 3.7 v Hv). }
  assert (E1 : 1 < exp (exp v)) by (rewrite <- exp_0; apply exp_increasing; apply exp_pos).
  evar_last.
  - auto_derive; [lra|reflexivity].
  - unfold cloglog_deriv_v.
    assert (En : exp (-1 * v) <> 0) by (apply Rgt_not_eq, exp_pos).
    assert (Ee : exp (-1 * exp v) = / exp (exp v)).
    { replace (-1 * exp v) with (- exp v) by ring. apply exp_Ropp. }
    assert (Ed : 0 < 1 - exp (-1 * exp v)).
    { rewrite Ee. assert (/ exp (exp v) < 1); [|lra].
      apply Rmult_lt_reg_l with (exp (exp v)); [lra|]. rewrite Rinv_r; lra. }
    destruct (Req_EM_T (exp (-1 * v)) 0); [contradiction|].
    destruct (Req_EM_T (1 - exp (-1 * exp v)) 0); [lra|].
    assert (Ev : exp (-1 * v) = / exp v).
    { replace (-1 * v) with (- v) by ring. apply exp_Ropp. }
    rewrite Ee, Ev. pose proof (exp_pos v). pose proof (exp_pos (exp v)).
    field. split; [|split]; lra.
Qed.

Lemma scobit_pow_gt1 v s : 0 < s -> 1 < Rpower (1 + exp (-1 * v)) s.
Proof.
  intros Hs. unfold Rpower. rewrite <- exp_0 at 1. apply exp_increasing.
  apply Rmult_lt_0_compat; [exact Hs|]. rewrite <- ln_1. apply ln_increasing; [lra|].
  pose proof (exp_pos (-1 * v)). lra.
Qed.

Definition scobit_G (v s : R) : R := - ln (Rpower (1 + exp (-1 * v)) s - 1).

Lemma scobit_scalar_v v s :
  0 < s ->
  is_derive (fun x => scobit_G x s) v
    (s * exp (-1 * v) * Rpower (1 + exp (-1 * v)) (s - 1) / (Rpower (1 + exp (-1 * v)) s - 1)).
Proof.
  intros Hs. pose proof (scobit_pow_gt1 v s Hs) as H1. pose proof (exp_pos (-1 * v)) as H2.
  unfold scobit_G. unfold Rpower in *.
  evar_last.
  - auto_derive; [|reflexivity]. repeat split; lra.
  - replace ((s - 1) * ln (1 + exp (-1 * v))) with (s * ln (1 + exp (-1 * v)) - ln (1 + exp (-1 * v))) by ring.
    assert (Em : exp (s * ln (1 + exp (-1 * v)) - ln (1 + exp (-1 * v)))
                 = exp (s * ln (1 + exp (-1 * v))) * / (1 + exp (-1 * v))).
    { unfold Rminus. rewrite exp_plus, exp_Ropp, exp_ln by lra. reflexivity. }
    rewrite Em.
    field. split; lra.
Qed.

Lemma scobit_scalar_s v s :
  0 < s ->
  is_derive (fun x => scobit_G v x) s
    (-1 * ln (1 + exp (-1 * v)) * Rpower (1 + exp (-1 * v)) s / (Rpower (1 + exp (-1 * v)) s - 1)).
Proof.
  intros Hs. pose proof (scobit_pow_gt1 v s Hs) as H1. pose proof (exp_pos (-1 * v)) as H2.
  unfold scobit_G. unfold Rpower in *.
  evar_last.
  - auto_derive; [|reflexivity]. repeat split; lra.
  - field. lra.
Qed.

Definition uneven_G (v s : R) : R :=
  v + ln (1 + exp (-1 * v)) - ln (1 + exp (-1 * s * v)).

Lemma uneven_scalar_v v s :
  is_derive (fun x => uneven_G x s) v (1 / (1 + exp (-1 * v)) + s / (1 + exp (s * v))).
Proof.
  pose proof (exp_pos (-1 * v)) as H2. pose proof (exp_pos (-1 * s * v)) as H3.
  pose proof (exp_pos (s * v)) as H4.
  unfold uneven_G. evar_last.
  - auto_derive; [|reflexivity]. repeat split; lra.
  - replace (exp (-1 * s * v)) with (/ exp (s * v)) by (rewrite <- exp_Ropp; f_equal; ring).
    field. split; lra.
Qed.

Lemma uneven_scalar_s v s :
  is_derive (fun x => uneven_G v x) s (v / (1 + exp (s * v))).
Proof.
  pose proof (exp_pos (-1 * v)) as H2. pose proof (exp_pos (-1 * s * v)) as H3.
  pose proof (exp_pos (s * v)) as H4.
  unfold uneven_G. evar_last.
  - auto_derive; [|reflexivity]. repeat split; lra.
  - replace (exp (-1 * s * v)) with (/ exp (s * v)) by (rewrite <- exp_Ropp; f_equal; ring).
    field. lra.
Qed.

Definition asym_G (J : nat) (v c : R) : R :=
  ln c - v * (if Rle_dec 0 v then ln c else ln ((1 - c) / (INR J - 1))).

Lemma asym_scalar_v J v c :
  v <> 0 ->
  is_derive (fun x => asym_G J x c) v
    (-1 * (if Rle_dec 0 v then ln c else ln ((1 - c) / (INR J - 1)))).
Proof.
  intros Hv. unfold asym_G.
  set (m := if Rle_dec 0 v then ln c else ln ((1 - c) / (INR J - 1))).
  apply is_derive_ext_loc with (f := fun x => ln c - x * m).
  - destruct (Rlt_dec 0 v) as [Hp|Hn].
    + apply filter_imp with (P := fun x => 0 < x).
      * intros x Hx. unfold m. destruct (Rle_dec 0 x); [|lra]. destruct (Rle_dec 0 v); [reflexivity|lra].
      * exact (open_gt 0 v Hp).
    + assert (Hl : v < 0) by lra. apply filter_imp with (P := fun x => x < 0).
      * intros x Hx. unfold m. destruct (Rle_dec 0 x); [lra|]. destruct (Rle_dec 0 v); [lra|reflexivity].
      * exact (open_lt 0 v Hl).
  - evar_last; [auto_derive; [exact I|reflexivity]|ring].
Qed.

Lemma asym_scalar_c J v c :
  (2 <= J)%nat -> 0 < c < 1 ->
  is_derive (fun x => asym_G J v x) c
    (1 / c - v * (if Rle_dec 0 v then 1 / c else -1 / (1 - c))).
Proof.
  intros HJ Hc. unfold asym_G.
  assert (HJ1 : 0 < INR J - 1).
  { pose proof (le_INR 2 J HJ) as L. simpl in L. lra. }
  destruct (Rle_dec 0 v).
  - evar_last; [auto_derive; [|reflexivity]|field; lra]. lra.
  - evar_last; [auto_derive; [|reflexivity]|field; lra].
    assert (0 < (1 - c) / (INR J - 1)) by (apply Rdiv_lt_0_compat; lra).
    repeat split; lra.
Qed.

(** ** The asymmetric logit's shape parameters are a softmax *)

Definition eta_denom (eta : arr) : R := sumn (alen eta) (fun k => exp (aget eta k)) + 1.

Lemma eta_denom_pos eta : 1 <= eta_denom eta.
Proof.
  unfold eta_denom. pose proof (sumn_ge0 (alen eta) (fun k => exp (aget eta k))) as H.
  assert (0 <= sumn (alen eta) (fun k => exp (aget eta k))); [|lra].
  apply H. intros. left. apply exp_pos.
Qed.

Lemma convert_eta_eq eta ref j :
  convert_eta_to_c eta ref j =
  if (j =? ref)%nat then 1 / eta_denom eta else exp (aget eta (unskip ref j)) / eta_denom eta.
Proof.
  assert (E : forall k, (let e := exp (aget eta k) in if Req_EM_T e 0 then min_comp_value else e)
                        = exp (aget eta k)).
  { intros k. cbv zeta. destruct (Req_EM_T (exp (aget eta k)) 0) as [H|_]; [|reflexivity].
    pose proof (exp_pos (aget eta k)). lra. }
  unfold convert_eta_to_c, fill_others, eta_denom. cbv zeta in *.
  rewrite (sumn_ext (alen eta) _ (fun k => exp (aget eta k))) by (intros; apply E).
  rewrite E. reflexivity.
Qed.

Lemma convert_eta_pos eta ref j : 0 < convert_eta_to_c eta ref j.
Proof.
  rewrite convert_eta_eq. pose proof (eta_denom_pos eta).
  destruct (j =? ref)%nat; apply Rdiv_lt_0_compat; try lra; apply exp_pos.
Qed.

Lemma convert_eta_sum eta ref J :
  (ref < J)%nat -> alen eta = (J - 1)%nat -> sumn J (convert_eta_to_c eta ref) = 1.
Proof.
  intros Hr HL. pose proof (eta_denom_pos eta) as H.
  rewrite (sumn_ext J _ (fill_others ref (fun k => exp (aget eta k) / eta_denom eta) (1 / eta_denom eta))).
  2: { intros j _. rewrite convert_eta_eq. reflexivity. }
  rewrite sumn_fill by exact Hr. rewrite sumn_div. unfold eta_denom in *. rewrite HL in *. field. lra.
Qed.

Lemma convert_eta_lt1 eta ref J j :
  (ref < J)%nat -> alen eta = (J - 1)%nat -> (2 <= J)%nat -> (j < J)%nat ->
  convert_eta_to_c eta ref j < 1.
Proof.
  intros Hr HL HJ Hj. rewrite <- (convert_eta_sum eta ref J Hr HL).
  set (k := if (j =? 0)%nat then 1%nat else 0%nat).
  assert (Hk : (k < J)%nat /\ k <> j) by (unfold k; destruct (Nat.eqb_spec j 0); lia).
  pose proof (sumn_ge_two J (convert_eta_to_c eta ref) j k) as T.
  pose proof (convert_eta_pos eta ref k).
  assert (convert_eta_to_c eta ref j + convert_eta_to_c eta ref k <= sumn J (convert_eta_to_c eta ref)); [|lra].
  apply T; try lia. intros i _. left. apply convert_eta_pos.
Qed.

Lemma is_derive_eta_denom th q n :
  (q < n)%nat ->
  is_derive (fun t => eta_denom (aslice 0 n (aupd th q t))) (aget th q) (exp (aget th q)).
Proof.
  intros Hq. unfold eta_denom. cbn [aslice alen aget aupd Nat.add].
  evar_last.
  - apply (is_derive_plus (K := R_AbsRing) (V := R_NormedModule)).
    + apply (is_derive_sumn n (fun i t => exp (upd (aget th) q t i))
               (fun i => (if (i =? q)%nat then 1 else 0) * exp (aget th i))).
      intros i Hi. evar_last.
      * apply (is_derive_comp exp (fun t => upd (aget th) q t i)); [apply is_derive_exp|apply is_derive_upd].
      * rewrite upd_id. reflexivity.
    + apply (is_derive_const (K := R_AbsRing) (V := R_NormedModule)).
  - unfold plus, zero; simpl. rewrite Rplus_0_r.
    rewrite <- (sumn_single n q (fun i => exp (aget th i)) Hq). apply sumn_ext.
    intros i _. destruct (i =? q)%nat; lra.
Qed.

(** The derivative of the natural shapes with respect to the estimated ones. *)
Lemma is_derive_eta th q n ref a :
  (q < n)%nat ->
  is_derive (fun t => convert_eta_to_c (aslice 0 n (aupd th q t)) ref a) (aget th q)
    (deriv_c_wrt_eta (convert_eta_to_c (aslice 0 n th) ref) ref a q).
Proof.
  intros Hq.
  assert (Hd := is_derive_eta_denom th q n Hq).
  pose proof (eta_denom_pos (aslice 0 n th)) as Hp.
  assert (Hne : eta_denom (aslice 0 n (aupd th q (aget th q))) <> 0) by (rewrite aupd_id; lra).
  apply is_derive_ext with (f := fun t =>
    (if (a =? ref)%nat then 1 else exp (upd (aget th) q t (unskip ref a)))
    / eta_denom (aslice 0 n (aupd th q t))).
  { intros t. rewrite convert_eta_eq. cbn [aslice aget aupd Nat.add].
    destruct (a =? ref)%nat; reflexivity. }
  assert (Hn : is_derive (fun t => if (a =? ref)%nat then 1 else exp (upd (aget th) q t (unskip ref a)))
                 (aget th q)
                 (if (a =? ref)%nat then 0
                  else if (unskip ref a =? q)%nat then exp (aget th q) else 0)).
  { destruct (a =? ref)%nat.
    - apply (is_derive_const (K := R_AbsRing) (V := R_NormedModule)).
    - evar_last.
      + apply (is_derive_comp exp (fun t => upd (aget th) q t (unskip ref a))); [apply is_derive_exp|apply is_derive_upd].
      + rewrite upd_id. unfold scal; simpl; unfold mult; simpl.
        destruct (Nat.eqb_spec (unskip ref a) q) as [->|]; ring. }
  evar_last.
  - apply (is_derive_div _ _ _ _ _ Hn Hd). exact Hne.
  - rewrite aupd_id. unfold minus, plus, opp, mult, scal; simpl.
    unfold deriv_c_wrt_eta, diagm.
    assert (Es : convert_eta_to_c (aslice 0 n th) ref (skip ref q) = exp (aget th q) / eta_denom (aslice 0 n th)).
    { rewrite convert_eta_eq. destruct (Nat.eqb_spec (skip ref q) ref) as [E|_]; [destruct (skip_ne ref q E)|].
      replace (unskip ref (skip ref q)) with q; [reflexivity|].
      symmetry. apply (skip_unskip ref q). reflexivity. }
    rewrite Es. rewrite (convert_eta_eq _ ref a). rewrite upd_id. cbn [aslice aget Nat.add].
    fold (aslice 0 n th). set (d := eta_denom (aslice 0 n th)) in *.
    destruct (Nat.eqb_spec a (skip ref q)) as [Ea|Ea].
    + symmetry in Ea. apply skip_unskip in Ea. destruct Ea as [N1 N2].
      destruct (Nat.eqb_spec a ref); [contradiction|]. rewrite N2, Nat.eqb_refl. field. lra.
    + destruct (Nat.eqb_spec a ref) as [Er|Er]; [field; lra|].
      destruct (Nat.eqb_spec (unskip ref a) q) as [Eq|Eq]; [|field; lra].
      exfalso. apply Ea. symmetry. apply skip_unskip. split; assumption.
Qed.

(** ** The utility of one row in closed form *)
Definition Gk (k : logit_kind) (J : nat) (v s : R) : R :=
  match k with
  | KMNL => v
  | KClog _ => if Rle_dec 3.7 v then exp v else ln (exp (exp v) - 1)
  | KScobit _ => scobit_G v s
  | KUneven _ => uneven_G v s
  | KAsym _ _ => asym_G J v s
  end.

Definition srow (k : logit_kind) (J a : nat) (th : arr) : R :=
  match k with
  | KMNL | KClog _ => 0
  | KScobit _ | KUneven _ => exp (aget th a)
  | KAsym sref _ => convert_eta_to_c (aslice 0 (J - 1) th) sref a
  end.

Definition arow (k : logit_kind) (J a : nat) (th : arr) : R :=
  match kind_iref k with
  | Some r => if (a =? r)%nat then 0 else aget th (num_shapes k J + unskip r a)%nat
  | None => 0
  end.

Definition vrow (k : logit_kind) (D : Data) (th : arr) (i : nat) : R :=
  sys_utilities D (be k (d_J D) (d_K D) th) i.

(** Points at which the code's first derivatives are the true ones. *)
Definition regular (k : logit_kind) (v : R) : Prop :=
  match k with
  | KClog _ => v < 3.7
  | KAsym _ _ => v <> 0
  | _ => True
  end.

Section Row.
  Context (k : logit_kind) (D : Data) (alt : nat -> nat).
  Hypothesis Hok : kind_ok k (d_J D).
  Hypothesis HK : (0 < d_K D)%nat.
  Hypothesis Halt : indicator_of (d_N D) (d_J D) (d_A D) alt.

  Lemma intercept_row th i :
    (i < d_N D)%nat ->
    long_intercepts (d_J D) (d_A D) (kind_iref k) (ic k (d_J D) th) i = arow k (d_J D) (alt i) th.
  Proof.
    intros Hi. unfold long_intercepts, ic, arow, num_icpts. destruct Hok as (HJ & Hr & _).
    destruct (Halt i Hi) as [Ha _].
    destruct (kind_iref k) as [r|]; [|destruct (0 <? 0)%nat; reflexivity].
    destruct (Nat.ltb_spec 0 (d_J D - 1)).
    - rewrite (indicator_dot _ _ _ _ _ _ Halt Hi). rewrite fill_unskip. reflexivity.
    - destruct (Nat.eqb_spec (alt i) r); [reflexivity|lia].
  Qed.

  Lemma utility_row th i :
    (i < d_N D)%nat ->
    utility k D th i = Gk k (d_J D) (vrow k D th i) (srow k (d_J D) (alt i) th) + arow k (d_J D) (alt i) th.
  Proof.
    intros Hi. pose proof (intercept_row th i Hi) as HI.
    unfold utility, Gk, vrow, srow.
    assert (SH : forall n, mvec (d_J D) (d_A D) (fun j => exp (aget (aslice 0 n th) j)) i = exp (aget th (alt i))).
    { intros n. rewrite (indicator_dot _ _ _ _ _ _ Halt Hi). reflexivity. }
    clear Hok HK. revert HI.
    destruct k as [|r|r|r|s r]; cbn [model_of MNL_model Clog_model Scobit_model Uneven_model Asym_model m_transform kind_iref];
      unfold mnl_transform, cloglog_transform, scobit_transform, uneven_transform, asym_transform,
        long_natural_shapes, asym_long_shapes, asym_natural_shapes; cbn [sh has_shape]; cbv beta; intros HI.
    - unfold arow. simpl. ring.
    - rewrite HI. reflexivity.
    - unfold sh. cbn [has_shape]. rewrite SH, HI. unfold scobit_G. ring.
    - unfold sh. cbn [has_shape]. rewrite SH, HI. unfold uneven_G. ring.
    - unfold sh. cbn [has_shape num_shapes]. rewrite (indicator_dot _ _ _ _ _ _ Halt Hi), HI.
      unfold asym_G. reflexivity.
  Qed.

  (** Which parameters each ingredient depends on. *)
  Lemma vrow_const th j t i :
    (j < num_shapes k (d_J D) + num_icpts k (d_J D))%nat -> vrow k D (aupd th j t) i = vrow k D th i.
  Proof.
    intros Hj. unfold vrow, sys_utilities, be, mvec. apply sumn_ext. intros q _. f_equal.
    cbn [aslice aget aupd]. apply upd_other. lia.
  Qed.

  Lemma srow_const th j t i :
    (i < d_N D)%nat -> (num_shapes k (d_J D) <= j)%nat ->
    srow k (d_J D) (alt i) (aupd th j t) = srow k (d_J D) (alt i) th.
  Proof.
    intros Hi Hj. destruct (Halt i Hi) as [Ha _]. destruct Hok as (HJ & _ & Hs). clear Hok Halt HK.
    unfold srow. destruct k as [|r|r|r|s r]; cbn [num_shapes] in *; try reflexivity.
    - cbn [aupd aget]. rewrite upd_other by lia. reflexivity.
    - cbn [aupd aget]. rewrite upd_other by lia. reflexivity.
    - rewrite !convert_eta_eq. unfold eta_denom. cbn [aslice alen aget aupd Nat.add].
      rewrite (sumn_ext (d_J D - 1) (fun q => exp (upd (aget th) j t q)) (fun q => exp (aget th q))).
      2: { intros q Hq. rewrite upd_other by lia. reflexivity. }
      destruct (Nat.eqb_spec (alt i) s); [reflexivity|]. rewrite upd_other; [reflexivity|].
      unfold unskip. destruct (Nat.ltb_spec (alt i) s); lia.
  Qed.

  Lemma arow_const th j t i :
    (i < d_N D)%nat ->
    (j < num_shapes k (d_J D) \/ num_shapes k (d_J D) + num_icpts k (d_J D) <= j)%nat ->
    arow k (d_J D) (alt i) (aupd th j t) = arow k (d_J D) (alt i) th.
  Proof.
    intros Hi Hj. destruct (Halt i Hi) as [Ha _]. destruct Hok as (HJ & Hr & _).
    unfold arow. unfold num_icpts in Hj. destruct (kind_iref k) as [r|]; [|reflexivity].
    destruct (Nat.eqb_spec (alt i) r); [reflexivity|].
    cbn [aupd aget]. rewrite upd_other; [reflexivity|].
    unfold unskip. destruct (Nat.ltb_spec (alt i) r); lia.
  Qed.

  Lemma vrow_derive th q i :
    (q < d_K D)%nat ->
    is_derive (fun t => vrow k D (aupd th (num_shapes k (d_J D) + num_icpts k (d_J D) + q) t) i)
      (aget th (num_shapes k (d_J D) + num_icpts k (d_J D) + q)%nat) (d_X D i q).
  Proof.
    intros Hq. unfold vrow, sys_utilities, be, mvec.
    set (o := (num_shapes k (d_J D) + num_icpts k (d_J D))%nat).
    apply is_derive_ext with (f := fun t => sumn (d_K D) (fun r => d_X D i r * upd (fun z => aget th (o + z)%nat) q t r)).
    { intros t. apply sumn_ext. intros r _. f_equal. cbn [aslice aget aupd]. unfold upd.
      destruct (Nat.eqb_spec r q); destruct (Nat.eqb_spec (o + r) (o + q)); try lia; reflexivity. }
    apply (is_derive_dot_upd (d_K D) (d_X D i) (fun z => aget th (o + z)%nat) q Hq).
  Qed.

  Lemma arow_derive th q i r :
    (i < d_N D)%nat -> kind_iref k = Some r -> (q < d_J D - 1)%nat ->
    is_derive (fun t => arow k (d_J D) (alt i) (aupd th (num_shapes k (d_J D) + q) t))
      (aget th (num_shapes k (d_J D) + q)%nat) (d_A D i (skip r q)).
  Proof.
    intros Hi Er Hq. destruct (Halt i Hi) as [Ha HA]. destruct Hok as (HJ & Hr & _).
    rewrite Er in Hr. rewrite HA by (apply skip_lt; assumption).
    unfold arow. rewrite Er.
    destruct (Nat.eqb_spec (alt i) (skip r q)) as [E|E].
    - symmetry in E. apply skip_unskip in E. destruct E as [N1 N2].
      destruct (Nat.eqb_spec (alt i) r); [contradiction|]. rewrite N2.
      apply is_derive_ext with (f := fun t => t).
      { intros t. cbn [aupd aget]. rewrite upd_same. reflexivity. }
      apply (is_derive_id (K := R_AbsRing)).
    - destruct (Nat.eqb_spec (alt i) r); [apply (is_derive_const (K := R_AbsRing) (V := R_NormedModule))|].
      apply is_derive_ext with (f := fun _ => aget th (num_shapes k (d_J D) + unskip r (alt i))%nat).
      { intros t. cbn [aupd aget]. rewrite upd_other; [reflexivity|].
        intros C. apply E. symmetry. apply skip_unskip. split; [assumption|lia]. }
      apply (is_derive_const (K := R_AbsRing) (V := R_NormedModule)).
  Qed.

  (** The row values of the code's derivative functions. *)
  Definition dv_row (th : arr) : vec :=
    let v := sys_utilities D (be k (d_J D) (d_K D) th) in
    match k with
    | KMNL => fun _ => 1
    | KClog _ => cloglog_deriv_v v
    | KScobit _ => scobit_deriv_v (d_J D) (d_A D) v (sh k (d_J D) th)
    | KUneven _ => uneven_deriv_v (d_J D) (d_A D) v (sh k (d_J D) th)
    | KAsym s _ => asym_deriv_v s (d_J D) (d_A D) v (sh k (d_J D) th)
    end.

  Lemma dh_db_row th i q :
    (i < d_N D)%nat ->
    dh_db (model_of k) D (sh k (d_J D) th) (be k (d_J D) (d_K D) th) i q = dv_row th i * d_X D i q.
  Proof.
    intros Hi. unfold dh_db, dv_row.
    destruct k; cbn [model_of m_dh_dv MNL_model Clog_model Scobit_model Uneven_model Asym_model];
      apply (diag_dot (d_N D)); exact Hi.
  Qed.

  Lemma natural_shape_pos th i :
    (i < d_N D)%nat -> long_natural_shapes (d_J D) (d_A D) (Some (aslice 0 (d_J D) th)) i = exp (aget th (alt i)).
  Proof. intros Hi. unfold long_natural_shapes. rewrite (indicator_dot _ _ _ _ _ _ Halt Hi). reflexivity. Qed.

  Lemma Gk_derive_v th i :
    (i < d_N D)%nat -> regular k (vrow k D th i) ->
    is_derive (fun x => Gk k (d_J D) x (srow k (d_J D) (alt i) th)) (vrow k D th i) (dv_row th i).
  Proof.
    intros Hi Hreg.
    pose proof (natural_shape_pos th i Hi) as NS.
    unfold Gk, srow, dv_row. clear HK. revert Hreg. unfold vrow.
    destruct k as [|r|r|r|s r]; cbn [regular sh has_shape num_shapes]; intros Hreg.
    - apply (is_derive_id (K := R_AbsRing)).
    - apply (clog_scalar _ Hreg).
    - evar_last; [apply (scobit_scalar_v _ (exp (aget th (alt i))) (exp_pos _))|].
      unfold scobit_deriv_v, sh. cbn [has_shape num_shapes]. rewrite NS.
      set (v := sys_utilities _ _ i).
      pose proof (scobit_pow_gt1 v _ (exp_pos (aget th (alt i)))).
      destruct (Req_EM_T (exp (-1 * v)) 0) as [C|_]; [pose proof (exp_pos (-1 * v)); lra|].
      destruct (Req_EM_T (Rpower (1 + exp (-1 * v)) (exp (aget th (alt i))) - 1) 0); [lra|]. reflexivity.
    - evar_last; [apply (uneven_scalar_v _ (exp (aget th (alt i))))|].
      unfold uneven_deriv_v, sh. cbn [has_shape num_shapes]. rewrite NS. reflexivity.
    - evar_last; [apply (asym_scalar_v (d_J D) _ _ Hreg)|].
      unfold asym_deriv_v, asym_long_shapes, asym_natural_shapes, sh. cbn [has_shape num_shapes].
      rewrite (indicator_dot _ _ _ _ _ _ Halt Hi). reflexivity.
  Qed.

  (** Derivative through the shape parameters. *)
  Lemma shape_derive th i q :
    (i < d_N D)%nat -> (q < num_shapes k (d_J D))%nat ->
    is_derive (fun t => Gk k (d_J D) (vrow k D th i) (srow k (d_J D) (alt i) (aupd th q t))) (aget th q)
      (cent_or_zero (m_dh_dc (model_of k) (d_J D) (d_A D) (sys_utilities D (be k (d_J D) (d_K D) th))
                       (sh k (d_J D) th)) i q).
  Proof.
    intros Hi Hq. pose proof (natural_shape_pos th i Hi) as NS.
    destruct (Halt i Hi) as [Ha HA]. destruct Hok as (HJ & _ & Hs). clear HK Hok.
    unfold Gk, srow, vrow.
    assert (DX : is_derive (fun t => exp (aget (aupd th q t) (alt i))) (aget th q)
                   ((if (alt i =? q)%nat then 1 else 0) * exp (aget th (alt i)))).
    { evar_last.
      - apply (is_derive_comp exp (fun t => upd (aget th) q t (alt i))); [apply is_derive_exp|apply is_derive_upd].
      - rewrite upd_id. reflexivity. }
    destruct k as [|r|r|r|s r]; cbn [num_shapes] in *; try lia;
      cbn [model_of m_dh_dc Scobit_model Uneven_model Asym_model cent_or_zero cent]; unfold with_data.
    - rewrite HA by exact Hq. evar_last.
      + apply (is_derive_comp (fun x => scobit_G _ x) (fun t => exp (aget (aupd th q t) (alt i)))); [|exact DX].
        apply scobit_scalar_s. apply exp_pos.
      + unfold scal; simpl; unfold mult; simpl. rewrite upd_id.
        unfold scobit_deriv_shape, sh. cbn [has_shape num_shapes]. rewrite NS.
        set (v := sys_utilities _ _ i).
        pose proof (scobit_pow_gt1 v _ (exp_pos (aget th (alt i)))).
        destruct (Req_EM_T (Rpower (1 + exp (-1 * v)) (exp (aget th (alt i))) - 1) 0); [lra|]. ring.
    - rewrite HA by exact Hq. evar_last.
      + apply (is_derive_comp (fun x => uneven_G _ x) (fun t => exp (aget (aupd th q t) (alt i)))); [|exact DX].
        apply uneven_scalar_s.
      + unfold scal; simpl; unfold mult; simpl. rewrite upd_id.
        unfold uneven_deriv_shape, sh. cbn [has_shape num_shapes]. rewrite NS. ring.
    - unfold asym_deriv_shape, mdot, with_data.
      set (dc := asym_dh_dc_values _ _ _ _ _ i).
      set (E := deriv_c_wrt_eta _ _).
      rewrite (sumn_ext (d_J D) _ (fun z => if (alt i =? z)%nat then (dc * E z q) else 0)).
      2: { intros z Hz. rewrite HA by exact Hz. destruct (alt i =? z)%nat; lra. }
      rewrite (sumn_single' (d_J D) (alt i) (fun z => dc * E z q) Ha).
      unfold E, asym_natural_shapes, sh. cbn [has_shape num_shapes].
      assert (C01 : 0 < convert_eta_to_c (aslice 0 (d_J D - 1) th) s (alt i) < 1).
      { split; [apply convert_eta_pos|]. apply (convert_eta_lt1 _ _ (d_J D)); try tauto; reflexivity. }
      evar_last.
      + apply (is_derive_comp (fun x => asym_G (d_J D) _ x)
                 (fun t => convert_eta_to_c (aslice 0 (d_J D - 1) (aupd th q t)) s (alt i)));
          [|apply is_derive_eta; exact Hq].
        rewrite aupd_id. apply asym_scalar_c; tauto.
      + unfold scal; simpl; unfold mult; simpl. rewrite Rmult_comm. f_equal.
        unfold dc, asym_dh_dc_values, asym_long_shapes, asym_natural_shapes, sh. cbn [has_shape num_shapes].
        rewrite (indicator_dot _ _ _ _ _ _ Halt Hi). reflexivity.
  Qed.

  (** All parameters. *)
  Lemma row_derivative th i j :
    alen th = (num_shapes k (d_J D) + num_icpts k (d_J D) + d_K D)%nat ->
    (i < d_N D)%nat -> (j < alen th)%nat -> regular k (vrow k D th i) ->
    is_derive (fun t => utility k D (aupd th j t) i) (aget th j) (DH k D th i j).
  Proof.
    intros HL Hi Hj Hreg.
    apply is_derive_ext with (f := fun t =>
      Gk k (d_J D) (vrow k D (aupd th j t) i) (srow k (d_J D) (alt i) (aupd th j t))
      + arow k (d_J D) (alt i) (aupd th j t)).
    { intros t. symmetry. apply utility_row. exact Hi. }
    unfold DH, hcat, vcat.
    destruct (Nat.ltb_spec j (num_shapes k (d_J D))) as [H1|H1].
    - apply is_derive_ext with (f := fun t =>
        Gk k (d_J D) (vrow k D th i) (srow k (d_J D) (alt i) (aupd th j t)) + arow k (d_J D) (alt i) th).
      { intros t. rewrite vrow_const by lia. rewrite arow_const by (try exact Hi; lia). reflexivity. }
      evar_last.
      + apply (is_derive_plus (K := R_AbsRing) (V := R_NormedModule)); [apply shape_derive; assumption|].
        apply (is_derive_const (K := R_AbsRing) (V := R_NormedModule)).
      + unfold plus, zero; simpl. ring.
    - destruct (Nat.ltb_spec (j - num_shapes k (d_J D)) (num_icpts k (d_J D))) as [H2|H2].
      + apply is_derive_ext with (f := fun t =>
          Gk k (d_J D) (vrow k D th i) (srow k (d_J D) (alt i) th) + arow k (d_J D) (alt i) (aupd th j t)).
        { intros t. rewrite vrow_const by lia. rewrite srow_const by (try exact Hi; lia). reflexivity. }
        destruct (dh_da_some k (d_J D) (d_A D) (sys_utilities D (be k (d_J D) (d_K D) th))
                    (ic k (d_J D) th)) as (r & Er & Ea); [lia|].
        rewrite Ea. cbn [cent_or_zero cent].
        assert (HQ : (j - num_shapes k (d_J D) < d_J D - 1)%nat).
        { unfold num_icpts in H2. rewrite Er in H2. exact H2. }
        apply (arow_derive th _ i r Hi Er) in HQ.
        replace (num_shapes k (d_J D) + (j - num_shapes k (d_J D)))%nat with j in HQ by lia.
        evar_last.
        * apply (is_derive_plus (K := R_AbsRing) (V := R_NormedModule));
            [apply (is_derive_const (K := R_AbsRing) (V := R_NormedModule))|].
          exact HQ.
        * unfold plus, zero; simpl. ring.
      + apply is_derive_ext with (f := fun t =>
          Gk k (d_J D) (vrow k D (aupd th j t) i) (srow k (d_J D) (alt i) th) + arow k (d_J D) (alt i) th).
        { intros t. rewrite srow_const by (try exact Hi; lia).
          rewrite arow_const by (try exact Hi; lia). reflexivity. }
        rewrite dh_db_row by exact Hi.
        set (q := (j - num_shapes k (d_J D) - num_icpts k (d_J D))%nat).
        assert (Ej : j = (num_shapes k (d_J D) + num_icpts k (d_J D) + q)%nat) by (unfold q; lia).
        evar_last.
        * apply (is_derive_plus (K := R_AbsRing) (V := R_NormedModule));
            [|apply (is_derive_const (K := R_AbsRing) (V := R_NormedModule))].
          apply (is_derive_comp (fun x => Gk k (d_J D) x (srow k (d_J D) (alt i) th)) (fun t => vrow k D (aupd th j t) i)).
          -- rewrite aupd_id. apply Gk_derive_v; assumption.
          -- rewrite Ej. apply vrow_derive. unfold q; lia.
        * unfold plus, zero, scal; simpl; unfold mult; simpl. ring.
  Qed.
End Row.
