(** Property C102: which alternative is the reference does not matter. *)
From Coq Require Import String ZArith List Reals Lra Lia Arith.
From Coquelicot Require Import Coquelicot.
From Verif Require Import Res Vec Arr SpecLogit ChoiceCalcs ChoiceFacts Transforms Ids Mappings
  MappingFacts LongData LogitFacts RowDeriv HessFacts ProbFacts PropMappings PropProbs PropGradient PropHessian.
Import ListNotations.
Open Scope R_scope.

(** ** Specification *)

(** [full] lists one number per alternative: 0 for the reference and the estimated
    numbers a_0, a_1, ... for the others, in order. *)
Definition completes (J ref : nat) (a full : vec) : Prop :=
  full ref = 0 /\
  (forall q, (q < J - 1)%nat -> (q < ref)%nat -> full q = a q) /\
  (forall q, (q < J - 1)%nat -> (ref <= q)%nat -> full (S q) = a q).

(** The vectors a (reference r) and a' (reference r') give the same differences between
    alternatives. *)
Definition same_differences (J r r' : nat) (a a' : vec) : Prop :=
  exists full full', completes J r a full /\ completes J r' a' full' /\
    forall i j, (i < J)%nat -> (j < J)%nat -> full' i - full' j = full i - full j.

(** [n] consecutive entries from position [s]. *)
Definition same_entries (s n : nat) (a a' : arr) : Prop :=
  forall q, (s <= q < s + n)%nat -> aget a q = aget a' q.

Definition same_optional_differences (J : nat) (r r' : option nat) (a a' : vec) : Prop :=
  match r, r' with
  | Some r, Some r' => same_differences J r r' a a'
  | None, None => True
  | _, _ => False
  end.

(** Two models of the same type that differ only in their reference alternatives, and
    parameter vectors that say the same. *)
Definition counterparts (J K : nat) (k k' : logit_kind) (theta theta' : arr) : Prop :=
  let from s (a : arr) : vec := fun q => aget a (s + q)%nat in
  match k, k' with
  | KClog r, KClog r' =>
      same_optional_differences J r r' (from 0%nat theta) (from 0%nat theta') /\
      same_entries (num_icpts k J) K theta theta'
  | KScobit r, KScobit r' | KUneven r, KUneven r' =>
      same_entries 0 J theta theta' /\
      same_optional_differences J r r' (from J theta) (from J theta') /\
      same_entries (J + num_icpts k J) K theta theta'
  | KAsym s r, KAsym s' r' =>
      same_differences J s s' (from 0%nat theta) (from 0%nat theta') /\
      same_optional_differences J r r' (from (J - 1)%nat theta) (from (J - 1)%nat theta') /\
      same_entries (J - 1 + num_icpts k J) K theta theta'
  | _, _ => False
  end.

(** ** Facts *)

Lemma completes_fill J r a full : (r < J)%nat -> completes J r a full ->
  forall j, (j < J)%nat -> full j = fill_others r a 0 j.
Proof.
  intros Hr (H0 & H1 & H2) j Hj. unfold fill_others. destruct (Nat.eqb_spec j r) as [->|Hne]; [exact H0|].
  destruct (Nat.ltb_spec j r); [apply H1; lia|]. replace j with (S (j - 1)) at 1 by lia. apply H2; lia.
Qed.

Lemma fill_completes J r a : completes J r a (fill_others r a 0).
Proof.
  split; [apply fill_ref|]. split; intros q Hq Hr; unfold fill_others.
  - destruct (Nat.eqb_spec q r); [lia|]. destruct (Nat.ltb_spec q r); [reflexivity|lia].
  - destruct (Nat.eqb_spec (S q) r); [lia|]. destruct (Nat.ltb_spec (S q) r); [lia|]. f_equal. lia.
Qed.

Lemma same_differences_shift J r r' a a' : (r < J)%nat -> (r' < J)%nat -> same_differences J r r' a a' ->
  exists c, forall j, (j < J)%nat -> fill_others r' a' 0 j = fill_others r a 0 j - c.
Proof.
  intros Hr Hr' (f & f' & C & C' & H). exists (f r'). intros j Hj.
  rewrite <- (completes_fill J r a f) by assumption. rewrite <- (completes_fill J r' a' f') by assumption.
  pose proof (H j r' Hj Hr'). destruct C' as (E & _). lra.
Qed.

Lemma softmax_form J r (e : arr) j : (r < J)%nat -> alen e = (J - 1)%nat -> (j < J)%nat ->
  convert_eta_to_c e r j = exp (fill_others r (aget e) 0 j) / sumn J (fun i => exp (fill_others r (aget e) 0 i)).
Proof.
  intros Hr L Hj. unfold convert_eta_to_c.
  assert (E : forall q, (if Req_EM_T (exp (aget e q)) 0 then min_comp_value else exp (aget e q)) = exp (aget e q)).
  { intros q. destruct (Req_EM_T (exp (aget e q)) 0) as [Z|_]; [pose proof (exp_pos (aget e q)); lra|reflexivity]. }
  assert (X : forall i, exp (fill_others r (aget e) 0 i) = fill_others r (fun q => exp (aget e q)) 1 i).
  { intros i. unfold fill_others. destruct (i =? r)%nat; [apply exp_0|]. destruct (i <? r)%nat; reflexivity. }
  rewrite (sumn_ext J _ (fill_others r (fun q => exp (aget e q)) 1)) by (intros; apply X).
  rewrite sumn_fill by exact Hr. rewrite X. rewrite L.
  rewrite (sumn_ext (J - 1) (fun k => if Req_EM_T (exp (aget e k)) 0 then min_comp_value else exp (aget e k)) (fun k => exp (aget e k)))
    by (intros; apply E).
  rewrite (Rplus_comm 1). unfold fill_others. destruct (j =? r)%nat; [reflexivity|]. destruct (j <? r)%nat; rewrite E; reflexivity.
Qed.

(** Shapes that differ by a common constant are the same natural shapes. *)
Lemma softmax_shift J r r' (e e' : arr) : (r < J)%nat -> (r' < J)%nat -> alen e = (J - 1)%nat -> alen e' = (J - 1)%nat ->
  same_differences J r r' (aget e) (aget e') ->
  forall j, (j < J)%nat -> convert_eta_to_c e' r' j = convert_eta_to_c e r j.
Proof.
  intros Hr Hr' L L' H j Hj. destruct (same_differences_shift _ _ _ _ _ Hr Hr' H) as (c & Hc).
  rewrite !(softmax_form J) by assumption.
  assert (E : forall i, (i < J)%nat -> exp (fill_others r' (aget e') 0 i) = exp (- c) * exp (fill_others r (aget e) 0 i)).
  { intros i Hi. rewrite <- exp_plus. f_equal. rewrite Hc by exact Hi. ring. }
  rewrite E by exact Hj. rewrite (sumn_ext J _ _ E), sumn_scal_l.
  assert (0 < sumn J (fun i => exp (fill_others r (aget e) 0 i))).
  { apply (sumn_pos J _ r); [intros; left; apply exp_pos|exact Hr|apply exp_pos]. }
  pose proof (exp_pos (- c)). field. split; lra.
Qed.

Lemma intercept_shift J N A alt s r r' th th' :
  indicator_of N J A alt ->
  match r with Some r => (r < J)%nat | None => True end -> match r' with Some r => (r < J)%nat | None => True end ->
  same_optional_differences J r r' (fun q => aget th (s + q)%nat) (fun q => aget th' (s + q)%nat) ->
  let n := match r with Some _ => (J - 1)%nat | None => 0%nat end in
  let part (t : arr) := if (0 <? n)%nat then Some (aslice s n t) else None in
  exists c, forall i, (i < N)%nat ->
    long_intercepts J A r' (part th') i = long_intercepts J A r (part th) i - c.
Proof.
  intros HA Hr Hr' H n part. destruct r as [r|], r' as [r'|]; cbn in H; try contradiction.
  - destruct (same_differences_shift _ _ _ _ _ Hr Hr' H) as (c & Hc). unfold part, n.
    destruct (Nat.ltb_spec 0 (J - 1)).
    + exists c. intros i Hi. unfold long_intercepts. rewrite !(indicator_dot N J A alt) by assumption.
      apply Hc. apply (proj1 (HA i Hi)).
    + exists 0. intros i Hi. cbn. ring.
  - exists 0. intros i Hi. cbn. ring.
Qed.

(** Utilities of counterparts differ by a constant common to all rows. *)
Lemma reference_row J K N A alt k k' th th' :
  indicator_of N J A alt -> kind_ok k J -> kind_ok k' J -> counterparts J K k k' th th' ->
  exists c, forall v v' i, (i < N)%nat -> v i = v' i ->
    m_transform (model_of k') J A v' (sh k' J th') (ic k' J th') i =
    m_transform (model_of k) J A v (sh k J th) (ic k J th) i - c.
Proof.
  intros HA Hk Hk' H. destruct Hk as (HJ & Hr & Hs), Hk' as (_ & Hr' & Hs').
  destruct k as [|r|r|r|s r], k' as [|r'|r'|r'|s' r']; cbn [counterparts] in H; try contradiction;
    cbn [kind_iref] in Hr, Hr'.
  - destruct H as (Hi & _).
    destruct (intercept_shift J N A alt 0 r r' th th' HA Hr Hr' Hi) as (c & Hc). exists c. intros v v' i HiN Ev.
    cbn [model_of Clog_model m_transform]. unfold cloglog_transform. rewrite <- Ev.
    replace (long_intercepts J A r' (ic (KClog r') J th') i) with (long_intercepts J A r (ic (KClog r) J th) i - c); [ring|].
    symmetry. destruct r, r'; cbn in Hi; try contradiction; apply Hc; exact HiN.
  - destruct H as (Hsh & Hi & _).
    destruct (intercept_shift J N A alt J r r' th th' HA Hr Hr' Hi) as (c & Hc). exists c. intros v v' i HiN Ev.
    cbn [model_of Scobit_model m_transform]. unfold scobit_transform. rewrite <- Ev.
    replace (long_intercepts J A r' (ic (KScobit r') J th') i) with (long_intercepts J A r (ic (KScobit r) J th) i - c).
    2: { symmetry. destruct r, r'; cbn in Hi; try contradiction; apply Hc; exact HiN. }
    replace (long_natural_shapes J A (sh (KScobit r') J th') i) with (long_natural_shapes J A (sh (KScobit r) J th) i); [ring|].
    cbn. apply sumn_ext. intros j Hj. rewrite (Hsh j) by lia. reflexivity.
  - destruct H as (Hsh & Hi & _).
    destruct (intercept_shift J N A alt J r r' th th' HA Hr Hr' Hi) as (c & Hc). exists c. intros v v' i HiN Ev.
    cbn [model_of Uneven_model m_transform]. unfold uneven_transform. rewrite <- Ev.
    replace (long_intercepts J A r' (ic (KUneven r') J th') i) with (long_intercepts J A r (ic (KUneven r) J th) i - c).
    2: { symmetry. destruct r, r'; cbn in Hi; try contradiction; apply Hc; exact HiN. }
    replace (long_natural_shapes J A (sh (KUneven r') J th') i) with (long_natural_shapes J A (sh (KUneven r) J th) i); [ring|].
    cbn. apply sumn_ext. intros j Hj. rewrite (Hsh j) by lia. reflexivity.
  - destruct H as (Hsh & Hi & _).
    destruct (intercept_shift J N A alt (J - 1) r r' th th' HA Hr Hr' Hi) as (c & Hc). exists c. intros v v' i HiN Ev.
    cbn [model_of Asym_model m_transform]. unfold asym_transform. rewrite <- Ev.
    replace (long_intercepts J A r' (ic (KAsym s' r') J th') i) with (long_intercepts J A r (ic (KAsym s r) J th) i - c).
    2: { symmetry. destruct r, r'; cbn in Hi; try contradiction; apply Hc; exact HiN. }
    replace (asym_long_shapes s' J A (sh (KAsym s' r') J th') i) with (asym_long_shapes s J A (sh (KAsym s r) J th) i); [ring|].
    unfold asym_long_shapes, mvec. apply sumn_ext. intros j Hj. f_equal. cbn [sh has_shape asym_natural_shapes num_shapes].
    symmetry. apply (softmax_shift J); try reflexivity; try tauto.
Qed.

Lemma counterparts_betas J K k k' th th' : counterparts J K k k' th th' ->
  num_shapes k J = num_shapes k' J /\ num_icpts k J = num_icpts k' J /\
  same_entries (num_shapes k J + num_icpts k J) K th th'.
Proof.
  intros H. destruct k as [|r|r|r|s r], k' as [|r'|r'|r'|s' r']; cbn [counterparts] in H; try contradiction;
    repeat match goal with H : _ /\ _ |- _ => destruct H end;
    (split; [reflexivity|]); (split; [destruct r, r'; cbn in *; try contradiction; reflexivity|assumption]).
Qed.

(** ** The property *)

Section Reference.
  Context (d : long_cols) (spec : option nest_spec) (mp : mappings) (K : nat) (X : mat)
    (w : option vec) (ridge : option R).
  Hypothesis Hmp : create_long_form_mappings d spec = Ok mp.
  Hypothesis HL : length (alt_ids d) = length (obs_ids d).
  Hypothesis HK : (0 < K)%nat.
  Let D := data_of d mp K X w ridge.
  Context (k k' : logit_kind) (theta theta' : arr).
  Hypothesis Hk : kind_ok k (d_J D).
  Hypothesis Hk' : kind_ok k' (d_J D).
  Hypothesis Hl : check_length_of_initial_values k (d_J D) K theta = Ok tt.
  Hypothesis Hl' : check_length_of_initial_values k' (d_J D) K theta' = Ok tt.
  Hypothesis Hc : counterparts (d_J D) K k k' theta theta'.

  (** All utilities shift by one common constant ... *)
  Theorem C102_utilities_shift_together :
    exists c, forall i, (i < length (obs_ids d))%nat ->
      est_utilities k' D theta' i = est_utilities k D theta i - c.
  Proof.
    pose proof (check_length_ok _ _ _ _ Hl) as L. pose proof (check_length_ok _ _ _ _ Hl') as L'.
    rewrite dims_eq in L, L' by assumption.
    rewrite (est_utilities_eq k D theta HK L), (est_utilities_eq k' D theta' HK L').
    destruct (reference_row (d_J D) K (d_N D) (d_A D) (alt_of (alt_ids d)) k k' theta theta'
      (data_alt_indicator d spec mp K X w ridge Hmp HL) Hk Hk' Hc) as (c & H).
    exists c. intros i Hi. unfold utility. apply H; [exact Hi|].
    destruct (counterparts_betas _ _ _ _ _ _ Hc) as (E1 & E2 & E3).
    unfold sys_utilities, mvec. apply sumn_ext. intros q Hq. f_equal. unfold be. cbn [aslice aget].
    rewrite <- E1, <- E2. apply E3. change (d_K D) with K in Hq. lia.
  Qed.

  Hypothesis Hu : no_clipping k D theta.
  Hypothesis Hu' : no_clipping k' D theta'.

  (** ... so probabilities do not change ... *)
  Theorem C102_same_probabilities i : (i < length (obs_ids d))%nat ->
    est_long_probs k' D theta' i = est_long_probs k D theta i.
  Proof.
    intros Hi. destruct C102_utilities_shift_together as (c & H).
    pose proof (check_length_ok _ _ _ _ Hl) as L. pose proof (check_length_ok _ _ _ _ Hl') as L'.
    rewrite dims_eq in L, L' by assumption.
    rewrite (est_long_probs_eq k D theta HK L), (est_long_probs_eq k' D theta' HK L').
    pose proof (data_obs_indicator d spec mp K X w ridge Hmp) as Hown. fold D in Hown.
    unfold probs_at. rewrite !(long_probs_eq _ _ _ Hown) by exact Hi.
    assert (E : forall r, (r < d_N D)%nat ->
      long_exponentials (model_of k') D (sh k' (d_J D) theta') (ic k' (d_J D) theta') (be k' (d_J D) (d_K D) theta') r =
      exp (- c) * long_exponentials (model_of k) D (sh k (d_J D) theta) (ic k (d_J D) theta) (be k (d_J D) (d_K D) theta) r).
    { intros r Hr. pose proof (Hu r Hr) as U. pose proof (Hu' r Hr) as U'. pose proof (H r Hr) as Hr'.
      rewrite (est_utilities_eq k D theta HK L) in U, Hr'. rewrite (est_utilities_eq k' D theta' HK L') in U', Hr'.
      unfold long_exponentials. rewrite <- exp_plus. f_equal.
      change (clip_exponent (utility k' D theta' r) = - c + clip_exponent (utility k D theta r)).
      rewrite !clip_id by (unfold unclipped, min_exponent_val, max_exponent_val; lra). rewrite Hr'. ring. }
    rewrite E by exact Hi. rewrite (osum_ext _ _ _ _ _ (fun r Hr _ => E r Hr)), osum_scal_l.
    assert (0 < osum (d_N D) (own_of (obs_ids d)) (own_of (obs_ids d) i)
      (long_exponentials (model_of k) D (sh k (d_J D) theta) (ic k (d_J D) theta) (be k (d_J D) (d_K D) theta))).
    { apply osum_pos; [intros; apply exp_pos|exact Hi]. }
    pose proof (exp_pos (- c)). field. split; lra.
  Qed.

  (** ... nor does the log-likelihood, if there is no ridge penalty. *)
  Theorem C102_same_log_likelihood : ridge = None ->
    est_log_likelihood k' D theta' = est_log_likelihood k D theta.
  Proof.
    intros R0.
    pose proof (check_length_ok _ _ _ _ Hl) as L. pose proof (check_length_ok _ _ _ _ Hl') as L'.
    rewrite dims_eq in L, L' by assumption.
    rewrite (est_ll_eq k D theta HK L), (est_ll_eq k' D theta' HK L').
    assert (E : ridge_or_0 D = 0) by (unfold ridge_or_0, D, data_of; cbn [d_ridge]; rewrite R0; reflexivity).
    rewrite E, !Rmult_0_l. f_equal. apply sumn_ext. intros i Hi. do 3 f_equal.
    pose proof (C102_same_probabilities i Hi) as P.
    rewrite (est_long_probs_eq k D theta HK L), (est_long_probs_eq k' D theta' HK L') in P. exact P.
  Qed.
End Reference.

(** ** Nothing is lost by the choice: every vector has a counterpart. *)

Definition same_type (k k' : logit_kind) : Prop :=
  match k, k' with
  | KClog (Some _), KClog (Some _) | KClog None, KClog None
  | KScobit (Some _), KScobit (Some _) | KScobit None, KScobit None
  | KUneven (Some _), KUneven (Some _) | KUneven None, KUneven None
  | KAsym _ (Some _), KAsym _ (Some _) | KAsym _ None, KAsym _ None => True
  | _, _ => False
  end.

(** Measure from r' instead of from r. *)
Definition rebase (r r' : nat) (a : vec) : vec := fun q => fill_others r a 0 (skip r' q) - fill_others r a 0 r'.

Lemma rebase_same J r r' a a' : (forall q, (q < J - 1)%nat -> a' q = rebase r r' a q) -> same_differences J r r' a a'.
Proof.
  intros H. exists (fill_others r a 0), (fun j => fill_others r a 0 j - fill_others r a 0 r').
  split; [apply fill_completes|]. split; [|intros; ring].
  split; [ring|]. split; intros q Hq Hr; rewrite H by exact Hq; unfold rebase, skip.
  - destruct (Nat.ltb_spec q r'); [reflexivity|lia].
  - destruct (Nat.ltb_spec q r'); [lia|reflexivity].
Qed.

Theorem C102_every_vector_has_a_counterpart J K k k' theta :
  same_type k k' -> kind_ok k J -> kind_ok k' J ->
  check_length_of_initial_values k J K theta = Ok tt ->
  exists theta', check_length_of_initial_values k' J K theta' = Ok tt /\ counterparts J K k k' theta theta'.
Proof.
  intros HT Hk Hk' Hl. apply check_length_ok in Hl. rewrite dims_eq in Hl by assumption.
  set (ns := num_shapes k J). set (ni := num_icpts k J).
  set (s := match k with KAsym s _ => s | _ => 0%nat end). set (s' := match k' with KAsym s _ => s | _ => 0%nat end).
  set (r := match kind_iref k with Some r => r | None => 0%nat end). set (r' := match kind_iref k' with Some r => r | None => 0%nat end).
  exists (mkArr (alen theta) (fun q =>
    if (q <? ns)%nat then match k with KAsym _ _ => rebase s s' (aget theta) q | _ => aget theta q end
    else if (q <? ns + ni)%nat then rebase r r' (fun e => aget theta (ns + e)%nat) (q - ns)%nat
    else aget theta q)).
  split.
  { unfold check_length_of_initial_values. cbn [alen]. rewrite dims_eq by exact Hk'. rewrite Hl.
    replace (num_shapes k J + num_icpts k J + K)%nat with (num_shapes k' J + num_icpts k' J + K)%nat; [rewrite Nat.eqb_refl; reflexivity|].
    destruct k as [|[q|]|[q|]|[q|]|u [q|]], k' as [|[q'|]|[q'|]|[q'|]|u' [q'|]]; cbn in HT; try contradiction; reflexivity. }
  destruct k as [|[q|]|[q|]|[q|]|u [q|]], k' as [|[q'|]|[q'|]|[q'|]|u' [q'|]]; cbn in HT; try contradiction;
    cbn [counterparts same_optional_differences]; cbn in ns, ni, s, s', r, r'; repeat split; try exact I.
  all: try (apply rebase_same; intros e He; subst ns ni s s' r r'; cbn [aget num_shapes num_icpts kind_iref];
    repeat match goal with |- context [(?a <? ?b)%nat] => destruct (Nat.ltb_spec a b); try lia end;
    try reflexivity; f_equal; lia).
  all: try (intros e He; subst ns ni s s' r r'; cbn [aget num_shapes num_icpts kind_iref] in *;
    repeat match goal with |- context [(?a <? ?b)%nat] => destruct (Nat.ltb_spec a b); try lia end; reflexivity).
Qed.

(** ** Case: intercepts (1, 3) relative to the first of three alternatives are (-3, -2)
    relative to the third. *)
Definition ex_first : arr := mkArr 3 (fun q => match q with 0%nat => 1 | 1%nat => 3 | _ => 1 / 2 end).
Definition ex_third : arr := mkArr 3 (fun q => match q with 0%nat => -3 | 1%nat => -2 | _ => 1 / 2 end).

Example ex_counterparts : counterparts 3 1 (KClog (Some 0%nat)) (KClog (Some 2%nat)) ex_first ex_third.
Proof.
  split.
  - exists (fun j => match j with 0%nat => 0 | 1%nat => 1 | _ => 3 end), (fun j => match j with 0%nat => -3 | 1%nat => -2 | _ => 0 end).
    split; [|split].
    + split; [reflexivity|]. split; intros [|[|q]] H1 H2; try lia; cbn; reflexivity.
    + split; [reflexivity|]. split; intros [|[|q]] H1 H2; try lia; cbn; reflexivity.
    + intros [|[|[|i]]] [|[|[|j]]] Hi Hj; try lia; cbn; ring.
  - intros q Hq. cbn in Hq. assert (q = 2%nat) by lia. subst q. reflexivity.
Qed.

Example ex_reference_setting : exists mp, create_long_form_mappings ex_cols None = Ok mp /\
  let D := data_of ex_cols mp 1 (fun _ _ => 0) None None in
  d_J D = 3%nat /\ kind_ok (KClog (Some 0%nat)) 3 /\ kind_ok (KClog (Some 2%nat)) 3 /\
  check_length_of_initial_values (KClog (Some 0%nat)) 3 1 ex_first = Ok tt /\
  check_length_of_initial_values (KClog (Some 2%nat)) 3 1 ex_third = Ok tt /\
  no_clipping (KClog (Some 0%nat)) D ex_first /\ no_clipping (KClog (Some 2%nat)) D ex_third.
Proof.
  eexists. split; [reflexivity|]. cbv zeta. split; [reflexivity|].
  split; [repeat split; cbn; lia|]. split; [repeat split; cbn; lia|]. split; [reflexivity|]. split; [reflexivity|].
  set (mp := mkMappings _ _ _ _ _). set (D := data_of ex_cols mp 1 (fun _ _ => 0) None None).
  assert (Hmp : create_long_form_mappings ex_cols None = Ok mp) by reflexivity.
  pose proof (data_alt_indicator ex_cols None mp 1 (fun _ _ => 0) None None Hmp eq_refl) as HA. fold D in HA.
  assert (B : 0 < ln (exp (exp 0) - 1) < 700).
  { rewrite exp_0. pose proof (exp_ineq1 1 ltac:(lra)). pose proof exp_le_3.
    split; [rewrite <- ln_1; apply ln_increasing; lra|].
    apply Rlt_trans with (ln (exp 2)); [|rewrite ln_exp; lra].
    apply ln_increasing; [lra|]. apply Rlt_trans with (exp 1); [lra|apply exp_increasing; lra]. }
  assert (V : forall b i, sys_utilities D b i = 0).
  { intros b i. unfold sys_utilities, mvec. cbn. ring. }
  assert (G : forall r a, (forall j, (j < 3)%nat -> -10 < fill_others r (aget a) 0 j < 10) ->
    forall b i, (i < d_N D)%nat ->
    -700 < cloglog_transform (Some r) 3 (d_A D) (sys_utilities D b) None (Some a) i < 700).
  { intros r a H b i Hi. unfold cloglog_transform. rewrite V. destruct (Rle_dec 3.7 0); [lra|].
    unfold long_intercepts. rewrite (indicator_dot _ _ _ _ _ i HA Hi).
    assert (alt_of (alt_ids ex_cols) i < 3)%nat as Hj by exact (proj1 (HA i Hi)).
    specialize (H _ Hj). assert (ln (exp (exp 0) - 1) < 690); [|lra].
    apply Rlt_trans with (ln (exp 2)); [|rewrite ln_exp; lra]. rewrite exp_0. pose proof (exp_ineq1 1 ltac:(lra)).
    apply ln_increasing; [lra|]. apply Rlt_trans with (exp 1); [lra|apply exp_increasing; lra]. }
  split; intros i Hi; apply G; try exact Hi; intros [|[|[|j]]] Hj; try lia; cbn; lra.
Qed.

Print Assumptions C102_utilities_shift_together.
Print Assumptions C102_same_probabilities.
Print Assumptions C102_same_log_likelihood.
Print Assumptions C102_every_vector_has_a_counterpart.
