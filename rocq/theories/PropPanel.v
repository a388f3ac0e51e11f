(** Property C49: panel_predict. *)
From Coq Require Import String ZArith List Reals Lra Lia Arith Bool.
From Coquelicot Require Import Coquelicot.
From Verif Require Import Res Vec Arr SpecLogit ChoiceCalcs ChoiceFacts Transforms Ids Mappings
  MappingFacts LongData LogitFacts RowDeriv HessFacts ProbFacts PropMappings PropProbs PropGradient
  PropGradientLimits PropHessian NestedCalcs NestedFacts PropNested MixedCalcs MixedFacts PropMixed.
Import ListNotations.
Open Scope R_scope.

(** ** Boolean indexing *)
Lemma kept_S n mask : kept (S n) mask = kept n mask ++ (if mask n then [n] else []).
Proof. unfold kept. rewrite seq_S, filter_app. simpl. destruct (mask n); reflexivity. Qed.

Lemma kept_lt n mask a : (a < length (kept n mask))%nat -> (nth a (kept n mask) 0 < n)%nat /\ mask (nth a (kept n mask) 0%nat) = true.
Proof.
  intros Ha. pose proof (nth_In (kept n mask) 0%nat Ha) as Hin. apply filter_In in Hin.
  destruct Hin as (H1 & H2). apply in_seq in H1. split; [lia|exact H2].
Qed.

Lemma sumn_kept n mask g :
  sumn (length (kept n mask)) (fun a => g (nth a (kept n mask) 0%nat)) = sumn n (fun i => if mask i then g i else 0).
Proof.
  induction n as [|n IH]; [reflexivity|]. rewrite kept_S. simpl. rewrite <- IH. rewrite app_length.
  destruct (mask n) eqn:E; simpl.
  - rewrite Nat.add_1_r. simpl. f_equal.
    + apply sumn_ext. intros a Ha. rewrite app_nth1 by exact Ha. reflexivity.
    + rewrite nth_middle. reflexivity.
  - rewrite Nat.add_0_r, app_nil_r. lra.
Qed.

Lemma kept_rank n mask k : (k < n)%nat -> mask k = true ->
  (length (kept k mask) < length (kept n mask))%nat /\ nth (length (kept k mask)) (kept n mask) 0%nat = k.
Proof.
  intros Hk Hm. assert (G : forall m, exists l, kept (S k + m) mask = kept k mask ++ k :: l).
  { induction m as [|m [l IH]].
    - exists []. rewrite Nat.add_0_r, kept_S, Hm. reflexivity.
    - replace (S k + S m)%nat with (S (S k + m)) by lia. rewrite kept_S, IH.
      exists (l ++ if mask (S k + m)%nat then [(S k + m)%nat] else []). rewrite <- app_assoc. reflexivity. }
  destruct (G (n - S k)%nat) as [l El]. replace (S k + (n - S k))%nat with n in El by lia. rewrite El.
  split; [rewrite app_length; simpl; lia|apply nth_middle].
Qed.

Lemma kept_filter (l : list Z) (f : Z -> bool) :
  map (fun k => nth k l 0%Z) (kept (length l) (fun k => f (nth k l 0%Z))) = filter f l.
Proof.
  induction l as [|x l IH] using rev_ind; [reflexivity|].
  rewrite app_length. simpl. rewrite Nat.add_1_r, kept_S, filter_app. simpl. rewrite nth_middle. rewrite map_app. f_equal.
  - rewrite <- IH. clear IH.
    assert (G : forall n, (n <= length l)%nat ->
       map (fun k => nth k (l ++ [x]) 0%Z) (kept n (fun k => f (nth k (l ++ [x]) 0%Z))) =
       map (fun k => nth k l 0%Z) (kept n (fun k => f (nth k l 0%Z)))).
    { induction n as [|n IHn]; intros Hn; [reflexivity|]. rewrite !kept_S, !map_app, IHn by lia.
      rewrite app_nth1 by lia. f_equal. destruct (f (nth n l 0%Z)); [simpl; rewrite app_nth1 by lia|]; reflexivity. }
    apply G. lia.
  - destruct (f x); [simpl; rewrite nth_middle|]; reflexivity.
Qed.

Lemma kept_ext n m1 m2 : (forall i, (i < n)%nat -> m1 i = m2 i) -> kept n m1 = kept n m2.
Proof. intros H. apply filter_ext_in. intros i Hi. apply in_seq in Hi. apply H. lia. Qed.

(** ** Filtered mapping matrices *)
Lemma zsum_single u x (v : nat -> Z) :
  NoDup u -> (forall j, (j < length u)%nat -> v j = if (nth j u 0 =? x)%Z then 1%Z else 0%Z) ->
  zsum (map v (seq 0 (length u))) = if zmem x u then 1%Z else 0%Z.
Proof.
  assert (G : forall u a (v : nat -> Z), NoDup u ->
    (forall j, (j < length u)%nat -> v (a + j)%nat = if (nth j u 0 =? x)%Z then 1%Z else 0%Z) ->
    zsum (map v (seq a (length u))) = if zmem x u then 1%Z else 0%Z).
  { clear. induction u as [|y u IH]; intros a v Hn Hv; [reflexivity|]. inversion Hn; subst.
    simpl. pose proof (Hv 0%nat ltac:(simpl; lia)) as E. simpl in E. rewrite Nat.add_0_r in E. rewrite E.
    unfold zsum in IH |- *. rewrite (IH (S a)); [|assumption|].
    - rewrite (Z.eqb_sym y x). destruct (Z.eqb_spec x y) as [->|Ne].
      + destruct (zmem y u) eqn:M; [apply zmem_In in M; contradiction|]. reflexivity.
      + reflexivity.
    - intros j Hj. specialize (Hv (S j) ltac:(simpl; lia)). simpl in Hv. rewrite Nat.add_succ_r in Hv. exact Hv. }
  intros Hn Hv. apply (G u 0%nat); [exact Hn|exact Hv].
Qed.

Lemma zsum_ge0 {A} (f : A -> Z) l : (forall x, In x l -> (0 <= f x)%Z) -> (0 <= zsum (map f l))%Z.
Proof.
  unfold zsum. induction l as [|x l IH]; intros H; simpl; [lia|].
  pose proof (H x (or_introl eq_refl)). specialize (IH (fun y Hy => H y (or_intror Hy))). lia.
Qed.

Lemma zsum_pos {A} (f : A -> Z) l : (forall x, In x l -> (0 <= f x)%Z) ->
  (zsum (map f l) <> 0%Z <-> exists x, In x l /\ f x <> 0%Z).
Proof.
  induction l as [|x l IH]; intros H; simpl.
  - split; [congruence|intros (y & [] & _)].
  - pose proof (H x (or_introl eq_refl)). pose proof (zsum_ge0 f l (fun y Hy => H y (or_intror Hy))) as G.
    specialize (IH (fun y Hy => H y (or_intror Hy))). unfold zsum in *. split.
    + intros Hne. destruct (Z.eq_dec (f x) 0) as [Z0|Z0].
      * rewrite Z0 in Hne. simpl in Hne. apply IH in Hne. destruct Hne as (y & Hy & Fy). exists y. auto.
      * exists x. auto.
    + intros (y & [->|Hy] & Fy); [lia|]. assert (fold_right Z.add 0%Z (map f l) <> 0%Z) by (apply IH; eauto). lia.
Qed.

Lemma filter_mapping_indicator ids u incl :
  NoDup u -> (forall x, In x ids -> In x u) ->
  let m := filter_mapping (create_sparse_mapping ids (Some u)) incl in
  let rows := kept (length ids) incl in
  let ids' := map (fun i => nth i ids 0%Z) rows in
  let u' := filter (fun z => zmem z ids') u in
  dm_rows m = length rows /\ dm_cols m = length u' /\
  indicator_of (length rows) (length u') (dmat_R m) (fun a => index_of (nth a ids' 0%Z) u').
Proof.
  intros Hn Hin m rows ids' u'.
  set (sm := create_sparse_mapping ids (Some u)) in *.
  set (masked := fun i j => (sget sm i j * (if incl i then 1 else 0))%Z).
  assert (Hget : forall i j, (i < length ids)%nat -> (j < length u)%nat ->
     sget sm i j = if (nth j u 0 =? nth i ids 0)%Z then 1%Z else 0%Z).
  { intros i j Hi Hj. unfold sm. rewrite sget_mapping by exact Hn.
    destruct (Nat.ltb_spec i (length ids)); [|lia].
    assert (Hx : In (nth i ids 0%Z) u) by (apply Hin, nth_In; exact Hi).
    pose proof (proj2 (zmem_In _ _) Hx) as Hz. rewrite Hz. simpl.
    destruct (Nat.eqb_spec (index_of (nth i ids 0%Z) u) j) as [Ej|Ej].
    - rewrite <- Ej, nth_index_of by exact Hx. rewrite Z.eqb_refl. reflexivity.
    - destruct (Z.eqb_spec (nth j u 0%Z) (nth i ids 0%Z)) as [Eq|]; [|reflexivity].
      exfalso. apply Ej. rewrite <- Eq. apply index_of_nth; assumption. }
  (* the rows that survive *)
  assert (Erows : kept (s_rows sm) (fun i => negb (zsum (map (fun j => masked i j) (seq 0 (s_cols sm))) =? 0)%Z) = rows).
  { change (s_rows sm) with (length ids). change (s_cols sm) with (length u). apply kept_ext. intros i Hi.
    destruct (incl i) eqn:Ei.
    - rewrite (zsum_single u (nth i ids 0%Z)); [|exact Hn|].
      + rewrite (proj2 (zmem_In _ _) (Hin _ (nth_In ids 0%Z Hi))). reflexivity.
      + intros j Hj. unfold masked. rewrite Ei, Z.mul_1_r. apply Hget; assumption.
    - assert (Z0 : zsum (map (fun j => masked i j) (seq 0 (length u))) = 0%Z).
      { destruct (Z.eq_dec (zsum (map (fun j => masked i j) (seq 0 (length u)))) 0) as [E|E]; [exact E|]. exfalso.
        assert (Zall : forall j, masked i j = 0%Z) by (intros j; unfold masked; rewrite Ei; apply Z.mul_0_r).
        apply zsum_pos in E; [|intros j _; rewrite Zall; lia]. destruct E as (j & _ & Hj). apply Hj. apply Zall. }
      rewrite Z0. reflexivity. }
  (* the columns that survive *)
  set (colmask := fun j => negb (zsum (map (fun i => masked i j) rows) =? 0)%Z).
  assert (Ecol : forall j, (j < length u)%nat -> colmask j = zmem (nth j u 0%Z) ids').
  { intros j Hj. unfold colmask.
    assert (Hnn : forall i, In i rows -> (0 <= masked i j)%Z).
    { intros i Hi. apply filter_In in Hi. destruct Hi as (Hi & Ei). apply in_seq in Hi.
      unfold masked. rewrite Ei, Hget by (try exact Hj; lia). destruct (_ =? _)%Z; lia. }
    destruct (zmem (nth j u 0%Z) ids') eqn:Em.
    - apply negb_true_iff. apply Z.eqb_neq. apply (zsum_pos _ _ Hnn).
      apply zmem_In in Em. apply in_map_iff in Em. destruct Em as (i & Ei & Hi). exists i. split; [exact Hi|].
      pose proof Hi as Hi'. apply filter_In in Hi'. destruct Hi' as (Hi' & Inc). apply in_seq in Hi'.
      unfold masked. rewrite Inc, Hget by (try exact Hj; lia). rewrite Ei, Z.eqb_refl. discriminate.
    - apply negb_false_iff. apply Z.eqb_eq.
      destruct (Z.eq_dec (zsum (map (fun i => masked i j) rows)) 0) as [E|E]; [exact E|]. exfalso.
      apply (zsum_pos _ _ Hnn) in E. destruct E as (i & Hi & Hv).
      pose proof Hi as Hi'. apply filter_In in Hi'. destruct Hi' as (Hi' & Inc). apply in_seq in Hi'.
      unfold masked in Hv. rewrite Inc, Hget in Hv by (try exact Hj; lia).
      destruct (Z.eqb_spec (nth j u 0%Z) (nth i ids 0%Z)) as [Eq|]; [|apply Hv; reflexivity].
      assert (zmem (nth j u 0%Z) ids' = true); [|congruence]. apply zmem_In. rewrite Eq.
      apply in_map_iff. exists i. split; [reflexivity|exact Hi]. }
  set (cols := kept (length u) colmask).
  assert (Ecols : map (fun j => nth j u 0%Z) cols = u').
  { unfold cols. rewrite (kept_ext _ _ (fun j => zmem (nth j u 0%Z) ids')) by exact Ecol.
    apply (kept_filter u (fun z => zmem z ids')). }
  assert (Em : m = mkDmat (length rows) (length cols) (fun a b => masked (nth a rows 0%nat) (nth b cols 0%nat))).
  { assert (E0 : m =
      let rows0 := kept (s_rows sm) (fun i => negb (zsum (map (fun j => masked i j) (seq 0 (s_cols sm))) =? 0)%Z) in
      let cols0 := kept (length u) (fun j => negb (zsum (map (fun i => masked i j) rows0) =? 0)%Z) in
      mkDmat (length rows0) (length cols0) (fun a b => masked (nth a rows0 0%nat) (nth b cols0 0%nat))) by reflexivity.
    rewrite E0, Erows. reflexivity. }
  assert (Elen : length cols = length u') by (rewrite <- Ecols, map_length; reflexivity).
  rewrite Em. cbn [dm_rows dm_cols]. split; [reflexivity|]. split; [exact Elen|].
  assert (Hn' : NoDup u') by (apply NoDup_filter'; exact Hn).
  intros a Ha. destruct (kept_lt (length ids) incl a Ha) as (Hra & Hinc). fold rows in Hra, Hinc.
  assert (Enth : nth a ids' 0%Z = nth (nth a rows 0%nat) ids 0%Z).
  { unfold ids'. rewrite (nth_indep _ 0%Z (nth 0 ids 0%Z)) by (rewrite map_length; exact Ha). apply (map_nth (fun i => nth i ids 0%Z)). }
  assert (Hin' : In (nth a ids' 0%Z) u').
  { apply filter_In. split.
    - rewrite Enth. apply Hin, nth_In. exact Hra.
    - apply zmem_In. apply nth_In. unfold ids'. rewrite map_length. exact Ha. }
  split; [apply index_of_lt; exact Hin'|]. intros b Hb. unfold dmat_R. cbn [dm_ent]. unfold masked. rewrite Hinc, Z.mul_1_r.
  rewrite <- Elen in Hb. destruct (kept_lt (length u) colmask b Hb) as (Hcb & _). fold cols in Hcb.
  rewrite Hget by assumption.
  assert (Eb : nth b u' 0%Z = nth (nth b cols 0%nat) u 0%Z).
  { rewrite <- Ecols. rewrite (nth_indep _ 0%Z (nth 0 u 0%Z)) by (rewrite map_length; exact Hb). apply (map_nth (fun j => nth j u 0%Z)). }
  rewrite <- Eb, <- Enth.
  destruct (Nat.eqb_spec (index_of (nth a ids' 0%Z) u') b) as [Ej|Ej].
  - rewrite <- Ej, nth_index_of by exact Hin'. rewrite Z.eqb_refl. reflexivity.
  - destruct (Z.eqb_spec (nth b u' 0%Z) (nth a ids' 0%Z)) as [Eq|]; [|reflexivity].
    exfalso. apply Ej. rewrite <- Eq. apply index_of_nth; [exact Hn'|]. rewrite <- Elen. exact Hb.
Qed.

(** ** Specification of panel prediction *)

(** Persons (mixing units) present in both tables, in their order of first
    appearance in the new and in the original table. *)
Definition returning_new (I : panel_input) : list Z :=
  filter (fun z => zmem z (mix_of (pi_old I))) (first_seen (mix_of (pi_new I))).
Definition returning_old (I : panel_input) : list Z :=
  filter (fun z => zmem z (mix_of (pi_new I))) (first_seen (mix_of (pi_old I))).

(** Utility of row i of the original table under the r-th draw of person [v]
    (draws are attached to the persons of the new table). *)
Definition past_utility (I : panel_input) (draws : list mat) (v : Z) (r i : nat) : R :=
  sumn (pi_K I) (fun k => pi_old_X I i k * aget (pi_coefs I) k) +
  sumn (length (pi_pos I)) (fun p =>
    aget (pi_coefs I) (pi_K I + p)%nat * draw_of (pi_new I) draws p v r * pi_old_X I i (nth p (pi_pos I) 0%nat)).

(** Probability of person u's past choices under the r-th draw of person v. *)
Definition past_likelihood (I : panel_input) (draws : list mat) (v u : Z) (r : nat) : R :=
  unit_likelihood (pi_old I) (past_utility I draws v r) u.

(** Posterior weight of draw r for person u, computed with the draws of v. *)
Definition posterior (I : panel_input) (nR : nat) (draws : list mat) (v u : Z) (r : nat) : R :=
  past_likelihood I draws v u r / sumn nR (past_likelihood I draws v u).

(** The weight that person u's r-th draw should get. *)
Definition person_weight (I : panel_input) (nR : nat) (draws : list mat) (u : Z) (r : nat) : R :=
  if zmem u (mix_of (pi_old I)) then posterior I nR draws u u r else 1 / INR nR.

(** The person whose draws the code uses for u's past. *)
Definition partner (I : panel_input) (u : Z) : Z :=
  nth (index_of u (returning_old I)) (returning_new I) 0%Z.

Lemma zmem_first_seen x l : zmem x (first_seen l) = zmem x l.
Proof.
  destruct (zmem x l) eqn:E.
  - apply zmem_In in E. apply zmem_In. apply first_seen_In. exact E.
  - destruct (zmem x (first_seen l)) eqn:F; [|reflexivity]. exfalso.
    apply zmem_In in F. apply (proj1 (first_seen_In _ _)) in F. apply zmem_In in F. congruence.
Qed.

Lemma returning_In I u : In u (returning_new I) <-> In u (returning_old I).
Proof.
  unfold returning_new, returning_old. rewrite !filter_In, !zmem_In, !first_seen_In. tauto.
Qed.

Lemma returning_length I : length (returning_new I) = length (returning_old I).
Proof.
  apply Nat.le_antisymm; apply NoDup_incl_length;
    try (apply NoDup_filter'; apply first_seen_NoDup); intros u Hu; apply returning_In; exact Hu.
Qed.

Section Panel.
  Context (I : panel_input) (nR : nat) (draws : list mat) (mo : mappings) (ro : smat) (Ep : MData).
  Hypothesis Hmo : create_long_form_mappings (pi_old I) None = Ok mo.
  Hypothesis Hro : rows_to_mixers mo = Some ro.
  Hypothesis HL : mixing_ids_per_row (pi_old I).
  Hypothesis Hcont : units_contain_observations (pi_old I).
  Hypothesis H01 : choices_are_0_or_1 (pi_old I).
  Hypothesis HEp : panel_past_data I nR draws mo ro = Ok Ep.

  Local Notation old := (pi_old I).
  Local Notation N := (length (obs_ids old)).
  Let rows := kept (length (mix_of old)) (old_repeat I).
  Let row (a : nat) : nat := nth a rows 0%nat.

  Lemma old_repeat_eq i : old_repeat I i = zmem (nth i (mix_of old) 0%Z) (mix_of (pi_new I)).
  Proof. unfold old_repeat. rewrite original_order_first_seen. apply zmem_first_seen. Qed.

  Lemma row_ok a : (a < length rows)%nat -> (row a < N)%nat /\ old_repeat I (row a) = true.
  Proof. intros Ha. destruct (kept_lt _ _ a Ha) as (H1 & H2). refine (conj _ H2). apply (Nat.lt_le_trans _ _ _ H1). rewrite HL. apply le_n. Qed.

  Lemma old_ro : ro = create_sparse_mapping (mix_of old) (Some (first_seen (mix_of old))).
  Proof.
    pose proof Hmo as H. unfold create_long_form_mappings in H. apply bind_ok in H. destruct H as (q & _ & H).
    inversion H as [E]. rewrite <- E in Hro. cbn [rows_to_mixers] in Hro. unfold mix_of.
    destruct (mix_ids (pi_old I)) as [ids|]; [|discriminate]. inversion Hro. apply mapping_None_Some.
  Qed.

  Let ids_mix := map (fun i => nth i (mix_of old) 0%Z) rows.
  Let ids_obs := map (fun i => nth i (obs_ids old) 0%Z) rows.

  Lemma nth_rows l a : (a < length rows)%nat -> nth a (map (fun i => nth i l 0%Z) rows) 0%Z = nth (row a) l 0%Z.
  Proof.
    intros Ha. rewrite (nth_indep _ 0%Z (nth 0 l 0%Z)) by (rewrite map_length; exact Ha).
    apply (map_nth (fun i => nth i l 0%Z)).
  Qed.

  Lemma kept_units : filter (fun z => zmem z ids_mix) (first_seen (mix_of old)) = returning_old I.
  Proof.
    unfold returning_old. apply filter_ext_in. intros z Hz. apply (proj1 (first_seen_In _ _)) in Hz.
    destruct (zmem z (mix_of (pi_new I))) eqn:E.
    - apply zmem_In. unfold ids_mix. destruct (In_row _ _ Hz) as (i & Hi & Ei). apply in_map_iff. exists i.
      split; [exact Ei|]. apply filter_In. split; [apply in_seq; lia|]. rewrite old_repeat_eq, Ei. exact E.
    - destruct (zmem z ids_mix) eqn:F; [|reflexivity]. exfalso. apply zmem_In in F. apply in_map_iff in F.
      destruct F as (i & Ei & Hi). apply filter_In in Hi. destruct Hi as (_ & Hi). rewrite old_repeat_eq, Ei in Hi. congruence.
  Qed.

  (* the shape of the retained data *)
  Lemma past_shape :
    d_N (x_D Ep) = length rows /\ x_draws Ep = nR /\ x_mixers Ep = length (returning_old I) /\
    (forall a, d_y (x_D Ep) a = choice_vec old (row a)) /\
    indicator_of (length rows) (length (returning_old I)) (x_R Ep) (fun a => index_of (nth a ids_mix 0%Z) (returning_old I)) /\
    (exists u', NoDup u' /\ (forall a, (a < length rows)%nat -> In (nth a ids_obs 0%Z) u') /\
       indicator_of (length rows) (d_obs (x_D Ep)) (d_M (x_D Ep)) (fun a => index_of (nth a ids_obs 0%Z) u')) /\
    x_vars Ep = (pi_K I + length (pi_pos I))%nat /\
    (forall a r k, (k < pi_K I)%nat -> x_X Ep a r k = pi_old_X I (row a) k) /\
    (forall a r p, (a < length rows)%nat -> (p < length (pi_pos I))%nat ->
       x_X Ep a r (pi_K I + p)%nat = pi_old_X I (row a) (nth p (pi_pos I) 0%nat) *
         draw_of (pi_new I) draws p (partner I (nth (row a) (mix_of old) 0%Z)) r).
  Proof.
    pose proof HEp as H. unfold panel_past_data in H. 
    set (new_rows := kept _ (new_unique_repeats I)) in H.
    set (past_draws := map _ draws) in H.
    rewrite old_ro in H.
    set (pm := filter_mapping (create_sparse_mapping (mix_of old) (Some (first_seen (mix_of old)))) (old_repeat I)) in H.
    apply bind_ok in H. destruct H as ([vars x3] & Hx & H). cbn [fst snd] in H.
    destruct (mappings_ok _ _ _ Hmo) as (Eobs & _ & _).
    destruct (filter_mapping_indicator (mix_of old) (first_seen (mix_of old)) (old_repeat I)
      (first_seen_NoDup _) (fun x Hx => proj2 (first_seen_In _ _) Hx)) as (_ & Mc & Mi).
    fold pm in Mc, Mi. fold rows in Mc, Mi. fold ids_mix in Mc, Mi. rewrite kept_units in Mc, Mi.
    destruct (filter_mapping_indicator (obs_ids old) (first_seen (obs_ids old)) (old_repeat I)
      (first_seen_NoDup _) (fun x Hx => proj2 (first_seen_In _ _) Hx)) as (_ & Oc & Oi).
     rewrite <- Eobs in Oc, Oi.
    assert (Er : kept (length (obs_ids old)) (old_repeat I) = rows) by (unfold rows; rewrite HL; reflexivity).
    rewrite Er in Oc, Oi. fold ids_obs in Oc, Oi.
    destruct (expanded_ok _ _ _ _ _ _ _ _ Hx) as (E1 & E2 & E3 & E4 & E5 & E6).
    inversion H; subst Ep; clear H. cbn [x_D x_draws x_vars x_mixers x_R x_X d_N d_y d_obs d_M].
    split; [reflexivity|]. split; [reflexivity|]. split; [exact Mc|]. split; [reflexivity|]. split; [exact Mi|].
    split.
    { eexists. split; [|split; [|rewrite <- Oc in Oi; exact Oi]].
      - apply NoDup_filter'. apply first_seen_NoDup.
      - intros a Ha. apply filter_In. split.
        + apply first_seen_In. unfold ids_obs. rewrite nth_rows by exact Ha. apply nth_In. apply row_ok. exact Ha.
        + apply zmem_In. apply nth_In. unfold ids_obs. rewrite map_length. exact Ha. }
    split; [exact E1|]. split; [intros a r k Hk; rewrite E5 by exact Hk; reflexivity|].
    intros a r p Ha Hp. rewrite E6 by exact Hp. f_equal. unfold mdot.
    rewrite Mc.
    rewrite (indicator_dot (length rows) (length (returning_old I)) (dmat_R pm) _
      (fun u => nth p past_draws (fun _ _ => 0) u r) a Mi Ha : sumn _ _ = _).
    unfold ids_mix. rewrite nth_rows by exact Ha.
    set (u := nth (row a) (mix_of old) 0%Z). set (b := index_of u (returning_old I)).
    assert (Hu : In u (returning_old I)).
    { destruct (row_ok a Ha) as (H1 & H2). apply filter_In. rewrite first_seen_In. split.
      - apply nth_In. rewrite HL. exact H1.
      - rewrite old_repeat_eq in H2. exact H2. }
    assert (Hb : (b < length (returning_new I))%nat) by (rewrite returning_length; apply index_of_lt; exact Hu).
    assert (Ed : nth p past_draws (fun _ _ : nat => 0) b r = nth p draws (fun _ _ : nat => 0) (nth b new_rows 0%nat) r).
    { unfold past_draws. set (g := fun (x : mat) (u0 r0 : nat) => x (nth u0 new_rows 0%nat) r0).
      rewrite (nth_indep _ (fun _ _ : nat => 0) (g (fun _ _ : nat => 0)))
        by (unfold past_draws in E2; rewrite map_length in E2 |- *; lia).
      rewrite (map_nth g). reflexivity. }
    rewrite Ed.
    unfold draw_of. f_equal. fold u. unfold partner. fold b.
    (* the b-th kept position of the new units is that of the b-th returning person *)
    assert (Enew : map (fun k => nth k (first_seen (mix_of (pi_new I))) 0%Z) new_rows = returning_new I).
    { unfold new_rows, new_unique_repeats. rewrite !original_order_first_seen.
      rewrite (kept_filter (first_seen (mix_of (pi_new I))) (fun z => zmem z (first_seen (mix_of (pi_old I))))).
      unfold returning_new. apply filter_ext. intros z. apply zmem_first_seen. }
    assert (Hbl : (b < length new_rows)%nat) by (rewrite <- Enew, map_length in Hb; exact Hb).
    rewrite <- Enew. rewrite (nth_indep _ 0%Z (nth 0 (first_seen (mix_of (pi_new I))) 0%Z)) by (rewrite map_length; exact Hbl).
    rewrite (map_nth (fun k => nth k (first_seen (mix_of (pi_new I))) 0%Z)).
    symmetry. apply index_of_nth; [apply first_seen_NoDup|].
    unfold new_rows in Hbl |- *. rewrite original_order_first_seen in *. apply kept_lt. exact Hbl.
  Qed.

  Lemma past_vv a r : (a < length rows)%nat ->
    vv Ep (pi_coefs I) a r = past_utility I draws (partner I (nth (row a) (mix_of old) 0%Z)) r (row a).
  Proof.
    intros Ha. destruct past_shape as (_ & _ & _ & _ & _ & _ & EV & E5 & E6).
    unfold vv, sys_utilities, mvec, draw_data. cbn [d_K d_X]. rewrite EV, sumn_app. unfold past_utility. f_equal.
    - apply sumn_ext. intros k Hk. rewrite E5 by exact Hk. reflexivity.
    - apply sumn_ext. intros p Hp. rewrite E6 by assumption. ring.
  Qed.

  Hypothesis Hun : forall i r v, (i < N)%nat -> (r < nR)%nat -> In v (returning_new I) ->
    unclipped (past_utility I draws v r i).

  Lemma partner_In u : In u (returning_old I) -> In (partner I u) (returning_new I).
  Proof.
    intros Hu. unfold partner. apply nth_In. rewrite returning_length. apply index_of_lt. exact Hu.
  Qed.

  Lemma past_row_unit a : (a < length rows)%nat -> In (nth (row a) (mix_of old) 0%Z) (returning_old I).
  Proof.
    intros Ha. destruct (row_ok a Ha) as (H1 & H2). apply filter_In. rewrite first_seen_In. split.
    - apply nth_In. rewrite HL. exact H1.
    - rewrite old_repeat_eq in H2. exact H2.
  Qed.

  Lemma past_prob a r : (a < length rows)%nat -> (r < nR)%nat ->
    prob_array Ep (pi_coefs I) a r =
    logit_prob old (past_utility I draws (partner I (nth (row a) (mix_of old) 0%Z)) r) (row a).
  Proof.
    intros Ha Hr. destruct past_shape as (EN & _ & _ & _ & _ & (u' & Hn' & Hin' & HO) & _).
    rewrite <- EN in HO. rewrite (pa_eq Ep _ HO) by (rewrite EN; exact Ha). rewrite EN.
    set (v := partner I (nth (row a) (mix_of old) 0%Z)).
    assert (EU : forall b, (b < length rows)%nat -> nth (row b) (obs_ids old) 0%Z = nth (row a) (obs_ids old) 0%Z ->
       exp (clip_exponent (vv Ep (pi_coefs I) b r)) = exp (past_utility I draws v r (row b))).
    { intros b Hb Eb. rewrite past_vv by exact Hb.
      rewrite (Hcont (row b) (row a)); [|apply row_ok; exact Hb|apply row_ok; exact Ha|exact Eb].
      fold v. rewrite clip_id; [reflexivity|]. apply Hun; [apply row_ok; exact Hb|exact Hr|].
      unfold v. apply partner_In. apply past_row_unit. exact Ha. }
    unfold logit_prob. rewrite EU by (try exact Ha; reflexivity). f_equal.
    assert (Eo : forall b, (b < length rows)%nat ->
       (index_of (nth b ids_obs 0%Z) u' =? index_of (nth a ids_obs 0%Z) u')%nat
       = (nth (row b) (obs_ids old) 0 =? nth (row a) (obs_ids old) 0)%Z).
    { intros b Hb. pose proof (Hin' a Ha) as Ia. pose proof (Hin' b Hb) as Ib. unfold ids_obs in Ia, Ib |- *. rewrite nth_rows in Ia by exact Ha. rewrite nth_rows in Ib by exact Hb.
      rewrite !nth_rows by assumption.
      destruct (Z.eqb_spec (nth (row b) (obs_ids old) 0%Z) (nth (row a) (obs_ids old) 0%Z)) as [->|Ne]; [apply Nat.eqb_refl|].
      apply Nat.eqb_neq. intros E. apply Ne. apply (index_of_inj _ _ u'); assumption. }
    unfold osum.
    rewrite (sumn_ext _ _ (fun b => (fun i => if (nth i (obs_ids old) 0 =? nth (row a) (obs_ids old) 0)%Z
       then exp (past_utility I draws v r i) else 0) (nth b rows 0%nat))).
    2: { intros b Hb. cbv beta. rewrite Eo by exact Hb. fold (row b).
         destruct (Z.eqb_spec (nth (row b) (obs_ids old) 0%Z) (nth (row a) (obs_ids old) 0%Z)); [apply EU; assumption|reflexivity]. }
    unfold rows. rewrite (sumn_kept _ _ (fun i => if (nth i (obs_ids old) 0 =? nth (row a) (obs_ids old) 0)%Z
       then exp (past_utility I draws v r i) else 0)).
    unfold id_sum. rewrite HL. apply sumn_ext. intros i Hi.
    destruct (Z.eqb_spec (nth i (obs_ids old) 0%Z) (nth (row a) (obs_ids old) 0%Z)) as [Eq|]; [|destruct (old_repeat I i); reflexivity].
    assert (Hrep : old_repeat I i = true); [|rewrite Hrep; reflexivity].
    destruct (row_ok a Ha) as (H1 & H2). rewrite old_repeat_eq in *.
    rewrite (Hcont i (row a) Hi H1 Eq). exact H2.
  Qed.

  Lemma past_seq b r : (b < length (returning_old I))%nat -> (r < nR)%nat ->
    expanded_sequence_probs (d_N (x_D Ep)) (prob_array Ep (pi_coefs I)) (d_y (x_D Ep)) (x_R Ep) b r =
    past_likelihood I draws (partner I (nth b (returning_old I) 0%Z)) (nth b (returning_old I) 0%Z) r.
  Proof.
    intros Hb Hr. destruct past_shape as (EN & _ & EM & Ey & HU & _).
    rewrite <- EN, <- EM in HU. rewrite (seq_eq Ep _ HU) by (rewrite EM; exact Hb).
    set (u := nth b (returning_old I) 0%Z).
    unfold past_likelihood, unit_likelihood.
    set (V := past_utility I draws (partner I u) r).
    assert (Hu : In u (returning_old I)) by (apply nth_In; exact Hb).
    set (un := fun i : nat => if (nth i (mix_of old) 0 =? u)%Z then 1%nat else 0%nat).
    transitivity (exp (osum N un 1 (fun i => choice_vec old i * ln (logit_prob old V i)))).
    - f_equal. unfold lseq, osum. rewrite EN.
      rewrite (sumn_ext _ _ (fun a => (fun i => if (un i =? 1)%nat then choice_vec old i * ln (logit_prob old V i) else 0) (nth a rows 0%nat))).
      + unfold rows. rewrite (sumn_kept _ _ (fun i => if (un i =? 1)%nat then choice_vec old i * ln (logit_prob old V i) else 0)).
        rewrite HL. apply sumn_ext. intros i Hi. unfold un.
        destruct (Z.eqb_spec (nth i (mix_of old) 0%Z) u) as [Ei|]; [|destruct (old_repeat I i); reflexivity].
        assert (Hrep : old_repeat I i = true); [|rewrite Hrep; reflexivity].
        rewrite old_repeat_eq, Ei. apply filter_In in Hu. apply Hu.
      + intros a Ha. cbv beta. fold (row a). rewrite Ey. unfold un.
        assert (Eb : (index_of (nth a ids_mix 0%Z) (returning_old I) =? b)%nat = (nth (row a) (mix_of old) 0 =? u)%Z).
        { unfold ids_mix. rewrite nth_rows by exact Ha. pose proof (past_row_unit a Ha) as Hin.
          destruct (Z.eqb_spec (nth (row a) (mix_of old) 0%Z) u) as [->|Ne].
          - apply Nat.eqb_eq. unfold u. apply index_of_nth; [apply NoDup_filter'; apply first_seen_NoDup|exact Hb].
          - apply Nat.eqb_neq. intros E. apply Ne. unfold u. rewrite <- E. symmetry. apply nth_index_of. exact Hin. }
        rewrite Eb. destruct (Z.eqb_spec (nth (row a) (mix_of old) 0%Z) u) as [Eu|]; [|reflexivity].
        cbn [Nat.eqb]. rewrite past_prob by assumption. rewrite Eu. reflexivity.
    - rewrite (exp_osum_prodn N un 1 (choice_vec old) (chosen old)).
      + apply prodn_ext. intros i Hi. unfold un. destruct (nth i (mix_of old) 0 =? u)%Z; reflexivity.
      + intros i Hi. destruct H01 as (c & Ec & H0). unfold choice_vec, chosen. rewrite Ec.
        destruct (H0 i Hi) as [E|E]; rewrite E; reflexivity.
      + intros i Hi. unfold logit_prob. apply Rdiv_lt_0_compat; [apply exp_pos|].
        apply id_sum_pos; [apply nth_In; exact Hi|intros; apply exp_pos].
  Qed.

  (* weights per unit of the new table *)
  Lemma pw_new k r : (k < length (first_seen (mix_of (pi_new I))))%nat ->
    ~ In (nth k (first_seen (mix_of (pi_new I))) 0%Z) (mix_of old) ->
    panel_weights I Ep k r = 1 / INR nR.
  Proof.
    intros Hk Hn. destruct past_shape as (_ & Er & _). unfold panel_weights, assign_rows.
    assert (E : new_unique_repeats I k = false).
    { unfold new_unique_repeats. rewrite !original_order_first_seen, zmem_first_seen.
      apply Bool.not_true_iff_false. rewrite zmem_In. exact Hn. }
    rewrite E, Bool.andb_false_r. unfold equal_weights. rewrite Er. reflexivity.
  Qed.

  Hypothesis HR1 : nR <> 1%nat.

  Lemma bc_past : bc_cols Ep = nR /\ bc_probs Ep (pi_coefs I) = prob_array Ep (pi_coefs I).
  Proof.
    destruct past_shape as (_ & Er & _).
    assert (HE : x_draws Ep <> 1%nat) by (rewrite Er; exact HR1).
    destruct (bc_many Ep HE) as (B1 & B2 & _).
    rewrite B1, B2. split; [exact Er|reflexivity].
  Qed.

  Lemma pw_old k r : (k < length (first_seen (mix_of (pi_new I))))%nat ->
    In (nth k (first_seen (mix_of (pi_new I))) 0%Z) (mix_of old) ->
    let u := nth k (first_seen (mix_of (pi_new I))) 0%Z in
    let sq := expanded_sequence_probs (d_N (x_D Ep)) (prob_array Ep (pi_coefs I)) (d_y (x_D Ep)) (x_R Ep) in
    In u (returning_old I) /\
    panel_weights I Ep k r = sq (index_of u (returning_old I)) r / sumn nR (sq (index_of u (returning_old I))).
  Proof.
    intros Hk Hin u sq. destruct past_shape as (_ & Er & _).
    assert (Hu : In u (returning_old I)).
    { apply filter_In. rewrite first_seen_In, zmem_In. split; [exact Hin|].
      apply first_seen_In. apply nth_In. exact Hk. }
    split; [exact Hu|].
    assert (E : new_unique_repeats I k = true).
    { unfold new_unique_repeats. rewrite !original_order_first_seen, zmem_first_seen. apply zmem_In. exact Hin. }
    unfold panel_weights, assign_rows. rewrite E, Bool.andb_true_r. rewrite !original_order_first_seen.
    rewrite (proj2 (Nat.ltb_lt _ _) Hk). destruct bc_past as (-> & ->).
    rewrite (filter_ext (fun z => zmem z (first_seen (mix_of (pi_new I)))) (fun z => zmem z (mix_of (pi_new I))))
      by (intros; apply zmem_first_seen).
    fold (returning_old I).
    rewrite (filter_ext (fun z => zmem z (first_seen (mix_of (pi_old I)))) (fun z => zmem z (mix_of (pi_old I))))
      by (intros; apply zmem_first_seen).
    fold (returning_new I). unfold mdot. fold sq.
    assert (Ea : nth (length (kept k (new_unique_repeats I))) (returning_new I) 0%Z = u).
    { destruct (kept_rank (length (first_seen (mix_of (pi_new I)))) (new_unique_repeats I) k Hk E) as (Hl & Hnth).
      assert (Enew : map (fun j => nth j (first_seen (mix_of (pi_new I))) 0%Z)
          (kept (length (first_seen (mix_of (pi_new I)))) (new_unique_repeats I)) = returning_new I).
      { unfold new_unique_repeats. rewrite !original_order_first_seen.
        rewrite (kept_filter (first_seen (mix_of (pi_new I))) (fun z => zmem z (first_seen (mix_of (pi_old I))))).
        unfold returning_new. apply filter_ext. intros z. apply zmem_first_seen. }
      rewrite <- Enew. rewrite (nth_indep _ 0%Z (nth 0 (first_seen (mix_of (pi_new I))) 0%Z)) by (rewrite map_length; exact Hl).
      rewrite (map_nth (fun j => nth j (first_seen (mix_of (pi_new I))) 0%Z)), Hnth. reflexivity. }
    rewrite Ea. set (b0 := index_of u (returning_old I)).
    rewrite (sumn_ext _ _ (fun b => if (b =? b0)%nat then (fun b => sq b r / sumn nR (sq b)) b else 0)).
    - rewrite sumn_single; [reflexivity|]. apply index_of_lt. exact Hu.
    - intros b Hb. cbv beta. destruct (Nat.eqb_spec b b0) as [->|Ne].
      + unfold b0. rewrite nth_index_of by exact Hu. rewrite Z.eqb_refl. ring.
      + destruct (Z.eqb_spec u (nth b (returning_old I) 0%Z)) as [Eu|]; [|ring].
        exfalso. apply Ne. unfold b0. rewrite Eu. symmetry. apply index_of_nth; [apply NoDup_filter'; apply first_seen_NoDup|exact Hb].
  Qed.

  Lemma pw_probability_vector k : (0 < nR)%nat -> (k < length (first_seen (mix_of (pi_new I))))%nat ->
    (forall r, 0 < panel_weights I Ep k r) /\ sumn nR (panel_weights I Ep k) = 1.
  Proof.
    intros HR Hk. assert (HRp : 0 < INR nR) by (apply lt_0_INR; exact HR).
    destruct (in_dec Z.eq_dec (nth k (first_seen (mix_of (pi_new I))) 0%Z) (mix_of old)) as [Hin|Hn].
    - set (b := index_of (nth k (first_seen (mix_of (pi_new I))) 0%Z) (returning_old I)).
      set (sq := expanded_sequence_probs (d_N (x_D Ep)) (prob_array Ep (pi_coefs I)) (d_y (x_D Ep)) (x_R Ep)).
      assert (E : forall r, panel_weights I Ep k r = sq b r / sumn nR (sq b)) by (intros r; apply (pw_old k r Hk Hin)).
      assert (Hsq : forall r, 0 < sq b r).
      { intros r. destruct (pw_old k r Hk Hin) as (Hu & _). unfold sq.
        destruct past_shape as (EN & _ & EM & Ey & HU & _).
        rewrite <- EN, <- EM in HU. rewrite (seq_eq Ep _ HU); [apply exp_pos|]. rewrite EM. apply index_of_lt. exact Hu. }
      assert (HS : 0 < sumn nR (sq b)) by (apply (sumn_pos nR _ 0%nat); [intros; left; apply Hsq|exact HR|apply Hsq]).
      split; [intros r; rewrite E; apply Rdiv_lt_0_compat; [apply Hsq|exact HS]|].
      rewrite (sumn_ext nR (panel_weights I Ep k) (fun r => sq b r / sumn nR (sq b))) by (intros; apply E).
      rewrite sumn_div. field. apply Rgt_not_eq. exact HS.
    - split; [intros r; rewrite (pw_new k r Hk Hn); apply Rdiv_lt_0_compat; lra|].
      rewrite (sumn_ext nR (panel_weights I Ep k) (fun _ => 1 / INR nR)) by (intros; apply pw_new; assumption).
      rewrite sumn_const. field. lra.
  Qed.
End Panel.

(** The weight the code gives to draw r of person u: its past is evaluated with the
    draws of [partner I u]. *)
Definition code_weight (I : panel_input) (nR : nat) (draws : list mat) (u : Z) (r : nat) : R :=
  if zmem u (mix_of (pi_old I)) then posterior I nR draws (partner I u) u r else 1 / INR nR.

Lemma panel_weights_eq I nR draws mo ro Ep k r :
  create_long_form_mappings (pi_old I) None = Ok mo -> rows_to_mixers mo = Some ro ->
  mixing_ids_per_row (pi_old I) -> units_contain_observations (pi_old I) -> choices_are_0_or_1 (pi_old I) ->
  panel_past_data I nR draws mo ro = Ok Ep -> nR <> 1%nat ->
  (forall i r v, (i < length (obs_ids (pi_old I)))%nat -> (r < nR)%nat -> In v (returning_new I) ->
    unclipped (past_utility I draws v r i)) ->
  (k < length (first_seen (mix_of (pi_new I))))%nat -> (r < nR)%nat ->
  panel_weights I Ep k r = code_weight I nR draws (nth k (first_seen (mix_of (pi_new I))) 0%Z) r.
Proof.
  intros Hmo Hro HL Hcont H01 HEp HR1 Hun Hk Hr. unfold code_weight.
  set (u := nth k (first_seen (mix_of (pi_new I))) 0%Z).
  destruct (zmem u (mix_of (pi_old I))) eqn:Ez.
  - apply zmem_In in Ez.
    destruct (pw_old I nR draws mo ro Ep Hmo Hro HL HEp HR1 k r Hk Ez) as (Hu & Ew). fold u in Hu, Ew.
    assert (Hb : (index_of u (returning_old I) < length (returning_old I))%nat) by (apply index_of_lt; exact Hu).
    assert (Eu : nth (index_of u (returning_old I)) (returning_old I) 0%Z = u) by (apply nth_index_of; exact Hu).
    rewrite Ew. unfold posterior.
    rewrite (past_seq I nR draws mo ro Ep Hmo Hro HL Hcont H01 HEp Hun _ r Hb Hr), Eu. f_equal.
    apply sumn_ext. intros r' Hr'.
    rewrite (past_seq I nR draws mo ro Ep Hmo Hro HL Hcont H01 HEp Hun _ r' Hb Hr'), Eu. reflexivity.
  - apply (pw_new I nR draws mo ro Ep Hmo Hro HL HEp k r Hk). fold u. rewrite <- zmem_In. congruence.
Qed.

(** ** The observable result *)
Definition long_probs_returned (r : prob_result) : option vec :=
  match r with LongProbs l => Some l | BothProbs _ l => Some l | ChosenProbs _ => None end.

Definition panel_draws (I : panel_input) (rvs : nat -> mat) : list mat := map rvs (seq 0 (length (pi_pos I))).

Lemma panel_predict_ok I nR rvs rlp res :
  panel_predict I nR rvs rlp = Ok res -> nR <> 1%nat ->
  (0 < nR)%nat /\
  exists mn mo ro En Ep, create_long_form_mappings (pi_new I) None = Ok mn /\
    create_long_form_mappings (pi_old I) None = Ok mo /\ rows_to_mixers mo = Some ro /\
    mixed_data_of (pi_new I) (pi_K I) (pi_new_X I) (pi_pos I) nR (panel_draws I rvs) None None = Ok En /\
    panel_past_data I nR (panel_draws I rvs) mo ro = Ok Ep /\
    let long := fun i => sumn nR (fun r => mdot (x_mixers En) (x_R En) (panel_weights I Ep) i r * prob_array En (pi_coefs I) i r) in
    (forall l, long_probs_returned res = Some l -> l = long) /\
    (forall c, (res = ChosenProbs c \/ exists l, res = BothProbs c l) ->
       exists C, chosen_row_to_obs mn = Some C /\ c = mvec (length (obs_ids (pi_new I))) (transp (smat_R C)) long).
Proof.
  unfold panel_predict. intros H HR1.
  assert (H' : (do mn <- create_long_form_mappings (pi_new I) None;
      do mo <- create_long_form_mappings (pi_old I) None;
      match rows_to_mixers mn, rows_to_mixers mo with
      | Some rn, Some ro =>
          do draws <- get_normal_draws (s_cols rn) nR (length (pi_pos I)) rvs;
          do long <- panel_compute I nR draws mo ro;
          match chosen_row_to_obs mn, rlp with
          | Some C, true => Ok (BothProbs (mvec (length (obs_ids (pi_new I))) (transp (smat_R C)) long) long)
          | None, true => Ok (LongProbs long)
          | Some C, false => Ok (ChosenProbs (mvec (length (obs_ids (pi_new I))) (transp (smat_R C)) long))
          | None, false => Err ValueError
          end
      | _, _ => Err AttributeError
      end) = Ok res).
  { destruct (choices (pi_new I)); [exact H|]. destruct rlp; [exact H|discriminate]. }
  clear H. apply bind_ok in H'. destruct H' as (mn & Hmn & H). apply bind_ok in H. destruct H as (mo & Hmo & H).
  destruct (rows_to_mixers mn) as [rn|] eqn:Ern; [|discriminate].
  destruct (rows_to_mixers mo) as [ro|] eqn:Ero; [|discriminate].
  apply bind_ok in H. destruct H as (draws & Hd & H). apply bind_ok in H. destruct H as (long & Hl & H).
  unfold get_normal_draws in Hd.
  destruct (((0 <? s_cols rn) && (0 <? nR) && (0 <? length (pi_pos I)))%nat%bool) eqn:Ec; [|discriminate].
  inversion Hd; subst draws; clear Hd.
  apply Bool.andb_true_iff in Ec. destruct Ec as (Ec & _). apply Bool.andb_true_iff in Ec. destruct Ec as (_ & Ec).
  apply Nat.ltb_lt in Ec. split; [exact Ec|].
  unfold panel_compute in Hl. apply bind_ok in Hl. destruct Hl as (En & HEn & Hl).
  apply bind_ok in Hl. destruct Hl as (Ep & HEp & Hl).
  destruct (Nat.eqb_spec nR 1); [contradiction|]. inversion Hl; subst long; clear Hl.
  exists mn, mo, ro, En, Ep.
  split; [exact Hmn|]. split; [exact Hmo|]. split; [exact Ero|]. split; [exact HEn|]. split; [exact HEp|].
  cbv zeta.
  split.
  - intros l Hl. destruct (chosen_row_to_obs mn); destruct rlp; inversion H; subst res; cbn in Hl; congruence.
  - intros c Hc. destruct (chosen_row_to_obs mn) as [C|]; destruct rlp; inversion H; subst res;
      destruct Hc as [Hc|[l Hc]]; inversion Hc; subst; exists C; split; reflexivity.
Qed.

(** ** C49 *)

(** Whatever the order of the persons: the returned probabilities lie in (0,1) and
    sum to one over every observation. *)
Theorem C49_panel_probabilities_sum_to_one I nR rvs rlp res p :
  panel_predict I nR rvs rlp = Ok res -> long_probs_returned res = Some p -> nR <> 1%nat ->
  mixing_ids_per_row (pi_new I) -> mixing_ids_per_row (pi_old I) ->
  units_contain_observations (pi_new I) ->
  (forall i, (i < length (obs_ids (pi_new I)))%nat -> 0 < p i <= 1) /\
  (forall o, In o (obs_ids (pi_new I)) -> id_sum (obs_ids (pi_new I)) o p = 1).
Proof.
  intros H Hp HR1 HLn HLo Hcn. destruct (panel_predict_ok _ _ _ _ _ H HR1) as (HR & mn & mo & ro & En & Ep & Hmn & Hmo & Hro & HEn & HEp & Hlong & _).
  rewrite (Hlong p Hp). clear Hlong Hp H p.
  pose proof (mixed_own _ _ _ _ _ _ _ _ _ HEn) as HO. pose proof (mixed_N _ _ _ _ _ _ _ _ _ HEn) as HN.
  pose proof (mixed_unit _ _ _ _ _ _ _ _ _ HEn HLn) as HU.
  destruct (mixed_setup _ _ _ _ _ _ _ _ _ HEn) as (mp & _ & _ & _ & _ & EM & _).
  set (W := fun i => panel_weights I Ep (own_of (mix_of (pi_new I)) i)).
  assert (EW : forall i r, (i < length (obs_ids (pi_new I)))%nat -> mdot (x_mixers En) (x_R En) (panel_weights I Ep) i r = W i r).
  { intros i r Hi. unfold mdot. rewrite <- HN in Hi.
    exact (indicator_dot _ _ _ _ (fun u => panel_weights I Ep u r) i HU Hi). }
  assert (HW : forall i, (i < length (obs_ids (pi_new I)))%nat -> (forall r, 0 < W i r) /\ sumn nR (W i) = 1).
  { intros i Hi. apply (pw_probability_vector I nR _ mo ro Ep Hmo Hro HLo HEp HR1); [exact HR|].
    unfold own_of. apply index_of_lt. apply first_seen_In, nth_In. rewrite HLn. exact Hi. }
  assert (Hpos : forall i, (i < length (obs_ids (pi_new I)))%nat ->
    0 < sumn nR (fun r => mdot (x_mixers En) (x_R En) (panel_weights I Ep) i r * prob_array En (pi_coefs I) i r) <= 1).
  { intros i Hi. destruct (HW i Hi) as (Hw & Hs).
    rewrite (sumn_ext nR _ (fun r => W i r * prob_array En (pi_coefs I) i r)) by (intros; rewrite EW by exact Hi; reflexivity).
    assert (Hp : forall r, 0 < prob_array En (pi_coefs I) i r) by (intros r; apply (pa_pos En _ HO); rewrite HN; exact Hi).
    split.
    - apply (sumn_pos nR _ 0%nat); [intros r _; left|exact HR|]; apply Rmult_lt_0_compat; auto.
    - rewrite <- Hs. apply sumn_le. intros r _. rewrite <- (Rmult_1_r (W i r)) at 2.
      apply Rmult_le_compat_l; [left; apply Hw|]. apply (pa_le1 En _ HO). rewrite HN. exact Hi. }
  split; [exact Hpos|].
  intros o Ho. destruct (In_row _ _ Ho) as (i & Hi & Ei). rewrite <- Ei.
  rewrite <- osum_id_sum by exact Hi. unfold osum. destruct (HW i Hi) as (Hw & Hs).
  rewrite (sumn_ext _ _ (fun k => sumn nR (fun r => W i r * (if (own_of (obs_ids (pi_new I)) k =? own_of (obs_ids (pi_new I)) i)%nat then prob_array En (pi_coefs I) k r else 0)))).
  - rewrite sumn_swap. rewrite (sumn_ext nR _ (W i)); [exact Hs|]. intros r _. rewrite sumn_scal_l.
    pose proof (pa_sum En _ HO (pi_coefs I) i r) as Hps. rewrite HN in Hps. specialize (Hps Hi). unfold osum in Hps.
    rewrite Hps. ring.
  - intros k Hk. destruct (Nat.eqb_spec (own_of (obs_ids (pi_new I)) k) (own_of (obs_ids (pi_new I)) i)) as [Eo|].
    + apply sumn_ext. intros r _. rewrite EW by exact Hk. unfold W, own_of.
      rewrite (Hcn k i Hk Hi); [reflexivity|]. apply own_of_eq in Eo; assumption.
    + symmetry. apply sumn_eq0. intros. ring.
Qed.

(** The probabilities the code computes: for every row of the new table, the logit
    probabilities under the person's own draws, averaged with weights that are 1/R
    for a person without a past, and otherwise proportional to the probability of
    that person's past choices under the draws of [partner]. *)
Theorem C49_panel_probabilities_partial I nR rvs rlp res p i :
  panel_predict I nR rvs rlp = Ok res -> long_probs_returned res = Some p -> nR <> 1%nat ->
  mixing_ids_per_row (pi_new I) -> mixing_ids_per_row (pi_old I) ->
  units_contain_observations (pi_old I) -> choices_are_0_or_1 (pi_old I) ->
  (forall i r v, (i < length (obs_ids (pi_old I)))%nat -> (r < nR)%nat -> In v (returning_new I) ->
    unclipped (past_utility I (panel_draws I rvs) v r i)) ->
  (forall i r, (i < length (obs_ids (pi_new I)))%nat -> (r < nR)%nat ->
    unclipped (mixed_utility (pi_new I) (pi_K I) (pi_new_X I) (pi_pos I) (panel_draws I rvs) (pi_coefs I) i r)) ->
  (i < length (obs_ids (pi_new I)))%nat ->
  p i = sumn nR (fun r => code_weight I nR (panel_draws I rvs) (nth i (mix_of (pi_new I)) 0%Z) r *
          logit_prob (pi_new I) (fun k => mixed_utility (pi_new I) (pi_K I) (pi_new_X I) (pi_pos I) (panel_draws I rvs) (pi_coefs I) k r) i).
Proof.
  intros H Hp HR1 HLn HLo Hco H01 Hun1 Hun2 Hi.
  destruct (panel_predict_ok _ _ _ _ _ H HR1) as (HR & mn & mo & ro & En & Ep & Hmn & Hmo & Hro & HEn & HEp & Hlong & _).
  rewrite (Hlong p Hp). clear Hlong Hp H p.
  pose proof (mixed_own _ _ _ _ _ _ _ _ _ HEn) as HO. pose proof (mixed_N _ _ _ _ _ _ _ _ _ HEn) as HN.
  pose proof (mixed_unit _ _ _ _ _ _ _ _ _ HEn HLn) as HU.
  set (draws := panel_draws I rvs) in *.
  apply sumn_ext. intros r Hr. f_equal.
  - unfold mdot. rewrite <- HN in Hi.
    rewrite (indicator_dot _ _ _ _ (fun u => panel_weights I Ep u r) i HU Hi : sumn _ _ = _). rewrite HN in Hi.
    assert (Hin : In (nth i (mix_of (pi_new I)) 0%Z) (first_seen (mix_of (pi_new I)))).
    { apply first_seen_In, nth_In. rewrite HLn. exact Hi. }
    rewrite (panel_weights_eq I nR draws mo ro Ep _ r Hmo Hro HLo Hco H01 HEp HR1 Hun1); [|apply index_of_lt; exact Hin|exact Hr].
    unfold own_of. rewrite nth_index_of by exact Hin. reflexivity.
  - rewrite (pa_eq En _ HO) by (rewrite HN; exact Hi). rewrite HN.
    assert (EU : forall k, (k < length (obs_ids (pi_new I)))%nat -> exp (clip_exponent (vv En (pi_coefs I) k r)) =
       exp (mixed_utility (pi_new I) (pi_K I) (pi_new_X I) (pi_pos I) draws (pi_coefs I) k r)).
    { intros k Hk. unfold vv. rewrite (C45_utilities_use_own_draws _ _ _ _ _ _ _ _ En (pi_coefs I) k r HEn HLn Hk).
      rewrite clip_id by (apply Hun2; assumption). reflexivity. }
    unfold logit_prob. rewrite EU by exact Hi. f_equal. rewrite <- osum_id_sum by exact Hi.
    apply osum_ext. intros k Hk _. apply EU. exact Hk.
Qed.

(** When the returning persons come in the same relative order in both tables, the
    partner of each is that same person, and the claim holds in full. *)
Theorem C49_panel_probabilities_same_order I nR rvs rlp res p i :
  panel_predict I nR rvs rlp = Ok res -> long_probs_returned res = Some p -> nR <> 1%nat ->
  returning_new I = returning_old I ->
  mixing_ids_per_row (pi_new I) -> mixing_ids_per_row (pi_old I) ->
  units_contain_observations (pi_old I) -> choices_are_0_or_1 (pi_old I) ->
  (forall i r v, (i < length (obs_ids (pi_old I)))%nat -> (r < nR)%nat -> In v (returning_new I) ->
    unclipped (past_utility I (panel_draws I rvs) v r i)) ->
  (forall i r, (i < length (obs_ids (pi_new I)))%nat -> (r < nR)%nat ->
    unclipped (mixed_utility (pi_new I) (pi_K I) (pi_new_X I) (pi_pos I) (panel_draws I rvs) (pi_coefs I) i r)) ->
  (i < length (obs_ids (pi_new I)))%nat ->
  p i = sumn nR (fun r => person_weight I nR (panel_draws I rvs) (nth i (mix_of (pi_new I)) 0%Z) r *
          logit_prob (pi_new I) (fun k => mixed_utility (pi_new I) (pi_K I) (pi_new_X I) (pi_pos I) (panel_draws I rvs) (pi_coefs I) k r) i).
Proof.
  intros H Hp HR1 Hord HLn HLo Hco H01 Hun1 Hun2 Hi.
  rewrite (C49_panel_probabilities_partial I nR rvs rlp res p i H Hp HR1 HLn HLo Hco H01 Hun1 Hun2 Hi).
  apply sumn_ext. intros r Hr. f_equal. unfold code_weight, person_weight.
  destruct (zmem (nth i (mix_of (pi_new I)) 0%Z) (mix_of (pi_old I))) eqn:Ez; [|reflexivity].
  assert (Ep : partner I (nth i (mix_of (pi_new I)) 0%Z) = nth i (mix_of (pi_new I)) 0%Z); [|rewrite Ep; reflexivity].
  unfold partner. rewrite Hord. apply nth_index_of. apply filter_In. rewrite first_seen_In, zmem_In. apply zmem_In in Ez.
  split; [exact Ez|]. apply nth_In. rewrite HLn. exact Hi.
Qed.

(** panel_predict succeeds on every pair of tables with mixing ids, at least two
    draws and mixing positions within the design. *)
Lemma create_expanded_total K X draws pos mixers R2m :
  length pos = length draws -> (0 < length pos)%nat -> List.Forall (fun q => (q < K)%nat) pos ->
  exists p3, create_expanded_design_for_mixing K X draws pos mixers R2m = Ok p3.
Proof.
  intros HE HP HF. unfold create_expanded_design_for_mixing. rewrite (proj2 (Nat.eqb_eq _ _) HE). cbn [negb].
  destruct draws as [|d0 dr]; [simpl in HE; lia|].
  destruct (existsb (fun p => (K <=? p)%nat) pos) eqn:Ex; [|eexists; reflexivity].
  exfalso. apply existsb_exists in Ex. destruct Ex as (q & Hq & Hk). apply Nat.leb_le in Hk.
  rewrite Forall_forall in HF. specialize (HF q Hq). lia.
Qed.

Theorem C49_panel_predict_total I nR rvs mn mo rn ro :
  create_long_form_mappings (pi_new I) None = Ok mn -> create_long_form_mappings (pi_old I) None = Ok mo ->
  rows_to_mixers mn = Some rn -> rows_to_mixers mo = Some ro -> (0 < s_cols rn)%nat ->
  (1 < nR)%nat -> (0 < length (pi_pos I))%nat -> List.Forall (fun q => (q < pi_K I)%nat) (pi_pos I) ->
  exists res p, panel_predict I nR rvs true = Ok res /\ long_probs_returned res = Some p.
Proof.
  intros Hmn Hmo Hrn Hro Hc HR HP HF. unfold panel_predict.
  assert (HD : get_normal_draws (s_cols rn) nR (length (pi_pos I)) rvs = Ok (panel_draws I rvs)).
  { unfold get_normal_draws. rewrite !(proj2 (Nat.ltb_lt _ _)) by (assumption || lia). reflexivity. }
  assert (HLd : length (pi_pos I) = length (panel_draws I rvs)) by (unfold panel_draws; rewrite map_length, seq_length; reflexivity).
  assert (HE : exists En, mixed_data_of (pi_new I) (pi_K I) (pi_new_X I) (pi_pos I) nR (panel_draws I rvs) None None = Ok En).
  { unfold mixed_data_of. rewrite Hmn. cbn [bind]. rewrite Hrn.
    match goal with |- context [create_expanded_design_for_mixing ?a ?b ?c ?d ?e ?f] =>
      destruct (create_expanded_total a b c d e f HLd HP HF) as [p3 E] end.
    rewrite E. eexists. reflexivity. }
  assert (HE2 : exists Ep, panel_past_data I nR (panel_draws I rvs) mo ro = Ok Ep).
  { unfold panel_past_data.
    match goal with |- context [create_expanded_design_for_mixing ?a ?b ?c ?d ?e ?f] =>
      assert (HL2 : length (pi_pos I) = length c) by (rewrite map_length; exact HLd);
      destruct (create_expanded_total a b c d e f HL2 HP HF) as [p3 E] end.
    rewrite E. eexists. reflexivity. }
  destruct HE as [En HE]. destruct HE2 as [Ep HE2].
  assert (HC : exists long, panel_compute I nR (panel_draws I rvs) mo ro = Ok long).
  { unfold panel_compute. rewrite HE. cbn [bind]. rewrite HE2. cbn [bind]. destruct (Nat.eqb_spec nR 1); [lia|]. eexists. reflexivity. }
  destruct HC as [long HC].
  assert (G : exists res p, (do mn <- create_long_form_mappings (pi_new I) None;
      do mo <- create_long_form_mappings (pi_old I) None;
      match rows_to_mixers mn, rows_to_mixers mo with
      | Some rn, Some ro =>
          do draws <- get_normal_draws (s_cols rn) nR (length (pi_pos I)) rvs;
          do long <- panel_compute I nR draws mo ro;
          match chosen_row_to_obs mn, true with
          | Some C, true => Ok (BothProbs (mvec (length (obs_ids (pi_new I))) (transp (smat_R C)) long) long)
          | None, true => Ok (LongProbs long)
          | Some C, false => Ok (ChosenProbs (mvec (length (obs_ids (pi_new I))) (transp (smat_R C)) long))
          | None, false => Err ValueError
          end
      | _, _ => Err AttributeError
      end) = Ok res /\ long_probs_returned res = Some p).
  { rewrite Hmn, Hmo. cbn [bind]. rewrite Hrn, Hro, HD. cbn [bind]. rewrite HC. cbn [bind].
    destruct (chosen_row_to_obs mn); eexists; eexists; (split; [reflexivity|reflexivity]). }
  destruct (choices (pi_new I)); exact G.
Qed.

(** ** The order of the persons matters *)

(** Persons 1 and 2 in the original table; the new table lists person 2 first.
    One explanatory variable, which is mixed; theta = (0, 1). *)
Definition exp_old : long_cols := mkLong [1;1;2;2]%Z [1;2;1;2]%Z (Some [1;0;1;0]%Z) (Some [1;1;2;2]%Z).
Definition exp_new : long_cols := mkLong [1;1;2;2]%Z [1;2;1;2]%Z (Some [1;0;1;0]%Z) (Some [2;2;1;1]%Z).
Definition exp_new_same : long_cols := mkLong [1;1;2;2;3;3]%Z [1;2;1;2;1;2]%Z None (Some [1;1;2;2;7;7]%Z).
Definition exp_oldX : mat := fun i _ => if (i =? 0)%nat then 1 else 0.
Definition exp_newX : mat := fun i _ => if (i =? 2)%nat then 1 else 0.
Definition exp_theta : arr := mkArr 2 (fun k => if (k =? 1)%nat then 1 else 0).
Definition exp_rvs : nat -> mat := fun _ u r => if ((u =? 1) && (r =? 0))%nat%bool then 1 else 0.
Definition exp_in : panel_input := mkPanel exp_old exp_oldX exp_new exp_newX 1 [0%nat] exp_theta.
Definition exp_in_same : panel_input := mkPanel exp_old exp_oldX exp_new_same exp_newX 1 [0%nat] exp_theta.

Ltac ev := cbn -[IZR INR Rplus Rmult Rinv Rdiv exp].

Lemma exp_lik (t : R) : exp (0 + 1 * 0 + (0 + 1 * t * 1)) / (0 + exp (0 + 1 * 0 + (0 + 1 * t * 1)) + exp (0 + 0 * 0 + (0 + 1 * t * 0)) + 0 + 0)
  = exp t / (exp t + 1).
Proof.
  replace (0 + 1 * 0 + (0 + 1 * t * 1)) with t by ring. replace (0 + 0 * 0 + (0 + 1 * t * 0)) with 0 by ring.
  rewrite exp_0. f_equal. ring.
Qed.

Definition exp_q : R := exp 1 / (exp 1 + 1).
Lemma exp_q_gt : / 2 < exp_q < 1.
Proof.
  assert (H : 1 < exp 1) by (pose proof (exp_ineq1 1 ltac:(lra)); lra). unfold exp_q. split.
  - apply Rmult_lt_reg_r with (exp 1 + 1); [lra|]. unfold Rdiv. rewrite Rmult_assoc, Rinv_l by lra. lra.
  - apply Rmult_lt_reg_r with (exp 1 + 1); [lra|]. unfold Rdiv. rewrite Rmult_assoc, Rinv_l by lra. lra.
Qed.

Lemma exp_half : exp 0 / (exp 0 + 1) = / 2.
Proof. rewrite exp_0. lra. Qed.

Ltac lik t := unfold past_likelihood, unit_likelihood, logit_prob, id_sum, past_utility, draw_of; ev;
  rewrite !Rmult_1_r, ?Rmult_1_l; etransitivity; [|apply (exp_lik t)]; repeat f_equal; ring.

Lemma exp_lik_own : forall ds, ds = panel_draws exp_in exp_rvs ->
  past_likelihood exp_in ds 1 1 0 = exp_q /\ past_likelihood exp_in ds 1 1 1 = / 2 /\
  past_likelihood exp_in ds 2 1 0 = / 2 /\ past_likelihood exp_in ds 2 1 1 = / 2.
Proof.
  intros ds ->. rewrite <- exp_half. unfold exp_q.
  split; [lik 1|]. split; [lik 0|]. split; lik 0.
Qed.

Lemma exp_old_facts : mixing_ids_per_row exp_old /\ units_contain_observations exp_old /\ choices_are_0_or_1 exp_old.
Proof.
  split; [reflexivity|]. split.
  - intros i i' Hi Hi'. simpl in Hi, Hi'. do 4 (destruct i as [|i]; [do 4 (destruct i' as [|i']; [simpl; congruence|]); lia|]). lia.
  - exists [1;0;1;0]%Z. split; [reflexivity|]. intros i Hi. simpl in Hi. do 4 (destruct i as [|i]; [simpl; auto|]). lia.
Qed.

Lemma exp_new_facts : mixing_ids_per_row exp_new /\ units_contain_observations exp_new.
Proof.
  split; [reflexivity|].
  intros i i' Hi Hi'. simpl in Hi, Hi'. do 4 (destruct i as [|i]; [do 4 (destruct i' as [|i']; [simpl; congruence|]); lia|]). lia.
Qed.

Lemma small_unclipped x : -1 <= x <= 1 -> unclipped x.
Proof. unfold unclipped, min_exponent_val, max_exponent_val. lra. Qed.

Lemma exp_rvs_01 p u r : exp_rvs p u r = 0 \/ exp_rvs p u r = 1.
Proof. unfold exp_rvs. destruct ((u =? 1) && (r =? 0))%nat%bool; auto. Qed.

Lemma exp_bounded I : pi_K I = 1%nat -> pi_pos I = [0%nat] -> pi_coefs I = exp_theta ->
  pi_old_X I = exp_oldX -> pi_new_X I = exp_newX ->
  (forall v r i, unclipped (past_utility I (panel_draws I exp_rvs) v r i)) /\
  (forall i r, unclipped (mixed_utility (pi_new I) (pi_K I) (pi_new_X I) (pi_pos I) (panel_draws I exp_rvs) (pi_coefs I) i r)).
Proof.
  intros EK EP EC EX EN. split.
  - intros v r i. apply small_unclipped. unfold past_utility, panel_draws, draw_of. rewrite EK, EP, EC, EX. ev.
    set (u := index_of v _). unfold exp_oldX. destruct (exp_rvs_01 0 u r) as [-> | ->]; destruct (i =? 0)%nat; lra.
  - intros i r. apply small_unclipped. unfold mixed_utility, panel_draws, draw_of. rewrite EK, EP, EC, EN. ev.
    set (u := index_of _ _). unfold exp_newX. destruct (exp_rvs_01 0 u r) as [-> | ->]; destruct (i =? 2)%nat; lra.
Qed.

Lemma exp_predicts I n : (exists mp rn, create_long_form_mappings (pi_new I) None = Ok mp /\ rows_to_mixers mp = Some rn /\ s_cols rn = S n) ->
  (exists mp ro, create_long_form_mappings (pi_old I) None = Ok mp /\ rows_to_mixers mp = Some ro) ->
  pi_K I = 1%nat -> pi_pos I = [0%nat] ->
  exists res p, panel_predict I 2 exp_rvs true = Ok res /\ long_probs_returned res = Some p.
Proof.
  intros (mn & rn & Hmn & Hrn & Hc) (mo & ro & Hmo & Hro) EK EP.
  apply (C49_panel_predict_total I 2 exp_rvs mn mo rn ro Hmn Hmo Hrn Hro); [lia|lia|rewrite EP; simpl; lia|].
  rewrite EP, EK. repeat constructor.
Qed.

Ltac ker_tac t :=
  match goal with |- exp ?a / (?z + exp ?b) = _ =>
    replace a with t by ring; replace b with 0 by ring; rewrite exp_0; f_equal; ring end.

Theorem C49_refuted_person_order :
  exists I nR rvs res p i,
    panel_predict I nR rvs true = Ok res /\ long_probs_returned res = Some p /\
    mixing_ids_per_row (pi_new I) /\ mixing_ids_per_row (pi_old I) /\
    units_contain_observations (pi_new I) /\ units_contain_observations (pi_old I) /\ choices_are_0_or_1 (pi_old I) /\
    (i < length (obs_ids (pi_new I)))%nat /\
    p i <> sumn nR (fun r => person_weight I nR (panel_draws I rvs) (nth i (mix_of (pi_new I)) 0%Z) r *
          logit_prob (pi_new I) (fun k => mixed_utility (pi_new I) (pi_K I) (pi_new_X I) (pi_pos I) (panel_draws I rvs) (pi_coefs I) k r) i).
Proof.
  destruct (exp_predicts exp_in 1) as (res & p & Hres & Hp); try reflexivity.
  1, 2: eexists; eexists; repeat split; reflexivity.
  destruct exp_old_facts as (A1 & A2 & A3). destruct exp_new_facts as (B1 & B2).
  destruct (exp_bounded exp_in) as (U1 & U2); try reflexivity.
  exists exp_in, 2%nat, exp_rvs, res, p, 2%nat.
  split; [exact Hres|]. split; [exact Hp|]. split; [exact B1|]. split; [exact A1|]. split; [exact B2|]. split; [exact A2|].
  split; [exact A3|]. split; [simpl; lia|].
  assert (H2 : (2 < length (obs_ids (pi_new exp_in)))%nat) by (simpl; lia).
  rewrite (C49_panel_probabilities_partial exp_in 2 exp_rvs true res p 2 Hres Hp ltac:(lia) B1 A1 A2 A3
    (fun i r v _ _ _ => U1 v r i) (fun i r _ _ => U2 i r) H2).
  destruct (exp_lik_own _ eq_refl) as (L0 & L1 & M0 & M1).
  set (ds := panel_draws exp_in exp_rvs) in *.
  set (ker := fun r => logit_prob (pi_new exp_in) (fun k => mixed_utility (pi_new exp_in) (pi_K exp_in) (pi_new_X exp_in) (pi_pos exp_in) ds (pi_coefs exp_in) k r) 2).
  assert (K0 : ker 0%nat = exp_q).
  { unfold ker, logit_prob, id_sum, mixed_utility, draw_of, exp_q. ev. ker_tac 1. }
  assert (K1 : ker 1%nat = / 2).
  { rewrite <- exp_half. unfold ker, logit_prob, id_sum, mixed_utility, draw_of. ev. ker_tac 0. }
  change (sumn 2 (fun r => code_weight exp_in 2 ds 1 r * ker r) <> sumn 2 (fun r => person_weight exp_in 2 ds 1 r * ker r)).
  cbn [sumn]. rewrite K0, K1. unfold code_weight, person_weight.
  change (zmem 1 (mix_of (pi_old exp_in))) with true. cbv iota.
  change (partner exp_in 1) with 2%Z. unfold posterior. cbn [sumn]. rewrite L0, L1, M0, M1.
  pose proof exp_q_gt as Hq. set (q := exp_q) in *.
  intros E.
  assert (E2 : (q * q + / 2 * / 2) / (q + / 2) = q / 2 + / 4).
  { transitivity (0 + q / (0 + q + / 2) * q + / 2 / (0 + q + / 2) * / 2); [field; lra|]. rewrite <- E. field. }
  assert (E3 : q * q + / 2 * / 2 = (q / 2 + / 4) * (q + / 2)) by (rewrite <- E2; field; lra).
  assert (E4 : (q - / 2) * (q - / 2) = 0) by lra.
  apply Rmult_integral in E4. lra.
Qed.

(** The hypotheses of the positive theorems are met with persons in the same order
    and a third person without a past. *)
Example exp_same_order :
  returning_new exp_in_same = returning_old exp_in_same /\ returning_old exp_in_same = [1; 2]%Z /\
  mixing_ids_per_row exp_new_same /\ units_contain_observations exp_new_same /\
  (forall v r i, unclipped (past_utility exp_in_same (panel_draws exp_in_same exp_rvs) v r i)) /\
  (forall i r, unclipped (mixed_utility exp_new_same 1 exp_newX [0%nat] (panel_draws exp_in_same exp_rvs) exp_theta i r)) /\
  exists res p, panel_predict exp_in_same 2 exp_rvs true = Ok res /\ long_probs_returned res = Some p.
Proof.
  split; [reflexivity|]. split; [reflexivity|]. split; [reflexivity|].
  destruct (exp_bounded exp_in_same) as (U1 & U2); try reflexivity.
  split.
  { intros i i' Hi Hi'. simpl in Hi, Hi'. do 6 (destruct i as [|i]; [do 6 (destruct i' as [|i']; [simpl; congruence|]); lia|]). lia. }
  split; [exact U1|]. split; [exact U2|].
  apply (exp_predicts exp_in_same 2); try reflexivity; eexists; eexists; repeat split; reflexivity.
Qed.

Print Assumptions C49_panel_probabilities_sum_to_one.
Print Assumptions C49_panel_probabilities_partial.
Print Assumptions C49_panel_probabilities_same_order.
Print Assumptions C49_panel_predict_total.
Print Assumptions C49_refuted_person_order.
