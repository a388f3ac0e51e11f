(** The model object: accepted nest specifications (C13), parameter vectors and
    their pieces (C14), names and order of stored parameters (C15), inference output
    for constrained parameters (C51), fit statistics (C52), confidence intervals and
    parameter lists. *)
From Coq Require Import String ZArith List Reals Lra Lia Bool Arith DecimalString DecimalNat.
From Verif Require Import Res Vec Arr Ids Mappings MappingFacts Frame ChoiceTools ChoiceCalcs
  Transforms LogitFacts PropMappings BaseModel.
Import ListNotations.

(** ** C13: nest specifications *)

(** The raw form of a well-typed specification. *)
Definition raw_of (t : nest_spec) : raw_nest_spec :=
  map (fun kv => (NKStr (fst kv), NVList (map NInt (snd kv)))) t.

(** Every alternative is in exactly one nest, once; no nest is empty; no nest lists
    an alternative that is not in the data. *)
Definition partitions (t : nest_spec) (alts : list Z) : Prop :=
  t <> [] /\
  (forall k l, In (k, l) t -> l <> []) /\
  (forall a, In a alts -> exists q, in_exactly_nest t a q) /\
  (forall k l a, In (k, l) t -> In a l -> In a alts) /\
  NoDup (concat (map snd t)).

Lemma item_eqb_spec a b : reflect (a = b) (item_eqb a b).
Proof.
  destruct a, b; simpl; try (constructor; congruence).
  - destruct (Z.eqb_spec z z0); constructor; congruence.
  - destruct (Nat.eqb_spec tag tag0); constructor; congruence.
Qed.

Lemma item_mem_In a l : item_mem a l = true <-> In a l.
Proof.
  unfold item_mem. rewrite existsb_exists. split.
  - intros (x & Hx & E). destruct (item_eqb_spec a x); [subst; exact Hx|discriminate].
  - intros H. exists a. split; [exact H|]. destruct (item_eqb_spec a a); congruence.
Qed.

Lemma set_size_le l : (set_size l <= length l)%nat.
Proof. induction l as [|a r IH]; simpl; [lia|]. destruct (item_mem a r); simpl; lia. Qed.

Lemma set_size_NoDup l : set_size l = length l <-> NoDup l.
Proof.
  induction l as [|a r IH]; simpl; [split; [constructor|reflexivity]|].
  destruct (item_mem a r) eqn:E.
  - split; intros H.
    + pose proof (set_size_le r). lia.
    + inversion H; subst. apply item_mem_In in E. contradiction.
  - split; intros H.
    + constructor; [|apply IH; lia]. intros Hi. apply item_mem_In in Hi. congruence.
    + inversion H; subst. f_equal. apply IH. assumption.
Qed.

Lemma filter_nil_iff {A} (f : A -> bool) l : filter f l = [] <-> forall x, In x l -> f x = false.
Proof.
  induction l as [|a r IH]; simpl; [split; [contradiction|reflexivity]|].
  destruct (f a) eqn:E; split; intros H.
  - discriminate.
  - rewrite (H a) in E by (left; reflexivity). discriminate.
  - intros x [<-|Hx]; [exact E|]. apply IH; assumption.
  - apply IH. intros x Hx. apply H. right. exact Hx.
Qed.

Lemma ints_of_items l : forallb item_is_int l = true ->
  l = map NInt (flat_map (fun i => match i with NInt z => [z] | NNotInt _ => [] end) l).
Proof.
  induction l as [|[z|t] r IH]; simpl; intros H; [reflexivity| |discriminate].
  f_equal. apply IH. exact H.
Qed.

Lemma raw_items t : flat_map (fun kv => items_of (snd kv)) (raw_of t) = map NInt (concat (map snd t)).
Proof.
  induction t as [|[k l] r IH]; simpl; [reflexivity|]. rewrite map_app, <- IH. reflexivity.
Qed.

Lemma NInt_inj : FinFun.Injective NInt.
Proof. intros x y H. congruence. Qed.

Lemma in_concat_nests (t : nest_spec) a :
  In a (concat (map snd t)) <-> exists q, (q < length t)%nat /\ In a (snd (nth q t (EmptyString, []))).
Proof.
  split.
  - intros H. apply in_concat in H. destruct H as (l & Hl & Ha). apply in_map_iff in Hl.
    destruct Hl as ((k & l') & E & Hin). simpl in E. subst l'.
    destruct (In_nth t (k, l) (EmptyString, []) Hin) as (q & Hq & Eq). exists q. split; [exact Hq|].
    rewrite Eq. exact Ha.
  - intros (q & Hq & Ha). apply in_concat. exists (snd (nth q t (EmptyString, []))). split; [|exact Ha].
    apply in_map. apply nth_In. exact Hq.
Qed.

Lemma NoDup_concat_disjoint {A} (L : list (list A)) q q' a :
  NoDup (concat L) -> (q < length L)%nat -> (q' < length L)%nat ->
  In a (nth q L []) -> In a (nth q' L []) -> q = q'.
Proof.
  revert q q'. induction L as [|l r IH]; simpl; intros q q' HN Hq Hq' Ha Ha'; [lia|].
  assert (HNr : NoDup (concat r)) by (clear - HN; induction l; simpl in *; [exact HN|inversion HN; auto]).
  assert (D : forall x, In x l -> ~ In x (concat r)).
  { clear - HN. induction l as [|y l IH]; simpl in *; [intros ? []|]. inversion HN; subst.
    intros x [->|Hx] Hc; [apply H1; apply in_or_app; right; exact Hc|]. exact (IH H2 x Hx Hc). }
  assert (C : forall k, (k < length r)%nat -> In a (nth k r []) -> In a (concat r)).
  { intros k Hk Hin. apply in_concat. exists (nth k r []). split; [apply nth_In; exact Hk|exact Hin]. }
  destruct q as [|q], q' as [|q'].
  - reflexivity.
  - exfalso. exact (D a Ha (C q' ltac:(lia) Ha')).
  - exfalso. exact (D a Ha' (C q ltac:(lia) Ha)).
  - f_equal. apply IH; try assumption; lia.
Qed.

Theorem C13_accepted_specifications_are_partitions s alts :
  check_nest_spec s (np_unique alts) = Ok tt <-> exists t, s = raw_of t /\ partitions t alts.
Proof.
  unfold check_nest_spec. split.
  - intros H.
    apply bind_ok in H. destruct H as ([] & H1 & H).
    apply bind_ok in H. destruct H as ([] & H2 & H).
    apply bind_ok in H. destruct H as (l & H3 & H).
    apply bind_ok in H. destruct H as ([] & H4 & H).
    apply bind_ok in H. destruct H as ([] & H5 & H).
    apply bind_ok in H. destruct H as ([] & H6 & H7).
    unfold check_type_of_nest_spec_keys_and_values in H1.
    destruct (forallb (fun kv => key_is_str (fst kv)) s) eqn:K; [|discriminate].
    destruct (forallb (fun kv => val_is_list (snd kv)) s) eqn:V; [|discriminate].
    unfold check_for_empty_nests_in_nest_spec in H2.
    destruct (filter _ s) eqn:F2 in H2; [|discriminate].
    unfold reduce_lists in H3.
    assert (Hne : s <> []) by (destruct s; [discriminate|congruence]).
    assert (El : l = flat_map (fun kv => items_of (snd kv)) s)
      by (destruct s; [discriminate|injection H3 as <-; reflexivity]).
    unfold ensure_alt_ids_in_nest_spec_are_ints in H4. destruct (forallb item_is_int l) eqn:I; [|discriminate].
    assert (Es : s = raw_of (typed_nest_spec s)).
    { subst l. clear - K V I. induction s as [|[k v] r IH]; [reflexivity|].
      simpl in K, V, I. apply andb_true_iff in K, V. destruct K as [Kk K], V as [Vk V].
      rewrite forallb_app in I. apply andb_true_iff in I. destruct I as [Ik I].
      destruct k as [k|]; [|discriminate]. destruct v as [l|]; [|discriminate].
      unfold typed_nest_spec. cbn [flat_map fst snd app]. fold (typed_nest_spec r).
      cbn [raw_of map fst snd]. fold (raw_of (typed_nest_spec r)). f_equal; [|apply IH; assumption].
      do 2 f_equal. apply ints_of_items. exact Ik. }
    set (t := typed_nest_spec s) in *.
    exists t. split; [exact Es|].
    rewrite Es, raw_items in El. subst l.
    unfold ensure_alt_ids_are_only_in_one_nest in H5. rewrite map_length in H5.
    destruct (Nat.eqb_spec (set_size (map NInt (concat (map snd t)))) (length (concat (map snd t)))) as [E5|];
      [|discriminate].
    assert (ND : NoDup (concat (map snd t))).
    { rewrite <- (map_length NInt) in E5. apply set_size_NoDup in E5.
      apply (NoDup_map_inv _ _ E5). }
    unfold ensure_all_alt_ids_have_a_nest in H6. destruct (filter _ (np_unique alts)) eqn:F6 in H6; [|discriminate].
    unfold ensure_nest_alts_are_valid_alts in H7.
    destruct (filter _ (map NInt (concat (map snd t)))) eqn:F7 in H7; [|discriminate].
    unfold partitions. repeat split.
    + intros E. rewrite E in Es. subst s. apply Hne. reflexivity.
    + intros k l' Hin ->. apply (proj1 (filter_nil_iff _ _)) with (x := (NKStr k, NVList [])) in F2.
      * simpl in F2. discriminate.
      * rewrite Es. unfold raw_of. apply in_map_iff. exists (k, []). split; [reflexivity|exact Hin].
    + intros a Ha. apply (np_unique_In a alts) in Ha.
      pose proof (proj1 (filter_nil_iff _ _) F6 a Ha) as Hm. apply negb_false_iff in Hm.
      apply item_mem_In in Hm. apply in_map_iff in Hm. destruct Hm as (a' & Ea & Hm). injection Ea as ->.
      apply in_concat_nests in Hm. destruct Hm as (q & Hq & Hm). exists q. split; [exact Hq|]. split; [exact Hm|].
      intros q' Hq' Hm'. rewrite <- (map_length snd) in Hq, Hq'.
      apply (NoDup_concat_disjoint (map snd t) q' q a ND Hq' Hq).
      * change (@nil Z) with (snd (EmptyString, @nil Z)). rewrite map_nth. exact Hm'.
      * change (@nil Z) with (snd (EmptyString, @nil Z)). rewrite map_nth. exact Hm.
    + intros k l' a Hin Ha.
      assert (Hc : In (NInt a) (map NInt (concat (map snd t)))).
      { apply in_map. apply in_concat. exists l'. split; [|exact Ha]. apply in_map_iff. exists (k, l'). auto. }
      pose proof (proj1 (filter_nil_iff _ _) F7 _ Hc) as Hm. apply negb_false_iff in Hm.
      apply item_mem_In in Hm. apply in_map_iff in Hm. destruct Hm as (a' & Ea & Hm). injection Ea as ->.
      apply (np_unique_In a alts). exact Hm.
    + exact ND.
  - intros (t & -> & Hne & Hem & Hall & Hval & ND).
    unfold check_type_of_nest_spec_keys_and_values.
    replace (forallb (fun kv => key_is_str (fst kv)) (raw_of t)) with true
      by (symmetry; apply forallb_forall; intros x Hx; apply in_map_iff in Hx;
          destruct Hx as (y & <- & _); reflexivity).
    replace (forallb (fun kv => val_is_list (snd kv)) (raw_of t)) with true
      by (symmetry; apply forallb_forall; intros x Hx; apply in_map_iff in Hx;
          destruct Hx as (y & <- & _); reflexivity).
    cbn [andb bind].
    unfold check_for_empty_nests_in_nest_spec.
    rewrite (proj2 (filter_nil_iff _ (raw_of t))).
    2:{ intros x Hx. apply in_map_iff in Hx. destruct Hx as ((k, l) & <- & Hin). simpl. rewrite map_length.
        apply Nat.eqb_neq. intros E. apply (Hem k l Hin). destruct l; [reflexivity|discriminate]. }
    cbn [bind].
    assert (Er : reduce_lists (raw_of t) = Ok (map NInt (concat (map snd t)))).
    { unfold reduce_lists. rewrite raw_items. destruct t; [contradiction Hne; reflexivity|reflexivity]. }
    rewrite Er. cbn [bind].
    unfold ensure_alt_ids_in_nest_spec_are_ints.
    replace (forallb item_is_int (map NInt (concat (map snd t)))) with true
      by (symmetry; apply forallb_forall; intros x Hx; apply in_map_iff in Hx;
          destruct Hx as (y & <- & _); reflexivity).
    cbn [bind]. unfold ensure_alt_ids_are_only_in_one_nest.
    rewrite (proj2 (set_size_NoDup (map NInt (concat (map snd t))))).
    2:{ apply FinFun.Injective_map_NoDup; [exact NInt_inj|exact ND]. }
    rewrite Nat.eqb_refl. cbn [bind].
    unfold ensure_all_alt_ids_have_a_nest.
    rewrite (proj2 (filter_nil_iff _ (np_unique alts))).
    2:{ intros a Ha. apply (proj1 (np_unique_In a alts)) in Ha. destruct (Hall a Ha) as (q & Hq & Hin & _).
        apply negb_false_iff. apply item_mem_In. apply in_map. apply in_concat_nests. exists q. auto. }
    cbn [bind]. unfold ensure_nest_alts_are_valid_alts.
    rewrite (proj2 (filter_nil_iff _ (map NInt _))); [reflexivity|].
    intros x Hx. apply in_map_iff in Hx. destruct Hx as (a & <- & Ha).
    apply negb_false_iff. apply item_mem_In. apply in_map. apply (np_unique_In a alts).
    apply in_concat in Ha. destruct Ha as (l & Hl & Ha). apply in_map_iff in Hl.
    destruct Hl as ((k, l') & E & Hin). simpl in E. subst l'. exact (Hval k l a Hin Ha).
Qed.

(** What the fit then uses: with an accepted specification (keys of a dict are
    distinct) the nest mapping is built and every row has exactly one nest. *)
Theorem C13_every_row_gets_its_nest d s t :
  s = raw_of t -> NoDup (map fst t) ->
  check_nest_spec s (np_unique (alt_ids d)) = Ok tt ->
  exists mp m, create_long_form_mappings d (Some t) = Ok mp /\ rows_to_nests mp = Some m /\
    s_cols m = length t /\
    forall i, (i < length (alt_ids d))%nat ->
      exists q, (q < length t)%nat /\ In (nth i (alt_ids d) 0%Z) (snd (nth q t (EmptyString, []))) /\
        forall j, (j < length t)%nat -> sget m i j = if (j =? q)%nat then 1%Z else 0%Z.
Proof.
  intros -> Hn H. apply C13_accepted_specifications_are_partitions in H.
  destruct H as (t' & Et & _ & _ & Hall & _).
  assert (t = t').
  { clear - Et. revert t' Et. induction t as [|[k l] r IH]; intros [|[k' l'] r'] E; simpl in E;
      [reflexivity|discriminate|discriminate|]. injection E as -> El Er. f_equal; [|apply IH; exact Er].
    f_equal. clear - El. revert l' El. induction l as [|z l IH]; intros [|z' l'] E; simpl in E;
      [reflexivity|discriminate|discriminate|]. injection E as -> E. f_equal. apply IH. exact E. }
  subst t'.
  destruct (C04_rows_to_nests d t Hn Hall) as (mp & m & E1 & E2 & _ & Ec & Hm).
  exists mp, m. repeat split; try assumption. intros i Hi.
  destruct (Hall (nth i (alt_ids d) 0%Z)) as (q & Hq & Hin & Hu); [apply nth_In; exact Hi|].
  exists q. repeat split; try assumption. intros j Hj. destruct (Hm i j Hi Hj) as [M1 M0].
  destruct (Nat.eqb_spec j q) as [->|N]; [apply M1; exact Hin|].
  apply M0. intros Hin'. apply N. apply Hu; assumption.
Qed.

(** Concrete: accepted and rejected specifications. *)
Example ex_nest_accepted : check_nest_spec (raw_of ex_nests) (np_unique (alt_ids ex_cols)) = Ok tt.
Proof. reflexivity. Qed.
Example ex_nest_overlap : check_nest_spec (raw_of [("a"%string, [10; 20]%Z); ("b"%string, [30; 10]%Z)])
  (np_unique (alt_ids ex_cols)) = Err ValueError.
Proof. reflexivity. Qed.
Example ex_nest_missing : check_nest_spec (raw_of [("a"%string, [10; 20]%Z)])
  (np_unique (alt_ids ex_cols)) = Err ValueError.
Proof. reflexivity. Qed.
Example ex_nest_nothing : check_nest_spec [] (np_unique (alt_ids ex_cols)) = Err TypeError.
Proof. reflexivity. Qed.

(** ** C14: splitting a parameter vector *)

(** What each model prescribes, in words: the number of shape parameters and of
    outside intercepts. *)
Definition wanted_shapes (k : logit_kind) (J : nat) : nat :=
  match k with
  | KMNL => 0 | KClog _ => 0          (* no shape parameters *)
  | KScobit _ => J | KUneven _ => J   (* one per alternative *)
  | KAsym _ _ => J - 1                (* one alternative is the reference *)
  end.
Definition wanted_intercepts (k : logit_kind) (J : nat) : nat :=
  match k with
  | KMNL => 0
  | KClog r | KScobit r | KUneven r | KAsym _ r =>
      match r with Some _ => J - 1 | None => 0 end
  end.
Definition opt_arr (o : option arr) : list R := match o with Some a => alist a | None => [] end.

Lemma alist_length a : length (alist a) = alen a.
Proof. unfold alist. rewrite map_length, seq_length. reflexivity. Qed.

Lemma alist_split a n m : alen a = (n + m)%nat -> alist a = (alist (aslice 0 n a) ++ alist (aslice n m a))%list.
Proof.
  intros H. unfold alist, aslice. cbn [alen aget]. rewrite H, seq_app, map_app. f_equal.
  cbn [Nat.add]. replace (seq n m) with (map (fun i => (n + i)%nat) (seq 0 m)); [apply map_map|].
  clear. revert n. induction m as [|m IH]; intros b; [reflexivity|]. simpl. f_equal; [lia|].
  rewrite <- (IH (S b)). rewrite <- seq_shift, map_map. apply map_ext. intros. lia.
Qed.

Lemma alist_slice a lo n m : (lo + (n + m) <= alen a)%nat ->
  alist (aslice lo (n + m) a) = (alist (aslice lo n a) ++ alist (aslice (lo + n) m a))%list.
Proof.
  intros H. rewrite (alist_split (aslice lo (n + m) a) n m eq_refl). apply f_equal2; [reflexivity|].
  unfold alist, aslice. cbn [alen aget]. apply map_ext. intros. f_equal. lia.
Qed.

Theorem C14_split_is_lossless k J K th :
  kind_ok k J -> (0 < K)%nat -> check_length_of_initial_values k J K th = Ok tt ->
  let '(shapes, intercepts, betas) := split_param_vec k J K th in
  length (opt_arr shapes) = wanted_shapes k J /\
  length (opt_arr intercepts) = wanted_intercepts k J /\
  length (alist betas) = K /\
  alist th = (opt_arr shapes ++ opt_arr intercepts ++ alist betas)%list.
Proof.
  intros Hk HK H. unfold check_length_of_initial_values in H.
  destruct (Nat.eqb_spec (alen th) (assumed_param_dimensions k J K)) as [E|]; [|discriminate].
  rewrite dims_eq in E by exact Hk. rewrite split_eq by assumption.
  assert (Es : num_shapes k J = wanted_shapes k J) by (destruct k; reflexivity).
  assert (Ei : num_icpts k J = wanted_intercepts k J) by (destruct k as [|[r|]|[r|]|[r|]|s [r|]]; reflexivity).
  assert (Ls : opt_arr (sh k J th) = alist (aslice 0 (num_shapes k J) th)).
  { unfold sh, has_shape. destruct k; reflexivity. }
  assert (Li : opt_arr (ic k J th) = alist (aslice (num_shapes k J) (num_icpts k J) th)).
  { unfold ic. destruct (Nat.ltb_spec 0 (num_icpts k J)); [reflexivity|].
    replace (num_icpts k J) with 0%nat by lia. reflexivity. }
  rewrite Ls, Li, !alist_length. cbn [aslice be alen].
  split; [exact Es|]. split; [exact Ei|]. split; [reflexivity|].
  rewrite (alist_split th (num_shapes k J) (num_icpts k J + K)) by lia. f_equal.
  rewrite alist_slice by lia. reflexivity.
Qed.

(** Concrete: an asymmetric logit with three alternatives, an outside intercept block
    and two index variables takes six parameters. *)
Example ex_split : let k := KAsym 1 (Some 0%nat) in
  kind_ok k 3 /\ check_length_of_initial_values k 3 2 (mkArr 6 INR) = Ok tt.
Proof. unfold kind_ok. simpl. repeat split; lia. Qed.

(** Without index variables Python's [v[-0:]] would return the whole vector; design
    matrices always have a column (create_design_matrix raises otherwise). *)
Example ex_split_needs_a_column :
  let '(shapes, _, betas) := split_param_vec (KScobit None) 2 0 (mkArr 2 INR) in
  length (opt_arr shapes) = 2%nat /\ length (alist betas) = 2%nat.
Proof. split; reflexivity. Qed.

(** ** C15: names and order of the stored parameters *)

(** The names a block of parameters is reported under: the user's names, or the
    default ones, numbered from 1; nothing when the model has no such block. *)
Definition block_names {A} (block : option (list A)) (user : option (list string)) (prefix : string)
  : list string :=
  match block with
  | None => []
  | Some p => match user with
              | Some l => l
              | None => map (fun n => append prefix (dec n)) (seq 1 (length p))
              end
  end.
Definition block_values {A} (block : option (list A)) : list A :=
  match block with None => [] | Some p => p end.

(** The index names: the variables, and one "Sigma" name per mixed variable. *)
Definition index_names_after_fit (index : list string) (mixing : option (list string)) : list string :=
  add_mixing_variable_names index mixing.

Lemma mk_series_ok {A} names (vals : list A) s :
  mk_series names vals = Ok s -> length names = length vals /\ s = combine names vals.
Proof.
  unfold mk_series. destruct (Nat.eqb_spec (length names) (length vals)); [|discriminate].
  intros H. injection H as <-. auto.
Qed.

Lemma combine_fst {A B} (l : list A) (r : list B) : length l = length r -> map fst (combine l r) = l.
Proof. revert r. induction l as [|a l IH]; intros [|b r]; simpl; intros; try lia; [reflexivity|]. f_equal. apply IH. lia. Qed.
Lemma combine_snd {A B} (l : list A) (r : list B) : length l = length r -> map snd (combine l r) = r.
Proof. revert r. induction l as [|a l IH]; intros [|b r]; simpl; intros; try lia; [reflexivity|]. f_equal. apply IH. lia. Qed.

Lemma store_block_ok {A} (o : option (list A)) names prefix acc b :
  store_block o names prefix acc = Ok b ->
  fst b = ((block_names o names prefix ++ fst acc)%list, (block_values o ++ snd acc)%list) /\
  length (block_names o names prefix) = length (block_values o) /\
  snd b = match o with
          | None => None
          | Some p => Some (combine (block_names o names prefix) p)
          end.
Proof.
  unfold store_block, store_optional_parameters. destruct o as [p|].
  - intros H. apply bind_ok in H. destruct H as (r & H & E). apply bind_ok in H. destruct H as (s & Hs & H).
    injection H as <-. injection E as <-. cbn [fst snd block_values]. apply mk_series_ok in Hs.
    destruct Hs as [L ->]. unfold block_names. destruct names; auto.
  - intros H. injection H as <-. cbn. auto.
Qed.

(** After a successful store_fit_results the parameter table lists nest, shape,
    outside-intercept and index parameters in that order, each value beside its own
    name; the gradient and the Hessian carry the same labels in the same order; and
    the four separate tables hold exactly their block. *)
Theorem C15_parameter_table nm m mixing r out :
  store_fit_results nm m mixing r = Ok out ->
  map snd (f_params out) =
    (block_values (r_nest_params r) ++ block_values (r_shape_params r) ++
     block_values (r_intercept_params r) ++ r_utility_coefs r)%list /\
  map fst (f_params out) =
    (block_names (r_nest_params r) (mn_nests m) "Nest_Param_" ++
     block_names (r_shape_params r) (mn_shapes m) "Shape_" ++
     block_names (r_intercept_params r) (mn_intercepts m) "Outside_ASC_" ++
     index_names_after_fit (mn_index m) mixing)%list /\
  length (block_names (r_nest_params r) (mn_nests m) "Nest_Param_") = length (block_values (r_nest_params r)) /\
  length (block_names (r_shape_params r) (mn_shapes m) "Shape_") = length (block_values (r_shape_params r)) /\
  length (block_names (r_intercept_params r) (mn_intercepts m) "Outside_ASC_") =
    length (block_values (r_intercept_params r)) /\
  length (index_names_after_fit (mn_index m) mixing) = length (r_utility_coefs r) /\
  map fst (f_gradient out) = map fst (f_params out) /\ map snd (f_gradient out) = r_gradient r /\
  f_hessian_labels out = map fst (f_params out) /\ f_hessian out = r_hessian r /\
  f_coefs out = combine (index_names_after_fit (mn_index m) mixing) (r_utility_coefs r) /\
  f_ind_var_names out = index_names_after_fit (mn_index m) mixing.
Proof.
  unfold store_fit_results. intros H.
  apply bind_ok in H. destruct H as (b1 & H1 & H). apply store_block_ok in H1. destruct H1 as (E1 & L1 & _).
  apply bind_ok in H. destruct H as (b2 & H2 & H). apply store_block_ok in H2. destruct H2 as (E2 & L2 & _).
  apply bind_ok in H. destruct H as (b3 & H3 & H). apply store_block_ok in H3. destruct H3 as (E3 & L3 & _).
  rewrite E1 in E2. cbn [fst snd] in E2. rewrite E2 in E3. cbn [fst snd] in E3.
  rewrite E3 in H. cbn [fst snd] in H.
  apply bind_ok in H. destruct H as (coefs & Hc & H). apply mk_series_ok in Hc. destruct Hc as [Lc ->].
  apply bind_ok in H. destruct H as (grad & Hg & H). apply mk_series_ok in Hg. destruct Hg as [Lg ->].
  apply bind_ok in H. destruct H as (params & Hp & H). apply mk_series_ok in Hp. destruct Hp as [Lp ->].
  apply bind_ok in H. destruct H as (inf & Hi & H).
  apply bind_ok in H. destruct H as (inf' & Hi' & H). injection H as <-.
  cbn [f_params f_gradient f_hessian_labels f_hessian f_coefs f_ind_var_names].
  rewrite !combine_fst, !combine_snd by assumption.
  unfold index_names_after_fit. repeat split; assumption.
Qed.

Lemma combine_app {A B} (l1 l2 : list A) (r1 r2 : list B) : length l1 = length r1 ->
  combine (l1 ++ l2) (r1 ++ r2) = (combine l1 r1 ++ combine l2 r2)%list.
Proof. revert r1. induction l1 as [|a l IH]; intros [|b r]; simpl; intros; try lia; [reflexivity|]. f_equal. apply IH. lia. Qed.

(** Each block of the table is the block's own series, under its own names. *)
Theorem C15_blocks nm m mixing r out :
  store_fit_results nm m mixing r = Ok out ->
  f_params out =
    (match f_nests out with Some s => s | None => [] end ++
     match f_shapes out with Some s => s | None => [] end ++
     match f_intercepts out with Some s => s | None => [] end ++
     f_coefs out)%list.
Proof.
  unfold store_fit_results. intros H.
  apply bind_ok in H. destruct H as (b1 & H1 & H). apply store_block_ok in H1. destruct H1 as (E1 & L1 & S1).
  apply bind_ok in H. destruct H as (b2 & H2 & H). apply store_block_ok in H2. destruct H2 as (E2 & L2 & S2).
  apply bind_ok in H. destruct H as (b3 & H3 & H). apply store_block_ok in H3. destruct H3 as (E3 & L3 & S3).
  rewrite E1 in E2. cbn [fst snd] in E2. rewrite E2 in E3. cbn [fst snd] in E3.
  rewrite E3 in H. cbn [fst snd] in H.
  apply bind_ok in H. destruct H as (coefs & Hc & H). apply mk_series_ok in Hc. destruct Hc as [Lc ->].
  apply bind_ok in H. destruct H as (grad & Hg & H).
  apply bind_ok in H. destruct H as (params & Hp & H). apply mk_series_ok in Hp. destruct Hp as [Lp ->].
  apply bind_ok in H. destruct H as (inf & Hi & H).
  apply bind_ok in H. destruct H as (inf' & Hi' & H). injection H as <-.
  cbn [f_params f_nests f_shapes f_intercepts f_coefs]. rewrite S1, S2, S3.
  rewrite !combine_app by assumption. unfold block_values, block_names.
  destruct (r_nest_params r), (r_shape_params r), (r_intercept_params r); reflexivity.
Qed.

(** The fitted vector of a logit-type model: the optimizer's point [x], split for
    storage (estimation.py:531-536), comes back unchanged and in place, so row j of the
    table, entry j of the gradient and row/column j of the Hessian all belong to x[j]. *)
Theorem C15_table_is_the_optimizers_point nm m mixing r out k J K x :
  kind_ok k J -> (0 < K)%nat -> check_length_of_initial_values k J K x = Ok tt ->
  r_nest_params r = None ->
  (let '(shapes, intercepts, betas) := split_param_vec k J K x in
   r_shape_params r = option_map alist shapes /\ r_intercept_params r = option_map alist intercepts /\
   r_utility_coefs r = alist betas) ->
  store_fit_results nm m mixing r = Ok out ->
  map snd (f_params out) = alist x /\
  forall j, (j < alen x)%nat -> nth j (map snd (f_params out)) 0%R = aget x j.
Proof.
  intros Hk HK Hx Hn Hs H. pose proof (C14_split_is_lossless k J K x Hk HK Hx) as HL.
  destruct (split_param_vec k J K x) as [[s i] b]. destruct HL as (_ & _ & _ & HL).
  destruct Hs as (Es & Ei & Eb). apply C15_parameter_table in H. destruct H as (Hv & _).
  rewrite Hn, Es, Ei, Eb in Hv. cbn [block_values app] in Hv.
  assert (E : map snd (f_params out) = alist x).
  { rewrite Hv, HL. destruct s, i; reflexivity. }
  split; [exact E|]. intros j Hj. rewrite E. unfold alist.
  rewrite (nth_indep _ 0%R (aget x 0%nat)) by (rewrite map_length, seq_length; exact Hj).
  rewrite map_nth, seq_nth by exact Hj. reflexivity.
Qed.

(** The bootstrap code's name list agrees with the fitted table whenever the user
    named every optional block the model has (and named none it does not have). *)
Definition named_iff_present {A} (names : option (list string)) (block : option (list A)) : Prop :=
  match names, block with Some _, Some _ => True | None, None => True | _, _ => False end.

Theorem C15_bootstrap_names nm m mixing r out :
  store_fit_results nm m mixing r = Ok out ->
  named_iff_present (mn_intercepts m) (r_intercept_params r) ->
  named_iff_present (mn_shapes m) (r_shape_params r) ->
  named_iff_present (mn_nests m) (r_nest_params r) ->
  get_param_names (mkModelNames (f_ind_var_names out) (mn_intercepts m) (mn_shapes m) (mn_nests m)) =
  map fst (f_params out).
Proof.
  intros H H1 H2 H3. apply C15_parameter_table in H. destruct H as (_ & E & _ & _ & _ & _ & _ & _ & _ & _ & _ & Ei).
  rewrite E, Ei. unfold get_param_names, block_names. cbn [mn_index mn_intercepts mn_shapes mn_nests].
  destruct (mn_intercepts m), (r_intercept_params r); try contradiction;
  destruct (mn_shapes m), (r_shape_params r); try contradiction;
  destruct (mn_nests m), (r_nest_params r); try contradiction; reflexivity.
Qed.

(** Storing succeeds whenever the pieces have matching sizes, the Hessian can be
    inverted and the constrained positions exist. *)
Lemma store_block_succeeds {A} (o : option (list A)) names prefix acc :
  length (block_names o names prefix) = length (block_values o) ->
  exists b, store_block o names prefix acc = Ok b.
Proof.
  intros H. unfold store_block, store_optional_parameters, mk_series. destruct o as [p|]; [|eauto].
  cbn [block_values] in H. unfold block_names in H. unfold default_names.
  destruct names as [l|]; rewrite H, Nat.eqb_refl; cbn [bind]; eauto.
Qed.

Lemma mk_series_succeeds {A} names (v : list A) : length names = length v -> mk_series names v = Ok (combine names v).
Proof. intros H. unfold mk_series. rewrite H, Nat.eqb_refl. reflexivity. Qed.

Lemma blank_succeeds names c s : (forall z, In z c -> py_pos (length names) z <> None) ->
  exists s', blank_constrained names c s = Ok s'.
Proof.
  revert s. induction c as [|z r IH]; intros s H; simpl; [eauto|].
  destruct (py_pos (length names) z) as [k|] eqn:E; [apply IH; intros; apply H; right; assumption|].
  exfalso. apply (H z); [left; reflexivity|exact E].
Qed.

Definition num_params (r : results) : nat :=
  (length (block_values (r_nest_params r)) + (length (block_values (r_shape_params r)) +
   (length (block_values (r_intercept_params r)) + length (r_utility_coefs r))))%nat.

Theorem C15_storing_succeeds nm m mixing r hinv :
  length (block_names (r_nest_params r) (mn_nests m) "Nest_Param_") = length (block_values (r_nest_params r)) ->
  length (block_names (r_shape_params r) (mn_shapes m) "Shape_") = length (block_values (r_shape_params r)) ->
  length (block_names (r_intercept_params r) (mn_intercepts m) "Outside_ASC_") =
    length (block_values (r_intercept_params r)) ->
  length (index_names_after_fit (mn_index m) mixing) = length (r_utility_coefs r) ->
  length (r_gradient r) = num_params r -> sqn (r_hessian r) = num_params r -> sqn (r_fisher r) = num_params r ->
  n_inv nm (r_hessian r) = Ok hinv -> sqn hinv = num_params r ->
  (forall c z, r_constrained_pos r = Some c -> In z c ->
     (- Z.of_nat (num_params r) <= z < Z.of_nat (num_params r))%Z) ->
  exists out, store_fit_results nm m mixing r = Ok out.
Proof.
  intros H1 H2 H3 H4 H5 H6 H7 H8 H9 H10. unfold store_fit_results.
  destruct (store_block_succeeds _ _ _ (add_mixing_variable_names (mn_index m) mixing, r_utility_coefs r) H3) as (b1 & E1).
  rewrite E1. cbn [bind]. apply store_block_ok in E1. destruct E1 as (F1 & _ & _).
  destruct (store_block_succeeds _ _ _ (fst b1) H2) as (b2 & E2).
  rewrite E2. cbn [bind]. apply store_block_ok in E2. destruct E2 as (F2 & _ & _).
  destruct (store_block_succeeds _ _ _ (fst b2) H1) as (b3 & E3).
  rewrite E3. cbn [bind]. apply store_block_ok in E3. destruct E3 as (F3 & _ & _).
  rewrite F1 in F2. cbn [fst snd] in F2. rewrite F2 in F3. cbn [fst snd] in F3. clear F1 F2.
  set (names := fst (fst b3)) in *. set (vals := snd (fst b3)) in *.
  assert (Lv : length vals = num_params r).
  { unfold vals. rewrite F3. cbn [snd]. rewrite !app_length. unfold num_params. lia. }
  assert (Ln : length names = num_params r).
  { unfold names. rewrite F3. cbn [fst]. rewrite !app_length. unfold num_params.
    unfold index_names_after_fit in H4. lia. }
  clearbody names vals. rewrite (mk_series_succeeds _ (r_utility_coefs r)) by exact H4. cbn [bind].
  rewrite (mk_series_succeeds names (r_gradient r)) by lia. cbn [bind].
  rewrite (mk_series_succeeds names vals) by lia. cbn [bind].
  assert (G : exists ci, generic_inference nm names vals (r_hessian r) (r_fisher r) = Ok ci).
  { unfold generic_inference, mk_square. rewrite H6, Ln, Nat.eqb_refl. cbn [bind]. rewrite H8. cbn [bind].
    cbn [neg_sq sqn]. rewrite H9, Nat.eqb_refl. cbn [bind].
    rewrite (mk_series_succeeds names (map fsqrt _)).
    2:{ unfold diag_list. cbn [neg_sq sqn]. rewrite !map_length, seq_length. lia. }
    cbn [bind].
    rewrite (mk_series_succeeds names (map _ (map _ _))).
    2:{ unfold diag_list. cbn [neg_sq sqn]. rewrite !map_length, !combine_length, !map_length, seq_length. lia. }
    cbn [bind]. rewrite H7, Nat.eqb_refl. cbn [bind sqn]. rewrite H6, Nat.eqb_refl. cbn [bind].
    rewrite (mk_series_succeeds names (map fsqrt _)).
    2:{ unfold diag_list. cbn [sqn]. rewrite !map_length, seq_length. lia. }
    cbn [bind].
    rewrite (mk_series_succeeds names (map _ (map _ _))).
    2:{ unfold diag_list. cbn [sqn]. rewrite !map_length, !combine_length, !map_length, seq_length. lia. }
    cbn [bind]. eauto. }
  destruct G as (ci & ->). cbn [bind]. rewrite combine_fst by lia.
  assert (A : exists i', adjust_inferential_results names (r_constrained_pos r) (snd ci) = Ok i').
  { unfold adjust_inferential_results. destruct (r_constrained_pos r) as [c|]; [|eauto].
    assert (V : forall z, In z c -> py_pos (length names) z <> None).
    { intros z Hz. specialize (H10 c z eq_refl Hz). rewrite Ln. unfold py_pos.
      destruct (Z.leb_spec 0 z), (Z.ltb_spec z (Z.of_nat (num_params r))); cbn [andb]; try congruence; try lia.
      destruct (Z.leb_spec (- Z.of_nat (num_params r)) z), (Z.ltb_spec z 0); cbn [andb]; try congruence; lia. }
    destruct ci as [cov [c1 c2 c3 c4 c5 c6]].
    cbn [snd i_standard_errors i_tvalues i_pvalues i_robust_std_errs i_robust_t_stats i_robust_p_vals].
    destruct (blank_succeeds names c c1 V) as (? & ->). cbn [bind].
    destruct (blank_succeeds names c c2 V) as (? & ->). cbn [bind].
    destruct (blank_succeeds names c c3 V) as (? & ->). cbn [bind].
    destruct (blank_succeeds names c c4 V) as (? & ->). cbn [bind].
    destruct (blank_succeeds names c c5 V) as (? & ->). cbn [bind].
    destruct (blank_succeeds names c c6 V) as (? & ->). cbn [bind]. eauto. }
  destruct A as (i' & ->). cbn [bind]. eauto.
Qed.

(** A model fitted with outside intercepts (or shapes) but without names for them gets
    default names in its own table, while the bootstrap code's name list leaves those
    parameters out: its length is not the number of parameters, and constructing the
    bootstrap object (pd.Series(mle_params, index=names)) raises. *)
Theorem C15_refuted_bootstrap_names_with_defaults :
  exists nm m r out, store_fit_results nm m None r = Ok out /\ length (f_params out) = 2%nat /\
    mk_series (get_param_names m) (map snd (f_params out)) = Err ValueError.
Proof.
  set (nm := mkNumerics (fun h => Ok h) (fun _ => 0%R) (fun _ => 0%R)).
  set (m := mkModelNames ["x"%string] None None None).
  set (r := mkResults [1%R] (Some [2%R]) None None [0%R; 0%R] (mkSq 2 (fun _ _ => 0%R)) (mkSq 2 (fun _ _ => 0%R)) 0 [] None).
  exists nm, m, r.
  destruct (C15_storing_succeeds nm m None r (mkSq 2 (fun _ _ => 0%R))) as (out & E); try reflexivity; try discriminate.
  exists out. split; [exact E|]. apply C15_parameter_table in E. destruct E as (E & _).
  rewrite E. split; [rewrite <- (map_length snd), E; reflexivity|reflexivity].
Qed.

(** A fit that does succeed, with every kind of block: the hypotheses of C15 are met. *)
Example ex_store : exists out,
  store_fit_results (mkNumerics (fun h => Ok h) (fun _ => 0%R) (fun _ => 0%R))
    (mkModelNames ["x"%string; "y"%string] None (Some ["s"%string]) (Some ["n"%string])) None
    (mkResults [1%R; 2%R] (Some [3%R]) (Some [4%R]) (Some [5%R]) [0;0;0;0;0]%R (mkSq 5 (fun _ _ => 0%R))
       (mkSq 5 (fun _ _ => 0%R)) (-7) [1; 1]%R (Some [0; -1]%Z)) = Ok out /\
  map fst (f_params out) = ["n"; "s"; "Outside_ASC_1"; "x"; "y"]%string /\ map snd (f_params out) = [5; 4; 3; 1; 2]%R.
Proof.
  edestruct C15_storing_succeeds as (out & E); cycle -1.
  - exists out. split; [exact E|]. apply C15_parameter_table in E. destruct E as (E1 & E2 & _). rewrite E1, E2.
    split; reflexivity.
  - reflexivity.
  - reflexivity.
  - reflexivity.
  - reflexivity.
  - reflexivity.
  - reflexivity.
  - reflexivity.
  - reflexivity.
  - reflexivity.
  - intros c z Ec Hz. injection Ec as <-. cbn in *. lia.
Qed.

(** ** C51: inference output of constrained parameters *)

(** Position j (of n) is one of the constrained positions; Python also accepts
    negative positions, counted from the end. *)
Definition constrained (n : nat) (c : list Z) (j : nat) : Prop :=
  In (Z.of_nat j) c \/ In (Z.of_nat j - Z.of_nat n)%Z c.

Lemma py_pos_spec n z k : py_pos n z = Some k <->
  (k < n)%nat /\ (z = Z.of_nat k \/ z = (Z.of_nat k - Z.of_nat n)%Z).
Proof.
  unfold py_pos.
  destruct (Z.leb_spec 0 z), (Z.ltb_spec z (Z.of_nat n)); cbn [andb].
  - split; [intros E; injection E as <-; lia|]. intros [Hk [E|E]]; [f_equal; lia|lia].
  - destruct (Z.leb_spec (- Z.of_nat n) z), (Z.ltb_spec z 0); cbn [andb]; try lia;
      (split; [discriminate|intros [? [?|?]]; lia]).
  - destruct (Z.leb_spec (- Z.of_nat n) z), (Z.ltb_spec z 0); cbn [andb]; try lia.
    + split; [intros E; injection E as <-; lia|]. intros [Hk [E|E]]; [lia|f_equal; lia].
    + split; [discriminate|intros [? [?|?]]; lia].
  - lia.
Qed.

Lemma loc_set_fst {A} name (v : A) s : map fst (loc_set name v s) = map fst s.
Proof. unfold loc_set. rewrite map_map. apply map_ext. intros [k a]. simpl. destruct (String.eqb name k); reflexivity. Qed.

Lemma nth_map_in {A B} (f : A -> B) l j da db : (j < length l)%nat -> nth j (map f l) db = f (nth j l da).
Proof. intros H. rewrite (nth_indep _ db (f da)) by (rewrite map_length; exact H). apply map_nth. Qed.

Lemma loc_set_nth {A} name (v : A) s j d : (j < length s)%nat ->
  snd (nth j (loc_set name v s) d) =
  if String.eqb name (nth j (map fst s) EmptyString) then v else snd (nth j s d).
Proof.
  intros H. unfold loc_set. rewrite (nth_map_in _ s j d) by exact H.
  rewrite (nth_map_in fst s j d) by exact H.
  destruct (String.eqb name (fst (nth j s d))); reflexivity.
Qed.

(** The exact effect on one column of the summary table, for distinct names. *)
Theorem C51_blanks_exactly_the_constrained names c s s' :
  NoDup names -> map fst s = names -> blank_constrained names c s = Ok s' ->
  map fst s' = names /\
  forall j d, (j < length names)%nat ->
    (constrained (length names) c j -> snd (nth j s' d) = NaN) /\
    (~ constrained (length names) c j -> snd (nth j s' d) = snd (nth j s d)).
Proof.
  intros HN. revert s. induction c as [|z r IH]; intros s Hs H; simpl in H.
  - injection H as <-. split; [exact Hs|]. intros j d Hj. split; [intros [[]|[]]|reflexivity].
  - destruct (py_pos (length names) z) as [k|] eqn:Ek; [|discriminate].
    apply py_pos_spec in Ek. destruct Ek as [Hk Ez].
    apply IH in H; [|rewrite loc_set_fst; exact Hs]. destruct H as [Hf Hj]. split; [exact Hf|].
    intros j d Hlt. destruct (Hj j d Hlt) as [J1 J2].
    assert (Ls : length s = length names) by (rewrite <- Hs, map_length; reflexivity).
    rewrite loc_set_nth in J2 by lia. rewrite Hs in J2.
    assert (Hkj : nth k names EmptyString = nth j names EmptyString <-> k = j).
    { split; [|intros ->; reflexivity]. apply (proj1 (NoDup_nth names EmptyString) HN); assumption. }
    assert (D : {constrained (length names) r j} + {~ constrained (length names) r j}).
    { unfold constrained. destruct (in_dec Z.eq_dec (Z.of_nat j) r); [left; tauto|].
      destruct (in_dec Z.eq_dec (Z.of_nat j - Z.of_nat (length names))%Z r); [left; tauto|right; tauto]. }
    destruct (String.eqb_spec (nth k names EmptyString) (nth j names EmptyString)) as [E|E].
    + apply Hkj in E. subst k. split.
      * intros _. destruct D; auto.
      * intros Hc. exfalso. apply Hc. destruct Ez as [->| ->]; [left|right]; left; reflexivity.
    + split.
      * intros Hc. apply J1. destruct Hc as [[Hc|Hc]|[Hc|Hc]].
        -- exfalso. apply E. apply Hkj. lia.
        -- left. exact Hc.
        -- exfalso. apply E. apply Hkj. lia.
        -- right. exact Hc.
      * intros Hc. apply J2. intros [Hr|Hr]; apply Hc; [left|right]; right; exact Hr.
Qed.

(** The six columns of the inference output. *)
Definition columns (i : inference) : list (series fcell) :=
  [i_standard_errors i; i_tvalues i; i_pvalues i; i_robust_std_errs i; i_robust_t_stats i; i_robust_p_vals i].

Definition unconstrained (r : results) : results :=
  mkResults (r_utility_coefs r) (r_intercept_params r) (r_shape_params r) (r_nest_params r) (r_gradient r)
    (r_hessian r) (r_fisher r) (r_log_likelihood r) (r_chosen_probs r) None.

Lemma generic_inference_labels nm names params h fi ci :
  length names = length params -> generic_inference nm names params h fi = Ok ci ->
  Forall (fun s => map fst s = names) (columns (snd ci)).
Proof.
  intros L H. unfold generic_inference in H.
  apply bind_ok in H. destruct H as (h' & H1 & H).
  apply bind_ok in H. destruct H as (hinv & H2 & H).
  apply bind_ok in H. destruct H as (cov & H3 & H).
  apply bind_ok in H. destruct H as (ses & H4 & H). apply mk_series_ok in H4. destruct H4 as [L4 E4].
  cbv zeta in H.
  apply bind_ok in H. destruct H as (pvals & H5 & H). apply mk_series_ok in H5. destruct H5 as [L5 E5].
  apply bind_ok in H. destruct H as (fi' & H6 & H).
  apply bind_ok in H. destruct H as (rcov & H7 & H).
  apply bind_ok in H. destruct H as (rses & H8 & H). apply mk_series_ok in H8. destruct H8 as [L8 E8].
  apply bind_ok in H. destruct H as (rp & H9 & H). apply mk_series_ok in H9. destruct H9 as [L9 E9].
  injection H as <-. cbn [snd columns i_standard_errors i_tvalues i_pvalues i_robust_std_errs i_robust_t_stats i_robust_p_vals].
  assert (T : forall s : series fcell, map fst s = names ->
    map fst (map (fun ps : R * (string * fcell) => (fst (snd ps), fdiv (fst ps) (snd (snd ps)))) (combine params s)) = names).
  { intros s Es. rewrite map_map. cbn [fst].
    rewrite <- (map_map snd fst). rewrite combine_snd; [exact Es|].
    rewrite <- L, <- Es, map_length. reflexivity. }
  assert (F1 : map fst ses = names) by (rewrite E4; apply combine_fst; exact L4).
  assert (F8 : map fst rses = names) by (rewrite E8; apply combine_fst; exact L8).
  repeat constructor; try assumption; try (apply T; assumption).
  - rewrite E5. apply combine_fst. exact L5.
  - rewrite E9. apply combine_fst. exact L9.
Qed.

(** Fitting with constraints stores what fitting without them would have stored,
    except that in each of the six inference columns exactly the cells of the
    constrained parameters are NaN. *)
Theorem C51_inference_output nm m mixing r out c :
  store_fit_results nm m mixing r = Ok out -> r_constrained_pos r = Some c ->
  NoDup (map fst (f_params out)) ->
  exists out0, store_fit_results nm m mixing (unconstrained r) = Ok out0 /\
    f_params out = f_params out0 /\ f_gradient out = f_gradient out0 /\ f_cov out = f_cov out0 /\
    f_aic out = f_aic out0 /\ f_bic out = f_bic out0 /\
    Forall2 (fun col col0 =>
      map fst col = map fst (f_params out) /\ map fst col0 = map fst (f_params out) /\
      forall j d, (j < length (f_params out))%nat ->
        (constrained (length (f_params out)) c j -> snd (nth j col d) = NaN) /\
        (~ constrained (length (f_params out)) c j -> snd (nth j col d) = snd (nth j col0 d)))
      (columns (f_inference out)) (columns (f_inference out0)).
Proof.
  unfold store_fit_results. intros H Hc HN. rewrite Hc in H. cbn [r_utility_coefs r_intercept_params r_shape_params
    r_nest_params r_gradient r_hessian r_fisher r_log_likelihood r_chosen_probs r_constrained_pos unconstrained].
  apply bind_ok in H. destruct H as (b1 & H1 & H). rewrite H1. cbn [bind].
  apply bind_ok in H. destruct H as (b2 & H2 & H). rewrite H2. cbn [bind].
  apply bind_ok in H. destruct H as (b3 & H3 & H). rewrite H3. cbn [bind].
  apply bind_ok in H. destruct H as (coefs & H4 & H). rewrite H4. cbn [bind].
  apply bind_ok in H. destruct H as (grad & H5 & H). rewrite H5. cbn [bind].
  apply bind_ok in H. destruct H as (params & H6 & H). rewrite H6. cbn [bind].
  apply bind_ok in H. destruct H as (inf & H7 & H). rewrite H7. cbn [bind].
  apply bind_ok in H. destruct H as (inf' & H8 & H). injection H as <-.
  cbn [adjust_inferential_results bind f_params f_inference] in *.
  apply mk_series_ok in H6. destruct H6 as [L6 ->]. rewrite combine_fst in * by exact L6.
  pose proof (generic_inference_labels _ _ _ _ _ _ L6 H7) as HL.
  eexists. split; [reflexivity|].
  cbn [f_params f_gradient f_cov f_aic f_bic f_inference adjust_inferential_results bind].
  repeat (split; [reflexivity|]).
  set (names := fst (fst b3)) in *.
  assert (Ln : length (combine names (snd (fst b3))) = length names) by (rewrite combine_length; lia).
  unfold adjust_inferential_results in H8.
  apply bind_ok in H8. destruct H8 as (a1 & A1 & H8).
  apply bind_ok in H8. destruct H8 as (a2 & A2 & H8).
  apply bind_ok in H8. destruct H8 as (a3 & A3 & H8).
  apply bind_ok in H8. destruct H8 as (a4 & A4 & H8).
  apply bind_ok in H8. destruct H8 as (a5 & A5 & H8).
  apply bind_ok in H8. destruct H8 as (a6 & A6 & H8). injection H8 as <-.
  rewrite Ln. unfold columns in *. cbn [i_standard_errors i_tvalues i_pvalues i_robust_std_errs i_robust_t_stats i_robust_p_vals].
  repeat match goal with HF : Forall _ (_ :: _) |- _ =>
    let x := fresh "G" in let y := fresh "HF" in inversion HF as [|? ? x y]; subst; clear HF end.
  assert (ONE : forall s s', map fst s = names -> blank_constrained names c s = Ok s' ->
    map fst s' = names /\ map fst s = names /\
    forall j d, (j < length names)%nat ->
      (constrained (length names) c j -> snd (nth j s' d) = NaN) /\
      (~ constrained (length names) c j -> snd (nth j s' d) = snd (nth j s d))).
  { intros s s' E B. destruct (C51_blanks_exactly_the_constrained names c s s' HN E B). auto. }
  repeat constructor; try assumption;
  match goal with
  | B : blank_constrained names c ?s = Ok ?s' |- map fst ?s' = _ => apply (ONE s s'); assumption
  | B : blank_constrained names c ?s = Ok ?s', Hj : (?j < length names)%nat |- (constrained _ _ _ -> snd (nth ?j ?s' ?d) = NaN) =>
      apply (ONE s s'); assumption
  | B : blank_constrained names c ?s = Ok ?s', Hj : (?j < length names)%nat |- (~ constrained _ _ _ -> snd (nth ?j ?s' ?d) = _) =>
      apply (ONE s s'); assumption
  | _ => idtac
  end.
Qed.

(** When two parameters share a name (names are the user's, and nothing checks that
    they differ), constraining one blanks the other too. *)
Theorem C51_refuted_duplicate_names :
  exists nm m r out out0, r_constrained_pos r = Some [0%Z] /\
    store_fit_results nm m None r = Ok out /\ store_fit_results nm m None (unconstrained r) = Ok out0 /\
    length (f_params out) = 2%nat /\ ~ constrained 2 [0%Z] 1 /\
    nth 1 (i_standard_errors (f_inference out0)) (EmptyString, NaN) = ("x"%string, Fin 1) /\
    nth 1 (i_standard_errors (f_inference out)) (EmptyString, Fin 1) = ("x"%string, NaN).
Proof.
  exists (mkNumerics (fun h => Ok h) (fun _ => 0%R) (fun _ => 0%R)).
  exists (mkModelNames ["x"%string; "x"%string] None None None).
  exists (mkResults [1%R; 1%R] None None None [0%R; 0%R] (mkSq 2 (fun i j => if (i =? j)%nat then -1 else 0)%R)
            (mkSq 2 (fun _ _ => 0%R)) 0 [] (Some [0%Z])).
  eexists. eexists. split; [reflexivity|]. split; [reflexivity|]. split; [reflexivity|].
  split; [reflexivity|]. split.
  { intros [[H|[]]|[H|[]]]; discriminate H. }
  split; [|reflexivity].
  cbn. f_equal. unfold fsqrt. destruct (Rle_dec 0 (-1 * -1)) as [H|H]; [|exfalso; apply H; lra].
  f_equal. replace (-1 * -1)%R with 1%R by ring. apply sqrt_1.
Qed.

(** Default names never clash with each other. *)
Lemma dec_inj n n' : dec n = dec n' -> n = n'.
Proof.
  intros H. unfold dec in H.
  assert (E : Some (Nat.to_uint n) = Some (Nat.to_uint n')) by (rewrite <- !NilEmpty.usu, H; reflexivity).
  injection E as E. rewrite <- (Unsigned.of_to n), <- (Unsigned.of_to n'), E. reflexivity.
Qed.

Lemma append_inj p a b : append p a = append p b -> a = b.
Proof. induction p as [|c p IH]; simpl; intros H; [exact H|]. injection H as H. auto. Qed.

Theorem C15_default_names_are_distinct prefix n : NoDup (default_names prefix n) /\ length (default_names prefix n) = n.
Proof.
  unfold default_names. split; [|rewrite map_length, seq_length; reflexivity].
  apply FinFun.Injective_map_NoDup; [|apply seq_NoDup].
  intros x y H. apply append_inj in H. apply dec_inj. exact H.
Qed.

(** ** C52: fit statistics *)
Theorem C52_information_criteria nm m mixing r out :
  store_fit_results nm m mixing r = Ok out ->
  let k := (length (block_values (r_nest_params r)) + length (block_values (r_shape_params r)) +
            length (block_values (r_intercept_params r)) + length (r_utility_coefs r))%nat in
  let n := length (r_chosen_probs r) in
  let LL := r_log_likelihood r in
  f_log_likelihood out = LL /\ f_nobs out = n /\ f_df_model out = k /\
  f_df_resid out = (Z.of_nat n - Z.of_nat k)%Z /\
  f_aic out = (2 * INR k - 2 * LL)%R /\ f_bic out = (INR k * ln (INR n) - 2 * LL)%R.
Proof.
  intros H k n LL. pose proof (C15_parameter_table _ _ _ _ _ H) as (HV & _).
  unfold store_fit_results in H.
  apply bind_ok in H. destruct H as (b1 & H1 & H).
  apply bind_ok in H. destruct H as (b2 & H2 & H).
  apply bind_ok in H. destruct H as (b3 & H3 & H).
  apply bind_ok in H. destruct H as (coefs & H4 & H).
  apply bind_ok in H. destruct H as (grad & H5 & H).
  apply bind_ok in H. destruct H as (params & H6 & H).
  apply bind_ok in H. destruct H as (inf & H7 & H).
  apply bind_ok in H. destruct H as (inf' & H8 & H). injection H as <-.
  cbn [f_params f_log_likelihood f_nobs f_df_model f_df_resid f_aic f_bic] in *.
  assert (Ek : length params = k).
  { rewrite <- (map_length snd), HV, !app_length. unfold k. lia. }
  rewrite Ek. unfold compute_aic, compute_bic. repeat split; unfold LL, n; ring.
Qed.

(** ** Confidence intervals *)

(** The interval is centred at the estimate; with positive standard error it contains
    the estimate, and a smaller alpha gives a wider interval, for any increasing
    quantile function that is zero at one half; it is NaN where the standard error is. *)
Definition quantile_like (q : R -> R) : Prop :=
  q (1 / 2)%R = 0%R /\ forall x y, (0 < x -> x < y -> y < 1 -> q x < q y)%R.

Theorem C62_confidence_intervals nm alpha alpha' (params : series R) ses j d d2 x se :
  quantile_like (n_ppf nm) -> (0 < alpha' /\ alpha' <= alpha /\ alpha < 1)%R ->
  (j < length params)%nat -> (j < length ses)%nat ->
  snd (nth j params d) = x -> snd (nth j ses d2) = Fin se -> (0 <= se)%R ->
  exists lo hi lo' hi' d3,
    snd (nth j (conf_int nm alpha params ses) d3) = (Fin lo, Fin hi) /\
    snd (nth j (conf_int nm alpha' params ses) d3) = (Fin lo', Fin hi') /\
    (lo <= x <= hi)%R /\ (x - lo = hi - x)%R /\ (lo' <= lo /\ hi <= hi')%R.
Proof.
  intros [Q0 Q1] [A1 [A2 A3]] Hj Hj2 Ex Es Hs.
  set (z := n_ppf nm (1 - alpha / 2)). set (z' := n_ppf nm (1 - alpha' / 2)).
  assert (Hz : (0 < z)%R) by (rewrite <- Q0; apply Q1; lra).
  assert (Hzz : (z <= z')%R).
  { destruct (Req_dec alpha' alpha) as [->|N]; [apply Rle_refl|]. apply Rlt_le. apply Q1; lra. }
  exists (x - z * se)%R, (x - - z * se)%R, (x - z' * se)%R, (x - - z' * se)%R.
  exists (fst (nth j params d), (NaN, NaN)).
  assert (N : forall a, snd (nth j (conf_int nm a params ses) (fst (nth j params d), (NaN, NaN))) =
    (Fin (x - n_ppf nm (1 - a / 2) * se), Fin (x - - n_ppf nm (1 - a / 2) * se))).
  { intros a. unfold conf_int.
    rewrite (nth_map_in _ (combine params ses) j (d, d2)) by (rewrite combine_length; lia).
    replace (nth j (combine params ses) (d, d2)) with (nth j params d, nth j ses d2).
    - cbn [fst snd]. rewrite Ex, Es. reflexivity.
    - clear - Hj Hj2. revert ses j Hj Hj2. induction params as [|p r IH]; intros [|s t] [|j]; simpl; intros; try lia;
        [reflexivity|apply IH; lia]. }
  split; [apply N|]. split; [apply N|]. 
  assert (0 <= z * se)%R by (apply Rmult_le_pos; lra).
  assert (z * se <= z' * se)%R by (apply Rmult_le_compat_r; lra).
  repeat split; lra.
Qed.

Theorem C62_no_interval_for_constrained nm alpha (params : series R) ses j d d2 d3 :
  (j < length params)%nat -> (j < length ses)%nat -> snd (nth j ses d2) = NaN ->
  snd (nth j (conf_int nm alpha params ses) d3) = (NaN, NaN) /\
  fst (nth j (conf_int nm alpha params ses) d3) = fst (nth j params d).
Proof.
  intros Hj Hj2 Es. unfold conf_int.
  rewrite !(nth_map_in _ (combine params ses) j (d, d2)) by (rewrite combine_length; lia).
  replace (nth j (combine params ses) (d, d2)) with (nth j params d, nth j ses d2).
  - cbn [fst snd]. rewrite Es. split; reflexivity.
  - clear - Hj Hj2. revert ses j Hj Hj2. induction params as [|p r IH]; intros [|s t] [|j]; simpl; intros; try lia;
      [reflexivity|apply IH; lia].
Qed.

Example ex_quantile : quantile_like (fun x => x - 1 / 2)%R.
Proof. split; intros; lra. Qed.

(** ** C63: parameter lists *)

(** What predict accepts as param_list: four entries; the first an array, the others
    arrays or None; all arrays 1-D, or all 2-D with the same number of columns; and the
    right number of rows in each. *)
Definition valid_param_list (m : model_names) (l : list plist_elem) : Prop :=
  exists e1 e2 e3 (tail : list nat), (length tail <= 1)%nat /\
    l = [PArray (length (mn_index m) :: tail); e1; e2; e3] /\
    (e1 = PNone \/ e1 = PArray (num_names (mn_intercepts m) :: tail)) /\
    (e2 = PNone \/ e2 = PArray (num_names (mn_shapes m) :: tail)) /\
    (e3 = PNone \/ e3 = PArray (num_names (mn_nests m) :: tail)).

Lemma num_rows_ok s n : check_num_rows_of_parameter_array s n = Ok tt <-> exists t, s = n :: t.
Proof.
  unfold check_num_rows_of_parameter_array. destruct s as [|r t]; [split; [discriminate|intros (? & ?); discriminate]|].
  destruct (Nat.eqb_spec r n) as [->|N]; split; try discriminate; eauto.
  intros (t' & E). injection E as -> _. contradiction.
Qed.

Theorem C63_accepted_parameter_lists m l :
  check_param_list_validity m (Some l) = Ok tt <-> valid_param_list m l.
Proof.
  unfold check_param_list_validity. split.
  - intros H. apply bind_ok in H. destruct H as ([] & H1 & H).
    destruct (Nat.eqb_spec (length l) 4) as [L|]; [|discriminate].
    destruct l as [|e0 [|e1 [|e2 [|e3 [|]]]]]; try discriminate L.
    apply bind_ok in H. destruct H as ([] & H2 & H).
    destruct e0 as [|s0|]; unfold check_type_of_param_list_elements in H2; try discriminate.
    match type of H2 with (if ?b then _ else _) = _ => destruct b eqn:F2 end; [|discriminate].
    apply bind_ok in H. destruct H as ([] & H3 & H).
    unfold check_dimensional_equality_of_param_list_arrays in H3.
    destruct (((length s0 =? 1) || (length s0 =? 2))%nat) eqn:D; [|discriminate].
    cbn [andb] in H3.
    match type of H3 with (if ?b then _ else _) = _ => destruct b eqn:F3 end; [|discriminate].
    apply bind_ok in H. destruct H as ([] & H4 & H).
    apply bind_ok in H. destruct H as ([] & R0 & H).
    apply bind_ok in H. destruct H as ([] & R1 & H).
    apply bind_ok in H. destruct H as ([] & R2 & R3).
    apply num_rows_ok in R0. destruct R0 as (tail & ->).
    simpl in F2, F3. repeat (apply andb_true_iff in F2; destruct F2 as [? F2]).
    rewrite ?andb_true_iff in F3. destruct F3 as (_ & G1 & G2 & G3 & _).
    assert (Ht : (length tail <= 1)%nat).
    { simpl in D. apply orb_true_iff in D. rewrite !Nat.eqb_eq in D. lia. }
    exists e1, e2, e3, tail. split; [exact Ht|]. split; [reflexivity|].
    assert (ONE : forall e n, (match e with POther => false | _ => true end) = true ->
      match e with PArray s => (length s =? S (length tail))%nat | _ => true end = true ->
      match e with PArray s => check_num_rows_of_parameter_array s n | _ => Ok tt end = Ok tt ->
      (forall c, tail = [c] -> match e with PArray [_; c'] => (c' =? c)%nat | PArray _ => false | _ => true end = true) ->
      e = PNone \/ e = PArray (n :: tail)).
    { intros e n E1 E2 E3 E4. destruct e as [|s|]; [left; reflexivity| |discriminate]. right. f_equal.
      apply num_rows_ok in E3. destruct E3 as (t & ->). f_equal. apply Nat.eqb_eq in E2. simpl in E2.
      destruct tail as [|c [|? ?]]; simpl in Ht; try lia.
      - destruct t; [reflexivity|simpl in E2; lia].
      - destruct t as [|c' [|? ?]]; simpl in E2; try lia. specialize (E4 c eq_refl). simpl in E4.
        apply Nat.eqb_eq in E4. subst. reflexivity. }
    assert (CC : forall c, tail = [c] -> forall e, In e [e1; e2; e3] ->
       match e with PArray [_; c'] => (c' =? c)%nat | PArray _ => false | _ => true end = true).
    { intros c -> e He. unfold check_num_columns_in_param_list_arrays in H4.
      match type of H4 with (if ?b then _ else _) = _ => destruct b eqn:F4 end; [|discriminate].
      rewrite forallb_forall in F4. apply F4. right. exact He. }
    repeat split.
    + apply ONE; auto. intros c E. apply CC; [exact E|left; reflexivity].
    + apply ONE; auto. intros c E. apply CC; [exact E|right; left; reflexivity].
    + apply ONE; auto. intros c E. apply CC; [exact E|right; right; left; reflexivity].
  - intros (e1 & e2 & e3 & tail & Ht & -> & H1 & H2 & H3).
    destruct tail as [|c [|? ?]]; [| |simpl in Ht; lia];
    destruct H1 as [-> | ->], H2 as [-> | ->], H3 as [-> | ->]; cbn; rewrite ?Nat.eqb_refl; reflexivity.
Qed.

Example ex_param_list :
  check_param_list_validity (mkModelNames ["x"%string; "y"%string] None (Some ["s"%string]) None)
    (Some [PArray [2; 7]; PNone; PArray [1; 7]; PNone])%nat = Ok tt /\
  check_param_list_validity (mkModelNames ["x"%string; "y"%string] None (Some ["s"%string]) None)
    (Some [PArray [2; 7]; PNone; PArray [1; 6]; PNone])%nat = Err ValueError.
Proof. split; reflexivity. Qed.

(** ** C64: name lists and reference positions *)

(** Accepted shape / intercept names: the reference position (required for intercepts)
    is the position of an alternative, and there is exactly one name per alternative that
    is not the reference. *)
Theorem C64_names_and_reference_position names ref num_alts title :
  check_names_and_ref (Some names) ref num_alts title = Ok tt <->
  (ref = RefNone /\ title = ShapeNames /\ length names = num_alts) \/
  (exists z, ref = RefInt z /\ (0 <= z < Z.of_nat num_alts)%Z /\ S (length names) = num_alts).
Proof.
  unfold check_names_and_ref, ensure_ref_position_is_valid, check_length_of_shape_or_intercept_names.
  destruct ref as [|z|].
  - destruct title; cbn [bind].
    + split; [discriminate|]. intros [(_ & E & _)|(z & E & _)]; discriminate.
    + destruct (Z.eqb_spec (Z.of_nat (length names)) (Z.of_nat num_alts - Z.of_nat 0)).
      * split; [intros _; left; repeat split; lia|reflexivity].
      * split; [discriminate|]. intros [(_ & _ & E)|(z & E & _)]; [lia|discriminate].
  - destruct (Z.leb_spec 0 z), (Z.leb_spec z (Z.of_nat num_alts - 1)); cbn [andb bind].
    2,3,4: split; [discriminate|intros [(E & _)|(z' & E & Hz & _)]; [discriminate|injection E as <-; lia]].
    destruct (Z.eqb_spec (Z.of_nat (length names)) (Z.of_nat num_alts - Z.of_nat 1)).
    + split; [|reflexivity]. intros _. right. exists z. repeat split; lia.
    + split; [discriminate|]. intros [(E & _)|(z' & E & Hz & L)]; [discriminate|lia].
  - split; [discriminate|]. intros [(E & _)|(z & E & _)]; discriminate.
Qed.
