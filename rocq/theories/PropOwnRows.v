(** Property C75: an observation's prediction depends only on its own rows. *)
From Coq Require Import String ZArith List Reals Lra Lia Arith Classical Permutation.
From Coquelicot Require Import Coquelicot.
From Verif Require Import Res Vec Arr SpecLogit ChoiceCalcs ChoiceFacts Transforms Ids Mappings MappingFacts
  LongData LogitFacts ProbFacts Frame ChoiceTools BaseModel NestedCalcs NestedFacts MixedCalcs MixedFacts PropMixed
  Estimation PropProbs PropMappings PropDesign PropBaseModel PropNested Predict PropPredict.
Import ListNotations.
Open Scope R_scope.

(** ** Specification *)

(** The value of variable [v] in row [i]; a missing "intercept" column counts as a
    column of ones. *)
Definition value (f : frame) (v : string) (i : nat) : R :=
  match num_col f v with Ok l => nth i l 0 | Err _ => 1 end.

(** Observation [o] of table [f] and observation [o'] of table [f'] have the same
    rows: [g] matches them one to one, and matched rows have the same alternative and
    the same values of the variables [vars].  [ids], [alts] are the observation and
    alternative columns of [f], and [ids'], [alts'] those of [f']. *)
Definition same_observation (f f' : frame) (vars : list string) (ids alts ids' alts' : list Z)
    (o o' : Z) (g : nat -> nat) : Prop :=
  (forall i, (i < length ids)%nat -> nth i ids 0%Z = o ->
     (g i < length ids')%nat /\ nth (g i) ids' 0%Z = o' /\
     nth (g i) alts' 0%Z = nth i alts 0%Z /\
     forall v, In v vars -> value f' v (g i) = value f v i) /\
  (forall i k, (i < length ids)%nat -> (k < length ids)%nat -> nth i ids 0%Z = o -> nth k ids 0%Z = o ->
     g i = g k -> i = k) /\
  (forall i', (i' < length ids')%nat -> nth i' ids' 0%Z = o' ->
     exists i, (i < length ids)%nat /\ nth i ids 0%Z = o /\ g i = i').

(** ** Sums over matched rows *)
Lemma sumn_filter n (P : nat -> bool) f :
  sumn n (fun i => if P i then f i else 0) = suml (filter P (seq 0 n)) f.
Proof.
  rewrite <- suml_seq. unfold suml. induction (seq 0 n) as [|a l IH]; simpl; [reflexivity|].
  destruct (P a); simpl; rewrite IH; lra.
Qed.

Lemma suml_ext_in l f h : (forall i, In i l -> f i = h i) -> suml l f = suml l h.
Proof.
  intros H. unfold suml. induction l as [|a l IH]; simpl; [reflexivity|].
  rewrite H by (left; reflexivity). rewrite IH; [reflexivity|]. intros i Hi. apply H. right. exact Hi.
Qed.

Lemma id_sum_matched ids ids' o o' g F F' :
  (forall i, (i < length ids)%nat -> nth i ids 0%Z = o ->
     (g i < length ids')%nat /\ nth (g i) ids' 0%Z = o' /\ F' (g i) = F i) ->
  (forall i k, (i < length ids)%nat -> (k < length ids)%nat -> nth i ids 0%Z = o -> nth k ids 0%Z = o ->
     g i = g k -> i = k) ->
  (forall i', (i' < length ids')%nat -> nth i' ids' 0%Z = o' ->
     exists i, (i < length ids)%nat /\ nth i ids 0%Z = o /\ g i = i') ->
  id_sum ids' o' F' = id_sum ids o F.
Proof.
  intros H1 H2 H3. unfold id_sum. rewrite !sumn_filter.
  set (rows := filter (fun i => (nth i ids 0 =? o)%Z) (seq 0 (length ids))).
  set (rows' := filter (fun i => (nth i ids' 0 =? o')%Z) (seq 0 (length ids'))).
  assert (R1 : forall i, In i rows <-> (i < length ids)%nat /\ nth i ids 0%Z = o).
  { intros i. unfold rows. rewrite filter_In, in_seq, Z.eqb_eq. split; intros []; split; lia. }
  assert (R2 : forall i, In i rows' <-> (i < length ids')%nat /\ nth i ids' 0%Z = o').
  { intros i. unfold rows'. rewrite filter_In, in_seq, Z.eqb_eq. split; intros []; split; lia. }
  assert (HP : Permutation (map g rows) rows').
  { apply NoDup_Permutation.
    - apply NoDup_map_inj_in; [|apply NoDup_filter, seq_NoDup].
      intros x y Hx Hy. apply R1 in Hx. apply R1 in Hy. destruct Hx, Hy. apply H2; assumption.
    - apply NoDup_filter, seq_NoDup.
    - intros x. rewrite in_map_iff, R2. split.
      + intros (i & <- & Hi). apply R1 in Hi. destruct Hi as (A & B). destruct (H1 i A B) as (C & D & _). auto.
      + intros (A & B). destruct (H3 x A B) as (i & Hi & Ei & <-). exists i. split; [reflexivity|]. apply R1. auto. }
  rewrite <- (suml_perm _ _ F' HP), suml_map. apply suml_ext_in.
  intros i Hi. apply R1 in Hi. destruct Hi as (A & B). apply H1; assumption.
Qed.

(** ** The design matrix rows *)
Lemma assoc_app {A} k (l l' : list (string * A)) :
  assoc k (l ++ l')%list = match assoc k l with Some a => Some a | None => assoc k l' end.
Proof. induction l as [|[k' a] l IH]; simpl; [reflexivity|]. destruct (String.eqb k k'); auto. Qed.

Lemma well_formed_intercept spec f : well_formed f -> well_formed (add_intercept_to_dataframe spec f).
Proof.
  intros (W1 & W2). unfold add_intercept_to_dataframe. destruct (assoc _ spec); [|split; assumption].
  destruct (has_col f _); [split; assumption|]. split; cbn [f_ints f_reals f_rows]; [exact W1|].
  intros c l. rewrite assoc_app. destruct (assoc c (f_reals f)) eqn:E.
  - intros H. injection H as <-. eapply W2. exact E.
  - simpl. destruct (String.eqb c "intercept"); [|discriminate]. intros H. injection H as <-. apply repeat_length.
Qed.

Lemma rows_intercept spec f : f_rows (add_intercept_to_dataframe spec f) = f_rows f.
Proof. unfold add_intercept_to_dataframe. destruct (assoc _ spec); [|reflexivity]. destruct (has_col f _); reflexivity. Qed.

Lemma nth_repeat_1 n i : (i < n)%nat -> nth i (repeat 1 n) 0 = 1.
Proof. revert i. induction n as [|n IH]; intros i Hi; [lia|]. destruct i; simpl; [reflexivity|]. apply IH. lia. Qed.

Lemma value_intercept spec f v l i :
  num_col (add_intercept_to_dataframe spec f) v = Ok l -> (i < f_rows f)%nat -> nth i l 0 = value f v i.
Proof.
  unfold add_intercept_to_dataframe, value.
  destruct (assoc "intercept" spec) as [x|] eqn:E1; [|intros -> _; reflexivity].
  destruct (has_col f "intercept") eqn:E2; [intros -> _; reflexivity|].
  unfold num_col. cbn [f_reals f_ints]. rewrite assoc_app. destruct (assoc v (f_reals f)) eqn:E3.
  - intros H. injection H as <-. reflexivity.
  - cbn [assoc]. destruct (String.eqb_spec v "intercept") as [->|Hne].
    + intros H Hi. injection H as <-. unfold has_col in E2. rewrite E3 in E2.
      destruct (assoc "intercept" (f_ints f)); [discriminate|]. apply nth_repeat_1. exact Hi.
    + destruct (assoc v (f_ints f)); [|discriminate]. intros H. injection H as <-. reflexivity.
Qed.

Lemma int_col_length f c l : well_formed f -> int_col f c = Ok l -> length l = f_rows f.
Proof.
  intros (W & _). unfold int_col. destruct (assoc c (f_ints f)) eqn:E; [|discriminate].
  intros H. injection H as <-. eapply W. exact E.
Qed.

Lemma wanted_vars alts spec w : In w (wanted_columns alts spec) -> In (fst w) (map fst spec).
Proof.
  unfold wanted_columns. intros H. apply in_flat_map in H. destruct H as ([v s] & Hv & H).
  assert (E : fst w = v).
  { cbn [fst snd] in H. destruct s as [s|l|]; cbn [wanted_of] in H.
    - destruct (String.eqb s "all_same"); [destruct H as [<-|[]]; reflexivity|].
      apply in_map_iff in H. destruct H as (a & <- & _). reflexivity.
    - apply in_map_iff in H. destruct H as (a & <- & _). reflexivity.
    - destruct H. }
  rewrite E. apply (in_map fst) in Hv. exact Hv.
Qed.

Lemma Forall2_nth_gen {A B} (P : A -> B -> Prop) l m k a b :
  Forall2 P l m -> (k < length m)%nat -> P (nth k l a) (nth k m b).
Proof.
  intros H. revert k. induction H; intros k Hk; simpl in *; [lia|]. destruct k; [assumption|]. apply IHForall2. lia.
Qed.

Section Rows.
  Context (m : fitted_model) (f f' : frame) (alts alts' : list Z).
  Hypothesis W : well_formed f.
  Hypothesis W' : well_formed f'.
  Hypothesis Ha : int_col f (fm_alt_col m) = Ok alts.
  Hypothesis Ha' : int_col f' (fm_alt_col m) = Ok alts'.
  Hypothesis Hset : forall a, In a alts <-> In a alts'.

  Lemma unique_same : np_unique alts = np_unique alts'.
  Proof. apply strongly_lt_unique; try apply np_unique_sorted. intros x. rewrite !np_unique_In. apply Hset. Qed.

  Context (cols cols' : list (list R)) (labels labels' : list label).
  Hypothesis Hd : create_design_matrix (add_intercept_to_dataframe (fm_spec m) f) (fm_spec m) (fm_alt_col m)
                    (fm_name_spec m) = Ok (cols, labels).
  Hypothesis Hd' : create_design_matrix (add_intercept_to_dataframe (fm_spec m) f') (fm_spec m) (fm_alt_col m)
                    (fm_name_spec m) = Ok (cols', labels').

  Lemma design_rows :
    length cols = length cols' /\
    forall i i' k, (i < length alts)%nat -> (i' < length alts')%nat -> nth i' alts' 0%Z = nth i alts 0%Z ->
      (forall v, In v (map fst (fm_spec m)) -> value f' v i' = value f v i) ->
      (k < length cols)%nat -> design_mat cols' i' k = design_mat cols i k.
  Proof.
    pose proof (int_col_length _ _ _ W Ha) as LA. pose proof (int_col_length _ _ _ W' Ha') as LA'.
    rewrite <- (int_col_intercept (fm_spec m)) in Ha, Ha'.
    pose proof (C07_design_matrix_content _ _ _ _ _ _ _ (well_formed_intercept _ _ W) Ha Hd) as F.
    pose proof (C07_design_matrix_content _ _ _ _ _ _ _ (well_formed_intercept _ _ W') Ha' Hd') as F'.
    rewrite <- unique_same in F'.
    split; [rewrite <- (Forall2_len F), <- (Forall2_len F'); reflexivity|].
    intros i i' k Hi Hi' Ea Hv Hk.
    assert (Hkw : (k < length (wanted_columns (np_unique alts) (fm_spec m)))%nat) by (rewrite (Forall2_len F); exact Hk).
    assert (Hk' : (k < length cols')%nat) by (rewrite <- (Forall2_len F'); exact Hkw).
    pose proof (Forall2_nth_gen _ _ _ k (EmptyString, fun _ => True) [] F Hk) as (vals & Hvals & _ & C).
    pose proof (Forall2_nth_gen _ _ _ k (EmptyString, fun _ => True) [] F' Hk') as (vals' & Hvals' & _ & C').
    set (w := nth k (wanted_columns (np_unique alts) (fm_spec m)) (EmptyString, fun _ => True)) in *.
    assert (Hw : In (fst w) (map fst (fm_spec m))) by (apply (wanted_vars (np_unique alts)), nth_In; exact Hkw).
    specialize (C i Hi). specialize (C' i' Hi'). rewrite Ea in C'. unfold design_mat.
    destruct (classic (snd w (nth i alts 0%Z))) as [Y|Y].
    - rewrite (proj1 C Y), (proj1 C' Y).
      rewrite (value_intercept _ _ _ _ _ Hvals) by lia. rewrite (value_intercept _ _ _ _ _ Hvals') by lia.
      apply Hv. exact Hw.
    - rewrite (proj2 C Y), (proj2 C' Y). reflexivity.
  Qed.
End Rows.

(** ** C75 *)

(** For mixed logit models: matched rows belong to mixing units at the same place in
    their tables, so that they are given the same draws. *)
Definition same_draws (m : fitted_model) (f f' : frame) (ids : list Z) (o : Z) (g : nat -> nat) : Prop :=
  match fm_class m, fm_mix_col m with
  | ClassMixed _, Some c =>
      forall u u', int_col f c = Ok u -> int_col f' c = Ok u' ->
      forall i, (i < length ids)%nat -> nth i ids 0%Z = o ->
        index_of (nth (g i) u' 0%Z) (first_seen u') = index_of (nth i u 0%Z) (first_seen u)
  | _, _ => True
  end.

Lemma utilities_matched d d' mp mp' K X X' w w' ridge ridge' beta i i' :
  (forall k, (k < K)%nat -> X' i' k = X i k) ->
  sys_utilities (data_of d' mp' K X' w' ridge') beta i' = sys_utilities (data_of d mp K X w ridge) beta i.
Proof. intros H. unfold sys_utilities, mvec, data_of. cbn [d_K d_X]. apply sumn_ext. intros k Hk. rewrite H by exact Hk. reflexivity. Qed.

Lemma nest_sum_id d t o q F :
  nest_sum d t o q F = id_sum (obs_ids d) o (fun i => if zmem (nth i (alt_ids d) 0%Z) (nest_alts t q) then F i else 0).
Proof.
  unfold nest_sum, id_sum, row_in. apply sumn_ext. intros i _.
  destruct (nth i (obs_ids d) 0 =? o)%Z; reflexivity.
Qed.

Lemma lacks_nest_iff d t o q :
  lacks_nest d t o q = true <->
  forall i, (i < length (obs_ids d))%nat -> nth i (obs_ids d) 0%Z = o -> zmem (nth i (alt_ids d) 0%Z) (nest_alts t q) = false.
Proof.
  unfold lacks_nest, row_in. rewrite Bool.negb_true_iff. split.
  - intros H i Hi E. destruct (zmem _ _) eqn:Z; [|reflexivity]. exfalso.
    enough (A : existsb (fun i => ((nth i (obs_ids d) 0 =? o)%Z && zmem (nth i (alt_ids d) 0%Z) (nest_alts t q))%bool)
      (seq 0 (length (obs_ids d))) = true) by congruence.
    apply existsb_exists. exists i. split; [apply in_seq; lia|]. rewrite E, Z.eqb_refl, Z. reflexivity.
  - intros H. apply Bool.not_true_iff_false. intros A. apply existsb_exists in A. destruct A as (i & Hi & B).
    apply in_seq in Hi. apply Bool.andb_true_iff in B. destruct B as (B1 & B2). apply Z.eqb_eq in B1.
    rewrite H in B2 by (lia || exact B1). discriminate.
Qed.

Theorem C75_own_rows m f f' pl nd rvs p p' ids alts ids' alts' o o' g i :
  well_formed f -> well_formed f' -> constructed m ->
  int_col f (fm_obs_col m) = Ok ids -> int_col f (fm_alt_col m) = Ok alts ->
  int_col f' (fm_obs_col m) = Ok ids' -> int_col f' (fm_alt_col m) = Ok alts' ->
  (forall a, In a alts <-> In a alts') ->
  same_observation f f' (map fst (fm_spec m)) ids alts ids' alts' o o' g ->
  same_draws m f f' ids o g ->
  predict m f pl true None nd rvs = Ok (LongProbs p) ->
  predict m f' pl true None nd rvs = Ok (LongProbs p') ->
  (i < length ids)%nat -> nth i ids 0%Z = o ->
  p' (g i) = p i.
Proof.
  intros W W' Hcon Hids Halts Hids' Halts' Hset (S1 & S2 & S3) Hdraws H H' Hi Eo.
  apply predict_ok in H. destruct H as (_ & _ & cols & names & d & mp & pr & Hd & Hl & Hm & Hp & Hr).
  apply predict_ok in H'. destruct H' as (_ & _ & cols' & names' & d' & mp' & pr' & Hd' & Hl' & Hm' & Hp' & Hr').
  rewrite Hp in Hp'. injection Hp' as <-.
  destruct (design_rows m f f' alts alts' W W' Halts Halts' Hset cols cols' names names' Hd Hd') as (EK & HX).
  destruct (cols_of_ok _ _ _ _ _ _ Hl) as (Eob & Eal & Ech & Emx). rewrite int_col_intercept in Eob, Eal.
  destruct (cols_of_ok _ _ _ _ _ _ Hl') as (Eob' & Eal' & Ech' & Emx'). rewrite int_col_intercept in Eob', Eal'.
  rewrite Hids in Eob. injection Eob as Eob. rewrite Halts in Eal. injection Eal as Eal.
  rewrite Hids' in Eob'. injection Eob' as Eob'. rewrite Halts' in Eal'. injection Eal' as Eal'.
  pose proof (int_col_length _ _ _ W Hids) as L1. pose proof (int_col_length _ _ _ W Halts) as L2.
  pose proof (int_col_length _ _ _ W' Hids') as L1'. pose proof (int_col_length _ _ _ W' Halts') as L2'.
  pose proof (mappings_ok _ _ _ Hm) as (_ & _ & Echo). rewrite Ech in Echo.
  pose proof (mappings_ok _ _ _ Hm') as (_ & _ & Echo'). rewrite Ech' in Echo'.
  assert (XR : forall r k, (r < length ids)%nat -> nth r ids 0%Z = o -> (k < length cols)%nat ->
     design_mat cols' (g r) k = design_mat cols r k).
  { intros r k Hr0 Er Hk. destruct (S1 r Hr0 Er) as (G1 & G2 & G3 & G4).
    apply HX; try assumption; lia. }
  assert (Hgi : (g i < length ids')%nat /\ nth (g i) ids' 0%Z = o') by (destruct (S1 i Hi Eo) as (A & B & _); auto).
  unfold dispatch in Hr, Hr'. unfold constructed in Hcon. unfold same_draws in Hdraws.
  rewrite Echo in Hr. rewrite Echo' in Hr'. cbn [option_map] in Hr, Hr'. rewrite <- EK in Hr'.
  destruct (fm_class m) as [k|t|pos]; cbn [class_nests] in Hm, Hm'.
  - unfold predict_logit in Hr, Hr'. cbn [d_K d_J data_of] in Hr, Hr'.
    assert (Hal : forall x, In x (alt_ids d) <-> In x (alt_ids d')) by (rewrite <- Eal, <- Eal'; exact Hset).
    destruct (C02_column_independent_of_row_order d d' None None mp mp' Hm Hm' Hal) as [EJ Ecells].
    rewrite <- EJ in Hr'.
    apply bind_ok in Hr. destruct Hr as (_ & _ & Hr).
    apply bind_ok in Hr. destruct Hr as (ic & Hic & Hr). apply bind_ok in Hr. destruct Hr as (_ & _ & Hr).
    apply bind_ok in Hr'. destruct Hr' as (_ & _ & Hr').
    apply bind_ok in Hr'. destruct Hr' as (ic' & Hic' & Hr'). apply bind_ok in Hr'. destruct Hr' as (_ & _ & Hr').
    rewrite Hic in Hic'. injection Hic' as <-.
    inversion Hr; subst p. inversion Hr'; subst p'. clear Hr Hr'.
    assert (EX : forall r, (r < length ids)%nat -> nth r ids 0%Z = o ->
      long_exponentials (model_of k) (data_of d' mp' (length cols) (design_mat cols') None None) (pr_shapes pr) ic (pr_coefs pr) (g r) =
      long_exponentials (model_of k) (data_of d mp (length cols) (design_mat cols) None None) (pr_shapes pr) ic (pr_coefs pr) r).
    { intros r Hr0 Er. destruct (S1 r Hr0 Er) as (G1 & G2 & G3 & G4).
      unfold long_exponentials. f_equal. f_equal. unfold data_of at 1 2 4 5; cbn [d_J d_A]. rewrite <- EJ.
      apply transform_rowwise.
      - apply utilities_matched. intros q Hq. apply XR; assumption.
      - intros j Hj. unfold smat_R. f_equal. symmetry. apply Ecells; rewrite <- ?Eal, <- ?Eal'; try lia; auto. }
    rewrite (probs_closed (model_of k) d None mp _ _ _ _ Hm) by (rewrite <- Eob; exact Hi).
    rewrite (probs_closed (model_of k) d' None mp' _ _ _ _ Hm') by (rewrite <- Eob'; apply Hgi).
    rewrite EX by assumption. f_equal. rewrite <- Eob, <- Eob', Eo, (proj2 Hgi).
    apply (id_sum_matched ids ids' o o' g); try assumption.
    intros r Hr0 Er. destruct (S1 r Hr0 Er) as (G1 & G2 & _). split; [exact G1|]. split; [exact G2|]. apply EX; assumption.
  - destruct Hr as (rn & Hrn & Hr). destruct Hr' as (rn' & Hrn' & Hr'). destruct Hcon as (Hn & Hc).
    unfold predict_nested in Hr, Hr'.
    destruct (pr_nests pr) as [n|]; [|discriminate].
    apply bind_ok in Hr; destruct Hr as (_ & _ & Hr); apply bind_ok in Hr; destruct Hr as (_ & _ & Hr).
    apply bind_ok in Hr; destruct Hr as (x & Hx & Hr). inversion Hx; subst x. inversion Hr; subst p. clear Hr Hx.
    apply bind_ok in Hr'; destruct Hr' as (_ & _ & Hr'); apply bind_ok in Hr'; destruct Hr' as (_ & _ & Hr').
    apply bind_ok in Hr'; destruct Hr' as (x & Hx & Hr'). inversion Hx; subst x. inversion Hr'; subst p'. clear Hr' Hx.
    assert (HS : nested_setup d t mp rn) by (apply prediction_nested_setup; try assumption; rewrite <- Eob, <- Eal; lia).
    assert (HS' : nested_setup d' t mp' rn') by (apply prediction_nested_setup; try assumption; rewrite <- Eob', <- Eal'; lia).
    set (nests := naturalize_nest_coefs (aget n)).
    assert (Hpos : positive_nests t nests) by (intros q _; apply C42_nest_coefs_in_unit_interval).
    set (q := nst_of d t i).
    destruct (setup_nests d t mp rn HS) as (_ & HQ). rewrite <- Eob in HQ. destruct (HQ i Hi) as (Hq & Hz). fold q in Hq, Hz.
    assert (Hin : In (nth i (alt_ids d) 0%Z) (nest_alts t q)).
    { apply zmem_In. rewrite (proj1 (Hz q Hq)). apply Nat.eqb_refl. }
    destruct (S1 i Hi Eo) as (_ & _ & G3 & _).
    assert (Hin' : In (nth (g i) (alt_ids d') 0%Z) (nest_alts t q)) by (rewrite <- Eal', G3, Eal; exact Hin).
    set (j := own_of (obs_ids d) i). set (j' := own_of (obs_ids d') (g i)).
    assert (Hoin : In (nth i (obs_ids d) 0%Z) (first_seen (obs_ids d))) by (apply first_seen_In, nth_In; rewrite <- Eob; exact Hi).
    assert (Hoin' : In (nth (g i) (obs_ids d') 0%Z) (first_seen (obs_ids d'))) by (apply first_seen_In, nth_In; rewrite <- Eob'; apply Hgi).
    assert (Hj : (j < length (first_seen (obs_ids d)))%nat) by (apply index_of_lt; exact Hoin).
    assert (Hj' : (j' < length (first_seen (obs_ids d')))%nat) by (apply index_of_lt; exact Hoin').
    assert (Ej : nth i (obs_ids d) 0%Z = nth j (first_seen (obs_ids d)) 0%Z) by (symmetry; apply nth_index_of; exact Hoin).
    assert (Ej' : nth (g i) (obs_ids d') 0%Z = nth j' (first_seen (obs_ids d')) 0%Z) by (symmetry; apply nth_index_of; exact Hoin').
    assert (Hi2 : (i < length (obs_ids d))%nat) by (rewrite <- Eob; exact Hi).
    assert (Hgi2 : (g i < length (obs_ids d'))%nat) by (rewrite <- Eob'; apply Hgi).
    pose proof (C40_textbook_factors d t mp rn (length cols) (design_mat cols) None None nests (pr_coefs pr) _ HS Hpos
      eq_refl i q j Hi2 Hq Hin Hj Ej) as (A1 & A2 & A3).
    pose proof (C40_textbook_factors d' t mp' rn' (length cols) (design_mat cols') None None nests (pr_coefs pr) _ HS' Hpos
      eq_refl (g i) q j' Hgi2 Hq Hin' Hj' Ej') as (B1 & B2 & B3).
    cbn [nd_long nd_nest nd_given_nest] in A1, A2, A3, B1, B2, B3. unfold ndata_of in A1, A2, A3, B1, B2, B3.
    etransitivity; [exact B3|]. etransitivity; [|symmetry; exact A3].
    rewrite A1, A2, B1, B2. rewrite <- Ej, <- Ej', <- Eob, <- Eob', Eo, (proj2 Hgi).
    cbn [n_D].
    set (V := sys_utilities (data_of d mp (length cols) (design_mat cols) None None) (pr_coefs pr)).
    set (V' := sys_utilities (data_of d' mp' (length cols) (design_mat cols') None None) (pr_coefs pr)).
    assert (EV : forall r, (r < length ids)%nat -> nth r ids 0%Z = o -> V' (g r) = V r).
    { intros r Hr0 Er. apply utilities_matched. intros q0 Hq0. apply XR; assumption. }
    assert (NS : forall q0, nest_sum d' t o' q0 (fun r => exp (V' r / nests q0)) = nest_sum d t o q0 (fun r => exp (V r / nests q0))).
    { intros q0. rewrite !nest_sum_id, <- Eob, <- Eob', <- Eal, <- Eal'.
      apply (id_sum_matched ids ids' o o' g); try assumption.
      intros r Hr0 Er. destruct (S1 r Hr0 Er) as (G1 & G2 & G3' & _). split; [exact G1|]. split; [exact G2|].
      rewrite G3', EV by assumption. reflexivity. }
    assert (LN : forall q0, lacks_nest d' t o' q0 = lacks_nest d t o q0).
    { intros q0. apply Bool.eq_iff_eq_true. rewrite !lacks_nest_iff, <- Eob, <- Eob', <- Eal, <- Eal'. split; intros HH r Hr0 Er.
      - destruct (S1 r Hr0 Er) as (G1 & G2 & G3' & _). rewrite <- G3'. apply HH; assumption.
      - destruct (S3 r Hr0 Er) as (r0 & Hr00 & Er0 & <-). destruct (S1 r0 Hr00 Er0) as (_ & _ & G3' & _).
        rewrite G3'. apply HH; assumption. }
    assert (NA : forall q0, nest_attraction d' t V' nests o' q0 = nest_attraction d t V nests o q0).
    { intros q0. unfold nest_attraction, inclusive_value. rewrite LN, NS. reflexivity. }
    rewrite NS, NA. f_equal; [f_equal|].
    + apply sumn_ext. intros q0 _. apply NA.
    + rewrite EV by assumption. reflexivity.
  - unfold predict_mixed in Hr, Hr'.
    apply bind_ok in Hr; destruct Hr as (rm & Hrm & Hr). apply bind_ok in Hr'; destruct Hr' as (rm' & Hrm' & Hr').
    destruct nd as [nR|]; [|discriminate].
    apply bind_ok in Hr; destruct Hr as (dr & Hdr & Hr); apply bind_ok in Hr; destruct Hr as (E & HE & Hr).
    apply bind_ok in Hr'; destruct Hr' as (dr' & Hdr' & Hr'); apply bind_ok in Hr'; destruct Hr' as (E' & HE' & Hr').
    apply bind_ok in Hr; destruct Hr as (_ & _ & Hr). apply bind_ok in Hr'; destruct Hr' as (_ & _ & Hr').
    assert (Edr : dr = dr').
    { unfold get_normal_draws in Hdr, Hdr'. destruct (_ && _)%bool in Hdr; [|discriminate]. destruct (_ && _)%bool in Hdr'; [|discriminate].
      congruence. }
    subst dr'.
    assert (Hmx : exists c u u', fm_mix_col m = Some c /\ int_col f c = Ok u /\ int_col f' c = Ok u' /\ mix_of d = u /\ mix_of d' = u').
    { destruct (fm_mix_col m) as [c|].
      - destruct Emx as (u & Hu & Eu). destruct Emx' as (u' & Hu' & Eu'). rewrite int_col_intercept in Hu, Hu'.
        exists c, u, u'. unfold mix_of. rewrite Eu, Eu'. auto.
      - exfalso. unfold create_long_form_mappings in Hm. apply bind_ok in Hm. destruct Hm as (x & _ & Hm). inversion Hm; subst mp.
        cbn [rows_to_mixers] in Hrm. rewrite Emx in Hrm. discriminate. }
    destruct Hmx as (c & u & u' & Ec & Hu & Hu' & Eu & Eu'). rewrite Ec in Hdraws.
    pose proof (int_col_length _ _ _ W Hu) as Lu. pose proof (int_col_length _ _ _ W' Hu') as Lu'.
    assert (MI : mixing_ids_per_row d) by (unfold mixing_ids_per_row; rewrite Eu, <- Eob; lia).
    assert (MI' : mixing_ids_per_row d') by (unfold mixing_ids_per_row; rewrite Eu', <- Eob'; lia).
    pose proof (mixed_own _ _ _ _ _ _ _ _ _ HE) as HO. pose proof (mixed_N _ _ _ _ _ _ _ _ _ HE) as HN.
    pose proof (mixed_own _ _ _ _ _ _ _ _ _ HE') as HO'. pose proof (mixed_N _ _ _ _ _ _ _ _ _ HE') as HN'.
    pose proof (mixed_setup _ _ _ _ _ _ _ _ _ HE) as (_ & _ & _ & Er & _ & _ & _ & _ & _ & Hpos & _).
    pose proof (mixed_setup _ _ _ _ _ _ _ _ _ HE') as (_ & _ & _ & Er' & _).
    cbn [mixed_predict] in Hr, Hr'. rewrite Er in Hr. rewrite Er' in Hr'.
    destruct (nR =? 1)%nat; [discriminate|]. inversion Hr; subst p. inversion Hr'; subst p'. clear Hr Hr'.
    unfold row_mean. f_equal. apply sumn_ext. intros r _.
    rewrite (pa_eq E _ HO) by (rewrite HN, <- Eob; exact Hi).
    rewrite (pa_eq E' _ HO') by (rewrite HN', <- Eob'; apply Hgi).
    assert (EV : forall s, (s < length ids)%nat -> nth s ids 0%Z = o -> vv E' (pr_coefs pr) (g s) r = vv E (pr_coefs pr) s r).
    { intros s Hs Es. destruct (S1 s Hs Es) as (G1 & G2 & _). unfold vv.
      rewrite (C45_utilities_use_own_draws _ _ _ _ _ _ _ _ _ _ _ _ HE MI) by (rewrite <- Eob; exact Hs).
      rewrite (C45_utilities_use_own_draws _ _ _ _ _ _ _ _ _ _ _ _ HE' MI') by (rewrite <- Eob'; exact G1).
      unfold mixed_utility. f_equal; apply sumn_ext; intros q Hq.
      - rewrite XR by assumption. reflexivity.
      - rewrite XR by (try assumption; apply Hpos; exact Hq). unfold draw_of. rewrite Eu, Eu'.
        rewrite (Hdraws u u' Hu Hu' s Hs Es). reflexivity. }
    rewrite EV by assumption. f_equal.
    rewrite HN, HN', !osum_id_sum by (rewrite <- ?Eob, <- ?Eob'; first [exact Hi|apply Hgi]).
    rewrite <- Eob, <- Eob', Eo, (proj2 Hgi).
    apply (id_sum_matched ids ids' o o' g); try assumption.
    intros s Hs Es. destruct (S1 s Hs Es) as (G1 & G2 & _). split; [exact G1|]. split; [exact G2|]. rewrite EV by assumption. reflexivity.
Qed.

(** ** Tables with other alternatives

    When the other observations of the two tables bring in different alternatives,
    the property fails: parameters are matched to alternatives by rank. *)

Definition own_frame (a : Z) : frame :=
  mkFrame 3 [("obs"%string, [7; 7; 8]%Z); ("alt"%string, [2; 3; a]%Z)] [("cost"%string, [1; 1; 1])].
Definition own_small : frame :=
  mkFrame 2 [("obs"%string, [7; 7]%Z); ("alt"%string, [2; 3]%Z)] [("cost"%string, [1; 1])].
Definition own_model : fitted_model :=
  mkFitted (ClassLogit KMNL) "alt" "obs" None [("cost"%string, SStr "all_diff")] None
    (mkModelNames ["cost_1"%string; "cost_2"%string; "cost_3"%string] None None None)
    (mkArr 3 (fun k => if (k =? 2)%nat then 1 else 0)) None None None.

Lemma own_frame_wf a : well_formed (own_frame a).
Proof.
  split; intros c l H; cbn [own_frame f_ints f_reals assoc] in H.
  - destruct (String.eqb c "obs"); [injection H as <-; reflexivity|].
    destruct (String.eqb c "alt"); [injection H as <-; reflexivity|discriminate].
  - destruct (String.eqb c "cost"); [injection H as <-; reflexivity|discriminate].
Qed.

Lemma own_same a b :
  same_observation (own_frame a) (own_frame b) ["cost"%string] [7; 7; 8]%Z [2; 3; a]%Z [7; 7; 8]%Z [2; 3; b]%Z 7 7 (fun i => i).
Proof.
  split; [|split].
  - intros i Hi E. cbn in Hi. destruct i as [|[|i]]; [| |destruct i; [discriminate|lia]];
      (split; [cbn; lia|split; [reflexivity|split; [reflexivity|intros v [<-|[]]; reflexivity]]]).
  - auto.
  - intros i Hi E. exists i. auto.
Qed.

Example ex_own_rows rvs :
  (exists p, predict own_model (own_frame 1) None true None None rvs = Ok (LongProbs p)) /\
  same_draws own_model (own_frame 1) (own_frame 1) [7; 7; 8]%Z 7 (fun i => i).
Proof. split; [eexists; reflexivity|exact I]. Qed.

Theorem C75_refuted_other_alternatives rvs :
  well_formed (own_frame 1) /\ well_formed (own_frame 4) /\ constructed own_model /\
  same_observation (own_frame 1) (own_frame 4) ["cost"%string] [7; 7; 8]%Z [2; 3; 1]%Z [7; 7; 8]%Z [2; 3; 4]%Z 7 7 (fun i => i) /\
  exists p p', predict own_model (own_frame 1) None true None None rvs = Ok (LongProbs p) /\
    predict own_model (own_frame 4) None true None None rvs = Ok (LongProbs p') /\
    p 0%nat = 1 / (1 + exp 1) /\ p' 0%nat = 1 / 2.
Proof.
  split; [apply own_frame_wf|]. split; [apply own_frame_wf|]. split; [exact I|]. split; [apply own_same|].
  eexists. eexists. split; [reflexivity|]. split; [reflexivity|].
  assert (U : forall x, -700 <= x <= 700 -> clip_exponent x = x) by (intros x Hx; apply clip_id; unfold unclipped, min_exponent_val, max_exponent_val; lra).
  split.
  - rewrite (probs_closed _ (mkLong [7; 7; 8]%Z [2; 3; 1]%Z None None) None _ _ _ None None eq_refl) by (cbn; lia).
    cbn [obs_ids nth]. unfold id_sum. cbn [length sumn nth Z.eqb Pos.eqb]. unfold long_exponentials.
    cbn [m_transform MNL_model model_of]. unfold mnl_transform.
    rewrite !U by (unfold sys_utilities, mvec, data_of; cbn; lra).
    unfold sys_utilities, mvec, data_of; cbn.
    replace (0 + 0 * 1 * 0 + 1 * 1 * 0 + 0 * 1 * 1) with 0 by ring.
    replace (0 + 0 * 1 * 0 + 0 * 1 * 0 + 1 * 1 * 1) with 1 by ring.
    rewrite exp_0. f_equal. ring.
  - rewrite (probs_closed _ (mkLong [7; 7; 8]%Z [2; 3; 4]%Z None None) None _ _ _ None None eq_refl) by (cbn; lia).
    cbn [obs_ids nth]. unfold id_sum. cbn [length sumn nth Z.eqb Pos.eqb]. unfold long_exponentials.
    cbn [m_transform MNL_model model_of]. unfold mnl_transform.
    rewrite !U by (unfold sys_utilities, mvec, data_of; cbn; lra).
    unfold sys_utilities, mvec, data_of; cbn.
    replace (0 + 1 * 1 * 0 + 0 * 1 * 0 + 0 * 1 * 1) with 0 by ring.
    replace (0 + 0 * 1 * 0 + 1 * 1 * 0 + 0 * 1 * 1) with 0 by ring.
    rewrite exp_0. lra.
Qed.

(** On its own, without rows of the missing alternative, the observation cannot be
    predicted at all. *)
Theorem C75_refuted_fewer_alternatives rvs :
  (exists p, predict own_model (own_frame 1) None true None None rvs = Ok (LongProbs p)) /\
  same_observation (own_frame 1) own_small ["cost"%string] [7; 7; 8]%Z [2; 3; 1]%Z [7; 7]%Z [2; 3]%Z 7 7 (fun i => i) /\
  predict own_model own_small None true None None rvs = Err ValueError.
Proof.
  split; [eexists; reflexivity|]. split; [|reflexivity].
  split; [|split].
  - intros i Hi E. cbn in Hi. destruct i as [|[|i]]; [| |destruct i; [discriminate|lia]];
      (split; [cbn; lia|split; [reflexivity|split; [reflexivity|intros v [<-|[]]; reflexivity]]]).
  - auto.
  - intros i Hi E. exists i. cbn in Hi |- *. split; [lia|]. split; [|reflexivity]. destruct i as [|[|i]]; try reflexivity. lia.
Qed.

(** A single outside intercept is given to every non-reference alternative of the
    prediction table, whichever alternatives those are: adding an observation with a
    new alternative 0 silently exchanges the roles of alternatives 1 and 2. *)
Definition clog_frame (extra : bool) : frame :=
  if extra
  then mkFrame 3 [("obs"%string, [7; 7; 8]%Z); ("alt"%string, [1; 2; 0]%Z)] [("cost"%string, [0; 0; 0])]
  else mkFrame 2 [("obs"%string, [7; 7]%Z); ("alt"%string, [1; 2]%Z)] [("cost"%string, [0; 0])].
Definition clog_fitted : fitted_model :=
  mkFitted (ClassLogit (KClog (Some 1%nat))) "alt" "obs" None [("cost"%string, SStr "all_same")] None
    (mkModelNames ["cost"%string] (Some ["ASC 1"%string]) None None)
    (mkArr 1 (fun _ => 1)) (Some (mkArr 1 (fun _ => 1))) None None.

Theorem C75_refuted_single_intercept rvs :
  same_observation (clog_frame false) (clog_frame true) ["cost"%string]
    [7; 7]%Z [1; 2]%Z [7; 7; 8]%Z [1; 2; 0]%Z 7 7 (fun i => i) /\
  exists p p', predict clog_fitted (clog_frame false) None true None None rvs = Ok (LongProbs p) /\
    predict clog_fitted (clog_frame true) None true None None rvs = Ok (LongProbs p') /\
    p 0%nat = exp 1 / (exp 1 + 1) /\ p' 0%nat = 1 / (1 + exp 1).
Proof.
  split.
  { split; [|split].
    - intros i Hi E. cbn in Hi. destruct i as [|[|i]]; [| |lia];
        (split; [cbn; lia|split; [reflexivity|split; [reflexivity|intros v [<-|[]]; reflexivity]]]).
    - auto.
    - intros i Hi E. exists i. cbn in Hi. destruct i as [|[|[|i]]]; try discriminate; try lia; cbn; auto. }
  eexists. eexists. split; [reflexivity|]. split; [reflexivity|].
  assert (U : forall x, -700 <= x <= 700 -> clip_exponent x = x) by (intros x Hx; apply clip_id; unfold unclipped, min_exponent_val, max_exponent_val; lra).
  set (c := ln (exp 1 - 1)).
  assert (E2 : 2 <= exp 1) by (pose proof (exp_ineq1_le 1); lra).
  assert (Hc : 0 <= c <= 1).
  { unfold c. split.
    - rewrite <- ln_1. apply ln_le; lra.
    - apply Rle_trans with (ln (exp 1)); [apply ln_le; lra|rewrite ln_exp; lra]. }
  assert (T : forall J A v ic i, v i = 0 -> cloglog_transform (Some 1%nat) J A v None ic i = c + long_intercepts J A (Some 1%nat) ic i).
  { intros J A v ic i Hv. unfold cloglog_transform. rewrite Hv. destruct (Rle_dec 3.7 0); [lra|]. rewrite exp_0. reflexivity. }
  split.
  - rewrite (probs_closed _ (mkLong [7; 7]%Z [1; 2]%Z None None) None _ _ _ None None eq_refl) by (cbn; lia).
    cbn [obs_ids nth]. unfold id_sum. cbn [length sumn nth Z.eqb Pos.eqb]. unfold long_exponentials.
    cbn [m_transform Clog_model model_of].
    rewrite !T by (unfold sys_utilities, mvec, data_of; cbn; ring).
    unfold long_intercepts, mvec, data_of; cbn. unfold fill_others, smat_R; cbn.
    replace (c + (0 + 1 * 1 + 0 * 0)) with (c + 1) by ring. replace (c + (0 + 0 * 1 + 1 * 0)) with c by ring.
    rewrite !U by lra. rewrite exp_plus. pose proof (exp_pos c). pose proof (exp_pos 1). field; repeat split; nra.
  - rewrite (probs_closed _ (mkLong [7; 7; 8]%Z [1; 2; 0]%Z None None) None _ _ _ None None eq_refl) by (cbn; lia).
    cbn [obs_ids nth]. unfold id_sum. cbn [length sumn nth Z.eqb Pos.eqb]. unfold long_exponentials.
    cbn [m_transform Clog_model model_of].
    rewrite !T by (unfold sys_utilities, mvec, data_of; cbn; ring).
    unfold long_intercepts, mvec, data_of; cbn. unfold fill_others, smat_R; cbn.
    match goal with |- exp (clip_exponent ?a) / (0 + exp (clip_exponent ?a) + exp (clip_exponent ?b) + 0) = _ =>
      replace a with c by ring; replace b with (c + 1) by ring end.
    rewrite !U by lra. rewrite exp_plus. pose proof (exp_pos c). pose proof (exp_pos 1). field; repeat split; nra.
Qed.

Print Assumptions C75_own_rows.
Print Assumptions C75_refuted_other_alternatives.
Print Assumptions C75_refuted_fewer_alternatives.
Print Assumptions C75_refuted_single_intercept.
