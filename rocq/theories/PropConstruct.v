(** Properties of create_choice_model: C79, C80. *)
From Coq Require Import String ZArith List Reals Bool Lia Lra Arith.
From Verif Require Import Res Ids Vec Arr Mappings Frame ChoiceTools BaseModel ChoiceCalcs LongData Transforms
  Estimation Predict Construct PropMappings PropDesign PropBaseModel.
Import ListNotations.
Local Open Scope string_scope.

(** ** Specification: what a user must pass *)

(** The coefficient names: the user's, in the order of the names dictionary, or the
    default ones, in the order of the specification. *)
Definition default_names (alts : list Z) (spec : specification) : list string :=
  flat_map (fun kv =>
    match snd kv with
    | SStr s => if String.eqb s "all_same" then [fst kv]
                else map (fun a => fst kv ++ "_" ++ z_string a) alts
    | SList l => map (fun g => match g with
                               | One a => fst kv ++ "_" ++ z_string a
                               | Group items => fst kv ++ "_[" ++ join (map item_string items) ++ "]"
                               | OneJunk => fst kv
                               end) l
    | SOther => []
    end) spec.
Definition name_text (e : name_elem) : string := match e with NE s => s | NEOther => "" end.
Definition given_names (names : name_dict) : list string :=
  flat_map (fun kn => match snd kn with
                      | NStr s => [s]
                      | NList l => map name_text l
                      | NOther => [""]
                      end) names.
Definition coefficient_names (names : option name_dict) (alts : list Z) (spec : specification) : list string :=
  match names with Some n => given_names n | None => default_names alts spec end.

(** The names dictionary has the keys of the specification, and for each variable one
    name per column: a string for "all_same", a list otherwise. *)
Inductive name_fits (J : nat) : spec_value -> name_value -> Prop :=
| fits_same s : name_fits J (SStr "all_same") (NStr s)
| fits_diff l : length l = J -> name_fits J (SStr "all_diff") (NList l)
| fits_groups g l : length l = length g -> (forall e, In e l -> exists s, e = NE s) ->
    name_fits J (SList g) (NList l).
Definition names_fit (J : nat) (names : name_dict) (spec : specification) : Prop :=
  (forall k, In k (map fst names) <-> In k (map fst spec)) /\
  (forall k nv, In (k, nv) names -> exists v, assoc k spec = Some v /\ name_fits J v nv).

(** Which optional arguments each kind of model reads. *)
Definition reads_intercept_names (t : mtype) : Prop := t = TAsym \/ t = TCloglog \/ t = TScobit \/ t = TUneven.
Definition reads_shape_names (t : mtype) : Prop := t = TAsym \/ t = TScobit \/ t = TUneven.

Record acceptable (t : mtype) (f : frame) (a : model_args) (alts : list Z) : Prop := mkAcceptable {
  (* MNL and mixed logit: no intercept_ref_pos *)
  ok_index_intercepts : t = TMNL \/ t = TMixed -> a_iref a = RefNone;
  (* asymmetric logit: shape_ref_pos is an integer *)
  ok_shape_ref : t = TAsym -> exists z, a_sref a = RefInt z;
  (* nested logit: the nests partition the alternatives *)
  ok_nests : t = TNested -> exists n, a_nests a = Some (raw_of n) /\ partitions n alts;
  (* intercept names: one per alternative other than the reference alternative *)
  ok_intercept_names : reads_intercept_names t -> forall l, a_inames a = Some l ->
    exists z, a_iref a = RefInt z /\ (0 <= z < Z.of_nat (length (np_unique alts)))%Z /\
              S (length l) = length (np_unique alts);
  (* shape names: one per alternative; the asymmetric logit's reference has none *)
  ok_shape_names : reads_shape_names t -> forall l, a_snames a = Some l ->
    (t <> TAsym -> length l = length (np_unique alts)) /\
    (t = TAsym -> exists z, a_sref a = RefInt z /\ (0 <= z < Z.of_nat (length (np_unique alts)))%Z /\
                            S (length l) = length (np_unique alts));
  (* the specification: variables in the table, valid values, at least one column *)
  ok_spec_columns : forall var v, In (var, v) (a_spec a) -> has_col f var = true \/ var = "intercept";
  ok_spec_values : forall var v, In (var, v) (a_spec a) -> valid_value (np_unique alts) v;
  ok_spec_nonempty : wanted_columns (np_unique alts) (a_spec a) <> [];
  (* names *)
  ok_names : forall n, a_names a = Some n -> names_fit (length (np_unique alts)) n (a_spec a);
  (* mixed logit: the mixing variables are coefficient names *)
  ok_mixing : t = TMixed -> forall l v, a_mix_vars a = Some l -> In v l ->
    In v (coefficient_names (a_names a) (np_unique alts) (a_spec a))
}.

(** ** The pieces *)

Lemma lookup_ok s t : lookup_model_type s = Ok t <-> mtype_name t = s.
Proof.
  unfold lookup_model_type. split.
  - destruct (find _ _) as [t'|] eqn:E; [|discriminate]. intros H. injection H as ->.
    apply find_some in E. destruct E as [_ E]. apply String.eqb_eq in E. auto.
  - intros <-. destruct t; reflexivity.
Qed.

Lemma name_fits_check J names spec :
  NoDup (map fst names) -> NoDup (map fst spec) ->
  (forall k v, In (k, v) spec -> v = SStr "all_same" \/ v = SStr "all_diff" \/ exists l, v = SList l) ->
  check_keys_and_values_of_name_dictionary names spec J = Ok tt <-> names_fit J names spec.
Proof.
  intros Hn Hs Hv. unfold check_keys_and_values_of_name_dictionary, names_fit.
  assert (Hk : same_keys names spec = true <-> (forall k, In k (map fst names) <-> In k (map fst spec))).
  { unfold same_keys. rewrite andb_true_iff, !forallb_forall.
    assert (A : forall {X Y} (l : list (string * X)) (m : list (string * Y)),
      (forall x, In x l -> match assoc (fst x) m with Some _ => true | None => false end = true) <->
      (forall k, In k (map fst l) -> In k (map fst m))).
    { intros X Y l m. split.
      - intros H k Hk. apply in_map_iff in Hk. destruct Hk as (x & <- & Hx). specialize (H x Hx).
        destruct (assoc (fst x) m) as [y|] eqn:E; [|discriminate]. apply assoc_In in E.
        apply in_map_iff. exists (fst x, y). auto.
      - intros H x Hx. specialize (H (fst x) ltac:(apply in_map; exact Hx)).
        destruct (assoc (fst x) m) eqn:E; [reflexivity|]. exfalso. clear -E H.
        induction m as [|[k y] m IH]; simpl in *; [exact H|].
        destruct (String.eqb_spec (fst x) k); [discriminate|]. destruct H; [congruence|auto]. }
    rewrite (A _ _ names spec), (A _ _ spec names). firstorder. }
  destruct (same_keys names spec) eqn:E.
  2: { split; [discriminate|]. intros [H _]. apply Hk in H. discriminate. }
  assert (HK := proj1 Hk eq_refl). rewrite all_checks_ok, Forall_map, Forall_forall. split.
  - intros H. split; [exact HK|]. intros k nv Hin. specialize (H _ Hin). unfold check_name in H. cbn [fst snd] in H.
    destruct (assoc k spec) as [v|] eqn:Ev; [|discriminate]. exists v. split; [reflexivity|].
    destruct (Hv k v (assoc_In _ _ _ Ev)) as [->|[->|(l & ->)]].
    + simpl in H. destruct nv; try discriminate. constructor.
    + simpl in H. destruct nv as [|l|]; try discriminate. destruct (Nat.eqb_spec (length l) J); [|discriminate].
      constructor. assumption.
    + simpl in H. destruct nv as [|ns|]; try discriminate.
      destruct (Nat.eqb_spec (length ns) (length l)); [|discriminate]. simpl in H.
      destruct (forallb is_str ns) eqn:F; [|discriminate]. constructor; [assumption|].
      rewrite forallb_forall in F. intros x Hx. specialize (F x Hx). destruct x as [s|]; [exists s; reflexivity|discriminate].
  - intros [_ H] [k nv] Hin. destruct (H k nv Hin) as (v & Ev & Hf). unfold check_name. cbn [fst snd].
    rewrite Ev. inversion Hf; subst; simpl.
    + reflexivity.
    + rewrite Nat.eqb_refl. reflexivity.
    + rewrite H0, Nat.eqb_refl. simpl.
      assert (F : forallb is_str l = true).
      { apply forallb_forall. intros e He. destruct (H1 e He) as (s & ->). reflexivity. }
      rewrite F. reflexivity.
Qed.

Lemma default_labels alts u spec parts :
  Forall2 (fun kv p => exists vals, p = columns_of alts u (fst kv) vals (snd kv)) spec parts ->
  (forall kv, In kv spec -> valid_value u (snd kv)) ->
  map render (map snd (concat parts)) = default_names u spec.
Proof.
  induction 1 as [|kv p spec parts (vals & ->) _ IH]; intros Hv; [reflexivity|].
  simpl. rewrite !map_app, IH by (intros; apply Hv; right; assumption). f_equal.
  specialize (Hv kv (or_introl eq_refl)). destruct Hv as [| |l Hl]; simpl.
  - reflexivity.
  - rewrite !map_map. reflexivity.
  - rewrite !map_map. apply map_ext_in. intros g Hg. destruct (Hl g Hg); reflexivity.
Qed.

Lemma given_labels names : map render (names_in_order names) = given_names names.
Proof.
  unfold names_in_order, given_names. induction names as [|[k nv] r IH]; simpl; [reflexivity|].
  rewrite map_app, IH. f_equal. destruct nv as [s|l|]; simpl; try reflexivity.
  rewrite map_map. apply map_ext. intros []; reflexivity.
Qed.

(** When the design matrix is built, and the names it gets. *)
Lemma design_exact f spec alt_col names alts :
  int_col f alt_col = Ok alts -> NoDup (map fst spec) ->
  (forall n, names = Some n -> NoDup (map fst n)) ->
  (exists dm, create_design_matrix f spec alt_col names = Ok dm /\
     map render (snd dm) = coefficient_names names (np_unique alts) spec) <->
  (forall var v, In (var, v) spec -> has_col f var = true) /\
  (forall var v, In (var, v) spec -> valid_value (np_unique alts) v) /\
  wanted_columns (np_unique alts) spec <> [] /\
  (forall n, names = Some n -> names_fit (length (np_unique alts)) n spec).
Proof.
  intros Ha Hs Hn. unfold create_design_matrix.
  assert (Hc : has_col f alt_col = true).
  { unfold has_col. unfold int_col in Ha. destruct (assoc alt_col (f_ints f)); [reflexivity|discriminate]. }
  rewrite Hc. cbn [negb].
  assert (Hcols : forallb (fun kv => has_col f (fst kv)) spec = true <->
                  (forall var v, In (var, v) spec -> has_col f var = true)).
  { rewrite forallb_forall. split; [intros H var v Hi; exact (H _ Hi)|intros H [k v] Hi; exact (H k v Hi)]. }
  destruct (forallb (fun kv => has_col f (fst kv)) spec).
  2: { cbn [negb]. split; [intros (dm & H & _); discriminate|]. intros (H & _). apply Hcols in H. discriminate. }
  assert (HC := proj1 Hcols eq_refl). clear Hcols. cbn [negb]. rewrite Ha. cbn [bind].
  pose proof (C09_specification_validator_exact spec (np_unique alts)) as Hval.
  destruct (check_type_and_values_of_specification_dict spec (np_unique alts)) as [[]|e].
  2: { cbn [bind]. split; [intros (dm & H & _); discriminate|]. intros (_ & H & _). apply Hval in H. discriminate. }
  assert (HV := proj1 Hval eq_refl). clear Hval. cbn [bind].
  assert (HV3 : forall k v, In (k, v) spec -> v = SStr "all_same" \/ v = SStr "all_diff" \/ exists l, v = SList l).
  { intros k v Hi. destruct (HV k v Hi); eauto. }
  assert (Hm : exists parts, mapM (fun kv => do vals <- num_col f (fst kv);
                             Ok (columns_of alts (np_unique alts) (fst kv) vals (snd kv))) spec = Ok parts).
  { clear -HC. induction spec as [|[k v] r IH]; [eexists; reflexivity|].
    destruct IH as (parts & Hp); [intros; eapply HC; right; eassumption|].
    cbn [mapM fst snd]. assert (H : exists vals, num_col f k = Ok vals).
    { specialize (HC k v (or_introl eq_refl)). unfold has_col in HC. unfold num_col.
      destruct (assoc k (f_reals f)); [eauto|]. destruct (assoc k (f_ints f)); [eauto|discriminate]. }
    destruct H as (vals & ->). cbn [bind]. rewrite Hp. eexists. reflexivity. }
  destruct Hm as (parts & Hp).
  assert (HF : Forall2 (fun kv p => exists vals, p = columns_of alts (np_unique alts) (fst kv) vals (snd kv)) spec parts).
  { apply mapM_ok in Hp. eapply Forall2_weaken; [|exact Hp]. intros kv p H. apply bind_ok in H.
    destruct H as (vals & _ & E). injection E as <-. eauto. }
  assert (Hlen : length (concat parts) = length (wanted_columns (np_unique alts) spec)).
  { clear -HF HV. unfold wanted_columns. induction HF as [|kv p spec parts (vals & ->) _ IH]; [reflexivity|].
    simpl. rewrite !app_length, IH by (intros; eapply HV; right; eassumption). f_equal.
    destruct kv as [k v]. cbn [fst snd]. destruct (HV k v (or_introl eq_refl)); simpl; rewrite ?map_length; reflexivity. }
  assert (Hend : forall (nm : Res unit), nm = Ok tt ->
    (exists dm, (do _ <- nm; do cols <- Ok parts; match concat cols with
       | [] => Err ValueError
       | _ => Ok (map fst (concat cols), match names with Some n => names_in_order n | None => map snd (concat cols) end)
       end) = Ok dm /\ map render (snd dm) = coefficient_names names (np_unique alts) spec) <->
    wanted_columns (np_unique alts) spec <> []).
  { intros nm ->. cbn [bind]. destruct (concat parts) as [|x l] eqn:Ec.
    - split; [intros (dm & H & _); discriminate|]. intros H. exfalso. apply H.
      destruct (wanted_columns (np_unique alts) spec); [reflexivity|simpl in Hlen; discriminate].
    - split; [intros _ E; rewrite E in Hlen; simpl in Hlen; discriminate|]. intros _.
      eexists. split; [reflexivity|]. cbn [snd]. unfold coefficient_names. destruct names as [n|].
      + apply given_labels.
      + rewrite <- Ec. apply (default_labels alts); [exact HF|]. intros [k v] Hi. exact (HV k v Hi). }
  destruct names as [n|].
  - pose proof (name_fits_check (length (np_unique alts)) n spec (Hn n eq_refl) Hs HV3) as Hnm.
    destruct (check_keys_and_values_of_name_dictionary n spec (length (np_unique alts))) as [[]|e] eqn:Ecn.
    + specialize (Hend (Ok tt) eq_refl). rewrite Hp. cbn [bind] in Hend |- *. rewrite Hend.
      split; [|intros (_ & _ & H & _); exact H]. intros H. split; [exact HC|]. split; [exact HV|]. split; [exact H|].
      intros n' E. injection E as <-. apply Hnm. reflexivity.
    + cbn [bind]. split; [intros (dm & H & _); discriminate|]. intros (_ & _ & _ & H).
      specialize (H n eq_refl). apply Hnm in H. discriminate.
  - specialize (Hend (Ok tt) eq_refl). rewrite Hp. cbn [bind] in Hend |- *. rewrite Hend.
    split; [|intros (_ & _ & H & _); exact H]. intros H. repeat split; try assumption; discriminate.
Qed.

(** The names are always those, when the matrix is built. *)
Lemma design_names f spec alt_col names alts dm :
  int_col f alt_col = Ok alts ->
  create_design_matrix f spec alt_col names = Ok dm ->
  map render (snd dm) = coefficient_names names (np_unique alts) spec.
Proof.
  intros Ha H. destruct dm as [cols labels].
  destruct (create_design_inv _ _ _ _ _ _ H) as (alts' & parts & Ha' & Hs & _ & Hp & -> & ->).
  rewrite Ha in Ha'. injection Ha' as <-. cbn [snd]. unfold coefficient_names. destruct names as [n|].
  - apply given_labels.
  - apply (default_labels alts).
    + eapply Forall2_weaken; [|exact Hp]. intros kv p (vals & _ & E). eauto.
    + intros [k v] Hi. apply (proj1 (C09_specification_validator_exact spec (np_unique alts)) Hs k). exact Hi.
Qed.

Lemma mixing_names_ok mv names :
  ensure_all_mixing_vars_are_in_the_name_dict mv names = Ok tt <->
  (forall l v, mv = Some l -> In v l -> In v names).
Proof.
  unfold ensure_all_mixing_vars_are_in_the_name_dict. destruct mv as [l|]; [|split; [discriminate|reflexivity]].
  assert (E : forall v, negb (existsb (String.eqb v) names) = false <-> In v names).
  { intros v. rewrite negb_false_iff, existsb_exists. split.
    - intros (x & Hx & Ex). apply String.eqb_eq in Ex. subst. exact Hx.
    - intros H. exists v. split; [exact H|apply String.eqb_refl]. }
  destruct (filter _ l) eqn:F.
  - rewrite filter_nil_iff in F. split; [|reflexivity]. intros _ l' v El Hv. injection El as <-. apply E. auto.
  - split; [discriminate|]. intros H. exfalso.
    assert (In s (filter (fun v => negb (existsb (String.eqb v) names)) l)) by (rewrite F; left; reflexivity).
    apply filter_In in H0. destruct H0 as [Hi Hs]. specialize (H l s eq_refl Hi). apply E in H. congruence.
Qed.

(** [l.index(x)]: the first position *)
Definition first_position (x : string) (l : list string) (p : nat) : Prop :=
  (p < length l)%nat /\ nth p l "" = x /\ forall q, (q < p)%nat -> nth q l "" <> x.

Lemma str_index_first x l p : str_index x l = Ok p <-> first_position x l p.
Proof.
  revert p. induction l as [|y r IH]; intros p; simpl.
  - split; [discriminate|]. intros (H & _). simpl in H. lia.
  - destruct (String.eqb_spec x y) as [->|N].
    + split.
      * intros H. injection H as <-. split; [simpl; lia|]. split; [reflexivity|]. intros q Hq. lia.
      * intros (_ & _ & H). destruct p as [|p]; [reflexivity|]. exfalso. apply (H 0%nat); [lia|reflexivity].
    + split.
      * intros H. apply bind_ok in H. destruct H as (k & Hk & E). injection E as <-.
        apply IH in Hk. destruct Hk as (H1 & H2 & H3). split; [simpl; lia|]. split; [exact H2|].
        intros [|q] Hq; simpl; [congruence|]. apply H3. lia.
      * intros (H1 & H2 & H3). destruct p as [|p]; [simpl in H2; congruence|].
        assert (Hk : str_index x r = Ok p).
        { apply IH. split; [simpl in H1; lia|]. split; [exact H2|].
          intros q Hq. apply (H3 (S q)). lia. }
        rewrite Hk. reflexivity.
Qed.

Lemma str_index_exists x l : In x l -> exists p, str_index x l = Ok p.
Proof.
  induction l as [|y r IH]; simpl; [tauto|]. intros H. destruct (String.eqb_spec x y) as [->|N]; [eauto|].
  destruct H as [H|H]; [congruence|]. destruct (IH H) as (p & ->). simpl. eauto.
Qed.

Lemma positions_exist l names : (forall v, In v l -> In v names) ->
  exists p, convert_mixing_names_to_positions l names = Ok p.
Proof.
  unfold convert_mixing_names_to_positions. induction l as [|v r IH]; intros H; simpl; [eauto|].
  destruct (str_index_exists v names) as (p & ->); [apply H; left; reflexivity|]. cbn [bind].
  destruct IH as (ps & ->); [intros; apply H; right; assumption|]. cbn [bind]. eauto.
Qed.

(** The table with the added column. *)
Lemma add_intercept_ints spec f : f_ints (add_intercept_to_dataframe spec f) = f_ints f.
Proof.
  unfold add_intercept_to_dataframe. destruct (assoc "intercept" spec); [|reflexivity].
  destruct (has_col f "intercept"); reflexivity.
Qed.
Lemma assoc_snoc {A} k (l : list (string * A)) k' v :
  assoc k (l ++ [(k', v)])%list = match assoc k l with Some x => Some x | None => if String.eqb k k' then Some v else None end.
Proof. induction l as [|[k2 v2] r IH]; simpl; [reflexivity|]. destruct (String.eqb k k2); [reflexivity|exact IH]. Qed.
Lemma int_col_add_intercept spec f c : int_col (add_intercept_to_dataframe spec f) c = int_col f c.
Proof. unfold int_col. rewrite add_intercept_ints. reflexivity. Qed.
Lemma assoc_key {A} k (l : list (string * A)) v : In (k, v) l -> exists w, assoc k l = Some w.
Proof.
  induction l as [|[k' v'] r IH]; simpl; [tauto|]. intros H. destruct (String.eqb_spec k k'); [eauto|].
  destruct H as [H|H]; [congruence|auto].
Qed.
Lemma has_col_add_intercept spec f c v : In (c, v) spec ->
  (has_col (add_intercept_to_dataframe spec f) c = true <-> has_col f c = true \/ c = "intercept").
Proof.
  intros Hin. unfold add_intercept_to_dataframe. destruct (assoc "intercept" spec) eqn:E.
  - destruct (has_col f "intercept") eqn:Hi.
    + split; [auto|]. intros [H| ->]; assumption.
    + unfold has_col in *. cbn [f_ints f_reals]. rewrite assoc_snoc.
      destruct (assoc c (f_ints f)); [tauto|]. destruct (assoc c (f_reals f)); [tauto|].
      destruct (String.eqb_spec c "intercept"); [tauto|]. split; [discriminate|]. intros [H|H]; [discriminate|tauto].
  - split; [auto|]. intros [H| ->]; [assumption|]. destruct (assoc_key _ _ _ Hin) as (w & H). congruence.
Qed.

(** ** The common constructor *)
Lemma base_init_exact t f alt_col obs_col choice_col spec iref sref names inames snames nests mv mc alts ch :
  int_col f alt_col = Ok alts -> int_col f choice_col = Ok ch -> has_col f obs_col = true ->
  NoDup (map fst spec) -> (forall n, names = Some n -> NoDup (map fst n)) ->
  ((exists m, base_init t f alt_col obs_col choice_col spec iref sref names inames snames nests mv mc = Ok m) <->
   check_names_and_ref snames sref (length (np_unique alts)) ShapeNames = Ok tt /\
   check_names_and_ref inames iref (length (np_unique alts)) InterceptNames = Ok tt /\
   (forall s, nests = Some s -> check_nest_spec s (np_unique alts) = Ok tt) /\
   (forall var v, In (var, v) spec -> has_col f var = true \/ var = "intercept") /\
   (forall var v, In (var, v) spec -> valid_value (np_unique alts) v) /\
   wanted_columns (np_unique alts) spec <> [] /\
   (forall n, names = Some n -> names_fit (length (np_unique alts)) n spec) /\
   (forall l v, mv = Some l -> In v l -> In v (coefficient_names names (np_unique alts) spec))).
Proof.
  intros Ha Hch Ho Hs Hn. unfold base_init.
  assert (Hc : forall c l, int_col f c = Ok l -> has_col f c = true).
  { intros c l H. unfold has_col. unfold int_col in H. destruct (assoc c (f_ints f)); [reflexivity|discriminate]. }
  unfold ensure_columns_are_in_dataframe at 1. cbn [forallb]. rewrite (Hc _ _ Ha), (Hc _ _ Hch), Ho. cbn [andb bind].
  rewrite Ha. cbn [bind].
  set (D := add_intercept_to_dataframe spec f).
  assert (HaD : int_col D alt_col = Ok alts) by (unfold D; rewrite int_col_add_intercept; exact Ha).
  assert (HcD : int_col D choice_col = Ok ch) by (unfold D; rewrite int_col_add_intercept; exact Hch).
  assert (Hcols : (forall var v, In (var, v) spec -> has_col D var = true) <->
                  (forall var v, In (var, v) spec -> has_col f var = true \/ var = "intercept")).
  { split; intros H var v Hi; [apply (has_col_add_intercept spec f var v Hi)|apply (has_col_add_intercept spec f var v Hi)]; eauto. }
  pose proof (design_exact D spec alt_col names alts HaD Hs Hn) as HD. rewrite Hcols in HD.
  split.
  - intros (m & H).
    apply bind_ok in H. destruct H as ([] & H1 & H). apply bind_ok in H. destruct H as ([] & H2 & H).
    apply bind_ok in H. destruct H as ([] & H3 & H). apply bind_ok in H. destruct H as ([] & H4 & H).
    apply bind_ok in H. destruct H as (dm & H5 & H). apply bind_ok in H. destruct H as ([] & H6 & H).
    split; [exact H1|]. split; [exact H2|]. split; [intros s ->; exact H3|].
    pose proof (design_names D spec alt_col names alts dm HaD H5) as En.
    destruct (proj1 HD (ex_intro _ dm (conj H5 En))) as (A1 & A2 & A3 & A4).
    repeat (split; [assumption|]). rewrite En in H6. exact (proj1 (mixing_names_ok _ _) H6).
  - intros (H1 & H2 & H3 & A1 & A2 & A3 & A4 & H6).
    destruct (proj2 HD (conj A1 (conj A2 (conj A3 A4)))) as (dm & H5 & En).
    rewrite H1, H2. cbn [bind].
    assert (E3 : (match nests with Some s => check_nest_spec s (np_unique alts) | None => Ok tt end) = Ok tt).
    { destruct nests as [s|]; [apply H3|]; reflexivity. }
    rewrite E3. cbn [bind]. unfold ensure_columns_are_in_dataframe.
    assert (E4 : forallb (has_col D) (map fst spec) = true).
    { apply forallb_forall. intros k Hk. apply in_map_iff in Hk. destruct Hk as ([k' v] & <- & Hi).
      exact (proj2 Hcols A1 k' v Hi). }
    rewrite E4. cbn [bind]. rewrite H5. cbn [bind]. rewrite En.
    rewrite (proj2 (mixing_names_ok mv _) H6). cbn [bind]. rewrite HaD, HcD. cbn [bind].
    destruct mv as [l|].
    + destruct (positions_exist l (coefficient_names names (np_unique alts) spec)) as (p & ->); [eauto|].
      cbn [bind]. eauto.
    + cbn [bind]. eauto.
Qed.

Lemma names_check names ref J title :
  check_names_and_ref names ref J title = Ok tt <->
  forall l, names = Some l ->
    (ref = RefNone /\ title = ShapeNames /\ length l = J) \/
    (exists z, ref = RefInt z /\ (0 <= z < Z.of_nat J)%Z /\ S (length l) = J).
Proof.
  destruct names as [l|].
  - rewrite C64_names_and_reference_position. split; [intros H l' E; injection E as <-; exact H|intros H; exact (H l eq_refl)].
  - split; [discriminate|reflexivity].
Qed.

(** ** C79: a model object is created exactly when the arguments are acceptable *)
Theorem C79_creation_succeeds_exactly f a alts ch :
  int_col f (a_alt_col a) = Ok alts -> int_col f (a_choice_col a) = Ok ch -> has_col f (a_obs_col a) = true ->
  NoDup (map fst (a_spec a)) -> (forall n, a_names a = Some n -> NoDup (map fst n)) ->
  ((exists m, create_choice_model f a = Ok m) <->
   exists t, mtype_name t = a_type a /\ acceptable t f a alts).
Proof.
  intros Ha Hch Ho Hs Hn. unfold create_choice_model.
  assert (T : forall t, (exists m, class_init t f a = Ok m) <-> acceptable t f a alts).
  { intros t.
    assert (B := fun iref sref inames snames nests mv mc =>
      base_init_exact t f (a_alt_col a) (a_obs_col a) (a_choice_col a) (a_spec a) iref sref (a_names a) inames snames
        nests mv mc alts ch Ha Hch Ho Hs Hn).
    unfold class_init. destruct t.
    - destruct (a_iref a) eqn:Er; cbn [ref_given].
      + rewrite B. split.
        * intros (_ & _ & _ & A1 & A2 & A3 & A4 & _).
          constructor; unfold reads_intercept_names, reads_shape_names; try assumption; intuition discriminate.
        * intros H. destruct H as [O1 O2 O3 O4 O5 O6 O7 O8 O9 O10].
          split; [reflexivity|]. split; [reflexivity|]. split; [discriminate|].
          split; [exact O6|]. split; [exact O7|]. split; [exact O8|]. split; [exact O9|]. discriminate.
      + split; [intros (m & H); discriminate|]. intros H.
        pose proof (ok_index_intercepts _ _ _ _ H (or_introl eq_refl)). congruence.
      + split; [intros (m & H); discriminate|]. intros H.
        pose proof (ok_index_intercepts _ _ _ _ H (or_introl eq_refl)). congruence.
    - destruct (a_sref a) as [|z|] eqn:Er.
      + split; [intros (m & H); discriminate|]. intros H. destruct (ok_shape_ref _ _ _ _ H eq_refl). congruence.
      + rewrite B, !names_check. split.
        * intros (S1 & S2 & _ & A1 & A2 & A3 & A4 & _).
          constructor; unfold reads_intercept_names, reads_shape_names; try assumption; try (intuition discriminate).
          -- intros _. exists z. exact Er.
          -- intros _ l El. destruct (S2 l El) as [(_ & E & _)|H]; [discriminate|exact H].
          -- intros _ l El. split; [congruence|]. intros _.
             destruct (S1 l El) as [(E & _)|(z' & E & H1 & H2)]; [discriminate|]. exists z'. rewrite Er. auto.
        * intros H. destruct H as [O1 O2 O3 O4 O5 O6 O7 O8 O9 O10].
          unfold reads_intercept_names, reads_shape_names in *.
          split. { intros l El. right. destruct (O5 (or_introl eq_refl) l El) as [_ H].
                   destruct (H eq_refl) as (z' & E & H1). exists z'. rewrite Er in E. auto. }
          split. { intros l El. right. exact (O4 (or_introl eq_refl) l El). }
          split; [discriminate|].
          split; [exact O6|]. split; [exact O7|]. split; [exact O8|]. split; [exact O9|]. discriminate.
      + split; [intros (m & H); discriminate|]. intros H. destruct (ok_shape_ref _ _ _ _ H eq_refl). congruence.
    - rewrite B, !names_check. split.
      + intros (_ & S2 & _ & A1 & A2 & A3 & A4 & _).
        constructor; unfold reads_intercept_names, reads_shape_names; try assumption; try (intuition discriminate).
        intros _ l El. destruct (S2 l El) as [(_ & E & _)|H]; [discriminate|exact H].
      + intros H. destruct H as [O1 O2 O3 O4 O5 O6 O7 O8 O9 O10].
        unfold reads_intercept_names, reads_shape_names in *.
        split; [discriminate|]. split. { intros l El. right. refine (O4 _ l El). tauto. }
        split; [discriminate|].
        split; [exact O6|]. split; [exact O7|]. split; [exact O8|]. split; [exact O9|]. discriminate.
    - rewrite B, !names_check. split.
      + intros (S1 & S2 & _ & A1 & A2 & A3 & A4 & _).
        constructor; unfold reads_intercept_names, reads_shape_names; try assumption; try (intuition discriminate).
        * intros _ l El. destruct (S2 l El) as [(_ & E & _)|H]; [discriminate|exact H].
        * intros _ l El. split; [|discriminate]. intros _.
          destruct (S1 l El) as [(_ & _ & H)|(z' & E & _)]; [exact H|discriminate].
      + intros H. destruct H as [O1 O2 O3 O4 O5 O6 O7 O8 O9 O10].
        unfold reads_intercept_names, reads_shape_names in *.
        split. { intros l El. left. split; [reflexivity|]. split; [reflexivity|]. refine (proj1 (O5 _ l El) _); [tauto|discriminate]. }
        split. { intros l El. right. refine (O4 _ l El). tauto. }
        split; [discriminate|].
        split; [exact O6|]. split; [exact O7|]. split; [exact O8|]. split; [exact O9|]. discriminate.
    - rewrite B, !names_check. split.
      + intros (S1 & S2 & _ & A1 & A2 & A3 & A4 & _).
        constructor; unfold reads_intercept_names, reads_shape_names; try assumption; try (intuition discriminate).
        * intros _ l El. destruct (S2 l El) as [(_ & E & _)|H]; [discriminate|exact H].
        * intros _ l El. split; [|discriminate]. intros _.
          destruct (S1 l El) as [(_ & _ & H)|(z' & E & _)]; [exact H|discriminate].
      + intros H. destruct H as [O1 O2 O3 O4 O5 O6 O7 O8 O9 O10].
        unfold reads_intercept_names, reads_shape_names in *.
        split. { intros l El. left. split; [reflexivity|]. split; [reflexivity|]. refine (proj1 (O5 _ l El) _); [tauto|discriminate]. }
        split. { intros l El. right. refine (O4 _ l El). tauto. }
        split; [discriminate|].
        split; [exact O6|]. split; [exact O7|]. split; [exact O8|]. split; [exact O9|]. discriminate.
    - destruct (a_nests a) as [s|] eqn:En.
      + rewrite B. split.
        * intros (_ & _ & S3 & A1 & A2 & A3 & A4 & _).
          constructor; unfold reads_intercept_names, reads_shape_names; try assumption; try (intuition discriminate).
          intros _. specialize (S3 s eq_refl). apply C13_accepted_specifications_are_partitions in S3.
          destruct S3 as (n & -> & Hp). exists n. auto.
        * intros H. destruct H as [O1 O2 O3 O4 O5 O6 O7 O8 O9 O10].
          split; [reflexivity|]. split; [reflexivity|]. split.
          { intros s' E. injection E as <-. destruct (O3 eq_refl) as (n & E & Hp).
            apply C13_accepted_specifications_are_partitions. exists n. rewrite En in E. injection E as ->. auto. }
          split; [exact O6|]. split; [exact O7|]. split; [exact O8|]. split; [exact O9|]. discriminate.
      + split; [intros (m & H); discriminate|]. intros H. destruct (ok_nests _ _ _ _ H eq_refl) as (n & E & _). congruence.
    - destruct (a_iref a) eqn:Er; cbn [ref_given].
      + rewrite B. split.
        * intros (_ & _ & _ & A1 & A2 & A3 & A4 & A5).
          constructor; unfold reads_intercept_names, reads_shape_names; try assumption; try (intuition discriminate).
        * intros H. destruct H as [O1 O2 O3 O4 O5 O6 O7 O8 O9 O10].
          split; [reflexivity|]. split; [reflexivity|]. split; [discriminate|].
          split; [exact O6|]. split; [exact O7|]. split; [exact O8|]. split; [exact O9|]. exact (O10 eq_refl).
      + split; [intros (m & H); discriminate|]. intros H.
        pose proof (ok_index_intercepts _ _ _ _ H (or_intror eq_refl)). congruence.
      + split; [intros (m & H); discriminate|]. intros H.
        pose proof (ok_index_intercepts _ _ _ _ H (or_intror eq_refl)). congruence. }
  split.
  - intros (m & H). apply bind_ok in H. destruct H as (t & Ht & H). exists t. split; [apply lookup_ok; exact Ht|].
    apply T. eauto.
  - intros (t & Ht & H). apply lookup_ok in Ht. rewrite Ht. cbn [bind]. apply T. exact H.
Qed.

(** A missing identifier or choice column is always reported as a ValueError. *)
Theorem C79_missing_columns f a :
  has_col f (a_alt_col a) = false \/ has_col f (a_obs_col a) = false \/ has_col f (a_choice_col a) = false ->
  create_choice_model f a = Err ValueError.
Proof.
  intros H. unfold create_choice_model, lookup_model_type.
  destruct (find _ _) as [t|]; [|reflexivity]. cbn [bind].
  assert (B : forall iref sref inames snames nests mv mc,
    base_init t f (a_alt_col a) (a_obs_col a) (a_choice_col a) (a_spec a) iref sref (a_names a) inames snames
      nests mv mc = Err ValueError).
  { intros. unfold base_init, ensure_columns_are_in_dataframe. cbn [forallb].
    destruct (has_col f (a_alt_col a)), (has_col f (a_obs_col a)), (has_col f (a_choice_col a)); try reflexivity.
    destruct H as [H|[H|H]]; discriminate. }
  unfold class_init. destruct t; rewrite ?B; try reflexivity.
  - destruct (ref_given (a_iref a)); reflexivity.
  - destruct (a_sref a); rewrite ?B; reflexivity.
  - destruct (a_nests a); rewrite ?B; reflexivity.
  - destruct (ref_given (a_iref a)); reflexivity.
Qed.

(** ** What the object holds *)

(** The arguments as each kind of model keeps them. *)
Definition kept_intercept_names (t : mtype) (a : model_args) : option (list string) :=
  match t with TAsym | TCloglog | TScobit | TUneven => a_inames a | _ => None end.
Definition kept_shape_names (t : mtype) (a : model_args) : option (list string) :=
  match t with TAsym | TScobit | TUneven => a_snames a | _ => None end.

Lemma base_init_inv t f alt_col obs_col choice_col spec iref sref names inames snames nests mv mc m :
  base_init t f alt_col obs_col choice_col spec iref sref names inames snames nests mv mc = Ok m ->
  exists dm alts ch pos,
    create_design_matrix (add_intercept_to_dataframe spec f) spec alt_col names = Ok dm /\
    int_col f alt_col = Ok alts /\ int_col f choice_col = Ok ch /\
    (forall l, mv = Some l -> exists p, pos = Some p /\
       convert_mixing_names_to_positions l (map render (snd dm)) = Ok p) /\
    (mv = None -> pos = None) /\
    m = mkCreated t (add_intercept_to_dataframe spec f) names (fst dm) (map render (snd dm)) alt_col obs_col choice_col
          spec alts ch snames inames sref iref nests (option_map (map (fun kv => key_name (fst kv))) nests) mc mv pos.
Proof.
  unfold base_init. intros H.
  apply bind_ok in H. destruct H as ([] & _ & H). apply bind_ok in H. destruct H as (alts & Ha & H).
  apply bind_ok in H. destruct H as ([] & _ & H). apply bind_ok in H. destruct H as ([] & _ & H).
  apply bind_ok in H. destruct H as ([] & _ & H). apply bind_ok in H. destruct H as ([] & _ & H).
  apply bind_ok in H. destruct H as (dm & Hd & H). apply bind_ok in H. destruct H as ([] & _ & H).
  apply bind_ok in H. destruct H as (alts' & Ha' & H). apply bind_ok in H. destruct H as (ch & Hc & H).
  rewrite int_col_add_intercept in Ha', Hc.
  apply bind_ok in H. destruct H as (pos & Hp & H). injection H as <-.
  exists dm, alts', ch, pos. split; [exact Hd|]. split; [exact Ha'|]. split; [exact Hc|]. split.
  - intros l ->. apply bind_ok in Hp. destruct Hp as (p & Hp & E). injection E as <-. eauto.
  - split; [|reflexivity]. intros ->. congruence.
Qed.

(** Data: the caller's table with a column of ones when the specification mentions
    "intercept" and the table has none. *)
Theorem C79_what_the_model_holds f a m :
  well_formed f -> create_choice_model f a = Ok m ->
  mtype_name (c_type m) = a_type a /\
  (forall c l, assoc c (f_ints f) = Some l -> assoc c (f_ints (c_data m)) = Some l) /\
  (forall c l, assoc c (f_reals f) = Some l -> assoc c (f_reals (c_data m)) = Some l) /\
  (forall c, has_col f c = false -> has_col (c_data m) c = true ->
     c = "intercept" /\ num_col (c_data m) c = Ok (repeat 1%R (f_rows f))) /\
  f_rows (c_data m) = f_rows f /\ well_formed (c_data m) /\
  int_col f (a_alt_col a) = Ok (c_alt_ids m) /\ int_col f (a_choice_col a) = Ok (c_choices m) /\
  c_ind_var_names m = coefficient_names (a_names a) (np_unique (c_alt_ids m)) (a_spec a) /\
  Forall2 (column_holds (c_data m) (c_alt_ids m)) (wanted_columns (np_unique (c_alt_ids m)) (a_spec a)) (c_design m) /\
  c_inames m = kept_intercept_names (c_type m) a /\ c_snames m = kept_shape_names (c_type m) a.
Proof.
  intros Hwf H. unfold create_choice_model in H. apply bind_ok in H. destruct H as (t & Ht & H).
  apply lookup_ok in Ht.
  assert (B : exists iref sref nests mv mc,
    base_init t f (a_alt_col a) (a_obs_col a) (a_choice_col a) (a_spec a) iref sref (a_names a)
      (kept_intercept_names t a) (kept_shape_names t a) nests mv mc = Ok m).
  { unfold class_init in H. destruct t; cbn [kept_intercept_names kept_shape_names]; eauto 7.
    - destruct (ref_given (a_iref a)); [discriminate|]. eauto 7.
    - destruct (a_sref a); try discriminate. eauto 7.
    - destruct (a_nests a); [|discriminate]. eauto 7.
    - destruct (ref_given (a_iref a)); [discriminate|]. eauto 7. }
  destruct B as (iref & sref & nests & mv & mc & B).
  destruct (base_init_inv _ _ _ _ _ _ _ _ _ _ _ _ _ _ _ B) as (dm & alts & ch & pos & Hd & Ha & Hc & _ & _ & ->).
  cbn [c_type c_data c_alt_ids c_choices c_ind_var_names c_design c_inames c_snames].
  set (D := add_intercept_to_dataframe (a_spec a) f) in *.
  assert (HD : D = f \/ (has_col f "intercept" = false /\
     D = mkFrame (f_rows f) (f_ints f) (f_reals f ++ [("intercept", repeat 1%R (f_rows f))])%list)).
  { unfold D, add_intercept_to_dataframe. destruct (assoc "intercept" (a_spec a)); [|auto].
    destruct (has_col f "intercept"); auto. }
  assert (HwD : well_formed D).
  { destruct HD as [-> |[Hi ->]]; [exact Hwf|]. destruct Hwf as [W1 W2]. split; cbn [f_ints f_reals f_rows]; [exact W1|].
    intros c l. rewrite assoc_snoc. destruct (assoc c (f_reals f)) eqn:E; [intros E'; injection E' as <-; eauto|].
    destruct (String.eqb c "intercept"); [|discriminate]. intros E'. injection E' as <-. apply repeat_length. }
  assert (HaD : int_col D (a_alt_col a) = Ok alts) by (unfold D; rewrite int_col_add_intercept; exact Ha).
  split; [exact Ht|]. split; [intros c l E; unfold D; rewrite add_intercept_ints; exact E|]. split.
  { intros c l E. destruct HD as [-> |[_ ->]]; [exact E|]. cbn [f_reals]. rewrite assoc_snoc, E. reflexivity. }
  split.
  { intros c Hn Hy. destruct HD as [E|[Hi E]]; rewrite E in Hy |- *; [congruence|].
    unfold has_col in Hn, Hy. cbn [f_ints f_reals] in Hy. rewrite assoc_snoc in Hy.
    destruct (assoc c (f_ints f)) eqn:E1; [discriminate|]. destruct (assoc c (f_reals f)) eqn:E2; [discriminate|].
    destruct (String.eqb_spec c "intercept") as [->|]; [|discriminate]. split; [reflexivity|].
    unfold num_col. cbn [f_reals]. rewrite assoc_snoc, E2. reflexivity. }
  split. { destruct HD as [-> |[_ ->]]; reflexivity. }
  split; [exact HwD|]. split; [exact Ha|]. split; [exact Hc|].
  split; [exact (design_names D _ _ _ _ _ HaD Hd)|].
  split; [|split; reflexivity].
  destruct dm as [cols labels]. exact (C07_design_matrix_content D _ _ _ _ _ _ HwD HaD Hd).
Qed.

(** The other arguments: each model type keeps those it uses and no other. *)
Theorem C79_arguments_kept f a m :
  create_choice_model f a = Ok m ->
  c_alt_col m = a_alt_col a /\ c_obs_col m = a_obs_col a /\ c_choice_col m = a_choice_col a /\
  c_spec m = a_spec a /\ c_name_spec m = a_names a /\
  c_iref m = match c_type m with TAsym | TCloglog | TScobit | TUneven => a_iref a | _ => RefNone end /\
  c_sref m = match c_type m with TAsym => a_sref a | _ => RefNone end /\
  c_nests m = match c_type m with TNested => a_nests a | _ => None end /\
  c_mix_vars m = match c_type m with TMixed => a_mix_vars a | _ => None end /\
  c_mix_col m = match c_type m with TMixed => a_mix_col a | _ => None end.
Proof.
  intros H. unfold create_choice_model in H. apply bind_ok in H. destruct H as (t & _ & H). unfold class_init in H.
  destruct t.
  all: repeat match type of H with (if ?b then _ else _) = _ => destruct b eqn:?; try discriminate H
       | match ?x with _ => _ end = _ => destruct x eqn:?; try discriminate H end.
  all: destruct (base_init_inv _ _ _ _ _ _ _ _ _ _ _ _ _ _ _ H) as (dm & alts & ch & pos & _ & _ & _ & _ & _ & ->);
    cbn [c_alt_col c_obs_col c_choice_col c_spec c_name_spec c_type c_iref c_sref c_nests c_mix_vars c_mix_col]; repeat split; congruence.
Qed.

(** ** C80: the random coefficients *)

(** A mixed logit's random coefficients are at the positions of the coefficients with the
    names in mixing_vars (the first one, should a name be repeated). *)
Theorem C80_positions_of_the_mixing_variables f a m l :
  create_choice_model f a = Ok m -> a_type a = "Mixed Logit" -> a_mix_vars a = Some l ->
  exists pos, c_mix_pos m = Some pos /\
    Forall2 (fun v p => first_position v (c_ind_var_names m) p) l pos /\
    (NoDup l -> NoDup pos).
Proof.
  intros H Ht Hl. unfold create_choice_model in H. rewrite Ht in H. cbn [lookup_model_type find all_mtypes mtype_name] in H.
  change (lookup_model_type "Mixed Logit") with (Ok TMixed) in H. cbn [bind class_init] in H.
  destruct (ref_given (a_iref a)); [discriminate|].
  destruct (base_init_inv _ _ _ _ _ _ _ _ _ _ _ _ _ _ _ H) as (dm & alts & ch & pos & Hd & Ha & Hc & Hp & _ & ->).
  cbn [c_mix_pos c_ind_var_names]. destruct (Hp l Hl) as (p & -> & E). exists p. split; [reflexivity|].
  unfold convert_mixing_names_to_positions in E. apply mapM_ok in E.
  assert (F : Forall2 (fun v q => first_position v (map render (snd dm)) q) l p).
  { eapply Forall2_weaken; [|exact E]. intros v q. apply str_index_first. }
  split; [exact F|]. intros HN. clear -F HN. induction F as [|v q l p Hq F IH]; [constructor|].
  inversion HN; subst. constructor; [|auto]. intros Hin. apply H1.
  assert (G : exists v', In v' l /\ first_position v' (map render (snd dm)) q).
  { clear -F Hin. induction F as [|v' q' l p H F IH]; [destruct Hin|]. destruct Hin as [<-|Hin].
    - exists v'. split; [left; reflexivity|exact H].
    - destruct (IH Hin) as (w & Hw & Hf). exists w. split; [right; exact Hw|exact Hf]. }
  destruct G as (v' & Hv & (_ & E & _)). destruct Hq as (_ & E' & _). congruence.
Qed.

(** The position is the only one when the coefficient names are distinct. *)
Lemma first_position_unique v l p : NoDup l -> first_position v l p ->
  forall q, (q < length l)%nat -> nth q l "" = v -> q = p.
Proof.
  intros HN (Hp & E & _) q Hq E'. apply (proj1 (NoDup_nth l "") HN); congruence.
Qed.

Lemma grouped_index {A B} (groups : list (list A * list B)) (da : A) (db : B) p :
  (forall g, In g groups -> length (snd g) = length (fst g)) ->
  (p < length (concat (map snd groups)))%nat ->
  exists i j, (i < length groups)%nat /\ (j < length (fst (nth i groups ([], []))))%nat /\
    nth p (concat (map fst groups)) da = nth j (fst (nth i groups ([], []))) da /\
    nth p (concat (map snd groups)) db = nth j (snd (nth i groups ([], []))) db.
Proof.
  revert p. induction groups as [|g r IH]; intros p Hl Hp; [simpl in Hp; lia|].
  simpl in Hp |- *. rewrite app_length in Hp. pose proof (Hl g (or_introl eq_refl)) as Eg.
  destruct (Nat.lt_ge_cases p (length (snd g))) as [H|H].
  - exists 0%nat, p. split; [lia|]. split; [simpl; lia|]. simpl. rewrite !app_nth1 by lia. auto.
  - destruct (IH (p - length (snd g))%nat) as (i & j & Hi & Hj & E1 & E2).
    + intros g' Hg. apply Hl. right. exact Hg.
    + lia.
    + exists (S i), j. split; [simpl; lia|]. split; [exact Hj|]. simpl.
      rewrite !app_nth2 by lia. rewrite <- Eg. auto.
Qed.

Lemma Forall2_at {A B} (P : A -> B -> Prop) l m da db i :
  Forall2 P l m -> (i < length l)%nat -> P (nth i l da) (nth i m db).
Proof.
  intros H. revert i. induction H as [|a b l m Hab H IH]; intros i Hi; [simpl in Hi; lia|].
  destruct i as [|i]; [exact Hab|]. simpl. apply IH. simpl in Hi. lia.
Qed.

(** With the names dictionary in the order of the specification, the coefficient that is
    made random under the name [v] multiplies a column of the variable for which the user
    gave the name [v]. *)
Theorem C80_random_coefficient_is_the_named_variables f a m names l pos :
  well_formed f -> NoDup (map fst (a_spec a)) ->
  create_choice_model f a = Ok m -> a_type a = "Mixed Logit" ->
  a_names a = Some names -> map fst names = map fst (a_spec a) ->
  a_mix_vars a = Some l -> c_mix_pos m = Some pos ->
  Forall2 (fun v p => exists var sv j,
      In (var, sv) (a_spec a) /\
      (j < length (wanted_of (np_unique (c_alt_ids m)) var sv))%nat /\
      render (nth j (user_names names var) (LUser NEOther)) = v /\
      column_holds (c_data m) (c_alt_ids m)
        (nth j (wanted_of (np_unique (c_alt_ids m)) var sv) ("", fun _ => True)) (nth p (c_design m) []))
    l pos.
Proof.
  intros Hwf Hs H Ht Hn Hord Hl Hpos.
  destruct (C80_positions_of_the_mixing_variables f a m l H Ht Hl) as (pos' & E & F & _).
  rewrite Hpos in E. injection E as <-.
  destruct (C79_what_the_model_holds f a m Hwf H) as (_ & _ & _ & _ & _ & HwD & Ha & _).
  unfold create_choice_model in H. rewrite Ht in H.
  change (lookup_model_type "Mixed Logit") with (Ok TMixed) in H. cbn [bind class_init] in H.
  destruct (ref_given (a_iref a)); [discriminate|].
  destruct (base_init_inv _ _ _ _ _ _ _ _ _ _ _ _ _ _ _ H) as (dm & alts & ch & pos' & Hd & Ha' & Hc & _ & _ & ->).
  cbn [c_data c_alt_ids c_design c_ind_var_names] in *. destruct dm as [cols labels]. rewrite Hn in Hd.
  assert (HaD : int_col (add_intercept_to_dataframe (a_spec a) f) (a_alt_col a) = Ok alts)
    by (rewrite int_col_add_intercept; exact Ha).
  destruct (C08_names_line_up_in_same_order _ _ _ _ _ _ _ HwD Hs Hord HaD Hd) as (groups & Ec & El & G).
  cbn [fst snd] in *. eapply Forall2_weaken; [|exact F]. intros v p (Hp & Ev & _).
  rewrite map_length in Hp.
  assert (HG : forall g, In g groups -> length (snd g) = length (fst g)).
  { intros g Hg. clear -G Hg. induction G as [|kv g' spec groups (_ & _ & H) G IH]; [destruct Hg|].
    destruct Hg as [<-|Hg]; auto. }
  rewrite El in Hp. destruct (grouped_index groups [] (LUser NEOther) p HG Hp) as (i & j & Hi & Hj & E1 & E2).
  assert (Hi' : (i < length (a_spec a))%nat) by (rewrite (Forall2_len G); exact Hi).
  assert (N : forall d, (fun kv g => Forall2 (fun w c => column_holds (add_intercept_to_dataframe (a_spec a) f) alts w c)
                  (wanted_of (np_unique alts) (fst kv) (snd kv)) (fst g) /\
                snd g = user_names names (fst kv) /\ length (snd g) = length (fst g))
              (nth i (a_spec a) d) (nth i groups ([], []))).
  { intros d. exact (Forall2_at _ _ _ d ([], []) i G Hi'). }
  specialize (N ("", SOther)). destruct (nth i (a_spec a) ("", SOther)) as [var sv] eqn:Ekv. cbn [fst snd] in N.
  destruct N as (N1 & N2 & N3). pose proof (Forall2_len N1) as Lw. exists var, sv, j.
  split. { rewrite <- Ekv. apply nth_In. exact Hi'. }
  split; [lia|]. split.
  - rewrite <- N2, <- E2, <- El. rewrite <- Ev. change "" with (render (LUser NEOther)). rewrite map_nth. reflexivity.
  - rewrite Ec, E1. clear -N1 Hj. revert j Hj. induction N1 as [|w c ws cs H N1 IH]; intros j Hj; [simpl in Hj; lia|].
    destruct j as [|j]; [exact H|]. simpl. apply IH. simpl in Hj. lia.
Qed.

(** ** Examples and the refutation for other orders *)

Definition exc_frame : frame :=
  mkFrame 4 [("obs", [1; 1; 2; 2]%Z); ("alt", [1; 2; 1; 2]%Z); ("choice", [1; 0; 0; 1]%Z); ("person", [1; 1; 1; 1]%Z)]
    [("time", [8; 9; 10; 11]%R); ("cost", [5; 6; 7; 4]%R)].
Definition exc_mixed : model_args :=
  mkArgs "alt" "obs" "choice" [("intercept", SList [One 2%Z]); ("time", SStr "all_same"); ("cost", SStr "all_same")]
    "Mixed Logit" RefNone RefNone
    (Some [("intercept", NList [NE "ASC 2"]); ("time", NStr "Travel Time"); ("cost", NStr "Travel Cost")])
    None None None (Some "person") (Some ["Travel Cost"]).

Example ex_mixed_model_created :
  well_formed exc_frame /\
  match create_choice_model exc_frame exc_mixed with
  | Ok m => (c_ind_var_names m, c_design m, c_mix_pos m)
  | Err _ => ([], [], None)
  end =
  (["ASC 2"; "Travel Time"; "Travel Cost"],
   [[0 * 1; 1 * 1; 0 * 1; 1 * 1]; [8; 9; 10; 11]; [5; 6; 7; 4]]%R, Some [2%nat]).
Proof.
  split; [|reflexivity]. unfold well_formed, exc_frame. cbn [f_ints f_reals f_rows assoc]. split; intros c l;
  repeat match goal with |- context [String.eqb c ?k] => destruct (String.eqb c k) end;
  intros H; try discriminate; injection H as <-; reflexivity.
Qed.

Definition exc_uneven : model_args :=
  mkArgs "alt" "obs" "choice" [("time", SStr "all_diff"); ("cost", SStr "all_same")]
    "Uneven" (RefInt 0) RefNone None (Some ["ASC 2"]) (Some ["shape 1"; "shape 2"]) None None None.
Example ex_uneven_model_created :
  match create_choice_model exc_frame exc_uneven with
  | Ok m => (c_ind_var_names m, c_inames m, c_snames m)
  | Err _ => ([], None, None)
  end = (["time_1"; "time_2"; "cost"], Some ["ASC 2"], Some ["shape 1"; "shape 2"]).
Proof. reflexivity. Qed.

(** A names dictionary listing its variables in another order is accepted, and then the
    coefficient made random under the name the user gave to cost is that of time. *)
Definition exc_swapped : model_args :=
  mkArgs "alt" "obs" "choice" [("time", SStr "all_same"); ("cost", SStr "all_same")]
    "Mixed Logit" RefNone RefNone
    (Some [("cost", NStr "Travel Cost"); ("time", NStr "Travel Time")])
    None None None (Some "person") (Some ["Travel Cost"]).
Theorem C80_refuted_names_in_another_order :
  exists m pos, create_choice_model exc_frame exc_swapped = Ok m /\ c_mix_pos m = Some [pos] /\
    user_names [("cost", NStr "Travel Cost"); ("time", NStr "Travel Time")] "cost" = [LUser (NE "Travel Cost")] /\
    num_col exc_frame "time" = Ok (nth pos (c_design m) []) /\
    num_col exc_frame "cost" <> Ok (nth pos (c_design m) []).
Proof.
  eexists. exists 0%nat. split; [reflexivity|]. split; [reflexivity|]. split; [reflexivity|]. split; [reflexivity|].
  cbn. intros H. injection H as H _ _ _. lra.
Qed.

Print Assumptions C79_creation_succeeds_exactly.
Print Assumptions C79_missing_columns.
Print Assumptions C79_what_the_model_holds.
Print Assumptions C79_arguments_kept.
Print Assumptions C80_positions_of_the_mixing_variables.
Print Assumptions C80_random_coefficient_is_the_named_variables.
Print Assumptions C80_refuted_names_in_another_order.
