(** Properties C01-C04: the mapping matrices. *)
From Coq Require Import String ZArith List Lia Bool Sorted Permutation Arith.
From Verif Require Import Res Ids Mappings MappingFacts.
Import ListNotations.

(** ** Specification *)

(** [u] lists the distinct values of [ids] in order of first appearance. *)
Definition distinct_in_order_of_appearance (ids u : list Z) : Prop :=
  NoDup u /\ (forall x, In x u <-> In x ids) /\
  (forall a b, (a < b)%nat -> (b < length u)%nat ->
     exists i, (i < length ids)%nat /\ nth i ids 0%Z = nth a u 0%Z /\
       forall i', (i' < length ids)%nat -> nth i' ids 0%Z = nth b u 0%Z -> (i < i')%nat).

(** [u] lists the distinct values of [ids] in increasing order. *)
Definition distinct_increasing (ids u : list Z) : Prop :=
  (forall x, In x u <-> In x ids) /\
  (forall a b, (a < b)%nat -> (b < length u)%nat -> (nth a u 0 < nth b u 0)%Z).

(** [m] is the indicator of "row i carries id u_j". *)
Definition is_indicator (ids u : list Z) (m : smat) : Prop :=
  s_rows m = length ids /\ s_cols m = length u /\
  forall i j, (i < length ids)%nat -> (j < length u)%nat ->
    (nth i ids 0%Z = nth j u 0%Z -> sget m i j = 1%Z) /\
    (nth i ids 0%Z <> nth j u 0%Z -> sget m i j = 0%Z).

(** ** Facts *)

Lemma is_indicator_mapping ids u :
  NoDup u -> is_indicator ids u (create_sparse_mapping ids (Some u)).
Proof.
  intros Hn. split; [reflexivity|]. split; [reflexivity|]. intros i j Hi Hj.
  rewrite sget_mapping_iff by assumption.
  destruct (Z.eqb_spec (nth i ids 0%Z) (nth j u 0%Z)); tauto.
Qed.

Lemma StronglySorted_nth {A} (R : A -> A -> Prop) l d :
  StronglySorted R l -> forall a b, (a < b)%nat -> (b < length l)%nat -> R (nth a l d) (nth b l d).
Proof.
  induction 1 as [|x r Hs IH Hf]; intros a b Hab Hb; simpl in Hb; [lia|].
  destruct b as [|b]; [lia|]. destruct a as [|a]; simpl.
  - rewrite Forall_forall in Hf. apply Hf. apply nth_In. lia.
  - apply IH; lia.
Qed.

Lemma first_seen_spec ids : distinct_in_order_of_appearance ids (first_seen ids).
Proof.
  split; [apply first_seen_NoDup|]. split; [intros x; apply first_seen_In|].
  intros a b Hab Hb.
  pose proof (StronglySorted_nth _ _ 0%Z (first_seen_sorted ids) a b Hab Hb) as H. simpl in H.
  assert (Ha : In (nth a (first_seen ids) 0%Z) ids) by (apply first_seen_In, nth_In; lia).
  exists (index_of (nth a (first_seen ids) 0%Z) ids).
  split; [apply index_of_lt; exact Ha|]. split; [apply nth_index_of; exact Ha|].
  intros i' Hi' E'.
  destruct (Nat.lt_ge_cases (index_of (nth a (first_seen ids) 0%Z) ids) i') as [|Hge]; [assumption|].
  exfalso. apply (index_of_first (nth b (first_seen ids) 0%Z) ids i'); [lia|assumption|exact E'].
Qed.

Lemma np_unique_spec ids : distinct_increasing ids (np_unique ids).
Proof.
  split; [intros x; apply np_unique_In|]. intros a b Hab Hb.
  apply (StronglySorted_nth _ _ 0%Z (np_unique_sorted ids)); assumption.
Qed.

Lemma mappings_parts d spec mp :
  create_long_form_mappings d spec = Ok mp ->
  rows_to_obs mp = create_sparse_mapping (obs_ids d) (Some (first_seen (obs_ids d))) /\
  rows_to_alts mp = create_sparse_mapping (alt_ids d) (Some (np_unique (alt_ids d))) /\
  chosen_row_to_obs mp = match choices d with
                         | Some c => Some (multiply_rows (rows_to_obs mp) c)
                         | None => None
                         end /\
  (match spec with
   | Some s => create_rows_to_nests s (alt_ids d) = match rows_to_nests mp with Some m => Ok m | None => Err KeyError end
               /\ rows_to_nests mp <> None
   | None => rows_to_nests mp = None
   end) /\
  rows_to_mixers mp = match mix_ids d with
                      | Some ids => Some (create_sparse_mapping ids (Some (first_seen ids)))
                      | None => None
                      end.
Proof.
  unfold create_long_form_mappings. intros H. apply bind_ok in H. destruct H as (r & E & H).
  inversion H; subst; clear H. cbn [rows_to_obs rows_to_alts chosen_row_to_obs rows_to_nests rows_to_mixers].
  rewrite mapping_None_Some. split; [reflexivity|]. split; [reflexivity|]. split; [reflexivity|].
  split.
  - destruct spec as [s|]; [|inversion E; reflexivity].
    apply bind_ok in E. destruct E as (m & E1 & E2). inversion E2; subst. split; [exact E1|discriminate].
  - destruct (mix_ids d); [rewrite mapping_None_Some|]; reflexivity.
Qed.

(** ** C01 *)
Theorem C01_rows_to_obs d spec mp :
  create_long_form_mappings d spec = Ok mp ->
  exists u, distinct_in_order_of_appearance (obs_ids d) u /\
            is_indicator (obs_ids d) u (rows_to_obs mp).
Proof.
  intros H. destruct (mappings_parts _ _ _ H) as (E & _). exists (first_seen (obs_ids d)).
  split; [apply first_seen_spec|]. rewrite E. apply is_indicator_mapping. apply first_seen_NoDup.
Qed.

(** Every row has exactly one 1, and rows share a column iff they share an id. *)
Theorem C01_row_unique_column d spec mp i :
  create_long_form_mappings d spec = Ok mp -> (i < length (obs_ids d))%nat ->
  exists j, (j < s_cols (rows_to_obs mp))%nat /\ sget (rows_to_obs mp) i j = 1%Z /\
    (forall j', (j' < s_cols (rows_to_obs mp))%nat -> j' <> j -> sget (rows_to_obs mp) i j' = 0%Z) /\
    (forall i', (i' < length (obs_ids d))%nat ->
       (sget (rows_to_obs mp) i' j = 1%Z <-> nth i' (obs_ids d) 0%Z = nth i (obs_ids d) 0%Z)).
Proof.
  intros H Hi. destruct (C01_rows_to_obs _ _ _ H) as (u & (Hn & Hin & _) & (_ & Hc & He)).
  assert (Hx : In (nth i (obs_ids d) 0%Z) u) by (apply Hin, nth_In; exact Hi).
  pose proof (index_of_lt _ _ Hx) as Hj. pose proof (nth_index_of _ _ 0%Z Hx) as Hnj.
  exists (index_of (nth i (obs_ids d) 0%Z) u). rewrite Hc. split; [exact Hj|].
  split; [apply He; auto|]. split.
  - intros j' Hj' Hne. apply He; auto. intros E. apply Hne. rewrite E. symmetry. apply index_of_nth; auto.
  - intros i' Hi'. destruct (He i' _ Hi' Hj) as [E1 E2]. rewrite Hnj in E1, E2. split.
    + intros E. destruct (Z.eq_dec (nth i' (obs_ids d) 0%Z) (nth i (obs_ids d) 0%Z)) as [|Ne]; [assumption|].
      rewrite (E2 Ne) in E. discriminate.
    + exact E1.
Qed.

(** ** C02 *)
Theorem C02_rows_to_alts d spec mp :
  create_long_form_mappings d spec = Ok mp ->
  exists u, distinct_increasing (alt_ids d) u /\ is_indicator (alt_ids d) u (rows_to_alts mp).
Proof.
  intros H. destruct (mappings_parts _ _ _ H) as (_ & E & _). exists (np_unique (alt_ids d)).
  split; [apply np_unique_spec|]. rewrite E. apply is_indicator_mapping. apply np_unique_NoDup.
Qed.

(** The column of an alternative is determined by the set of alternatives: two
    datasets with the same alternatives (in particular one dataset and any
    reordering of its rows) give equal alternatives the same column. *)
Theorem C02_column_independent_of_row_order d d' spec spec' mp mp' :
  create_long_form_mappings d spec = Ok mp ->
  create_long_form_mappings d' spec' = Ok mp' ->
  (forall x, In x (alt_ids d) <-> In x (alt_ids d')) ->
  s_cols (rows_to_alts mp) = s_cols (rows_to_alts mp') /\
  forall i i' j, (i < length (alt_ids d))%nat -> (i' < length (alt_ids d'))%nat ->
    (j < s_cols (rows_to_alts mp))%nat ->
    nth i (alt_ids d) 0%Z = nth i' (alt_ids d') 0%Z ->
    sget (rows_to_alts mp) i j = sget (rows_to_alts mp') i' j.
Proof.
  intros H H' Hset.
  destruct (mappings_parts _ _ _ H) as (_ & E & _). destruct (mappings_parts _ _ _ H') as (_ & E' & _).
  assert (Eu : np_unique (alt_ids d) = np_unique (alt_ids d')).
  { apply strongly_lt_unique; try apply np_unique_sorted. intros x. rewrite !np_unique_In. apply Hset. }
  rewrite E, E'. cbn [create_sparse_mapping s_cols]. rewrite Eu. split; [reflexivity|].
  intros i i' j Hi Hi' Hj En.
  rewrite !sget_mapping_iff by (try apply np_unique_NoDup; assumption).
  rewrite En. reflexivity.
Qed.

(** ** C03 *)
Theorem C03_chosen_row_to_obs d spec mp c m :
  create_long_form_mappings d spec = Ok mp ->
  choices d = Some c -> (forall i, (i < length (obs_ids d))%nat -> nth i c 0%Z = 0%Z \/ nth i c 0%Z = 1%Z) ->
  chosen_row_to_obs mp = Some m ->
  exists u, distinct_in_order_of_appearance (obs_ids d) u /\
    s_cols m = length u /\
    forall i j, (i < length (obs_ids d))%nat -> (j < length u)%nat ->
      (sget m i j = 1%Z <-> (nth i c 0%Z = 1%Z /\ nth i (obs_ids d) 0%Z = nth j u 0%Z)) /\
      (sget m i j = 0%Z \/ sget m i j = 1%Z).
Proof.
  intros H Hc H01 Hm. destruct (C01_rows_to_obs _ _ _ H) as (u & Hu & (_ & Hcol & He)).
  destruct (mappings_parts _ _ _ H) as (_ & _ & Ech & _). rewrite Hc, Hm in Ech. inversion Ech; subst m.
  exists u. split; [exact Hu|]. split; [exact Hcol|]. intros i j Hi Hj.
  rewrite sget_multiply. destruct (He i j Hi Hj) as [E1 E2].
  destruct (Z.eq_dec (nth i (obs_ids d) 0%Z) (nth j u 0%Z)) as [E|E];
    [rewrite (E1 E)|rewrite (E2 E)]; destruct (H01 i Hi) as [C|C]; rewrite C; split; try lia; tauto.
Qed.

(** With one chosen row per observation each column holds exactly one 1. *)
Theorem C03_one_per_column d spec mp c m j :
  create_long_form_mappings d spec = Ok mp ->
  choices d = Some c -> (forall i, (i < length (obs_ids d))%nat -> nth i c 0%Z = 0%Z \/ nth i c 0%Z = 1%Z) ->
  (forall o, In o (obs_ids d) ->
     exists i, (i < length (obs_ids d))%nat /\ nth i (obs_ids d) 0%Z = o /\ nth i c 0%Z = 1%Z /\
       forall i', (i' < length (obs_ids d))%nat -> nth i' (obs_ids d) 0%Z = o -> nth i' c 0%Z = 1%Z -> i' = i) ->
  chosen_row_to_obs mp = Some m -> (j < s_cols m)%nat ->
  exists i, (i < length (obs_ids d))%nat /\ sget m i j = 1%Z /\
    forall i', (i' < length (obs_ids d))%nat -> i' <> i -> sget m i' j = 0%Z.
Proof.
  intros H Hc H01 H1 Hm Hj.
  destruct (C03_chosen_row_to_obs _ _ _ _ _ H Hc H01 Hm) as (u & (Hn & Hin & _) & Hcol & He).
  rewrite Hcol in Hj.
  assert (Hx : In (nth j u 0%Z) (obs_ids d)) by (apply Hin, nth_In; exact Hj).
  destruct (H1 _ Hx) as (i & Hi & Ei & Ci & Hu). exists i. split; [exact Hi|].
  split; [apply He; auto|]. intros i' Hi' Hne.
  destruct (He i' j Hi' Hj) as [E [E0|E1]]; [exact E0|].
  exfalso. apply E in E1. destruct E1 as [C1 E1]. apply Hne. apply Hu; auto.
Qed.

(** ** C04 *)

(** Alternative [a] belongs to the nest at position [q] and to no other. *)
Definition in_exactly_nest (spec : nest_spec) (a : Z) (q : nat) : Prop :=
  (q < length spec)%nat /\ In a (snd (nth q spec (EmptyString, []))) /\
  forall q', (q' < length spec)%nat -> In a (snd (nth q' spec (EmptyString, []))) -> q' = q.

Lemma dict_get_dict_of_last {V} (l : list (Z * V)) a :
  dict_get Z.eqb (dict_of Z.eqb l) a = dict_get Z.eqb (rev l) a.
Proof.
  unfold dict_of. rewrite dict_get_fold by apply Z.eqb_spec. simpl.
  destruct (dict_get Z.eqb (rev l) a); reflexivity.
Qed.

Lemma alt_nest_name spec a q :
  in_exactly_nest spec a q ->
  dict_get Z.eqb (alt_id_to_nest_name spec) a = Some (fst (nth q spec (EmptyString, []))).
Proof.
  intros (Hq & Ha & Hu). unfold alt_id_to_nest_name. rewrite dict_get_dict_of_last.
  set (l := flat_map _ spec).
  assert (Hin : In (a, fst (nth q spec (EmptyString, []))) l).
  { apply in_flat_map. exists (nth q spec (EmptyString, [])). split; [apply nth_In; exact Hq|].
    apply in_map_iff. exists a. auto. }
  assert (Hall : forall v, In (a, v) l -> v = fst (nth q spec (EmptyString, []))).
  { intros v Hv. apply in_flat_map in Hv. destruct Hv as (kv & Hkv & Hv).
    apply in_map_iff in Hv. destruct Hv as (a' & E & Ha'). inversion E; subst.
    apply (In_nth _ _ (EmptyString, [])) in Hkv. destruct Hkv as (q' & Hq' & <-).
    rewrite (Hu q' Hq' Ha'). reflexivity. }
  destruct (dict_get Z.eqb (rev l) a) as [v|] eqn:E.
  - apply dict_get_In in E; [|apply Z.eqb_spec]. apply in_rev in E. f_equal. apply Hall. exact E.
  - apply dict_get_None in E; [|apply Z.eqb_spec]. exfalso. apply E.
    change a with (fst (a, fst (nth q spec (EmptyString, [])))). apply in_map. apply in_rev.
    rewrite rev_involutive. exact Hin.
Qed.

Lemma nest_name_id (names : list string) q s :
  NoDup names -> (q < length names)%nat ->
  dict_get String.eqb (dict_of String.eqb (combine names (map Z.of_nat (seq s (length names)))))
     (nth q names EmptyString) = Some (Z.of_nat (s + q)).
Proof.
  intros Hn Hq. unfold dict_of. rewrite dict_get_fold by apply String.eqb_spec.
  assert (ML : map fst (combine names (map Z.of_nat (seq s (length names)))) = names).
  { clear. revert s. induction names as [|x r IH]; intros s; simpl; [reflexivity|]. rewrite IH. reflexivity. }
  match goal with |- match ?x with _ => _ end = ?y => assert (HX : x = y); [|rewrite HX; reflexivity] end.
  apply dict_get_NoDup; [apply String.eqb_spec| |].
  - rewrite map_rev, ML. apply NoDup_rev. exact Hn.
  - apply in_rev. rewrite rev_involutive.
    clear Hn ML. revert s q Hq. induction names as [|x r IH]; intros s q Hq; simpl in *; [lia|].
    destruct q as [|q]; simpl.
    + left. f_equal. f_equal. lia.
    + right. replace (s + S q)%nat with (S s + q)%nat by lia. apply IH. lia.
Qed.

Lemma nest_id_vec_ok spec alts :
  NoDup (map fst spec) ->
  (forall a, In a alts -> exists q, in_exactly_nest spec a q) ->
  exists ids, nest_id_vec spec alts = Ok ids /\ length ids = length alts /\
    forall i q, (i < length alts)%nat -> in_exactly_nest spec (nth i alts 0%Z) q ->
                nth i ids 0%Z = Z.of_nat (S q).
Proof.
  intros Hn. induction alts as [|a r IH]; intros Hall.
  - exists []. split; [reflexivity|]. split; [reflexivity|]. simpl. intros; lia.
  - destruct (Hall a (or_introl eq_refl)) as (q & Hq).
    destruct IH as (ids & E & L & P); [intros; apply Hall; right; assumption|].
    cbn [nest_id_vec]. rewrite (alt_nest_name _ _ _ Hq).
    assert (Hid : dict_get String.eqb (nest_name_to_nest_id spec) (fst (nth q spec (EmptyString, [])))
                  = Some (Z.of_nat (S q))).
    { unfold nest_name_to_nest_id. destruct Hq as (Hq & _).
      replace (fst (nth q spec (EmptyString, []))) with (nth q (map fst spec) EmptyString)
        by (rewrite <- (map_nth fst); reflexivity).
      replace (length spec) with (length (map fst spec)) by apply map_length.
      rewrite nest_name_id by (try exact Hn; rewrite map_length; exact Hq). f_equal. }
    rewrite Hid, E. cbn [bind]. exists (Z.of_nat (S q) :: ids). split; [reflexivity|].
    split; [simpl; lia|]. intros i q' Hi Hq'. destruct i as [|i]; simpl in *.
    + destruct Hq as (_ & _ & Hu). destruct Hq' as (Hq1 & Hq2 & _). rewrite (Hu q' Hq1 Hq2). reflexivity.
    + apply P; [lia|exact Hq'].
Qed.

Lemma seq_NoDup_Z n : NoDup (map Z.of_nat (seq 1 n)).
Proof. apply FinFun.Injective_map_NoDup; [intros x y H; lia|apply seq_NoDup]. Qed.

Theorem C04_rows_to_nests d spec :
  NoDup (map fst spec) ->
  (forall a, In a (alt_ids d) -> exists q, in_exactly_nest spec a q) ->
  exists mp m, create_long_form_mappings d (Some spec) = Ok mp /\ rows_to_nests mp = Some m /\
    s_rows m = length (alt_ids d) /\ s_cols m = length spec /\
    forall i j, (i < length (alt_ids d))%nat -> (j < length spec)%nat ->
      (In (nth i (alt_ids d) 0%Z) (snd (nth j spec (EmptyString, []))) -> sget m i j = 1%Z) /\
      (~ In (nth i (alt_ids d) 0%Z) (snd (nth j spec (EmptyString, []))) -> sget m i j = 0%Z).
Proof.
  intros Hn Hall. destruct (nest_id_vec_ok spec (alt_ids d) Hn Hall) as (ids & E & L & P).
  unfold create_long_form_mappings, create_rows_to_nests. rewrite E. cbn [bind].
  set (u := map Z.of_nat (seq 1 (length spec))).
  assert (Lu : length u = length spec) by (unfold u; rewrite map_length, seq_length; reflexivity).
  eexists. exists (create_sparse_mapping ids (Some u)). split; [reflexivity|]. split; [reflexivity|].
  split; [exact L|]. split; [exact Lu|]. intros i j Hi Hj.
  destruct (Hall (nth i (alt_ids d) 0%Z)) as (q & Hq); [apply nth_In; exact Hi|].
  assert (Hnj : nth j u 0%Z = Z.of_nat (S j)).
  { unfold u. change 0%Z with (Z.of_nat 0). rewrite map_nth. rewrite seq_nth by exact Hj. reflexivity. }
  rewrite (sget_mapping_iff ids u i j (seq_NoDup_Z _)) by lia.
  rewrite Hnj, (P i q Hi Hq).
  destruct Hq as (Hq & Ha & Hu).
  destruct (Z.eqb_spec (Z.of_nat (S q)) (Z.of_nat (S j))) as [Eq|Ne].
  - assert (q = j) by lia. subst. tauto.
  - split; [|tauto]. intros Hin. exfalso. apply Ne. rewrite (Hu j Hj Hin). reflexivity.
Qed.

(** An alternative that is in no nest is an error. *)
Lemma nest_id_vec_err spec alts a :
  In a alts -> (forall kv, In kv spec -> ~ In a (snd kv)) -> exists e, nest_id_vec spec alts = Err e.
Proof.
  induction alts as [|x r IH]; intros Hin Hno; [destruct Hin|]. cbn [nest_id_vec].
  destruct (Z.eq_dec x a) as [->|Hne].
  - assert (E : dict_get Z.eqb (alt_id_to_nest_name spec) a = None).
    { unfold alt_id_to_nest_name. rewrite dict_get_dict_of_last. apply dict_get_None; [apply Z.eqb_spec|].
      rewrite map_rev. intros H. apply in_rev in H. apply in_map_iff in H. destruct H as ((a', n) & Ea & H).
      simpl in Ea. subst a'. apply in_flat_map in H. destruct H as (kv & Hkv & H).
      apply in_map_iff in H. destruct H as (a' & Ea & H). inversion Ea; subst. exact (Hno kv Hkv H). }
    rewrite E. eauto.
  - destruct (dict_get Z.eqb (alt_id_to_nest_name spec) x) as [n|]; [|eauto].
    destruct (dict_get String.eqb (nest_name_to_nest_id spec) n) as [id|]; [|eauto].
    destruct IH as (e & E); [destruct Hin; [contradiction|assumption]|exact Hno|].
    rewrite E. cbn [bind]. eauto.
Qed.

Theorem C04_missing_alternative_is_an_error d spec a :
  In a (alt_ids d) -> (forall kv, In kv spec -> ~ In a (snd kv)) ->
  exists e, create_long_form_mappings d (Some spec) = Err e.
Proof.
  intros Hin Hno. destruct (nest_id_vec_err spec _ a Hin Hno) as (e & E).
  exists e. unfold create_long_form_mappings, create_rows_to_nests. rewrite E. reflexivity.
Qed.

(** ** A concrete dataset: ids out of order, observation 7 with three rows. *)
Definition ex_cols : long_cols :=
  mkLong [7; 7; 7; 3; 3]%Z [30; 10; 20; 20; 10]%Z (Some [0; 1; 0; 1; 0]%Z) (Some [1; 1; 1; 2; 2]%Z).
Definition ex_nests : nest_spec := [("b"%string, [20; 10]%Z); ("a"%string, [30]%Z)].

Example ex_mappings : exists mp, create_long_form_mappings ex_cols (Some ex_nests) = Ok mp /\
  sget (rows_to_obs mp) 3 1 = 1%Z /\ sget (rows_to_obs mp) 3 0 = 0%Z /\
  sget (rows_to_alts mp) 0 2 = 1%Z /\ s_cols (rows_to_obs mp) = 2%nat /\
  match rows_to_nests mp with Some m => sget m 0 1 = 1%Z | None => False end.
Proof. eexists. repeat split. Qed.

Example ex_one_choice : forall o, In o (obs_ids ex_cols) ->
  exists i, (i < length (obs_ids ex_cols))%nat /\ nth i (obs_ids ex_cols) 0%Z = o /\
    nth i [0; 1; 0; 1; 0]%Z 0%Z = 1%Z /\
    forall i', (i' < length (obs_ids ex_cols))%nat -> nth i' (obs_ids ex_cols) 0%Z = o ->
               nth i' [0; 1; 0; 1; 0]%Z 0%Z = 1%Z -> i' = i.
Proof.
  intros o Ho. simpl in Ho.
  assert (o = 7 \/ o = 3)%Z as [-> | ->] by lia; [exists 1%nat|exists 3%nat]; simpl; repeat split; try lia;
    intros i' Hi' E C; do 5 (destruct i' as [|i']; [simpl in *; try lia; try discriminate|]); lia.
Qed.

Example ex_nests_exact : forall a, In a (alt_ids ex_cols) -> exists q, in_exactly_nest ex_nests a q.
Proof.
  intros a Ha. simpl in Ha.
  assert (a = 30 \/ a = 10 \/ a = 20)%Z as [-> | [-> | ->]] by lia; [exists 1%nat|exists 0%nat|exists 0%nat];
    unfold in_exactly_nest; simpl; (split; [lia|]); (split; [lia|]); intros q' Hq' H;
    do 2 (destruct q' as [|q']; [simpl in *; try reflexivity; lia|]); lia.
Qed.

Print Assumptions C01_rows_to_obs.
Print Assumptions C01_row_unique_column.
Print Assumptions C02_rows_to_alts.
Print Assumptions C02_column_independent_of_row_order.
Print Assumptions C03_chosen_row_to_obs.
Print Assumptions C03_one_per_column.
Print Assumptions C04_rows_to_nests.
Print Assumptions C04_missing_alternative_is_an_error.
