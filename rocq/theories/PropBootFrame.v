(** C56: the bootstrap table. *)
From Coq Require Import String ZArith List Reals Bool Lia Arith.
From Verif Require Import Res Ids Frame ChoiceTools WideLong PropDesign PropWideLong BootSampler PropBootSampler.
Import ListNotations.

(** ** Specification *)

(** The row numbers of observation [o], in order. *)
Definition row_numbers (obs : list Z) (o : Z) : list nat :=
  filter (fun i => (nth i obs 0 =? o)%Z) (seq 0 (length obs)).

(** For each row of the bootstrap table: its bootstrap id and the row of the original
    table it copies.  Slot [k] (counted from 0) of the resample has bootstrap id [k+1]
    and contributes all the rows of its observation. *)
Definition sources (obs resampled : list Z) : list (Z * nat) :=
  flat_map (fun k => map (fun i => (Z.of_nat (k + 1), i)) (row_numbers obs (nth k resampled 0%Z)))
    (seq 0 (length resampled)).

(** ** Facts about the pieces *)

Lemma list_as_map {A} (l : list A) d : l = map (fun i => nth i l d) (seq 0 (length l)).
Proof.
  apply (nth_ext _ _ d d); [rewrite map_length, seq_length; reflexivity|].
  intros k Hk. rewrite nth_map_seq by exact Hk. reflexivity.
Qed.

Lemma select_rows {A} (obs : list Z) o (l : list A) d :
  length l = length obs ->
  select (map (fun x => (x =? o)%Z) obs) l = map (fun i => nth i l d) (row_numbers obs o).
Proof.
  intros H. rewrite (list_as_map obs 0%Z) at 1. rewrite (list_as_map l d) at 1. rewrite H. apply select_map.
Qed.

Lemma mask_length (obs : list Z) o :
  length (filter (fun b : bool => b) (map (fun x => (x =? o)%Z) obs)) = length (row_numbers obs o).
Proof.
  unfold row_numbers. rewrite (list_as_map obs 0%Z) at 1. rewrite !filter_map_length. reflexivity.
Qed.

Lemma assoc_map_snd {A B} (g : A -> B) c l :
  assoc c (map (fun kv => (fst kv, g (snd kv))) l) = match assoc c l with Some v => Some (g v) | None => None end.
Proof.
  induction l as [|[k v] r IH]; simpl; [reflexivity|]. destruct (String.eqb c k); auto.
Qed.

Lemma assoc_map_key {A B} (g : string -> B) c (l : list (string * A)) :
  assoc c (map (fun kv => (fst kv, g (fst kv))) l) = match assoc c l with Some _ => Some (g c) | None => None end.
Proof.
  induction l as [|[k v] r IH]; simpl; [reflexivity|].
  destruct (String.eqb_spec c k) as [->|]; auto.
Qed.

Lemma assoc_app {A} c (l r : list (string * A)) :
  assoc c (l ++ r) = match assoc c l with Some v => Some v | None => assoc c r end.
Proof.
  induction l as [|[k v] l IH]; simpl; [reflexivity|]. destruct (String.eqb c k); auto.
Qed.

(** The component for one slot. *)
Definition component (f : frame) (obs : list Z) (boot : string) (k : nat) (o : Z) : frame :=
  add_constant_column boot (Z.of_nat (k + 1)) (filter_rows (map (fun x => (x =? o)%Z) obs) f).

Lemma groupby_get f c obs o :
  int_col f c = Ok obs -> In o obs ->
  exists gd, create_deepcopied_groupby_dict f c = Ok gd /\
    dict_get Z.eqb gd o = Some (filter_rows (map (fun x => (x =? o)%Z) obs) f).
Proof.
  intros Hc Ho. unfold create_deepcopied_groupby_dict. rewrite Hc. simpl. eexists. split; [reflexivity|].
  apply np_unique_In in Ho. induction (np_unique obs) as [|x r IH]; simpl; [destruct Ho|].
  destruct (Z.eqb_spec o x) as [->|]; [reflexivity|]. apply IH. destruct Ho; [congruence|assumption].
Qed.

Lemma components_ok f c obs gd boot resampled : forall k0,
  int_col f c = Ok obs -> create_deepcopied_groupby_dict f c = Ok gd ->
  (forall o, In o resampled -> In o obs) ->
  mapM (fun bo => match dict_get Z.eqb gd (snd bo) with
                  | None => Err KeyError
                  | Some e => Ok (add_constant_column boot (Z.of_nat (fst bo + 1)) e)
                  end) (combine (seq k0 (length resampled)) resampled)
  = Ok (map (fun j => component f obs boot (k0 + j) (nth j resampled 0%Z)) (seq 0 (length resampled))).
Proof.
  induction resampled as [|o r IH]; intros k0 Hc Hgd Hin; [reflexivity|].
  simpl combine. simpl mapM.
  destruct (groupby_get f c obs o Hc (Hin o (or_introl eq_refl))) as (gd' & E & Hget).
  rewrite Hgd in E. injection E as <-. rewrite Hget. simpl bind.
  rewrite (IH (S k0) Hc Hgd) by (intros; apply Hin; right; assumption). simpl.
  f_equal. f_equal.
  - unfold component. rewrite Nat.add_0_r. reflexivity.
  - rewrite <- seq_shift, map_map. apply map_ext. intros j. f_equal. lia.
Qed.

Lemma flat_map_map {A B C} (g : B -> list C) (h : A -> B) l : flat_map g (map h l) = flat_map (fun a => g (h a)) l.
Proof. induction l as [|a r IH]; simpl; [reflexivity|]. rewrite IH. reflexivity. Qed.

Lemma map_flat_map {A B C} (g : B -> C) (h : A -> list B) l : map g (flat_map h l) = flat_map (fun a => map g (h a)) l.
Proof. induction l as [|a r IH]; simpl; [reflexivity|]. rewrite map_app, IH. reflexivity. Qed.

Lemma flat_map_ext_in {A B} (g h : A -> list B) l : (forall a, In a l -> g a = h a) -> flat_map g l = flat_map h l.
Proof.
  induction l as [|a r IH]; intros H; simpl; [reflexivity|].
  rewrite H, IH; [reflexivity| |left; reflexivity]. intros. apply H. right. assumption.
Qed.

Lemma length_flat_map {A B} (g : A -> list B) l : length (flat_map g l) = fold_right Nat.add 0%nat (map (fun a => length (g a)) l).
Proof. induction l as [|a r IH]; simpl; [reflexivity|]. rewrite app_length, IH. reflexivity. Qed.

(** ** C56: the bootstrap table is the concatenation of copies *)

Theorem C56_rows_are_copies f obs_col obs boot resampled gd :
  well_formed f -> int_col f obs_col = Ok obs -> length obs = f_rows f ->
  has_col f boot = false ->
  resampled <> [] -> (forall o, In o resampled -> In o obs) ->
  create_deepcopied_groupby_dict f obs_col = Ok gd ->
  exists g,
    create_bootstrap_dataframe f obs_col resampled gd boot = Ok g /\
    well_formed g /\
    f_rows g = length (sources obs resampled) /\
    int_col g boot = Ok (map fst (sources obs resampled)) /\
    (forall c l, assoc c (f_ints f) = Some l ->
       assoc c (f_ints g) = Some (map (fun s => nth (snd s) l 0%Z) (sources obs resampled))) /\
    (forall c l, assoc c (f_reals f) = Some l ->
       assoc c (f_reals g) = Some (map (fun s => nth (snd s) l 0%R) (sources obs resampled))) /\
    (forall c, has_col g c = true -> c = boot \/ has_col f c = true).
Proof.
  intros [Hwi Hwr] Hobs Hlen Hboot Hne Hin Hgd.
  assert (Hbi : assoc boot (f_ints f) = None /\ assoc boot (f_reals f) = None).
  { unfold has_col in Hboot. destruct (assoc boot (f_ints f)); [discriminate|].
    destruct (assoc boot (f_reals f)); [discriminate|]. auto. }
  destruct Hbi as [Hbi Hbr].
  assert (Hoc : has_col f obs_col = true).
  { unfold has_col. unfold int_col in Hobs. destruct (assoc obs_col (f_ints f)); [reflexivity|discriminate]. }
  set (n := length resampled).
  set (C := fun j => component f obs boot j (nth j resampled 0%Z)).
  assert (Hn : exists m, n = S m). { unfold n. destruct resampled; [congruence|]. simpl. eauto. }
  destruct Hn as [m Hm].
  assert (HintC : forall c l j, assoc c (f_ints f) = Some l ->
     column_or_empty c (f_ints (C j)) = map (fun i => nth i l 0%Z) (row_numbers obs (nth j resampled 0%Z))).
  { intros c l j Hl. unfold column_or_empty, C, component, add_constant_column, filter_rows. simpl.
    rewrite assoc_app, assoc_map_snd, Hl. apply select_rows. rewrite (Hwi c l Hl). lia. }
  assert (HrealC : forall c l j, assoc c (f_reals f) = Some l ->
     column_or_empty c (f_reals (C j)) = map (fun i => nth i l 0%R) (row_numbers obs (nth j resampled 0%Z))).
  { intros c l j Hl. unfold column_or_empty, C, component, add_constant_column, filter_rows. simpl.
    rewrite assoc_map_snd, Hl. apply select_rows. rewrite (Hwr c l Hl). lia. }
  assert (HbootC : forall j, column_or_empty boot (f_ints (C j))
     = repeat (Z.of_nat (j + 1)) (length (row_numbers obs (nth j resampled 0%Z)))).
  { intros j. unfold column_or_empty, C, component, add_constant_column, filter_rows. simpl.
    rewrite assoc_app, assoc_map_snd, Hbi. simpl. rewrite String.eqb_refl, mask_length. reflexivity. }
  set (msk := map (fun x => (x =? nth 0 resampled 0)%Z) obs).
  assert (Ei0 : f_ints (C 0%nat) = map (fun kv => (fst kv, select msk (snd kv))) (f_ints f)
     ++ [(boot, repeat (Z.of_nat 1) (length (filter (fun b : bool => b) msk)))]) by reflexivity.
  assert (Er0 : f_reals (C 0%nat) = map (fun kv => (fst kv, select msk (snd kv))) (f_reals f)) by reflexivity.
  set (comps := map C (seq 0 n)).
  set (g := mkFrame (fold_right Nat.add 0%nat (map f_rows comps))
     (map (fun kv => (fst kv, flat_map (fun g => column_or_empty (fst kv) (f_ints g)) comps)) (f_ints (C 0%nat)))
     (map (fun kv => (fst kv, flat_map (fun g => column_or_empty (fst kv) (f_reals g)) comps)) (f_reals (C 0%nat)))).
  assert (Hrun : create_bootstrap_dataframe f obs_col resampled gd boot = Ok g).
  { unfold create_bootstrap_dataframe, check_column_existence. rewrite Hoc, Hboot. simpl bind.
    rewrite Hobs. simpl bind. unfold ensure_resampled_obs_ids_in_df.
    replace (forallb (fun x => zmem x obs) resampled) with true.
    2: { symmetry. apply forallb_forall. intros x Hx. apply zmem_In. auto. }
    simpl bind. rewrite (components_ok f obs_col obs gd boot resampled 0 Hobs Hgd Hin). simpl bind.
    fold n. change (fun j => component f obs boot (0 + j) (nth j resampled 0%Z)) with C. fold comps.
    unfold concat_frames, g. unfold comps. rewrite Hm. reflexivity. }
  assert (Hrows : f_rows g = length (sources obs resampled)).
  { unfold g, comps, sources. fold n. simpl. rewrite length_flat_map, map_map. f_equal.
    apply map_ext. intros j. rewrite map_length. unfold C, component. simpl. apply mask_length. }
  assert (Hint : forall c l, assoc c (f_ints f) = Some l ->
       assoc c (f_ints g) = Some (map (fun s => nth (snd s) l 0%Z) (sources obs resampled))).
  { intros c l Hl. unfold g. cbn [f_ints].
    rewrite (assoc_map_key (fun k => flat_map (fun g => column_or_empty k (f_ints g)) comps)).
    rewrite Ei0, assoc_app, assoc_map_snd, Hl. f_equal. unfold comps, sources. fold n.
    rewrite flat_map_map, map_flat_map. apply flat_map_ext_in. intros j _.
    rewrite (HintC c l j Hl), map_map. reflexivity. }
  assert (Hreal : forall c l, assoc c (f_reals f) = Some l ->
       assoc c (f_reals g) = Some (map (fun s => nth (snd s) l 0%R) (sources obs resampled))).
  { intros c l Hl. unfold g. cbn [f_reals].
    rewrite (assoc_map_key (fun k => flat_map (fun g => column_or_empty k (f_reals g)) comps)).
    rewrite Er0, assoc_map_snd, Hl. f_equal. unfold comps, sources. fold n.
    rewrite flat_map_map, map_flat_map. apply flat_map_ext_in. intros j _.
    rewrite (HrealC c l j Hl), map_map. reflexivity. }
  assert (Hbootg : assoc boot (f_ints g) = Some (map fst (sources obs resampled))).
  { unfold g. cbn [f_ints].
    rewrite (assoc_map_key (fun k => flat_map (fun g => column_or_empty k (f_ints g)) comps)).
    rewrite Ei0, assoc_app, assoc_map_snd, Hbi. simpl. rewrite String.eqb_refl. f_equal. unfold comps, sources. fold n.
    rewrite flat_map_map, map_flat_map. apply flat_map_ext_in. intros j _.
    rewrite HbootC, map_map. simpl. induction (row_numbers obs (nth j resampled 0%Z)); simpl; congruence. }
  assert (Hnoint : forall c, c <> boot -> assoc c (f_ints f) = None -> assoc c (f_ints g) = None).
  { intros c Hcb Hl. unfold g. cbn [f_ints].
    rewrite (assoc_map_key (fun k => flat_map (fun g => column_or_empty k (f_ints g)) comps)).
    rewrite Ei0, assoc_app, assoc_map_snd, Hl. simpl. apply String.eqb_neq in Hcb. rewrite Hcb. reflexivity. }
  assert (Hnoreal : forall c, assoc c (f_reals f) = None -> assoc c (f_reals g) = None).
  { intros c Hl. unfold g. cbn [f_reals].
    rewrite (assoc_map_key (fun k => flat_map (fun g => column_or_empty k (f_reals g)) comps)).
    rewrite Er0, assoc_map_snd, Hl. reflexivity. }
  exists g. split; [exact Hrun|]. split.
  - split; intros c l Hl; rewrite Hrows.
    + destruct (string_dec c boot) as [->|Hcb].
      * rewrite Hbootg in Hl. injection Hl as <-. apply map_length.
      * destruct (assoc c (f_ints f)) as [v|] eqn:Ev.
        -- rewrite (Hint c v Ev) in Hl. injection Hl as <-. apply map_length.
        -- rewrite (Hnoint c Hcb Ev) in Hl. discriminate.
    + destruct (assoc c (f_reals f)) as [v|] eqn:Ev.
      * rewrite (Hreal c v Ev) in Hl. injection Hl as <-. apply map_length.
      * rewrite (Hnoreal c Ev) in Hl. discriminate.
  - split; [exact Hrows|]. split; [unfold int_col; rewrite Hbootg; reflexivity|].
    split; [exact Hint|]. split; [exact Hreal|].
    intros c Hc. destruct (string_dec c boot) as [|Hcb]; [left; assumption|right].
    unfold has_col in *. destruct (assoc c (f_ints f)) eqn:Ei; [destruct (assoc c (f_reals f)); reflexivity|].
    rewrite (Hnoint c Hcb Ei) in Hc. destruct (assoc c (f_reals f)) eqn:Er; [reflexivity|].
    rewrite (Hnoreal c Er) in Hc. discriminate.
Qed.

(** ** Consequences for the bootstrap ids *)

Lemma in_sources obs resampled b i :
  In (b, i) (sources obs resampled) <->
  exists k, (k < length resampled)%nat /\ b = Z.of_nat (k + 1) /\
    (i < length obs)%nat /\ nth i obs 0%Z = nth k resampled 0%Z.
Proof.
  unfold sources. rewrite in_flat_map. split.
  - intros (k & Hk & H). apply in_seq in Hk. apply in_map_iff in H. destruct H as (i' & E & H).
    injection E as <- ->. unfold row_numbers in H. apply filter_In in H. destruct H as [Hi He].
    apply in_seq in Hi. apply Z.eqb_eq in He. exists k. repeat split; auto; lia.
  - intros (k & Hk & -> & Hi & He). exists k. split; [apply in_seq; lia|].
    apply in_map_iff. exists i. split; [reflexivity|]. unfold row_numbers. apply filter_In.
    split; [apply in_seq; lia|apply Z.eqb_eq; exact He].
Qed.

Lemma NoDup_app' {A} (l r : list A) :
  NoDup l -> NoDup r -> (forall x, In x l -> ~ In x r) -> NoDup (l ++ r).
Proof.
  intros Hl Hr Hd. induction l as [|a l IH]; simpl; [exact Hr|]. inversion Hl; subst. constructor.
  - intros H. apply in_app_or in H. destruct H as [H|H]; [auto|]. apply (Hd a); [left; reflexivity|exact H].
  - apply IH; [assumption|]. intros x Hx. apply Hd. right. exact Hx.
Qed.

Lemma sources_NoDup obs resampled : NoDup (sources obs resampled).
Proof.
  unfold sources. generalize (length resampled). intros n.
  assert (H : forall k0, NoDup (flat_map (fun k => map (fun i => (Z.of_nat (k + 1), i)) (row_numbers obs (nth k resampled 0%Z))) (seq k0 n))).
  { induction n as [|n IH]; intros k0; simpl; [constructor|]. apply NoDup_app'; [| apply IH |].
    - apply FinFun.Injective_map_NoDup; [intros a b E; injection E; auto|].
      apply NoDup_filter, seq_NoDup.
    - intros [b i] H1 H2. apply in_map_iff in H1. destruct H1 as (i' & E & _). injection E as <- _.
      apply in_flat_map in H2. destruct H2 as (k & Hk & H2). apply in_seq in Hk.
      apply in_map_iff in H2. destruct H2 as (i2 & E & _). injection E as E _. lia. }
  apply H.
Qed.

Lemma nondecreasing_sources obs resampled i j :
  (i <= j)%nat -> (j < length (sources obs resampled))%nat ->
  (fst (nth i (sources obs resampled) (0%Z, 0%nat)) <= fst (nth j (sources obs resampled) (0%Z, 0%nat)))%Z.
Proof.
  unfold sources. generalize (length resampled). intros n.
  set (F := fun k => map (fun i => (Z.of_nat (k + 1), i)) (row_numbers obs (nth k resampled 0%Z))).
  assert (Hlab : forall k p, In p (F k) -> fst p = Z.of_nat (k + 1)).
  { intros k p Hp. apply in_map_iff in Hp. destruct Hp as (x & <- & _). reflexivity. }
  assert (H : forall n k0 i j, (i <= j)%nat -> (j < length (flat_map F (seq k0 n)))%nat ->
     (fst (nth i (flat_map F (seq k0 n)) (0%Z, 0%nat)) <= fst (nth j (flat_map F (seq k0 n)) (0%Z, 0%nat)))%Z /\
     (Z.of_nat (k0 + 1) <= fst (nth j (flat_map F (seq k0 n)) (0%Z, 0%nat)))%Z).
  { clear. intros n. revert F. intros F. 
    assert (Hlab : forall k p, In p (F k) -> fst p = Z.of_nat (k + 1)).
    { intros k p Hp. apply in_map_iff in Hp. destruct Hp as (x & <- & _). reflexivity. }
    induction n as [|n IH]; intros k0 i j Hij Hj; [simpl in Hj; lia|].
    simpl flat_map in *. rewrite app_length in Hj.
    destruct (Nat.lt_ge_cases j (length (F k0))) as [Hc|Hc].
    - rewrite !app_nth1 by lia. rewrite !(Hlab k0) by (apply nth_In; lia). lia.
    - rewrite (app_nth2 _ _ _ Hc).
      destruct (Nat.lt_ge_cases i (length (F k0))) as [Hd|Hd].
      + rewrite app_nth1 by exact Hd. rewrite (Hlab k0 (nth i (F k0) _)) by (apply nth_In; lia).
        destruct (IH (S k0) (j - length (F k0))%nat (j - length (F k0))%nat) as [_ H]; [lia|lia|]. lia.
      + rewrite (app_nth2 _ _ _ Hd).
        destruct (IH (S k0) (i - length (F k0))%nat (j - length (F k0))%nat) as [H1 H2]; [lia|lia|]. lia. }
  intros Hij Hj. apply (H n 0%nat i j Hij Hj).
Qed.

(** The bootstrap ids pass the models' row-order check, are 1, ..., n with one id per
    slot, and the rows with id k+1 are the rows of the k-th resampled observation, each
    exactly once and in their original order. *)
Theorem C56_bootstrap_ids obs resampled :
  (forall o, In o resampled -> In o obs) ->
  ensure_contiguity_in_observation_rows (map fst (sources obs resampled)) = Ok tt /\
  (forall b, In b (map fst (sources obs resampled)) <-> (1 <= b <= Z.of_nat (length resampled))%Z) /\
  (forall k, (k < length resampled)%nat ->
     map snd (filter (fun s => (fst s =? Z.of_nat (k + 1))%Z) (sources obs resampled))
     = row_numbers obs (nth k resampled 0%Z)).
Proof.
  intros Hin. split; [|split].
  - apply C05_accepts_exactly_nondecreasing. intros i j Hij Hj. rewrite map_length in Hj.
    rewrite !(nth_map_lt fst _ _ (0%Z, 0%nat)) by lia. apply nondecreasing_sources; lia.
  - intros b. rewrite in_map_iff. split.
    + intros ([b' i] & E & H). simpl in E. subst b'. apply in_sources in H. destruct H as (k & Hk & -> & _). lia.
    + intros Hb. set (k := Z.to_nat (b - 1)). assert (Hk : (k < length resampled)%nat) by (unfold k; lia).
      assert (Ho : In (nth k resampled 0%Z) obs) by (apply Hin, nth_In; exact Hk).
      apply In_nth with (d := 0%Z) in Ho. destruct Ho as (i & Hi & E).
      exists (b, i). split; [reflexivity|]. apply in_sources. exists k. repeat split; auto. unfold k. lia.
  - intros k Hk. unfold sources.
    set (F := fun k => map (fun i => (Z.of_nat (k + 1), i)) (row_numbers obs (nth k resampled 0%Z))).
    assert (Hsame : forall k, filter (fun s => (fst s =? Z.of_nat (k + 1))%Z) (F k) = F k).
    { intros k'. unfold F. induction (row_numbers obs (nth k' resampled 0%Z)) as [|i r IH]; simpl; [reflexivity|].
      rewrite Z.eqb_refl, IH. reflexivity. }
    assert (Hother : forall k', k' <> k -> filter (fun s => (fst s =? Z.of_nat (k + 1))%Z) (F k') = []).
    { intros k' Hne. unfold F. induction (row_numbers obs (nth k' resampled 0%Z)) as [|i r IH]; simpl; [reflexivity|].
      destruct (Z.eqb_spec (Z.of_nat (k' + 1)) (Z.of_nat (k + 1))); [lia|exact IH]. }
    assert (H : forall n k0, filter (fun s => (fst s =? Z.of_nat (k + 1))%Z) (flat_map F (seq k0 n))
        = if ((k0 <=? k) && (k <? k0 + n))%nat%bool then F k else []).
    { induction n as [|n IH]; intros k0; [|cbn [seq flat_map]].
      - simpl. destruct (Nat.leb_spec k0 k), (Nat.ltb_spec k (k0 + 0)); simpl; try reflexivity; lia.
      - rewrite filter_app, IH. destruct (Nat.eq_dec k0 k) as [->|Hne].
        + rewrite Hsame.
          destruct (Nat.leb_spec (S k) k), (Nat.leb_spec k k), (Nat.ltb_spec k (k + S n)); cbn [andb]; try lia.
          apply app_nil_r.
        + rewrite (Hother k0 Hne). cbn [app].
          destruct (Nat.leb_spec (S k0) k), (Nat.leb_spec k0 k), (Nat.ltb_spec k (S k0 + n)),
            (Nat.ltb_spec k (k0 + S n)); cbn [andb]; try lia; reflexivity. }
    rewrite H. destruct (Nat.leb_spec 0 k), (Nat.ltb_spec k (0 + length resampled)); simpl; try lia.
    unfold F. rewrite map_map. simpl. apply map_id.
Qed.

(** One chosen row per observation is inherited by the bootstrap observations. *)
Theorem C56_one_choice_inherited obs choice resampled :
  length choice = length obs -> (forall o, In o resampled -> In o obs) ->
  one_chosen_row obs choice ->
  one_chosen_row (map fst (sources obs resampled)) (map (fun s => nth (snd s) choice 0%Z) (sources obs resampled)).
Proof.
  intros Hlen Hin Hone b Hb.
  set (S0 := sources obs resampled) in *.
  apply in_map_iff in Hb. destruct Hb as ([b' i0] & E & H). simpl in E. subst b'.
  apply in_sources in H. destruct H as (k & Hk & -> & Hi0 & E0).
  destruct (Hone (nth k resampled 0%Z)) as (i & Hi & Ei & Ec & Hu). { apply Hin, nth_In, Hk. }
  assert (Hsrc : In (Z.of_nat (k + 1), i) S0). { apply in_sources. exists k. auto. }
  apply In_nth with (d := (0%Z, 0%nat)) in Hsrc. destruct Hsrc as (r & Hr & Er).
  assert (Hlen' : length (map fst S0) = length S0) by apply map_length.
  exists r. rewrite Hlen'. split; [exact Hr|]. split; [|split].
  - rewrite (nth_map_lt fst _ _ (0%Z, 0%nat)) by exact Hr. rewrite Er. reflexivity.
  - rewrite (nth_map_lt _ _ _ (0%Z, 0%nat)) by exact Hr. rewrite Er. exact Ec.
  - intros r' Hr' E1 E2.
    rewrite (nth_map_lt fst _ _ (0%Z, 0%nat)) in E1 by exact Hr'.
    rewrite (nth_map_lt _ _ _ (0%Z, 0%nat)) in E2 by exact Hr'.
    assert (Hin' : In (nth r' S0 (0%Z, 0%nat)) S0) by (apply nth_In; exact Hr').
    destruct (nth r' S0 (0%Z, 0%nat)) as [b2 i2] eqn:E3. simpl in E1, E2. subst b2.
    apply in_sources in Hin'. destruct Hin' as (k2 & Hk2 & Eb & Hi2 & Ei2).
    assert (k2 = k) by lia. subst k2.
    assert (i2 = i) by (apply Hu; assumption). subst i2.
    apply (NoDup_nth S0 (0%Z, 0%nat)); [apply sources_NoDup|exact Hr'|exact Hr|]. rewrite E3, Er. reflexivity.
Qed.

(** What is rejected. *)
Theorem C56_rejections f obs_col obs boot resampled gd :
  (has_col f obs_col = false -> create_bootstrap_dataframe f obs_col resampled gd boot = Err ValueError) /\
  (has_col f obs_col = true -> has_col f boot = true ->
     create_bootstrap_dataframe f obs_col resampled gd boot = Err ValueError) /\
  (int_col f obs_col = Ok obs -> (exists o, In o resampled /\ ~ In o obs) ->
     create_bootstrap_dataframe f obs_col resampled gd boot = Err ValueError) /\
  (int_col f obs_col = Ok obs -> resampled = [] ->
     create_bootstrap_dataframe f obs_col resampled gd boot = Err ValueError).
Proof.
  unfold create_bootstrap_dataframe, check_column_existence. split; [|split; [|split]].
  - intros ->. reflexivity.
  - intros -> ->. reflexivity.
  - intros Ho (o & Hin & Hnin).
    destruct (has_col f obs_col); [|reflexivity]. destruct (has_col f boot); [reflexivity|]. simpl bind.
    rewrite Ho. simpl bind. unfold ensure_resampled_obs_ids_in_df.
    replace (forallb (fun x => zmem x obs) resampled) with false; [reflexivity|]. symmetry.
    apply not_true_is_false. intros H. rewrite forallb_forall in H. apply Hnin, zmem_In, H, Hin.
  - intros Ho ->. destruct (has_col f obs_col); [|reflexivity]. destruct (has_col f boot); [reflexivity|]. simpl bind.
    rewrite Ho. reflexivity.
Qed.

(** The sampler's rows are accepted: with one choice per observation and at least one
    observation, each sampled row of ids yields a bootstrap table. *)
Theorem C56_samples_are_accepted f obs_col obs alts choice ns seed rng empty size ids gd boot s :
  well_formed f -> int_col f obs_col = Ok obs -> length obs = f_rows f -> has_col f boot = false ->
  length alts = length obs -> length choice = length obs -> seed <> SeedOther ->
  one_chosen_row obs choice -> obs <> [] ->
  create_cross_sectional_bootstrap_samples obs alts choice ns seed rng empty = Ok (size, ids) ->
  create_deepcopied_groupby_dict f obs_col = Ok gd -> (s < ns)%nat ->
  exists g, create_bootstrap_dataframe f obs_col (map (ids s) (seq 0 size)) gd boot = Ok g /\
    how_many (fun o => In o obs) size /\
    int_col g boot = Ok (map fst (sources obs (map (ids s) (seq 0 size)))).
Proof.
  intros Hwf Ho Hlen Hb Ha Hc Hseed Hone Hne Hs Hgd Hlt.
  destruct (C55_one_choice_per_observation obs alts choice ns seed rng empty Ha Hc Hseed Hone)
    as (size' & ids' & Hs' & Hsize & Hrow).
  rewrite Hs in Hs'. injection Hs' as <- <-.
  destruct (Hrow s Hlt) as [Hin _].
  destruct (C56_rows_are_copies f obs_col obs boot (map (ids s) (seq 0 size)) gd) as (g & H1 & _ & _ & H4 & _); auto.
  - intros E. destruct Hsize as (l & _ & Hl & El). destruct obs as [|o r]; [congruence|].
    assert (In o l) by (apply Hl; left; reflexivity).
    destruct size; [destruct l; [contradiction|discriminate]|discriminate].
  - intros o Ho'. apply in_map_iff in Ho'. destruct Ho' as (j & <- & Hj). apply in_seq in Hj. apply Hin. lia.
  - exists g. auto.
Qed.

Local Open Scope string_scope.

(** Observation 5 drawn twice, then observation 3; the rows of 5 are not adjacent. *)
Definition ex_frame : frame :=
  mkFrame 4 [("obs", [5; 3; 5; 3]%Z); ("choice", [1; 0; 0; 1]%Z)] [("x", [10; 20; 30; 40]%R)].
Example ex_bootstrap_table :
  well_formed ex_frame /\
  match create_deepcopied_groupby_dict ex_frame "obs" with
  | Ok gd => create_bootstrap_dataframe ex_frame "obs" [5; 5; 3]%Z gd "bootstrap_id"
  | Err e => Err e
  end = Ok (mkFrame 6
     [("obs", [5; 5; 5; 5; 3; 3]%Z); ("choice", [1; 0; 1; 0; 0; 1]%Z); ("bootstrap_id", [1; 1; 2; 2; 3; 3]%Z)]
     [("x", [10; 30; 10; 30; 20; 40]%R)]).
Proof.
  split; [|reflexivity]. unfold well_formed, ex_frame. simpl. split; intros c l.
  - destruct (String.eqb c "obs"); [intros H; injection H as <-; reflexivity|].
    destruct (String.eqb c "choice"); [intros H; injection H as <-; reflexivity|discriminate].
  - destruct (String.eqb c "x"); [intros H; injection H as <-; reflexivity|discriminate].
Qed.

Print Assumptions C56_rows_are_copies.
Print Assumptions C56_bootstrap_ids.
Print Assumptions C56_one_choice_inherited.
Print Assumptions C56_rejections.
Print Assumptions C56_samples_are_accepted.
