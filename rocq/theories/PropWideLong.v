(** Properties C10-C12: conversion between wide and long format. *)
From Coq Require Import String ZArith List Reals Lra Lia Arith Bool Permutation Sorted.
From Verif Require Import Res Vec Ids Mappings MappingFacts SpecLogit ChoiceFacts LongData ProbFacts Frame
  ChoiceTools WideLong PropMappings PropDesign.
Import ListNotations.

(** ** Specification *)

(** The (wide row, alternative) pairs a long table should contain, in order: for
    each wide row in order, the alternatives [alts] that are available to it. *)
Definition long_rows (n : nat) (available : nat -> Z -> bool) (alts : list Z) : list (nat * Z) :=
  flat_map (fun i => map (pair i) (filter (available i) alts)) (seq 0 n).

(** The availability column of alternative [a] is non-zero in wide row [i]. *)
Definition is_available (f : frame) (av : avail_dict) (i : nat) (a : Z) : bool :=
  match dict_get Z.eqb av a with
  | Some c => match assoc c (f_ints f) with Some col => negb (nth i col 0 =? 0)%Z | None => false end
  | None => false
  end.

(** The value of an alternative-specific variable, 0 where it has no column. *)
Definition alt_value (f : frame) (d : list (Z * string)) (i : nat) (a : Z) : R :=
  match dict_get Z.eqb d a with
  | Some c => match num_col f c with Ok col => nth i col 0%R | Err _ => 0%R end
  | None => 0%R
  end.

Definition binary_availability (f : frame) (av : avail_dict) : Prop :=
  forall a c col i, In (a, c) av -> int_col f c = Ok col -> (i < f_rows f)%nat ->
    nth i col 0%Z = 0%Z \/ nth i col 0%Z = 1%Z.

Definition alt_name_of (o : option string) : string :=
  match o with None => "alt_id"%string | Some s => s end.

(** ** List facts *)

Lemma combine_app_eq {A B} (l1 l2 : list A) (m1 m2 : list B) :
  length l1 = length m1 -> combine (l1 ++ l2) (m1 ++ m2) = combine l1 m1 ++ combine l2 m2.
Proof.
  revert m1. induction l1 as [|a l1 IH]; intros [|b m1] H; simpl in *; try lia; [reflexivity|].
  f_equal. apply IH. lia.
Qed.

Lemma filter_flat_map {A B} (p : B -> bool) (f : A -> list B) l :
  filter p (flat_map f l) = flat_map (fun a => filter p (f a)) l.
Proof. induction l as [|a l IH]; simpl; [reflexivity|]. rewrite filter_app, IH. reflexivity. Qed.

Lemma map_flat_map {A B C} (g : B -> C) (f : A -> list B) l :
  map g (flat_map f l) = flat_map (fun a => map g (f a)) l.
Proof. induction l as [|a l IH]; simpl; [reflexivity|]. rewrite map_app, IH. reflexivity. Qed.

Lemma flat_map_ext_in {A B} (f g : A -> list B) l :
  (forall a, In a l -> f a = g a) -> flat_map f l = flat_map g l.
Proof.
  induction l as [|a l IH]; intros H; simpl; [reflexivity|].
  rewrite H by (left; reflexivity). rewrite IH by (intros; apply H; right; assumption). reflexivity.
Qed.

Lemma ravel_combine {A B} n m (p : nat -> nat -> A) (g : nat -> nat -> B) :
  combine (ravel n m p) (ravel n m g) = ravel n m (fun i j => (p i j, g i j)).
Proof.
  unfold ravel. generalize (seq 0 n). intros l. induction l as [|i l IH]; simpl; [reflexivity|].
  rewrite combine_app_eq by (rewrite !map_length; reflexivity). rewrite IH. f_equal.
  generalize (seq 0 m). intros q. induction q as [|j q IHq]; simpl; [reflexivity|]. rewrite IHq. reflexivity.
Qed.

Lemma select_ravel {A} n m (p : nat -> nat -> bool) (g : nat -> nat -> A) :
  select (ravel n m p) (ravel n m g) =
  flat_map (fun i => map (g i) (filter (p i) (seq 0 m))) (seq 0 n).
Proof.
  unfold select. rewrite ravel_combine. unfold ravel. rewrite filter_flat_map, map_flat_map.
  apply flat_map_ext_in. intros i _. rewrite map_filter_swap, map_map. reflexivity.
Qed.

Lemma nth_map_seq {A} (g : nat -> A) n k d : (k < n)%nat -> nth k (map g (seq 0 n)) d = g k.
Proof.
  intros Hk. rewrite (nth_indep _ d (g 0%nat)) by (rewrite map_length, seq_length; exact Hk).
  rewrite map_nth, seq_nth by exact Hk. reflexivity.
Qed.

Lemma list_as_nth (l : list Z) : l = map (fun j => nth j l 0%Z) (seq 0 (length l)).
Proof.
  apply (nth_ext _ _ 0%Z 0%Z); [rewrite map_length, seq_length; reflexivity|].
  intros k Hk. rewrite nth_map_seq by exact Hk. reflexivity.
Qed.

Lemma select_long_rows {A} n m alts (p : nat -> nat -> bool) (avail : nat -> Z -> bool)
    (g : nat -> nat -> A) (F : nat * Z -> A) :
  m = length alts ->
  (forall i j, (i < n)%nat -> (j < m)%nat -> p i j = avail i (nth j alts 0%Z)) ->
  (forall i j, (i < n)%nat -> (j < m)%nat -> p i j = true -> g i j = F (i, nth j alts 0%Z)) ->
  select (ravel n m p) (ravel n m g) = map F (long_rows n avail alts).
Proof.
  intros -> Hp Hg. rewrite select_ravel. unfold long_rows. rewrite map_flat_map.
  apply flat_map_ext_in. intros i Hi. apply in_seq in Hi.
  rewrite map_map. rewrite (list_as_nth alts) at 2. rewrite map_filter_swap, map_map.
  rewrite (filter_ext_in (p i) (fun j => avail i (nth j alts 0%Z))).
  - apply map_ext_in. intros j Hj. apply filter_In in Hj. destruct Hj as [Hj E]. apply in_seq in Hj.
    apply Hg; [lia|lia|]. rewrite Hp by lia. exact E.
  - intros j Hj. apply in_seq in Hj. apply Hp; lia.
Qed.

Lemma dict_get_NoDup {V} (d : list (Z * V)) k v :
  NoDup (map fst d) -> In (k, v) d -> dict_get Z.eqb d k = Some v.
Proof.
  induction d as [|[k' v'] r IH]; simpl; [tauto|]. intros Hn [E|Hin].
  - injection E as -> ->. rewrite Z.eqb_refl. reflexivity.
  - inversion Hn; subst. destruct (Z.eqb_spec k k') as [->|N]; [|auto].
    exfalso. apply H1. apply in_map_iff. exists (k', v). auto.
Qed.

Lemma has_dup_names_spec l : has_dup_names l = false -> NoDup l.
Proof.
  assert (M : forall s l, str_mem s l = false -> ~ In s l).
  { intros s. induction l0 as [|x r IH]; simpl; [tauto|]. intros H. apply orb_false_iff in H. destruct H as [H1 H2].
    intros [E|E]; [|apply IH; assumption]. subst. rewrite String.eqb_refl in H1. discriminate. }
  induction l as [|x r IH]; simpl; [constructor|]. intros H. apply orb_false_iff in H. destruct H as [H1 H2].
  constructor; [apply M; exact H1|apply IH; exact H2].
Qed.

Lemma mapM_nth {A B} (g : A -> Res B) l bs j da db :
  mapM g l = Ok bs -> (j < length l)%nat -> length bs = length l /\ g (nth j l da) = Ok (nth j bs db).
Proof.
  intros H Hj. apply mapM_ok in H. split; [symmetry; exact (Forall2_len H)|].
  revert j Hj. induction H as [|a b l bs E H IH]; intros j Hj; simpl in Hj; [lia|].
  destruct j as [|j]; simpl; [exact E|apply IH; lia].
Qed.

Lemma assoc_combine {A} (keys : list string) (vals : list A) k j d :
  NoDup keys -> length vals = length keys -> (j < length keys)%nat -> nth j keys ""%string = k ->
  assoc k (combine keys vals) = Some (nth j vals d).
Proof.
  intros Hn HL Hj E. apply assoc_NoDup.
  - assert (M : map fst (combine keys vals) = keys).
    { clear -HL. revert vals HL. induction keys as [|a r IH]; intros [|b vals] H; simpl in *; try lia; [reflexivity|].
      f_equal. apply IH. lia. }
    rewrite M. exact Hn.
  - rewrite <- E, <- combine_nth by lia. apply nth_In. rewrite combine_length. lia.
Qed.

Lemma assoc_app {A} k (l1 l2 : list (string * A)) :
  assoc k (l1 ++ l2) = match assoc k l1 with Some v => Some v | None => assoc k l2 end.
Proof.
  induction l1 as [|[k' v] r IH]; simpl; [reflexivity|]. destruct (String.eqb k k'); auto.
Qed.

Lemma assoc_none {A} k (keys : list string) (vals : list A) : ~ In k keys -> assoc k (combine keys vals) = None.
Proof.
  revert vals. induction keys as [|a r IH]; intros vals H; [reflexivity|]. destruct vals as [|b vals]; [reflexivity|].
  simpl. destruct (String.eqb_spec k a) as [->|N]; [exfalso; apply H; left; reflexivity|].
  apply IH. intros Hin. apply H. right. exact Hin.
Qed.

Lemma NoDup_app_parts {A} (l m : list A) :
  NoDup (l ++ m) -> NoDup l /\ NoDup m /\ forall x, In x l -> ~ In x m.
Proof.
  induction l as [|a l IH]; simpl; intros H.
  - split; [constructor|]. split; [exact H|tauto].
  - inversion H; subst. destruct (IH H3) as (H4 & H5 & H6). split.
    + constructor; [|exact H4]. intros Hin. apply H2. apply in_or_app. left. exact Hin.
    + split; [exact H5|]. intros x [->|Hx]; [|auto]. intros Hm. apply H2. apply in_or_app. right. exact Hm.
Qed.

(** ** C10 *)

Section WideToLong.
  Variables (f : frame) (ind_vars : list string) (asv : alt_spec_dict) (av : avail_dict)
    (obs_col choice_col : string) (new_alt : option string) (out : frame) (obs choice : list Z).
  Hypothesis Hwf : well_formed f.
  Hypothesis Hobs : int_col f obs_col = Ok obs.
  Hypothesis Hch : int_col f choice_col = Ok choice.
  Hypothesis Hconv : convert_wide_to_long f ind_vars asv av obs_col choice_col new_alt = Ok out.

  (** What the validators have established. *)
  Lemma w2l_inv :
    length obs = f_rows f /\ length choice = f_rows f /\
    NoDup obs /\
    (forall x, In x (map fst av) <-> In x choice) /\
    (forall i, (i < f_rows f)%nat -> is_available f av i (nth i choice 0%Z) = true) /\
    (exists avail_cols ind_cols alt_cols,
       mapM (int_col f) (map snd av) = Ok avail_cols /\
       mapM (num_col f) ind_vars = Ok ind_cols /\
       mapM (fun kv => alt_spec_cols f (np_unique choice) (snd kv)) asv = Ok alt_cols /\
       length (np_unique choice) = length avail_cols /\
       NoDup ([obs_col; alt_name_of new_alt; choice_col] ++ ind_vars ++ map fst asv) /\
       let n := f_rows f in let m := length avail_cols in
       let A := fun i j => nth i (nth j avail_cols []) 0%Z in
       let cond := ravel n m (fun i j => negb (A i j =? 0)%Z) in
       out = mkFrame (length (select cond (ravel n m (fun i j => (A i j * nth i obs 0)%Z))))
         [(obs_col, select cond (ravel n m (fun i j => (A i j * nth i obs 0)%Z)));
          (alt_name_of new_alt, select cond (ravel n m (fun i j => (A i j * nth j (np_unique choice) 0)%Z)));
          (choice_col, select cond (ravel n m (fun i j => if (nth i choice 0 =? nth j (np_unique choice) 0)%Z then 1%Z else 0%Z)))]
         (combine ind_vars (map (select cond) (map (fun col => ravel n m (fun i j => (IZR (A i j) * nth i col 0)%R)) ind_cols)) ++
          combine (map fst asv) (map (select cond) (map (fun cols => ravel n m (fun i j => nth i (nth j cols []) 0%R)) alt_cols)))).
  Proof.
    unfold convert_wide_to_long in Hconv. pose proof Hconv as H.
    apply bind_ok in H. destruct H as (_ & _ & H).
    apply bind_ok in H. destruct H as (_ & _ & H).
    apply bind_ok in H. destruct H as (_ & _ & H).
    apply bind_ok in H. destruct H as (_ & _ & H).
    rewrite Hobs in H. cbn [bind] in H. rewrite Hch in H. cbn [bind] in H.
    apply bind_ok in H. destruct H as ([] & Hu & H).
    apply bind_ok in H. destruct H as ([] & Hall & H).
    apply bind_ok in H. destruct H as ([] & Hin & H).
    apply bind_ok in H. destruct H as (avail_cols & Hav & H).
    apply bind_ok in H. destruct H as ([] & Hea & H).
    assert (Lo : length obs = f_rows f).
    { unfold int_col in Hobs. destruct (assoc obs_col (f_ints f)) eqn:E; [|discriminate]. injection Hobs as <-.
      destruct Hwf as [H1 _]. eauto. }
    assert (Lc : length choice = f_rows f).
    { unfold int_col in Hch. destruct (assoc choice_col (f_ints f)) eqn:E; [|discriminate]. injection Hch as <-.
      destruct Hwf as [H1 _]. eauto. }
    assert (Hkeys : forall x, In x (map fst av) <-> In x choice).
    { unfold ensure_all_wide_alt_ids_are_chosen in Hall. unfold ensure_chosen_alternatives_are_in_user_alt_ids in Hin.
      destruct (forallb (fun a => zmem a (np_unique choice)) (map fst av)) eqn:E1; [|discriminate].
      destruct (forallb (fun c => zmem c (map fst av)) choice) eqn:E2; [|discriminate].
      rewrite forallb_forall in E1, E2. intros x. split; intros Hx.
      - apply np_unique_In, zmem_In. apply E1. exact Hx.
      - apply zmem_In. apply E2. exact Hx. }
    split; [exact Lo|]. split; [exact Lc|]. split.
    { unfold ensure_unique_obs_ids_in_wide_data in Hu. destruct (Nat.eqb_spec (length (np_unique obs)) (f_rows f)) as [E|]; [|discriminate].
      apply (NoDup_incl_NoDup (l := np_unique obs)).
      - apply np_unique_NoDup.
      - rewrite E, Lo. lia.
      - intros x Hx. apply np_unique_In. exact Hx. }
    split; [exact Hkeys|]. split.
    { intros i Hi. unfold ensure_each_wide_obs_chose_an_available_alternative in Hea.
      rewrite all_checks_ok, Forall_map, Forall_forall in Hea. specialize (Hea i). cbv beta in Hea.
      assert (Hs : In i (seq 0 (f_rows f))) by (apply in_seq; lia). specialize (Hea Hs).
      assert (Hc : In (nth i choice 0%Z) (map fst av)) by (apply Hkeys, nth_In; lia).
      unfold is_available. unfold avail_col in Hea.
      destruct (dict_get Z.eqb av (nth i choice 0%Z)) as [c|] eqn:Ed.
      - assert (Hcin : In (nth i choice 0%Z, c) av).
        { clear -Ed. induction av as [|[k v] r IH]; simpl in *; [discriminate|].
          destruct (Z.eqb_spec (nth i choice 0%Z) k) as [->|]; [injection Ed as ->; left; reflexivity|right; auto]. }
        apply mapM_ok in Hav.
        assert (Hcol : exists col, int_col f c = Ok col /\ In col avail_cols).
        { clear -Hav Hcin. remember (map snd av) as l eqn:El. revert av El Hcin.
          induction Hav as [|x col l cols E _ IH]; intros av El Hcin.
          - destruct av; [destruct Hcin|discriminate].
          - destruct av as [|[k v] r]; [discriminate|]. injection El as -> ->. destruct Hcin as [Eq|Hin].
            + injection Eq as -> ->. exists col. split; [exact E|left; reflexivity].
            + destruct (IH r eq_refl Hin) as (col' & E' & Hin'). exists col'. split; [exact E'|right; exact Hin']. }
        destruct Hcol as (col & Ecol & Hcolin). rewrite Ecol in Hea.
        unfold int_col in Ecol. destruct (assoc c (f_ints f)) as [col'|] eqn:Ea; [|discriminate]. injection Ecol as ->.
        destruct (Z.eqb_spec (nth i col 0%Z) 0%Z) as [E0|]; [|reflexivity].
        assert (Hex : existsb (fun col => (nth i col 0 =? 0)%Z) avail_cols = true).
        { apply existsb_exists. exists col. split; [exact Hcolin|]. rewrite E0. reflexivity. }
        rewrite Hex in Hea. cbn [bind] in Hea. rewrite E0 in Hea. discriminate.
      - exfalso. clear -Ed Hc. induction av as [|[k v] r IH]; simpl in *; [exact Hc|].
        destruct (Z.eqb_spec (nth i choice 0%Z) k) as [Eq|N]; [discriminate|]. destruct Hc as [E|Hc]; [congruence|auto]. }
    destruct (Nat.eqb_spec (length (np_unique choice)) (length avail_cols)) as [El|]; [|discriminate].
    cbn [negb] in H.
    apply bind_ok in H. destruct H as (ind_cols & Hi & H).
    apply bind_ok in H. destruct H as (alt_cols & Ha & H).
    match type of H with (if ?b then _ else _) = _ => destruct b eqn:Edup; [discriminate|] end.
    exists avail_cols, ind_cols, alt_cols. split; [exact Hav|]. split; [exact Hi|]. split; [exact Ha|].
    split; [exact El|]. split; [apply has_dup_names_spec; exact Edup|]. cbv zeta. injection H as <-. reflexivity.
  Qed.

  Hypothesis Hsorted : StronglySorted Z.lt (map fst av).
  Hypothesis Hbin : binary_availability f av.

  Definition the_rows : list (nat * Z) := long_rows (f_rows f) (is_available f av) (np_unique choice).

  Lemma keys_are_alts : map fst av = np_unique choice.
  Proof.
    destruct w2l_inv as (_ & _ & _ & Hk & _).
    apply strongly_lt_unique; [exact Hsorted|apply np_unique_sorted|].
    intros x. rewrite Hk, np_unique_In. tauto.
  Qed.

  (** The j-th availability column belongs to the j-th alternative. *)
  Lemma avail_entry avail_cols i j :
    mapM (int_col f) (map snd av) = Ok avail_cols -> (i < f_rows f)%nat -> (j < length avail_cols)%nat ->
    negb (nth i (nth j avail_cols []) 0 =? 0)%Z = is_available f av i (nth j (np_unique choice) 0%Z) /\
    (nth i (nth j avail_cols []) 0%Z = 0%Z \/ nth i (nth j avail_cols []) 0%Z = 1%Z).
  Proof.
    intros Hav Hi Hj.
    assert (L : length avail_cols = length av).
    { pose proof (mapM_ok _ _ _ Hav) as HF. apply Forall2_len in HF. rewrite map_length in HF. lia. }
    destruct (mapM_nth _ _ _ j ""%string [] Hav) as [_ Ej]; [rewrite map_length; lia|].
    rewrite <- keys_are_alts.
    change ""%string with (snd (0%Z, ""%string)) in Ej. rewrite map_nth in Ej.
    change 0%Z with (fst (0%Z, ""%string)) at 3. rewrite map_nth.
    assert (Hin : In (nth j av (0%Z, ""%string)) av) by (apply nth_In; lia).
    destruct (nth j av (0%Z, ""%string)) as [a c] eqn:E. cbn [fst snd] in *.
    split.
    - unfold is_available. rewrite (dict_get_NoDup _ _ _ (strongly_lt_NoDup _ Hsorted) Hin).
      unfold int_col in Ej. destruct (assoc c (f_ints f)) as [col|]; [|discriminate]. injection Ej as ->. reflexivity.
    - apply (Hbin a c); assumption.
  Qed.

  Lemma select_the_rows {A} avail_cols (g : nat -> nat -> A) (F : nat * Z -> A) :
    mapM (int_col f) (map snd av) = Ok avail_cols ->
    length (np_unique choice) = length avail_cols ->
    (forall i j, (i < f_rows f)%nat -> (j < length avail_cols)%nat ->
       nth i (nth j avail_cols []) 0%Z = 1%Z -> g i j = F (i, nth j (np_unique choice) 0%Z)) ->
    select (ravel (f_rows f) (length avail_cols) (fun i j => negb (nth i (nth j avail_cols []) 0 =? 0)%Z))
           (ravel (f_rows f) (length avail_cols) g) = map F the_rows.
  Proof.
    intros Hav El Hg. apply select_long_rows; [symmetry; exact El| |].
    - intros i j Hi Hj. apply (avail_entry avail_cols); assumption.
    - intros i j Hi Hj Hp. apply Hg; try assumption.
      destruct (avail_entry avail_cols i j Hav Hi Hj) as [_ [E|E]]; [|exact E].
      rewrite E in Hp. discriminate.
  Qed.

  Theorem C10_wide_to_long :
    (* one long row per (wide row, available alternative), in order *)
    f_rows out = length the_rows /\
    int_col out obs_col = Ok (map (fun r => nth (fst r) obs 0%Z) the_rows) /\
    int_col out (alt_name_of new_alt) = Ok (map snd the_rows) /\
    int_col out choice_col = Ok (map (fun r => if (nth (fst r) choice 0 =? snd r)%Z then 1%Z else 0%Z) the_rows) /\
    (forall v vals, In v ind_vars -> num_col f v = Ok vals ->
       num_col out v = Ok (map (fun r => nth (fst r) vals 0%R) the_rows)) /\
    (forall v d, In (v, d) asv ->
       num_col out v = Ok (map (fun r => alt_value f d (fst r) (snd r)) the_rows)).
  Proof.
    destruct w2l_inv as (Lo & Lc & Hnd & Hk & Hca & avail_cols & ind_cols & alt_cols & Hav & Hi & Ha & El & Hdup & E).
    cbv beta zeta in E.
    assert (Eobs : select (ravel (f_rows f) (length avail_cols) (fun i j => negb (nth i (nth j avail_cols []) 0 =? 0)%Z))
        (ravel (f_rows f) (length avail_cols) (fun i j => (nth i (nth j avail_cols []) 0 * nth i obs 0)%Z)) =
        map (fun r => nth (fst r) obs 0%Z) the_rows).
    { apply select_the_rows; try assumption. intros i j Hi' Hj' E1. rewrite E1. cbn [fst]. ring. }
    assert (Ealt : select (ravel (f_rows f) (length avail_cols) (fun i j => negb (nth i (nth j avail_cols []) 0 =? 0)%Z))
        (ravel (f_rows f) (length avail_cols) (fun i j => (nth i (nth j avail_cols []) 0 * nth j (np_unique choice) 0)%Z)) =
        map snd the_rows).
    { apply select_the_rows; try assumption. intros i j Hi' Hj' E1. rewrite E1. cbn [snd]. ring. }
    assert (Ech : select (ravel (f_rows f) (length avail_cols) (fun i j => negb (nth i (nth j avail_cols []) 0 =? 0)%Z))
        (ravel (f_rows f) (length avail_cols) (fun i j => if (nth i choice 0 =? nth j (np_unique choice) 0)%Z then 1%Z else 0%Z)) =
        map (fun r => if (nth (fst r) choice 0 =? snd r)%Z then 1%Z else 0%Z) the_rows).
    { apply select_the_rows; try assumption. intros i j Hi' Hj' E1. reflexivity. }
    rewrite Eobs, Ealt, Ech in E.
    pose proof Hdup as Hdup0. simpl in Hdup. rewrite NoDup_cons_iff in Hdup. destruct Hdup as [N1 Hdup].
    rewrite NoDup_cons_iff in Hdup. destruct Hdup as [N2 Hdup]. rewrite NoDup_cons_iff in Hdup. destruct Hdup as [N3 Hdup].
    apply NoDup_app_parts in Hdup. destruct Hdup as (NDi & NDa & Hdisj).
    assert (Li : length ind_cols = length ind_vars).
    { pose proof (mapM_ok _ _ _ Hi) as HF. apply Forall2_len in HF. lia. }
    assert (La : length alt_cols = length asv).
    { pose proof (mapM_ok _ _ _ Ha) as HF. apply Forall2_len in HF. lia. }
    split; [rewrite E; cbn [f_rows]; apply map_length|].
    split; [rewrite E; unfold int_col; cbn [f_ints assoc]; rewrite String.eqb_refl; reflexivity|].
    split.
    { rewrite E; unfold int_col; cbn [f_ints assoc].
      destruct (String.eqb_spec (alt_name_of new_alt) obs_col) as [Eq|_].
      { exfalso. apply N1. left. exact Eq. }
      rewrite String.eqb_refl. reflexivity. }
    split.
    { rewrite E; unfold int_col; cbn [f_ints assoc].
      destruct (String.eqb_spec choice_col obs_col) as [Eq|_].
      { exfalso. apply N1. right. left. exact Eq. }
      destruct (String.eqb_spec choice_col (alt_name_of new_alt)) as [Eq|_].
      { exfalso. apply N2. left. exact Eq. }
      rewrite String.eqb_refl. reflexivity. }
    split.
    - intros v vals Hv Hvals. destruct (In_nth _ _ ""%string Hv) as (j & Hj & Ej).
      destruct (mapM_nth _ _ _ j ""%string [] Hi Hj) as [_ Ecol]. rewrite Ej, Hvals in Ecol. injection Ecol as Ecol.
      rewrite E. unfold num_col. cbn [f_reals]. rewrite assoc_app.
      rewrite (assoc_combine _ _ _ j []); [|exact NDi|rewrite !map_length; exact Li|exact Hj|exact Ej].
      f_equal. rewrite map_map.
      set (G := fun x => select _ (ravel _ _ (fun i j0 => (IZR (nth i (nth j0 avail_cols []) 0%Z) * nth i x 0)%R))).
      rewrite (nth_indep _ [] (G [])) by (rewrite map_length; lia). rewrite map_nth. unfold G. rewrite <- Ecol.
      apply select_the_rows; try assumption. intros i j' Hi' Hj' E1. rewrite E1. cbn [fst]. ring.
    - intros v d Hvd. destruct (In_nth _ _ (""%string, []) Hvd) as (j & Hj & Ej).
      destruct (mapM_nth _ _ _ j (""%string, []) [] Ha Hj) as [_ Ecol]. rewrite Ej in Ecol. cbn [snd] in Ecol.
      assert (Hvin : In v (map fst asv)) by (apply in_map_iff; exists (v, d); auto).
      assert (Hnotin : ~ In v ind_vars).
      { intros Hin. apply (Hdisj v Hin Hvin). }
      rewrite E. unfold num_col. cbn [f_reals]. rewrite assoc_app. rewrite assoc_none by exact Hnotin.
      assert (Ejn : nth j (map fst asv) ""%string = v).
      { change ""%string with (fst (""%string, @nil (Z * string))). rewrite map_nth, Ej. reflexivity. }
      rewrite (assoc_combine _ _ _ j []); [|exact NDa|rewrite !map_length; exact La|rewrite map_length; exact Hj|exact Ejn].
      f_equal. rewrite map_map.
      set (G := fun x => select _ (ravel _ _ (fun i j0 => nth i (nth j0 x []) 0%R))).
      rewrite (nth_indep _ [] (G [])) by (rewrite map_length; lia). rewrite map_nth. unfold G.
      apply select_the_rows; try assumption. intros i j' Hi' Hj' E1. cbn [fst snd].
      unfold alt_spec_cols in Ecol.
      destruct (mapM_nth _ _ _ j' 0%Z [] Ecol) as [_ Ec]; [lia|]. unfold alt_value.
      destruct (dict_get Z.eqb d (nth j' (np_unique choice) 0%Z)) as [c|].
      + rewrite Ec. reflexivity.
      + injection Ec as <-. apply nth_repeat.
  Qed.
End WideToLong.

(** The rows are exactly the available pairs, each once. *)
Lemma long_rows_In n avail alts i a :
  In (i, a) (long_rows n avail alts) <-> (i < n)%nat /\ In a alts /\ avail i a = true.
Proof.
  unfold long_rows. rewrite in_flat_map. split.
  - intros (i' & Hi' & Hin). apply in_seq in Hi'. apply in_map_iff in Hin. destruct Hin as (a' & E & Ha).
    injection E as -> ->. apply filter_In in Ha. split; [lia|exact Ha].
  - intros (Hi & Ha & Hv). exists i. split; [apply in_seq; lia|]. apply in_map_iff. exists a.
    split; [reflexivity|]. apply filter_In. auto.
Qed.

Definition pair_lt (p q : nat * Z) : Prop := (fst p < fst q)%nat \/ (fst p = fst q /\ (snd p < snd q)%Z).

Lemma StronglySorted_app {A} (R : A -> A -> Prop) l m :
  StronglySorted R l -> StronglySorted R m -> (forall x y, In x l -> In y m -> R x y) -> StronglySorted R (l ++ m).
Proof.
  intros Hl Hm H. induction Hl as [|a l Hl IH Ha]; simpl; [exact Hm|]. constructor.
  - apply IH. intros; apply H; [right|]; assumption.
  - rewrite Forall_forall in *. intros x Hx. apply in_app_or in Hx. destruct Hx as [Hx|Hx]; [auto|].
    apply H; [left; reflexivity|exact Hx].
Qed.

(** They are in lexicographic order: by wide row, then by alternative. *)
Theorem C10_rows_are_ordered n avail alts :
  StronglySorted Z.lt alts -> StronglySorted pair_lt (long_rows n avail alts).
Proof.
  intros Ha. unfold long_rows. generalize 0%nat at 1. induction n as [|n IH]; intros k; simpl; [constructor|].
  apply StronglySorted_app.
  - eapply StronglySorted_map; [|apply StronglySorted_filter; exact Ha].
    intros x y _ _ Hxy. right. simpl. auto.
  - apply IH.
  - intros x y Hx Hy. apply in_map_iff in Hx. destruct Hx as (a & <- & _).
    apply in_flat_map in Hy. destruct Hy as (i & Hi & Hy). apply in_seq in Hi.
    apply in_map_iff in Hy. destruct Hy as (b & <- & _). left. simpl. lia.
Qed.

(** A concrete conversion. *)
Definition ex_wide : frame :=
  mkFrame 3
    [("obs"%string, [5; 6; 4]%Z); ("choice"%string, [1; 2; 1]%Z);
     ("av1"%string, [1; 1; 1]%Z); ("av2"%string, [0; 1; 1]%Z)]
    [("income"%string, [10; 20; 30]%R); ("cost1"%string, [1; 2; 3]%R)].
Definition ex_asv : alt_spec_dict := [("cost"%string, [(1%Z, "cost1"%string)])].

Lemma ex_wide_wf : well_formed ex_wide.
Proof.
  split; intros c l H; simpl in H.
  - do 4 (destruct (String.eqb c _) in H; [injection H as <-; reflexivity|]). discriminate.
  - do 2 (destruct (String.eqb c _) in H; [injection H as <-; reflexivity|]). discriminate.
Qed.

Definition ex_av : avail_dict := [(1%Z, "av1"%string); (2%Z, "av2"%string)].
Lemma ex_av_sorted : StronglySorted Z.lt (map fst ex_av).
Proof. repeat constructor. Qed.
Lemma ex_binary : binary_availability ex_wide ex_av.
Proof.
  intros a c col i [E|[E|[]]] Hc Hi; injection E as <- <-; injection Hc as <-; simpl in Hi;
    do 3 (destruct i as [|i]; [simpl; auto|]); lia.
Qed.
Example ex_wide_to_long : exists out,
  convert_wide_to_long ex_wide ["income"%string] ex_asv ex_av "obs" "choice" None = Ok out /\
  int_col out "obs" = Ok [5; 6; 6; 4; 4]%Z /\ int_col out "alt_id" = Ok [1; 1; 2; 1; 2]%Z /\
  int_col out "choice" = Ok [1; 0; 1; 1; 0]%Z.
Proof. eexists. split; [reflexivity|]. repeat split. Qed.

(** The hypothesis that the availability dictionary lists the alternatives in
    increasing order is necessary.  With the same data and the dictionary in the
    other order the call is accepted and observation 5, who only had alternative 1
    and chose it, comes out with the single row (alternative 2, not chosen). *)
Theorem C10_refuted_dictionary_order :
  exists f ind_vars asv av out,
    well_formed f /\ binary_availability f av /\ NoDup (map fst av) /\
    convert_wide_to_long f ind_vars asv av "obs" "choice" None = Ok out /\
    (* input: observation 5 chose alternative 1; its availability is 1, that of 2 is 0 *)
    int_col f "obs" = Ok [5; 6; 4]%Z /\ int_col f "choice" = Ok [1; 2; 1]%Z /\
    is_available f av 0 1 = true /\ is_available f av 0 2 = false /\
    (* output *)
    int_col out "obs" = Ok [5; 6; 6; 4; 4]%Z /\
    int_col out "alt_id" = Ok [2; 1; 2; 1; 2]%Z /\
    int_col out "choice" = Ok [0; 0; 1; 1; 0]%Z.
Proof.
  exists ex_wide, ["income"%string], ex_asv, [(2%Z, "av2"%string); (1%Z, "av1"%string)].
  eexists. split; [exact ex_wide_wf|]. split.
  { intros a c col i [E|[E|[]]] Hc Hi; injection E as <- <-; injection Hc as <-; simpl in Hi;
    do 3 (destruct i as [|i]; [simpl; auto|]); lia. }
  split.
  { simpl. constructor; [simpl; intros [E|[]]; discriminate|]. constructor; [simpl; tauto|constructor]. }
  split; [reflexivity|]. repeat split.
Qed.

(** ** C11: long to wide *)

Lemma nth_StronglySorted {A} (R : A -> A -> Prop) l d :
  (forall a b, (a < b)%nat -> (b < length l)%nat -> R (nth a l d) (nth b l d)) -> StronglySorted R l.
Proof.
  induction l as [|x r IH]; intros H; constructor.
  - apply IH. intros a b Hab Hb. apply (H (S a) (S b)); simpl; lia.
  - rewrite Forall_forall. intros y Hy. destruct (In_nth _ _ d Hy) as (k & Hk & E).
    specialize (H 0%nat (S k)). simpl in H. rewrite E in H. apply H; lia.
Qed.

(** A list without repetitions that has the elements of [l] in order of first
    appearance is [first_seen l]. *)
Lemma in_order_unique l u :
  NoDup u -> (forall x, In x u <-> In x l) ->
  (forall a b, (a < b)%nat -> (b < length u)%nat -> (index_of (nth a u 0%Z) l < index_of (nth b u 0%Z) l)%nat) ->
  u = first_seen l.
Proof.
  intros Hn Hin Hord.
  assert (E : map (fun x => index_of x l) u = map (fun x => index_of x l) (first_seen l)).
  { apply sorted_perm_eq.
    - apply StronglySorted_map with (R := fun x y => (index_of x l < index_of y l)%nat); [intros; lia|].
      apply (nth_StronglySorted _ _ 0%Z). exact Hord.
    - eapply StronglySorted_map; [|apply first_seen_sorted]. intros x y _ _ H. cbv beta in H. lia.
    - apply Permutation_map. apply NoDup_Permutation; [exact Hn|apply first_seen_NoDup|].
      intros x. rewrite first_seen_In. apply Hin. }
  apply (f_equal (map (fun k => nth k l 0%Z))) in E. rewrite !map_map in E.
  assert (G : forall v, (forall x, In x v -> In x l) -> map (fun x => nth (index_of x l) l 0%Z) v = v).
  { intros v Hv. rewrite <- (map_id v) at 2. apply map_ext_in. intros x Hx. apply nth_index_of. auto. }
  rewrite !G in E; [exact E| |].
  - intros x. apply first_seen_In.
  - intros x. apply Hin.
Qed.

Lemma index_of_le_row ids i : (i < length ids)%nat -> (index_of (nth i ids 0%Z) ids <= i)%nat.
Proof.
  intros Hi. destruct (Nat.le_gt_cases (index_of (nth i ids 0%Z) ids) i) as [|Hgt]; [assumption|].
  exfalso. apply (index_of_first _ _ i Hgt Hi). reflexivity.
Qed.

(** In contiguous data, of two rows of different observations the earlier row
    belongs to the observation that appears first. *)
Lemma contiguous_order ids i i' :
  contiguous ids -> (i < i')%nat -> (i' < length ids)%nat -> nth i ids 0%Z <> nth i' ids 0%Z ->
  (index_of (nth i ids 0%Z) ids < index_of (nth i' ids 0%Z) ids)%nat.
Proof.
  intros Hc Hlt Hl Hne.
  assert (Hi : In (nth i ids 0%Z) ids) by (apply nth_In; lia).
  assert (Hi' : In (nth i' ids 0%Z) ids) by (apply nth_In; lia).
  pose proof (nth_index_of _ _ 0%Z Hi) as E. pose proof (nth_index_of _ _ 0%Z Hi') as E'.
  pose proof (index_of_le_row ids i ltac:(lia)) as L. pose proof (index_of_le_row ids i' Hl) as L'.
  destruct (Nat.lt_trichotomy (index_of (nth i ids 0%Z) ids) (index_of (nth i' ids 0%Z) ids)) as [|[Eq|Hgt]]; [assumption| |].
  - exfalso. apply Hne. rewrite <- E, Eq. exact E'.
  - exfalso. apply Hne. rewrite <- E'. apply (Hc _ i i'); try lia.
Qed.

Lemma select_map {A B} (p : A -> bool) (g : nat -> A) (h : nat -> B) n :
  select (map p (map g (seq 0 n))) (map h (seq 0 n)) = map h (filter (fun i => p (g i)) (seq 0 n)).
Proof.
  unfold select. generalize (seq 0 n). intros l. rewrite map_map.
  induction l as [|i l IH]; simpl; [reflexivity|]. destruct (p (g i)); simpl; rewrite IH; reflexivity.
Qed.

Lemma seq_sorted k n : StronglySorted lt (seq k n).
Proof.
  revert k. induction n as [|n IH]; intros k; simpl; [constructor|]. constructor; [apply IH|].
  rewrite Forall_forall. intros x Hx. apply in_seq in Hx. lia.
Qed.

(** The chosen alternatives in row order, and the observations they belong to. *)
Lemma chosen_in_order obs alts choice :
  length choice = length obs -> length alts = length obs ->
  contiguous obs -> exactly_one_choice (mkLong obs alts (Some choice) None) ->
  length (select (map (fun c => (c =? 1)%Z) choice) alts) = length (first_seen obs) /\
  forall i, (i < length obs)%nat -> nth i choice 0%Z = 1%Z ->
    nth (index_of (nth i obs 0%Z) (first_seen obs)) (select (map (fun c => (c =? 1)%Z) choice) alts) 0%Z
    = nth i alts 0%Z.
Proof.
  intros Lc La Hcont (c & Ec & _ & Hex). injection Ec as <-. cbn [obs_ids] in Hex.
  set (rows := filter (fun i => (nth i choice 0 =? 1)%Z) (seq 0 (length obs))).
  assert (Esel : select (map (fun c => (c =? 1)%Z) choice) alts = map (fun i => nth i alts 0%Z) rows).
  { rewrite (list_as_nth choice) at 1. rewrite (list_as_nth alts) at 1. rewrite Lc, La. apply select_map. }
  assert (Hrow : forall i, In i rows <-> (i < length obs)%nat /\ nth i choice 0%Z = 1%Z).
  { intros i. unfold rows. rewrite filter_In, in_seq, Z.eqb_eq. intuition lia. }
  assert (Hsorted : StronglySorted lt rows).
  { apply StronglySorted_filter, seq_sorted. }
  assert (Huniq : forall i i', In i rows -> In i' rows -> nth i obs 0%Z = nth i' obs 0%Z -> i = i').
  { intros i i' H H' E. apply Hrow in H. apply Hrow in H'. destruct H as [H1 H2]. destruct H' as [H1' H2'].
    destruct (Hex (nth i obs 0%Z)) as (r & _ & _ & _ & Hu); [apply nth_In; exact H1|].
    rewrite (Hu i), (Hu i'); auto. }
  assert (Eobs : map (fun i => nth i obs 0%Z) rows = first_seen obs).
  { apply in_order_unique.
    - apply NoDup_map_inj_in; [exact Huniq|]. apply NoDup_filter, seq_NoDup.
    - intros x. split.
      + intros Hx. apply in_map_iff in Hx. destruct Hx as (i & <- & Hi). apply Hrow in Hi. apply nth_In. tauto.
      + intros Hx. destruct (Hex x Hx) as (i & Hi & E & C & _). apply in_map_iff. exists i. split; [exact E|].
        apply Hrow. auto.
    - rewrite map_length. intros a b Hab Hb.
      rewrite (nth_indep (map _ rows) 0%Z (nth 0%nat obs 0%Z)) by (rewrite map_length; lia).
      rewrite (nth_indep (map _ rows) 0%Z (nth 0%nat obs 0%Z)) by (rewrite map_length; lia).
      rewrite !(map_nth (fun i => nth i obs 0%Z)).
      pose proof (StronglySorted_nth _ _ 0%nat Hsorted a b Hab Hb) as Hlt.
      assert (Ra : In (nth a rows 0%nat) rows) by (apply nth_In; lia).
      assert (Rb : In (nth b rows 0%nat) rows) by (apply nth_In; lia).
      apply contiguous_order; [exact Hcont|exact Hlt|apply Hrow; exact Rb|].
      intros E. apply Huniq in E; auto. lia. }
  split.
  - rewrite Esel, map_length, <- Eobs, map_length. reflexivity.
  - intros i Hi Hc. rewrite Esel, <- Eobs.
    assert (Hir : In i rows) by (apply Hrow; auto).
    destruct (In_nth _ _ 0%nat Hir) as (k & Hk & Ek).
    assert (Eidx : index_of (nth i obs 0%Z) (map (fun i => nth i obs 0%Z) rows) = k).
    { rewrite <- Ek. rewrite <- (map_nth (fun i => nth i obs 0%Z)).
      rewrite (nth_indep _ (nth 0 obs 0%Z) 0%Z) by (rewrite map_length; exact Hk).
      apply index_of_nth; [rewrite Eobs; apply first_seen_NoDup|rewrite map_length; exact Hk]. }
    rewrite Eidx, (nth_indep _ 0%Z (nth 0 alts 0%Z)) by (rewrite map_length; exact Hk).
    rewrite (map_nth (fun i => nth i alts 0%Z)), Ek. reflexivity.
Qed.

(** drop_duplicates when the observation determines the row *)
Lemma drop_duplicates_In x l : In x (drop_duplicates l) <-> In x l.
Proof.
  induction l as [|y r IH]; simpl; [tauto|]. rewrite filter_In, IH.
  destruct (row_eq_dec x y) as [->|N]; intuition congruence.
Qed.

Lemma drop_duplicates_keys l :
  (forall x y, In x l -> In y l -> fst x = fst y -> x = y) ->
  map fst (drop_duplicates l) = first_seen (map fst l).
Proof.
  induction l as [|x r IH]; intros H; simpl; [reflexivity|]. f_equal.
  rewrite <- IH by (intros; apply H; try (right; assumption); assumption).
  rewrite map_filter_swap. f_equal. apply filter_ext_in. intros y Hy.
  apply (proj1 (drop_duplicates_In _ _)) in Hy. destruct (row_eq_dec y x) as [->|N]; [rewrite Z.eqb_refl; reflexivity|].
  destruct (Z.eqb_spec (fst y) (fst x)) as [E|]; [|reflexivity].
  exfalso. apply N. apply H; [right; exact Hy|left; reflexivity|exact E].
Qed.

Lemma pair_mem_In x l : pair_mem x l = true <-> In x l.
Proof.
  induction l as [|y r IH]; simpl; [split; [discriminate|tauto]|].
  rewrite orb_true_iff, andb_true_iff, !Z.eqb_eq, IH. destruct x, y; simpl. split.
  - intros [[-> ->]|H]; auto.
  - intros [E|H]; [injection E as -> ->; auto|auto].
Qed.

Lemma no_duplicate_records obs alts :
  check_dataframe_for_duplicate_records obs alts = Ok tt -> NoDup (combine obs alts).
Proof.
  unfold check_dataframe_for_duplicate_records. destruct (has_duplicates (combine obs alts)) eqn:E; [discriminate|].
  intros _. induction (combine obs alts) as [|x l IH]; [constructor|]. simpl in E. apply orb_false_iff in E.
  destruct E as [E1 E2]. constructor; [|apply IH; exact E2]. intros Hin. apply pair_mem_In in Hin. congruence.
Qed.

Lemma no_duplicate_rows obs alts i i' :
  NoDup (combine obs alts) -> length alts = length obs -> (i < length obs)%nat -> (i' < length obs)%nat ->
  nth i obs 0%Z = nth i' obs 0%Z -> nth i alts 0%Z = nth i' alts 0%Z -> i = i'.
Proof.
  intros Hn L Hi Hi' E1 E2. apply (proj1 (NoDup_nth (combine obs alts) (0, 0)%Z) Hn).
  - rewrite combine_length. lia.
  - rewrite combine_length. lia.
  - rewrite !combine_nth by lia. congruence.
Qed.

(** The two sparse products. *)
Lemma sumZ_R (g : nat -> Z) n : IZR (fold_right Z.add 0%Z (map g (seq 0 n))) = sumn n (fun i => IZR (g i)).
Proof.
  rewrite sum_Z_R, map_length, seq_length. apply sumn_ext. intros i Hi. rewrite nth_map_seq by exact Hi. reflexivity.
Qed.

Section Products.
  Variables (obs alts : list Z) (mp : mappings).
  Hypothesis HL : length alts = length obs.
  Hypothesis Hmp : create_long_form_mappings (mkLong obs alts None None) None = Ok mp.
  Hypothesis Hdup : NoDup (combine obs alts).
  Variables (o a : nat).
  Hypothesis Ho : (o < length (first_seen obs))%nat.
  Hypothesis Ha : (a < length (np_unique alts))%nat.

  Let here (i : nat) : bool :=
    ((nth i obs 0 =? nth o (first_seen obs) 0) && (nth i alts 0 =? nth a (np_unique alts) 0))%Z.

  Lemma sget_obs i : (i < length obs)%nat ->
    sget (rows_to_obs mp) i o = if (nth i obs 0 =? nth o (first_seen obs) 0)%Z then 1%Z else 0%Z.
  Proof.
    intros Hi. destruct (mappings_parts _ _ _ Hmp) as (-> & _). cbn [obs_ids].
    rewrite sget_mapping_iff; auto using first_seen_NoDup.
  Qed.
  Lemma sget_alt i : (i < length obs)%nat ->
    sget (rows_to_alts mp) i a = if (nth i alts 0 =? nth a (np_unique alts) 0)%Z then 1%Z else 0%Z.
  Proof.
    intros Hi. destruct (mappings_parts _ _ _ Hmp) as (_ & -> & _). cbn [alt_ids].
    rewrite sget_mapping_iff; auto using np_unique_NoDup. lia.
  Qed.

  Lemma entry_present i : (i < length obs)%nat ->
    nth i obs 0%Z = nth o (first_seen obs) 0%Z -> nth i alts 0%Z = nth a (np_unique alts) 0%Z ->
    obs_to_alt_entry mp (length obs) o a = 1%Z /\
    forall vals, obs_to_var_entry mp vals (length obs) o a = nth i vals 0%R.
  Proof.
    intros Hi E1 E2.
    assert (Hz : forall r, (r < length obs)%nat -> r <> i ->
      (sget (rows_to_obs mp) r o * sget (rows_to_alts mp) r a)%Z = 0%Z).
    { intros r Hr Hne. rewrite sget_obs, sget_alt by exact Hr.
      destruct (Z.eqb_spec (nth r obs 0%Z) (nth o (first_seen obs) 0%Z)) as [F1|]; [|reflexivity].
      destruct (Z.eqb_spec (nth r alts 0%Z) (nth a (np_unique alts) 0%Z)) as [F2|]; [|reflexivity].
      exfalso. apply Hne. apply (no_duplicate_rows obs alts); auto; congruence. }
    assert (Hone : sget (rows_to_obs mp) i o = 1%Z /\ sget (rows_to_alts mp) i a = 1%Z).
    { rewrite sget_obs, sget_alt by exact Hi. rewrite E1, E2, !Z.eqb_refl. auto. }
    split.
    - apply eq_IZR. unfold obs_to_alt_entry. rewrite sumZ_R.
      rewrite (sumn_ext _ _ (fun r => if (r =? i)%nat then 1%R else 0%R)).
      + rewrite (sumn_single _ i (fun _ => 1%R)) by exact Hi. reflexivity.
      + intros r Hr. destruct (Nat.eqb_spec r i) as [->|Hne].
        * destruct Hone as [-> ->]. reflexivity.
        * rewrite Hz by assumption. reflexivity.
    - intros vals. unfold obs_to_var_entry.
      rewrite (sumn_ext _ _ (fun r => if (r =? i)%nat then nth r vals 0%R else 0%R)).
      + rewrite (sumn_single _ i (fun r => nth r vals 0%R)) by exact Hi. reflexivity.
      + intros r Hr. rewrite <- Rmult_assoc, <- mult_IZR. destruct (Nat.eqb_spec r i) as [->|Hne].
        * destruct Hone as [-> ->]. simpl. ring.
        * rewrite Hz by assumption. ring.
  Qed.

  Lemma entry_absent :
    (forall i, (i < length obs)%nat -> nth i obs 0%Z = nth o (first_seen obs) 0%Z ->
       nth i alts 0%Z <> nth a (np_unique alts) 0%Z) ->
    obs_to_alt_entry mp (length obs) o a = 0%Z.
  Proof.
    intros H. apply eq_IZR. unfold obs_to_alt_entry. rewrite sumZ_R. apply sumn_eq0. intros r Hr.
    rewrite sget_obs, sget_alt by exact Hr.
    destruct (Z.eqb_spec (nth r obs 0%Z) (nth o (first_seen obs) 0%Z)) as [F1|]; [|reflexivity].
    destruct (Z.eqb_spec (nth r alts 0%Z) (nth a (np_unique alts) 0%Z)) as [F2|]; [|reflexivity].
    exfalso. apply (H r Hr F1 F2).
  Qed.
End Products.

(** Individual variables have one value per observation. *)
Definition constant_within_observation (obs : list Z) (vals : list R) : Prop :=
  forall i i', (i < length obs)%nat -> (i' < length obs)%nat ->
    nth i obs 0%Z = nth i' obs 0%Z -> nth i vals 0%R = nth i' vals 0%R.

(** The alternatives a variable has wide columns for. *)
Definition wide_alts (alts : list Z) (subset : list (string * list Z)) (v : string) : list Z :=
  match assoc v subset with
  | Some ids => filter (fun a => zmem a ids) (np_unique alts)
  | None => np_unique alts
  end.

Section LongToWide.
  Variables (f : frame) (ind_vars alt_vars : list string) (subset : list (string * list Z))
    (obs_col alt_col choice_col : string) (w : wide) (obs alts choice : list Z).
  Hypothesis Hwf : well_formed f.
  Hypothesis Hobs : int_col f obs_col = Ok obs.
  Hypothesis Halt : int_col f alt_col = Ok alts.
  Hypothesis Hch : int_col f choice_col = Ok choice.

  Let lengths : length obs = f_rows f /\ length alts = length obs /\ length choice = length obs.
  Proof.
    assert (G : forall c l, int_col f c = Ok l -> length l = f_rows f).
    { intros c l H. unfold int_col in H. destruct (assoc c (f_ints f)) eqn:E; [|discriminate]. injection H as <-.
      destruct Hwf as [H1 _]. eauto. }
    rewrite (G _ _ Hobs), (G _ _ Halt), (G _ _ Hch). auto.
  Qed.

  Definition df_rows (ind_cols : list (list R)) : list (Z * list R) :=
    map (fun i => (nth i obs 0%Z, map (fun c => nth i c 0%R) ind_cols)) (seq 0 (f_rows f)).

  Lemma df_rows_determined ind_cols :
    mapM (num_col f) ind_vars = Ok ind_cols ->
    (forall v vals, In v ind_vars -> num_col f v = Ok vals -> constant_within_observation obs vals) ->
    forall x y, In x (df_rows ind_cols) -> In y (df_rows ind_cols) -> fst x = fst y -> x = y.
  Proof.
    intros Hi Hconst x y Hx Hy E. destruct lengths as (Lo & _).
    apply in_map_iff in Hx. destruct Hx as (i & <- & Hx). apply in_seq in Hx.
    apply in_map_iff in Hy. destruct Hy as (j & <- & Hy). apply in_seq in Hy.
    cbn [fst] in E. rewrite E. f_equal. apply map_ext_in. intros c Hc.
    apply mapM_ok in Hi. clear -Hi Hc Hconst E Hx Hy Lo.
    induction Hi as [|v vals l cols Ev _ IH]; [destruct Hc|]. destruct Hc as [<-|Hc].
    - apply (Hconst v vals); [left; reflexivity|exact Ev|lia|lia|exact E].
    - apply IH; [|exact Hc]. intros v' vals' Hin. apply Hconst. right. exact Hin.
  Qed.

  Lemma df_rows_fst ind_cols : map fst (df_rows ind_cols) = obs.
  Proof.
    unfold df_rows. rewrite map_map. cbn [fst]. destruct lengths as (<- & _). symmetry. apply list_as_nth.
  Qed.

  Section Accepted.
  Hypothesis Hconv : convert_long_to_wide f ind_vars alt_vars subset obs_col alt_col choice_col = Ok w.

  Lemma l2w_inv :
    NoDup (combine obs alts) /\
    exists ind_cols mp dfs,
      mapM (num_col f) ind_vars = Ok ind_cols /\
      create_long_form_mappings (mkLong obs alts None None) None = Ok mp /\
      s_cols (rows_to_obs mp) = length (first_seen obs) /\
      w_obs w = map fst (drop_duplicates (df_rows ind_cols)) /\
      w_choice w = select (map (fun c => (c =? 1)%Z) choice) alts /\
      w_avail w = map (fun a => (nth a (np_unique alts) 0%Z,
                        map (fun o => obs_to_alt_entry mp (length obs) o a) (seq 0 (length (first_seen obs)))))
                      (seq 0 (length (np_unique alts))) /\
      w_ind w = combine ind_vars (map (fun j => map (fun row => nth j (snd row) 0%R) (drop_duplicates (df_rows ind_cols)))
                                      (seq 0 (length ind_vars))) /\
      w_alt w = concat dfs /\
      Forall2 (fun col df => exists vals, num_col f col = Ok vals /\
         df = map (fun a => ((col, nth a (np_unique alts) 0%Z),
                     map (fun o => if (obs_to_alt_entry mp (length obs) o a =? 0)%Z then NullValue
                                   else Val (obs_to_var_entry mp vals (length obs) o a)) (seq 0 (length (first_seen obs)))))
                  (match assoc col subset with
                   | Some ids => filter (fun a => zmem (nth a (np_unique alts) 0%Z) ids) (seq 0 (length (np_unique alts)))
                   | None => seq 0 (length (np_unique alts))
                   end)) (alt_vars ++ map fst subset) dfs.
  Proof.
    destruct lengths as (Lo & La & Lc).
    pose proof Hconv as H. unfold convert_long_to_wide in H.
    do 4 (apply bind_ok in H; destruct H as (_ & _ & H)).
    rewrite Hobs in H. cbn [bind] in H. rewrite Halt in H. cbn [bind] in H. rewrite Hch in H. cbn [bind] in H.
    apply bind_ok in H. destruct H as ([] & Hd & H).
    apply bind_ok in H. destruct H as ([] & _ & H).
    apply bind_ok in H. destruct H as (ind_cols & Hi & H). cbv zeta in H.
    match type of H with (if ?b then _ else _) = _ => destruct b; [discriminate|] end.
    apply bind_ok in H. destruct H as (mp & Hmp & H).
    apply bind_ok in H. destruct H as (dfs & Hdf & H).
    assert (Es : s_cols (rows_to_obs mp) = length (first_seen obs)).
    { destruct (mappings_parts _ _ _ Hmp) as (-> & _). reflexivity. }
    split; [apply no_duplicate_records; exact Hd|].
    exists ind_cols, mp, dfs. split; [exact Hi|]. split; [exact Hmp|]. split; [exact Es|].
    rewrite Es, <- Lo in Hdf. rewrite Es in H. rewrite <- Lo in H.
    destruct dfs as [|df dfs]; [discriminate|]. injection H as <-. cbn [w_obs w_choice w_avail w_ind w_alt].
    unfold df_rows. rewrite <- Lo. split; [reflexivity|]. split; [reflexivity|]. split; [reflexivity|]. split; [reflexivity|].
    split; [reflexivity|].
    apply mapM_ok in Hdf. eapply Forall2_weaken; [|exact Hdf].
    intros col df' E. apply bind_ok in E. destruct E as (vals & Hv & E). injection E as <-. eauto.
  Qed.

  (** One wide row per observation in order of first appearance; its choice cell
      is the observation's chosen alternative and its individual variables are the
      observation's. *)
  Theorem C11_rows_choices_and_individual_variables :
    contiguous obs ->
    exactly_one_choice (mkLong obs alts (Some choice) None) ->
    (forall v vals, In v ind_vars -> num_col f v = Ok vals -> constant_within_observation obs vals) ->
    distinct_in_order_of_appearance obs (w_obs w) /\
    length (w_choice w) = length (w_obs w) /\
    map fst (w_ind w) = ind_vars /\
    (forall i j, (i < length obs)%nat -> (j < length (w_obs w))%nat -> nth j (w_obs w) 0%Z = nth i obs 0%Z ->
       (nth i choice 0%Z = 1%Z -> nth j (w_choice w) 0%Z = nth i alts 0%Z) /\
       (forall v col vals, In (v, col) (w_ind w) -> num_col f v = Ok vals ->
          length col = length (w_obs w) /\ nth j col 0%R = nth i vals 0%R)).
  Proof.
    intros Hcont Hone Hconst. destruct lengths as (Lo & La & Lc).
    destruct l2w_inv as (Hdup & ind_cols & mp & dfs & Hi & Hmp & Es & Eo & Ec & _ & Ei & _).
    assert (Ek : w_obs w = first_seen obs).
    { rewrite Eo, drop_duplicates_keys, df_rows_fst; [reflexivity|]. apply df_rows_determined; assumption. }
    destruct (chosen_in_order obs alts choice Lc La Hcont Hone) as [L1 L2].
    split; [rewrite Ek; apply first_seen_spec|]. split; [rewrite Ec, Ek; exact L1|]. split.
    { rewrite Ei. clear. generalize (drop_duplicates (df_rows ind_cols)) as D. intros D.
      assert (G : forall (l : list string) (m : list (list R)), length m = length l -> map fst (combine l m) = l).
      { induction l as [|a l IH]; intros [|b m] HL; simpl in *; try lia; [reflexivity|]. f_equal. apply IH. lia. }
      apply G. rewrite map_length, seq_length. reflexivity. }
    intros i j Hilt Hj E. rewrite Ek in Hj, E.
    assert (Ej : j = index_of (nth i obs 0%Z) (first_seen obs)).
    { rewrite <- E. symmetry. apply index_of_nth; [apply first_seen_NoDup|exact Hj]. }
    split.
    - intros C1. rewrite Ec, Ej. apply L2; assumption.
    - intros v col vals Hin Hv. rewrite Ei in Hin. apply (In_nth _ _ (""%string, [])) in Hin.
      destruct Hin as (k & Hk & Enth). rewrite combine_length, map_length, seq_length, Nat.min_id in Hk.
      rewrite combine_nth in Enth by (rewrite map_length, seq_length; reflexivity).
      rewrite nth_map_seq in Enth by exact Hk. injection Enth as Ev Ecol.
      set (D := drop_duplicates (df_rows ind_cols)) in *.
      split; [rewrite <- Ecol, map_length, Eo, map_length; reflexivity|].
      assert (HjD : (j < length D)%nat) by (rewrite <- (map_length fst), <- Eo, Ek; exact Hj).
      rewrite <- Ecol.
      rewrite (nth_indep _ 0%R ((fun row : Z * list R => nth k (snd row) 0%R) (0%Z, []))) by (rewrite map_length; exact HjD).
      rewrite (map_nth (fun row : Z * list R => nth k (snd row) 0%R)).
      (* the j-th kept row is the row of observation i *)
      assert (Erow : nth j D (0%Z, []) = (nth i obs 0%Z, map (fun c => nth i c 0%R) ind_cols)).
      { apply (df_rows_determined ind_cols Hi Hconst).
        - apply (proj1 (drop_duplicates_In _ _)). apply nth_In. exact HjD.
        - unfold df_rows. apply in_map_iff. exists i. split; [reflexivity|apply in_seq; lia].
        - cbn [fst]. rewrite <- (map_nth fst). cbn [fst]. rewrite <- Eo, Ek. exact E. }
      rewrite Erow. cbn [snd].
      destruct (mapM_nth _ _ _ k ""%string [] Hi Hk) as [Lk Ek2]. rewrite Ev, Hv in Ek2. injection Ek2 as Ek2.
      rewrite (nth_indep _ 0%R (nth i (@nil R) 0%R)) by (rewrite map_length; lia).
      rewrite (map_nth (fun c => nth i c 0%R)), <- Ek2. reflexivity.
  Qed.

  (** Availability: 1 exactly where the observation has a row for the alternative. *)
  Theorem C11_availability :
    map fst (w_avail w) = np_unique alts /\
    forall a col, In (a, col) (w_avail w) ->
      length col = length (first_seen obs) /\
      forall j, (j < length (first_seen obs))%nat ->
        ((exists i, (i < length obs)%nat /\ nth i obs 0%Z = nth j (first_seen obs) 0%Z /\ nth i alts 0%Z = a) ->
           nth j col 0%Z = 1%Z) /\
        ((forall i, (i < length obs)%nat -> nth i obs 0%Z = nth j (first_seen obs) 0%Z -> nth i alts 0%Z <> a) ->
           nth j col 0%Z = 0%Z).
  Proof.
    destruct lengths as (Lo & La & Lc).
    destruct l2w_inv as (Hdup & ind_cols & mp & dfs & Hi & Hmp & Es & _ & _ & Ea & _).
    split.
    - rewrite Ea, map_map. cbn [fst]. symmetry. apply list_as_nth.
    - intros a col Hin. rewrite Ea in Hin. apply in_map_iff in Hin. destruct Hin as (k & E & Hk).
      apply in_seq in Hk. injection E as <- <-. rewrite map_length, seq_length. split; [reflexivity|].
      intros j Hj. rewrite nth_map_seq by exact Hj. split.
      + intros (i & Hlt & E1 & E2). apply (entry_present obs alts mp La Hmp Hdup j k Hj ltac:(lia) i Hlt E1 E2).
      + intros H. apply (entry_absent obs alts mp La Hmp j k Hj ltac:(lia) H).
  Qed.

  (** Alternative-specific columns. *)
  Theorem C11_alternative_specific_cells :
    map fst (w_alt w) = flat_map (fun v => map (pair v) (wide_alts alts subset v)) (alt_vars ++ map fst subset) /\
    forall v a col vals, In ((v, a), col) (w_alt w) -> num_col f v = Ok vals ->
      length col = length (first_seen obs) /\
      forall j, (j < length (first_seen obs))%nat ->
        (forall i, (i < length obs)%nat -> nth i obs 0%Z = nth j (first_seen obs) 0%Z -> nth i alts 0%Z = a ->
           nth j col NullValue = Val (nth i vals 0%R)) /\
        ((forall i, (i < length obs)%nat -> nth i obs 0%Z = nth j (first_seen obs) 0%Z -> nth i alts 0%Z <> a) ->
           nth j col NullValue = NullValue).
  Proof.
    destruct lengths as (Lo & La & Lc).
    destruct l2w_inv as (Hdup & ind_cols & mp & dfs & Hi & Hmp & Es & _ & _ & _ & _ & Ed & HF).
    rewrite Ed. clear Ed. split.
    - induction HF as [|col df l dfs (vals & _ & ->) _ IH]; [reflexivity|]. cbn [concat flat_map].
      rewrite map_app, IH. f_equal. rewrite map_map. cbn [fst]. unfold wide_alts.
      destruct (assoc col subset) as [ids|].
      + symmetry. rewrite (list_as_nth (np_unique alts)) at 1. rewrite map_filter_swap, map_map. reflexivity.
      + symmetry. rewrite (list_as_nth (np_unique alts)) at 1. rewrite map_map. reflexivity.
    - intros v a col vals Hin Hv. induction HF as [|c df l dfs (vals' & Hv' & ->) _ IH]; [destruct Hin|].
      cbn [concat] in Hin. apply in_app_or in Hin. destruct Hin as [Hin|Hin]; [|auto].
      apply in_map_iff in Hin. destruct Hin as (k & E & Hk). injection E as -> <- <-.
      rewrite Hv in Hv'. injection Hv' as <-.
      assert (Hk' : (k < length (np_unique alts))%nat).
      { destruct (assoc v subset); [apply filter_In in Hk; destruct Hk as [Hk _]|]; apply in_seq in Hk; lia. }
      rewrite map_length, seq_length. split; [reflexivity|]. intros j Hj. rewrite nth_map_seq by exact Hj. split.
      + intros i Hlt E1 E2. destruct (entry_present obs alts mp La Hmp Hdup j k Hj Hk' i Hlt E1 E2) as [-> Ev].
        rewrite Ev. reflexivity.
      + intros H. rewrite (entry_absent obs alts mp La Hmp j k Hj Hk' H). reflexivity.
  Qed.
  End Accepted.

  (** The conversion succeeds on well-formed data. *)
  Theorem C11_accepts_well_formed_data :
    (forall v, In v (ind_vars ++ alt_vars ++ map fst subset) -> has_col f v = true) ->
    alt_vars ++ map fst subset <> [] ->
    NoDup (combine obs alts) ->
    contiguous obs ->
    exactly_one_choice (mkLong obs alts (Some choice) None) ->
    (forall v vals, In v ind_vars -> num_col f v = Ok vals -> constant_within_observation obs vals) ->
    exists w', convert_long_to_wide f ind_vars alt_vars subset obs_col alt_col choice_col = Ok w'.
  Proof.
    intros Hcols Hne Hdup Hcont Hone Hconst. destruct lengths as (Lo & La & Lc).
    assert (Hint : forall c l, int_col f c = Ok l -> has_col f c = true).
    { intros c l H. unfold int_col in H. unfold has_col. destruct (assoc c (f_ints f)); [reflexivity|discriminate]. }
    assert (Hen : forall l, (forall v, In v l -> has_col f v = true) -> ensure_columns_are_in_dataframe l f = Ok tt).
    { intros l H. unfold ensure_columns_are_in_dataframe. rewrite (proj2 (forallb_forall _ _) H). reflexivity. }
    assert (Hnum : forall v, has_col f v = true -> exists vals, num_col f v = Ok vals).
    { intros v H. unfold has_col in H. unfold num_col. destruct (assoc v (f_reals f)); [eauto|].
      destruct (assoc v (f_ints f)); [eauto|discriminate]. }
    unfold convert_long_to_wide.
    rewrite (Hen ind_vars) by (intros; apply Hcols, in_or_app; left; assumption).
    rewrite (Hen alt_vars) by (intros; apply Hcols, in_or_app; right; apply in_or_app; left; assumption).
    rewrite (Hen (map fst subset)) by (intros; apply Hcols, in_or_app; right; apply in_or_app; right; assumption).
    rewrite (Hen [choice_col; obs_col; alt_col]) by (intros v [<-|[<-|[<-|[]]]]; eauto).
    rewrite Hobs, Halt, Hch. cbn [bind].
    assert (Ed : check_dataframe_for_duplicate_records obs alts = Ok tt).
    { unfold check_dataframe_for_duplicate_records. destruct (has_duplicates (combine obs alts)) eqn:E; [|reflexivity].
      exfalso. clear -E Hdup. induction (combine obs alts) as [|x l IH]; [discriminate|]. inversion Hdup; subst.
      simpl in E. apply orb_true_iff in E. destruct E as [E|E]; [apply pair_mem_In in E; auto|auto]. }
    rewrite Ed. rewrite (C06_one_choice_is_accepted obs alts choice None Lc Hone). cbn [bind].
    assert (Hmi : exists ind_cols, mapM (num_col f) ind_vars = Ok ind_cols).
    { assert (G : forall l, (forall v, In v l -> has_col f v = true) -> exists cols, mapM (num_col f) l = Ok cols).
      { induction l as [|v l IH]; intros H; simpl; [eauto|].
        destruct (Hnum v (H v (or_introl eq_refl))) as (vals & ->). cbn [bind].
        destruct IH as (cols & ->); [intros; apply H; right; assumption|]. cbn [bind]. eauto. }
      apply G. intros; apply Hcols, in_or_app; left; assumption. }
    destruct Hmi as (ind_cols & Hmi). rewrite Hmi. cbn [bind]. cbv zeta.
    fold (df_rows ind_cols).
    destruct (chosen_in_order obs alts choice Lc La Hcont Hone) as [L1 _].
    assert (L2 : length (drop_duplicates (df_rows ind_cols)) = length (first_seen obs)).
    { rewrite <- (map_length fst), drop_duplicates_keys, df_rows_fst; [reflexivity|]. apply df_rows_determined; assumption. }
    rewrite L1, L2, Nat.eqb_refl. cbn [negb].
    unfold create_long_form_mappings at 1. cbn [bind choices mix_ids].
    match goal with |- exists w', bind (mapM ?F ?L) _ = _ => assert (Hdf : exists dfs, mapM F L = Ok dfs /\ length dfs = length L) end.
    { assert (G : forall l, (forall v, In v l -> has_col f v = true) ->
        forall (h : string -> list R -> list ((string * Z) * list cell)),
        exists dfs, mapM (fun col => bind (num_col f col) (fun vals => Ok (h col vals))) l = Ok dfs /\ length dfs = length l).
      { induction l as [|v l IH]; intros H h; simpl; [eauto|].
        destruct (Hnum v (H v (or_introl eq_refl))) as (vals & ->). cbn [bind].
        destruct (IH ltac:(intros; apply H; right; assumption) h) as (dfs & -> & L). cbn [bind].
        exists (h v vals :: dfs). split; [reflexivity|]. simpl. lia. }
      eapply G. intros; apply Hcols, in_or_app; right; assumption. }
    destruct Hdf as (dfs & -> & L). cbn [bind]. destruct dfs as [|df dfs]; [|eauto].
    exfalso. apply Hne. apply length_zero_iff_nil. rewrite <- L. reflexivity.
  Qed.
End LongToWide.

(** A concrete conversion back, and the effect of non-contiguous rows. *)
Definition ex_long : frame :=
  mkFrame 4 [("obs"%string, [1; 1; 2; 2]%Z); ("alt"%string, [10; 20; 10; 20]%Z); ("choice"%string, [0; 1; 1; 0]%Z)]
            [("cost"%string, [5; 6; 7; 8]%R)].
Example ex_long_to_wide : exists w,
  convert_long_to_wide ex_long [] ["cost"%string] [] "obs" "alt" "choice" = Ok w /\
  w_obs w = [1; 2]%Z /\ w_choice w = [20; 10]%Z.
Proof.
  assert (Hwf : well_formed ex_long).
  { split; intros c l H; simpl in H.
    - do 3 (destruct (String.eqb c _) in H; [injection H as <-; reflexivity|]). discriminate.
    - destruct (String.eqb c _) in H; [injection H as <-; reflexivity|]. discriminate. }
  assert (Hone : exactly_one_choice (mkLong [1; 1; 2; 2]%Z [10; 20; 10; 20]%Z (Some [0; 1; 1; 0]%Z) None)).
  { exists [0; 1; 1; 0]%Z. split; [reflexivity|]. cbn [obs_ids]. split.
    - intros i Hi. simpl in Hi. do 4 (destruct i as [|i]; [simpl; auto|]). lia.
    - intros o Ho. simpl in Ho. destruct Ho as [<-|[<-|[<-|[<-|[]]]]].
      + exists 1%nat. repeat split; simpl; try lia. intros i Hi. do 4 (destruct i as [|i]; [simpl; try lia; auto|]). lia.
      + exists 1%nat. repeat split; simpl; try lia. intros i Hi. do 4 (destruct i as [|i]; [simpl; try lia; auto|]). lia.
      + exists 2%nat. repeat split; simpl; try lia. intros i Hi. do 4 (destruct i as [|i]; [simpl; try lia; auto|]). lia.
      + exists 2%nat. repeat split; simpl; try lia. intros i Hi. do 4 (destruct i as [|i]; [simpl; try lia; auto|]). lia. }
  assert (Hcont : contiguous [1; 1; 2; 2]%Z) by (apply C05_accepts_only_contiguous; reflexivity).
  destruct (C11_accepts_well_formed_data ex_long [] ["cost"%string] [] "obs" "alt" "choice"
    [1; 1; 2; 2]%Z [10; 20; 10; 20]%Z [0; 1; 1; 0]%Z Hwf eq_refl eq_refl eq_refl) as (w & Hw).
  - intros v [<-|[]]. reflexivity.
  - discriminate.
  - simpl. repeat constructor; simpl; intuition congruence.
  - exact Hcont.
  - exact Hone.
  - intros v vals [].
  - exists w. split; [exact Hw|].
    destruct (l2w_inv ex_long [] ["cost"%string] [] "obs" "alt" "choice" w _ _ _ Hwf eq_refl eq_refl eq_refl Hw)
      as (_ & ind_cols & mp & dfs & Hi & _ & _ & Eo & Ec & _).
    injection Hi as <-. rewrite Eo, Ec. split; [|reflexivity].
    rewrite drop_duplicates_keys; [reflexivity|].
    apply (df_rows_determined ex_long [] "obs" "alt" "choice" _ _ _ Hwf eq_refl eq_refl eq_refl []); [reflexivity|intros v vals []].
Qed.

(** Without contiguity the choice column is paired with the wrong observations:
    observation 1 chose alternative 20 and observation 2 chose 10, the result says
    the opposite. *)
Definition ex_interleaved : frame :=
  mkFrame 4 [("obs"%string, [1; 2; 1; 2]%Z); ("alt"%string, [10; 10; 20; 20]%Z); ("choice"%string, [0; 1; 1; 0]%Z)]
            [("cost"%string, [5; 6; 7; 8]%R)].
Theorem C11_refuted_interleaved_rows :
  exists f w obs alts choice,
    well_formed f /\ int_col f "obs" = Ok obs /\ int_col f "alt" = Ok alts /\ int_col f "choice" = Ok choice /\
    exactly_one_choice (mkLong obs alts (Some choice) None) /\
    convert_long_to_wide f [] ["cost"%string] [] "obs" "alt" "choice" = Ok w /\
    (* row 2 of the long table is observation 1's chosen row, with alternative 20 *)
    nth 2 obs 0%Z = 1%Z /\ nth 2 choice 0%Z = 1%Z /\ nth 2 alts 0%Z = 20%Z /\
    nth 0 (w_obs w) 0%Z = 1%Z /\ nth 0 (w_choice w) 0%Z = 10%Z.
Proof.
  assert (Hwf : well_formed ex_interleaved).
  { split; intros c l H; simpl in H.
    - do 3 (destruct (String.eqb c _) in H; [injection H as <-; reflexivity|]). discriminate.
    - destruct (String.eqb c _) in H; [injection H as <-; reflexivity|]. discriminate. }
  assert (Hd : forall x y, In x (df_rows ex_interleaved [1; 2; 1; 2]%Z []) -> In y (df_rows ex_interleaved [1; 2; 1; 2]%Z []) ->
     fst x = fst y -> x = y).
  { apply (df_rows_determined ex_interleaved [] "obs" "alt" "choice" _ _ _ Hwf eq_refl eq_refl eq_refl []);
      [reflexivity|intros v vals []]. }
  assert (L : length (drop_duplicates (df_rows ex_interleaved [1; 2; 1; 2]%Z [])) = 2%nat).
  { rewrite <- (map_length fst), drop_duplicates_keys by exact Hd. reflexivity. }
  assert (Hw : exists w, convert_long_to_wide ex_interleaved [] ["cost"%string] [] "obs" "alt" "choice" = Ok w).
  { unfold convert_long_to_wide. cbn -[drop_duplicates create_long_form_mappings obs_to_alt_entry obs_to_var_entry select].
    change (map (fun i => (nth i [1; 2; 1; 2]%Z 0%Z, @nil R)) [0; 1; 2; 3]%nat) with (df_rows ex_interleaved [1; 2; 1; 2]%Z []).
    match goal with |- context [drop_duplicates ?l] => change l with (df_rows ex_interleaved [1; 2; 1; 2]%Z []) end.
    rewrite L. cbn -[drop_duplicates obs_to_alt_entry obs_to_var_entry]. eexists. reflexivity. }
  destruct Hw as (w & Hw). exists ex_interleaved, w, [1; 2; 1; 2]%Z, [10; 10; 20; 20]%Z, [0; 1; 1; 0]%Z.
  split; [exact Hwf|]. split; [reflexivity|]. split; [reflexivity|]. split; [reflexivity|]. split.
  { exists [0; 1; 1; 0]%Z. split; [reflexivity|]. cbn [obs_ids]. split.
    - intros i Hi. simpl in Hi. do 4 (destruct i as [|i]; [simpl; auto|]). lia.
    - intros o Ho. simpl in Ho. destruct Ho as [<-|[<-|[<-|[<-|[]]]]].
      + exists 2%nat. repeat split; simpl; try lia. intros i Hi. do 4 (destruct i as [|i]; [simpl; try lia; auto|]). lia.
      + exists 1%nat. repeat split; simpl; try lia. intros i Hi. do 4 (destruct i as [|i]; [simpl; try lia; auto|]). lia.
      + exists 2%nat. repeat split; simpl; try lia. intros i Hi. do 4 (destruct i as [|i]; [simpl; try lia; auto|]). lia.
      + exists 1%nat. repeat split; simpl; try lia. intros i Hi. do 4 (destruct i as [|i]; [simpl; try lia; auto|]). lia. }
  split; [exact Hw|]. do 3 (split; [reflexivity|]).
  destruct (l2w_inv ex_interleaved [] ["cost"%string] [] "obs" "alt" "choice" w _ _ _ Hwf eq_refl eq_refl eq_refl Hw)
      as (_ & ind_cols & mp & dfs & Hi & _ & _ & Eo & Ec & _).
  injection Hi as <-. rewrite Eo, Ec. split; [|reflexivity].
  rewrite drop_duplicates_keys by exact Hd. reflexivity.
Qed.

(** ** C12: round trip *)

Lemma select_ravel_length {A B} n m p (g : nat -> nat -> A) (h : nat -> nat -> B) :
  length (select (ravel n m p) (ravel n m g)) = length (select (ravel n m p) (ravel n m h)).
Proof.
  rewrite !select_ravel. generalize (seq 0 n). intros l. induction l as [|i l IH]; simpl; [reflexivity|].
  rewrite !app_length, !map_length, IH. reflexivity.
Qed.

Lemma wide_to_long_well_formed f ind_vars asv av obs_col choice_col new_alt out obs choice :
  well_formed f -> int_col f obs_col = Ok obs -> int_col f choice_col = Ok choice ->
  convert_wide_to_long f ind_vars asv av obs_col choice_col new_alt = Ok out -> well_formed out.
Proof.
  intros Hwf Ho Hc Hconv.
  destruct (w2l_inv _ _ _ _ _ _ _ _ _ _ Hwf Ho Hc Hconv) as (_ & _ & _ & _ & _ & avail_cols & ind_cols & alt_cols & _ & _ & _ & _ & _ & E).
  cbv beta zeta in E. rewrite E. split; cbn [f_ints f_reals f_rows]; intros c l H.
  - apply assoc_In in H. simpl in H. destruct H as [H|[H|[H|[]]]]; injection H as <- <-; apply select_ravel_length.
  - rewrite assoc_app in H.
    assert (H' : In l (map (select (ravel (f_rows f) (length avail_cols) (fun i j => negb (nth i (nth j avail_cols []) 0 =? 0)%Z)))
        (map (fun col => ravel (f_rows f) (length avail_cols) (fun i j => (IZR (nth i (nth j avail_cols []) 0%Z) * nth i col 0)%R)) ind_cols)) \/
      In l (map (select (ravel (f_rows f) (length avail_cols) (fun i j => negb (nth i (nth j avail_cols []) 0 =? 0)%Z)))
        (map (fun cols => ravel (f_rows f) (length avail_cols) (fun i j => nth i (nth j cols []) 0%R)) alt_cols))).
    { match type of H with match ?x with _ => _ end = _ => destruct x as [l'|] eqn:E1 end.
      - injection H as ->. apply assoc_In, in_combine_r in E1. left. exact E1.
      - apply assoc_In, in_combine_r in H. right. exact H. }
    rewrite !map_map in H'. rewrite !in_map_iff in H'.
    destruct H' as [(x & <- & _)|(x & <- & _)]; apply select_ravel_length.
Qed.

Lemma nth_map_lt {A B} (g : A -> B) l k d d' : (k < length l)%nat -> nth k (map g l) d' = g (nth k l d).
Proof. intros Hk. rewrite (nth_indep _ d' (g d)) by (rewrite map_length; exact Hk). apply map_nth. Qed.

Theorem C12_round_trip f ind_vars asv av obs_col choice_col new_alt out obs choice :
  well_formed f -> StronglySorted Z.lt (map fst av) -> binary_availability f av ->
  int_col f obs_col = Ok obs -> int_col f choice_col = Ok choice ->
  convert_wide_to_long f ind_vars asv av obs_col choice_col new_alt = Ok out ->
  asv <> [] ->
  exists w,
    convert_long_to_wide out ind_vars (map fst asv) [] obs_col (alt_name_of new_alt) choice_col = Ok w /\
    w_obs w = obs /\
    w_choice w = choice /\
    map fst (w_avail w) = map fst av /\
    (forall a c col col', In (a, c) av -> int_col f c = Ok col -> In (a, col') (w_avail w) -> col' = col) /\
    map fst (w_ind w) = ind_vars /\
    (forall v vals vals', In v ind_vars -> num_col f v = Ok vals -> In (v, vals') (w_ind w) -> vals' = vals) /\
    (forall v d a col, In (v, d) asv -> In ((v, a), col) (w_alt w) ->
       length col = length obs /\
       forall j, (j < length obs)%nat ->
         nth j col NullValue = if is_available f av j a then Val (alt_value f d j a) else NullValue).
Proof.
  intros Hwf Hs Hb Ho Hc Hconv Hasv.
  destruct (w2l_inv _ _ _ _ _ _ _ _ _ _ Hwf Ho Hc Hconv) as (Lo & Lc & Hnd & Hkeys & Hca & avail_cols & ind_cols & alt_cols & Hav & Hi & Ha & El & Hdupn & _).
  destruct (C10_wide_to_long _ _ _ _ _ _ _ _ _ _ Hwf Ho Hc Hconv Hs Hb) as (Er & Eobs & Ealt & Ech & Eind & Easp).
  pose proof (wide_to_long_well_formed _ _ _ _ _ _ _ _ _ _ Hwf Ho Hc Hconv) as Wout.
  set (rows := the_rows f av choice) in *.
  assert (Ha2 : map fst av = np_unique choice) by exact (keys_are_alts _ _ _ _ _ _ _ _ _ _ Hwf Ho Hc Hconv Hs).
  assert (Hrow : forall i a, In (i, a) rows <-> (i < f_rows f)%nat /\ In a choice /\ is_available f av i a = true).
  { intros i a. unfold rows, the_rows. rewrite long_rows_In, np_unique_In. tauto. }
  assert (Hsrt : StronglySorted pair_lt rows) by (apply C10_rows_are_ordered, np_unique_sorted).
  set (r := fun k => nth k rows (0%nat, 0%Z)).
  assert (Hr : forall k, (k < length rows)%nat -> (fst (r k) < length obs)%nat).
  { intros k Hk. assert (Hin : In (r k) rows) by (apply nth_In; exact Hk).
    rewrite (surjective_pairing (r k)) in Hin. apply Hrow in Hin. lia. }
  assert (Hinj : forall k k', (k < length rows)%nat -> (k' < length rows)%nat -> r k = r k' -> k = k').
  { intros k k' Hk Hk' E. destruct (Nat.lt_trichotomy k k') as [H|[H|H]]; [|exact H|].
    - pose proof (StronglySorted_nth _ _ (0%nat, 0%Z) Hsrt k k' H Hk') as P. fold (r k) (r k') in P. rewrite E in P.
      destruct P; lia.
    - pose proof (StronglySorted_nth _ _ (0%nat, 0%Z) Hsrt k' k H Hk) as P. fold (r k) (r k') in P. rewrite E in P.
      destruct P; lia. }
  set (lo := map (fun r0 => nth (fst r0) obs 0%Z) rows) in *.
  set (la := map snd rows) in *.
  set (lc := map (fun r0 => if (nth (fst r0) choice 0 =? snd r0)%Z then 1%Z else 0%Z) rows) in *.
  assert (Llo : length lo = length rows) by apply map_length.
  assert (Lla : length la = length rows) by apply map_length.
  assert (Nlo : forall k, (k < length rows)%nat -> nth k lo 0%Z = nth (fst (r k)) obs 0%Z).
  { intros k Hk. unfold lo. rewrite (nth_map_lt _ _ _ (0%nat, 0%Z)) by exact Hk. reflexivity. }
  assert (Nla : forall k, (k < length rows)%nat -> nth k la 0%Z = snd (r k)).
  { intros k Hk. unfold la. rewrite (nth_map_lt _ _ _ (0%nat, 0%Z)) by exact Hk. reflexivity. }
  assert (Nlc : forall k, (k < length rows)%nat -> nth k lc 0%Z = if (nth (fst (r k)) choice 0 =? snd (r k))%Z then 1%Z else 0%Z).
  { intros k Hk. unfold lc. rewrite (nth_map_lt _ _ _ (0%nat, 0%Z)) by exact Hk. reflexivity. }
  assert (Hobs_inj : forall i i', (i < length obs)%nat -> (i' < length obs)%nat -> nth i obs 0%Z = nth i' obs 0%Z -> i = i').
  { intros i i' H1 H2 E. apply (proj1 (NoDup_nth obs 0%Z) Hnd); assumption. }
  assert (Hmono : forall k k', (k < k')%nat -> (k' < length rows)%nat -> (fst (r k) <= fst (r k'))%nat).
  { intros k k' H H'. pose proof (StronglySorted_nth _ _ (0%nat, 0%Z) Hsrt k k' H H') as P. destruct P; unfold r; lia. }
  assert (Hcont : contiguous lo).
  { intros i j k Hij Hjk Hk E. rewrite Llo in Hk. rewrite !Nlo in E by lia. rewrite !Nlo by lia.
    apply Hobs_inj in E; try (apply Hr; lia). f_equal.
    pose proof (Hmono i j ltac:(lia) ltac:(lia)). pose proof (Hmono j k ltac:(lia) ltac:(lia)). lia. }
  (* the row of the chosen alternative *)
  assert (Hchosen : forall i, (i < length obs)%nat -> exists k, (k < length rows)%nat /\ r k = (i, nth i choice 0%Z)).
  { intros i Hlt. assert (Hin : In (i, nth i choice 0%Z) rows).
    { apply Hrow. split; [lia|]. split; [apply nth_In; lia|apply Hca; lia]. }
    destruct (In_nth _ _ (0%nat, 0%Z) Hin) as (k & Hk & E). exists k. auto. }
  assert (Hone : exactly_one_choice (mkLong lo la (Some lc) None)).
  { exists lc. split; [reflexivity|]. cbn [obs_ids]. rewrite Llo. split.
    - intros k Hk. rewrite Nlc by exact Hk. destruct (_ =? _)%Z; auto.
    - intros o Hin. destruct (In_row _ _ Hin) as (k0 & Hk0 & E0). rewrite Llo in Hk0. rewrite Nlo in E0 by exact Hk0.
      destruct (Hchosen (fst (r k0)) (Hr k0 Hk0)) as (k & Hk & Ek). exists k. split; [exact Hk|].
      split; [rewrite Nlo, Ek by exact Hk; exact E0|]. split; [rewrite Nlc, Ek by exact Hk; cbn [fst snd]; rewrite Z.eqb_refl; reflexivity|].
      intros k' Hk' E' C'. rewrite Nlo in E' by exact Hk'. rewrite Nlc in C' by exact Hk'. apply Hinj; try assumption.
      rewrite <- E0 in E'. apply Hobs_inj in E'; try (apply Hr; assumption).
      destruct (Z.eqb_spec (nth (fst (r k')) choice 0%Z) (snd (r k'))) as [Es|]; [|discriminate].
      rewrite (surjective_pairing (r k')), <- Es, E', Ek. reflexivity. }
  assert (Hdup : NoDup (combine lo la)).
  { apply (NoDup_nth _ (0, 0)%Z). rewrite combine_length, Llo, Lla, Nat.min_id. intros k k' Hk Hk' E.
    rewrite !combine_nth in E by lia. injection E as E1 E2. rewrite !Nlo in E1 by assumption. rewrite !Nla in E2 by assumption.
    apply Hinj; try assumption. apply Hobs_inj in E1; try (apply Hr; assumption).
    rewrite (surjective_pairing (r k)), (surjective_pairing (r k')), E1, E2. reflexivity. }
  assert (Hfs : first_seen lo = obs).
  { symmetry. apply in_order_unique; [exact Hnd| |].
    - intros x. split.
      + intros Hx. destruct (In_row _ _ Hx) as (i & Hlt & <-). destruct (Hchosen i Hlt) as (k & Hk & Ek).
        replace (nth i obs 0%Z) with (nth k lo 0%Z) by (rewrite Nlo, Ek by exact Hk; reflexivity). apply nth_In. lia.
      + intros Hx. destruct (In_row _ _ Hx) as (k & Hk & <-). rewrite Llo in Hk. rewrite Nlo by exact Hk. apply nth_In, Hr. exact Hk.
    - intros a b Hab Hlt. destruct (Hchosen a ltac:(lia)) as (k & Hk & Ek). destruct (Hchosen b Hlt) as (k' & Hk' & Ek').
      assert (Ea : nth a obs 0%Z = nth k lo 0%Z) by (rewrite Nlo, Ek by exact Hk; reflexivity).
      assert (Eb : nth b obs 0%Z = nth k' lo 0%Z) by (rewrite Nlo, Ek' by exact Hk'; reflexivity).
      rewrite Ea, Eb. apply contiguous_order; [exact Hcont| |lia|].
      + destruct (Nat.lt_trichotomy k k') as [|[->|H]]; [assumption| |].
        * rewrite Ek in Ek'. injection Ek' as E1 _. lia.
        * pose proof (Hmono k' k H Hk) as P. rewrite Ek, Ek' in P. cbn [fst] in P. lia.
      + rewrite <- Ea, <- Eb. intros E. apply Hobs_inj in E; lia. }
  assert (Hnu : np_unique la = np_unique choice).
  { apply strongly_lt_unique; try apply np_unique_sorted. intros x. rewrite !np_unique_In. split.
    - intros Hx. destruct (In_row _ _ Hx) as (k & Hk & <-). rewrite Lla in Hk. rewrite Nla by exact Hk.
      assert (Hin : In (r k) rows) by (apply nth_In; exact Hk). rewrite (surjective_pairing (r k)) in Hin.
      apply Hrow in Hin. tauto.
    - intros Hx. destruct (In_row _ _ Hx) as (i & Hlt & <-). destruct (Hchosen i ltac:(lia)) as (k & Hk & Ek).
      replace (nth i choice 0%Z) with (nth k la 0%Z) by (rewrite Nla, Ek by exact Hk; reflexivity). apply nth_In. lia. }
  assert (Hindcol : forall v, In v ind_vars -> exists vals, num_col f v = Ok vals).
  { intros v Hv. destruct (In_nth _ _ ""%string Hv) as (j & Hj & Ej).
    destruct (mapM_nth _ _ _ j ""%string [] Hi Hj) as [_ E]. rewrite Ej in E. eauto. }
  assert (Hcst : forall v vals, In v ind_vars -> num_col out v = Ok vals -> constant_within_observation lo vals).
  { intros v vals Hv E. destruct (Hindcol v Hv) as (vals0 & E0). rewrite (Eind v vals0 Hv E0) in E. injection E as <-.
    intros k k' Hk Hk' Eq. rewrite Llo in Hk, Hk'. rewrite !Nlo in Eq by assumption.
    apply Hobs_inj in Eq; try (apply Hr; assumption).
    rewrite !(nth_map_lt _ _ _ (0%nat, 0%Z)) by assumption. fold (r k) (r k'). rewrite Eq. reflexivity. }
  assert (Hnc : forall v l, num_col out v = Ok l -> has_col out v = true).
  { intros v l H. unfold num_col in H. unfold has_col. destruct (assoc v (f_reals out)), (assoc v (f_ints out)); try reflexivity. discriminate. }
  destruct (C11_accepts_well_formed_data out ind_vars (map fst asv) [] obs_col (alt_name_of new_alt) choice_col lo la lc
              Wout Eobs Ealt Ech) as (w & Hw); try assumption.
  { intros v Hv. apply in_app_or in Hv. destruct Hv as [Hv|Hv].
    - destruct (Hindcol v Hv) as (vals & E). eapply Hnc. apply (Eind v vals Hv E).
    - rewrite app_nil_r in Hv. apply in_map_iff in Hv. destruct Hv as ([v' d] & <- & Hv). eapply Hnc. apply (Easp v' d Hv). }
  { rewrite app_nil_r. destruct asv; [congruence|discriminate]. }
  exists w. split; [exact Hw|].
  destruct (C11_rows_choices_and_individual_variables out ind_vars (map fst asv) [] obs_col (alt_name_of new_alt) choice_col w
              lo la lc Wout Eobs Ealt Ech Hw Hcont Hone Hcst) as (Dist & Lch & Ein & Hcells).
  assert (Eo : w_obs w = obs).
  { destruct (l2w_inv out ind_vars (map fst asv) [] obs_col (alt_name_of new_alt) choice_col w
      lo la lc Wout Eobs Ealt Ech Hw) as (_ & ic & _ & _ & Hic & _ & _ & E & _).
    rewrite E, drop_duplicates_keys.
    - rewrite (df_rows_fst out obs_col (alt_name_of new_alt) choice_col lo la lc); assumption.
    - eapply df_rows_determined; eauto. }
  split; [exact Eo|]. rewrite Eo in *. split.
  { apply (nth_ext _ _ 0%Z 0%Z); [lia|]. rewrite Lch. intros j Hj. destruct (Hchosen j Hj) as (k & Hk & Ek).
    destruct (Hcells k j) as [H1 _]; [lia|exact Hj|rewrite Nlo, Ek by exact Hk; reflexivity|].
    rewrite H1 by (rewrite Nlc, Ek by exact Hk; cbn [fst snd]; rewrite Z.eqb_refl; reflexivity).
    rewrite Nla, Ek by exact Hk. reflexivity. }
  destruct (C11_availability out ind_vars (map fst asv) [] obs_col (alt_name_of new_alt) choice_col w
              lo la lc Wout Eobs Ealt Ech Hw) as (Ea1 & Ea2).
  rewrite Hnu, <- Ha2 in Ea1. split; [exact Ea1|].
  (* when is there a long row for (wide row j, alternative a)? *)
  assert (Hav_row : forall j a, (j < length obs)%nat -> is_available f av j a = true -> In a choice ->
     exists k, (k < length lo)%nat /\ nth k lo 0%Z = nth j obs 0%Z /\ nth k la 0%Z = a /\ r k = (j, a)).
  { intros j a Hj Hva Hin. assert (Hjin : In (j, a) rows) by (apply Hrow; split; [lia|auto]).
    destruct (In_nth _ _ (0%nat, 0%Z) Hjin) as (k & Hk & E). exists k. rewrite Llo. split; [exact Hk|].
    fold (r k) in E. rewrite Nlo, Nla by exact Hk. rewrite E. auto. }
  assert (Hnot_row : forall j a, (j < length obs)%nat -> is_available f av j a = false ->
     forall k, (k < length lo)%nat -> nth k lo 0%Z = nth j obs 0%Z -> nth k la 0%Z <> a).
  { intros j a Hj Hva k Hk E1 E2. rewrite Llo in Hk. rewrite Nlo in E1 by exact Hk. rewrite Nla in E2 by exact Hk.
    apply Hobs_inj in E1; [|apply Hr; exact Hk|exact Hj].
    assert (Hin : In (r k) rows) by (apply nth_In; exact Hk). rewrite (surjective_pairing (r k)), E1, E2 in Hin.
    apply Hrow in Hin. destruct Hin as (_ & _ & Hin). congruence. }
  split.
  { intros a c col col' Hac Ecol Hin. destruct (Ea2 a col' Hin) as [Lcol Hcol]. rewrite Hfs in Lcol, Hcol.
    assert (Lcol0 : length col = f_rows f).
    { unfold int_col in Ecol. destruct (assoc c (f_ints f)) eqn:E; [|discriminate]. injection Ecol as <-. destruct Hwf as [H1 _]. eauto. }
    apply (nth_ext _ _ 0%Z 0%Z); [lia|]. rewrite Lcol. intros j Hj. destruct (Hcol j Hj) as [H1 H0].
    assert (Hina : In a choice) by (apply Hkeys, in_map_iff; exists (a, c); auto).
    assert (Eav : is_available f av j a = negb (nth j col 0 =? 0)%Z).
    { unfold is_available. rewrite (dict_get_NoDup _ _ _ (strongly_lt_NoDup _ Hs) Hac).
      unfold int_col in Ecol. destruct (assoc c (f_ints f)); [|discriminate]. injection Ecol as ->. reflexivity. }
    destruct (Hb a c col j Hac Ecol) as [E|E]; [lia| |]; rewrite E in Eav |- *.
    - apply H0. apply Hnot_row; assumption.
    - apply H1. destruct (Hav_row j a Hj Eav Hina) as (k & Hk & E1 & E2 & _). eauto. }
  split; [exact Ein|]. split.
  { intros v vals vals' Hv Evals Hin.
    pose proof (Eind v vals Hv Evals) as Eout. pose proof (num_col_length f v vals Hwf Evals) as Lv.
    assert (Hlen : length vals' = length obs).
    { destruct obs as [|o0 obs0] eqn:Eob.
      - destruct (l2w_inv out ind_vars (map fst asv) [] obs_col (alt_name_of new_alt) choice_col w
          lo la lc Wout Eobs Ealt Ech Hw) as (_ & ic & _ & _ & Hic & _ & _ & Eo2 & _ & _ & Ei2 & _).
        rewrite Ei2 in Hin. apply in_combine_r in Hin. apply in_map_iff in Hin. destruct Hin as (q & <- & _).
        rewrite map_length. rewrite Eo in Eo2. rewrite <- (map_length fst), <- Eo2. reflexivity.
      - rewrite <- Eob in *. assert (H0 : (0 < length obs)%nat) by (rewrite Eob; simpl; lia).
        destruct (Hchosen 0%nat H0) as (k & Hk & Ek).
        destruct (Hcells k 0%nat) as [_ H2]; [lia|exact H0|rewrite Nlo, Ek by exact Hk; reflexivity|].
        apply (H2 v vals' _ Hin Eout). }
    apply (nth_ext _ _ 0%R 0%R); [lia|]. rewrite Hlen. intros j Hj. destruct (Hchosen j Hj) as (k & Hk & Ek).
    destruct (Hcells k j) as [_ H2]; [lia|exact Hj|rewrite Nlo, Ek by exact Hk; reflexivity|].
    destruct (H2 v vals' _ Hin Eout) as [_ ->].
    rewrite (nth_map_lt _ _ _ (0%nat, 0%Z)) by exact Hk. fold (r k). rewrite Ek. reflexivity. }
  intros v d a col Hvd Hin.
  destruct (C11_alternative_specific_cells out ind_vars (map fst asv) [] obs_col (alt_name_of new_alt) choice_col w
              lo la lc Wout Eobs Ealt Ech Hw) as (El1 & El2).
  assert (Hina : In a choice).
  { assert (Hl : In (v, a) (map fst (w_alt w))) by (apply in_map_iff; exists ((v, a), col); auto).
    rewrite El1 in Hl. apply in_flat_map in Hl. destruct Hl as (v' & _ & Hl). apply in_map_iff in Hl.
    destruct Hl as (a' & E & Hl). injection E as -> ->. unfold wide_alts in Hl. cbn [assoc] in Hl.
    rewrite Hnu in Hl. apply np_unique_In. exact Hl. }
  destruct (El2 v a col _ Hin (Easp v d Hvd)) as [Lcol Hcol]. rewrite Hfs in Lcol, Hcol. split; [exact Lcol|].
  intros j Hj. destruct (Hcol j Hj) as [H1 H0]. destruct (is_available f av j a) eqn:Eav.
  - destruct (Hav_row j a Hj Eav Hina) as (k & Hk & E1 & E2 & Ek). rewrite (H1 k Hk E1 E2).
    rewrite (nth_map_lt _ _ _ (0%nat, 0%Z)) by (rewrite <- Llo; exact Hk). fold (r k). rewrite Ek. reflexivity.
  - apply H0. apply Hnot_row; assumption.
Qed.

Print Assumptions C10_wide_to_long.
Print Assumptions C10_rows_are_ordered.
Print Assumptions C10_refuted_dictionary_order.
Print Assumptions C11_rows_choices_and_individual_variables.
Print Assumptions C11_availability.
Print Assumptions C11_alternative_specific_cells.
Print Assumptions C11_accepts_well_formed_data.
Print Assumptions C11_refuted_interleaved_rows.
Print Assumptions C12_round_trip.
