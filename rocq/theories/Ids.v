(** Identifier columns: numpy's sort / unique / in1d on integers, association
    lists in place of dictionaries, and the facts about them.  Library material:
    the numpy primitives are modelled by their documented meaning. *)
From Coq Require Import ZArith List Lia Permutation Sorted Bool.
From Verif Require Import Vec.
Import ListNotations.

(** ** numpy primitives *)

(** Insert into a strictly increasing list, keeping it duplicate free. *)
Fixpoint zinsert (x : Z) (l : list Z) : list Z :=
  match l with
  | [] => [x]
  | y :: r => if (x <? y)%Z then x :: l else if (x =? y)%Z then l else y :: zinsert x r
  end.

(** np.unique: the sorted distinct values. (np.sort of it is itself.) *)
Definition np_unique (l : list Z) : list Z := fold_right zinsert [] l.

(** Position of the first occurrence (length of the list if absent). *)
Fixpoint index_of (x : Z) (l : list Z) : nat :=
  match l with
  | [] => 0
  | y :: r => if (x =? y)%Z then 0 else S (index_of x r)
  end.

(** np.unique(l, return_index=True)[1] *)
Definition np_unique_index (l : list Z) : list nat := map (fun x => index_of x l) (np_unique l).

Fixpoint ninsert (x : nat) (l : list nat) : list nat :=
  match l with
  | [] => [x]
  | y :: r => if (x <=? y)%nat then x :: l else y :: ninsert x r
  end.

(** np.sort on an integer array *)
Definition nsort (l : list nat) : list nat := fold_right ninsert [] l.

Definition zmem (x : Z) (l : list Z) : bool := existsb (Z.eqb x) l.

(** Spec: the distinct values in order of first appearance. *)
Fixpoint first_seen (l : list Z) : list Z :=
  match l with
  | [] => []
  | x :: r => x :: filter (fun y => negb (y =? x)%Z) (first_seen r)
  end.

(** ** Dictionaries: association lists in insertion order.
    [d[k] = v] replaces in place, or appends. *)
Section Dict.
  Context {K V : Type} (keqb : K -> K -> bool).

  Fixpoint dict_set (d : list (K * V)) (k : K) (v : V) : list (K * V) :=
    match d with
    | [] => [(k, v)]
    | (k', v') :: r => if keqb k k' then (k', v) :: r else (k', v') :: dict_set r k v
    end.

  Fixpoint dict_get (d : list (K * V)) (k : K) : option V :=
    match d with
    | [] => None
    | (k', v') :: r => if keqb k k' then Some v' else dict_get r k
    end.

  (** dict(pairs): insert one after the other *)
  Definition dict_of (pairs : list (K * V)) : list (K * V) :=
    fold_left (fun d kv => dict_set d (fst kv) (snd kv)) pairs [].
End Dict.

(** ** Facts *)

Lemma zmem_In x l : zmem x l = true <-> In x l.
Proof.
  unfold zmem. rewrite existsb_exists. split.
  - intros [y [Hy He]]. apply Z.eqb_eq in He. subst. exact Hy.
  - intros H. exists x. split; [exact H|apply Z.eqb_refl].
Qed.

Lemma zinsert_In x y l : In y (zinsert x l) <-> y = x \/ In y l.
Proof.
  induction l as [|z r IH]; simpl.
  - intuition.
  - destruct (Z.ltb_spec x z); simpl; [intuition|].
    destruct (Z.eqb_spec x z); simpl.
    + subst. intuition.
    + rewrite IH. intuition.
Qed.

Lemma np_unique_In x l : In x (np_unique l) <-> In x l.
Proof.
  induction l as [|y r IH]; simpl; [tauto|].
  rewrite zinsert_In, IH. intuition.
Qed.

Lemma zinsert_HdRel x a l :
  (a < x)%Z -> HdRel Z.lt a l -> HdRel Z.lt a (zinsert x l).
Proof.
  intros Hx H. destruct l as [|y r]; simpl; [constructor; auto|].
  inversion H; subst.
  destruct (Z.ltb_spec x y); [constructor; auto|].
  destruct (Z.eqb_spec x y); constructor; auto.
Qed.

Lemma zinsert_sorted x l : Sorted Z.lt l -> Sorted Z.lt (zinsert x l).
Proof.
  induction l as [|y r IH]; intros H; simpl.
  - repeat constructor.
  - inversion H; subst.
    destruct (Z.ltb_spec x y).
    + constructor; [exact H|constructor; auto].
    + destruct (Z.eqb_spec x y); [exact H|].
      constructor; [apply IH; auto|]. apply zinsert_HdRel; [lia|auto].
Qed.

Lemma np_unique_sorted l : StronglySorted Z.lt (np_unique l).
Proof.
  apply Sorted_StronglySorted; [intros a b c; lia|].
  induction l as [|x r IH]; simpl; [constructor|apply zinsert_sorted; auto].
Qed.

Lemma strongly_lt_NoDup l : StronglySorted Z.lt l -> NoDup l.
Proof.
  induction 1 as [|a l Hl IH Ha]; constructor; auto.
  intros Hin. rewrite Forall_forall in Ha. specialize (Ha a Hin). lia.
Qed.

Lemma np_unique_NoDup l : NoDup (np_unique l).
Proof. apply strongly_lt_NoDup, np_unique_sorted. Qed.

(** A strictly sorted list is determined by its elements. *)
Lemma strongly_lt_unique l1 l2 :
  StronglySorted Z.lt l1 -> StronglySorted Z.lt l2 ->
  (forall x, In x l1 <-> In x l2) -> l1 = l2.
Proof.
  intros H1. revert l2. induction H1 as [|a l Hl IH Ha]; intros l2 H2 He.
  - destruct l2 as [|b l2]; [reflexivity|]. destruct (proj2 (He b)); simpl; auto.
  - destruct H2 as [|b l2 Hl2 Hb].
    + destruct (proj1 (He a)); simpl; auto.
    + rewrite Forall_forall in Ha, Hb.
      assert (a = b).
      { destruct (proj1 (He a) (or_introl eq_refl)) as [->|Hin]; [reflexivity|].
        destruct (proj2 (He b) (or_introl eq_refl)) as [->|Hin2]; [reflexivity|].
        specialize (Ha b Hin2). specialize (Hb a Hin). lia. }
      subst b. f_equal. apply IH; [exact Hl2|].
      intros x. split; intros Hx.
      * destruct (proj1 (He x) (or_intror Hx)) as [E|Hin]; [|exact Hin].
        subst x. specialize (Ha a Hx). lia.
      * destruct (proj2 (He x) (or_intror Hx)) as [E|Hin]; [|exact Hin].
        subst x. specialize (Hb a Hx). lia.
Qed.

Lemma index_of_lt x l : In x l -> (index_of x l < length l)%nat.
Proof.
  induction l as [|y r IH]; simpl; [tauto|]. intros H.
  destruct (Z.eqb_spec x y); [lia|].
  destruct H as [->|H]; [congruence|]. specialize (IH H). lia.
Qed.

Lemma nth_index_of x l d : In x l -> nth (index_of x l) l d = x.
Proof.
  induction l as [|y r IH]; simpl; [tauto|]. intros H.
  destruct (Z.eqb_spec x y); [congruence|].
  destruct H as [->|H]; [congruence|]. auto.
Qed.

Lemma index_of_first x l k : (k < index_of x l)%nat -> (k < length l)%nat -> nth k l 0%Z <> x.
Proof.
  revert k. induction l as [|y r IH]; simpl; [lia|]. intros k H Hl.
  destruct (Z.eqb_spec x y); [lia|]. destruct k as [|k]; [congruence|].
  apply IH; lia.
Qed.

Lemma index_of_nth l k : NoDup l -> (k < length l)%nat -> index_of (nth k l 0%Z) l = k.
Proof.
  intros Hn Hk.
  assert (Hin : In (nth k l 0%Z) l) by (apply nth_In; auto).
  apply (NoDup_nth l 0%Z); auto.
  - apply index_of_lt; auto.
  - apply nth_index_of; auto.
Qed.

Lemma index_of_inj x y l : In x l -> In y l -> index_of x l = index_of y l -> x = y.
Proof.
  intros Hx Hy E. rewrite <- (nth_index_of x l 0%Z Hx), E. apply nth_index_of; auto.
Qed.

Lemma first_seen_In x l : In x (first_seen l) <-> In x l.
Proof.
  induction l as [|y r IH]; simpl; [tauto|].
  rewrite filter_In, IH, negb_true_iff, Z.eqb_neq.
  destruct (Z.eq_dec x y); intuition.
Qed.

Lemma NoDup_filter' {A} (f : A -> bool) l : NoDup l -> NoDup (filter f l).
Proof. apply NoDup_filter. Qed.

Lemma first_seen_NoDup l : NoDup (first_seen l).
Proof.
  induction l as [|y r IH]; simpl; constructor.
  - rewrite filter_In, negb_true_iff, Z.eqb_neq. tauto.
  - apply NoDup_filter'; auto.
Qed.

(** nat sorting *)
Lemma ninsert_perm x l : Permutation (ninsert x l) (x :: l).
Proof.
  induction l as [|y r IH]; simpl; [reflexivity|].
  destruct (Nat.leb_spec x y); [reflexivity|].
  rewrite IH. apply perm_swap.
Qed.

Lemma nsort_perm l : Permutation (nsort l) l.
Proof.
  induction l as [|x r IH]; simpl; [reflexivity|].
  rewrite ninsert_perm, IH. reflexivity.
Qed.

Lemma ninsert_sorted x l : StronglySorted le l -> StronglySorted le (ninsert x l).
Proof.
  induction 1 as [|a l Hl IH Ha]; simpl.
  - repeat constructor.
  - destruct (Nat.leb_spec x a).
    + constructor; [constructor; auto|]. constructor; [auto|].
      rewrite Forall_forall in *. intros z Hz. specialize (Ha z Hz). lia.
    + constructor; [exact IH|]. rewrite Forall_forall in *.
      intros z Hz. apply (Permutation_in _ (ninsert_perm x l)) in Hz.
      destruct Hz as [<-|Hz]; [lia|auto].
Qed.

Lemma nsort_sorted l : StronglySorted le (nsort l).
Proof. induction l as [|x r IH]; simpl; [constructor|apply ninsert_sorted; auto]. Qed.

Lemma sorted_perm_eq l1 l2 :
  StronglySorted le l1 -> StronglySorted le l2 -> Permutation l1 l2 -> l1 = l2.
Proof.
  intros H1. revert l2. induction H1 as [|a l Hl IH Ha]; intros l2 H2 Hp.
  - apply Permutation_nil in Hp. auto.
  - destruct H2 as [|b l2 Hl2 Hb].
    + symmetry in Hp. apply Permutation_nil in Hp. discriminate.
    + rewrite Forall_forall in Ha, Hb.
      assert (a = b).
      { assert (In a (b :: l2)) as [->|Hin] by (eapply Permutation_in; [exact Hp|left; auto]); [auto|].
        assert (In b (a :: l)) as [->|Hin2]
          by (eapply Permutation_in; [symmetry; exact Hp|left; auto]); [auto|].
        specialize (Ha b Hin2). specialize (Hb a Hin). lia. }
      subst b. f_equal. apply IH; auto. eapply Permutation_cons_inv; eauto.
Qed.

Lemma map_filter_swap {A B} (f : A -> B) (p : B -> bool) l :
  filter p (map f l) = map f (filter (fun x => p (f x)) l).
Proof.
  induction l as [|a l IH]; simpl; [reflexivity|].
  destruct (p (f a)); simpl; rewrite IH; reflexivity.
Qed.

Lemma StronglySorted_filter {A} (R : A -> A -> Prop) (f : A -> bool) l :
  StronglySorted R l -> StronglySorted R (filter f l).
Proof.
  induction 1 as [|a l Hl IH Ha]; simpl; [constructor|].
  destruct (f a); [|exact IH]. constructor; [exact IH|].
  rewrite Forall_forall in *. intros x Hx. apply filter_In in Hx as [Hx _]. auto.
Qed.

Lemma StronglySorted_map {A B} (R : A -> A -> Prop) (S : B -> B -> Prop) (f : A -> B) l :
  (forall x y, In x l -> In y l -> R x y -> S (f x) (f y)) ->
  StronglySorted R l -> StronglySorted S (map f l).
Proof.
  intros Hf H. induction H as [|a l Hl IH Ha]; simpl; [constructor|].
  constructor.
  - apply IH. intros; apply Hf; simpl; auto.
  - rewrite Forall_forall in *. intros y Hy. apply in_map_iff in Hy as [x [<- Hx]].
    apply Hf; simpl; auto.
Qed.

(** The first positions of the values in [first_seen l] increase. *)
Lemma first_seen_sorted l :
  StronglySorted (fun x y => (index_of x l < index_of y l)%nat) (first_seen l).
Proof.
  induction l as [|a r IH]; simpl; [constructor|].
  constructor.
  - assert (H : StronglySorted (fun x y => (index_of x r < index_of y r)%nat)
                  (filter (fun y => negb (y =? a)%Z) (first_seen r)))
      by (apply StronglySorted_filter; exact IH).
    rewrite <- (map_id (filter _ _)).
    eapply StronglySorted_map; [|exact H].
    intros x y Hx Hy Hlt. simpl in Hlt.
    apply filter_In in Hx as [_ Hx]. apply filter_In in Hy as [_ Hy].
    apply negb_true_iff in Hx. apply negb_true_iff in Hy. rewrite Hx, Hy. lia.
  - rewrite Forall_forall. intros y Hy. apply filter_In in Hy as [_ Hy].
    apply negb_true_iff in Hy. rewrite Z.eqb_refl, Hy. lia.
Qed.

Lemma np_unique_perm_first_seen l : Permutation (np_unique l) (first_seen l).
Proof.
  apply NoDup_Permutation; [apply np_unique_NoDup|apply first_seen_NoDup|].
  intros x. rewrite np_unique_In, first_seen_In. tauto.
Qed.

(** Sorting the first positions of the distinct values enumerates the distinct
    values in order of first appearance. *)
Lemma unique_ids_first_seen l :
  map (fun k => nth k l 0%Z) (nsort (np_unique_index l)) = first_seen l.
Proof.
  assert (E : nsort (np_unique_index l) = map (fun x => index_of x l) (first_seen l)).
  { apply sorted_perm_eq.
    - apply nsort_sorted.
    - eapply StronglySorted_map; [|apply first_seen_sorted].
      intros x y _ _ Hl. apply Nat.lt_le_incl. exact Hl.
    - rewrite nsort_perm. unfold np_unique_index.
      apply Permutation_map, np_unique_perm_first_seen. }
  rewrite E, map_map. rewrite <- (map_id (first_seen l)) at 2.
  apply map_ext_in. intros x Hx. apply nth_index_of. apply first_seen_In. exact Hx.
Qed.

(** Dictionaries over keys with decidable equality. *)
Section DictFacts.
  Context {K V : Type} (keqb : K -> K -> bool).
  Hypothesis keqb_spec : forall a b, reflect (a = b) (keqb a b).

  Lemma dict_get_set d k v k' :
    dict_get keqb (dict_set keqb d k v) k' =
    if keqb k' k then Some v else dict_get (V := V) keqb d k'.
  Proof.
    induction d as [|[a b] r IH]; simpl.
    - destruct (keqb_spec k' k); reflexivity.
    - destruct (keqb_spec k a) as [->|N]; simpl.
      + destruct (keqb_spec k' a); reflexivity.
      + destruct (keqb_spec k' a) as [->|N2].
        * destruct (keqb_spec a k); [congruence|reflexivity].
        * exact IH.
  Qed.

  Lemma dict_get_In d k v : dict_get (V := V) keqb d k = Some v -> In (k, v) d.
  Proof.
    induction d as [|[a b] r IH]; simpl; [discriminate|].
    destruct (keqb_spec k a) as [->|N]; intros H; [injection H as ->; auto|auto].
  Qed.

  Lemma dict_get_None d k : dict_get (V := V) keqb d k = None <-> ~ In k (map fst d).
  Proof.
    induction d as [|[a b] r IH]; simpl; [tauto|].
    destruct (keqb_spec k a) as [->|N].
    - split; [discriminate|]. intros H. exfalso. apply H. auto.
    - rewrite IH. intuition.
  Qed.

  Lemma dict_get_NoDup d k v :
    NoDup (map fst d) -> In (k, v) d -> dict_get (V := V) keqb d k = Some v.
  Proof.
    induction d as [|[a b] r IH]; simpl; [tauto|]. intros Hn [H|H].
    - injection H as -> ->. destruct (keqb_spec k k); congruence.
    - inversion Hn; subst. destruct (keqb_spec k a) as [->|N].
      + exfalso. apply H2. apply in_map_iff. exists (a, v). auto.
      + auto.
  Qed.

  (** fold of insertions: the last binding of a key wins. *)
  Lemma dict_get_fold pairs d k :
    dict_get keqb (fold_left (fun d kv => dict_set keqb d (fst kv) (snd kv)) pairs d) k =
    match dict_get (V := V) keqb (rev pairs) k with
    | Some v => Some v
    | None => dict_get keqb d k
    end.
  Proof.
    revert d. induction pairs as [|[a b] r IH]; intros d; simpl; [reflexivity|].
    rewrite IH. clear IH.
    assert (E : forall l, dict_get keqb (l ++ [(a, b)]) k =
              match dict_get keqb l k with Some v => Some v | None =>
                if keqb k a then Some b else None end).
    { induction l as [|[x y] l IH]; simpl; [reflexivity|].
      destruct (keqb k x); [reflexivity|exact IH]. }
    rewrite E, dict_get_set. destruct (dict_get keqb (rev r) k); [reflexivity|].
    destruct (keqb k a); reflexivity.
  Qed.
End DictFacts.
