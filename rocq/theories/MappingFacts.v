(** Facts about the mapping model. *)
From Coq Require Import String ZArith List Lia Bool Sorted Permutation.
From Verif Require Import Res Ids Mappings.
Import ListNotations.

Lemma original_order_first_seen l : get_original_order_unique_ids l = first_seen l.
Proof. apply unique_ids_first_seen. Qed.

Lemma dict_get_combine_aux u a c :
  NoDup u -> In c u ->
  dict_get Z.eqb (combine u (seq a (length u))) c = Some (a + index_of c u)%nat.
Proof.
  revert a. induction u as [|x r IH]; intros a Hn Hin; simpl; [destruct Hin|].
  inversion Hn; subst. destruct (Z.eqb_spec c x); [f_equal; lia|].
  destruct Hin as [->|Hin]; [congruence|].
  rewrite IH by auto. f_equal. lia.
Qed.

Lemma dict_get_rev_NoDup (d : list (Z * nat)) k :
  NoDup (map fst d) -> dict_get Z.eqb (rev d) k = dict_get Z.eqb d k.
Proof.
  intros Hn. destruct (dict_get Z.eqb d k) as [v|] eqn:E.
  - apply dict_get_NoDup; [apply Z.eqb_spec| |].
    + rewrite map_rev. apply NoDup_rev. exact Hn.
    + apply in_rev. rewrite rev_involutive. apply dict_get_In in E; [exact E|apply Z.eqb_spec].
  - apply dict_get_None in E; [|apply Z.eqb_spec]. apply dict_get_None; [apply Z.eqb_spec|].
    rewrite map_rev. intros H. apply E. apply in_rev. exact H.
Qed.

Lemma map_fst_combine_seq (u : list Z) a : map fst (combine u (seq a (length u))) = u.
Proof.
  revert a. induction u as [|x r IH]; intros a; simpl; [reflexivity|]. rewrite IH. reflexivity.
Qed.

Lemma unique_dict_get u c :
  NoDup u -> In c u ->
  dict_get Z.eqb (dict_of Z.eqb (combine u (seq 0 (length u)))) c = Some (index_of c u).
Proof.
  intros Hn Hin. unfold dict_of. rewrite dict_get_fold by apply Z.eqb_spec.
  rewrite dict_get_rev_NoDup by (rewrite map_fst_combine_seq; exact Hn).
  rewrite (dict_get_combine_aux u 0 c Hn Hin). reflexivity.
Qed.

(** The coordinate entries of a mapping, row by row. *)
Definition map_entries (u ids : list Z) (a : nat) : list (nat * nat * Z) :=
  flat_map (fun ri : nat * Z => if zmem (snd ri) u then [(fst ri, index_of (snd ri) u, 1%Z)] else [])
           (combine (seq a (List.length ids)) ids).

Lemma entries_aux (u ids : list Z) (F : nat * Z -> nat * nat * Z) a :
  (forall ri, zmem (snd ri) u = true -> F ri = (fst ri, index_of (snd ri) u, 1%Z)) ->
  map F (map fst (filter snd (combine (combine (seq a (List.length ids)) ids)
                                      (map (fun x => zmem x u) ids)))) = map_entries u ids a.
Proof.
  intros HF. unfold map_entries. revert a.
  induction ids as [|x r IH]; intros a; simpl; [reflexivity|].
  destruct (zmem x u) eqn:E; simpl; rewrite IH; [|reflexivity].
  rewrite HF by exact E. reflexivity.
Qed.

Lemma sparse_entries_eq ids u :
  NoDup u ->
  s_entries (create_sparse_mapping ids (Some u)) = map_entries u ids 0.
Proof.
  intros Hn. unfold create_sparse_mapping. cbn [s_entries]. apply entries_aux.
  intros ri E. apply zmem_In in E. rewrite unique_dict_get by auto. reflexivity.
Qed.

Definition sum_entries (l : list (nat * nat * Z)) (i j : nat) : Z :=
  fold_right Z.add 0%Z
    (map (fun e : nat * nat * Z => let '(r, c, v) := e in
         if ((r =? i)%nat && (c =? j)%nat)%bool then v else 0%Z) l).

Lemma sum_entries_app l1 l2 i j :
  sum_entries (l1 ++ l2) i j = (sum_entries l1 i j + sum_entries l2 i j)%Z.
Proof.
  unfold sum_entries. rewrite map_app.
  induction (map _ l1) as [|x l IH]; simpl; [reflexivity|]. rewrite IH. lia.
Qed.

Lemma map_entries_lookup u ids a i j :
  sum_entries (map_entries u ids a) (a + i) j =
  (if (i <? List.length ids)%nat
   then if zmem (nth i ids 0%Z) u && (index_of (nth i ids 0%Z) u =? j)%nat then 1 else 0
   else 0)%Z.
Proof.
  revert a i. induction ids as [|x r IH]; intros a i; simpl.
  - destruct i; reflexivity.
  - unfold map_entries. simpl. rewrite sum_entries_app. fold (map_entries u r (S a)).
    destruct i as [|i].
    + assert (Z0 : sum_entries (map_entries u r (S a)) (a + 0) j = 0%Z).
      { clear. assert (H : forall b, (a < b)%nat -> sum_entries (map_entries u r b) (a + 0) j = 0%Z).
        { induction r as [|x r IH]; intros b Hb; [reflexivity|].
          unfold map_entries. simpl. rewrite sum_entries_app. fold (map_entries u r (S b)).
          rewrite IH by lia. destruct (zmem x u); [|reflexivity].
          cbn [sum_entries map fold_right]. unfold sum_entries. simpl.
          destruct (Nat.eqb_spec b (a + 0)); [lia|reflexivity]. }
        apply H. lia. }
      rewrite Z0. destruct (zmem x u); [|reflexivity].
      unfold sum_entries. simpl. destruct (Nat.eqb_spec a (a + 0)); [|lia]. simpl.
      destruct (index_of x u =? j)%nat; reflexivity.
    + replace (a + S i)%nat with (S a + i)%nat by lia. rewrite IH.
      assert (Z0 : sum_entries (if zmem x u then [(a, index_of x u, 1%Z)] else []) (S a + i) j = 0%Z).
      { destruct (zmem x u); [|reflexivity]. unfold sum_entries. simpl.
        destruct (Nat.eqb_spec a (S (a + i))); [lia|reflexivity]. }
      rewrite Z0. simpl. destruct (Nat.ltb_spec i (length r)); destruct (Nat.ltb_spec (S i) (S (length r)));
        try lia; reflexivity.
Qed.

(** The entry of a mapping with explicit unique ids. *)
Lemma sget_mapping ids u i j :
  NoDup u ->
  sget (create_sparse_mapping ids (Some u)) i j =
  (if (i <? List.length ids)%nat
   then if zmem (nth i ids 0%Z) u && (index_of (nth i ids 0%Z) u =? j)%nat then 1 else 0
   else 0)%Z.
Proof.
  intros Hn. unfold sget. rewrite sparse_entries_eq by auto.
  apply (map_entries_lookup u ids 0 i j).
Qed.

Lemma mapping_None_Some ids :
  create_sparse_mapping ids None = create_sparse_mapping ids (Some (first_seen ids)).
Proof. unfold create_sparse_mapping. rewrite original_order_first_seen. reflexivity. Qed.

(** In terms of the identifiers themselves. *)
Lemma sget_mapping_iff ids u i j :
  NoDup u -> (i < List.length ids)%nat -> (j < List.length u)%nat ->
  sget (create_sparse_mapping ids (Some u)) i j =
  (if (nth i ids 0%Z =? nth j u 0%Z)%Z then 1 else 0)%Z.
Proof.
  intros Hn Hi Hj. rewrite sget_mapping by auto.
  destruct (Nat.ltb_spec i (length ids)); [|lia].
  destruct (Z.eqb_spec (nth i ids 0%Z) (nth j u 0%Z)) as [E|E].
  - assert (Hin : In (nth i ids 0%Z) u) by (rewrite E; apply nth_In; auto).
    apply zmem_In in Hin as Hm. rewrite Hm, E, index_of_nth by auto. rewrite Nat.eqb_refl. reflexivity.
  - destruct (zmem (nth i ids 0%Z) u) eqn:Hm; [|reflexivity]. simpl.
    destruct (Nat.eqb_spec (index_of (nth i ids 0%Z) u) j) as [E2|]; [|reflexivity].
    apply zmem_In in Hm. exfalso. apply E. rewrite <- E2. symmetry. apply nth_index_of. exact Hm.
Qed.

(** Multiplying the rows by a column. *)
Lemma sget_multiply m c i j :
  sget (multiply_rows m c) i j = (sget m i j * nth i c 0)%Z.
Proof.
  unfold sget, multiply_rows. simpl. rewrite map_map.
  induction (s_entries m) as [|[[r k] v] l IH]; simpl; [reflexivity|].
  rewrite IH. destruct (Nat.eqb_spec r i); simpl; [|lia].
  subst. destruct (k =? j)%nat; lia.
Qed.
