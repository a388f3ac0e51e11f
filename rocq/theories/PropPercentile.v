(** C57: percentile intervals. *)
From Coq Require Import Reals Lra Lia ZArith List Bool Permutation Sorted.
From Verif Require Import Res Vec PropWideLong BootCalcs.
Import ListNotations.
Open Scope R_scope.

(** ** Specification *)

(** How many of the values lie in the closed interval, below it, above it. *)
Definition inside (lo hi : R) (l : list R) : nat :=
  length (filter (fun x => if Rle_dec lo x then if Rle_dec x hi then true else false else false) l).
Definition below (lo : R) (l : list R) : nat :=
  length (filter (fun x => if Rlt_dec x lo then true else false) l).
Definition above (hi : R) (l : list R) : nat :=
  length (filter (fun x => if Rlt_dec hi x then true else false) l).

Definition at_most (x : R) (l : list R) : nat :=
  length (filter (fun y => if Rle_dec y x then true else false) l).
Definition at_least (x : R) (l : list R) : nat :=
  length (filter (fun y => if Rle_dec x y then true else false) l).

Definition lower_end (iv : intervals) (j : nat) : R := fst (nth j iv (0, 0)).
Definition upper_end (iv : intervals) (j : nat) : R := snd (nth j iv (0, 0)).

(** ** Sorting *)

Lemma rinsert_perm x l : Permutation (x :: l) (rinsert x l).
Proof.
  induction l as [|y r IH]; simpl; [reflexivity|]. destruct (Rle_dec x y); [reflexivity|].
  rewrite perm_swap. constructor. exact IH.
Qed.

Lemma rsort_perm l : Permutation l (rsort l).
Proof.
  induction l as [|x r IH]; simpl; [constructor|]. rewrite <- rinsert_perm. constructor. exact IH.
Qed.

Lemma rinsert_sorted x l : StronglySorted Rle l -> StronglySorted Rle (rinsert x l).
Proof.
  induction 1 as [|y r Hr IH Hy]; simpl; [repeat constructor|].
  destruct (Rle_dec x y) as [H|H].
  - constructor; [constructor; assumption|]. constructor; [exact H|].
    rewrite List.Forall_forall in *. intros z Hz. specialize (Hy z Hz). lra.
  - constructor; [exact IH|]. rewrite List.Forall_forall in *. intros z Hz.
    apply (Permutation_in z (Permutation_sym (rinsert_perm x r))) in Hz.
    destruct Hz as [<-|Hz]; [lra|auto].
Qed.

Lemma rsort_sorted l : StronglySorted Rle (rsort l).
Proof. induction l as [|x r IH]; simpl; [constructor|apply rinsert_sorted; exact IH]. Qed.

Lemma rsort_length l : length (rsort l) = length l.
Proof. symmetry. apply Permutation_length, rsort_perm. Qed.

Lemma sorted_nth l : StronglySorted Rle l -> forall i j, (i <= j)%nat -> (j < length l)%nat -> nth i l 0 <= nth j l 0.
Proof.
  induction 1 as [|x r Hr IH Hx]; intros i j Hij Hj; simpl in Hj; [lia|].
  destruct i as [|i], j as [|j]; simpl; try lra; try lia.
  - rewrite List.Forall_forall in Hx. apply Hx, nth_In. lia.
  - apply IH; lia.
Qed.

Lemma sorted_perm_eq l1 l2 :
  StronglySorted Rle l1 -> StronglySorted Rle l2 -> Permutation l1 l2 -> l1 = l2.
Proof.
  intros H1. revert l2. induction H1 as [|x r Hr IH Hx]; intros l2 H2 HP.
  - apply Permutation_nil in HP. congruence.
  - destruct H2 as [|y r2 Hr2 Hy]; [apply Permutation_sym, Permutation_nil in HP; discriminate|].
    rewrite List.Forall_forall in Hx, Hy.
    assert (x = y).
    { assert (Hxin : In x (y :: r2)) by (apply (Permutation_in x HP); left; reflexivity).
      assert (Hyin : In y (x :: r)) by (apply (Permutation_in y (Permutation_sym HP)); left; reflexivity).
      destruct Hxin as [E|Hxin]; [congruence|]. destruct Hyin as [E|Hyin]; [congruence|].
      specialize (Hx y Hyin). specialize (Hy x Hxin). lra. }
    subst y. f_equal. apply IH; [exact Hr2|]. apply Permutation_cons_inv in HP. exact HP.
Qed.

Lemma rsort_perm_eq l1 l2 : Permutation l1 l2 -> rsort l1 = rsort l2.
Proof.
  intros H. apply sorted_perm_eq; try apply rsort_sorted.
  rewrite <- (rsort_perm l1), <- (rsort_perm l2). exact H.
Qed.

Lemma sorted_map g l : (forall x y, x <= y -> g x <= g y) -> StronglySorted Rle l -> StronglySorted Rle (map g l).
Proof.
  intros Hg. induction 1 as [|x r Hr IH Hx]; simpl; constructor; [exact IH|].
  rewrite List.Forall_forall in *. intros y Hy. apply in_map_iff in Hy. destruct Hy as (z & <- & Hz). auto.
Qed.

Lemma rsort_map g l : (forall x y, x <= y -> g x <= g y) -> rsort (map g l) = map g (rsort l).
Proof.
  intros Hg. apply sorted_perm_eq.
  - apply rsort_sorted.
  - apply sorted_map; [exact Hg|apply rsort_sorted].
  - rewrite <- (rsort_perm (map g l)). apply Permutation_map, rsort_perm.
Qed.

(** ** Rounding *)

Lemma floorZ_spec x : IZR (floorZ x) <= x < IZR (floorZ x) + 1.
Proof. unfold floorZ. pose proof (base_Int_part x). lra. Qed.

Lemma ceilZ_spec x : x <= IZR (ceilZ x) < x + 1.
Proof. unfold ceilZ. rewrite opp_IZR. pose proof (base_Int_part (- x)). lra. Qed.

Lemma floorZ_mono x y : x <= y -> (floorZ x <= floorZ y)%Z.
Proof.
  intros H. pose proof (floorZ_spec x). pose proof (floorZ_spec y).
  assert (IZR (floorZ x) < IZR (floorZ y + 1)) by (rewrite plus_IZR; lra). apply lt_IZR in H2. lia.
Qed.

Lemma ceilZ_mono x y : x <= y -> (ceilZ x <= ceilZ y)%Z.
Proof.
  intros H. pose proof (ceilZ_spec x). pose proof (ceilZ_spec y).
  assert (IZR (ceilZ x) < IZR (ceilZ y + 1)) by (rewrite plus_IZR; lra). apply lt_IZR in H2. lia.
Qed.

Lemma floorZ_le_ceilZ x y : x <= y -> (floorZ x <= ceilZ y)%Z.
Proof.
  intros H. pose proof (floorZ_spec x). pose proof (ceilZ_spec y). apply le_IZR. lra.
Qed.

Lemma floorZ_nonneg x : 0 <= x -> (0 <= floorZ x)%Z.
Proof.
  intros H. pose proof (floorZ_spec x). assert (-1 < IZR (floorZ x)) by lra. change (-1) with (IZR (-1)) in H1.
  apply lt_IZR in H1. lia.
Qed.

Lemma ceilZ_nonneg x : 0 <= x -> (0 <= ceilZ x)%Z.
Proof. intros H. pose proof (ceilZ_spec x). apply le_IZR. lra. Qed.

Lemma floorZ_upper x n : x <= IZR n -> (floorZ x <= n)%Z.
Proof. intros H. pose proof (floorZ_spec x). apply le_IZR. lra. Qed.

Lemma ceilZ_upper x n : x <= IZR n -> (ceilZ x <= n)%Z.
Proof.
  intros H. pose proof (ceilZ_spec x). assert (IZR (ceilZ x) < IZR (n + 1)) by (rewrite plus_IZR; lra).
  apply lt_IZR in H1. lia.
Qed.

(** ** np.percentile *)

Definition rank (m : interpolation) (q : R) (n : nat) : nat :=
  Z.to_nat (match m with
            | Lower => floorZ (q / 100 * (INR n - 1))
            | Higher => ceilZ (q / 100 * (INR n - 1)) end).

Lemma percentile_rank m q l : np_percentile m q l = nth (rank m q (length l)) (rsort l) 0.
Proof. reflexivity. Qed.

Lemma index_range q n : (0 < n)%nat -> 0 <= q <= 100 -> 0 <= q / 100 * (INR n - 1) <= IZR (Z.of_nat n - 1).
Proof.
  intros Hn Hq. rewrite minus_IZR, <- INR_IZR_INZ.
  assert (1 <= INR n) by (change 1 with (INR 1); apply le_INR; lia).
  assert (0 <= q / 100 <= 1) by lra. split; [apply Rmult_le_pos; lra|].
  rewrite <- (Rmult_1_l (INR n - 1)) at 2. apply Rmult_le_compat_r; lra.
Qed.

Lemma rank_lt m q n : (0 < n)%nat -> 0 <= q <= 100 -> (rank m q n < n)%nat.
Proof.
  intros Hn Hq. pose proof (index_range q n Hn Hq) as [H0 H1]. unfold rank.
  destruct m.
  - pose proof (floorZ_nonneg _ H0). pose proof (floorZ_upper _ _ H1). lia.
  - pose proof (ceilZ_nonneg _ H0). pose proof (ceilZ_upper _ _ H1). lia.
Qed.

Lemma rank_lower_bound q n : (0 < n)%nat -> 0 <= q <= 100 -> INR (rank Lower q n) <= q / 100 * (INR n - 1).
Proof.
  intros Hn Hq. pose proof (index_range q n Hn Hq) as [H0 H1]. unfold rank.
  pose proof (floorZ_nonneg _ H0). rewrite (INR_IZR_INZ (Z.to_nat _)), Z2Nat.id by assumption. apply floorZ_spec.
Qed.

Lemma rank_higher_bound q n : (0 < n)%nat -> 0 <= q <= 100 -> q / 100 * (INR n - 1) <= INR (rank Higher q n).
Proof.
  intros Hn Hq. pose proof (index_range q n Hn Hq) as [H0 H1]. unfold rank.
  pose proof (ceilZ_nonneg _ H0). rewrite (INR_IZR_INZ (Z.to_nat _)), Z2Nat.id by assumption. apply ceilZ_spec.
Qed.

Lemma rank_mono m q q' n : (0 < n)%nat -> q <= q' -> (rank m q n <= rank m q' n)%nat.
Proof.
  intros Hn Hq.
  assert (1 <= INR n) by (change 1 with (INR 1); apply le_INR; lia).
  assert (q / 100 * (INR n - 1) <= q' / 100 * (INR n - 1)) by (apply Rmult_le_compat_r; lra).
  unfold rank. destruct m.
  - pose proof (floorZ_mono _ _ H0). lia.
  - pose proof (ceilZ_mono _ _ H0). lia.
Qed.

Lemma rank_lower_le_higher q q' n : (0 < n)%nat -> q <= q' -> (rank Lower q n <= rank Higher q' n)%nat.
Proof.
  intros Hn Hq.
  assert (1 <= INR n) by (change 1 with (INR 1); apply le_INR; lia).
  assert (q / 100 * (INR n - 1) <= q' / 100 * (INR n - 1)) by (apply Rmult_le_compat_r; lra).
  unfold rank. pose proof (floorZ_le_ceilZ _ _ H0). lia.
Qed.

Lemma percentile_in m q l : l <> [] -> 0 <= q <= 100 -> In (np_percentile m q l) l.
Proof.
  intros Hl Hq. assert (Hn : (0 < length l)%nat) by (destruct l; [congruence|simpl; lia]).
  apply (Permutation_in _ (Permutation_sym (rsort_perm l))). rewrite percentile_rank. apply nth_In.
  rewrite rsort_length. apply rank_lt; assumption.
Qed.

Lemma percentile_mono m q q' l : l <> [] -> 0 <= q -> q <= q' -> q' <= 100 -> np_percentile m q l <= np_percentile m q' l.
Proof.
  intros Hl H0 Hq H1. assert (Hn : (0 < length l)%nat) by (destruct l; [congruence|simpl; lia]).
  rewrite !percentile_rank. apply sorted_nth; [apply rsort_sorted|apply rank_mono; assumption|].
  rewrite rsort_length. apply rank_lt; [exact Hn|lra].
Qed.

Lemma percentile_lower_le_higher q q' l :
  l <> [] -> 0 <= q -> q <= q' -> q' <= 100 -> np_percentile Lower q l <= np_percentile Higher q' l.
Proof.
  intros Hl H0 Hq H1. assert (Hn : (0 < length l)%nat) by (destruct l; [congruence|simpl; lia]).
  rewrite !percentile_rank. apply sorted_nth; [apply rsort_sorted|apply rank_lower_le_higher; assumption|].
  rewrite rsort_length. apply rank_lt; [exact Hn|lra].
Qed.

Lemma filter_perm_length {A} (p : A -> bool) l l' :
  Permutation l l' -> length (filter p l) = length (filter p l').
Proof.
  induction 1; simpl; auto; try congruence.
  - destruct (p x); simpl; congruence.
  - destruct (p x), (p y); reflexivity.
Qed.

Lemma filter_all {A} (p : A -> bool) l : (forall x, In x l -> p x = true) -> filter p l = l.
Proof.
  induction l as [|a r IH]; intros H; simpl; [reflexivity|].
  rewrite (H a (or_introl eq_refl)), IH; [reflexivity|]. intros x Hx. apply H. right. exact Hx.
Qed.

Lemma In_skipn {A} (x : A) d n l : In x (skipn n l) -> exists i, (n <= i < length l)%nat /\ nth i l d = x.
Proof.
  revert l. induction n as [|n IH]; intros l H; simpl in H.
  - apply In_nth with (d := d) in H. destruct H as (i & Hi & E). exists i. split; [lia|exact E].
  - destruct l as [|a r]; simpl in H; [destruct H|]. destruct (IH r H) as (i & Hi & E).
    exists (S i). simpl. split; [lia|exact E].
Qed.

Lemma In_firstn {A} (x : A) d n l : In x (firstn n l) -> exists i, (i < n)%nat /\ (i < length l)%nat /\ nth i l d = x.
Proof.
  revert l. induction n as [|n IH]; intros l H; simpl in H; [destruct H|].
  destruct l as [|a r]; simpl in H; [destruct H|]. destruct H as [->|H].
  - exists 0%nat. simpl. repeat split; lia.
  - destruct (IH r H) as (i & Hi & Hl & E). exists (S i). simpl. repeat split; try lia. exact E.
Qed.

(** Counting between two ranks. *)
Lemma inside_ranks l p q :
  (p <= q)%nat -> (q < length l)%nat ->
  (q - p + 1 <= inside (nth p (rsort l) 0%R) (nth q (rsort l) 0%R) l)%nat.
Proof.
  intros Hpq Hq. unfold inside. rewrite (filter_perm_length _ l (rsort l)) by apply rsort_perm.
  set (s := rsort l). assert (Hs : StronglySorted Rle s) by apply rsort_sorted.
  assert (Hls : length s = length l) by apply rsort_length.
  set (P := fun x => if Rle_dec (nth p s 0) x then if Rle_dec x (nth q s 0) then true else false else false).
  rewrite <- (firstn_skipn p s) at 1. rewrite filter_app, app_length.
  rewrite <- (firstn_skipn (q - p + 1) (skipn p s)). rewrite filter_app, app_length.
  rewrite (filter_all P (firstn (q - p + 1) (skipn p s))).
  - rewrite firstn_length, skipn_length. lia.
  - intros x Hx. destruct (In_firstn x 0 _ _ Hx) as (i & Hi & Hi' & E).
    rewrite skipn_length in Hi'.
    assert (Enth : nth i (skipn p s) 0 = nth (p + i) s 0).
    { rewrite <- (firstn_skipn p s) at 2. rewrite app_nth2; rewrite firstn_length; [|lia].
      f_equal. lia. }
    rewrite Enth in E. subst x. unfold P.
    destruct (Rle_dec (nth p s 0) (nth (p + i) s 0)) as [_|H]; [|exfalso; apply H, sorted_nth; [exact Hs|lia|lia]].
    destruct (Rle_dec (nth (p + i) s 0) (nth q s 0)) as [_|H]; [reflexivity|exfalso; apply H, sorted_nth; [exact Hs|lia|lia]].
Qed.

Lemma filter_none {A} (p : A -> bool) l : (forall x, In x l -> p x = false) -> filter p l = [].
Proof.
  induction l as [|a r IH]; intros H; simpl; [reflexivity|].
  rewrite (H a (or_introl eq_refl)). apply IH. intros x Hx. apply H. right. exact Hx.
Qed.

Lemma filter_le {A} (p : A -> bool) l : (length (filter p l) <= length l)%nat.
Proof. induction l as [|a r IH]; simpl; [lia|]. destruct (p a); simpl; lia. Qed.

Lemma below_rank l p : (p < length l)%nat -> (below (nth p (rsort l) 0%R) l <= p)%nat.
Proof.
  intros Hp. unfold below. rewrite (filter_perm_length _ l (rsort l)) by apply rsort_perm.
  set (s := rsort l). assert (Hs : StronglySorted Rle s) by apply rsort_sorted.
  assert (Hls : length s = length l) by apply rsort_length.
  set (P := fun x => if Rlt_dec x (nth p s 0) then true else false).
  rewrite <- (firstn_skipn p s). rewrite filter_app, app_length.
  rewrite (filter_none P (skipn p s)).
  - pose proof (filter_le P (firstn p s)) as H. rewrite firstn_length in H. simpl. lia.
  - intros x Hx. destruct (In_skipn x 0 _ _ Hx) as (i & Hi & E). subst x. unfold P.
    destruct (Rlt_dec (nth i s 0) (nth p s 0)) as [H|]; [|reflexivity]. exfalso.
    pose proof (sorted_nth s Hs p i ltac:(lia) ltac:(lia)). lra.
Qed.

Lemma above_rank l q : (q < length l)%nat -> (above (nth q (rsort l) 0%R) l <= length l - 1 - q)%nat.
Proof.
  intros Hq. unfold above. rewrite (filter_perm_length _ l (rsort l)) by apply rsort_perm.
  set (s := rsort l). assert (Hs : StronglySorted Rle s) by apply rsort_sorted.
  assert (Hls : length s = length l) by apply rsort_length.
  set (P := fun x => if Rlt_dec (nth q s 0) x then true else false).
  rewrite <- (firstn_skipn (S q) s). rewrite filter_app, app_length.
  rewrite (filter_none P (firstn (S q) s)).
  - pose proof (filter_le P (skipn (S q) s)) as H. rewrite skipn_length in H. simpl in *. lia.
  - intros x Hx. destruct (In_firstn x 0 _ _ Hx) as (i & Hi & Hi' & E). subst x. unfold P.
    destruct (Rlt_dec (nth q s 0) (nth i s 0)) as [H|]; [|reflexivity]. exfalso.
    pose proof (sorted_nth s Hs i q ltac:(lia) ltac:(lia)). lra.
Qed.

Lemma rank_lower_bound' q n : (0 < n)%nat -> 0 <= q <= 100 -> q / 100 * (INR n - 1) < INR (rank Lower q n) + 1.
Proof.
  intros Hn Hq. pose proof (index_range q n Hn Hq) as [H0 H1]. unfold rank.
  pose proof (floorZ_nonneg _ H0). rewrite (INR_IZR_INZ (Z.to_nat _)), Z2Nat.id by assumption. apply floorZ_spec.
Qed.

Lemma rank_higher_bound' q n : (0 < n)%nat -> 0 <= q <= 100 -> INR (rank Higher q n) < q / 100 * (INR n - 1) + 1.
Proof.
  intros Hn Hq. pose proof (index_range q n Hn Hq) as [H0 H1]. unfold rank.
  pose proof (ceilZ_nonneg _ H0). rewrite (INR_IZR_INZ (Z.to_nat _)), Z2Nat.id by assumption. apply ceilZ_spec.
Qed.

Lemma at_most_rank l p : (p < length l)%nat -> (p + 1 <= at_most (nth p (rsort l) 0%R) l)%nat.
Proof.
  intros Hp. unfold at_most. rewrite (filter_perm_length _ l (rsort l)) by apply rsort_perm.
  set (s := rsort l). assert (Hs : StronglySorted Rle s) by apply rsort_sorted.
  assert (Hls : length s = length l) by apply rsort_length.
  set (P := fun x => if Rle_dec x (nth p s 0) then true else false).
  rewrite <- (firstn_skipn (S p) s). rewrite filter_app, app_length.
  rewrite (filter_all P (firstn (S p) s)).
  - rewrite firstn_length. lia.
  - intros x Hx. destruct (In_firstn x 0 _ _ Hx) as (i & Hi & Hi' & E). subst x. unfold P.
    destruct (Rle_dec (nth i s 0) (nth p s 0)) as [|H]; [reflexivity|]. exfalso. apply H, sorted_nth; [exact Hs|lia|lia].
Qed.

Lemma at_least_rank l q : (q < length l)%nat -> (length l - q <= at_least (nth q (rsort l) 0%R) l)%nat.
Proof.
  intros Hp. unfold at_least. rewrite (filter_perm_length _ l (rsort l)) by apply rsort_perm.
  set (s := rsort l). assert (Hs : StronglySorted Rle s) by apply rsort_sorted.
  assert (Hls : length s = length l) by apply rsort_length.
  set (P := fun x => if Rle_dec (nth q s 0) x then true else false).
  rewrite <- (firstn_skipn q s). rewrite filter_app, app_length.
  rewrite (filter_all P (skipn q s)).
  - rewrite skipn_length. lia.
  - intros x Hx. destruct (In_skipn x 0 _ _ Hx) as (i & Hi & E). subst x. unfold P.
    destruct (Rle_dec (nth q s 0) (nth i s 0)) as [|H]; [reflexivity|]. exfalso. apply H, sorted_nth; [exact Hs|lia|lia].
Qed.

(** ** The function *)

Lemma collect_ok {A} (l : list A) : collect (map (fun x => Ok x) l) = Ok l.
Proof. induction l as [|x r IH]; simpl; [reflexivity|]. rewrite IH. reflexivity. Qed.

Lemma collect_map {A B} (f : A -> Res B) (g : A -> B) l :
  (forall a, In a l -> f a = Ok (g a)) -> collect (map f l) = Ok (map g l).
Proof.
  induction l as [|a r IH]; intros H; simpl; [reflexivity|].
  rewrite (H a (or_introl eq_refl)). simpl. rewrite IH by (intros; apply H; right; assumption). reflexivity.
Qed.

Lemma column_nonempty rows a j : (0 < rows)%nat -> column rows a j <> [].
Proof. intros H E. apply (f_equal (@length R)) in E. unfold column in E. rewrite map_length, seq_length in E. simpl in E. lia. Qed.

Lemma column_length rows a j : length (column rows a j) = rows.
Proof. unfold column. rewrite map_length, seq_length. reflexivity. Qed.

Lemma percentile_res_ok m q rows a j :
  (0 < rows)%nat -> 0 <= q <= 100 ->
  np_percentile_res m (XFin q) (column rows a j) = Ok (np_percentile m q (column rows a j)).
Proof.
  intros Hr Hq. unfold np_percentile_res.
  destruct (Rle_dec 0 q); [|lra]. destruct (Rle_dec q 100); [|lra].
  pose proof (column_nonempty rows a j Hr). destruct (column rows a j); [congruence|reflexivity].
Qed.

Lemma interval_eq rows cols a c :
  (0 < rows)%nat -> 0 < c < 100 ->
  calc_percentile_interval (Samples2D rows cols a) (ConfNumber c) =
  Ok (map (fun j => (np_percentile Lower ((100 - c) / 2) (column rows a j),
                     np_percentile Higher (100 - (100 - c) / 2) (column rows a j))) (seq 0 cols)).
Proof.
  intros Hr Hc. unfold calc_percentile_interval, check_conf_percentage_validity.
  destruct (Rlt_dec 0 c); [|lra]. destruct (Rlt_dec c 100); [|lra]. simpl bind.
  unfold get_alpha_from_conf_percentage.
  rewrite (collect_map _ (fun j => np_percentile Lower ((100 - c) / 2) (column rows a j)))
    by (intros; apply percentile_res_ok; [exact Hr|lra]).
  rewrite (collect_map _ (fun j => np_percentile Higher (100 - (100 - c) / 2) (column rows a j)))
    by (intros; apply percentile_res_ok; [exact Hr|lra]).
  simpl bind. f_equal. generalize (seq 0 cols). intros l. induction l as [|j l IH]; simpl; [reflexivity|].
  rewrite IH. reflexivity.
Qed.

Lemma lower_end_eq (f : nat -> R * R) n j : (j < n)%nat -> lower_end (map f (seq 0 n)) j = fst (f j).
Proof. intros H. unfold lower_end. rewrite nth_map_seq by exact H. reflexivity. Qed.
Lemma upper_end_eq (f : nat -> R * R) n j : (j < n)%nat -> upper_end (map f (seq 0 n)) j = snd (f j).
Proof. intros H. unfold upper_end. rewrite nth_map_seq by exact H. reflexivity. Qed.

(** ** C57 *)

(** For every table of replicates and confidence level, each parameter gets an interval
    whose endpoints are replicates, in order; at least conf% of the replicates lie in it
    and at most half of the rest lie on either side. *)
Theorem C57_percentile_interval rows cols a c :
  (0 < rows)%nat -> 0 < c < 100 ->
  exists iv, calc_percentile_interval (Samples2D rows cols a) (ConfNumber c) = Ok iv /\ length iv = cols /\
    forall j, (j < cols)%nat ->
      (exists b, (b < rows)%nat /\ lower_end iv j = a b j) /\
      (exists b, (b < rows)%nat /\ upper_end iv j = a b j) /\
      lower_end iv j <= upper_end iv j /\
      c / 100 * INR rows <= INR (inside (lower_end iv j) (upper_end iv j) (column rows a j)) /\
      INR (below (lower_end iv j) (column rows a j)) <= (100 - c) / 200 * INR rows /\
      INR (above (upper_end iv j) (column rows a j)) <= (100 - c) / 200 * INR rows.
Proof.
  intros Hr Hc. eexists. split; [apply interval_eq; assumption|]. split; [rewrite map_length, seq_length; reflexivity|].
  intros j Hj. rewrite lower_end_eq, upper_end_eq by exact Hj. simpl fst. simpl snd.
  pose proof (column_nonempty rows a j Hr) as Hne.
  pose proof (column_length rows a j) as Hlen.
  set (l := column rows a j) in *.
  assert (Hin : forall x, In x l -> exists b, (b < rows)%nat /\ x = a b j).
  { intros x Hx. unfold l, column in Hx. apply in_map_iff in Hx. destruct Hx as (b & E & Hb). apply in_seq in Hb.
    exists b. split; [lia|congruence]. }
  assert (H1 : 1 <= INR rows) by (change 1 with (INR 1); apply le_INR; lia).
  assert (Hrows : (0 < length l)%nat) by lia.
  split; [|split; [|split; [|split; [|split]]]].
  - apply Hin, percentile_in; [exact Hne|lra].
  - apply Hin, percentile_in; [exact Hne|lra].
  - apply percentile_lower_le_higher; [exact Hne|lra|lra|lra].
  - rewrite !percentile_rank.
    set (p := rank Lower ((100 - c) / 2) (length l)). set (q := rank Higher (100 - (100 - c) / 2) (length l)).
    assert (Hpq : (p <= q)%nat) by (apply rank_lower_le_higher; [exact Hrows|lra]).
    assert (Hq : (q < length l)%nat) by (apply rank_lt; [exact Hrows|lra]).
    pose proof (inside_ranks l p q Hpq Hq) as Hi. apply le_INR in Hi.
    rewrite plus_INR, minus_INR in Hi by exact Hpq. simpl (INR 1) in Hi.
    pose proof (rank_lower_bound ((100 - c) / 2) (length l) Hrows ltac:(lra)) as Hp. fold p in Hp.
    pose proof (rank_higher_bound (100 - (100 - c) / 2) (length l) Hrows ltac:(lra)) as Hq'. fold q in Hq'.
    rewrite Hlen in Hp, Hq'.
    assert (c / 100 * INR rows <= (100 - (100 - c) / 2) / 100 * (INR rows - 1) - (100 - c) / 2 / 100 * (INR rows - 1) + 1); [|lra].
    replace ((100 - (100 - c) / 2) / 100 * (INR rows - 1) - (100 - c) / 2 / 100 * (INR rows - 1) + 1)
      with (c / 100 * INR rows + (1 - c / 100)) by field. lra.
  - rewrite percentile_rank.
    pose proof (rank_lt Lower ((100 - c) / 2) (length l) Hrows ltac:(lra)) as Hp.
    pose proof (below_rank l _ Hp) as Hb. apply le_INR in Hb.
    pose proof (rank_lower_bound ((100 - c) / 2) (length l) Hrows ltac:(lra)) as Hp'.
    rewrite Hlen in *. 
    assert ((100 - c) / 2 / 100 * (INR rows - 1) <= (100 - c) / 200 * INR rows); [|lra].
    replace ((100 - c) / 2 / 100 * (INR rows - 1)) with ((100 - c) / 200 * INR rows - (100 - c) / 200) by field. lra.
  - rewrite percentile_rank.
    pose proof (rank_lt Higher (100 - (100 - c) / 2) (length l) Hrows ltac:(lra)) as Hp.
    pose proof (above_rank l _ Hp) as Hb. apply le_INR in Hb.
    pose proof (rank_higher_bound (100 - (100 - c) / 2) (length l) Hrows ltac:(lra)) as Hp'.
    rewrite !minus_INR in Hb by lia. simpl (INR 1) in Hb. rewrite Hlen in *.
    assert (INR rows - 1 - (100 - (100 - c) / 2) / 100 * (INR rows - 1) <= (100 - c) / 200 * INR rows); [|lra].
    replace (INR rows - 1 - (100 - (100 - c) / 2) / 100 * (INR rows - 1))
      with ((100 - c) / 200 * INR rows - (100 - c) / 200) by field. lra.
Qed.

(** The interval is not wider than it needs to be: more than alpha/2 of the (other)
    replicates are at or below the lower endpoint, and at or above the upper one. *)
Theorem C57_not_too_wide rows cols a c :
  (0 < rows)%nat -> 0 < c < 100 ->
  exists iv, calc_percentile_interval (Samples2D rows cols a) (ConfNumber c) = Ok iv /\
    forall j, (j < cols)%nat ->
      (100 - c) / 200 * (INR rows - 1) < INR (at_most (lower_end iv j) (column rows a j)) /\
      (100 - c) / 200 * (INR rows - 1) < INR (at_least (upper_end iv j) (column rows a j)).
Proof.
  intros Hr Hc. eexists. split; [apply interval_eq; assumption|].
  intros j Hj. rewrite lower_end_eq, upper_end_eq by exact Hj. simpl fst. simpl snd.
  pose proof (column_length rows a j) as Hlen. set (l := column rows a j) in *.
  assert (Hrows : (0 < length l)%nat) by lia. rewrite !percentile_rank. split.
  - pose proof (rank_lt Lower ((100 - c) / 2) (length l) Hrows ltac:(lra)) as Hp.
    pose proof (at_most_rank l _ Hp) as Hb. apply le_INR in Hb. rewrite plus_INR in Hb. simpl (INR 1) in Hb.
    pose proof (rank_lower_bound' ((100 - c) / 2) (length l) Hrows ltac:(lra)) as Hp'. rewrite Hlen in *.
    replace ((100 - c) / 200 * (INR rows - 1)) with ((100 - c) / 2 / 100 * (INR rows - 1)) by field. lra.
  - pose proof (rank_lt Higher (100 - (100 - c) / 2) (length l) Hrows ltac:(lra)) as Hp.
    pose proof (at_least_rank l _ Hp) as Hb. apply le_INR in Hb. rewrite minus_INR in Hb by lia.
    pose proof (rank_higher_bound' (100 - (100 - c) / 2) (length l) Hrows ltac:(lra)) as Hp'. rewrite Hlen in *.
    replace ((100 - c) / 200 * (INR rows - 1)) with (INR rows - 1 - (100 - (100 - c) / 2) / 100 * (INR rows - 1)) by field. lra.
Qed.

(** A higher confidence level gives a containing interval. *)
Theorem C57_higher_confidence_contains rows cols a c c' :
  (0 < rows)%nat -> 0 < c -> c <= c' -> c' < 100 ->
  exists iv iv', calc_percentile_interval (Samples2D rows cols a) (ConfNumber c) = Ok iv /\
    calc_percentile_interval (Samples2D rows cols a) (ConfNumber c') = Ok iv' /\
    forall j, (j < cols)%nat -> lower_end iv' j <= lower_end iv j /\ upper_end iv j <= upper_end iv' j.
Proof.
  intros Hr H0 Hc H1. eexists. eexists. split; [apply interval_eq; [exact Hr|lra]|].
  split; [apply interval_eq; [exact Hr|lra]|]. intros j Hj.
  rewrite !lower_end_eq, !upper_end_eq by exact Hj. simpl fst. simpl snd.
  pose proof (column_nonempty rows a j Hr) as Hne.
  split; apply percentile_mono; try exact Hne; lra.
Qed.

(** The order of the replicates does not matter. *)
Theorem C57_replicate_order_irrelevant rows cols a a' c :
  (0 < rows)%nat -> 0 < c < 100 ->
  (forall j, (j < cols)%nat -> Permutation (column rows a j) (column rows a' j)) ->
  calc_percentile_interval (Samples2D rows cols a) (ConfNumber c) =
  calc_percentile_interval (Samples2D rows cols a') (ConfNumber c).
Proof.
  intros Hr Hc HP. rewrite !interval_eq by assumption. f_equal. apply map_ext_in. intros j Hj. apply in_seq in Hj.
  rewrite !percentile_rank, !column_length, (rsort_perm_eq _ _ (HP j ltac:(lia))). reflexivity.
Qed.

(** Percentile intervals respect increasing transformations of a parameter. *)
Theorem C57_transformation_respecting rows cols a c (g : nat -> R -> R) :
  (0 < rows)%nat -> 0 < c < 100 -> (forall j x y, x <= y -> g j x <= g j y) ->
  exists iv iv', calc_percentile_interval (Samples2D rows cols a) (ConfNumber c) = Ok iv /\
    calc_percentile_interval (Samples2D rows cols (fun b j => g j (a b j))) (ConfNumber c) = Ok iv' /\
    forall j, (j < cols)%nat -> lower_end iv' j = g j (lower_end iv j) /\ upper_end iv' j = g j (upper_end iv j).
Proof.
  intros Hr Hc Hg. eexists. eexists. split; [apply interval_eq; assumption|]. split; [apply interval_eq; assumption|].
  intros j Hj. rewrite !lower_end_eq, !upper_end_eq by exact Hj. simpl fst. simpl snd.
  assert (E : column rows (fun b j => g j (a b j)) j = map (g j) (column rows a j)).
  { unfold column. rewrite map_map. reflexivity. }
  rewrite E, !percentile_rank, !map_length, !rsort_map by apply Hg. rewrite !column_length.
  split; apply nth_map_lt; rewrite rsort_length, column_length; apply rank_lt; try assumption; lra.
Qed.

(** Confidence levels that are not numbers strictly between 0 and 100, and replicates
    that are not two-dimensional, are rejected. *)
Theorem C57_rejections reps conf :
  calc_percentile_interval reps ConfOther = Err ValueError /\
  (forall c, ~ (0 < c < 100) -> calc_percentile_interval reps (ConfNumber c) = Err ValueError) /\
  calc_percentile_interval SamplesOther conf = Err ValueError.
Proof.
  split; [reflexivity|]. split.
  - intros c Hc. unfold calc_percentile_interval, check_conf_percentage_validity.
    destruct (Rlt_dec 0 c); [|reflexivity]. destruct (Rlt_dec c 100); [|reflexivity]. exfalso. apply Hc. split; assumption.
  - unfold calc_percentile_interval, check_conf_percentage_validity. destruct conf as [c|]; [|reflexivity].
    destruct (Rlt_dec 0 c); [|reflexivity]. destruct (Rlt_dec c 100); reflexivity.
Qed.

(** Five replicates 3, 1, 5, 2, 4 at 50%: positions 1 and 3 of the sorted values. *)
Example ex_percentile :
  exists iv, calc_percentile_interval
      (Samples2D 5 1 (fun b _ => nth b [3; 1; 5; 2; 4] 0)) (ConfNumber 50) = Ok iv /\
    lower_end iv 0 = 2 /\ upper_end iv 0 = 4.
Proof.
  eexists. split; [apply interval_eq; [lia|lra]|].
  rewrite lower_end_eq, upper_end_eq by lia. cbn [fst snd].
  assert (Es : rsort (column 5 (fun b _ => nth b [3; 1; 5; 2; 4] 0) 0) = [1; 2; 3; 4; 5]).
  { apply sorted_perm_eq; [apply rsort_sorted| |].
    - repeat constructor; lra.
    - rewrite <- rsort_perm. unfold column. simpl.
      rewrite perm_swap. constructor. rewrite (perm_swap 2 5 [4]) at 1.
      rewrite (perm_swap 2 3 [5; 4]). constructor. constructor. apply perm_swap. }
  rewrite !percentile_rank, Es, column_length. unfold rank.
  replace ((100 - 50) / 2 / 100 * (INR 5 - 1)) with (IZR 1) by (simpl; lra).
  replace ((100 - (100 - 50) / 2) / 100 * (INR 5 - 1)) with (IZR 3) by (simpl; lra).
  assert (Ef : floorZ (IZR 1) = 1%Z).
  { apply Z.le_antisymm; [apply floorZ_upper; lra|]. pose proof (floorZ_spec 1).
    assert (IZR 0 < IZR (floorZ 1)) by lra. apply lt_IZR in H0. lia. }
  assert (Ec : ceilZ (IZR 3) = 3%Z).
  { apply Z.le_antisymm; [apply ceilZ_upper; lra|]. pose proof (ceilZ_spec 3). apply le_IZR. lra. }
  rewrite Ef, Ec. split; reflexivity.
Qed.

Print Assumptions C57_percentile_interval.
Print Assumptions C57_not_too_wide.
Print Assumptions C57_higher_confidence_contains.
Print Assumptions C57_replicate_order_irrelevant.
Print Assumptions C57_transformation_respecting.
Print Assumptions C57_rejections.
