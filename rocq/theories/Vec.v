(** Finite sums over index functions.  This file is library material: nothing
    here models code.  A vector of length [n] is a function [nat -> R] of which
    only the indices below [n] are ever used; a matrix is [nat -> nat -> R]. *)
From Coq Require Import Reals Lra Lia Arith Permutation List.
From Coquelicot Require Import Coquelicot.
Open Scope R_scope.

Definition vec := nat -> R.
Definition mat := nat -> nat -> R.

(** [sumn n f] is f 0 + ... + f (n-1). *)
Fixpoint sumn (n : nat) (f : nat -> R) : R :=
  match n with
  | O => 0
  | S m => sumn m f + f m
  end.

(** Replace component [k] of a vector. *)
Definition upd (x : vec) (k : nat) (t : R) : vec :=
  fun i => if (i =? k)%nat then t else x i.

(** Concatenation: the first [n] entries of [a], then [b]. *)
Definition vcat (n : nat) (a b : vec) : vec :=
  fun i => if (i <? n)%nat then a i else b (i - n)%nat.

(** Horizontal concatenation of two matrices, the first with [n] columns. *)
Definition hcat (n : nat) (a b : mat) : mat :=
  fun i => vcat n (a i) (b i).

(** Vertical concatenation of two matrices, the first with [n] rows. *)
Definition vstack (n : nat) (a b : mat) : mat :=
  fun i j => if (i <? n)%nat then a i j else b (i - n)%nat j.

Definition transp (a : mat) : mat := fun i j => a j i.

(** [mdot n a b]: matrix product contracting an index of range [n]. *)
Definition mdot (n : nat) (a b : mat) : mat :=
  fun i j => sumn n (fun k => a i k * b k j).

(** [mvec n a x]: matrix times vector. *)
Definition mvec (n : nat) (a : mat) (x : vec) : vec :=
  fun i => sumn n (fun k => a i k * x k).

(** [vmat n x a]: row vector times matrix. *)
Definition vmat (n : nat) (x : vec) (a : mat) : vec :=
  fun j => sumn n (fun k => x k * a k j).

Definition vdot (n : nat) (x y : vec) : R := sumn n (fun i => x i * y i).

Definition ident : mat := fun i j => if (i =? j)%nat then 1 else 0.

(** Diagonal matrix with diagonal [d] (scipy's [diags(d, 0)]). *)
Definition diagm (d : vec) : mat := fun i j => if (i =? j)%nat then d i else 0.

(** ** Laws of [sumn] *)

Lemma sumn_ext n f g : (forall i, (i < n)%nat -> f i = g i) -> sumn n f = sumn n g.
Proof.
  induction n as [|n IH]; intros H; simpl; auto.
  rewrite IH by (intros; apply H; lia). rewrite H by lia. reflexivity.
Qed.

Lemma sumn_plus n f g : sumn n (fun i => f i + g i) = sumn n f + sumn n g.
Proof. induction n as [|n IH]; simpl; [lra|]. rewrite IH; lra. Qed.

Lemma sumn_minus n f g : sumn n (fun i => f i - g i) = sumn n f - sumn n g.
Proof. induction n as [|n IH]; simpl; [lra|]. rewrite IH; lra. Qed.

Lemma sumn_opp n f : sumn n (fun i => - f i) = - sumn n f.
Proof. induction n as [|n IH]; simpl; [lra|]. rewrite IH; lra. Qed.

Lemma sumn_scal_l n c f : sumn n (fun i => c * f i) = c * sumn n f.
Proof. induction n as [|n IH]; simpl; [lra|]. rewrite IH; lra. Qed.

Lemma sumn_scal_r n c f : sumn n (fun i => f i * c) = sumn n f * c.
Proof. induction n as [|n IH]; simpl; [lra|]. rewrite IH; lra. Qed.

Lemma sumn_div n c f : sumn n (fun i => f i / c) = sumn n f / c.
Proof. unfold Rdiv. apply sumn_scal_r. Qed.

Lemma sumn_zero n : sumn n (fun _ => 0) = 0.
Proof. induction n as [|n IH]; simpl; lra. Qed.

Lemma sumn_eq0 n f : (forall i, (i < n)%nat -> f i = 0) -> sumn n f = 0.
Proof. intros H. rewrite (sumn_ext n f (fun _ => 0)) by auto. apply sumn_zero. Qed.

Lemma sumn_const n c : sumn n (fun _ => c) = INR n * c.
Proof. induction n as [|n IH]; [simpl; lra|]. rewrite S_INR. simpl. rewrite IH. lra. Qed.

Lemma sumn_swap n m f :
  sumn n (fun i => sumn m (fun j => f i j)) = sumn m (fun j => sumn n (fun i => f i j)).
Proof.
  induction n as [|n IH]; simpl.
  - symmetry; apply sumn_zero.
  - rewrite IH. symmetry. apply sumn_plus.
Qed.

Lemma sumn_single n k f :
  (k < n)%nat -> sumn n (fun i => if (i =? k)%nat then f i else 0) = f k.
Proof.
  induction n as [|n IH]; intros H; [lia|]. simpl.
  destruct (Nat.eq_dec k n) as [->|E].
  - rewrite Nat.eqb_refl.
    rewrite sumn_eq0; [lra|]. intros i Hi.
    destruct (Nat.eqb_spec i n); [lia|reflexivity].
  - destruct (Nat.eqb_spec n k); [lia|]. rewrite IH by lia. lra.
Qed.

Lemma sumn_single' n k f :
  (k < n)%nat -> sumn n (fun i => if (k =? i)%nat then f i else 0) = f k.
Proof.
  intros H. rewrite <- (sumn_single n k f H). apply sumn_ext.
  intros i _. rewrite Nat.eqb_sym. reflexivity.
Qed.

Lemma sumn_ge0 n f : (forall i, (i < n)%nat -> 0 <= f i) -> 0 <= sumn n f.
Proof.
  induction n as [|n IH]; intros H; simpl; [lra|].
  assert (0 <= sumn n f) by (apply IH; intros; apply H; lia).
  assert (0 <= f n) by (apply H; lia). lra.
Qed.

Lemma sumn_le n f g : (forall i, (i < n)%nat -> f i <= g i) -> sumn n f <= sumn n g.
Proof.
  induction n as [|n IH]; intros H; simpl; [lra|].
  assert (sumn n f <= sumn n g) by (apply IH; intros; apply H; lia).
  assert (f n <= g n) by (apply H; lia). lra.
Qed.

Lemma sumn_ge_term n f k :
  (forall i, (i < n)%nat -> 0 <= f i) -> (k < n)%nat -> f k <= sumn n f.
Proof.
  intros H Hk. rewrite <- (sumn_single n k f Hk). apply sumn_le.
  intros i Hi. destruct (Nat.eqb_spec i k); [lra|auto].
Qed.

Lemma sumn_pos n f k :
  (forall i, (i < n)%nat -> 0 <= f i) -> (k < n)%nat -> 0 < f k -> 0 < sumn n f.
Proof. intros H Hk Hp. pose proof (sumn_ge_term n f k H Hk). lra. Qed.

Lemma sumn_ge_two n f k l :
  (forall i, (i < n)%nat -> 0 <= f i) -> (k < n)%nat -> (l < n)%nat -> k <> l ->
  f k + f l <= sumn n f.
Proof.
  intros H Hk Hl Hkl.
  rewrite <- (sumn_single n k f Hk), <- (sumn_single n l f Hl), <- sumn_plus.
  apply sumn_le. intros i Hi.
  destruct (Nat.eqb_spec i k); destruct (Nat.eqb_spec i l); try lia.
  - lra.
  - lra.
  - specialize (H i Hi). lra.
Qed.

Lemma sumn_eq0_inv n f :
  (forall i, (i < n)%nat -> 0 <= f i) -> sumn n f = 0 ->
  forall i, (i < n)%nat -> f i = 0.
Proof.
  intros H Hs i Hi. pose proof (sumn_ge_term n f i H Hi). specialize (H i Hi). lra.
Qed.

Lemma sumn_app n m f : sumn (n + m) f = sumn n f + sumn m (fun i => f (n + i)%nat).
Proof.
  induction m as [|m IH].
  - rewrite Nat.add_0_r. simpl. lra.
  - rewrite Nat.add_succ_r. simpl. rewrite IH. lra.
Qed.

Lemma sumn_mult n m f g :
  sumn n f * sumn m g = sumn n (fun i => sumn m (fun j => f i * g j)).
Proof.
  rewrite <- sumn_scal_r. apply sumn_ext. intros i _. rewrite sumn_scal_l. reflexivity.
Qed.

Lemma sumn_abs_le n f : Rabs (sumn n f) <= sumn n (fun i => Rabs (f i)).
Proof.
  induction n as [|n IH]; simpl.
  - rewrite Rabs_R0. lra.
  - eapply Rle_trans; [apply Rabs_triang|]. lra.
Qed.

(** Sum over a list of indices; reindexing along permutations. *)
Definition suml (l : list nat) (f : nat -> R) : R := fold_right (fun i s => f i + s) 0 l.

Lemma suml_app l1 l2 f : suml (l1 ++ l2) f = suml l1 f + suml l2 f.
Proof. induction l1 as [|a l IH]; simpl; [lra|]. unfold suml in IH. unfold suml. rewrite IH. lra. Qed.

Lemma suml_seq n f : suml (seq 0 n) f = sumn n f.
Proof.
  induction n as [|n IH]; [reflexivity|].
  rewrite seq_S, suml_app, IH. simpl. lra.
Qed.

Lemma suml_perm l1 l2 f : Permutation l1 l2 -> suml l1 f = suml l2 f.
Proof. induction 1; simpl in *; unfold suml in *; lra. Qed.

Lemma suml_map l (p : nat -> nat) f : suml (map p l) f = suml l (fun i => f (p i)).
Proof. unfold suml. induction l as [|a l IH]; simpl; [reflexivity|]. rewrite IH. reflexivity. Qed.

(** [perm_on n p]: [p] permutes the indices below [n]. *)
Definition perm_on (n : nat) (p : nat -> nat) : Prop :=
  (forall i, (i < n)%nat -> (p i < n)%nat) /\
  (forall i j, (i < n)%nat -> (j < n)%nat -> p i = p j -> i = j).

Lemma NoDup_map_inj_in (A B : Type) (g : A -> B) (l : list A) :
  (forall x y, In x l -> In y l -> g x = g y -> x = y) -> NoDup l -> NoDup (map g l).
Proof.
  intros Hg Hl. induction Hl as [|a l Ha Hl IH]; simpl; constructor.
  - intros Hin. apply in_map_iff in Hin as [y [Hy Hin]].
    assert (y = a) by (apply Hg; simpl; auto). subst. contradiction.
  - apply IH. intros x y Hx Hy. apply Hg; simpl; auto.
Qed.

Lemma sumn_perm n p f : perm_on n p -> sumn n (fun i => f (p i)) = sumn n f.
Proof.
  intros [Hr Hi].
  rewrite <- !suml_seq, <- suml_map. apply suml_perm.
  apply NoDup_Permutation_bis.
  - apply NoDup_map_inj_in; [|apply seq_NoDup].
    intros x y Hx Hy. apply in_seq in Hx. apply in_seq in Hy. apply Hi; lia.
  - rewrite map_length. lia.
  - intros x Hx. apply in_map_iff in Hx as [y [<- Hy]]. apply in_seq in Hy.
    apply in_seq. specialize (Hr y). lia.
Qed.

(** ** Sums of concatenations *)
Lemma vcat_l n a b i : (i < n)%nat -> vcat n a b i = a i.
Proof. intros H. unfold vcat. destruct (Nat.ltb_spec i n); [reflexivity|lia]. Qed.

Lemma vcat_r n a b i : vcat n a b (n + i)%nat = b i.
Proof. unfold vcat. destruct (Nat.ltb_spec (n + i) n); [lia|]. f_equal; lia. Qed.

Lemma sumn_vcat n m a b g :
  sumn (n + m) (fun i => g (vcat n a b i)) = sumn n (fun i => g (a i)) + sumn m (fun i => g (b i)).
Proof.
  rewrite sumn_app. f_equal; apply sumn_ext; intros i Hi.
  - rewrite vcat_l by auto. reflexivity.
  - rewrite vcat_r. reflexivity.
Qed.

Lemma upd_same x k t : upd x k t k = t.
Proof. unfold upd. rewrite Nat.eqb_refl. reflexivity. Qed.

Lemma upd_other x k t i : i <> k -> upd x k t i = x i.
Proof. intros H. unfold upd. destruct (Nat.eqb_spec i k); [lia|reflexivity]. Qed.

Lemma upd_id x k i : upd x k (x k) i = x i.
Proof. unfold upd. destruct (Nat.eqb_spec i k); [subst|]; reflexivity. Qed.

(** ** Derivatives of sums *)
Lemma is_derive_sumn n (f : nat -> R -> R) (df : nat -> R) (x : R) :
  (forall i, (i < n)%nat -> is_derive (f i) x (df i)) ->
  is_derive (fun t => sumn n (fun i => f i t)) x (sumn n df).
Proof.
  induction n as [|n IH]; intros H; simpl.
  - apply (is_derive_const (K := R_AbsRing) (V := R_NormedModule)).
  - apply (is_derive_plus (K := R_AbsRing) (V := R_NormedModule)).
    + apply IH. intros i Hi. apply H; lia.
    + apply H; lia.
Qed.

Lemma is_derive_upd (x : vec) (k i : nat) :
  is_derive (fun t => upd x k t i) (x k) (if (i =? k)%nat then 1 else 0).
Proof.
  unfold upd. destruct (Nat.eqb_spec i k).
  - apply (is_derive_id (K := R_AbsRing)).
  - apply (is_derive_const (K := R_AbsRing) (V := R_NormedModule)).
Qed.

(** The linear predictor is affine in each coordinate. *)
Lemma is_derive_dot_upd n (a : vec) (x : vec) (k : nat) :
  (k < n)%nat -> is_derive (fun t => sumn n (fun i => a i * upd x k t i)) (x k) (a k).
Proof.
  intros Hk.
  assert (E : sumn n (fun i => a i * (if (i =? k)%nat then 1 else 0)) = a k).
  { rewrite <- (sumn_single n k a Hk). apply sumn_ext. intros i _.
    destruct (i =? k)%nat; lra. }
  rewrite <- E.
  apply (is_derive_sumn n (fun i t => a i * upd x k t i)).
  intros i Hi.
  apply (is_derive_scal (fun t => upd x k t i) (x k) (a i)).
  apply is_derive_upd.
Qed.

(** Convexity: weighted mean of squares dominates the squared weighted mean. *)
Lemma sumn_square_jensen n (p a : vec) :
  (forall i, (i < n)%nat -> 0 <= p i) -> sumn n p = 1 ->
  Rsqr (sumn n (fun i => p i * a i)) <= sumn n (fun i => p i * Rsqr (a i)).
Proof.
  intros Hp H1. set (m := sumn n (fun i => p i * a i)).
  assert (H : 0 <= sumn n (fun i => p i * Rsqr (a i - m))).
  { apply sumn_ge0. intros i Hi. apply Rmult_le_pos; [auto|apply Rle_0_sqr]. }
  assert (E : sumn n (fun i => p i * Rsqr (a i - m)) =
              sumn n (fun i => p i * Rsqr (a i)) - 2 * m * sumn n (fun i => p i * a i)
              + Rsqr m * sumn n p).
  { rewrite <- !sumn_scal_l, <- sumn_minus, <- sumn_plus. apply sumn_ext.
    intros i _. unfold Rsqr. ring. }
  rewrite E, H1 in H. fold m in H. unfold Rsqr in *. lra.
Qed.
