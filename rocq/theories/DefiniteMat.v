(** Definite matrices.  Library material: nothing here models code. *)
From Coq Require Import Reals Lra Lia Arith Classical.
From Verif Require Import Vec SpecLogit PropHessian.
Open Scope R_scope.

(** z' A z > 0 (< 0) unless z = 0 *)
Definition posdef (n : nat) (a : mat) : Prop :=
  forall z, (exists j, (j < n)%nat /\ z j <> 0) -> 0 < quad n a z.
Definition negdef (n : nat) (a : mat) : Prop :=
  forall z, (exists j, (j < n)%nat /\ z j <> 0) -> quad n a z < 0.

Lemma quad_mvec n a z : quad n a z = sumn n (fun i => z i * mvec n a z i).
Proof.
  unfold quad, mvec. apply sumn_ext. intros i _. rewrite <- sumn_scal_l. apply sumn_ext. intros; ring.
Qed.

Lemma quad_S n a z : symmetric (S n) a ->
  quad (S n) a z = quad n a z + 2 * z n * sumn n (fun i => a n i * z i) + z n * a n n * z n.
Proof.
  intros Hs. unfold quad. cbn [sumn]. rewrite sumn_plus.
  rewrite (sumn_ext n (fun i => z i * a i n * z n) (fun i => z n * (a n i * z i))).
  2: { intros i Hi. rewrite (Hs i n) by lia. ring. }
  rewrite (sumn_ext n (fun j => z n * a n j * z j) (fun i => z n * (a n i * z i))) by (intros; ring).
  rewrite sumn_scal_l. ring.
Qed.

(** A symmetric positive definite system has a solution. *)
Lemma posdef_solve n : forall a, symmetric n a -> posdef n a ->
  forall b, exists x, forall i, (i < n)%nat -> mvec n a x i = b i.
Proof.
  induction n as [|n IH]; intros a Hs Hp b.
  { exists (fun _ => 0). intros i Hi. lia. }
  assert (Hs' : symmetric n a) by (intros i j Hi Hj; apply Hs; lia).
  assert (Hp' : posdef n a).
  { intros z (j & Hj & Hz). specialize (Hp (fun i => if (i =? n)%nat then 0 else z i)).
    rewrite quad_S in Hp by exact Hs. rewrite Nat.eqb_refl in Hp.
    assert (E : quad n a (fun i => if (i =? n)%nat then 0 else z i) = quad n a z).
    { unfold quad. apply sumn_ext. intros i Hi. apply sumn_ext. intros k Hk.
      destruct (Nat.eqb_spec i n), (Nat.eqb_spec k n); try lia. reflexivity. }
    rewrite E in Hp. assert (0 < quad n a z + 2 * 0 * sumn n (fun i => a n i * (if (i =? n)%nat then 0 else z i)) + 0 * a n n * 0); [|lra].
    apply Hp. exists j. split; [lia|]. destruct (Nat.eqb_spec j n); [lia|exact Hz]. }
  destruct (IH a Hs' Hp' (fun i => a n i)) as (y & Hy).
  destruct (IH a Hs' Hp' b) as (x0 & Hx).
  set (s := a n n - sumn n (fun i => a n i * y i)).
  assert (Hpos : 0 < s).
  { specialize (Hp (fun i => if (i =? n)%nat then 1 else - y i)).
    rewrite quad_S in Hp by exact Hs. rewrite Nat.eqb_refl in Hp.
    assert (E1 : quad n a (fun i => if (i =? n)%nat then 1 else - y i) = sumn n (fun i => a n i * y i)).
    { rewrite quad_mvec. apply sumn_ext. intros i Hi. destruct (Nat.eqb_spec i n); [lia|].
      rewrite <- (Hy i Hi). unfold mvec.
      rewrite (sumn_ext n (fun k => a i k * (if (k =? n)%nat then 1 else - y k)) (fun k => -1 * (a i k * y k))).
      - rewrite sumn_scal_l. ring.
      - intros k Hk. destruct (Nat.eqb_spec k n); [lia|ring]. }
    assert (E2 : sumn n (fun i => a n i * (if (i =? n)%nat then 1 else - y i)) = - sumn n (fun i => a n i * y i)).
    { rewrite <- sumn_opp. apply sumn_ext. intros k Hk. destruct (Nat.eqb_spec k n); [lia|ring]. }
    rewrite E1, E2 in Hp. unfold s.
    enough (0 < sumn n (fun i => a n i * y i) + 2 * 1 * - sumn n (fun i => a n i * y i) + 1 * a n n * 1) by lra.
    apply Hp. exists n. split; [lia|]. rewrite Nat.eqb_refl. lra. }
  set (t := (b n - sumn n (fun i => a n i * x0 i)) / s).
  exists (fun i => if (i =? n)%nat then t else x0 i - t * y i). intros i Hi.
  unfold mvec. cbn [sumn]. rewrite Nat.eqb_refl.
  rewrite (sumn_ext n _ (fun k => a i k * x0 k - t * (a i k * y k))).
  2: { intros k Hk. destruct (Nat.eqb_spec k n); [lia|ring]. }
  rewrite sumn_minus, sumn_scal_l.
  destruct (Nat.eq_dec i n) as [->|Hne].
  - assert (Et : t * s = b n - sumn n (fun i => a n i * x0 i)) by (unfold t; field; lra). unfold s in Et. lra.
  - fold (mvec n a x0 i). fold (mvec n a y i). rewrite Hx, Hy by lia. rewrite (Hs n i) by lia. ring.
Qed.

Lemma finite_choice {A} (n : nat) (P : nat -> A -> Prop) (a0 : A) :
  (forall j, (j < n)%nat -> exists x, P j x) -> exists f, forall j, (j < n)%nat -> P j (f j).
Proof.
  induction n as [|n IH]; intros H; [exists (fun _ => a0); intros; lia|].
  destruct IH as (f & Hf); [intros; apply H; lia|]. destruct (H n ltac:(lia)) as (x & Hx).
  exists (fun j => if (j =? n)%nat then x else f j). intros j Hj.
  destruct (Nat.eqb_spec j n) as [->|]; [exact Hx|apply Hf; lia].
Qed.

(** For a symmetric matrix a right inverse is an inverse. *)
Lemma right_inverse_is_inverse n a b : symmetric n a ->
  (forall i j, (i < n)%nat -> (j < n)%nat -> mdot n a b i j = if (i =? j)%nat then 1 else 0) ->
  is_inverse n a b.
Proof.
  intros Hs H1.
  assert (T : forall i k, (i < n)%nat -> (k < n)%nat -> sumn n (fun p => b p i * a p k) = if (k =? i)%nat then 1 else 0).
  { intros i k Hi Hk. rewrite <- (H1 k i Hk Hi). unfold mdot. apply sumn_ext. intros p Hp. rewrite (Hs k p Hk Hp). ring. }
  assert (Sb : forall i j, (i < n)%nat -> (j < n)%nat -> b i j = b j i).
  { intros i j Hi Hj. transitivity (sumn n (fun k => sumn n (fun p => b p i * a p k) * b k j)).
    - rewrite (sumn_ext n _ (fun k => if (k =? i)%nat then b k j else 0)).
      + symmetry. apply (sumn_single n i (fun k => b k j) Hi).
      + intros k Hk. rewrite T by assumption. destruct (k =? i)%nat; ring.
    - rewrite (sumn_ext n _ (fun k => sumn n (fun p => b p i * (a p k * b k j)))).
      2: { intros k _. rewrite <- sumn_scal_r. apply sumn_ext. intros; ring. }
      rewrite sumn_swap.
      rewrite (sumn_ext n _ (fun p => if (p =? j)%nat then b p i else 0)).
      + apply (sumn_single n j (fun p => b p i) Hj).
      + intros p Hp. rewrite sumn_scal_l. specialize (H1 p j Hp Hj). unfold mdot in H1. rewrite H1.
        destruct (p =? j)%nat; ring. }
  split; [exact H1|]. intros i j Hi Hj. rewrite Nat.eqb_sym. rewrite <- (T i j Hi Hj). unfold mdot.
  apply sumn_ext. intros k Hk. rewrite (Sb i k Hi Hk). reflexivity.
Qed.

Lemma quad_neg n a z : quad n (fun i j => - a i j) z = - quad n a z.
Proof. unfold quad. rewrite <- sumn_opp. apply sumn_ext. intros i _. rewrite <- sumn_opp. apply sumn_ext. intros; ring. Qed.

Lemma negdef_inverse n a : symmetric n a -> negdef n a -> exists b, is_inverse n a b.
Proof.
  intros Hs Hn.
  assert (Hs' : symmetric n (fun i j => - a i j)) by (intros i j Hi Hj; rewrite (Hs i j Hi Hj); reflexivity).
  assert (Hp : posdef n (fun i j => - a i j)) by (intros z Hz; rewrite quad_neg; specialize (Hn z Hz); lra).
  destruct (finite_choice n (fun j x => forall i, (i < n)%nat -> mvec n (fun i j => - a i j) x i = - ident i j) (fun _ => 0)) as (f & Hf).
  { intros j _. destruct (posdef_solve n _ Hs' Hp (fun i => - ident i j)) as (x & Hx). exists x. exact Hx. }
  exists (fun i j => f j i). apply right_inverse_is_inverse; [exact Hs|]. intros i j Hi Hj.
  specialize (Hf j Hj i Hi). unfold mvec in Hf. unfold mdot.
  rewrite (sumn_ext n _ (fun k => -1 * (a i k * f j k))) in Hf by (intros; ring). rewrite sumn_scal_l in Hf.
  unfold ident in Hf. lra.
Qed.

(** The diagonal of the inverse of a negative definite matrix is negative. *)
Lemma negdef_inverse_diag n a b j :
  negdef n a -> (forall i k, (i < n)%nat -> (k < n)%nat -> mdot n a b i k = if (i =? k)%nat then 1 else 0) ->
  (j < n)%nat -> b j j < 0.
Proof.
  intros Hn H1 Hj. set (z := fun i => b i j).
  assert (Ez : forall i, (i < n)%nat -> mvec n a z i = if (i =? j)%nat then 1 else 0) by (intros i Hi; apply (H1 i j Hi Hj)).
  assert (Eq : quad n a z = b j j).
  { rewrite quad_mvec. rewrite (sumn_ext n _ (fun i => if (i =? j)%nat then z i else 0)).
    - apply (sumn_single n j z Hj).
    - intros i Hi. rewrite Ez by exact Hi. destruct (i =? j)%nat; ring. }
  rewrite <- Eq. apply Hn. apply Classical_Pred_Type.not_all_not_ex. intros Hall.
  assert (Z : forall i, (i < n)%nat -> z i = 0).
  { intros i Hi. destruct (Req_dec (z i) 0) as [E|E]; [exact E|]. exfalso. apply (Hall i). auto. }
  specialize (Ez j Hj). rewrite Nat.eqb_refl in Ez. unfold mvec in Ez.
  rewrite sumn_eq0 in Ez; [lra|]. intros k Hk. rewrite Z by exact Hk. ring.
Qed.

(** A matrix that kills a non-zero vector has no inverse. *)
Lemma singular_no_inverse n a v j b :
  (forall i, (i < n)%nat -> mvec n a v i = 0) -> (j < n)%nat -> v j <> 0 -> ~ is_inverse n a b.
Proof.
  intros Hz Hj Hv [_ H2]. apply Hv.
  transitivity (sumn n (fun k => mdot n b a j k * v k)).
  - rewrite (sumn_ext n _ (fun k => if (k =? j)%nat then v k else 0)).
    + symmetry. apply (sumn_single n j v Hj).
    + intros k Hk. rewrite H2 by assumption. rewrite Nat.eqb_sym. destruct (k =? j)%nat; ring.
  - rewrite (sumn_ext n _ (fun k => sumn n (fun p => b j p * (a p k * v k)))).
    2: { intros k _. unfold mdot. rewrite <- sumn_scal_r. apply sumn_ext. intros; ring. }
    rewrite sumn_swap. apply sumn_eq0. intros p Hp. rewrite sumn_scal_l. specialize (Hz p Hp). unfold mvec in Hz.
    rewrite Hz. ring.
Qed.
