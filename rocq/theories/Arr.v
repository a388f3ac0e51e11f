(** One-dimensional numpy arrays of floats: a length and an index function.
    Library material; only indices below the length are ever read. *)
From Coq Require Import Reals Lra Lia Arith.
From Coquelicot Require Import Coquelicot.
From Verif Require Import Vec.
Open Scope R_scope.

Record arr := mkArr { alen : nat; aget : vec }.

(** [np.concatenate((a, b), axis=0)] *)
Definition acat (a b : arr) : arr :=
  mkArr (alen a + alen b) (vcat (alen a) (aget a) (aget b)).

(** [a[lo : lo + n]], for slices that lie inside the array. *)
Definition aslice (lo n : nat) (a : arr) : arr :=
  mkArr n (fun i => aget a (lo + i)%nat).

(** Replace one component. *)
Definition aupd (a : arr) (k : nat) (t : R) : arr := mkArr (alen a) (upd (aget a) k t).

(** [np.square(a).sum()] *)
Definition asumsq (a : arr) : R := sumn (alen a) (fun i => aget a i * aget a i).

(** A matrix with an explicit number of columns (2-D arrays whose number of
    rows is the number of rows of the long-format data). *)
Record cmat := mkCmat { ccols : nat; cent : mat }.

(** Equality of arrays as arrays: same length, same entries. *)
Definition arr_eq (a b : arr) : Prop :=
  alen a = alen b /\ forall i, (i < alen a)%nat -> aget a i = aget b i.
