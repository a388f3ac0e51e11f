(** Textbook notions, stated without reference to the model's code.

    A long-format dataset has rows [0 .. N-1]; [own i] names the observation that
    row [i] belongs to. *)
From Coq Require Import Reals Arith ZArith List.
From Coquelicot Require Import Coquelicot.
From Verif Require Import Vec.
Open Scope R_scope.

(** Sum of [f] over the rows of observation [o]. *)
Definition osum (N : nat) (own : nat -> nat) (o : nat) (f : vec) : R :=
  sumn N (fun i => if (own i =? o)%nat then f i else 0).

(** Sum of [f] over the rows whose identifier (in the list [ids]) is [o]. *)
Definition id_sum (ids : list Z) (o : Z) (f : vec) : R :=
  sumn (length ids) (fun i => if (nth i ids 0%Z =? o)%Z then f i else 0).

(** The matrix [M] is the 0/1 indicator of [own]. *)
Definition indicator_of (N n : nat) (M : mat) (own : nat -> nat) : Prop :=
  forall i, (i < N)%nat ->
    (own i < n)%nat /\
    (forall j, (j < n)%nat -> M i j = if (own i =? j)%nat then 1 else 0).

(** Each observation has exactly one chosen row. *)
Definition one_choice (N : nat) (own : nat -> nat) (y : vec) : Prop :=
  (forall i, (i < N)%nat -> y i = 0 \/ y i = 1) /\
  (forall i, (i < N)%nat -> osum N own (own i) y = 1).

(** All rows of an observation carry the same weight. *)
Definition weights_per_observation (N : nat) (own : nat -> nat) (w : vec) : Prop :=
  forall i i', (i < N)%nat -> (i' < N)%nat -> own i = own i' -> w i = w i'.

(** Symmetric and positive semidefinite matrices of size n. *)
Definition symmetric (n : nat) (a : mat) : Prop :=
  forall i j, (i < n)%nat -> (j < n)%nat -> a i j = a j i.

Definition quad (n : nat) (a : mat) (z : vec) : R :=
  sumn n (fun i => sumn n (fun j => z i * a i j * z j)).

Definition psd (n : nat) (a : mat) : Prop := forall z, 0 <= quad n a z.
Definition nsd (n : nat) (a : mat) : Prop := forall z, quad n a z <= 0.
