(** One- and two-dimensional numpy arrays with broadcasting.  Library material: nothing
    here models code of pylogit; each definition says which numpy operation it stands
    for.  Only entries inside the shape are ever read. *)
From Coq Require Import Reals Lia Arith Bool.
From Verif Require Import Res Vec Arr.
Open Scope R_scope.

Inductive nd := A1 (n : nat) (f : vec) | A2 (n m : nat) (f : mat).

(** [a.shape[0]] *)
Definition nd_rows (x : nd) : nat := match x with A1 n _ => n | A2 n _ _ => n end.

(** [len(a.shape) > 1 and a.shape[1] > 1] *)
Definition several_columns (x : nd) : bool :=
  match x with A1 _ _ => false | A2 _ m _ => (1 <? m)%nat end.

(** One dimension of numpy's broadcasting, and the index it reads. *)
Definition bdim (n m : nat) : Res nat :=
  if (n =? m)%nat then Ok n else if (n =? 1)%nat then Ok m else if (m =? 1)%nat then Ok n else Err ValueError.
Definition bidx (n i : nat) : nat := if (n =? 1)%nat then 0%nat else i.

(** A binary ufunc. *)
Definition bop (op : R -> R -> R) (x y : nd) : Res nd :=
  match x, y with
  | A1 n f, A1 m g =>
      do k <- bdim n m; Ok (A1 k (fun i => op (f (bidx n i)) (g (bidx m i))))
  | A2 n p f, A2 m q g =>
      do k <- bdim n m;
      do l <- bdim p q;
      Ok (A2 k l (fun i j => op (f (bidx n i) (bidx p j)) (g (bidx m i) (bidx q j))))
  | A1 p f, A2 m q g =>
      do l <- bdim p q; Ok (A2 m l (fun i j => op (f (bidx p j)) (g i (bidx q j))))
  | A2 m q f, A1 p g =>
      do l <- bdim q p; Ok (A2 m l (fun i j => op (f i (bidx q j)) (g (bidx p j))))
  end.

(** A unary ufunc. *)
Definition umap (op : R -> R) (x : nd) : nd :=
  match x with A1 n f => A1 n (fun i => op (f i)) | A2 n m f => A2 n m (fun i j => op (f i j)) end.

(** [x op= y]: the result must have the shape of x. *)
Definition same_shape (x y : nd) : bool :=
  match x, y with
  | A1 n _, A1 m _ => (n =? m)%nat
  | A2 n p _, A2 m q _ => ((n =? m)%nat && (p =? q)%nat)%bool
  | _, _ => false
  end.
Definition inplace (op : R -> R -> R) (x y : nd) : Res nd :=
  do z <- bop op x y; if same_shape x z then Ok z else Err ValueError.

(** [M.dot(x)] for a matrix of [n] rows and [k] columns *)
Definition nd_dot (n k : nat) (M : mat) (x : nd) : Res nd :=
  match x with
  | A1 m f => if (m =? k)%nat then Ok (A1 n (mvec k M f)) else Err ValueError
  | A2 m c f => if (m =? k)%nat then Ok (A2 n c (mdot k M f)) else Err ValueError
  end.

(** [x.sum(axis=0) + 1], for a one-dimensional [x] a scalar, here of shape (1,) *)
Definition sum0_plus_1 (x : nd) : nd :=
  match x with
  | A1 n f => A1 1 (fun _ => sumn n f + 1)
  | A2 n m f => A1 m (fun j => sumn n (fun i => f i j) + 1)
  end.

(** [x[:, None]] when x is one-dimensional *)
Definition as_column (x : nd) : nd := match x with A1 n f => A2 n 1 (fun i _ => f i) | A2 _ _ _ => x end.

(** [x.ravel()] for an array with at most one column *)
Definition ravel (x : nd) : nd :=
  match x with
  | A1 _ _ => x
  | A2 n m f => A1 (n * m) (fun i => f i 0%nat)
  end.

(** The value of an assignment [z[idx] = x], where the selected region has shape (cnt,):
    leading dimensions of length one are dropped, and the rest is broadcast. *)
Definition to_region (cnt : nat) (x : nd) : Res vec :=
  let one m (g : vec) :=
    if (m =? cnt)%nat then Ok g else if (m =? 1)%nat then Ok (fun _ => g 0%nat) else Err ValueError in
  match x with
  | A1 m g => one m g
  | A2 n m g => if (n =? 1)%nat then one m (g 0%nat) else Err ValueError
  end.

(** ... and [z[idx, :] = x] with a region of shape (cnt, cols). *)
Definition to_region2 (cnt cols : nat) (x : nd) : Res mat :=
  match x with
  | A1 m g => if (m =? cols)%nat then Ok (fun _ => g) else if (m =? 1)%nat then Ok (fun _ _ => g 0%nat) else Err ValueError
  | A2 n m g =>
      do _ <- (if ((n =? cnt)%nat || (n =? 1)%nat)%bool then Ok tt else Err ValueError);
      do _ <- (if ((m =? cols)%nat || (m =? 1)%nat)%bool then Ok tt else Err ValueError);
      Ok (fun i j => g (if (n =? cnt)%nat then i else 0%nat) (if (m =? cols)%nat then j else 0%nat))
  end.

(** Column [j] as a one-dimensional array. *)
Definition column (j : nat) (x : nd) : arr :=
  match x with A1 n f => mkArr n f | A2 n _ f => mkArr n (fun i => f i j) end.
