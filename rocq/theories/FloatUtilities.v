(** The systematic utilities in double precision: design.dot(beta),
    src/pylogit/choice_calcs.py:133 (and 243, 384, 523: the same product).

    The linear algebra library decides in which order the products of a row are added and
    whether a product is rounded before it is added (a fused multiply-add rounds once). *)
From Coq Require Import ZArith Reals List.
From Flocq Require Import Core.
From Verif Require Import Res Vec Arr ChoiceCalcs Floats FloatTransforms.
Import ListNotations.
Open Scope R_scope.

(** a + x * y, rounded once *)
Definition ffma (a x y : fl) : fl :=
  match a, x, y with
  | FNum a, FNum x, FNum y => overflow (rnd (a + x * y))
  | FInf s, FNum _, FNum _ => FInf s
  | _, _, _ => fadd a (fmul x y)
  end.

(** How the inner product of two vectors is evaluated. *)
Inductive dot_order := DZero | DTerm (k : nat) | DPlus (a b : dot_order) | DFma (a : dot_order) (k : nat).
Fixpoint dterms (t : dot_order) : list nat :=
  match t with DZero => [] | DTerm k => [k] | DPlus a b => dterms a ++ dterms b | DFma a k => dterms a ++ [k] end.
Fixpoint fdot (t : dot_order) (x y : nat -> fl) : fl :=
  match t with
  | DZero => FNum 0
  | DTerm k => fmul (x k) (y k)
  | DPlus a b => fadd (fdot a x y) (fdot b x y)
  | DFma a k => ffma (fdot a x y) (x k) (y k)
  end.

(** choice_calcs.py:133: the utility of row [i] of the design [X] at [beta] *)
Definition float_utility (X : nat -> nat -> fl) (beta : nat -> fl) (order : nat -> dot_order) (i : nat) : fl :=
  fdot (order i) (X i) beta.
