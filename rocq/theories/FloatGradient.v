(** One entry of the gradient of the log-likelihood in double precision
    (src/pylogit/choice_calcs.py:387-486). *)
From Coq Require Import ZArith Reals List.
From Flocq Require Import Core.
From Verif Require Import Res Vec Arr ChoiceCalcs Floats FloatTransforms FloatUtilities.
Import ListNotations.
Open Scope R_scope.

(** choice_calcs.py:403-404, 428: np.multiply(weights, choice_vector - long_probs); a missing
    weight vector is the number 1. *)
Definition float_residual (y w : nat -> R) (p : nat -> fl) (i : nat) : fl :=
  fmul (FNum (w i)) (fsub (FNum (y i)) (p i)).

(** choice_calcs.py:431, 446-448, 462, 474: the product with a column [H] of dh_db, dh_dc or
    dh_d_alpha, in the order [order]. *)
Definition float_score (y w : nat -> R) (p : nat -> fl) (H : nat -> fl) (order : dot_order) : fl :=
  fdot order (float_residual y w p) H.

(** choice_calcs.py:483-484: gradient -= 2 * ridge * params *)
Definition float_gradient_entry (y w : nat -> R) (p : nat -> fl) (H : nat -> fl) (order : dot_order)
    (ridge : option R) (theta : fl) : fl :=
  let s := float_score y w p H order in
  match ridge with None => s | Some r => fsub s (fmul (fmul (FNum 2) (FNum r)) theta) end.
