(** Mixed logit: the gradient in double precision (src/pylogit/mixed_logit_calcs.py:448-475). *)
From Coq Require Import ZArith Reals List.
From Flocq Require Import Core.
From Verif Require Import Floats FloatTransforms FloatUtilities FloatMixed.
Open Scope R_scope.

(** mixed_logit_calcs.py:451-455: the probability of the sequence under draw [r] over the
    simulated probability (the products with rows_to_mixers only copy the values to the rows
    of the decision maker) *)
Definition fdraw_weight (ex lg : R -> R) (y : nat -> bool) (p : nat -> nat -> fl) (t tr : sum_order) (n r : nat) : fl :=
  fdiv (fsequence_prob ex lg y (fun i => p i r) t) (fsimulated_prob ex lg y p t tr n).

(** mixed_logit_calcs.py:457-467: contribution of row [i] under draw [r] to the entry of the
    gradient for one column [X] of the design; [g i r] is the weight of draw [r] for the
    decision maker of row [i] *)
Definition fmixed_term (y w : nat -> R) (p g : nat -> nat -> fl) (X : nat -> nat -> R) (r i : nat) : fl :=
  fmul (fmul (fmul (fsub (FNum (y i)) (p i r)) (g i r)) (FNum (X i r))) (FNum (w i)).
(** mixed_logit_calcs.py:465-469: rows are added up in the order [t], draws in the order [tr] *)
Definition fmixed_gradient_entry (y w : nat -> R) (p g : nat -> nat -> fl) (X : nat -> nat -> R) (t tr : sum_order) (n : nat) : fl :=
  fdiv (fsum tr (fun r => fsum t (fmixed_term y w p g X r))) (FNum (INR n)).
(** mixed_logit_calcs.py:471-473: gradient -= 2 * ridge * params *)
Definition fmixed_gradient (y w : nat -> R) (p g : nat -> nat -> fl) (X : nat -> nat -> R) (t tr : sum_order) (n : nat)
    (ridge : option R) (theta : R) : fl :=
  let s := fmixed_gradient_entry y w p g X t tr n in
  match ridge with None => s | Some r => fsub s (fmul (fmul (FNum 2) (FNum r)) (FNum theta)) end.
