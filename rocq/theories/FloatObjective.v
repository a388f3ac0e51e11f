(** The function that estimation maximises, in double precision: weighted log-likelihood
    minus ridge penalty (src/pylogit/choice_calcs.py:269-287, nested_choice_calcs.py:332-350,
    the same expressions).

    [lg] is np.log on positive finite doubles. *)
From Coq Require Import ZArith Reals List.
From Flocq Require Import Core.
From Verif Require Import Res Vec Arr ChoiceCalcs Floats FloatTransforms FloatUtilities FloatNested.
Import ListNotations.
Open Scope R_scope.

(** choice_calcs.py:271-276: choice_vector.dot(weights * np.log(long_probs)); a missing
    weight vector is the number 1.  The inner product is evaluated in the order [order]. *)
Definition float_weighted_ll (lg : R -> R) (y w : nat -> R) (p : nat -> fl) (order : dot_order) : fl :=
  fdot order (fun i => FNum (y i)) (fun i => fmul (FNum (w i)) (fln lg (p i))).

(** choice_calcs.py:287: ridge * np.square(params).sum() *)
Definition float_penalty (r : R) (theta : nat -> fl) (t : sum_order) : fl :=
  fmul (FNum r) (fsum t (fun j => fmul (theta j) (theta j))).

(** choice_calcs.py:278-287 *)
Definition float_objective (lg : R -> R) (y w : nat -> R) (p : nat -> fl) (order : dot_order)
    (ridge : option R) (theta : nat -> fl) (t : sum_order) : fl :=
  let ll := float_weighted_ll lg y w p order in
  match ridge with None => ll | Some r => fsub ll (float_penalty r theta t) end.

(** nested_choice_calcs.py:346-348: the penalised parameters of the nested logit are the nest
    coefficients minus one, then the other coefficients *)
Definition float_nested_params (Q : nat) (lam : nat -> R) (beta : arr) (j : nat) : fl :=
  if (j <? Q)%nat then fsub (FNum (lam j)) (FNum 1) else FNum (aget beta (j - Q)%nat).
