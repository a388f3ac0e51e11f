(** The nested logit's probabilities in double precision, with their guards against overflow
    and underflow (src/pylogit/nested_choice_calcs.py).

    One observation: [V i] is the systematic utility of row [i] (line 120), [nst i] the nest of
    its alternative and [lam q] the coefficient of nest [q].  The products with
    rows_to_nests and rows_to_obs that copy one value to each row (0 + 1 * x) are left out.
    [ex] is np.exp, [pw] np.power on finite doubles with a positive base. *)
From Coq Require Import ZArith Reals List.
From Flocq Require Import Core.
From Verif Require Import Res Vec Arr ChoiceCalcs NestedCalcs Floats FloatTransforms.
Import ListNotations.
Open Scope R_scope.

(** np.power: a zero base gives 0, 1 or infinity *)
Definition fpower (pw : R -> R -> R) (a b : fl) : fl :=
  match a, b with
  | FNum x, FNum y =>
      if Req_EM_T x 0 then if Rlt_dec 0 y then FNum 0 else if Req_EM_T y 0 then FNum 1 else FInf false
      else overflow (pw x y)
  | _, _ => fpow pw a b
  end.

(** nested_choice_calcs.py:125-132 *)
Definition fscaled_index (V : fl) (l : R) : fl := on_neginf fminus_big (on_posinf fbig (fdiv V (FNum l))).
(** nested_choice_calcs.py:134-148 *)
Definition fexp_scaled (ex : R -> R) (V : fl) (l : R) : fl := fguard_zero (on_posinf fbig (fexp ex (fscaled_index V l))).

(** nested_choice_calcs.py:466-496 for one nest *)
Definition fnatural_nest (ex : R -> R) (theta : fl) : fl :=
  fguard_zero (fdiv (FNum 1) (fadd (FNum 1) (on_posinf fbig (fexp ex (fneg theta))))).

Section Observation.
  Context (ex : R -> R) (pw : R -> R -> R) (V : nat -> fl) (nst : nat -> nat) (lam : nat -> R).
  (** The rows of nest [q] are added in the order [t q], the nests in the order [tq]. *)
  Context (t : nat -> sum_order) (tq : sum_order).

  Definition frow_exp (i : nat) : fl := fexp_scaled ex (V i) (lam (nst i)).
  (** nested_choice_calcs.py:150-164 *)
  Definition fnest_sum (q : nat) : fl := on_posinf fbig (fsum (t q) frow_exp).
  (** nested_choice_calcs.py:183-192 *)
  Definition fnest_denominator : fl :=
    fguard_zero (on_posinf fbig (fsum tq (fun q => fpower pw (fnest_sum q) (FNum (lam q))))).
  (** nested_choice_calcs.py:166-181, 199-208 *)
  Definition fnest_numerator (i : nat) : fl :=
    fguard_zero (on_posinf fbig
      (fmul (frow_exp i) (fpower pw (fnest_sum (nst i)) (fsub (FNum (lam (nst i))) (FNum 1))))).
  (** nested_choice_calcs.py:194-197, 210-213 *)
  Definition float_nested_prob (i : nat) : fl := fguard_zero (fdiv (fnest_numerator i) fnest_denominator).
End Observation.
