(** Floating point: the last steps of calc_probabilities and the sum of
    calc_log_likelihood (src/pylogit/choice_calcs.py) in double precision.

    A double is [FNum x] with [x] a real number of the format (53 bits, exponents down to
    -1074), an infinity or NaN.  The operations round to nearest, ties to even, and
    overflow, as IEEE 754 prescribes.  The sign of zero is not modelled; nothing below
    divides by zero.  The format and the rounding are Flocq's. *)
From Coq Require Import ZArith Reals List.
From Flocq Require Import Core.
From Verif Require Import Res Vec Arr ChoiceCalcs.
Import ListNotations.
Open Scope R_scope.

Inductive fl := FNum (x : R) | FInf (negative : bool) | FNaN.

Notation double_format := (generic_format radix2 (FLT_exp (-1074) 53)).
Definition rnd (x : R) : R := round radix2 (FLT_exp (-1074) 53) ZnearestE x.

(** Values of 2^1024 and more (after rounding) are infinite. *)
Definition overflow (x : R) : fl :=
  if Rle_dec (bpow radix2 1024) (Rabs x) then FInf (if Rlt_dec x 0 then true else false) else FNum x.

Definition fadd (a b : fl) : fl :=
  match a, b with
  | FNaN, _ | _, FNaN => FNaN
  | FInf s, FInf s' => if Bool.eqb s s' then FInf s else FNaN
  | FInf s, FNum _ => FInf s
  | FNum _, FInf s => FInf s
  | FNum x, FNum y => overflow (rnd (x + y))
  end.

Definition fdiv (a b : fl) : fl :=
  match a, b with
  | FNaN, _ | _, FNaN => FNaN
  | FInf _, FInf _ => FNaN
  | FInf s, FNum y => FInf (xorb s (if Rlt_dec y 0 then true else false))
  | FNum _, FInf _ => FNum 0
  | FNum x, FNum y =>
      if Req_EM_T y 0 then if Req_EM_T x 0 then FNaN else FInf (if Rlt_dec x 0 then true else false)
      else overflow (rnd (x / y))
  end.

(** The order in which numpy or scipy adds up the terms of a sum: terms are numbered.
    [SNothing] is the zero that some sums start from. *)
Inductive sum_order := SNothing | STerm (i : nat) | SPlus (a b : sum_order).
Fixpoint terms_of (t : sum_order) : list nat :=
  match t with SNothing => [] | STerm i => [i] | SPlus a b => terms_of a ++ terms_of b end.
Fixpoint fsum (t : sum_order) (f : nat -> fl) : fl :=
  match t with SNothing => FNum 0 | STerm i => f i | SPlus a b => fadd (fsum a f) (fsum b f) end.

(** choice_calcs.py:143-148: comparisons with NaN are false, so NaN stays. *)
Definition fclip (x : fl) : fl :=
  match x with
  | FNaN => FNaN
  | FInf true => FNum min_exponent_val
  | FInf false => FNum max_exponent_val
  | FNum r => FNum (clip_exponent r)
  end.

(** choice_calcs.py:151.  [ex] is np.exp on finite doubles. *)
Definition fexponential (ex : R -> R) (u : fl) : fl :=
  match fclip u with FNum c => overflow (ex c) | other => other end.

(** choice_calcs.py:164-165 *)
Definition fmin_comp_value : R := rnd min_comp_value.
Definition fguard_zero (p : fl) : fl :=
  match p with FNum x => if Req_EM_T x 0 then FNum fmin_comp_value else FNum x | other => other end.

(** choice_calcs.py:137-165 for row [i] of an observation whose rows are summed in the
    order [t]; [u] are the transformed utilities of all rows.  (The product with
    rows_to_obs in line 158 only copies the denominator to the rows: 0 + 1 * x.) *)
Definition float_prob (ex : R -> R) (u : nat -> fl) (t : sum_order) (i : nat) : fl :=
  fguard_zero (fdiv (fexponential ex (u i)) (fsum t (fun k => fexponential ex (u k)))).

(** choice_calcs.py:271-276, without weights: choice_vector.dot(1 * np.log(long_probs)),
    summed in the order [t].  [lg] is np.log on positive finite doubles; the choices are 0
    or 1, so the products are exact: [true] is 1. *)
Definition flog (lg : R -> R) (p : fl) : fl :=
  match p with FNum x => FNum (lg x) | FInf false => FInf false | _ => FNaN end.
Definition float_log_likelihood (lg : R -> R) (y : nat -> bool) (p : nat -> fl) (t : sum_order) : fl :=
  fsum t (fun i => if y i then flog lg (p i) else match flog lg (p i) with FNum _ => FNum 0 | _ => FNaN end).
