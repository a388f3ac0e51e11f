(** The utility transformations in double precision, row by row, with their guards against
    overflow and underflow (src/pylogit/clog_log.py, scobit.py, uneven_logit.py,
    asym_logit.py).

    np.exp, np.log, np.log1p and np.power are parameters [ex], [lg], [l1], [pw] on finite
    doubles; their behaviour at infinities, zero and negative numbers is written out.  The
    products with rows_to_alts copy one value to each row (0 + 1 * x), so each definition
    takes the values of its row. *)
From Coq Require Import ZArith Reals List.
From Flocq Require Import Core.
From Verif Require Import Res Vec Arr ChoiceCalcs NestedCalcs Floats.
Import ListNotations.
Open Scope R_scope.

Definition fneg (x : fl) : fl :=
  match x with FNum r => FNum (- r) | FInf s => FInf (negb s) | FNaN => FNaN end.
Definition fsub (a b : fl) : fl := fadd a (fneg b).
Definition sign_of (x : R) : bool := if Rlt_dec x 0 then true else false.
Definition fmul (a b : fl) : fl :=
  match a, b with
  | FNaN, _ | _, FNaN => FNaN
  | FNum x, FNum y => overflow (rnd (x * y))
  | FInf s, FInf s' => FInf (xorb s s')
  | FInf s, FNum y => if Req_EM_T y 0 then FNaN else FInf (xorb s (sign_of y))
  | FNum x, FInf s => if Req_EM_T x 0 then FNaN else FInf (xorb (sign_of x) s)
  end.

(** np.exp *)
Definition fexp (ex : R -> R) (x : fl) : fl :=
  match x with FNum r => overflow (ex r) | FInf true => FNum 0 | FInf false => FInf false | FNaN => FNaN end.
(** np.log *)
Definition fln (lg : R -> R) (x : fl) : fl :=
  match x with
  | FNum r => if Rlt_dec 0 r then FNum (lg r) else if Req_EM_T r 0 then FInf true else FNaN
  | FInf false => FInf false
  | _ => FNaN
  end.
(** np.log1p *)
Definition fln1p (l1 : R -> R) (x : fl) : fl :=
  match x with
  | FNum r => if Rlt_dec (-1) r then FNum (l1 r) else if Req_EM_T r (-1) then FInf true else FNaN
  | FInf false => FInf false
  | _ => FNaN
  end.
(** np.power with a base of at least one; other infinite or undefined arguments do not occur
    below unless a utility is undefined (np.power(nan, 0) = 1 is not modelled). *)
Definition fpow (pw : R -> R -> R) (a b : fl) : fl :=
  match a, b with
  | FNum x, FNum y => overflow (pw x y)
  | FInf false, FNum y => if Rlt_dec 0 y then FInf false else if Req_EM_T y 0 then FNum 1 else FNum 0
  | _, _ => FNaN
  end.

(** x[np.isposinf(x)] = v and x[np.isneginf(x)] = v *)
Definition on_posinf (v x : fl) : fl := match x with FInf false => v | _ => x end.
Definition on_neginf (v x : fl) : fl := match x with FInf true => v | _ => x end.
(** x[np.isinf(x)] = v *)
Definition on_inf (v x : fl) : fl := match x with FInf _ => v | _ => x end.

(** clog_log.py:34, scobit.py:33, uneven_logit.py:40, asym_logit.py:39: 1e300 *)
Definition fmax_comp : R := rnd max_comp_value.
Definition fbig : fl := FNum fmax_comp.
Definition fminus_big : fl := FNum (- fmax_comp).

(** transformations += rows_to_alts.dot(all_intercepts), if there are intercepts *)
Definition add_intercept (t : fl) (icpt : option fl) : fl := match icpt with Some a => fadd t a | None => t end.

(** V >= c for a literal c *)
Definition fge (V : fl) (c : R) : bool :=
  match V with FNum r => if Rle_dec (rnd c) r then true else false | FInf s => negb s | FNaN => false end.
(** V < 0 and V >= 0 as numbers *)
Definition fis_ge0 (V : fl) : fl := FNum (match V with FNum r => if Rle_dec 0 r then 1 else 0 | FInf s => if s then 0 else 1 | FNaN => 0 end).
Definition fis_lt0 (V : fl) : fl := FNum (match V with FNum r => if Rlt_dec r 0 then 1 else 0 | FInf s => if s then 1 else 0 | FNaN => 0 end).

(** clog_log.py:160-203 *)
Definition fcloglog (ex lg : R -> R) (V : fl) (icpt : option fl) : fl :=
  let exp_v := fexp ex V in
  let exp_exp_v := fexp ex exp_v in
  let t := on_neginf fminus_big (fln lg (fsub exp_exp_v (FNum 1))) in
  let t := if fge V 3.7 then fexp ex V else t in
  add_intercept (on_posinf fbig t) icpt.

(** scobit.py:184-185, uneven_logit.py:163-164: the natural shape parameter *)
Definition fnatural_shape (ex : R -> R) (shape : fl) : fl := on_posinf fbig (fexp ex shape).

(** scobit.py:181-207; the intercept is zero if there is none *)
Definition fscobit (ex lg : R -> R) (pw : R -> R -> R) (V shape icpt : fl) : fl :=
  let s := fnatural_shape ex shape in
  let exp_neg_v := on_posinf fbig (fexp ex (fmul (FNum (-1)) V)) in
  let powered_term := on_posinf fbig (fpow pw (fadd (FNum 1) exp_neg_v) s) in
  let term_2 := fln lg (fsub powered_term (FNum 1)) in
  let term_2 := match powered_term with FInf false => fmul (fmul (FNum (-1)) s) V | _ => term_2 end in
  on_neginf fminus_big (on_posinf fbig (fsub icpt term_2)).

(** uneven_logit.py:162-232 *)
Definition funeven (ex l1 : R -> R) (V shape : fl) (icpt : option fl) : fl :=
  let s := fnatural_shape ex shape in
  let exp_neg := fexp ex (fmul (FNum (-1)) V) in
  let log_1 := on_inf (fmul (FNum (-1)) V) (fln1p l1 exp_neg) in
  let exp_neg_shape := fexp ex (fmul (fmul (FNum (-1)) s) V) in
  let log_2 := on_inf (fmul (fmul (FNum (-1)) s) V) (fln1p l1 exp_neg_shape) in
  let t := fsub (fadd V log_1) log_2 in
  let t := on_neginf fminus_big (on_posinf fbig t) in
  let t := match V with FInf true => fminus_big | _ => t end in
  add_intercept t icpt.

(** asym_logit.py:144-181: the natural shape of the alternative with transformed shape
    [k] ([None]: the reference alternative); the sum of exp(eta) is taken in the order [t]. *)
Definition fexp_eta (ex : R -> R) (eta : nat -> fl) (k : nat) : fl :=
  match on_posinf fbig (fexp ex (eta k)) with
  | FNum x => if Req_EM_T x 0 then FNum fmin_comp_value else FNum x
  | other => other
  end.
Definition fasym_shape (ex : R -> R) (eta : nat -> fl) (t : sum_order) (k : option nat) : fl :=
  let denom := fadd (fsum t (fexp_eta ex eta)) (FNum 1) in
  match k with Some k => fdiv (fexp_eta ex eta k) denom | None => fdiv (FNum 1) denom end.

(** asym_logit.py:286-341; [c] is the natural shape of the row, [J] the number of alternatives *)
Definition fasym (lg : R -> R) (J : nat) (c V : fl) (icpt : option fl) : fl :=
  let log_c := on_neginf fminus_big (fln lg c) in
  let log_1_c := on_neginf fminus_big (fln lg (fdiv (fsub (FNum 1) c) (FNum (INR J - 1)))) in
  let multiplier := fadd (fmul (fis_ge0 V) log_c) (fmul (fis_lt0 V) log_1_c) in
  let t := fsub log_c (fmul V multiplier) in
  let t := match V, c with FInf false, FNum c' => if Req_EM_T c' 1 then FNum 0 else t | _, _ => t end in
  on_neginf fminus_big (on_posinf fbig (add_intercept t icpt)).

(** The transformed utility of a row by model type.  conditional_logit.py:84-109 returns the
    utility itself. *)
Inductive fkind := KMnl | KClog | KScobit | KUneven | KAsym.
Definition ftransform (k : fkind) (ex lg l1 : R -> R) (pw : R -> R -> R) (J : nat) (V shape : fl) (icpt : option fl) : fl :=
  match k with
  | KMnl => V
  | KClog => fcloglog ex lg V icpt
  | KScobit => fscobit ex lg pw V shape (match icpt with Some a => a | None => FNum 0 end)
  | KUneven => funeven ex l1 V shape icpt
  | KAsym => fasym lg J shape V icpt
  end.
