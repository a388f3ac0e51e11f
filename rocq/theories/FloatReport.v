(** The reported statistics of an estimated model in double precision
    (src/pylogit/base_multinomial_cm_v2.py:611-681, 1227-1242, 1574-1623 and
    estimation.py:450-476). *)
From Coq Require Import ZArith Reals List.
From Flocq Require Import Core.
From Verif Require Import Floats FloatTransforms.
Open Scope R_scope.

(** A python int in an operation with a double *)
Definition fint (n : nat) : fl := FNum (rnd (INR n)).

(** base_multinomial_cm_v2.py:639: -2 * log_likelihood + 2 * params.size *)
Definition faic (ll : fl) (k : nat) : fl := fadd (fmul (FNum (-2)) ll) (fint (2 * k)).

(** base_multinomial_cm_v2.py:681; [L] is np.log(nobs) *)
Definition fbic (L ll : fl) (k : nat) : fl := fadd (fmul (FNum (-2)) ll) (fmul L (fint k)).

(** estimation.py:472-474 *)
Definition frho (ll null : fl) : fl := fsub (FNum 1) (fdiv ll null).
Definition frho_bar (ll null : fl) (k : nat) : fl := fsub (FNum 1) (fdiv (fsub ll (fint k)) null).

(** base_multinomial_cm_v2.py:1228: np.sqrt of a variance (square roots are correctly rounded in
    IEEE arithmetic) *)
Definition fstd_err (d : fl) : fl :=
  match d with
  | FNum x => if Rlt_dec x 0 then FNaN else FNum (rnd (sqrt x))
  | FInf false => FInf false
  | _ => FNaN
  end.

(** base_multinomial_cm_v2.py:1234: params / standard_errors.  A standard error of zero is a
    positive zero. *)
Definition ftvalue (p se : fl) : fl := fdiv p se.

(** base_multinomial_cm_v2.py:1238: 2 * norm.sf(abs(t)); [sf] is norm.sf on finite doubles *)
Definition fpvalue (sf : R -> R) (t : fl) : fl :=
  fmul (FNum 2) (match t with FNum x => FNum (sf (Rabs x)) | FInf _ => FNum 0 | FNaN => FNaN end).

(** base_multinomial_cm_v2.py:1606-1607; [z] is the critical value *)
Definition flower (z p se : fl) : fl := fsub p (fmul z se).
Definition fupper (z p se : fl) : fl := fadd p (fmul z se).
