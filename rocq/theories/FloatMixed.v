(** Mixed logit: the simulated log-likelihood in double precision
    (src/pylogit/mixed_logit_calcs.py:222-240 and 317-348).

    [ex] and [lg] are np.exp and np.log on finite doubles. *)
From Coq Require Import ZArith Reals List.
From Flocq Require Import Core.
From Verif Require Import Floats FloatTransforms FloatUtilities FloatObjective.
Open Scope R_scope.

(** mixed_logit_calcs.py:222-226: choice_vec[:, None] * np.log(prob_array), added up over the
    rows of a decision maker in the order [t] (the sparse product with rows_to_mixers
    multiplies by 1, which is exact); [p i] is the probability of row [i] under one draw,
    [y i] says whether the row is chosen (1) or not (0). *)
Definition flog_sequence (lg : R -> R) (y : nat -> bool) (p : nat -> fl) (t : sum_order) : fl :=
  fsum t (fun i => fmul (FNum (if y i then 1 else 0)) (fln lg (p i))).

(** mixed_logit_calcs.py:229-232: np.exp, zeros are replaced by min_comp_value = 1e-300
    (mixed_logit_calcs.py:40, the same value as in choice_calcs.py) *)
Definition fsequence_prob (ex lg : R -> R) (y : nat -> bool) (p : nat -> fl) (t : sum_order) : fl :=
  fguard_zero (fexp ex (flog_sequence lg y p t)).

(** mixed_logit_calcs.py:235: mean over the [n] draws, added up in the order [tr]; [p i r] is
    the probability of row [i] under draw [r] *)
Definition fsimulated_prob (ex lg : R -> R) (y : nat -> bool) (p : nat -> nat -> fl) (t tr : sum_order) (n : nat) : fl :=
  fdiv (fsum tr (fun r => fsequence_prob ex lg y (fun i => p i r) t)) (FNum (INR n)).

(** mixed_logit_calcs.py:340-348: weights_per_obs.dot(np.log(simulated_sequence_probs)) minus
    the ridge penalty; [s u] is the simulated probability of decision maker [u] *)
Definition fmixed_objective (lg : R -> R) (w : nat -> R) (s : nat -> fl) (order : dot_order)
    (ridge : option R) (theta : nat -> fl) (t : sum_order) : fl :=
  let ll := fdot order (fun u => FNum (w u)) (fun u => fln lg (s u)) in
  match ridge with None => ll | Some r => fsub ll (float_penalty r theta t) end.
