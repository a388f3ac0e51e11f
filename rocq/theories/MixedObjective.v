(** Model of the objective function in src/pylogit/mixed_logit_calcs.py:478-585. *)
From Coq Require Import String ZArith List Reals.
From Verif Require Import Res Vec Arr MixedCalcs Estimation.
Import ListNotations.
Open Scope R_scope.

(** mixed_logit_calcs.py:478-585.  fit_mle does not call it; it minimises
    estimation.py:208-220 ([neg_ll_and_neg_gradient]), which reads the same lists. *)
Definition calc_neg_log_likelihood_and_neg_gradient (E : MData) (constrained_pos : option (list Z)) (params : arr)
  : Res (R * arr) :=
  let neg_log_likelihood := -1 * calc_mixed_log_likelihood E params in
  let g := calc_mixed_logit_gradient E params in
  let neg_beta_gradient_vec := mkArr (alen g) (fun k => -1 * aget g k) in
  match constrained_pos with
  | None => Ok (neg_log_likelihood, neg_beta_gradient_vec)
  | Some l =>
      do p <- resolve_positions (alen neg_beta_gradient_vec) l;
      Ok (neg_log_likelihood, zero_at p neg_beta_gradient_vec)
  end.
