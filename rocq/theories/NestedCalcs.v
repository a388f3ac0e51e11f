(** Model of src/pylogit/nested_choice_calcs.py and of the estimator functions of
    src/pylogit/nested_logit.py.

    Over the reals [exp] is never zero nor infinite and a sum never overflows, so
    the assignments guarded by [np.isinf], [np.isposinf] and [np.isneginf] on such
    values never execute and are omitted (lines 129-135, 141-143, 156-157, 178-179,
    195-196, 418-419, 445-446, 486-487, 588-589, 624-628, 765-766, 805-809).  The one
    infinity that arises in exact arithmetic, log 0 = -inf for a nest none of whose
    alternatives is available (595-597, 772-774), is modelled, and so are the
    assignments guarded by [== 0].  The shape assertions 92-100 concern 2-D
    coefficient arrays, which are not modelled. *)
From Coq Require Import Reals Lra Lia Arith.
From Coquelicot Require Import Coquelicot.
From Verif Require Import Res Vec Arr ChoiceCalcs.
Open Scope R_scope.

(** nested_choice_calcs.py:18 *)
Definition max_comp_value : R := 10 ^ 300.

(** The arguments of the nested calculations: the data shared with the logit-type
    models plus rows_to_nests, a matrix with [n_Q] columns. *)
Record NData := mkNData { n_D : Data; n_Q : nat; n_R : mat }.

(** [np.power x y] for x >= 0.  A zero base occurs only with exponent
    nest_coefs > 0, where numpy gives 0 (numpy's inf for negative exponents is never
    needed and is not represented). *)
Definition np_power (x y : R) : R :=
  if Req_EM_T x 0 then (if Rlt_dec 0 y then 0 else 1) else Rpower x y.

(** [v[v == 0] = min_comp_value] *)
Definition nonzero (x : R) : R := if Req_EM_T x 0 then min_comp_value else x.

(** nested_choice_calcs.py:119-146 *)
Definition long_nest_coefs (E : NData) (nests : vec) : vec := mvec (n_Q E) (n_R E) nests.

Definition scaled_index (E : NData) (nests : vec) (beta : arr) : vec :=
  fun i => sys_utilities (n_D E) beta i / long_nest_coefs E nests i.

Definition exp_scaled_index (E : NData) (nests : vec) (beta : arr) : vec :=
  fun i => nonzero (exp (scaled_index E nests beta i)).

(** nested_choice_calcs.py:148-154, one row per observation, one column per nest *)
Definition ind_exp_sums_per_nest (E : NData) (nests : vec) (beta : arr) : mat :=
  mdot (d_N (n_D E)) (transp (d_M (n_D E)))
    (fun i q => n_R E i q * exp_scaled_index E nests beta i).

(** nested_choice_calcs.py:159-168 *)
Definition long_exp_sums (E : NData) (nests : vec) (beta : arr) : vec :=
  let per_nest := mdot (d_obs (n_D E)) (d_M (n_D E)) (ind_exp_sums_per_nest E nests beta) in
  fun i => sumn (n_Q E) (fun q => n_R E i q * per_nest i q).

(** nested_choice_calcs.py:170-183 *)
Definition ind_denom (E : NData) (nests : vec) (beta : arr) : vec :=
  fun o => nonzero (sumn (n_Q E) (fun q => np_power (ind_exp_sums_per_nest E nests beta o q) (nests q))).

(** nested_choice_calcs.py:185-205 *)
Definition long_numerators (E : NData) (nests : vec) (beta : arr) : vec :=
  fun i => nonzero (exp_scaled_index E nests beta i *
                    np_power (long_exp_sums E nests beta i) (long_nest_coefs E nests i - 1)).

Definition nested_long_probs (E : NData) (nests : vec) (beta : arr) : vec :=
  let long_denom := mvec (d_obs (n_D E)) (d_M (n_D E)) (ind_denom E nests beta) in
  fun i => nonzero (long_numerators E nests beta i / long_denom i).

(** nested_choice_calcs.py:207-214 *)
Definition nested_chosen_probs (E : NData) (C : mat) (nests : vec) (beta : arr) : vec :=
  mvec (d_N (n_D E)) (transp C) (nested_long_probs E nests beta).

(** nested_choice_calcs.py:233-245 *)
Definition prob_given_nest (E : NData) (nests : vec) (beta : arr) : vec :=
  fun i => nonzero (exp_scaled_index E nests beta i / long_exp_sums E nests beta i).

Definition nest_choice_probs (E : NData) (nests : vec) (beta : arr) : mat :=
  fun o q => nonzero (np_power (ind_exp_sums_per_nest E nests beta o q) (nests q) / ind_denom E nests beta o).

(** The [return_type] argument; [RT_other] is any string not in valid_return_types. *)
Inductive nested_return :=
| RT_long | RT_chosen | RT_long_and_chosen | RT_dict | RT_other.

(** What calc_nested_probs returns: [prob_result] as in the other models, or the
    dictionary of 'all_prob_dict'. *)
Record nested_dict := mkNestedDict {
  nd_long : vec; nd_chosen : option vec; nd_given_nest : vec; nd_nest : mat; nd_sums : mat }.

Inductive nested_result :=
| NProbs (p : prob_result)
| NDict (dct : nested_dict).

(** nested_choice_calcs.py:22-263 *)
Definition calc_nested_probs (E : NData) (nests : vec) (beta : arr)
    (chosen_row_to_obs : option mat) (rt : nested_return) : Res nested_result :=
  match rt, chosen_row_to_obs with
  | RT_other, _ => Err ValueError                      (* 102-108 *)
  | RT_chosen, None | RT_long_and_chosen, None => Err ValueError  (* 110-117 *)
  | RT_long_and_chosen, Some C =>
      Ok (NProbs (BothProbs (nested_chosen_probs E C nests beta) (nested_long_probs E nests beta)))
  | RT_long, _ => Ok (NProbs (LongProbs (nested_long_probs E nests beta)))
  | RT_chosen, Some C => Ok (NProbs (ChosenProbs (nested_chosen_probs E C nests beta)))
  | RT_dict, C =>
      Ok (NDict (mkNestedDict (nested_long_probs E nests beta)
                   (option_map (fun c => nested_chosen_probs E c nests beta) C)
                   (prob_given_nest E nests beta) (nest_choice_probs E nests beta)
                   (ind_exp_sums_per_nest E nests beta)))
  end.

(** nested_choice_calcs.py:266-350 *)
Definition calc_nested_log_likelihood (E : NData) (nests : vec) (beta : arr) : R :=
  let D := n_D E in
  let w := eff_weights (d_w D) in
  let ll := vdot (d_N D) (d_y D) (fun i => w i * ln (nested_long_probs E nests beta i)) in
  match d_ridge D with
  | None => ll
  | Some r =>
      let params := acat (mkArr (n_Q E) (fun q => nests q - 1)) beta in
      ll - r * asumsq params
  end.

(** nested_choice_calcs.py:466-496 *)
Definition naturalize_nest_coefs (orig : vec) : vec :=
  fun q => nonzero (1 / (1 + exp (-1 * orig q))).

(** nested_choice_calcs.py:355-460 (the dictionary's entries, one definition each;
    long_nest_params is long_nest_coefs, 410-413) *)
Definition scaled_y (E : NData) (nests : vec) : vec :=
  fun i => d_y (n_D E) i / long_nest_coefs E nests i.

Definition obs_to_chosen_nests (E : NData) : mat :=
  mdot (d_N (n_D E)) (transp (d_M (n_D E))) (fun i q => n_R E i q * d_y (n_D E) i).

Definition long_chosen_nest (E : NData) : vec :=
  let row_to_chosen_nest := mdot (d_obs (n_D E)) (d_M (n_D E)) (obs_to_chosen_nests E) in
  fun i => sumn (n_Q E) (fun q => n_R E i q * row_to_chosen_nest i q).

Definition p_tilde_given_nest (E : NData) (nests : vec) (beta : arr) : vec :=
  fun i => prob_given_nest E nests beta i * long_chosen_nest E i / long_nest_coefs E nests i.

(** nested_choice_calcs.py:595-597, 772-774: np.log with -inf replaced *)
Definition log_exp_sums (E : NData) (nests : vec) (beta : arr) : mat :=
  fun o q => let s := ind_exp_sums_per_nest E nests beta o q in
             if Req_EM_T s 0 then -1 * max_comp_value else ln s.

(** nested_choice_calcs.py:585-586 (long_w = scaled_index) *)
Definition half_deriv (E : NData) (nests : vec) (beta : arr) : vec :=
  fun i => (nested_long_probs E nests beta i - long_chosen_nest E i * prob_given_nest E nests beta i)
           * scaled_index E nests beta i.

Definition term_3b (E : NData) (nests : vec) (beta : arr) : vec :=
  fun i => -1 * (d_y (n_D E) i - long_chosen_nest E i * prob_given_nest E nests beta i)
           * scaled_index E nests beta i / long_nest_coefs E nests i.

Definition beta_term_1 (E : NData) (nests : vec) (beta : arr) : vec :=
  fun i => scaled_y E nests i - p_tilde_given_nest E nests beta i
           + p_tilde_given_nest E nests beta i * long_nest_coefs E nests i
           - nested_long_probs E nests beta i.

(** nested_choice_calcs.py:500-676, with use_jacobian=True (the only value any
    caller passes).  Weights multiply half_deriv and term_3b before the sums. *)
Definition calc_nested_gradient (E : NData) (orig : vec) (beta : arr) : arr :=
  let D := n_D E in
  let w := eff_weights (d_w D) in
  let wobs := weights_per_obs D in
  let nests := naturalize_nest_coefs orig in
  let term_1 q := sumn (d_obs D) (fun o =>
      (obs_to_chosen_nests E o q - nest_choice_probs E nests beta o q)
      * log_exp_sums E nests beta o q * wobs o) in
  let term_2 q := sumn (d_N D) (fun i => n_R E i q * (half_deriv E nests beta i * w i)) in
  let term_3 q := sumn (d_N D) (fun i => n_R E i q *
      (-1 * (d_y D i - long_chosen_nest E i * prob_given_nest E nests beta i)
       * scaled_index E nests beta i * w i / long_nest_coefs E nests i)) in
  let nest_gradient q := (term_1 q + term_2 q + term_3 q) * (nests q * (1 - nests q)) in
  let beta_gradient k := sumn (d_N D) (fun i => beta_term_1 E nests beta i * w i * d_X D i k) in
  let gradient := vcat (n_Q E) nest_gradient beta_gradient in
  match d_ridge D with
  | None => mkArr (n_Q E + d_K D) gradient
  | Some r =>
      let params := vcat (n_Q E) (fun q => 20 - orig q) (aget beta) in
      mkArr (n_Q E + d_K D) (fun k => gradient k - 2 * r * params k)
  end.

(** nested_choice_calcs.py:743-848: the matrix of per-observation (unweighted)
    scores, one row per observation *)
Definition nested_score_matrix (E : NData) (orig : vec) (beta : arr) : mat :=
  let D := n_D E in
  let nests := naturalize_nest_coefs orig in
  let Mt := transp (d_M D) in
  let nest_gradient : mat := fun o q =>
      ((obs_to_chosen_nests E o q - nest_choice_probs E nests beta o q) * log_exp_sums E nests beta o q
       + mdot (d_N D) Mt (fun i q' => n_R E i q' * half_deriv E nests beta i) o q
       + mdot (d_N D) Mt (fun i q' => n_R E i q' * term_3b E nests beta i) o q)
      * (nests q * (1 - nests q)) in
  let beta_gradient := mdot (d_N D) Mt (fun i k => beta_term_1 E nests beta i * d_X D i k) in
  hcat (n_Q E) nest_gradient beta_gradient.

(** nested_choice_calcs.py:682-870 *)
Definition calc_bhhh (E : NData) (orig : vec) (beta : arr) : sqmat :=
  let D := n_D E in
  let G := nested_score_matrix E orig beta in
  let wobs := weights_per_obs D in
  let bhhh := mdot (d_obs D) (transp G) (fun o k => wobs o * G o k) in
  let bhhh := match d_ridge D with
              | None => bhhh
              | Some r => fun a b => bhhh a b + 2 * r * ident a b
              end in
  mkSq (n_Q E + d_K D) (fun a b => -1 * bhhh a b).

(** ** nested_logit.py *)

(** nested_logit.py:36-58 *)
Definition identify_degenerate_nests (spec : list (String.string * list BinNums.Z)) : list nat :=
  let fix go (pos : nat) (l : list (String.string * list BinNums.Z)) :=
    match l with
    | nil => nil
    | cons (_, alts) r => if (length alts =? 1)%nat then cons pos (go (S pos) r) else go (S pos) r
    end in
  go 0%nat spec.

(** nested_logit.py:63-106 *)
Definition nested_split (Q : nat) (params : arr) : arr * arr :=
  (aslice 0 Q params, aslice Q (alen params - Q) params).

(** nested_logit.py:177-195 *)
Definition nested_check_length (E : NData) (init : arr) : Res unit :=
  if (alen init =? d_K (n_D E) + n_Q E)%nat then Ok tt else Err ValueError.

(** nested_logit.py:238-256 *)
Definition nested_est_probs (E : NData) (C : option mat) (params : arr) : Res nested_result :=
  let (orig, beta) := nested_split (n_Q E) params in
  calc_nested_probs E (naturalize_nest_coefs (aget orig)) beta C RT_long_and_chosen.

(** nested_logit.py:258-275 *)
Definition nested_est_log_likelihood (E : NData) (params : arr) : R :=
  let (orig, beta) := nested_split (n_Q E) params in
  calc_nested_log_likelihood E (naturalize_nest_coefs (aget orig)) beta.

(** nested_logit.py:277-290 *)
Definition nested_est_gradient (E : NData) (params : arr) : arr :=
  let (orig, beta) := nested_split (n_Q E) params in
  calc_nested_gradient E (aget orig) beta.

(** One pass of the loop body nested_logit.py:315-317 *)
Definition decouple (a : mat) (idx : nat) : mat :=
  fun i j => if (i =? idx)%nat then (if (j =? idx)%nat then -1 else 0)
             else if (j =? idx)%nat then 0 else a i j.

(** nested_logit.py:292-319 *)
Definition nested_est_hessian (E : NData) (constrained_pos : option (list nat)) (params : arr) : sqmat :=
  let (orig, beta) := nested_split (n_Q E) params in
  let h := calc_bhhh E (aget orig) beta in
  match constrained_pos with
  | None => h
  | Some l => mkSq (sqn h) (List.fold_left decouple l (sqe h))
  end.

(** nested_logit.py:321-336 *)
Definition nested_est_fisher (params : arr) : sqmat :=
  mkSq (alen params) (fun i j => if (i =? j)%nat then -1 * 1 else 0).
