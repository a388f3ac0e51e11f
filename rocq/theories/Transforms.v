(** Model of the utility transforms and their derivatives:
    conditional_logit.py, clog_log.py, scobit.py, uneven_logit.py, asym_logit.py,
    and of the logit-type estimators that put them together.

    Exact real arithmetic.  Guards on IEEE infinities, i.e. statements of the
    form [x[np.isposinf(x)] = max_comp_value], [isneginf], [isinf], cannot fire
    on real numbers and are omitted; they are listed at each definition.  Guards
    on exact equality with zero are kept.

    The Python functions return a column vector (shape (rows, 1)); here a vector. *)
From Coq Require Import Reals Lra Lia Arith.
From Coquelicot Require Import Coquelicot.
From Verif Require Import Res Vec Arr ChoiceCalcs.
Open Scope R_scope.

(** ** Index bookkeeping shared by all models *)

(** [idx = list(range(J)); idx.remove(ref)]: the k-th remaining index.
    asym_logit.py:159-160, 216-217, 318-319; uneven_logit.py:213-214, 511-512; ... *)
Definition skip (ref k : nat) : nat := if (k <? ref)%nat then k else S k.

(** [z = np.zeros(J); z[idx] = a; z[ref] = r] with [idx] as above. *)
Definition fill_others (ref : nat) (a : vec) (r : R) : vec :=
  fun j => if (j =? ref)%nat then r
           else a (if (j <? ref)%nat then j else (j - 1)%nat).

(** The outside intercepts added to each row.  uneven_logit.py:210-232,
    clog_log.py:180-202, asym_logit.py:315-337, scobit.py:156-181. *)
Definition long_intercepts (J : nat) (A : mat) (intercept_ref_pos : option nat)
    (intercept_params : option arr) : vec :=
  match intercept_params, intercept_ref_pos with
  | Some a, Some ref => mvec J A (fill_others ref (aget a) 0)
  | _, _ => fun _ => 0
  end.

(** create_calc_dh_d_alpha and *_transform_deriv_alpha: rows_to_alts without the
    reference column, or None.  uneven_logit.py:377-419, 484-525; scobit.py:377-419,
    484-525; clog_log.py:299-341, 374-415; asym_logit.py:544-586, 666-707. *)
Definition dh_d_alpha (intercept_ref_pos : option nat)
    (J : nat) (A : mat) (_ : vec) (_ : option arr) : option cmat :=
  match intercept_ref_pos with
  | Some ref => Some (mkCmat (J - 1) (fun i k => A i (skip ref k)))
  | None => None
  end.

(** A sparse matrix with the sparsity pattern of rows_to_alts (one stored entry
    per row) whose data array was replaced by [d]:
    [output_array.data = d].  The entries of [A] are zeros and ones. *)
Definition with_data (A : mat) (d : vec) : mat := fun i j => A i j * d i.

(** ** Multinomial logit, conditional_logit.py *)

(** conditional_logit.py:84-100 *)
Definition mnl_transform (J : nat) (A : mat) (v : vec) (_ _ : option arr) : vec := v.

(** conditional_logit.py:103-124, 177-189 *)
Definition MNL_model : LModel :=
  mkLModel mnl_transform
    (fun _ _ _ _ => None)
    (fun _ _ _ _ => diagm (fun _ => 1))
    (fun _ _ _ _ => None).

(** ** Clog-log, clog_log.py *)

(** clog_log.py:116-208; omitted: 171 (isneginf), 176-177 (isposinf) *)
Definition cloglog_transform (iref : option nat) (J : nat) (A : mat) (v : vec)
    (_ icpt : option arr) : vec :=
  fun i =>
    (if Rle_dec 3.7 (v i) then exp (v i) else ln (exp (exp (v i)) - 1))
    + long_intercepts J A iref icpt i.

(** clog_log.py:211-285; omitted: 258, 278 (isposinf) *)
Definition cloglog_deriv_v (v : vec) : vec :=
  fun i =>
    let exp_neg_v0 := exp (-1 * v i) in
    let denom_part_1 := 1 - exp (-1 * exp (v i)) in
    let exp_neg_v := if Req_EM_T exp_neg_v0 0 then min_comp_value else exp_neg_v0 in
    if Req_EM_T denom_part_1 0 then 1 else 1 / (denom_part_1 * exp_neg_v).

(** clog_log.py:288-296, 344-371, 468-471 *)
Definition Clog_model (iref : option nat) : LModel :=
  mkLModel (cloglog_transform iref)
    (fun _ _ _ _ => None)
    (fun _ _ v _ => diagm (cloglog_deriv_v v))
    (dh_d_alpha iref).

(** ** Scobit, scobit.py *)

(** The natural shape parameter of each row: rows_to_alts.dot(exp(shape)).
    scobit.py:184-188, 259-261, 340-342; uneven_logit.py:163-167, 282-286,
    348-352; omitted: the isposinf guards on exp(shape).  The code fails on
    shape_params = None; the totalised value 0 is never used. *)
Definition long_natural_shapes (J : nat) (A : mat) (shape : option arr) : vec :=
  match shape with
  | Some c => mvec J A (fun j => exp (aget c j))
  | None => fun _ => 0
  end.

(** scobit.py:111-213; omitted: 185, 193, 196, 200-202, 206-207 (isposinf/isneginf) *)
Definition scobit_transform (iref : option nat) (J : nat) (A : mat) (v : vec)
    (shape icpt : option arr) : vec :=
  fun i =>
    let exp_neg_v := exp (-1 * v i) in
    let powered_term := Rpower (1 + exp_neg_v) (long_natural_shapes J A shape i) in
    long_intercepts J A iref icpt i - ln (powered_term - 1).

(** scobit.py:216-294; omitted: 260, 278-282 (isposinf) *)
Definition scobit_deriv_v (J : nat) (A : mat) (v : vec) (shape : option arr) : vec :=
  fun i =>
    let s := long_natural_shapes J A shape i in
    let exp_neg_v := exp (-1 * v i) in
    let powered_term := Rpower (1 + exp_neg_v) s in
    let small_powered_term := Rpower (1 + exp_neg_v) (s - 1) in
    if Req_EM_T exp_neg_v 0 then 1
    else if Req_EM_T (powered_term - 1) 0 then 1
    else s * exp_neg_v * small_powered_term / (powered_term - 1).

(** scobit.py:297-374; omitted: 341, 363-369 (isposinf) *)
Definition scobit_deriv_shape (J : nat) (A : mat) (v : vec) (shape : option arr) : vec :=
  fun i =>
    let s := long_natural_shapes J A shape i in
    let exp_neg_v := exp (-1 * v i) in
    let powered_term := Rpower (1 + exp_neg_v) s in
    if Req_EM_T (powered_term - 1) 0 then -1
    else (-1 * ln (1 + exp_neg_v) * powered_term / (powered_term - 1)) * s.

(** scobit.py:422-481, 578-581 *)
Definition Scobit_model (iref : option nat) : LModel :=
  mkLModel (scobit_transform iref)
    (fun J A v shape => Some (mkCmat J (with_data A (scobit_deriv_shape J A v shape))))
    (fun J A v shape => diagm (scobit_deriv_v J A v shape))
    (dh_d_alpha iref).

(** ** Uneven logit, uneven_logit.py *)

(** uneven_logit.py:118-238; omitted: 164, 177-178, 192-198, 205-207 (isinf) *)
Definition uneven_transform (iref : option nat) (J : nat) (A : mat) (v : vec)
    (shape icpt : option arr) : vec :=
  fun i =>
    let s := long_natural_shapes J A shape i in
    (v i + ln (1 + exp (-1 * v i)) - ln (1 + exp (-1 * s * v i)))
    + long_intercepts J A iref icpt i.

(** uneven_logit.py:241-304; omitted: 283 (isposinf) *)
Definition uneven_deriv_v (J : nat) (A : mat) (v : vec) (shape : option arr) : vec :=
  fun i =>
    let s := long_natural_shapes J A shape i in
    1 / (1 + exp (-1 * v i)) + s / (1 + exp (s * v i)).

(** uneven_logit.py:307-374; omitted: 349, 361-364 (isinf) *)
Definition uneven_deriv_shape (J : nat) (A : mat) (v : vec) (shape : option arr) : vec :=
  fun i =>
    let s := long_natural_shapes J A shape i in
    (v i / (1 + exp (s * v i))) * s.

(** uneven_logit.py:422-481, 578-581 *)
Definition Uneven_model (iref : option nat) : LModel :=
  mkLModel (uneven_transform iref)
    (fun J A v shape => Some (mkCmat J (with_data A (uneven_deriv_shape J A v shape))))
    (fun J A v shape => diagm (uneven_deriv_v J A v shape))
    (dh_d_alpha iref).

(** ** Asymmetric logit, asym_logit.py *)

(** asym_logit.py:121-181, one-dimensional [eta]; omitted: 148 (isposinf) *)
Definition convert_eta_to_c (eta : arr) (ref_position : nat) : vec :=
  let exp_eta := fun k => let e := exp (aget eta k) in
                          if Req_EM_T e 0 then min_comp_value else e in
  let denom := sumn (alen eta) exp_eta + 1 in
  fill_others ref_position (fun k => exp_eta k / denom) (1 / denom).

(** The code fails on eta = None; the totalised value is never used. *)
Definition asym_natural_shapes (sref : nat) (eta : option arr) : vec :=
  match eta with Some e => convert_eta_to_c e sref | None => fun _ => 0 end.

(** asym_logit.py:279-305; omitted: 294, 299-300 (isneginf) *)
Definition asym_long_shapes (sref J : nat) (A : mat) (eta : option arr) : vec :=
  mvec J A (asym_natural_shapes sref eta).

(** asym_logit.py:228-347; omitted: 294, 299-300, 311-312, 340-341 (isinf) *)
Definition asym_transform (sref : nat) (iref : option nat) (J : nat) (A : mat) (v : vec)
    (eta icpt : option arr) : vec :=
  fun i =>
    let c := asym_long_shapes sref J A eta i in
    let log_long_shapes := ln c in
    let log_1_sub_long_shapes := ln ((1 - c) / (INR J - 1)) in
    let multiplier := if Rle_dec 0 (v i) then log_long_shapes else log_1_sub_long_shapes in
    (log_long_shapes - v i * multiplier) + long_intercepts J A iref icpt i.

(** asym_logit.py:350-435; omitted: 414, 420-421 (isneginf) *)
Definition asym_deriv_v (sref J : nat) (A : mat) (v : vec) (eta : option arr) : vec :=
  fun i =>
    let c := asym_long_shapes sref J A eta i in
    -1 * (if Rle_dec 0 (v i) then ln c else ln ((1 - c) / (INR J - 1))).

(** asym_logit.py:184-225 *)
Definition deriv_c_wrt_eta (natural_shapes : vec) (ref_position : nat) : mat :=
  fun j k => diagm natural_shapes j (skip ref_position k)
             - natural_shapes j * natural_shapes (skip ref_position k).

(** asym_logit.py:506-530; omitted: 511, 516, 528 (isinf) *)
Definition asym_dh_dc_values (sref J : nat) (A : mat) (v : vec) (eta : option arr) : vec :=
  fun i =>
    let c := asym_long_shapes sref J A eta i in
    let d_lnShape := 1 / c in
    let d_lnShapeComp := -1 / (1 - c) in
    d_lnShape - v i * (if Rle_dec 0 (v i) then d_lnShape else d_lnShapeComp).

(** asym_logit.py:438-541 *)
Definition asym_deriv_shape (sref J : nat) (A : mat) (v : vec) (eta : option arr) : mat :=
  mdot J (with_data A (asym_dh_dc_values sref J A v eta))
         (deriv_c_wrt_eta (asym_natural_shapes sref eta) sref).

(** asym_logit.py:589-663, 760-763 *)
Definition Asym_model (sref : nat) (iref : option nat) : LModel :=
  mkLModel (asym_transform sref iref)
    (fun J A v eta => Some (mkCmat (J - 1) (asym_deriv_shape sref J A v eta)))
    (fun J A v eta => diagm (asym_deriv_v sref J A v eta))
    (dh_d_alpha iref).

(** ** The logit-type estimators *)

(** Which model, with its reference positions. *)
Inductive logit_kind :=
| KMNL
| KClog (iref : option nat)
| KScobit (iref : option nat)
| KUneven (iref : option nat)
| KAsym (sref : nat) (iref : option nat).

Definition model_of (k : logit_kind) : LModel :=
  match k with
  | KMNL => MNL_model
  | KClog iref => Clog_model iref
  | KScobit iref => Scobit_model iref
  | KUneven iref => Uneven_model iref
  | KAsym sref iref => Asym_model sref iref
  end.

(** Number of shape parameters: scobit.py:90, uneven_logit.py:97, asym_logit.py:100 *)
Definition num_shapes (k : logit_kind) (J : nat) : nat :=
  match k with
  | KMNL | KClog _ => 0
  | KScobit _ | KUneven _ => J
  | KAsym _ _ => J - 1
  end.

Definition kind_iref (k : logit_kind) : option nat :=
  match k with
  | KMNL => None
  | KClog i | KScobit i | KUneven i | KAsym _ i => i
  end.

(** check_length_of_initial_values: conditional_logit.py:191-218,
    clog_log.py:473-508, scobit.py:583-617, uneven_logit.py:583-617,
    asym_logit.py:765-801 *)
Definition assumed_param_dimensions (k : logit_kind) (J K : nat) : nat :=
  match k with
  | KMNL => K
  | KClog None => K
  | KClog (Some _) => K + J - 1
  | KScobit None | KUneven None => K + J
  | KScobit (Some _) | KUneven (Some _) => K + 2 * J - 1
  | KAsym _ None => K + J - 1
  | KAsym _ (Some _) => K + 2 * (J - 1)
  end.

Definition check_length_of_initial_values (k : logit_kind) (J K : nat) (init : arr) : Res unit :=
  if (alen init =? assumed_param_dimensions k J K)%nat then Ok tt else Err ValueError.

(** [a[-1 * n:]]: the last [n] entries -- except that for n = 0 Python's
    [a[-0:]] is the whole array. *)
Definition neg_slice (n : nat) (a : arr) : arr :=
  if (n =? 0)%nat then a else aslice (alen a - n) n a.

(** split_param_vec: conditional_logit.py:44-81, clog_log.py:59-113,
    scobit.py:52-108, uneven_logit.py:59-115, asym_logit.py:64-118.
    [remaining_idx > 0] is a test on integers; natural subtraction agrees. *)
Definition split_param_vec (k : logit_kind) (J K : nat) (params : arr)
  : option arr * option arr * arr :=
  match k with
  | KMNL => (None, None, params)
  | KClog _ =>
      let betas := neg_slice K params in
      let remaining := (alen params - K)%nat in
      let icpt := if (0 <? remaining)%nat then Some (aslice 0 remaining params) else None in
      (None, icpt, betas)
  | _ =>
      let ns := num_shapes k J in
      let shapes := aslice 0 ns params in
      let betas := neg_slice K params in
      let remaining := (alen params - (ns + K))%nat in
      let icpt := if (0 <? remaining)%nat then Some (aslice ns remaining params) else None in
      (Some shapes, icpt, betas)
  end.

(** LogitTypeEstimator, estimation.py:306-417: split, then call choice_calcs. *)
Definition est_log_likelihood (k : logit_kind) (D : Data) (params : arr) : R :=
  let '(shape, icpt, beta) := split_param_vec k (d_J D) (d_K D) params in
  calc_log_likelihood (model_of k) D shape icpt beta.

Definition est_gradient (k : logit_kind) (D : Data) (params : arr) : Res arr :=
  let '(shape, icpt, beta) := split_param_vec k (d_J D) (d_K D) params in
  calc_gradient (model_of k) D shape icpt beta.

Definition est_hessian (k : logit_kind) (D : Data) (params : arr) : Res sqmat :=
  let '(shape, icpt, beta) := split_param_vec k (d_J D) (d_K D) params in
  calc_hessian (model_of k) D shape icpt beta.

Definition est_fisher (k : logit_kind) (D : Data) (params : arr) : Res sqmat :=
  let '(shape, icpt, beta) := split_param_vec k (d_J D) (d_K D) params in
  calc_fisher_info_matrix (model_of k) D shape icpt beta.

Definition est_long_probs (k : logit_kind) (D : Data) (params : arr) : vec :=
  let '(shape, icpt, beta) := split_param_vec k (d_J D) (d_K D) params in
  long_probs (model_of k) D shape icpt beta.

Definition est_chosen_probs (k : logit_kind) (D : Data) (C : mat) (params : arr) : vec :=
  let '(shape, icpt, beta) := split_param_vec k (d_J D) (d_K D) params in
  chosen_probs (model_of k) D C shape icpt beta.

(** The intermediate values of calc_probabilities at a full parameter vector:
    choice_calcs.py:133 (sys_utilities) and choice_calcs.py:137-141
    (transformed_utilities, before clipping). *)
Definition est_index (k : logit_kind) (D : Data) (params : arr) : vec :=
  let '(_, _, beta) := split_param_vec k (d_J D) (d_K D) params in
  sys_utilities D beta.

Definition est_utilities (k : logit_kind) (D : Data) (params : arr) : vec :=
  let '(shape, icpt, beta) := split_param_vec k (d_J D) (d_K D) params in
  m_transform (model_of k) (d_J D) (d_A D) (sys_utilities D beta) shape icpt.
