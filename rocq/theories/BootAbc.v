(** Model of src/pylogit/bootstrap_abc.py.
    [fit w] stands for [model_obj.fit_mle(init_vals, weights=w, just_point=True, ...)['x']]
    with the long-format weights [w]; K = init_vals.shape[0].
    The argument checks on types (lines 32-79) hold by typing here.  Weights may be NaN,
    since the standardised influence divides by a standard error that can be zero.
    The functions that are commented out in calc_abc_interval (calc_quadratic_coef_abc,
    calc_endpoint_from_percentile_abc) are modelled as well. *)
From Coq Require Import Reals Lra Lia ZArith List Bool.
From Verif Require Import Res Vec Arr Ids Mappings LongData Estimation BootCalcs.
Import ListNotations.
Open Scope R_scope.

Definition xmul (a b : xnum) : xnum :=
  match a, b with
  | XFin x, _ => xscale x b
  | _, XFin y => xscale y a
  | XNaN, _ | _, XNaN => XNaN
  | XPos, XPos | XNeg, XNeg => XPos
  | _, _ => XNeg
  end.

(** norm.ppf of any float *)
Definition norm_ppf_x (nd : normal_dist) (a : xnum) : xnum :=
  match a with
  | XFin p => if Rle_dec 0 p then if Rle_dec p 1 then norm_ppf nd p else XNaN else XNaN
  | _ => XNaN
  end.

Definition xvec := nat -> xnum.

(** One row of a scipy sparse product: only the stored (non-zero) entries contribute *)
Fixpoint sparse_row_dot (n : nat) (row : vec) (w : xvec) : xnum :=
  match n with
  | O => XFin 0
  | S m => if Req_EM_T (row m) 0 then sparse_row_dot m row w
           else xadd (sparse_row_dot m row w) (xscale (row m) (w m))
  end.

(** bootstrap_abc.py:82-123, for one column of wide weights (for one-dimensional
    weights the sum over axis 1 is over a single column) *)
Definition create_long_form_weights (num_obs : nat) (rows_to_obs : mat) (wide_weights : xvec) : xvec :=
  fun i => sparse_row_dot num_obs (rows_to_obs i) wide_weights.

(** [long * orig_weights]; None is the factor 1 used when no weights are passed *)
Definition times_orig (orig : option vec) (long : xvec) : xvec :=
  fun i => match orig with None => xscale 1 (long i) | Some o => xscale (o i) (long i) end.

Section Abc.
  Variables (num_obs : nat) (rows_to_obs : mat) (K : nat) (orig : option vec) (fit : xvec -> Res vec).

  (** bootstrap_abc.py:181-184 and 205-209 *)
  Definition wide_weights_plus (epsilon : R) (obs : nat) : vec :=
    let init_weights_wide := fun _ : nat => 1 / INR num_obs in
    let init_wide_weights_plus := fun o => (1 - epsilon) * init_weights_wide o in
    fun o => if (o =? obs)%nat then init_wide_weights_plus o + epsilon else init_wide_weights_plus o.
  Definition wide_weights_minus (epsilon : R) (obs : nat) : vec :=
    let init_weights_wide := fun _ : nat => 1 / INR num_obs in
    let init_wide_weights_minus := fun o => (1 + epsilon) * init_weights_wide o in
    fun o => if (o =? obs)%nat then init_wide_weights_minus o - epsilon else init_wide_weights_minus o.

  Definition long_of (wide : xvec) : xvec := times_orig orig (create_long_form_weights num_obs rows_to_obs wide).
  Definition finite (v : vec) : xvec := fun i => XFin (v i).

  (** bootstrap_abc.py:126-225, the loop over observations *)
  Fixpoint finite_diff_loop (epsilon : R) (obs left : nat) : Res (list (vec * vec)) :=
    match left with
    | O => Ok []
    | S left' =>
        do p <- fit (long_of (finite (wide_weights_plus epsilon obs)));
        do m <- fit (long_of (finite (wide_weights_minus epsilon obs)));
        do rest <- finite_diff_loop epsilon (S obs) left';
        Ok ((p, m) :: rest)
    end.
  Definition calc_finite_diff_terms_for_abc (epsilon : R) : Res (mat * mat) :=
    do l <- finite_diff_loop epsilon 0 num_obs;
    Ok (fun o => fst (nth o l (fun _ => 0, fun _ => 0)), fun o => snd (nth o l (fun _ => 0, fun _ => 0))).

  (** np.isclose(a, b, atol=atol, rtol=0) *)
  Definition isclose (atol a b : R) : bool := if Rle_dec (Rabs (a - b)) atol then true else false.

  (** bootstrap_abc.py:228-280 *)
  Definition calc_empirical_influence_abc (term_plus term_minus : mat) (epsilon : R) : mat :=
    let denominator := 2 * epsilon in
    fun o j => if isclose (/ 10 ^ 12) (term_plus o j) (term_minus o j) then 0
               else (term_plus o j - term_minus o j) / denominator.

  (** bootstrap_abc.py:283-355 *)
  Definition calc_2nd_order_influence_abc (mle_params : vec) (term_plus term_minus : mat) (epsilon : R) : mat :=
    let denominator := epsilon ^ 2 in
    fun o j => if isclose (/ 10 ^ 12) (term_plus o j + term_minus o j) (2 * mle_params j) then 0
               else (term_plus o j - 2 * mle_params j + term_minus o j) / denominator.

  (** bootstrap_abc.py:421-447 *)
  Definition calc_std_error_abc (empirical_influence : mat) : vec :=
    fun j => sqrt (sumn num_obs (fun o => empirical_influence o j ^ 2)) / INR num_obs.

  (** bootstrap_abc.py:450-478; 0/0 is NaN *)
  Definition calc_acceleration_abc (empirical_influence : mat) : xvec :=
    fun j => xdiv (XFin (sumn num_obs (fun o => empirical_influence o j ^ 3)))
                  (XFin (6 * pow_1_5 (sumn num_obs (fun o => empirical_influence o j ^ 2)))).

  (** bootstrap_abc.py:481-508 *)
  Definition calc_bias_abc (second_order_influence : mat) : vec :=
    fun j => sumn num_obs (fun o => second_order_influence o j) / (2 * INR num_obs ^ 2).

  (** bootstrap_abc.py:566-567, 690-691 *)
  Definition standardized_influence (empirical_influence : mat) (std_error : vec) (o j : nat) : xnum :=
    xdiv (XFin (empirical_influence o j)) (XFin (INR num_obs ^ 2 * std_error j)).

  (** bootstrap_abc.py:591-609, 713-731: rows of term_1_array and term_3_array *)
  Fixpoint quadratic_loop (w1 w3 : nat -> xvec) (param_id left : nat) : Res (list (vec * vec)) :=
    match left with
    | O => Ok []
    | S left' =>
        do t1 <- fit (long_of (w1 param_id));
        do t3 <- fit (long_of (w3 param_id));
        do rest <- quadratic_loop w1 w3 (S param_id) left';
        Ok ((t1, t3) :: rest)
    end.

  (** np.diag of the two arrays *)
  Definition diag_terms (l : list (vec * vec)) : vec * vec :=
    (fun j => fst (nth j l (fun _ => 0, fun _ => 0)) j, fun j => snd (nth j l (fun _ => 0, fun _ => 0)) j).

  (** bootstrap_abc.py:511-625 *)
  Definition calc_quadratic_coef_abc (mle_params : vec) (empirical_influence : mat) (std_error : vec) (epsilon : R) : Res vec :=
    let w s j o := xadd (XFin ((1 - epsilon) * (1 / INR num_obs)))
                        (xscale (s * epsilon) (standardized_influence empirical_influence std_error o j)) in
    do l <- quadratic_loop (w 1) (w (-1)) 0 K;
    let (term_1, term_3) := diag_terms l in
    Ok (fun j => if isclose (/ 10 ^ 10) (term_1 j + term_3 j) (2 * mle_params j) then 0
                 else (term_1 j - 2 * mle_params j + term_3 j) / epsilon ^ 2).

  (** bootstrap_abc.py:628-747.  The denominator (line 738) is not restricted to the
      entries that differ (line 746): when some but not all entries differ the division
      or the masked assignment raises ValueError. *)
  Definition efron_quadratic_coef_abc (mle_params : vec) (empirical_influence : mat) (std_error : vec) (epsilon : R) : Res xvec :=
    let w s j o := xadd (XFin (1 / INR num_obs))
                        (xscale (s * epsilon) (standardized_influence empirical_influence std_error o j)) in
    do l <- quadratic_loop (w 1) (w (-1)) 0 K;
    let (term_1, term_3) := diag_terms l in
    let close := fun j => isclose (/ 10 ^ 10) (term_1 j + term_3 j) (2 * mle_params j) in
    let num_diff := length (filter (fun j => negb (close j)) (seq 0 K)) in
    if ((0 <? num_diff) && (num_diff <? K))%nat%bool then Err ValueError
    else Ok (fun j => if close j then XFin 0
                      else xdiv (XFin (term_1 j - 2 * mle_params j + term_3 j)) (XFin (2 * std_error j * epsilon ^ 2))).

  (** bootstrap_abc.py:750-779 *)
  Definition calc_total_curvature_abc (bias std_error : vec) (quadratic_coef : xvec) : xvec :=
    fun j => xadd (xdiv (XFin (bias j)) (XFin (std_error j))) (xopp (quadratic_coef j)).

  (** bootstrap_abc.py:782-807 *)
  Definition calc_bias_correction_abc (nd : normal_dist) (acceleration total_curvature : xvec) : xvec :=
    fun j => norm_ppf_x nd (xmul (xscale 2 (norm_cdf nd (acceleration j))) (norm_cdf nd (xscale (-1) (total_curvature j)))).

  (** bootstrap_abc.py:894-899, 995-1000 *)
  Fixpoint endpoint_loop (w : nat -> xvec) (param_id left : nat) : Res (list R) :=
    match left with
    | O => Ok []
    | S left' =>
        do current_estimate <- fit (long_of (w param_id));
        do rest <- endpoint_loop w (S param_id) left';
        Ok (current_estimate param_id :: rest)
    end.

  (** bootstrap_abc.py:866-869, 966-971 *)
  Definition least_favorable_lambda (nd : normal_dist) (percentile : R) (bias_correction acceleration : xnum) : xnum :=
    let bias_corrected_z := xadd bias_correction (norm_ppf_x nd (XFin (percentile * (1 / 100)))) in
    let d := xadd (XFin 1) (xopp (xmul acceleration bias_corrected_z)) in
    xdiv bias_corrected_z (xmul d d).

  (** bootstrap_abc.py:810-900 *)
  Definition calc_endpoint_from_percentile_abc (nd : normal_dist) (percentile : R) (bias_correction acceleration : xvec)
      (std_error : vec) (empirical_influence : mat) : Res (list R) :=
    endpoint_loop (fun j o =>
      let multiplier := xdiv (least_favorable_lambda nd percentile (bias_correction j) (acceleration j)) (XFin (std_error j)) in
      xadd (XFin (1 / INR num_obs)) (xmul multiplier (XFin (empirical_influence o j)))) 0 K.

  (** bootstrap_abc.py:903-1001 *)
  Definition efron_endpoint_from_percentile_abc (nd : normal_dist) (percentile : R) (bias_correction acceleration : xvec)
      (std_error : vec) (empirical_influence : mat) : Res (list R) :=
    endpoint_loop (fun j o =>
      let multiplier := xdiv (least_favorable_lambda nd percentile (bias_correction j) (acceleration j))
                             (XFin (std_error j * INR num_obs ^ 2)) in
      xadd (XFin (1 / INR num_obs)) (xmul multiplier (XFin (empirical_influence o j)))) 0 K.

  (** bootstrap_abc.py:358-418 and 1078-1281 *)
  Definition calc_abc_interval (nd : normal_dist) (mle_params : vec) (conf : conf_arg) (epsilon : R) : Res intervals :=
    do conf_percentage <- check_conf_percentage_validity conf;
    do terms <- calc_finite_diff_terms_for_abc epsilon;
    let (term_plus, term_minus) := terms in
    let empirical_influence := calc_empirical_influence_abc term_plus term_minus epsilon in
    let second_order_influence := calc_2nd_order_influence_abc mle_params term_plus term_minus epsilon in
    let acceleration := calc_acceleration_abc empirical_influence in
    let std_error := calc_std_error_abc empirical_influence in
    let bias := calc_bias_abc second_order_influence in
    do quadratic_coef <- efron_quadratic_coef_abc mle_params empirical_influence std_error epsilon;
    let total_curvature := calc_total_curvature_abc bias std_error quadratic_coef in
    let bias_correction := calc_bias_correction_abc nd acceleration total_curvature in
    let alpha_percent := get_alpha_from_conf_percentage conf_percentage in
    let lower_percentile := alpha_percent / 2 in
    let upper_percentile := 100 - lower_percentile in
    do lower_endpoint <- efron_endpoint_from_percentile_abc nd lower_percentile bias_correction acceleration std_error empirical_influence;
    do upper_endpoint <- efron_endpoint_from_percentile_abc nd upper_percentile bias_correction acceleration std_error empirical_influence;
    Ok (combine lower_endpoint upper_endpoint).
End Abc.

(** The [fit] of a model object: fit_mle with the given weights and just_point=True.
    [embed] turns the computed weights into the argument passed; fit_mle's result
    dictionary holds the parameters under 'x'. *)
Definition fit_of_model (mz : minimizer) (nm : BaseModel.numerics) (names : BaseModel.model_names)
    (mixing : option (list String.string)) (m : model_obj) (num_draws : nat) (rvs : nat -> mat) (fa : fit_args)
    (embed : xvec -> weights_arg) (w : xvec) : Res vec :=
  do r <- fit_mle mz nm names mixing m num_draws rvs
    (mkFitArgs (fa_init_vals fa) (fa_init_shapes fa) (fa_init_intercepts fa) (fa_init_coefs fa)
       (fa_ridge fa) (fa_constrained fa) true (embed w));
  match r with Returned mr => Ok (aget (mr_x mr)) | Stored _ _ => Err TypeError end.
