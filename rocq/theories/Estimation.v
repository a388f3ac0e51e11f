(** Model of src/pylogit/estimation.py, of create_estimation_obj
    (construct_estimator.py), of the fit_mle methods of the seven model classes and
    of the reused derivative buffers.

    [scipy.optimize.minimize] is a parameter: an arbitrary function of the objective,
    the Hessian callable and the starting values.  Printing, timing and warnings are
    omitted. *)
From Coq Require Import String ZArith List Reals Lra Lia Arith.
From Coquelicot Require Import Coquelicot.
From Verif Require Import Res Vec Arr ChoiceCalcs Transforms Ids Mappings LongData Frame ChoiceTools
  BaseModel NestedCalcs MixedCalcs.
Import ListNotations.
Open Scope R_scope.

(** ** Checks *)

(** The [weights] argument: None, a one-dimensional ndarray, anything else. *)
Inductive weights_arg := WNone | WArray (a : arr) | WOther.

Definition is_negative (x : R) : bool := if Rlt_dec x 0 then true else false.

(** estimation.py:19-32 *)
Definition ensure_positivity_and_length_of_weights (w : weights_arg) (num_rows : nat) : Res unit :=
  match w with
  | WNone => Ok tt
  | WOther => Err ValueError
  | WArray a =>
      if negb (alen a =? num_rows)%nat then Err ValueError
      else if existsb (fun i => is_negative (aget a i)) (seq 0 (alen a)) then Err ValueError
      else Ok tt
  end.

Definition ridge_value (r : ridge_arg) : option R :=
  match r with RidgeNumber x => Some x | _ => None end.

(** estimation.py:127-128 *)
Definition default_weights (w : weights_arg) : vec :=
  match w with WArray a => aget a | _ => fun _ => 1 end.

(** ** Estimators *)

(** What an estimator computes with: one constructor per family of estimator
    classes (LogitTypeEstimator, NestedEstimator, MixedEstimator). *)
Inductive est_core :=
| CoreLogit (k : logit_kind) (D : Data)
| CoreNested (E : NData)
| CoreMixed (E : MData).

Record estimator := mkEst {
  e_core : est_core;
  e_chosen : option mat;              (* chosen_row_to_obs *)
  e_constrained : option (list Z);    (* constrained_pos *)
  e_zero : arr                        (* zero_vector *)
}.

(** The data shared by all families. *)
Definition core_data (c : est_core) : Data :=
  match c with CoreLogit _ D => D | CoreNested E => n_D E | CoreMixed E => x_D E end.

(** convenience_calc_log_likelihood: estimation.py:328-348, nested_logit.py:258-275,
    mixed_logit.py:290-308 *)
Definition est_ll (c : est_core) (x : arr) : R :=
  match c with
  | CoreLogit k D => est_log_likelihood k D x
  | CoreNested E => nested_est_log_likelihood E x
  | CoreMixed E => calc_mixed_log_likelihood E x
  end.

(** convenience_calc_gradient: estimation.py:350-371, nested_logit.py:277-290,
    mixed_logit.py:310-325 *)
Definition est_grad (c : est_core) (x : arr) : Res arr :=
  match c with
  | CoreLogit k D => est_gradient k D x
  | CoreNested E => Ok (nested_est_gradient E x)
  | CoreMixed E => Ok (calc_mixed_logit_gradient E x)
  end.

(** Python indices into a sequence of length [n]; IndexError outside it *)
Definition resolve_positions (n : nat) (l : list Z) : Res (list nat) :=
  mapM (fun z => match py_pos n z with Some p => Ok p | None => Err IndexError end) l.

Definition resolve_constrained (n : nat) (l : option (list Z)) : Res (option (list nat)) :=
  match l with
  | None => Ok None
  | Some l => do p <- resolve_positions n l; Ok (Some p)
  end.

(** convenience_calc_hessian: estimation.py:373-393, nested_logit.py:292-319,
    mixed_logit.py:327-356.  Only the last two look at constrained_pos. *)
Definition est_hess (e : estimator) (x : arr) : Res sqmat :=
  match e_core e with
  | CoreLogit k D => est_hessian k D x
  | CoreNested E =>
      do l <- resolve_constrained (n_Q E + d_K (n_D E)) (e_constrained e);
      Ok (nested_est_hessian E l x)
  | CoreMixed E =>
      do l <- resolve_constrained (x_vars E) (e_constrained e);
      Ok (mixed_est_hessian E l x)
  end.

(** convenience_calc_fisher_approx: estimation.py:395-417, nested_logit.py:321-336,
    mixed_logit.py:358-375 *)
Definition est_fish (c : est_core) (x : arr) : Res sqmat :=
  match c with
  | CoreLogit k D => est_fisher k D x
  | CoreNested _ => Ok (nested_est_fisher x)
  | CoreMixed _ => Ok (mixed_est_fisher x)
  end.

(** convenience_split_params(..., return_all_types=True): estimation.py:147-169,
    nested_logit.py:197-236, mixed_logit.py:242-262 *)
Record blocks := mkBlocks {
  bl_nests : option arr; bl_shapes : option arr; bl_intercepts : option arr; bl_coefs : arr }.
Definition est_split (c : est_core) (x : arr) : blocks :=
  match c with
  | CoreLogit k D =>
      let '(s, i, b) := split_param_vec k (d_J D) (d_K D) x in mkBlocks None s i b
  | CoreNested E => let (o, b) := nested_split (n_Q E) x in mkBlocks (Some o) None None b
  | CoreMixed _ => mkBlocks None None None x
  end.

(** check_length_of_initial_values of the seven estimator classes *)
Definition est_check_length (c : est_core) (init : arr) : Res unit :=
  match c with
  | CoreLogit k D => check_length_of_initial_values k (d_J D) (d_K D) init
  | CoreNested E => nested_check_length E init
  | CoreMixed E => mixed_check_length E init
  end.

(** convenience_calc_probs: estimation.py:306-326, nested_logit.py:238-256,
    mixed_logit.py:270-288.  A one-dimensional array is represented as a matrix with
    one column.  Without chosen_row_to_obs (impossible in fit_mle) the result is not
    a pair, and unpacking it (539) fails. *)
Definition est_probs (e : estimator) (x : arr) : Res (nat * mat * mat) :=
  match e_core e, e_chosen e with
  | _, None => Err ValueError
  | CoreLogit k D, Some C =>
      Ok (1%nat, (fun j _ => est_chosen_probs k D C x j), (fun i _ => est_long_probs k D x i))
  | CoreNested E, Some C =>
      let (orig, beta) := nested_split (n_Q E) x in
      let nests := naturalize_nest_coefs (aget orig) in
      Ok (1%nat, (fun j _ => nested_chosen_probs E C nests beta j),
                 (fun i _ => nested_long_probs E nests beta i))
  | CoreMixed E, Some C => Ok (x_draws E, chosen_array E C x, prob_array E x)
  end.

(** [v[positions] = 0] *)
Definition zero_at (l : list nat) (a : arr) : arr :=
  mkArr (alen a) (fun i => if existsb (Nat.eqb i) l then 0 else aget a i).

(** estimation.py:208-220 *)
Definition neg_ll_and_neg_gradient (e : estimator) (x : arr) : Res (R * arr) :=
  let neg_ll := -1 * est_ll (e_core e) x in
  do g <- est_grad (e_core e) x;
  let neg_g := mkArr (alen g) (fun i => -1 * aget g i) in
  match e_constrained e with
  | None => Ok (neg_ll, neg_g)
  | Some l => do p <- resolve_positions (alen neg_g) l; Ok (neg_ll, zero_at p neg_g)
  end.

(** estimation.py:222-227 *)
Definition calc_neg_hessian (e : estimator) (x : arr) : Res sqmat :=
  do h <- est_hess e x; Ok (neg_sq h).

(** ** Post-estimation results *)

(** estimation.py:420-447 *)
Definition calc_individual_chi_squares (N : nat) (M : mat) (residuals long : mat) : mat :=
  mdot N (transp M) (fun i r => residuals i r * residuals i r / long i r).

(** estimation.py:450-476 *)
Definition calc_rho_and_rho_bar_squared (final_ll null_ll : R) (num_est_parameters : nat) : R * R :=
  (1 - final_ll / null_ll, 1 - (final_ll - INR num_est_parameters) / null_ll).

(** scipy's OptimizeResult: the fields that are read *)
Record min_result := mkMin { mr_x : arr; mr_fun : R }.

Record post_results := mkPost {
  po_min : min_result;
  po_blocks : blocks;
  po_final_ll : R;
  po_null_ll : R;
  po_cols : nat;               (* columns of the probability arrays *)
  po_chosen : mat;
  po_long : mat;
  po_residuals : mat;
  po_chi_squares : mat;
  po_rho : R;
  po_rho_bar : R;
  po_gradient : arr;
  po_hessian : sqmat;
  po_fisher : sqmat;
  po_constrained : option (list Z)
}.

(** estimation.py:479-579 *)
Definition post_estimation (r : min_result) (null_ll : R) (e : estimator) : Res post_results :=
  let final_ll := -1 * mr_fun r in
  let x := mr_x r in
  let D := core_data (e_core e) in
  do pr <- est_probs e x;
  let '(cols, chosen, long) := pr in
  let residuals : mat := fun i c => d_y D i - long i c in
  let chi := calc_individual_chi_squares (d_N D) (d_M D) residuals long in
  let rho := calc_rho_and_rho_bar_squared final_ll null_ll (alen x) in
  do g <- est_grad (e_core e) x;
  do h <- est_hess e x;
  do f <- est_fish (e_core e) x;
  Ok (mkPost r (est_split (e_core e) x) final_ll null_ll cols chosen long residuals chi
             (fst rho) (snd rho) g h f (e_constrained e)).

(** ** estimate *)
Definition minimizer :=
  (arr -> Res (R * arr)) -> option (arr -> Res sqmat) -> arr -> Res min_result.

Inductive estimation_output := JustPoint (r : min_result) | FullResults (p : post_results).

(** estimation.py:582-709; method, tolerances and maxiter are part of [mz] *)
Definition estimate (mz : minimizer) (init : arr) (e : estimator) (use_hessian just_point : bool)
  : Res estimation_output :=
  let hess_func := if use_hessian then Some (calc_neg_hessian e) else None in
  do r <- mz (neg_ll_and_neg_gradient e) hess_func init;
  if just_point then Ok (JustPoint r)
  else do p <- post_estimation r (est_ll (e_core e) (e_zero e)) e; Ok (FullResults p).

(** ** Model objects and estimator construction *)

(** What fit_mle reads of a model object: columns of the table, design matrix [X]
    with [K] columns, and the model type with its own attributes. *)
Inductive model_class :=
| ClassLogit (k : logit_kind)
| ClassNested (nests : nest_spec)
| ClassMixed (mixing_pos : list nat).
Record model_obj := mkModel { mo_class : model_class; mo_cols : long_cols; mo_K : nat; mo_X : mat }.

(** EstimationObj.__init__, estimation.py:87-145 (checks 111-115), for the data in
    [c], whose weights and ridge it sets. *)
Definition estimation_checks (d : long_cols) (ridge : ridge_arg) (w : weights_arg) : Res unit :=
  do _ <- ensure_ridge_is_scalar_or_none ridge;
  do _ <- ensure_contiguity_in_observation_rows (obs_ids d);
  ensure_positivity_and_length_of_weights w (length (obs_ids d)).

(** mapping_dict["rows_to_nests"].shape, with None.shape raising *)
Definition opt_smat (o : option smat) : Res smat :=
  match o with Some m => Ok m | None => Err AttributeError end.

(** The arguments of the estimator: mappings (get_mappings_for_fit,
    base_multinomial_cm_v2.py:920-951) and, for mixed models, design_3d
    (mixed_logit.py:578-588, 238). *)
Definition estimator_core (m : model_obj) (num_draws : nat) (rvs : nat -> mat)
    (ridge : option R) (w : vec) : Res (est_core * option mat) :=
  let d := mo_cols m in
  match mo_class m with
  | ClassLogit k =>
      do mp <- create_long_form_mappings d None;
      Ok (CoreLogit k (data_of d mp (mo_K m) (mo_X m) (Some w) ridge),
          option_map smat_R (chosen_row_to_obs mp))
  | ClassNested t =>
      do mp <- create_long_form_mappings d (Some t);
      do rn <- opt_smat (rows_to_nests mp);
      Ok (CoreNested (mkNData (data_of d mp (mo_K m) (mo_X m) (Some w) ridge) (s_cols rn) (smat_R rn)),
          option_map smat_R (chosen_row_to_obs mp))
  | ClassMixed pos =>
      do mp <- create_long_form_mappings d None;
      do rm <- opt_smat (rows_to_mixers mp);
      do draws <- get_normal_draws (s_cols rm) num_draws (length pos) rvs;
      do E <- mixed_data_of d (mo_K m) (mo_X m) pos num_draws draws (Some w) ridge;
      Ok (CoreMixed E, option_map smat_R (chosen_row_to_obs mp))
  end.

(** create_estimation_obj, construct_estimator.py:55-120, followed by
    set_derivatives as its caller does (bootstrap.py:638-645).  For mixed models the
    draws are those of the model's design_3d. *)
Definition create_estimation_obj (m : model_obj) (num_draws : nat) (rvs : nat -> mat) (init : arr)
    (ridge : ridge_arg) (constrained : option (list Z)) (w : weights_arg) : Res estimator :=
  do cc <- estimator_core m num_draws rvs (ridge_value ridge) (default_weights w);
  do _ <- estimation_checks (mo_cols m) ridge w;
  Ok (mkEst (fst cc) (snd cc) constrained (mkArr (alen init) (fun _ => 0))).

(** ** fit_mle *)

(** The keyword arguments.  [None] means "not passed" (or, for the keywords that are
    named parameters of the method, passed as None).  [fa_weights] is a [weights]
    keyword, which no fit_mle names: it lands in **kwargs. *)
Record fit_args := mkFitArgs {
  fa_init_vals : option arr;
  fa_init_shapes : option arr;
  fa_init_intercepts : option arr;
  fa_init_coefs : option arr;
  fa_ridge : ridge_arg;
  fa_constrained : option (list Z);
  fa_just_point : bool;
  fa_weights : weights_arg
}.

Definition given {A} (o : option A) : bool := match o with Some _ => true | None => false end.

(** Starting values of models without separate arguments:
    conditional_logit.py:360-364, nested_logit.py:495-499, mixed_logit.py:557-561,
    and [init_vals.shape] on None *)
Definition plain_init (fa : fit_args) : Res arr :=
  if (given (fa_init_shapes fa) || given (fa_init_intercepts fa) || given (fa_init_coefs fa))%bool
  then Err ValueError
  else match fa_init_vals fa with Some v => Ok v | None => Err AttributeError end.

(** clog_log.py:686-732 *)
Definition clog_init (J K : nat) (fa : fit_args) : Res arr :=
  if given (fa_init_shapes fa) then Err ValueError
  else match fa_init_vals fa, fa_init_coefs fa with
       | Some v, _ => Ok v
       | None, None => Err ValueError
       | None, Some b =>
           if negb (alen b =? K)%nat then Err ValueError
           else match fa_init_intercepts fa with
                | None => Ok b
                | Some a => if (alen a =? J - 1)%nat then Ok (acat a b) else Err ValueError
                end
       end.

(** scobit.py:821-874, uneven_logit.py:822-875, asym_logit.py:1013-1067; [ns] is the
    required number of shape parameters *)
Definition shaped_init (ns J K : nat) (fa : fit_args) : Res arr :=
  match fa_init_vals fa with
  | Some v => Ok v
  | None =>
      match fa_init_shapes fa, fa_init_coefs fa with
      | Some s, Some b =>
          if negb (alen s =? ns)%nat then Err ValueError
          else if negb (alen b =? K)%nat then Err ValueError
          else match fa_init_intercepts fa with
               | None => Ok (acat s b)
               | Some a => if (alen a =? J - 1)%nat then Ok (acat s (acat a b)) else Err ValueError
               end
      | _, _ => Err ValueError
      end
  end.

Definition init_vector (m : model_obj) (fa : fit_args) : Res arr :=
  let J := length (np_unique (alt_ids (mo_cols m))) in
  match mo_class m with
  | ClassLogit KMNL | ClassNested _ | ClassMixed _ => plain_init fa
  | ClassLogit (KClog _) => clog_init J (mo_K m) fa
  | ClassLogit k => shaped_init (num_shapes k J) J (mo_K m) fa
  end.

(** nested_logit.py:517-523; the other models pass constrained_pos on *)
Definition fit_constrained (m : model_obj) (user : option (list Z)) : option (list Z) :=
  match mo_class m with
  | ClassNested t =>
      let fixed := map Z.of_nat (identify_degenerate_nests t) in
      Some (np_unique (match user with Some l => (fixed ++ l)%list | None => fixed end))
  | _ => user
  end.

(** The estimator that fit_mle builds: conditional_logit.py:377-391,
    clog_log.py:703-746, scobit.py:816-888, uneven_logit.py:817-889,
    asym_logit.py:1008-1081, nested_logit.py:512-537, mixed_logit.py:574-600.
    None of them passes weights. *)
Definition fit_estimator (m : model_obj) (num_draws : nat) (rvs : nat -> mat) (fa : fit_args)
  : Res (estimator * arr) :=
  do init <- init_vector m fa;
  do e <- create_estimation_obj m num_draws rvs init (fa_ridge fa)
            (fit_constrained m (fa_constrained fa)) WNone;
  do _ <- est_check_length (e_core e) init;
  Ok (e, init).

(** The results dictionary handed to store_fit_results.  Only the length of the
    chosen probabilities is read there; for mixed models the array has one column
    per draw, of which the first stands here. *)
Definition results_of (num_obs : nat) (p : post_results) : results :=
  mkResults (alist (bl_coefs (po_blocks p))) (option_map alist (bl_intercepts (po_blocks p)))
    (option_map alist (bl_shapes (po_blocks p))) (option_map alist (bl_nests (po_blocks p)))
    (alist (po_gradient p)) (po_hessian p) (po_fisher p) (po_final_ll p)
    (map (fun j => po_chosen p j 0%nat) (seq 0 num_obs)) (po_constrained p).

Inductive fit_return :=
| Returned (r : min_result)                              (* just_point=True *)
| Stored (p : post_results) (out : fit_output).          (* attributes set, None returned *)

(** fit_mle of the seven classes; all call estimate with use_hessian at its default
    or True.  mixed_logit.py:613-616 only adds sequence probabilities. *)
Definition fit_mle (mz : minimizer) (nm : numerics) (names : model_names) (mixing : option (list string))
    (m : model_obj) (num_draws : nat) (rvs : nat -> mat) (fa : fit_args) : Res fit_return :=
  do ei <- fit_estimator m num_draws rvs fa;
  let (e, init) := ei in
  do out <- estimate mz init e true (fa_just_point fa);
  match out with
  | JustPoint r => Ok (Returned r)
  | FullResults p =>
      do st <- store_fit_results nm names mixing (results_of (d_obs (core_data (e_core e))) p);
      Ok (Stored p st)
  end.

(** ** Derivative buffers *)

(** A csr matrix used as a buffer: a fixed sparsity pattern and one stored value per
    row ([.data]). *)
Record csr_buffer := mkCsr { csr_pattern : mat; csr_values : vec }.
Definition csr_assign (b : csr_buffer) (values : vec) : csr_buffer := mkCsr (csr_pattern b) values.
Definition csr_read (b : csr_buffer) : mat := with_data (csr_pattern b) (csr_values b).

(** The arrays captured by functools.partial in create_calc_dh_dv,
    create_calc_dh_d_shape (conditional_logit.py:177-189, clog_log.py:344-371,
    scobit.py:422-481, uneven_logit.py:422-481, asym_logit.py:589-663). *)
Record buffers := mkBuffers {
  bf_dv : csr_buffer;        (* diags(ones): pattern is the identity *)
  bf_shape : csr_buffer;     (* rows_to_alts.copy() *)
  bf_dc_d_eta : mat;         (* asym: pre_dc_d_eta *)
  bf_dh_d_eta : mat          (* asym: pre_dh_d_eta *)
}.

Definition initial_buffers (A : mat) : buffers :=
  mkBuffers (mkCsr ident (fun _ => 1)) (mkCsr A (fun _ => 1)) (fun _ _ => 0) (fun _ _ => 0).

(** The in-place updates made by one call of calc_dh_dv: clog_log.py:281,
    scobit.py:288, uneven_logit.py:300, asym_logit.py:431; MNL's buffer is never
    written. *)
Definition call_dh_dv (k : logit_kind) (J : nat) (A : mat) (v : vec) (shape : option arr) (s : buffers)
  : buffers :=
  let put d := mkBuffers (csr_assign (bf_dv s) d) (bf_shape s) (bf_dc_d_eta s) (bf_dh_d_eta s) in
  match k with
  | KMNL => s
  | KClog _ => put (cloglog_deriv_v v)
  | KScobit _ => put (scobit_deriv_v J A v shape)
  | KUneven _ => put (uneven_deriv_v J A v shape)
  | KAsym sref _ => put (asym_deriv_v sref J A v shape)
  end.

(** The in-place updates made by one call of calc_dh_d_shape: scobit.py:372,
    uneven_logit.py:373, asym_logit.py:530-540 and 221-223 *)
Definition call_dh_d_shape (k : logit_kind) (J : nat) (A : mat) (v : vec) (shape : option arr) (s : buffers)
  : buffers :=
  match k with
  | KMNL | KClog _ => s
  | KScobit _ =>
      mkBuffers (bf_dv s) (csr_assign (bf_shape s) (scobit_deriv_shape J A v shape)) (bf_dc_d_eta s) (bf_dh_d_eta s)
  | KUneven _ =>
      mkBuffers (bf_dv s) (csr_assign (bf_shape s) (uneven_deriv_shape J A v shape)) (bf_dc_d_eta s) (bf_dh_d_eta s)
  | KAsym sref _ =>
      let dh_dc := csr_assign (bf_shape s) (asym_dh_dc_values sref J A v shape) in
      let dc_d_eta := deriv_c_wrt_eta (asym_natural_shapes sref shape) sref in
      mkBuffers (bf_dv s) dh_dc dc_d_eta (mdot J (csr_read dh_dc) dc_d_eta)
  end.

(** The objects the two callables return are the buffers themselves. *)
Definition returned_dh_d_shape (k : logit_kind) (J : nat) (s : buffers) : option cmat :=
  match k with
  | KMNL | KClog _ => None
  | KScobit _ | KUneven _ => Some (mkCmat J (csr_read (bf_shape s)))
  | KAsym _ _ => Some (mkCmat (J - 1) (bf_dh_d_eta s))
  end.

(** One evaluation of convenience_calc_gradient / _hessian / _fisher_approx with
    buffers [s]: the callables are called in the order of choice_calcs.py:411-420
    (673-682 and 937-946, where dh_dv is called before dh_d_alpha), and everything computed afterwards reads the buffers. *)
Definition evaluate {A} (calc : LModel -> Data -> option arr -> option arr -> arr -> A)
    (k : logit_kind) (D : Data) (s : buffers) (x : arr) : A * buffers :=
  let '(shape, icpt, beta) := split_param_vec k (d_J D) (d_K D) x in
  let v := sys_utilities D beta in
  let s1 := call_dh_d_shape k (d_J D) (d_A D) v shape s in
  let s2 := call_dh_dv k (d_J D) (d_A D) v shape s1 in
  let m := model_of k in
  let m' := mkLModel (m_transform m) (fun _ _ _ _ => returned_dh_d_shape k (d_J D) s2)
              (fun _ _ _ _ => csr_read (bf_dv s2)) (m_dh_da m) in
  (calc m' D shape icpt beta, s2).

(** The quantities an estimator is asked for. *)
Inductive query := QGradient | QHessian | QFisher.
Definition query_calc (q : query) : LModel -> Data -> option arr -> option arr -> arr -> Res (arr + sqmat) :=
  fun m D s i b =>
    match q with
    | QGradient => do g <- calc_gradient m D s i b; Ok (inl g)
    | QHessian => do h <- calc_hessian m D s i b; Ok (inr h)
    | QFisher => do h <- calc_fisher_info_matrix m D s i b; Ok (inr h)
    end.

(** Any sequence of evaluations, starting from the buffers made by set_derivatives. *)
Fixpoint run_queries (k : logit_kind) (D : Data) (s : buffers) (l : list (query * arr)) : buffers :=
  match l with
  | [] => s
  | (q, x) :: r => run_queries k D (snd (evaluate (query_calc q) k D s x)) r
  end.
