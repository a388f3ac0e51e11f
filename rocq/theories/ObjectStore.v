(** Model of the attributes that estimation leaves on a model object, assignment by
    assignment: MNDC_Model.store_fit_results and its helpers
    (base_multinomial_cm_v2.py:953-1115 and 1117-1509) and the fit_mle methods that call
    it.  BaseModel.store_fit_results is the same code as a function of its input; here a
    call that raises half-way leaves behind what it has assigned so far. *)
From Coq Require Import String ZArith List Reals Lia Arith.
From Verif Require Import Res Vec Arr ChoiceCalcs ChoiceTools BaseModel Estimation.
Import ListNotations.
Local Open Scope string_scope.

(** A cell of fit_summary: a count, a number or a message. *)
Inductive scell := SCount (n : nat) | SNum (x : R) | SText (s : string).

(** What an attribute can hold. *)
Inductive aval :=
| VNone
| VNames (l : list string)
| VNum (x : R)
| VCount (n : nat)
| VInt (z : Z)
| VText (s : string)
| VBool (b : bool)
| VRidge (r : ridge_arg)
| VArray (rows cols : nat) (a : mat)                        (* ndarray *)
| VDesign3                                                  (* design_3d: contents in Estimation.v *)
| VSeries (s : series R)
| VCells (s : series fcell)
| VMatrix (labels : list string) (m : sqmat)                (* square DataFrame *)
| VTable (labels : list string) (columns : list (string * list fcell))
| VSummary (l : list (string * scell)).

(** [obj.__dict__] *)
Definition attrs := string -> option aval.
Definition setattr (n : string) (v : aval) (o : attrs) : attrs :=
  fun s => if String.eqb s n then Some v else o s.

(** A method body: the attributes afterwards, and the exception if one was raised. *)
Definition prog := attrs -> attrs * Res unit.
Definition done : prog := fun o => (o, Ok tt).
Definition raise (e : exn) : prog := fun o => (o, Err e).
(** [self.n = v; k] *)
Definition put (n : string) (v : aval) (k : prog) : prog := fun o => k (setattr n v o).
(** a computation that may raise, then [k] *)
Definition compute {A} (r : Res A) (k : A -> prog) : prog :=
  fun o => match r with Ok a => k a o | Err e => (o, Err e) end.

Local Notation "'self' n <- v ; k" := (put n v k) (at level 200, n at level 0, v at level 100, k at level 200).
Local Notation "'try' x <- r ; k" := (compute r (fun x => k)) (at level 200, x name, r at level 100, k at level 200).

(** scipy's success flag and message *)
Record report := mkReport { rp_success : bool; rp_message : string }.

(** base_multinomial_cm_v2.py:953-993.  [N] rows of the table, [n] observations. *)
Definition store_basic (N n : nat) (rep : report) (p : post_results) (k : prog) : prog :=
  self "log_likelihood" <- VNum (po_final_ll p);
  self "fitted_probs" <- VArray n (po_cols p) (po_chosen p);
  self "long_fitted_probs" <- VArray N (po_cols p) (po_long p);
  self "long_residuals" <- VArray N (po_cols p) (po_residuals p);
  self "ind_chi_squareds" <- VArray n (po_cols p) (po_chi_squares p);
  self "chi_square" <- VNum (sumn n (fun i => sumn (po_cols p) (fun c => po_chi_squares p i c)));
  self "estimation_success" <- VBool (rp_success rep);
  self "estimation_message" <- VText (rp_message rep);
  self "rho_squared" <- VNum (po_rho p);
  self "rho_bar_squared" <- VNum (po_rho_bar p);
  self "null_log_likelihood" <- VNum (po_null_ll p);
  k.

(** base_multinomial_cm_v2.py:1434-1436 *)
Definition default_design_3d (k : prog) : prog :=
  fun o => match o "design_3d" with None => k (setattr "design_3d" VNone o) | Some _ => k o end.

(** base_multinomial_cm_v2.py:1388-1405 *)
Definition extend_names (mixing : option (list string)) (k : list string -> prog) : prog :=
  fun o => match o "ind_var_names" with
           | Some (VNames l) =>
               let l' := add_mixing_variable_names l mixing in
               k l' (setattr "ind_var_names" (VNames l') o)
           | _ => (o, Err AssertionError)
           end.

(** base_multinomial_cm_v2.py:1451-1488: one optional group of parameters *)
Definition put_block (attr : string) (params : option (list R)) (names : option (list string)) (prefix : string)
    (acc : list string * list R) (k : list string * list R -> prog) : prog :=
  match params with
  | None => put attr VNone (k acc)
  | Some p =>
      compute (store_optional_parameters p names prefix acc)
        (fun r => put attr (VSeries (snd r)) (k (fst r)))
  end.

(** [series_a / series_b] *)
Definition ratio (all_params : list R) (s : series fcell) : series fcell :=
  map (fun ps => (fst (snd ps), fdiv (fst ps) (snd (snd ps)))) (combine all_params s).

(** base_multinomial_cm_v2.py:1166-1275; [k] receives the six series of inference *)
Definition put_inference (nm : numerics) (index_names all_names : list string) (all_params : list R) (r : results)
    (k : inference -> prog) : prog :=
  try coefs <- mk_series index_names (r_utility_coefs r);
  self "coefs" <- VSeries coefs;
  try g <- mk_series all_names (r_gradient r);
  self "gradient" <- VSeries g;
  try h <- mk_square all_names (r_hessian r);
  self "hessian" <- VMatrix all_names h;
  try hinv <- n_inv nm h;
  try cov <- mk_square all_names (neg_sq hinv);
  self "cov" <- VMatrix all_names cov;
  try params <- mk_series all_names all_params;
  self "params" <- VSeries params;
  try ses <- mk_series all_names (map fsqrt (diag_list cov));
  self "standard_errors" <- VCells ses;
  self "tvalues" <- VCells (ratio all_params ses);
  try pvals <- mk_series all_names (map (fun kv => p_value nm (snd kv)) (ratio all_params ses));
  self "pvalues" <- VCells pvals;
  try fi <- mk_square all_names (r_fisher r);
  self "fisher_information" <- VMatrix all_names fi;
  try rcov <- mk_square all_names (mkSq (sqn h) (calc_asymptotic_covariance (sqn h) (sqe hinv) (sqe fi)));
  self "robust_cov" <- VMatrix all_names rcov;
  try rses <- mk_series all_names (map fsqrt (diag_list rcov));
  self "robust_std_errs" <- VCells rses;
  self "robust_t_stats" <- VCells (ratio all_params rses);
  try rp <- mk_series all_names (map (fun kv => p_value nm (snd kv)) (ratio all_params rses));
  self "robust_p_vals" <- VCells rp;
  k (mkInference ses (ratio all_params ses) pvals rses (ratio all_params rses) rp).

(** base_multinomial_cm_v2.py:1371-1373 for one series, which is changed in place *)
Fixpoint blank_in_place (attr : string) (all_names : list string) (constraints : list Z) (s : series fcell)
    (k : series fcell -> prog) : prog :=
  match constraints with
  | [] => k s
  | z :: r =>
      match py_pos (length all_names) z with
      | None => raise IndexError
      | Some j =>
          let s' := loc_set (nth j all_names EmptyString) NaN s in
          put attr (VCells s') (blank_in_place attr all_names r s' k)
      end
  end.

(** base_multinomial_cm_v2.py:1341-1375 *)
Definition blank_all (all_names : list string) (constraints : option (list Z)) (i : inference)
    (k : inference -> prog) : prog :=
  match constraints with
  | None => k i
  | Some c =>
      blank_in_place "standard_errors" all_names c (i_standard_errors i) (fun a1 =>
      blank_in_place "tvalues" all_names c (i_tvalues i) (fun a2 =>
      blank_in_place "pvalues" all_names c (i_pvalues i) (fun a3 =>
      blank_in_place "robust_std_errs" all_names c (i_robust_std_errs i) (fun a4 =>
      blank_in_place "robust_t_stats" all_names c (i_robust_t_stats i) (fun a5 =>
      blank_in_place "robust_p_vals" all_names c (i_robust_p_vals i) (fun a6 =>
      k (mkInference a1 a2 a3 a4 a5 a6)))))))
  end.

(** base_multinomial_cm_v2.py:995-1029; the attribute check (1012-1019) holds here *)
Definition summary_table (params : series R) (i : inference) : aval :=
  VTable (map fst params)
    [("parameters", map (fun kv => Fin (snd kv)) params);
     ("std_err", map snd (i_standard_errors i));
     ("t_stats", map snd (i_tvalues i));
     ("p_values", map snd (i_pvalues i));
     ("robust_std_err", map snd (i_robust_std_errs i));
     ("robust_t_stats", map snd (i_robust_t_stats i));
     ("robust_p_values", map snd (i_robust_p_vals i))].

(** base_multinomial_cm_v2.py:1031-1071 *)
Definition record_fit_values (n k : nat) (ll : R) (ses : series fcell) (c : prog) : prog :=
  self "nobs" <- VCount n;
  self "df_model" <- VCount k;
  self "df_resid" <- VInt (Z.of_nat n - Z.of_nat k);
  self "llf" <- VNum ll;
  self "bse" <- VCells ses;
  self "aic" <- VNum (compute_aic ll k);
  self "bic" <- VNum (compute_bic ll n k);
  c.

(** base_multinomial_cm_v2.py:1073-1115 *)
Definition fit_summary_of (n k : nat) (rep : report) (p : post_results) : aval :=
  VSummary [("Number of Parameters", SCount k);
            ("Number of Observations", SCount n);
            ("Null Log-Likelihood", SNum (po_null_ll p));
            ("Fitted Log-Likelihood", SNum (po_final_ll p));
            ("Rho-Squared", SNum (po_rho p));
            ("Rho-Bar-Squared", SNum (po_rho_bar p));
            ("Estimation Message", SText (rp_message rep))].

(** base_multinomial_cm_v2.py:1407-1509.  [m] carries the names that estimation never
    changes (intercept_names, shape_names, nest_names); ind_var_names is read from the
    object.  [N] is the number of rows, [n] the number of observations. *)
Definition store_fit (nm : numerics) (m : model_names) (mixing : option (list string)) (N n : nat) (rep : report)
    (p : post_results) : prog :=
  let r := results_of n p in
  store_basic N n rep p
  (default_design_3d
  (extend_names mixing (fun index_names =>
  put_block "intercepts" (r_intercept_params r) (mn_intercepts m) "Outside_ASC_" (index_names, r_utility_coefs r) (fun b1 =>
  put_block "shapes" (r_shape_params r) (mn_shapes m) "Shape_" b1 (fun b2 =>
  put_block "nests" (r_nest_params r) (mn_nests m) "Nest_Param_" b2 (fun b3 =>
  let all_names := fst b3 in
  let all_params := snd b3 in
  put_inference nm index_names all_names all_params r (fun inf =>
  blank_all all_names (r_constrained_pos r) inf (fun inf' =>
  self "summary" <- summary_table (combine all_names all_params) inf';
  record_fit_values n (length (combine all_names all_params)) (po_final_ll p) (i_standard_errors inf')
  (self "fit_summary" <- fit_summary_of n (length (combine all_names all_params)) rep p; done))))))))).
