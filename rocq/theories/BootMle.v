(** Model of src/pylogit/bootstrap_mle.py and of the replicate generation in
    src/pylogit/bootstrap.py:162-498.

    scipy.optimize.minimize is the oracle [sp]: for each method, pair of tolerances and
    iteration limit, a minimizer in the sense of Estimation.v.  Printing and progress
    bars are not modelled. *)
From Coq Require Import String ZArith List Reals Bool Lia Arith.
From Verif Require Import Res Ids Vec Arr Mappings Frame ChoiceTools WideLong BaseModel ChoiceCalcs LongData Transforms
  Estimation Predict Construct BootSampler.
Import ListNotations.
Local Open Scope string_scope.

(** [s.loc[names].values]: all entries under each name, in the order of the names;
    KeyError when a name is missing *)
Definition loc_list (s : series R) (names : list string) : Res (list R) :=
  if forallb (fun n => existsb (fun kv => String.eqb n (fst kv)) s) names
  then Ok (flat_map (fun n => map snd (filter (fun kv => String.eqb n (fst kv)) s)) names)
  else Err KeyError.

(** [a = np.zeros(n); a[-1 * len(vals):] = vals], bootstrap_mle.py:38 and 73-74.  With no
    values the slice is the whole array; with more values than places it is too, and a
    single value is broadcast to the empty array. *)
Definition assign_tail (n : nat) (vals : list R) : Res (list R) :=
  let k := length vals in
  if (k =? 0)%nat then (if (n =? 0)%nat then Ok [] else Err ValueError)
  else if (k <=? n)%nat then Ok (repeat 0%R (n - k) ++ vals)%list
  else if (k =? 1)%nat then Ok []
  else Err ValueError.

(** bootstrap_mle.py:17-78.  The division by the logarithm of the number of alternatives
    is not modelled for a single alternative (numpy gives inf or nan). *)
Definition extract_default_init_vals (orig : created) (mnl_point_series : series R) (num_params : nat)
  : Res (list R) :=
  do parts <- match c_inames orig with
              | None => Ok (map snd mnl_point_series, None)
              | Some inames =>
                  do b <- loc_list mnl_point_series (c_ind_var_names orig);
                  do i <- loc_list mnl_point_series inames;
                  Ok (b, Some i)
              end;
  let (index_coefs, intercepts) := parts : list R * option (list R) in
  let index_coefs := match c_mix_vars orig with
                     | Some l => (index_coefs ++ repeat 0%R (length l))%list
                     | None => index_coefs
                     end in
  let index_coefs := match c_type orig with
                     | TAsym => map (fun x => (x / ln (INR (length (np_unique (c_alt_ids orig)))))%R) index_coefs
                     | _ => index_coefs
                     end in
  let index_coefs := match intercepts with Some i => (i ++ index_coefs)%list | None => index_coefs end in
  assign_tail num_params index_coefs.

(** bootstrap_mle.py:81-136 and the other arguments at 212-218 / 324-329: how a model of
    the same kind as [orig] is created on new data *)
Definition recreation_args (orig : created) (id_col : string) : model_args :=
  mkArgs (c_alt_col orig) id_col (c_choice_col orig) (c_spec orig) (mtype_name (c_type orig))
    (c_iref orig) (c_sref orig) (c_name_spec orig) (c_inames orig) (c_snames orig) (c_nests orig)
    (c_mix_col orig) (c_mix_vars orig).

(** bootstrap_mle.py:203-207: how the MNL is created on the new data *)
Definition mnl_args (orig : created) (id_col : string) (spec : specification) (names : option name_dict) : model_args :=
  mkArgs (c_alt_col orig) id_col (c_choice_col orig) spec "MNL" RefNone RefNone names None None None None None.

(** The options of an estimation. *)
Record fit_options := mkOpts {
  o_method : string;
  o_loss_tol : R;
  o_gradient_tol : R;
  o_maxiter : Z;
  o_ridge : ridge_arg;
  o_constrained : option (list Z)
}.
Definition optimizer := string -> R -> R -> Z -> minimizer.

(** The dictionary mnl_fit_kwargs: None where a key is absent *)
Record mnl_kwargs := mkKwargs {
  k_method : option string;
  k_loss_tol : option R;
  k_gradient_tol : option R;
  k_maxiter : option Z;
  k_ridge : ridge_arg;
  k_constrained : option (list Z)
}.
Definition no_kwargs : mnl_kwargs := mkKwargs None None None None RidgeNone None.
Definition or_default {A} (o : option A) (d : A) : A := match o with Some a => a | None => d end.
(** The keyword defaults of fit_mle, conditional_logit.py:305-315, and of line 208-209 *)
Definition options_of (k : mnl_kwargs) : fit_options :=
  mkOpts (or_default (k_method k) "BFGS") (or_default (k_loss_tol k) (1 / 1000000)%R)
    (or_default (k_gradient_tol k) (1 / 1000000)%R) (or_default (k_maxiter k) 1000%Z) (k_ridge k) (k_constrained k).

Section WithOptimizer.
  Context (sp : optimizer) (nm : numerics).

  (** [obj.fit_mle(init_vals, just_point=True, **options)] and its "x" entry's dictionary.
      A mixed logit's fit_mle requires num_draws, which nobody passes
      (mixed_logit.py:491-503). *)
  Definition fit_point (m : created) (init_vals : option arr) (o : fit_options) : Res min_result :=
    match c_type m with
    | TMixed => Err TypeError
    | _ =>
        do mo <- model_obj_of m;
        do r <- fit_mle (sp (o_method o) (o_loss_tol o) (o_gradient_tol o) (o_maxiter o)) nm (names_of m)
                  (c_mix_vars m) mo 0 (fun _ _ _ => 0%R)
                  (mkFitArgs init_vals None None None (o_ridge o) (o_constrained o) true WNone);
        match r with
        | Returned r => Ok r
        | Stored _ _ => Err TypeError
        end
    end.

  (** bootstrap_mle.py:139-222.  [mnl_fit_kwargs["just_point"] = True] raises TypeError on
      None; a specification of None raises TypeError in the constructor. *)
  Definition get_mnl_point_est (orig : created) (new_df : frame) (boot_id_col : string) (num_params : nat)
      (mnl_spec : option specification) (mnl_names : option name_dict) (mnl_init_vals : option arr)
      (mnl_fit_kwargs : option mnl_kwargs) : Res (min_result * created) :=
    let is_mnl := match c_type orig with TMNL => true | _ => false end in
    let mnl_spec := if is_mnl then Some (c_spec orig) else mnl_spec in
    let mnl_names := if is_mnl then c_name_spec orig else mnl_names in
    let mnl_init_vals := if is_mnl then Some (or_default mnl_init_vals (mkArr num_params (fun _ => 0%R))) else mnl_init_vals in
    let mnl_fit_kwargs := if is_mnl then Some (or_default mnl_fit_kwargs no_kwargs) else mnl_fit_kwargs in
    match mnl_fit_kwargs, mnl_spec with
    | None, _ => Err TypeError
    | _, None => Err TypeError
    | Some kw, Some spec =>
        do mnl_obj <- create_choice_model new_df (mnl_args orig boot_id_col spec mnl_names);
        do mnl_point <- fit_point mnl_obj mnl_init_vals (options_of kw);
        Ok (mnl_point, mnl_obj)
    end.

  (** bootstrap_mle.py:225-338; fit_kwargs always contains the options of
      generate_*_replicates and just_point=True *)
  Definition retrieve_point_est (orig : created) (new_df : frame) (new_id_col : string) (num_params : nat)
      (mnl_spec : option specification) (mnl_names : option name_dict) (mnl_init_vals : option arr)
      (mnl_fit_kwargs : option mnl_kwargs)
      (extract_init_vals : option (created -> series R -> nat -> Res (list R)))
      (fit_kwargs : fit_options) : Res min_result :=
    do mnl <- get_mnl_point_est orig new_df new_id_col num_params mnl_spec mnl_names mnl_init_vals mnl_fit_kwargs;
    let (mnl_point, mnl_obj) := mnl in
    do mnl_point_series <- mk_series (c_ind_var_names mnl_obj) (alist (mr_x mnl_point));
    match c_type orig with
    | TMNL => Ok mnl_point
    | _ =>
        do default_init_vals <- or_default extract_init_vals extract_default_init_vals orig mnl_point_series num_params;
        do new_obj <- create_choice_model new_df (recreation_args orig new_id_col);
        fit_point new_obj (Some (mkArr (length default_init_vals) (fun i => nth i default_init_vals 0%R))) fit_kwargs
    end.

  (** The Boot object: bootstrap.py:162-184 *)
  Record boot := mkBoot { bt_model : created; bt_mle : series R }.
  Definition boot_init (m : created) (mle_params : list R) : Res boot :=
    do s <- mk_series (get_param_names (names_of m)) mle_params; Ok (mkBoot m s).

  (** [point_estimates[row] = x]: numpy broadcasts an array of length one *)
  Definition store_row (num_params : nat) (x : arr) : Res (list R) :=
    if (alen x =? num_params)%nat then Ok (alist x)
    else if (alen x =? 1)%nat then Ok (repeat (aget x 0%nat) num_params)
    else Err ValueError.

  (** bootstrap.py:186-359.  The [weights] argument is not used by the code.  [mnl] is
      the specification and name dictionary of mnl_obj. *)
  Definition generate_bootstrap_replicates (b : boot) (num_samples : nat)
      (mnl : option (specification * option name_dict)) (mnl_init_vals : option arr) (mnl_fit_kwargs : option mnl_kwargs)
      (extract_init_vals : option (created -> series R -> nat -> Res (list R))) (fit_kwargs : fit_options)
      (boot_seed : seed_arg) (rng : nat -> nat -> nat) (empty : zarr) : Res (list (list R)) :=
    let m := bt_model b in
    do obs_id_array <- int_col (c_data m) (c_obs_col m);
    let num_params := length (bt_mle b) in
    do s <- create_cross_sectional_bootstrap_samples obs_id_array (c_alt_ids m) (c_choices m) num_samples boot_seed rng empty;
    let (size, obs_id_per_sample) := s in
    do dfs_by_obs_id <- create_deepcopied_groupby_dict (c_data m) (c_obs_col m);
    mapM (fun row =>
      do bootstrap_df <- create_bootstrap_dataframe (c_data m) (c_obs_col m)
                           (map (obs_id_per_sample row) (seq 0 size)) dfs_by_obs_id "bootstrap_id";
      do current <- retrieve_point_est m bootstrap_df "bootstrap_id" num_params (option_map fst mnl)
                      (match mnl with Some sn => snd sn | None => None end) mnl_init_vals mnl_fit_kwargs
                      extract_init_vals fit_kwargs;
      store_row num_params (mr_x current)) (seq 0 num_samples).

  (** bootstrap.py:361-498 *)
  Definition generate_jackknife_replicates (b : boot)
      (mnl : option (specification * option name_dict)) (mnl_init_vals : option arr) (mnl_fit_kwargs : option mnl_kwargs)
      (extract_init_vals : option (created -> series R -> nat -> Res (list R))) (fit_kwargs : fit_options)
      : Res (list (list R)) :=
    let m := bt_model b in
    do orig_obs_id_array <- int_col (c_data m) (c_obs_col m);
    let num_params := length (bt_mle b) in
    mapM (fun obs_id =>
      let new_df := filter_rows (map (fun x => negb (x =? obs_id)%Z) orig_obs_id_array) (c_data m) in
      do current <- retrieve_point_est m new_df (c_obs_col m) num_params (option_map fst mnl)
                      (match mnl with Some sn => snd sn | None => None end) mnl_init_vals mnl_fit_kwargs
                      extract_init_vals fit_kwargs;
      store_row num_params (mr_x current)) (np_unique orig_obs_id_array).
End WithOptimizer.
