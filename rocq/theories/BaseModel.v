(** Model of src/pylogit/base_multinomial_cm_v2.py: the constructor's validators
    (lines 99-383), the parameter-list validators (386-492), the fit statistics
    (611-681), the storage of estimation results (995-1509), conf_int (1574-1623)
    and check_param_list_validity (1708-1777). *)
From Coq Require Import String ZArith List Reals Lia Bool DecimalString.
From Verif Require Import Res Vec Arr Ids Mappings Frame ChoiceTools ChoiceCalcs.
Import ListNotations.
Local Open Scope string_scope.

(** ** Constructor validators *)

(** A reference-position argument: None, an int, or anything else. *)
Inductive ref_arg := RefNone | RefInt (z : Z) | RefOther.
Inductive param_title := InterceptNames | ShapeNames.

(** base_multinomial_cm_v2.py:99-142 *)
Definition ensure_ref_position_is_valid (ref_position : ref_arg) (num_alts : nat)
    (title : param_title) : Res unit :=
  match ref_position, title with
  | RefOther, _ => Err TypeError
  | RefNone, InterceptNames => Err ValueError
  | RefNone, ShapeNames => Ok tt
  | RefInt z, _ =>
      if ((0 <=? z) && (z <=? Z.of_nat num_alts - 1))%Z%bool then Ok tt else Err ValueError
  end.

(** base_multinomial_cm_v2.py:145-180; [num_alts - constrained_param] is an
    integer subtraction *)
Definition check_length_of_shape_or_intercept_names (names : list string) (num_alts : nat)
    (constrained : nat) : Res unit :=
  if (Z.of_nat (length names) =? Z.of_nat num_alts - Z.of_nat constrained)%Z
  then Ok tt else Err ValueError.

(** base_multinomial_cm_v2.py:818-831, one round of the loop *)
Definition check_names_and_ref (names : option (list string)) (ref : ref_arg) (num_alts : nat)
    (title : param_title) : Res unit :=
  match names with
  | None => Ok tt
  | Some l =>
      do _ <- ensure_ref_position_is_valid ref num_alts title;
      check_length_of_shape_or_intercept_names l num_alts (match ref with RefNone => 0 | _ => 1 end)%nat
  end.

(** A nest specification as the user may pass it: keys are strings or not,
    values are lists or not, list elements are ints or not.  (bool, a subclass of
    int, is not distinguished from int.) *)
Inductive nest_key := NKStr (s : string) | NKOther.
Inductive nest_item := NInt (z : Z) | NNotInt (tag : nat).
Inductive nest_val := NVList (l : list nest_item) | NVOther.
Definition raw_nest_spec := list (nest_key * nest_val).

Definition key_is_str (k : nest_key) : bool := match k with NKStr _ => true | NKOther => false end.
Definition val_is_list (v : nest_val) : bool := match v with NVList _ => true | NVOther => false end.
Definition items_of (v : nest_val) : list nest_item := match v with NVList l => l | NVOther => [] end.
Definition item_is_int (i : nest_item) : bool := match i with NInt _ => true | NNotInt _ => false end.
Definition item_eqb (a b : nest_item) : bool :=
  match a, b with
  | NInt x, NInt y => (x =? y)%Z
  | NNotInt x, NNotInt y => (x =? y)%nat
  | _, _ => false
  end.
Definition item_mem (a : nest_item) (l : list nest_item) : bool := existsb (item_eqb a) l.
(** [len(set(l))] *)
Fixpoint set_size (l : list nest_item) : nat :=
  match l with [] => 0 | a :: r => if item_mem a r then set_size r else S (set_size r) end.

(** base_multinomial_cm_v2.py:183-207 *)
Definition check_type_of_nest_spec_keys_and_values (s : raw_nest_spec) : Res unit :=
  if (forallb (fun kv => key_is_str (fst kv)) s && forallb (fun kv => val_is_list (snd kv)) s)%bool
  then Ok tt else Err TypeError.

(** base_multinomial_cm_v2.py:210-235 *)
Definition check_for_empty_nests_in_nest_spec (s : raw_nest_spec) : Res unit :=
  match filter (fun kv => (length (items_of (snd kv)) =? 0)%nat) s with
  | [] => Ok tt
  | _ => Err ValueError
  end.

(** base_multinomial_cm_v2.py:844-845: [reduce] without initial value raises
    TypeError on an empty list *)
Definition reduce_lists (s : raw_nest_spec) : Res (list nest_item) :=
  match s with [] => Err TypeError | _ => Ok (flat_map (fun kv => items_of (snd kv)) s) end.

(** base_multinomial_cm_v2.py:238-264 *)
Definition ensure_alt_ids_in_nest_spec_are_ints (l : list nest_item) : Res unit :=
  if forallb item_is_int l then Ok tt else Err ValueError.

(** base_multinomial_cm_v2.py:267-293 *)
Definition ensure_alt_ids_are_only_in_one_nest (l : list nest_item) : Res unit :=
  if (set_size l =? length l)%nat then Ok tt else Err ValueError.

(** base_multinomial_cm_v2.py:296-327 *)
Definition ensure_all_alt_ids_have_a_nest (l : list nest_item) (all_ids : list Z) : Res unit :=
  match filter (fun a => negb (item_mem (NInt a) l)) all_ids with
  | [] => Ok tt
  | _ => Err ValueError
  end.

(** base_multinomial_cm_v2.py:330-361 *)
Definition ensure_nest_alts_are_valid_alts (l : list nest_item) (all_ids : list Z) : Res unit :=
  match filter (fun x => negb (item_mem x (map NInt all_ids))) l with
  | [] => Ok tt
  | _ => Err ValueError
  end.

(** base_multinomial_cm_v2.py:836-853.  ensure_object_is_ordered_dict (837) is a
    type constraint. *)
Definition check_nest_spec (s : raw_nest_spec) (all_ids : list Z) : Res unit :=
  do _ <- check_type_of_nest_spec_keys_and_values s;
  do _ <- check_for_empty_nests_in_nest_spec s;
  do l <- reduce_lists s;
  do _ <- ensure_alt_ids_in_nest_spec_are_ints l;
  do _ <- ensure_alt_ids_are_only_in_one_nest l;
  do _ <- ensure_all_alt_ids_have_a_nest l all_ids;
  ensure_nest_alts_are_valid_alts l all_ids.

(** The specification the mapping code then reads (Mappings.nest_spec). *)
Definition int_items (v : nest_val) : list Z :=
  flat_map (fun i => match i with NInt z => [z] | NNotInt _ => [] end) (items_of v).
Definition typed_nest_spec (s : raw_nest_spec) : nest_spec :=
  flat_map (fun kv => match fst kv with NKStr k => [(k, int_items (snd kv))] | NKOther => [] end) s.

(** base_multinomial_cm_v2.py:364-383.  The table is changed in place; here the
    changed table is returned. *)
Definition add_intercept_to_dataframe (spec : specification) (f : frame) : frame :=
  match assoc "intercept" spec with
  | Some _ => if has_col f "intercept" then f
              else mkFrame (f_rows f) (f_ints f)
                     (f_reals f ++ [("intercept", repeat 1%R (f_rows f))])%list
  | None => f
  end.

(** base_multinomial_cm_v2.py:524-574 *)
Definition ensure_all_mixing_vars_are_in_the_name_dict (mixing_vars : option (list string))
    (ind_var_names : list string) : Res unit :=
  match mixing_vars with
  | None => Ok tt
  | Some l =>
      match filter (fun v => negb (existsb (String.eqb v) ind_var_names)) l with
      | [] => Ok tt
      | _ => Err ValueError
      end
  end.

(** ** Parameter lists (predict's param_list argument) *)

(** An element of param_list: None, an ndarray with its shape, or something else. *)
Inductive plist_elem := PNone | PArray (shape : list nat) | POther.

(** base_multinomial_cm_v2.py:386-407: [shape[0]] of a 0-d array raises IndexError *)
Definition check_num_rows_of_parameter_array (shape : list nat) (correct : nat) : Res unit :=
  match shape with
  | [] => Err IndexError
  | r :: _ => if (r =? correct)%nat then Ok tt else Err ValueError
  end.

(** base_multinomial_cm_v2.py:425-440 *)
Definition check_type_of_param_list_elements (l : list plist_elem) : Res unit :=
  match l with
  | [] => Err IndexError
  | PArray _ :: _ =>
      if forallb (fun x => match x with POther => false | _ => true end) l then Ok tt else Err TypeError
  | _ => Err TypeError
  end.

(** base_multinomial_cm_v2.py:467-492 *)
Definition check_dimensional_equality_of_param_list_arrays (l : list plist_elem) : Res unit :=
  match l with
  | PArray s :: _ =>
      let n := length s in
      if (((n =? 1) || (n =? 2))%nat &&
          forallb (fun x => match x with PArray t => (length t =? n)%nat | _ => true end) l)%bool
      then Ok tt else Err ValueError
  | _ => Err AttributeError (* excluded by the type check *)
  end.

(** base_multinomial_cm_v2.py:443-464 *)
Definition check_num_columns_in_param_list_arrays (l : list plist_elem) : Res unit :=
  match l with
  | PArray [_; c] :: _ =>
      if forallb (fun x => match x with PArray [_; c'] => (c' =? c)%nat | PArray _ => false | _ => true end) l
      then Ok tt else Err ValueError
  | _ => Err IndexError (* excluded by the dimension check *)
  end.

(** The parts of a model object these functions read. *)
Record model_names := mkModelNames {
  mn_index : list string;                    (* ind_var_names *)
  mn_intercepts : option (list string);      (* intercept_names *)
  mn_shapes : option (list string);          (* shape_names *)
  mn_nests : option (list string)            (* nest_names *)
}.
Definition num_names (o : option (list string)) : nat := match o with None => 0 | Some l => length l end.

(** base_multinomial_cm_v2.py:1708-1777; the argument is a list (a non-list is
    rejected by the same ValueError as a wrong length) *)
Definition check_param_list_validity (m : model_names) (param_list : option (list plist_elem)) : Res unit :=
  match param_list with
  | None => Ok tt
  | Some l =>
      do _ <- (if (length l =? 4)%nat then Ok tt else Err ValueError);   (* 410-422 *)
      do _ <- check_type_of_param_list_elements l;
      do _ <- check_dimensional_equality_of_param_list_arrays l;
      do _ <- match l with
              | PArray [_; _] :: _ => check_num_columns_in_param_list_arrays l
              | _ => Ok tt
              end;
      match l with
      | [PArray s0; e1; e2; e3] =>
          do _ <- check_num_rows_of_parameter_array s0 (length (mn_index m));
          do _ <- match e1 with PArray s => check_num_rows_of_parameter_array s (num_names (mn_intercepts m))
                              | _ => Ok tt end;
          do _ <- match e2 with PArray s => check_num_rows_of_parameter_array s (num_names (mn_shapes m))
                              | _ => Ok tt end;
          match e3 with PArray s => check_num_rows_of_parameter_array s (num_names (mn_nests m))
                      | _ => Ok tt end
      | _ => Err IndexError (* excluded by the length check *)
      end
  end.

(** base_multinomial_cm_v2.py:495-521 *)
Definition check_for_choice_col_based_on_return_long_probs (return_long_probs : bool)
    (choice_col_given : bool) : Res unit :=
  if (negb return_long_probs && negb choice_col_given)%bool then Err ValueError else Ok tt.

(** ** Fit statistics *)

(** base_multinomial_cm_v2.py:611-639 *)
Definition compute_aic (log_likelihood : R) (num_params : nat) : R :=
  (-2 * log_likelihood + 2 * INR num_params)%R.
(** base_multinomial_cm_v2.py:642-681 *)
Definition compute_bic (log_likelihood : R) (num_obs num_params : nat) : R :=
  (-2 * log_likelihood + ln (INR num_obs) * INR num_params)%R.

(** ** Storage of estimation results *)

(** A float cell: a number, an infinity or NaN. *)
Inductive fcell := Fin (r : R) | Inf | NaN.

(** A pandas Series: labels and values. *)
Definition series (A : Type) := list (string * A).
(** pd.Series(values, index=names) raises ValueError on a length mismatch *)
Definition mk_series {A} (names : list string) (values : list A) : Res (series A) :=
  if (length names =? length values)%nat then Ok (combine names values) else Err ValueError.

Definition alist (a : arr) : list R := map (aget a) (seq 0 (alen a)).

(** ["Shape_{}".format(x) for x in range(1, n + 1)]; 1325-1327 *)
Definition dec (n : nat) : string := NilEmpty.string_of_uint (Nat.to_uint n).
Definition default_names (prefix : string) (n : nat) : list string :=
  map (fun x => prefix ++ dec x) (seq 1 n).

(** base_multinomial_cm_v2.py:1277-1339 without the attribute assignment, which is
    the returned series.  all_params is kept as one concatenated list (1222). *)
Definition store_optional_parameters {A} (optional_params : list A) (names : option (list string))
    (default_prefix : string) (acc : list string * list A) : Res (list string * list A * series A) :=
  let parameter_names := match names with
                         | Some l => l
                         | None => default_names default_prefix (length optional_params)
                         end in
  do s <- mk_series parameter_names optional_params;
  Ok ((parameter_names ++ fst acc)%list, (optional_params ++ snd acc)%list, s).

(** [isinfix a b] : [a in b] for strings *)
Fixpoint isinfix (a b : string) : bool :=
  (prefix a b || match b with EmptyString => false | String _ r => isinfix a r end)%bool.

(** base_multinomial_cm_v2.py:1388-1405 *)
Definition add_mixing_variable_names (ind_var_names : list string) (mixing_vars : option (list string))
  : list string :=
  let already_included := existsb (isinfix "Sigma ") ind_var_names in
  match mixing_vars with
  | Some l => if already_included then ind_var_names
              else (ind_var_names ++ map (fun x => ("Sigma " ++ x)%string) l)%list
  | None => ind_var_names
  end.

(** The parts of results_dict that are stored (estimation.py:524-577). *)
Record results := mkResults {
  r_utility_coefs : list R;
  r_intercept_params : option (list R);
  r_shape_params : option (list R);
  r_nest_params : option (list R);
  r_gradient : list R;
  r_hessian : sqmat;
  r_fisher : sqmat;
  r_log_likelihood : R;
  r_chosen_probs : list R;
  r_constrained_pos : option (list Z)
}.

(** The linear-algebra and distribution routines the code calls:
    scipy.linalg.inv (raises on singular input) and scipy.stats.norm.sf / ppf. *)
Record numerics := mkNumerics {
  n_inv : sqmat -> Res sqmat;
  n_sf : R -> R;
  n_ppf : R -> R
}.

(** np.sqrt of one number, params / std_err, and 2 * sf(abs(t)) *)
Definition fsqrt (x : R) : fcell := if Rle_dec 0 x then Fin (sqrt x) else NaN.
Definition fdiv (x : R) (y : fcell) : fcell :=
  match y with
  | Fin s => if Req_EM_T s 0 then (if Req_EM_T x 0 then NaN else Inf) else Fin (x / s)
  | Inf => Fin 0
  | NaN => NaN
  end.
Definition p_value (nm : numerics) (t : fcell) : fcell :=
  match t with Fin x => Fin (2 * n_sf nm (Rabs x)) | Inf => Fin 0 | NaN => NaN end.

Record inference := mkInference {
  i_standard_errors : series fcell;
  i_tvalues : series fcell;
  i_pvalues : series fcell;
  i_robust_std_errs : series fcell;
  i_robust_t_stats : series fcell;
  i_robust_p_vals : series fcell
}.

(** all_names[pos], with Python's negative indices *)
Definition py_pos (n : nat) (z : Z) : option nat :=
  if ((0 <=? z) && (z <? Z.of_nat n))%Z%bool then Some (Z.to_nat z)
  else if ((- Z.of_nat n <=? z) && (z <? 0))%Z%bool then Some (Z.to_nat (z + Z.of_nat n))
  else None.

(** series.loc[name] = value: every row with that label (the labels assigned to
    here are always present) *)
Definition loc_set {A} (name : string) (v : A) (s : series A) : series A :=
  map (fun kv => if String.eqb name (fst kv) then (fst kv, v) else kv) s.

(** base_multinomial_cm_v2.py:1371-1373 for one series *)
Fixpoint blank_constrained (all_names : list string) (constraints : list Z) (s : series fcell)
  : Res (series fcell) :=
  match constraints with
  | [] => Ok s
  | z :: r =>
      match py_pos (length all_names) z with
      | None => Err IndexError
      | Some k => blank_constrained all_names r (loc_set (nth k all_names EmptyString) NaN s)
      end
  end.

(** base_multinomial_cm_v2.py:1341-1375 *)
Definition adjust_inferential_results (all_names : list string) (constraints : option (list Z))
    (i : inference) : Res inference :=
  match constraints with
  | None => Ok i
  | Some c =>
      do a1 <- blank_constrained all_names c (i_standard_errors i);
      do a2 <- blank_constrained all_names c (i_tvalues i);
      do a3 <- blank_constrained all_names c (i_pvalues i);
      do a4 <- blank_constrained all_names c (i_robust_std_errs i);
      do a5 <- blank_constrained all_names c (i_robust_t_stats i);
      do a6 <- blank_constrained all_names c (i_robust_p_vals i);
      Ok (mkInference a1 a2 a3 a4 a5 a6)
  end.

Record fit_output := mkFit {
  f_coefs : series R;
  f_intercepts : option (series R);
  f_shapes : option (series R);
  f_nests : option (series R);
  f_params : series R;
  f_gradient : series R;
  f_hessian_labels : list string;    (* row and column labels of hessian, cov, ... *)
  f_hessian : sqmat;
  f_cov : sqmat;
  f_inference : inference;
  f_ind_var_names : list string;     (* self.ind_var_names afterwards *)
  f_log_likelihood : R;
  f_nobs : nat;
  f_df_model : nat;
  f_df_resid : Z;
  f_aic : R;
  f_bic : R
}.

Definition diag_list (m : sqmat) : list R := map (fun i => sqe m i i) (seq 0 (sqn m)).
Definition neg_sq (m : sqmat) : sqmat := mkSq (sqn m) (fun i j => (-1 * sqe m i j)%R).

(** pd.DataFrame(values, index=names, columns=names) *)
Definition mk_square (names : list string) (m : sqmat) : Res sqmat :=
  if (length names =? sqn m)%nat then Ok m else Err ValueError.

Definition store_block {A} (o : option (list A)) (names : option (list string)) (prefix : string)
    (acc : list string * list A) : Res (list string * list A * option (series A)) :=
  match o with
  | None => Ok (fst acc, snd acc, None)
  | Some p =>
      do r <- store_optional_parameters p names prefix acc;
      Ok (fst (fst r), snd (fst r), Some (snd r))
  end.

(** base_multinomial_cm_v2.py:1166-1275: inference results *)
Definition generic_inference (nm : numerics) (all_names : list string) (all_params : list R)
    (hessian fisher : sqmat) : Res (sqmat * inference) :=
  do h <- mk_square all_names hessian;
  do hinv <- n_inv nm h;
  do cov <- mk_square all_names (neg_sq hinv);
  do ses <- mk_series all_names (map fsqrt (diag_list cov));
  let tvals := map (fun ps => (fst (snd ps), fdiv (fst ps) (snd (snd ps)))) (combine all_params ses) in
  do pvals <- mk_series all_names (map (fun kv => p_value nm (snd kv)) tvals);
  do fi <- mk_square all_names fisher;
  do rcov <- mk_square all_names (mkSq (sqn h) (calc_asymptotic_covariance (sqn h) (sqe hinv) (sqe fi)));
  do rses <- mk_series all_names (map fsqrt (diag_list rcov));
  let rt := map (fun ps => (fst (snd ps), fdiv (fst ps) (snd (snd ps)))) (combine all_params rses) in
  do rp <- mk_series all_names (map (fun kv => p_value nm (snd kv)) rt);
  Ok (cov, mkInference ses tvals pvals rses rt rp).

(** base_multinomial_cm_v2.py:1407-1509, with 953-993 and 1031-1071.  The key check
    (1428) and the summary tables (1501, 1507), which only collect stored
    attributes, are omitted. *)
Definition store_fit_results (nm : numerics) (m : model_names) (mixing_vars : option (list string))
    (r : results) : Res fit_output :=
  let index_names := add_mixing_variable_names (mn_index m) mixing_vars in
  do b1 <- store_block (r_intercept_params r) (mn_intercepts m) "Outside_ASC_"
             (index_names, r_utility_coefs r);
  do b2 <- store_block (r_shape_params r) (mn_shapes m) "Shape_" (fst b1);
  do b3 <- store_block (r_nest_params r) (mn_nests m) "Nest_Param_" (fst b2);
  let all_names := fst (fst b3) in
  let all_params := snd (fst b3) in
  do coefs <- mk_series index_names (r_utility_coefs r);
  do grad <- mk_series all_names (r_gradient r);
  do params <- mk_series all_names all_params;
  do inf <- generic_inference nm all_names all_params (r_hessian r) (r_fisher r);
  do inf' <- adjust_inferential_results (map fst params) (r_constrained_pos r) (snd inf);
  let nobs := length (r_chosen_probs r) in
  let k := length params in
  Ok (mkFit coefs (snd b1) (snd b2) (snd b3) params grad all_names (r_hessian r) (fst inf) inf'
            index_names (r_log_likelihood r) nobs k (Z.of_nat nobs - Z.of_nat k)
            (compute_aic (r_log_likelihood r) k) (compute_bic (r_log_likelihood r) nobs k)).

(** base_multinomial_cm_v2.py:1574-1623 with coefs=None: the two columns *)
Definition fsub (x : R) (z : R) (s : fcell) : fcell :=
  match s with Fin y => Fin (x - z * y) | Inf => Inf | NaN => NaN end.
Definition conf_int (nm : numerics) (alpha : R) (params : series R) (ses : series fcell)
  : list (string * (fcell * fcell)) :=
  let z := n_ppf nm (1 - alpha / 2) in
  map (fun ps => (fst (fst ps), (fsub (snd (fst ps)) z (snd (snd ps)), fsub (snd (fst ps)) (- z) (snd (snd ps)))))
      (combine params ses).

(** ** Names used by the bootstrap code *)

(** bootstrap.py:49-78 *)
Definition get_param_names (m : model_names) : list string :=
  let l := mn_index m in
  let l := match mn_intercepts m with Some n => (n ++ l)%list | None => l end in
  let l := match mn_shapes m with Some n => (n ++ l)%list | None => l end in
  match mn_nests m with Some n => (n ++ l)%list | None => l end.
