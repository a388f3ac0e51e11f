(** Model of create_choice_model (src/pylogit/pylogit.py:57-225), of the constructor
    shared by all models (base_multinomial_cm_v2.py:776-918) and of the constructors of
    the seven model classes.  Warnings are not modelled.  The data argument is a table
    (no CSV path); all its columns are numeric, so that
    ensure_valid_nums_in_specification_cols (line 871) has nothing to reject. *)
From Coq Require Import String ZArith List Reals Bool DecimalString.
From Verif Require Import Res Ids Vec Arr Mappings Frame ChoiceTools BaseModel ChoiceCalcs LongData Transforms Estimation Predict.
Import ListNotations.
Local Open Scope string_scope.

(** The seven classes; pylogit.py:35-41 *)
Inductive mtype := TMNL | TAsym | TCloglog | TScobit | TUneven | TNested | TMixed.
Definition mtype_name (t : mtype) : string :=
  match t with
  | TMNL => "MNL" | TAsym => "Asym" | TCloglog => "Cloglog" | TScobit => "Scobit"
  | TUneven => "Uneven" | TNested => "Nested Logit" | TMixed => "Mixed Logit"
  end.
Definition all_mtypes : list mtype := [TMNL; TAsym; TCloglog; TScobit; TUneven; TNested; TMixed].

(** pylogit.py:57-80 and the look-up in model_type_to_class, line 220 *)
Definition lookup_model_type (s : string) : Res mtype :=
  match find (fun t => String.eqb s (mtype_name t)) all_mtypes with
  | Some t => Ok t
  | None => Err ValueError
  end.

(** choice_tools.py:680, 688, 697, 701: the rendered default names.  A number is
    rendered in decimal, a group as a Python list.  User names that are not strings,
    which the name check lets through for "all_diff", are rendered as "". *)
Definition z_string (z : Z) : string := NilZero.string_of_int (Z.to_int z).
Fixpoint join (l : list string) : string :=
  match l with
  | [] => ""
  | [a] => a
  | a :: r => a ++ ", " ++ join r
  end.
Definition item_string (i : group_item) : string := match i with GAlt a => z_string a | _ => "" end.
Definition render (l : label) : string :=
  match l with
  | LVar v => v
  | LVarAlt v a => v ++ "_" ++ z_string a
  | LVarGroup v g => v ++ "_[" ++ join (map item_string g) ++ "]"
  | LUser (NE s) => s
  | LUser NEOther => ""
  end.

(** The arguments of create_choice_model other than the data, pylogit.py:83-96 *)
Record model_args := mkArgs {
  a_alt_col : string;
  a_obs_col : string;
  a_choice_col : string;
  a_spec : specification;
  a_type : string;
  a_iref : ref_arg;                       (* intercept_ref_pos *)
  a_sref : ref_arg;                       (* shape_ref_pos *)
  a_names : option name_dict;
  a_inames : option (list string);        (* intercept_names *)
  a_snames : option (list string);        (* shape_names *)
  a_nests : option raw_nest_spec;         (* nest_spec *)
  a_mix_col : option string;              (* mixing_id_col *)
  a_mix_vars : option (list string)       (* mixing_vars *)
}.

(** The model object: the attributes set at base_multinomial_cm_v2.py:891-916.
    [c_type] is model_type, up to the one-to-one renaming of display_names.py:10-17. *)
Record created := mkCreated {
  c_type : mtype;
  c_data : frame;
  c_name_spec : option name_dict;
  c_design : list (list R);               (* the columns *)
  c_ind_var_names : list string;
  c_alt_col : string;
  c_obs_col : string;
  c_choice_col : string;
  c_spec : specification;
  c_alt_ids : list Z;
  c_choices : list Z;
  c_snames : option (list string);
  c_inames : option (list string);
  c_sref : ref_arg;
  c_iref : ref_arg;
  c_nests : option raw_nest_spec;
  c_nest_names : option (list string);
  c_mix_col : option string;
  c_mix_vars : option (list string);
  c_mix_pos : option (list nat)
}.

Definition key_name (k : nest_key) : string := match k with NKStr s => s | NKOther => "" end.

(** base_multinomial_cm_v2.py:776-918.  Identifier and choice columns hold integers
    ([int_col] raises KeyError on a column of reals; the code would go on). *)
Definition base_init (t : mtype) (dataframe : frame) (alt_id_col obs_id_col choice_col : string)
    (spec : specification) (intercept_ref_pos shape_ref_pos : ref_arg) (names : option name_dict)
    (intercept_names shape_names : option (list string)) (nest_spec : option raw_nest_spec)
    (mixing_vars : option (list string)) (mixing_id_col : option string) : Res created :=
  do _ <- ensure_columns_are_in_dataframe [alt_id_col; obs_id_col; choice_col] dataframe;
  do alts <- int_col dataframe alt_id_col;
  let all_ids := np_unique alts in
  do _ <- check_names_and_ref shape_names shape_ref_pos (length all_ids) ShapeNames;
  do _ <- check_names_and_ref intercept_names intercept_ref_pos (length all_ids) InterceptNames;
  do _ <- match nest_spec with Some s => check_nest_spec s all_ids | None => Ok tt end;
  let dataframe := add_intercept_to_dataframe spec dataframe in
  do _ <- ensure_columns_are_in_dataframe (map fst spec) dataframe;
  do design_res <- create_design_matrix dataframe spec alt_id_col names;
  let ind_var_names := map render (snd design_res) in
  do _ <- ensure_all_mixing_vars_are_in_the_name_dict mixing_vars ind_var_names;
  do alt_ids <- int_col dataframe alt_id_col;
  do choices <- int_col dataframe choice_col;
  do mixing_pos <- match mixing_vars with
                   | Some l => do p <- convert_mixing_names_to_positions l ind_var_names; Ok (Some p)
                   | None => Ok None
                   end;
  Ok (mkCreated t dataframe names (fst design_res) ind_var_names alt_id_col obs_id_col choice_col spec
        alt_ids choices shape_names intercept_names shape_ref_pos intercept_ref_pos nest_spec
        (option_map (map (fun kv => key_name (fst kv))) nest_spec) mixing_id_col mixing_vars mixing_pos).

Definition ref_given (r : ref_arg) : bool := match r with RefNone => false | _ => true end.

(** The constructors: conditional_logit.py:269-303, asym_logit.py:877-916,
    clog_log.py:574-610, scobit.py:688-725, uneven_logit.py:691-725,
    nested_logit.py:401-438, mixed_logit.py:449-489. *)
Definition class_init (t : mtype) (f : frame) (a : model_args) : Res created :=
  match t with
  | TMNL =>
      if ref_given (a_iref a) then Err ValueError
      else base_init t f (a_alt_col a) (a_obs_col a) (a_choice_col a) (a_spec a) RefNone RefNone (a_names a)
             None None None None None
  | TAsym =>
      match a_sref a with
      | RefInt _ =>
          base_init t f (a_alt_col a) (a_obs_col a) (a_choice_col a) (a_spec a) (a_iref a) (a_sref a) (a_names a)
            (a_inames a) (a_snames a) None None None
      | _ => Err ValueError
      end
  | TCloglog =>
      base_init t f (a_alt_col a) (a_obs_col a) (a_choice_col a) (a_spec a) (a_iref a) RefNone (a_names a)
        (a_inames a) None None None None
  | TScobit | TUneven =>
      base_init t f (a_alt_col a) (a_obs_col a) (a_choice_col a) (a_spec a) (a_iref a) RefNone (a_names a)
        (a_inames a) (a_snames a) None None None
  | TNested =>
      match a_nests a with
      | None => Err ValueError
      | Some s =>
          base_init t f (a_alt_col a) (a_obs_col a) (a_choice_col a) (a_spec a) RefNone RefNone (a_names a)
            None None (Some s) None None
      end
  | TMixed =>
      if ref_given (a_iref a) then Err ValueError
      else base_init t f (a_alt_col a) (a_obs_col a) (a_choice_col a) (a_spec a) RefNone RefNone (a_names a)
             None None None (a_mix_vars a) (a_mix_col a)
  end.

(** pylogit.py:83-225 *)
Definition create_choice_model (data : frame) (a : model_args) : Res created :=
  do t <- lookup_model_type (a_type a);
  class_init t data a.

(** ** The views of a model object that fit_mle (Estimation.model_obj) and predict
    (Predict.fitted_model) work on.

    A reference position that is no position of an alternative makes list.remove raise
    ValueError when the model is evaluated (clog_log.py:184, scobit.py:158,
    uneven_logit.py:214, asym_logit.py:160 and 319); positions beyond the number of
    alternatives are treated by Estimation and Predict. *)
Definition ref_pos (r : ref_arg) : Res (option nat) :=
  match r with
  | RefNone => Ok None
  | RefInt z => if (0 <=? z)%Z then Ok (Some (Z.to_nat z)) else Err ValueError
  | RefOther => Err ValueError
  end.
Definition class_of (m : created) : Res model_class :=
  match c_type m with
  | TMNL => Ok (ClassLogit KMNL)
  | TAsym =>
      do s <- ref_pos (c_sref m);
      do i <- ref_pos (c_iref m);
      match s with Some s => Ok (ClassLogit (KAsym s i)) | None => Err ValueError end
  | TCloglog => do i <- ref_pos (c_iref m); Ok (ClassLogit (KClog i))
  | TScobit => do i <- ref_pos (c_iref m); Ok (ClassLogit (KScobit i))
  | TUneven => do i <- ref_pos (c_iref m); Ok (ClassLogit (KUneven i))
  | TNested => match c_nests m with Some s => Ok (ClassNested (typed_nest_spec s)) | None => Err TypeError end
  | TMixed => match c_mix_pos m with Some p => Ok (ClassMixed p) | None => Err TypeError end
  end.

Definition names_of (m : created) : model_names :=
  mkModelNames (c_ind_var_names m) (c_inames m) (c_snames m) (c_nest_names m).

Definition model_obj_of (m : created) : Res model_obj :=
  do c <- class_of m;
  do d <- long_cols_of (c_data m) (c_obs_col m) (c_alt_col m) (Some (c_choice_col m)) (c_mix_col m);
  Ok (mkModel c d (length (c_design m)) (design_mat (c_design m))).

Definition fitted_of (m : created) (coefs : arr) (intercepts shapes nests : option arr) : Res fitted_model :=
  do c <- class_of m;
  Ok (mkFitted c (c_alt_col m) (c_obs_col m) (c_mix_col m) (c_spec m) (c_name_spec m) (names_of m)
        coefs intercepts shapes nests).
