(** A Python session that uses the library: tables and model objects live in a store and
    are changed by calls.  A model object keeps a reference to the caller's table
    (base_multinomial_cm_v2.py:890, self.data = dataframe, with get_dataframe_from_data,
    choice_tools.py:44-45, returning the caller's object), and copies of its design matrix
    and choice column made when it was created (893, 900).  Editing a table means
    assigning columns or rows; writes through the array that [.values] may share with the
    table are not modelled. *)
From Coq Require Import String ZArith List Reals Lia Arith Bool.
From Verif Require Import Res Vec Arr ChoiceCalcs Ids Mappings LongData Transforms Frame ChoiceTools BaseModel
  NestedCalcs MixedCalcs Estimation Predict Construct ObjectStore.
Import ListNotations.
Local Open Scope string_scope.

Record mobj := mkObj {
  ob_model : created;            (* the attributes set by __init__; its c_data is not read *)
  ob_table : nat;                (* self.data: which table *)
  ob_attrs : attrs               (* ind_var_names, and what estimation sets *)
}.
Record session := mkSession { s_tables : list frame; s_objs : list mobj }.

Fixpoint replace {A} (n : nat) (a : A) (l : list A) : list A :=
  match n, l with
  | _, [] => []
  | O, _ :: r => a :: r
  | S k, b :: r => b :: replace k a r
  end.

(** ** Creating a model *)

(** The checks made before a column is added to the table: pylogit.py:57-80, the
    constructors (see Construct.class_init) and base_multinomial_cm_v2.py:793-861. *)
Definition base_checks (f : frame) (alt_id_col obs_id_col choice_col : string)
    (iref sref : ref_arg) (inames snames : option (list string)) (nests : option raw_nest_spec) : Res unit :=
  do _ <- ensure_columns_are_in_dataframe [alt_id_col; obs_id_col; choice_col] f;
  do alts <- int_col f alt_id_col;
  let all_ids := np_unique alts in
  do _ <- check_names_and_ref snames sref (length all_ids) ShapeNames;
  do _ <- check_names_and_ref inames iref (length all_ids) InterceptNames;
  match nests with Some s => check_nest_spec s all_ids | None => Ok tt end.
Definition class_checks (t : mtype) (f : frame) (a : model_args) : Res unit :=
  let base := base_checks f (a_alt_col a) (a_obs_col a) (a_choice_col a) in
  match t with
  | TMNL | TMixed => if ref_given (a_iref a) then Err ValueError else base RefNone RefNone None None None
  | TAsym => match a_sref a with
             | RefInt _ => base (a_iref a) (a_sref a) (a_inames a) (a_snames a) None
             | _ => Err ValueError
             end
  | TCloglog => base (a_iref a) RefNone (a_inames a) None None
  | TScobit | TUneven => base (a_iref a) RefNone (a_inames a) (a_snames a) None
  | TNested => match a_nests a with
               | None => Err ValueError
               | Some s => base RefNone RefNone None None (Some s)
               end
  end.
Definition creation_checks (f : frame) (a : model_args) : Res unit :=
  do t <- lookup_model_type (a_type a); class_checks t f a.

(** base_multinomial_cm_v2.py:864: the caller's table is changed even if the rest of the
    constructor raises *)
Definition table_after_create (f : frame) (a : model_args) : frame :=
  match creation_checks f a with
  | Ok _ => add_intercept_to_dataframe (a_spec a) f
  | Err _ => f
  end.

Definition no_attrs : attrs := fun _ => None.

(** ** fit_mle *)

(** The choice vector of the estimator is the one copied at creation (estimation.py:97,
    model_obj.choices), while the mappings are made from the table as it is now. *)
Definition data_with_choices (c : list Z) (D : Data) : Data :=
  mkData (d_N D) (d_obs D) (d_J D) (d_K D) (d_X D) (d_M D) (d_A D) (fun i => IZR (nth i c 0%Z)) (d_w D) (d_ridge D).
Definition core_with_choices (c : list Z) (k : est_core) : est_core :=
  match k with
  | CoreLogit kd D => CoreLogit kd (data_with_choices c D)
  | CoreNested E => CoreNested (mkNData (data_with_choices c (n_D E)) (n_Q E) (n_R E))
  | CoreMixed E => CoreMixed (mkMData (data_with_choices c (x_D E)) (x_draws E) (x_vars E) (x_X E) (x_mixers E) (x_R E))
  end.
Definition est_with_choices (c : list Z) (e : estimator) : estimator :=
  mkEst (core_with_choices c (e_core e)) (e_chosen e) (e_constrained e) (e_zero e).

(** What fit_mle reads: class and design from the object, identifiers from the table.  If
    the table no longer has as many rows as the design, the first matrix product raises. *)
Definition view (m : created) (f : frame) : Res model_obj :=
  do c <- class_of m;
  do d <- long_cols_of f (c_obs_col m) (c_alt_col m) (Some (c_choice_col m)) (c_mix_col m);
  do _ <- (if (length (alt_ids d) =? length (c_alt_ids m))%nat then Ok tt else Err ValueError);
  Ok (mkModel c d (length (c_design m)) (design_mat (c_design m))).

(** One call of fit_mle: what is passed, and the routines it uses. *)
Record fit_call := mkFitCall {
  fc_mz : minimizer;
  fc_nm : numerics;
  fc_report : report;            (* scipy's flag and message *)
  fc_method : string;
  fc_draws : nat;                (* num_draws *)
  fc_rvs : nat -> mat;           (* the random numbers *)
  fc_args : fit_args
}.

(** Keywords rejected before anything is stored: conditional_logit.py:360-364,
    nested_logit.py:495-499, mixed_logit.py:557-561, clog_log.py:686-690 *)
Definition early_check (t : mtype) (fa : fit_args) : Res unit :=
  match t with
  | TMNL | TNested | TMixed =>
      if (given (fa_init_shapes fa) || given (fa_init_intercepts fa) || given (fa_init_coefs fa))%bool
      then Err ValueError else Ok tt
  | TCloglog => if given (fa_init_shapes fa) then Err ValueError else Ok tt
  | _ => Ok tt
  end.

(** The body of fit_mle after the keyword check, as an estimator and starting values *)
Definition fit_setup (m : created) (f : frame) (fc : fit_call) : Res (estimator * arr) :=
  do mo <- view m f;
  do ei <- fit_estimator mo (fc_draws fc) (fc_rvs fc) (fc_args fc);
  Ok (est_with_choices (c_choices m) (fst ei), snd ei).

(** mixed_logit.py:570-588: design_3d is set as soon as mappings and draws exist *)
Definition design_3d_made (m : created) (f : frame) (fc : fit_call) : bool :=
  match c_type m with
  | TMixed => is_ok (do mo <- view m f; estimator_core mo (fc_draws fc) (fc_rvs fc) None (fun _ => 0%R))
  | _ => false
  end.

(** fit_mle of the seven classes (lines as in Estimation.fit_estimator): attributes
    afterwards, and the returned dictionary (just_point) or None.  [f] is the object's
    table.  The sequence probabilities that mixed_logit.py:613-616 adds to the results are
    stored nowhere. *)
Definition fit_call_on (m : created) (f : frame) (fc : fit_call) (o : attrs) : attrs * Res (option min_result) :=
  match early_check (c_type m) (fc_args fc) with
  | Err e => (o, Err e)
  | Ok _ =>
      let o := setattr "optimization_method" (VText (fc_method fc)) o in
      let o := setattr "ridge_param" (VRidge (fa_ridge (fc_args fc))) o in
      let o := if design_3d_made m f fc then setattr "design_3d" VDesign3 o else o in
      match fit_setup m f fc with
      | Err e => (o, Err e)
      | Ok (est, init) =>
          match estimate (fc_mz fc) init est true (fa_just_point (fc_args fc)) with
          | Err e => (o, Err e)
          | Ok (JustPoint r) => (o, Ok (Some r))
          | Ok (FullResults p) =>
              let D := core_data (e_core est) in
              let (o', r) := store_fit (fc_nm fc) (names_of m) (c_mix_vars m) (d_N D) (d_obs D) (fc_report fc) p o in
              (o', match r with Ok _ => Ok None | Err e => Err e end)
          end
      end
  end.

(** ** predict *)
Record predict_call := mkPredictCall {
  pc_params : option (list (option arr));
  pc_long : bool;                (* return_long_probs *)
  pc_choice : option string;
  pc_draws : option nat;
  pc_rvs : nat -> mat
}.

Definition series_arr (s : series R) : arr := mkArr (length s) (fun i => nth i (map snd s) 0%R).
(** [x.values if x is not None else None] *)
Definition opt_attr (o : attrs) (n : string) : option arr :=
  match o n with Some (VSeries s) => Some (series_arr s) | _ => None end.
Definition current_names (m : created) (o : attrs) : model_names :=
  mkModelNames (match o "ind_var_names" with Some (VNames l) => l | _ => [] end)
    (c_inames m) (c_snames m) (c_nest_names m).
(** base_multinomial_cm_v2.py:1851-1972; without parameters, an object that has not been
    estimated has no coefs (1890).  The checks that come before (1851-1887) may raise
    instead; either way nothing is returned. *)
Definition predict_call_on (m : created) (f : frame) (pc : predict_call) (o : attrs) : Res prob_result :=
  do c <- class_of m;
  match pc_params pc, o "coefs" with
  | None, Some (VSeries b) =>
      predict (mkFitted c (c_alt_col m) (c_obs_col m) (c_mix_col m) (c_spec m) (c_name_spec m) (current_names m o)
                 (series_arr b) (opt_attr o "intercepts") (opt_attr o "shapes") (opt_attr o "nests"))
        f None (pc_long pc) (pc_choice pc) (pc_draws pc) (pc_rvs pc)
  | None, _ => Err AttributeError
  | Some l, _ =>
      predict (mkFitted c (c_alt_col m) (c_obs_col m) (c_mix_col m) (c_spec m) (c_name_spec m) (current_names m o)
                 (mkArr 0 (fun _ => 0%R)) None None None)
        f (Some l) (pc_long pc) (pc_choice pc) (pc_draws pc) (pc_rvs pc)
  end.

(** ** Sessions *)
Inductive call :=
| NewTable (f : frame)                          (* the user makes a table *)
| Edit (t : nat) (f : frame)                    (* the user changes a table in place *)
| Create (t : nat) (a : model_args)             (* create_choice_model *)
| Fit (i : nat) (fc : fit_call)                 (* model.fit_mle *)
| Predict (i t : nat) (pc : predict_call).      (* model.predict *)

Inductive outcome :=
| ONothing
| OTable (t : nat)
| OModel (i : nat)
| OPoint (r : min_result)
| OProbs (p : prob_result).

(** A name that is bound to nothing raises NameError. *)
Definition step (s : session) (c : call) : session * Res outcome :=
  match c with
  | NewTable f => (mkSession (s_tables s ++ [f])%list (s_objs s), Ok (OTable (length (s_tables s))))
  | Edit t f => (mkSession (replace t f (s_tables s)) (s_objs s), Ok ONothing)
  | Create t a =>
      match nth_error (s_tables s) t with
      | None => (s, Err NameError)
      | Some f =>
          let tables := replace t (table_after_create f a) (s_tables s) in
          match create_choice_model f a with
          | Ok m =>
              let o := mkObj m t (setattr "ind_var_names" (VNames (c_ind_var_names m)) no_attrs) in
              (mkSession tables (s_objs s ++ [o])%list, Ok (OModel (length (s_objs s))))
          | Err e => (mkSession tables (s_objs s), Err e)
          end
      end
  | Fit i fc =>
      match nth_error (s_objs s) i with
      | None => (s, Err NameError)
      | Some o =>
          match nth_error (s_tables s) (ob_table o) with
          | None => (s, Err NameError)
          | Some f =>
              let (at', r) := fit_call_on (ob_model o) f fc (ob_attrs o) in
              (mkSession (s_tables s) (replace i (mkObj (ob_model o) (ob_table o) at') (s_objs s)),
               match r with
               | Ok (Some x) => Ok (OPoint x)
               | Ok None => Ok ONothing
               | Err e => Err e
               end)
          end
      end
  | Predict i t pc =>
      match nth_error (s_objs s) i, nth_error (s_tables s) t with
      | Some o, Some f =>
          (mkSession (replace t (add_intercept_to_dataframe (c_spec (ob_model o)) f) (s_tables s)) (s_objs s),
           do p <- predict_call_on (ob_model o) f pc (ob_attrs o); Ok (OProbs p))
      | _, _ => (s, Err NameError)
      end
  end.

Fixpoint run (s : session) (h : list call) : session :=
  match h with
  | [] => s
  | c :: r => run (fst (step s c)) r
  end.
Definition start : session := mkSession [] [].
