(** Model of MNDC_Model.predict, base_multinomial_cm_v2.py:1779-1972.

    Parameter arrays are one-dimensional here; PredictNd.v is the same function for
    two-dimensional param_list arrays (the asymmetric, scobit, clog-log, uneven and
    conditional logits accept them).  Reading a CSV file is not modelled: the data argument is a table.  The in-place addition of an
    "intercept" column to the caller's table is modelled in Session. *)
From Coq Require Import String ZArith List Reals Lra Lia Arith.
From Coquelicot Require Import Coquelicot.
From Verif Require Import Res Vec Arr ChoiceCalcs Transforms Ids Mappings LongData Frame ChoiceTools
  BaseModel NestedCalcs MixedCalcs Estimation.
Import ListNotations.
Open Scope R_scope.

(** What predict reads of a fitted model object. *)
Record fitted_model := mkFitted {
  fm_class : model_class;
  fm_alt_col : string;               (* alt_id_col *)
  fm_obs_col : string;               (* obs_id_col *)
  fm_mix_col : option string;        (* mixing_id_col *)
  fm_spec : specification;           (* specification *)
  fm_name_spec : option name_dict;   (* name_spec *)
  fm_names : model_names;
  fm_coefs : arr;                    (* coefs.values *)
  fm_intercepts : option arr;        (* intercepts.values or None *)
  fm_shapes : option arr;            (* shapes.values or None *)
  fm_nests : option arr              (* nests.values or None *)
}.

(** param_list: None, or a list of one-dimensional arrays and Nones *)
Definition elem_of (o : option arr) : plist_elem :=
  match o with None => PNone | Some a => PArray [alen a] end.

(** base_multinomial_cm_v2.py:1889-1901; [param_list[k]] beyond the checked length
    does not occur *)
Record params := mkParams { pr_coefs : arr; pr_intercepts : option arr; pr_shapes : option arr; pr_nests : option arr }.
Definition prediction_params (m : fitted_model) (param_list : option (list (option arr))) : Res params :=
  match param_list with
  | None => Ok (mkParams (fm_coefs m) (fm_intercepts m) (fm_shapes m) (fm_nests m))
  | Some [Some b; i; s; n] => Ok (mkParams b i s n)
  | Some _ => Err IndexError
  end.

(** The identifier columns as create_long_form_mappings reads them
    (choice_tools.py:895-952); the choice and mixing columns are optional. *)
Definition opt_int_col (f : frame) (c : option string) : Res (option (list Z)) :=
  match c with
  | None => Ok None
  | Some c => do l <- int_col f c; Ok (Some l)
  end.
Definition long_cols_of (f : frame) (obs_col alt_col : string) (choice_col mix_col : option string) : Res long_cols :=
  do o <- int_col f obs_col;
  do a <- int_col f alt_col;
  do c <- opt_int_col f choice_col;
  do m <- opt_int_col f mix_col;
  Ok (mkLong o a c m).

(** The design matrix as numbers. *)
Definition design_mat (cols : list (list R)) : mat := fun i k => nth i (nth k cols []) 0.

(** [rows_to_alts.dot(shapes)] raises on a length mismatch; [np.exp(None)] raises *)
Definition check_shapes (k : logit_kind) (J : nat) (shape : option arr) : Res unit :=
  match k with
  | KMNL | KClog _ => Ok tt
  | KScobit _ | KUneven _ =>
      match shape with
      | None => Err TypeError
      | Some s => if (alen s =? J)%nat then Ok tt else Err ValueError
      end
  | KAsym sref _ =>
      match shape with
      | None => Err TypeError
      | Some s =>
          if negb (sref <=? alen s)%nat then Err ValueError      (* asym_logit.py:159-160 list.remove *)
          else if (alen s + 1 =? J)%nat then Ok tt else Err ValueError
      end
  end.

(** The outside intercepts as they are placed into the vector of one intercept per
    alternative of the prediction data.  Other models (uneven_logit.py:210-232,
    clog_log.py:180-202, asym_logit.py:315-337): numpy broadcasts an array of length
    one over all non-reference alternatives; any other length than J - 1 raises.
    scobit.py:156-178: positions 0..len are filled, the others stay zero. *)
Definition place_intercepts (k : logit_kind) (J : nat) (icpt : option arr) : Res (option arr) :=
  match k, kind_iref k, icpt with
  | KMNL, _, _ | _, None, _ | _, _, None => Ok icpt
  | KScobit _, Some ref, Some a =>
      if negb (ref <=? alen a)%nat then Err ValueError
      else if (if (ref =? alen a)%nat then alen a <=? J else alen a <? J)%nat
      then Ok (Some (mkArr (J - 1) (fun i => if (i <? alen a)%nat then aget a i else 0)))
      else Err IndexError
  | _, Some ref, Some a =>
      if negb (ref <? J)%nat then Err ValueError
      else if (alen a =? J - 1)%nat then Ok (Some a)
      else if (alen a =? 1)%nat then Ok (Some (mkArr (J - 1) (fun _ => aget a 0%nat)))
      else Err ValueError
  end.

(** The last branch, 1962-1972: calc_probabilities for a logit-type model *)
Definition predict_logit (k : logit_kind) (D : Data) (pr : params) (C : option mat) (rlp : bool) : Res prob_result :=
  do _ <- (if (alen (pr_coefs pr) =? d_K D)%nat then Ok tt else Err ValueError);  (* design.dot(beta) *)
  do icpt <- place_intercepts k (d_J D) (pr_intercepts pr);
  do _ <- check_shapes k (d_J D) (pr_shapes pr);
  calc_probabilities (model_of k) D (pr_shapes pr) icpt (pr_coefs pr) C rlp.

(** 1905-1925 *)
Definition predict_nested (E : NData) (pr : params) (C : option mat) (rlp : bool) : Res prob_result :=
  match pr_nests pr with
  | None => Err TypeError
  | Some n =>
      let natural := naturalize_nest_coefs (aget n) in
      do _ <- (if (alen n =? n_Q E)%nat then Ok tt else Err ValueError);
      do _ <- (if (alen (pr_coefs pr) =? d_K (n_D E))%nat then Ok tt else Err ValueError);
      do r <- calc_nested_probs E natural (pr_coefs pr) C (if rlp then RT_long else RT_chosen);
      match r with
      | NProbs p => Ok p
      | NDict _ => Err ValueError    (* not returned for these return types *)
      end
  end.

(** 1926-1960 *)
Definition predict_mixed (d : long_cols) (mp : mappings) (K : nat) (X : mat) (pos : list nat) (pr : params)
    (num_draws : option nat) (rvs : nat -> mat) (C : option mat) (rlp : bool) : Res prob_result :=
  do rm <- opt_smat (rows_to_mixers mp);
  match num_draws with
  | None => Err AssertionError       (* mixed_logit_calcs.py:72-74 *)
  | Some nR =>
      do draws <- get_normal_draws (s_cols rm) nR (length pos) rvs;
      do E <- mixed_data_of d K X pos nR draws None None;
      do _ <- (if (alen (pr_coefs pr) =? x_vars E)%nat then Ok tt else Err ValueError);
      mixed_predict E (pr_coefs pr) C rlp
  end.

Definition class_nests (c : model_class) : option nest_spec :=
  match c with ClassNested n => Some n | _ => None end.

(** base_multinomial_cm_v2.py:1851-1972 *)
Definition predict (m : fitted_model) (data : frame) (param_list : option (list (option arr)))
    (return_long_probs : bool) (choice_col : option string) (num_draws : option nat) (rvs : nat -> mat)
    : Res prob_result :=
  let dataframe := add_intercept_to_dataframe (fm_spec m) data in
  do _ <- ensure_columns_are_in_dataframe [fm_alt_col m] dataframe;
  do _ <- ensure_columns_are_in_dataframe [fm_obs_col m] dataframe;
  do _ <- match fm_mix_col m with
          | Some c => ensure_columns_are_in_dataframe [c] dataframe
          | None => Ok tt
          end;
  do _ <- check_param_list_validity (fm_names m) (option_map (map elem_of) param_list);
  do _ <- check_for_choice_col_based_on_return_long_probs return_long_probs (given choice_col);
  do dm <- create_design_matrix dataframe (fm_spec m) (fm_alt_col m) (fm_name_spec m);
  let K := length (fst dm) in
  let X := design_mat (fst dm) in
  do d <- long_cols_of dataframe (fm_obs_col m) (fm_alt_col m) choice_col (fm_mix_col m);
  do mp <- create_long_form_mappings d (class_nests (fm_class m));
  do pr <- prediction_params m param_list;
  let C := option_map smat_R (chosen_row_to_obs mp) in
  match fm_class m with
  | ClassLogit k => predict_logit k (data_of d mp K X None None) pr C return_long_probs
  | ClassNested _ =>
      do rn <- opt_smat (rows_to_nests mp);
      predict_nested (mkNData (data_of d mp K X None None) (s_cols rn) (smat_R rn)) pr C return_long_probs
  | ClassMixed pos => predict_mixed d mp K X pos pr num_draws rvs C return_long_probs
  end.
