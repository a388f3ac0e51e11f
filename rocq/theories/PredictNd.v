(** Model of MNDC_Model.predict for one- and two-dimensional parameter arrays
    (base_multinomial_cm_v2.py:1779-1972); Boot.calc_log_likes_for_replicates passes all
    replicates at once as two-dimensional arrays (BootLogLike.v).

    The functions are those of ChoiceCalcs.v, Transforms.v and Predict.v, written again
    with numpy's shapes: each array operation is a broadcast of Nd.v.  As there, guards
    on IEEE infinities are omitted. *)
From Coq Require Import String ZArith List Reals Lra Lia Arith Bool.
From Verif Require Import Res Vec Arr Nd ChoiceCalcs Transforms Ids Mappings LongData Frame ChoiceTools
  BaseModel NestedCalcs MixedCalcs Estimation Predict.
Import ListNotations.
Open Scope R_scope.

(** [z = np.zeros(...); z[idx] = x] with idx all of 0..cnt but [ref], z with [J] rows:
    uneven_logit.py:213-230, clog_log.py:183-200, asym_logit.py:318-335 (there cnt = J-1),
    scobit.py:157-173 (there cnt is the number of intercepts).  [list.remove] raises
    ValueError; numpy raises IndexError on a position that is not there. *)
Definition scatter (J cnt ref : nat) (x : nd) : Res nd :=
  do _ <- (if (ref <=? cnt)%nat then Ok tt else Err ValueError);
  do _ <- (if ((cnt =? 0)%nat || ((if (ref =? cnt)%nat then cnt else S cnt) <=? J)%nat)%bool then Ok tt else Err IndexError);
  let put (v : vec) : vec := fill_others ref (fun i => if (i <? cnt)%nat then v i else 0) 0 in
  if several_columns x
  then match x with
       | A2 _ s _ => do v <- to_region2 cnt s x; Ok (A2 J s (fun i j => put (fun i => v i j) i))
       | A1 _ _ => Err TypeError     (* not several columns *)
       end
  else do v <- to_region cnt x; Ok (A1 J (put v)).

(** [rows_to_alts.dot(all_intercepts)] for the classes other than scobit; None when
    there is nothing to add *)
Definition outside_intercepts (N J : nat) (A : mat) (iref : option nat) (icpt : option nd) : Res (option nd) :=
  match icpt, iref with
  | Some x, Some ref =>
      do _ <- (if (ref <? J)%nat then Ok tt else Err ValueError);
      do all <- scatter J (J - 1) ref x;
      do l <- nd_dot N J A all;
      Ok (Some l)
  | _, _ => Ok None
  end.
Definition add_intercepts (t : nd) (l : option nd) : Res nd :=
  match l with Some l => inplace Rplus t l | None => Ok t end.

(** [np.exp(None)] raises TypeError *)
Definition needed (x : option nd) : Res nd := match x with Some x => Ok x | None => Err TypeError end.

(** clog_log.py:116-208 *)
Definition cloglog_transform_nd (iref : option nat) (N J : nat) (A : mat) (v : nd) (icpt : option nd) : Res nd :=
  let t := umap (fun x => if Rle_dec 3.7 x then exp x else ln (exp (exp x) - 1)) v in
  do l <- outside_intercepts N J A iref icpt;
  do t <- add_intercepts t l;
  Ok (as_column t).

(** scobit.py:111-213 *)
Definition scobit_transform_nd (iref : option nat) (N J : nat) (A : mat) (v : nd) (shape icpt : option nd) : Res nd :=
  do all_intercepts <- match iref, icpt with
                       | Some ref, Some x => scatter J (nd_rows x) ref x
                       | _, _ => Ok (A1 J (fun _ => 0))
                       end;
  do long_intercepts <- nd_dot N J A all_intercepts;
  do shape <- needed shape;
  do long_natural_shapes <- nd_dot N J A (umap exp shape);
  let exp_neg_v := umap (fun x => exp (-1 * x)) v in
  do powered_term <- bop (fun e s => Rpower (1 + e) s) exp_neg_v long_natural_shapes;
  let term_2 := umap (fun p => ln (p - 1)) powered_term in
  do t <- bop Rminus long_intercepts term_2;
  Ok (as_column t).

(** uneven_logit.py:118-238 *)
Definition uneven_transform_nd (iref : option nat) (N J : nat) (A : mat) (v : nd) (shape icpt : option nd) : Res nd :=
  do shape <- needed shape;
  do s <- nd_dot N J A (umap exp shape);
  let log_1 := umap (fun x => ln (1 + exp (-1 * x))) v in
  do log_2 <- bop (fun s x => ln (1 + exp (-1 * s * x))) s v;
  do t <- bop Rplus v log_1;
  do t <- bop Rminus t log_2;
  do l <- outside_intercepts N J A iref icpt;
  do t <- add_intercepts t l;
  Ok (as_column t).

(** asym_logit.py:121-181.  [c_vector[ref_position] = 1.0 / denom] with a denom of shape
    (1,) stores its single entry. *)
Definition convert_eta_to_c_nd (eta : nd) (ref : nat) : Res nd :=
  let exp_eta := umap (fun x => let e := exp x in if Req_EM_T e 0 then min_comp_value else e) eta in
  let denom := sum0_plus_1 exp_eta in
  let n := nd_rows eta in
  do _ <- (if (ref <=? n)%nat then Ok tt else Err ValueError);
  do others <- bop Rdiv exp_eta denom;
  let at_ref := umap (fun d => 1 / d) denom in
  if several_columns eta
  then match eta, at_ref with
       | A2 _ s _, A1 _ r => do o <- to_region2 n s others; Ok (A2 (n + 1) s (fun i j => fill_others ref (fun i => o i j) (r j) i))
       | _, _ => Err TypeError     (* not several columns *)
       end
  else match at_ref with
       | A1 1 r => do o <- to_region n others; Ok (A1 (n + 1) (fill_others ref o (r 0%nat)))
       | _ => Err ValueError
       end.

(** asym_logit.py:228-347 *)
Definition asym_transform_nd (sref : nat) (iref : option nat) (N J : nat) (A : mat) (v : nd) (eta icpt : option nd) : Res nd :=
  do eta <- needed eta;
  do c <- convert_eta_to_c_nd eta sref;
  do long_shapes <- nd_dot N J A c;
  let log_long := umap ln long_shapes in
  let log_1_sub := umap (fun c => ln ((1 - c) / (INR J - 1))) long_shapes in
  do m1 <- bop (fun x l => (if Rle_dec 0 x then 1 else 0) * l) v log_long;
  do m2 <- bop (fun x l => (if Rlt_dec x 0 then 1 else 0) * l) v log_1_sub;
  do multiplier <- bop Rplus m1 m2;
  do vm <- bop Rmult v multiplier;
  do t <- bop Rminus log_long vm;
  do l <- outside_intercepts N J A iref icpt;
  do t <- add_intercepts t l;
  Ok (as_column t).

Definition transform_nd (k : logit_kind) (N J : nat) (A : mat) (v : nd) (shape icpt : option nd) : Res nd :=
  match k with
  | KMNL => Ok (as_column v)                     (* conditional_logit.py:84-100 *)
  | KClog iref => cloglog_transform_nd iref N J A v icpt
  | KScobit iref => scobit_transform_nd iref N J A v shape icpt
  | KUneven iref => uneven_transform_nd iref N J A v shape icpt
  | KAsym sref iref => asym_transform_nd sref iref N J A v shape icpt
  end.

Inductive nd_result := NBoth (chosen long : nd) | NLong (long : nd) | NChosen (chosen : nd).

(** choice_calcs.py:36-189 *)
Definition calc_probabilities_nd (k : logit_kind) (D : Data) (shape icpt : option nd) (beta : nd)
    (chosen_row_to_obs : option mat) (return_long_probs : bool) : Res nd_result :=
  do _ <- match chosen_row_to_obs, return_long_probs with None, false => Err ValueError | _, _ => Ok tt end;
  do v <- nd_dot (d_N D) (d_K D) (d_X D) beta;
  do t <- transform_nd k (d_N D) (d_J D) (d_A D) v shape icpt;
  let e := umap (fun x => exp (clip_exponent x)) t in
  do denoms <- nd_dot (d_obs D) (d_N D) (transp (d_M D)) e;
  do long_denoms <- nd_dot (d_N D) (d_obs D) (d_M D) denoms;
  do ratio <- bop Rdiv e long_denoms;
  let long := umap guard_zero (if several_columns e then ratio else ravel ratio) in
  match chosen_row_to_obs with
  | None => Ok (NLong long)
  | Some C =>
      do ce <- nd_dot (d_obs D) (d_N D) (transp C) e;
      do cr <- bop Rdiv ce denoms;
      let chosen := if several_columns e then cr else ravel cr in
      Ok (if return_long_probs then NBoth chosen long else NChosen chosen)
  end.

Definition elem_of_nd (o : option nd) : plist_elem :=
  match o with
  | None => PNone
  | Some (A1 n _) => PArray [n]
  | Some (A2 n m _) => PArray [n; m]
  end.

(** base_multinomial_cm_v2.py:1889-1901 *)
Definition prediction_params_nd (m : fitted_model) (param_list : option (list (option nd)))
  : Res (nd * option nd * option nd) :=
  let stored (a : arr) := A1 (alen a) (aget a) in
  match param_list with
  | None => Ok (stored (fm_coefs m), option_map stored (fm_intercepts m), option_map stored (fm_shapes m))
  | Some [Some b; i; s; _] => Ok (b, i, s)
  | Some _ => Err IndexError
  end.

(** base_multinomial_cm_v2.py:1851-1972 for the five logit-type classes *)
Definition predict_nd (k : logit_kind) (m : fitted_model) (data : frame) (param_list : option (list (option nd)))
    (return_long_probs : bool) (choice_col : option string) : Res nd_result :=
  let dataframe := add_intercept_to_dataframe (fm_spec m) data in
  do _ <- ensure_columns_are_in_dataframe [fm_alt_col m] dataframe;
  do _ <- ensure_columns_are_in_dataframe [fm_obs_col m] dataframe;
  do _ <- match fm_mix_col m with
          | Some c => ensure_columns_are_in_dataframe [c] dataframe
          | None => Ok tt
          end;
  do _ <- check_param_list_validity (fm_names m) (option_map (map elem_of_nd) param_list);
  do _ <- check_for_choice_col_based_on_return_long_probs return_long_probs (given choice_col);
  do dm <- create_design_matrix dataframe (fm_spec m) (fm_alt_col m) (fm_name_spec m);
  let K := length (fst dm) in
  let X := design_mat (fst dm) in
  do d <- long_cols_of dataframe (fm_obs_col m) (fm_alt_col m) choice_col (fm_mix_col m);
  do mp <- create_long_form_mappings d None;
  do pr <- prediction_params_nd m param_list;
  let '(b, i, s) := pr in
  let C := option_map smat_R (chosen_row_to_obs mp) in
  calc_probabilities_nd k (data_of d mp K X None None) s i b C return_long_probs.
