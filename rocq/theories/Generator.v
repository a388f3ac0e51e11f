(** numpy's global random generator and the calls that use it: get_normal_draws
    (mixed_logit_calcs.py:46-88) in fit_mle and panel_predict of the mixed logit
    (mixed_logit.py:578-582, 796-800) and in predict (base_multinomial_cm_v2.py:1936-1941),
    and create_cross_sectional_bootstrap_samples (bootstrap_sampler.py:98-180).

    A generator is a state that yields one number after the other; filling an array of
    size (a, b) takes a * b numbers, row by row, as numpy's legacy RandomState does.  Which
    numbers come out is left open. *)
From Coq Require Import String ZArith List Reals Lra Lia Bool Arith.
From Verif Require Import Res Vec Arr Ids Mappings LongData Frame ChoiceTools WideLong ChoiceCalcs BaseModel NestedCalcs MixedCalcs
  Estimation Predict BootSampler.
Import ListNotations.

Record generator := mkGenerator {
  g_state : Type;
  g_seed : Z -> option g_state;                      (* np.random.seed(z); None: it raises ValueError *)
  g_normal : g_state -> R * g_state;                 (* the next standard normal number *)
  g_below : g_state -> nat -> nat * g_state          (* the next integer below a bound *)
}.

(** A [seed] argument: None, an int, anything else. *)
Inductive seed_value := SdNone | SdInt (z : Z) | SdOther.

Section G.
  Context (g : generator).
  Notation St := (g_state g).

  (** [size] numbers, one after the other *)
  Fixpoint normals (size : nat) (st : St) : list R * St :=
    match size with
    | O => ([], st)
    | S k => let (x, st) := g_normal g st in let (l, st) := normals k st in (x :: l, st)
    end.
  (** normal_dist.rvs(size=(rows, cols)) *)
  Definition rvs_array (rows cols : nat) (st : St) : mat * St :=
    let (l, st) := normals (rows * cols) st in
    (fun u r => if ((u <? rows) && (r <? cols))%nat%bool then nth (u * cols + r) l 0%R else 0%R, st).
  (** mixed_logit_calcs.py:85-87 *)
  Fixpoint draw_arrays (num_vars rows cols : nat) (st : St) : list mat * St :=
    match num_vars with
    | O => ([], st)
    | S v => let (x, st) := rvs_array rows cols st in let (l, st) := draw_arrays v rows cols st in (x :: l, st)
    end.

  (** np.random.seed *)
  Definition np_seed (z : Z) (st : St) : Res unit * St :=
    match g_seed g z with Some st' => (Ok tt, st') | None => (Err ValueError, st) end.

  (** mixed_logit_calcs.py:46-88 *)
  Definition g_normal_draws (num_mixers num_draws num_vars : nat) (seed : seed_value) (st : St) : Res (list mat) * St :=
    if ((0 <? num_mixers) && (0 <? num_draws) && (0 <? num_vars))%nat%bool then
      let draw := fun st : St => let (l, st) := draw_arrays num_vars num_mixers num_draws st in (Ok l, st) in
      match seed with
      | SdNone => draw st
      | SdInt z => if (0 <? z)%Z then
                     let (r, st) := np_seed z st in
                     match r with Ok _ => draw st | Err e => (Err e, st) end
                   else (Err AssertionError, st)
      | SdOther => (Err AssertionError, st)
      end
    else (Err AssertionError, st).

  Definition as_rvs (l : list mat) : nat -> mat := fun v => nth v l (fun _ _ => 0%R).

  (** ** predict *)

  (** base_multinomial_cm_v2.py:1851-1935: what precedes the draws of a mixed logit; the
      result is the size of the arrays drawn (units, draws, variables), None for the other
      models.  As Predict.predict. *)
  Definition predict_request (m : fitted_model) (data : frame) (param_list : option (list (option arr)))
      (return_long_probs : bool) (choice_col : option string) (num_draws : option nat) : Res (option (nat * nat * nat)) :=
    let dataframe := add_intercept_to_dataframe (fm_spec m) data in
    do _ <- ensure_columns_are_in_dataframe [fm_alt_col m] dataframe;
    do _ <- ensure_columns_are_in_dataframe [fm_obs_col m] dataframe;
    do _ <- match fm_mix_col m with
            | Some c => ensure_columns_are_in_dataframe [c] dataframe
            | None => Ok tt
            end;
    do _ <- check_param_list_validity (fm_names m) (option_map (map elem_of) param_list);
    do _ <- check_for_choice_col_based_on_return_long_probs return_long_probs (given choice_col);
    do dm <- create_design_matrix dataframe (fm_spec m) (fm_alt_col m) (fm_name_spec m);
    do d <- long_cols_of dataframe (fm_obs_col m) (fm_alt_col m) choice_col (fm_mix_col m);
    do mp <- create_long_form_mappings d (class_nests (fm_class m));
    do _ <- prediction_params m param_list;
    match fm_class m with
    | ClassMixed pos =>
        do rm <- opt_smat (rows_to_mixers mp);
        match num_draws with
        | None => Err AssertionError
        | Some nR => Ok (Some (s_cols rm, nR, length pos))
        end
    | _ => Ok None
    end.
  (** Run [f] with the draws that are requested. *)
  Definition with_draws {A} (request : Res (option (nat * nat * nat))) (seed : seed_value) (f : (nat -> mat) -> Res A)
      (st : St) : Res A * St :=
    match request with
    | Err e => (Err e, st)
    | Ok None => (f (as_rvs []), st)
    | Ok (Some (U, nR, V)) =>
        let (r, st) := g_normal_draws U nR V seed st in
        match r with Err e => (Err e, st) | Ok l => (f (as_rvs l), st) end
    end.
  Definition g_predict (m : fitted_model) (data : frame) (param_list : option (list (option arr)))
      (return_long_probs : bool) (choice_col : option string) (num_draws : option nat) (seed : seed_value)
      : St -> Res prob_result * St :=
    with_draws (predict_request m data param_list return_long_probs choice_col num_draws) seed
      (predict m data param_list return_long_probs choice_col num_draws).

  (** ** fit_mle *)

  (** mixed_logit.py:557-577: what precedes the draws (a missing init_vals is only noticed
      after them, at line 591) *)
  Definition fit_request (m : model_obj) (num_draws : nat) (fa : fit_args) : Res (option (nat * nat * nat)) :=
    match mo_class m with
    | ClassMixed pos =>
        do _ <- (if (given (fa_init_shapes fa) || given (fa_init_intercepts fa) || given (fa_init_coefs fa))%bool
                 then Err ValueError else Ok tt);
        do mp <- create_long_form_mappings (mo_cols m) None;
        do rm <- opt_smat (rows_to_mixers mp);
        Ok (Some (s_cols rm, num_draws, length pos))
    | _ => Ok None
    end.
  (** the other classes' fit_mle has no seed and uses no random numbers *)
  Definition g_fit (mz : minimizer) (nm : numerics) (names : model_names) (mixing : option (list string))
      (m : model_obj) (num_draws : nat) (seed : seed_value) (fa : fit_args) : St -> Res fit_return * St :=
    with_draws (fit_request m num_draws fa) seed (fun rvs => fit_mle mz nm names mixing m num_draws rvs fa).

  (** ** panel_predict *)

  (** mixed_logit.py:741-795 *)
  Definition panel_request (pin : panel_input) (num_draws : nat) (return_long_probs : bool) : Res (option (nat * nat * nat)) :=
    match choices (pi_new pin), return_long_probs with
    | None, false => Err ValueError
    | _, _ =>
        do mn <- create_long_form_mappings (pi_new pin) None;
        do rn <- opt_smat (rows_to_mixers mn);
        Ok (Some (s_cols rn, num_draws, length (pi_pos pin)))
    end.
  Definition g_panel_predict (pin : panel_input) (num_draws : nat) (seed : seed_value) (return_long_probs : bool)
      : St -> Res prob_result * St :=
    with_draws (panel_request pin num_draws return_long_probs) seed (fun rvs => panel_predict pin num_draws rvs return_long_probs).

  (** ** bootstrap samples *)

  (** np.random.choice(ids, size=size, replace=True): [size] indices, one after the other *)
  Fixpoint choices_of (n size : nat) (st : St) : list nat * St :=
    match size with
    | O => ([], st)
    | S k => let (x, st) := g_below g st n in let (l, st) := choices_of n k st in (x :: l, st)
    end.
  Definition g_random_choice (ids : list Z) (size : nat) (st : St) : Res (list Z) * St :=
    if ((length ids =? 0) && (0 <? size))%nat%bool then (Err ValueError, st)
    else let (l, st) := choices_of (length ids) size st in (Ok (map (fun i => nth (i mod length ids) ids 0%Z) l), st).
  (** bootstrap_sampler.py:161-177; as BootSampler.fill_samples *)
  Fixpoint g_fill_samples (d : list (Z * list Z)) (num_samples : nat) (groups : list (Z * nat)) (col_idx : nat)
      (ids_per_sample : zarr) (st : St) : Res zarr * St :=
    match groups with
    | [] => (Ok ids_per_sample, st)
    | (alt_id, resample_size) :: r =>
        match dict_get Z.eqb d alt_id with
        | None => (Err KeyError, st)
        | Some relevant_ids =>
            let (drawn, st) := g_random_choice relevant_ids (resample_size * num_samples) st in
            match drawn with
            | Err e => (Err e, st)
            | Ok drawn =>
                let current_ids : zarr := fun s j => nth (s * resample_size + j) drawn 0%Z in
                let end_col := (col_idx + resample_size)%nat in
                g_fill_samples d num_samples r (col_idx + resample_size)
                  (assign_cols ids_per_sample col_idx end_col current_ids) st
            end
        end
    end.
  (** bootstrap_sampler.py:98-180 *)
  Definition g_bootstrap_samples (obs alts choice : list Z) (num_samples : nat) (seed : seed_value) (empty : zarr)
      (st : St) : Res (nat * zarr) * St :=
    let d := relate_obs_ids_to_chosen_alts obs alts choice in
    let (num_obs_per_group, tot_num_obs) := get_num_obs_choosing_each_alternative d in
    let run := fun st : St =>
      let (r, st) := g_fill_samples d num_samples num_obs_per_group 0 empty st in
      (do ids <- r; Ok (tot_num_obs, ids), st) in
    match seed with
    | SdNone => run st
    | SdOther => (Err ValueError, st)
    | SdInt z => let (r, st) := np_seed z st in match r with Ok _ => run st | Err e => (Err e, st) end
    end.

  (** ** A program: calls of the library and of numpy *)
  Inductive gcall :=
  | CallSeed (z : Z)                       (* np.random.seed(z) by the user *)
  | CallNormals (k : nat)                  (* the user's own draws *)
  | CallFit (mz : minimizer) (nm : numerics) (names : model_names) (mixing : option (list string)) (m : model_obj)
      (num_draws : nat) (seed : seed_value) (fa : fit_args)
  | CallPredict (m : fitted_model) (data : frame) (param_list : option (list (option arr))) (rlp : bool)
      (choice_col : option string) (num_draws : option nat) (seed : seed_value)
  | CallPanel (pin : panel_input) (num_draws : nat) (seed : seed_value) (rlp : bool)
  | CallSamples (obs alts choice : list Z) (num_samples : nat) (seed : seed_value) (empty : zarr).
  Inductive outcome :=
  | OutUnit (r : Res unit) | OutNumbers (l : list R) | OutFit (r : Res fit_return)
  | OutProbs (r : Res prob_result) | OutSamples (r : Res (nat * zarr)).

  Definition gcall_run (c : gcall) (st : St) : outcome * St :=
    match c with
    | CallSeed z => let (r, st) := np_seed z st in (OutUnit r, st)
    | CallNormals k => let (l, st) := normals k st in (OutNumbers l, st)
    | CallFit mz nm names mixing m nR seed fa => let (r, st) := g_fit mz nm names mixing m nR seed fa st in (OutFit r, st)
    | CallPredict m data pl rlp cc nR seed => let (r, st) := g_predict m data pl rlp cc nR seed st in (OutProbs r, st)
    | CallPanel pin nR seed rlp => let (r, st) := g_panel_predict pin nR seed rlp st in (OutProbs r, st)
    | CallSamples obs alts choice n seed empty =>
        let (r, st) := g_bootstrap_samples obs alts choice n seed empty st in (OutSamples r, st)
    end.
  Fixpoint program (l : list gcall) (st : St) : list outcome * St :=
    match l with
    | [] => ([], st)
    | c :: r => let (o, st) := gcall_run c st in let (os, st) := program r st in (o :: os, st)
    end.
End G.
