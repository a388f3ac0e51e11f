(** Model of src/pylogit/mixed_logit_calcs.py and src/pylogit/mixed_logit.py.

    A three-dimensional design has one entry per (row, draw, variable).  The
    calculations of choice_calcs.py act on it draw by draw: [design_3d.dot(beta)]
    has one column per draw and every later operation of calc_probabilities is
    column-wise, so the probabilities of draw [r] are those of the data whose
    design matrix is the slice [design_3d[:, r, :]] ([draw_data]). *)
From Coq Require Import String ZArith List Reals Lra Lia Arith Bool.
From Coquelicot Require Import Coquelicot.
From Verif Require Import Res Vec Arr SpecLogit ChoiceCalcs Transforms Ids Mappings LongData NestedCalcs.
Import ListNotations.
Open Scope R_scope.

(** ** Draws and the expanded design *)

(** mixed_logit_calcs.py:46-87.  [rvs v] is the [v]-th array returned by the
    normal sampler, an oracle.  The isinstance assertions hold by typing; a seed
    only selects the oracle. *)
Definition get_normal_draws (num_mixers num_draws num_vars : nat) (rvs : nat -> mat) : Res (list mat) :=
  if ((0 <? num_mixers) && (0 <? num_draws) && (0 <? num_vars))%nat%bool
  then Ok (map rvs (seq 0 num_vars))
  else Err AssertionError.

(** list.index: position of the first occurrence, ValueError when absent *)
Fixpoint list_index (x : string) (l : list string) : Res nat :=
  match l with
  | [] => Err ValueError
  | y :: r => if String.eqb x y then Ok 0%nat else do k <- list_index x r; Ok (S k)
  end.

(** mixed_logit_calcs.py:90-105 *)
Fixpoint convert_mixing_names_to_positions (mixing_names ind_var_names : list string) : Res (list nat) :=
  match mixing_names with
  | [] => Ok []
  | x :: r =>
      do k <- list_index x ind_var_names;
      do rest <- convert_mixing_names_to_positions r ind_var_names;
      Ok (k :: rest)
  end.

Definition design3 := nat -> nat -> nat -> R.

(** mixed_logit_calcs.py:108-177.  [draw_list] is a list of (mixers x draws)
    arrays; [mixers] is rows_to_mixers.shape[1], [R2m] rows_to_mixers.
    [design[:, mixing_pos]] raises IndexError when a position is out of range and
    [draw_list[0]] when there are no draws. *)
Definition create_expanded_design_for_mixing (K : nat) (design : mat) (draw_list : list mat)
    (mixing_pos : list nat) (mixers : nat) (R2m : mat) : Res (nat * design3) :=
  if negb (length mixing_pos =? length draw_list)%nat then Err ValueError
  else match draw_list with
  | [] => Err IndexError
  | _ :: _ =>
      if existsb (fun p => (K <=? p)%nat) mixing_pos then Err IndexError
      else
        let arrays_for_mixing : mat := fun i p => design i (nth p mixing_pos 0%nat) in
        let expanded := hcat K design arrays_for_mixing in
        let design_3d : design3 := fun i _ k => expanded i k in
        Ok ((K + length mixing_pos)%nat,
            fold_left (fun (x : design3) pos =>
                let rel_draws := nth pos draw_list (fun _ _ => 0) in
                let rel_long_draws := mdot mixers R2m rel_draws in
                fun i r k => if (k =? K + pos)%nat then x i r k * rel_long_draws i r else x i r k)
              (seq 0 (length mixing_pos)) design_3d)
  end.

(** The arguments of the mixed-logit calculations: the mapping matrices, choice
    vector, weights and ridge of [x_D] (whose two-dimensional design is not read),
    the three-dimensional design and rows_to_mixers. *)
Record MData := mkMData {
  x_D : Data;
  x_draws : nat;      (* design_3d.shape[1] *)
  x_vars : nat;       (* design_3d.shape[2] *)
  x_X : design3;      (* design_3d *)
  x_mixers : nat;     (* rows_to_mixers.shape[1] *)
  x_R : mat           (* rows_to_mixers *)
}.

Definition draw_data (E : MData) (r : nat) : Data :=
  let D := x_D E in
  mkData (d_N D) (d_obs D) (d_J D) (x_vars E) (fun i k => x_X E i r k)
    (d_M D) (d_A D) (d_y D) (d_w D) (d_ridge D).

(** calc_probabilities(..., return_long_probs=True) on a 3-D design;
    mixed_logit.py:82-103 is the identity transform. *)
Definition prob_array (E : MData) (params : arr) : mat :=
  fun i r => long_probs MNL_model (draw_data E r) None None params i.

(** chosen probabilities per observation and draw *)
Definition chosen_array (E : MData) (C : mat) (params : arr) : mat :=
  fun j r => chosen_probs MNL_model (draw_data E r) C None None params j.

(** With a single draw calc_probabilities returns a one-dimensional array
    (choice_calcs.py:159-162).  The mixed-logit code then combines it with arrays
    [a[:, None]] as if it had one row per table row, and numpy's broadcasting makes
    the result N x N: entry (i, j) reads the probability of row j
    (mixed_logit_calcs.py:222, 457, 696).  [bc_cols] is the resulting number of
    columns and [bc_probs] the array as it is read; [bc_design] is the design
    broadcast along its draw axis of length one. *)
Definition bc_cols (E : MData) : nat := if (x_draws E =? 1)%nat then d_N (x_D E) else x_draws E.
Definition bc_probs (E : MData) (params : arr) : mat :=
  if (x_draws E =? 1)%nat then fun _ j => prob_array E params j 0%nat else prob_array E params.
Definition bc_design (E : MData) : design3 :=
  if (x_draws E =? 1)%nat then fun i _ k => x_X E i 0%nat k else x_X E.

(** [x.mean(axis=1)] of an array with [n] columns *)
Definition row_mean (n : nat) (x : mat) : vec := fun i => sumn n (x i) / INR n.

(** ** Choice-sequence probabilities, mixed_logit_calcs.py:180-240 *)
Definition expanded_sequence_probs (N : nat) (probs : mat) (y : vec) (R2m : mat) : mat :=
  let log_chosen : mat := fun i r => y i * ln (probs i r) in
  fun u r => guard_zero (exp (mdot N (transp R2m) log_chosen u r)).

Definition sequence_probs (N draws : nat) (probs : mat) (y : vec) (R2m : mat) : vec :=
  row_mean draws (expanded_sequence_probs N probs y R2m).

Inductive seq_return := SR_none | SR_all | SR_other.
Inductive seq_result := SeqProbs (p : vec) | SeqBoth (p : vec) (expanded : mat).

Definition calc_choice_sequence_probs (N draws : nat) (probs : mat) (y : vec) (R2m : mat)
    (rt : seq_return) : Res seq_result :=
  match rt with
  | SR_other => Err ValueError
  | SR_none => Ok (SeqProbs (sequence_probs N draws probs y R2m))
  | SR_all => Ok (SeqBoth (sequence_probs N draws probs y R2m) (expanded_sequence_probs N probs y R2m))
  end.

(** mixed_logit_calcs.py:317-320, 663-666 *)
Definition weights_per_mixer (E : MData) : vec :=
  let w := eff_weights (d_w (x_D E)) in
  fun u => maxn (d_N (x_D E)) (fun i => x_R E i u * w i).

(** mixed_logit_calcs.py:243-348 *)
Definition calc_mixed_log_likelihood (E : MData) (params : arr) : R :=
  let D := x_D E in
  let sim := sequence_probs (d_N D) (bc_cols E) (bc_probs E params) (d_y D) (x_R E) in
  let ll := vdot (x_mixers E) (weights_per_mixer E) (fun u => ln (sim u)) in
  match d_ridge D with
  | None => ll
  | Some c => ll - c * asumsq params
  end.

(** mixed_logit_calcs.py:441-458, 680-697 *)
Definition scaled_error (E : MData) (params : arr) : mat :=
  let D := x_D E in
  let p := bc_probs E params in
  let seqs := expanded_sequence_probs (d_N D) p (d_y D) (x_R E) in
  let sim := sequence_probs (d_N D) (bc_cols E) p (d_y D) (x_R E) in
  let long_seqs := mdot (x_mixers E) (x_R E) seqs in
  let long_sim := mvec (x_mixers E) (x_R E) sim in
  fun i r => (d_y D i - p i r) * (long_seqs i r / long_sim i).

(** mixed_logit_calcs.py:351-475 *)
Definition calc_mixed_logit_gradient (E : MData) (params : arr) : arr :=
  let D := x_D E in
  let w := eff_weights (d_w D) in
  let err := scaled_error E params in
  let per_draw : mat := fun r k => sumn (d_N D) (fun i => err i r * bc_design E i r k * w i) in
  let gradient := fun k => sumn (bc_cols E) (fun r => per_draw r k) / INR (bc_cols E) in
  mkArr (x_vars E)
    (match d_ridge D with
     | None => gradient
     | Some c => fun k => gradient k - 2 * c * aget params k
     end).

(** mixed_logit_calcs.py:705-707 *)
Definition mixed_score_matrix (E : MData) (params : arr) : mat :=
  let err := scaled_error E params in
  let gradient : mat := fun i k => sumn (bc_cols E) (fun r => err i r * bc_design E i r k) / INR (bc_cols E) in
  mdot (d_N (x_D E)) (transp (x_R E)) gradient.

(** mixed_logit_calcs.py:588-717 *)
Definition calc_bhhh_mixed (E : MData) (params : arr) : sqmat :=
  let g := mixed_score_matrix E params in
  let bhhh := mdot (x_mixers E) (transp g) (fun u k => weights_per_mixer E u * g u k) in
  let bhhh := match d_ridge (x_D E) with
              | None => bhhh
              | Some c => fun a b => bhhh a b - 2 * c * ident a b
              end in
  mkSq (x_vars E) (fun a b => -1 * bhhh a b).

(** ** The estimator, mixed_logit.py:106-132, 171-375 *)
Definition mixed_check_length (E : MData) (init_values : arr) : Res unit :=
  if (alen init_values =? x_vars E)%nat then Ok tt else Err ValueError.

(** mixed_logit.py:327-356; the loop 350-354 is that of the nested estimator *)
Definition mixed_est_hessian (E : MData) (constrained_pos : option (list nat)) (params : arr) : sqmat :=
  let h := calc_bhhh_mixed E params in
  match constrained_pos with
  | None => h
  | Some l => mkSq (sqn h) (fold_left decouple l (sqe h))
  end.

(** mixed_logit.py:358-375: a placeholder *)
Definition mixed_est_fisher (params : arr) : sqmat :=
  mkSq (alen params) (fun a b => if (a =? b)%nat then -1 else 0).

(** The mixing-id column. *)
Definition mix_of (d : long_cols) : list Z := match mix_ids d with Some l => l | None => [] end.

(** mixed_logit.py:574-597: mappings and expanded design of a table.  A table
    without mixing ids has no rows_to_mixers (None.shape: AttributeError). *)
Definition mixed_data_of (d : long_cols) (K : nat) (X : mat) (mixing_pos : list nat) (num_draws : nat)
    (draw_list : list mat) (w : option vec) (ridge : option R) : Res MData :=
  do mp <- create_long_form_mappings d None;
  match rows_to_mixers mp with
  | None => Err AttributeError
  | Some rm =>
      do x3 <- create_expanded_design_for_mixing K X draw_list mixing_pos (s_cols rm) (smat_R rm);
      Ok (mkMData (data_of d mp K X w ridge) num_draws (fst x3) (snd x3) (s_cols rm) (smat_R rm))
  end.

(** The prediction branch for mixed logit models, base_multinomial_cm_v2.py:1949-1960:
    calc_probabilities returns a tuple when both arrays are requested, and a tuple
    has no attribute "mean"; with a single draw the array is one-dimensional and
    mean(axis=1) raises an AxisError, a ValueError. *)
Definition mixed_predict (E : MData) (params : arr) (C : option mat) (return_long_probs : bool) : Res prob_result :=
  match C, return_long_probs with
  | None, false => Err ValueError
  | Some _, true => Err AttributeError
  | None, true =>
      if (x_draws E =? 1)%nat then Err ValueError
      else Ok (LongProbs (row_mean (x_draws E) (prob_array E params)))
  | Some c, false =>
      if (x_draws E =? 1)%nat then Err ValueError
      else Ok (ChosenProbs (row_mean (x_draws E) (chosen_array E c params)))
  end.

(** ** panel_predict, mixed_logit.py:625-959 *)

(** Rows (columns) kept by boolean indexing with a mask. *)
Definition kept (n : nat) (mask : nat -> bool) : list nat := filter mask (seq 0 n).

(** A dense integer matrix with its shape. *)
Record dmat := mkDmat { dm_rows : nat; dm_cols : nat; dm_ent : nat -> nat -> Z }.

Definition zsum (l : list Z) : Z := fold_right Z.add 0%Z l.

(** mixed_logit.py:656-679 for one mapping matrix: mask the rows, then drop the
    rows and afterwards the columns whose entries sum to zero.  The guards
    "shape[0] > 0" change nothing. *)
Definition filter_mapping (m : smat) (inclusion : nat -> bool) : dmat :=
  let masked := fun i j => (sget m i j * (if inclusion i then 1 else 0))%Z in
  let rows := kept (s_rows m)
    (fun i => negb (zsum (map (fun j => masked i j) (seq 0 (s_cols m))) =? 0)%Z) in
  let cols := kept (s_cols m)
    (fun j => negb (zsum (map (fun i => masked i j) rows) =? 0)%Z) in
  mkDmat (length rows) (length cols)
    (fun a b => masked (nth a rows 0%nat) (nth b cols 0%nat)).

Definition dmat_R (m : dmat) : mat := fun i j => IZR (dm_ent m i j).

(** Everything panel_predict reads of the fitted model and of the new table:
    the original table's columns and design, the new table's columns and design,
    the mixed positions and the coefficients. *)
Record panel_input := mkPanel {
  pi_old : long_cols; pi_old_X : mat;
  pi_new : long_cols; pi_new_X : mat;
  pi_K : nat; pi_pos : list nat; pi_coefs : arr
}.

(** mixed_logit.py:826-828: equal weights *)
Definition equal_weights (num_draws : nat) : mat := fun _ _ => 1 / INR num_draws.

(** [x[mask, :] = y]: the k-th kept row of x becomes row k of y. *)
Definition assign_rows (n : nat) (mask : nat -> bool) (x y : mat) : mat :=
  fun i r => if ((i <? n)%nat && mask i)%bool then y (length (kept i mask)) r else x i r.

(** mixed_logit.py:849-855: which original rows, and which new units, belong to
    mixing units present in both tables. *)
Definition old_repeat (I : panel_input) (i : nat) : bool :=
  zmem (nth i (mix_of (pi_old I)) 0%Z) (get_original_order_unique_ids (mix_of (pi_new I))).
Definition new_unique_repeats (I : panel_input) (k : nat) : bool :=
  zmem (nth k (get_original_order_unique_ids (mix_of (pi_new I))) 0%Z)
       (get_original_order_unique_ids (mix_of (pi_old I))).

(** mixed_logit.py:860-890: the retained part of the original table, with the
    draws of the new table. *)
Definition panel_past_data (I : panel_input) (num_draws : nat) (draw_list : list mat)
    (mo : mappings) (old_R : smat) : Res MData :=
  let K := pi_K I in
  let u_new := get_original_order_unique_ids (mix_of (pi_new I)) in
  let old_rows := kept (length (mix_of (pi_old I))) (old_repeat I) in
  let past_X : mat := fun i k => pi_old_X I (nth i old_rows 0%nat) k in
  let past_obs := filter_mapping (rows_to_obs mo) (old_repeat I) in
  let past_alts := filter_mapping (rows_to_alts mo) (old_repeat I) in
  let past_mix := filter_mapping old_R (old_repeat I) in
  let new_rows := kept (length u_new) (new_unique_repeats I) in
  let past_draws := map (fun x : mat => (fun u r => x (nth u new_rows 0%nat) r) : mat) draw_list in
  do p3 <- create_expanded_design_for_mixing K past_X past_draws (pi_pos I) (dm_cols past_mix) (dmat_R past_mix);
  let past_y := fun i => choice_vec (pi_old I) (nth i old_rows 0%nat) in
  let past_D := mkData (length old_rows) (dm_cols past_obs) (dm_cols past_alts) K past_X
                  (dmat_R past_obs) (dmat_R past_alts) past_y None None in
  Ok (mkMData past_D num_draws (fst p3) (snd p3) (dm_cols past_mix) (dmat_R past_mix)).

(** mixed_logit.py:897-923: weights per unit of the new table and draw. *)
Definition panel_weights (I : panel_input) (Ep : MData) : mat :=
  let num_draws := x_draws Ep in
  let u_old := get_original_order_unique_ids (mix_of (pi_old I)) in
  let u_new := get_original_order_unique_ids (mix_of (pi_new I)) in
  let seqs := expanded_sequence_probs (d_N (x_D Ep)) (bc_probs Ep (pi_coefs I)) (d_y (x_D Ep)) (x_R Ep) in
  let past_weights : mat := fun u r => seqs u r / sumn (bc_cols Ep) (seqs u) in
  let rel_new := filter (fun z => zmem z u_old) u_new in
  let rel_old := filter (fun z => zmem z u_new) u_old in
  let reorder : mat := fun a b => if (nth a rel_new 0 =? nth b rel_old 0)%Z then 1 else 0 in
  let past_weights := mdot (length rel_old) reorder past_weights in
  assign_rows (length u_new) (new_unique_repeats I) (equal_weights num_draws) past_weights.

(** mixed_logit.py:796-936.  [mn], [mo] are the mapping results of the new and the
    original table.  The case in which no unit of the new table occurs in the
    original one goes through with empty arrays here; scipy versions that reject
    empty sparse matrices raise instead.  With a single draw the past weights have
    one column per retained row of the original table and only fit into the weights
    array (one column) when there is one such row; the product with the
    one-dimensional probabilities is broadcast to an N x N array before it is summed. *)
Definition panel_compute (I : panel_input) (num_draws : nat) (draw_list : list mat)
    (mo : mappings) (old_R : smat) : Res vec :=
  do En <- mixed_data_of (pi_new I) (pi_K I) (pi_new_X I) (pi_pos I) num_draws draw_list None None;
  do Ep <- panel_past_data I num_draws draw_list mo old_R;
  let kernel := prob_array En (pi_coefs I) in
  let weights_per_draw := mdot (x_mixers En) (x_R En) (panel_weights I Ep) in
  if (num_draws =? 1)%nat then
    if (d_N (x_D Ep) =? 1)%nat
    then Ok (fun i => sumn (d_N (x_D En)) (fun j => weights_per_draw i 0%nat * kernel j 0%nat))
    else Err ValueError
  else Ok (fun i => sumn num_draws (fun r => weights_per_draw i r * kernel i r)).

(** mixed_logit.py:741-959 (the intercept column 750-754 and the column checks
    757-762 are those of predict, BaseModel.v).  The two tables carry mixing ids. *)
Definition panel_predict (I : panel_input) (num_draws : nat) (rvs : nat -> mat) (return_long_probs : bool)
  : Res prob_result :=
  match choices (pi_new I), return_long_probs with
  | None, false => Err ValueError
  | _, _ =>
      do mn <- create_long_form_mappings (pi_new I) None;
      do mo <- create_long_form_mappings (pi_old I) None;
      match rows_to_mixers mn, rows_to_mixers mo with
      | Some rn, Some ro =>
          do draws <- get_normal_draws (s_cols rn) num_draws (length (pi_pos I)) rvs;
          do long <- panel_compute I num_draws draws mo ro;
          match chosen_row_to_obs mn, return_long_probs with
          | Some C, true => Ok (BothProbs (mvec (length (obs_ids (pi_new I))) (transp (smat_R C)) long) long)
          | None, true => Ok (LongProbs long)
          | Some C, false => Ok (ChosenProbs (mvec (length (obs_ids (pi_new I))) (transp (smat_R C)) long))
          | None, false => Err ValueError
          end
      | _, _ => Err AttributeError
      end
  end.
