(** Model of src/pylogit/choice_calcs.py.

    Conventions.  [N] is the number of rows of the long-format data, [nobs] the
    number of columns of rows_to_obs, [J] the number of columns of rows_to_alts.
    [alt_IDs] is passed around by the code but read by none of the modelled
    functions, so it is omitted.  [beta] is one-dimensional here; calc_probabilities
    for two-dimensional arrays (several parameter vectors at once), with numpy's
    broadcasts, is PredictNd.v.  The three-dimensional [design] of the mixed logit is
    handled draw by draw in MixedCalcs.v. *)
From Coq Require Import Reals Lra Lia Arith.
From Coquelicot Require Import Coquelicot.
From Verif Require Import Res Vec Arr.
Open Scope R_scope.

(** choice_calcs.py:25-33 (max_comp_value is unused below) *)
Definition min_comp_value : R := / 10 ^ 300.
Definition max_exponent_val : R := 700.
Definition min_exponent_val : R := -700.

(** A choice model as the calculations see it: the four callables handed to
    them.  [None] is Python's None. *)
Record LModel := mkLModel {
  (* utility_transform(sys_utilities, alt_IDs, rows_to_alts, shape, intercept) *)
  m_transform : nat -> mat -> vec -> option arr -> option arr -> vec;
  (* transform_first_deriv_c(sys_utilities, alt_IDs, rows_to_alts, shape) *)
  m_dh_dc : nat -> mat -> vec -> option arr -> option cmat;
  (* transform_first_deriv_v(...): square matrix, one row per long row *)
  m_dh_dv : nat -> mat -> vec -> option arr -> mat;
  (* transform_deriv_alpha(..., intercept) *)
  m_dh_da : nat -> mat -> vec -> option arr -> option cmat
}.

(** The data every calculation receives. *)
Record Data := mkData {
  d_N : nat;               (* rows *)
  d_obs : nat;             (* rows_to_obs.shape[1] *)
  d_J : nat;               (* rows_to_alts.shape[1] *)
  d_K : nat;               (* design.shape[1] *)
  d_X : mat;               (* design *)
  d_M : mat;               (* rows_to_obs *)
  d_A : mat;               (* rows_to_alts *)
  d_y : vec;               (* choice_vector *)
  d_w : option vec;        (* weights *)
  d_ridge : option R       (* ridge *)
}.

(** choice_calcs.py:133  sys_utilities = design.dot(beta) *)
Definition sys_utilities (D : Data) (beta : arr) : vec :=
  mvec (d_K D) (d_X D) (aget beta).

(** choice_calcs.py:143-148  clipping of one transformed utility *)
Definition clip_exponent (x : R) : R :=
  if Rlt_dec x min_exponent_val then min_exponent_val
  else if Rlt_dec max_exponent_val x then max_exponent_val
  else x.

(** choice_calcs.py:137-151 *)
Definition long_exponentials (m : LModel) (D : Data) (shape icpt : option arr) (beta : arr) : vec :=
  let transformed := m_transform m (d_J D) (d_A D) (sys_utilities D beta) shape icpt in
  fun i => exp (clip_exponent (transformed i)).

(** choice_calcs.py:156-157 *)
Definition individual_denominators (D : Data) (e : vec) : vec :=
  mvec (d_N D) (transp (d_M D)) e.

(** choice_calcs.py:158 *)
Definition long_denominators (D : Data) (e : vec) : vec :=
  mvec (d_obs D) (d_M D) (individual_denominators D e).

(** choice_calcs.py:164-165  underflow guard on one probability *)
Definition guard_zero (p : R) : R := if Req_EM_T p 0 then min_comp_value else p.

(** choice_calcs.py:159-165 *)
Definition long_probs (m : LModel) (D : Data) (shape icpt : option arr) (beta : arr) : vec :=
  let e := long_exponentials m D shape icpt beta in
  fun i => guard_zero (e i / long_denominators D e i).

(** choice_calcs.py:170-177;  [C] is chosen_row_to_obs *)
Definition chosen_probs (m : LModel) (D : Data) (C : mat) (shape icpt : option arr) (beta : arr) : vec :=
  let e := long_exponentials m D shape icpt beta in
  fun j => mvec (d_N D) (transp C) e j / individual_denominators D e j.

(** What calc_probabilities returns: a pair, or one array. *)
Inductive prob_result :=
| BothProbs (chosen long : vec)
| LongProbs (long : vec)
| ChosenProbs (chosen : vec).

(** choice_calcs.py:36-189.  The 2-D-beta-with-3-D-design check (124-127) is
    outside the modelled shapes. *)
Definition calc_probabilities (m : LModel) (D : Data) (shape icpt : option arr) (beta : arr)
    (chosen_row_to_obs : option mat) (return_long_probs : bool) : Res prob_result :=
  match chosen_row_to_obs, return_long_probs with
  | None, false => Err ValueError
  | None, true => Ok (LongProbs (long_probs m D shape icpt beta))
  | Some C, true => Ok (BothProbs (chosen_probs m D C shape icpt beta)
                                  (long_probs m D shape icpt beta))
  | Some C, false => Ok (ChosenProbs (chosen_probs m D C shape icpt beta))
  end.

(** choice_calcs.py:271-273, 402-404, 664-666: [weights = 1] or [np.ones] *)
Definition eff_weights (w : option vec) : vec :=
  match w with None => fun _ => 1 | Some v => v end.

(** choice_calcs.py:281-286: the parameters that are present, concatenated *)
Definition all_params (shape icpt : option arr) (beta : arr) : arr :=
  match shape, icpt with
  | Some c, Some a => acat c (acat a beta)
  | Some c, None => acat c beta
  | None, Some a => acat a beta
  | None, None => beta
  end.

(** choice_calcs.py:192-287 *)
Definition calc_log_likelihood (m : LModel) (D : Data) (shape icpt : option arr) (beta : arr) : R :=
  let p := long_probs m D shape icpt beta in
  let w := eff_weights (d_w D) in
  let ll := vdot (d_N D) (d_y D) (fun i => w i * ln (p i)) in
  match d_ridge D with
  | None => ll
  | Some r => ll - r * asumsq (all_params shape icpt beta)
  end.

(** choice_calcs.py:425, 685, 949  dh_db = dh_dv.dot(design) *)
Definition dh_db (m : LModel) (D : Data) (shape : option arr) (beta : arr) : mat :=
  mdot (d_N D) (m_dh_dv m (d_J D) (d_A D) (sys_utilities D beta) shape) (d_X D).

(** choice_calcs.py:290-486.  A missing derivative matrix (None) where the code
    needs one makes scipy's hstack / the product raise; the class of that
    exception is not distinguished (TypeError). *)
Definition calc_gradient (m : LModel) (D : Data) (shape icpt : option arr) (beta : arr) : Res arr :=
  let v := sys_utilities D beta in
  let p := long_probs m D shape icpt beta in
  let w := eff_weights (d_w D) in
  let dh_dc := m_dh_dc m (d_J D) (d_A D) v shape in
  let dh_da := m_dh_da m (d_J D) (d_A D) v icpt in
  let d_ll_dh := fun i => w i * (d_y D i - p i) in
  let d_ll_db := vmat (d_N D) d_ll_dh (dh_db m D shape beta) in
  let beta_part := mkArr (d_K D) d_ll_db in
  do gradient <-
    match shape, icpt with
    | Some _, Some _ =>
        match dh_dc, dh_da with
        | Some c, Some a =>
            Ok (acat (mkArr (ccols c + ccols a)
                        (vmat (d_N D) d_ll_dh (hcat (ccols c) (cent c) (cent a))))
                     beta_part)
        | _, _ => Err TypeError
        end
    | Some _, None =>
        match dh_dc with
        | Some c => Ok (acat (mkArr (ccols c) (vmat (d_N D) d_ll_dh (cent c))) beta_part)
        | None => Err TypeError
        end
    | None, Some _ =>
        match dh_da with
        | Some a => Ok (acat (mkArr (ccols a) (vmat (d_N D) d_ll_dh (cent a))) beta_part)
        | None => Err TypeError
        end
    | None, None => Ok beta_part
    end;
  match d_ridge D with
  | None => Ok gradient
  | Some r =>
      Ok (mkArr (alen gradient)
            (fun k => aget gradient k - 2 * r * aget (all_params shape icpt beta) k))
  end.

(** choice_calcs.py:489-558.  [left] is given transposed-to-rows exactly as in
    the code: [left] has one column per long row, [right] one row per long row.
    The sparse/dense case distinctions compute the same products. *)
Definition quadratic_prod_wrt_dp_ds (D : Data) (left right : mat) (probs : vec)
    (weights : option vec) : mat :=
  let w := eff_weights weights in
  let wt_probs := fun i => w i * probs i in
  let left_times_wt_probs : mat := fun a i => left a i * wt_probs i in
  let broadcasted_probs : mat := fun i j => d_M D i j * probs i in
  let broadcasted_wt_probs : mat := fun i j => d_M D i j * wt_probs i in
  let term_1 := mdot (d_N D) left_times_wt_probs right in
  let term_2 := mdot (d_N D) left broadcasted_wt_probs in
  let term_3 := mdot (d_N D) (transp broadcasted_probs) right in
  let term_4 := mdot (d_obs D) term_2 term_3 in
  fun a b => term_1 a b - term_4 a b.

(** A square matrix with its size. *)
Record sqmat := mkSq { sqn : nat; sqe : mat }.

(** choice_calcs.py:561-826 *)
Definition calc_hessian (m : LModel) (D : Data) (shape icpt : option arr) (beta : arr) : Res sqmat :=
  let v := sys_utilities D beta in
  let p := long_probs m D shape icpt beta in
  let w := d_w D in
  let dh_dc := m_dh_dc m (d_J D) (d_A D) v shape in
  let dh_da := m_dh_da m (d_J D) (d_A D) v icpt in
  let db := dh_db m D shape beta in
  let q := fun (l r : mat) => fun a b => -1 * quadratic_prod_wrt_dp_ds D (transp l) r p w a b in
  let d2_ll_db2 := q db db in
  let K := d_K D in
  do hess <-
    match shape, icpt with
    | Some _, Some _ =>
        match dh_dc, dh_da with
        | Some c, Some a =>
            let C := ccols c in let A := ccols a in
            let d2_ll_dc2 := q (cent c) (cent c) in
            let d2_ll_d_alpha2 := q (cent a) (cent a) in
            let d2_ll_dc_d_alpha := q (cent a) (cent c) in
            let d2_ll_dc_db := q db (cent c) in
            let d2_ll_d_alpha_db := q db (cent a) in
            let top_row := hcat C d2_ll_dc2 (hcat A (transp d2_ll_dc_d_alpha) (transp d2_ll_dc_db)) in
            let middle_row := hcat C d2_ll_dc_d_alpha (hcat A d2_ll_d_alpha2 (transp d2_ll_d_alpha_db)) in
            let last_row := hcat C d2_ll_dc_db (hcat A d2_ll_d_alpha_db d2_ll_db2) in
            Ok (mkSq (C + (A + K)) (vstack C top_row (vstack A middle_row last_row)))
        | _, _ => Err TypeError
        end
    | Some _, None =>
        match dh_dc with
        | Some c =>
            let C := ccols c in
            let d2_ll_dc2 := q (cent c) (cent c) in
            let d2_ll_dc_db := q db (cent c) in
            Ok (mkSq (C + K) (vstack C (hcat C d2_ll_dc2 (transp d2_ll_dc_db))
                                       (hcat C d2_ll_dc_db d2_ll_db2)))
        | None => Err TypeError
        end
    | None, Some _ =>
        match dh_da with
        | Some a =>
            let A := ccols a in
            let d2_ll_d_alpha2 := q (cent a) (cent a) in
            let d2_ll_d_alpha_db := q db (cent a) in
            Ok (mkSq (A + K) (vstack A (hcat A d2_ll_d_alpha2 (transp d2_ll_d_alpha_db))
                                       (hcat A d2_ll_d_alpha_db d2_ll_db2)))
        | None => Err TypeError
        end
    | None, None => Ok (mkSq K d2_ll_db2)
    end;
  match d_ridge D with
  | None => Ok hess
  | Some r => Ok (mkSq (sqn hess) (fun a b => sqe hess a b - 2 * r * ident a b))
  end.

(** [np.max] over the rows of a column; numpy raises on zero rows, so the case
    [n = 0] is never used (value 0 by totality). *)
Fixpoint maxn (n : nat) (f : vec) : R :=
  match n with
  | O => 0
  | S O => f O
  | S m => Rmax (maxn m f) (f m)
  end.

(** choice_calcs.py:927-931 *)
Definition weights_per_obs (D : Data) : vec :=
  let w := eff_weights (d_w D) in
  fun j => maxn (d_N D) (fun i => d_M D i j * w i).

(** choice_calcs.py:829-1002 *)
Definition calc_fisher_info_matrix (m : LModel) (D : Data) (shape icpt : option arr) (beta : arr)
  : Res sqmat :=
  let v := sys_utilities D beta in
  let p := long_probs m D shape icpt beta in
  let wobs := weights_per_obs D in
  let dh_dc := m_dh_dc m (d_J D) (d_A D) v shape in
  let dh_da := m_dh_da m (d_J D) (d_A D) v icpt in
  let db := dh_db m D shape beta in
  let d_ll_dh := fun i => d_y D i - p i in
  do dh <-
    match shape, icpt with
    | Some _, Some _ =>
        match dh_dc, dh_da with
        | Some c, Some a =>
            Ok (mkCmat (ccols c + (ccols a + d_K D))
                  (hcat (ccols c) (cent c) (hcat (ccols a) (cent a) db)))
        | _, _ => Err TypeError
        end
    | Some _, None =>
        match dh_dc with
        | Some c => Ok (mkCmat (ccols c + d_K D) (hcat (ccols c) (cent c) db))
        | None => Err TypeError
        end
    | None, Some _ =>
        match dh_da with
        | Some a => Ok (mkCmat (ccols a + d_K D) (hcat (ccols a) (cent a) db))
        | None => Err TypeError
        end
    | None, None => Ok (mkCmat (d_K D) db)
    end;
  let rows : mat := fun i k => d_ll_dh i * cent dh i k in
  let gradient_vec := mdot (d_N D) (transp (d_M D)) rows in
  let fisher := mdot (d_obs D) (transp gradient_vec) (fun o k => wobs o * gradient_vec o k) in
  match d_ridge D with
  | None => Ok (mkSq (ccols dh) fisher)
  | Some r => Ok (mkSq (ccols dh) (fun a b => fisher a b - 2 * r * ident a b))
  end.

(** choice_calcs.py:1005-1029.  scipy.linalg.inv is an oracle: its result
    [hess_inv] is a parameter, characterised in the statements as an inverse. *)
Definition calc_asymptotic_covariance (n : nat) (hess_inv fisher : mat) : mat :=
  mdot n hess_inv (mdot n fisher hess_inv).
