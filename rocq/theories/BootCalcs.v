(** Model of src/pylogit/bootstrap_calcs.py and src/pylogit/bootstrap_utils.py.
    Arrays of replicates have one row per replicate and one column per parameter.
    Replicates are finite numbers; NaN replicates are not modelled.
    norm.cdf and norm.ppf (scipy.stats.norm) are parameters. *)
From Coq Require Import Reals Lra Lia ZArith List Bool Permutation.
From Verif Require Import Res Vec.
Import ListNotations.
Open Scope R_scope.

(** ** Floating point special values, as far as they arise here *)
Inductive xnum := XFin (r : R) | XPos | XNeg | XNaN.

Definition xopp (a : xnum) : xnum :=
  match a with XFin x => XFin (- x) | XPos => XNeg | XNeg => XPos | XNaN => XNaN end.
Definition xadd (a b : xnum) : xnum :=
  match a, b with
  | XFin x, XFin y => XFin (x + y)
  | XNaN, _ | _, XNaN => XNaN
  | XPos, XNeg | XNeg, XPos => XNaN
  | XPos, _ | _, XPos => XPos
  | XNeg, _ | _, XNeg => XNeg
  end.
(** finite times anything *)
Definition xscale (c : R) (a : xnum) : xnum :=
  match a with
  | XFin x => XFin (c * x)
  | XNaN => XNaN
  | XPos => if Req_EM_T c 0 then XNaN else if Rlt_dec 0 c then XPos else XNeg
  | XNeg => if Req_EM_T c 0 then XNaN else if Rlt_dec 0 c then XNeg else XPos
  end.
Definition xdiv (a b : xnum) : xnum :=
  match a, b with
  | XNaN, _ | _, XNaN => XNaN
  | XFin x, XFin y =>
      if Req_EM_T y 0
      then (if Req_EM_T x 0 then XNaN else if Rlt_dec 0 x then XPos else XNeg)
      else XFin (x / y)
  | XFin _, _ => XFin 0
  | XPos, XFin y => if Rle_dec 0 y then XPos else XNeg
  | XNeg, XFin y => if Rle_dec 0 y then XNeg else XPos
  | _, _ => XNaN
  end.

Record normal_dist := mkNormal { nd_cdf : R -> R; nd_ppf : R -> R }.

(** norm.ppf on [0, 1] *)
Definition norm_ppf (nd : normal_dist) (p : R) : xnum :=
  if Req_EM_T p 0 then XNeg else if Req_EM_T p 1 then XPos else XFin (nd_ppf nd p).
Definition norm_cdf (nd : normal_dist) (a : xnum) : xnum :=
  match a with XFin x => XFin (nd_cdf nd x) | XPos => XFin 1 | XNeg => XFin 0 | XNaN => XNaN end.

(** ** np.percentile *)
Fixpoint rinsert (x : R) (l : list R) : list R :=
  match l with
  | [] => [x]
  | y :: r => if Rle_dec x y then x :: l else y :: rinsert x r
  end.
Definition rsort (l : list R) : list R := fold_right rinsert [] l.

Inductive interpolation := Lower | Higher.
Definition floorZ (x : R) : Z := Int_part x.
Definition ceilZ (x : R) : Z := (- Int_part (- x))%Z.

(** np.percentile(l, q, interpolation=...) of a one-dimensional array (numpy 1.19.4,
    the version pinned in requirements.txt): the element at the (rounded) position
    q/100 * (n-1) of the sorted array. *)
Definition np_percentile (m : interpolation) (q : R) (l : list R) : R :=
  let idx := q / 100 * (INR (length l) - 1) in
  nth (Z.to_nat (match m with Lower => floorZ idx | Higher => ceilZ idx end)) (rsort l) 0.

(** The same with its failures: no data, a percentage outside [0, 100], NaN (whose
    conversion to an index makes ndarray.partition raise ValueError). *)
Definition np_percentile_res (m : interpolation) (q : xnum) (l : list R) : Res R :=
  match q with
  | XFin q => if Rle_dec 0 q then if Rle_dec q 100
              then match l with [] => Err IndexError | _ => Ok (np_percentile m q l) end
              else Err ValueError else Err ValueError
  | _ => Err ValueError
  end.

(** ** Arguments *)

(** conf_percentage: a number or something else *)
Inductive conf_arg := ConfNumber (c : R) | ConfOther.

(** bootstrap_utils.py:14-27 *)
Definition check_conf_percentage_validity (c : conf_arg) : Res R :=
  match c with
  | ConfOther => Err ValueError
  | ConfNumber c => if Rlt_dec 0 c then if Rlt_dec c 100 then Ok c else Err ValueError else Err ValueError
  end.

(** A replicates argument: a two-dimensional array (rows, columns, entries) or
    something else. *)
Inductive samples_arg := Samples2D (rows cols : nat) (a : nat -> nat -> R) | SamplesOther.

(** bootstrap_utils.py:30-41 with ndim=2 *)
Definition ensure_samples_is_2dim (s : samples_arg) : Res (nat * nat * (nat -> nat -> R)) :=
  match s with Samples2D r c a => Ok (r, c, a) | SamplesOther => Err ValueError end.

(** bootstrap_utils.py:44-49 *)
Definition get_alpha_from_conf_percentage (c : R) : R := 100 - c.

(** One column of an array, as a list *)
Definition column (rows : nat) (a : nat -> nat -> R) (j : nat) : list R :=
  map (fun b => a b j) (seq 0 rows).

(** ** bootstrap_calcs.py *)

(** The 2 x K array of endpoints (bootstrap_utils.py:52-56), by parameter *)
Definition intervals := list (R * R).

Fixpoint collect {A} (l : list (Res A)) : Res (list A) :=
  match l with
  | [] => Ok []
  | r :: rest => do x <- r; do xs <- collect rest; Ok (x :: xs)
  end.

(** bootstrap_calcs.py:23-86 *)
Definition calc_percentile_interval (reps : samples_arg) (conf : conf_arg) : Res intervals :=
  do conf_percentage <- check_conf_percentage_validity conf;
  do s <- ensure_samples_is_2dim reps;
  let '(rows, cols, a) := s in
  let alpha := get_alpha_from_conf_percentage conf_percentage in
  let lower_percent := alpha / 2 in
  let upper_percent := 100 - lower_percent in
  do lower_endpoint <- collect (map (fun j => np_percentile_res Lower (XFin lower_percent) (column rows a j)) (seq 0 cols));
  do upper_endpoint <- collect (map (fun j => np_percentile_res Higher (XFin upper_percent) (column rows a j)) (seq 0 cols));
  Ok (combine lower_endpoint upper_endpoint).

(** bootstrap_calcs.py:89-119, one parameter *)
Definition calc_bias_correction_bca (nd : normal_dist) (reps : list R) (mle : R) : xnum :=
  let numerator := INR (length (filter (fun x => if Rlt_dec x mle then true else false) reps)) in
  let denominator := INR (length reps) in
  norm_ppf nd (numerator / denominator).

Definition rsum (l : list R) : R := fold_right Rplus 0 l.
Definition rmean (l : list R) : R := rsum l / INR (length l).
(** [s ** 1.5] for s >= 0 *)
Definition pow_1_5 (s : R) : R := s * sqrt s.
Definition MIN_COMP_VALUE : R := / 10 ^ 16.

(** bootstrap_calcs.py:122-160, one parameter; the division is numpy's *)
Definition acceleration_quotient (jack : list R) : xnum :=
  let jackknife_mean := rmean jack in
  let differences := map (fun x => jackknife_mean - x) jack in
  let numerator := rsum (map (fun d => d ^ 3) differences) in
  let denominator := 6 * pow_1_5 (rsum (map (fun d => d ^ 2) differences)) in
  let denominator := if Req_EM_T denominator 0 then MIN_COMP_VALUE else denominator in
  xdiv (XFin numerator) (XFin denominator).
(** The same as a number; PropBca.v shows that it always is one
    (C58_acceleration_is_a_number). *)
Definition calc_acceleration_bca (jack : list R) : R :=
  match acceleration_quotient jack with XFin r => r | _ => 0 end.

(** bootstrap_calcs.py:202-207 and 249-254 after z is known *)
Definition bca_percentile (nd : normal_dist) (bias_correction : xnum) (acceleration : R) (z : xnum) : xnum :=
  let numerator := xadd bias_correction z in
  let denominator := xadd (XFin 1) (xopp (xscale acceleration numerator)) in
  xscale 100 (norm_cdf nd (xadd bias_correction (xdiv numerator denominator))).

(** bootstrap_calcs.py:163-207 *)
Definition calc_lower_bca_percentile (nd : normal_dist) (alpha_percent : R) (bias_correction : xnum) (acceleration : R) : xnum :=
  bca_percentile nd bias_correction acceleration (norm_ppf nd (alpha_percent / (100 * 2))).

(** bootstrap_calcs.py:210-254 *)
Definition calc_upper_bca_percentile (nd : normal_dist) (alpha_percent : R) (bias_correction : xnum) (acceleration : R) : xnum :=
  bca_percentile nd bias_correction acceleration (norm_ppf nd (1 - alpha_percent / (100 * 2))).

(** bootstrap_calcs.py:257-326.  np.percentile with a vector of percentages gives the
    matrix of all (percentage, column) pairs, of which np.diag keeps the pairs with
    equal index; one invalid percentage makes the whole call fail, as here. *)
Definition calc_bca_interval (nd : normal_dist) (reps jack : samples_arg) (mle : nat -> R) (conf : conf_arg) : Res intervals :=
  do conf_percentage <- check_conf_percentage_validity conf;
  do s <- ensure_samples_is_2dim reps;
  do t <- ensure_samples_is_2dim jack;
  let '(rows, cols, a) := s in
  let '(jrows, jcols, ja) := t in
  let alpha_percent := get_alpha_from_conf_percentage conf_percentage in
  let bias_correction := fun j => calc_bias_correction_bca nd (column rows a j) (mle j) in
  let acceleration := fun j => calc_acceleration_bca (column jrows ja j) in
  let lower_percents := fun j => calc_lower_bca_percentile nd alpha_percent (bias_correction j) (acceleration j) in
  let upper_percents := fun j => calc_upper_bca_percentile nd alpha_percent (bias_correction j) (acceleration j) in
  do lower_endpoints <- collect (map (fun j => np_percentile_res Lower (lower_percents j) (column rows a j)) (seq 0 cols));
  do upper_endpoints <- collect (map (fun j => np_percentile_res Higher (upper_percents j) (column rows a j)) (seq 0 cols));
  Ok (combine lower_endpoints upper_endpoints).
