(** The derivatives of the transformed utilities in double precision, row by row, with their
    guards (src/pylogit/clog_log.py:211-285, scobit.py:216-374, uneven_logit.py:241-374,
    asym_logit.py:184-225, 350-541), and the columns of the gradient they make up
    (choice_calcs.py:403-448). *)
From Coq Require Import ZArith Reals List Bool Arith.
From Flocq Require Import Core.
From Verif Require Import Res Vec Arr ChoiceCalcs NestedCalcs Transforms LogitFacts Floats FloatTransforms FloatUtilities FloatLogit FloatGradient.
Import ListNotations.
Open Scope R_scope.

Definition is_posinf (x : fl) : bool := match x with FInf false => true | _ => false end.
(** x == 0 *)
Definition is_zero (x : fl) : bool := match x with FNum r => if Req_EM_T r 0 then true else false | _ => false end.

(** clog_log.py:251-278 *)
Definition fcloglog_deriv (ex : R -> R) (V : fl) : fl :=
  let exp_neg_v := on_posinf fbig (fexp ex (fmul (FNum (-1)) V)) in
  let exp_v := fexp ex V in
  let denom_part_1 := fsub (FNum 1) (fexp ex (fmul (FNum (-1)) exp_v)) in
  let exp_neg_v := if is_zero exp_neg_v then FNum fmin_comp_value else exp_neg_v in
  let derivs := fdiv (FNum 1) (fmul denom_part_1 exp_neg_v) in
  let derivs := if is_zero denom_part_1 then FNum 1 else derivs in
  on_posinf fbig derivs.

(** scobit.py:259-285 *)
Definition fscobit_deriv_v (ex : R -> R) (pw : R -> R -> R) (V shape : fl) : fl :=
  let s := fnatural_shape ex shape in
  let exp_neg_v := fexp ex (fmul (FNum (-1)) V) in
  let powered_term := fpow pw (fadd (FNum 1) exp_neg_v) s in
  let small_powered_term := fpow pw (fadd (FNum 1) exp_neg_v) (fsub s (FNum 1)) in
  let derivs := fdiv (fmul (fmul s exp_neg_v) small_powered_term) (fsub powered_term (FNum 1)) in
  let derivs := if is_posinf derivs || is_posinf exp_neg_v || is_posinf powered_term || is_posinf small_powered_term then s else derivs in
  if is_zero exp_neg_v || is_zero (fsub powered_term (FNum 1)) then FNum 1 else derivs.

(** scobit.py:340-369 *)
Definition fscobit_deriv_shape (ex l1 : R -> R) (pw : R -> R -> R) (V shape : fl) : fl :=
  let s := fnatural_shape ex shape in
  let exp_neg_v := fexp ex (fmul (FNum (-1)) V) in
  let powered_term := fpow pw (fadd (FNum 1) exp_neg_v) s in
  let minus_log := fmul (FNum (-1)) (fln1p l1 exp_neg_v) in
  let derivs := fmul (fdiv (fmul minus_log powered_term) (fsub powered_term (FNum 1))) s in
  let derivs := if is_zero (fsub powered_term (FNum 1)) then FNum (-1) else derivs in
  let derivs := if is_posinf exp_neg_v then fbig else derivs in
  if (match V with FNum v => if Rle_dec (Rabs v) 10 then true else false | _ => false end) && is_posinf powered_term then minus_log else derivs.

(** uneven_logit.py:282-297 *)
Definition funeven_deriv_v (ex : R -> R) (V shape : fl) : fl :=
  let s := fnatural_shape ex shape in
  let exp_neg := fexp ex (fmul (FNum (-1)) V) in
  let exp_shape := fexp ex (fmul s V) in
  fadd (fdiv (FNum 1) (fadd (FNum 1) exp_neg)) (fdiv s (fadd (FNum 1) exp_shape)).

(** uneven_logit.py:348-373 *)
Definition funeven_deriv_shape (ex : R -> R) (V shape : fl) : fl :=
  let s := fnatural_shape ex shape in
  let exp_shape := fexp ex (fmul s V) in
  let derivs := fdiv V (fadd (FNum 1) exp_shape) in
  let derivs := match V with FInf false => FNum 0 | FInf true => fminus_big | _ => derivs end in
  fmul derivs s.

(** asym_logit.py:400-428; [c] is the natural shape of the row *)
Definition fasym_deriv_v (lg : R -> R) (J : nat) (c V : fl) : fl :=
  let log_c := on_neginf fminus_big (fln lg c) in
  let log_1_c := on_neginf fminus_big (fln lg (fdiv (fsub (FNum 1) c) (FNum (INR J - 1)))) in
  fmul (FNum (-1)) (fadd (fmul (fis_ge0 V) log_c) (fmul (fis_lt0 V) log_1_c)).

(** asym_logit.py:506-528 *)
Definition fasym_dh_dc (c V : fl) : fl :=
  let d_lnShape := on_posinf fbig (fdiv (FNum 1) c) in
  let d_lnShapeComp := on_neginf fminus_big (fdiv (FNum (-1)) (fsub (FNum 1) c)) in
  let deriv_multiplier := fadd (fmul (fis_ge0 V) d_lnShape) (fmul (fis_lt0 V) d_lnShapeComp) in
  on_inf fminus_big (fsub d_lnShape (fmul V deriv_multiplier)).

(** asym_logit.py:216-223: entry of np.diag(c) - np.outer(c, c); [c] and [c'] are the natural
    shapes of the row and of the column, [same] says whether they are the same alternative *)
Definition fdc_deta (c c' : fl) (same : bool) : fl := fsub (if same then c else FNum 0) (fmul c c').

(** The derivative of a row's transformed utility in its utility. *)
Definition frow_deriv_v (k : logit_kind) (ex lg : R -> R) (pw : R -> R -> R) (J : nat) (t : sum_order)
    (shape : option arr) (alt : nat) (V : fl) : fl :=
  let par := match shape with Some c => fun j => FNum (aget c j) | None => fun _ => FNum 0 end in
  match k with
  | Transforms.KMNL => FNum 1
  | Transforms.KClog _ => fcloglog_deriv ex V
  | Transforms.KScobit _ => fscobit_deriv_v ex pw V (par alt)
  | Transforms.KUneven _ => funeven_deriv_v ex V (par alt)
  | Transforms.KAsym sref _ => fasym_deriv_v lg J (fasym_shape ex par t (eta_position sref alt)) V
  end.

(** The derivative in shape parameter [q].  The sparse arrays of the scobit and the uneven
    model store the entry of the row's own alternative only; the asymmetric model multiplies
    the one stored entry of the row with the row's line of dc_d_eta. *)
Definition frow_deriv_shape (k : logit_kind) (ex l1 : R -> R) (pw : R -> R -> R) (t : sum_order)
    (shape : option arr) (alt : nat) (V : fl) (q : nat) : fl :=
  let par := match shape with Some c => fun j => FNum (aget c j) | None => fun _ => FNum 0 end in
  match k with
  | Transforms.KMNL | Transforms.KClog _ => FNum 0
  | Transforms.KScobit _ => if (q =? alt)%nat then fscobit_deriv_shape ex l1 pw V (par alt) else FNum 0
  | Transforms.KUneven _ => if (q =? alt)%nat then funeven_deriv_shape ex V (par alt) else FNum 0
  | Transforms.KAsym sref _ =>
      let c := fasym_shape ex par t (eta_position sref alt) in
      fmul (fasym_dh_dc c V) (fdc_deta c (fasym_shape ex par t (eta_position sref (skip sref q))) (alt =? skip sref q)%nat)
  end.

(** choice_calcs.py:403-448: the entry of row [i] in the column of parameter [j] of
    (dh_dc, dh_d_alpha, dh_db), where dh_db is the diagonal matrix dh_dv times the design. *)
Definition float_column (k : logit_kind) (ex lg l1 : R -> R) (pw : R -> R -> R) (t : sum_order)
    (D : Data) (alt : nat -> nat) (order : nat -> dot_order) (th : arr) (j i : nat) : fl :=
  let ns := num_shapes k (d_J D) in let ni := num_icpts k (d_J D) in
  let shape := sh k (d_J D) th in
  let V := float_utility (fun i j => FNum (d_X D i j)) (fun j => FNum (aget (be k (d_J D) (d_K D) th) j)) order i in
  if (j <? ns)%nat then frow_deriv_shape k ex l1 pw t shape (alt i) V j
  else if (j - ns <? ni)%nat then
    FNum (match kind_iref k with Some r => if (skip r (j - ns) =? alt i)%nat then 1 else 0 | None => 0 end)
  else fmul (frow_deriv_v k ex lg pw (d_J D) t shape (alt i) V) (FNum (d_X D i (j - ns - ni)%nat)).

(** choice_calcs.py:431-484: the gradient of the log-likelihood, entry [j]. *)
Definition float_gradient (k : logit_kind) (ex lg l1 : R -> R) (pw : R -> R -> R) (t : sum_order)
    (D : Data) (alt : nat -> nat) (order : nat -> dot_order) (th : arr) (p : nat -> fl) (dorder : dot_order) (j : nat) : fl :=
  float_gradient_entry (d_y D) (eff_weights (d_w D)) p (float_column k ex lg l1 pw t D alt order th j) dorder (d_ridge D) (FNum (aget th j)).
