(** The transformed utilities of all five logit-type models in double precision, from the
    design, the coefficients, the shape parameters and the intercepts of a row
    (src/pylogit/choice_calcs.py:133-140 and the transformations it calls). *)
From Coq Require Import ZArith Reals List.
From Flocq Require Import Core.
From Verif Require Import Res Vec Arr ChoiceCalcs Transforms Floats FloatTransforms FloatUtilities.
Import ListNotations.
Open Scope R_scope.

(** The intercept added to a row of alternative [alt]; clog_log.py:180-202, scobit.py:156-181,
    uneven_logit.py:210-232, asym_logit.py:315-337.  The product with rows_to_alts copies one
    value. *)
Definition frow_intercept (iref : option nat) (icpt : option arr) (alt : nat) : option fl :=
  match icpt, iref with
  | Some a, Some r => Some (FNum (fill_others r (aget a) 0 alt))
  | _, _ => None
  end.

(** The position of alternative [alt] among the transformed shapes of an asymmetric logit
    with reference [sref]; asym_logit.py:152-181. *)
Definition eta_position (sref alt : nat) : option nat :=
  if (alt =? sref)%nat then None else Some (if (alt <? sref)%nat then alt else (alt - 1)%nat).

(** The transformed utility of a row of alternative [alt] whose utility was computed as [V];
    [t] is the order in which np.sum adds exp(eta) in an asymmetric logit. *)
Definition frow_transform (k : logit_kind) (ex lg l1 : R -> R) (pw : R -> R -> R) (J : nat) (t : sum_order)
    (shape icpt : option arr) (alt : nat) (V : fl) : fl :=
  let par := match shape with Some c => fun j => FNum (aget c j) | None => fun _ => FNum 0 end in
  match k with
  | Transforms.KMNL => ftransform KMnl ex lg l1 pw J V (FNum 0) None
  | Transforms.KClog iref => ftransform KClog ex lg l1 pw J V (FNum 0) (frow_intercept iref icpt alt)
  | Transforms.KScobit iref => ftransform KScobit ex lg l1 pw J V (par alt) (frow_intercept iref icpt alt)
  | Transforms.KUneven iref => ftransform KUneven ex lg l1 pw J V (par alt) (frow_intercept iref icpt alt)
  | Transforms.KAsym sref iref =>
      ftransform KAsym ex lg l1 pw J V (fasym_shape ex par t (eta_position sref alt)) (frow_intercept iref icpt alt)
  end.

(** All rows of a data set; [alt k] is the alternative of row [k]. *)
Definition float_transformed (k : logit_kind) (ex lg l1 : R -> R) (pw : R -> R -> R) (t : sum_order)
    (D : Data) (alt : nat -> nat) (order : nat -> dot_order) (shape icpt : option arr) (beta : arr) (i : nat) : fl :=
  frow_transform k ex lg l1 pw (d_J D) t shape icpt (alt i)
    (float_utility (fun i j => FNum (d_X D i j)) (fun j => FNum (aget beta j)) order i).
