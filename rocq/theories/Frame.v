(** Tables (pandas DataFrames) as far as the modelled code reads them: integer
    columns (identifiers, choices, availabilities) and numeric columns.  Missing
    values are in RawData.v; strings as cell contents and the row index are not modelled. *)
From Coq Require Import String ZArith List Reals.
From Verif Require Import Res.
Import ListNotations.
Local Open Scope string_scope.

Record frame := mkFrame {
  f_rows : nat;
  f_ints : list (string * list Z);
  f_reals : list (string * list R)
}.

Fixpoint assoc {A} (k : string) (l : list (string * A)) : option A :=
  match l with
  | [] => None
  | (k', a) :: r => if String.eqb k k' then Some a else assoc k r
  end.

(** [c in df.columns] *)
Definition has_col (f : frame) (c : string) : bool :=
  match assoc c (f_ints f), assoc c (f_reals f) with None, None => false | _, _ => true end.

(** [df[c].values] for an integer column *)
Definition int_col (f : frame) (c : string) : Res (list Z) :=
  match assoc c (f_ints f) with Some l => Ok l | None => Err KeyError end.

(** [df[c].values] as numbers *)
Definition num_col (f : frame) (c : string) : Res (list R) :=
  match assoc c (f_reals f) with
  | Some l => Ok l
  | None => match assoc c (f_ints f) with Some l => Ok (map IZR l) | None => Err KeyError end
  end.

(** Every column has one cell per row. *)
Definition well_formed (f : frame) : Prop :=
  (forall c l, assoc c (f_ints f) = Some l -> length l = f_rows f) /\
  (forall c l, assoc c (f_reals f) = Some l -> length l = f_rows f).

(** A Python list comprehension whose body may raise. *)
Fixpoint mapM {A B} (f : A -> Res B) (l : list A) : Res (list B) :=
  match l with
  | [] => Ok []
  | a :: r => do b <- f a; do bs <- mapM f r; Ok (b :: bs)
  end.

Lemma mapM_ok {A B} (f : A -> Res B) l bs :
  mapM f l = Ok bs -> Forall2 (fun a b => f a = Ok b) l bs.
Proof.
  revert bs. induction l as [|a r IH]; simpl; intros bs H; [injection H as <-; constructor|].
  apply bind_ok in H. destruct H as (b & Hb & H). apply bind_ok in H. destruct H as (bs' & Hbs & H).
  injection H as <-. constructor; auto.
Qed.

Lemma mapM_total {A B} (f : A -> Res B) (g : A -> B) l :
  (forall a, In a l -> f a = Ok (g a)) -> mapM f l = Ok (map g l).
Proof.
  induction l as [|a r IH]; intros H; simpl; [reflexivity|].
  rewrite H by (left; reflexivity). simpl. rewrite IH by (intros; apply H; right; assumption). reflexivity.
Qed.

(** Checks run in sequence: the first failing one raises. *)
Fixpoint all_checks (l : list (Res unit)) : Res unit :=
  match l with
  | [] => Ok tt
  | c :: r => do _ <- c; all_checks r
  end.

Lemma all_checks_ok l : all_checks l = Ok tt <-> Forall (fun c => c = Ok tt) l.
Proof.
  induction l as [|c r IH]; simpl; [split; constructor|]. split.
  - intros H. apply bind_ok in H. destruct H as ([] & Hc & H). constructor; [exact Hc|apply IH; exact H].
  - intros H. inversion H; subst. apply IH. assumption.
Qed.
