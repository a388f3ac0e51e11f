(** Probabilities and log-likelihood in terms of the id columns. *)
From Coq Require Import String ZArith List Reals Lra Lia Arith Permutation.
From Coquelicot Require Import Coquelicot.
From Verif Require Import Res Vec Arr SpecLogit ChoiceCalcs ChoiceFacts Transforms Ids Mappings
  MappingFacts LongData LogitFacts.
Import ListNotations.
Open Scope R_scope.

Lemma id_sum_ext ids o f g :
  (forall i, (i < length ids)%nat -> nth i ids 0%Z = o -> f i = g i) -> id_sum ids o f = id_sum ids o g.
Proof.
  intros H. apply sumn_ext. intros i Hi. destruct (Z.eqb_spec (nth i ids 0%Z) o); auto.
Qed.

Lemma id_sum_scal_l ids o c f : id_sum ids o (fun i => c * f i) = c * id_sum ids o f.
Proof.
  unfold id_sum. rewrite <- sumn_scal_l. apply sumn_ext. intros i _.
  destruct (nth i ids 0%Z =? o)%Z; lra.
Qed.

Lemma id_sum_pos ids o f :
  In o ids -> (forall i, (i < length ids)%nat -> nth i ids 0%Z = o -> 0 < f i) -> 0 < id_sum ids o f.
Proof.
  intros Ho H. destruct (In_row _ _ Ho) as (i & Hi & E). subst o.
  rewrite <- osum_id_sum by exact Hi. apply osum_pos; [|exact Hi].
  intros k Hk Ek. apply H; [exact Hk|]. apply (own_of_eq ids k i Hk Hi). exact Ek.
Qed.

(** Sum over all rows = sum over the distinct ids. *)
Lemma sumn_by_ids ids f :
  sumn (length ids) f = suml (seq 0 (length (first_seen ids))) (fun j => id_sum ids (nth j (first_seen ids) 0%Z) f).
Proof.
  rewrite suml_seq.
  rewrite (sumn_by_obs (length ids) (length (first_seen ids)) (own_of ids)).
  - apply sumn_ext. intros j Hj. apply osum_column. exact Hj.
  - intros i Hi. unfold own_of. apply index_of_lt. apply first_seen_In, nth_In. exact Hi.
Qed.

Section Data.
  Context (m : LModel) (d : long_cols) (spec : option nest_spec) (mp : mappings)
          (K : nat) (X : mat) (w : option vec) (ridge : option R).
  Hypothesis Hmp : create_long_form_mappings d spec = Ok mp.
  Let D := data_of d mp K X w ridge.
  Context (shape icpt : option arr) (beta : arr).

  Let Hown := data_obs_indicator d spec mp K X w ridge Hmp.

  Lemma probs_closed i :
    (i < length (obs_ids d))%nat ->
    long_probs m D shape icpt beta i =
    long_exponentials m D shape icpt beta i /
    id_sum (obs_ids d) (nth i (obs_ids d) 0%Z) (long_exponentials m D shape icpt beta).
  Proof.
    intros Hi. rewrite (long_probs_eq m D _ Hown) by exact Hi.
    change (d_N D) with (length (obs_ids d)). rewrite osum_id_sum by exact Hi. reflexivity.
  Qed.

  Lemma probs_sum o :
    In o (obs_ids d) -> id_sum (obs_ids d) o (long_probs m D shape icpt beta) = 1.
  Proof.
    intros Ho. destruct (In_row _ _ Ho) as (i & Hi & E). rewrite <- E.
    rewrite <- osum_id_sum by exact Hi. change (length (obs_ids d)) with (d_N D).
    apply (long_probs_sum m D _ Hown). exact Hi.
  Qed.

  Lemma chosen_closed C j :
    chosen_row_to_obs mp = Some C -> (j < length (first_seen (obs_ids d)))%nat ->
    chosen_probs m D (smat_R C) shape icpt beta j =
    id_sum (obs_ids d) (nth j (first_seen (obs_ids d)) 0%Z)
      (fun i => choice_vec d i * long_probs m D shape icpt beta i).
  Proof.
    intros HC Hj. rewrite <- osum_column by exact Hj. change (length (obs_ids d)) with (d_N D).
    apply (chosen_probs_eq m D _ Hown).
    - unfold D. rewrite (data_nobs d spec) by exact Hmp. exact Hj.
    - intros i Hi. unfold smat_R, D, data_of; cbn [d_M d_y]. unfold smat_R.
      destruct (mappings_ok _ _ _ Hmp) as (_ & _ & E). rewrite HC in E. unfold choice_vec.
      destruct (choices d) as [c|]; [|discriminate]. inversion E; subst.
      rewrite sget_multiply. apply mult_IZR.
  Qed.
End Data.
