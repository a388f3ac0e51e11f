(** From the columns of the long-format table to the numeric data that the
    calculations receive. *)
From Coq Require Import String ZArith List Reals Lra Lia Arith.
From Coquelicot Require Import Coquelicot.
From Verif Require Import Res Vec Arr SpecLogit ChoiceCalcs ChoiceFacts Transforms Ids Mappings MappingFacts.
Import ListNotations.
Open Scope R_scope.

(** A sparse 0/1 matrix as a real matrix ([csr_matrix.dot] on floats). *)
Definition smat_R (m : smat) : mat := fun i j => IZR (sget m i j).

(** choice_vector = self.choices (base_multinomial_cm_v2.py, [data[choice_col].values]). *)
Definition choice_vec (d : long_cols) : vec :=
  fun i => match choices d with Some c => IZR (nth i c 0%Z) | None => 0 end.

(** The arguments of the calculations: the mapping matrices of
    create_long_form_mappings, the choice column, a design matrix [X] with [K]
    columns, optional weights and ridge.  estimation.py:87-145. *)
Definition data_of (d : long_cols) (mp : mappings) (K : nat) (X : mat)
    (w : option vec) (ridge : option R) : Data :=
  mkData (length (obs_ids d)) (s_cols (rows_to_obs mp)) (s_cols (rows_to_alts mp))
    K X (smat_R (rows_to_obs mp)) (smat_R (rows_to_alts mp)) (choice_vec d) w ridge.

(** ** Specification of well-formed choice data *)

(** Every row's choice entry is 0 or 1 and every observation id has exactly one
    row marked 1. *)
Definition exactly_one_choice (d : long_cols) : Prop :=
  exists c, choices d = Some c /\
    (forall i, (i < length (obs_ids d))%nat -> nth i c 0%Z = 0%Z \/ nth i c 0%Z = 1%Z) /\
    (forall o, In o (obs_ids d) ->
       exists i, (i < length (obs_ids d))%nat /\ nth i (obs_ids d) 0%Z = o /\ nth i c 0%Z = 1%Z /\
         forall i', (i' < length (obs_ids d))%nat -> nth i' (obs_ids d) 0%Z = o ->
                    nth i' c 0%Z = 1%Z -> i' = i).

(** Rows of the same observation carry the same weight. *)
Definition same_weight_within_observation (d : long_cols) (w : option vec) : Prop :=
  forall i i', (i < length (obs_ids d))%nat -> (i' < length (obs_ids d))%nat ->
    nth i (obs_ids d) 0%Z = nth i' (obs_ids d) 0%Z -> eff_weights w i = eff_weights w i'.

(** ** Link with the position-based notions *)

Definition own_of (ids : list Z) (i : nat) : nat := index_of (nth i ids 0%Z) (first_seen ids).
Definition alt_of (ids : list Z) (i : nat) : nat := index_of (nth i ids 0%Z) (np_unique ids).

Lemma mappings_ok d spec mp :
  create_long_form_mappings d spec = Ok mp ->
  rows_to_obs mp = create_sparse_mapping (obs_ids d) (Some (first_seen (obs_ids d))) /\
  rows_to_alts mp = create_sparse_mapping (alt_ids d) (Some (np_unique (alt_ids d))) /\
  chosen_row_to_obs mp = match choices d with
                         | Some c => Some (multiply_rows (rows_to_obs mp) c)
                         | None => None
                         end.
Proof.
  unfold create_long_form_mappings. intros H. apply bind_ok in H. destruct H as (r & _ & H).
  inversion H; subst; clear H. cbn [rows_to_obs rows_to_alts chosen_row_to_obs].
  rewrite mapping_None_Some. auto.
Qed.

Lemma mapping_indicator ids u :
  NoDup u -> (forall x, In x ids -> In x u) ->
  indicator_of (length ids) (length u) (smat_R (create_sparse_mapping ids (Some u)))
    (fun i => index_of (nth i ids 0%Z) u).
Proof.
  intros Hn Hin i Hi.
  assert (Hx : In (nth i ids 0%Z) u) by (apply Hin, nth_In; exact Hi).
  split; [apply index_of_lt; exact Hx|]. intros j Hj.
  unfold smat_R. rewrite sget_mapping by exact Hn.
  destruct (Nat.ltb_spec i (length ids)); [|lia]. apply zmem_In in Hx. rewrite Hx.
  destruct (index_of (nth i ids 0%Z) u =? j)%nat; reflexivity.
Qed.

Lemma data_obs_indicator d spec mp K X w ridge :
  create_long_form_mappings d spec = Ok mp ->
  let D := data_of d mp K X w ridge in
  indicator_of (d_N D) (d_obs D) (d_M D) (own_of (obs_ids d)).
Proof.
  intros H. destruct (mappings_ok _ _ _ H) as (E & _). unfold data_of. cbn [d_N d_obs d_M].
  rewrite E. apply mapping_indicator; [apply first_seen_NoDup|].
  intros x Hx. apply first_seen_In. exact Hx.
Qed.

Lemma data_alt_indicator d spec mp K X w ridge :
  create_long_form_mappings d spec = Ok mp ->
  length (alt_ids d) = length (obs_ids d) ->
  let D := data_of d mp K X w ridge in
  indicator_of (d_N D) (d_J D) (d_A D) (alt_of (alt_ids d)).
Proof.
  intros H HL. destruct (mappings_ok _ _ _ H) as (_ & E & _). unfold data_of. cbn [d_N d_J d_A].
  rewrite E, <- HL. apply mapping_indicator; [apply np_unique_NoDup|].
  intros x Hx. apply np_unique_In. exact Hx.
Qed.

Lemma data_J d spec mp K X w ridge :
  create_long_form_mappings d spec = Ok mp ->
  d_J (data_of d mp K X w ridge) = length (np_unique (alt_ids d)).
Proof. intros H. destruct (mappings_ok _ _ _ H) as (_ & E & _). unfold data_of. cbn. rewrite E. reflexivity. Qed.

Lemma data_nobs d spec mp K X w ridge :
  create_long_form_mappings d spec = Ok mp ->
  d_obs (data_of d mp K X w ridge) = length (first_seen (obs_ids d)).
Proof. intros H. destruct (mappings_ok _ _ _ H) as (E & _). unfold data_of. cbn. rewrite E. reflexivity. Qed.

(** Two rows have the same owner exactly when they have the same id. *)
Lemma own_of_eq ids i i' :
  (i < length ids)%nat -> (i' < length ids)%nat ->
  (own_of ids i = own_of ids i' <-> nth i ids 0%Z = nth i' ids 0%Z).
Proof.
  intros Hi Hi'. unfold own_of. split; [|intros ->; reflexivity].
  apply index_of_inj; apply first_seen_In, nth_In; assumption.
Qed.

Lemma alt_of_eq ids i i' :
  (i < length ids)%nat -> (i' < length ids)%nat ->
  (alt_of ids i = alt_of ids i' <-> nth i ids 0%Z = nth i' ids 0%Z).
Proof.
  intros Hi Hi'. unfold alt_of. split; [|intros ->; reflexivity].
  apply index_of_inj; apply np_unique_In, nth_In; assumption.
Qed.

Lemma osum_id_sum ids i f :
  (i < length ids)%nat ->
  osum (length ids) (own_of ids) (own_of ids i) f = id_sum ids (nth i ids 0%Z) f.
Proof.
  intros Hi. unfold osum, id_sum. apply sumn_ext. intros r Hr.
  pose proof (own_of_eq ids r i Hr Hi) as E.
  destruct (Nat.eqb_spec (own_of ids r) (own_of ids i)); destruct (Z.eqb_spec (nth r ids 0%Z) (nth i ids 0%Z));
    tauto.
Qed.

(** Column j of rows_to_obs belongs to the j-th id in order of appearance. *)
Lemma osum_column ids j f :
  (j < length (first_seen ids))%nat ->
  osum (length ids) (own_of ids) j f = id_sum ids (nth j (first_seen ids) 0%Z) f.
Proof.
  intros Hj. unfold osum, id_sum. apply sumn_ext. intros r Hr. unfold own_of.
  assert (Hin : In (nth r ids 0%Z) (first_seen ids)) by (apply first_seen_In, nth_In; exact Hr).
  destruct (Nat.eqb_spec (index_of (nth r ids 0%Z) (first_seen ids)) j) as [E|E];
    destruct (Z.eqb_spec (nth r ids 0%Z) (nth j (first_seen ids) 0%Z)) as [E'|E']; try reflexivity.
  - exfalso. apply E'. rewrite <- E. symmetry. apply nth_index_of. exact Hin.
  - exfalso. apply E. rewrite E'. apply index_of_nth; [apply first_seen_NoDup|exact Hj].
Qed.

Lemma In_row ids o : In o ids -> exists i, (i < length ids)%nat /\ nth i ids 0%Z = o.
Proof. intros H. apply (In_nth _ _ 0%Z) in H. destruct H as (i & Hi & E). eauto. Qed.

(** Sum over a single marked row. *)
Lemma id_sum_single ids o f i :
  (i < length ids)%nat -> nth i ids 0%Z = o ->
  (forall i', (i' < length ids)%nat -> nth i' ids 0%Z = o -> i' <> i -> f i' = 0) ->
  id_sum ids o f = f i.
Proof.
  intros Hi E H. unfold id_sum.
  rewrite <- (sumn_single (length ids) i f Hi). apply sumn_ext. intros r Hr.
  destruct (Nat.eqb_spec r i) as [->|Hne].
  - rewrite E, Z.eqb_refl. reflexivity.
  - destruct (Z.eqb_spec (nth r ids 0%Z) o); [apply H; assumption|reflexivity].
Qed.

Lemma one_choice_of d :
  exactly_one_choice d -> one_choice (length (obs_ids d)) (own_of (obs_ids d)) (choice_vec d).
Proof.
  intros (c & Ec & H01 & Hex). unfold choice_vec. rewrite Ec. split.
  - intros i Hi. destruct (H01 i Hi) as [->| ->]; auto.
  - intros i Hi. rewrite osum_id_sum by exact Hi.
    destruct (Hex (nth i (obs_ids d) 0%Z)) as (r & Hr & Er & Cr & Hu); [apply nth_In; exact Hi|].
    rewrite (id_sum_single _ _ _ r Hr Er).
    + rewrite Cr. reflexivity.
    + intros i' Hi' E' Hne. destruct (H01 i' Hi') as [->|C1]; [reflexivity|].
      exfalso. apply Hne. apply Hu; assumption.
Qed.

Lemma weights_of d w :
  same_weight_within_observation d w ->
  weights_per_observation (length (obs_ids d)) (own_of (obs_ids d)) (eff_weights w).
Proof. intros H i i' Hi Hi' E. apply H; auto. apply (own_of_eq (obs_ids d)); assumption. Qed.
