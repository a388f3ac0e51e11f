(** Properties C17-C21: choice probabilities of the logit-type models.

    [m] ranges over every utility transform, in particular over the five
    [model_of k]; [shape], [icpt], [beta] over all parameters; [d] over all
    long-format tables; [X] over all design matrices. *)
From Coq Require Import String ZArith List Reals Lra Lia Arith Permutation.
From Coquelicot Require Import Coquelicot.
From Verif Require Import Res Vec Arr SpecLogit ChoiceCalcs ChoiceFacts Transforms Ids Mappings
  MappingFacts LongData LogitFacts ProbFacts PropMappings.
Import ListNotations.
Open Scope R_scope.

(** ** C17: the probabilities of an observation's rows sum to one. *)
Theorem C17_probabilities_sum_to_one m d spec mp K X w ridge shape icpt beta p o :
  create_long_form_mappings d spec = Ok mp ->
  calc_probabilities m (data_of d mp K X w ridge) shape icpt beta None true = Ok (LongProbs p) ->
  In o (obs_ids d) ->
  id_sum (obs_ids d) o p = 1.
Proof.
  intros Hmp Hp Ho. inversion Hp; subst.
  apply (probs_sum m d spec mp K X w ridge Hmp). exact Ho.
Qed.

(** ** C18: positive and at most one; below one when there is another row. *)
Theorem C18_probabilities_positive m d spec mp K X w ridge shape icpt beta p i :
  create_long_form_mappings d spec = Ok mp ->
  calc_probabilities m (data_of d mp K X w ridge) shape icpt beta None true = Ok (LongProbs p) ->
  (i < length (obs_ids d))%nat ->
  0 < p i <= 1.
Proof.
  intros Hmp Hp Hi. inversion Hp; subst. pose proof (data_obs_indicator d spec mp K X w ridge Hmp) as Ho.
  split; [apply (long_probs_pos m _ _ Ho)|apply (long_probs_le1 m _ _ Ho)]; exact Hi.
Qed.

Theorem C18_probabilities_below_one m d spec mp K X w ridge shape icpt beta p i i' :
  create_long_form_mappings d spec = Ok mp ->
  calc_probabilities m (data_of d mp K X w ridge) shape icpt beta None true = Ok (LongProbs p) ->
  (i < length (obs_ids d))%nat -> (i' < length (obs_ids d))%nat -> i <> i' ->
  nth i (obs_ids d) 0%Z = nth i' (obs_ids d) 0%Z ->
  p i < 1.
Proof.
  intros Hmp Hp Hi Hi' Hne E. inversion Hp; subst.
  pose proof (data_obs_indicator d spec mp K X w ridge Hmp) as Ho.
  apply (long_probs_lt1 m _ _ Ho shape icpt beta i i'); try assumption.
  apply (own_of_eq (obs_ids d)); assumption.
Qed.

(** ** C19: the probability reported for the n-th observation is the long-format
    probability of its chosen row. *)
Theorem C19_chosen_probs_are_long_probs m d spec mp K X w ridge shape icpt beta C pc pl j i :
  create_long_form_mappings d spec = Ok mp ->
  chosen_row_to_obs mp = Some C ->
  exactly_one_choice d ->
  calc_probabilities m (data_of d mp K X w ridge) shape icpt beta (Some (smat_R C)) true
    = Ok (BothProbs pc pl) ->
  (* row i is the chosen row of the j-th observation in order of appearance *)
  (j < length (first_seen (obs_ids d)))%nat -> (i < length (obs_ids d))%nat ->
  nth i (obs_ids d) 0%Z = nth j (first_seen (obs_ids d)) 0%Z -> choice_vec d i = 1 ->
  pc j = pl i.
Proof.
  intros Hmp HC Hone Hp Hj Hi E Hy. inversion Hp; subst.
  rewrite (chosen_closed m d spec mp K X w ridge Hmp) by assumption.
  destruct Hone as (c & Ec & H01 & Hex).
  assert (Hc : forall r, choice_vec d r = IZR (nth r c 0%Z)) by (intros r; unfold choice_vec; rewrite Ec; reflexivity).
  rewrite (id_sum_single _ _ _ i Hi E).
  - rewrite Hy. ring.
  - intros i' Hi' E' Hne. destruct (H01 i' Hi') as [Z0|Z1]; [rewrite Hc, Z0; ring|].
    exfalso. apply Hne.
    destruct (Hex (nth j (first_seen (obs_ids d)) 0%Z)) as (r & Hr & Er & Cr & Hu).
    { rewrite <- E. apply nth_In. exact Hi. }
    rewrite (Hu i' Hi' E' Z1). symmetry. apply Hu; try assumption.
    rewrite Hc in Hy. apply eq_IZR. exact Hy.
Qed.

(** Requesting only one of the two returns exactly that one (used by C16). *)
Theorem C16_logit_calc_probabilities_contract m D shape icpt beta C :
  calc_probabilities m D shape icpt beta None false = Err ValueError /\
  calc_probabilities m D shape icpt beta None true = Ok (LongProbs (long_probs m D shape icpt beta)) /\
  calc_probabilities m D shape icpt beta (Some C) false = Ok (ChosenProbs (chosen_probs m D C shape icpt beta)) /\
  calc_probabilities m D shape icpt beta (Some C) true =
    Ok (BothProbs (chosen_probs m D C shape icpt beta) (long_probs m D shape icpt beta)).
Proof. repeat split. Qed.

(** ** C20: only utility differences matter. *)

(** The transformed utility of each row, before clipping. *)
Definition utilities (m : LModel) (D : Data) (shape icpt : option arr) (beta : arr) : vec :=
  m_transform m (d_J D) (d_A D) (sys_utilities D beta) shape icpt.

Theorem C20_odds_depend_on_own_utilities m d spec mp K X w ridge shape icpt beta i i' :
  create_long_form_mappings d spec = Ok mp ->
  let D := data_of d mp K X w ridge in
  (i < length (obs_ids d))%nat -> (i' < length (obs_ids d))%nat ->
  nth i (obs_ids d) 0%Z = nth i' (obs_ids d) 0%Z ->
  unclipped (utilities m D shape icpt beta i) -> unclipped (utilities m D shape icpt beta i') ->
  long_probs m D shape icpt beta i / long_probs m D shape icpt beta i' =
  exp (utilities m D shape icpt beta i - utilities m D shape icpt beta i').
Proof.
  intros Hmp D Hi Hi' E Hu Hu'.
  unfold D. rewrite !(probs_closed m d spec mp K X w ridge Hmp) by assumption. fold D. rewrite E.
  set (S := id_sum _ _ _).
  assert (HS : 0 < S) by (apply id_sum_pos; [apply nth_In; exact Hi'|intros; apply exp_pos]).
  unfold long_exponentials. fold (utilities m D shape icpt beta).
  rewrite !clip_id by assumption.
  unfold Rminus. rewrite exp_plus, exp_Ropp. pose proof (exp_pos (utilities m D shape icpt beta i')).
  field. split; lra.
Qed.

(** Same odds in two different datasets (different competitors, different other
    rows) whenever the two rows have the same utilities: IIA. *)
Theorem C20_independence_of_irrelevant_alternatives
    m m' d d' spec spec' mp mp' K K' X X' w w' ridge ridge' sh sh' ic ic' b b' i k i' k' :
  create_long_form_mappings d spec = Ok mp ->
  create_long_form_mappings d' spec' = Ok mp' ->
  let D := data_of d mp K X w ridge in let D' := data_of d' mp' K' X' w' ridge' in
  (i < length (obs_ids d))%nat -> (k < length (obs_ids d))%nat ->
  (i' < length (obs_ids d'))%nat -> (k' < length (obs_ids d'))%nat ->
  nth i (obs_ids d) 0%Z = nth k (obs_ids d) 0%Z -> nth i' (obs_ids d') 0%Z = nth k' (obs_ids d') 0%Z ->
  utilities m D sh ic b i = utilities m' D' sh' ic' b' i' ->
  utilities m D sh ic b k = utilities m' D' sh' ic' b' k' ->
  unclipped (utilities m D sh ic b i) -> unclipped (utilities m D sh ic b k) ->
  long_probs m D sh ic b i / long_probs m D sh ic b k =
  long_probs m' D' sh' ic' b' i' / long_probs m' D' sh' ic' b' k'.
Proof.
  intros H H' D D' Hi Hk Hi' Hk' E E' Ui Uk Ci Ck.
  unfold D, D'. rewrite (C20_odds_depend_on_own_utilities m d spec) by assumption.
  rewrite (C20_odds_depend_on_own_utilities m' d' spec').
  - fold D D'. rewrite Ui, Uk. reflexivity.
  - exact H'.
  - exact Hi'.
  - exact Hk'.
  - exact E'.
  - fold D'. rewrite <- Ui. exact Ci.
  - fold D'. rewrite <- Uk. exact Ck.
Qed.

(** Adding to every design row of an observation one and the same vector (hence
    the same constant to all its MNL utilities) changes no probability. *)
Theorem C20_mnl_common_shift d spec mp K X X' s w ridge beta i :
  create_long_form_mappings d spec = Ok mp ->
  (forall r q, (r < length (obs_ids d))%nat -> (q < K)%nat ->
     X' r q = X r q + s (nth r (obs_ids d) 0%Z) q) ->
  let D := data_of d mp K X w ridge in let D' := data_of d mp K X' w ridge in
  (forall r, (r < length (obs_ids d))%nat -> unclipped (utilities MNL_model D None None beta r)) ->
  (forall r, (r < length (obs_ids d))%nat -> unclipped (utilities MNL_model D' None None beta r)) ->
  (i < length (obs_ids d))%nat ->
  long_probs MNL_model D' None None beta i = long_probs MNL_model D None None beta i.
Proof.
  intros Hmp HX D D' HC HC' Hi.
  unfold D, D'. rewrite !(probs_closed MNL_model d spec mp _ _ w ridge Hmp) by exact Hi. fold D D'.
  set (o := nth i (obs_ids d) 0%Z).
  set (c := sumn K (fun q => s o q * aget beta q)).
  assert (EX : forall r, (r < length (obs_ids d))%nat -> nth r (obs_ids d) 0%Z = o ->
     long_exponentials MNL_model D' None None beta r = exp c * long_exponentials MNL_model D None None beta r).
  { intros r Hr Er. unfold long_exponentials. fold (utilities MNL_model D None None beta).
    fold (utilities MNL_model D' None None beta). rewrite !clip_id by auto.
    rewrite <- exp_plus. f_equal. unfold utilities, c. simpl. unfold mnl_transform, sys_utilities, mvec.
    unfold D, D', data_of; cbn [d_K d_X]. rewrite <- sumn_plus. apply sumn_ext. intros q Hq.
    rewrite HX by assumption. rewrite Er. ring. }
  rewrite (id_sum_ext _ _ _ (fun r => exp c * long_exponentials MNL_model D None None beta r)).
  2: { intros r Hr Er. apply EX; assumption. }
  rewrite id_sum_scal_l. rewrite EX by (try exact Hi; reflexivity).
  assert (HS : 0 < id_sum (obs_ids d) o (long_exponentials MNL_model D None None beta)).
  { apply id_sum_pos; [apply nth_In; exact Hi|intros; apply exp_pos]. }
  pose proof (exp_pos c). field. split; lra.
Qed.

(** ** C21: row order and observation labels are irrelevant. *)

(** [d'] is [d] with its rows rearranged by [p] (row r of [d'] is row [p r] of
    [d]) and its observation ids renamed by [f]. *)
Definition rearranged (d d' : long_cols) (p : nat -> nat) (f : Z -> Z) : Prop :=
  let N := length (obs_ids d) in
  length (obs_ids d') = N /\ length (alt_ids d) = N /\ length (alt_ids d') = N /\
  perm_on N p /\
  (forall x y, In x (obs_ids d) -> In y (obs_ids d) -> f x = f y -> x = y) /\
  (forall r, (r < N)%nat ->
     nth r (obs_ids d') 0%Z = f (nth (p r) (obs_ids d) 0%Z) /\
     nth r (alt_ids d') 0%Z = nth (p r) (alt_ids d) 0%Z /\
     choice_vec d' r = choice_vec d (p r)).

(** The utility transforms of the five models treat rows independently: a row's
    utility depends on its own index value and its own row of rows_to_alts. *)
Lemma transform_rowwise k J A A' v v' s c i i' :
  v i = v' i' -> (forall j, (j < J)%nat -> A i j = A' i' j) ->
  m_transform (model_of k) J A v s c i = m_transform (model_of k) J A' v' s c i'.
Proof.
  intros Hv HA.
  assert (MV : forall f, mvec J A f i = mvec J A' f i').
  { intros f. unfold mvec. apply sumn_ext. intros j Hj. rewrite HA by exact Hj. reflexivity. }
  assert (LI : forall r, long_intercepts J A r c i = long_intercepts J A' r c i').
  { intros r. unfold long_intercepts. destruct c, r; try reflexivity. apply MV. }
  assert (LS : long_natural_shapes J A s i = long_natural_shapes J A' s i').
  { unfold long_natural_shapes. destruct s; [apply MV|reflexivity]. }
  destruct k; cbn [model_of m_transform MNL_model Clog_model Scobit_model Uneven_model Asym_model].
  - exact Hv.
  - unfold cloglog_transform. rewrite Hv, LI. reflexivity.
  - unfold scobit_transform. rewrite Hv, LI, LS. reflexivity.
  - unfold uneven_transform. rewrite Hv, LI, LS. reflexivity.
  - unfold asym_transform, asym_long_shapes. rewrite Hv, LI, MV. reflexivity.
Qed.

Lemma rearranged_alts d d' p f : rearranged d d' p f -> forall x, In x (alt_ids d) <-> In x (alt_ids d').
Proof.
  intros (L1 & L2 & L3 & Hp & _ & Hr) x. split; intros Hx.
  - apply (In_nth _ _ 0%Z) in Hx. destruct Hx as (i & Hi & E). rewrite L2 in Hi.
    (* p is onto *)
    assert (Hon : exists r, (r < length (obs_ids d))%nat /\ p r = i).
    { destruct Hp as [Hb Hinj].
      assert (Hnd : NoDup (map p (seq 0 (length (obs_ids d))))).
      { apply NoDup_map_inj_in; [|apply seq_NoDup]. intros a b Ha Hb' Eab.
        apply in_seq in Ha. apply in_seq in Hb'. apply Hinj; [lia|lia|exact Eab]. }
      assert (Hinc : incl (seq 0 (length (obs_ids d))) (map p (seq 0 (length (obs_ids d))))).
      { apply NoDup_length_incl; [exact Hnd|rewrite map_length; lia|].
        intros y Hy. apply in_map_iff in Hy. destruct Hy as (r & <- & Hr'). apply in_seq in Hr'.
        apply in_seq. specialize (Hb r). lia. }
      assert (Hin : In i (map p (seq 0 (length (obs_ids d))))) by (apply Hinc, in_seq; lia).
      apply in_map_iff in Hin. destruct Hin as (r & E1 & E2). apply in_seq in E2. exists r. split; [lia|exact E1]. }
    destruct Hon as (r & Hr0 & Er). destruct (Hr r Hr0) as (_ & Ea & _). rewrite <- E, <- Er, <- Ea.
    apply nth_In. lia.
  - apply (In_nth _ _ 0%Z) in Hx. destruct Hx as (i & Hi & E). rewrite L3 in Hi.
    destruct (Hr i Hi) as (_ & Ea & _). rewrite <- E, Ea. apply nth_In. rewrite L2. apply Hp. exact Hi.
Qed.

Lemma C21_exponentials k d d' spec spec' mp mp' p f K X X' w w' ridge ridge' sh ic beta r :
  create_long_form_mappings d spec = Ok mp ->
  create_long_form_mappings d' spec' = Ok mp' ->
  rearranged d d' p f ->
  (forall r q, (r < length (obs_ids d))%nat -> (q < K)%nat -> X' r q = X (p r) q) ->
  (r < length (obs_ids d))%nat ->
  long_exponentials (model_of k) (data_of d' mp' K X' w' ridge') sh ic beta r =
  long_exponentials (model_of k) (data_of d mp K X w ridge) sh ic beta (p r).
Proof.
  intros H H' Hre HX Hr. pose proof (rearranged_alts _ _ _ _ Hre) as Hal.
  destruct (C02_column_independent_of_row_order d d' spec spec' mp mp' H H' Hal) as [Ecol Ecells].
  destruct Hre as (L1 & L2 & L3 & Hp & _ & Hrow).
  unfold long_exponentials. f_equal. f_equal.
  unfold data_of; cbn [d_J d_A]. rewrite <- Ecol. apply transform_rowwise.
  - unfold sys_utilities, mvec; cbn [d_K d_X]. apply sumn_ext. intros q Hq. rewrite HX by assumption. reflexivity.
  - intros j Hj. unfold smat_R. f_equal. symmetry.
    destruct (Hrow r Hr) as (_ & Ea & _).
    apply Ecells; [rewrite L2; apply Hp; exact Hr|lia|exact Hj|auto].
Qed.

Theorem C21_row_order_and_labels k d d' spec spec' mp mp' p f K X X' w w' ridge ridge' sh ic beta r :
  create_long_form_mappings d spec = Ok mp ->
  create_long_form_mappings d' spec' = Ok mp' ->
  rearranged d d' p f ->
  (forall r q, (r < length (obs_ids d))%nat -> (q < K)%nat -> X' r q = X (p r) q) ->
  (r < length (obs_ids d))%nat ->
  long_probs (model_of k) (data_of d' mp' K X' w' ridge') sh ic beta r =
  long_probs (model_of k) (data_of d mp K X w ridge) sh ic beta (p r).
Proof.
  intros H H' Hre HX Hr.
  assert (EX := fun i => C21_exponentials k d d' spec spec' mp mp' p f K X X' w w' ridge ridge' sh ic beta i H H' Hre HX).
  destruct Hre as (L1 & L2 & L3 & Hp & Hf & Hrow).
  rewrite (probs_closed (model_of k) d spec mp K X w ridge H) by (apply Hp; exact Hr).
  rewrite (probs_closed (model_of k) d' spec' mp' K X' w' ridge' H') by (rewrite L1; exact Hr).
  rewrite EX by exact Hr. f_equal.
  unfold id_sum. rewrite L1.
  set (e := long_exponentials (model_of k) (data_of d mp K X w ridge) sh ic beta) in *.
  rewrite <- (sumn_perm (length (obs_ids d)) p
     (fun i => if (nth i (obs_ids d) 0 =? nth (p r) (obs_ids d) 0)%Z then e i else 0) Hp).
  apply sumn_ext. intros i Hi. rewrite EX by exact Hi.
  destruct (Hrow i Hi) as (Ei & _). destruct (Hrow r Hr) as (Er & _). rewrite Ei, Er.
  destruct (Z.eqb_spec (nth (p i) (obs_ids d) 0%Z) (nth (p r) (obs_ids d) 0%Z)) as [E|E].
  - rewrite E, Z.eqb_refl. reflexivity.
  - destruct (Z.eqb_spec (f (nth (p i) (obs_ids d) 0%Z)) (f (nth (p r) (obs_ids d) 0%Z))) as [E2|]; [|reflexivity].
    exfalso. apply E. apply Hf; [apply nth_In, Hp; exact Hi|apply nth_In, Hp; exact Hr|exact E2].
Qed.

Theorem C21_log_likelihood_unchanged k d d' spec spec' mp mp' p f K X X' w w' ridge theta :
  create_long_form_mappings d spec = Ok mp ->
  create_long_form_mappings d' spec' = Ok mp' ->
  rearranged d d' p f ->
  (forall r q, (r < length (obs_ids d))%nat -> (q < K)%nat -> X' r q = X (p r) q) ->
  (forall r, (r < length (obs_ids d))%nat -> eff_weights w' r = eff_weights w (p r)) ->
  est_log_likelihood k (data_of d' mp' K X' w' ridge) theta =
  est_log_likelihood k (data_of d mp K X w ridge) theta.
Proof.
  intros H H' Hre HX HW. pose proof (rearranged_alts _ _ _ _ Hre) as Hal.
  destruct (C02_column_independent_of_row_order d d' spec spec' mp mp' H H' Hal) as [Ecol _].
  assert (EP := fun sh ic b i => C21_row_order_and_labels k d d' spec spec' mp mp' p f K X X' w w' ridge ridge sh ic b i H H' Hre HX).
  destruct Hre as (L1 & L2 & L3 & Hp & Hf & Hrow).
  assert (F : forall d mp X w, est_log_likelihood k (data_of d mp K X w ridge) theta =
     let '(sh, ic, b) := split_param_vec k (s_cols (rows_to_alts mp)) K theta in
     vdot (length (obs_ids d)) (choice_vec d)
       (fun i => eff_weights w i * ln (long_probs (model_of k) (data_of d mp K X w ridge) sh ic b i))
     - match ridge with Some r => r * asumsq (all_params sh ic b) | None => 0 end).
  { intros. unfold est_log_likelihood. cbn [data_of d_J d_K].
    destruct (split_param_vec k (s_cols (rows_to_alts mp0)) K theta) as [[sh ic] b].
    unfold calc_log_likelihood. cbn [data_of d_ridge d_w d_y d_N]. destruct ridge; [reflexivity|lra]. }
  rewrite !F. rewrite <- Ecol.
  destruct (split_param_vec k (s_cols (rows_to_alts mp)) K theta) as [[sh ic] b].
  f_equal. unfold vdot. rewrite L1.
  rewrite <- (sumn_perm (length (obs_ids d)) p
      (fun i => choice_vec d i * (eff_weights w i * ln (long_probs (model_of k) (data_of d mp K X w ridge) sh ic b i))) Hp).
  apply sumn_ext. intros i Hi. rewrite EP, HW by exact Hi. destruct (Hrow i Hi) as (_ & _ & Ec).
  rewrite Ec. reflexivity.
Qed.

(** ** A concrete case *)
Definition ex_X : mat := fun i q => INR (i + q).

Example ex_probs : exists mp p,
  create_long_form_mappings ex_cols (Some ex_nests) = Ok mp /\
  calc_probabilities MNL_model (data_of ex_cols mp 2 ex_X None None) None None
    (mkArr 2 (fun _ => 1)) None true = Ok (LongProbs p) /\
  In 7%Z (obs_ids ex_cols) /\ unclipped (utilities MNL_model (data_of ex_cols mp 2 ex_X None None) None None (mkArr 2 (fun _ => 1)) 1%nat).
Proof.
  eexists. eexists. split; [reflexivity|]. split; [reflexivity|]. split; [simpl; auto|].
  unfold unclipped, utilities, min_exponent_val, max_exponent_val. simpl.
  unfold mnl_transform, sys_utilities, mvec. simpl. unfold ex_X. simpl. lra.
Qed.

Example ex_exactly_one : exactly_one_choice ex_cols.
Proof.
  exists [0; 1; 0; 1; 0]%Z. split; [reflexivity|]. split.
  - intros i Hi. simpl in Hi. do 5 (destruct i as [|i]; [simpl; auto|]). lia.
  - exact ex_one_choice.
Qed.

(** A rearrangement: first and last row exchanged, ids shifted by 100. *)
Definition ex_cols' : long_cols :=
  mkLong [103; 107; 107; 103; 107]%Z [10; 10; 20; 20; 30]%Z (Some [0; 1; 0; 1; 0]%Z) None.
Example ex_rearranged :
  rearranged ex_cols ex_cols' (fun r => match r with 0 => 4 | 4 => 0 | _ => r end)%nat (fun x => x + 100)%Z.
Proof.
  unfold rearranged. simpl. repeat split; try lia.
  - do 5 (destruct i as [|i]; [lia|]). lia.
  - intros i j Hi Hj E. do 5 (destruct i as [|i]; [do 5 (destruct j as [|j]; [lia|]); lia|]). lia.
  - do 5 (destruct r as [|r]; [reflexivity|]). lia.
  - do 5 (destruct r as [|r]; [reflexivity|]). lia.
  - do 5 (destruct r as [|r]; [reflexivity|]). lia.
Qed.

Print Assumptions C17_probabilities_sum_to_one.
Print Assumptions C18_probabilities_positive.
Print Assumptions C18_probabilities_below_one.
Print Assumptions C19_chosen_probs_are_long_probs.
Print Assumptions C20_odds_depend_on_own_utilities.
Print Assumptions C20_independence_of_irrelevant_alternatives.
Print Assumptions C20_mnl_common_shift.
Print Assumptions C21_row_order_and_labels.
Print Assumptions C21_log_likelihood_unchanged.
