(** Properties C39-C44, C65, C66: the nested logit model. *)
From Coq Require Import String ZArith List Reals Lra Lia Arith Bool.
From Coquelicot Require Import Coquelicot.
From Verif Require Import Res Vec Arr SpecLogit ChoiceCalcs ChoiceFacts Transforms Ids Mappings
  MappingFacts LongData LogitFacts RowDeriv HessFacts ProbFacts PropMappings PropProbs PropGradient
  PropHessian Frame ChoiceTools BaseModel PropBaseModel NestedCalcs NestedFacts.
Import ListNotations.
Open Scope R_scope.

(** ** Specification *)

(** The arguments of the nested calculations for the table [d]: as for the logit
    types, plus rows_to_nests.  nested_logit.py:238-306. *)
Definition ndata_of (d : long_cols) (mp : mappings) (rn : smat) (K : nat) (X : mat)
    (w : option vec) (ridge : option R) : NData :=
  mkNData (data_of d mp K X w ridge) (s_cols rn) (smat_R rn).

(** A table and a nest specification that the model's constructor accepts for a table
    with alternatives [all] -- this table's alternatives and, when the table is
    prediction data, possibly more (nest names are dictionary keys, hence distinct) --
    and the table's mapping matrices. *)
Definition nested_setup (d : long_cols) (t : nest_spec) (mp : mappings) (rn : smat) : Prop :=
  length (alt_ids d) = length (obs_ids d) /\ NoDup (map fst t) /\
  (exists all, incl (alt_ids d) all /\ check_nest_spec (raw_of t) (np_unique all) = Ok tt) /\
  create_long_form_mappings d (Some t) = Ok mp /\ rows_to_nests mp = Some rn.

(** The alternatives listed for nest [q]. *)
Definition nest_alts (t : nest_spec) (q : nat) : list Z := snd (nth q t (EmptyString, [])).

(** Row [i] belongs to observation [o] and to nest [q]. *)
Definition row_in (d : long_cols) (t : nest_spec) (o : Z) (q i : nat) : bool :=
  ((nth i (obs_ids d) 0%Z =? o)%Z && zmem (nth i (alt_ids d) 0%Z) (nest_alts t q))%bool.

(** Sum over the rows of observation [o] in nest [q]. *)
Definition nest_sum (d : long_cols) (t : nest_spec) (o : Z) (q : nat) (f : vec) : R :=
  sumn (length (obs_ids d)) (fun i => if row_in d t o q i then f i else 0).

(** No alternative of nest [q] is available to observation [o]. *)
Definition lacks_nest (d : long_cols) (t : nest_spec) (o : Z) (q : nat) : bool :=
  negb (existsb (row_in d t o q) (seq 0 (length (obs_ids d)))).

(** Position of the (first) nest that lists [a]. *)
Fixpoint nest_pos (t : nest_spec) (a : Z) : nat :=
  match t with
  | [] => 0
  | (_, l) :: r => if zmem a l then 0 else S (nest_pos r a)
  end.

Definition positive_nests (t : nest_spec) (nests : vec) : Prop :=
  forall q, (q < length t)%nat -> 0 < nests q.

Lemma nested_setup_own d t mp rn :
  length (alt_ids d) = length (obs_ids d) -> NoDup (map fst t) ->
  check_nest_spec (raw_of t) (np_unique (alt_ids d)) = Ok tt ->
  create_long_form_mappings d (Some t) = Ok mp -> rows_to_nests mp = Some rn -> nested_setup d t mp rn.
Proof. intros. repeat (split; [assumption|]). split; [|split; assumption]. exists (alt_ids d). split; [apply incl_refl|assumption]. Qed.

(** ** Link with the position-based lemmas *)
Definition nst_of (d : long_cols) (t : nest_spec) (i : nat) : nat := nest_pos t (nth i (alt_ids d) 0%Z).

Lemma nest_pos_ok t a q :
  (q < length t)%nat -> In a (nest_alts t q) ->
  (nest_pos t a < length t)%nat /\ In a (nest_alts t (nest_pos t a)).
Proof.
  revert q. induction t as [|[k l] r IH]; intros q Hq Ha; [simpl in Hq; lia|].
  unfold nest_alts in *. simpl. destruct (zmem a l) eqn:Z.
  - split; [lia|]. apply zmem_In. exact Z.
  - destruct q as [|q]; simpl in Ha.
    + apply zmem_In in Ha. congruence.
    + destruct (IH q) as (H1 & H2); [simpl in Hq; lia|exact Ha|]. split; [lia|exact H2].
Qed.

Section Setup.
  Context (d : long_cols) (t : nest_spec) (mp : mappings) (rn : smat).
  Hypothesis HS : nested_setup d t mp rn.

  Lemma setup_nests :
    s_cols rn = length t /\
    forall i, (i < length (obs_ids d))%nat ->
      (nst_of d t i < length t)%nat /\
      (forall q, (q < length t)%nat ->
         (zmem (nth i (alt_ids d) 0%Z) (nest_alts t q) = (nst_of d t i =? q)%nat) /\
         sget rn i q = if (nst_of d t i =? q)%nat then 1%Z else 0%Z).
  Proof.
    destruct HS as (HL & Hn & (all & Hincl & Hc) & Hmp & HR).
    apply C13_accepted_specifications_are_partitions in Hc as Hp. destruct Hp as (t' & Et & _ & _ & Hall' & _).
    assert (Hall : forall a, In a (alt_ids d) -> exists q, (q < length t')%nat /\ In a (nest_alts t' q) /\
      forall q', (q' < length t')%nat -> In a (nest_alts t' q') -> q' = q).
    { intros a Ha. apply Hall', Hincl, Ha. }
    assert (Ett : t = t').
    { clear - Et. revert t' Et. induction t as [|[k l] r IH]; intros [|[k' l'] r'] E; simpl in E; try discriminate; [reflexivity|].
      injection E as E1 E2 E3. subst k'. f_equal; [|apply IH; exact E3]. f_equal.
      clear - E2. revert l' E2. induction l as [|x l IH]; intros [|x' l'] E; simpl in E; try discriminate; [reflexivity|].
      injection E as E1 E2. subst. f_equal. auto. }
    subst t'.
    destruct (C04_rows_to_nests d t Hn Hall) as (mp' & m & E1 & E2 & _ & E4 & E5).
    pose proof (eq_trans (eq_sym Hmp) E1) as E1'. inversion E1'; subst mp'. rewrite HR in E2. inversion E2; subst m.
    split; [exact E4|]. intros i Hi. rewrite <- HL in Hi.
    set (a := nth i (alt_ids d) 0%Z).
    destruct (Hall a) as (q0 & Hq0 & Ha & Hu); [apply nth_In; exact Hi|].
    destruct (nest_pos_ok t a q0 Hq0 Ha) as (Hlt & Hin).
    unfold nst_of. fold a. split; [exact Hlt|]. intros q Hq.
    assert (Iff : In a (nest_alts t q) <-> nest_pos t a = q).
    { split; intros H; [|subst; exact Hin]. rewrite (Hu q Hq H). apply (Hu (nest_pos t a) Hlt Hin). }
    destruct (E5 i q Hi Hq) as (T1 & T0). fold a in T1, T0.
    destruct (Nat.eqb_spec (nest_pos t a) q) as [E|E].
    - split; [apply zmem_In, Iff; exact E|apply T1, Iff; exact E].
    - split.
      + destruct (zmem a (nest_alts t q)) eqn:Z; [|reflexivity]. exfalso. apply E, Iff, zmem_In. exact Z.
      + apply T0. intros H. apply E, Iff. exact H.
  Qed.

  Context (K : nat) (X : mat) (w : option vec) (ridge : option R).
  Let E := ndata_of d mp rn K X w ridge.
  Let own := own_of (obs_ids d).
  Let nst := nst_of d t.

  Lemma su_own : indicator_of (d_N (n_D E)) (d_obs (n_D E)) (d_M (n_D E)) own.
  Proof. destruct HS as (_ & _ & _ & Hmp & _). apply (data_obs_indicator d (Some t) mp K X w ridge Hmp). Qed.

  Lemma su_Q : n_Q E = length t.
  Proof. apply setup_nests. Qed.

  Lemma su_nst : indicator_of (d_N (n_D E)) (n_Q E) (n_R E) nst.
  Proof.
    intros i Hi. destruct setup_nests as (Eq & H). rewrite su_Q.
    destruct (H i Hi) as (H1 & H2). split; [exact H1|]. intros q Hq. destruct (H2 q Hq) as (_ & H3).
    change (n_R E i q) with (IZR (sget rn i q)). rewrite H3. destruct (nst_of d t i =? q)%nat eqn:B;
      unfold nst; rewrite B; reflexivity.
  Qed.

  Lemma su_nobs : d_obs (n_D E) = length (first_seen (obs_ids d)).
  Proof. destruct HS as (_ & _ & _ & Hmp & _). apply (data_nobs d (Some t) mp K X w ridge Hmp). Qed.

  Lemma su_row o : (o < d_obs (n_D E))%nat -> exists i, (i < d_N (n_D E))%nat /\ own i = o.
  Proof.
    rewrite su_nobs. intros Ho.
    assert (Hin : In (nth o (first_seen (obs_ids d)) 0%Z) (obs_ids d)) by (apply first_seen_In, nth_In; exact Ho).
    destruct (In_row _ _ Hin) as (i & Hi & Ei). exists i. split; [exact Hi|].
    unfold own, own_of. rewrite Ei. apply index_of_nth; [apply first_seen_NoDup|exact Ho].
  Qed.

  Lemma su_row_in i q j :
    (i < length (obs_ids d))%nat -> (q < length t)%nat -> (j < length (first_seen (obs_ids d)))%nat ->
    row_in d t (nth j (first_seen (obs_ids d)) 0%Z) q i = ((own i =? j)%nat && (nst i =? q)%nat)%bool.
  Proof.
    intros Hi Hq Hj. destruct setup_nests as (_ & H). destruct (H i Hi) as (_ & H2).
    destruct (H2 q Hq) as (H3 & _). unfold row_in. rewrite H3. unfold nst. f_equal.
    assert (Hin : In (nth i (obs_ids d) 0%Z) (first_seen (obs_ids d))) by (apply first_seen_In, nth_In; exact Hi).
    unfold own, own_of.
    destruct (Nat.eqb_spec (index_of (nth i (obs_ids d) 0%Z) (first_seen (obs_ids d))) j) as [A|A].
    - apply Z.eqb_eq. rewrite <- A. symmetry. apply nth_index_of. exact Hin.
    - apply Z.eqb_neq. intros B. apply A. rewrite B. apply index_of_nth; [apply first_seen_NoDup|exact Hj].
  Qed.

  Lemma su_nsum q j f :
    (q < length t)%nat -> (j < length (first_seen (obs_ids d)))%nat ->
    nsum (d_N (n_D E)) own nst j q f = nest_sum d t (nth j (first_seen (obs_ids d)) 0%Z) q f.
  Proof.
    intros Hq Hj. unfold nsum, nest_sum. apply sumn_ext. intros i Hi.
    change (d_N (n_D E)) with (length (obs_ids d)) in Hi.
    rewrite su_row_in by assumption. reflexivity.
  Qed.

  Lemma su_lacks q j V nests :
    (q < length t)%nat -> (j < length (first_seen (obs_ids d)))%nat ->
    (lacks_nest d t (nth j (first_seen (obs_ids d)) 0%Z) q = true <->
     SS (d_N (n_D E)) own nst V nests j q = 0).
  Proof.
    intros Hq Hj. unfold lacks_nest. rewrite negb_true_iff. split.
    - intros H. apply nsum_empty. intros i Hi (A & B).
      assert (T : existsb (row_in d t (nth j (first_seen (obs_ids d)) 0%Z) q) (seq 0 (length (obs_ids d))) = true).
      { apply existsb_exists. exists i. change (d_N (n_D E)) with (length (obs_ids d)) in Hi.
        split; [apply in_seq; lia|]. rewrite su_row_in by assumption. rewrite A, B, !Nat.eqb_refl. reflexivity. }
      congruence.
    - intros H. apply not_true_is_false. intros T. apply existsb_exists in T. destruct T as (i & Hi & B).
      apply in_seq in Hi. rewrite su_row_in in B by (try assumption; lia).
      apply andb_true_iff in B. destruct B as (B1 & B2). apply Nat.eqb_eq in B1, B2.
      apply (nsum_zero_empty (d_N (n_D E)) own nst j q (es nst V nests)) with (i := i).
      + intros. apply es_pos.
      + exact H.
      + change (d_N (n_D E)) with (length (obs_ids d)). lia.
      + auto.
  Qed.

  Lemma su_own_nth i :
    (i < length (obs_ids d))%nat ->
    (own i < length (first_seen (obs_ids d)))%nat /\
    nth (own i) (first_seen (obs_ids d)) 0%Z = nth i (obs_ids d) 0%Z.
  Proof.
    intros Hi. assert (Hin : In (nth i (obs_ids d) 0%Z) (first_seen (obs_ids d))) by (apply first_seen_In, nth_In; exact Hi).
    split; [apply index_of_lt; exact Hin|apply nth_index_of; exact Hin].
  Qed.
End Setup.

(** ** C39: nested probabilities are positive and sum to one *)
Theorem C39_nested_probabilities d t mp rn K X w ridge nests beta p :
  nested_setup d t mp rn -> positive_nests t nests ->
  calc_nested_probs (ndata_of d mp rn K X w ridge) nests beta None RT_long = Ok (NProbs (LongProbs p)) ->
  (forall i, (i < length (obs_ids d))%nat -> 0 < p i <= 1) /\
  (forall o, In o (obs_ids d) -> id_sum (obs_ids d) o p = 1).
Proof.
  intros HS Hpos Hp. inversion Hp; subst; clear Hp.
  set (E := ndata_of d mp rn K X w ridge).
  pose proof (su_own d t mp rn HS K X w ridge) as Ho. pose proof (su_nst d t mp rn HS K X w ridge) as Hn.
  pose proof (su_Q d t mp rn HS K X w ridge) as EQ. fold E in Ho, Hn, EQ.
  assert (Hpos' : forall q, (q < n_Q E)%nat -> 0 < nests q) by (rewrite EQ; exact Hpos).
  pose proof (nst_lt E _ Hn) as Hlt.
  set (own := own_of (obs_ids d)) in *. set (nst := nst_of d t) in *.
  assert (Hsum : forall i, (i < length (obs_ids d))%nat -> osum (length (obs_ids d)) own (own i) (nested_long_probs E nests beta) = 1).
  { intros i Hi. rewrite (osum_ext _ _ _ _ (pp (d_N (n_D E)) (n_Q E) own nst (sys_utilities (n_D E) beta) nests)).
    - apply (pp_sum (d_N (n_D E)) (n_Q E) own nst Hlt _ nests Hpos' i Hi).
    - intros k Hk _. apply (nlp_eq E own nst Ho Hn nests beta Hpos'). exact Hk. }
  assert (Hp : forall i, (i < length (obs_ids d))%nat -> 0 < nested_long_probs E nests beta i).
  { intros i Hi. rewrite (nlp_eq E own nst Ho Hn nests beta Hpos') by exact Hi.
    apply (pp_pos (d_N (n_D E)) (n_Q E) own nst Hlt _ nests Hpos' i Hi). }
  split.
  - intros i Hi. split; [apply Hp; exact Hi|]. rewrite <- (Hsum i Hi).
    apply osum_ge_term; [|exact Hi]. intros k Hk _. left. apply Hp. exact Hk.
  - intros o Hin. destruct (In_row _ _ Hin) as (i & Hi & <-). rewrite <- osum_id_sum by exact Hi. apply Hsum. exact Hi.
Qed.

(** ** C40: factorisation *)

(** The textbook nested logit: [nest_sum] of exp(V/lambda) gives the inclusive value;
    nests compete by exp(lambda * inclusive value), alternatives within a nest by
    exp(V/lambda). *)
Definition inclusive_value (d : long_cols) (t : nest_spec) (V nests : vec) (o : Z) (q : nat) : R :=
  ln (nest_sum d t o q (fun i => exp (V i / nests q))).

Definition nest_attraction d t V nests o q : R :=
  if lacks_nest d t o q then 0 else exp (nests q * inclusive_value d t V nests o q).

Theorem C40_textbook_factors d t mp rn K X w ridge nests beta dct :
  nested_setup d t mp rn -> positive_nests t nests ->
  let E := ndata_of d mp rn K X w ridge in
  calc_nested_probs E nests beta None RT_dict = Ok (NDict dct) ->
  let V := sys_utilities (n_D E) beta in
  forall i q j, (i < length (obs_ids d))%nat -> (q < length t)%nat ->
    In (nth i (alt_ids d) 0%Z) (nest_alts t q) ->
    (j < length (first_seen (obs_ids d)))%nat ->
    let o := nth j (first_seen (obs_ids d)) 0%Z in nth i (obs_ids d) 0%Z = o ->
    nd_given_nest dct i = exp (V i / nests q) / nest_sum d t o q (fun r => exp (V r / nests q)) /\
    nd_nest dct j q = nest_attraction d t V nests o q /
                      sumn (length t) (nest_attraction d t V nests o) /\
    nd_long dct i = nd_nest dct j q * nd_given_nest dct i.
Proof.
  intros HS Hpos E Hp V i q j Hi Hq Hiq Hj o Eo. inversion Hp; subst dct; clear Hp.
  cbn [nd_given_nest nd_nest nd_long].
  pose proof (su_own d t mp rn HS K X w ridge) as Ho. pose proof (su_nst d t mp rn HS K X w ridge) as Hn.
  pose proof (su_Q d t mp rn HS K X w ridge) as EQ. fold E in Ho, Hn, EQ.
  assert (Hpos' : forall q, (q < n_Q E)%nat -> 0 < nests q) by (rewrite EQ; exact Hpos).
  set (own := own_of (obs_ids d)) in *. set (nst := nst_of d t) in *.
  assert (Ej : own i = j).
  { unfold own, own_of. rewrite Eo. apply index_of_nth; [apply first_seen_NoDup|exact Hj]. }
  assert (Eq : nst i = q).
  { destruct (setup_nests d t mp rn HS) as (_ & H). destruct (H i Hi) as (_ & H2).
    destruct (H2 q Hq) as (H3 & _). apply zmem_In in Hiq. rewrite Hiq in H3. symmetry in H3.
    apply Nat.eqb_eq. exact H3. }
  assert (ESS : forall q', (q' < length t)%nat ->
     SS (d_N (n_D E)) own nst V nests j q' = nest_sum d t o q' (fun r => exp (V r / nests q'))).
  { intros q' Hq'. unfold SS, o. rewrite <- (su_nsum d t mp rn HS K X w ridge q' j) by assumption.
    apply nsum_ext. intros r _ _ Er. fold nst in Er. unfold es. rewrite Er. reflexivity. }
  assert (Eatt : forall q', (q' < length t)%nat ->
     np_power (SS (d_N (n_D E)) own nst V nests j q') (nests q') = nest_attraction d t V nests o q').
  { intros q' Hq'. pose proof (su_lacks d t mp rn HS K X w ridge q' j V nests Hq' Hj) as HL.
    fold E own nst in HL. fold o in HL. unfold nest_attraction. destruct (lacks_nest d t o q') eqn:B.
    - rewrite (proj1 HL eq_refl). apply np_power_0. apply Hpos. exact Hq'.
    - assert (SS (d_N (n_D E)) own nst V nests j q' <> 0) by (intros H; apply HL in H; congruence).
      unfold np_power. destruct (Req_EM_T _ 0); [contradiction|]. unfold Rpower, inclusive_value.
      rewrite ESS by exact Hq'. reflexivity. }
  assert (Hi' : (i < d_N (n_D E))%nat) by exact Hi.
  split; [|split].
  - rewrite (pgn_eq E own nst Ho Hn nests beta) by exact Hi'. unfold gg. rewrite Ej, Eq.
    fold V. rewrite ESS by exact Hq. unfold es. rewrite Eq. reflexivity.
  - rewrite <- Ej. rewrite (ncp_eq E own nst Ho Hn nests beta Hpos' i q Hi') by (rewrite EQ; exact Hq).
    fold V. pose proof (SS_pos (d_N (n_D E)) own nst V nests i Hi') as HSS. rewrite Eq in HSS.
    destruct (Req_EM_T _ 0); [lra|]. unfold PQ, DD. rewrite Ej, EQ.
    rewrite Eatt by exact Hq. f_equal. apply sumn_ext. intros q' Hq'. apply Eatt. exact Hq'.
  - rewrite (nlp_eq E own nst Ho Hn nests beta Hpos') by exact Hi'. unfold pp.
    rewrite (pgn_eq E own nst Ho Hn nests beta) by exact Hi'. f_equal.
    rewrite <- Ej. rewrite (ncp_eq E own nst Ho Hn nests beta Hpos' i q Hi') by (rewrite EQ; exact Hq).
    rewrite Eq. fold V. pose proof (SS_pos (d_N (n_D E)) own nst V nests i Hi') as HSS. rewrite Eq in HSS.
    destruct (Req_EM_T _ 0); [lra|]. reflexivity.
Qed.

(** Within-nest probabilities sum to one over the observation's rows in the nest;
    nest probabilities sum to one, up to the 1e-300 that the code assigns to each nest
    none of whose alternatives is available. *)
Theorem C40_sums d t mp rn K X w ridge nests beta dct :
  nested_setup d t mp rn -> positive_nests t nests ->
  calc_nested_probs (ndata_of d mp rn K X w ridge) nests beta None RT_dict = Ok (NDict dct) ->
  forall j, (j < length (first_seen (obs_ids d)))%nat ->
  let o := nth j (first_seen (obs_ids d)) 0%Z in
  (forall q, (q < length t)%nat -> lacks_nest d t o q = false -> nest_sum d t o q (nd_given_nest dct) = 1) /\
  (forall q, (q < length t)%nat -> nest_sum d t o q (nd_long dct) =
             if lacks_nest d t o q then 0 else nd_nest dct j q) /\
  sumn (length t) (fun q => nd_nest dct j q) =
    1 + sumn (length t) (fun q => if lacks_nest d t o q then / 10 ^ 300 else 0).
Proof.
  intros HS Hpos Hp j Hj o. inversion Hp; subst dct; clear Hp. cbn [nd_given_nest nd_nest nd_long].
  set (E := ndata_of d mp rn K X w ridge).
  pose proof (su_own d t mp rn HS K X w ridge) as Ho. pose proof (su_nst d t mp rn HS K X w ridge) as Hn.
  pose proof (su_Q d t mp rn HS K X w ridge) as EQ. fold E in Ho, Hn, EQ.
  assert (Hpos' : forall q, (q < n_Q E)%nat -> 0 < nests q) by (rewrite EQ; exact Hpos).
  destruct (su_row d t mp rn HS K X w ridge j) as (i & Hi & Ei).
  { rewrite su_nobs with (t := t) by assumption. exact Hj. }
  fold E in Hi.
  set (own := own_of (obs_ids d)) in *. set (nst := nst_of d t) in *.
  pose proof (nst_lt E _ Hn) as Hlt.
  set (V := sys_utilities (n_D E) beta).
  assert (Z : forall q, (q < length t)%nat ->
     (lacks_nest d t o q = true <-> SS (d_N (n_D E)) own nst V nests j q = 0)).
  { intros q Hq. exact (su_lacks d t mp rn HS K X w ridge q j V nests Hq Hj). }
  split; [|split].
  - intros q Hq HL. unfold o. rewrite <- (su_nsum d t mp rn HS K X w ridge q j) by assumption. fold E own nst.
    rewrite (nsum_ext _ own nst j q _ (gg (d_N (n_D E)) own nst V nests)).
    2: { intros r Hr _ _. apply (pgn_eq E own nst Ho Hn nests beta). exact Hr. }
    rewrite gg_sum. destruct (Req_EM_T _ 0) as [A|A]; [|reflexivity].
    apply (proj2 (Z q Hq)) in A. congruence.
  - intros q Hq. unfold o. rewrite <- (su_nsum d t mp rn HS K X w ridge q j) by assumption. fold E own nst.
    rewrite (nsum_ext _ own nst j q _ (pp (d_N (n_D E)) (n_Q E) own nst V nests)).
    2: { intros r Hr _ _. apply (nlp_eq E own nst Ho Hn nests beta Hpos'). exact Hr. }
    rewrite (pp_nsum (d_N (n_D E)) (n_Q E) own nst V nests Hpos') by (rewrite EQ; exact Hq).
    fold o. pose proof (ncp_eq E own nst Ho Hn nests beta Hpos' i q Hi) as NC.
    rewrite Ei in NC. rewrite NC by (rewrite EQ; exact Hq).
    destruct (lacks_nest d t o q) eqn:B.
    + apply (PQ_absent (d_N (n_D E)) (n_Q E) own nst V nests Hpos'); [rewrite EQ; exact Hq|]. apply (Z q Hq). exact B.
    + fold V. destruct (Req_EM_T _ 0) as [A|A]; [|reflexivity]. apply (proj2 (Z q Hq)) in A. congruence.
  - rewrite <- (PQ_sum (d_N (n_D E)) (n_Q E) own nst Hlt V nests Hpos' i Hi), Ei, <- EQ, <- sumn_plus.
    apply sumn_ext. intros q Hq. rewrite EQ in Hq.
    pose proof (ncp_eq E own nst Ho Hn nests beta Hpos' i q Hi) as NC.
    rewrite Ei in NC. rewrite NC by (rewrite EQ; exact Hq). fold V.
    destruct (Req_EM_T _ 0) as [A|A].
    + rewrite (proj2 (Z q Hq) A).
      rewrite (PQ_absent (d_N (n_D E)) (n_Q E) own nst V nests Hpos') by (try (rewrite EQ; exact Hq); exact A).
      unfold min_comp_value. ring.
    + destruct (lacks_nest d t o q) eqn:B; [|ring]. apply (proj1 (Z q Hq)) in B. contradiction.
Qed.

(** ** C41: with all nest coefficients 1 the model is the multinomial logit *)
Theorem C41_unit_nests_is_mnl d t mp rn K X w ridge nests beta p p' :
  nested_setup d t mp rn -> (forall q, (q < length t)%nat -> nests q = 1) ->
  let D := data_of d mp K X w ridge in
  (forall i, (i < length (obs_ids d))%nat -> -700 <= sys_utilities D beta i <= 700) ->
  calc_nested_probs (ndata_of d mp rn K X w ridge) nests beta None RT_long = Ok (NProbs (LongProbs p)) ->
  calc_probabilities (model_of KMNL) D None None beta None true = Ok (LongProbs p') ->
  forall i, (i < length (obs_ids d))%nat -> p i = p' i.
Proof.
  intros HS H1 D Hclip Hp Hp' i Hi. inversion Hp; subst p; clear Hp. inversion Hp'; subst p'; clear Hp'.
  set (E := ndata_of d mp rn K X w ridge).
  pose proof (su_own d t mp rn HS K X w ridge) as Ho. pose proof (su_nst d t mp rn HS K X w ridge) as Hn.
  pose proof (su_Q d t mp rn HS K X w ridge) as EQ. fold E in Ho, Hn, EQ.
  assert (Hpos' : forall q, (q < n_Q E)%nat -> 0 < nests q) by (intros q Hq; rewrite H1 by (rewrite <- EQ; exact Hq); lra).
  set (own := own_of (obs_ids d)) in *. set (nst := nst_of d t) in *.
  pose proof (nst_lt E _ Hn) as Hlt.
  assert (Hi' : (i < d_N (n_D E))%nat) by exact Hi.
  rewrite (nlp_eq E own nst Ho Hn nests beta Hpos') by exact Hi'.
  rewrite (pp_eq _ _ own nst Hlt _ nests Hpos') by exact Hi'.
  change (d_N (n_D E)) with (d_N D) in *. change (n_D E) with D in *.
  change MNL_model with (model_of KMNL).
  rewrite (long_probs_eq (model_of KMNL) D own Ho None None beta i Hi').
  set (V := sys_utilities D beta) in *.
  assert (Ees : forall r, (r < d_N D)%nat -> es nst V nests r = long_exponentials (model_of KMNL) D None None beta r).
  { intros r Hr. unfold es, long_exponentials. rewrite H1 by (rewrite <- EQ; apply Hlt; exact Hr).
    assert (Hu : unclipped (V r)) by (unfold unclipped, min_exponent_val, max_exponent_val; apply Hclip; exact Hr).
    change (m_transform (model_of KMNL) (d_J D) (d_A D) (sys_utilities D beta) None None r) with (V r).
    rewrite clip_id by exact Hu. f_equal. field. }
  rewrite Ees by exact Hi'. rewrite H1 by (rewrite <- EQ; apply Hlt; exact Hi').
  replace (1 - 1) with 0 by ring. rewrite Rpower_O by (apply SS_pos; exact Hi').
  rewrite Rmult_1_r. f_equal.
  unfold DD. rewrite (sumn_ext _ _ (fun q => nsum (d_N D) own nst (own i) q (es nst V nests))).
  - rewrite <- (osum_nsum (d_N D) own nst (n_Q E)) by exact Hlt. apply osum_ext. intros r Hr _. apply Ees. exact Hr.
  - intros q Hq. rewrite H1 by (rewrite <- EQ; exact Hq).
    fold (SS (d_N D) own nst V nests (own i) q).
    pose proof (SS_ge0 (d_N D) own nst V nests (own i) q) as HG.
    unfold np_power. destruct (Req_EM_T (SS (d_N D) own nst V nests (own i) q) 0) as [A|A].
    + rewrite A. destruct (Rlt_dec 0 1); [reflexivity|lra].
    + apply Rpower_1. lra.
Qed.

(** ** C42: the nest coefficients *)
Definition logit_of (x : R) : R := ln (x / (1 - x)).

Theorem C42_nest_coefs_in_unit_interval :
  (forall x q, 0 < naturalize_nest_coefs x q < 1) /\
  (forall x x' q q', x q < x' q' <-> naturalize_nest_coefs x q < naturalize_nest_coefs x' q') /\
  (forall x q, logit_of (naturalize_nest_coefs x q) = x q) /\
  (forall c q, 0 < c < 1 -> naturalize_nest_coefs (fun _ => logit_of c) q = c).
Proof.
  assert (Inv : forall x q, logit_of (naturalize_nest_coefs x q) = x q).
  { intros x q. rewrite nat_eq. unfold logit_of. pose proof (exp_pos (- x q)) as H.
    replace (1 / (1 + exp (- x q)) / (1 - 1 / (1 + exp (- x q)))) with (/ exp (- x q)) by (field; lra).
    rewrite ln_Rinv by exact H. rewrite ln_exp. ring. }
  assert (Mono : forall x x' q q', x q < x' q' -> naturalize_nest_coefs x q < naturalize_nest_coefs x' q').
  { intros x x' q q' H. rewrite !nat_eq. pose proof (exp_pos (- x q)). pose proof (exp_pos (- x' q')).
    unfold Rdiv. rewrite !Rmult_1_l. apply Rinv_lt_contravar; [nra|].
    assert (exp (- x' q') < exp (- x q)) by (apply exp_increasing; lra). lra. }
  split; [exact nat_bounds|]. split; [|split; [exact Inv|]].
  - intros x x' q q'. split; [apply Mono|]. intros H. destruct (Rtotal_order (x q) (x' q')) as [A|[A|A]]; [exact A| |].
    + exfalso. rewrite !nat_eq, A in H. lra.
    + apply (Mono x' x q' q) in A. lra.
  - intros c q Hc. rewrite nat_eq. unfold logit_of.
    assert (Hr : 0 < c / (1 - c)) by (apply Rdiv_lt_0_compat; lra).
    rewrite exp_Ropp, exp_ln by exact Hr. field. split; lra.
Qed.

(** ** C43: the gradient *)

Lemma aupd_same th j : aupd th j (aget th j) = th.
Proof.
  destruct th as [n g]. unfold aupd. cbn [alen aget]. f_equal.
  apply FunctionalExtensionality.functional_extensionality. intros i. apply upd_id.
Qed.

Definition nests_at (E : NData) (theta : arr) : vec := naturalize_nest_coefs (aget (fst (nested_split (n_Q E) theta))).
Definition beta_at (E : NData) (theta : arr) : arr := snd (nested_split (n_Q E) theta).

Definition ridge_of (D : Data) : R := match d_ridge D with None => 0 | Some r => r end.

Section Grad.
  Context (E : NData) (own nst : nat -> nat) (W : vec) (theta : arr).
  Notation D := (n_D E).
  Notation N := (d_N D).
  Notation Q := (n_Q E).
  Hypothesis Hown : indicator_of N (d_obs D) (d_M D) own.
  Hypothesis Hnest : indicator_of N Q (n_R E) nst.
  Hypothesis Hrow : forall o, (o < d_obs D)%nat -> exists i, (i < N)%nat /\ own i = o.
  Hypothesis H1 : forall i, (i < N)%nat -> osum N own (own i) (d_y D) = 1.
  Hypothesis HW : forall i, (i < N)%nat -> eff_weights (d_w D) i = W (own i).
  Hypothesis HWo : forall o, (o < d_obs D)%nat -> weights_per_obs D o = W o.
  Hypothesis Hlen : alen theta = (d_K D + Q)%nat.

  Let nests := nests_at E theta.
  Let beta := beta_at E theta.
  Let V := sys_utilities D beta.

  Lemma weighted_nest_sum q f :
    (q < Q)%nat ->
    sumn N (fun i => n_R E i q * (f i * eff_weights (d_w D) i)) =
    sumn (d_obs D) (fun o => W o * nsum N own nst o q f).
  Proof.
    intros Hq. rewrite (sumn_by_obs N (d_obs D) own) by (apply own_lt; exact Hown).
    apply sumn_ext. intros o Ho. unfold osum, nsum. rewrite <- sumn_scal_l. apply sumn_ext. intros i Hi.
    destruct (Nat.eqb_spec (own i) o) as [Eo|Eo]; [|simpl; ring].
    destruct (Hnest i Hi) as [_ Hr]. rewrite Hr by exact Hq. rewrite HW by exact Hi. rewrite Eo.
    destruct (nst i =? q)%nat; simpl; ring.
  Qed.

  Definition core_nest (q : nat) : R :=
    sumn (d_obs D) (fun o => W o * nest_score N Q own nst (fun _ => V) (fun _ => nests) 0 (d_y D) o q).
  Definition spurious_at (q : nat) : R :=
    sumn (d_obs D) (fun o => W o * absent E own nst nests beta o q).
  Definition core_beta (k : nat) : R :=
    sumn N (fun i => eff_weights (d_w D) i *
       (beta_weight N Q own nst (fun _ => V) (fun _ => nests) 0 (d_y D) i * d_X D i k)).

  Lemma nests_pos q : (q < Q)%nat -> 0 < nests q.
  Proof. intros _. apply nat_bounds. Qed.

  Lemma grad_alen : alen (nested_est_gradient E theta) = alen theta.
  Proof.
    unfold nested_est_gradient, calc_nested_gradient. cbn [nested_split].
    destruct (d_ridge D); cbn [alen]; lia.
  Qed.

  Lemma grad_nest q :
    (q < Q)%nat ->
    aget (nested_est_gradient E theta) q =
    (core_nest q + spurious_at q) * (nests q * (1 - nests q)) - 2 * ridge_of D * (20 - aget theta q).
  Proof.
    intros Hq. unfold nested_est_gradient. cbn [nested_split].
    change (aslice Q (alen theta - Q) theta) with beta.
    unfold calc_nested_gradient.
    change (naturalize_nest_coefs (aget (aslice 0 Q theta))) with nests.
    match goal with |- aget (match _ with None => mkArr _ ?g | Some r => _ end) _ = _ => set (G := g) end.
    assert (EG : G q = (core_nest q + spurious_at q) * (nests q * (1 - nests q))).
    { unfold G. rewrite vcat_l by exact Hq. f_equal.
      rewrite (weighted_nest_sum q (half_deriv E nests beta) Hq).
      rewrite (sumn_ext N (fun i => n_R E i q * (-1 * _ * _ * _ / _))
                 (fun i => n_R E i q * (term_3b E nests beta i * eff_weights (d_w D) i))).
      2: { intros i _. unfold term_3b, Rdiv. ring. }
      rewrite (weighted_nest_sum q (term_3b E nests beta) Hq).
      rewrite <- !sumn_plus. unfold core_nest, spurious_at. rewrite <- sumn_plus. apply sumn_ext. intros o Ho.
      rewrite <- Rmult_plus_distr_l. unfold V.
      rewrite <- (score_nest_eq E own nst Hown Hnest Hrow nests beta nests_pos o q Ho Hq).
      rewrite !(double_indicator E own nst Hown Hnest o q) by assumption.
      rewrite HWo by exact Ho. ring. }
    unfold ridge_of. destruct (d_ridge D) as [r|]; cbn [aget]; rewrite EG; [|ring].
    rewrite vcat_l by exact Hq. cbn [aslice aget]. rewrite Nat.add_0_l. ring.
  Qed.

  Lemma grad_beta k :
    (k < d_K D)%nat ->
    aget (nested_est_gradient E theta) (Q + k)%nat = core_beta k - 2 * ridge_of D * aget theta (Q + k)%nat.
  Proof.
    intros Hk. unfold nested_est_gradient. cbn [nested_split].
    change (aslice Q (alen theta - Q) theta) with beta.
    unfold calc_nested_gradient.
    change (naturalize_nest_coefs (aget (aslice 0 Q theta))) with nests.
    match goal with |- aget (match _ with None => mkArr _ ?g | Some r => _ end) _ = _ => set (G := g) end.
    assert (EG : G (Q + k)%nat = core_beta k).
    { unfold G. rewrite vcat_r. unfold core_beta. apply sumn_ext. intros i Hi.
      rewrite (bt1_eq E own nst Hown Hnest nests beta nests_pos) by exact Hi. fold V. ring. }
    unfold ridge_of. destruct (d_ridge D) as [r|]; cbn [aget]; rewrite EG; [|ring].
    rewrite vcat_r. reflexivity.
  Qed.

  (** the two components along the j-th coordinate *)
  Definition dV (j : nat) : vec := fun i => if (j <? Q)%nat then 0 else d_X D i (j - Q)%nat.
  Definition dL (j : nat) : vec := fun q => if (q =? j)%nat then nests q * (1 - nests q) else 0.

  Lemma path_V j i : (j < alen theta)%nat ->
    is_derive (fun s => sys_utilities D (beta_at E (aupd theta j s)) i) (aget theta j) (dV j i).
  Proof.
    intros Hj. unfold sys_utilities, mvec, beta_at. cbn [nested_split snd aslice aget aupd].
    unfold dV. destruct (Nat.ltb_spec j Q) as [Hlt|Hge].
    - apply is_derive_ext with (f := fun _ => sumn (d_K D) (fun k => d_X D i k * aget theta (Q + k)%nat)).
      + intros s. apply sumn_ext. intros k _. rewrite upd_other by lia. reflexivity.
      + apply (is_derive_const (K := R_AbsRing) (V := R_NormedModule)).
    - set (k0 := (j - Q)%nat). assert (Ej : j = (Q + k0)%nat) by (unfold k0; lia).
      apply is_derive_ext with
        (f := fun s => sumn (d_K D) (fun k => d_X D i k * upd (fun k => aget theta (Q + k)%nat) k0 s k)).
      + intros s. apply sumn_ext. intros k _. f_equal. unfold upd. rewrite Ej.
        destruct (Nat.eqb_spec k k0); destruct (Nat.eqb_spec (Q + k) (Q + k0)); try lia; reflexivity.
      + rewrite Ej. apply (is_derive_dot_upd (d_K D) (d_X D i) (fun k => aget theta (Q + k)%nat) k0). unfold k0. lia.
  Qed.

  Lemma path_L j q : is_derive (fun s => nests_at E (aupd theta j s) q) (aget theta j) (dL j q).
  Proof.
    unfold nests_at. cbn [nested_split fst aslice aget aupd].
    unfold dL, nests, nests_at. cbn [nested_split fst aslice aget].
    apply (nat_derive (fun i => aget theta i) j q).
  Qed.

  Lemma core_derive j :
    (j < alen theta)%nat ->
    is_derive (fun s => vdot N (d_y D) (fun i => eff_weights (d_w D) i *
                   ln (nested_long_probs E (nests_at E (aupd theta j s)) (beta_at E (aupd theta j s)) i)))
      (aget theta j)
      (if (j <? Q)%nat then core_nest j * (nests j * (1 - nests j)) else core_beta (j - Q)%nat).
  Proof.
    intros Hj.
    apply is_derive_ext with (f := fun s => sumn N (fun i => d_y D i * (eff_weights (d_w D) i *
        lp N Q own nst (sys_utilities D (beta_at E (aupd theta j s))) (nests_at E (aupd theta j s)) i))).
    { intros s. unfold vdot. apply sumn_ext. intros i Hi. f_equal. f_equal.
      assert (HP : forall q, (q < Q)%nat -> 0 < nests_at E (aupd theta j s) q) by (intros; apply nat_bounds).
      rewrite (nlp_eq E own nst Hown Hnest _ _ HP) by exact Hi. symmetry.
      apply (ln_pp N Q own nst (nst_lt E nst Hnest) _ _ HP). exact Hi. }
    evar_last.
    - apply (ll_path N Q own nst (nst_lt E nst Hnest)
               (fun s => sys_utilities D (beta_at E (aupd theta j s)))
               (fun s => nests_at E (aupd theta j s)) (dV j) (dL j) (aget theta j)) with (nobs := d_obs D) (W := W).
      + intros s q _. apply nat_bounds.
      + intros i _. apply path_V. exact Hj.
      + intros q _. apply path_L.
      + apply own_lt. exact Hown.
      + exact Hrow.
      + exact H1.
      + exact HW.
    - assert (F : nest_score N Q own nst (fun s => sys_utilities D (beta_at E (aupd theta j s)))
                    (fun s => nests_at E (aupd theta j s)) (aget theta j) (d_y D)
                  = nest_score N Q own nst (fun _ => V) (fun _ => nests) 0 (d_y D)).
      { unfold nest_score. rewrite aupd_same. reflexivity. }
      assert (F' : beta_weight N Q own nst (fun s => sys_utilities D (beta_at E (aupd theta j s)))
                    (fun s => nests_at E (aupd theta j s)) (aget theta j) (d_y D)
                  = beta_weight N Q own nst (fun _ => V) (fun _ => nests) 0 (d_y D)).
      { unfold beta_weight. rewrite aupd_same. reflexivity. }
      rewrite F, F'. destruct (Nat.ltb_spec j Q) as [Hlt|Hge].
      + rewrite (sumn_ext Q _ (fun q => if (q =? j)%nat then core_nest q * (nests q * (1 - nests q)) else 0)).
        2: { intros q _. unfold dL. destruct (q =? j)%nat; [unfold core_nest; ring|ring]. }
        rewrite (sumn_single Q j (fun q => core_nest q * (nests q * (1 - nests q))) Hlt).
        rewrite (sumn_eq0 N); [ring|]. intros i _. unfold dV.
        destruct (Nat.ltb_spec j Q); [ring|lia].
      + rewrite (sumn_eq0 Q).
        2: { intros q Hq. unfold dL. destruct (Nat.eqb_spec q j); [lia|ring]. }
        rewrite Rplus_0_l. unfold core_beta. apply sumn_ext. intros i _. unfold dV.
        destruct (Nat.ltb_spec j Q); [lia|reflexivity].
  Qed.

  Lemma ridge_derive j :
    (j < alen theta)%nat ->
    is_derive (fun s => asumsq (acat (mkArr Q (fun q => nests_at E (aupd theta j s) q - 1)) (beta_at E (aupd theta j s))))
      (aget theta j)
      (if (j <? Q)%nat then 2 * (nests j - 1) * (nests j * (1 - nests j)) else 2 * aget theta j).
  Proof.
    intros Hj.
    apply is_derive_ext with (f := fun s =>
       sumn Q (fun q => (nests_at E (aupd theta j s) q - 1) * (nests_at E (aupd theta j s) q - 1))
       + sumn (d_K D) (fun k => upd (aget theta) j s (Q + k)%nat * upd (aget theta) j s (Q + k)%nat)).
    { intros s. unfold asumsq, acat. cbn [alen aget]. unfold beta_at. cbn [nested_split snd aslice alen aget aupd].
      replace (alen theta - Q)%nat with (d_K D) by lia.
      symmetry. apply (sumn_vcat Q (d_K D) _ _ (fun x => x * x)). }
    evar_last.
    - apply (is_derive_plus
        (fun s => sumn Q (fun q => (nests_at E (aupd theta j s) q - 1) * (nests_at E (aupd theta j s) q - 1)))
        (fun s => sumn (d_K D) (fun k => upd (aget theta) j s (Q + k)%nat * upd (aget theta) j s (Q + k)%nat))).
      + apply (is_derive_sumn Q (fun q s => (nests_at E (aupd theta j s) q - 1) * (nests_at E (aupd theta j s) q - 1))
                 (fun q => 2 * (nests q - 1) * dL j q)).
        intros q _. evar_last.
        * apply (is_derive_mult (fun s => nests_at E (aupd theta j s) q - 1) (fun s => nests_at E (aupd theta j s) q - 1));
            [| |intros; apply Rmult_comm];
            (apply (is_derive_minus (fun s => nests_at E (aupd theta j s) q) (fun _ => 1));
             [apply path_L|apply (is_derive_const (K := R_AbsRing) (V := R_NormedModule))]).
        * rewrite aupd_same. fold nests. unfold minus, plus, opp, zero, mult; simpl. ring.
      + apply (is_derive_sumn (d_K D) (fun k s => upd (aget theta) j s (Q + k)%nat * upd (aget theta) j s (Q + k)%nat)
                 (fun k => 2 * aget theta (Q + k)%nat * (if (Q + k =? j)%nat then 1 else 0))).
        intros k _. evar_last.
        * apply (is_derive_mult (fun s => upd (aget theta) j s (Q + k)%nat) (fun s => upd (aget theta) j s (Q + k)%nat));
            [apply is_derive_upd|apply is_derive_upd|intros; apply Rmult_comm].
        * rewrite upd_id. unfold plus, mult; simpl. ring.
    - unfold plus; simpl. destruct (Nat.ltb_spec j Q) as [Hlt|Hge].
      + rewrite (sumn_ext Q _ (fun q => if (q =? j)%nat then 2 * (nests q - 1) * (nests q * (1 - nests q)) else 0)).
        2: { intros q _. unfold dL. destruct (q =? j)%nat; ring. }
        rewrite (sumn_single Q j (fun q => 2 * (nests q - 1) * (nests q * (1 - nests q))) Hlt).
        rewrite (sumn_eq0 (d_K D)); [ring|]. intros k _. destruct (Nat.eqb_spec (Q + k) j); [lia|ring].
      + rewrite (sumn_eq0 Q).
        2: { intros q Hq. unfold dL. destruct (Nat.eqb_spec q j); [lia|ring]. }
        rewrite (sumn_ext (d_K D) _ (fun k => if (k =? j - Q)%nat then 2 * aget theta (Q + k)%nat else 0)).
        2: { intros k _. destruct (Nat.eqb_spec (Q + k) j); destruct (Nat.eqb_spec k (j - Q)); try lia; ring. }
        rewrite (sumn_single (d_K D) (j - Q) (fun k => 2 * aget theta (Q + k)%nat)) by lia.
        replace (Q + (j - Q))%nat with j by lia. ring.
  Qed.

  Lemma nested_ll_derive j :
    (j < alen theta)%nat ->
    is_derive (fun s => nested_est_log_likelihood E (aupd theta j s)) (aget theta j)
      (if (j <? Q)%nat
       then aget (nested_est_gradient E theta) j - nests j * (1 - nests j) * spurious_at j
            + 2 * ridge_of D * (20 - aget theta j) - 2 * ridge_of D * (nests j - 1) * (nests j * (1 - nests j))
       else aget (nested_est_gradient E theta) j).
  Proof.
    intros Hj.
    apply is_derive_ext with (f := fun s =>
      vdot N (d_y D) (fun i => eff_weights (d_w D) i *
          ln (nested_long_probs E (nests_at E (aupd theta j s)) (beta_at E (aupd theta j s)) i))
      - ridge_of D * asumsq (acat (mkArr Q (fun q => nests_at E (aupd theta j s) q - 1)) (beta_at E (aupd theta j s)))).
    { intros s. unfold nested_est_log_likelihood. destruct (nested_split Q (aupd theta j s)) as [o b] eqn:ES.
      unfold nests_at, beta_at, ridge_of. rewrite ES. cbn [fst snd].
      unfold calc_nested_log_likelihood. cbv zeta. destruct (d_ridge D); [reflexivity|]. match goal with |- @eq _ ?a ?b => change (@eq R a b) end. ring. }
    evar_last.
    - apply (is_derive_minus
         (fun s => vdot N (d_y D) (fun i => eff_weights (d_w D) i *
            ln (nested_long_probs E (nests_at E (aupd theta j s)) (beta_at E (aupd theta j s)) i)))
         (fun s => ridge_of D * asumsq (acat (mkArr Q (fun q => nests_at E (aupd theta j s) q - 1)) (beta_at E (aupd theta j s))))).
      + apply core_derive. exact Hj.
      + apply (is_derive_scal
           (fun s => asumsq (acat (mkArr Q (fun q => nests_at E (aupd theta j s) q - 1)) (beta_at E (aupd theta j s))))).
        apply ridge_derive. exact Hj.
    - unfold minus, plus, opp; simpl. destruct (Nat.ltb_spec j Q) as [Hlt|Hge].
      + rewrite grad_nest by exact Hlt. unfold scal; simpl. unfold mult; simpl.
        match goal with |- @eq _ ?a ?b => change (@eq R a b) end. ring.
      + match goal with |- @eq _ ?a ?b => change (@eq R a b) end.
        pose proof (grad_beta (j - Q)%nat) as GB. replace (Q + (j - Q))%nat with j in GB by lia.
        rewrite GB by lia. ring.
  Qed.
End Grad.

(** Rows of the same observation carry that observation's weight, which is not negative. *)
Definition observation_weights (d : long_cols) (w : option vec) (wobs : Z -> R) : Prop :=
  forall i, (i < length (obs_ids d))%nat ->
    eff_weights w i = wobs (nth i (obs_ids d) 0%Z) /\ 0 <= wobs (nth i (obs_ids d) 0%Z).

(** Total weight of the observations that lack nest [q]. *)
Definition missing_weight (d : long_cols) (t : nest_spec) (wobs : Z -> R) (q : nat) : R :=
  sumn (length (first_seen (obs_ids d))) (fun j =>
    let o := nth j (first_seen (obs_ids d)) 0%Z in if lacks_nest d t o q then wobs o else 0).

(** The natural nest coefficient of parameter x. *)
Definition sigmoid (x : R) : R := 1 / (1 + exp (- x)).

Section GradTop.
  Context (d : long_cols) (t : nest_spec) (mp : mappings) (rn : smat) (K : nat) (X : mat)
    (w : option vec) (ridge : option R) (theta : arr) (wobs : Z -> R).
  Hypothesis HS : nested_setup d t mp rn.
  Hypothesis Hone : exactly_one_choice d.
  Hypothesis Hw : observation_weights d w wobs.
  Let E := ndata_of d mp rn K X w ridge.
  Hypothesis Hlen : nested_check_length E theta = Ok tt.

  Let W : vec := fun j => wobs (nth j (first_seen (obs_ids d)) 0%Z).

  Lemma top_len : alen theta = (d_K (n_D E) + n_Q E)%nat.
  Proof.
    unfold nested_check_length in Hlen.
    destruct (Nat.eqb_spec (alen theta) (d_K (n_D E) + n_Q E)); [assumption|discriminate].
  Qed.

  Lemma top_one i : (i < d_N (n_D E))%nat ->
    osum (d_N (n_D E)) (own_of (obs_ids d)) (own_of (obs_ids d) i) (d_y (n_D E)) = 1.
  Proof. intros Hi. apply (proj2 (one_choice_of d Hone)). exact Hi. Qed.

  Lemma top_W i : (i < d_N (n_D E))%nat -> eff_weights (d_w (n_D E)) i = W (own_of (obs_ids d) i).
  Proof.
    intros Hi. change (i < length (obs_ids d))%nat in Hi. change (d_w (n_D E)) with w.
    destruct (Hw i Hi) as [A _]. rewrite A. unfold W. destruct (su_own_nth d i Hi) as (_ & B). rewrite B. reflexivity.
  Qed.

  Lemma top_Wo o : (o < d_obs (n_D E))%nat -> weights_per_obs (n_D E) o = W o.
  Proof.
    intros Ho. destruct HS as (_ & _ & _ & Hmp & _).
    apply (weights_per_obs_eq d (Some t) mp K X w Hmp wobs).
    - intros i Hi. apply Hw. exact Hi.
    - intros i Hi. destruct (Hw i Hi) as [A B]. rewrite A. exact B.
    - rewrite <- (su_nobs d t mp rn HS K X w ridge). exact Ho.
  Qed.

  Lemma top_spurious q : (q < length t)%nat ->
    spurious_at E (own_of (obs_ids d)) (nst_of d t) W theta q = missing_weight d t wobs q.
  Proof.
    intros Hq. unfold spurious_at, missing_weight. unfold E at 1.
    rewrite (su_nobs d t mp rn HS K X w ridge). apply sumn_ext. intros j Hj.
    unfold absent.
    pose proof (su_lacks d t mp rn HS K X w ridge q j
       (sys_utilities (n_D E) (beta_at E theta)) (nests_at E theta) Hq Hj) as L. fold E in L.
    destruct (Req_EM_T _ 0) as [A|A].
    - rewrite (proj2 L A). unfold W. ring.
    - destruct (lacks_nest d t (nth j (first_seen (obs_ids d)) 0%Z) q) eqn:B; [|ring].
      exfalso. apply A, L. reflexivity.
  Qed.

  Lemma top_derive j :
    (j < alen theta)%nat ->
    is_derive (fun s => nested_est_log_likelihood E (aupd theta j s)) (aget theta j)
      (if (j <? length t)%nat
       then aget (nested_est_gradient E theta) j
            - sigmoid (aget theta j) * (1 - sigmoid (aget theta j)) * missing_weight d t wobs j
            + 2 * ridge_of (n_D E) * ((20 - aget theta j)
                - (sigmoid (aget theta j) - 1) * (sigmoid (aget theta j) * (1 - sigmoid (aget theta j))))
       else aget (nested_est_gradient E theta) j).
  Proof.
    intros Hj. evar_last.
    - apply (nested_ll_derive E (own_of (obs_ids d)) (nst_of d t) W theta
        (su_own d t mp rn HS K X w ridge) (su_nst d t mp rn HS K X w ridge)
        (su_row d t mp rn HS K X w ridge) top_one top_W top_Wo top_len j Hj).
    - pose proof (su_Q d t mp rn HS K X w ridge) as EQ. fold E in EQ. rewrite EQ.
      destruct (Nat.ltb_spec j (length t)) as [H|H]; [|reflexivity].
      rewrite top_spurious by exact H.
      assert (EN : nests_at E theta j = sigmoid (aget theta j)) by (unfold nests_at; rewrite nat_eq; reflexivity).
      rewrite EN. match goal with |- @eq _ ?a ?b => change (@eq R a b) end. ring.
  Qed.
End GradTop.

(** Exactly how far the returned gradient is from the derivative: index
    coefficients are right; a nest parameter's entry is off by
    lambda(1-lambda) * (total weight of the observations lacking that nest) and by the
    ridge terms, which belong to the penalty (20 - x)^2/... rather than (lambda-1)^2. *)
Theorem C43_gradient_exactly d t mp rn K X w ridge theta wobs :
  nested_setup d t mp rn -> exactly_one_choice d -> observation_weights d w wobs ->
  let E := ndata_of d mp rn K X w ridge in
  nested_check_length E theta = Ok tt ->
  let g := nested_est_gradient E theta in
  let r := match ridge with None => 0 | Some r => r end in
  alen g = alen theta /\
  forall j, (j < alen theta)%nat ->
  let x := aget theta j in let l := sigmoid x in
  is_derive (fun s => nested_est_log_likelihood E (aupd theta j s)) x
    (if (j <? length t)%nat
     then aget g j - l * (1 - l) * missing_weight d t wobs j
          + 2 * r * ((20 - x) - (l - 1) * (l * (1 - l)))
     else aget g j).
Proof.
  intros HS Hone Hw E Hlen g r. split.
  - apply grad_alen. apply (top_len d mp rn K X w ridge theta Hlen).
  - intros j Hj x l. apply (top_derive d t mp rn K X w ridge theta wobs HS Hone Hw Hlen j Hj).
Qed.

Definition nested_gradient_is_derivative (E : NData) (theta : arr) : Prop :=
  alen (nested_est_gradient E theta) = alen theta /\
  forall j, (j < alen theta)%nat ->
    is_derive (fun s => nested_est_log_likelihood E (aupd theta j s)) (aget theta j)
      (aget (nested_est_gradient E theta) j).

(** Without ridge, when every observation has an alternative in every nest. *)
Theorem C43_nested_gradient d t mp rn K X w theta wobs :
  nested_setup d t mp rn -> exactly_one_choice d -> observation_weights d w wobs ->
  (forall o q, In o (obs_ids d) -> (q < length t)%nat -> lacks_nest d t o q = false) ->
  let E := ndata_of d mp rn K X w None in
  nested_check_length E theta = Ok tt ->
  nested_gradient_is_derivative E theta.
Proof.
  intros HS Hone Hw Hall E Hlen.
  destruct (C43_gradient_exactly d t mp rn K X w None theta wobs HS Hone Hw Hlen) as (A & B).
  split; [exact A|]. intros j Hj. specialize (B j Hj). cbv zeta in B. fold E in B.
  evar_last; [exact B|].
  destruct (Nat.ltb_spec j (length t)) as [H|H]; [|reflexivity].
  assert (Z : missing_weight d t wobs j = 0).
  { unfold missing_weight. apply sumn_eq0. intros k Hk. cbv zeta.
    rewrite Hall; [reflexivity|apply first_seen_In, nth_In; exact Hk|exact H]. }
  rewrite Z. match goal with |- @eq _ ?a ?b => change (@eq R a b) end. ring.
Qed.

(** Index coefficients: always, with any ridge and any availability. *)
Theorem C43_nested_index_gradient d t mp rn K X w ridge theta wobs j :
  nested_setup d t mp rn -> exactly_one_choice d -> observation_weights d w wobs ->
  let E := ndata_of d mp rn K X w ridge in
  nested_check_length E theta = Ok tt ->
  (length t <= j < alen theta)%nat ->
  is_derive (fun s => nested_est_log_likelihood E (aupd theta j s)) (aget theta j)
    (aget (nested_est_gradient E theta) j).
Proof.
  intros HS Hone Hw E Hlen (H1 & H2).
  destruct (C43_gradient_exactly d t mp rn K X w ridge theta wobs HS Hone Hw Hlen) as (_ & B).
  specialize (B j H2). cbv zeta in B. destruct (Nat.ltb_spec j (length t)); [lia|]. exact B.
Qed.

(** The full property is false: with an observation of positive weight that lacks the
    nest, the entry of that nest is not the derivative, whatever the parameters. *)
Theorem C43_refuted_observation_lacking_a_nest d t mp rn K X w theta wobs j o :
  nested_setup d t mp rn -> exactly_one_choice d -> observation_weights d w wobs ->
  let E := ndata_of d mp rn K X w None in
  nested_check_length E theta = Ok tt ->
  (j < length t)%nat -> In o (obs_ids d) -> lacks_nest d t o j = true -> 0 < wobs o ->
  ~ is_derive (fun s => nested_est_log_likelihood E (aupd theta j s)) (aget theta j)
      (aget (nested_est_gradient E theta) j).
Proof.
  intros HS Hone Hw E Hlen Hj Hin HL Hpos Hd.
  destruct (C43_gradient_exactly d t mp rn K X w None theta wobs HS Hone Hw Hlen) as (A & B).
  pose proof (su_Q d t mp rn HS K X w None) as EQ. fold E in EQ.
  pose proof (top_len d mp rn K X w None theta Hlen) as HLen. fold E in HLen.
  assert (Hj' : (j < alen theta)%nat) by lia.
  specialize (B j Hj'). cbv zeta in B. fold E in B.
  destruct (Nat.ltb_spec j (length t)); [|lia].
  pose proof (is_derive_unique _ _ _ Hd) as U1. pose proof (is_derive_unique _ _ _ B) as U2.
  rewrite U1 in U2.
  assert (M : 0 < missing_weight d t wobs j).
  { unfold missing_weight.
    assert (Hk : In o (first_seen (obs_ids d))) by (apply first_seen_In; exact Hin).
    apply (In_nth _ _ 0%Z) in Hk. destruct Hk as (k & Hk & Ek).
    apply (sumn_pos _ _ k); [|exact Hk|cbv zeta; rewrite Ek, HL; exact Hpos].
    intros k' Hk'. cbv zeta. destruct (lacks_nest d t (nth k' (first_seen (obs_ids d)) 0%Z) j); [|lra].
    assert (Hi : In (nth k' (first_seen (obs_ids d)) 0%Z) (obs_ids d)) by (apply first_seen_In, nth_In; exact Hk').
    destruct (In_row _ _ Hi) as (i & Hi' & <-). apply Hw. exact Hi'. }
  assert (S : 0 < sigmoid (aget theta j) < 1).
  { pose proof (nat_bounds (aget theta) j) as NB. rewrite nat_eq in NB. exact NB. }
  assert (0 < sigmoid (aget theta j) * (1 - sigmoid (aget theta j))) by (apply Rmult_lt_0_compat; lra).
  assert (0 < sigmoid (aget theta j) * (1 - sigmoid (aget theta j)) * missing_weight d t wobs j)
    by (apply Rmult_lt_0_compat; assumption).
  lra.
Qed.

(** ... and with a ridge the nest entries are wrong for every parameter up to 20. *)
Theorem C43_refuted_ridge d t mp rn K X w r theta wobs j :
  nested_setup d t mp rn -> exactly_one_choice d -> observation_weights d w wobs ->
  (forall o q, In o (obs_ids d) -> (q < length t)%nat -> lacks_nest d t o q = false) ->
  let E := ndata_of d mp rn K X w (Some r) in
  nested_check_length E theta = Ok tt -> 0 < r ->
  (j < length t)%nat -> aget theta j <= 20 ->
  ~ is_derive (fun s => nested_est_log_likelihood E (aupd theta j s)) (aget theta j)
      (aget (nested_est_gradient E theta) j).
Proof.
  intros HS Hone Hw Hall E Hlen Hr Hj Hx Hd.
  destruct (C43_gradient_exactly d t mp rn K X w (Some r) theta wobs HS Hone Hw Hlen) as (A & B).
  pose proof (su_Q d t mp rn HS K X w (Some r)) as EQ. fold E in EQ.
  pose proof (top_len d mp rn K X w (Some r) theta Hlen) as HLen. fold E in HLen.
  assert (Hj' : (j < alen theta)%nat) by lia.
  specialize (B j Hj'). cbv zeta in B. fold E in B.
  destruct (Nat.ltb_spec j (length t)); [|lia].
  pose proof (is_derive_unique _ _ _ Hd) as U1. pose proof (is_derive_unique _ _ _ B) as U2.
  rewrite U1 in U2.
  assert (Z : missing_weight d t wobs j = 0).
  { unfold missing_weight. apply sumn_eq0. intros k Hk. cbv zeta.
    rewrite Hall; [reflexivity|apply first_seen_In, nth_In; exact Hk|exact Hj]. }
  assert (S : 0 < sigmoid (aget theta j) < 1).
  { pose proof (nat_bounds (aget theta) j) as NB. rewrite nat_eq in NB. exact NB. }
  set (l := sigmoid (aget theta j)) in *.
  assert (P : 0 < l * (1 - l)) by (apply Rmult_lt_0_compat; lra).
  assert (P2 : (l - 1) * (l * (1 - l)) < 0).
  { replace ((l - 1) * (l * (1 - l))) with (- ((1 - l) * (l * (1 - l)))) by ring.
    assert (0 < (1 - l) * (l * (1 - l))) by (apply Rmult_lt_0_compat; lra). lra. }
  rewrite Z in U2.
  assert (0 < r * ((20 - aget theta j) - (l - 1) * (l * (1 - l)))) by (apply Rmult_lt_0_compat; lra).
  lra.
Qed.

(** ** C44: the BHHH approximation *)

Lemma maxn_ge0 n f : (forall i, (i < n)%nat -> 0 <= f i) -> 0 <= maxn n f.
Proof.
  induction n as [|n IH]; intros H; simpl; [lra|].
  destruct n as [|n]; [apply H; lia|]. apply Rle_trans with (maxn (S n) f); [|apply Rmax_l].
  apply IH. intros. apply H. lia.
Qed.

Lemma bhhh_quad E orig beta z :
  let n := (n_Q E + d_K (n_D E))%nat in
  let G := nested_score_matrix E orig beta in
  quad n (sqe (calc_bhhh E orig beta)) z =
  - (sumn (d_obs (n_D E)) (fun o => weights_per_obs (n_D E) o * Rsqr (sumn n (fun a => z a * G o a)))
     + 2 * ridge_of (n_D E) * sumn n (fun a => Rsqr (z a))).
Proof.
  intros n G. unfold quad.
  assert (Ed : forall a, (a < n)%nat ->
    sumn n (fun b => z a * sqe (calc_bhhh E orig beta) a b * z b) =
    - (sumn (d_obs (n_D E)) (fun o => weights_per_obs (n_D E) o * ((z a * G o a) * sumn n (fun b => z b * G o b)))
       + 2 * ridge_of (n_D E) * Rsqr (z a))).
  { intros a Ha.
    assert (E1 : sumn n (fun b => z a * sqe (calc_bhhh E orig beta) a b * z b)
       = - (sumn n (fun b => sumn (d_obs (n_D E)) (fun o => weights_per_obs (n_D E) o * ((z a * G o a) * (z b * G o b))))
            + sumn n (fun b => if (a =? b)%nat then 2 * ridge_of (n_D E) * (z a * z b) else 0))).
    { rewrite <- sumn_plus, <- sumn_opp. apply sumn_ext. intros b _. unfold calc_bhhh, ridge_of. fold G. cbn [sqe].
      rewrite (sumn_ext _ _ (fun o => (z a * z b) * (transp G a o * (weights_per_obs (n_D E) o * G o b))))
        by (intros; unfold transp; ring).
      rewrite sumn_scal_l. unfold mdot, ident. destruct (d_ridge (n_D E)); destruct (a =? b)%nat; ring. }
    rewrite E1. f_equal. f_equal.
    - rewrite sumn_swap. apply sumn_ext. intros o _. rewrite !sumn_scal_l. reflexivity.
    - rewrite (sumn_single' n a (fun b => 2 * ridge_of (n_D E) * (z a * z b)) Ha). unfold Rsqr. ring. }
  rewrite (sumn_ext n _ _ Ed). rewrite sumn_opp, sumn_plus, sumn_scal_l. f_equal. f_equal.
  rewrite sumn_swap. apply sumn_ext. intros o _. rewrite sumn_scal_l, sumn_scal_r. reflexivity.
Qed.

Theorem C44_bhhh_symmetric_nsd d t mp rn K X w ridge theta :
  nested_setup d t mp rn -> nonneg_weights d w ->
  (forall r, ridge = Some r -> 0 <= r) ->
  let E := ndata_of d mp rn K X w ridge in
  nested_check_length E theta = Ok tt ->
  let H := nested_est_hessian E None theta in
  sqn H = alen theta /\ symmetric (alen theta) (sqe H) /\ nsd (alen theta) (sqe H).
Proof.
  intros HS Hw Hr E Hlen H.
  pose proof (top_len d mp rn K X w ridge theta Hlen) as HL. fold E in HL.
  assert (En : alen theta = (n_Q E + d_K (n_D E))%nat) by lia.
  unfold H, nested_est_hessian. cbn [nested_split]. split; [|split].
  - unfold calc_bhhh. cbn [sqn]. lia.
  - intros a b _ _. unfold calc_bhhh. cbn [sqe]. f_equal.
    set (G := nested_score_matrix _ _ _).
    assert (Eb : mdot (d_obs (n_D E)) (transp G) (fun o k => weights_per_obs (n_D E) o * G o k) a b =
                 mdot (d_obs (n_D E)) (transp G) (fun o k => weights_per_obs (n_D E) o * G o k) b a).
    { unfold mdot, transp. apply sumn_ext. intros; ring. }
    destruct (d_ridge (n_D E)); [|exact Eb]. rewrite Eb. unfold ident. rewrite Nat.eqb_sym. reflexivity.
  - intros z. rewrite En, bhhh_quad.
    set (T1 := sumn (d_obs (n_D E)) _). set (T2 := sumn _ (fun a => Rsqr (z a))).
    assert (0 <= T1).
    { apply sumn_ge0. intros o Ho. apply Rmult_le_pos; [|apply Rle_0_sqr].
      unfold weights_per_obs. apply maxn_ge0. intros i Hi.
      destruct (su_own d t mp rn HS K X w ridge i Hi) as [_ Hm]. fold E in Hm. rewrite Hm by exact Ho.
      change (d_w (n_D E)) with w. specialize (Hw i Hi).
      destruct (own_of (obs_ids d) i =? o)%nat; lra. }
    assert (0 <= T2) by (apply sumn_ge0; intros; apply Rle_0_sqr).
    assert (0 <= ridge_of (n_D E)).
    { unfold ridge_of. change (d_ridge (n_D E)) with ridge. destruct ridge as [r|]; [apply Hr; reflexivity|lra]. }
    assert (0 <= 2 * ridge_of (n_D E) * T2) by (apply Rmult_le_pos; lra). lra.
Qed.

(** Each row of the score matrix is the gradient the estimator returns when that
    observation alone has weight one. *)
Definition only_observation (d : long_cols) (o : Z) : option vec :=
  Some (fun i => if (nth i (obs_ids d) 0%Z =? o)%Z then 1 else 0).

Theorem C44_score_rows d t mp rn K X w ridge theta j a :
  nested_setup d t mp rn -> exactly_one_choice d ->
  let E := ndata_of d mp rn K X w ridge in
  nested_check_length E theta = Ok tt ->
  (j < length (first_seen (obs_ids d)))%nat -> (a < alen theta)%nat ->
  let o := nth j (first_seen (obs_ids d)) 0%Z in
  nested_score_matrix E (aget (fst (nested_split (n_Q E) theta))) (snd (nested_split (n_Q E) theta)) j a =
  aget (nested_est_gradient (ndata_of d mp rn K X (only_observation d o) None) theta) a.
Proof.
  intros HS Hone E Hlen Hj Ha o. set (E' := ndata_of d mp rn K X (only_observation d o) None).
  pose proof (top_len d mp rn K X w ridge theta Hlen) as HL. fold E in HL.
  assert (Hlen' : nested_check_length E' theta = Ok tt) by exact Hlen.
  set (wobs := fun z => if (z =? o)%Z then 1 else 0).
  assert (Hw : observation_weights d (only_observation d o) wobs).
  { intros i Hi. unfold wobs. cbn. destruct (_ =? o)%Z; split; lra. }
  set (W := fun k => wobs (nth k (first_seen (obs_ids d)) 0%Z)).
  pose proof (su_own d t mp rn HS K X (only_observation d o) None) as Ho.
  pose proof (su_nst d t mp rn HS K X (only_observation d o) None) as Hn.
  pose proof (su_row d t mp rn HS K X (only_observation d o) None) as Hr.
  pose proof (top_W d mp rn K X (only_observation d o) None wobs Hw) as HW.
  pose proof (top_Wo d t mp rn K X (only_observation d o) None wobs HS Hw) as HWo.
  pose proof (su_nobs d t mp rn HS K X (only_observation d o) None) as Hnobs.
  fold E' in Ho, Hn, Hr, HW, HWo, Hnobs. fold W in HW, HWo.
  assert (Hjo : (j < d_obs (n_D E'))%nat) by (rewrite Hnobs; exact Hj).
  assert (EW : forall k, (k < d_obs (n_D E'))%nat -> W k = if (k =? j)%nat then 1 else 0).
  { intros k Hk. rewrite Hnobs in Hk. unfold W, wobs, o. destruct (Nat.eqb_spec k j) as [->|Ne].
    - rewrite Z.eqb_refl. reflexivity.
    - destruct (Z.eqb_spec (nth k (first_seen (obs_ids d)) 0%Z) (nth j (first_seen (obs_ids d)) 0%Z)) as [Z|Z]; [|reflexivity].
      exfalso. apply Ne. apply (proj1 (NoDup_nth (first_seen (obs_ids d)) 0%Z) (first_seen_NoDup _) k j Hk Hj Z). }
  assert (HP : forall q, (q < n_Q E')%nat -> 0 < nests_at E' theta q) by (intros; apply nat_bounds).
  change (nested_score_matrix E (aget (fst (nested_split (n_Q E) theta))) (snd (nested_split (n_Q E) theta)) j a)
    with (nested_score_matrix E' (aget (fst (nested_split (n_Q E') theta))) (snd (nested_split (n_Q E') theta)) j a).
  unfold nested_score_matrix, hcat. change (n_Q E) with (n_Q E') in HL.
  change (naturalize_nest_coefs (aget (fst (nested_split (n_Q E') theta)))) with (nests_at E' theta).
  change (snd (nested_split (n_Q E') theta)) with (beta_at E' theta).
  destruct (Nat.ltb_spec a (n_Q E')) as [Hlt|Hge].
  - rewrite vcat_l by exact Hlt.
    rewrite (grad_nest E' (own_of (obs_ids d)) (nst_of d t) W theta Ho Hn Hr HW HWo) by exact Hlt.
    rewrite (score_nest_eq E' (own_of (obs_ids d)) (nst_of d t) Ho Hn Hr (nests_at E' theta) (beta_at E' theta) HP j a Hjo Hlt).
    change (ridge_of (n_D E')) with 0. rewrite Rmult_0_r, Rmult_0_l, Rminus_0_r. f_equal.
    unfold core_nest, spurious_at. rewrite <- sumn_plus.
    set (f := fun k => nest_score (d_N (n_D E')) (n_Q E') (own_of (obs_ids d)) (nst_of d t)
               (fun _ => sys_utilities (n_D E') (beta_at E' theta)) (fun _ => nests_at E' theta) 0 (d_y (n_D E')) k a
               + absent E' (own_of (obs_ids d)) (nst_of d t) (nests_at E' theta) (beta_at E' theta) k a).
    rewrite (sumn_ext (d_obs (n_D E')) _ (fun k => if (k =? j)%nat then f k else 0)).
    + rewrite (sumn_single (d_obs (n_D E')) j f Hjo). reflexivity.
    + intros k Hk. rewrite EW by exact Hk. unfold f. destruct (k =? j)%nat; ring.
  - set (k := (a - n_Q E')%nat). assert (Ea : a = (n_Q E' + k)%nat) by (unfold k; lia). rewrite Ea, vcat_r.
    assert (Hk : (k < d_K (n_D E'))%nat).
    { change (d_K (n_D E)) with (d_K (n_D E')) in HL. lia. }
    rewrite (grad_beta E' (own_of (obs_ids d)) (nst_of d t) theta Ho Hn) by exact Hk.
    change (ridge_of (n_D E')) with 0. rewrite Rmult_0_r, Rmult_0_l, Rminus_0_r.
    unfold core_beta, mdot, transp. apply sumn_ext. intros i Hi.
    rewrite (bt1_eq E' (own_of (obs_ids d)) (nst_of d t) Ho Hn (nests_at E' theta) (beta_at E' theta) HP) by exact Hi.
    rewrite HW by exact Hi. rewrite EW by (apply Ho; exact Hi).
    destruct (Ho i Hi) as [_ Hm]. rewrite Hm by exact Hjo. destruct (own_of (obs_ids d) i =? j)%nat; ring.
Qed.

(** Constrained positions are decoupled. *)
Lemma decouple_many l a :
  forall i j, fold_left decouple l a i j =
    if existsb (Nat.eqb i) l then (if (i =? j)%nat then -1 else 0)
    else if existsb (Nat.eqb j) l then 0 else a i j.
Proof.
  revert a. induction l as [|x l IH]; intros a i j; simpl; [reflexivity|].
  rewrite IH. unfold decouple.
  destruct (Nat.eqb_spec i x) as [->|Ni]; destruct (Nat.eqb_spec j x) as [->|Nj]; simpl.
  - rewrite Nat.eqb_refl. destruct (existsb (Nat.eqb x) l); reflexivity.
  - destruct (existsb (Nat.eqb x) l) eqn:B1; destruct (existsb (Nat.eqb j) l) eqn:B2; try reflexivity;
      destruct (Nat.eqb_spec x j); try congruence; reflexivity.
  - destruct (existsb (Nat.eqb i) l) eqn:B1; [destruct (Nat.eqb_spec i x); [congruence|reflexivity]|].
    destruct (existsb (Nat.eqb x) l); reflexivity.
  - reflexivity.
Qed.

Lemma existsb_eqb_In i l : existsb (Nat.eqb i) l = true <-> In i l.
Proof.
  rewrite existsb_exists. split.
  - intros (x & H & E). apply Nat.eqb_eq in E. subst. exact H.
  - intros H. exists i. split; [exact H|apply Nat.eqb_refl].
Qed.

Theorem C44_constrained_positions_decoupled E l theta :
  let H := nested_est_hessian E (Some l) theta in
  let H0 := nested_est_hessian E None theta in
  sqn H = sqn H0 /\
  (forall a b, In a l \/ In b l -> sqe H a b = if (a =? b)%nat then -1 else 0) /\
  (forall a b, ~ In a l -> ~ In b l -> sqe H a b = sqe H0 a b).
Proof.
  intros H H0. unfold H, H0, nested_est_hessian. cbn [nested_split sqn sqe].
  split; [reflexivity|]. split.
  - intros a b Hab. rewrite decouple_many.
    destruct (existsb (Nat.eqb a) l) eqn:A; [reflexivity|]. destruct (existsb (Nat.eqb b) l) eqn:B.
    + destruct (Nat.eqb_spec a b) as [->|]; [congruence|reflexivity].
    + exfalso. destruct Hab as [Hin|Hin]; apply existsb_eqb_In in Hin; congruence.
  - intros a b Ha Hb. rewrite decouple_many.
    destruct (existsb (Nat.eqb a) l) eqn:A; [exfalso; apply Ha, existsb_eqb_In; exact A|].
    destruct (existsb (Nat.eqb b) l) eqn:B; [exfalso; apply Hb, existsb_eqb_In; exact B|]. reflexivity.
Qed.

(** Consequence for the inverse used as covariance: the constrained rows and columns
    are those of minus the identity, and the free block inverts the free block. *)
Theorem C44_inverse_of_decoupled E l theta n B :
  let H := nested_est_hessian E (Some l) theta in
  sqn H = n -> is_inverse n (sqe H) B ->
  let free := fun i => negb (existsb (Nat.eqb i) l) in
  (forall a b, (a < n)%nat -> (b < n)%nat -> In a l \/ In b l -> B a b = if (a =? b)%nat then -1 else 0) /\
  (forall a b, (a < n)%nat -> (b < n)%nat -> ~ In a l -> ~ In b l ->
     sumn n (fun k => if free k then sqe (nested_est_hessian E None theta) a k * B k b else 0)
     = if (a =? b)%nat then 1 else 0).
Proof.
  intros H Hn (I1 & I2) free.
  destruct (C44_constrained_positions_decoupled E l theta) as (_ & D1 & D2). fold H in D1, D2.
  assert (R1 : forall a b, (a < n)%nat -> (b < n)%nat -> In a l -> B a b = if (a =? b)%nat then -1 else 0).
  { intros a b Ha Hb Hin. specialize (I1 a b Ha Hb). unfold mdot in I1.
    rewrite (sumn_ext n _ (fun k => if (a =? k)%nat then - B k b else 0)) in I1.
    - rewrite (sumn_single' n a (fun k => - B k b) Ha) in I1. destruct (a =? b)%nat; lra.
    - intros k _. rewrite D1 by (left; exact Hin). destruct (a =? k)%nat; ring. }
  assert (R2 : forall a b, (a < n)%nat -> (b < n)%nat -> In b l -> B a b = if (a =? b)%nat then -1 else 0).
  { intros a b Ha Hb Hin. specialize (I2 a b Ha Hb). unfold mdot in I2.
    rewrite (sumn_ext n _ (fun k => if (k =? b)%nat then - B a k else 0)) in I2.
    - rewrite (sumn_single n b (fun k => - B a k) Hb) in I2. destruct (a =? b)%nat; lra.
    - intros k _. rewrite D1 by (right; exact Hin). destruct (k =? b)%nat; ring. }
  split.
  - intros a b Ha Hb [Hin|Hin]; [apply R1|apply R2]; assumption.
  - intros a b Ha Hb Na Nb. rewrite <- (I1 a b Ha Hb). unfold mdot. apply sumn_ext. intros k Hk.
    unfold free. destruct (existsb (Nat.eqb k) l) eqn:Bk; cbn [negb].
    + apply existsb_eqb_In in Bk. rewrite D1 by (right; exact Bk).
      destruct (Nat.eqb_spec a k); [subst; contradiction|ring].
    + assert (Nk : ~ In k l) by (intros Hin; apply existsb_eqb_In in Hin; congruence).
      rewrite D2 by assumption. reflexivity.
Qed.

(** ** C65: a nest with a single alternative has no coefficient to estimate *)
Lemma identify_degenerate_spec t q :
  In q (identify_degenerate_nests t) <-> (q < length t)%nat /\ length (nest_alts t q) = 1%nat.
Proof.
  unfold identify_degenerate_nests.
  match goal with |- In q (?g 0%nat t) <-> _ => set (go := g) end.
  assert (G : forall t pos, In q (go pos t) <->
     (pos <= q)%nat /\ (q - pos < length t)%nat /\ length (nest_alts t (q - pos)) = 1%nat).
  { clear t. induction t as [|[k l] r IH]; intros pos; simpl.
    - split; [tauto|]. intros (_ & H & _). lia.
    - unfold nest_alts in *. destruct (Nat.eq_dec q pos) as [->|Ne].
      + replace (pos - pos)%nat with 0%nat by lia. simpl.
        destruct (Nat.eqb_spec (length l) 1) as [B|B]; simpl; rewrite ?IH.
        * split; [intros _; repeat split; lia|tauto].
        * split; [intros (H & _); lia|intros (_ & _ & H); contradiction].
      + assert (T : In q (if (length l =? 1)%nat then pos :: go (S pos) r else go (S pos) r) <-> In q (go (S pos) r)).
        { destruct (length l =? 1)%nat; simpl; [|tauto]. split; [intros [H|H]; [congruence|exact H]|tauto]. }
        rewrite T, IH. destruct (Nat.le_gt_cases pos q) as [Hle|Hgt].
        * replace (q - pos)%nat with (S (q - S pos))%nat by lia. simpl. split; intros (H1 & H2 & H3); repeat split; try lia; exact H3.
        * split; intros (H1 & _); lia. }
  rewrite G, Nat.sub_0_r. split; [intros (_ & H); exact H|intros H; split; [lia|exact H]].
Qed.

(** Two nest-coefficient vectors that differ only on such nests give the same
    probabilities (fit_mle holds those coefficients fixed, nested_logit.py:517). *)
Theorem C65_degenerate_nests_do_not_matter d t mp rn K X w ridge nests nests' beta p p' :
  nested_setup d t mp rn -> NoDup (combine (obs_ids d) (alt_ids d)) ->
  positive_nests t nests -> positive_nests t nests' ->
  (forall q, (q < length t)%nat -> ~ In q (identify_degenerate_nests t) -> nests q = nests' q) ->
  calc_nested_probs (ndata_of d mp rn K X w ridge) nests beta None RT_long = Ok (NProbs (LongProbs p)) ->
  calc_nested_probs (ndata_of d mp rn K X w ridge) nests' beta None RT_long = Ok (NProbs (LongProbs p')) ->
  forall i, (i < length (obs_ids d))%nat -> p i = p' i.
Proof.
  intros HS Hnd Hpos Hpos' Hsame Hp Hp'. inversion Hp; subst p; clear Hp. inversion Hp'; subst p'; clear Hp'.
  set (E := ndata_of d mp rn K X w ridge).
  pose proof (su_own d t mp rn HS K X w ridge) as Ho. pose proof (su_nst d t mp rn HS K X w ridge) as Hn.
  pose proof (su_Q d t mp rn HS K X w ridge) as EQ. fold E in Ho, Hn, EQ.
  assert (HP : forall q, (q < n_Q E)%nat -> 0 < nests q) by (rewrite EQ; exact Hpos).
  assert (HP' : forall q, (q < n_Q E)%nat -> 0 < nests' q) by (rewrite EQ; exact Hpos').
  pose proof (nst_lt E _ Hn) as Hlt.
  set (own := own_of (obs_ids d)) in *. set (nst := nst_of d t) in *. set (V := sys_utilities (n_D E) beta).
  assert (HL : length (alt_ids d) = length (obs_ids d)) by apply HS.
  (* rows of the same observation and degenerate nest coincide *)
  assert (Huniq : forall i i', (i < d_N (n_D E))%nat -> (i' < d_N (n_D E))%nat -> own i = own i' -> nst i = nst i' ->
     In (nst i) (identify_degenerate_nests t) -> i = i').
  { intros i i' Hi Hi' Eo En Hdg. change (d_N (n_D E)) with (length (obs_ids d)) in *.
    apply identify_degenerate_spec in Hdg. destruct Hdg as (_ & Hl1).
    destruct (setup_nests d t mp rn HS) as (_ & Hs).
    assert (M : forall r, (r < length (obs_ids d))%nat -> In (nth r (alt_ids d) 0%Z) (nest_alts t (nst r))).
    { intros r Hr. destruct (Hs r Hr) as (Hlt' & H2). destruct (H2 (nst r) Hlt') as (H3 & _).
      apply zmem_In. rewrite H3. apply Nat.eqb_refl. }
    pose proof (M i Hi) as M1. pose proof (M i' Hi') as M2. rewrite <- En in M2.
    destruct (nest_alts t (nst i)) as [|a [|b r]]; simpl in Hl1; try discriminate.
    simpl in M1, M2. destruct M1 as [M1|[]], M2 as [M2|[]].
    apply (own_of_eq (obs_ids d)) in Eo; [|assumption|assumption].
    apply (proj1 (NoDup_nth (combine (obs_ids d) (alt_ids d)) (0%Z, 0%Z)) Hnd).
    - rewrite combine_length. lia.
    - rewrite combine_length. lia.
    - rewrite !combine_nth by (symmetry; exact HL). rewrite Eo, <- M1, <- M2. reflexivity. }
  assert (Hsingle : forall i f, (i < d_N (n_D E))%nat -> In (nst i) (identify_degenerate_nests t) ->
     nsum (d_N (n_D E)) own nst (own i) (nst i) f = f i).
  { intros i f Hi Hdg. unfold nsum.
    rewrite (sumn_ext _ _ (fun k => if (k =? i)%nat then f k else 0)).
    - apply sumn_single. exact Hi.
    - intros k Hk. destruct (Nat.eqb_spec k i) as [->|Ne]; [rewrite !Nat.eqb_refl; reflexivity|].
      destruct (Nat.eqb_spec (own k) (own i)) as [A|A]; [|reflexivity].
      destruct (Nat.eqb_spec (nst k) (nst i)) as [B|B]; [|reflexivity].
      exfalso. apply Ne. symmetry. apply Huniq; auto. }
  assert (HSS : forall o q, (q < length t)%nat -> ~ In q (identify_degenerate_nests t) ->
     SS (d_N (n_D E)) own nst V nests o q = SS (d_N (n_D E)) own nst V nests' o q).
  { intros o q Hq Hdg. apply nsum_ext. intros r _ _ Er. unfold es. rewrite Er, (Hsame q Hq Hdg). reflexivity. }
  assert (Hexp : forall i L, (i < d_N (n_D E))%nat -> In (nst i) (identify_degenerate_nests t) ->
     (forall q, (q < n_Q E)%nat -> 0 < L q) ->
     np_power (SS (d_N (n_D E)) own nst V L (own i) (nst i)) (L (nst i)) = exp (V i)).
  { intros i L Hi Hdg HLp. rewrite np_power_pos by (apply SS_pos; exact Hi). unfold SS.
    rewrite (Hsingle i (es nst V L) Hi Hdg). unfold Rpower, es. rewrite ln_exp. f_equal.
    field. apply Rgt_not_eq. apply HLp. apply Hlt. exact Hi. }
  assert (Hpow : forall o q, (q < n_Q E)%nat ->
     np_power (SS (d_N (n_D E)) own nst V nests o q) (nests q) =
     np_power (SS (d_N (n_D E)) own nst V nests' o q) (nests' q)).
  { intros o q Hq. rewrite EQ in Hq. destruct (in_dec Nat.eq_dec q (identify_degenerate_nests t)) as [Hdg|Hdg].
    - destruct (Req_EM_T (SS (d_N (n_D E)) own nst V nests o q) 0) as [Z|Z].
      + assert (Hemp : forall i, (i < d_N (n_D E))%nat -> ~ (own i = o /\ nst i = q))
          by (apply (nsum_zero_empty _ own nst o q (es nst V nests)); [intros; apply es_pos|exact Z]).
        unfold SS. rewrite !nsum_empty by exact Hemp. rewrite !np_power_0 by (try apply Hpos; try apply Hpos'; exact Hq). reflexivity.
      + destruct (nsum_row_exists _ own nst o q (es nst V nests) Z) as (i & Hi & <- & <-).
        rewrite (Hexp i nests Hi Hdg HP), (Hexp i nests' Hi Hdg HP'). reflexivity.
    - rewrite HSS, (Hsame q Hq Hdg) by assumption. reflexivity. }
  intros i Hi. assert (Hi' : (i < d_N (n_D E))%nat) by exact Hi.
  rewrite (nlp_eq E own nst Ho Hn nests beta HP) by exact Hi'.
  rewrite (nlp_eq E own nst Ho Hn nests' beta HP') by exact Hi'. fold V.
  unfold pp. f_equal.
  - unfold PQ. rewrite Hpow by (apply Hlt; exact Hi'). f_equal. unfold DD. apply sumn_ext. intros q Hq. apply Hpow. exact Hq.
  - unfold gg. destruct (in_dec Nat.eq_dec (nst i) (identify_degenerate_nests t)) as [Hdg|Hdg].
    + unfold SS. rewrite !(Hsingle i _ Hi' Hdg).
      pose proof (es_pos nst V nests i). pose proof (es_pos nst V nests' i). field. lra.
    + assert (Hq : (nst i < length t)%nat) by (rewrite <- EQ; apply Hlt; exact Hi').
      rewrite HSS by assumption. f_equal. unfold es. rewrite (Hsame (nst i) Hq Hdg). reflexivity.
Qed.

(** ** Chosen probabilities of the nested model (C19 for this model) *)
Lemma nested_chosen_row d t mp rn K X w ridge nests beta C pc pl j i :
  create_long_form_mappings d (Some t) = Ok mp -> chosen_row_to_obs mp = Some C -> exactly_one_choice d ->
  calc_nested_probs (ndata_of d mp rn K X w ridge) nests beta (Some (smat_R C)) RT_long_and_chosen
    = Ok (NProbs (BothProbs pc pl)) ->
  (j < length (first_seen (obs_ids d)))%nat -> (i < length (obs_ids d))%nat ->
  nth i (obs_ids d) 0%Z = nth j (first_seen (obs_ids d)) 0%Z -> choice_vec d i = 1 ->
  pc j = pl i.
Proof.
  intros Hmp HC Hone Hp Hj Hi Eo Hy. inversion Hp; subst; clear Hp.
  set (p := nested_long_probs (ndata_of d mp rn K X w ridge) nests beta).
  unfold nested_chosen_probs. fold p. unfold mvec, transp.
  set (D := data_of d mp K X w ridge).
  assert (EC : forall r, (r < length (obs_ids d))%nat -> smat_R C r j = d_M D r j * choice_vec d r)
    by (intros r _; unfold D, data_of; cbn [d_M]; unfold smat_R;
        destruct (mappings_ok _ _ _ Hmp) as (_ & _ & E); rewrite HC in E; unfold choice_vec;
        destruct (choices d) as [c|]; [|discriminate]; inversion E; subst;
        rewrite sget_multiply; apply mult_IZR).
  change (d_N (n_D (ndata_of d mp rn K X w ridge))) with (length (obs_ids d)).
  rewrite (sumn_ext _ _ (fun r => if (r =? i)%nat then p r else 0)).
  - apply sumn_single. exact Hi.
  - intros r Hr. rewrite EC by exact Hr.
    pose proof (data_obs_indicator d (Some t) mp K X w ridge Hmp r Hr) as [_ Hm]. fold D in Hm.
    rewrite Hm by (unfold D; rewrite (data_nobs d (Some t)) by exact Hmp; exact Hj).
    assert (Eown : own_of (obs_ids d) i = j) by (unfold own_of; rewrite Eo; apply index_of_nth; [apply first_seen_NoDup|exact Hj]).
    destruct (Nat.eqb_spec r i) as [->|Ne]; [rewrite Eown, Nat.eqb_refl, Hy; ring|].
    destruct (Nat.eqb_spec (own_of (obs_ids d) r) j) as [A|A]; [|ring].
    assert (choice_vec d r = 0); [|rewrite H; ring].
    destruct Hone as (c & Ec & H01 & Hex).
    assert (Hc : forall k, choice_vec d k = IZR (nth k c 0%Z)) by (intros k; unfold choice_vec; rewrite Ec; reflexivity).
    destruct (H01 r Hr) as [Z0|Z1]; [rewrite Hc, Z0; reflexivity|]. exfalso. apply Ne.
    destruct (Hex (nth i (obs_ids d) 0%Z)) as (k & Hk & Ek & Ck & Hu); [apply nth_In; exact Hi|].
    assert (Er : nth r (obs_ids d) 0%Z = nth i (obs_ids d) 0%Z).
    { apply (own_of_eq (obs_ids d)); [exact Hr|exact Hi|]. rewrite A, Eown. reflexivity. }
    rewrite (Hu r Hr Er Z1). symmetry. apply Hu; [exact Hi|reflexivity|].
    rewrite Hc in Hy. apply eq_IZR. exact Hy.
Qed.

Theorem C39_nested_chosen_probs d t mp rn K X w ridge nests beta C pc pl j i :
  nested_setup d t mp rn -> chosen_row_to_obs mp = Some C -> exactly_one_choice d ->
  calc_nested_probs (ndata_of d mp rn K X w ridge) nests beta (Some (smat_R C)) RT_long_and_chosen
    = Ok (NProbs (BothProbs pc pl)) ->
  (j < length (first_seen (obs_ids d)))%nat -> (i < length (obs_ids d))%nat ->
  nth i (obs_ids d) 0%Z = nth j (first_seen (obs_ids d)) 0%Z -> choice_vec d i = 1 ->
  pc j = pl i.
Proof. intros (_ & _ & _ & Hmp & _). apply (nested_chosen_row d t mp rn K X w ridge nests beta C pc pl j i Hmp). Qed.

(** ** C66: the "robust" covariance of the nested model is minus the square of the
    inverse Hessian, so that its diagonal, whose square roots are reported as robust
    standard errors, is negative. *)
Theorem C66_refuted_nested_robust_variances n hess hess_inv theta a :
  alen theta = n -> symmetric n hess -> is_inverse n hess hess_inv -> (a < n)%nat ->
  calc_asymptotic_covariance n hess_inv (sqe (nested_est_fisher theta)) a a < 0.
Proof.
  intros Hn Hs Hi Ha. pose proof (inverse_symmetric n _ _ Hs Hi) as Hb.
  unfold calc_asymptotic_covariance, mdot, nested_est_fisher. cbn [sqe].
  rewrite (sumn_ext n _ (fun k => - Rsqr (hess_inv a k))).
  2: { intros k Hk. rewrite (sumn_ext n _ (fun q => if (k =? q)%nat then - hess_inv q a else 0)).
       - rewrite (sumn_single' n k (fun q => - hess_inv q a) Hk). rewrite (Hb k a Hk Ha). unfold Rsqr. ring.
       - intros q _. destruct (k =? q)%nat; ring. }
  rewrite sumn_opp. apply Ropp_lt_gt_0_contravar. apply Rlt_gt.
  destruct (Req_EM_T (sumn n (fun k => Rsqr (hess_inv a k))) 0) as [Z|Z].
  - exfalso. pose proof (sumn_eq0_inv n (fun k => Rsqr (hess_inv a k)) (fun i _ => Rle_0_sqr _) Z) as Hz.
    destruct Hi as (_ & I2). specialize (I2 a a Ha Ha). rewrite Nat.eqb_refl in I2. unfold mdot in I2.
    rewrite sumn_eq0 in I2; [lra|]. intros k Hk. rewrite (Rsqr_eq_0 _ (Hz k Hk)). ring.
  - pose proof (sumn_ge0 n (fun k => Rsqr (hess_inv a k)) (fun i _ => Rle_0_sqr _)). lra.
Qed.

(** ** C14 for the nested model *)
Theorem C14_nested_split_is_lossless E theta orig beta :
  nested_check_length E theta = Ok tt -> nested_split (n_Q E) theta = (orig, beta) ->
  alen orig = n_Q E /\ alen beta = d_K (n_D E) /\ arr_eq (acat orig beta) theta.
Proof.
  intros Hlen HE. unfold nested_check_length in Hlen.
  destruct (Nat.eqb_spec (alen theta) (d_K (n_D E) + n_Q E)) as [HL|]; [|discriminate].
  inversion HE; subst; clear HE. cbn [alen aslice]. repeat split; try lia.
  - cbn [acat alen aslice]. lia.
  - intros i Hi. cbn [acat alen aget aslice] in *. unfold vcat.
    destruct (Nat.ltb_spec i (n_Q E)); f_equal; lia.
Qed.

(** ** Non-vacuity *)

(** two observations; the second is not offered the alternatives of nest "far" *)
Definition exn_cols : long_cols :=
  mkLong [5; 5; 5; 5; 2; 2]%Z [1; 2; 3; 4; 2; 1]%Z (Some [0; 0; 1; 0; 1; 0]%Z) None.
Definition exn_nests : nest_spec := [("near"%string, [1; 2]%Z); ("far"%string, [4; 3]%Z)].
(** the same with alternative 3 offered to observation 2 *)
Definition exn_cols_full : long_cols :=
  mkLong [5; 5; 5; 5; 2; 2; 2]%Z [1; 2; 3; 4; 2; 1; 3]%Z (Some [0; 0; 1; 0; 1; 0; 0]%Z) None.

Example exn_setup : exists mp rn, nested_setup exn_cols exn_nests mp rn.
Proof.
  eexists. eexists. apply nested_setup_own; try reflexivity.
  repeat constructor; simpl; intuition discriminate.
Qed.

Example exn_setup_full : exists mp rn, nested_setup exn_cols_full exn_nests mp rn.
Proof.
  eexists. eexists. apply nested_setup_own; try reflexivity.
  repeat constructor; simpl; intuition discriminate.
Qed.

Example exn_full_availability :
  forall o q, In o (obs_ids exn_cols_full) -> (q < length exn_nests)%nat -> lacks_nest exn_cols_full exn_nests o q = false.
Proof.
  intros o q Ho Hq. simpl in Ho, Hq. assert (o = 5 \/ o = 2)%Z as [-> | ->] by lia;
    (destruct q as [|[|q]]; [reflexivity|reflexivity|lia]).
Qed.

Example exn_one_choice : exactly_one_choice exn_cols /\ exactly_one_choice exn_cols_full.
Proof.
  split; eexists; (split; [reflexivity|]); split.
  - intros i Hi. simpl in Hi. do 6 (destruct i as [|i]; [simpl; auto|]). lia.
  - intros o Ho. simpl in Ho. assert (o = 5 \/ o = 2)%Z as [-> | ->] by lia; [exists 2%nat|exists 4%nat];
      simpl; repeat split; try lia; intros i' Hi' E C;
      do 6 (destruct i' as [|i']; [simpl in *; try lia; try discriminate|]); lia.
  - intros i Hi. simpl in Hi. do 7 (destruct i as [|i]; [simpl; auto|]). lia.
  - intros o Ho. simpl in Ho. assert (o = 5 \/ o = 2)%Z as [-> | ->] by lia; [exists 2%nat|exists 4%nat];
      simpl; repeat split; try lia; intros i' Hi' E C;
      do 7 (destruct i' as [|i']; [simpl in *; try lia; try discriminate|]); lia.
Qed.

Example exn_weights : observation_weights exn_cols None (fun _ => 1).
Proof. intros i Hi. simpl. lra. Qed.

(** The gradient really is wrong on the first dataset, at every parameter vector. *)
Example exn_wrong_gradient : exists mp rn, nested_setup exn_cols exn_nests mp rn /\
  forall theta, alen theta = 4%nat ->
  ~ nested_gradient_is_derivative (ndata_of exn_cols mp rn 2 (fun i k => INR (i + k)) None None) theta.
Proof.
  destruct exn_setup as (mp & rn & HS). exists mp, rn. split; [exact HS|]. intros theta HL (_ & Hg).
  pose proof (su_Q exn_cols exn_nests mp rn HS 2 (fun i k => INR (i + k)) None None) as EQ.
  apply (C43_refuted_observation_lacking_a_nest exn_cols exn_nests mp rn 2 (fun i k => INR (i + k)) None theta (fun _ => 1) 1 2).
  - exact HS.
  - apply exn_one_choice.
  - apply exn_weights.
  - unfold nested_check_length. rewrite HL, EQ. reflexivity.
  - simpl. lia.
  - simpl. lia.
  - reflexivity.
  - lra.
  - apply Hg. rewrite HL. lia.
Qed.

(** A degenerate nest. *)
Example exn_degenerate : identify_degenerate_nests ex_nests = [1%nat] /\
  NoDup (combine (obs_ids ex_cols) (alt_ids ex_cols)) /\ exists mp rn, nested_setup ex_cols ex_nests mp rn.
Proof.
  split; [reflexivity|]. split.
  - repeat constructor; simpl; intuition discriminate.
  - eexists. eexists. apply nested_setup_own; try reflexivity.
    repeat constructor; simpl; intuition discriminate.
Qed.

Print Assumptions C39_nested_probabilities.
Print Assumptions C39_nested_chosen_probs.
Print Assumptions C40_textbook_factors.
Print Assumptions C40_sums.
Print Assumptions C41_unit_nests_is_mnl.
Print Assumptions C42_nest_coefs_in_unit_interval.
Print Assumptions C43_gradient_exactly.
Print Assumptions C43_nested_gradient.
Print Assumptions C43_nested_index_gradient.
Print Assumptions C43_refuted_observation_lacking_a_nest.
Print Assumptions C43_refuted_ridge.
Print Assumptions C44_bhhh_symmetric_nsd.
Print Assumptions C44_score_rows.
Print Assumptions C44_constrained_positions_decoupled.
Print Assumptions C44_inverse_of_decoupled.
Print Assumptions C65_degenerate_nests_do_not_matter.
Print Assumptions C66_refuted_nested_robust_variances.
Print Assumptions C14_nested_split_is_lossless.
