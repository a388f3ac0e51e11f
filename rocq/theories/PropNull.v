(** C37 for the mixed and nested logits: the log-likelihood at the zero vector. *)
From Coq Require Import String ZArith List Reals Lra Lia Arith Bool.
From Coquelicot Require Import Coquelicot.
From Verif Require Import Res Vec Arr SpecLogit ChoiceCalcs ChoiceFacts Transforms Ids Mappings
  MappingFacts LongData LogitFacts RowDeriv HessFacts ProbFacts PropMappings PropProbs PropGradient
  PropGradientLimits PropHessian PropLikelihood Frame ChoiceTools BaseModel NestedCalcs NestedFacts PropNested
  MixedCalcs MixedFacts PropMixed.
Import ListNotations.
Open Scope R_scope.

(** ** Mixed logit: equal shares for every draw *)
Lemma zero_prob d K X pos nR draws w ridge E i r n :
  mixed_data_of d K X pos nR draws w ridge = Ok E -> (i < length (obs_ids d))%nat ->
  prob_array E (zeros n) i r = / INR (rows_of (obs_ids d) (nth i (obs_ids d) 0%Z)).
Proof.
  intros H Hi. pose proof (mixed_own _ _ _ _ _ _ _ _ _ H) as HO. pose proof (mixed_N _ _ _ _ _ _ _ _ _ H) as HN.
  rewrite (pa_eq E _ HO) by (rewrite HN; exact Hi).
  assert (V : forall k, exp (clip_exponent (vv E (zeros n) k r)) = 1).
  { intros k. unfold vv, sys_utilities, mvec. cbn [zeros aget].
    rewrite (sumn_eq0 _ _) by (intros; ring). rewrite clip_id; [apply exp_0|]. unfold unclipped, min_exponent_val, max_exponent_val. lra. }
  rewrite V. rewrite HN, osum_id_sum by exact Hi.
  rewrite (id_sum_ext _ _ _ (fun _ => 1)) by (intros; apply V). rewrite id_sum_const.
  assert (0 < INR (rows_of (obs_ids d) (nth i (obs_ids d) 0%Z))).
  { apply lt_0_INR. apply count_occ_In. apply nth_In. exact Hi. }
  field. lra.
Qed.

Theorem C37_mixed_null_log_likelihood d K X pos nR draws w ridge E wu row :
  mixed_data_of d K X pos nR draws w ridge = Ok E -> mixing_ids_per_row d -> (1 < nR)%nat ->
  unit_weights d w wu -> exactly_one_choice d -> picks_chosen_rows d row ->
  calc_mixed_log_likelihood E (zeros (x_vars E)) =
  - sumn (length (first_seen (obs_ids d)))
      (fun j => eff_weights w (row j) * ln (INR (rows_of (obs_ids d) (nth j (first_seen (obs_ids d)) 0%Z)))).
Proof.
  intros H HL HR Hw Hone Hrow.
  pose proof (mixed_own _ _ _ _ _ _ _ _ _ H) as HO. pose proof (mixed_unit _ _ _ _ _ _ _ _ _ H HL) as HU.
  pose proof (mixed_N _ _ _ _ _ _ _ _ _ H) as HN.
  destruct (mixed_setup _ _ _ _ _ _ _ _ _ H) as (mp & Hmp & ED & Er & EV & Em & _).
  assert (HR1 : x_draws E <> 1%nat) by lia.
  rewrite (mll_eq E _ HU HR1 (fun j => wu (nth j (first_seen (mix_of d)) 0%Z)) (unit_Wu d K X pos nR draws w ridge E wu H HL Hw)).
  assert (Z : asumsq (zeros (x_vars E)) = 0) by (unfold asumsq; apply sumn_eq0; intros; cbn [zeros aget]; ring).
  rewrite Z, Rmult_0_r, Rminus_0_r.
  set (N := length (obs_ids d)) in *. set (un := own_of (mix_of d)) in *.
  set (f := fun i => choice_vec d i * - ln (INR (rows_of (obs_ids d) (nth i (obs_ids d) 0%Z)))).
  assert (P0 : forall i, (i < N)%nat -> 0 < INR (rows_of (obs_ids d) (nth i (obs_ids d) 0%Z))).
  { intros i Hi. apply lt_0_INR. apply count_occ_In. apply nth_In. exact Hi. }
  assert (S : forall u, ln (sim E un (zeros (x_vars E)) u) = osum N un u f).
  { intros u. unfold sim. rewrite Er.
    rewrite (sumn_ext nR _ (fun _ => exp (osum N un u f))).
    - rewrite sumn_const. assert (0 < INR nR) by (apply lt_0_INR; lia).
      replace (INR nR * exp (osum N un u f) / INR nR) with (exp (osum N un u f)) by (field; lra). apply ln_exp.
    - intros r _. f_equal. unfold lseq. rewrite HN. apply osum_ext. intros i Hi _. rewrite ED. change (d_y _) with (choice_vec d).
      rewrite (zero_prob _ _ _ _ _ _ _ _ _ _ _ _ H Hi). rewrite ln_Rinv by (apply P0; exact Hi). reflexivity. }
  rewrite (sumn_ext _ _ (fun u => osum N un u (fun i => eff_weights w i * f i))).
  2: { intros u Hu. rewrite S. rewrite <- osum_scal_l. apply osum_ext. intros i Hi Eu. f_equal.
       rewrite (proj1 (Hw i Hi)). f_equal. rewrite <- Eu. unfold un, own_of. apply nth_index_of. apply first_seen_In.
       apply nth_In. unfold mixing_ids_per_row in HL. unfold N in Hi. rewrite HL. exact Hi. }
  rewrite <- (sumn_by_obs N (x_mixers E) un).
  2: { intros i Hi. rewrite <- HN in Hi. apply HU. exact Hi. }
  unfold N. rewrite sumn_by_ids, suml_seq, <- sumn_opp. apply sumn_ext. intros j Hj.
  rewrite (id_sum_ext _ _ _ (fun i => choice_vec d i * (eff_weights w i * - ln (INR (rows_of (obs_ids d) (nth i (obs_ids d) 0%Z)))))).
  2: { intros. unfold f. ring. }
  rewrite (id_sum_chosen d row _ j Hone Hrow Hj). destruct (Hrow j Hj) as (_ & -> & _). ring.
Qed.

(** ** Nested logit: all nest coefficients are 1/2 at the zero vector *)

(** Number of rows of observation [o] in nest [q]. *)
Definition rows_in_nest (d : long_cols) (t : nest_spec) (o : Z) (q : nat) : nat :=
  length (filter (row_in d t o q) (seq 0 (length (obs_ids d)))).

Lemma nest_sum_one d t o q : nest_sum d t o q (fun _ => 1) = INR (rows_in_nest d t o q).
Proof.
  unfold nest_sum, rows_in_nest. generalize (length (obs_ids d)). intros n. induction n as [|n IH]; [reflexivity|].
  rewrite seq_S, filter_app, app_length, plus_INR. cbn [sumn Nat.add]. rewrite IH. f_equal. cbn [filter].
  destruct (row_in d t o q n); reflexivity.
Qed.

Lemma lacks_zero d t o q : lacks_nest d t o q = true <-> rows_in_nest d t o q = 0%nat.
Proof.
  unfold lacks_nest, rows_in_nest. induction (seq 0 (length (obs_ids d))) as [|i l IH]; [split; reflexivity|]. cbn [existsb filter].
  destruct (row_in d t o q i); cbn; [split; discriminate|exact IH].
Qed.

Theorem C37_nested_null_probabilities d t mp rn K X w ridge i q :
  nested_setup d t mp rn -> (i < length (obs_ids d))%nat -> (q < length t)%nat ->
  In (nth i (alt_ids d) 0%Z) (nest_alts t q) ->
  let E := ndata_of d mp rn K X w ridge in
  let o := nth i (obs_ids d) 0%Z in
  nested_long_probs E (naturalize_nest_coefs (aget (zeros (length t)))) (zeros K) i =
  / sqrt (INR (rows_in_nest d t o q)) / sumn (length t) (fun q' => sqrt (INR (rows_in_nest d t o q'))).
Proof.
  intros HS Hi Hq Hin E o. set (nests := naturalize_nest_coefs (aget (zeros (length t)))).
  assert (H2 : forall q, nests q = / 2).
  { intros q'. unfold nests, naturalize_nest_coefs, nonzero. cbn [zeros aget]. rewrite Rmult_0_r, exp_0.
    destruct (Req_EM_T _ _); lra. }
  assert (Hpos : positive_nests t nests) by (intros q' _; rewrite H2; lra).
  set (j := index_of o (first_seen (obs_ids d))).
  assert (Ho : In o (first_seen (obs_ids d))) by (apply first_seen_In, nth_In; exact Hi).
  assert (Hj : (j < length (first_seen (obs_ids d)))%nat) by (apply index_of_lt; exact Ho).
  assert (Eo : nth j (first_seen (obs_ids d)) 0%Z = o) by (apply nth_index_of; exact Ho).
  destruct (C40_textbook_factors d t mp rn K X w ridge nests (zeros K) _ HS Hpos eq_refl i q j Hi Hq Hin Hj ltac:(rewrite Eo; reflexivity))
    as (A & B & C).
  cbn [nd_long nd_given_nest nd_nest] in A, B, C. fold E in A, B, C. etransitivity; [exact C|]. rewrite A, B, Eo. unfold E.
  assert (V : forall r, sys_utilities (n_D (ndata_of d mp rn K X w ridge)) (zeros K) r = 0).
  { intros r. unfold sys_utilities, mvec. apply sumn_eq0. intros. cbn [zeros aget]. ring. }
  assert (NS : forall q', nest_sum d t o q' (fun r => exp (sys_utilities (n_D (ndata_of d mp rn K X w ridge)) (zeros K) r / nests q')) = INR (rows_in_nest d t o q')).
  { intros q'. rewrite <- nest_sum_one. unfold nest_sum. apply sumn_ext. intros r _. rewrite V. unfold Rdiv. rewrite Rmult_0_l, exp_0. reflexivity. }
  assert (AT : forall q', nest_attraction d t (sys_utilities (n_D (ndata_of d mp rn K X w ridge)) (zeros K)) nests o q' = sqrt (INR (rows_in_nest d t o q'))).
  { intros q'. unfold nest_attraction, inclusive_value. rewrite NS, H2.
    destruct (lacks_nest d t o q') eqn:L.
    - apply lacks_zero in L. rewrite L. symmetry. apply sqrt_0.
    - assert (0 < INR (rows_in_nest d t o q')).
      { apply lt_0_INR. destruct (Nat.eq_dec (rows_in_nest d t o q') 0) as [Z|]; [apply lacks_zero in Z; congruence|lia]. }
      rewrite <- Rpower_sqrt by assumption. reflexivity. }
  rewrite NS, V, AT. rewrite (sumn_ext _ _ (fun q' => sqrt (INR (rows_in_nest d t o q')))) by (intros; apply AT).
  replace (0 / nests q) with 0 by (unfold Rdiv; ring). rewrite exp_0.
  assert (P : 0 < INR (rows_in_nest d t o q)).
  { apply lt_0_INR. unfold rows_in_nest.
    assert (In i (filter (row_in d t o q) (seq 0 (length (obs_ids d))))).
    { apply filter_In. split; [apply in_seq; lia|]. unfold row_in. apply andb_true_iff. split; [apply Z.eqb_refl|]. apply zmem_In. exact Hin. }
    destruct (filter _ _); [contradiction|cbn; lia]. }
  assert (SP : 0 < sqrt (INR (rows_in_nest d t o q))) by (apply sqrt_lt_R0; exact P).
  assert (SS : 0 < sumn (length t) (fun q' => sqrt (INR (rows_in_nest d t o q')))).
  { apply (sumn_pos _ _ q); [intros; apply sqrt_pos|exact Hq|exact SP]. }
  rewrite <- (sqrt_sqrt (INR (rows_in_nest d t o q))) at 2 by lra. field. split; lra.
Qed.

(** What the package reports as the null log-likelihood of a nested logit, for every data set;
    [nest j] is the nest of the alternative chosen in the [j]-th observation. *)
Theorem C37_nested_null_log_likelihood d t mp rn K X w ridge row nest :
  nested_setup d t mp rn -> exactly_one_choice d -> picks_chosen_rows d row ->
  (forall j, (j < length (first_seen (obs_ids d)))%nat ->
     (nest j < length t)%nat /\ In (nth (row j) (alt_ids d) 0%Z) (nest_alts t (nest j))) ->
  let E := ndata_of d mp rn K X w ridge in
  nested_est_log_likelihood E (zeros (length t + K)) =
  sumn (length (first_seen (obs_ids d)))
    (fun j => let o := nth j (first_seen (obs_ids d)) 0%Z in
       eff_weights w (row j) *
       ln (/ sqrt (INR (rows_in_nest d t o (nest j))) / sumn (length t) (fun q => sqrt (INR (rows_in_nest d t o q)))))
  - match ridge with None => 0 | Some r => r * (INR (length t) / 4) end.
Proof.
  intros HS Hone Hrow Hn E.
  pose proof (su_Q d t mp rn HS K X w ridge) as EQ. fold E in EQ.
  assert (Hlp : forall i, nested_long_probs E (naturalize_nest_coefs (aget (aslice 0 (length t) (zeros (length t + K)))))
      (aslice (length t) (length t + K - length t) (zeros (length t + K))) i
      = nested_long_probs E (naturalize_nest_coefs (aget (zeros (length t)))) (zeros K) i).
  { intros i. unfold aslice. cbn [zeros aget alen]. replace (length t + K - length t)%nat with K by lia. reflexivity. }
  unfold nested_est_log_likelihood, nested_split. rewrite EQ. cbn [zeros alen]. fold (zeros (length t + K)).
  unfold calc_nested_log_likelihood. change (d_ridge (n_D E)) with ridge. change (d_w (n_D E)) with w.
  change (d_y (n_D E)) with (choice_vec d). change (d_N (n_D E)) with (length (obs_ids d)).
  assert (L : vdot (length (obs_ids d)) (choice_vec d)
      (fun i => eff_weights w i * ln (nested_long_probs E (naturalize_nest_coefs (aget (aslice 0 (length t) (zeros (length t + K)))))
      (aslice (length t) (length t + K - length t) (zeros (length t + K))) i)) =
    sumn (length (first_seen (obs_ids d)))
    (fun j => let o := nth j (first_seen (obs_ids d)) 0%Z in
       eff_weights w (row j) *
       ln (/ sqrt (INR (rows_in_nest d t o (nest j))) / sumn (length t) (fun q => sqrt (INR (rows_in_nest d t o q)))))).
  { unfold vdot. rewrite sumn_by_ids, suml_seq. apply sumn_ext. intros j Hj.
    rewrite (id_sum_chosen d row _ j Hone Hrow Hj). cbv zeta.
    destruct (Hrow j Hj) as (Hr & Eo & _). destruct (Hn j Hj) as (Hq & Hin). rewrite Hlp. unfold E.
    rewrite (C37_nested_null_probabilities d t mp rn K X w ridge (row j) (nest j) HS Hr Hq Hin). rewrite Eo. reflexivity. }
  destruct ridge as [r|]; rewrite L; [|rewrite Rminus_0_r; reflexivity]. f_equal. f_equal. rewrite EQ.
  unfold asumsq, acat. cbn [alen aget aslice]. rewrite sumn_app.
  rewrite (sumn_ext (length t) _ (fun _ => / 4)).
  - rewrite sumn_const. rewrite (sumn_eq0 _ _); [unfold Rdiv; ring|]. intros k Hk. unfold vcat.
    destruct (Nat.ltb_spec (length t + k) (length t)); [lia|]. cbn [zeros aget]. ring.
  - intros q Hq. unfold vcat. destruct (Nat.ltb_spec q (length t)); [|lia].
    unfold naturalize_nest_coefs, nonzero, aslice. cbn [zeros aget]. rewrite Rmult_0_r, exp_0.
    destruct (Req_EM_T _ _); lra.
Qed.

(** One observation, three alternatives, nests {1} and {2, 3}; alternative 1 is chosen. *)
Definition null_cols : long_cols := mkLong [7; 7; 7]%Z [1; 2; 3]%Z (Some [1; 0; 0]%Z) None.
Definition null_nests : nest_spec := [("alone"%string, [1]%Z); ("pair"%string, [2; 3]%Z)].

Lemma null_one_choice : exactly_one_choice null_cols.
Proof.
  eexists. split; [reflexivity|]. split.
  - intros i Hi. simpl in Hi. do 3 (destruct i as [|i]; [simpl; auto|]). lia.
  - intros o Ho. simpl in Ho. assert (o = 7)%Z as -> by lia. exists 0%nat.
    simpl; repeat split; try lia. intros i' Hi' E C.
    do 3 (destruct i' as [|i']; [simpl in *; try lia; try discriminate|]); lia.
Qed.

Lemma null_picks : picks_chosen_rows null_cols (fun _ => 0%nat).
Proof.
  intros j Hj. change (length (first_seen (obs_ids null_cols))) with 1%nat in Hj. assert (j = 0)%nat as -> by lia.
  split; [cbn; lia|]. split; reflexivity.
Qed.

(** The nested logit's null log-likelihood is [- ln (1 + sqrt 2)], that of shares
    [sqrt 2 - 1] : [1 - 1/sqrt 2] : [1 - 1/sqrt 2], and not the equal-shares value [- ln 3]. *)
Theorem C37_refuted_nested :
  exists d t mp rn, nested_setup d t mp rn /\ exactly_one_choice d /\ picks_chosen_rows d (fun _ => 0%nat) /\
  forall K X, let E := ndata_of d mp rn K X None None in
  nested_est_log_likelihood E (zeros (length t + K)) = - ln (1 + sqrt 2) /\
  nested_est_log_likelihood E (zeros (length t + K)) <>
  - sumn (length (first_seen (obs_ids d)))
      (fun j => eff_weights None 0%nat * ln (INR (rows_of (obs_ids d) (nth j (first_seen (obs_ids d)) 0%Z)))).
Proof.
  assert (exists mp rn, nested_setup null_cols null_nests mp rn) as (mp & rn & HS).
  { eexists. eexists. apply nested_setup_own; try reflexivity. repeat constructor; simpl; intuition discriminate. }
  exists null_cols, null_nests, mp, rn. split; [exact HS|]. split; [apply null_one_choice|]. split; [apply null_picks|].
  intros K X E.
  assert (V : nested_est_log_likelihood E (zeros (length null_nests + K)) = - ln (1 + sqrt 2)).
  { unfold E. rewrite (C37_nested_null_log_likelihood _ _ _ _ K X None None (fun _ => 0%nat) (fun _ => 0%nat) HS null_one_choice null_picks).
    2: { intros j _. split; [cbn; lia|]. cbn. auto. }
    change (length (first_seen (obs_ids null_cols))) with 1%nat. change (length null_nests) with 2%nat.
    cbn [sumn]. change (nth 0 (first_seen (obs_ids null_cols)) 0%Z) with 7%Z.
    change (rows_in_nest null_cols null_nests 7 0) with 1%nat. change (rows_in_nest null_cols null_nests 7 1) with 2%nat.
    cbn [eff_weights INR]. rewrite sqrt_1. replace (1 + 1) with 2 by ring.
    pose proof (sqrt_lt_R0 2 ltac:(lra)).
    replace (/ 1 / (0 + 1 + sqrt 2)) with (/ (1 + sqrt 2)) by (field; lra). rewrite ln_Rinv by lra. ring. }
  split; [exact V|]. rewrite V. change (length (first_seen (obs_ids null_cols))) with 1%nat.
  change (rows_of (obs_ids null_cols) (nth 0 (first_seen (obs_ids null_cols)) 0%Z)) with 3%nat. cbn [sumn].
  change (rows_of (obs_ids null_cols) (nth 0 (first_seen (obs_ids null_cols)) 0%Z)) with 3%nat. cbn [eff_weights INR].
  intros H. assert (H2 : sqrt 2 < 2) by (rewrite <- (sqrt_square 2) at 2 by lra; apply sqrt_lt_1; lra).
  pose proof (sqrt_lt_R0 2 ltac:(lra)).
  assert (ln (1 + sqrt 2) < ln (1 + 1 + 1)) by (apply ln_increasing; lra). lra.
Qed.

(** Non-vacuity of the mixed theorem: on the data of PropMixed's example, three observations
    of two alternatives each, the null log-likelihood is [- 3 ln 2]. *)
Example exm_null ridge : exists E, mixed_data_of exm_cols 2 exm_X [1%nat] 2 exm_draws None ridge = Ok E /\
  calc_mixed_log_likelihood E (zeros (x_vars E)) = - (3 * ln 2).
Proof.
  destruct (exm_data ridge) as (E & H & _). exists E. split; [exact H|].
  destruct exm_hypotheses as (HL & _ & _ & Hone & Hw & _).
  rewrite (C37_mixed_null_log_likelihood _ _ _ _ _ _ _ _ E (fun _ => 1) (fun j => nth j [0; 3; 4]%nat 0%nat) H HL ltac:(lia) Hw Hone).
  - change (length (first_seen (obs_ids exm_cols))) with 3%nat. cbn [sumn nth].
    change (rows_of (obs_ids exm_cols) (nth 0 (first_seen (obs_ids exm_cols)) 0%Z)) with 2%nat.
    change (rows_of (obs_ids exm_cols) (nth 1 (first_seen (obs_ids exm_cols)) 0%Z)) with 2%nat.
    change (rows_of (obs_ids exm_cols) (nth 2 (first_seen (obs_ids exm_cols)) 0%Z)) with 2%nat.
    cbn [eff_weights INR]. replace (1 + 1) with 2 by ring. ring.
  - intros j Hj. change (length (first_seen (obs_ids exm_cols))) with 3%nat in Hj.
    do 3 (destruct j as [|j]; [cbn; repeat split; lia|]). lia.
Qed.

Print Assumptions C37_mixed_null_log_likelihood.
Print Assumptions C37_nested_null_probabilities.
Print Assumptions C37_nested_null_log_likelihood.
Print Assumptions C37_refuted_nested.
