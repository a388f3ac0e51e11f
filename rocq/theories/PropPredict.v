(** Properties C16, C74-C76: predict().

    [m] ranges over all fitted models of the seven types, [f] over all tables,
    [pl] over all param_list arguments made of one-dimensional arrays and Nones,
    [nd] and [rvs] over all numbers of draws and random draws. *)
From Coq Require Import String ZArith List Reals Lra Lia Arith.
From Coquelicot Require Import Coquelicot.
From Verif Require Import Res Vec Arr SpecLogit ChoiceCalcs ChoiceFacts Transforms Ids Mappings MappingFacts
  LongData LogitFacts ProbFacts Frame ChoiceTools BaseModel NestedCalcs MixedCalcs MixedFacts PropMixed Estimation
  PropProbs PropMappings PropBaseModel PropNested Predict.
Import ListNotations.
Open Scope R_scope.

(** ** Consequences of a successful prediction *)

(** The checks that do not depend on what is requested. *)
Definition request_independent_checks (m : fitted_model) (f : frame) (pl : option (list (option arr))) : Res unit :=
  let dataframe := add_intercept_to_dataframe (fm_spec m) f in
  do _ <- ensure_columns_are_in_dataframe [fm_alt_col m] dataframe;
  do _ <- ensure_columns_are_in_dataframe [fm_obs_col m] dataframe;
  do _ <- match fm_mix_col m with
          | Some c => ensure_columns_are_in_dataframe [c] dataframe
          | None => Ok tt
          end;
  check_param_list_validity (fm_names m) (option_map (map elem_of) pl).

Definition dispatch (m : fitted_model) (cols : list (list R)) (d : long_cols) (mp : mappings) (pr : params)
    (rlp : bool) (nd : option nat) (rvs : nat -> mat) (r : prob_result) : Prop :=
  match fm_class m with
  | ClassLogit k =>
      predict_logit k (data_of d mp (length cols) (design_mat cols) None None) pr
        (option_map smat_R (chosen_row_to_obs mp)) rlp = Ok r
  | ClassNested _ => exists rn, rows_to_nests mp = Some rn /\
      predict_nested (mkNData (data_of d mp (length cols) (design_mat cols) None None) (s_cols rn) (smat_R rn)) pr
        (option_map smat_R (chosen_row_to_obs mp)) rlp = Ok r
  | ClassMixed pos =>
      predict_mixed d mp (length cols) (design_mat cols) pos pr nd rvs
        (option_map smat_R (chosen_row_to_obs mp)) rlp = Ok r
  end.

Lemma predict_ok m f pl rlp cc nd rvs r :
  predict m f pl rlp cc nd rvs = Ok r <->
  request_independent_checks m f pl = Ok tt /\ (rlp = true \/ exists c, cc = Some c) /\
  exists cols names d mp pr,
    create_design_matrix (add_intercept_to_dataframe (fm_spec m) f) (fm_spec m) (fm_alt_col m) (fm_name_spec m)
      = Ok (cols, names) /\
    long_cols_of (add_intercept_to_dataframe (fm_spec m) f) (fm_obs_col m) (fm_alt_col m) cc (fm_mix_col m) = Ok d /\
    create_long_form_mappings d (class_nests (fm_class m)) = Ok mp /\
    prediction_params m pl = Ok pr /\ dispatch m cols d mp pr rlp nd rvs r.
Proof.
  unfold predict, request_independent_checks. set (f' := add_intercept_to_dataframe _ _). split.
  - intros H.
    apply bind_ok in H. destruct H as ([] & H1 & H). apply bind_ok in H. destruct H as ([] & H2 & H).
    apply bind_ok in H. destruct H as ([] & H3 & H). apply bind_ok in H. destruct H as ([] & H4 & H).
    apply bind_ok in H. destruct H as ([] & H5 & H). apply bind_ok in H. destruct H as ([cols names] & Hd & H).
    cbn [fst] in H. apply bind_ok in H. destruct H as (d & Hl & H). apply bind_ok in H. destruct H as (mp & Hm & H).
    apply bind_ok in H. destruct H as (pr & Hp & H).
    rewrite H1, H2, H3. split; [exact H4|]. split.
    { unfold check_for_choice_col_based_on_return_long_probs in H5. destruct rlp; [left; reflexivity|].
      destruct cc; [right; eauto|discriminate]. }
    exists cols, names, d, mp, pr. repeat (split; [assumption|]).
    unfold dispatch. destruct (fm_class m); try exact H. apply bind_ok in H. destruct H as (rn & Hr & H). exists rn.
    destruct (rows_to_nests mp); inversion Hr; subst. split; [reflexivity|exact H].
  - intros (H & Hc & cols & names & d & mp & pr & Hd & Hl & Hm & Hp & Hr).
    apply bind_ok in H. destruct H as ([] & H1 & H). apply bind_ok in H. destruct H as ([] & H2 & H).
    apply bind_ok in H. destruct H as ([] & H3 & H4).
    rewrite H1, H2, H3, H4. cbn [bind].
    assert (H5 : check_for_choice_col_based_on_return_long_probs rlp (given cc) = Ok tt).
    { unfold check_for_choice_col_based_on_return_long_probs. destruct Hc as [->|(c & ->)]; [reflexivity|destruct rlp; reflexivity]. }
    rewrite H5, Hd. cbn [bind fst]. rewrite Hl. cbn [bind]. rewrite Hm. cbn [bind]. rewrite Hp. cbn [bind].
    unfold dispatch in Hr. destruct (fm_class m); try exact Hr. destruct Hr as (rn & -> & Hr). exact Hr.
Qed.

(** Without the choice column the table reads the same but for the choices. *)
Lemma cols_without_choices f oc ac c mc d : long_cols_of f oc ac (Some c) mc = Ok d ->
  long_cols_of f oc ac None mc = Ok (mkLong (obs_ids d) (alt_ids d) None (mix_ids d)) /\
  exists l, choices d = Some l.
Proof.
  unfold long_cols_of. intros H. apply bind_ok in H. destruct H as (o & Ho & H).
  apply bind_ok in H. destruct H as (a & Ha & H). apply bind_ok in H. destruct H as (ch & Hc & H).
  apply bind_ok in H. destruct H as (mx & Hm & H). inversion H; subst; clear H.
  rewrite Ho, Ha, Hm. split; [reflexivity|]. cbn [opt_int_col] in Hc. apply bind_ok in Hc. destruct Hc as (l & _ & Hc).
  inversion Hc. cbn. eauto.
Qed.

Lemma mappings_without_choices d spec mp : create_long_form_mappings d spec = Ok mp ->
  create_long_form_mappings (mkLong (obs_ids d) (alt_ids d) None (mix_ids d)) spec =
  Ok (mkMappings (rows_to_obs mp) (rows_to_alts mp) None (rows_to_nests mp) (rows_to_mixers mp)).
Proof.
  unfold create_long_form_mappings. intros H. apply bind_ok in H. destruct H as (r & Hr & H).
  inversion H; subst; clear H. cbn. destruct spec; [|inversion Hr; reflexivity].
  apply bind_ok in Hr. destruct Hr as (x & Hx & Hr). inversion Hr; subst. rewrite Hx. reflexivity.
Qed.

(** ** C16: what is returned *)

Theorem C16_nothing_requested_raises m f pl nd rvs : exists e, predict m f pl false None nd rvs = Err e.
Proof.
  destruct (predict m f pl false None nd rvs) as [r|e] eqn:E; [|eauto].
  apply predict_ok in E. destruct E as (_ & [C|(c & C)] & _); discriminate.
Qed.

(** Logit-type models: with both requested, the pair of exactly the two arrays that
    the two single requests return; with one requested, that one. *)
Theorem C16_logit_returns_what_is_requested m k f pl nd rvs c :
  fm_class m = ClassLogit k ->
  (forall r, predict m f pl true (Some c) nd rvs = Ok r ->
     exists pc lp, r = BothProbs pc lp /\
       predict m f pl true None nd rvs = Ok (LongProbs lp) /\
       predict m f pl false (Some c) nd rvs = Ok (ChosenProbs pc)) /\
  (forall r, predict m f pl true None nd rvs = Ok r -> exists lp, r = LongProbs lp) /\
  (forall r, predict m f pl false (Some c) nd rvs = Ok r -> exists pc, r = ChosenProbs pc).
Proof.
  intros Ek. split; [|split].
  - intros r H. apply predict_ok in H.
    destruct H as (Hch & _ & cols & names & d & mp & pr & Hd & Hl & Hm & Hp & Hr).
    destruct (cols_without_choices _ _ _ _ _ _ Hl) as (Hl' & cs & Hcs).
    pose proof (mappings_ok _ _ _ Hm) as (_ & _ & Ech). rewrite Hcs in Ech.
    unfold dispatch in Hr. rewrite Ek, Ech in Hr. cbn [option_map] in Hr. unfold predict_logit in Hr.
    apply bind_ok in Hr. destruct Hr as ([] & G1 & Hr). apply bind_ok in Hr. destruct Hr as (ic & G2 & Hr).
    apply bind_ok in Hr. destruct Hr as ([] & G3 & Hr). cbn in Hr. inversion Hr; subst r; clear Hr.
    do 2 eexists. split; [reflexivity|]. split.
    + apply predict_ok. split; [exact Hch|]. split; [left; reflexivity|].
      exists cols, names. do 2 eexists. exists pr. split; [exact Hd|]. split; [exact Hl'|].
      split; [exact (mappings_without_choices _ _ _ Hm)|]. split; [exact Hp|].
      unfold dispatch. rewrite Ek. unfold predict_logit. cbn in G1, G2, G3 |- *. rewrite G1, G2, G3. reflexivity.
    + apply predict_ok. split; [exact Hch|]. split; [right; eauto|].
      exists cols, names, d, mp, pr. repeat (split; [assumption|]).
      unfold dispatch. rewrite Ek, Ech. unfold predict_logit. rewrite G1, G2, G3. reflexivity.
  - intros r H. apply predict_ok in H.
    destruct H as (Hch & _ & cols & names & d & mp & pr & Hd & Hl & Hm & Hp & Hr).
    assert (Hcs : choices d = None).
    { unfold long_cols_of in Hl. apply bind_ok in Hl. destruct Hl as (? & _ & Hl). apply bind_ok in Hl. destruct Hl as (? & _ & Hl).
      cbn in Hl. apply bind_ok in Hl. destruct Hl as (? & _ & Hl). inversion Hl. reflexivity. }
    pose proof (mappings_ok _ _ _ Hm) as (_ & _ & Ech). rewrite Hcs in Ech.
    unfold dispatch in Hr. rewrite Ek, Ech in Hr. unfold predict_logit in Hr.
    apply bind_ok in Hr. destruct Hr as ([] & G1 & Hr). apply bind_ok in Hr. destruct Hr as (ic & G2 & Hr).
    apply bind_ok in Hr. destruct Hr as ([] & G3 & Hr). inversion Hr. eauto.
  - intros r H. apply predict_ok in H.
    destruct H as (Hch & _ & cols & names & d & mp & pr & Hd & Hl & Hm & Hp & Hr).
    destruct (cols_without_choices _ _ _ _ _ _ Hl) as (Hl' & cs & Hcs).
    pose proof (mappings_ok _ _ _ Hm) as (_ & _ & Ech). rewrite Hcs in Ech.
    unfold dispatch in Hr. rewrite Ek, Ech in Hr. unfold predict_logit in Hr.
    apply bind_ok in Hr. destruct Hr as ([] & G1 & Hr). apply bind_ok in Hr. destruct Hr as (ic & G2 & Hr).
    apply bind_ok in Hr. destruct Hr as ([] & G3 & Hr). inversion Hr. eauto.
Qed.

Lemma cols_no_choices f oc ac mc d : long_cols_of f oc ac None mc = Ok d -> choices d = None.
Proof.
  unfold long_cols_of. intros H. apply bind_ok in H. destruct H as (? & _ & H). apply bind_ok in H. destruct H as (? & _ & H).
  cbn in H. apply bind_ok in H. destruct H as (? & _ & H). inversion H. reflexivity.
Qed.

(** Nested models: each single request is answered as promised ... *)
Theorem C16_nested_single_requests m t f pl nd rvs c :
  fm_class m = ClassNested t ->
  (forall r, predict m f pl true None nd rvs = Ok r -> exists lp, r = LongProbs lp) /\
  (forall r, predict m f pl false (Some c) nd rvs = Ok r -> exists pc, r = ChosenProbs pc).
Proof.
  intros Ek. split; intros r H; apply predict_ok in H;
    destruct H as (_ & _ & cols & names & d & mp & pr & _ & Hl & Hm & _ & Hr);
    unfold dispatch in Hr; rewrite Ek in Hr; destruct Hr as (rn & _ & Hr); unfold predict_nested in Hr;
    destruct (pr_nests pr); try discriminate;
    apply bind_ok in Hr; destruct Hr as (_ & _ & Hr); apply bind_ok in Hr; destruct Hr as (_ & _ & Hr);
    apply bind_ok in Hr; destruct Hr as (x & Hx & Hr).
  - inversion Hx; subst x. inversion Hr. eauto.
  - destruct (cols_without_choices _ _ _ _ _ _ Hl) as (_ & cs & Hcs).
    pose proof (mappings_ok _ _ _ Hm) as (_ & _ & Ech). rewrite Hcs in Ech. rewrite Ech in Hx.
    inversion Hx; subst x. inversion Hr. eauto.
Qed.

(** ... but when both arrays are requested only long_probs comes back. *)
Theorem C16_refuted_nested_both m t f pl nd rvs c r :
  fm_class m = ClassNested t ->
  predict m f pl true (Some c) nd rvs = Ok r ->
  (exists lp, r = LongProbs lp /\ predict m f pl true None nd rvs = Ok (LongProbs lp)) /\
  ~ exists pc lp, r = BothProbs pc lp.
Proof.
  intros Ek H. apply predict_ok in H.
  destruct H as (Hch & _ & cols & names & d & mp & pr & Hd & Hl & Hm & Hp & Hr).
  unfold dispatch in Hr; rewrite Ek in Hr; destruct Hr as (rn & Hrn & Hr). unfold predict_nested in Hr.
  destruct (pr_nests pr) as [n|] eqn:En; try discriminate.
  apply bind_ok in Hr; destruct Hr as ([] & G1 & Hr); apply bind_ok in Hr; destruct Hr as ([] & G2 & Hr).
  apply bind_ok in Hr; destruct Hr as (x & Hx & Hr).
  inversion Hx; subst x; clear Hx. inversion Hr; subst r; clear Hr.
  split; [|intros (? & ? & ?); discriminate].
  eexists. split; [reflexivity|]. apply predict_ok. split; [exact Hch|]. split; [left; reflexivity|].
  destruct (cols_without_choices _ _ _ _ _ _ Hl) as (Hl' & _).
  exists cols, names. do 2 eexists. exists pr. split; [exact Hd|]. split; [exact Hl'|].
  split; [exact (mappings_without_choices _ _ _ Hm)|]. split; [exact Hp|].
  unfold dispatch. rewrite Ek. exists rn. split; [exact Hrn|]. unfold predict_nested. rewrite En.
  cbn in G1, G2 |- *. rewrite G1, G2. reflexivity.
Qed.

(** Mixed logit models: single requests are answered as promised ... *)
Theorem C16_mixed_single_requests m pos f pl nd rvs c :
  fm_class m = ClassMixed pos ->
  (forall r, predict m f pl true None nd rvs = Ok r -> exists lp, r = LongProbs lp) /\
  (forall r, predict m f pl false (Some c) nd rvs = Ok r -> exists pc, r = ChosenProbs pc).
Proof.
  intros Ek. split; intros r H; apply predict_ok in H;
    destruct H as (_ & _ & cols & names & d & mp & pr & _ & Hl & Hm & _ & Hr);
    unfold dispatch in Hr; rewrite Ek in Hr; unfold predict_mixed in Hr;
    apply bind_ok in Hr; destruct Hr as (rm & _ & Hr); destruct nd as [nR|]; try discriminate;
    apply bind_ok in Hr; destruct Hr as (dr & _ & Hr); apply bind_ok in Hr; destruct Hr as (E & _ & Hr);
    apply bind_ok in Hr; destruct Hr as (_ & _ & Hr); pose proof (mappings_ok _ _ _ Hm) as (_ & _ & Ech).
  - rewrite (cols_no_choices _ _ _ _ _ Hl) in Ech. rewrite Ech in Hr. cbn in Hr.
    destruct (x_draws E =? 1)%nat; inversion Hr. eauto.
  - destruct (cols_without_choices _ _ _ _ _ _ Hl) as (_ & cs & Hcs). rewrite Hcs in Ech. rewrite Ech in Hr.
    cbn in Hr. destruct (x_draws E =? 1)%nat; inversion Hr. eauto.
Qed.

(** ... but asking for both always raises, and so does every request with one draw. *)
Theorem C16_refuted_mixed_both m pos f pl nd rvs c :
  fm_class m = ClassMixed pos ->
  (exists e, predict m f pl true (Some c) nd rvs = Err e) /\
  forall rlp cc, exists e, predict m f pl rlp cc (Some 1%nat) rvs = Err e.
Proof.
  intros Ek. split.
  - destruct (predict m f pl true (Some c) nd rvs) as [r|e] eqn:H; [|eauto]. exfalso. apply predict_ok in H.
    destruct H as (_ & _ & cols & names & d & mp & pr & _ & Hl & Hm & _ & Hr).
    unfold dispatch in Hr; rewrite Ek in Hr; unfold predict_mixed in Hr.
    apply bind_ok in Hr; destruct Hr as (rm & _ & Hr); destruct nd as [nR|]; try discriminate.
    apply bind_ok in Hr; destruct Hr as (dr & _ & Hr); apply bind_ok in Hr; destruct Hr as (E & _ & Hr).
    apply bind_ok in Hr; destruct Hr as (_ & _ & Hr); pose proof (mappings_ok _ _ _ Hm) as (_ & _ & Ech).
    destruct (cols_without_choices _ _ _ _ _ _ Hl) as (_ & cs & Hcs). rewrite Hcs in Ech. rewrite Ech in Hr. discriminate.
  - intros rlp cc. destruct (predict m f pl rlp cc (Some 1%nat) rvs) as [r|e] eqn:H; [|eauto]. exfalso. apply predict_ok in H.
    destruct H as (_ & _ & cols & names & d & mp & pr & _ & Hl & Hm & _ & Hr).
    unfold dispatch in Hr; rewrite Ek in Hr; unfold predict_mixed in Hr.
    apply bind_ok in Hr; destruct Hr as (rm & _ & Hr).
    apply bind_ok in Hr; destruct Hr as (dr & _ & Hr); apply bind_ok in Hr; destruct Hr as (E & HE & Hr).
    apply bind_ok in Hr; destruct Hr as (_ & _ & Hr).
    destruct (C46_refuted_single_draw_predict _ _ _ _ _ _ _ _ (pr_coefs pr) (option_map smat_R (chosen_row_to_obs mp)) rlp HE) as (e & He).
    rewrite He in Hr. discriminate.
Qed.

(** ** C76: predictions are probabilities, one distribution per observation *)

(** The nest specification is one the constructor accepted for some set of
    alternatives; nest names are dictionary keys. *)
Definition constructed (m : fitted_model) : Prop :=
  match fm_class m with
  | ClassNested t => NoDup (map fst t) /\ exists all, check_nest_spec (raw_of t) (np_unique all) = Ok tt
  | _ => True
  end.

(** [cs] marks exactly one row of every id. *)
Definition one_choice_per_id (ids cs : list Z) : Prop :=
  (forall i, (i < length ids)%nat -> nth i cs 0%Z = 0%Z \/ nth i cs 0%Z = 1%Z) /\
  forall o, In o ids ->
    exists i, (i < length ids)%nat /\ nth i ids 0%Z = o /\ nth i cs 0%Z = 1%Z /\
      forall i', (i' < length ids)%nat -> nth i' ids 0%Z = o -> nth i' cs 0%Z = 1%Z -> i' = i.

Lemma int_col_intercept spec f c : int_col (add_intercept_to_dataframe spec f) c = int_col f c.
Proof. unfold add_intercept_to_dataframe. destruct (assoc _ spec); [|reflexivity]. destruct (has_col f _); reflexivity. Qed.

Lemma cols_of_ok f oc ac cc mc d : long_cols_of f oc ac cc mc = Ok d ->
  int_col f oc = Ok (obs_ids d) /\ int_col f ac = Ok (alt_ids d) /\
  match cc with Some c => exists l, int_col f c = Ok l /\ choices d = Some l | None => choices d = None end /\
  match mc with Some c => exists l, int_col f c = Ok l /\ mix_ids d = Some l | None => mix_ids d = None end.
Proof.
  unfold long_cols_of. intros H. apply bind_ok in H. destruct H as (o & Ho & H).
  apply bind_ok in H. destruct H as (a & Ha & H). apply bind_ok in H. destruct H as (ch & Hc & H).
  apply bind_ok in H. destruct H as (mx & Hm & H). inversion H; subst; clear H. cbn.
  split; [exact Ho|]. split; [exact Ha|]. split.
  - destruct cc; cbn in Hc; [|inversion Hc; reflexivity]. apply bind_ok in Hc. destruct Hc as (l & Hl & Hc). inversion Hc. eauto.
  - destruct mc; cbn in Hm; [|inversion Hm; reflexivity]. apply bind_ok in Hm. destruct Hm as (l & Hl & Hm). inversion Hm. eauto.
Qed.

(** A row whose alternative is in no nest makes the mapping raise. *)
Lemma mapped_alternatives_are_nested t alts ids all :
  check_nest_spec (raw_of t) (np_unique all) = Ok tt ->
  nest_id_vec t alts = Ok ids -> incl alts all.
Proof.
  intros Hc. apply C13_accepted_specifications_are_partitions in Hc. destruct Hc as (t' & Et & _ & _ & _ & Hin & _).
  assert (Ett : t = t').
  { clear - Et. revert t' Et. induction t as [|[k l] r IH]; intros [|[k' l'] r'] E; simpl in E;
      [reflexivity|discriminate|discriminate|]. injection E as -> El Er. f_equal; [|apply IH; exact Er].
    f_equal. clear - El. revert l' El. induction l as [|z l IH]; intros [|z' l'] E; simpl in E;
      [reflexivity|discriminate|discriminate|]. injection E as -> E. f_equal. apply IH. exact E. }
  subst t'. revert ids. induction alts as [|a r IH]; intros ids H x Hx; [destruct Hx|].
  cbn [nest_id_vec] in H. destruct (dict_get Z.eqb (alt_id_to_nest_name t) a) as [name|] eqn:E; [|discriminate].
  destruct (dict_get String.eqb _ name); [|discriminate]. apply bind_ok in H. destruct H as (rest & Hr & _).
  destruct Hx as [<-|Hx]; [|apply (IH rest Hr); exact Hx].
  unfold alt_id_to_nest_name in E. rewrite dict_get_dict_of_last in E.
  apply dict_get_In in E; [|apply Z.eqb_spec]. apply in_rev in E. apply in_flat_map in E.
  destruct E as ([k l] & Hkl & Ha). apply in_map_iff in Ha. destruct Ha as (a' & Ea & Ha). inversion Ea; subst.
  apply (Hin _ _ _ Hkl Ha).
Qed.

Lemma prediction_nested_setup t d mp rn :
  length (alt_ids d) = length (obs_ids d) -> NoDup (map fst t) ->
  (exists all, check_nest_spec (raw_of t) (np_unique all) = Ok tt) ->
  create_long_form_mappings d (Some t) = Ok mp -> rows_to_nests mp = Some rn -> nested_setup d t mp rn.
Proof.
  intros HL Hn (all & Hc) Hm Hr. split; [exact HL|]. split; [exact Hn|]. split; [|split; assumption].
  exists all. split; [|exact Hc]. unfold create_long_form_mappings in Hm.
  apply bind_ok in Hm. destruct Hm as (x & Hx & _). apply bind_ok in Hx. destruct Hx as (y & Hy & _).
  unfold create_rows_to_nests in Hy. apply bind_ok in Hy. destruct Hy as (ids & Hi & _).
  apply (mapped_alternatives_are_nested _ _ _ _ Hc Hi).
Qed.

Lemma mixed_predict_without_choices d K X pos nR draws E E' th :
  mixed_data_of d K X pos nR draws None None = Ok E ->
  mixed_data_of (mkLong (obs_ids d) (alt_ids d) None (mix_ids d)) K X pos nR draws None None = Ok E' ->
  mixed_predict E' th None true = mixed_predict E th None true.
Proof.
  unfold mixed_data_of. intros H H'. apply bind_ok in H. destruct H as (mp & Hm & H).
  apply bind_ok in H'. destruct H' as (mp' & Hm' & H').
  rewrite (mappings_without_choices _ _ _ Hm) in Hm'. injection Hm' as <-. cbn [rows_to_mixers] in H'.
  destruct (rows_to_mixers mp); [|discriminate]. apply bind_ok in H. destruct H as (x & Hx & H).
  apply bind_ok in H'. destruct H' as (x' & Hx' & H'). rewrite Hx in Hx'. injection Hx' as <-.
  injection H as <-. injection H' as <-. reflexivity.
Qed.

Theorem C76_predictions_are_distributions m f pl nd rvs p ids :
  well_formed f -> constructed m -> int_col f (fm_obs_col m) = Ok ids ->
  predict m f pl true None nd rvs = Ok (LongProbs p) ->
  (forall i, (i < length ids)%nat -> 0 < p i <= 1) /\
  (forall o, In o ids -> id_sum ids o p = 1).
Proof.
  intros Hwf Hcon Hids H. apply predict_ok in H.
  destruct H as (_ & _ & cols & names & d & mp & pr & _ & Hl & Hm & _ & Hr).
  destruct (cols_of_ok _ _ _ _ _ _ Hl) as (Eo & Ea & Ech & _). rewrite int_col_intercept in Eo, Ea.
  rewrite Hids in Eo. injection Eo as ->.
  pose proof (mappings_ok _ _ _ Hm) as (_ & _ & Echo). rewrite Ech in Echo.
  assert (HL : length (alt_ids d) = length (obs_ids d)).
  { unfold int_col in Hids, Ea. destruct Hwf as (W & _).
    destruct (assoc (fm_obs_col m) (f_ints f)) eqn:E1; [|discriminate].
    destruct (assoc (fm_alt_col m) (f_ints f)) eqn:E2; [|discriminate].
    injection Hids as <-. injection Ea as <-. rewrite (W _ _ E1), (W _ _ E2). reflexivity. }
  unfold dispatch in Hr. unfold constructed in Hcon. destruct (fm_class m) as [k|t|pos]; cbn [class_nests] in Hm.
  - unfold predict_logit in Hr. apply bind_ok in Hr. destruct Hr as (_ & _ & Hr).
    apply bind_ok in Hr. destruct Hr as (ic & _ & Hr). apply bind_ok in Hr. destruct Hr as (_ & _ & Hr).
    rewrite Echo in Hr. split.
    + intros i Hi. apply (C18_probabilities_positive (model_of k) d None mp _ _ _ _ _ _ _ p i Hm Hr Hi).
    + intros o Ho. apply (C17_probabilities_sum_to_one (model_of k) d None mp _ _ _ _ _ _ _ p o Hm Hr Ho).
  - destruct Hr as (rn & Hrn & Hr). destruct Hcon as (Hn & Hc). unfold predict_nested in Hr.
    destruct (pr_nests pr) as [n|]; [|discriminate].
    apply bind_ok in Hr; destruct Hr as (_ & _ & Hr); apply bind_ok in Hr; destruct Hr as (_ & _ & Hr).
    apply bind_ok in Hr; destruct Hr as (x & Hx & Hr). rewrite Echo in Hx. inversion Hx; subst x. inversion Hr; subst p.
    pose proof (prediction_nested_setup t d mp rn HL Hn Hc Hm Hrn) as HS.
    refine (C39_nested_probabilities d t mp rn _ _ _ _ _ _ _ HS _ eq_refl).
    intros q _. apply C42_nest_coefs_in_unit_interval.
  - unfold predict_mixed in Hr.
    apply bind_ok in Hr; destruct Hr as (rm & _ & Hr); destruct nd as [nR|]; [|discriminate].
    apply bind_ok in Hr; destruct Hr as (dr & Hdr & Hr); apply bind_ok in Hr; destruct Hr as (E & HE & Hr).
    apply bind_ok in Hr; destruct Hr as (_ & _ & Hr). rewrite Echo in Hr.
    assert (HR : (0 < nR)%nat).
    { unfold get_normal_draws in Hdr. destruct (Nat.ltb_spec 0 nR); [assumption|].
      rewrite Bool.andb_false_r in Hdr. discriminate. }
    apply (C46_mixed_predictions d _ _ pos nR dr None None E (pr_coefs pr) p HE HR Hr).
Qed.

(** The n-th chosen probability is the long probability of the row chosen by the
    n-th observation, observations in order of first appearance. *)
Theorem C76_chosen_are_long_probabilities m f pl nd rvs c pc lp ids cs i j :
  well_formed f -> constructed m -> int_col f (fm_obs_col m) = Ok ids -> int_col f c = Ok cs ->
  one_choice_per_id ids cs ->
  predict m f pl true None nd rvs = Ok (LongProbs lp) ->
  predict m f pl false (Some c) nd rvs = Ok (ChosenProbs pc) ->
  (j < length (first_seen ids))%nat -> (i < length ids)%nat ->
  nth i ids 0%Z = nth j (first_seen ids) 0%Z -> nth i cs 0%Z = 1%Z ->
  pc j = lp i.
Proof.
  intros Hwf Hcon Hids Hcs Hone H1 H2 Hj Hi Eij Hy. apply predict_ok in H2.
  destruct H2 as (Hch & _ & cols & names & d & mp & pr & Hd & Hl & Hm & Hp & Hr).
  destruct (cols_of_ok _ _ _ _ _ _ Hl) as (Eo & Ea & Ech & _). rewrite int_col_intercept in Eo, Ea.
  rewrite Hids in Eo. injection Eo as Eo. destruct Ech as (cs' & Hcs' & Ech). rewrite int_col_intercept, Hcs in Hcs'.
  injection Hcs' as <-.
  destruct (cols_without_choices _ _ _ _ _ _ Hl) as (Hl' & _).
  pose proof (mappings_without_choices _ _ _ Hm) as Hm'.
  apply predict_ok in H1. destruct H1 as (_ & _ & cols' & names' & d' & mp' & pr' & Hd' & Hl'' & Hm'' & Hp' & Hr').
  rewrite Hl' in Hl''. injection Hl'' as <-. rewrite Hm' in Hm''. injection Hm'' as <-.
  rewrite Hd in Hd'. injection Hd' as <- <-. rewrite Hp in Hp'. injection Hp' as <-.
  pose proof (mappings_ok _ _ _ Hm) as (_ & _ & Echo). rewrite Ech in Echo.
  assert (HL : length (alt_ids d) = length (obs_ids d)).
  { unfold int_col in Hids, Ea. destruct Hwf as (W & _).
    destruct (assoc (fm_obs_col m) (f_ints f)) eqn:E1; [|discriminate].
    destruct (assoc (fm_alt_col m) (f_ints f)) eqn:E2; [|discriminate].
    injection Hids as Hids. injection Ea as <-. rewrite <- Eo, <- Hids, (W _ _ E1), (W _ _ E2). reflexivity. }
  assert (Hex : exactly_one_choice d).
  { destruct Hone as (O1 & O2). exists cs. rewrite Ech, <- Eo. auto. }
  rewrite Eo in Hj, Hi, Eij.
  assert (Hyd : choice_vec d i = 1) by (unfold choice_vec; rewrite Ech, Hy; reflexivity).
  unfold dispatch in Hr, Hr'. unfold constructed in Hcon. rewrite Echo in Hr. cbn [option_map chosen_row_to_obs] in Hr, Hr'.
  destruct (fm_class m) as [k|t|pos]; cbn [class_nests] in Hm.
  - unfold predict_logit in Hr, Hr'. cbn [d_K d_J data_of] in Hr, Hr'.
    apply bind_ok in Hr. destruct Hr as (_ & _ & Hr).
    apply bind_ok in Hr. destruct Hr as (ic & Hic & Hr). apply bind_ok in Hr. destruct Hr as (_ & _ & Hr).
    apply bind_ok in Hr'. destruct Hr' as (_ & _ & Hr').
    apply bind_ok in Hr'. destruct Hr' as (ic' & Hic' & Hr'). apply bind_ok in Hr'. destruct Hr' as (_ & _ & Hr').
    cbn in Hic, Hic'. rewrite Hic in Hic'. injection Hic' as <-.
    inversion Hr; subst pc. inversion Hr'; subst lp.
    apply (C19_chosen_probs_are_long_probs (model_of k) d None mp (length cols) (design_mat cols) None None
      (pr_shapes pr) ic (pr_coefs pr) _ _ _ j i Hm Echo Hex eq_refl Hj Hi Eij Hyd).
  - destruct Hr as (rn & Hrn & Hr). destruct Hr' as (rn' & Hrn' & Hr'). destruct Hcon as (Hn & Hc).
    cbn [rows_to_nests] in Hrn'. rewrite Hrn in Hrn'. injection Hrn' as <-.
    unfold predict_nested in Hr, Hr'.
    destruct (pr_nests pr) as [n|]; [|discriminate].
    apply bind_ok in Hr; destruct Hr as (_ & _ & Hr); apply bind_ok in Hr; destruct Hr as (_ & _ & Hr).
    apply bind_ok in Hr; destruct Hr as (x & Hx & Hr). inversion Hx; subst x. inversion Hr; subst pc. clear Hr Hx.
    apply bind_ok in Hr'; destruct Hr' as (_ & _ & Hr'); apply bind_ok in Hr'; destruct Hr' as (_ & _ & Hr').
    apply bind_ok in Hr'; destruct Hr' as (x & Hx & Hr'). inversion Hx; subst x. inversion Hr'; subst lp.
    pose proof (prediction_nested_setup t d mp rn HL Hn Hc Hm Hrn) as HS.
    apply (C39_nested_chosen_probs d t mp rn (length cols) (design_mat cols) None None
      (naturalize_nest_coefs (aget n)) (pr_coefs pr) _ _ _ j i HS Echo Hex eq_refl Hj Hi Eij Hyd).
  - unfold predict_mixed in Hr, Hr'. cbn [rows_to_mixers] in Hr'.
    apply bind_ok in Hr; destruct Hr as (rm & Hrm & Hr). apply bind_ok in Hr'; destruct Hr' as (rm' & Hrm' & Hr').
    rewrite Hrm in Hrm'. injection Hrm' as <-. destruct nd as [nR|]; [|discriminate].
    apply bind_ok in Hr; destruct Hr as (dr & Hdr & Hr); apply bind_ok in Hr; destruct Hr as (E & HE & Hr).
    apply bind_ok in Hr'; destruct Hr' as (dr' & Hdr' & Hr'); apply bind_ok in Hr'; destruct Hr' as (E' & HE' & Hr').
    rewrite Hdr in Hdr'. injection Hdr' as <-.
    apply bind_ok in Hr; destruct Hr as (_ & _ & Hr). apply bind_ok in Hr'; destruct Hr' as (_ & _ & Hr').
    refine (C46_mixed_chosen_predictions d _ _ pos nR dr None None E (pr_coefs pr) mp _ pc lp j i HE Hm Echo Hex Hr _ Hj Hi Eij Hyd).
    rewrite <- Hr'. symmetry. apply (mixed_predict_without_choices _ _ _ _ _ _ _ _ _ HE HE').
Qed.

(** ** The hypotheses are met *)

Definition pred_frame : frame :=
  mkFrame 4 [("obs"%string, [7; 7; 3; 3]%Z); ("alt"%string, [1; 2; 1; 2]%Z); ("choice"%string, [1; 0; 0; 1]%Z)]
    [("cost"%string, [5; 6; 7; 8])].
Definition pred_names : model_names := mkModelNames ["b1"%string; "b2"%string] None (Some ["s1"%string; "s2"%string]) None.
Definition pred_model (c : model_class) (mix : option string) (th : arr) (sh ni : option arr) : fitted_model :=
  mkFitted c "alt" "obs" mix [("cost"%string, SStr "all_diff")] None pred_names th None sh ni.
Definition pred_theta (n : nat) : arr := mkArr n (fun i => INR i).
Definition pred_nests : nest_spec := [("a"%string, [1%Z]); ("b"%string, [2%Z])].

Example ex_pred_frame_wf : well_formed pred_frame.
Proof.
  split; intros c l H; cbn [pred_frame f_ints f_reals assoc] in H.
  - destruct (String.eqb c "obs"); [injection H as <-; reflexivity|].
    destruct (String.eqb c "alt"); [injection H as <-; reflexivity|].
    destruct (String.eqb c "choice"); [injection H as <-; reflexivity|discriminate].
  - destruct (String.eqb c "cost"); [injection H as <-; reflexivity|discriminate].
Qed.

Example ex_pred_one_choice : one_choice_per_id [7; 7; 3; 3]%Z [1; 0; 0; 1]%Z.
Proof.
  split.
  - intros i Hi. do 4 (destruct i as [|i]; [cbn; auto|]). cbn in Hi. lia.
  - intros o Ho. assert (E : o = 7%Z \/ o = 3%Z) by (cbn in Ho; intuition lia). destruct E as [-> | ->].
    + exists 0%nat. cbn. repeat split; try lia. intros i' Hi H1 H2.
      do 4 (destruct i' as [|i']; [cbn in H1, H2; try reflexivity; lia|]). lia.
    + exists 3%nat. cbn. repeat split; try lia. intros i' Hi H1 H2.
      do 4 (destruct i' as [|i']; [cbn in H1, H2; try reflexivity; lia|]). lia.
Qed.

Definition ex_logit : fitted_model := pred_model (ClassLogit (KUneven None)) None (pred_theta 2) (Some (pred_theta 2)) None.
Definition ex_nested : fitted_model := pred_model (ClassNested pred_nests) None (pred_theta 2) None (Some (pred_theta 2)).
Definition ex_mixed : fitted_model := pred_model (ClassMixed [1%nat]) (Some "obs"%string) (pred_theta 3) None None.

Example ex_logit_predicts rvs :
  constructed ex_logit /\
  (exists lp, predict ex_logit pred_frame None true None None rvs = Ok (LongProbs lp)) /\
  (exists pc, predict ex_logit pred_frame None false (Some "choice"%string) None rvs = Ok (ChosenProbs pc)) /\
  (exists pc lp, predict ex_logit pred_frame (Some [Some (pred_theta 2); None; Some (pred_theta 2); None]) true
                   (Some "choice"%string) None rvs = Ok (BothProbs pc lp)).
Proof. split; [exact I|]. repeat split; eexists; try eexists; reflexivity. Qed.

Example ex_nested_predicts rvs :
  constructed ex_nested /\
  (exists lp, predict ex_nested pred_frame None true None None rvs = Ok (LongProbs lp)) /\
  (exists pc, predict ex_nested pred_frame None false (Some "choice"%string) None rvs = Ok (ChosenProbs pc)) /\
  (exists r, predict ex_nested pred_frame None true (Some "choice"%string) None rvs = Ok r).
Proof.
  split.
  - split; [|exists [1; 2]%Z; reflexivity].
    repeat constructor; cbn; intuition discriminate.
  - repeat split; eexists; reflexivity.
Qed.

Example ex_mixed_predicts rvs :
  constructed ex_mixed /\
  (exists lp, predict ex_mixed pred_frame None true None (Some 5%nat) rvs = Ok (LongProbs lp)) /\
  (exists pc, predict ex_mixed pred_frame None false (Some "choice"%string) (Some 5%nat) rvs = Ok (ChosenProbs pc)).
Proof. split; [exact I|]. repeat split; eexists; reflexivity. Qed.

Print Assumptions C16_nothing_requested_raises.
Print Assumptions C16_logit_returns_what_is_requested.
Print Assumptions C16_nested_single_requests.
Print Assumptions C16_refuted_nested_both.
Print Assumptions C16_mixed_single_requests.
Print Assumptions C16_refuted_mixed_both.
Print Assumptions C76_predictions_are_distributions.
Print Assumptions C76_chosen_are_long_probabilities.
