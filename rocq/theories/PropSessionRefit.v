(** An estimated model keeps its results, and predicts with them (C98). *)
From Coq Require Import String ZArith List Reals Lia Lra Arith Bool.
From Verif Require Import Res Vec Arr ChoiceCalcs Ids Mappings LongData Transforms Frame ChoiceTools BaseModel
  NestedCalcs MixedCalcs LogitFacts Estimation Predict Construct ObjectStore Session.
From Verif Require Import PropMappings PropDesign PropConstruct PropEstimation PropFit PropRefit PredictExt PropStore PropSession PropSessionPredict.
Import ListNotations.
Local Open Scope string_scope.

(** The user does not call fit_mle on object [i]. *)
Definition not_refitted (i : nat) (h : list call) : Prop := forall fc, ~ In (Fit i fc) h.

(** Whatever is called afterwards — predictions with this model, estimation of other
    models, new models, changes to tables — every attribute of an object keeps its value
    until fit_mle is called on it again. *)
Theorem C98_results_stay_until_the_next_fit s h i n :
  (i < length (s_objs s))%nat -> not_refitted i h -> attr (run s h) i n = attr s i n.
Proof.
  intros Hi Hn. destruct (nth_error (s_objs s) i) as [o|] eqn:E.
  - unfold attr. rewrite (run_keeps_unfitted h s i o E Hn), E. reflexivity.
  - apply nth_error_None in E. lia.
Qed.

Lemma add_intercept_twice spec f : add_intercept_to_dataframe spec (add_intercept_to_dataframe spec f) = add_intercept_to_dataframe spec f.
Proof.
  unfold add_intercept_to_dataframe. destruct (assoc "intercept" spec); [|reflexivity].
  destruct (has_col f "intercept") eqn:E; [rewrite E; reflexivity|].
  unfold has_col at 1. cbn [f_ints f_reals]. rewrite assoc_app'. cbn.
  destruct (assoc "intercept" (f_ints f)); [reflexivity|]. destruct (assoc "intercept" (f_reals f)); reflexivity.
Qed.

Lemma create_design f a m : create_choice_model f a = Ok m ->
  exists labels, create_design_matrix (c_data m) (c_spec m) (c_alt_col m) (c_name_spec m) = Ok (c_design m, labels).
Proof.
  intros H. unfold create_choice_model in H. apply bind_ok in H. destruct H as (ty & _ & H). unfold class_init in H.
  destruct ty; repeat match type of H with
    | (if ?b then _ else _) = _ => destruct b; [discriminate|]
    | match ?b with _ => _ end = _ => destruct b; try discriminate
    end; apply base_init_inv in H; destruct H as ([cols labels] & al & ch & pos & Hd & _ & _ & _ & _ & ->); cbn; eauto.
Qed.

Lemma alist_length a : length (alist a) = alen a.
Proof. unfold alist. rewrite map_length, seq_length. reflexivity. Qed.
Lemma alist_nth a i : (i < alen a)%nat -> nth i (alist a) 0%R = aget a i.
Proof.
  intros H. unfold alist. rewrite (nth_indep _ 0%R (aget a 0%nat)) by (rewrite map_length, seq_length; exact H).
  rewrite map_nth, seq_nth by exact H. reflexivity.
Qed.
Lemma series_of_alist names a s : mk_series names (alist a) = Ok s -> arr_eq (series_arr s) a.
Proof.
  intros H. apply mk_series_ok in H. destruct H as (-> & L). rewrite alist_length in L. unfold series_arr, arr_eq. cbn [alen aget].
  rewrite combine_length, alist_length, map_snd_combine by (rewrite alist_length; exact L).
  split; [lia|]. intros i Hi. apply alist_nth. lia.
Qed.

Lemma block_series o names prefix acc b :
  store_block (option_map alist o) names prefix acc = Ok b -> opt_arr_eq (option_map series_arr (snd b)) o.
Proof.
  unfold store_block, store_optional_parameters. destruct o as [x|]; cbn [option_map].
  - destruct (mk_series _ (alist x)) as [s|] eqn:E; cbn [bind]; [|discriminate]. intros H. injection H as <-. cbn [snd option_map opt_arr_eq].
    exact (series_of_alist _ _ _ E).
  - intros H. injection H as <-. exact I.
Qed.

(** ** C98: predicting for the estimation table gives the stored fitted probabilities

    The model is made from a table and estimated; then anything is called except another
    fit_mle of this model or a change of its table by the user.  predict on that table
    returns, for every row, the probability stored as long_fitted_probs (for a mixed
    logit their mean over the draws, when predict is given the draws of the fit). *)
Theorem C98_predictions_are_the_stored_probabilities g t a i h fc f m mo h' :
  nth_error (s_tables (run start g)) t = Some f -> create_choice_model f a = Ok m -> model_obj_of m = Ok mo ->
  snd (step (run start g) (Create t a)) = Ok (OModel i) -> untouched t h -> untouched t h' -> not_refitted i h' ->
  keeps_length (fc_mz fc) -> positions_valid mo -> (c_type m = TMixed -> fc_draws fc <> 1%nat) ->
  let s := run (run start g) (Create t a :: h) in
  snd (step s (Fit i fc)) = Ok ONothing ->
  let s' := run (fst (step s (Fit i fc))) h' in
  exists N c probs lp,
    attr s' i "long_fitted_probs" = Some (VArray N c probs) /\
    snd (step s' (Predict i t (mkPredictCall None true None (Some (fc_draws fc)) (fc_rvs fc)))) = Ok (OProbs (LongProbs lp)) /\
    forall r, lp r = (sumn c (probs r) / INR c)%R.
Proof.
  intros Hf Hm Hmo Hc Hu Hu' Hnr Hmz Hpos Hmix s Hfit s'.
  pose proof (C92_what_estimation_stores g t a i h fc f m Hf Hm Hc Hu) as W. cbv zeta in W. fold s in W. rewrite Hmo in W. cbn [bind] in W.
  rewrite Hfit in W.
  destruct (fit_mle (fc_mz fc) (fc_nm fc) (names_of m) (c_mix_vars m) mo (fc_draws fc) (fc_rvs fc) (fc_args fc)) as [[x|p out]|e] eqn:Eft; cbn [bind] in W.
  1:{ destruct W as (W & _). discriminate. }
  2:{ destruct W as (e' & W). discriminate. }
  destruct W as (_ & _ & _ & hinv & _ & W).
  set (s1 := fst (step s (Fit i fc))) in *.
  assert (E1 : s1 = run (run start g) (Create t a :: (h ++ [Fit i fc]))%list).
  { unfold s1, s. change (Create t a :: h ++ [Fit i fc])%list with ((Create t a :: h) ++ [Fit i fc])%list. rewrite run_app. reflexivity. }
  assert (E2 : s' = run (run start g) (Create t a :: (h ++ [Fit i fc] ++ h'))%list).
  { unfold s'. rewrite E1, <- run_app. cbn [app]. rewrite <- app_assoc. reflexivity. }
  assert (Hu2 : untouched t (h ++ [Fit i fc] ++ h')%list).
  { intros g0 Hin. apply in_app_or in Hin. destruct Hin as [Hin|[Hin|Hin]]; [exact (Hu g0 Hin)|discriminate|exact (Hu' g0 Hin)]. }
  destruct (created_then _ _ _ _ _ f m (run_all_ok g start start_ok) Hf Hm Hc Hu2) as (o & f' & O & M & T & _ & F & Sm).
  rewrite <- E2 in O, F.
  assert (Hlen : (i < length (s_objs s1))%nat).
  { destruct (created_then _ _ _ _ (h ++ [Fit i fc])%list f m (run_all_ok g start start_ok) Hf Hm Hc) as (o1 & f1 & O1 & _).
    { intros g0 Hin. apply (Hu2 g0). rewrite app_assoc. apply in_or_app. left. exact Hin. }
    rewrite <- E1 in O1. exact (nth_error_lt _ _ _ O1). }
  assert (At : forall n, ob_attrs o n = attr s1 i n).
  { intros n. rewrite <- (C98_results_stay_until_the_next_fit s1 h' i n Hlen Hnr). fold s'. unfold attr. rewrite O. reflexivity. }
  assert (AtV : forall n v, In (n, v) (fit_attributes (length (obs_ids (mo_cols mo))) (length (nodup Z.eq_dec (obs_ids (mo_cols mo)))) (fc_report fc) p out hinv) -> ob_attrs o n = Some v).
  { intros n v Hin. rewrite At. exact (W n v Hin). }
  clear W At Hlen.
  exists (length (obs_ids (mo_cols mo))), (po_cols p), (po_long p).
  assert (Hc0 : exists c, class_of m = Ok c /\ mo_class mo = c).
  { unfold model_obj_of in Hmo. destruct (class_of m) as [c|]; [|discriminate]. cbn [bind] in Hmo.
    destruct (long_cols_of _ _ _ _ _); [|discriminate]. cbn [bind] in Hmo. injection Hmo as <-. eauto. }
  destruct Hc0 as (c & Hcl & Emc).
  set (nm := current_names m (ob_attrs o)).
  set (fm := mkFitted c (c_alt_col m) (c_obs_col m) (c_mix_col m) (c_spec m) (c_name_spec m) nm
               (bl_coefs (po_blocks p)) (bl_intercepts (po_blocks p)) (bl_shapes (po_blocks p)) (bl_nests (po_blocks p))).
  destruct (create_inv f a m Hm) as (Cd & _ & Cs & _).
  assert (Hb : built_from fm (c_data m) (c_choice_col m) mo).
  { destruct (create_design f a m Hm) as (labels & Hd). exists (c_design m), labels. unfold fm. cbn [fm_spec fm_alt_col fm_name_spec fm_obs_col fm_mix_col fm_class].
    assert (Ei : add_intercept_to_dataframe (c_spec m) (c_data m) = c_data m) by (rewrite Cd, Cs; apply add_intercept_twice).
    rewrite Ei. split; [exact Hd|]. unfold model_obj_of in Hmo. rewrite Hcl in Hmo. cbn [bind] in Hmo.
    destruct (long_cols_of _ _ _ _ _) as [d|] eqn:El; [|discriminate]. cbn [bind] in Hmo. injection Hmo as <-. cbn. auto. }
  assert (Hmx : forall pos, fm_class fm = ClassMixed pos -> fc_draws fc <> 1%nat).
  { intros pos Hp. apply Hmix. unfold fm in Hp. cbn [fm_class] in Hp. subst c. unfold class_of in Hcl. destruct (c_type m); try reflexivity; exfalso;
      repeat match type of Hcl with bind ?x _ = _ => destruct x; cbn [bind] in Hcl; [|discriminate] | match ?x with _ => _ end = _ => destruct x end; congruence. }
  destruct (C74_predict_reproduces_fit (fc_mz fc) (fc_nm fc) (names_of m) (c_mix_vars m) fm (c_data m) (c_choice_col m) mo (fc_draws fc) (fc_rvs fc) (fc_args fc) p out
    Hb Hpos Hmz Eft ltac:(repeat split) Hmx) as (lp & Hlp & Hval).
  exists lp. split; [|split; [|exact Hval]].
  { unfold attr. rewrite O. apply AtV. unfold fit_attributes. cbn [In]. tauto. }
  cbn [step]. rewrite O, F. cbn [snd]. rewrite M. unfold predict_call_on. rewrite Hcl. cbn [bind pc_params pc_long pc_choice pc_draws pc_rvs].
  assert (Hcoef : ob_attrs o "coefs" = Some (VSeries (f_coefs out))) by (apply AtV; unfold fit_attributes; cbn [In]; tauto).
  rewrite Hcoef.
  set (fm' := mkFitted c (c_alt_col m) (c_obs_col m) (c_mix_col m) (c_spec m) (c_name_spec m) (current_names m (ob_attrs o)) (series_arr (f_coefs out)) _ _ _).
  assert (G : predict fm' f' None true None (Some (fc_draws fc)) (fc_rvs fc) = Ok (LongProbs lp)).
  { apply (predict_same_or_intercept fm' (c_data m) f' None true None (Some (fc_draws fc)) (fc_rvs fc) (LongProbs lp) Sm).
    rewrite <- Hlp. unfold fm', fm. fold nm. apply predict_ext. unfold same_estimates. cbn [fm_coefs fm_intercepts fm_shapes fm_nests].
    assert (Bl : forall n x, In (n, match x with Some q => VSeries q | None => VNone end) (fit_attributes (length (obs_ids (mo_cols mo))) (length (nodup Z.eq_dec (obs_ids (mo_cols mo)))) (fc_report fc) p out hinv) -> opt_attr (ob_attrs o) n = option_map series_arr x).
    { intros n x Hin. unfold opt_attr. rewrite (AtV _ _ Hin). destruct x; reflexivity. }
    rewrite (Bl "intercepts" (f_intercepts out)) by (unfold fit_attributes; cbn [In]; tauto).
    rewrite (Bl "shapes" (f_shapes out)) by (unfold fit_attributes; cbn [In]; tauto).
    rewrite (Bl "nests" (f_nests out)) by (unfold fit_attributes; cbn [In]; tauto).
    apply fit_mle_inv in Eft. destruct Eft as (e & init & mr & _ & _ & (_ & _ & Hst)).
    clear -Hst. unfold store_fit_results in Hst. cbv zeta in Hst.
    apply bind_ok in Hst. destruct Hst as (b1 & B1 & Hst). apply bind_ok in Hst. destruct Hst as (b2 & B2 & Hst).
    apply bind_ok in Hst. destruct Hst as (b3 & B3 & Hst). apply bind_ok in Hst. destruct Hst as (cs & Cs & Hst).
    apply bind_ok in Hst. destruct Hst as (gr & _ & Hst). apply bind_ok in Hst. destruct Hst as (ps & _ & Hst).
    apply bind_ok in Hst. destruct Hst as (inf & _ & Hst). apply bind_ok in Hst. destruct Hst as (inf' & _ & Hst).
    injection Hst as <-. cbn [f_coefs f_intercepts f_shapes f_nests].
    cbn [results_of r_utility_coefs r_intercept_params r_shape_params r_nest_params] in B1, B2, B3, Cs.
    split; [exact (series_of_alist _ _ _ Cs)|]. split; [exact (block_series _ _ _ _ _ B1)|]. split; [exact (block_series _ _ _ _ _ B2)|].
    exact (block_series _ _ _ _ _ B3). }
  rewrite G. reflexivity.
Qed.
