(** Property C74: predicting on the estimation table with the stored parameters
    reproduces the fitted probabilities. *)
From Coq Require Import String ZArith List Reals Lra Lia Arith.
From Coquelicot Require Import Coquelicot.
From Verif Require Import Res Vec Arr SpecLogit ChoiceCalcs ChoiceFacts Transforms Ids Mappings MappingFacts
  LongData LogitFacts ProbFacts Frame ChoiceTools BaseModel NestedCalcs NestedFacts MixedCalcs MixedFacts PropMixed
  RowDeriv HessFacts Estimation PropProbs PropMappings PropDesign PropBaseModel PropNested PropEstimation PropFit Predict PropPredict
  PropOwnRows.
Import ListNotations.
Open Scope R_scope.

(** ** Specification *)

(** [mo] is the data side of the model object [m] built from table [f] with choice
    column [choice]: its columns, design matrix and number of index coefficients. *)
Definition built_from (m : fitted_model) (f : frame) (choice : string) (mo : model_obj) : Prop :=
  exists cols labels,
    create_design_matrix (add_intercept_to_dataframe (fm_spec m) f) (fm_spec m) (fm_alt_col m) (fm_name_spec m)
      = Ok (cols, labels) /\
    long_cols_of (add_intercept_to_dataframe (fm_spec m) f) (fm_obs_col m) (fm_alt_col m) (Some choice) (fm_mix_col m)
      = Ok (mo_cols mo) /\
    mo_K mo = length cols /\ mo_X mo = design_mat cols /\ mo_class mo = fm_class m.

(** [m] holds the parameters estimated in the fit [p]. *)
Definition holds_estimates (m : fitted_model) (p : post_results) : Prop :=
  fm_coefs m = bl_coefs (po_blocks p) /\ fm_intercepts m = bl_intercepts (po_blocks p) /\
  fm_shapes m = bl_shapes (po_blocks p) /\ fm_nests m = bl_nests (po_blocks p).

(** Reference positions are positions of alternatives of the table. *)
Definition positions_valid (mo : model_obj) : Prop :=
  match mo_class mo with
  | ClassLogit k => kind_ok k (length (np_unique (alt_ids (mo_cols mo))))
  | _ => True
  end.

(** ** Proof *)
Lemma design_nonempty f spec ac names cols labels :
  create_design_matrix f spec ac names = Ok (cols, labels) -> (0 < length cols)%nat.
Proof.
  unfold create_design_matrix. intros H.
  destruct (negb (has_col f ac)); [discriminate|]. destruct (negb (forallb _ spec)); [discriminate|].
  apply bind_ok in H. destruct H as (alts & _ & H). apply bind_ok in H. destruct H as (_ & _ & H).
  apply bind_ok in H. destruct H as (_ & _ & H). apply bind_ok in H. destruct H as (parts & _ & H).
  destruct (concat parts) as [|c r]; [discriminate|]. injection H as <- _. cbn. lia.
Qed.

Lemma int_col_has f c l : int_col f c = Ok l -> ensure_columns_are_in_dataframe [c] f = Ok tt.
Proof.
  unfold int_col, ensure_columns_are_in_dataframe, has_col. destruct (assoc c (f_ints f)) eqn:E; [|discriminate].
  intros _. cbn. unfold has_col. rewrite E. reflexivity.
Qed.

Lemma checks_pass m f choice d :
  long_cols_of (add_intercept_to_dataframe (fm_spec m) f) (fm_obs_col m) (fm_alt_col m) (Some choice) (fm_mix_col m) = Ok d ->
  request_independent_checks m f None = Ok tt.
Proof.
  intros H. destruct (cols_of_ok _ _ _ _ _ _ H) as (Ho & Ha & _ & Hm). unfold request_independent_checks.
  rewrite (int_col_has _ _ _ Ha), (int_col_has _ _ _ Ho). cbn [bind].
  destruct (fm_mix_col m) as [c|]; [|reflexivity]. destruct Hm as (l & Hl & _). rewrite (int_col_has _ _ _ Hl). reflexivity.
Qed.

(** Intercept arrays that agree on their entries give the same probabilities. *)
Lemma fill_others_ext ref J f h c j :
  (ref < J)%nat -> (j < J)%nat -> (forall i, (i < J - 1)%nat -> f i = h i) ->
  fill_others ref f c j = fill_others ref h c j.
Proof.
  intros Hr Hj H. unfold fill_others.
  destruct (Nat.eqb_spec j ref), (Nat.ltb_spec j ref); try reflexivity; apply H; lia.
Qed.

Lemma scobit_intercepts_ext ref D shape a b beta i :
  (ref < d_J D)%nat -> (forall q, (q < d_J D - 1)%nat -> aget a q = aget b q) ->
  long_probs (model_of (KScobit (Some ref))) D shape (Some a) beta i =
  long_probs (model_of (KScobit (Some ref))) D shape (Some b) beta i.
Proof.
  intros Hr H.
  assert (E : forall k, long_exponentials (model_of (KScobit (Some ref))) D shape (Some a) beta k =
                        long_exponentials (model_of (KScobit (Some ref))) D shape (Some b) beta k).
  { intros k. unfold long_exponentials. f_equal. f_equal. cbn [model_of Scobit_model m_transform]. unfold scobit_transform.
    assert (EL : long_intercepts (d_J D) (d_A D) (Some ref) (Some a) k = long_intercepts (d_J D) (d_A D) (Some ref) (Some b) k).
    { unfold long_intercepts, mvec. apply sumn_ext. intros j Hj.
      rewrite (fill_others_ext ref (d_J D) (aget a) (aget b)) by assumption. reflexivity. }
    rewrite EL. reflexivity. }
  unfold long_probs. rewrite E. f_equal. f_equal. unfold long_denominators, individual_denominators, mvec.
  apply sumn_ext. intros j _. f_equal. apply sumn_ext. intros k _. rewrite E. reflexivity.
Qed.

Theorem C74_predict_reproduces_fit mz nm names mixing m f choice mo nd rvs fa p out :
  built_from m f choice mo -> positions_valid mo -> keeps_length mz ->
  fit_mle mz nm names mixing mo nd rvs fa = Ok (Stored p out) -> holds_estimates m p ->
  (forall pos, fm_class m = ClassMixed pos -> nd <> 1%nat) ->
  exists lp, predict m f None true None (Some nd) rvs = Ok (LongProbs lp) /\
    forall i, lp i = sumn (po_cols p) (po_long p i) / INR (po_cols p).
Proof.
  intros (cols & labels & Hd & Hl & EK & EX & Ec) Hpos Hmz H (Hb & Hi & Hs & Hn) Hnd.
  apply fit_mle_inv in H. destruct H as (e & init & mr & He & Hm & (_ & Hpost & _)).
  apply post_inv in Hpost. destruct Hpost as (_ & _ & _ & Hbl & _ & Hprobs & _).
  apply fit_estimator_inv in He. destruct He as (_ & Hlen & _ & _ & _ & Hcore).
  rewrite (check_length_ext _ _ (mr_x mr)) in Hlen by (symmetry; apply (Hmz _ _ _ _ Hm)).
  set (x := mr_x mr) in *. rewrite Hbl in Hb, Hi, Hs, Hn. clear Hbl Hm.
  pose proof (checks_pass _ _ _ _ Hl) as Hchecks.
  destruct (cols_without_choices _ _ _ _ _ _ Hl) as (Hl' & _).
  pose proof (design_nonempty _ _ _ _ _ _ Hd) as HK.
  set (d := mo_cols mo) in *.
  unfold estimator_core in Hcore. unfold positions_valid in Hpos. fold d in Hcore, Hpos. rewrite Ec in Hcore, Hpos.
  assert (G : forall r mp, create_long_form_mappings d (class_nests (fm_class m)) = Ok mp ->
     dispatch m cols (mkLong (obs_ids d) (alt_ids d) None (mix_ids d))
       (mkMappings (rows_to_obs mp) (rows_to_alts mp) None (rows_to_nests mp) (rows_to_mixers mp))
       (mkParams (fm_coefs m) (fm_intercepts m) (fm_shapes m) (fm_nests m)) true (Some nd) rvs r ->
     predict m f None true None (Some nd) rvs = Ok r).
  { intros r mp Hmp Hr. apply predict_ok. split; [exact Hchecks|]. split; [left; reflexivity|].
    exists cols, labels. eexists. eexists. eexists. split; [exact Hd|]. split; [exact Hl'|].
    split; [exact (mappings_without_choices _ _ _ Hmp)|]. split; [reflexivity|]. exact Hr. }
  unfold dispatch in G. destruct (fm_class m) as [k|t|pos] eqn:Ek; cbn [class_nests] in G.
  - apply bind_ok in Hcore. destruct Hcore as (mp & Hmp & Hcore). injection Hcore as Ecore Ech. rewrite <- Ecore in *.
    cbn [est_check_length est_split] in *. unfold est_probs in Hprobs. rewrite <- Ecore, <- Ech in Hprobs.
    destruct (chosen_row_to_obs mp) as [C|]; [|discriminate]. cbn [option_map] in Hprobs. injection Hprobs as E1 _ E3.
    set (D := data_of d mp (mo_K mo) (mo_X mo) (@Some vec (fun _ => 1)) (ridge_value (fa_ridge fa))) in *.
    assert (EJ : d_J D = length (np_unique (alt_ids d))) by (apply (data_J _ _ _ _ _ _ _ Hmp)).
    unfold check_length_of_initial_values in Hlen.
    destruct (Nat.eqb_spec (alen x) (assumed_param_dimensions k (d_J D) (d_K D))) as [El|]; [|discriminate].
    rewrite <- EJ in Hpos.
    rewrite dims_eq in El by exact Hpos.
    assert (HK' : (0 < d_K D)%nat) by (change (d_K D) with (mo_K mo); lia).
    rewrite split_eq in Hb, Hi, Hs, Hn by assumption. cbn [bl_coefs bl_intercepts bl_shapes bl_nests] in Hb, Hi, Hs, Hn.
    assert (PI : exists ic', place_intercepts k (d_J D) (fm_intercepts m) = Ok ic' /\
       forall i, long_probs (model_of k) D (fm_shapes m) ic' (fm_coefs m) i =
                 long_probs (model_of k) D (fm_shapes m) (fm_intercepts m) (fm_coefs m) i).
    { destruct Hpos as (P0 & P1 & P2). rewrite Hi. unfold ic.
      destruct (Nat.ltb_spec 0 (num_icpts k (d_J D))) as [Hn0|Hn0].
      - unfold num_icpts in *. destruct k as [|r|r|r|s r]; cbn [kind_iref] in *; try lia; destruct r as [ref|]; try lia;
          unfold place_intercepts; cbn [kind_iref alen aslice];
          try (destruct (Nat.ltb_spec ref (d_J D)); [|lia]; cbn [negb]; rewrite Nat.eqb_refl; eexists; split; [reflexivity|]; intros; reflexivity).
        destruct (Nat.leb_spec ref (d_J D - 1)); [|lia]. cbn [negb].
        assert (EB : (if (ref =? d_J D - 1)%nat then d_J D - 1 <=? d_J D else d_J D - 1 <? d_J D)%nat = true).
        { destruct (_ =? _)%nat; [apply Nat.leb_le; lia|apply Nat.ltb_lt; lia]. }
        rewrite EB. eexists. split; [reflexivity|]. intros i. apply scobit_intercepts_ext; [exact P1|].
        intros q Hq. cbn [aget]. destruct (Nat.ltb_spec q (d_J D - 1)); [reflexivity|lia].
      - exists None. split; [|reflexivity]. unfold place_intercepts. destruct k as [|[r|]|[r|]|[r|]|s [r|]]; reflexivity. }
    destruct PI as (ic' & PI & EP).
    assert (CS : check_shapes k (d_J D) (fm_shapes m) = Ok tt).
    { rewrite Hs. unfold sh, check_shapes. destruct Hpos as (P0 & P1 & P2). destruct k as [|r|r|r|s r]; cbn [has_shape num_shapes alen aslice];
        try reflexivity; try (rewrite Nat.eqb_refl; reflexivity).
      destruct (Nat.leb_spec s (d_J D - 1)); [|lia]. cbn [negb]. destruct (Nat.eqb_spec (d_J D - 1 + 1) (d_J D)); [reflexivity|lia]. }
    exists (long_probs (model_of k) D (fm_shapes m) ic' (fm_coefs m)). split.
    + apply (G _ mp Hmp). cbn [chosen_row_to_obs option_map]. unfold predict_logit.
      assert (EB : (alen (fm_coefs m) =? length cols)%nat = true).
      { rewrite Hb. cbn [be aslice alen]. change (d_K D) with (mo_K mo). rewrite EK. apply Nat.eqb_refl. }
      cbn [pr_coefs pr_intercepts pr_shapes]. cbn [data_of d_K d_J rows_to_alts]. change (s_cols (rows_to_alts mp)) with (d_J D).
      rewrite EB, PI. cbn [bind]. rewrite CS. cbn [bind calc_probabilities].
      f_equal. f_equal. unfold D. rewrite EK, EX. reflexivity.
    + intros i. rewrite EP, <- E1, <- E3. cbn [sumn INR]. unfold est_long_probs. rewrite split_eq by assumption.
      rewrite <- Hb, <- Hi, <- Hs. field.
  - apply bind_ok in Hcore. destruct Hcore as (mp & Hmp & Hcore). apply bind_ok in Hcore. destruct Hcore as (rn & Hrn & Hcore).
    injection Hcore as Ecore Ech. rewrite <- Ecore in *.
    cbn [est_check_length est_split] in *. unfold est_probs in Hprobs. rewrite <- Ecore, <- Ech in Hprobs.
    destruct (chosen_row_to_obs mp) as [C|]; [|discriminate]. cbn [option_map] in Hprobs.
    unfold nested_split in *. cbn [n_Q bl_coefs bl_intercepts bl_shapes bl_nests] in *. injection Hprobs as E1 _ E3.
    unfold nested_check_length in Hlen. cbn [n_D n_Q data_of d_K] in Hlen.
    destruct (Nat.eqb_spec (alen x) (mo_K mo + s_cols rn)) as [El|]; [|discriminate].
    assert (Er : rows_to_nests mp = Some rn).
    { unfold opt_smat in Hrn. destruct (rows_to_nests mp); [|discriminate]. injection Hrn as ->. reflexivity. }
    eexists. split.
    + apply (G _ mp Hmp). exists rn. split; [exact Er|]. unfold predict_nested. cbn [pr_nests pr_coefs n_Q n_D data_of d_K option_map chosen_row_to_obs].
      rewrite Hn, Hb. cbn [alen aslice]. rewrite Nat.eqb_refl. cbn [bind].
      replace (alen x - s_cols rn)%nat with (length cols) by lia. rewrite Nat.eqb_refl. cbn [bind calc_nested_probs]. reflexivity.
    + intros i. rewrite <- E1, <- E3. cbn [sumn INR].
      rewrite EK in El. rewrite EK, EX. replace (alen x - s_cols rn)%nat with (length cols) by lia.
      match goal with |- ?A = (0 + ?B) / 1 => change B with A; field end.
  - apply bind_ok in Hcore. destruct Hcore as (mp & Hmp & Hcore). apply bind_ok in Hcore. destruct Hcore as (rm & Hrm & Hcore).
    apply bind_ok in Hcore. destruct Hcore as (dr & Hdr & Hcore). apply bind_ok in Hcore. destruct Hcore as (E & HE & Hcore).
    injection Hcore as Ecore Ech. rewrite <- Ecore in *.
    cbn [est_check_length est_split] in *. unfold est_probs in Hprobs. rewrite <- Ecore, <- Ech in Hprobs.
    destruct (chosen_row_to_obs mp) as [C|]; [|discriminate]. cbn [option_map] in Hprobs. injection Hprobs as E1 _ E3.
    cbn [bl_coefs] in Hb. unfold mixed_check_length in Hlen.
    destruct (Nat.eqb_spec (alen x) (x_vars E)) as [El|]; [|discriminate].
    destruct (mixed_setup _ _ _ _ _ _ _ _ _ HE) as (mp1 & Hmp1 & ED & ER & EV & _).
    unfold mixed_data_of in HE. rewrite Hmp in HE. cbn [bind] in HE.
    unfold opt_smat in Hrm. destruct (rows_to_mixers mp) as [rm'|] eqn:Erm; [|discriminate]. injection Hrm as ->.
    apply bind_ok in HE. destruct HE as (x3 & Hx3 & HE). injection HE as <-. cbn [x_draws x_vars] in *.
    exists (row_mean nd (fun i r => prob_array (mkMData (data_of (mkLong (obs_ids d) (alt_ids d) None (mix_ids d))
       (mkMappings (rows_to_obs mp) (rows_to_alts mp) None (rows_to_nests mp) (Some rm)) (length cols) (design_mat cols) None None)
       nd (fst x3) (snd x3) (s_cols rm) (smat_R rm)) x i r)). split.
    + apply (G _ mp Hmp). unfold predict_mixed. cbn [rows_to_mixers opt_smat]. rewrite Erm. cbn [opt_smat bind].
      rewrite Hdr. cbn [bind]. unfold mixed_data_of. rewrite (mappings_without_choices _ _ _ Hmp). cbn [bind rows_to_mixers].
      rewrite Erm. rewrite <- EK, <- EX, Hx3. cbn [bind pr_coefs x_vars]. rewrite Hb, El, Nat.eqb_refl. cbn [bind].
      cbn [chosen_row_to_obs option_map mixed_predict x_draws]. destruct (Nat.eqb_spec nd 1) as [->|_]; [exfalso; exact (Hnd pos eq_refl eq_refl)|].
      reflexivity.
    + intros i. rewrite <- E1, <- E3. reflexivity.
Qed.

(** ** The hypotheses are met *)

Definition refit_frame : frame :=
  mkFrame 4 [("obs"%string, [1; 1; 2; 2]%Z); ("alt"%string, [1; 2; 1; 2]%Z); ("choice"%string, [1; 0; 0; 1]%Z)]
    [("cost"%string, [5; 6; 7; 8])].
Definition refit_names : model_names := mkModelNames ["cost"%string] None None None.
Definition refit_X : mat := design_mat [[5; 6; 7; 8]].
Definition refit_data : Data := data_of fit_cols fit_map 1 refit_X (@Some vec (fun _ => 1)) None.
Definition refit_est : estimator :=
  mkEst (CoreLogit KMNL refit_data) (option_map smat_R (chosen_row_to_obs fit_map)) None (mkArr 1 (fun _ => 0)).
(** The model object after a fit that stored [v]. *)
Definition refit_model (v : arr) : fitted_model :=
  mkFitted (ClassLogit KMNL) "alt" "obs" None [("cost"%string, SStr "all_same")] None refit_names v None None None.

(** For every optimizer that keeps the number of parameters and gives an answer, the
    hypotheses of C74 hold on this table. *)
Example ex_refit mz r v :
  mz (neg_ll_and_neg_gradient refit_est) (Some (calc_neg_hessian refit_est)) (mkArr 1 v) = Ok r ->
  alen (mr_x r) = 1%nat ->
  exists mo p out,
    built_from (refit_model (mkArr 1 (aget (mr_x r)))) refit_frame "choice" mo /\ positions_valid mo /\
    fit_mle mz ex_nm refit_names None mo 0 no_draws (start_at (mkArr 1 v)) = Ok (Stored p out) /\
    holds_estimates (refit_model (mkArr 1 (aget (mr_x r)))) p.
Proof.
  intros Hm Hl. set (mo := mkModel (ClassLogit KMNL) fit_cols 1 refit_X). exists mo.
  assert (EF : fit_estimator mo 0 no_draws (start_at (mkArr 1 v)) = Ok (refit_est, mkArr 1 v)) by reflexivity.
  unfold fit_mle. rewrite EF. cbn [bind]. unfold estimate. rewrite Hm. cbn [bind start_at fa_just_point].
  destruct r as [[n x] F]. cbn [mr_x alen] in Hl. subst n.
  destruct (grad_form KMNL refit_data (mkArr 1 x) ltac:(cbn; lia) eq_refl) as (g & Eg & Lg & _).
  destruct (hess_form KMNL refit_data (own_of (obs_ids fit_cols)) (mkArr 1 x) ltac:(cbn; lia) eq_refl
     (data_obs_indicator fit_cols None fit_map 1 refit_X (@Some vec (fun _ => 1)) None fit_map_ok) (or_introl eq_refl)) as (h & Eh & Lh & _).
  destruct (fisher_form KMNL refit_data (mkArr 1 x) ltac:(cbn; lia) eq_refl) as (f & Ef & Lf & _).
  unfold post_estimation. cbn [mr_x]. unfold est_probs, est_hess, refit_est. cbn [e_core e_chosen fit_map chosen_row_to_obs option_map bind est_grad est_fish].
  rewrite Eg. cbn [bind]. rewrite Eh. cbn [bind]. rewrite Ef. cbn [bind].
  destruct g as [ng g], h as [nh h], f as [nf f]. cbn [alen sqn] in Lg, Lh, Lf. subst ng nh nf.
  eexists. eexists. split.
  - exists [[5; 6; 7; 8]]. eexists. repeat split.
  - split; [cbn; repeat split; lia|]. split; [reflexivity|]. repeat split.
Qed.

Print Assumptions C74_predict_reproduces_fit.
