(** Predictions in sequences of calls (C96), and the cases behind C93 and C97. *)
From Coq Require Import String ZArith List Reals Lia Lra Arith Bool.
From Verif Require Import Res Vec Arr ChoiceCalcs Ids Mappings LongData Transforms Frame ChoiceTools BaseModel
  NestedCalcs MixedCalcs Estimation Predict Construct ObjectStore Session.
From Verif Require Import PropMappings PropDesign PropConstruct PropPredict PropStore PropSession.
Import ListNotations.
Local Open Scope string_scope.

(** ** A column "intercept" that the specification does not use changes no prediction *)
Lemma ensure_columns_ok l f u : ensure_columns_are_in_dataframe l f = Ok u <-> forallb (has_col f) l = true.
Proof. unfold ensure_columns_are_in_dataframe. destruct u. destruct (forallb (has_col f) l); split; congruence. Qed.

Lemma int_col_has f c l : int_col f c = Ok l -> has_col f c = true.
Proof. unfold int_col, has_col. destruct (assoc c (f_ints f)); [reflexivity|discriminate]. Qed.

Lemma mapM_ext_in {A B} (g h : A -> Res B) l : (forall x, In x l -> g x = h x) -> mapM g l = mapM h l.
Proof.
  induction l as [|x l IH]; intros H; cbn [mapM]; [reflexivity|]. rewrite (H x) by (left; reflexivity).
  destruct (h x); [|reflexivity]. cbn [bind]. rewrite IH; [reflexivity|]. intros y Hy. apply H. right. exact Hy.
Qed.

Lemma assoc_none_In {A} k (l : list (string * A)) v : assoc k l = None -> ~ In (k, v) l.
Proof.
  induction l as [|[k' w] l IH]; intros H Hin; [exact Hin|]. cbn [assoc] in H. cbn [In] in Hin.
  destruct (String.eqb_spec k k') as [->|Hn]; [discriminate|]. destruct Hin as [Hin|Hin]; [congruence|exact (IH H Hin)].
Qed.

Lemma predict_same_or_intercept fm f f' pl long ch nd rvs r :
  same_or_intercept f f' ->
  predict fm f pl long ch nd rvs = Ok r <-> predict fm f' pl long ch nd rvs = Ok r.
Proof.
  intros H. unfold predict.
  destruct (assoc "intercept" (fm_spec fm)) as [sp|] eqn:Esp.
  - assert (E : add_intercept_to_dataframe (fm_spec fm) f = add_intercept_to_dataframe (fm_spec fm) f').
    { unfold add_intercept_to_dataframe. rewrite Esp. destruct H as [->|(Hc & ->)]; [reflexivity|]. rewrite Hc.
      unfold has_col at 1. cbn [f_ints f_reals]. rewrite assoc_app'. cbn.
      destruct (assoc "intercept" (f_ints f)); [reflexivity|]. destruct (assoc "intercept" (f_reals f)); reflexivity. }
    rewrite E. reflexivity.
  - assert (E1 : forall g, add_intercept_to_dataframe (fm_spec fm) g = g) by (intros g; unfold add_intercept_to_dataframe; rewrite Esp; reflexivity).
    rewrite !E1. clear E1. cbv zeta.
    destruct H as [->|(Hc & Hf)]; [reflexivity|].
    assert (Ei : forall c, int_col f' c = int_col f c) by (intros c; rewrite Hf; reflexivity).
    assert (Eh : forall c, c <> "intercept" -> has_col f' c = has_col f c).
    { intros c Hn. rewrite Hf. unfold has_col. cbn [f_ints f_reals]. rewrite assoc_app'. cbn [assoc].
      apply String.eqb_neq in Hn. rewrite Hn. destruct (assoc c (f_reals f)); reflexivity. }
    assert (En : forall c, c <> "intercept" -> num_col f' c = num_col f c).
    { intros c Hn. rewrite Hf. unfold num_col. cbn [f_ints f_reals]. rewrite assoc_app'. cbn [assoc].
      apply String.eqb_neq in Hn. rewrite Hn. destruct (assoc c (f_reals f)); reflexivity. }
    assert (Es : forall kv, In kv (fm_spec fm) -> fst kv <> "intercept").
    { intros [k v] Hin Hk. cbn in Hk. subst k. exact (assoc_none_In _ _ _ Esp Hin). }
    assert (El : long_cols_of f' (fm_obs_col fm) (fm_alt_col fm) ch (fm_mix_col fm) =
                 long_cols_of f (fm_obs_col fm) (fm_alt_col fm) ch (fm_mix_col fm)).
    { unfold long_cols_of, opt_int_col. rewrite !Ei. destruct ch; rewrite ?Ei; destruct (fm_mix_col fm); rewrite ?Ei; reflexivity. }
    rewrite El.
    destruct (long_cols_of f (fm_obs_col fm) (fm_alt_col fm) ch (fm_mix_col fm)) as [d|e] eqn:Ed.
    2:{ split; intros H; exfalso; repeat match type of H with bind ?x _ = _ => destruct x; cbn [bind] in H; [|discriminate] end; discriminate. }
    assert (Hcols : (exists l, int_col f (fm_obs_col fm) = Ok l) /\ (exists l, int_col f (fm_alt_col fm) = Ok l) /\
                    (forall c, fm_mix_col fm = Some c -> exists l, int_col f c = Ok l)).
    { unfold long_cols_of in Ed. destruct (int_col f (fm_obs_col fm)); [|discriminate]. destruct (int_col f (fm_alt_col fm)); [|discriminate].
      cbn [bind] in Ed. destruct (opt_int_col f ch); [|discriminate]. cbn [bind] in Ed.
      split; [eauto|]. split; [eauto|]. intros c Hc'. rewrite Hc' in Ed. cbn [opt_int_col] in Ed. destruct (int_col f c); [eauto|discriminate]. }
    destruct Hcols as ((lo & Ho) & (la & Ha) & Hm).
    assert (Both : forall c l, int_col f c = Ok l -> has_col f c = true /\ has_col f' c = true).
    { intros c l Hl. split; [exact (int_col_has _ _ _ Hl)|]. apply (int_col_has f' c l). rewrite Ei. exact Hl. }
    destruct (Both _ _ Ho) as (Ho1 & Ho2), (Both _ _ Ha) as (Ha1 & Ha2).
    assert (Ens : forall c, has_col f c = true -> has_col f' c = true ->
      ensure_columns_are_in_dataframe [c] f' = ensure_columns_are_in_dataframe [c] f).
    { intros c X Y. unfold ensure_columns_are_in_dataframe. cbn [forallb]. rewrite X, Y. reflexivity. }
    rewrite (Ens _ Ha1 Ha2), (Ens _ Ho1 Ho2).
    assert (Emx : match fm_mix_col fm with Some c => ensure_columns_are_in_dataframe [c] f' | None => Ok tt end =
                  match fm_mix_col fm with Some c => ensure_columns_are_in_dataframe [c] f | None => Ok tt end).
    { destruct (fm_mix_col fm) as [c|]; [|reflexivity]. destruct (Hm c eq_refl) as (l & Hl). destruct (Both _ _ Hl). apply Ens; assumption. }
    rewrite Emx.
    assert (Edm : create_design_matrix f' (fm_spec fm) (fm_alt_col fm) (fm_name_spec fm) =
                  create_design_matrix f (fm_spec fm) (fm_alt_col fm) (fm_name_spec fm)).
    { unfold create_design_matrix. rewrite Ha1, Ha2, Ei.
      assert (Efb : forallb (fun kv => has_col f' (fst kv)) (fm_spec fm) = forallb (fun kv => has_col f (fst kv)) (fm_spec fm)).
      { clear -Eh Es. revert Es. generalize (fm_spec fm). intros l. induction l as [|kv l IH]; intros Es; cbn [forallb]; [reflexivity|].
        rewrite Eh by (apply Es; left; reflexivity). f_equal. apply IH. intros kv' Hk. apply Es. right. exact Hk. }
      rewrite Efb. destruct (negb (forallb _ _)); [reflexivity|]. rewrite Ha. cbn [bind].
      rewrite (mapM_ext_in _ (fun kv => do vals <- num_col f (fst kv); Ok (columns_of la (np_unique la) (fst kv) vals (snd kv))) (fm_spec fm)); [reflexivity|].
      intros kv Hkv. rewrite En by (apply Es; exact Hkv). reflexivity. }
    rewrite Edm. reflexivity.
Qed.

(** The names check_param_list_validity compares with, for models without mixing. *)
Lemma mix_vars_of_type f a m : create_choice_model f a = Ok m -> c_type m <> TMixed -> c_mix_vars m = None.
Proof.
  intros H Ht. unfold create_choice_model in H. apply bind_ok in H. destruct H as (ty & _ & H). unfold class_init in H.
  destruct ty; repeat match type of H with
    | (if ?b then _ else _) = _ => destruct b; [discriminate|]
    | match ?b with _ => _ end = _ => destruct b; try discriminate
    end; apply base_init_inv in H; destruct H as (dm & al & ch & pos & _ & _ & _ & _ & _ & ->); cbn in *; congruence.
Qed.

(** An object that has been estimated has the names of all its coefficients. *)
Definition names_stored (o : mobj) : Prop :=
  ob_attrs o "coefs" <> None ->
  ob_attrs o "ind_var_names" = Some (VNames (add_mixing_variable_names (c_ind_var_names (ob_model o)) (c_mix_vars (ob_model o)))).

Lemma names_stored_fit o f fc at' r : obj_ok o -> names_stored o -> fit_call_on (ob_model o) f fc (ob_attrs o) = (at', r) ->
  names_stored (mkObj (ob_model o) (ob_table o) at').
Proof.
  intros [(l & Hl & El) _ _] Hn H. unfold names_stored. cbn [ob_attrs ob_model].
  destruct (fit_call_cases _ _ _ _ _ _ H) as [(-> & _)|[(-> & _)|[(-> & _)|(est & init & p & _ & _ & -> & _)]]].
  - exact Hn.
  - rewrite !with_settings_at. exact Hn.
  - rewrite !with_settings_at. exact Hn.
  - intros _. assert (Hw : with_settings (ob_model o) f fc (ob_attrs o) "ind_var_names" = Some (VNames l)) by (rewrite with_settings_at; exact Hl).
    rewrite (store_fit_names _ _ _ _ _ _ _ _ _ Hw), El. reflexivity.
Qed.

Lemma run_names_stored h : forall s, all_ok s -> (forall i o, nth_error (s_objs s) i = Some o -> names_stored o) ->
  forall i o, nth_error (s_objs (run s h)) i = Some o -> names_stored o.
Proof.
  induction h as [|c h IH]; intros s Hs Ha; cbn [run]; [exact Ha|]. apply IH; [apply step_all_ok; exact Hs|]. clear IH h.
  intros i o Hi. destruct c as [g|u g|u a|j fc|j u pc]; cbn [step] in Hi; try exact (Ha i o Hi).
  - destruct (nth_error (s_tables s) u) as [fu|]; [|exact (Ha i o Hi)].
    destruct (create_choice_model fu a) as [m|e]; cbn [fst s_objs] in Hi; [|exact (Ha i o Hi)].
    destruct (lt_dec i (length (s_objs s))) as [Hl|Hl].
    + rewrite nth_error_app1 in Hi by exact Hl. exact (Ha i o Hi).
    + rewrite nth_error_app2 in Hi by lia. destruct (i - length (s_objs s))%nat as [|k]; cbn in Hi; [|destruct k; discriminate].
      injection Hi as <-. intros H. exfalso. apply H. reflexivity.
  - destruct (nth_error (s_objs s) j) as [oj|] eqn:Ej; [|exact (Ha i o Hi)].
    destruct (nth_error (s_tables s) (ob_table oj)) as [fo|]; [|exact (Ha i o Hi)].
    destruct (fit_call_on (ob_model oj) fo fc (ob_attrs oj)) as [at' r] eqn:Ef. cbn [fst s_objs] in Hi.
    destruct (Nat.eq_dec j i) as [->|Hne].
    + rewrite replace_same in Hi by (exact (nth_error_lt _ _ _ Ej)). injection Hi as <-. exact (names_stored_fit _ _ _ _ _ (Hs i oj Ej) (Ha i oj Ej) Ef).
    + rewrite replace_other in Hi by exact Hne. exact (Ha i o Hi).
  - destruct (nth_error (s_objs s) j) as [oj|]; [|exact (Ha i o Hi)]. destruct (nth_error (s_tables s) u) as [fu|]; exact (Ha i o Hi).
Qed.

(** ** C96: predictions with explicit parameters

    For every model but the mixed logit, predict(data, param_list=...) gives the same
    probabilities before estimation, after it and whatever else has been called.  For a
    mixed logit this holds from the first estimation on. *)
Theorem C96_explicit_parameters_need_no_history g1 g2 t1 t2 a i1 i2 h1 h2 u1 u2 pc l r f m fu :
  nth_error (s_tables (run start g1)) t1 = Some f -> nth_error (s_tables (run start g2)) t2 = Some f ->
  create_choice_model f a = Ok m ->
  snd (step (run start g1) (Create t1 a)) = Ok (OModel i1) ->
  snd (step (run start g2) (Create t2 a)) = Ok (OModel i2) ->
  untouched t1 h1 -> untouched t2 h2 ->
  let s1 := run (run start g1) (Create t1 a :: h1) in
  let s2 := run (run start g2) (Create t2 a :: h2) in
  c_type m <> TMixed \/ (attr s1 i1 "coefs" <> None /\ attr s2 i2 "coefs" <> None) ->
  (exists f1, nth_error (s_tables s1) u1 = Some f1 /\ same_or_intercept fu f1) ->
  (exists f2, nth_error (s_tables s2) u2 = Some f2 /\ same_or_intercept fu f2) ->
  pc_params pc = Some l ->
  snd (step s1 (Predict i1 u1 pc)) = Ok (OProbs r) <-> snd (step s2 (Predict i2 u2 pc)) = Ok (OProbs r).
Proof.
  intros Hf1 Hf2 Hm Hc1 Hc2 Hu1 Hu2 s1 s2 Ht (f1 & Fu1 & S1) (f2 & Fu2 & S2) Hp.
  destruct (created_then _ _ _ _ h1 f m (run_all_ok g1 start start_ok) Hf1 Hm Hc1 Hu1) as (o1 & f1' & O1 & M1 & T1 & K1 & _).
  destruct (created_then _ _ _ _ h2 f m (run_all_ok g2 start start_ok) Hf2 Hm Hc2 Hu2) as (o2 & f2' & O2 & M2 & T2 & K2 & _).
  fold s1 in O1. fold s2 in O2.
  assert (Hl : exists l0, ob_attrs o1 "ind_var_names" = Some (VNames l0) /\ ob_attrs o2 "ind_var_names" = Some (VNames l0)).
  { destruct Ht as [Ht|(A1 & A2)].
    - destruct K1 as [(l1 & Hl1 & El1) _ _], K2 as [(l2 & Hl2 & El2) _ _].
      rewrite M1, (mix_vars_of_type f a m Hm Ht) in El1. rewrite M2, (mix_vars_of_type f a m Hm Ht) in El2. cbn in El1, El2. subst l1 l2. eauto.
    - assert (N0 : forall g i o, nth_error (s_objs (run start g)) i = Some o -> names_stored o).
      { intros g. apply run_names_stored; [exact start_ok|]. intros [|i] o; discriminate. }
      unfold attr in A1, A2. rewrite O1 in A1. rewrite O2 in A2.
      assert (E1 : s1 = run start (g1 ++ Create t1 a :: h1)%list) by (rewrite run_app; reflexivity).
      assert (E2 : s2 = run start (g2 ++ Create t2 a :: h2)%list) by (rewrite run_app; reflexivity).
      rewrite E1 in O1. rewrite E2 in O2.
      pose proof (N0 _ _ _ O1 A1) as B1. pose proof (N0 _ _ _ O2 A2) as B2. rewrite M1 in B1. rewrite M2 in B2. eauto. }
  destruct Hl as (l0 & Hl1 & Hl2).
  cbn [step]. rewrite O1, O2, Fu1, Fu2. cbn [snd]. rewrite M1, M2.
  unfold predict_call_on, current_names. rewrite Hp, Hl1, Hl2.
  destruct (class_of m) as [c|]; [|reflexivity]. cbn [bind].
  set (fm := mkFitted c (c_alt_col m) (c_obs_col m) (c_mix_col m) (c_spec m) (c_name_spec m) _ _ _ _ _).
  pose proof (predict_same_or_intercept fm fu f1 (Some l) (pc_long pc) (pc_choice pc) (pc_draws pc) (pc_rvs pc)) as P1.
  pose proof (predict_same_or_intercept fm fu f2 (Some l) (pc_long pc) (pc_choice pc) (pc_draws pc) (pc_rvs pc)) as P2.
  specialize (P1 r S1). specialize (P2 r S2).
  destruct (predict fm f1 (Some l) (pc_long pc) (pc_choice pc) (pc_draws pc) (pc_rvs pc)) as [r1|e1];
  destruct (predict fm f2 (Some l) (pc_long pc) (pc_choice pc) (pc_draws pc) (pc_rvs pc)) as [r2|e2]; cbn [bind].
  - assert (E : (Ok r1 = Ok r <-> Ok r2 = Ok r)) by tauto. split; intros X; injection X as ->.
    + assert (Y : Ok r2 = Ok r) by tauto. injection Y as ->. reflexivity.
    + assert (Y : Ok r1 = Ok r) by tauto. injection Y as ->. reflexivity.
  - split; [|discriminate]. intros X; injection X as ->. assert (Y : Err e2 = Ok r) by tauto. discriminate.
  - split; [discriminate|]. intros X; injection X as ->. assert (Y : Err e1 = Ok r) by tauto. discriminate.
  - split; discriminate.
Qed.

Lemma run_keeps_unfitted h : forall s i o, nth_error (s_objs s) i = Some o -> (forall fc, ~ In (Fit i fc) h) -> nth_error (s_objs (run s h)) i = Some o.
Proof.
  induction h as [|c h IH]; intros s i o Hi Hn; cbn [run]; [exact Hi|]. apply IH.
  2:{ intros fc Hin. apply (Hn fc). right. exact Hin. }
  destruct c as [g|u g|u a|j fc|j u pc]; cbn [step]; try exact Hi.
  - destruct (nth_error (s_tables s) u) as [fu|]; [|exact Hi].
    destruct (create_choice_model fu a); cbn [fst s_objs]; [apply nth_error_app_old|]; exact Hi.
  - destruct (nth_error (s_objs s) j) as [oj|]; [|exact Hi]. destruct (nth_error (s_tables s) (ob_table oj)) as [fo|]; [|exact Hi].
    destruct (fit_call_on (ob_model oj) fo fc (ob_attrs oj)) as [at' r]. cbn [fst s_objs].
    rewrite replace_other; [exact Hi|]. intros ->. apply (Hn fc). left. reflexivity.
  - destruct (nth_error (s_objs s) j) as [oj|]; [|exact Hi]. destruct (nth_error (s_tables s) u) as [fu|]; exact Hi.
Qed.

(** Before its first estimation a mixed logit cannot predict with explicit parameters at
    all: param_list is compared with the names of the coefficients without the standard
    deviations, so that an array of the right length is rejected by the check, and an
    array that passes the check does not fit the design matrix. *)
Theorem C96_refuted_mixed_logit_before_estimation g t a i h f m pc l vars :
  nth_error (s_tables (run start g)) t = Some f -> create_choice_model f a = Ok m ->
  c_type m = TMixed -> c_mix_vars m = Some vars -> vars <> [] -> length (c_ind_var_names m) = length (c_design m) ->
  snd (step (run start g) (Create t a)) = Ok (OModel i) -> untouched t h -> (forall fc, ~ In (Fit i fc) h) ->
  let s := run (run start g) (Create t a :: h) in
  pc_params pc = Some l ->
  exists e, snd (step s (Predict i t pc)) = Err e.
Proof.
  intros Hf Hm Ht Hv Hne Hlen Hc Hu Hn s Hp.
  destruct (created_then _ _ _ _ h f m (run_all_ok g start start_ok) Hf Hm Hc Hu) as (o & f' & O & M & T & K & F & Sm).
  fold s in O, F.
  destruct (create_state _ _ _ _ Hc) as (f0 & m0 & Hf0 & Hm0 & _ & _ & O0). rewrite Hf in Hf0. injection Hf0 as <-. rewrite Hm in Hm0. injection Hm0 as <-.
  pose proof (run_keeps_unfitted h _ _ _ O0 Hn) as O1. change (nth_error (s_objs s) i = Some (mkObj m t (setattr "ind_var_names" (VNames (c_ind_var_names m)) no_attrs))) in O1.
  rewrite O in O1. injection O1 as ->.
  cbn [step]. rewrite O, F. cbn [snd ob_model ob_attrs].
  destruct (predict_call_on m f' pc (setattr "ind_var_names" (VNames (c_ind_var_names m)) no_attrs)) as [r|e] eqn:E; [|cbn [bind]; eauto].
  exfalso. unfold predict_call_on in E. apply bind_ok in E. destruct E as (c & Hcl & E). rewrite Hp in E.
  apply (predict_same_or_intercept _ (c_data m) f' _ _ _ _ _ r Sm) in E.
  unfold class_of in Hcl. rewrite Ht in Hcl.
  assert (Hd : exists labels pos, create_design_matrix (c_data m) (c_spec m) (c_alt_col m) (c_name_spec m) = Ok (c_design m, labels) /\
    c_data m = add_intercept_to_dataframe (c_spec m) f /\ c_mix_pos m = Some pos /\ length pos = length vars).
  { clear -Hm Ht Hv. unfold create_choice_model in Hm. apply bind_ok in Hm. destruct Hm as (ty & _ & H). unfold class_init in H.
    destruct ty; repeat match type of H with
      | (if ?b then _ else _) = _ => destruct b; [discriminate|]
      | match ?b with _ => _ end = _ => destruct b; try discriminate
      end; apply base_init_inv in H; destruct H as ([cols labels] & al & ch & pos & Hd & _ & _ & Hpos & _ & ->); cbn in *; try discriminate.
    destruct (Hpos _ Hv) as (ps & -> & Hps). exists labels, ps. repeat split; auto.
    unfold convert_mixing_names_to_positions in Hps. apply mapM_ok in Hps. symmetry. exact (Forall2_len Hps). }
  destruct Hd as (labels & pos & Hd & Hdata & Hpos & Hlp). rewrite Hpos in Hcl. injection Hcl as <-.
  apply predict_ok in E. destruct E as (Hchk & _ & cols & names & d & mp & pr & Hd' & _ & _ & Hpr & Hdis).
  cbn [fm_spec fm_alt_col fm_name_spec] in Hd'.
  assert (Ei : add_intercept_to_dataframe (c_spec m) (c_data m) = c_data m).
  { rewrite Hdata. unfold add_intercept_to_dataframe. destruct (assoc "intercept" (c_spec m)); [|reflexivity].
    destruct (has_col f "intercept") eqn:Eh; [rewrite Eh; reflexivity|].
    unfold has_col at 1. cbn [f_ints f_reals]. rewrite assoc_app'. cbn.
    destruct (assoc "intercept" (f_ints f)); [reflexivity|]. destruct (assoc "intercept" (f_reals f)); reflexivity. }
  rewrite Ei, Hd in Hd'. injection Hd' as <- _.
  unfold request_independent_checks in Hchk. apply bind_ok in Hchk. destruct Hchk as (_ & _ & Hchk).
  apply bind_ok in Hchk. destruct Hchk as (_ & _ & Hchk). apply bind_ok in Hchk. destruct Hchk as (_ & _ & Hchk).
  cbn [fm_names option_map] in Hchk. unfold check_param_list_validity in Hchk.
  apply bind_ok in Hchk. destruct Hchk as (_ & _ & Hchk). apply bind_ok in Hchk. destruct Hchk as (_ & _ & Hchk).
  apply bind_ok in Hchk. destruct Hchk as (_ & _ & Hchk). apply bind_ok in Hchk. destruct Hchk as (_ & _ & Hchk).
  unfold prediction_params in Hpr. destruct l as [|[b|] [|x [|y [|z [|w l]]]]]; try discriminate. injection Hpr as <-.
  cbn [map elem_of] in Hchk. apply bind_ok in Hchk. destruct Hchk as (u & Hrow & _).
  cbn [check_num_rows_of_parameter_array current_names mn_index] in Hrow.
  change (setattr "ind_var_names" (VNames (c_ind_var_names m)) no_attrs "ind_var_names") with (Some (VNames (c_ind_var_names m))) in Hrow. cbn iota in Hrow.
  destruct (Nat.eqb_spec (alen b) (length (c_ind_var_names m))) as [Eb|]; [|discriminate].
  unfold dispatch in Hdis. cbn [fm_class] in Hdis. unfold predict_mixed in Hdis.
  apply bind_ok in Hdis. destruct Hdis as (rm & _ & Hdis). destruct (pc_draws pc) as [nR|]; [|discriminate].
  apply bind_ok in Hdis. destruct Hdis as (draws & _ & Hdis). apply bind_ok in Hdis. destruct Hdis as (E & HE & Hdis).
  apply bind_ok in Hdis. destruct Hdis as (u' & Hx & _). cbn [pr_coefs] in Hx.
  destruct (Nat.eqb_spec (alen b) (x_vars E)) as [Ex|]; [|discriminate].
  unfold mixed_data_of in HE. apply bind_ok in HE. destruct HE as (mp2 & _ & HE). destruct (rows_to_mixers mp2); [|discriminate].
  apply bind_ok in HE. destruct HE as ([nv x3] & Hx3 & HE). injection HE as <-. cbn [x_vars fst] in Ex.
  unfold create_expanded_design_for_mixing in Hx3. destruct (negb _); [discriminate|]. destruct draws; [discriminate|].
  destruct (existsb _ _); [discriminate|]. injection Hx3 as <- _.
  destruct vars; [congruence|]. cbn [length] in Hlp. lia.
Qed.
