(** Printed and statsmodels summaries over whole sessions (C114), and pickle file names
    (C115). *)
From Coq Require Import String Ascii ZArith List Reals Lia Lra Arith Bool.
From Verif Require Import Res Vec Arr ChoiceCalcs Ids Mappings LongData Transforms Frame ChoiceTools BaseModel
  NestedCalcs MixedCalcs LogitFacts Estimation Predict Construct ObjectStore Session Summaries.
From Verif Require Import PropMappings PropDesign PropConstruct PropEstimation PropFit PropRefit PredictExt PropStore PropSession PropSessionPredict
  PropSessionRefit PropSessionCases.
Import ListNotations.
Local Open Scope string_scope.

(** ** Specification *)

(** What the report shows: the fit statistics at the top, then the columns of the table of
    parameters. *)
Definition report_cells : list string :=
  ["aic"; "bic"; "nobs"; "df_resid"; "df_model"; "rho_squared"; "rho_bar_squared"; "llf"; "null_log_likelihood";
   "params"; "bse"; "tvalues"; "pvalues"; "standard_errors"]%string.
(** In the state [s], this call is a fit of object [i] that runs to its end (it neither
    raises nor returns a point estimate only). *)
Definition completes (s : session) (i : nat) (fc : fit_call) : Prop := snd (step s (Fit i fc)) = Ok ONothing.
(** None of the fits of object [i] in [h], started in [s], is completed. *)
Definition none_completed (s : session) (i : nat) (h : list call) : Prop :=
  forall h1 fc h2, h = (h1 ++ Fit i fc :: h2)%list -> ~ completes (run s h1) i fc.

(** ** What a failing fit leaves *)
Definition keeps_on_error (n : string) (k : prog) : Prop := forall o e, snd (k o) = Err e -> fst (k o) n = o n.
Definition never_fails (k : prog) : Prop := forall o, snd (k o) = Ok tt.

Lemma never_keeps n k : never_fails k -> keeps_on_error n k.
Proof. intros H o e E. rewrite H in E. discriminate. Qed.
Lemma koe_put n m v k : m <> n -> keeps_on_error n k -> keeps_on_error n (put m v k).
Proof.
  intros Hm H o e E. unfold put in *. rewrite (H _ _ E). unfold setattr. destruct (String.eqb_spec n m); [congruence|reflexivity].
Qed.
Lemma koe_compute {A} n (r : Res A) k : (forall a, keeps_on_error n (k a)) -> keeps_on_error n (compute r k).
Proof. intros H o e E. unfold compute in *. destruct r; [exact (H _ _ _ E)|reflexivity]. Qed.
Lemma koe_block n attr params names prefix acc k : attr <> n -> (forall b, keeps_on_error n (k b)) ->
  keeps_on_error n (put_block attr params names prefix acc k).
Proof.
  intros Ha H. unfold put_block. destruct params; [apply koe_compute; intros a|]; apply koe_put; auto.
Qed.
Lemma koe_blank n attr names c : attr <> n -> forall s k, (forall s', keeps_on_error n (k s')) ->
  keeps_on_error n (blank_in_place attr names c s k).
Proof.
  intros Ha. induction c as [|z r IH]; intros s k H; cbn [blank_in_place]; [apply H|].
  destruct (py_pos (length names) z); [apply koe_put; auto|]. intros o e _. reflexivity.
Qed.

Lemma store_fit_keeps_summary nm m mixing N n rep p a o e :
  a = "summary" \/ a = "fit_summary" ->
  snd (store_fit nm m mixing N n rep p o) = Err e -> fst (store_fit nm m mixing N n rep p o) a = o a.
Proof.
  intros Ha. enough (H : keeps_on_error a (store_fit nm m mixing N n rep p)) by exact (H o e). clear o e.
  assert (F : forall (x : list string * list R) inf, never_fails
    (put "summary" (summary_table (combine (fst x) (snd x)) inf)
       (record_fit_values n (length (combine (fst x) (snd x))) (po_final_ll p) (i_standard_errors inf)
          (put "fit_summary" (fit_summary_of n (length (combine (fst x) (snd x))) rep p) done)))) by (intros x inf o; reflexivity).
  unfold store_fit, store_basic. cbv zeta.
  repeat (apply koe_put; [destruct Ha; subst; discriminate|]).
  assert (D : forall k, keeps_on_error a k -> keeps_on_error a (default_design_3d k)).
  { intros k H o e E. unfold default_design_3d in *. destruct (o "design_3d"); [exact (H _ _ E)|].
    rewrite (H _ _ E). unfold setattr. destruct Ha; subst; reflexivity. }
  apply D. clear D.
  assert (X : forall k, (forall l, keeps_on_error a (k l)) -> keeps_on_error a (extend_names mixing k)).
  { intros k H o e E. unfold extend_names in *. destruct (o "ind_var_names") as [[]|]; try reflexivity.
    rewrite (H _ _ _ E). unfold setattr. destruct Ha; subst; reflexivity. }
  apply X. clear X. intros idx.
  apply koe_block; [destruct Ha; subst; discriminate|]. intros b1.
  apply koe_block; [destruct Ha; subst; discriminate|]. intros b2.
  apply koe_block; [destruct Ha; subst; discriminate|]. intros b3.
  unfold put_inference.
  repeat first [apply koe_compute; intros ? | apply koe_put; [destruct Ha; subst; discriminate|]].
  unfold blank_all. destruct (r_constrained_pos (results_of n p)); [|apply never_keeps, F].
  repeat (apply koe_blank; [destruct Ha; subst; discriminate|]; intros ?). apply never_keeps, F.
Qed.

(** A fit that does not complete changes neither table. *)
Lemma fit_keeps_summary s i fc a j :
  a = "summary" \/ a = "fit_summary" -> j <> i \/ ~ completes s j fc ->
  attr (fst (step s (Fit j fc))) i a = attr s i a.
Proof.
  intros Ha Hj. cbn [step]. unfold completes in Hj. cbn [step] in Hj.
  destruct (nth_error (s_objs s) j) as [o|] eqn:Ej; [|reflexivity].
  destruct (nth_error (s_tables s) (ob_table o)) as [f|] eqn:Et; [|reflexivity].
  destruct (fit_call_on (ob_model o) f fc (ob_attrs o)) as [at' r] eqn:Ef. cbn [fst snd s_objs] in *. unfold attr. cbn [s_objs].
  destruct (Nat.eq_dec j i) as [->|Hne].
  2:{ rewrite replace_other by exact Hne. reflexivity. }
  destruct Hj as [Hj|Hj]; [congruence|].
  rewrite replace_same by (exact (nth_error_lt _ _ _ Ej)). rewrite Ej. cbn [ob_attrs].
  assert (W : with_settings (ob_model o) f fc (ob_attrs o) a = ob_attrs o a) by (rewrite with_settings_at; destruct Ha; subst a; reflexivity).
  destruct (fit_call_cases _ _ _ _ _ _ Ef) as [(-> & _)|[(-> & _)|[(-> & _)|(est & init & p & Hs & He & -> & Er)]]]; [reflexivity|exact W|exact W|].
  destruct (snd (store_fit (fc_nm fc) (names_of (ob_model o)) (c_mix_vars (ob_model o)) (d_N (core_data (e_core est)))
      (d_obs (core_data (e_core est))) (fc_report fc) p (with_settings (ob_model o) f fc (ob_attrs o)))) as [u|e] eqn:Es.
  - exfalso. apply Hj. rewrite Er. reflexivity.
  - rewrite (store_fit_keeps_summary _ _ _ _ _ _ _ _ _ _ Ha Es). exact W.
Qed.

(** An object has both tables or neither. *)
Lemma step_keeps_summary s c i a :
  a = "summary" \/ a = "fit_summary" -> (i < length (s_objs s))%nat -> (forall fc, c = Fit i fc -> ~ completes s i fc) ->
  attr (fst (step s c)) i a = attr s i a.
Proof.
  intros Ha Hi Hc. destruct c as [g|u g|u x|j fc|j u pc].
  - reflexivity.
  - reflexivity.
  - cbn [step]. destruct (nth_error (s_tables s) u) as [fu|]; [|reflexivity].
    destruct (create_choice_model fu x) as [m|e]; cbn [fst]; [|reflexivity]. unfold attr. cbn [s_objs]. rewrite nth_error_app1 by exact Hi. reflexivity.
  - apply fit_keeps_summary; [exact Ha|]. destruct (Nat.eq_dec j i) as [->|H]; [right; apply Hc; reflexivity|left; exact H].
  - cbn [step]. destruct (nth_error (s_objs s) j); [|reflexivity]. destruct (nth_error (s_tables s) u); reflexivity.
Qed.
Lemma step_count s c : (length (s_objs s) <= length (s_objs (fst (step s c))))%nat.
Proof.
  destruct c as [g|u g|u x|j fc|j u pc]; cbn [step]; try (cbn; lia).
  - destruct (nth_error (s_tables s) u) as [fu|]; [|cbn; lia].
    destruct (create_choice_model fu x) as [m|e]; cbn [fst s_objs]; rewrite ?app_length; lia.
  - destruct (nth_error (s_objs s) j) as [o|]; [|cbn; lia]. destruct (nth_error (s_tables s) (ob_table o)); [|cbn; lia].
    destruct (fit_call_on _ _ _ _). cbn [fst s_objs]. rewrite replace_length. lia.
  - destruct (nth_error (s_objs s) j); [|cbn; lia]. destruct (nth_error (s_tables s) u); cbn; lia.
Qed.

Lemma run_keeps_summary h : forall s i a,
  a = "summary" \/ a = "fit_summary" -> (i < length (s_objs s))%nat -> none_completed s i h -> attr (run s h) i a = attr s i a.
Proof.
  induction h as [|c h IH]; intros s i a Ha Hi Hn; cbn [run]; [reflexivity|].
  rewrite IH; [|exact Ha|pose proof (step_count s c); lia|].
  - apply step_keeps_summary; [exact Ha|exact Hi|]. intros fc ->. exact (Hn [] fc h eq_refl).
  - intros h1 fc h2 E. apply (Hn (c :: h1) fc h2). rewrite E. reflexivity.
Qed.

Lemma print_at s i f t : print_summaries_of s i = Ok (f, t) <-> attr s i "fit_summary" = Some f /\ attr s i "summary" = Some t.
Proof.
  unfold print_summaries_of, attr. destruct (nth_error (s_objs s) i) as [o|]; [|split; [discriminate|intros (? & ?); discriminate]].
  unfold print_summaries, hasattr, getattr.
  destruct (ob_attrs o "fit_summary"), (ob_attrs o "summary"); cbn [andb bind]; split; intros H; try discriminate; try (destruct H; discriminate).
  - injection H as -> ->. auto.
  - destruct H as (E1 & E2). injection E1 as ->. injection E2 as ->. reflexivity.
Qed.

Lemma getattrs_ok o l : (forall n, In n l -> exists v, o n = Some v) ->
  exists cells, getattrs o l = Ok cells /\ map fst cells = l /\ forall n v, In (n, v) cells -> o n = Some v.
Proof.
  induction l as [|a l IH]; intros H; cbn [getattrs].
  - exists []. repeat split. intros n v [].
  - destruct (H a (or_introl eq_refl)) as (v & E). unfold getattr. rewrite E. cbn [bind].
    destruct IH as (cells & E2 & M & V); [intros n Hn; apply H; right; exact Hn|]. rewrite E2. cbn [bind].
    exists ((a, v) :: cells). split; [reflexivity|]. split; [cbn [map fst]; rewrite M; reflexivity|].
    intros n w [Hin|Hin]; [injection Hin as <- <-; exact E|exact (V n w Hin)].
Qed.

(** ** C114 *)

(** Right after a fit that completes, both printed tables are those of that fit: [p] are
    its results, [out] their labelled form. *)
Theorem C114_printed_right_after_a_fit h i fc :
  let s := run start h in
  completes s i fc ->
  exists o f est init p out,
    nth_error (s_objs s) i = Some o /\ nth_error (s_tables s) (ob_table o) = Some f /\
    fit_setup (ob_model o) f fc = Ok (est, init) /\
    estimate (fc_mz fc) init est true (fa_just_point (fc_args fc)) = Ok (FullResults p) /\
    let n := d_obs (core_data (e_core est)) in
    let names := f_hessian_labels out in
    let inf := f_inference out in
    store_fit_results (fc_nm fc) (names_of (ob_model o)) (c_mix_vars (ob_model o)) (results_of n p) = Ok out /\
    print_summaries_of (fst (step s (Fit i fc))) i = Ok
      (VSummary
         [("Number of Parameters", SCount (length names));
          ("Number of Observations", SCount n);
          ("Null Log-Likelihood", SNum (po_null_ll p));
          ("Fitted Log-Likelihood", SNum (po_final_ll p));
          ("Rho-Squared", SNum (po_rho p));
          ("Rho-Bar-Squared", SNum (po_rho_bar p));
          ("Estimation Message", SText (rp_message (fc_report fc)))],
       VTable names
         [("parameters", map (fun kv => Fin (snd kv)) (f_params out));
          ("std_err", map snd (i_standard_errors inf));
          ("t_stats", map snd (i_tvalues inf));
          ("p_values", map snd (i_pvalues inf));
          ("robust_std_err", map snd (i_robust_std_errs inf));
          ("robust_t_stats", map snd (i_robust_t_stats inf));
          ("robust_p_values", map snd (i_robust_p_vals inf))]) /\
    exists hinv cells,
      n_inv (fc_nm fc) (po_hessian p) = Ok hinv /\
      statsmodels_summary_of true (fst (step s (Fit i fc))) i = Ok (Report cells) /\ map fst cells = report_cells /\
      incl cells (fit_attributes (d_N (core_data (e_core est))) n (fc_report fc) p out hinv).
Proof.
  intros s Hc. unfold completes in Hc. pose proof (run_all_ok h start start_ok) as Hok. fold s in Hok.
  cbn [step] in Hc |- *.
  destruct (nth_error (s_objs s) i) as [o|] eqn:Ei; [|discriminate].
  destruct (nth_error (s_tables s) (ob_table o)) as [f|] eqn:Et; [|discriminate].
  destruct (fit_call_on (ob_model o) f fc (ob_attrs o)) as [at' r] eqn:Ef. cbn [fst snd] in Hc |- *.
  destruct (fit_call_cases _ _ _ _ _ _ Ef) as [(_ & e & _ & ->)|[(_ & e & ->)|[(_ & x & ->)|(est & init & p & Hs & He & Ea & Er)]]]; try discriminate.
  destruct (Hok i o Ei) as [(l & Hl & El) _ _].
  set (A := with_settings (ob_model o) f fc (ob_attrs o)) in *.
  assert (HA : A "ind_var_names" = Some (VNames l)) by (unfold A; rewrite with_settings_at; exact Hl).
  destruct (store_fit (fc_nm fc) (names_of (ob_model o)) (c_mix_vars (ob_model o)) (d_N (core_data (e_core est)))
      (d_obs (core_data (e_core est))) (fc_report fc) p A) as [B res] eqn:Es. cbn [fst snd] in Ea, Er. subst at'.
  pose proof (store_fit_agrees _ (names_of (ob_model o)) _ _ _ _ _ _ _ _ _ HA El Es) as G.
  destruct (store_fit_results (fc_nm fc) (names_of (ob_model o)) (c_mix_vars (ob_model o)) (results_of (d_obs (core_data (e_core est))) p)) as [out|e] eqn:Eo.
  2:{ destruct G as (e' & ->). rewrite Er in Hc. discriminate. }
  destruct G as (_ & hinv & Hinv & G).
  exists o, f, est, init, p, out. split; [reflexivity|]. do 3 (split; [assumption|]). cbv zeta.
  assert (At : forall a, attr (mkSession (s_tables s) (replace i (mkObj (ob_model o) (ob_table o) B) (s_objs s))) i a = B a).
  { intros a. unfold attr. cbn [s_objs]. rewrite replace_same by (exact (nth_error_lt _ _ _ Ei)). reflexivity. }
  split; [exact Eo|]. split.
  - apply print_at. rewrite !At, !G. split; reflexivity.
  - assert (V : forall a, In a result_names -> exists v, B a = Some v /\ In (a, v) (fit_attributes (d_N (core_data (e_core est))) (d_obs (core_data (e_core est))) (fc_report fc) p out hinv)).
    { intros a Hin. rewrite <- (fit_attributes_names (d_N (core_data (e_core est))) (d_obs (core_data (e_core est))) (fc_report fc) p out hinv) in Hin.
      apply in_map_iff in Hin. destruct Hin as ([a' v] & E & Hin). cbn [fst] in E. subst a'. exists v. split; [|exact Hin].
      rewrite G. unfold updated. rewrite (assoc_In _ a v); [reflexivity| |exact Hin].
      rewrite fit_attributes_names. exact result_names_nodup. }
    assert (Sub : forall a, In a reported -> In a result_names).
    { intros a Ha. unfold result_names. destruct (in_dec string_dec a result_names) as [Y|N]; [exact Y|]. exfalso.
      assert (F : forallb (fun a => if in_dec string_dec a result_names then true else false) reported = true) by reflexivity.
      rewrite forallb_forall in F. specialize (F a Ha). destruct (in_dec string_dec a result_names); [tauto|discriminate]. }
    destruct (getattrs_ok B reported) as (cells & Ec & Mc & Vc).
    { intros a Ha. destruct (V a (Sub a Ha)) as (v & E & _). eauto. }
    exists hinv, cells. split; [exact Hinv|]. split; [|split; [exact Mc|]].
    + unfold statsmodels_summary_of. cbn [s_objs]. rewrite replace_same by (exact (nth_error_lt _ _ _ Ei)). cbn [ob_attrs].
      unfold get_statsmodels_summary, hasattr. rewrite G. unfold updated, fit_attributes at 1. cbn [assoc String.eqb Ascii.eqb Bool.eqb].
      rewrite Ec. reflexivity.
    + intros [a v] Hin. pose proof (Vc a v Hin) as Ea.
      assert (Ha : In a reported) by (rewrite <- Mc; apply (in_map fst _ _ Hin)).
      destruct (V a (Sub a Ha)) as (v' & E & Hv). rewrite Ea in E. injection E as <-. exact Hv.
Qed.

(** From then on, whatever is called — including further fits of the same object that
    raise, even half-way through storing their results, or that only return a point
    estimate — print_summaries shows these two tables until another fit of the object
    completes. *)
Theorem C114_printed_until_the_next_completed_fit h1 i fc h2 :
  let s := fst (step (run start h1) (Fit i fc)) in
  completes (run start h1) i fc -> none_completed s i h2 ->
  print_summaries_of (run s h2) i = print_summaries_of s i.
Proof.
  intros s Hc Hn. destruct (C114_printed_right_after_a_fit h1 i fc Hc) as (o & f & est & init & p & out & Ho & _ & _ & _ & _ & Hp & _).
  fold s in Hp. pose proof Hp as Hp'. cbv zeta in Hp'. rewrite Hp'. apply print_at in Hp'. destruct Hp' as (P1 & P2).
  assert (Hi : (i < length (s_objs s))%nat).
  { unfold attr in P1. destruct (nth_error (s_objs s) i) eqn:E; [exact (nth_error_lt _ _ _ E)|discriminate]. }
  apply print_at. rewrite !(run_keeps_summary h2 s i) by auto. auto.
Qed.

(** print_summaries works exactly for the objects of which a fit has completed; for the
    others it raises NotImplementedError. *)
Theorem C114_print_needs_a_completed_fit h i :
  (i < length (s_objs (run start h)))%nat ->
  ((exists h1 fc h2, h = (h1 ++ Fit i fc :: h2)%list /\ completes (run start h1) i fc) /\
   exists r, print_summaries_of (run start h) i = Ok r) \/
  (none_completed start i h /\ print_summaries_of (run start h) i = Err NotImplementedError).
Proof.
  induction h as [|c h IH] using rev_ind; intros Hi; [cbn in Hi; lia|].
  rewrite run_app in *. cbn [run] in *. set (s := run start h) in *.
  destruct (lt_dec i (length (s_objs s))) as [Hl|Hl].
  - assert (Hcase : (exists fc, c = Fit i fc /\ completes s i fc) \/ (forall fc, c = Fit i fc -> ~ completes s i fc)).
    { destruct c as [| | |j fc|]; try (right; intros fc H; discriminate).
      destruct (Nat.eq_dec j i) as [->|Hne]; [|right; intros fc' H; injection H as -> ->; congruence].
      unfold completes. destruct (snd (step s (Fit i fc))) as [[]|] eqn:E; try (right; intros fc' H; injection H as <-; congruence).
      left. exists fc. auto. }
    destruct Hcase as [(fc & -> & Hf)|Hn].
    + left. split; [exists h, fc, []; auto|].
      destruct (C114_printed_right_after_a_fit h i fc Hf) as (o & f & est & init & p & out & _ & _ & _ & _ & _ & Hp & _). eexists. exact Hp.
    + destruct (IH Hl) as [((h1 & fc & h2 & -> & Hc) & (f & t) & Hp)|(Hnone & Hp)].
      * left. split; [exists h1, fc, (h2 ++ [c])%list; rewrite <- app_assoc; auto|].
        exists (f, t). apply print_at in Hp. apply print_at. rewrite !(step_keeps_summary s c i) by auto. exact Hp.
      * right. split.
        -- intros h1 fc h2 E. destruct h2 as [|x h2] using rev_ind.
           ++ apply app_inj_tail in E. destruct E as (<- & ->). apply Hn. reflexivity.
           ++ rewrite app_comm_cons, app_assoc in E. apply app_inj_tail in E. destruct E as (-> & _). exact (Hnone h1 fc h2 eq_refl).
        -- unfold print_summaries_of in *. destruct (nth_error (s_objs (fst (step s c))) i) as [o'|] eqn:Eo'.
           2:{ apply nth_error_None in Eo'. pose proof (step_count s c). lia. }
           destruct (nth_error (s_objs s) i) as [o|] eqn:Eo; [|apply nth_error_None in Eo; lia].
           pose proof (step_keeps_summary s c i "summary" (or_introl eq_refl) Hl Hn) as K1.
           pose proof (step_keeps_summary s c i "fit_summary" (or_intror eq_refl) Hl Hn) as K2.
           unfold attr in K1, K2. rewrite Eo, Eo' in K1, K2.
           unfold print_summaries, hasattr, getattr in *. rewrite K1, K2. exact Hp.
  - right. split.
    + intros h1 fc h2 E Hc.
      assert (L : (i < length (s_objs (run start h1)))%nat).
      { unfold completes in Hc. cbn [step] in Hc. destruct (nth_error (s_objs (run start h1)) i) eqn:Ex; [exact (nth_error_lt _ _ _ Ex)|discriminate]. }
      assert (Mono : forall h s, (length (s_objs s) <= length (s_objs (run s h)))%nat).
      { clear. induction h as [|c h IH]; intros s; cbn [run]; [lia|]. pose proof (step_count s c). specialize (IH (fst (step s c))). lia. }
      destruct h2 as [|x h2] using rev_ind.
      * apply app_inj_tail in E. destruct E as (E & _). unfold s in Hl. rewrite E in Hl. lia.
      * rewrite app_comm_cons, app_assoc in E. apply app_inj_tail in E. destruct E as (E & _).
        unfold s in Hl. rewrite E, run_app in Hl. pose proof (Mono (Fit i fc :: h2) (run start h1)). lia.
    + destruct c as [g|u g|u x|j fc|j u pc]; cbn [step] in *.
      * cbn [fst s_objs] in Hi. lia.
      * cbn [fst s_objs] in Hi. lia.
      * destruct (nth_error (s_tables s) u) as [fu|]; [|cbn [fst] in Hi; lia].
        destruct (create_choice_model fu x) as [m|e]; cbn [fst s_objs] in *; [|lia].
        rewrite app_length in Hi. cbn [length] in Hi. unfold print_summaries_of. cbn [s_objs].
        rewrite nth_error_app2 by lia. replace (i - length (s_objs s))%nat with 0%nat by lia. reflexivity.
      * destruct (nth_error (s_objs s) j) as [o|]; [|cbn [fst] in Hi; lia].
        destruct (nth_error (s_tables s) (ob_table o)); [|cbn [fst] in Hi; lia].
        destruct (fit_call_on _ _ _ _). cbn [fst s_objs] in Hi. rewrite replace_length in Hi. lia.
      * destruct (nth_error (s_objs s) j); [|cbn [fst] in Hi; lia]. destruct (nth_error (s_tables s) u); cbn [fst s_objs] in Hi; lia.
Qed.

(** Without statsmodels the report is what print_summaries prints. *)
Theorem C114_report_without_statsmodels s i f t :
  print_summaries_of s i = Ok (f, t) <-> statsmodels_summary_of false s i = Ok (Printed f t).
Proof.
  unfold print_summaries_of, statsmodels_summary_of. destruct (nth_error (s_objs s) i) as [o|]; [|split; discriminate].
  unfold get_statsmodels_summary. destruct (print_summaries (ob_attrs o)) as [[a b]|e]; cbn [bind fst snd]; split; intros H; congruence.
Qed.

(** *** get_statsmodels_summary after a fit that raised *)
Ltac listed := repeat first [apply in_eq | apply in_cons].
Lemma estimate_rho mz init est uh p : estimate mz init est uh false = Ok (FullResults p) ->
  po_null_ll p = est_ll (e_core est) (e_zero est) /\ po_rho p = (1 - po_final_ll p / po_null_ll p)%R.
Proof.
  intros H. unfold estimate in H. apply bind_ok in H. destruct H as (r & _ & H). apply bind_ok in H. destruct H as (q & Hq & H).
  injection H as <-. unfold post_estimation in Hq. apply bind_ok in Hq. destruct Hq as ([[cols ch] lg] & _ & Hq).
  apply bind_ok in Hq. destruct Hq as (g & _ & Hq). apply bind_ok in Hq. destruct Hq as (hh & _ & Hq).
  apply bind_ok in Hq. destruct Hq as (ff & _ & Hq). injection Hq as <-. split; reflexivity.
Qed.

Definition made : list call := (flat_start ++ [Create 0 flat_args])%list.

Lemma made_run : run (run start flat_start) [Create 0 flat_args] = run start made.
Proof. reflexivity. Qed.
Lemma made_then c : run (run start flat_start) [Create 0 flat_args; c] = fst (step (run start made) c).
Proof. rewrite <- made_run. reflexivity. Qed.

(** The fit of [flat_model] with a ridge penalty of 1 that stays at [v], after [h] *)
Lemma flat_completes v h : untouched 0 h -> exists p out hinv,
  let s := run (run start flat_start) (Create 0 flat_args :: h) in
  completes s 0 (fit_from v (RidgeNumber 1)) /\
  po_final_ll p = (2 * ln (/ 2) - v * v)%R /\
  forall n w, In (n, w) (fit_attributes 4 2 (mkReport true "done") p out hinv) -> attr (fst (step s (Fit 0 (fit_from v (RidgeNumber 1))))) 0 n = Some w.
Proof.
  intros U. pose proof (C92_what_estimation_stores flat_start 0 flat_args 0 h (fit_from v (RidgeNumber 1)) flat_frame flat_model flat_table flat_created flat_object U) as W.
  cbv zeta in W. rewrite flat_mo_ok in W. cbn [bind] in W.
  destruct (flat_estimate two v (Some 1%R) (or_introl eq_refl)) as (p & Ep & Eb & Lg & Lh & Lf & Ec & Vh & Ell).
  assert (Ei : n_inv nm1 (po_hessian p) = Ok (mkSq 1 (fun _ _ => / sqe (po_hessian p) 0%nat 0%nat)%R)).
  { cbn [nm1 n_inv]. unfold inv1. rewrite Lh. cbn [Nat.eqb]. destruct (Req_EM_T _ 0) as [E|]; [|reflexivity]. rewrite Vh in E. lra. }
  destruct (flat_out nm1 v (d_obs (core_data (e_core (flat_est two (Some 1%R))))) p _ Eb Lg Lh Lf Ec Ei eq_refl) as (out & Eo & C1 & C2).
  assert (Ef : fit_mle stay nm1 (names_of flat_model) (c_mix_vars flat_model) (mkModel (ClassLogit KMNL) (flat_cols two) 1 (design_mat [[0; 0; 0; 0]%R])) 0 no_draws
    (fc_args (fit_from v (RidgeNumber 1))) = Ok (Stored p out)).
  { unfold fit_mle.
    change (fit_estimator (mkModel (ClassLogit KMNL) (flat_cols two) 1 (design_mat [[0; 0; 0; 0]%R])) 0 no_draws (fc_args (fit_from v (RidgeNumber 1))))
      with (@Ok (estimator * arr) (flat_est two (Some 1%R), mkArr 1 (fun _ => v))).
    cbn [bind]. cbn [fit_from fc_args fa_just_point fst snd]. rewrite Ep. cbn [bind]. rewrite Eo. reflexivity. }
  cbn [fit_from fc_mz fc_nm fc_draws fc_rvs] in W, Ef. rewrite Ef in W. cbn [bind] in W. destruct W as (W1 & _ & _ & hinv & _ & W).
  exists p, out, hinv. split; [exact W1|]. split; [|exact W].
  rewrite Ell, flat_ll by (left; reflexivity). cbn. ring.
Qed.

(** A fit of [flat_model] without penalty that stays at [v] raises in the inverse. *)
Lemma flat_fails v h : untouched 0 h -> exists p out hinv,
  let s := run (run start flat_start) (Create 0 flat_args :: h) in
  snd (step s (Fit 0 (fit_from v RidgeNone))) = Err ValueError /\
  po_null_ll p = (2 * ln (/ 2))%R /\ po_rho p = 0%R /\
  forall n w, In (n, w) (fit_attributes 4 2 (mkReport true "done") p out hinv) ->
    attr (fst (step s (Fit 0 (fit_from v RidgeNone)))) 0 n = if existsb (String.eqb n) set_before_inversion then Some w else attr s 0 n.
Proof.
  intros U.
  destruct (flat_estimate two v None (or_introl eq_refl)) as (q & Eq & Eb & Lg & Lh & Lf & Ec & Vh & Ell).
  assert (Ei : n_inv nm1 (po_hessian q) = Err ValueError).
  { cbn [nm1 n_inv]. unfold inv1. rewrite Lh. cbn [Nat.eqb]. destruct (Req_EM_T _ 0) as [E|E]; [reflexivity|]. exfalso. apply E. rewrite Vh. ring. }
  destruct (flat_out ex_nm v (d_obs (core_data (e_core (flat_est two None)))) q (po_hessian q) Eb Lg Lh Lf Ec eq_refl Lh) as (out2 & Eo & D1 & D2).
  destruct (C93_refuted_when_the_inverse_raises flat_start 0 flat_args 0 h (fit_from v RidgeNone) flat_frame flat_model
    _ (flat_est two None) (mkArr 1 (fun _ => v)) q ex_nm out2 ValueError flat_table flat_created flat_object
    U eq_refl flat_mo_ok eq_refl Eq Eo Ei) as (X1 & X2).
  destruct (estimate_rho _ _ _ _ _ Eq) as (En & Er).
  assert (E0 : po_null_ll q = (2 * ln (/ 2))%R).
  { rewrite En. change (est_ll (e_core (flat_est two None)) (e_zero (flat_est two None))) with (est_log_likelihood KMNL (flat_data two None) (mkArr 1 (fun _ => 0%R))).
    rewrite flat_ll by (left; reflexivity). cbn. ring. }
  assert (L : (ln (/ 2) < 0)%R) by (rewrite <- ln_1; apply ln_increasing; lra).
  exists q, out2, (mkSq 0 (fun _ _ => 0%R)). split; [exact X1|]. split; [exact E0|]. split.
  - rewrite Er, E0, Ell, flat_ll by (left; reflexivity). cbn. field. lra.
  - intros n w Hin. exact (X2 _ n w Hin).
Qed.

(** The report combines two fits: its log-likelihood and information criteria are those of
    the fit that completed, its rho-squared and null log-likelihood those of the one that
    raised, so that they do not belong together. *)
Theorem C114_refuted_report_mixes_fits : exists h fc1 fc2 cells a b c,
  let s1 := fst (step (run start h) (Fit 0 fc1)) in
  let s2 := fst (step s1 (Fit 0 fc2)) in
  completes (run start h) 0 fc1 /\ (exists e, snd (step s1 (Fit 0 fc2)) = Err e) /\
  statsmodels_summary_of true s2 0 = Ok (Report cells) /\
  In ("llf", VNum a) cells /\ In ("null_log_likelihood", VNum b) cells /\ In ("rho_squared", VNum c) cells /\
  (b <> 0)%R /\ (c <> 1 - a / b)%R.
Proof.
  destruct (flat_completes 3 [] ltac:(intros x H; exact H)) as (p & out & hinv & C1 & Lp & A1). cbv zeta in *.
  destruct (flat_fails 5 [Fit 0 (fit_from 3 (RidgeNumber 1))] ltac:(intros x [H|[]]; discriminate)) as (q & out2 & hinv2 & F1 & Nq & Rq & A2). cbv zeta in *.
  rewrite made_run in C1, A1. rewrite made_then in F1, A2.
  exists made, (fit_from 3 (RidgeNumber 1)), (fit_from 5 RidgeNone).
  generalize dependent (run start made). intros s0 C1 A1.
  generalize dependent (fit_from 3 (RidgeNumber 1)). intros fc1 C1 A1.
  generalize dependent (fit_from 5 RidgeNone). intros fc2.
  generalize dependent (fst (step s0 (Fit 0 fc1))). intros s1 A1 F1.
  generalize dependent (fst (step s1 (Fit 0 fc2))). intros s2 A2.
  assert (V1 : forall n, In n result_names -> exists w, attr s1 0 n = Some w).
  { intros n Hn. rewrite <- (fit_attributes_names 4 2 (mkReport true "done") p out hinv) in Hn. apply in_map_iff in Hn.
    destruct Hn as ([n' w] & E & Hn). cbn [fst] in E. subst n'. exists w. exact (A1 n w Hn). }
  assert (V2 : forall n, In n result_names -> exists w, attr s2 0 n = Some w).
  { intros n Hn. destruct (V1 n Hn) as (w1 & E1).
    rewrite <- (fit_attributes_names 4 2 (mkReport true "done") q out2 hinv2) in Hn. apply in_map_iff in Hn.
    destruct Hn as ([n' w] & E & Hn). cbn [fst] in E. subst n'. rewrite (A2 n w Hn), E1.
    destruct (existsb (String.eqb n) set_before_inversion); eauto. }
  assert (Hobj : exists o2, nth_error (s_objs s2) 0 = Some o2 /\ forall n, ob_attrs o2 n = attr s2 0 n).
  { unfold attr. destruct (nth_error (s_objs s2) 0) as [o2|] eqn:E; [eauto|].
    destruct (V2 "aic" ltac:(unfold result_names; listed)) as (w & Ew). unfold attr in Ew. rewrite E in Ew. discriminate. }
  destruct Hobj as (o2 & Ho2 & Hat).
  destruct (getattrs_ok (ob_attrs o2) reported) as (cells & Ec & Mc & Vc).
  { intros n Hn. rewrite Hat. apply V2. unfold reported in Hn. cbn [In] in Hn. unfold result_names.
    repeat (destruct Hn as [<-|Hn]; [listed|]). destruct Hn. }
  assert (Get : forall n w, In n reported -> attr s2 0 n = Some w -> In (n, w) cells).
  { intros n w Hn Hw. rewrite <- Mc in Hn. apply in_map_iff in Hn. destruct Hn as ([n' w'] & E & Hn). cbn [fst] in E. subst n'.
    pose proof (Vc n w' Hn) as E2. rewrite Hat, Hw in E2. injection E2 as ->. exact Hn. }
  exists cells, (po_final_ll p), (po_null_ll q), (po_rho q). cbv zeta.
  split; [exact C1|]. split; [eauto|]. split.
  { unfold statsmodels_summary_of. rewrite Ho2. unfold get_statsmodels_summary, hasattr. rewrite Hat.
    destruct (V2 "estimation_success" ltac:(unfold result_names; listed)) as (w & ->). rewrite Ec. reflexivity. }
  split.
  { apply Get; [unfold reported; listed|].
    rewrite (A2 "llf" (VNum (po_final_ll q)) ltac:(unfold fit_attributes; listed)).
    change (existsb (String.eqb "llf") set_before_inversion) with false. cbn iota.
    exact (A1 "llf" (VNum (po_final_ll p)) ltac:(unfold fit_attributes; listed)). }
  split.
  { apply Get; [unfold reported; listed|].
    exact (A2 "null_log_likelihood" (VNum (po_null_ll q)) ltac:(unfold fit_attributes; listed)). }
  split.
  { apply Get; [unfold reported; listed|].
    exact (A2 "rho_squared" (VNum (po_rho q)) ltac:(unfold fit_attributes; listed)). }
  assert (L : (ln (/ 2) < 0)%R) by (rewrite <- ln_1; apply ln_increasing; lra).
  rewrite Nq, Rq, Lp. split; [lra|]. intros H.
  assert (H2 : (0 * (2 * ln (/ 2)) = (1 - (2 * ln (/ 2) - 3 * 3) / (2 * ln (/ 2))) * (2 * ln (/ 2)))%R) by (rewrite <- H; reflexivity).
  replace ((1 - (2 * ln (/ 2) - 3 * 3) / (2 * ln (/ 2))) * (2 * ln (/ 2)))%R with 9%R in H2 by (field; lra). lra.
Qed.

(** When the first fit of an object raises in the inverse, the check "must estimate a
    model" lets the call through, and it fails with AttributeError. *)
Theorem C114_refuted_report_after_failed_first_fit : exists h fc,
  let s := fst (step (run start h) (Fit 0 fc)) in
  (exists e, snd (step (run start h) (Fit 0 fc)) = Err e) /\
  statsmodels_summary_of true s 0 = Err AttributeError /\
  statsmodels_summary_of true (run start h) 0 = Err NotImplementedError /\
  print_summaries_of s 0 = Err NotImplementedError.
Proof.
  destruct (flat_fails 5 [] ltac:(intros x H; exact H)) as (q & out2 & hinv2 & F1 & _ & _ & A2). cbv zeta in *.
  rewrite made_run in F1, A2. assert (New : statsmodels_summary_of true (run start made) 0 = Err NotImplementedError) by reflexivity.
  assert (At0 : attr (run start made) 0 "aic" = None /\ attr (run start made) 0 "fit_summary" = None) by (split; reflexivity).
  exists made, (fit_from 5 RidgeNone). cbv zeta.
  generalize dependent (run start made). intros s0 F1 A2 New (Z1 & Z2). generalize dependent (fit_from 5 RidgeNone). intros fc F1 A2.
  generalize dependent (fst (step s0 (Fit 0 fc))). intros s A2.
  assert (Es : attr s 0 "estimation_success" = Some (VBool true)).
  { exact (A2 "estimation_success" (VBool true) ltac:(unfold fit_attributes; listed)). }
  assert (Ea : attr s 0 "aic" = None).
  { rewrite (A2 "aic" (VNum (f_aic out2)) ltac:(unfold fit_attributes; listed)). exact Z1. }
  assert (Ef : attr s 0 "fit_summary" = None).
  { erewrite (A2 "fit_summary") by (unfold fit_attributes; listed). exact Z2. }
  unfold attr in Es, Ea, Ef. destruct (nth_error (s_objs s) 0) as [o|] eqn:Eo; [|discriminate].
  split; [eauto|]. split; [|split].
  - unfold statsmodels_summary_of. rewrite Eo. unfold get_statsmodels_summary, hasattr. rewrite Es. unfold reported. cbn [getattrs].
    unfold getattr. rewrite Ea. reflexivity.
  - exact New.
  - unfold print_summaries_of. rewrite Eo. unfold print_summaries, hasattr. rewrite Ef. reflexivity.
Qed.

(** ** C115: the file to_pickle writes *)
Lemma substring_all s : substring 0 (String.length s) s = s.
Proof. induction s as [|a s IH]; cbn; [reflexivity|rewrite IH; reflexivity]. Qed.
Lemma substring_app a b : substring (String.length a) (String.length b) (a ++ b) = b.
Proof. induction a as [|x a IH]; cbn; [apply substring_all|exact IH]. Qed.
Lemma string_length_app a b : String.length (a ++ b) = (String.length a + String.length b)%nat.
Proof. induction a as [|x a IH]; cbn; [reflexivity|rewrite IH; reflexivity]. Qed.
Lemma substring_split n s : (n <= String.length s)%nat -> (substring 0 n s ++ substring n (String.length s - n) s)%string = s.
Proof.
  revert s. induction n as [|n IH]; intros s H.
  - rewrite Nat.sub_0_r, substring_all. destruct s; reflexivity.
  - destruct s as [|a s]; cbn in H; [lia|]. cbn. rewrite IH by lia. reflexivity.
Qed.

Lemma endswith_spec s t : endswith s t = true <-> exists a, s = (a ++ t)%string.
Proof.
  unfold endswith. split.
  - destruct (Nat.leb_spec (String.length t) (String.length s)) as [H|]; [|discriminate]. intros E. apply String.eqb_eq in E.
    exists (substring 0 (String.length s - String.length t) s).
    rewrite <- E at 2. transitivity (substring 0 (String.length s - String.length t) s ++ substring (String.length s - String.length t) (String.length s - (String.length s - String.length t)) s)%string.
    + symmetry. apply substring_split. lia.
    + do 2 f_equal. lia.
  - intros (a & ->). rewrite string_length_app. destruct (Nat.leb_spec (String.length t) (String.length a + String.length t)); [|lia].
    replace (String.length a + String.length t - String.length t)%nat with (String.length a) by lia. rewrite substring_app. apply String.eqb_refl.
Qed.

(** The file ends in .pkl; a name that does is used as it is, and ".pkl" is appended to
    any other; naming the file that was written writes it again. *)
Theorem C115_pickle_file_name p :
  (exists a, pickle_path p = (a ++ ".pkl")%string) /\
  ((exists a, p = (a ++ ".pkl")%string) -> pickle_path p = p) /\
  ((forall a, p <> (a ++ ".pkl")%string) -> pickle_path p = (p ++ ".pkl")%string) /\
  pickle_path (pickle_path p) = pickle_path p.
Proof.
  assert (Y : forall q, (exists a, q = (a ++ ".pkl")%string) -> pickle_path q = q).
  { intros q H. unfold pickle_path. rewrite (proj2 (endswith_spec q ".pkl") H). reflexivity. }
  assert (Z : (exists a, pickle_path p = (a ++ ".pkl")%string)).
  { unfold pickle_path. destruct (endswith p ".pkl") eqn:E; [apply endswith_spec; exact E|eauto]. }
  split; [exact Z|]. split; [apply Y|]. split; [|apply Y; exact Z].
  intros H. unfold pickle_path. destruct (endswith p ".pkl") eqn:E; [|reflexivity].
  apply endswith_spec in E. destruct E as (a & E). exfalso. exact (H a E).
Qed.

(** Two names are saved to the same file exactly when they are equal up to the suffix. *)
Theorem C115_same_file p q :
  pickle_path p = pickle_path q <->
  p = q \/ (p = (q ++ ".pkl")%string /\ endswith q ".pkl" = false) \/ (q = (p ++ ".pkl")%string /\ endswith p ".pkl" = false).
Proof.
  assert (I : forall a b c : string, (a ++ c)%string = (b ++ c)%string -> a = b).
  { intros a b c. revert b. induction a as [|x a IH]; intros [|y b] H; cbn in H; try reflexivity.
    - exfalso. apply (f_equal String.length) in H. cbn in H. rewrite string_length_app in H. lia.
    - exfalso. apply (f_equal String.length) in H. cbn in H. rewrite string_length_app in H. lia.
    - injection H as -> H. f_equal. exact (IH b H). }
  unfold pickle_path. destruct (endswith p ".pkl") eqn:Ep, (endswith q ".pkl") eqn:Eq; split; intros H.
  - left. exact H.
  - destruct H as [H|[(_ & H)|(_ & H)]]; [exact H|discriminate|discriminate].
  - right. left. auto.
  - destruct H as [->|[(H & _)|(_ & H)]]; [congruence|exact H|discriminate].
  - right. right. auto.
  - destruct H as [->|[(_ & H)|(H & _)]]; [congruence|discriminate|symmetry; exact H].
  - left. exact (I _ _ _ H).
  - destruct H as [->|[(H & _)|(H & _)]]; [reflexivity| |]; exfalso.
    + assert (E : endswith p ".pkl" = true) by (apply endswith_spec; eauto). congruence.
    + assert (E : endswith q ".pkl" = true) by (apply endswith_spec; eauto). congruence.
Qed.

(** ** The hypotheses are met *)

(** A model is estimated, then estimated again with a singular Hessian, which raises, used
    for a prediction, and printed: the tables are still those of the first estimation. *)
Example ex_print_after_failed_refit :
  let s := fst (step (run start made) (Fit 0 (fit_from 3 (RidgeNumber 1)))) in
  let h2 := [Fit 0 (fit_from 5 RidgeNone); Predict 0 0 (mkPredictCall None true None None no_draws)] in
  completes (run start made) 0 (fit_from 3 (RidgeNumber 1)) /\ none_completed s 0 h2 /\ (0 < length (s_objs (run start made)))%nat /\
  exists r, print_summaries_of (run s h2) 0 = Ok r.
Proof.
  destruct (flat_completes 3 [] ltac:(intros x H; exact H)) as (p & out & hinv & C1 & _ & A1). cbv zeta in *.
  destruct (flat_fails 5 [Fit 0 (fit_from 3 (RidgeNumber 1))] ltac:(intros x [H|[]]; discriminate)) as (q & out2 & hinv2 & F1 & _). cbv zeta in *.
  rewrite made_run in C1. rewrite made_then in F1.
  set (s := fst (step (run start made) (Fit 0 (fit_from 3 (RidgeNumber 1))))). fold s in F1.
  assert (Hn : none_completed s 0 [Fit 0 (fit_from 5 RidgeNone); Predict 0 0 (mkPredictCall None true None None no_draws)]).
  { intros h1 fc h2 E. destruct h1 as [|c1 [|c2 h1]]; cbn [app] in E; [|discriminate|destruct h1; discriminate].
    pose proof (f_equal (hd (NewTable flat_frame)) E) as E1. cbn [hd] in E1. cbn [run]. unfold completes. rewrite <- E1, F1. discriminate. }
  split; [exact C1|]. split; [exact Hn|]. split; [cbn; lia|].
  pose proof (C114_printed_until_the_next_completed_fit made 0 (fit_from 3 (RidgeNumber 1)) _ C1 Hn) as K. cbv zeta in K. fold s in K. cbv zeta. rewrite K.
  destruct (C114_printed_right_after_a_fit made 0 _ C1) as (o & f & est & init & p' & out' & _ & _ & _ & _ & _ & Hp & _). eexists. exact Hp.
Qed.

Example ex_pickle : pickle_path "model" = "model.pkl" /\ pickle_path "model.pkl" = "model.pkl" /\ pickle_path ".pk" = ".pk.pkl".
Proof. repeat split. Qed.

Print Assumptions C114_printed_right_after_a_fit.
Print Assumptions C114_printed_until_the_next_completed_fit.
Print Assumptions C114_print_needs_a_completed_fit.
Print Assumptions C114_report_without_statsmodels.
Print Assumptions C114_refuted_report_mixes_fits.
Print Assumptions C114_refuted_report_after_failed_first_fit.
Print Assumptions C115_pickle_file_name.
Print Assumptions C115_same_file.
