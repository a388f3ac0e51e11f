(** Changing a table after a model has been made from it (C97). *)
From Coq Require Import String ZArith List Reals Lia Lra Arith Bool.
From Verif Require Import Res Vec Arr ChoiceCalcs Ids Mappings LongData Transforms Frame ChoiceTools BaseModel
  NestedCalcs MixedCalcs Estimation Predict Construct ObjectStore Session.
From Verif Require Import PropConstruct PropStore PropSession.
Import ListNotations.
Local Open Scope string_scope.

(** ** Specification *)

(** The columns that hold identifiers and choices. *)
Definition id_columns (m : created) : list string :=
  c_obs_col m :: c_alt_col m :: c_choice_col m :: match c_mix_col m with Some c => [c] | None => [] end.
(** The user changes table [t] only outside those columns, whose contents stay as in [f]. *)
Definition edits_keep_ids (m : created) (f : frame) (t : nat) (h : list call) : Prop :=
  forall f', In (Edit t f') h -> forall c, In c (id_columns m) -> int_col f' c = int_col f c.

(** ** Proof *)
Lemma table_ids m f t h : forall s f0, edits_keep_ids m f t h -> nth_error (s_tables s) t = Some f0 ->
  (forall c, In c (id_columns m) -> int_col f0 c = int_col f c) ->
  exists f1, nth_error (s_tables (run s h)) t = Some f1 /\ forall c, In c (id_columns m) -> int_col f1 c = int_col f c.
Proof.
  induction h as [|k h IH]; intros s f0 He Hf H0; cbn [run]; [eauto|].
  assert (G : exists f2, nth_error (s_tables (fst (step s k))) t = Some f2 /\ forall c, In c (id_columns m) -> int_col f2 c = int_col f c).
  { destruct k as [g|u g|u a|j fc|j u pc]; cbn [step].
    - exists f0. split; [apply nth_error_app_old; exact Hf|exact H0].
    - cbn [fst s_tables]. destruct (Nat.eq_dec u t) as [->|Hne].
      + exists g. split; [apply replace_same; exact (nth_error_lt _ _ _ Hf)|]. apply (He g). left. reflexivity.
      + exists f0. rewrite replace_other by exact Hne. auto.
    - destruct (nth_error (s_tables s) u) as [fu|] eqn:Eu; [|eauto].
      assert (R : exists f2, nth_error (replace u (table_after_create fu a) (s_tables s)) t = Some f2 /\ forall c, In c (id_columns m) -> int_col f2 c = int_col f c).
      { destruct (Nat.eq_dec u t) as [->|Hne]; [|exists f0; rewrite replace_other by exact Hne; auto].
        rewrite Hf in Eu. injection Eu as <-. exists (table_after_create f0 a). split; [apply replace_same; exact (nth_error_lt _ _ _ Hf)|].
        intros c Hc. rewrite <- (H0 c Hc). unfold table_after_create. destruct (creation_checks f0 a); [apply int_col_add_intercept|reflexivity]. }
      destruct (create_choice_model fu a); exact R.
    - destruct (nth_error (s_objs s) j) as [oj|]; [|eauto]. destruct (nth_error (s_tables s) (ob_table oj)) as [fo|]; [|eauto].
      destruct (fit_call_on (ob_model oj) fo fc (ob_attrs oj)) as [at' r]. cbn [fst s_tables]. eauto.
    - destruct (nth_error (s_objs s) j) as [oj|]; [|eauto]. destruct (nth_error (s_tables s) u) as [fu|] eqn:Eu; [|eauto]. cbn [fst s_tables].
      destruct (Nat.eq_dec u t) as [->|Hne]; [|exists f0; rewrite replace_other by exact Hne; auto].
      rewrite Hf in Eu. injection Eu as <-. eexists. split; [apply replace_same; exact (nth_error_lt _ _ _ Hf)|].
      intros c Hc. rewrite <- (H0 c Hc). apply int_col_add_intercept. }
  destruct G as (f2 & Hf2 & G). apply (IH _ f2); [|exact Hf2|exact G]. intros f' Hin. apply He. right. exact Hin.
Qed.

Lemma view_ids m f1 f2 : (forall c, In c (id_columns m) -> int_col f1 c = int_col f2 c) -> view m f1 = view m f2.
Proof.
  intros H. unfold view, long_cols_of, opt_int_col, id_columns in *. rewrite (H (c_obs_col m)), (H (c_alt_col m)), (H (c_choice_col m)) by (cbn; tauto).
  destruct (c_mix_col m) as [c|]; [|reflexivity]. rewrite (H c) by (cbn; tauto). reflexivity.
Qed.

(** ** C97: changes outside the identifier and choice columns

    The variables are copied when the model is made: whatever the user does to the other
    columns of the table afterwards, a call of fit_mle has the outcome, and stores the
    attributes, that it has right after the model was made. *)
Theorem C97_other_columns_may_change g t a i h fc f m :
  nth_error (s_tables (run start g)) t = Some f -> create_choice_model f a = Ok m ->
  snd (step (run start g) (Create t a)) = Ok (OModel i) -> edits_keep_ids m f t h ->
  let s0 := run (run start g) [Create t a] in
  let s1 := run (run start g) (Create t a :: h) in
  snd (step s1 (Fit i fc)) = snd (step s0 (Fit i fc)) /\
  (snd (step s1 (Fit i fc)) = Ok ONothing ->
   forall n, attr (fst (step s1 (Fit i fc))) i n = attr (fst (step s0 (Fit i fc))) i n).
Proof.
  intros Hf Hm Hc He s0 s1.
  destruct (create_state _ _ _ _ Hc) as (f0 & m0 & Hf0 & Hm0 & _ & T0 & O0). rewrite Hf in Hf0. injection Hf0 as <-. rewrite Hm in Hm0. injection Hm0 as <-.
  destruct (create_inv f a m Hm) as (Cd & _).
  assert (I0 : forall c, In c (id_columns m) -> int_col (c_data m) c = int_col f c) by (intros c _; rewrite Cd; apply int_col_add_intercept).
  destruct (table_ids m f t h _ _ He T0 I0) as (f1 & F1 & I1).
  destruct (run_object h _ _ _ O0) as (o1 & O1 & M1 & T1). cbn [ob_model ob_table] in M1, T1.
  change (fst (step (run start g) (Create t a))) with s0 in T0, O0. change (run (fst (step (run start g) (Create t a))) h) with s1 in F1, O1.
  set (o0 := mkObj m t (setattr "ind_var_names" (VNames (c_ind_var_names m)) no_attrs)) in *.
  assert (K1 : obj_ok o1).
  { apply (run_all_ok (g ++ Create t a :: h)%list start start_ok i o1). rewrite run_app. exact O1. }
  assert (K0 : obj_ok o0) by apply obj_ok_new.
  assert (V : view (ob_model o1) f1 = view (ob_model o1) (c_data m)).
  { rewrite M1. apply view_ids. intros c Hcc. rewrite (I1 c Hcc), (I0 c Hcc). reflexivity. }
  pose proof (fit_call_same o1 o0 f1 (c_data m) fc K1 K0 M1 V) as (R1 & R2).
  cbn [step]. rewrite O1, O0, T1, F1. change (ob_table o0) with t. rewrite T0.
  destruct (fit_call_on (ob_model o1) f1 fc (ob_attrs o1)) as [at1 r1].
  destruct (fit_call_on (ob_model o0) (c_data m) fc (ob_attrs o0)) as [at2 r2]. cbn [fst snd] in *. subst r2.
  split; [reflexivity|]. intros Hok n. unfold attr. cbn [s_objs].
  rewrite !replace_same by (eapply nth_error_lt; eassumption). cbn [ob_attrs]. apply R2.
  destruct r1 as [[x|]|e]; [discriminate|reflexivity|discriminate].
Qed.
