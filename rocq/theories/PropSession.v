(** Sequences of calls on tables and model objects (properties C91-C96). *)
From Coq Require Import String ZArith List Reals Lia Lra Arith Bool.
From Verif Require Import Res Vec Arr ChoiceCalcs Ids Mappings LongData Transforms Frame ChoiceTools BaseModel
  NestedCalcs MixedCalcs Estimation Predict Construct ObjectStore Session.
From Verif Require Import PropMappings PropDesign PropConstruct PropStore.
Import ListNotations.
Local Open Scope string_scope.

(** ** Specification *)

(** The user does not change table [t] during [h]. *)
Definition untouched (t : nat) (h : list call) : Prop := forall f, ~ In (Edit t f) h.

(** The value of an attribute of object [i]; None if it has not been set. *)
Definition attr (s : session) (i : nat) (a : string) : option aval :=
  match nth_error (s_objs s) i with Some o => ob_attrs o a | None => None end.

(** [f'] is [f], or [f] with a last column of ones called "intercept", which [f] lacked. *)
Definition same_or_intercept (f f' : frame) : Prop :=
  f' = f \/
  (has_col f "intercept" = false /\
   f' = mkFrame (f_rows f) (f_ints f) (f_reals f ++ [("intercept", repeat 1%R (f_rows f))])).

(** ** Stores *)
Lemma replace_length {A} n (a : A) l : length (replace n a l) = length l.
Proof. revert n. induction l as [|b l IH]; intros [|n]; cbn; auto. Qed.
Lemma replace_same {A} n (a : A) l : (n < length l)%nat -> nth_error (replace n a l) n = Some a.
Proof. revert n. induction l as [|b l IH]; intros [|n] H; cbn in *; try lia; [reflexivity|]. apply IH. lia. Qed.
Lemma replace_other {A} n k (a : A) l : n <> k -> nth_error (replace n a l) k = nth_error l k.
Proof. revert n k. induction l as [|b l IH]; intros [|n] [|k] H; cbn; try reflexivity; try lia. apply IH. lia. Qed.
Lemma nth_error_lt {A} (l : list A) n a : nth_error l n = Some a -> (n < length l)%nat.
Proof. intros H. apply nth_error_Some. congruence. Qed.
Lemma nth_error_app_old {A} (l r : list A) n a : nth_error l n = Some a -> nth_error (l ++ r)%list n = Some a.
Proof. intros H. rewrite nth_error_app1; [exact H|]. exact (nth_error_lt _ _ _ H). Qed.

(** ** Tables *)
Lemma assoc_app' {A} c (l r : list (string * A)) :
  assoc c (l ++ r)%list = match assoc c l with Some v => Some v | None => assoc c r end.
Proof. induction l as [|[k v] l IH]; cbn; [reflexivity|]. destruct (String.eqb c k); [reflexivity|exact IH]. Qed.

Lemma add_intercept_ext spec f f' :
  same_or_intercept f f' -> same_or_intercept f (add_intercept_to_dataframe spec f').
Proof.
  intros H. unfold add_intercept_to_dataframe. destruct (assoc "intercept" spec); [|exact H].
  destruct H as [->|(Hc & ->)].
  - destruct (has_col f "intercept") eqn:E; [left; reflexivity|right; auto].
  - assert (E : has_col (mkFrame (f_rows f) (f_ints f) (f_reals f ++ [("intercept", repeat 1%R (f_rows f))])) "intercept" = true).
    { unfold has_col. cbn [f_ints f_reals]. rewrite assoc_app'. cbn.
      destruct (assoc "intercept" (f_ints f)); [reflexivity|]. destruct (assoc "intercept" (f_reals f)); reflexivity. }
    rewrite E. right. auto.
Qed.

Lemma table_after_create_ext f a f' :
  same_or_intercept f f' -> same_or_intercept f (table_after_create f' a).
Proof. unfold table_after_create. intros H. destruct (creation_checks f' a); [apply add_intercept_ext; exact H|exact H]. Qed.

(** What one call does to table [t]. *)
Lemma step_table s c t f f0 :
  nth_error (s_tables s) t = Some f -> same_or_intercept f0 f -> (forall g, c <> Edit t g) ->
  exists f', nth_error (s_tables (fst (step s c))) t = Some f' /\ same_or_intercept f0 f'.
Proof.
  intros Ht Hs Hc. pose proof (nth_error_lt _ _ _ Ht) as Hlt. destruct c as [g|u g|u a|i fc|i u pc]; cbn [step].
  - exists f. split; [apply nth_error_app_old; exact Ht|exact Hs].
  - exists f. split; [|exact Hs]. cbn [fst s_tables]. rewrite replace_other; [exact Ht|]. intros ->. exact (Hc g eq_refl).
  - destruct (nth_error (s_tables s) u) as [fu|] eqn:Eu; [|exists f; auto].
    assert (HH : exists f', nth_error (replace u (table_after_create fu a) (s_tables s)) t = Some f' /\ same_or_intercept f0 f').
    { destruct (Nat.eq_dec u t) as [->|Hne].
      - rewrite Ht in Eu. injection Eu as <-. exists (table_after_create f a).
        split; [apply replace_same; exact Hlt|apply table_after_create_ext; exact Hs].
      - exists f. rewrite replace_other by exact Hne. auto. }
    destruct (create_choice_model fu a); exact HH.
  - destruct (nth_error (s_objs s) i) as [o|]; [|exists f; auto].
    destruct (nth_error (s_tables s) (ob_table o)) as [fo|]; [|exists f; auto].
    destruct (fit_call_on (ob_model o) fo fc (ob_attrs o)). exists f. auto.
  - destruct (nth_error (s_objs s) i) as [o|]; [|exists f; auto].
    destruct (nth_error (s_tables s) u) as [fu|] eqn:Eu; [|exists f; auto].
    cbn [fst s_tables]. destruct (Nat.eq_dec u t) as [->|Hne].
    + rewrite Ht in Eu. injection Eu as <-. exists (add_intercept_to_dataframe (c_spec (ob_model o)) f).
      split; [apply replace_same; exact Hlt|apply add_intercept_ext; exact Hs].
    + exists f. rewrite replace_other by exact Hne. auto.
Qed.

(** ** C94: the caller's tables

    Whatever calls of the library are made, a table the user does not change stays as
    it is, or gets one more column: the ones called "intercept". *)
Theorem C94_tables_keep_their_columns s h t f :
  nth_error (s_tables s) t = Some f -> untouched t h ->
  exists f', nth_error (s_tables (run s h)) t = Some f' /\ same_or_intercept f f'.
Proof.
  intros Ht Hu.
  assert (G : forall h s f', untouched t h -> nth_error (s_tables s) t = Some f' -> same_or_intercept f f' ->
    exists f'', nth_error (s_tables (run s h)) t = Some f'' /\ same_or_intercept f f'').
  { clear. intros h. induction h as [|c h IH]; intros s f' Hu Ht Hs; cbn [run]; [eauto|].
    destruct (step_table s c t f' f Ht Hs) as (f2 & H2 & S2); [intros g ->; apply (Hu g); left; reflexivity|].
    apply (IH _ f2); auto. intros g Hg. apply (Hu g). right. exact Hg. }
  apply (G h s f Hu Ht). left. reflexivity.
Qed.

(** A call that is not about table [t] leaves it as it is, and so does fit_mle. *)
Definition about (t : nat) (c : call) : Prop :=
  match c with
  | Edit u _ | Create u _ | Predict _ u _ => u = t
  | NewTable _ | Fit _ _ => False
  end.
Theorem C94_other_tables_are_not_changed s h t f :
  nth_error (s_tables s) t = Some f -> (forall c, In c h -> ~ about t c) ->
  nth_error (s_tables (run s h)) t = Some f.
Proof.
  revert s. induction h as [|c h IH]; intros s Ht Ha; cbn [run]; [exact Ht|].
  apply IH; [|intros c' Hc'; apply Ha; right; exact Hc']. specialize (Ha c (or_introl eq_refl)).
  destruct c as [g|u g|u a|i fc|i u pc]; cbn [step about] in *.
  - apply nth_error_app_old; exact Ht.
  - cbn [fst s_tables]. rewrite replace_other; auto.
  - destruct (nth_error (s_tables s) u) as [fu|]; [|exact Ht].
    destruct (create_choice_model fu a); cbn [fst s_tables]; rewrite replace_other; auto.
  - destruct (nth_error (s_objs s) i) as [o|]; [|exact Ht].
    destruct (nth_error (s_tables s) (ob_table o)) as [fo|]; [|exact Ht].
    destruct (fit_call_on (ob_model o) fo fc (ob_attrs o)). exact Ht.
  - destruct (nth_error (s_objs s) i) as [o|]; [|exact Ht].
    destruct (nth_error (s_tables s) u) as [fu|]; [|exact Ht]. cbn [fst s_tables]. rewrite replace_other; auto.
Qed.

(** The column is added only for a specification that has "intercept" among its keys. *)
Definition wants_intercept (spec : specification) : Prop := exists v, assoc "intercept" spec = Some v.
Theorem C94_without_intercept_in_the_specification s h t f :
  nth_error (s_tables s) t = Some f -> untouched t h ->
  (forall i o, nth_error (s_objs s) i = Some o -> ~ wants_intercept (c_spec (ob_model o))) ->
  (forall u a, In (Create u a) h -> ~ wants_intercept (a_spec a)) ->
  nth_error (s_tables (run s h)) t = Some f.
Proof.
  revert s. induction h as [|c h IH]; intros s Ht Hu Ho Ha; cbn [run]; [exact Ht|].
  assert (NI : forall spec g, ~ wants_intercept spec -> add_intercept_to_dataframe spec g = g).
  { intros spec g Hn. unfold add_intercept_to_dataframe. destruct (assoc "intercept" spec) eqn:E; [|reflexivity].
    exfalso. apply Hn. eexists. exact E. }
  assert (Hsame : forall g (l : list frame) u, nth_error l u = Some g -> replace u g l = l).
  { clear. intros g l. induction l as [|b l IH]; intros [|u] H; cbn in *; try discriminate; [congruence|]. rewrite IH by exact H. reflexivity. }
  apply IH.
  - destruct c as [g|u g|u a|i fc|i u pc]; cbn [step].
    + apply nth_error_app_old; exact Ht.
    + cbn [fst s_tables]. rewrite replace_other; [exact Ht|]. intros ->. apply (Hu g). left. reflexivity.
    + destruct (nth_error (s_tables s) u) as [fu|] eqn:Eu; [|exact Ht].
      assert (E : table_after_create fu a = fu).
      { unfold table_after_create. destruct (creation_checks fu a); [|reflexivity]. apply NI. apply (Ha u a). left. reflexivity. }
      rewrite E, (Hsame _ _ _ Eu). destruct (create_choice_model fu a); exact Ht.
    + destruct (nth_error (s_objs s) i) as [o|]; [|exact Ht].
      destruct (nth_error (s_tables s) (ob_table o)) as [fo|]; [|exact Ht].
      destruct (fit_call_on (ob_model o) fo fc (ob_attrs o)). exact Ht.
    + destruct (nth_error (s_objs s) i) as [o|] eqn:Eo; [|exact Ht].
      destruct (nth_error (s_tables s) u) as [fu|] eqn:Eu; [|exact Ht]. cbn [fst s_tables].
      rewrite NI by (apply (Ho i o Eo)). rewrite (Hsame _ _ _ Eu). exact Ht.
  - intros g Hg. apply (Hu g). right. exact Hg.
  - intros i o Hi. destruct c as [g|u g|u a|j fc|j u pc]; cbn [step] in Hi.
    + apply (Ho i o). exact Hi.
    + apply (Ho i o). exact Hi.
    + destruct (nth_error (s_tables s) u) as [fu|] eqn:Eu; [|apply (Ho i o); exact Hi].
      destruct (create_choice_model fu a) as [m|e] eqn:Ec; cbn [fst s_objs] in Hi; [|apply (Ho i o); exact Hi].
      destruct (lt_dec i (length (s_objs s))) as [Hl|Hl].
      * rewrite nth_error_app1 in Hi by exact Hl. apply (Ho i o). exact Hi.
      * rewrite nth_error_app2 in Hi by lia. destruct (i - length (s_objs s))%nat as [|k]; cbn in Hi; [|destruct k; discriminate].
        injection Hi as <-. cbn [ob_model].
        replace (c_spec m) with (a_spec a); [apply (Ha u a); left; reflexivity|].
        symmetry. unfold create_choice_model in Ec. apply bind_ok in Ec. destruct Ec as (ty & _ & Ec). unfold class_init in Ec.
        destruct ty; repeat match type of Ec with
          | (if ?b then _ else _) = _ => destruct b; [discriminate|]
          | match ?b with _ => _ end = _ => destruct b; try discriminate
          end; apply base_init_inv in Ec; destruct Ec as (dm & al & ch & pos & _ & _ & _ & _ & _ & ->); reflexivity.
    + destruct (nth_error (s_objs s) j) as [oj|] eqn:Ej; [|apply (Ho i o); exact Hi].
      destruct (nth_error (s_tables s) (ob_table oj)) as [fo|]; [|apply (Ho i o); exact Hi].
      destruct (fit_call_on (ob_model oj) fo fc (ob_attrs oj)) as [at' r]. cbn [fst s_objs] in Hi.
      destruct (Nat.eq_dec j i) as [->|Hne].
      * rewrite replace_same in Hi by (exact (nth_error_lt _ _ _ Ej)). injection Hi as <-. cbn [ob_model]. apply (Ho i oj Ej).
      * rewrite replace_other in Hi by exact Hne. apply (Ho i o). exact Hi.
    + destruct (nth_error (s_objs s) j) as [oj|] eqn:Ej; [|apply (Ho i o); exact Hi].
      destruct (nth_error (s_tables s) u) as [fu|]; apply (Ho i o); exact Hi.
  - intros u a Hin. apply (Ha u a). right. exact Hin.
Qed.

(** ** Model objects *)

(** How the model object of a call is made. *)
Lemma create_inv f a m : create_choice_model f a = Ok m ->
  c_data m = add_intercept_to_dataframe (a_spec a) f /\ table_after_create f a = c_data m /\ c_spec m = a_spec a /\
  int_col (c_data m) (c_alt_col m) = Ok (c_alt_ids m) /\ int_col (c_data m) (c_choice_col m) = Ok (c_choices m).
Proof.
  intros H. assert (K : creation_checks f a = Ok tt).
  { unfold create_choice_model in H. unfold creation_checks. apply bind_ok in H. destruct H as (t & -> & H). cbn [bind].
    unfold class_init in H. unfold class_checks.
    assert (B : forall t dm al ob ch sp ir sr nms inm snm ns mv mi, base_init t dm al ob ch sp ir sr nms inm snm ns mv mi = Ok m ->
      base_checks dm al ob ch ir sr inm snm ns = Ok tt).
    { clear. intros t dm al ob ch sp ir sr nms inm snm ns mv mi H. unfold base_init in H. unfold base_checks.
      destruct (ensure_columns_are_in_dataframe [al; ob; ch] dm); [|discriminate]. cbn [bind] in *.
      destruct (int_col dm al); [|discriminate]. cbn [bind] in *.
      destruct (check_names_and_ref snm sr _ ShapeNames); [|discriminate]. cbn [bind] in *.
      destruct (check_names_and_ref inm ir _ InterceptNames); [|discriminate]. cbn [bind] in *.
      destruct ns as [s|]; [|reflexivity]. destruct (check_nest_spec s _) as [[]|]; [reflexivity|discriminate]. }
    destruct t; repeat match type of H with
      | (if ?b then _ else _) = _ => destruct b; [discriminate|]
      | match ?b with _ => _ end = _ => destruct b; try discriminate
      end; exact (B _ _ _ _ _ _ _ _ _ _ _ _ _ _ H). }
  unfold table_after_create. rewrite K. clear K.
  assert (B : forall t dm al ob ch ir sr nms inm snm ns mv mi, base_init t dm al ob ch (a_spec a) ir sr nms inm snm ns mv mi = Ok m ->
    c_data m = add_intercept_to_dataframe (a_spec a) dm /\ c_spec m = a_spec a /\
    int_col (c_data m) (c_alt_col m) = Ok (c_alt_ids m) /\ int_col (c_data m) (c_choice_col m) = Ok (c_choices m)).
  { clear. intros t dm al ob ch ir sr nms inm snm ns mv mi H. unfold base_init in H.
    destruct (ensure_columns_are_in_dataframe [al; ob; ch] dm); [|discriminate]. cbn [bind] in *.
    destruct (int_col dm al); [|discriminate]. cbn [bind] in *.
    destruct (check_names_and_ref snm sr _ ShapeNames); [|discriminate]. cbn [bind] in *.
    destruct (check_names_and_ref inm ir _ InterceptNames); [|discriminate]. cbn [bind] in *.
    destruct (match ns with Some s => check_nest_spec s _ | None => Ok tt end); [|discriminate]. cbn [bind] in *.
    destruct (ensure_columns_are_in_dataframe (map fst (a_spec a)) _); [|discriminate]. cbn [bind] in *.
    destruct (create_design_matrix _ _ _ _); [|discriminate]. cbn [bind] in *.
    destruct (ensure_all_mixing_vars_are_in_the_name_dict _ _); [|discriminate]. cbn [bind] in *.
    destruct (int_col (add_intercept_to_dataframe (a_spec a) dm) al) as [al'|] eqn:E1; [|discriminate]. cbn [bind] in *.
    destruct (int_col (add_intercept_to_dataframe (a_spec a) dm) ch) as [ch'|] eqn:E2; [|discriminate]. cbn [bind] in *.
    destruct (match mv with Some l => _ | None => _ end); [|discriminate]. cbn [bind] in *.
    injection H as <-. cbn. auto. }
  unfold create_choice_model in H. apply bind_ok in H. destruct H as (t & _ & H). unfold class_init in H.
  assert (G : c_data m = add_intercept_to_dataframe (a_spec a) f /\ c_spec m = a_spec a /\
    int_col (c_data m) (c_alt_col m) = Ok (c_alt_ids m) /\ int_col (c_data m) (c_choice_col m) = Ok (c_choices m)).
  { destruct t; repeat match type of H with
      | (if ?b then _ else _) = _ => destruct b; [discriminate|]
      | match ?b with _ => _ end = _ => destruct b; try discriminate
      end; exact (B _ _ _ _ _ _ _ _ _ _ _ _ _ H). }
  destruct G as (G1 & G2 & G3 & G4). auto.
Qed.

Lemma view_ints m f f' : f_ints f = f_ints f' -> view m f = view m f'.
Proof. intros H. unfold view, long_cols_of, opt_int_col, int_col. rewrite H. reflexivity. Qed.

Lemma same_or_intercept_ints f f' : same_or_intercept f f' -> f_ints f' = f_ints f.
Proof. intros [->|(_ & ->)]; reflexivity. Qed.

Lemma add_intercept_ints spec f : f_ints (add_intercept_to_dataframe spec f) = f_ints f.
Proof. unfold add_intercept_to_dataframe. destruct (assoc "intercept" spec); [|reflexivity]. destruct (has_col f "intercept"); reflexivity. Qed.

(** ** Invariant of an object *)
Definition result_names : list string :=
  ["ind_var_names"; "log_likelihood"; "fitted_probs"; "long_fitted_probs"; "long_residuals"; "ind_chi_squareds";
   "chi_square"; "estimation_success"; "estimation_message"; "rho_squared"; "rho_bar_squared"; "null_log_likelihood";
   "intercepts"; "shapes"; "nests"; "coefs"; "gradient"; "hessian"; "cov"; "params"; "standard_errors"; "tvalues";
   "pvalues"; "fisher_information"; "robust_cov"; "robust_std_errs"; "robust_t_stats"; "robust_p_vals"; "summary";
   "nobs"; "df_model"; "df_resid"; "llf"; "bse"; "aic"; "bic"; "fit_summary"].
Definition setting_names : list string := ["optimization_method"; "ridge_param"; "design_3d"].

Record obj_ok (o : mobj) : Prop := {
  ok_names : exists l, ob_attrs o "ind_var_names" = Some (VNames l) /\
    add_mixing_variable_names l (c_mix_vars (ob_model o)) =
    add_mixing_variable_names (c_ind_var_names (ob_model o)) (c_mix_vars (ob_model o));
  ok_unset : forall a, ~ In a result_names -> ~ In a setting_names -> ob_attrs o a = None;
  ok_design : c_type (ob_model o) <> TMixed -> ob_attrs o "design_3d" = None \/ ob_attrs o "design_3d" = Some VNone
}.

(** A method body whose outcome does not depend on the object, and which leaves the
    attributes outside a list as they are. *)
Definition blind (P : prog) : Prop := forall o o', snd (P o) = snd (P o').
Definition keeps (names : list string) (P : prog) : Prop := forall o a, ~ In a names -> fst (P o) a = o a.

Lemma blind_done : blind done. Proof. intros o o'. reflexivity. Qed.
Lemma blind_raise e : blind (raise e). Proof. intros o o'. reflexivity. Qed.
Lemma blind_put n v k : blind k -> blind (put n v k).
Proof. intros H o o'. unfold put. apply H. Qed.
Lemma blind_compute {A} (r : Res A) k : (forall a, blind (k a)) -> blind (compute r k).
Proof. intros H o o'. unfold compute. destruct r; [apply H|reflexivity]. Qed.
Lemma blind_block attr0 params names prefix acc k : (forall b, blind (k b)) -> blind (put_block attr0 params names prefix acc k).
Proof. intros H. unfold put_block. destruct params; [|apply blind_put; apply H]. apply blind_compute. intros a. apply blind_put. apply H. Qed.
Lemma blind_blank attr0 names c : forall s k, (forall s', blind (k s')) -> blind (blank_in_place attr0 names c s k).
Proof.
  induction c as [|z c IH]; intros s k H; cbn [blank_in_place]; [apply H|].
  destruct (py_pos (length names) z); [|apply blind_raise]. apply blind_put. apply IH. exact H.
Qed.
Lemma keeps_done l : keeps l done. Proof. intros o a _. reflexivity. Qed.
Lemma keeps_raise l e : keeps l (raise e). Proof. intros o a _. reflexivity. Qed.
Lemma keeps_put l n v k : In n l -> keeps l k -> keeps l (put n v k).
Proof.
  intros Hn H o a Ha. unfold put. rewrite (H _ a Ha). unfold setattr. destruct (String.eqb_spec a n); [subst; contradiction|reflexivity].
Qed.
Lemma keeps_compute {A} l (r : Res A) k : (forall a, keeps l (k a)) -> keeps l (compute r k).
Proof. intros H o a Ha. unfold compute. destruct r; [apply H; exact Ha|reflexivity]. Qed.
Lemma keeps_block l attr0 params names prefix acc k : In attr0 l -> (forall b, keeps l (k b)) -> keeps l (put_block attr0 params names prefix acc k).
Proof. intros Hn H. unfold put_block. destruct params; [|apply keeps_put; auto]. apply keeps_compute. intros a. apply keeps_put; auto. Qed.
Lemma keeps_blank l attr0 names c : In attr0 l -> forall s k, (forall s', keeps l (k s')) -> keeps l (blank_in_place attr0 names c s k).
Proof.
  intros Hn. induction c as [|z c IH]; intros s k H; cbn [blank_in_place]; [apply H|].
  destruct (py_pos (length names) z); [|apply keeps_raise]. apply keeps_put; auto.
Qed.

Lemma store_fit_blind nm m mixing N n rep p o o' l l' :
  o "ind_var_names" = Some (VNames l) -> o' "ind_var_names" = Some (VNames l') ->
  add_mixing_variable_names l mixing = add_mixing_variable_names l' mixing ->
  snd (store_fit nm m mixing N n rep p o) = snd (store_fit nm m mixing N n rep p o').
Proof.
  intros H H' Hl. rewrite (store_fit_run _ _ _ _ _ _ _ _ _ H), (store_fit_run _ _ _ _ _ _ _ _ _ H'), <- Hl. cbv zeta.
  match goal with |- snd (?P _) = snd (?P _) => assert (B : blind P) end; [|apply B].
  repeat first [apply blind_block; intros|apply blind_put|apply blind_done|apply blind_compute; intros].
  unfold put_inference.
  repeat first [apply blind_put|apply blind_compute; intros].
  unfold blank_all. destruct (r_constrained_pos _).
  - repeat first [apply blind_blank; intros]. unfold record_fit_values. repeat first [apply blind_put|apply blind_done].
  - unfold record_fit_values. repeat first [apply blind_put|apply blind_done].
Qed.

(** What the part of store_fit_results after the first assignments can set. *)
Definition later_names : list string := skipn 12 result_names.
Lemma store_fit_tail nm m mixing N n rep p o a l :
  o "ind_var_names" = Some (VNames l) -> ~ In a later_names ->
  fst (store_fit nm m mixing N n rep p o) a =
  setattr "ind_var_names" (VNames (add_mixing_variable_names l mixing)) (after_basic N n rep p o) a.
Proof.
  intros H Ha. rewrite (store_fit_run _ _ _ _ _ _ _ _ _ H). cbv zeta.
  match goal with |- fst (?P ?o1) a = _ => assert (B : keeps later_names P); [|rewrite (B o1 a Ha)] end; [|reflexivity].
  Ltac known := unfold later_names, result_names; cbn [skipn In]; tauto.
  repeat first [apply keeps_block; [known|intros]|apply keeps_put; [known|]|apply keeps_done|apply keeps_compute; intros].
  unfold put_inference.
  repeat first [apply keeps_put; [known|]|apply keeps_compute; intros].
  unfold blank_all. destruct (r_constrained_pos _).
  - repeat first [apply keeps_blank; [known|intros]]. unfold record_fit_values. repeat first [apply keeps_put; [known|]|apply keeps_done].
  - unfold record_fit_values. repeat first [apply keeps_put; [known|]|apply keeps_done].
Qed.

Lemma store_fit_keeps nm m mixing N n rep p o a l :
  o "ind_var_names" = Some (VNames l) ->
  ~ In a result_names -> a <> "design_3d" -> fst (store_fit nm m mixing N n rep p o) a = o a.
Proof.
  intros H Ha Hd. rewrite (store_fit_tail _ _ _ _ _ _ _ _ _ _ H).
  2:{ intros Hin. apply Ha. rewrite <- (firstn_skipn 12 result_names). apply in_or_app. right. exact Hin. }
  unfold setattr. rewrite after_basic_at. unfold updated. cbn [assoc]. unfold result_names in Ha.
  repeat match goal with
         | |- context [String.eqb a ?x] =>
             destruct (String.eqb_spec a x) as [->|]; [try (exfalso; apply Ha; cbn; tauto); try contradiction|]
         end. reflexivity.
Qed.
Lemma store_fit_names nm m mixing N n rep p o l :
  o "ind_var_names" = Some (VNames l) ->
  fst (store_fit nm m mixing N n rep p o) "ind_var_names" = Some (VNames (add_mixing_variable_names l mixing)).
Proof. intros H. rewrite (store_fit_tail _ _ _ _ _ _ _ _ _ _ H); [reflexivity|]. unfold later_names, result_names. cbn [skipn In]. intuition discriminate. Qed.
Lemma store_fit_design nm m mixing N n rep p o l :
  o "ind_var_names" = Some (VNames l) ->
  fst (store_fit nm m mixing N n rep p o) "design_3d" = match o "design_3d" with None => Some VNone | Some v => Some v end.
Proof.
  intros H. rewrite (store_fit_tail _ _ _ _ _ _ _ _ _ _ H); [|unfold later_names, result_names; cbn [skipn In]; intuition discriminate].
  unfold setattr. cbn [String.eqb Ascii.eqb Bool.eqb]. rewrite after_basic_at. reflexivity.
Qed.

(** The object with the settings of a call. *)
Definition with_settings (m : created) (f : frame) (fc : fit_call) (o : attrs) : attrs :=
  let o := setattr "optimization_method" (VText (fc_method fc)) o in
  let o := setattr "ridge_param" (VRidge (fa_ridge (fc_args fc))) o in
  if design_3d_made m f fc then setattr "design_3d" VDesign3 o else o.
Lemma with_settings_at m f fc o a :
  with_settings m f fc o a =
  if String.eqb a "optimization_method" then Some (VText (fc_method fc))
  else if String.eqb a "ridge_param" then Some (VRidge (fa_ridge (fc_args fc)))
  else if (String.eqb a "design_3d" && design_3d_made m f fc)%bool then Some VDesign3 else o a.
Proof.
  unfold with_settings, setattr. destruct (design_3d_made m f fc).
  - rewrite andb_true_r. destruct (String.eqb_spec a "optimization_method") as [->|]; [reflexivity|].
    destruct (String.eqb_spec a "ridge_param") as [->|]; [reflexivity|]. reflexivity.
  - rewrite andb_false_r. destruct (String.eqb_spec a "optimization_method") as [->|]; [reflexivity|]. reflexivity.
Qed.

(** The four ways a call of fit_mle can go. *)
Lemma fit_call_cases m f fc o at' r :
  fit_call_on m f fc o = (at', r) ->
  (at' = o /\ exists e, early_check (c_type m) (fc_args fc) = Err e /\ r = Err e) \/
  (at' = with_settings m f fc o /\ exists e, r = Err e) \/
  (at' = with_settings m f fc o /\ exists x, r = Ok (Some x)) \/
  (exists est init p, fit_setup m f fc = Ok (est, init) /\
     estimate (fc_mz fc) init est true (fa_just_point (fc_args fc)) = Ok (FullResults p) /\
     at' = fst (store_fit (fc_nm fc) (names_of m) (c_mix_vars m) (d_N (core_data (e_core est))) (d_obs (core_data (e_core est)))
                 (fc_report fc) p (with_settings m f fc o)) /\
     r = match snd (store_fit (fc_nm fc) (names_of m) (c_mix_vars m) (d_N (core_data (e_core est))) (d_obs (core_data (e_core est)))
                 (fc_report fc) p (with_settings m f fc o)) with Ok _ => Ok None | Err e => Err e end).
Proof.
  intros H. unfold fit_call_on in H.
  destruct (early_check (c_type m) (fc_args fc)) as [u|e]; [|injection H as <- <-; left; eauto].
  cbv zeta in H. fold (with_settings m f fc o) in H.
  destruct (fit_setup m f fc) as [[est init]|e]; [|injection H as <- <-; right; left; eauto].
  destruct (estimate (fc_mz fc) init est true (fa_just_point (fc_args fc))) as [[x|p]|e] eqn:Eest;
    [injection H as <- <-; right; right; left; eauto| |injection H as <- <-; right; left; eauto].
  right; right; right. exists est, init, p.
  destruct (store_fit (fc_nm fc) (names_of m) (c_mix_vars m) (d_N (core_data (e_core est))) (d_obs (core_data (e_core est)))
                 (fc_report fc) p (with_settings m f fc o)) as [o2 r2]. injection H as <- <-. auto.
Qed.

Lemma design_3d_only_mixed m f fc : c_type m <> TMixed -> design_3d_made m f fc = false.
Proof. unfold design_3d_made. destruct (c_type m); congruence. Qed.

Lemma estimator_core_ok mo nd rvs ridge w ridge' w' cc :
  estimator_core mo nd rvs ridge w = Ok cc -> exists cc', estimator_core mo nd rvs ridge' w' = Ok cc'.
Proof.
  unfold estimator_core. destruct (mo_class mo).
  - destruct (create_long_form_mappings _ _); [|discriminate]. cbn [bind]. eauto.
  - destruct (create_long_form_mappings _ _) as [mp|]; [|discriminate]. cbn [bind]. destruct (opt_smat _); [|discriminate]. cbn [bind]. eauto.
  - destruct (create_long_form_mappings _ _) as [mp|]; [|discriminate]. cbn [bind]. destruct (opt_smat _); [|discriminate]. cbn [bind].
    destruct (get_normal_draws _ _ _ _); [|discriminate]. cbn [bind]. unfold mixed_data_of.
    destruct (create_long_form_mappings _ _) as [mp2|]; [|discriminate]. cbn [bind]. destruct (rows_to_mixers mp2); [|discriminate].
    destruct (create_expanded_design_for_mixing _ _ _ _ _ _); [|discriminate]. cbn [bind]. eauto.
Qed.
Lemma design_3d_when_set_up m f fc ei : c_type m = TMixed -> fit_setup m f fc = Ok ei -> design_3d_made m f fc = true.
Proof.
  intros Ht H. unfold design_3d_made. rewrite Ht. unfold fit_setup in H.
  destruct (view m f) as [mo|]; [|discriminate]. cbn [bind] in *. unfold fit_estimator, create_estimation_obj in H.
  destruct (init_vector mo (fc_args fc)) as [init|]; [|discriminate]. cbn [bind] in H.
  destruct (estimator_core mo (fc_draws fc) (fc_rvs fc) (ridge_value (fa_ridge (fc_args fc))) (default_weights WNone)) as [cc|] eqn:E; [|discriminate].
  destruct (estimator_core_ok _ _ _ _ _ None (fun _ => 0%R) _ E) as (cc' & ->). reflexivity.
Qed.

Lemma obj_ok_fit o f fc at' r : obj_ok o -> fit_call_on (ob_model o) f fc (ob_attrs o) = (at', r) ->
  obj_ok (mkObj (ob_model o) (ob_table o) at').
Proof.
  intros [(l & Hl & El) Hu Hd] H.
  assert (W : obj_ok (mkObj (ob_model o) (ob_table o) (with_settings (ob_model o) f fc (ob_attrs o)))).
  { split; cbn [ob_attrs ob_model].
    - exists l. rewrite with_settings_at. cbn. auto.
    - intros a Ha Hs. rewrite with_settings_at. unfold setting_names in Hs. cbn [In] in Hs.
      destruct (String.eqb_spec a "optimization_method"); [subst; tauto|]. destruct (String.eqb_spec a "ridge_param"); [subst; tauto|].
      destruct (String.eqb_spec a "design_3d"); [subst; tauto|]. cbn. apply Hu; auto.
    - intros Hm. rewrite with_settings_at, design_3d_only_mixed by exact Hm. cbn. auto. }
  destruct (fit_call_cases _ _ _ _ _ _ H) as [(-> & _)|[(-> & _)|[(-> & _)|(est & init & p & _ & _ & -> & _)]]].
  - split; cbn [ob_attrs ob_model]; eauto.
  - exact W.
  - exact W.
  - destruct W as [(l' & Hl' & El') Hu' Hd']. cbn [ob_attrs ob_model] in *. split; cbn [ob_attrs ob_model].
    + exists (add_mixing_variable_names l' (c_mix_vars (ob_model o))). rewrite (store_fit_names _ _ _ _ _ _ _ _ _ Hl'). split; [reflexivity|].
      rewrite add_mixing_twice. exact El'.
    + intros a Ha Hs. rewrite (store_fit_keeps _ _ _ _ _ _ _ _ _ _ Hl'); auto. intros ->. apply Hs. cbn. tauto.
    + intros Hm. rewrite (store_fit_design _ _ _ _ _ _ _ _ _ Hl'). destruct (Hd' Hm) as [-> | ->]; auto.
Qed.

Lemma obj_ok_new m t : obj_ok (mkObj m t (setattr "ind_var_names" (VNames (c_ind_var_names m)) no_attrs)).
Proof.
  split; cbn [ob_attrs ob_model].
  - exists (c_ind_var_names m). auto.
  - intros a Ha _. unfold setattr. destruct (String.eqb_spec a "ind_var_names"); [subst; exfalso; apply Ha; cbn; tauto|reflexivity].
  - auto.
Qed.

Definition all_ok (s : session) : Prop := forall i o, nth_error (s_objs s) i = Some o -> obj_ok o.

Lemma step_all_ok s c : all_ok s -> all_ok (fst (step s c)).
Proof.
  intros Ha i o Hi. destruct c as [g|u g|u a|j fc|j u pc]; cbn [step] in Hi.
  - exact (Ha i o Hi).
  - exact (Ha i o Hi).
  - destruct (nth_error (s_tables s) u) as [fu|]; [|exact (Ha i o Hi)].
    destruct (create_choice_model fu a) as [m|e]; cbn [fst s_objs] in Hi; [|exact (Ha i o Hi)].
    destruct (lt_dec i (length (s_objs s))) as [Hl|Hl].
    + rewrite nth_error_app1 in Hi by exact Hl. exact (Ha i o Hi).
    + rewrite nth_error_app2 in Hi by lia. destruct (i - length (s_objs s))%nat as [|k]; cbn in Hi; [|destruct k; discriminate].
      injection Hi as <-. apply obj_ok_new.
  - destruct (nth_error (s_objs s) j) as [oj|] eqn:Ej; [|exact (Ha i o Hi)].
    destruct (nth_error (s_tables s) (ob_table oj)) as [fo|]; [|exact (Ha i o Hi)].
    destruct (fit_call_on (ob_model oj) fo fc (ob_attrs oj)) as [at' r] eqn:Ef. cbn [fst s_objs] in Hi.
    destruct (Nat.eq_dec j i) as [->|Hne].
    + rewrite replace_same in Hi by (exact (nth_error_lt _ _ _ Ej)). injection Hi as <-. exact (obj_ok_fit _ _ _ _ _ (Ha i oj Ej) Ef).
    + rewrite replace_other in Hi by exact Hne. exact (Ha i o Hi).
  - destruct (nth_error (s_objs s) j) as [oj|] eqn:Ej; [|exact (Ha i o Hi)].
    destruct (nth_error (s_tables s) u) as [fu|]; exact (Ha i o Hi).
Qed.
Lemma run_all_ok h : forall s, all_ok s -> all_ok (run s h).
Proof. induction h as [|c h IH]; intros s H; cbn [run]; [exact H|]. apply IH. apply step_all_ok. exact H. Qed.
Lemma start_ok : all_ok start.
Proof. intros [|i] o H; discriminate. Qed.

(** An object keeps its model and its table. *)
Lemma step_object s c i o : nth_error (s_objs s) i = Some o ->
  exists o', nth_error (s_objs (fst (step s c))) i = Some o' /\ ob_model o' = ob_model o /\ ob_table o' = ob_table o.
Proof.
  intros Hi. destruct c as [g|u g|u a|j fc|j u pc]; cbn [step].
  - eauto.
  - eauto.
  - destruct (nth_error (s_tables s) u) as [fu|]; [|eauto].
    destruct (create_choice_model fu a); cbn [fst s_objs]; [|eauto]. exists o. split; [apply nth_error_app_old; exact Hi|auto].
  - destruct (nth_error (s_objs s) j) as [oj|] eqn:Ej; [|eauto].
    destruct (nth_error (s_tables s) (ob_table oj)) as [fo|]; [|eauto].
    destruct (fit_call_on (ob_model oj) fo fc (ob_attrs oj)) as [at' r]. cbn [fst s_objs].
    destruct (Nat.eq_dec j i) as [->|Hne].
    + rewrite Hi in Ej. injection Ej as <-. eexists. split; [apply replace_same; exact (nth_error_lt _ _ _ Hi)|auto].
    + exists o. rewrite replace_other by exact Hne. auto.
  - destruct (nth_error (s_objs s) j) as [oj|]; [|eauto]. destruct (nth_error (s_tables s) u) as [fu|]; eauto.
Qed.
Lemma run_object h : forall s i o, nth_error (s_objs s) i = Some o ->
  exists o', nth_error (s_objs (run s h)) i = Some o' /\ ob_model o' = ob_model o /\ ob_table o' = ob_table o.
Proof.
  induction h as [|c h IH]; intros s i o Hi; cbn [run]; [eauto|].
  destruct (step_object s c i o Hi) as (o1 & H1 & E1 & T1). destruct (IH _ _ _ H1) as (o2 & H2 & E2 & T2).
  exists o2. split; [exact H2|]. split; congruence.
Qed.

(** Two calls with the same arguments on the same model, on tables that look the same to
    it: same outcome, and the same attributes if results are stored. *)
Lemma fit_call_same o1 o2 f1 f2 fc : obj_ok o1 -> obj_ok o2 -> ob_model o1 = ob_model o2 -> view (ob_model o1) f1 = view (ob_model o1) f2 ->
  let r1 := fit_call_on (ob_model o1) f1 fc (ob_attrs o1) in
  let r2 := fit_call_on (ob_model o2) f2 fc (ob_attrs o2) in
  snd r1 = snd r2 /\ (snd r1 = Ok None -> forall a, fst r1 a = fst r2 a).
Proof.
  intros [(l1 & Hl1 & El1) Hu1 Hd1] [(l2 & Hl2 & El2) Hu2 Hd2] Em Ef. rewrite <- Em in *. set (m := ob_model o1) in *. clear Em.
  assert (Ed : design_3d_made m f1 fc = design_3d_made m f2 fc) by (unfold design_3d_made; rewrite Ef; reflexivity).
  assert (Es : fit_setup m f1 fc = fit_setup m f2 fc) by (unfold fit_setup; rewrite Ef; reflexivity).
  set (A1 := with_settings m f1 fc (ob_attrs o1)). set (A2 := with_settings m f2 fc (ob_attrs o2)).
  assert (HA1 : A1 "ind_var_names" = Some (VNames l1)) by (unfold A1; rewrite with_settings_at; exact Hl1).
  assert (HA2 : A2 "ind_var_names" = Some (VNames l2)) by (unfold A2; rewrite with_settings_at; exact Hl2).
  cbv zeta. unfold fit_call_on. destruct (early_check (c_type m) (fc_args fc)) as [u|e]; [|split; [reflexivity|discriminate]].
  cbv zeta. fold (with_settings m f1 fc (ob_attrs o1)). fold (with_settings m f2 fc (ob_attrs o2)). fold A1 A2. rewrite <- Es.
  destruct (fit_setup m f1 fc) as [[est init]|e] eqn:Efs; [|split; [reflexivity|discriminate]].
  destruct (estimate (fc_mz fc) init est true (fa_just_point (fc_args fc))) as [[x|p]|e];
    [split; [reflexivity|discriminate]| |split; [reflexivity|discriminate]].
  set (N := d_N (core_data (e_core est))). set (n := d_obs (core_data (e_core est))).
  pose proof (store_fit_blind (fc_nm fc) (names_of m) (c_mix_vars m) N n (fc_report fc) p A1 A2 l1 l2 HA1 HA2 ltac:(congruence)) as EB.
  destruct (store_fit (fc_nm fc) (names_of m) (c_mix_vars m) N n (fc_report fc) p A1) as [B1 r1] eqn:S1.
  destruct (store_fit (fc_nm fc) (names_of m) (c_mix_vars m) N n (fc_report fc) p A2) as [B2 r2] eqn:S2.
  cbn [fst snd] in *. subst r2. split; [reflexivity|]. intros Hok a.
  destruct r1 as [[]|e]; [|discriminate].
  pose proof (store_fit_agrees _ (names_of m) _ _ _ _ _ _ _ _ _ HA1 El1 S1) as G1.
  pose proof (store_fit_agrees _ (names_of m) _ _ _ _ _ _ _ _ _ HA2 El2 S2) as G2.
  destruct (store_fit_results (fc_nm fc) (names_of m) (c_mix_vars m) (results_of n p)) as [out|e]; [|destruct G1 as (e1 & G1); discriminate].
  destruct G1 as (_ & hinv & Hi & G1), G2 as (_ & hinv2 & Hi2 & G2). rewrite Hi in Hi2. injection Hi2 as <-.
  rewrite G1, G2. unfold updated. destruct (assoc a (fit_attributes N n (fc_report fc) p out hinv)) as [v|] eqn:Ea; [reflexivity|].
  unfold A1, A2. rewrite !with_settings_at, <- Ed.
  destruct (String.eqb_spec a "design_3d") as [->|Hnd].
  - cbn [String.eqb Ascii.eqb Bool.eqb andb].
    assert (Dm : c_type m = TMixed \/ c_type m <> TMixed) by (destruct (c_type m); ((left; reflexivity) || (right; discriminate))).
    destruct Dm as [Dm|Dm].
    + rewrite (design_3d_when_set_up m f1 fc _ Dm Efs). reflexivity.
    + rewrite (design_3d_only_mixed m f1 fc Dm). destruct (Hd1 Dm) as [-> | ->], (Hd2 Dm) as [-> | ->]; reflexivity.
  - destruct (String.eqb_spec a "optimization_method"); [reflexivity|]. destruct (String.eqb_spec a "ridge_param"); [reflexivity|].
    cbn [andb].
    assert (NR : ~ In a result_names).
    { intros Hin; unfold fit_attributes in Ea; cbv zeta in Ea; cbn [assoc] in Ea; unfold result_names in Hin; cbn [In] in Hin.
      repeat match type of Ea with context [String.eqb a ?x] => destruct (String.eqb_spec a x); [discriminate|] end.
      repeat match type of Hin with _ \/ _ => destruct Hin as [Hin|Hin] end; try congruence; contradiction. }
    assert (NS : ~ In a setting_names) by (intros Hin; unfold setting_names in Hin; cbn [In] in Hin; intuition congruence).
    rewrite Hu1, Hu2 by assumption. reflexivity.
Qed.

(** The state of the session just after the model has been made. *)
Lemma create_state s t a i : snd (step s (Create t a)) = Ok (OModel i) ->
  exists f m, nth_error (s_tables s) t = Some f /\ create_choice_model f a = Ok m /\ i = length (s_objs s) /\
    nth_error (s_tables (fst (step s (Create t a)))) t = Some (c_data m) /\
    nth_error (s_objs (fst (step s (Create t a)))) i = Some (mkObj m t (setattr "ind_var_names" (VNames (c_ind_var_names m)) no_attrs)).
Proof.
  cbn [step]. destruct (nth_error (s_tables s) t) as [f|] eqn:Et; [|discriminate].
  destruct (create_choice_model f a) as [m|e] eqn:Em; [|discriminate]. cbn [fst snd s_tables s_objs]. intros H. injection H as <-.
  exists f, m. destruct (create_inv f a m Em) as (_ & -> & _).
  split; [reflexivity|]. split; [exact Em|]. split; [reflexivity|]. split; [apply replace_same; exact (nth_error_lt _ _ _ Et)|].
  rewrite nth_error_app2, Nat.sub_diag by lia. reflexivity.
Qed.

(** The object after any calls that leave the table to the library. *)
Lemma created_then s t a i h f m :
  all_ok s -> nth_error (s_tables s) t = Some f -> create_choice_model f a = Ok m ->
  snd (step s (Create t a)) = Ok (OModel i) -> untouched t h ->
  exists o f', nth_error (s_objs (run s (Create t a :: h))) i = Some o /\ ob_model o = m /\ ob_table o = t /\ obj_ok o /\
    nth_error (s_tables (run s (Create t a :: h))) t = Some f' /\ same_or_intercept (c_data m) f'.
Proof.
  intros Hs Ht Hm Hc Hu. destruct (create_state s t a i Hc) as (f0 & m0 & Ht0 & Hm0 & Hi & T0 & O0).
  rewrite Ht in Ht0. injection Ht0 as <-. rewrite Hm in Hm0. injection Hm0 as <-.
  cbn [run]. destruct (run_object h _ _ _ O0) as (o & Ho & E1 & E2). cbn [ob_model ob_table] in E1, E2.
  destruct (C94_tables_keep_their_columns _ h t _ T0 Hu) as (f' & Hf' & Hsame).
  exists o, f'. split; [exact Ho|]. split; [exact E1|]. split; [exact E2|]. split; [|auto].
  apply (run_all_ok h _ (step_all_ok s (Create t a) Hs) i o Ho).
Qed.

(** ** C91: estimation does not depend on what happened before

    A model is made by the same call from equal tables in two sessions; after that, any
    calls are made in which the user does not change the model's table.  Then the same
    call of fit_mle has the same outcome (return value or exception) in both, and if it
    stores results, every attribute of the object is the same. *)
Theorem C91_fit_does_not_depend_on_history g1 g2 t1 t2 a i1 i2 h1 h2 fc :
  nth_error (s_tables (run start g1)) t1 = nth_error (s_tables (run start g2)) t2 ->
  snd (step (run start g1) (Create t1 a)) = Ok (OModel i1) ->
  snd (step (run start g2) (Create t2 a)) = Ok (OModel i2) ->
  untouched t1 h1 -> untouched t2 h2 ->
  let s1 := run (run start g1) (Create t1 a :: h1) in
  let s2 := run (run start g2) (Create t2 a :: h2) in
  snd (step s1 (Fit i1 fc)) = snd (step s2 (Fit i2 fc)) /\
  (snd (step s1 (Fit i1 fc)) = Ok ONothing ->
   forall n, attr (fst (step s1 (Fit i1 fc))) i1 n = attr (fst (step s2 (Fit i2 fc))) i2 n).
Proof.
  intros Ht Hc1 Hc2 Hu1 Hu2 s1 s2.
  pose proof (run_all_ok g1 start start_ok) as A1. pose proof (run_all_ok g2 start start_ok) as A2.
  destruct (create_state _ _ _ _ Hc1) as (f & m & Hf & Hm & _). rewrite Hf in Ht. symmetry in Ht.
  destruct (created_then _ _ _ _ h1 f m A1 Hf Hm Hc1 Hu1) as (o1 & f1 & O1 & M1 & T1 & K1 & F1 & S1).
  destruct (created_then _ _ _ _ h2 f m A2 Ht Hm Hc2 Hu2) as (o2 & f2 & O2 & M2 & T2 & K2 & F2 & S2).
  fold s1 in O1, F1. fold s2 in O2, F2.
  apply same_or_intercept_ints in S1. apply same_or_intercept_ints in S2.
  pose proof (fit_call_same o1 o2 f1 f2 fc K1 K2 ltac:(congruence) (view_ints (ob_model o1) f1 f2 ltac:(congruence))) as (R1 & R2).
  cbn [step]. rewrite O1, O2, T1, T2, F1, F2.
  destruct (fit_call_on (ob_model o1) f1 fc (ob_attrs o1)) as [at1 r1].
  destruct (fit_call_on (ob_model o2) f2 fc (ob_attrs o2)) as [at2 r2]. cbn [fst snd] in *. subst r2.
  split; [reflexivity|]. intros Hok n. unfold attr. cbn [s_objs].
  rewrite !replace_same by (eapply nth_error_lt; eassumption). cbn [ob_attrs]. apply R2.
  destruct r1 as [[x|]|e]; [discriminate|reflexivity|discriminate].
Qed.

(** ** C92: what estimation stores *)
Lemma data_choices d mp K X w r c : choices d = Some c -> data_with_choices c (data_of d mp K X w r) = data_of d mp K X w r.
Proof. intros H. unfold data_with_choices, data_of, choice_vec. cbn [d_N d_obs d_J d_K d_X d_M d_A d_y d_w d_ridge]. rewrite H. reflexivity. Qed.

Lemma core_choices mo nd rvs ridge w cc c : choices (mo_cols mo) = Some c -> estimator_core mo nd rvs ridge w = Ok cc ->
  core_with_choices c (fst cc) = fst cc.
Proof.
  intros Hc. unfold estimator_core. destruct (mo_class mo).
  - destruct (create_long_form_mappings _ _); [|discriminate]. cbn [bind]. intros H. injection H as <-. cbn [fst core_with_choices].
    rewrite data_choices by exact Hc. reflexivity.
  - destruct (create_long_form_mappings _ _) as [mp|]; [|discriminate]. cbn [bind]. destruct (opt_smat _); [|discriminate]. cbn [bind].
    intros H. injection H as <-. cbn [fst core_with_choices n_D n_Q n_R]. rewrite data_choices by exact Hc. reflexivity.
  - destruct (create_long_form_mappings _ _) as [mp|]; [|discriminate]. cbn [bind]. destruct (opt_smat _); [|discriminate]. cbn [bind].
    destruct (get_normal_draws _ _ _ _); [|discriminate]. cbn [bind]. unfold mixed_data_of.
    destruct (create_long_form_mappings _ _) as [mp2|]; [|discriminate]. cbn [bind]. destruct (rows_to_mixers mp2); [|discriminate].
    destruct (create_expanded_design_for_mixing _ _ _ _ _ _); [|discriminate]. cbn [bind].
    intros H. injection H as <-. cbn [fst core_with_choices x_D x_draws x_vars x_X x_mixers x_R]. rewrite data_choices by exact Hc. reflexivity.
Qed.

Lemma first_seen_length l : length (first_seen l) = length (nodup Z.eq_dec l).
Proof.
  apply Permutation.Permutation_length. apply Permutation.NoDup_Permutation; [apply first_seen_NoDup|apply NoDup_nodup|].
  intros x. rewrite first_seen_In, nodup_In. reflexivity.
Qed.
Lemma core_dims mo nd rvs ridge w cc : estimator_core mo nd rvs ridge w = Ok cc ->
  d_N (core_data (fst cc)) = length (obs_ids (mo_cols mo)) /\
  d_obs (core_data (fst cc)) = length (nodup Z.eq_dec (obs_ids (mo_cols mo))).
Proof.
  assert (P : forall sp mp, create_long_form_mappings (mo_cols mo) sp = Ok mp ->
    s_cols (rows_to_obs mp) = length (nodup Z.eq_dec (obs_ids (mo_cols mo)))).
  { intros sp mp H. destruct (mappings_parts _ _ _ H) as (-> & _). rewrite <- first_seen_length. reflexivity. }
  unfold estimator_core. destruct (mo_class mo).
  - destruct (create_long_form_mappings _ _) as [mp|] eqn:E; [|discriminate]. cbn [bind]. intros H. injection H as <-. cbn. eauto.
  - destruct (create_long_form_mappings _ _) as [mp|] eqn:E; [|discriminate]. cbn [bind]. destruct (opt_smat _); [|discriminate]. cbn [bind].
    intros H. injection H as <-. cbn. eauto.
  - destruct (create_long_form_mappings _ _) as [mp|]; [|discriminate]. cbn [bind]. destruct (opt_smat _); [|discriminate]. cbn [bind].
    destruct (get_normal_draws _ _ _ _); [|discriminate]. cbn [bind]. unfold mixed_data_of.
    destruct (create_long_form_mappings _ _) as [mp2|] eqn:E; [|discriminate]. cbn [bind]. destruct (rows_to_mixers mp2); [|discriminate].
    destruct (create_expanded_design_for_mixing _ _ _ _ _ _); [|discriminate]. cbn [bind].
    intros H. injection H as <-. cbn. eauto.
Qed.

(** While the table is left to the library, fit_mle reads what was there at creation. *)
Lemma view_is_model_obj f a m f' : create_choice_model f a = Ok m -> same_or_intercept (c_data m) f' -> view m f' = model_obj_of m.
Proof.
  intros Hm Hs. rewrite (view_ints m f' (c_data m) (same_or_intercept_ints _ _ Hs)).
  destruct (create_inv f a m Hm) as (_ & _ & _ & Ha & _). unfold view, model_obj_of.
  destruct (class_of m); [|reflexivity]. cbn [bind]. unfold long_cols_of. rewrite Ha.
  destruct (int_col (c_data m) (c_obs_col m)); [|reflexivity]. cbn [bind].
  destruct (opt_int_col (c_data m) (Some (c_choice_col m))); [|reflexivity]. cbn [bind].
  destruct (opt_int_col (c_data m) (c_mix_col m)); [|reflexivity]. cbn [bind alt_ids]. rewrite Nat.eqb_refl. reflexivity.
Qed.
Lemma model_obj_choices f a m mo : create_choice_model f a = Ok m -> model_obj_of m = Ok mo -> choices (mo_cols mo) = Some (c_choices m).
Proof.
  intros Hm H. destruct (create_inv f a m Hm) as (_ & _ & _ & _ & Hc). unfold model_obj_of in H.
  destruct (class_of m); [|discriminate]. cbn [bind] in H. unfold long_cols_of in H.
  destruct (int_col (c_data m) (c_obs_col m)); [|discriminate]. cbn [bind] in H.
  destruct (int_col (c_data m) (c_alt_col m)); [|discriminate]. cbn [bind] in H.
  unfold opt_int_col at 1 in H. rewrite Hc in H. cbn [bind] in H.
  destruct (opt_int_col (c_data m) (c_mix_col m)); [|discriminate]. cbn [bind] in H. injection H as <-. reflexivity.
Qed.

Lemma fit_setup_fresh f a m f' fc : create_choice_model f a = Ok m -> same_or_intercept (c_data m) f' ->
  fit_setup m f' fc = do mo <- model_obj_of m; fit_estimator mo (fc_draws fc) (fc_rvs fc) (fc_args fc).
Proof.
  intros Hm Hs. unfold fit_setup. rewrite (view_is_model_obj f a m f' Hm Hs).
  destruct (model_obj_of m) as [mo|] eqn:Emo; [|reflexivity]. cbn [bind].
  destruct (fit_estimator mo (fc_draws fc) (fc_rvs fc) (fc_args fc)) as [[est init]|] eqn:Ee; [|reflexivity]. cbn [bind fst snd].
  do 2 f_equal. unfold fit_estimator, create_estimation_obj in Ee.
  destruct (init_vector mo (fc_args fc)) as [v|]; [|discriminate]. cbn [bind] in Ee.
  destruct (estimator_core mo (fc_draws fc) (fc_rvs fc) (ridge_value (fa_ridge (fc_args fc))) (default_weights WNone)) as [cc|] eqn:Ec; [|discriminate].
  cbn [bind] in Ee. destruct (estimation_checks _ _ _); [|discriminate]. cbn [bind e_core] in Ee.
  destruct (est_check_length (fst cc) v); [|discriminate]. cbn [bind] in Ee. injection Ee as <- <-.
  unfold est_with_choices. cbn [e_core e_chosen e_constrained e_zero].
  rewrite (core_choices _ _ _ _ _ _ _ (model_obj_choices f a m mo Hm Emo) Ec). reflexivity.
Qed.

Lemma early_check_init m mo fa e : model_obj_of m = Ok mo -> early_check (c_type m) fa = Err e -> exists e', init_vector mo fa = Err e'.
Proof.
  intros H He. unfold model_obj_of in H. destruct (class_of m) as [cl|] eqn:Ec; [|discriminate]. cbn [bind] in H.
  destruct (long_cols_of _ _ _ _ _); [|discriminate]. cbn [bind] in H. injection H as <-. unfold init_vector. cbn [mo_class mo_cols mo_K].
  unfold class_of in Ec. unfold early_check in He. destruct (c_type m); try discriminate.
  - injection Ec as <-. unfold plain_init. destruct (_ || _)%bool; [eauto|discriminate].
  - destruct (ref_pos (c_iref m)); [|discriminate]. injection Ec as <-. unfold clog_init. destruct (given _); [eauto|discriminate].
  - destruct (c_nests m); [|discriminate]. injection Ec as <-. unfold plain_init. destruct (_ || _)%bool; [eauto|discriminate].
  - destruct (c_mix_pos m); [|discriminate]. injection Ec as <-. unfold plain_init. destruct (_ || _)%bool; [eauto|discriminate].
Qed.

Lemma assoc_In {A} (l : list (string * A)) k v : NoDup (map fst l) -> In (k, v) l -> assoc k l = Some v.
Proof.
  induction l as [|[k0 v0] l IH]; cbn; [tauto|]. intros Hn [E|Hin].
  - injection E as -> ->. rewrite String.eqb_refl. reflexivity.
  - inversion Hn; subst. destruct (String.eqb_spec k k0) as [->|]; [|auto].
    exfalso. apply H1. apply in_map_iff. exists (k0, v). auto.
Qed.
Lemma fit_attributes_names N n rep p out hinv : map fst (fit_attributes N n rep p out hinv) = result_names.
Proof. reflexivity. Qed.
Lemma result_names_nodup : NoDup result_names.
Proof.
  assert (E : nodup string_dec result_names = result_names) by reflexivity. rewrite <- E. apply NoDup_nodup.
Qed.

(** fit_mle on the object has the outcome of [fit_mle] (Estimation) on the model as it
    was created: parameters, probabilities and inference results in the attributes; with
    just_point only the settings of the call are stored; and it raises otherwise. *)
Theorem C92_what_estimation_stores g t a i h fc f m :
  nth_error (s_tables (run start g)) t = Some f -> create_choice_model f a = Ok m ->
  snd (step (run start g) (Create t a)) = Ok (OModel i) -> untouched t h ->
  let s := run (run start g) (Create t a :: h) in
  let s' := fst (step s (Fit i fc)) in
  let outcome := snd (step s (Fit i fc)) in
  match (do mo <- model_obj_of m;
         do r <- fit_mle (fc_mz fc) (fc_nm fc) (names_of m) (c_mix_vars m) mo (fc_draws fc) (fc_rvs fc) (fc_args fc);
         Ok (mo, r)) with
  | Ok (mo, Stored p out) =>
      outcome = Ok ONothing /\
      attr s' i "optimization_method" = Some (VText (fc_method fc)) /\
      attr s' i "ridge_param" = Some (VRidge (fa_ridge (fc_args fc))) /\
      exists hinv, n_inv (fc_nm fc) (po_hessian p) = Ok hinv /\
        forall n v, In (n, v) (fit_attributes (length (obs_ids (mo_cols mo))) (length (nodup Z.eq_dec (obs_ids (mo_cols mo))))
                                 (fc_report fc) p out hinv) ->
                    attr s' i n = Some v
  | Ok (_, Returned r) =>
      outcome = Ok (OPoint r) /\ forall n, ~ In n setting_names -> attr s' i n = attr s i n
  | Err _ => exists e, outcome = Err e
  end.
Proof.
  intros Hf Hm Hc Hu s s' outc.
  destruct (created_then _ _ _ _ h f m (run_all_ok g start start_ok) Hf Hm Hc Hu) as (o & f' & O & M & T & K & F & S).
  fold s in O, F.
  assert (Ef : step s (Fit i fc) = (mkSession (s_tables s) (replace i (mkObj (ob_model o) t (fst (fit_call_on m f' fc (ob_attrs o)))) (s_objs s)),
     match snd (fit_call_on m f' fc (ob_attrs o)) with Ok (Some x) => Ok (OPoint x) | Ok None => Ok ONothing | Err e => Err e end)).
  { cbn [step]. rewrite O, T, F, M. destruct (fit_call_on m f' fc (ob_attrs o)). reflexivity. }
  assert (At : forall n, attr s' i n = fst (fit_call_on m f' fc (ob_attrs o)) n).
  { intros n. unfold attr, s'. rewrite Ef. cbn [fst s_objs]. rewrite replace_same by (exact (nth_error_lt _ _ _ O)). reflexivity. }
  assert (At0 : forall n, attr s i n = ob_attrs o n) by (intros n; unfold attr; rewrite O; reflexivity).
  assert (Oc : outc = match snd (fit_call_on m f' fc (ob_attrs o)) with Ok (Some x) => Ok (OPoint x) | Ok None => Ok ONothing | Err e => Err e end)
    by (unfold outc; rewrite Ef; reflexivity).
  clearbody outc s'. clear Ef.
  destruct K as [(l & Hl & El) _ _]. rewrite M in El. clear M T O F.
  unfold fit_call_on in Oc, At. cbv zeta in Oc, At. fold (with_settings m f' fc (ob_attrs o)) in Oc, At.
  set (A := with_settings m f' fc (ob_attrs o)) in *.
  assert (HA : A "ind_var_names" = Some (VNames l)) by (unfold A; rewrite with_settings_at; exact Hl).
  rewrite (fit_setup_fresh f a m f' fc Hm S) in Oc, At.
  destruct (model_obj_of m) as [mo|e] eqn:Emo; cbn [bind] in *.
  2:{ destruct (early_check (c_type m) (fc_args fc)); cbn [fst snd] in Oc; eauto. }
  unfold fit_mle.
  destruct (fit_estimator mo (fc_draws fc) (fc_rvs fc) (fc_args fc)) as [[est init]|e] eqn:Ee; cbn [bind] in *.
  2:{ destruct (early_check (c_type m) (fc_args fc)); cbn [fst snd] in Oc; eauto. }
  assert (Ek : exists u, early_check (c_type m) (fc_args fc) = Ok u).
  { destruct (early_check (c_type m) (fc_args fc)) as [u|e] eqn:E; [eauto|]. exfalso.
    destruct (early_check_init m mo _ e Emo E) as (e' & E'). unfold fit_estimator in Ee. rewrite E' in Ee. discriminate. }
  destruct Ek as (u & Ek). rewrite Ek in Oc, At.
  destruct (estimate (fc_mz fc) init est true (fa_just_point (fc_args fc))) as [[x|p]|e]; cbn [bind fst snd] in *; [|clear u Ek|eauto].
  - split; [exact Oc|]. intros n Hn. rewrite At, At0. unfold A. rewrite with_settings_at. unfold setting_names in Hn. cbn [In] in Hn.
    destruct (String.eqb_spec n "optimization_method"); [subst; tauto|]. destruct (String.eqb_spec n "ridge_param"); [subst; tauto|].
    destruct (String.eqb_spec n "design_3d"); [subst; tauto|]. reflexivity.
  - assert (Dims : d_N (core_data (e_core est)) = length (obs_ids (mo_cols mo)) /\
                   d_obs (core_data (e_core est)) = length (nodup Z.eq_dec (obs_ids (mo_cols mo)))).
    { unfold fit_estimator, create_estimation_obj in Ee. destruct (init_vector mo (fc_args fc)); [|discriminate]. cbn [bind] in Ee.
      destruct (estimator_core _ _ _ _ _) as [cc|] eqn:Ec; [|discriminate]. cbn [bind] in Ee.
      destruct (estimation_checks _ _ _); [|discriminate]. cbn [bind e_core] in Ee.
      destruct (est_check_length (fst cc) a0); [|discriminate]. cbn [bind] in Ee. injection Ee as <- <-. cbn [e_core]. exact (core_dims _ _ _ _ _ _ Ec). }
    destruct Dims as (DN & Dn). rewrite DN, Dn in *. 
    set (N := length (obs_ids (mo_cols mo))) in *. set (n := length (nodup Z.eq_dec (obs_ids (mo_cols mo)))) in *.
    destruct (store_fit (fc_nm fc) (names_of m) (c_mix_vars m) N n (fc_report fc) p A) as [B r] eqn:Es. cbn [fst snd] in *.
    pose proof (store_fit_agrees _ (names_of m) _ _ _ _ _ _ _ _ _ HA El Es) as G.
    destruct (store_fit_results (fc_nm fc) (names_of m) (c_mix_vars m) (results_of n p)) as [out|e]; cbn [bind].
    + destruct G as (-> & hinv & Hi & G). split; [exact Oc|].
      split; [rewrite At, G; transitivity (A "optimization_method"); [reflexivity|unfold A; rewrite with_settings_at; reflexivity]|]. split; [rewrite At, G; transitivity (A "ridge_param"); [reflexivity|unfold A; rewrite with_settings_at; reflexivity]|].
      exists hinv. split; [exact Hi|]. intros k v Hkv. rewrite At, G. unfold updated.
      rewrite (assoc_In _ k v); [reflexivity| |exact Hkv]. rewrite fit_attributes_names. exact result_names_nodup.
    + destruct G as (e' & ->). eauto.
Qed.

(** ** C93: a fit that fails

    Failures of the estimation itself (bad arguments, an optimizer that raises) leave all
    results of earlier fits as they are. *)
Theorem C93_failed_estimation_keeps_results g t a i h fc f m e :
  nth_error (s_tables (run start g)) t = Some f -> create_choice_model f a = Ok m ->
  snd (step (run start g) (Create t a)) = Ok (OModel i) -> untouched t h ->
  (do mo <- model_obj_of m;
   do ei <- fit_estimator mo (fc_draws fc) (fc_rvs fc) (fc_args fc);
   estimate (fc_mz fc) (snd ei) (fst ei) true (fa_just_point (fc_args fc))) = Err e ->
  let s := run (run start g) (Create t a :: h) in
  (exists e', snd (step s (Fit i fc)) = Err e') /\
  forall n, ~ In n setting_names -> attr (fst (step s (Fit i fc))) i n = attr s i n.
Proof.
  intros Hf Hm Hc Hu He s.
  destruct (created_then _ _ _ _ h f m (run_all_ok g start start_ok) Hf Hm Hc Hu) as (o & f' & O & M & T & K & F & S).
  fold s in O, F.
  assert (R : exists at' e', fit_call_on m f' fc (ob_attrs o) = (at', Err e') /\ (forall n, ~ In n setting_names -> at' n = ob_attrs o n)).
  { assert (W : forall n, ~ In n setting_names -> with_settings m f' fc (ob_attrs o) n = ob_attrs o n).
    { intros n Hn. rewrite with_settings_at. unfold setting_names in Hn. cbn [In] in Hn.
      destruct (String.eqb_spec n "optimization_method"); [subst; tauto|]. destruct (String.eqb_spec n "ridge_param"); [subst; tauto|].
      destruct (String.eqb_spec n "design_3d"); [subst; tauto|]. reflexivity. }
    unfold fit_call_on. cbv zeta. fold (with_settings m f' fc (ob_attrs o)). rewrite (fit_setup_fresh f a m f' fc Hm S).
    destruct (early_check (c_type m) (fc_args fc)) as [u|e1]; [|eauto].
    destruct (model_obj_of m) as [mo|e1]; cbn [bind] in *; [|eauto].
    destruct (fit_estimator mo (fc_draws fc) (fc_rvs fc) (fc_args fc)) as [[est init]|e1]; cbn [bind fst snd] in *; [|eauto].
    rewrite He. eauto. }
  destruct R as (at' & e' & R & W). cbn [step]. rewrite O, T, F, M, R. cbn [fst snd].
  split; [eauto|]. intros n Hn. unfold attr at 1. cbn [s_objs]. rewrite replace_same by (exact (nth_error_lt _ _ _ O)).
  cbn [ob_attrs]. unfold attr. rewrite O. apply W. exact Hn.
Qed.

(** But when the Hessian cannot be inverted, the object is left with a mixture: the new
    coefficients, probabilities and log-likelihood, and the old parameters, covariance,
    standard errors and summaries. *)
Theorem C93_refuted_when_the_inverse_raises g t a i h fc f m mo est init p nm' out e :
  nth_error (s_tables (run start g)) t = Some f -> create_choice_model f a = Ok m ->
  snd (step (run start g) (Create t a)) = Ok (OModel i) -> untouched t h ->
  early_check (c_type m) (fc_args fc) = Ok tt ->
  model_obj_of m = Ok mo ->
  fit_estimator mo (fc_draws fc) (fc_rvs fc) (fc_args fc) = Ok (est, init) ->
  estimate (fc_mz fc) init est true (fa_just_point (fc_args fc)) = Ok (FullResults p) ->
  store_fit_results nm' (names_of m) (c_mix_vars m) (results_of (d_obs (core_data (e_core est))) p) = Ok out ->
  n_inv (fc_nm fc) (po_hessian p) = Err e ->
  let s := run (run start g) (Create t a :: h) in
  snd (step s (Fit i fc)) = Err e /\
  forall hinv n v,
    In (n, v) (fit_attributes (d_N (core_data (e_core est))) (d_obs (core_data (e_core est))) (fc_report fc) p out hinv) ->
    attr (fst (step s (Fit i fc))) i n = if existsb (String.eqb n) set_before_inversion then Some v else attr s i n.
Proof.
  intros Hf Hm Hc Hu Hk Hmo He Hest Ho Hi s.
  destruct (created_then _ _ _ _ h f m (run_all_ok g start start_ok) Hf Hm Hc Hu) as (o & f' & O & M & T & K & F & S).
  fold s in O, F.
  destruct K as [(l & Hl & El) _ _]. rewrite M in El.
  set (A := with_settings m f' fc (ob_attrs o)).
  assert (HA : A "ind_var_names" = Some (VNames l)) by (unfold A; rewrite with_settings_at; exact Hl).
  destruct (store_fit_torn (fc_nm fc) nm' (names_of m) (c_mix_vars m) (d_N (core_data (e_core est))) (d_obs (core_data (e_core est)))
    (fc_report fc) p A out e l HA El Ho Hi) as (o2 & Es & G).
  assert (R : fit_call_on m f' fc (ob_attrs o) = (o2, Err e)).
  { unfold fit_call_on. cbv zeta. fold (with_settings m f' fc (ob_attrs o)). fold A. rewrite (fit_setup_fresh f a m f' fc Hm S), Hk, Hmo. cbn [bind].
    rewrite He, Hest, Es. reflexivity. }
  cbn [step]. rewrite O, T, F, M, R. cbn [fst snd].
  split; [reflexivity|]. intros hinv n v Hin. unfold attr at 1. cbn [s_objs]. rewrite replace_same by (exact (nth_error_lt _ _ _ O)).
  cbn [ob_attrs]. rewrite (G hinv). unfold attr. rewrite O.
  assert (Hn : In n result_names) by (rewrite <- (fit_attributes_names (d_N (core_data (e_core est))) (d_obs (core_data (e_core est))) (fc_report fc) p out hinv);
    apply in_map_iff; exists (n, v); auto).
  assert (ND := result_names_nodup). rewrite <- (fit_attributes_names (d_N (core_data (e_core est))) (d_obs (core_data (e_core est))) (fc_report fc) p out hinv) in ND.
  pose proof (assoc_In _ _ _ ND Hin) as Ha. clear ND Hin.
  set (L := fit_attributes (d_N (core_data (e_core est))) (d_obs (core_data (e_core est))) (fc_report fc) p out hinv) in *.
  assert (Ho2 : assoc n (only set_before_inversion L) = if existsb (String.eqb n) set_before_inversion then assoc n L else None).
  { clear. unfold only. induction L as [|[k v] L IH]; cbn [filter assoc fst]; [destruct (existsb _ _); reflexivity|].
    destruct (existsb (String.eqb k) set_before_inversion) eqn:E; cbn [assoc].
    - destruct (String.eqb_spec n k) as [->|]; [rewrite E; reflexivity|exact IH].
    - destruct (String.eqb_spec n k) as [->|]; [rewrite E in IH |- *; exact IH|exact IH]. }
  unfold updated. rewrite Ho2, Ha. destruct (existsb (String.eqb n) set_before_inversion); [reflexivity|].
  unfold A. rewrite with_settings_at. unfold result_names in Hn. cbn [In] in Hn.
  destruct (String.eqb_spec n "design_3d") as [->|]; [exfalso; intuition discriminate|].
  destruct (String.eqb_spec n "optimization_method") as [->|]; [exfalso; intuition discriminate|].
  destruct (String.eqb_spec n "ridge_param") as [->|]; [exfalso; intuition discriminate|]. reflexivity.
Qed.

(** ** C95: parameters, covariance and standard errors stay in step *)

(** The results of the calls of fit_mle on object [i] in a history, and the inverse
    routine each used. *)
Definition fitted_in (s0 : session) (h : list call) (i : nat) (nm : numerics) (p : post_results) : Prop :=
  exists h1 fc h2 o f est init,
    h = (h1 ++ Fit i fc :: h2)%list /\ nm = fc_nm fc /\
    nth_error (s_objs (run s0 h1)) i = Some o /\ nth_error (s_tables (run s0 h1)) (ob_table o) = Some f /\
    fit_setup (ob_model o) f fc = Ok (est, init) /\
    estimate (fc_mz fc) init est true (fa_just_point (fc_args fc)) = Ok (FullResults p).

Lemma in_step_weaken (P Q : numerics -> post_results -> Prop) o :
  (forall nm p, P nm p -> Q nm p) -> inference_in_step P o -> inference_in_step Q o.
Proof.
  intros H [E|(nm & p & hinv & names & ses & Hp & E)]; [left; exact E|right]. exists nm, p, hinv, names, ses. split; [auto|exact E].
Qed.
Lemma in_step_ext P (o o' : attrs) : o' "params" = o "params" -> o' "cov" = o "cov" -> o' "standard_errors" = o "standard_errors" ->
  inference_in_step P o -> inference_in_step P o'.
Proof. intros E1 E2 E3 H. unfold inference_in_step. rewrite E1, E2, E3. exact H. Qed.

Lemma run_app s h1 h2 : run s (h1 ++ h2)%list = run (run s h1) h2.
Proof. revert s. induction h1 as [|c h1 IH]; intros s; cbn [run app]; [reflexivity|apply IH]. Qed.

(** In every history, with successful and failing calls and changes of the tables, the
    parameters, covariance and standard errors on an object come from one fit of it. *)
Theorem C95_inference_stays_in_step h i o :
  nth_error (s_objs (run start h)) i = Some o ->
  inference_in_step (fitted_in start h i) (ob_attrs o).
Proof.
  revert o. induction h as [|c h IH] using rev_ind; intros o Ho; [destruct i; discriminate|].
  rewrite run_app in Ho. cbn [run] in Ho. set (s := run start h) in *.
  assert (Old : forall o0, nth_error (s_objs s) i = Some o0 -> inference_in_step (fitted_in start (h ++ [c]) i) (ob_attrs o0)).
  { intros o0 H0. apply (in_step_weaken (fitted_in start h i)); [|apply IH; exact H0].
    intros nm p (h1 & fc & h2 & o1 & f & est & init & -> & H). exists h1, fc, (h2 ++ [c])%list, o1, f, est, init.
    split; [rewrite <- app_assoc; reflexivity|exact H]. }
  destruct c as [g|u g|u a|j fc|j u pc]; cbn [step] in Ho.
  - apply Old; exact Ho.
  - apply Old; exact Ho.
  - destruct (nth_error (s_tables s) u) as [fu|]; [|apply Old; exact Ho].
    destruct (create_choice_model fu a) as [m|e]; cbn [fst s_objs] in Ho; [|apply Old; exact Ho].
    destruct (lt_dec i (length (s_objs s))) as [Hl|Hl].
    + rewrite nth_error_app1 in Ho by exact Hl. apply Old; exact Ho.
    + rewrite nth_error_app2 in Ho by lia. destruct (i - length (s_objs s))%nat as [|k]; cbn in Ho; [|destruct k; discriminate].
      injection Ho as <-. left. cbn. auto.
  - destruct (nth_error (s_objs s) j) as [oj|] eqn:Ej; [|apply Old; exact Ho].
    destruct (nth_error (s_tables s) (ob_table oj)) as [fo|] eqn:Et; [|apply Old; exact Ho].
    destruct (fit_call_on (ob_model oj) fo fc (ob_attrs oj)) as [at' r] eqn:Ef. cbn [fst s_objs] in Ho.
    destruct (Nat.eq_dec j i) as [->|Hne].
    2:{ rewrite replace_other in Ho by exact Hne. apply Old; exact Ho. }
    rewrite replace_same in Ho by (exact (nth_error_lt _ _ _ Ej)). injection Ho as <-. cbn [ob_attrs].
    assert (W : inference_in_step (fitted_in start (h ++ [Fit i fc]) i) (with_settings (ob_model oj) fo fc (ob_attrs oj))).
    { eapply in_step_ext; [| | |exact (Old oj Ej)]; rewrite with_settings_at; reflexivity. }
    destruct (fit_call_cases _ _ _ _ _ _ Ef) as [(-> & _)|[(-> & _)|[(-> & _)|(est & init & p & Hs & He & -> & _)]]];
      [apply Old; exact Ej|exact W|exact W|].
    destruct (store_fit (fc_nm fc) (names_of (ob_model oj)) (c_mix_vars (ob_model oj)) (d_N (core_data (e_core est)))
      (d_obs (core_data (e_core est))) (fc_report fc) p (with_settings (ob_model oj) fo fc (ob_attrs oj))) as [B rr] eqn:Es.
    cbn [fst]. pose proof (store_fit_in_step _ _ _ _ _ _ _ _ _ _ _ W Es) as G.
    eapply in_step_weaken; [|exact G]. intros nm p' [H|(-> & ->)]; [exact H|].
    exists h, fc, [], oj, fo, est, init. auto 10.
  - destruct (nth_error (s_objs s) j) as [oj|] eqn:Ej; [|apply Old; exact Ho].
    destruct (nth_error (s_tables s) u) as [fu|]; apply Old; exact Ho.
Qed.
