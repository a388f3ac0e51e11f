(** Property C90: the column names of the wide table. *)
From Coq Require Import String Ascii ZArith Lia List Reals Bool Sorted.
From Coq Require Import DecimalString DecimalZ DecimalFacts Decimal.
From Verif Require Import Res Vec Ids Mappings MappingFacts Frame ChoiceTools PropDesign PropMappings
  WideLong PropWideLong Construct WideNames.
Import ListNotations.
Local Open Scope string_scope.

(** ** Specification *)

(** [s] stands for alternative [a] in the column names. *)
Definition stands_for (names : alt_names) (a : Z) (s : string) : Prop :=
  match names with
  | NoNames => s = z_string a
  | NameDict d => In (a, s) d
  | NamesOther => False
  end.

(** Every key of the dictionary is an alternative of the data, and conversely. *)
Definition names_fit (names : alt_names) (alts : list Z) : Prop :=
  match names with
  | NoNames => True
  | NameDict d => forall a, In a (map fst d) <-> In a alts
  | NamesOther => False
  end.

Fixpoint has_underscore (s : string) : Prop :=
  match s with
  | EmptyString => False
  | String c r => c = "_"%char \/ has_underscore r
  end.

(** The names, given the texts [L a] of the alternatives. *)
Definition expected_names (L : Z -> string) (alts : list Z) (ind_vars alt_vars : list string)
    (subset : list (string * list Z)) (obs_col choice_col : string) : list string :=
  [obs_col; choice_col]
  ++ map (fun a => "availability_" ++ L a) (np_unique alts)
  ++ ind_vars
  ++ flat_map (fun v => map (fun a => v ++ "_" ++ L a) (wide_alts alts subset v)) (alt_vars ++ map fst subset).

(** ** Rendering of integers *)

Lemma uint_no_underscore d : ~ has_underscore (NilEmpty.string_of_uint d).
Proof. induction d; cbn; intros H; try (destruct H as [H|H]; [discriminate|auto]). exact H. Qed.

Lemma z_string_no_underscore z : ~ has_underscore (z_string z).
Proof.
  unfold z_string. destruct (Z.to_int z) as [d|d]; cbn.
  - destruct d; try apply uint_no_underscore. cbn. intros [H|H]; [discriminate|exact H].
  - intros [H|H]; [discriminate|]. destruct d; try (apply uint_no_underscore in H; exact H).
    cbn in H. destruct H as [H|H]; [discriminate|exact H].
Qed.

Lemma z_string_inj z z' : z_string z = z_string z' -> z = z'.
Proof.
  unfold z_string. intros H.
  assert (G : forall z, NilZero.int_of_string (NilZero.string_of_int (Z.to_int z)) = Some (Z.to_int z)).
  { intros x. apply NilZero.isi.
    - destruct x; cbn; try discriminate. intros E. injection E as E.
      pose proof (DecimalPos.Unsigned.to_uint_nonnil p) as N. contradiction.
    - destruct x; cbn; try discriminate. intros E. injection E as E.
      pose proof (DecimalPos.Unsigned.to_uint_nonnil p) as N. contradiction. }
  apply DecimalZ.to_int_inj. pose proof (G z) as G1. rewrite H, G in G1. injection G1 as ->. reflexivity.
Qed.

(** A name has one reading as text, last underscore, underscore-free text. *)
Lemma underscore_app a s : has_underscore (a ++ "_" ++ s).
Proof. induction a as [|c a IH]; cbn; [left; reflexivity|right; exact IH]. Qed.

Lemma last_underscore a b s t :
  ~ has_underscore s -> ~ has_underscore t -> a ++ "_" ++ s = b ++ "_" ++ t -> a = b /\ s = t.
Proof.
  intros Hs Ht. revert b. induction a as [|c a IH]; intros [|c' b] H; cbn in H.
  - injection H as H. auto.
  - injection H as <- H. exfalso. apply Hs. rewrite H. apply (underscore_app b t).
  - injection H as -> H. exfalso. apply Ht. rewrite <- H. apply (underscore_app a s).
  - injection H as <- H. destruct (IH b H) as [-> ->]. auto.
Qed.

(** ** Inversion of the conversion *)

Lemma label_stands_for names alts L0 a s :
  check_type_and_values_of_alt_name_dict names alts = Ok L0 ->
  alt_label names a = Ok s -> stands_for names a s.
Proof.
  destruct names as [|d|]; cbn; intros Hc H; [congruence| |discriminate].
  destruct (dict_get Z.eqb d a) as [s'|] eqn:E; [|discriminate]. injection H as <-.
  eapply dict_get_In; [|exact E]. apply Z.eqb_spec.
Qed.

Lemma mapM_label {A} names (key : A -> Z) (g : A -> string -> string * wcol) l out :
  mapM (fun p => do s <- alt_label names (key p); Ok (g p s)) l = Ok out ->
  (forall p, In p l -> exists s, alt_label names (key p) = Ok s) /\
  forall L, (forall p, In p l -> alt_label names (key p) = Ok (L (key p))) ->
    out = map (fun p => g p (L (key p))) l.
Proof.
  intros H. apply mapM_ok in H. induction H as [|p q l out Hpq _ IH]; [split; [intros p []|reflexivity]|].
  apply bind_ok in Hpq. destruct Hpq as (s & Hs & E). injection E as <-. destruct IH as [I1 I2]. split.
  - intros p' [<-|Hin]; [eauto|auto].
  - intros L HL. cbn [map]. f_equal; [|apply I2; intros; apply HL; right; assumption].
    rewrite (HL p) in Hs by (left; reflexivity). injection Hs as ->. reflexivity.
Qed.

Definition text_of (names : alt_names) (a : Z) : string :=
  match alt_label names a with Ok s => s | Err _ => "" end.

Section Named.
  Variables (f : frame) (ind_vars alt_vars : list string) (subset : list (string * list Z))
    (obs_col alt_col choice_col : string) (obs alts choice : list Z) (names : alt_names).
  Hypothesis Hwf : well_formed f.
  Hypothesis Hobs : int_col f obs_col = Ok obs.
  Hypothesis Halt : int_col f alt_col = Ok alts.
  Hypothesis Hch : int_col f choice_col = Ok choice.

  Lemma named_inv t :
    convert_long_to_wide_named f ind_vars alt_vars subset obs_col alt_col choice_col names = Ok t ->
    check_type_and_values_of_alt_name_dict names alts = Ok tt /\
    exists w, convert_long_to_wide f ind_vars alt_vars subset obs_col alt_col choice_col = Ok w /\
      wide_table names obs_col choice_col w = Ok t.
  Proof.
    intros H. unfold convert_long_to_wide_named in H.
    do 4 (apply bind_ok in H; destruct H as (_ & _ & H)).
    rewrite Hobs in H. cbn [bind] in H. rewrite Halt in H. cbn [bind] in H. rewrite Hch in H. cbn [bind] in H.
    do 2 (apply bind_ok in H; destruct H as (_ & _ & H)).
    apply bind_ok in H. destruct H as ([] & Hc & H).
    apply bind_ok in H. destruct H as (w & Hw & H). split; [exact Hc|]. exists w. auto.
  Qed.

  Lemma named_converse w t :
    check_type_and_values_of_alt_name_dict names alts = Ok tt ->
    convert_long_to_wide f ind_vars alt_vars subset obs_col alt_col choice_col = Ok w ->
    wide_table names obs_col choice_col w = t ->
    convert_long_to_wide_named f ind_vars alt_vars subset obs_col alt_col choice_col names = t.
  Proof.
    intros Hc Hw Ht. unfold convert_long_to_wide_named. pose proof Hw as H. unfold convert_long_to_wide in H.
    do 4 (apply bind_ok in H; let x := fresh in let E := fresh in destruct H as (x & E & H); rewrite E; clear E; cbn [bind]).
    rewrite Hobs in *. cbn [bind] in *. rewrite Halt in *. cbn [bind] in *. rewrite Hch in *. cbn [bind] in *.
    do 2 (apply bind_ok in H; let x := fresh in let E := fresh in destruct H as (x & E & H); rewrite E; clear E; cbn [bind]).
    clear H. rewrite Hc. cbn [bind]. rewrite Hw. cbn [bind]. exact Ht.
  Qed.

  (** all alternatives appearing in the table's columns *)
  Lemma alts_of_columns w :
    convert_long_to_wide f ind_vars alt_vars subset obs_col alt_col choice_col = Ok w ->
    (forall p, In p (w_avail w) -> In (fst p) alts) /\ (forall p, In p (w_alt w) -> In (snd (fst p)) alts).
  Proof.
    intros Hw. split; intros p Hp.
    - destruct (C11_availability f ind_vars alt_vars subset obs_col alt_col choice_col w obs alts choice Hwf Hobs Halt Hch Hw)
        as [E _].
      apply np_unique_In. rewrite <- E. apply in_map. exact Hp.
    - destruct (C11_alternative_specific_cells f ind_vars alt_vars subset obs_col alt_col choice_col w obs alts choice
        Hwf Hobs Halt Hch Hw) as [E _].
      apply (in_map fst) in Hp. rewrite E in Hp. apply in_flat_map in Hp. destruct Hp as (v & _ & Hp).
      apply in_map_iff in Hp. destruct Hp as (a & <- & Ha). cbn [snd].
      apply np_unique_In. unfold wide_alts in Ha. destruct (assoc v subset); [apply filter_In in Ha; tauto|exact Ha].
  Qed.

  Lemma table_form w t :
    check_type_and_values_of_alt_name_dict names alts = Ok tt ->
    convert_long_to_wide f ind_vars alt_vars subset obs_col alt_col choice_col = Ok w ->
    wide_table names obs_col choice_col w = Ok t ->
    (forall a, In a alts -> alt_label names a = Ok (text_of names a)) /\
    t = (obs_col, WInt (w_obs w)) :: (choice_col, WInt (w_choice w))
        :: map (fun p => ("availability" ++ "_" ++ text_of names (fst p), WInt (snd p))) (w_avail w)
        ++ map (fun p => (fst p, WReal (snd p))) (w_ind w)
        ++ map (fun p => (fst (fst p) ++ "_" ++ text_of names (snd (fst p)), WCell (snd p))) (w_alt w).
  Proof.
    intros Hc Hw Ht. unfold wide_table in Ht.
    apply bind_ok in Ht. destruct Ht as (av & Hav & Ht). apply bind_ok in Ht. destruct Ht as (al & Hal & Ht).
    injection Ht as <-.
    destruct (mapM_label names fst (fun p s => ("availability" ++ "_" ++ s, WInt (snd p))) _ _ Hav) as [A1 A2].
    destruct (mapM_label names (fun p => snd (fst p)) (fun p s => (fst (fst p) ++ "_" ++ s, WCell (snd p))) _ _ Hal) as [B1 B2].
    assert (HL : forall a, In a alts -> alt_label names a = Ok (text_of names a)).
    { intros a Ha. apply np_unique_In in Ha.
      destruct (C11_availability f ind_vars alt_vars subset obs_col alt_col choice_col w obs alts choice Hwf Hobs Halt Hch Hw)
        as [E _].
      rewrite <- E in Ha. apply in_map_iff in Ha. destruct Ha as (p & <- & Hp). destruct (A1 p Hp) as [s Hs].
      unfold text_of. rewrite Hs. reflexivity. }
    split; [exact HL|]. destruct (alts_of_columns w Hw) as [In1 In2].
    rewrite (A2 (text_of names)) by (intros; apply HL; auto).
    rewrite (B2 (text_of names)) by (intros; apply HL; auto). reflexivity.
  Qed.

  (** The conversion with names succeeds exactly when it succeeds without them
      and the dictionary names exactly the alternatives of the data. *)
  Theorem C90_accepted_names :
    (exists t, convert_long_to_wide_named f ind_vars alt_vars subset obs_col alt_col choice_col names = Ok t) <->
    (exists w, convert_long_to_wide f ind_vars alt_vars subset obs_col alt_col choice_col = Ok w) /\
    names_fit names alts.
  Proof.
    split.
    - intros (t & H). destruct (named_inv t H) as (Hc & w & Hw & Ht). split; [eauto|].
      destruct (table_form w t Hc Hw Ht) as [HL _]. destruct names as [|d|]; cbn in *; [exact I| |discriminate].
      destruct (forallb (fun k => zmem k alts) (map fst d)) eqn:E; [|discriminate].
      rewrite forallb_forall in E. intros a. split; [intros Ha; apply zmem_In; auto|].
      intros Ha. specialize (HL a Ha). destruct (dict_get Z.eqb d a) as [s|] eqn:G; [|discriminate].
      apply dict_get_In in G; [|apply Z.eqb_spec]. apply (in_map fst) in G. exact G.
    - intros ((w & Hw) & Hfit).
      assert (Hc : check_type_and_values_of_alt_name_dict names alts = Ok tt).
      { destruct names as [|d|]; cbn in *; [reflexivity| |destruct Hfit].
        rewrite (proj2 (forallb_forall _ _)); [reflexivity|]. intros k Hk. apply zmem_In, Hfit, Hk. }
      assert (HL : forall a, In a alts -> alt_label names a = Ok (text_of names a)).
      { intros a Ha. unfold text_of. destruct names as [|d|]; cbn in *; [reflexivity| |destruct Hfit].
        destruct (dict_get Z.eqb d a) eqn:G; [reflexivity|]. apply dict_get_None in G; [|apply Z.eqb_spec].
        exfalso. apply G, Hfit, Ha. }
      destruct (alts_of_columns w Hw) as [In1 In2].
      eexists. eapply named_converse; [exact Hc|exact Hw|]. unfold wide_table.
      rewrite (mapM_total _ (fun p => ("availability" ++ "_" ++ text_of names (fst p), WInt (snd p))))
        by (intros p Hp; rewrite (HL _ (In1 p Hp)); reflexivity).
      cbn [bind].
      rewrite (mapM_total _ (fun p => (fst (fst p) ++ "_" ++ text_of names (snd (fst p)), WCell (snd p))))
        by (intros p Hp; rewrite (HL _ (In2 p Hp)); reflexivity).
      cbn [bind]. reflexivity.
  Qed.

  (** What is raised for names that do not fit otherwise acceptable data. *)
  Theorem C90_rejected_names w :
    convert_long_to_wide f ind_vars alt_vars subset obs_col alt_col choice_col = Ok w ->
    let result := convert_long_to_wide_named f ind_vars alt_vars subset obs_col alt_col choice_col names in
    (names = NamesOther -> result = Err TypeError) /\
    (forall d, names = NameDict d ->
       ((exists a, In a (map fst d) /\ ~ In a alts) -> result = Err ValueError) /\
       ((forall a, In a (map fst d) -> In a alts) -> (exists a, In a alts /\ ~ In a (map fst d)) ->
          result = Err KeyError)).
  Proof.
    intros Hw. cbv zeta.
    assert (Hpre : forall e, check_type_and_values_of_alt_name_dict names alts = Err e ->
      convert_long_to_wide_named f ind_vars alt_vars subset obs_col alt_col choice_col names = Err e).
    { intros e He. unfold convert_long_to_wide_named. pose proof Hw as H. unfold convert_long_to_wide in H.
      do 4 (apply bind_ok in H; let x := fresh in let E := fresh in destruct H as (x & E & H); rewrite E; clear E; cbn [bind]).
      rewrite Hobs in *. cbn [bind] in *. rewrite Halt in *. cbn [bind] in *. rewrite Hch in *. cbn [bind] in *.
      do 2 (apply bind_ok in H; let x := fresh in let E := fresh in destruct H as (x & E & H); rewrite E; clear E; cbn [bind]).
      rewrite He. reflexivity. }
    split; [intros E; apply Hpre; rewrite E; reflexivity|]. intros d Hd. split.
    - intros (a & Ha & Hn). apply Hpre. rewrite Hd. cbn. destruct (forallb _ _) eqn:E; [|reflexivity].
      rewrite forallb_forall in E. apply E, zmem_In in Ha. contradiction.
    - intros Hin (a & Ha & Hn).
      eapply named_converse; [| exact Hw|].
      + rewrite Hd. cbn. rewrite (proj2 (forallb_forall _ _)); [reflexivity|]. intros k Hk. apply zmem_In, Hin, Hk.
      + rewrite Hd. unfold wide_table.
        destruct (C11_availability f ind_vars alt_vars subset obs_col alt_col choice_col w obs alts choice Hwf Hobs Halt Hch Hw)
          as [E _].
        apply np_unique_In in Ha. rewrite <- E in Ha. clear E Hw Hpre. revert Ha.
        generalize (w_avail w) as l. intros l Ha.
        match goal with |- bind ?m _ = _ => assert (G : m = Err KeyError) end.
        { induction l as [|p l IH]; [destruct Ha|]. cbn [mapM].
          unfold alt_label at 1. destruct (dict_get Z.eqb d (fst p)) as [s|] eqn:G; [|reflexivity]. cbn [bind].
          destruct Ha as [Ea|Ha]; [|rewrite (IH Ha); reflexivity].
          exfalso. apply dict_get_In in G; [|apply Z.eqb_spec]. apply Hn. rewrite <- Ea. apply (in_map fst) in G. exact G. }
        rewrite G. reflexivity.
  Qed.

  Lemma expected_form w :
    convert_long_to_wide f ind_vars alt_vars subset obs_col alt_col choice_col = Ok w ->
    forall L,
    map fst ((obs_col, WInt (w_obs w)) :: (choice_col, WInt (w_choice w))
        :: map (fun p => ("availability" ++ "_" ++ L (fst p), WInt (snd p))) (w_avail w)
        ++ map (fun p => (fst p, WReal (snd p))) (w_ind w)
        ++ map (fun p => (fst (fst p) ++ "_" ++ L (snd (fst p)), WCell (snd p))) (w_alt w)) =
    expected_names L alts ind_vars alt_vars subset obs_col choice_col.
  Proof.
    intros Hw L. cbn [map fst]. unfold expected_names. cbn [Datatypes.app]. f_equal. f_equal.
    rewrite !map_app, !map_map. cbn [fst].
    destruct (l2w_inv f ind_vars alt_vars subset obs_col alt_col choice_col w obs alts choice Hwf Hobs Halt Hch Hw)
      as (_ & ind_cols & mp & dfs & _ & _ & _ & _ & _ & _ & Ei & _).
    destruct (C11_availability f ind_vars alt_vars subset obs_col alt_col choice_col w obs alts choice Hwf Hobs Halt Hch Hw)
      as [Ea _].
    destruct (C11_alternative_specific_cells f ind_vars alt_vars subset obs_col alt_col choice_col w obs alts choice
        Hwf Hobs Halt Hch Hw) as [Es _].
    rewrite <- Ea, map_map. cbn [fst]. f_equal. f_equal.
    - rewrite Ei. clear.
      assert (G : forall (l : list string) (m : list (list R)), length m = length l -> map (fun p => fst p) (combine l m) = l).
      { induction l as [|a l IH]; intros [|b m] HL; simpl in *; try lia; [reflexivity|]. f_equal. apply IH. lia. }
      apply G. rewrite map_length, seq_length. reflexivity.
    - rewrite <- (map_map fst (fun q => fst q ++ "_" ++ L (snd q))), Es. rewrite map_flat_map.
      apply flat_map_ext_in. intros v _. rewrite map_map. reflexivity.
  Qed.

  (** The names of the columns, in order. *)
  Theorem C90_column_names t :
    convert_long_to_wide_named f ind_vars alt_vars subset obs_col alt_col choice_col names = Ok t ->
    exists L, (forall a, In a alts -> stands_for names a (L a)) /\
      map fst t = expected_names L alts ind_vars alt_vars subset obs_col choice_col.
  Proof.
    intros H. destruct (named_inv t H) as (Hc & w & Hw & Ht). destruct (table_form w t Hc Hw Ht) as [HL ->].
    exists (text_of names). split.
    - intros a Ha. eapply label_stands_for; [exact Hc|apply HL; exact Ha].
    - apply expected_form. exact Hw.
  Qed.

  (** The number of columns is the one the code announces (choice_tools.py:1108-1126):
      its warning is not issued. *)
  Theorem C90_number_of_columns t :
    convert_long_to_wide_named f ind_vars alt_vars subset obs_col alt_col choice_col names = Ok t ->
    NoDup (map fst subset) ->
    (forall v, In v alt_vars -> ~ In v (map fst subset)) ->
    (forall v ids, In (v, ids) subset -> NoDup ids /\ forall a, In a ids -> In a alts) ->
    length t = (1 + length (np_unique alts) + 1 + length ind_vars
                + length alt_vars * length (np_unique alts)
                + list_sum (map (fun kv => length (snd kv)) subset))%nat.
  Proof.
    intros H Hk Hdis Hids. destruct (C90_column_names t H) as (L & _ & E).
    rewrite <- (map_length fst t), E. unfold expected_names. rewrite !app_length, map_length. cbn [length].
    rewrite flat_map_app, app_length.
    assert (E1 : length (flat_map (fun v => map (fun a => v ++ "_" ++ L a) (wide_alts alts subset v)) alt_vars)
                 = (length alt_vars * length (np_unique alts))%nat).
    { clear - Hdis. induction alt_vars as [|v l IH]; [reflexivity|]. cbn [flat_map length Nat.mul].
      rewrite app_length, map_length, IH by (intros; apply Hdis; right; assumption). f_equal.
      unfold wide_alts. destruct (assoc v subset) eqn:E; [|reflexivity]. exfalso.
      apply (Hdis v); [left; reflexivity|]. clear - E. induction subset as [|[k x] r IH]; [discriminate|]. cbn in E |- *.
      destruct (String.eqb v k) eqn:G; [apply String.eqb_eq in G; auto|right; auto]. }
    assert (E2 : length (flat_map (fun v => map (fun a => v ++ "_" ++ L a) (wide_alts alts subset v)) (map fst subset))
                 = list_sum (map (fun kv => length (snd kv)) subset)).
    { assert (G : forall l, incl l subset ->
        length (flat_map (fun v => map (fun a => v ++ "_" ++ L a) (wide_alts alts subset v)) (map fst l))
        = list_sum (map (fun kv => length (snd kv)) l)).
      { induction l as [|[v ids] l IH]; intros Hin; [reflexivity|]. cbn [map flat_map fst snd list_sum fold_right].
        rewrite app_length, map_length. change (fold_right Nat.add 0%nat) with list_sum.
        rewrite IH by (intros x Hx; apply Hin; right; exact Hx). f_equal.
        assert (Hv : In (v, ids) subset) by (apply Hin; left; reflexivity).
        unfold wide_alts. replace (assoc v subset) with (Some ids).
        - destruct (Hids v ids Hv) as [Hnd Hall]. apply Nat.le_antisymm; apply NoDup_incl_length.
          + apply NoDup_filter, np_unique_NoDup.
          + intros x Hx. apply filter_In in Hx. apply zmem_In. tauto.
          + exact Hnd.
          + intros x Hx. apply filter_In. split; [apply np_unique_In; auto|apply zmem_In; exact Hx].
        - clear - Hv Hk. induction subset as [|[k x] r IHr]; [destruct Hv|]. cbn in Hk. inversion Hk; subst. cbn.
          destruct Hv as [E|Hv]; [injection E as -> ->; rewrite String.eqb_refl; reflexivity|].
          destruct (String.eqb v k) eqn:G; [|auto]. apply String.eqb_eq in G as ->. exfalso. apply H1.
          apply (in_map fst) in Hv. exact Hv. }
      apply G. apply incl_refl. }
    rewrite E1, E2. lia.
  Qed.

  (** Sufficient conditions for no name to occur twice. *)
  Definition readable_texts : Prop :=
    match names with
    | NameDict d => NoDup (map snd d) /\ forall s, In s (map snd d) -> ~ has_underscore s
    | _ => True
    end.

  Lemma NoDup_app_intro {A} (l m : list A) :
    NoDup l -> NoDup m -> (forall x, In x l -> ~ In x m) -> NoDup (l ++ m).
  Proof.
    induction l as [|a l IH]; intros Hl Hm H; [exact Hm|]. inversion Hl; subst. cbn. constructor.
    - intros Hin. apply in_app_or in Hin. destruct Hin as [Hin|Hin]; [contradiction|]. apply (H a); [left; reflexivity|exact Hin].
    - apply IH; [assumption|assumption|]. intros x Hx. apply H. right. exact Hx.
  Qed.

  Lemma NoDup_snd_inj {A B} (l : list (A * B)) a a' s :
    NoDup (map snd l) -> In (a, s) l -> In (a', s) l -> a = a'.
  Proof.
    induction l as [|[x y] l IH]; [intros _ []|]. cbn. intros Hn H1 H2. inversion Hn; subst.
    destruct H1 as [E1|H1], H2 as [E2|H2]; auto.
    - congruence.
    - injection E1 as -> ->. exfalso. apply H3. apply (in_map snd) in H2. exact H2.
    - injection E2 as -> ->. exfalso. apply H3. apply (in_map snd) in H1. exact H1.
  Qed.

  Lemma NoDup_map_in {A B} (g : A -> B) l :
    (forall x y, In x l -> In y l -> g x = g y -> x = y) -> NoDup l -> NoDup (map g l).
  Proof.
    induction l as [|a l IH]; intros Hg Hl; [constructor|]. inversion Hl; subst. cbn. constructor.
    - intros Hin. apply in_map_iff in Hin. destruct Hin as (x & E & Hx).
      apply H1. rewrite (Hg a x); [exact Hx|left; reflexivity|right; exact Hx|symmetry; exact E].
    - apply IH; [|assumption]. intros x y Hx Hy. apply Hg; right; assumption.
  Qed.

  Theorem C90_names_are_distinct t :
    convert_long_to_wide_named f ind_vars alt_vars subset obs_col alt_col choice_col names = Ok t ->
    readable_texts ->
    NoDup (obs_col :: choice_col :: ind_vars) ->
    NoDup ("availability" :: alt_vars ++ map fst subset) ->
    (forall c v a s, In c (obs_col :: choice_col :: ind_vars) -> In v ("availability" :: alt_vars ++ map fst subset) ->
       In a alts -> stands_for names a s -> c <> v ++ "_" ++ s) ->
    NoDup (map fst t).
  Proof.
    intros H Htext Hplain Hvars Hclash. destruct (C90_column_names t H) as (L & HL & E). rewrite E. clear E.
    destruct (named_inv t H) as (Hc & _).
    assert (HU : forall a, In a alts -> ~ has_underscore (L a)).
    { intros a Ha. specialize (HL a Ha). unfold readable_texts in Htext. destruct names as [|d|]; cbn in *; [|  |destruct HL].
      - rewrite HL. apply z_string_no_underscore.
      - apply Htext. apply (in_map snd) in HL. exact HL. }
    assert (HI : forall a a', In a alts -> In a' alts -> L a = L a' -> a = a').
    { intros a a' Ha Ha' E. pose proof (HL a Ha) as H1. pose proof (HL a' Ha') as H2. unfold readable_texts in Htext.
      destruct names as [|d|]; cbn in *; [| |destruct H1].
      - rewrite H1, H2 in E. apply z_string_inj. exact E.
      - rewrite <- E in H2. destruct Htext as [Hn _]. eapply NoDup_snd_inj; eauto. }
    assert (HP : forall v a v' a', In a alts -> In a' alts -> v ++ "_" ++ L a = v' ++ "_" ++ L a' -> v = v' /\ a = a').
    { intros v a v' a' Ha Ha' E. destruct (last_underscore _ _ _ _ (HU a Ha) (HU a' Ha') E) as [-> E2]. split; auto. }
    assert (HW : forall v a, In a (wide_alts alts subset v) -> In a alts).
    { intros v a Ha. unfold wide_alts in Ha. apply np_unique_In.
      destruct (assoc v subset); [apply filter_In in Ha; tauto|exact Ha]. }
    assert (HWn : forall v, NoDup (wide_alts alts subset v)).
    { intros v. unfold wide_alts. destruct (assoc v subset); [apply NoDup_filter|]; apply np_unique_NoDup. }
    set (vars := (alt_vars ++ map fst subset)%list) in *.
    set (alt_names_list := flat_map (fun v => map (fun a => v ++ "_" ++ L a) (wide_alts alts subset v)) vars).
    assert (HinA : forall x, In x alt_names_list -> exists v a, In v vars /\ In a alts /\ x = v ++ "_" ++ L a).
    { intros x Hx. apply in_flat_map in Hx. destruct Hx as (v & Hv & Hx). apply in_map_iff in Hx.
      destruct Hx as (a & <- & Ha). exists v, a. split; [exact Hv|]. split; [eapply HW; exact Ha|reflexivity]. }
    assert (HinV : forall x, In x (map (fun a => "availability_" ++ L a) (np_unique alts)) ->
       exists a, In a alts /\ x = "availability" ++ "_" ++ L a).
    { intros x Hx. apply in_map_iff in Hx. destruct Hx as (a & <- & Ha). apply (proj1 (np_unique_In _ _)) in Ha. exists a. split; [exact Ha|reflexivity]. }
    assert (HnA : NoDup alt_names_list).
    { unfold alt_names_list. inversion Hvars as [|? ? _ Hv]; subst. clear - Hv HP HW HWn.
      induction vars as [|v l IH]; [constructor|]. inversion Hv; subst. cbn [flat_map]. apply NoDup_app_intro.
      - apply NoDup_map_in; [|apply HWn]. intros a a' Ha Ha' E. apply (HP v a v a'); [eapply HW; eauto|eapply HW; eauto|exact E].
      - apply IH. assumption.
      - intros x Hx Hin. apply in_map_iff in Hx. destruct Hx as (a & <- & Ha). apply in_flat_map in Hin.
        destruct Hin as (v' & Hv' & Hin). apply in_map_iff in Hin. destruct Hin as (a' & E & Ha').
        destruct (HP v' a' v a (HW _ _ Ha') (HW _ _ Ha) E) as [-> _]. contradiction. }
    assert (HnV : NoDup (map (fun a => "availability_" ++ L a) (np_unique alts))).
    { apply NoDup_map_in; [|apply np_unique_NoDup]. intros a a' Ha Ha' E. apply (proj1 (np_unique_In _ _)) in Ha, Ha'.
      apply (HP "availability" a "availability" a' Ha Ha' E). }
    unfold expected_names. fold vars. fold alt_names_list.
    assert (Hp1 : NoDup [obs_col; choice_col] /\ NoDup ind_vars /\
                  (forall x, In x [obs_col; choice_col] -> ~ In x ind_vars)).
    { inversion Hplain as [|? ? P1 P2]; subst. inversion P2 as [|? ? P3 P4]; subst. repeat split.
      - constructor; [intros [->|[]]; apply P1; left; reflexivity|]. constructor; [intros []|constructor].
      - exact P4.
      - intros x [<-|[<-|[]]] Hx; [apply P1; right; exact Hx|apply P3; exact Hx]. }
    destruct Hp1 as (N1 & N2 & N3).
    assert (Hcl : forall c v a, In c (obs_col :: choice_col :: ind_vars) -> In v ("availability" :: vars) -> In a alts ->
       c <> v ++ "_" ++ L a) by (intros c v a H1 H2 H3; apply (Hclash c v a (L a)); auto).
    apply NoDup_app_intro; [exact N1| |].
    - apply NoDup_app_intro; [exact HnV| |].
      + apply NoDup_app_intro; [exact N2|exact HnA|]. intros x Hx Hin. destruct (HinA x Hin) as (v & a & Hv & Ha & ->).
        apply (Hcl (v ++ "_" ++ L a) v a); [right; right; exact Hx|right; exact Hv|exact Ha|reflexivity].
      + intros x Hx Hin. destruct (HinV x Hx) as (a & Ha & ->). apply in_app_or in Hin. destruct Hin as [Hin|Hin].
        * apply (Hcl ("availability" ++ "_" ++ L a) "availability" a); [right; right; exact Hin|left; reflexivity|exact Ha|reflexivity].
        * destruct (HinA _ Hin) as (v & a' & Hv & Ha' & E). destruct (HP "availability" a v a' Ha Ha' E) as [<- _].
          inversion Hvars; subst. contradiction.
    - intros x Hx Hin.
      assert (Hx' : In x (obs_col :: choice_col :: ind_vars)) by (destruct Hx as [<-|[<-|[]]]; [left|right; left]; reflexivity).
      apply in_app_or in Hin. destruct Hin as [Hin|Hin].
      + destruct (HinV x Hin) as (a & Ha & E). apply (Hcl x "availability" a); [exact Hx'|left; reflexivity|exact Ha|exact E].
      + apply in_app_or in Hin. destruct Hin as [Hin|Hin]; [apply (N3 x Hx Hin)|].
        destruct (HinA x Hin) as (v & a & Hv & Ha & E). apply (Hcl x v a); [exact Hx'|right; exact Hv|exact Ha|exact E].
  Qed.

  Lemma assoc_NoDup {A} k (x : A) l : NoDup (map fst l) -> In (k, x) l -> assoc k l = Some x.
  Proof.
    induction l as [|[k' y] l IH]; [intros _ []|]. cbn. intros Hn [E|Hin]; inversion Hn; subst.
    - injection E as -> ->. rewrite String.eqb_refl. reflexivity.
    - destruct (String.eqb k k') eqn:G; [|auto]. apply String.eqb_eq in G as ->. exfalso. apply H1.
      apply (in_map fst) in Hin. exact Hin.
  Qed.

  (** When no name occurs twice, reading a column by its name gives the column of
      that alternative (and variable): the availability and the values that the
      observations' rows have for it, the null value elsewhere. *)
  Theorem C90_reading_columns_by_name t :
    convert_long_to_wide_named f ind_vars alt_vars subset obs_col alt_col choice_col names = Ok t ->
    NoDup (map fst t) ->
    let seen := first_seen obs in
    let has_row j i a := (i < length obs)%nat /\ nth i obs 0%Z = nth j seen 0%Z /\ nth i alts 0%Z = a in
    exists L, (forall a, In a alts -> stands_for names a (L a)) /\
      (forall a, In a alts -> exists col, assoc ("availability_" ++ L a) t = Some (WInt col) /\
         length col = length seen /\
         forall j, (j < length seen)%nat ->
           ((exists i, has_row j i a) -> nth j col 0%Z = 1%Z) /\
           (~ (exists i, has_row j i a) -> nth j col 0%Z = 0%Z)) /\
      (forall v a vals, In v (alt_vars ++ map fst subset) -> In a (wide_alts alts subset v) -> num_col f v = Ok vals ->
         exists col, assoc (v ++ "_" ++ L a) t = Some (WCell col) /\
           length col = length seen /\
           forall j, (j < length seen)%nat ->
             (forall i, has_row j i a -> nth j col NullValue = Val (nth i vals 0%R)) /\
             (~ (exists i, has_row j i a) -> nth j col NullValue = NullValue)).
  Proof.
    intros H Hnd seen has_row. destruct (named_inv t H) as (Hc & w & Hw & Ht).
    destruct (table_form w t Hc Hw Ht) as [HL Et]. exists (text_of names). split.
    { intros a Ha. eapply label_stands_for; [exact Hc|apply HL; exact Ha]. }
    destruct (C11_availability f ind_vars alt_vars subset obs_col alt_col choice_col w obs alts choice Hwf Hobs Halt Hch Hw)
      as [Ea Ca].
    destruct (C11_alternative_specific_cells f ind_vars alt_vars subset obs_col alt_col choice_col w obs alts choice
        Hwf Hobs Halt Hch Hw) as [Es Cs]. split.
    - intros a Ha. apply np_unique_In in Ha. rewrite <- Ea in Ha. apply in_map_iff in Ha.
      destruct Ha as ([a' col] & Eq & Hin). cbn [fst] in Eq. subst a'. exists col. split.
      + apply assoc_NoDup; [exact Hnd|]. rewrite Et. right. right. apply in_or_app. left. apply in_map_iff.
        exists (a, col). auto.
      + destruct (Ca a col Hin) as [Hlen Hj]. split; [exact Hlen|]. intros j Hlt. destruct (Hj j Hlt) as [J1 J0]. split.
        * intros (i & I1 & I2 & I3). apply J1. exists i. auto.
        * intros Hno. apply J0. intros i I1 I2 I3. apply Hno. exists i. repeat split; assumption.
    - intros v a vals Hv Ha Hvals.
      assert (Hpair : In (v, a) (map fst (w_alt w))).
      { rewrite Es. apply in_flat_map. exists v. split; [exact Hv|]. apply in_map. exact Ha. }
      apply in_map_iff in Hpair. destruct Hpair as ([q col] & Eq & Hin). cbn [fst] in Eq. subst q. exists col. split.
      + apply assoc_NoDup; [exact Hnd|]. rewrite Et. right. right. apply in_or_app. right. apply in_or_app. right.
        apply in_map_iff. exists ((v, a), col). auto.
      + destruct (Cs v a col vals Hin Hvals) as [Hlen Hj]. split; [exact Hlen|]. intros j Hlt. destruct (Hj j Hlt) as [J1 J0].
        split.
        * intros i (I1 & I2 & I3). apply (J1 i); assumption.
        * intros Hno. apply J0. intros i I1 I2 I3. apply Hno. exists i. repeat split; assumption.
  Qed.
End Named.

(** ** Concrete cases *)

(** Two observations, alternatives 10 and 20, with the given numeric columns. *)
Definition two_by_two (reals : list (string * list R)) : frame :=
  mkFrame 4 [("obs", [1; 1; 2; 2]%Z); ("alt", [10; 20; 10; 20]%Z); ("choice", [0; 1; 1; 0]%Z)] reals.

Lemma two_by_two_converts reals ind_vars alt_vars :
  (forall c l, assoc c reals = Some l -> length l = 4%nat) ->
  (forall v, In v (ind_vars ++ alt_vars) -> has_col (two_by_two reals) v = true) ->
  alt_vars <> [] ->
  (forall v vals, In v ind_vars -> num_col (two_by_two reals) v = Ok vals ->
     constant_within_observation [1; 1; 2; 2]%Z vals) ->
  well_formed (two_by_two reals) /\
  exists w, convert_long_to_wide (two_by_two reals) ind_vars alt_vars [] "obs" "alt" "choice" = Ok w.
Proof.
  intros Hr Hc Hne Hconst.
  assert (Hwf : well_formed (two_by_two reals)).
  { split; intros c l H; simpl in H; [|exact (Hr c l H)].
    do 3 (destruct (String.eqb c _) in H; [injection H as <-; reflexivity|]). discriminate. }
  split; [exact Hwf|].
  apply (C11_accepts_well_formed_data (two_by_two reals) ind_vars alt_vars [] "obs" "alt" "choice"
    [1; 1; 2; 2]%Z [10; 20; 10; 20]%Z [0; 1; 1; 0]%Z Hwf eq_refl eq_refl eq_refl).
  - cbn [map]. intros v Hv. apply Hc. rewrite List.app_nil_r in Hv. exact Hv.
  - cbn [map]. rewrite List.app_nil_r. exact Hne.
  - simpl. repeat constructor; simpl; intuition congruence.
  - apply C05_accepts_only_contiguous; reflexivity.
  - exists [0; 1; 1; 0]%Z. split; [reflexivity|]. cbn [obs_ids]. split.
    + intros i Hi. simpl in Hi. do 4 (destruct i as [|i]; [simpl; auto|]). lia.
    + intros o Ho. simpl in Ho. destruct Ho as [<-|[<-|[<-|[<-|[]]]]].
      * exists 1%nat. repeat split; simpl; try lia. intros i Hi. do 4 (destruct i as [|i]; [simpl; try lia; auto|]). lia.
      * exists 1%nat. repeat split; simpl; try lia. intros i Hi. do 4 (destruct i as [|i]; [simpl; try lia; auto|]). lia.
      * exists 2%nat. repeat split; simpl; try lia. intros i Hi. do 4 (destruct i as [|i]; [simpl; try lia; auto|]). lia.
      * exists 2%nat. repeat split; simpl; try lia. intros i Hi. do 4 (destruct i as [|i]; [simpl; try lia; auto|]). lia.
  - exact Hconst.
Qed.

Lemma two_by_two_named reals ind_vars alt_vars names :
  (forall c l, assoc c reals = Some l -> length l = 4%nat) ->
  (forall v, In v (ind_vars ++ alt_vars) -> has_col (two_by_two reals) v = true) ->
  alt_vars <> [] ->
  (forall v vals, In v ind_vars -> num_col (two_by_two reals) v = Ok vals ->
     constant_within_observation [1; 1; 2; 2]%Z vals) ->
  names_fit names [10; 20; 10; 20]%Z ->
  exists t L, convert_long_to_wide_named (two_by_two reals) ind_vars alt_vars [] "obs" "alt" "choice" names = Ok t /\
    stands_for names 10 (L 10%Z) /\ stands_for names 20 (L 20%Z) /\
    map fst t = expected_names L [10; 20; 10; 20]%Z ind_vars alt_vars [] "obs" "choice".
Proof.
  intros Hr Hc Hne Hconst Hfit. destruct (two_by_two_converts reals ind_vars alt_vars Hr Hc Hne Hconst) as [Hwf Hw].
  destruct (proj2 (C90_accepted_names (two_by_two reals) ind_vars alt_vars [] "obs" "alt" "choice" [1; 1; 2; 2]%Z
    [10; 20; 10; 20]%Z [0; 1; 1; 0]%Z names Hwf eq_refl eq_refl eq_refl) (conj Hw Hfit)) as [t Ht].
  destruct (C90_column_names (two_by_two reals) ind_vars alt_vars [] "obs" "alt" "choice" [1; 1; 2; 2]%Z
    [10; 20; 10; 20]%Z [0; 1; 1; 0]%Z names Hwf eq_refl eq_refl eq_refl t Ht) as (L & HL & E).
  exists t, L. repeat split; [exact Ht|apply HL; simpl; auto|apply HL; simpl; auto|exact E].
Qed.

Ltac lengths_ok := repeat match goal with x := _ |- _ => subst x end; intros c l H; simpl in H;
  repeat (destruct (String.eqb c _) in H; [injection H as <-; reflexivity|]); discriminate H.

(** Income is an individual variable, cost an alternative-specific one; the
    alternatives are called car and bus. *)
Definition ex_reals : list (string * list R) := [("income", [3; 3; 4; 4]%R); ("cost", [5; 6; 7; 8]%R)].
Definition ex_names : alt_names := NameDict [(20%Z, "bus"); (10%Z, "car")].

Lemma ex_income_constant v vals : In v ["income"] -> num_col (two_by_two ex_reals) v = Ok vals ->
  constant_within_observation [1; 1; 2; 2]%Z vals.
Proof.
  intros [<-|[]] H. injection H as <-. intros i j Hi Hj E. simpl in Hi, Hj.
  do 4 (destruct i as [|i]; [do 4 (destruct j as [|j]; [simpl in *; first [reflexivity|discriminate E]|]); lia|]). lia.
Qed.

Lemma ex_names_fit : names_fit ex_names [10; 20; 10; 20]%Z.
Proof. intros a. cbn. intuition. Qed.

Example ex_named_table : exists t,
  convert_long_to_wide_named (two_by_two ex_reals) ["income"] ["cost"] [] "obs" "alt" "choice" ex_names = Ok t /\
  map fst t = ["obs"; "choice"; "availability_car"; "availability_bus"; "income"; "cost_car"; "cost_bus"] /\
  NoDup (map fst t) /\ readable_texts ex_names.
Proof.
  destruct (two_by_two_named ex_reals ["income"] ["cost"] ex_names) as (t & L & Ht & H1 & H2 & E).
  - lengths_ok.
  - intros v [<-|[<-|[]]]; reflexivity.
  - discriminate.
  - apply ex_income_constant.
  - apply ex_names_fit.
  - exists t. split; [exact Ht|].
    assert (E1 : L 10%Z = "car") by (destruct H1 as [H|[H|[]]]; congruence).
    assert (E2 : L 20%Z = "bus") by (destruct H2 as [H|[H|[]]]; congruence).
    cbn in E. rewrite E1, E2 in E. rewrite E. split; [reflexivity|]. split.
    + repeat constructor; cbn; intuition discriminate.
    + cbn. split; [repeat constructor; cbn; intuition discriminate|].
      intros s [<-|[<-|[]]]; cbn; intuition discriminate.
Qed.

(** Without a dictionary the texts are the decimal numerals. *)
Example ex_unnamed_table : exists t,
  convert_long_to_wide_named (two_by_two ex_reals) ["income"] ["cost"] [] "obs" "alt" "choice" NoNames = Ok t /\
  map fst t = ["obs"; "choice"; "availability_10"; "availability_20"; "income"; "cost_10"; "cost_20"].
Proof.
  destruct (two_by_two_named ex_reals ["income"] ["cost"] NoNames) as (t & L & Ht & H1 & H2 & E).
  - lengths_ok.
  - intros v [<-|[<-|[]]]; reflexivity.
  - discriminate.
  - apply ex_income_constant.
  - exact I.
  - exists t. split; [exact Ht|]. cbn in H1, H2. cbn in E. rewrite H1, H2 in E. exact E.
Qed.

(** "Every cell of the wide table can be read by its column's name" is false:
    names can clash.  An alternative-specific variable called availability: *)
Theorem C90_refuted_variable_called_availability : exists reals t,
  convert_long_to_wide_named (two_by_two reals) [] ["availability"] [] "obs" "alt" "choice" NoNames = Ok t /\
  ~ NoDup (map fst t).
Proof.
  exists [("availability", [5; 6; 7; 8]%R)].
  destruct (two_by_two_named [("availability", [5; 6; 7; 8]%R)] [] ["availability"] NoNames) as (t & L & Ht & H1 & H2 & E).
  - lengths_ok.
  - intros v [<-|[]]; reflexivity.
  - discriminate.
  - intros v vals [].
  - exact I.
  - exists t. split; [exact Ht|]. rewrite E. cbn. intros Hn.
    inversion Hn as [|? ? _ N1]; subst. inversion N1 as [|? ? _ N2]; subst. inversion N2 as [|? ? N3 _]; subst.
    apply N3. right. left. reflexivity.
Qed.

(** An individual variable x_10 beside an alternative-specific variable x: *)
Theorem C90_refuted_individual_variable_with_suffix : exists reals t,
  convert_long_to_wide_named (two_by_two reals) ["x_10"] ["x"] [] "obs" "alt" "choice" NoNames = Ok t /\
  ~ NoDup (map fst t).
Proof.
  set (reals := [("x_10", [3; 3; 4; 4]%R); ("x", [5; 6; 7; 8]%R)]). exists reals.
  destruct (two_by_two_named reals ["x_10"] ["x"] NoNames) as (t & L & Ht & H1 & H2 & E).
  - lengths_ok.
  - intros v [<-|[<-|[]]]; reflexivity.
  - discriminate.
  - intros v vals [<-|[]] H. injection H as <-. intros i j Hi Hj E. simpl in Hi, Hj.
    do 4 (destruct i as [|i]; [do 4 (destruct j as [|j]; [simpl in *; first [reflexivity|discriminate E]|]); lia|]). lia.
  - exact I.
  - exists t. split; [exact Ht|]. cbn in H1, H2. cbn in E. rewrite H1, H2 in E. rewrite E. cbn. intros Hn.
    do 4 (inversion Hn as [|? ? _ Hn']; subst; clear Hn; rename Hn' into Hn).
    inversion Hn as [|? ? N _]; subst. apply N. left. reflexivity.
Qed.

(** A dictionary giving two alternatives the same name, or names with underscores: *)
Theorem C90_refuted_repeated_alternative_names : exists reals t,
  convert_long_to_wide_named (two_by_two reals) [] ["cost"] [] "obs" "alt" "choice"
    (NameDict [(10%Z, "mode"); (20%Z, "mode")]) = Ok t /\
  ~ NoDup (map fst t).
Proof.
  exists [("cost", [5; 6; 7; 8]%R)].
  destruct (two_by_two_named [("cost", [5; 6; 7; 8]%R)] [] ["cost"] (NameDict [(10%Z, "mode"); (20%Z, "mode")]))
    as (t & L & Ht & H1 & H2 & E).
  - lengths_ok.
  - intros v [<-|[]]; reflexivity.
  - discriminate.
  - intros v vals [].
  - intros a. cbn. intuition.
  - exists t. split; [exact Ht|].
    assert (E1 : L 10%Z = "mode") by (destruct H1 as [H|[H|[]]]; congruence).
    assert (E2 : L 20%Z = "mode") by (destruct H2 as [H|[H|[]]]; congruence).
    cbn in E. rewrite E1, E2 in E. rewrite E. intros Hn.
    do 2 (inversion Hn as [|? ? _ Hn']; subst; clear Hn; rename Hn' into Hn).
    inversion Hn as [|? ? N _]; subst. apply N. left. reflexivity.
Qed.

Theorem C90_refuted_alternative_names_with_underscores : exists reals d t,
  NoDup (map snd d) /\
  convert_long_to_wide_named (two_by_two reals) [] ["cost"; "cost_air"] [] "obs" "alt" "choice" (NameDict d) = Ok t /\
  ~ NoDup (map fst t).
Proof.
  set (reals := [("cost", [5; 6; 7; 8]%R); ("cost_air", [1; 2; 3; 4]%R)]). exists reals.
  set (d := [(10%Z, "air_taxi"); (20%Z, "taxi")]). exists d.
  destruct (two_by_two_named reals [] ["cost"; "cost_air"] (NameDict d)) as (t & L & Ht & H1 & H2 & E).
  - lengths_ok.
  - intros v [<-|[<-|[]]]; reflexivity.
  - discriminate.
  - intros v vals [].
  - intros a. cbn. intuition.
  - exists t. split; [repeat constructor; cbn; intuition discriminate|]. split; [exact Ht|].
    assert (E1 : L 10%Z = "air_taxi") by (destruct H1 as [H|[H|[]]]; congruence).
    assert (E2 : L 20%Z = "taxi") by (destruct H2 as [H|[H|[]]]; congruence).
    cbn in E. rewrite E1, E2 in E. rewrite E. intros Hn.
    do 4 (inversion Hn as [|? ? _ Hn']; subst; clear Hn; rename Hn' into Hn).
    inversion Hn as [|? ? N _]; subst. apply N. cbn. auto.
Qed.

(** A dictionary that names only some alternatives passes the validator and then
    raises KeyError. *)
Example ex_partial_dictionary :
  check_type_and_values_of_alt_name_dict (NameDict [(10%Z, "car")]) [10; 20; 10; 20]%Z = Ok tt /\
  convert_long_to_wide_named (two_by_two ex_reals) ["income"] ["cost"] [] "obs" "alt" "choice"
    (NameDict [(10%Z, "car")]) = Err KeyError.
Proof.
  split; [reflexivity|].
  destruct (two_by_two_converts ex_reals ["income"] ["cost"]) as [Hwf (w & Hw)].
  - lengths_ok.
  - intros v [<-|[<-|[]]]; reflexivity.
  - discriminate.
  - apply ex_income_constant.
  - destruct (C90_rejected_names (two_by_two ex_reals) ["income"] ["cost"] [] "obs" "alt" "choice" [1; 1; 2; 2]%Z
      [10; 20; 10; 20]%Z [0; 1; 1; 0]%Z (NameDict [(10%Z, "car")]) Hwf eq_refl eq_refl eq_refl w Hw) as [_ H].
    destruct (H _ eq_refl) as [_ H']. apply H'.
    + intros a [<-|[]]. simpl. auto.
    + exists 20%Z. simpl. split; [auto|]. intros [E|[]]. discriminate.
Qed.

Print Assumptions C90_accepted_names.
Print Assumptions C90_rejected_names.
Print Assumptions C90_column_names.
Print Assumptions C90_number_of_columns.
Print Assumptions C90_names_are_distinct.
Print Assumptions C90_reading_columns_by_name.
Print Assumptions C90_refuted_variable_called_availability.
