(** C111: a bootstrap table is the original table with each observation weighted by
    the number of times it was drawn. *)
From Coq Require Import String ZArith List Reals Lra Lia Arith Bool.
From Verif Require Import Res Vec Arr SpecLogit ChoiceCalcs ChoiceFacts Transforms Ids Mappings MappingFacts
  LongData ProbFacts LogitFacts PropProbs PropLikelihood Frame ChoiceTools PropDesign WideLong PropWideLong
  BootSampler PropBootSampler PropBootFrame.
Import ListNotations.
Open Scope R_scope.

(** ** Specification *)

(** How often observation [o] was drawn. *)
Fixpoint times_drawn (o : Z) (resampled : list Z) : R :=
  match resampled with
  | [] => 0
  | x :: r => (if (x =? o)%Z then 1 else 0) + times_drawn o r
  end.

(** The weight of each row of the original table: the number of times its
    observation was drawn, times the weight it had already. *)
Definition draw_weights (obs resampled : list Z) (w : option vec) : option vec :=
  Some (fun i => times_drawn (nth i obs 0%Z) resampled * eff_weights w i).

(** Every alternative of the table is available in some drawn observation. *)
Definition keeps_every_alternative (obs alts resampled : list Z) : Prop :=
  forall i, (i < length obs)%nat ->
    exists i', (i' < length obs)%nat /\ nth i' alts 0%Z = nth i alts 0%Z /\ In (nth i' obs 0%Z) resampled.

(** The design matrix whose columns are [cols]. *)
Definition design_of (cols : list (list R)) : mat := fun r q => nth r (nth q cols []) 0.

(** ** Facts about the rows of the bootstrap table *)

Lemma in_row_numbers obs o i : In i (row_numbers obs o) <-> (i < length obs)%nat /\ nth i obs 0%Z = o.
Proof.
  unfold row_numbers. rewrite filter_In, in_seq, Z.eqb_eq. intuition lia.
Qed.

Lemma NoDup_row_numbers obs o : NoDup (row_numbers obs o).
Proof. apply NoDup_filter, seq_NoDup. Qed.

(** Sums over the elements of a list. *)
Definition lsum {A} (h : A -> R) (l : list A) : R := fold_right (fun a s => h a + s) 0 l.

Lemma lsum_app {A} (h : A -> R) l m : lsum h (l ++ m)%list = lsum h l + lsum h m.
Proof. induction l as [|a l IH]; simpl; [lra|]. unfold lsum in *. rewrite IH. lra. Qed.

Lemma lsum_nth {A} (h : A -> R) l d : sumn (length l) (fun r => h (nth r l d)) = lsum h l.
Proof.
  induction l as [|a l IH] using rev_ind; [reflexivity|].
  rewrite app_length, Nat.add_1_r. cbn [sumn].
  rewrite (sumn_ext _ _ (fun r => h (nth r l d))) by (intros r Hr; rewrite app_nth1 by exact Hr; reflexivity).
  rewrite IH, app_nth2, Nat.sub_diag by lia. cbn [nth]. rewrite lsum_app. unfold lsum at 3. cbn [fold_right]. lra.
Qed.

Lemma lsum_map {A B} (h : B -> R) (g : A -> B) l : lsum h (map g l) = lsum (fun a => h (g a)) l.
Proof. unfold lsum. induction l as [|a l IH]; simpl; [reflexivity|]. rewrite IH. reflexivity. Qed.

Lemma lsum_flat_map {A B} (h : B -> R) (g : A -> list B) l : lsum h (flat_map g l) = lsum (fun a => lsum h (g a)) l.
Proof. induction l as [|a l IH]; simpl; [reflexivity|]. rewrite lsum_app, IH. reflexivity. Qed.

Lemma lsum_ext_in {A} (h g : A -> R) l : (forall a, In a l -> h a = g a) -> lsum h l = lsum g l.
Proof.
  unfold lsum. induction l as [|a l IH]; intros H; simpl; [reflexivity|].
  rewrite H by (left; reflexivity). f_equal. apply IH. intros; apply H; right; assumption.
Qed.

Lemma lsum_indicator i l : NoDup l ->
  lsum (fun j => if (j =? i)%nat then 1 else 0) l = if in_dec Nat.eq_dec i l then 1 else 0.
Proof.
  induction 1 as [|a l Ha Hl IH]; [reflexivity|]. cbn [lsum fold_right].
  change (fold_right _ 0 l) with (lsum (fun j => if (j =? i)%nat then 1 else 0) l). rewrite IH.
  destruct (Nat.eqb_spec a i) as [->|Hne].
  - destruct (in_dec Nat.eq_dec i l) as [Hin|_]; [contradiction|].
    destruct (in_dec Nat.eq_dec i (i :: l)) as [_|Hn]; [lra|]. exfalso. apply Hn. left. reflexivity.
  - destruct (in_dec Nat.eq_dec i l) as [Hin|Hn]; destruct (in_dec Nat.eq_dec i (a :: l)) as [Hin'|Hn']; try lra.
    + exfalso. apply Hn'. right. exact Hin.
    + destruct Hin'; [congruence|contradiction].
Qed.

Lemma times_drawn_lsum o l : times_drawn o l = lsum (fun x => if (x =? o)%Z then 1 else 0) l.
Proof. unfold lsum. induction l as [|a l IH]; simpl; [reflexivity|]. rewrite IH. reflexivity. Qed.

(** Row [i] of the original table is copied once for every draw of its observation. *)
Lemma copies_of_row obs resampled i : (i < length obs)%nat ->
  lsum (fun s => if (snd s =? i)%nat then 1 else 0) (sources obs resampled) = times_drawn (nth i obs 0%Z) resampled.
Proof.
  intros Hi. unfold sources. rewrite lsum_flat_map, times_drawn_lsum.
  rewrite (f_equal (lsum (fun x => if (x =? nth i obs 0)%Z then 1 else 0)) (list_as_map resampled 0%Z)), lsum_map. apply lsum_ext_in. intros k _.
  rewrite lsum_map. cbn [snd]. rewrite lsum_indicator by apply NoDup_row_numbers.
  destruct (in_dec Nat.eq_dec i _) as [H|H]; rewrite in_row_numbers in H.
  - destruct H as [_ ->]. rewrite Z.eqb_refl. reflexivity.
  - destruct (Z.eqb_spec (nth k resampled 0%Z) (nth i obs 0%Z)) as [E|]; [|reflexivity]. exfalso. apply H. auto.
Qed.

(** ** The bootstrap table lists copies of observations *)

Section BootWeights.
  Context (obs alts ch resampled : list Z) (w : option vec).
  Hypothesis Hal : length alts = length obs.
  Hypothesis Hcl : length ch = length obs.
  Hypothesis Hin : forall o, In o resampled -> In o obs.
  Hypothesis Hkeep : keeps_every_alternative obs alts resampled.
  Let S0 := sources obs resampled.
  Let src (r : nat) := snd (nth r S0 (0%Z, 0%nat)).
  Let d := mkLong obs alts (Some ch) None.
  Let d' := mkLong (map fst S0) (map (fun s => nth (snd s) alts 0%Z) S0)
              (Some (map (fun s => nth (snd s) ch 0%Z) S0)) None.

  Lemma src_lt r : (r < length S0)%nat -> (src r < length obs)%nat.
  Proof.
    intros Hr. unfold src. destruct (nth r S0 (0%Z, 0%nat)) as [b i] eqn:E.
    assert (Hi : In (b, i) S0) by (rewrite <- E; apply nth_In; exact Hr).
    apply in_sources in Hi. destruct Hi as (k & _ & _ & H & _). exact H.
  Qed.

  Lemma boot_copies : lists_copies d d' src.
  Proof.
    assert (HN : length (map fst S0) = length S0) by apply map_length.
    unfold lists_copies. cbn [d d' obs_ids alt_ids]. rewrite HN.
    assert (Hrow : forall r, (r < length S0)%nat -> exists k, (k < length resampled)%nat /\
       fst (nth r S0 (0%Z, 0%nat)) = Z.of_nat (k + 1) /\ nth (src r) obs 0%Z = nth k resampled 0%Z).
    { intros r Hr. unfold src. destruct (nth r S0 (0%Z, 0%nat)) as [b i] eqn:E.
      assert (Hi : In (b, i) S0) by (rewrite <- E; apply nth_In; exact Hr).
      apply in_sources in Hi. destruct Hi as (k & Hk & -> & _ & Eo). exists k. auto. }
    assert (Hid : forall r, (r < length S0)%nat -> nth r (map fst S0) 0%Z = fst (nth r S0 (0%Z, 0%nat))).
    { intros r Hr. apply nth_map_lt. exact Hr. }
    split; [exact Hal|]. split; [apply map_length|]. split; [|split; [|split; [|split]]].
    - intros r Hr. split; [apply src_lt; exact Hr|]. split.
      + rewrite (nth_map_lt _ _ _ (0%Z, 0%nat)) by exact Hr. reflexivity.
      + unfold choice_vec; cbn [d d' choices]. rewrite (nth_map_lt _ _ _ (0%Z, 0%nat)) by exact Hr. reflexivity.
    - intros x Hx. apply (In_nth _ _ 0%Z) in Hx. destruct Hx as (i & Hi & <-). rewrite Hal in Hi.
      destruct (Hkeep i Hi) as (i' & Hi' & <- & Hr). apply (In_nth _ _ 0%Z) in Hr. destruct Hr as (k & Hk & Ek).
      apply in_map_iff. exists (Z.of_nat (k + 1), i'). split; [reflexivity|]. apply in_sources. exists k. auto.
    - intros r r' Hr Hr' E. rewrite !Hid in E by assumption.
      destruct (Hrow r Hr) as (k & _ & Ek & ->). destruct (Hrow r' Hr') as (k' & _ & Ek' & ->).
      f_equal. lia.
    - intros r i Hr Hi E. destruct (Hrow r Hr) as (k & Hk & Ek & Eo). rewrite Eo in E.
      assert (Hs : In (Z.of_nat (k + 1), i) S0) by (apply in_sources; exists k; auto).
      apply (In_nth _ _ (0%Z, 0%nat)) in Hs. destruct Hs as (r' & Hr' & Er').
      exists r'. split; [exact Hr'|]. rewrite !Hid by assumption. unfold src. rewrite Er', Ek. split; reflexivity.
    - intros r r' Hr Hr' E Es. rewrite !Hid in E by assumption. unfold src in Es.
      apply (proj1 (NoDup_nth S0 (0%Z, 0%nat)) (sources_NoDup obs resampled) r r' Hr Hr').
      destruct (nth r S0 (0%Z, 0%nat)), (nth r' S0 (0%Z, 0%nat)). simpl in *. congruence.
  Qed.

  Lemma boot_weights w' :
    (forall r, (r < length S0)%nat -> eff_weights w' r = eff_weights w (src r)) ->
    weights_add_up d d' src (draw_weights obs resampled w) w'.
  Proof.
    intros Hw i Hi. cbn [d d' obs_ids] in *. rewrite map_length.
    rewrite (sumn_ext _ _ (fun r => (fun s => (if (snd s =? i)%nat then 1 else 0) * eff_weights w i) (nth r S0 (0%Z, 0%nat)))).
    2: { intros r Hr. fold (src r). cbn beta. destruct (Nat.eqb_spec (src r) i) as [<-|]; [rewrite Hw by exact Hr|]; ring. }
    rewrite (lsum_nth (fun s : Z * nat => (if (snd s =? i)%nat then 1 else 0) * eff_weights w i)). unfold draw_weights. cbn [eff_weights]. rewrite <- copies_of_row by exact Hi. fold S0.
    clear. unfold lsum. induction S0 as [|s l IH]; simpl; [ring|]. rewrite Rmult_plus_distr_r, IH. reflexivity.
  Qed.
End BootWeights.

(** ** The design matrix of the bootstrap table *)

Definition rows_of {A} (dflt : A) (I : list nat) (l : list A) : list A := map (fun i => nth i l dflt) I.

Lemma rows_map {A B} (g : A -> B) da db I l : (forall i, In i I -> (i < length l)%nat) ->
  rows_of db I (map g l) = map g (rows_of da I l).
Proof.
  intros H. unfold rows_of. rewrite map_map. apply map_ext_in. intros i Hi. apply nth_map_lt. auto.
Qed.

Lemma rows_mask (p : Z -> bool) I alts vals :
  length vals = length alts -> (forall i, In i I -> (i < length alts)%nat) ->
  mask_times (map p (rows_of 0%Z I alts)) (rows_of 0 I vals) = rows_of 0 I (mask_times (map p alts) vals).
Proof.
  intros HL HI. unfold rows_of. transitivity (map (fun i => (if p (nth i alts 0%Z) then 1 else 0) * nth i vals 0) I).
  - clear HI. unfold mask_times. rewrite map_map. induction I as [|i I IH]; simpl; [reflexivity|].
    rewrite IH. reflexivity.
  - apply map_ext_in. intros i Hi. specialize (HI i Hi). unfold mask_times.
    assert (Hc : (i < length (combine (map p alts) vals))%nat) by (rewrite combine_length, map_length; lia).
    rewrite (nth_map_lt _ _ _ (p 0%Z, 0)) by exact Hc.
    rewrite combine_nth by (rewrite map_length; lia). cbn [fst snd]. rewrite map_nth. reflexivity.
Qed.

Lemma columns_of_rows I alts u var vals v :
  length vals = length alts -> (forall i, In i I -> (i < length alts)%nat) -> valid_value u v ->
  columns_of (rows_of 0%Z I alts) u var (rows_of 0 I vals) v =
  map (fun cl => (rows_of 0 I (fst cl), snd cl)) (columns_of alts u var vals v).
Proof.
  intros HL HI Hv. destruct Hv as [| |l Hl].
  - reflexivity.
  - simpl. rewrite map_map. apply map_ext. intros a. cbn [fst snd]. rewrite rows_mask by assumption. reflexivity.
  - simpl. rewrite map_map. apply map_ext_in. intros g Hg.
    destruct (Hl g Hg) as [a Ha|items Hi]; cbn [fst snd]; rewrite rows_mask by assumption; reflexivity.
Qed.

Lemma assoc_none_map {A B} c (F : string * A -> string * B) m :
  assoc c m = None -> (forall kv, fst (F kv) = fst kv) -> assoc c (map F m) = None.
Proof.
  intros H HF. induction m as [|[k v] m IH]; [reflexivity|]. simpl in *.
  destruct (F (k, v)) as [k' v'] eqn:E. pose proof (HF (k, v)) as Ek. rewrite E in Ek. cbn in Ek. subst k'.
  destruct (String.eqb c k); [discriminate|auto].
Qed.

Lemma boot_no_real f oc obs rs gd boot g c :
  int_col f oc = Ok obs -> (forall o, In o rs -> In o obs) ->
  create_deepcopied_groupby_dict f oc = Ok gd ->
  create_bootstrap_dataframe f oc rs gd boot = Ok g ->
  assoc c (f_reals f) = None -> assoc c (f_reals g) = None.
Proof.
  intros Ho Hin Hgd H Hc. unfold create_bootstrap_dataframe in H.
  apply bind_ok in H. destruct H as (? & _ & H). apply bind_ok in H. destruct H as (? & _ & H).
  apply bind_ok in H. destruct H as (? & _ & H). apply bind_ok in H. destruct H as (? & _ & H).
  rewrite (components_ok f oc obs gd boot rs 0 Ho Hgd Hin) in H. cbn [bind] in H.
  destruct rs as [|o rs]; [discriminate|]. cbn [length seq map concat_frames] in H. injection H as <-.
  cbn [f_reals]. apply assoc_none_map; [|reflexivity].
  unfold component, add_constant_column, filter_rows. cbn [f_reals]. rewrite assoc_map_snd, Hc. reflexivity.
Qed.

Theorem C111_design_of_the_bootstrap_table f obs_col obs alt_col alts boot resampled gd spec names cols labels g :
  well_formed f -> int_col f obs_col = Ok obs -> int_col f alt_col = Ok alts ->
  has_col f boot = false ->
  resampled <> [] -> (forall o, In o resampled -> In o obs) ->
  keeps_every_alternative obs alts resampled ->
  create_deepcopied_groupby_dict f obs_col = Ok gd ->
  create_bootstrap_dataframe f obs_col resampled gd boot = Ok g ->
  create_design_matrix f spec alt_col names = Ok (cols, labels) ->
  create_design_matrix g spec alt_col names =
    Ok (map (fun col => map (fun s => nth (snd s) col 0) (sources obs resampled)) cols, labels).
Proof.
  intros Hwf Ho Ha Hb Hne Hin Hkeep Hgd Hg Hd.
  assert (Lo : length obs = f_rows f).
  { unfold int_col in Ho. destruct (assoc obs_col (f_ints f)) eqn:E; [|discriminate]. injection Ho as <-. apply (proj1 Hwf _ _ E). }
  assert (Ia : assoc alt_col (f_ints f) = Some alts).
  { unfold int_col in Ha. destruct (assoc alt_col (f_ints f)) eqn:E; [|discriminate]. congruence. }
  assert (La : length alts = f_rows f) by apply (proj1 Hwf _ _ Ia).
  destruct (C56_rows_are_copies f obs_col obs boot resampled gd Hwf Ho Lo Hb Hne Hin Hgd)
    as (g' & Hg' & Wg & Rg & Bg & Ig & Fg & Cg).
  rewrite Hg in Hg'. injection Hg' as <-.
  set (S0 := sources obs resampled) in *. set (I := map snd S0).
  assert (HI : forall i, In i I -> (i < f_rows f)%nat).
  { intros i Hi. apply in_map_iff in Hi. destruct Hi as ([b j] & <- & Hs). apply in_sources in Hs.
    destruct Hs as (k & _ & _ & Hj & _). cbn [snd]. lia. }
  assert (ER : forall A (dflt : A) l, map (fun s : Z * nat => nth (snd s) l dflt) S0 = rows_of dflt I l).
  { intros A dflt l. unfold rows_of, I. rewrite map_map. reflexivity. }
  assert (Ga : int_col g alt_col = Ok (rows_of 0%Z I alts)).
  { unfold int_col. rewrite (Ig alt_col alts Ia), ER. reflexivity. }
  assert (Hset : forall x, In x (rows_of 0%Z I alts) <-> In x alts).
  { intros x. unfold rows_of. rewrite in_map_iff. split.
    - intros (i & <- & Hi). apply nth_In. rewrite La. apply HI. exact Hi.
    - intros Hx. apply (In_nth _ _ 0%Z) in Hx. destruct Hx as (i & Hi & <-).
      destruct (Hkeep i) as (i' & Hi' & Ei & Hr); [lia|]. exists i'. split; [exact Ei|].
      apply (In_nth _ _ 0%Z) in Hr. destruct Hr as (k & Hk & Ek).
      apply in_map_iff. exists (Z.of_nat (k + 1), i'). split; [reflexivity|]. apply in_sources. exists k. auto. }
  assert (Eu : np_unique (rows_of 0%Z I alts) = np_unique alts).
  { apply strongly_lt_unique; try apply np_unique_sorted. intros x. rewrite !np_unique_In. apply Hset. }
  assert (Gn : forall c vals, num_col f c = Ok vals -> num_col g c = Ok (rows_of 0 I vals)).
  { intros c vals. unfold num_col. destruct (assoc c (f_reals f)) as [l|] eqn:Er.
    - intros H. injection H as <-. rewrite (Fg c l Er), ER. reflexivity.
    - destruct (assoc c (f_ints f)) as [l|] eqn:Ei; [|discriminate]. intros H. injection H as <-.
      rewrite (boot_no_real f obs_col obs resampled gd boot g c Ho Hin Hgd Hg Er), (Ig c l Ei), ER.
      rewrite (rows_map IZR 0%Z 0); [reflexivity|]. intros i Hi. rewrite (proj1 Hwf _ _ Ei). apply HI. exact Hi. }
  assert (Gh : forall c, has_col f c = true -> has_col g c = true).
  { intros c. unfold has_col. destruct (assoc c (f_ints f)) as [l|] eqn:Ei.
    - intros _. rewrite (Ig c l Ei). reflexivity.
    - destruct (assoc c (f_reals f)) as [l|] eqn:Er; [|discriminate]. intros _. rewrite (Fg c l Er).
      destruct (assoc c (f_ints g)); reflexivity. }
  destruct (create_design_inv _ _ _ _ _ _ Hd) as (alts' & parts & Ha' & Hs & Hnm & Hp & Ec & El).
  rewrite Ha in Ha'. injection Ha' as <-.
  assert (Hval : forall kv, In kv spec -> valid_value (np_unique alts) (snd kv)).
  { intros [k v] Hkv. apply (proj1 (C09_specification_validator_exact spec (np_unique alts)) Hs k). exact Hkv. }
  unfold create_design_matrix in *.
  destruct (has_col f alt_col) eqn:Hh; [|discriminate Hd]. rewrite (Gh alt_col Hh). cbn [negb] in Hd |- *.
  destruct (forallb (fun kv => has_col f (fst kv)) spec) eqn:Hf; [|discriminate Hd]. cbn [negb] in Hd.
  assert (Hf' : forallb (fun kv => has_col g (fst kv)) spec = true).
  { apply forallb_forall. intros kv Hkv. rewrite forallb_forall in Hf. apply Gh. apply Hf. exact Hkv. }
  rewrite Hf'. cbn [negb]. rewrite Ga. cbn [bind]. rewrite Eu, Hs. cbn [bind].
  assert (En : match names with
               | Some n => check_keys_and_values_of_name_dictionary n spec (length (np_unique alts))
               | None => Ok tt end = Ok tt) by (destruct names as [n|]; [apply (Hnm n eq_refl)|reflexivity]).
  rewrite En. cbn [bind].
  assert (EM : mapM (fun kv => do vals <- num_col g (fst kv);
                Ok (columns_of (rows_of 0%Z I alts) (np_unique alts) (fst kv) vals (snd kv))) spec =
               Ok (map (map (fun cl => (rows_of 0 I (fst cl), snd cl))) parts)).
  { clear -Hp Hval Gn La HI Hwf. induction Hp as [|kv p sp ps (vals & Hv & ->) Hp IH]; [reflexivity|].
    cbn [mapM]. rewrite (Gn _ _ Hv). cbn [bind]. rewrite IH by (intros kv' Hk; apply Hval; right; exact Hk). cbn [bind].
    rewrite columns_of_rows; [reflexivity| | |apply Hval; left; reflexivity].
    - rewrite (num_col_length _ _ _ Hwf Hv). lia.
    - intros i Hi. rewrite La. apply HI. exact Hi. }
  rewrite EM. cbn [bind]. rewrite <- concat_map.
  assert (Hcne : concat parts <> []).
  { rewrite Ha in Hd. cbn [bind] in Hd. rewrite Hs in Hd. cbn [bind] in Hd. rewrite En in Hd. cbn [bind] in Hd.
    apply bind_ok in Hd. destruct Hd as (parts' & Hp' & Hd).
    assert (E' : parts' = parts).
    { apply mapM_ok in Hp'. clear -Hp Hp'. revert parts Hp. induction Hp' as [|kv p sp ps H _ IH]; intros parts Hp.
      - inversion Hp. reflexivity.
      - inversion Hp as [|? ? ? ? (vals & Hv & ->) Hp2]; subst. rewrite Hv in H. cbn [bind] in H. injection H as <-.
        f_equal. apply IH. exact Hp2. }
    subst parts'. intros E. rewrite E in Hd. discriminate. }
  destruct (concat parts) as [|x l] eqn:E0; [congruence|]. cbn [map]. subst cols labels.
  f_equal. f_equal.
  - cbn [map fst]. rewrite ER. f_equal. rewrite !map_map. apply map_ext. intros c. cbn [fst]. rewrite ER. reflexivity.
  - destruct names; [reflexivity|]. cbn [map snd]. f_equal. rewrite map_map. reflexivity.
Qed.

(** ** C111 *)

(** [g] is the table built from the drawn observations; the original data carry the
    number of draws as weights.  All models without nests and mixing. *)
Theorem C111_bootstrap_table_is_weighting k f obs_col obs alt_col alts choice_col ch boot resampled gd g
    spec names cols labels mp ridge w w' :
  well_formed f -> int_col f obs_col = Ok obs -> int_col f alt_col = Ok alts -> int_col f choice_col = Ok ch ->
  has_col f boot = false ->
  resampled <> [] -> (forall o, In o resampled -> In o obs) ->
  keeps_every_alternative obs alts resampled ->
  create_deepcopied_groupby_dict f obs_col = Ok gd ->
  create_bootstrap_dataframe f obs_col resampled gd boot = Ok g ->
  create_design_matrix f spec alt_col names = Ok (cols, labels) ->
  create_long_form_mappings (mkLong obs alts (Some ch) None) None = Ok mp ->
  (forall r, (r < f_rows g)%nat ->
     eff_weights w' r = eff_weights w (snd (nth r (sources obs resampled) (0%Z, 0%nat)))) ->
  exists obs' alts' ch' cols' mp',
    int_col g boot = Ok obs' /\ int_col g alt_col = Ok alts' /\ int_col g choice_col = Ok ch' /\
    create_design_matrix g spec alt_col names = Ok (cols', labels) /\ length cols' = length cols /\
    create_long_form_mappings (mkLong obs' alts' (Some ch') None) None = Ok mp' /\
    let D := data_of (mkLong obs alts (Some ch) None) mp (length cols) (design_of cols)
               (draw_weights obs resampled w) ridge in
    let D' := data_of (mkLong obs' alts' (Some ch') None) mp' (length cols') (design_of cols') w' ridge in
    d_J D' = d_J D /\
    (kind_ok k (d_J D) -> forall theta, check_length_of_initial_values k (d_J D) (length cols) theta = Ok tt ->
       est_log_likelihood k D' theta = est_log_likelihood k D theta /\
       exists v v', est_gradient k D theta = Ok v /\ est_gradient k D' theta = Ok v' /\
         alen v' = alen v /\ forall j, (j < alen v)%nat -> aget v' j = aget v j).
Proof.
  intros Hwf Ho Ha Hc Hb Hne Hin Hkeep Hgd Hg Hd Hmp Hw.
  pose proof (C111_design_of_the_bootstrap_table f obs_col obs alt_col alts boot resampled gd spec names cols labels g
    Hwf Ho Ha Hb Hne Hin Hkeep Hgd Hg Hd) as Hd'.
  assert (Hcol : forall c l, int_col f c = Ok l -> assoc c (f_ints f) = Some l /\ length l = f_rows f).
  { intros c l. unfold int_col. destruct (assoc c (f_ints f)) eqn:E; [|discriminate]. intros H. injection H as <-.
    split; [reflexivity|]. apply (proj1 Hwf _ _ E). }
  destruct (Hcol _ _ Ho) as [_ Lo]. destruct (Hcol _ _ Ha) as [Ia La]. destruct (Hcol _ _ Hc) as [Ic Lc].
  destruct (C56_rows_are_copies f obs_col obs boot resampled gd Hwf Ho Lo Hb Hne Hin Hgd)
    as (g' & Hg' & Wg & Rg & Bg & Ig & Fg & Cg).
  rewrite Hg in Hg'. injection Hg' as <-.
  set (S0 := sources obs resampled) in *.
  set (src := fun r => snd (nth r S0 (0%Z, 0%nat))).
  set (obs' := map fst S0). set (alts' := map (fun s => nth (snd s) alts 0%Z) S0).
  set (ch' := map (fun s => nth (snd s) ch 0%Z) S0).
  assert (Hmp' : exists mp', create_long_form_mappings (mkLong obs' alts' (Some ch') None) None = Ok mp').
  { unfold create_long_form_mappings. cbn [bind]. eexists. reflexivity. }
  destruct Hmp' as (mp' & Hmp').
  exists obs', alts', ch', (map (fun col => map (fun s => nth (snd s) col 0) S0) cols), mp'.
  split; [exact Bg|]. split; [unfold int_col; rewrite (Ig _ _ Ia); reflexivity|].
  split; [unfold int_col; rewrite (Ig _ _ Ic); reflexivity|]. split; [exact Hd'|].
  split; [apply map_length|]. split; [exact Hmp'|]. intros D D'.
  assert (Lao : length alts = length obs) by lia.
  assert (Lco : length ch = length obs) by lia. pose proof (boot_copies obs alts ch resampled Lao Lco Hkeep) as HC. fold S0 obs' alts' ch' src in HC.
  assert (HK : (0 < length cols)%nat).
  { pose proof (C07_design_matrix_content _ _ _ _ _ _ _ Hwf Ha Hd) as HF. 
    destruct cols as [|c cols]; [|cbn; lia]. exfalso. clear -Hd. unfold create_design_matrix in Hd.
    destruct (negb _); [discriminate|]. destruct (negb _); [discriminate|].
    apply bind_ok in Hd. destruct Hd as (? & _ & Hd). apply bind_ok in Hd. destruct Hd as (? & _ & Hd).
    apply bind_ok in Hd. destruct Hd as (? & _ & Hd). apply bind_ok in Hd. destruct Hd as (? & _ & Hd).
    destruct (concat _) as [|y l]; [discriminate|]. discriminate. }
  assert (HX : forall r q, (r < length obs')%nat -> (q < length cols)%nat ->
     design_of (map (fun col => map (fun s => nth (snd s) col 0) S0) cols) r q = design_of cols (src r) q).
  { intros r q Hr Hq. unfold obs' in Hr. rewrite map_length in Hr. unfold design_of.
    rewrite (nth_map_lt _ _ _ []) by exact Hq. rewrite (nth_map_lt _ _ _ (0%Z, 0%nat)) by exact Hr. reflexivity. }
  assert (HW : weights_add_up (mkLong obs alts (Some ch) None) (mkLong obs' alts' (Some ch') None) src
                 (draw_weights obs resampled w) w').
  { apply boot_weights. intros r Hr. apply Hw. rewrite Rg. exact Hr. }
  unfold D, D'. rewrite map_length. split.
  - exact (proj1 (copies_cols _ _ None None mp mp' src (length cols) (design_of cols)
       (design_of (map (fun col => map (fun s => nth (snd s) col 0) S0) cols)) (draw_weights obs resampled w) w' ridge
       Hmp Hmp' HK HC)).
  - intros Hk theta Hth.
    exact (C38_frequency_weights k _ _ None None mp mp' src (length cols) (design_of cols) _
      (draw_weights obs resampled w) w' ridge theta Hmp Hmp' HK HC HX HW Hk Hth).
Qed.

(** Without the condition on the alternatives the design matrix of a bootstrap table
    need not exist: here the sampler draws observation 1 twice, alternative 30 is only
    available in observation 2, and the specification names alternative 30. *)
Definition exl_frame : frame :=
  mkFrame 5 [("obs", [1; 1; 2; 2; 2]%Z); ("alt", [10; 20; 10; 20; 30]%Z); ("choice", [1; 0; 1; 0; 0]%Z)]%string
    [("x", [2; 3; 5; 7; 11])]%string.
Definition exl_spec : specification := [("x", SList [Group [GAlt 10%Z; GAlt 20%Z]; One 30%Z])]%string.

Theorem C111_refuted_lost_alternative :
  exists rng empty size ids gd g cols labels,
    create_cross_sectional_bootstrap_samples [1; 1; 2; 2; 2]%Z [10; 20; 10; 20; 30]%Z [1; 0; 1; 0; 0]%Z 1
      SeedNone rng empty = Ok (size, ids) /\
    create_deepcopied_groupby_dict exl_frame "obs" = Ok gd /\
    create_bootstrap_dataframe exl_frame "obs" (map (ids 0%nat) (seq 0 size)) gd "boot" = Ok g /\
    create_design_matrix exl_frame exl_spec "alt" None = Ok (cols, labels) /\
    create_design_matrix g exl_spec "alt" None = Err ValueError.
Proof.
  exists (fun _ _ => 0%nat), (fun _ _ => 0%Z). eexists. eexists. eexists. eexists. eexists. eexists.
  split; [reflexivity|]. split; [reflexivity|]. split; [reflexivity|]. split; reflexivity.
Qed.

(** ** Concrete case: observation 7 drawn twice, observation 3 once. *)
Definition exw_frame : frame :=
  mkFrame 5 [("obs", [3; 3; 7; 7; 7]%Z); ("alt", [10; 20; 10; 20; 30]%Z); ("choice", [1; 0; 0; 0; 1]%Z)]%string
    [("x", [2; 3; 5; 7; 11])]%string.

Example ex_boot_weights :
  well_formed exw_frame /\ has_col exw_frame "boot" = false /\
  keeps_every_alternative [3; 3; 7; 7; 7]%Z [10; 20; 10; 20; 30]%Z [7; 3; 7]%Z /\
  (exists gd g cols labels,
     create_deepcopied_groupby_dict exw_frame "obs" = Ok gd /\
     create_bootstrap_dataframe exw_frame "obs" [7; 3; 7]%Z gd "boot" = Ok g /\
     f_rows g = 8%nat /\
     create_design_matrix exw_frame exl_spec "alt" None = Ok (cols, labels) /\ length cols = 2%nat) /\
  map (fun i => times_drawn (nth i [3; 3; 7; 7; 7]%Z 0%Z) [7; 3; 7]%Z) [0; 2]%nat = [0 + (1 + (0 + 0)); 1 + (0 + (1 + 0))].
Proof.
  split; [|split; [reflexivity|split; [|split]]].
  - split; intros c l H; cbn in H;
      repeat match type of H with context [if ?b then _ else _] => destruct b end;
      try discriminate; injection H as <-; reflexivity.
  - intros i Hi. exists i. cbn in Hi. split; [exact Hi|]. split; [reflexivity|].
    do 5 (destruct i as [|i]; [cbn; auto|]). lia.
  - do 4 eexists. repeat (split; [reflexivity|]). reflexivity.
  - reflexivity.
Qed.

Print Assumptions C111_design_of_the_bootstrap_table.
Print Assumptions C111_bootstrap_table_is_weighting.
Print Assumptions C111_refuted_lost_alternative.
