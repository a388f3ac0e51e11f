(** Properties C05-C09: validators and design matrices. *)
From Coq Require Import String ZArith List Reals Lra Lia Arith Bool Permutation.
From Verif Require Import Res Vec Ids Mappings MappingFacts SpecLogit ChoiceFacts LongData ProbFacts Frame
  ChoiceTools.
Import ListNotations.

(** ** C05: contiguity *)

(** The rows of each observation form one block. *)
Definition contiguous (ids : list Z) : Prop :=
  forall i j k, (i < j)%nat -> (j < k)%nat -> (k < length ids)%nat ->
    nth i ids 0%Z = nth k ids 0%Z -> nth j ids 0%Z = nth i ids 0%Z.

Lemma contiguity_check ids :
  ensure_contiguity_in_observation_rows ids = Ok tt <->
  forall i, (S i < length ids)%nat -> (nth i ids 0 <= nth (S i) ids 0)%Z.
Proof.
  unfold ensure_contiguity_in_observation_rows.
  assert (E : forallb (fun p => (0 <=? snd p - fst p)%Z) (combine (removelast ids) (tl ids)) = true <->
              forall i, (S i < length ids)%nat -> (nth i ids 0 <= nth (S i) ids 0)%Z).
  { induction ids as [|a r IH].
    - simpl. split; [intros _ i Hi; lia|reflexivity].
    - destruct r as [|b r].
      + simpl. split; [intros _ i Hi; lia|reflexivity].
      + change (removelast (a :: b :: r)) with (a :: removelast (b :: r)).
        change (tl (a :: b :: r)) with (b :: tl (b :: r)).
        cbn [combine forallb fst snd]. rewrite andb_true_iff, IH, Z.leb_le. split.
        * intros [H0 H] [|i] Hi; [simpl; lia|]. apply (H i). simpl in *. lia.
        * intros H. split; [specialize (H 0%nat); simpl in H; lia|].
          intros i Hi. apply (H (S i)). simpl in *. lia. }
  destruct (forallb _ _).
  - split; [intros _; apply E; reflexivity|reflexivity].
  - split; [discriminate|]. intros H. apply E in H. discriminate.
Qed.

Theorem C05_accepts_only_contiguous ids :
  ensure_contiguity_in_observation_rows ids = Ok tt -> contiguous ids.
Proof.
  intros H. rewrite contiguity_check in H.
  assert (M : forall i j, (i <= j)%nat -> (j < length ids)%nat -> (nth i ids 0 <= nth j ids 0)%Z).
  { intros i j Hij. induction Hij as [|j Hij IH]; intros Hj; [lia|].
    specialize (H j Hj). assert (nth i ids 0 <= nth j ids 0)%Z by (apply IH; lia). lia. }
  intros i j k Hij Hjk Hk E.
  assert (nth i ids 0 <= nth j ids 0)%Z by (apply M; lia).
  assert (nth j ids 0 <= nth k ids 0)%Z by (apply M; lia). lia.
Qed.

(** What is accepted exactly. *)
Theorem C05_accepts_exactly_nondecreasing ids :
  ensure_contiguity_in_observation_rows ids = Ok tt <->
  forall i j, (i <= j)%nat -> (j < length ids)%nat -> (nth i ids 0 <= nth j ids 0)%Z.
Proof.
  rewrite contiguity_check. split; [|intros H i Hi; apply H; lia].
  intros H i j Hij. induction Hij as [|j Hij IH]; intros Hj; [lia|].
  specialize (H j Hj). assert (nth i ids 0 <= nth j ids 0)%Z by (apply IH; lia). lia.
Qed.

(** The second half of the property is false: contiguous but decreasing ids are
    rejected. *)
Theorem C05_refuted_rejects_contiguous_column :
  exists ids, contiguous ids /\ ensure_contiguity_in_observation_rows ids = Err ValueError.
Proof.
  exists [2; 2; 1]%Z. split; [|reflexivity].
  intros i j k Hij Hjk Hk E. simpl in Hk.
  assert (i = 0 /\ j = 1 /\ k = 2)%nat as (-> & -> & ->) by lia. reflexivity.
Qed.

Example ex_contiguity_accepts : ensure_contiguity_in_observation_rows [3; 3; 7; 7; 7]%Z = Ok tt.
Proof. reflexivity. Qed.

(** ** C06: one choice per observation *)

Lemma sum_Z_R c :
  IZR (fold_right Z.add 0%Z c) = sumn (length c) (fun i => IZR (nth i c 0%Z)).
Proof.
  induction c as [|a c IH] using rev_ind; [reflexivity|].
  rewrite app_length, Nat.add_1_r. cbn [sumn].
  rewrite (sumn_ext _ _ (fun i => IZR (nth i c 0%Z))).
  2: { intros i Hi. rewrite app_nth1 by exact Hi. reflexivity. }
  rewrite <- IH, app_nth2, Nat.sub_diag by lia. cbn [nth].
  assert (E : fold_right Z.add 0%Z (c ++ [a]) = (fold_right Z.add 0 c + a)%Z).
  { clear IH. induction c as [|b c IHc]; simpl; [lia|]. rewrite IHc. lia. }
  rewrite E. apply plus_IZR.
Qed.

Lemma num_chosen_ok obs ch :
  ensure_num_chosen_alts_equals_num_obs obs ch = Ok tt <->
  fold_right Z.add 0%Z ch = Z.of_nat (length (first_seen obs)).
Proof.
  unfold ensure_num_chosen_alts_equals_num_obs.
  rewrite (Permutation_length (np_unique_perm_first_seen obs)).
  destruct (Z.ltb_spec (fold_right Z.add 0%Z ch) (Z.of_nat (length (first_seen obs)))).
  - split; [discriminate|lia].
  - destruct (Z.ltb_spec (Z.of_nat (length (first_seen obs))) (fold_right Z.add 0%Z ch)).
    + split; [discriminate|lia].
    + split; [lia|reflexivity].
Qed.

(** Under the further condition that choices are 0/1 and no observation has two
    chosen rows, acceptance means exactly one chosen row per observation. *)
Theorem C06_accepted_and_at_most_one obs alts ch mix :
  length ch = length obs ->
  (forall i, (i < length obs)%nat -> nth i ch 0%Z = 0%Z \/ nth i ch 0%Z = 1%Z) ->
  (forall i i', (i < length obs)%nat -> (i' < length obs)%nat -> nth i obs 0%Z = nth i' obs 0%Z ->
     nth i ch 0%Z = 1%Z -> nth i' ch 0%Z = 1%Z -> i = i') ->
  ensure_num_chosen_alts_equals_num_obs obs ch = Ok tt ->
  exactly_one_choice (mkLong obs alts (Some ch) mix).
Proof.
  intros HL H01 Hmost Hok. apply num_chosen_ok in Hok.
  apply (f_equal IZR) in Hok. rewrite sum_Z_R, HL, <- INR_IZR_INZ in Hok.
  rewrite sumn_by_ids, suml_seq in Hok.
  set (y := fun i => IZR (nth i ch 0%Z)) in *. set (n := length (first_seen obs)) in *.
  set (s := fun j => id_sum obs (nth j (first_seen obs) 0%Z) y).
  assert (Hs : forall j, (j < n)%nat -> (s j <= 1)%R).
  { intros j Hj. unfold s.
    destruct (in_dec Z.eq_dec 1%Z (map (fun i => if (nth i obs 0 =? nth j (first_seen obs) 0)%Z then nth i ch 0%Z else 0%Z) (seq 0 (length obs)))) as [Hin|Hout].
    - apply in_map_iff in Hin. destruct Hin as (i & Ei & Hi). apply in_seq in Hi.
      destruct (Z.eqb_spec (nth i obs 0%Z) (nth j (first_seen obs) 0%Z)) as [E|]; [|discriminate].
      rewrite (id_sum_single obs _ y i); [unfold y; rewrite Ei; lra|lia|exact E|].
      intros i' Hi' E' Hne. unfold y. destruct (H01 i' Hi') as [->|H1]; [reflexivity|].
      exfalso. apply Hne. apply Hmost; try assumption; [lia|congruence].
    - replace (id_sum obs (nth j (first_seen obs) 0%Z) y) with 0%R; [lra|]. symmetry.
      unfold id_sum. apply sumn_eq0. intros i Hi.
      destruct (Z.eqb_spec (nth i obs 0%Z) (nth j (first_seen obs) 0%Z)) as [E|]; [|reflexivity].
      unfold y. destruct (H01 i Hi) as [->|H1]; [reflexivity|]. exfalso. apply Hout.
      apply in_map_iff. exists i. rewrite E, Z.eqb_refl. split; [exact H1|apply in_seq; lia]. }
  assert (Hz : sumn n (fun j => (1 - s j)%R) = 0%R).
  { rewrite sumn_minus, sumn_const. unfold s. rewrite Hok. fold n. lra. }
  exists ch. split; [reflexivity|]. split; [exact H01|]. intros o Ho. cbn [obs_ids] in *.
  assert (Hof : In o (first_seen obs)) by (apply first_seen_In; exact Ho).
  set (j := index_of o (first_seen obs)).
  assert (Hj : (j < n)%nat) by (apply index_of_lt; exact Hof).
  assert (Ej : nth j (first_seen obs) 0%Z = o) by (apply nth_index_of; exact Hof).
  pose proof (sumn_eq0_inv n _ (fun j Hj => Rge_le _ _ (Rge_minus _ _ (Rle_ge _ _ (Hs j Hj)))) Hz j Hj) as S1.
  cbv beta in S1. unfold s in S1. rewrite Ej in S1.
  destruct (in_dec Z.eq_dec 1%Z (map (fun i => if (nth i obs 0 =? o)%Z then nth i ch 0%Z else 0%Z) (seq 0 (length obs)))) as [Hin|Hout].
  - apply in_map_iff in Hin. destruct Hin as (i & Ei & Hi). apply in_seq in Hi.
    destruct (Z.eqb_spec (nth i obs 0%Z) o) as [E|]; [|discriminate].
    exists i. split; [lia|]. split; [exact E|]. split; [exact Ei|].
    intros i' Hi' E' C'. apply Hmost; try assumption; [lia|congruence].
  - exfalso. replace (id_sum obs o y) with 0%R in S1; [lra|]. symmetry.
    unfold id_sum. apply sumn_eq0. intros i Hi.
    destruct (Z.eqb_spec (nth i obs 0%Z) o) as [E|]; [|reflexivity].
    unfold y. destruct (H01 i Hi) as [->|H1]; [reflexivity|]. exfalso. apply Hout.
    apply in_map_iff. exists i. rewrite E, Z.eqb_refl. split; [exact H1|apply in_seq; lia].
Qed.

(** Conversely well-formed choices are accepted. *)
Theorem C06_one_choice_is_accepted obs alts ch mix :
  length ch = length obs ->
  exactly_one_choice (mkLong obs alts (Some ch) mix) ->
  ensure_num_chosen_alts_equals_num_obs obs ch = Ok tt.
Proof.
  intros HL Hone. apply num_chosen_ok. apply eq_IZR. rewrite sum_Z_R, HL, <- INR_IZR_INZ.
  destruct (one_choice_of _ Hone) as [_ H1]. cbn [obs_ids choice_vec choices] in H1.
  rewrite sumn_by_ids, suml_seq.
  rewrite (sumn_ext _ _ (fun _ => 1%R)); [rewrite sumn_const; ring|].
  intros j Hj. assert (Hin : In (nth j (first_seen obs) 0%Z) obs) by (apply first_seen_In, nth_In; exact Hj).
  destruct (In_row _ _ Hin) as (i & Hi & E). rewrite <- E, <- osum_id_sum by exact Hi. apply H1. exact Hi.
Qed.

(** Without it the property is false: only the total is compared. *)
Theorem C06_refuted_total_only :
  exists obs ch, length ch = length obs /\
    ensure_num_chosen_alts_equals_num_obs obs ch = Ok tt /\
    (forall i, (i < length obs)%nat -> nth i ch 0%Z = 0%Z \/ nth i ch 0%Z = 1%Z) /\
    forall alts mix, ~ exactly_one_choice (mkLong obs alts (Some ch) mix).
Proof.
  exists [1; 1; 2; 2]%Z, [1; 1; 0; 0]%Z. split; [reflexivity|]. split; [reflexivity|]. split.
  - intros i Hi. simpl in Hi. do 4 (destruct i as [|i]; [simpl; auto|]). lia.
  - intros alts mix (c & Ec & _ & Hex). injection Ec as <-.
    destruct (Hex 2%Z) as (i & Hi & E & C & _); [simpl; auto|]. simpl in Hi, E, C.
    do 4 (destruct i as [|i]; [simpl in *; discriminate|]). lia.
Qed.

(** ** C09: the specification validator is exact *)

(** What the documentation allows. *)
Inductive valid_item (alts : list Z) : group_item -> Prop :=
| valid_item_alt a : In a alts -> valid_item alts (GAlt a).
Inductive valid_group (alts : list Z) : spec_group -> Prop :=
| valid_one a : In a alts -> valid_group alts (One a)
| valid_list items : (forall i, In i items -> valid_item alts i) -> valid_group alts (Group items).
Inductive valid_value (alts : list Z) : spec_value -> Prop :=
| valid_same : valid_value alts (SStr "all_same")
| valid_diff : valid_value alts (SStr "all_diff")
| valid_groups l : (forall g, In g l -> valid_group alts g) -> valid_value alts (SList l).

Lemma check_group_iff alts g : check_group alts g = Ok tt <-> valid_group alts g.
Proof.
  destruct g as [a| |items]; simpl.
  - destruct (zmem a alts) eqn:E.
    + apply zmem_In in E. split; [intros _; constructor; exact E|reflexivity].
    + split; [discriminate|]. intros H. inversion H; subst. apply zmem_In in H1. congruence.
  - split; [discriminate|intros H; inversion H].
  - rewrite all_checks_ok, Forall_map, Forall_forall. split.
    + intros H. constructor. intros i Hi. specialize (H i Hi). destruct i as [a| |]; try discriminate.
      constructor. apply zmem_In. destruct (zmem a alts); [reflexivity|discriminate].
    + intros H i Hi. inversion H; subst. specialize (H1 i Hi). inversion H1; subst.
      apply zmem_In in H0. rewrite H0. reflexivity.
Qed.

Lemma check_spec_value_iff alts v : check_spec_value alts v = Ok tt <-> valid_value alts v.
Proof.
  destruct v as [s|l|]; simpl.
  - destruct (String.eqb_spec s "all_same") as [->|N1]; simpl; [split; [constructor|reflexivity]|].
    destruct (String.eqb_spec s "all_diff") as [->|N2]; simpl; [split; [constructor|reflexivity]|].
    split; [discriminate|]. intros H. inversion H; subst; congruence.
  - rewrite all_checks_ok, Forall_map, Forall_forall. split.
    + intros H. constructor. intros g Hg. apply check_group_iff. apply H. exact Hg.
    + intros H g Hg. inversion H; subst. apply check_group_iff. auto.
  - split; [discriminate|intros H; inversion H].
Qed.

Theorem C09_specification_validator_exact spec alts :
  check_type_and_values_of_specification_dict spec alts = Ok tt <->
  (forall key v, In (key, v) spec -> valid_value alts v).
Proof.
  unfold check_type_and_values_of_specification_dict. rewrite all_checks_ok, Forall_map, Forall_forall. split.
  - intros H key v Hin. apply check_spec_value_iff. apply (H (key, v)). exact Hin.
  - intros H [key v] Hin. apply check_spec_value_iff. apply (H key). exact Hin.
Qed.

(** When it rejects, the kind of error: TypeError exactly when the first invalid
    value is neither a string nor a list, ValueError otherwise. *)
Theorem C09_error_kind spec alts e :
  check_type_and_values_of_specification_dict spec alts = Err e ->
  exists pre key v post, spec = (pre ++ (key, v) :: post)%list /\
    (forall k u, In (k, u) pre -> valid_value alts u) /\ ~ valid_value alts v /\
    e = match v with SOther => TypeError | _ => ValueError end.
Proof.
  unfold check_type_and_values_of_specification_dict. induction spec as [|[key v] r IH]; [discriminate|].
  simpl. destruct (check_spec_value alts v) as [[]|e'] eqn:Ev; simpl; intros H.
  - destruct (IH H) as (pre & k2 & v2 & post & -> & Hp & Hv & He).
    exists ((key, v) :: pre), k2, v2, post. split; [reflexivity|]. split; [|auto].
    intros k u [E|Hin]; [injection E as <- <-; apply check_spec_value_iff; exact Ev|eauto].
  - injection H as ->. exists [], key, v, r. split; [reflexivity|]. split; [intros k u []|]. split.
    + intros Hv. apply check_spec_value_iff in Hv. congruence.
    + assert (G : forall l x, all_checks (map (check_group alts) l) = Err x -> x = ValueError).
      { induction l as [|g l IHl]; simpl; [discriminate|]. intros x Hx.
        destruct (check_group alts g) as [[]|x'] eqn:Eg; simpl in Hx; [auto|].
        injection Hx as <-. destruct g as [a| |items]; simpl in Eg.
        - destruct (zmem a alts); congruence.
        - congruence.
        - clear -Eg. induction items as [|i items IHi]; simpl in Eg; [discriminate|].
          destruct i as [a| |]; simpl in Eg; try congruence.
          destruct (zmem a alts); simpl in Eg; [auto|congruence]. }
      destruct v as [s|l|]; simpl in Ev.
      * destruct (String.eqb s "all_same" || String.eqb s "all_diff")%bool; congruence.
      * eapply G; eauto.
      * congruence.
Qed.

Example ex_valid_spec :
  check_type_and_values_of_specification_dict
    [("intercept"%string, SList [One 1; Group [GAlt 2; GAlt 3]]%Z); ("cost"%string, SStr "all_same");
     ("time"%string, SStr "all_diff")] [1; 2; 3]%Z = Ok tt.
Proof. reflexivity. Qed.

(** ** C07: content of the design matrix *)

(** The columns a specification asks for, in order: which variable, and which
    alternatives the column applies to. *)
Definition wanted_of (alts : list Z) (var : string) (v : spec_value) : list (string * (Z -> Prop)) :=
  match v with
  | SStr s => if String.eqb s "all_same" then [(var, fun _ => True)]
              else map (fun a => (var, fun x => x = a)) alts
  | SList l => map (fun g => (var, fun x => match g with
                                           | One a => x = a
                                           | Group items => In (GAlt x) items
                                           | OneJunk => False
                                           end)) l
  | SOther => []
  end.
Definition wanted_columns (alts : list Z) (spec : specification) : list (string * (Z -> Prop)) :=
  flat_map (fun kv => wanted_of alts (fst kv) (snd kv)) spec.

(** A column [c] holds, for every row, the variable's value if the row's
    alternative is in the column's set, and 0 otherwise. *)
Definition column_holds (f : frame) (alts : list Z) (w : string * (Z -> Prop)) (c : list R) : Prop :=
  exists vals, num_col f (fst w) = Ok vals /\ length c = length alts /\
    forall i, (i < length alts)%nat ->
      (snd w (nth i alts 0%Z) -> nth i c 0%R = nth i vals 0%R) /\
      (~ snd w (nth i alts 0%Z) -> nth i c 0%R = 0%R).

Lemma num_col_length f c vals : well_formed f -> num_col f c = Ok vals -> length vals = f_rows f.
Proof.
  intros [H1 H2]. unfold num_col. destruct (assoc c (f_reals f)) as [l|] eqn:E.
  - intros H. injection H as <-. eauto.
  - destruct (assoc c (f_ints f)) as [l|] eqn:E2; [|discriminate]. intros H. injection H as <-.
    rewrite map_length. eauto.
Qed.

Lemma mask_times_length m v : length (mask_times m v) = Nat.min (length m) (length v).
Proof. unfold mask_times. rewrite map_length. apply combine_length. Qed.

Lemma mask_times_nth m v i :
  (i < length m)%nat -> (i < length v)%nat ->
  nth i (mask_times m v) 0%R = if nth i m false then nth i v 0%R else 0%R.
Proof.
  intros Hm Hv. unfold mask_times.
  rewrite (nth_indep _ 0%R ((if fst (false, 0%R) : bool then 1 else 0) * snd (false, 0%R))%R).
  2: { rewrite map_length, combine_length. lia. }
  rewrite (map_nth (fun mv => ((if fst mv : bool then 1 else 0) * snd mv)%R) (combine m v) (false, 0%R) i).
  revert v i Hm Hv. induction m as [|a m IH]; intros v i Hm Hv; [simpl in Hm; lia|].
  destruct v as [|b v]; [simpl in Hv; lia|]. destruct i as [|i]; simpl.
  - destruct a; ring.
  - apply IH; simpl in *; lia.
Qed.

Lemma mask_column f alts var vals (P : Z -> Prop) (p : Z -> bool) :
  num_col f var = Ok vals -> length vals = length alts ->
  (forall x, p x = true <-> P x) ->
  column_holds f alts (var, P) (mask_times (map p alts) vals).
Proof.
  intros Hv HL Hp. exists vals. split; [exact Hv|]. split.
  - rewrite mask_times_length, map_length. lia.
  - intros i Hi. rewrite mask_times_nth by (rewrite ?map_length; lia).
    rewrite (nth_indep _ false (p 0%Z)) by (rewrite map_length; exact Hi). rewrite map_nth.
    cbn [snd]. rewrite <- Hp. destruct (p (nth i alts 0%Z)); split; intros H; try reflexivity; try discriminate.
    exfalso. apply H. reflexivity.
Qed.

Lemma columns_of_holds f alts var vals v :
  num_col f var = Ok vals -> length vals = length alts -> valid_value (np_unique alts) v ->
  Forall2 (fun w c => column_holds f alts w c) (wanted_of (np_unique alts) var v)
    (map fst (columns_of alts (np_unique alts) var vals v)).
Proof.
  intros Hv HL Hval. destruct Hval as [| |l Hl].
  - simpl. constructor; [|constructor]. exists vals. split; [exact Hv|]. split; [exact HL|].
    intros i Hi. cbn [snd]. split; [reflexivity|tauto].
  - simpl. rewrite map_map. simpl.
    induction (np_unique alts) as [|a u IH]; simpl; constructor; [|exact IH].
    apply mask_column; try assumption. intros x. apply Z.eqb_eq.
  - simpl. rewrite map_map. induction l as [|g l IH]; simpl; constructor.
    + assert (Hg : valid_group (np_unique alts) g) by (apply Hl; left; reflexivity).
      destruct Hg as [a Ha|items Hi]; cbn [fst].
      * apply mask_column; try assumption. intros x. apply Z.eqb_eq.
      * apply mask_column; try assumption. intros x. rewrite existsb_exists. split.
        -- intros (i & Hin & E). destruct i as [b| |]; simpl in E; try discriminate.
           apply Z.eqb_eq in E. subst. exact Hin.
        -- intros Hin. exists (GAlt x). split; [exact Hin|apply Z.eqb_refl].
    + apply IH. intros g' Hg'. apply Hl. right. exact Hg'.
Qed.

Lemma Forall2_weaken {A B} (P Q : A -> B -> Prop) l m :
  (forall a b, P a b -> Q a b) -> Forall2 P l m -> Forall2 Q l m.
Proof. intros H HF. induction HF; constructor; auto. Qed.

Lemma Forall2_len {A B} {P : A -> B -> Prop} {l m} : Forall2 P l m -> length l = length m.
Proof. intros HF. induction HF; simpl; auto. Qed.

Lemma create_design_inv f spec alt_col names cols labels :
  create_design_matrix f spec alt_col names = Ok (cols, labels) ->
  exists alts parts,
    int_col f alt_col = Ok alts /\
    check_type_and_values_of_specification_dict spec (np_unique alts) = Ok tt /\
    (forall n, names = Some n ->
       check_keys_and_values_of_name_dictionary n spec (length (np_unique alts)) = Ok tt) /\
    Forall2 (fun kv p => exists vals, num_col f (fst kv) = Ok vals /\
               p = columns_of alts (np_unique alts) (fst kv) vals (snd kv)) spec parts /\
    cols = map fst (concat parts) /\
    labels = match names with Some n => names_in_order n | None => map snd (concat parts) end.
Proof.
  unfold create_design_matrix. intros H.
  destruct (negb (has_col f alt_col)); [discriminate|].
  destruct (negb (forallb _ spec)); [discriminate|].
  apply bind_ok in H. destruct H as (alts & Ha & H).
  apply bind_ok in H. destruct H as ([] & Hs & H).
  apply bind_ok in H. destruct H as ([] & Hn & H).
  apply bind_ok in H. destruct H as (parts & Hp & H).
  exists alts, parts. split; [exact Ha|]. split; [exact Hs|]. split.
  { intros n ->. exact Hn. }
  split.
  { apply mapM_ok in Hp. eapply Forall2_weaken; [|exact Hp].
    intros kv p Hkv. apply bind_ok in Hkv. destruct Hkv as (vals & Hv & E). injection E as <-. eauto. }
  destruct (concat parts) as [|x l]; [discriminate|]. injection H as <- <-. auto.
Qed.

Theorem C07_design_matrix_content f spec alt_col names alts cols labels :
  well_formed f -> int_col f alt_col = Ok alts ->
  create_design_matrix f spec alt_col names = Ok (cols, labels) ->
  Forall2 (fun w c => column_holds f alts w c) (wanted_columns (np_unique alts) spec) cols.
Proof.
  intros Hwf Ha H. destruct (create_design_inv _ _ _ _ _ _ H) as (alts' & parts & Ha' & Hs & _ & Hp & -> & _).
  rewrite Ha in Ha'. injection Ha' as <-.
  assert (HL : length alts = f_rows f).
  { unfold int_col in Ha. destruct (assoc alt_col (f_ints f)) as [l|] eqn:E; [|discriminate].
    injection Ha as <-. destruct Hwf as [H1 _]. eauto. }
  assert (Hval : forall kv, In kv spec -> valid_value (np_unique alts) (snd kv)).
  { intros [k v] Hin. apply (proj1 (C09_specification_validator_exact spec (np_unique alts)) Hs k). exact Hin. }
  clear H Hs names labels Ha. unfold wanted_columns.
  induction Hp as [|kv p spec parts (vals & Hv & ->) _ IH]; simpl; [constructor|].
  rewrite map_app. apply Forall2_app.
  - apply columns_of_holds; [exact Hv|rewrite HL; eapply num_col_length; eauto|apply Hval; left; reflexivity].
  - apply IH. intros kv' Hin. apply Hval. right. exact Hin.
Qed.

(** The number of columns depends only on the specification and the set of
    alternatives. *)
Theorem C07_number_of_columns f f' spec alt_col alts alts' names names' cols cols' labels labels' :
  well_formed f -> well_formed f' ->
  int_col f alt_col = Ok alts -> int_col f' alt_col = Ok alts' ->
  (forall x, In x alts <-> In x alts') ->
  create_design_matrix f spec alt_col names = Ok (cols, labels) ->
  create_design_matrix f' spec alt_col names' = Ok (cols', labels') ->
  length cols = length cols'.
Proof.
  intros W W' A A' E H H'.
  pose proof (Forall2_len (C07_design_matrix_content _ _ _ _ _ _ _ W A H)) as L.
  pose proof (Forall2_len (C07_design_matrix_content _ _ _ _ _ _ _ W' A' H')) as L'.
  rewrite <- L, <- L'. f_equal. f_equal.
  apply strongly_lt_unique; try apply np_unique_sorted. intros x. rewrite !np_unique_In. apply E.
Qed.

(** ** C08: names *)

(** The user's names for a variable's columns. *)
Definition user_names (names : name_dict) (var : string) : list label :=
  match assoc var names with
  | Some (NStr s) => [LUser (NE s)]
  | Some (NList l) => map LUser l
  | _ => []
  end.

Lemma assoc_In {A} k (l : list (string * A)) v : assoc k l = Some v -> In (k, v) l.
Proof.
  induction l as [|[k' a] r IH]; simpl; [discriminate|]. destruct (String.eqb_spec k k') as [->|N].
  - intros H. injection H as ->. left. reflexivity.
  - intros H. right. auto.
Qed.

Lemma assoc_NoDup {A} k (l : list (string * A)) v : NoDup (map fst l) -> In (k, v) l -> assoc k l = Some v.
Proof.
  induction l as [|[k' a] r IH]; simpl; [tauto|]. intros Hn [E|Hin].
  - injection E as -> ->. rewrite String.eqb_refl. reflexivity.
  - inversion Hn; subst. destruct (String.eqb_spec k k') as [->|N]; [|auto].
    exfalso. apply H1. apply in_map_iff. exists (k', v). auto.
Qed.

(** Number of names = number of columns, for each variable. *)
Lemma names_match names spec n alts kv :
  check_keys_and_values_of_name_dictionary names spec n = Ok tt ->
  NoDup (map fst names) -> NoDup (map fst spec) -> n = length alts ->
  In kv spec -> valid_value alts (snd kv) ->
  length (user_names names (fst kv)) = length (wanted_of alts (fst kv) (snd kv)).
Proof.
  intros Hc Hn Hs -> Hin Hv. unfold check_keys_and_values_of_name_dictionary in Hc.
  destruct (same_keys names spec) eqn:Hk; [|discriminate].
  apply andb_true_iff in Hk. destruct Hk as [_ Hk]. rewrite forallb_forall in Hk. specialize (Hk kv Hin).
  destruct kv as [var v]. cbn [fst snd] in *. unfold user_names.
  destruct (assoc var names) as [nv|] eqn:En; [|discriminate].
  rewrite all_checks_ok, Forall_map, Forall_forall in Hc.
  specialize (Hc (var, nv) (assoc_In _ _ _ En)). unfold check_name in Hc. cbn [fst snd] in Hc.
  rewrite (assoc_NoDup _ _ _ Hs Hin) in Hc.
  destruct Hv as [| |l Hl]; simpl in Hc |- *.
  - destruct nv; try discriminate. reflexivity.
  - destruct nv as [|ns|]; try discriminate. destruct (Nat.eqb_spec (length ns) (length alts)); [|discriminate].
    rewrite !map_length. assumption.
  - destruct nv as [|ns|]; try discriminate.
    destruct (Nat.eqb_spec (length ns) (length l)); [|discriminate]. rewrite !map_length. assumption.
Qed.

(** As many names as columns, whatever the order of the names dictionary. *)
Theorem C08_as_many_names_as_columns f spec alt_col names cols labels :
  well_formed f -> NoDup (map fst names) -> NoDup (map fst spec) ->
  create_design_matrix f spec alt_col (Some names) = Ok (cols, labels) ->
  length labels = length cols.
Proof.
  intros Hwf Hn Hs H.
  destruct (create_design_inv _ _ _ _ _ _ H) as (alts & parts & Ha & Hc & Hnm & _ & _ & El).
  pose proof (C07_design_matrix_content _ _ _ _ _ _ _ Hwf Ha H) as Hcols.
  apply Forall2_len in Hcols. rewrite <- Hcols. subst labels.
  specialize (Hnm names eq_refl).
  assert (Hval : forall kv, In kv spec -> valid_value (np_unique alts) (snd kv)).
  { intros [k v] Hin. apply (proj1 (C09_specification_validator_exact spec (np_unique alts)) Hc k). exact Hin. }
  (* both sides are sums over the same set of keys *)
  assert (Hperm : Permutation (map fst names) (map fst spec)).
  { apply NoDup_Permutation; try assumption. intros x.
    unfold check_keys_and_values_of_name_dictionary in Hnm.
    destruct (same_keys names spec) eqn:Hk; [|discriminate]. apply andb_true_iff in Hk. destruct Hk as [K1 K2].
    rewrite forallb_forall in K1, K2. split; intros Hx; apply in_map_iff in Hx; destruct Hx as ([k v] & <- & Hin).
    - specialize (K1 _ Hin). cbn [fst] in *. destruct (assoc k spec) eqn:E; [|discriminate].
      apply in_map_iff. exists (k, s). split; [reflexivity|]. apply assoc_In. exact E.
    - specialize (K2 _ Hin). cbn [fst] in *. destruct (assoc k names) eqn:E; [|discriminate].
      apply in_map_iff. exists (k, n). split; [reflexivity|]. apply assoc_In. exact E. }
  assert (L1 : length (names_in_order names) = length (flat_map (user_names names) (map fst names))).
  { f_equal. unfold names_in_order. rewrite flat_map_concat_map, flat_map_concat_map, map_map. f_equal.
    apply map_ext_in. intros [k v] Hin. cbn [fst snd]. unfold user_names.
    rewrite (assoc_NoDup _ _ _ Hn Hin). destruct v; try reflexivity.
    (* NOther is rejected *)
    exfalso. unfold check_keys_and_values_of_name_dictionary in Hnm. destruct (same_keys names spec); [|discriminate].
    rewrite all_checks_ok, Forall_map, Forall_forall in Hnm. specialize (Hnm _ Hin). unfold check_name in Hnm.
    cbn [fst snd] in Hnm. destruct (assoc k spec) as [[s| |]|]; try discriminate.
    destruct (String.eqb s "all_same"); discriminate. }
  rewrite L1.
  assert (L2 : length (flat_map (user_names names) (map fst names)) = length (flat_map (user_names names) (map fst spec))).
  { apply Permutation_length. apply Permutation_flat_map. exact Hperm. }
  rewrite L2. unfold wanted_columns.
  clear L1 L2 Hperm Hcols H.
  assert (G : forall l, (forall kv, In kv l -> In kv spec) ->
     length (flat_map (user_names names) (map fst l)) =
     length (flat_map (fun kv => wanted_of (np_unique alts) (fst kv) (snd kv)) l)).
  { induction l as [|kv l IH]; intros Hsub; simpl; [reflexivity|].
    rewrite !app_length, IH by (intros; apply Hsub; right; assumption). f_equal.
    apply (names_match names spec (length (np_unique alts))); auto; try apply Hval; apply Hsub; left; reflexivity. }
  apply G. auto.
Qed.

(** With the names dictionary in specification order, the k-th name is the
    user's name for the k-th column: column and name belong to the same variable
    and have the same position within it. *)
Theorem C08_names_line_up_in_same_order f spec alt_col names alts cols labels :
  well_formed f -> NoDup (map fst spec) ->
  map fst names = map fst spec ->
  int_col f alt_col = Ok alts ->
  create_design_matrix f spec alt_col (Some names) = Ok (cols, labels) ->
  exists groups : list (list (list R) * list label),
    cols = concat (map fst groups) /\ labels = concat (map snd groups) /\
    Forall2 (fun kv g =>
       (* the columns of this variable *)
       Forall2 (fun w c => column_holds f alts w c) (wanted_of (np_unique alts) (fst kv) (snd kv)) (fst g) /\
       (* named by the user's entry for this variable, one name per column *)
       snd g = user_names names (fst kv) /\ length (snd g) = length (fst g)) spec groups.
Proof.
  intros Hwf Hs Hord Ha H.
  assert (Hn : NoDup (map fst names)) by (rewrite Hord; exact Hs).
  destruct (create_design_inv _ _ _ _ _ _ H) as (alts' & parts & Ha' & Hc & Hnm & Hp & Ec & El).
  rewrite Ha in Ha'. injection Ha' as <-. specialize (Hnm names eq_refl).
  assert (Hval : forall kv, In kv spec -> valid_value (np_unique alts) (snd kv)).
  { intros [k v] Hin. apply (proj1 (C09_specification_validator_exact spec (np_unique alts)) Hc k). exact Hin. }
  assert (HL : length alts = f_rows f).
  { unfold int_col in Ha. destruct (assoc alt_col (f_ints f)) as [l|] eqn:E; [|discriminate].
    injection Ha as <-. destruct Hwf as [H1 _]. eauto. }
  exists (map (fun kp => (map fst (snd kp), user_names names (fst (fst kp)))) (combine spec parts)).
  assert (Hlen : length spec = length parts) by (eapply Forall2_len; eauto).
  split; [|split].
  - rewrite map_map. cbn [fst]. rewrite Ec. rewrite concat_map. f_equal.
    clear -Hlen. revert parts Hlen. induction spec as [|kv r IH]; intros [|p parts] Hl; simpl in *; try lia; [reflexivity|].
    f_equal. apply IH. lia.
  - rewrite map_map. cbn [snd]. rewrite El. unfold names_in_order. rewrite flat_map_concat_map. f_equal.
    transitivity (map (user_names names) (map fst names)).
    + rewrite map_map. apply map_ext_in. intros [k v] Hin. cbn [fst snd]. unfold user_names.
      rewrite (assoc_NoDup _ _ _ Hn Hin). destruct v; try reflexivity.
      exfalso. unfold check_keys_and_values_of_name_dictionary in Hnm. destruct (same_keys names spec); [|discriminate].
      rewrite all_checks_ok, Forall_map, Forall_forall in Hnm. specialize (Hnm _ Hin). unfold check_name in Hnm.
      cbn [fst snd] in Hnm. destruct (assoc k spec) as [[s| |]|]; try discriminate.
      destruct (String.eqb s "all_same"); discriminate.
    + rewrite Hord. rewrite map_map. clear -Hlen. revert parts Hlen.
      induction spec as [|kv r IH]; intros [|p parts] Hl; simpl in *; try lia; [reflexivity|].
      f_equal. apply IH. lia.
  - assert (G : forall l ps, (forall kv, In kv l -> In kv spec) ->
      Forall2 (fun kv p => exists vals, num_col f (fst kv) = Ok vals /\
               p = columns_of alts (np_unique alts) (fst kv) vals (snd kv)) l ps ->
      Forall2 (fun kv g => Forall2 (fun w c => column_holds f alts w c) (wanted_of (np_unique alts) (fst kv) (snd kv)) (fst g) /\
       snd g = user_names names (fst kv) /\ length (snd g) = length (fst g)) l
       (map (fun kp => (map fst (snd kp), user_names names (fst (fst kp)))) (combine l ps))).
    { intros l ps Hsub HF. induction HF as [|kv p l ps (vals & Hv & ->) HF IH]; simpl; [constructor|].
      assert (Hin : In kv spec) by (apply Hsub; left; reflexivity).
      constructor; [|apply IH; intros; apply Hsub; right; assumption].
      cbn [fst snd].
      assert (C : Forall2 (fun w c => column_holds f alts w c) (wanted_of (np_unique alts) (fst kv) (snd kv))
                    (map fst (columns_of alts (np_unique alts) (fst kv) vals (snd kv)))).
      { apply columns_of_holds; [exact Hv|rewrite HL; eapply num_col_length; eauto|apply Hval; exact Hin]. }
      split; [exact C|]. split; [reflexivity|]. rewrite <- (Forall2_len C).
      apply (names_match names spec (length (np_unique alts))); auto. }
    apply G; auto.
Qed.

(** In any other order of the names dictionary -- which the validator accepts --
    names are attached to the wrong columns. *)
Definition ex_frame : frame :=
  mkFrame 3 [("alt_id"%string, [1; 2; 1]%Z)] [("cost"%string, [5; 6; 7]%R); ("time"%string, [8; 9; 10]%R)].
Definition ex_spec : specification := [("cost"%string, SStr "all_same"); ("time"%string, SStr "all_same")].
Definition ex_names_swapped : name_dict :=
  [("time"%string, NStr "Travel time"); ("cost"%string, NStr "Travel cost")].

Lemma ex_frame_wf : well_formed ex_frame.
Proof.
  split; intros c l H.
  - simpl in H. destruct (String.eqb c "alt_id"); [injection H as <-; reflexivity|discriminate].
  - simpl in H. destruct (String.eqb c "cost"); [injection H as <-; reflexivity|].
    destruct (String.eqb c "time"); [injection H as <-; reflexivity|discriminate].
Qed.

Theorem C08_refuted_names_misaligned :
  exists f spec names cols labels,
    well_formed f /\ NoDup (map fst spec) /\ NoDup (map fst names) /\
    create_design_matrix f spec "alt_id" (Some names) = Ok (cols, labels) /\
    (* column 0 is the cost column, the user named it "Travel cost", and the name
       reported for column 0 is "Travel time" *)
    nth 0 cols [] = [5; 6; 7]%R /\ assoc "cost" (f_reals f) = Some [5; 6; 7]%R /\
    assoc "cost" names = Some (NStr "Travel cost") /\
    nth 0 labels (LVar "") = LUser (NE "Travel time").
Proof.
  exists ex_frame, ex_spec, ex_names_swapped. eexists. eexists.
  split; [exact ex_frame_wf|]. split.
  { simpl. constructor; [simpl; intros [E|[]]; discriminate|]. constructor; [simpl; tauto|constructor]. }
  split.
  { simpl. constructor; [simpl; intros [E|[]]; discriminate|]. constructor; [simpl; tauto|constructor]. }
  split; [reflexivity|]. repeat split.
Qed.

(** A concrete design matrix: a raw column, one column per alternative, a group. *)
Example ex_design : exists cols labels,
  create_design_matrix ex_frame
    [("cost"%string, SStr "all_diff"); ("time"%string, SList [Group [GAlt 1; GAlt 2]; One 2]%Z)] "alt_id"
    (Some [("cost"%string, NList [NE "cost 1"; NE "cost 2"]); ("time"%string, NList [NE "t"; NE "t2"])])
  = Ok (cols, labels) /\ length cols = 4%nat /\ length labels = 4%nat /\ nth 1 cols [] = [0 * 5; 1 * 6; 0 * 7]%R.
Proof. eexists. eexists. split; [reflexivity|]. repeat split. Qed.

Print Assumptions C05_accepts_only_contiguous.
Print Assumptions C05_accepts_exactly_nondecreasing.
Print Assumptions C05_refuted_rejects_contiguous_column.
Print Assumptions C06_accepted_and_at_most_one.
Print Assumptions C06_one_choice_is_accepted.
Print Assumptions C06_refuted_total_only.
Print Assumptions C07_design_matrix_content.
Print Assumptions C07_number_of_columns.
Print Assumptions C08_as_many_names_as_columns.
Print Assumptions C08_names_line_up_in_same_order.
Print Assumptions C08_refuted_names_misaligned.
Print Assumptions C09_specification_validator_exact.
Print Assumptions C09_error_kind.
