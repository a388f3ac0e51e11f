(** C55: bootstrap samples preserve the strata formed by the chosen alternatives. *)
From Coq Require Import String ZArith List Reals Bool Lia Arith.
From Verif Require Import Res Ids Frame ChoiceTools WideLong PropWideLong BootSampler.
Import ListNotations.

(** ** Specification *)

(** Observation [o] chose alternative [a]: some row says so. *)
Definition chose (obs alts choice : list Z) (o a : Z) : Prop :=
  exists i, (i < length obs)%nat /\ nth i obs 0%Z = o /\ nth i alts 0%Z = a /\ nth i choice 0%Z = 1%Z.

(** Exactly [n] ids satisfy [P]. *)
Definition how_many (P : Z -> Prop) (n : nat) : Prop :=
  exists l, NoDup l /\ (forall o, In o l <-> P o) /\ length l = n.

(** The number of columns [j < tot] whose value is [a]. *)
Definition columns_equal_to (f : nat -> Z) (a : Z) (tot : nat) : nat :=
  length (filter (fun j => (f j =? a)%Z) (seq 0 tot)).

(** Every observation has exactly one chosen row. *)
Definition one_chosen_row (obs choice : list Z) : Prop :=
  forall o, In o obs ->
    exists i, (i < length obs)%nat /\ nth i obs 0%Z = o /\ nth i choice 0%Z = 1%Z /\
      forall k, (k < length obs)%nat -> nth k obs 0%Z = o -> nth k choice 0%Z = 1%Z -> k = i.

(** ** The chosen-alternative dictionary *)

Lemma relate_In obs alts choice a l :
  length alts = length obs -> length choice = length obs ->
  In (a, l) (relate_obs_ids_to_chosen_alts obs alts choice) ->
  In a alts /\ NoDup l /\ (forall o, In o l <-> chose obs alts choice o a).
Proof.
  intros Ha Hc H. unfold relate_obs_ids_to_chosen_alts in H.
  apply in_map_iff in H. destruct H as (a' & E & Hin). injection E as -> <-.
  split; [apply np_unique_In; exact Hin|]. split; [apply np_unique_NoDup|].
  intros o. rewrite np_unique_In. unfold select. rewrite in_map_iff. split.
  - intros ([b o'] & E & H). simpl in E. subst o'. apply filter_In in H. destruct H as [H Hb].
    simpl in Hb. subst b.
    apply In_nth with (d := (false, 0%Z)) in H. destruct H as (i & Hi & E).
    rewrite combine_length, map_length, combine_length in Hi.
    assert (Hi' : (i < length obs)%nat) by lia.
    rewrite combine_nth in E by (rewrite map_length, combine_length; lia).
    injection E as E1 E2. exists i. split; [exact Hi'|]. split; [exact E2|].
    rewrite (nth_map_lt _ _ _ (0%Z, 0%Z)) in E1 by (rewrite combine_length; lia).
    rewrite combine_nth in E1 by lia. simpl in E1.
    apply andb_true_iff in E1. destruct E1 as [E1 E3]. apply Z.eqb_eq in E1, E3. tauto.
  - intros (i & Hi & E1 & E2 & E3). exists (true, o). split; [reflexivity|]. apply filter_In. split; [|reflexivity].
    replace (true, o) with (nth i (combine (map (fun ac => ((fst ac =? a)%Z && (snd ac =? 1)%Z)%bool) (combine alts choice)) obs) (false, 0%Z)).
    + apply nth_In. rewrite combine_length, map_length, combine_length. lia.
    + rewrite combine_nth by (rewrite map_length, combine_length; lia). f_equal; [|exact E1].
      rewrite (nth_map_lt _ _ _ (0%Z, 0%Z)) by (rewrite combine_length; lia).
      rewrite combine_nth by lia. simpl. rewrite E2, E3, !Z.eqb_refl. reflexivity.
Qed.

Lemma relate_keys obs alts choice :
  map fst (relate_obs_ids_to_chosen_alts obs alts choice) = np_unique alts.
Proof.
  unfold relate_obs_ids_to_chosen_alts. rewrite map_map. simpl. apply map_id.
Qed.

Lemma dict_get_In (d : list (Z * list Z)) k v :
  NoDup (map fst d) -> In (k, v) d -> dict_get Z.eqb d k = Some v.
Proof.
  induction d as [|[k' v'] r IH]; simpl; [tauto|]. intros Hn [E|Hin].
  - injection E as -> ->. rewrite Z.eqb_refl. reflexivity.
  - inversion Hn; subst. destruct (Z.eqb_spec k k') as [->|]; [|apply IH; assumption].
    exfalso. apply H1. apply in_map_iff. exists (k', v). split; [reflexivity|exact Hin].
Qed.

(** ** What the loop writes *)

Fixpoint tot (d : list (Z * list Z)) : nat :=
  match d with [] => 0 | (_, v) :: r => length v + tot r end.

Fixpoint cell (d : list (Z * list Z)) (rng : nat -> nat -> nat) (s j : nat) : Z :=
  match d with
  | [] => 0%Z
  | (_, v) :: r =>
      if (j <? length v)%nat then nth (rng 0%nat (s * length v + j)%nat mod length v) v 0%Z
      else cell r (fun c => rng (S c)) s (j - length v)
  end.

Fixpoint slot_alt (d : list (Z * list Z)) (j : nat) : Z :=
  match d with
  | [] => 0%Z
  | (k, v) :: r => if (j <? length v)%nat then k else slot_alt r (j - length v)
  end.

Lemma cell_ext d rng rng' s j : (forall c i, rng c i = rng' c i) -> cell d rng s j = cell d rng' s j.
Proof.
  revert rng rng' j. induction d as [|[k v] r IH]; intros rng rng' j H; simpl; [reflexivity|].
  rewrite H. destruct (j <? length v)%nat; [reflexivity|]. apply IH. intros. apply H.
Qed.

Lemma fill_spec d ns rng d' : forall c col A,
  (forall k v, In (k, v) d' -> dict_get Z.eqb d k = Some v) ->
  exists B, fill_samples d ns rng (map (fun kv => (fst kv, length (snd kv))) d') c col A = Ok B /\
    forall s j, (s < ns)%nat ->
      B s j = if ((col <=? j) && (j <? col + tot d'))%nat%bool
              then cell d' (fun k => rng (c + k)%nat) s (j - col) else A s j.
Proof.
  induction d' as [|[k v] r IH]; intros c col A Hd.
  - exists A. split; [reflexivity|]. intros s j Hs. simpl.
    destruct (Nat.leb_spec col j), (Nat.ltb_spec j (col + 0)); simpl; try reflexivity; lia.
  - simpl map. simpl fill_samples. rewrite (Hd k v (or_introl eq_refl)).
    assert (E : np_random_choice v (rng c) (length v * ns) =
      Ok (map (fun i => nth (rng c i mod length v) v 0%Z) (seq 0 (length v * ns)))).
    { unfold np_random_choice. destruct (Nat.eqb_spec (length v) 0) as [E|E]; [|reflexivity].
      rewrite E. reflexivity. }
    rewrite E. simpl bind.
    destruct (IH (S c) (col + length v)%nat
      (assign_cols A col (col + length v)%nat (fun s j =>
         nth (s * length v + j) (map (fun i => nth (rng c i mod length v) v 0%Z) (seq 0 (length v * ns))) 0%Z)))
      as (B & HB & Hspec). { intros k' v' H. apply Hd. right. exact H. }
    exists B. split; [exact HB|]. intros s j Hs. rewrite (Hspec s j Hs).
    simpl tot. simpl cell. unfold assign_cols.
    destruct (Nat.leb_spec (col + length v) j), (Nat.leb_spec col j),
      (Nat.ltb_spec j (col + length v + tot r)), (Nat.ltb_spec j (col + (length v + tot r))),
      (Nat.ltb_spec j (col + length v)), (Nat.ltb_spec (j - col) (length v)); simpl; try lia; try reflexivity.
    + replace (j - col - length v)%nat with (j - (col + length v))%nat by lia.
      apply cell_ext. intros c' i. f_equal. lia.
    + assert (Hb : (s * length v + (j - col) < length v * ns)%nat) by nia.
      rewrite nth_map_seq by exact Hb. rewrite Nat.add_0_r. reflexivity.
Qed.

Lemma cell_In d rng s j :
  (j < tot d)%nat -> exists v, In (slot_alt d j, v) d /\ In (cell d rng s j) v.
Proof.
  revert rng j. induction d as [|[k v] r IH]; intros rng j Hj; simpl in *; [lia|].
  destruct (Nat.ltb_spec j (length v)).
  - exists v. split; [left; reflexivity|]. apply nth_In. apply Nat.mod_upper_bound. lia.
  - destruct (IH (fun c => rng (S c)) (j - length v)%nat) as (v' & H1 & H2); [lia|].
    exists v'. auto.
Qed.

Lemma filter_map_length {A B} (f : A -> B) (p : B -> bool) l :
  length (filter p (map f l)) = length (filter (fun a => p (f a)) l).
Proof.
  induction l as [|a r IH]; simpl; [reflexivity|]. destruct (p (f a)); simpl; rewrite IH; reflexivity.
Qed.

Lemma filter_length_ext {A} (p q : A -> bool) l :
  (forall a, In a l -> p a = q a) -> length (filter p l) = length (filter q l).
Proof.
  intros H. f_equal. apply filter_ext_in. exact H.
Qed.

Lemma columns_shift (f : nat -> Z) a m n :
  columns_equal_to f a (m + n) = (columns_equal_to f a m + columns_equal_to (fun j => f (m + j)%nat) a n)%nat.
Proof.
  unfold columns_equal_to. rewrite seq_app, filter_app, app_length. f_equal. simpl.
  replace (seq m n) with (map (fun j => (m + j)%nat) (seq 0 n)).
  - rewrite filter_map_length. reflexivity.
  - clear. revert m. induction n as [|n IH]; intros m; [reflexivity|]. simpl. f_equal; [lia|].
    rewrite <- (IH (S m)). rewrite <- seq_shift, map_map. apply map_ext. intros. lia.
Qed.

Lemma columns_ext f g a n :
  (forall j, (j < n)%nat -> f j = g j) -> columns_equal_to f a n = columns_equal_to g a n.
Proof.
  intros H. apply filter_length_ext. intros j Hj. apply in_seq in Hj. rewrite H by lia. reflexivity.
Qed.

Lemma columns_const b a n : columns_equal_to (fun _ => b) a n = if (b =? a)%Z then n else 0%nat.
Proof.
  unfold columns_equal_to. destruct (b =? a)%Z.
  - transitivity (length (seq 0 n)); [|apply seq_length]. f_equal. induction (seq 0 n) as [|x r IH]; simpl; congruence.
  - induction (seq 0 n) as [|x r IH]; simpl; auto.
Qed.

Lemma slot_count_absent d a : ~ In a (map fst d) -> columns_equal_to (slot_alt d) a (tot d) = 0%nat.
Proof.
  induction d as [|[k v] r IH]; intros H; [reflexivity|]. simpl tot. rewrite columns_shift.
  rewrite (columns_ext _ (fun _ => k)), columns_const.
  - simpl in H. destruct (Z.eqb_spec k a); [tauto|].
    rewrite (columns_ext _ (slot_alt r)). { rewrite IH by tauto. reflexivity. }
    intros j Hj. simpl. destruct (Nat.ltb_spec (length v + j) (length v)); [lia|]. f_equal. lia.
  - intros j Hj. simpl. destruct (Nat.ltb_spec j (length v)); [reflexivity|lia].
Qed.

Lemma slot_count d a v :
  NoDup (map fst d) -> In (a, v) d -> columns_equal_to (slot_alt d) a (tot d) = length v.
Proof.
  induction d as [|[k w] r IH]; intros Hn Hin; [destruct Hin|]. simpl tot. rewrite columns_shift.
  rewrite (columns_ext _ (fun _ => k)), columns_const.
  - rewrite (columns_ext _ (slot_alt r)).
    + inversion Hn; subst. destruct Hin as [E|Hin].
      * injection E as -> ->. rewrite Z.eqb_refl, slot_count_absent by assumption. lia.
      * destruct (Z.eqb_spec k a) as [->|]; [|apply IH; assumption].
        exfalso. apply H1. apply in_map_iff. exists (a, v). auto.
    + intros j Hj. simpl. destruct (Nat.ltb_spec (length w + j) (length w)); [lia|]. f_equal. lia.
  - intros j Hj. simpl. destruct (Nat.ltb_spec j (length w)); [reflexivity|lia].
Qed.

Lemma tot_groups d : snd (get_num_obs_choosing_each_alternative d) = tot d.
Proof.
  unfold get_num_obs_choosing_each_alternative. simpl. induction d as [|[k v] r IH]; simpl; [reflexivity|].
  rewrite IH. reflexivity.
Qed.

(** The whole function, for an acceptable seed. *)
Lemma samples_spec obs alts choice ns seed rng empty :
  seed <> SeedOther ->
  exists ids, create_cross_sectional_bootstrap_samples obs alts choice ns seed rng empty
    = Ok (tot (relate_obs_ids_to_chosen_alts obs alts choice), ids) /\
    forall s j, (s < ns)%nat -> (j < tot (relate_obs_ids_to_chosen_alts obs alts choice))%nat ->
      ids s j = cell (relate_obs_ids_to_chosen_alts obs alts choice) rng s j.
Proof.
  intros Hseed. set (d := relate_obs_ids_to_chosen_alts obs alts choice).
  assert (Hn : NoDup (map fst d)). { unfold d. rewrite relate_keys. apply np_unique_NoDup. }
  destruct (fill_spec d ns rng d 0 0 empty) as (B & HB & Hspec).
  { intros k v H. apply dict_get_In; assumption. }
  exists B. split.
  - unfold create_cross_sectional_bootstrap_samples. fold d.
    pose proof (tot_groups d) as Ht. unfold get_num_obs_choosing_each_alternative in *. simpl in Ht.
    rewrite HB, Ht. destruct seed; [reflexivity|reflexivity|congruence].
  - intros s j Hs Hj. rewrite (Hspec s j Hs). simpl.
    destruct (Nat.ltb_spec j (tot d)); [|lia]. rewrite Nat.sub_0_r. apply cell_ext. reflexivity.
Qed.

Fixpoint targeted_rng (d : list (Z * list Z)) (T : nat -> nat -> Z) (c : nat) : nat -> nat :=
  match d with
  | [] => fun _ => 0%nat
  | (_, v) :: r =>
      match c with
      | 0%nat => fun q => index_of (T (q / length v) (q mod length v)) v
      | S c' => targeted_rng r (fun s j => T s (length v + j)%nat) c'
      end
  end.

Lemma cell_targeted d T s :
  (forall j, (j < tot d)%nat -> forall v, In (slot_alt d j, v) d -> In (T s j) v) ->
  NoDup (map fst d) ->
  forall j, (j < tot d)%nat -> cell d (targeted_rng d T) s j = T s j.
Proof.
  revert T. induction d as [|[k v] r IH]; intros T HT Hn j Hj; simpl in *; [lia|].
  destruct (Nat.ltb_spec j (length v)).
  - rewrite (Nat.add_comm (s * length v) j), Nat.div_add, (Nat.div_small j) by lia.
    rewrite Nat.mod_add, (Nat.mod_small j) by lia. simpl Nat.add.
    assert (Hin : In (T s j) v).
    { apply (HT j); [lia|]. destruct (Nat.ltb_spec j (length v)); [|lia]. left. reflexivity. }
    rewrite Nat.mod_small by (apply index_of_lt; exact Hin). apply nth_index_of. exact Hin.
  - inversion Hn; subst. rewrite (IH (fun s j => T s (length v + j)%nat)); [f_equal; lia| |assumption|lia].
    intros j' Hj' v' Hin. apply (HT (length v + j')%nat); [lia|].
    destruct (Nat.ltb_spec (length v + j') (length v)); [lia|].
    replace (length v + j' - length v)%nat with j' by lia. right. exact Hin.
Qed.

(** ** C55 *)

(** The possible outcomes of the sampler are exactly the arrays that preserve the
    strata: every column belongs to one alternative, there are as many columns for an
    alternative as observations that chose it, and the entries of a column are
    observations that chose its alternative, in any combination. *)
Theorem C55_samples_are_the_stratified_ones obs alts choice ns seed empty :
  length alts = length obs -> length choice = length obs -> seed <> SeedOther ->
  exists (size : nat) (column_alt : nat -> Z),
    (forall a, how_many (fun o => chose obs alts choice o a) (columns_equal_to column_alt a size)) /\
    forall T : nat -> nat -> Z,
      (forall s j, (s < ns)%nat -> (j < size)%nat -> chose obs alts choice (T s j) (column_alt j)) <->
      (exists rng ids,
         create_cross_sectional_bootstrap_samples obs alts choice ns seed rng empty = Ok (size, ids) /\
         forall s j, (s < ns)%nat -> (j < size)%nat -> ids s j = T s j).
Proof.
  intros Ha Hc Hseed. set (d := relate_obs_ids_to_chosen_alts obs alts choice).
  assert (Hn : NoDup (map fst d)). { unfold d. rewrite relate_keys. apply np_unique_NoDup. }
  exists (tot d), (slot_alt d). split.
  - intros a. destruct (in_dec Z.eq_dec a (map fst d)) as [Hin|Hnin].
    + apply in_map_iff in Hin. destruct Hin as ([a' v] & E & Hin). simpl in E. subst a'.
      rewrite (slot_count d a v Hn Hin).
      destruct (relate_In obs alts choice a v Ha Hc Hin) as (_ & Hv & Hch).
      exists v. auto.
    + rewrite (slot_count_absent d a Hnin). exists []. split; [constructor|]. split; [|reflexivity].
      intros o. split; [intros []|]. intros (i & Hi & _ & E & _). exfalso. apply Hnin.
      unfold d. rewrite relate_keys. apply np_unique_In. rewrite <- E. apply nth_In. lia.
  - intros T. split.
    + intros HT. destruct (samples_spec obs alts choice ns seed (targeted_rng d T) empty Hseed) as (ids & Hok & Hids).
      exists (targeted_rng d T), ids. split; [exact Hok|]. intros s j Hs Hj.
      rewrite (Hids s j Hs Hj). apply cell_targeted; [|exact Hn|exact Hj].
      intros j' Hj' v Hin. destruct (relate_In obs alts choice _ v Ha Hc Hin) as (_ & _ & Hch).
      apply Hch. apply HT; assumption.
    + intros (rng & ids & Hok & Hids) s j Hs Hj. rewrite <- (Hids s j Hs Hj).
      destruct (samples_spec obs alts choice ns seed rng empty Hseed) as (ids' & Hok' & Hids').
      rewrite Hok in Hok'. injection Hok' as <-. rewrite (Hids' s j Hs Hj).
      destruct (cell_In d rng s j Hj) as (v & H1 & H2).
      destruct (relate_In obs alts choice _ v Ha Hc H1) as (_ & _ & Hch). apply Hch. exact H2.
Qed.

Lemma how_many_unique P n m : how_many P n -> how_many P m -> n = m.
Proof.
  intros (l & Hl & El & <-) (k & Hk & Ek & <-). apply Nat.le_antisymm; apply NoDup_incl_length; auto;
    intros x Hx; [apply Ek, El|apply El, Ek]; exact Hx.
Qed.

Lemma tot_concat d : tot d = length (flat_map snd d).
Proof. induction d as [|[k v] r IH]; simpl; [reflexivity|]. rewrite app_length, IH. reflexivity. Qed.

Lemma flat_map_NoDup (d : list (Z * list Z)) :
  NoDup (map fst d) -> (forall k v, In (k, v) d -> NoDup v) ->
  (forall k v k' v' x, In (k, v) d -> In (k', v') d -> In x v -> In x v' -> k = k') ->
  NoDup (flat_map snd d).
Proof.
  induction d as [|[k v] r IH]; intros Hn Hv Hd; simpl; [constructor|].
  inversion Hn; subst. assert (Hr : NoDup (flat_map snd r)).
  { apply IH; [assumption| |]; intros; [eapply Hv; right; eassumption|eapply Hd; try (right; eassumption); eassumption]. }
  assert (Hkv : NoDup v) by (eapply Hv; left; reflexivity).
  assert (Hdis : forall x, In x v -> ~ In x (flat_map snd r)).
  { intros x Hx Hx'. apply in_flat_map in Hx'. destruct Hx' as ([k' v'] & Hin & Hx'). simpl in Hx'.
    apply H1. rewrite (Hd k v k' v' x); [apply in_map_iff; exists (k', v'); auto|left; reflexivity|right; exact Hin|exact Hx|exact Hx']. }
  clear -Hr Hkv Hdis. induction v as [|x v IHv]; simpl; [exact Hr|]. inversion Hkv; subst. constructor.
  - intros Hin. apply in_app_or in Hin. destruct Hin as [Hin|Hin]; [auto|]. apply (Hdis x); [left; reflexivity|exact Hin].
  - apply IHv; [assumption|]. intros y Hy. apply Hdis. right. exact Hy.
Qed.

(** With one chosen row per observation, a sample has as many slots as there are
    observations, and as many slots holding choosers of an alternative as there are
    choosers of that alternative. *)
Theorem C55_one_choice_per_observation obs alts choice ns seed rng empty :
  length alts = length obs -> length choice = length obs -> seed <> SeedOther ->
  one_chosen_row obs choice ->
  exists size ids,
    create_cross_sectional_bootstrap_samples obs alts choice ns seed rng empty = Ok (size, ids) /\
    how_many (fun o => In o obs) size /\
    forall s, (s < ns)%nat ->
      (forall j, (j < size)%nat -> In (ids s j) obs) /\
      forall alt_of : Z -> Z, (forall o, In o obs -> chose obs alts choice o (alt_of o)) ->
      forall a, how_many (fun o => chose obs alts choice o a)
                  (columns_equal_to (fun j => alt_of (ids s j)) a size).
Proof.
  intros Ha Hc Hseed Hone. set (d := relate_obs_ids_to_chosen_alts obs alts choice).
  assert (Hn : NoDup (map fst d)). { unfold d. rewrite relate_keys. apply np_unique_NoDup. }
  assert (Huniq : forall o a b, chose obs alts choice o a -> chose obs alts choice o b -> a = b).
  { intros o a b (i & Hi & Ei & Eia & Eic) (k & Hk & Ek & Eka & Ekc).
    destruct (Hone o) as (m & _ & _ & _ & Hm). { rewrite <- Ei. apply nth_In. exact Hi. }
    rewrite <- Eia, <- Eka, (Hm i Hi Ei Eic), (Hm k Hk Ek Ekc). reflexivity. }
  destruct (samples_spec obs alts choice ns seed rng empty Hseed) as (ids & Hok & Hids). fold d in Hok, Hids.
  exists (tot d), ids. split; [exact Hok|].
  assert (Hslot : forall s j, (s < ns)%nat -> (j < tot d)%nat -> chose obs alts choice (ids s j) (slot_alt d j)).
  { intros s j Hs Hj. rewrite (Hids s j Hs Hj). destruct (cell_In d rng s j Hj) as (v & H1 & H2).
    destruct (relate_In obs alts choice _ v Ha Hc H1) as (_ & _ & Hch). apply Hch. exact H2. }
  split.
  - exists (flat_map snd d). split; [|split; [|symmetry; apply tot_concat]].
    + apply flat_map_NoDup; [exact Hn| |].
      * intros k v H. destruct (relate_In obs alts choice k v Ha Hc H) as (_ & H' & _). exact H'.
      * intros k v k' v' x H H' Hx Hx'.
        destruct (relate_In obs alts choice k v Ha Hc H) as (_ & _ & Hch).
        destruct (relate_In obs alts choice k' v' Ha Hc H') as (_ & _ & Hch').
        apply (Huniq x); [apply Hch|apply Hch']; assumption.
    + intros o. rewrite in_flat_map. split.
      * intros ([k v] & Hin & Ho). simpl in Ho.
        destruct (relate_In obs alts choice k v Ha Hc Hin) as (_ & _ & Hch).
        apply Hch in Ho. destruct Ho as (i & Hi & E & _). rewrite <- E. apply nth_In. exact Hi.
      * intros Ho. destruct (Hone o Ho) as (i & Hi & E & Ec & _).
        assert (Hal : In (nth i alts 0%Z) (map fst d)).
        { unfold d. rewrite relate_keys. apply np_unique_In, nth_In. lia. }
        apply in_map_iff in Hal. destruct Hal as ([k v] & Ek & Hin). simpl in Ek.
        exists (k, v). split; [exact Hin|]. simpl.
        destruct (relate_In obs alts choice k v Ha Hc Hin) as (_ & _ & Hch).
        apply Hch. exists i. auto.
  - intros s Hs. split.
    + intros j Hj. destruct (Hslot s j Hs Hj) as (i & Hi & E & _). rewrite <- E. apply nth_In. exact Hi.
    + intros alt_of Hof a.
      rewrite (columns_ext _ (slot_alt d)).
      * destruct (in_dec Z.eq_dec a (map fst d)) as [Hin|Hnin].
        -- apply in_map_iff in Hin. destruct Hin as ([a' v] & E & Hin). simpl in E. subst a'.
           rewrite (slot_count d a v Hn Hin).
           destruct (relate_In obs alts choice a v Ha Hc Hin) as (_ & Hv & Hch). exists v. auto.
        -- rewrite (slot_count_absent d a Hnin). exists []. split; [constructor|]. split; [|reflexivity].
           intros o. split; [intros []|]. intros (i & Hi & _ & E & _). exfalso. apply Hnin.
           unfold d. rewrite relate_keys. apply np_unique_In. rewrite <- E. apply nth_In. lia.
      * intros j Hj. apply (Huniq (ids s j)); [|apply Hslot; assumption].
        apply Hof. destruct (Hslot s j Hs Hj) as (i & Hi & E & _). rewrite <- E. apply nth_In. exact Hi.
Qed.

(** A seed that is not an int is rejected. *)
Theorem C55_bad_seed_rejected obs alts choice ns rng empty :
  create_cross_sectional_bootstrap_samples obs alts choice ns SeedOther rng empty = Err ValueError.
Proof. unfold create_cross_sectional_bootstrap_samples, get_num_obs_choosing_each_alternative. reflexivity. Qed.

(** Four observations, three alternatives (alternative 3 is never chosen), rows not grouped. *)
Example ex_strata :
  one_chosen_row [7; 7; 2; 2; 9; 9; 4; 4; 7]%Z [0; 1; 1; 0; 0; 1; 1; 0; 0]%Z /\
  match create_cross_sectional_bootstrap_samples [7; 7; 2; 2; 9; 9; 4; 4; 7]%Z [1; 2; 1; 2; 1; 2; 1; 2; 3]%Z
          [0; 1; 1; 0; 0; 1; 1; 0; 0]%Z 2 SeedInt (fun c i => c + i)%nat (fun _ _ => 0%Z) with
  | Ok (n, ids) => (n, map (fun s => map (ids s) (seq 0 n)) [0; 1]%nat)
  | Err _ => (0%nat, [])
  end = (4%nat, [[2; 4; 9; 7]; [2; 4; 9; 7]]%Z).
Proof.
  split; [|reflexivity]. intros o Ho.
  assert (Hcases : o = 7%Z \/ o = 2%Z \/ o = 9%Z \/ o = 4%Z) by (simpl in Ho; intuition).
  destruct Hcases as [E|[E|[E|E]]]; subst o; [exists 1%nat|exists 2%nat|exists 5%nat|exists 6%nat];
    (split; [simpl; lia|]; split; [reflexivity|]; split; [reflexivity|]; intros k Hk E1 E2;
     do 9 (destruct k as [|k]; [simpl in E1, E2; first [reflexivity|discriminate]|]); simpl in Hk; lia).
Qed.

(** An observation with two chosen rows gets two slots, so the samples are larger than
    the number of observations; the constructor does not check the choice column. *)
Theorem C55_refuted_two_choices :
  exists obs alts choice ns rng empty size ids,
    create_cross_sectional_bootstrap_samples obs alts choice ns SeedNone rng empty = Ok (size, ids) /\
    how_many (fun o => In o obs) 2 /\ size = 3%nat.
Proof.
  exists [1; 1; 2; 2]%Z, [1; 2; 1; 2]%Z, [1; 1; 1; 0]%Z, 1%nat, (fun _ _ => 0%nat), (fun _ _ => 0%Z).
  destruct (samples_spec [1; 1; 2; 2]%Z [1; 2; 1; 2]%Z [1; 1; 1; 0]%Z 1 SeedNone (fun _ _ => 0%nat) (fun _ _ => 0%Z))
    as (ids & Hok & _); [discriminate|].
  exists 3%nat, ids. split; [exact Hok|]. split; [|reflexivity].
  exists [1; 2]%Z. split; [|split; [|reflexivity]].
  - repeat constructor; simpl; intuition discriminate.
  - intros o. simpl. intuition.
Qed.

Print Assumptions C55_samples_are_the_stratified_ones.
Print Assumptions C55_one_choice_per_observation.
Print Assumptions C55_bad_seed_rejected.
Print Assumptions C55_refuted_two_choices.
