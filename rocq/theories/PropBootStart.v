(** C60: the default starting values of the bootstrap re-estimations. *)
From Coq Require Import String ZArith List Reals Bool Lia Lra Arith Permutation.
From Verif Require Import Res Ids Vec Arr Mappings Frame ChoiceTools BaseModel ChoiceCalcs LongData Transforms
  Estimation Predict Construct BootMle.
From Verif Require Import SpecLogit RowDeriv MappingFacts ProbFacts LogitFacts HessFacts PropHessian PropGradient PropLikelihood
  MixedCalcs MixedFacts ChoiceFacts PropMixed PropMappings PropDesign PropBaseModel PropConstruct.
Import ListNotations.
Local Open Scope string_scope.

(** ** Specification *)

(** The alternatives that have an outside intercept: all but the reference. *)
Definition with_intercepts (iref : option nat) (alternatives : list Z) : list Z :=
  match iref with Some r => (firstn r alternatives ++ skipn (S r) alternatives)%list | None => [] end.

(** The dummy variable of alternative [a]. *)
Definition dummy (alts : list Z) (a : Z) : list R := map (fun b => if (b =? a)%Z then 1%R else 0%R) alts.

(** [mm] is the MNL 'closest' to [m]: it has the index variables of [m] and a dummy
    variable for each outside intercept of [m]; matched by name, in any order, if the
    model [m] has intercept names, and otherwise in the order intercepts, index. *)
Record closest_mnl (m mm : created) (iref : option nat) : Prop := mkClosest {
  cl_named : forall inames, c_inames m = Some inames ->
    NoDup (c_ind_var_names mm) /\
    Permutation (c_ind_var_names mm) (inames ++ c_ind_var_names m) /\
    (forall v col, In (v, col) (combine (c_ind_var_names m) (c_design m)) ->
       In (v, col) (combine (c_ind_var_names mm) (c_design mm))) /\
    (forall v a, In (v, a) (combine inames (with_intercepts iref (np_unique (c_alt_ids m)))) ->
       In (v, dummy (c_alt_ids m) a) (combine (c_ind_var_names mm) (c_design mm)));
  cl_unnamed : c_inames m = None ->
    c_design mm = (map (dummy (c_alt_ids m)) (with_intercepts iref (np_unique (c_alt_ids m))) ++ c_design m)%list
}.

(** ** Sums over lists *)
Definition lsum (l : list R) : R := fold_right Rplus 0%R l.

Lemma lsum_app a b : lsum (a ++ b) = (lsum a + lsum b)%R.
Proof. induction a as [|x a IH]; simpl; [lra|]. rewrite IH. lra. Qed.
Lemma lsum_perm a b : Permutation a b -> lsum a = lsum b.
Proof. induction 1; simpl; lra. Qed.

Lemma lsum_sumn {A B} (f : A -> B -> R) l1 l2 d1 d2 : length l1 = length l2 ->
  lsum (map (fun ab => f (fst ab) (snd ab)) (combine l1 l2)) =
  sumn (length l1) (fun q => f (nth q l1 d1) (nth q l2 d2)).
Proof.
  revert l2. induction l1 as [|a r IH]; intros [|b s] H; try discriminate; [reflexivity|].
  cbn [combine map lsum fold_right length fst snd]. change (S (length r)) with (1 + length r)%nat.
  rewrite sumn_app. cbn [sumn nth Nat.add]. rewrite Rplus_0_l. f_equal. apply IH. injection H as H. exact H.
Qed.

Lemma assoc_unique {A} k (l : list (string * A)) v : NoDup (map fst l) -> In (k, v) l -> assoc k l = Some v.
Proof. intros Hn Hi. apply assoc_NoDup; assumption. Qed.

Lemma map_fst_combine {A B} (l : list A) (m : list B) : length l = length m -> map fst (combine l m) = l.
Proof.
  revert m. induction l as [|a l IH]; intros [|b m] H; try discriminate; [reflexivity|].
  simpl. f_equal. apply IH. injection H as H. exact H.
Qed.

(** ** Looking names up in a series *)
Lemma loc_unique (s : series R) names : NoDup (map fst s) -> (forall v, In v names -> In v (map fst s)) ->
  loc_list s names = Ok (map (fun v => match assoc v s with Some x => x | None => 0%R end) names).
Proof.
  intros Hn Hi. unfold loc_list.
  assert (E : forallb (fun n => existsb (fun kv => String.eqb n (fst kv)) s) names = true).
  { apply forallb_forall. intros v Hv. apply existsb_exists. specialize (Hi v Hv). apply in_map_iff in Hi.
    destruct Hi as (kv & <- & Hk). exists kv. split; [exact Hk|apply String.eqb_refl]. }
  rewrite E. f_equal. rewrite flat_map_concat_map. induction names as [|v r IH]; [reflexivity|].
  cbn [map concat]. rewrite IH; [|intros; apply Hi; right; assumption|].
  2: { cbn [forallb] in E. apply andb_true_iff in E. apply E. }
  change (match assoc v s with Some x => x | None => 0%R end :: map (fun v0 => match assoc v0 s with Some x => x | None => 0%R end) r)
    with ([match assoc v s with Some x => x | None => 0%R end] ++ map (fun v0 => match assoc v0 s with Some x => x | None => 0%R end) r)%list.
  f_equal. specialize (Hi v (or_introl eq_refl)). clear -Hn Hi.
  induction s as [|[k x] s IH]; [destruct Hi|]. cbn [map fst] in Hn, Hi. inversion Hn; subst.
  cbn [filter fst assoc]. destruct (String.eqb_spec v k) as [->|N].
  - cbn [map snd]. f_equal.
    assert (F : filter (fun kv : string * R => String.eqb k (fst kv)) s = []).
    { apply filter_nil_iff. intros [k' x'] Hk. cbn [fst]. apply String.eqb_neq. intros ->. apply H1.
      apply in_map_iff. exists (k', x'). auto. }
    rewrite F. reflexivity.
  - apply IH; [assumption|]. destruct Hi as [Hi|Hi]; [congruence|exact Hi].
Qed.

(** The value of a row: the sum of its columns' entries times the coefficients. *)
Definition row_value (design : list (list R)) (coefs : list R) (i : nat) : R :=
  lsum (map (fun cb => nth i (fst cb) 0 * snd cb)%R (combine design coefs)).

Lemma row_value_app d1 d2 c1 c2 i : length d1 = length c1 ->
  row_value (d1 ++ d2) (c1 ++ c2) i = (row_value d1 c1 i + row_value d2 c2 i)%R.
Proof.
  intros H. unfold row_value.
  assert (E : combine (d1 ++ d2) (c1 ++ c2) = (combine d1 c1 ++ combine d2 c2)%list).
  { revert c1 H. induction d1 as [|x d1 IH]; intros [|y c1] H; try discriminate; [reflexivity|].
    simpl. f_equal. apply IH. injection H as H. exact H. }
  rewrite E, map_app, lsum_app. reflexivity.
Qed.
Lemma row_value_sumn design coefs i : length design = length coefs ->
  row_value design coefs i = sumn (length design) (fun q => design_mat design i q * nth q coefs 0)%R.
Proof.
  intros H. unfold row_value. rewrite (lsum_sumn (fun c b => nth i c 0 * b)%R design coefs [] 0%R H). reflexivity.
Qed.

(** By name: the row value of the MNL is that of the pieces put together by name. *)
Section ByName.
  Context (names : list string) (design : list (list R)) (x : list R).
  Hypothesis Hn : NoDup names.
  Hypothesis Hd : length names = length design.
  Hypothesis Hx : length names = length x.
  Let s := combine names x.
  Let value v := match assoc v s with Some y => y | None => 0%R end.

  Lemma by_name_total (ns : list string) (cols : list (list R)) i :
    Permutation names ns -> length ns = length cols ->
    (forall v col, In (v, col) (combine ns cols) -> In (v, col) (combine names design)) ->
    row_value design x i = row_value cols (map value ns) i.
  Proof.
    intros HP HL HC.
    assert (A : forall (l : list string) (c : list (list R)), length l = length c ->
      (forall v col, In (v, col) (combine l c) -> In (v, col) (combine names design)) ->
      row_value c (map value l) i =
      lsum (map (fun v => nth i (match assoc v (combine names design) with Some col => col | None => [] end) 0 * value v)%R l)).
    { intros l c HLc Hin. unfold row_value. f_equal.
      assert (G : forall v col, In (v, col) (combine l c) -> assoc v (combine names design) = Some col).
      { intros v col Hv. apply assoc_NoDup; [rewrite map_fst_combine; assumption|]. apply Hin. exact Hv. }
      clear Hin. revert c HLc G. induction l as [|v l IH]; intros [|col c] HLc G; try discriminate; [reflexivity|].
      cbn [map combine fst snd]. f_equal.
      - rewrite (G v col) by (left; reflexivity). reflexivity.
      - apply IH; [injection HLc as HLc; exact HLc|]. intros v' col' H. apply G. right. exact H. }
    assert (Ex : x = map value names).
    { unfold value, s. clear -Hn Hx. revert x Hx. induction names as [|v r IH]; intros [|y x] Hx; try discriminate; [reflexivity|].
      cbn [map combine assoc]. rewrite String.eqb_refl. f_equal. inversion Hn; subst.
      injection Hx as Hx. rewrite (IH H2 x Hx) at 1. apply map_ext_in. intros v' Hv'. destruct (String.eqb_spec v' v) as [->|]; [contradiction|reflexivity]. }
    rewrite Ex at 1. rewrite (A names design Hd) by auto. rewrite (A ns cols HL HC).
    apply lsum_perm. apply Permutation_map. exact HP.
  Qed.
End ByName.

(** ** Equal row values give equal MNL probabilities *)
Open Scope R_scope.
Lemma mnl_same_values d1 d2 sp1 sp2 mp1 mp2 K1 K2 X1 X2 w1 w2 r1 r2 th1 th2 i :
  create_long_form_mappings d1 sp1 = Ok mp1 -> create_long_form_mappings d2 sp2 = Ok mp2 ->
  obs_ids d1 = obs_ids d2 -> (0 < K1)%nat -> (0 < K2)%nat -> alen th1 = K1 -> alen th2 = K2 ->
  (forall r, (r < length (obs_ids d1))%nat ->
     sumn K1 (fun q => X1 r q * aget th1 q) = sumn K2 (fun q => X2 r q * aget th2 q)) ->
  (i < length (obs_ids d1))%nat ->
  est_long_probs KMNL (data_of d1 mp1 K1 X1 w1 r1) th1 i = est_long_probs KMNL (data_of d2 mp2 K2 X2 w2 r2) th2 i.
Proof.
  intros H1 H2 Ho HK1 HK2 L1 L2 HU Hi.
  rewrite est_long_probs_eq; [|exact HK1|exact L1]. rewrite est_long_probs_eq; [|exact HK2|exact L2].
  unfold probs_at.
  rewrite (probs_closed _ d1 sp1 mp1 _ _ _ _ H1) by exact Hi.
  rewrite (probs_closed _ d2 sp2 mp2 _ _ _ _ H2) by (rewrite <- Ho; exact Hi).
  rewrite <- Ho.
  assert (E : forall r, (r < length (obs_ids d1))%nat ->
    long_exponentials (model_of KMNL) (data_of d1 mp1 K1 X1 w1 r1) (sh KMNL (d_J (data_of d1 mp1 K1 X1 w1 r1)) th1)
      (ic KMNL (d_J (data_of d1 mp1 K1 X1 w1 r1)) th1) (be KMNL (d_J (data_of d1 mp1 K1 X1 w1 r1)) (d_K (data_of d1 mp1 K1 X1 w1 r1)) th1) r =
    long_exponentials (model_of KMNL) (data_of d2 mp2 K2 X2 w2 r2) (sh KMNL (d_J (data_of d2 mp2 K2 X2 w2 r2)) th2)
      (ic KMNL (d_J (data_of d2 mp2 K2 X2 w2 r2)) th2) (be KMNL (d_J (data_of d2 mp2 K2 X2 w2 r2)) (d_K (data_of d2 mp2 K2 X2 w2 r2)) th2) r).
  { intros r Hr. unfold long_exponentials. f_equal. f_equal. exact (HU r Hr). }
  rewrite E by exact Hi. f_equal. apply id_sum_ext. intros r Hr _. apply E. exact Hr.
Qed.

Lemma nth_with_intercepts r u q : (r < length u)%nat ->
  nth q (with_intercepts (Some r) u) 0%Z = nth (skip r q) u 0%Z.
Proof.
  intros Hr. cbn [with_intercepts]. assert (L : length (firstn r u) = r) by (rewrite firstn_length; lia).
  unfold skip. destruct (Nat.ltb_spec q r).
  - rewrite app_nth1 by lia. clear L. revert r q H Hr. induction u as [|a u IH]; intros [|r] [|q] H Hr; simpl in *; try lia; try reflexivity.
    apply IH; lia.
  - rewrite app_nth2 by lia. rewrite L. replace (S q) with (S r + (q - r))%nat by lia.
    generalize (q - r)%nat. intros p. clear. revert u. induction (S r) as [|k IH]; intros u; [reflexivity|].
    destruct u as [|a u]; [destruct p; reflexivity|]. simpl. apply IH.
Qed.
Lemma with_intercepts_length iref u : valid_ref iref (length u) ->
  length (with_intercepts iref u) = num_constants iref (length u).
Proof.
  destruct iref as [r|]; [|reflexivity]. cbn [valid_ref with_intercepts num_constants]. intros H.
  rewrite app_length, firstn_length, skipn_length. lia.
Qed.

Lemma nth_dummy alts a i : (i < length alts)%nat -> nth i (dummy alts a) 0 = if (nth i alts 0 =? a)%Z then 1 else 0.
Proof.
  revert i. induction alts as [|b r IH]; intros [|i] H; simpl in *; try lia; [reflexivity|]. apply IH. lia.
Qed.

Lemma constants_row d sp mp K X w ridge iref (design : list (list R)) (ic b : list R) i :
  create_long_form_mappings d sp = Ok mp -> length (alt_ids d) = length (obs_ids d) ->
  let D := data_of d mp K X w ridge in
  valid_ref iref (d_J D) -> length ic = num_constants iref (d_J D) -> length b = length design ->
  (i < length (obs_ids d))%nat ->
  row_value (map (dummy (alt_ids d)) (with_intercepts iref (np_unique (alt_ids d))) ++ design) (ic ++ b) i =
  sumn (num_constants iref (d_J D) + length design)
    (fun q => with_constants iref (d_J D) (d_A D) (design_mat design) i q *
              vcat (num_constants iref (d_J D)) (fun j => nth j ic 0) (fun q => nth q b 0) q).
Proof.
  intros Hmp HL D Href Hic Hb Hi.
  assert (EJ : d_J D = length (np_unique (alt_ids d))) by (apply (data_J d sp); exact Hmp).
  assert (LC : length (map (dummy (alt_ids d)) (with_intercepts iref (np_unique (alt_ids d)))) = length ic).
  { rewrite map_length, with_intercepts_length; rewrite <- EJ; auto. }
  rewrite row_value_app by exact LC. rewrite !row_value_sumn by auto. rewrite LC, sumn_app, Hic. f_equal.
  - apply sumn_ext. intros q Hq. rewrite vcat_l by exact Hq. f_equal.
    destruct iref as [r|]; [|cbn [num_constants] in Hq; lia]. cbn [valid_ref num_constants with_constants] in *.
    unfold hcat. rewrite vcat_l by exact Hq.
    pose proof (data_alt_indicator d sp mp K X w ridge Hmp HL) as HA. fold D in HA. destruct (HA i Hi) as [Ho E].
    rewrite E by (apply skip_lt; assumption). unfold design_mat.
    rewrite (nth_indep _ [] (dummy (alt_ids d) 0%Z)) by (rewrite LC; lia). rewrite map_nth.
    rewrite nth_with_intercepts by (rewrite <- EJ; exact Href). rewrite nth_dummy by lia. unfold alt_of.
    assert (Hs : (skip r q < length (np_unique (alt_ids d)))%nat) by (rewrite <- EJ; apply skip_lt; assumption).
    assert (Hin : In (nth i (alt_ids d) 0%Z) (np_unique (alt_ids d))).
    { apply np_unique_In. apply nth_In. lia. }
    destruct (Z.eqb_spec (nth i (alt_ids d) 0%Z) (nth (skip r q) (np_unique (alt_ids d)) 0%Z)) as [Ei|N].
    + rewrite Ei, index_of_nth by (try apply np_unique_NoDup; exact Hs). rewrite Nat.eqb_refl. reflexivity.
    + destruct (Nat.eqb_spec (index_of (nth i (alt_ids d) 0%Z) (np_unique (alt_ids d))) (skip r q)) as [Ei|]; [|reflexivity].
      exfalso. apply N. rewrite <- Ei. symmetry. apply nth_index_of. exact Hin.
  - apply sumn_ext. intros q Hq. rewrite vcat_r. f_equal.
    destruct iref as [r|]; cbn [num_constants with_constants] in *; [|reflexivity]. unfold hcat. rewrite vcat_r. reflexivity.
Qed.

Definition of_list (l : list R) : arr := mkArr (length l) (fun i => nth i l 0).

Lemma zeros_then n ic b :
  of_list (repeat 0 n ++ ic ++ b) =
  mkArr (n + (length ic + length b)) (vcat n (fun _ => 0) (vcat (length ic) (fun j => nth j ic 0) (fun q => nth q b 0))).
Proof.
  unfold of_list. rewrite !app_length, repeat_length. f_equal.
  apply FunctionalExtensionality.functional_extensionality. intros i. unfold vcat.
  destruct (Nat.ltb_spec i n).
  - rewrite app_nth1 by (rewrite repeat_length; lia). apply nth_repeat.
  - rewrite app_nth2 by (rewrite repeat_length; lia). rewrite repeat_length.
    destruct (Nat.ltb_spec (i - n) (length ic)); [rewrite app_nth1 by lia; reflexivity|].
    rewrite app_nth2 by lia. reflexivity.
Qed.

(** ** What creation gives *)
Lemma created_facts f a m : well_formed f -> create_choice_model f a = Ok m ->
  exists o, c_alt_col m = a_alt_col a /\ c_obs_col m = a_obs_col a /\
    int_col f (a_alt_col a) = Ok (c_alt_ids m) /\ length (c_alt_ids m) = f_rows f /\
    (forall c, int_col (c_data m) c = int_col f c) /\
    has_col f (a_obs_col a) = o /\ mtype_name (c_type m) = a_type a /\ (0 < length (c_design m))%nat /\
    (c_type m = TMNL -> c_inames m = None /\ c_mix_vars m = None /\ c_mix_col m = None /\ c_iref m = RefNone) /\
    (c_type m = TScobit \/ c_type m = TUneven \/ c_type m = TAsym ->
       c_inames m = a_inames a /\ c_iref m = a_iref a /\ c_mix_vars m = None /\ c_mix_col m = None /\
       (forall l, c_inames m = Some l -> exists z, c_iref m = RefInt z /\ (0 <= z < Z.of_nat (length (np_unique (c_alt_ids m))))%Z /\
          S (length l) = length (np_unique (c_alt_ids m)))) /\
    (c_type m = TAsym -> c_sref m = a_sref a) /\
    (c_type m = TMixed -> c_inames m = None /\ c_iref m = RefNone /\ c_mix_vars m = a_mix_vars a /\ c_mix_col m = a_mix_col a).
Proof.
  intros Hwf H. exists (has_col f (a_obs_col a)). unfold create_choice_model in H. apply bind_ok in H. destruct H as (t & Ht & H).
  apply lookup_ok in Ht.
  assert (G : forall iref sref inames snames nests mv mc,
    base_init t f (a_alt_col a) (a_obs_col a) (a_choice_col a) (a_spec a) iref sref (a_names a) inames snames nests mv mc = Ok m ->
    c_alt_col m = a_alt_col a /\ c_obs_col m = a_obs_col a /\
    int_col f (a_alt_col a) = Ok (c_alt_ids m) /\ length (c_alt_ids m) = f_rows f /\
    (forall c, int_col (c_data m) c = int_col f c) /\ c_type m = t /\ (0 < length (c_design m))%nat /\
    c_inames m = inames /\ c_mix_vars m = mv /\ c_mix_col m = mc /\ c_iref m = iref /\ c_sref m = sref /\
    check_names_and_ref inames iref (length (np_unique (c_alt_ids m))) InterceptNames = Ok tt).
  { intros iref sref inames snames nests mv mc B.
    destruct (base_init_inv _ _ _ _ _ _ _ _ _ _ _ _ _ _ _ B) as (dm & alts & ch & pos & Hd & Ha & Hc & _ & _ & ->).
    cbn [c_alt_col c_obs_col c_alt_ids c_data c_type c_design c_inames c_mix_vars c_mix_col c_iref c_sref].
    split; [reflexivity|]. split; [reflexivity|]. split; [exact Ha|].
    split. { unfold int_col in Ha. destruct (assoc (a_alt_col a) (f_ints f)) eqn:E; [|discriminate]. injection Ha as <-. destruct Hwf as [W _]. eauto. }
    split. { intros c. apply int_col_add_intercept. }
    split; [reflexivity|]. split.
    { destruct dm as [cols labels].
      destruct (create_design_inv _ _ _ _ _ _ Hd) as (alts' & parts & Ha' & Hsp & Hnm & Hp & Ec & El). cbn [fst].
      unfold create_design_matrix in Hd. apply Nat.neq_0_lt_0. intros E0.
      destruct cols; [|discriminate]. clear -Hd.
      destruct (negb (has_col _ _)); [discriminate|]. destruct (negb (forallb _ _)); [discriminate|].
      apply bind_ok in Hd. destruct Hd as (al & _ & Hd). cbv zeta in Hd.
      apply bind_ok in Hd. destruct Hd as ([] & _ & Hd). apply bind_ok in Hd. destruct Hd as ([] & _ & Hd).
      apply bind_ok in Hd. destruct Hd as (cs & _ & Hd). destruct (concat cs); [discriminate|].
      injection Hd as Hd _. discriminate. }
    split; [reflexivity|]. split; [reflexivity|]. split; [reflexivity|]. split; [reflexivity|]. split; [reflexivity|].
    unfold base_init in B. apply bind_ok in B. destruct B as ([] & _ & B). apply bind_ok in B. destruct B as (alts' & Ha' & B).
    apply bind_ok in B. destruct B as ([] & _ & B). apply bind_ok in B. destruct B as ([] & Hi & B). congruence. }
  assert (N : forall inames iref J, check_names_and_ref inames iref J InterceptNames = Ok tt ->
    forall l, inames = Some l -> exists z, iref = RefInt z /\ (0 <= z < Z.of_nat J)%Z /\ S (length l) = J).
  { intros inames iref J Hc l El. destruct (proj1 (names_check _ _ _ _) Hc l El) as [(_ & E & _)|E]; [discriminate|exact E]. }
  destruct t; cbn [class_init] in H;
    try (destruct (ref_given (a_iref a)) eqn:Er; [discriminate|]);
    try (destruct (a_sref a) eqn:Es; try discriminate);
    try (destruct (a_nests a); try discriminate);
    apply G in H; destruct H as (H1 & H2 & H3 & H4 & H5 & H6 & H7 & H8 & H9 & H10 & H11 & H12 & H13);
    rewrite H6; repeat match goal with |- _ /\ _ => split end; try assumption; try reflexivity; try (intros; discriminate);
    try (intros [?|[?|?]]; discriminate); intros _; rewrite ?H8, ?H9, ?H10, ?H11, ?H12 in *;
    repeat match goal with |- _ /\ _ => split end; try assumption; try reflexivity; try (eapply N; eassumption);
    destruct (a_iref a); try discriminate; reflexivity.
Qed.

(** ** The pieces of the starting vector *)
Lemma combine_app {A B} (l1 l2 : list A) (m1 m2 : list B) : length l1 = length m1 ->
  combine (l1 ++ l2) (m1 ++ m2) = (combine l1 m1 ++ combine l2 m2)%list.
Proof.
  revert m1. induction l1 as [|x l1 IH]; intros [|y m1] H; try discriminate; [reflexivity|].
  simpl. f_equal. apply IH. injection H as H. exact H.
Qed.

Lemma start_pieces m mm iref x :
  closest_mnl m mm iref ->
  length (c_ind_var_names mm) = length (c_design mm) -> length (c_ind_var_names m) = length (c_design m) ->
  (forall inames, c_inames m = Some inames -> length inames = length (with_intercepts iref (np_unique (c_alt_ids m)))) ->
  length x = length (c_ind_var_names mm) ->
  exists ic b,
    length ic = length (with_intercepts iref (np_unique (c_alt_ids m))) /\ length b = length (c_design m) /\
    (forall i, row_value (c_design mm) x i =
       row_value (map (dummy (c_alt_ids m)) (with_intercepts iref (np_unique (c_alt_ids m))) ++ c_design m) (ic ++ b) i) /\
    match c_inames m with
    | Some inames => loc_list (combine (c_ind_var_names mm) x) inames = Ok ic /\
                     loc_list (combine (c_ind_var_names mm) x) (c_ind_var_names m) = Ok b
    | None => x = (ic ++ b)%list
    end.
Proof.
  intros [Hnamed Hun] Lm L Li Lx. destruct (c_inames m) as [inames|] eqn:Ei.
  - destruct (Hnamed inames eq_refl) as (HN & HP & HC & HD). clear Hnamed Hun.
    specialize (Li inames eq_refl).
    set (value := fun v => match assoc v (combine (c_ind_var_names mm) x) with Some y => y | None => 0%R end).
    exists (map value inames), (map value (c_ind_var_names m)).
    assert (HI : forall v, In v (inames ++ c_ind_var_names m)%list -> In v (map fst (combine (c_ind_var_names mm) x))).
    { intros v Hv. rewrite map_fst_combine by congruence. eapply Permutation_in; [symmetry; exact HP|exact Hv]. }
    assert (HF : NoDup (map fst (combine (c_ind_var_names mm) x))) by (rewrite map_fst_combine; [exact HN|congruence]).
    split; [rewrite map_length; exact Li|]. split; [rewrite map_length; exact L|]. split.
    + intros i. rewrite <- map_app. apply (by_name_total (c_ind_var_names mm)); try assumption; try congruence.
      * rewrite !app_length, map_length. lia.
      * intros v col Hin. rewrite combine_app in Hin by (rewrite map_length; exact Li).
        apply in_app_or in Hin. destruct Hin as [Hin|Hin]; [|apply HC; exact Hin].
        assert (E : exists a, col = dummy (c_alt_ids m) a /\ In (v, a) (combine inames (with_intercepts iref (np_unique (c_alt_ids m))))).
        { clear -Hin. revert Hin. generalize (with_intercepts iref (np_unique (c_alt_ids m))). induction inames as [|w r IH]; intros [|a u] Hin; try (destruct Hin; fail).
          cbn [map combine] in Hin. destruct Hin as [Hin|Hin].
          - injection Hin as <- <-. exists a. split; [reflexivity|left; reflexivity].
          - destruct (IH _ Hin) as (a' & E & H). exists a'. split; [exact E|right; exact H]. }
        destruct E as (a & -> & Ha). apply HD. exact Ha.
    + split; apply loc_unique; try exact HF; intros v Hv; apply HI; apply in_or_app; auto.
  - specialize (Hun eq_refl). clear Hnamed Li.
    set (n := length (with_intercepts iref (np_unique (c_alt_ids m)))).
    assert (Ln : (length x = n + length (c_design m))%nat).
    { rewrite Lx, Lm, Hun, app_length, map_length. reflexivity. }
    exists (firstn n x), (skipn n x). split; [rewrite firstn_length; lia|]. split; [rewrite skipn_length; lia|].
    split; [|symmetry; apply firstn_skipn]. intros i. rewrite Hun, firstn_skipn. reflexivity.
Qed.

Lemma assign_tail_ok ns l : l <> [] -> assign_tail (ns + length l) l = Ok (repeat 0 ns ++ l)%list.
Proof.
  intros H. unfold assign_tail. destruct l as [|a l]; [congruence|]. cbn [length].
  destruct (Nat.leb_spec (S (length l)) (ns + S (length l))); [|lia]. cbn [Nat.eqb].
  replace (ns + S (length l) - S (length l))%nat with ns by lia. reflexivity.
Qed.

Lemma mk_series_ok {A} names (l : list A) s : mk_series names l = Ok s -> length names = length l /\ s = combine names l.
Proof.
  unfold mk_series. destruct (Nat.eqb_spec (length names) (length l)) as [E0|]; [|discriminate]. intros H. injection H as <-. auto.
Qed.
Lemma map_snd_combine {A B} (l : list A) (m : list B) : length l = length m -> map snd (combine l m) = m.
Proof.
  revert m. induction l as [|a l IH]; intros [|b m] H; try discriminate; [reflexivity|].
  simpl. f_equal. apply IH. injection H as H. exact H.
Qed.
Lemma nth_alist x q : (q < alen x)%nat -> nth q (alist x) 0 = aget x q.
Proof.
  intros Hq. unfold alist. rewrite (nth_indep _ 0 (aget x 0%nat)) by (rewrite map_length, seq_length; exact Hq).
  rewrite map_nth, seq_nth by exact Hq. reflexivity.
Qed.
Lemma alist_length x : length (alist x) = alen x.
Proof. unfold alist. rewrite map_length, seq_length. reflexivity. Qed.

(** ** From model objects to estimators *)
Lemma objects f a m mo : well_formed f -> create_choice_model f a = Ok m -> model_obj_of m = Ok mo ->
  int_col f (a_obs_col a) = Ok (obs_ids (mo_cols mo)) /\ alt_ids (mo_cols mo) = c_alt_ids m /\
  length (obs_ids (mo_cols mo)) = f_rows f /\ mo_K mo = length (c_design m) /\ mo_X mo = design_mat (c_design m) /\
  class_of m = Ok (mo_class mo).
Proof.
  intros Hwf H Hm. destruct (created_facts f a m Hwf H) as (o & E1 & E2 & E3 & E4 & E5 & _).
  unfold model_obj_of in Hm. apply bind_ok in Hm. destruct Hm as (cl & Hcl & Hm). apply bind_ok in Hm. destruct Hm as (d & Hd & Hm).
  injection Hm as <-. cbn [mo_cols mo_K mo_X mo_class]. unfold long_cols_of in Hd.
  apply bind_ok in Hd. destruct Hd as (oi & Ho & Hd). apply bind_ok in Hd. destruct Hd as (ai & Ha & Hd).
  apply bind_ok in Hd. destruct Hd as (ci & _ & Hd). apply bind_ok in Hd. destruct Hd as (mi & _ & Hd).
  injection Hd as <-. cbn [obs_ids alt_ids]. rewrite E5, E2 in Ho. rewrite E5, E1 in Ha.
  split; [exact Ho|]. split; [congruence|]. split.
  { unfold int_col in Ho. destruct (assoc (a_obs_col a) (f_ints f)) eqn:E; [|discriminate]. injection Ho as <-. destruct Hwf as [W _]. eauto. }
  auto.
Qed.

Lemma logit_core mo k nd rvs init ridge cons w e :
  mo_class mo = ClassLogit k -> create_estimation_obj mo nd rvs init ridge cons w = Ok e ->
  exists mp ww rr, create_long_form_mappings (mo_cols mo) None = Ok mp /\
    e_core e = CoreLogit k (data_of (mo_cols mo) mp (mo_K mo) (mo_X mo) ww rr).
Proof.
  intros Hk H. unfold create_estimation_obj, estimator_core in H. rewrite Hk in H.
  apply bind_ok in H. destruct H as (cc & Hc & H). apply bind_ok in Hc. destruct Hc as (mp & Hmp & Hc). injection Hc as <-.
  apply bind_ok in H. destruct H as (_ & _ & H). injection H as <-. cbn [e_core fst]. eauto.
Qed.

Lemma logit_probs e k D x c ch lp : e_core e = CoreLogit k D -> est_probs e x = Ok (c, ch, lp) ->
  forall i, lp i 0%nat = est_long_probs k D x i.
Proof.
  intros He H. unfold est_probs in H. rewrite He in H. destruct (e_chosen e); [|discriminate]. injection H as _ _ <-. reflexivity.
Qed.

Lemma mnl_class mm : c_type mm = TMNL -> class_of mm = Ok (ClassLogit KMNL).
Proof. intros H. unfold class_of. rewrite H. reflexivity. Qed.
Lemma mtype_name_inj t t' : mtype_name t = mtype_name t' -> t = t'.
Proof. destruct t, t'; intros H; try reflexivity; discriminate. Qed.

(** ** C60: the starting values give the model the MNL's probabilities *)

Section Start.
  (* [orig] is the model being bootstrapped; [m] and [mm] are the model and the MNL
     created on the table [f] of a replicate *)
  Context (f0 : frame) (a0 : model_args) (orig : created) (f : frame) (id : string) (m mm : created)
          (spec : specification) (names : option name_dict) (iref : option nat) (x : arr) (s : series R).
  Hypothesis Hwf0 : well_formed f0.
  Hypothesis Horig : create_choice_model f0 a0 = Ok orig.
  Hypothesis Hwf : well_formed f.
  Hypothesis Hm : create_choice_model f (recreation_args orig id) = Ok m.
  Hypothesis Hmm : create_choice_model f (mnl_args orig id spec names) = Ok mm.
  Hypothesis Hsame : c_ind_var_names m = c_ind_var_names orig.
  Hypothesis Hone : length (c_ind_var_names m) = length (c_design m).
  Hypothesis Honem : length (c_ind_var_names mm) = length (c_design mm).
  Hypothesis Hiref : ref_pos (c_iref orig) = Ok iref.
  Let J := length (np_unique (c_alt_ids m)).
  Hypothesis Href : valid_ref iref J.
  Hypothesis Hclose : closest_mnl m mm iref.
  Hypothesis Hs : mk_series (c_ind_var_names mm) (alist x) = Ok s.

  Lemma type_m : c_type m = c_type orig.
  Proof.
    destruct (created_facts _ _ _ Hwf Hm) as (_ & _ & _ & _ & _ & _ & _ & E & _). apply mtype_name_inj. exact E.
  Qed.
  Lemma type_mm : c_type mm = TMNL.
  Proof.
    destruct (created_facts _ _ _ Hwf Hmm) as (_ & _ & _ & _ & _ & _ & _ & E & _). apply mtype_name_inj. exact E.
  Qed.

  Definition shaped (t : mtype) : Prop := t = TScobit \/ t = TUneven \/ t = TAsym.

  Lemma names_m : shaped (c_type orig) -> c_inames m = c_inames orig /\ c_iref m = c_iref orig /\ c_mix_vars orig = None /\
    (forall l, c_inames m = Some l -> length l = length (with_intercepts iref (np_unique (c_alt_ids m)))).
  Proof.
    intros Ht. destruct (created_facts _ _ _ Hwf Hm) as (_ & _ & _ & _ & _ & _ & _ & _ & _ & _ & G & _).
    destruct (created_facts _ _ _ Hwf0 Horig) as (_ & _ & _ & _ & _ & _ & _ & _ & _ & _ & G0 & _).
    destruct (G0 Ht) as (_ & _ & E0 & _). assert (Ht' : shaped (c_type m)) by (rewrite type_m; exact Ht).
    destruct (G Ht') as (E1 & E2 & _ & _ & E3). cbn [recreation_args a_inames a_iref] in *.
    split; [exact E1|]. split; [exact E2|]. split; [exact E0|]. intros l El. destruct (E3 l El) as (z & Ez & Hz & HL).
    rewrite with_intercepts_length by exact Href. fold J in HL. rewrite E2 in Ez. unfold ref_pos in Hiref. rewrite Ez in Hiref.
    destruct (0 <=? z)%Z; [|discriminate]. injection Hiref as <-. cbn [num_constants]. fold J. lia.
  Qed.

  Lemma start_values ns : shaped (c_type orig) ->
    (c_type orig = TAsym -> (c_inames orig = None -> iref = None)) ->
    exists ic b,
      length ic = num_constants iref J /\ length b = length (c_design m) /\ (0 < length (c_design m))%nat /\
      (forall i, row_value (c_design mm) (alist x) i =
         row_value (map (dummy (c_alt_ids m)) (with_intercepts iref (np_unique (c_alt_ids m))) ++ c_design m) (ic ++ b) i) /\
      extract_default_init_vals orig s (ns + (num_constants iref J + length (c_design m))) =
        Ok (repeat 0 ns ++ ic ++
              map (fun y => if match c_type orig with TAsym => true | _ => false end
                            then y / ln (INR (length (np_unique (c_alt_ids orig)))) else y) b)%list.
  Proof.
    intros Ht Hasym. destruct (names_m Ht) as (Ei & _ & Emv & Li).
    destruct (mk_series_ok _ _ _ Hs) as [Ls ->].
    destruct (start_pieces m mm iref (alist x) Hclose Honem Hone Li (eq_sym Ls)) as (ic & b & Lic & Lb & HR & HM).
    rewrite with_intercepts_length in Lic by exact Href. fold J in Lic.
    destruct (created_facts _ _ _ Hwf Hm) as (_ & _ & _ & _ & _ & _ & _ & _ & HK & _).
    exists ic, b. split; [exact Lic|]. split; [exact Lb|]. split; [exact HK|]. split; [exact HR|].
    assert (AT : forall l, length l = (num_constants iref J + length (c_design m))%nat ->
      assign_tail (ns + (num_constants iref J + length (c_design m))) l = Ok (repeat 0 ns ++ l)%list).
    { intros l Hl. rewrite <- Hl. apply assign_tail_ok. intros ->. simpl in Hl. lia. }
    unfold extract_default_init_vals. rewrite <- Hsame, <- Ei, Emv. rewrite <- Ei in Hasym.
    destruct (c_inames m) as [inames|].
    - destruct HM as [-> ->]. cbn [bind]. destruct Ht as [-> | [-> | ->]]; rewrite ?map_id; apply AT; rewrite app_length, ?map_length; lia.
    - cbn [bind]. rewrite map_snd_combine by exact Ls. rewrite HM.
      destruct Ht as [Ht|[Ht|Ht]]; rewrite Ht in *; rewrite ?map_id; try (apply AT; rewrite app_length; lia).
      rewrite (Hasym eq_refl eq_refl) in Lic. cbn [num_constants] in Lic.
      destruct ic; [|discriminate]. cbn [app]. apply AT. rewrite map_length, (Hasym eq_refl eq_refl). cbn [num_constants]. lia.
  Qed.

  (* The MNL with the constants among its columns has the same row values. *)
  Lemma mnl_rows mo mom mp w r ic b i :
    model_obj_of m = Ok mo -> model_obj_of mm = Ok mom ->
    create_long_form_mappings (mo_cols mo) None = Ok mp ->
    length ic = num_constants iref J -> length b = length (c_design m) -> (0 < length (c_design m))%nat ->
    (forall i, row_value (c_design mm) (alist x) i =
       row_value (map (dummy (c_alt_ids m)) (with_intercepts iref (np_unique (c_alt_ids m))) ++ c_design m) (ic ++ b) i) ->
    (i < f_rows f)%nat ->
    let D := data_of (mo_cols mo) mp (mo_K mo) (mo_X mo) w r in
    sumn (num_constants iref (d_J D) + mo_K mo) (fun q => with_constants iref (d_J D) (d_A D) (mo_X mo) i q *
       vcat (num_constants iref (d_J D)) (fun j => nth j ic 0) (fun q => nth q b 0) q) =
    sumn (mo_K mom) (fun q => mo_X mom i q * aget x q).
  Proof.
    intros Ho Hom Hmp Lic Lb HK HR Hi D.
    destruct (objects _ _ _ _ Hwf Hm Ho) as (O1 & O2 & O3 & O4 & O5 & O6).
    destruct (objects _ _ _ _ Hwf Hmm Hom) as (P1 & P2 & P3 & P4 & P5 & P6).
    destruct (mk_series_ok _ _ _ Hs) as [Ls _]. rewrite alist_length in Ls.
    assert (EJ : d_J D = J) by (unfold D, J; rewrite <- O2; apply (data_J (mo_cols mo) None); exact Hmp).
    assert (LA : length (alt_ids (mo_cols mo)) = length (obs_ids (mo_cols mo))).
    { rewrite O2, O3. destruct (created_facts _ _ _ Hwf Hm) as (_ & _ & _ & _ & E & _). exact E. }
    rewrite O4, O5.
    pose proof (constants_row (mo_cols mo) None mp (mo_K mo) (mo_X mo) w r iref (c_design m) ic b i Hmp LA) as CR.
    cbv zeta in CR. fold D in CR. rewrite <- CR; clear CR.
    - rewrite O2, <- HR, row_value_sumn by (rewrite alist_length; lia). rewrite P4, P5.
      apply sumn_ext. intros p Hp. rewrite nth_alist by lia. reflexivity.
    - rewrite EJ. exact Href.
    - rewrite EJ. exact Lic.
    - exact Lb.
    - rewrite O3. exact Hi.
  Qed.

  Lemma mnl_side mo mom mp mpm w r w2 r2 ic b i :
    model_obj_of m = Ok mo -> model_obj_of mm = Ok mom ->
    create_long_form_mappings (mo_cols mo) None = Ok mp -> create_long_form_mappings (mo_cols mom) None = Ok mpm ->
    length ic = num_constants iref J -> length b = length (c_design m) -> (0 < length (c_design m))%nat ->
    (forall i, row_value (c_design mm) (alist x) i =
       row_value (map (dummy (c_alt_ids m)) (with_intercepts iref (np_unique (c_alt_ids m))) ++ c_design m) (ic ++ b) i) ->
    (i < f_rows f)%nat ->
    let D := data_of (mo_cols mo) mp (mo_K mo) (mo_X mo) w r in
    est_long_probs KMNL (data_of (mo_cols mo) mp (num_constants iref (d_J D) + mo_K mo)
        (with_constants iref (d_J D) (d_A D) (mo_X mo)) w r)
      (mkArr (num_constants iref (d_J D) + mo_K mo)
         (vcat (num_constants iref (d_J D)) (fun j => nth j ic 0) (fun q => nth q b 0))) i =
    est_long_probs KMNL (data_of (mo_cols mom) mpm (mo_K mom) (mo_X mom) w2 r2) x i.
  Proof.
    intros Ho Hom Hmp Hmpm Lic Lb HK HR Hi D.
    destruct (objects _ _ _ _ Hwf Hm Ho) as (O1 & O2 & O3 & O4 & O5 & O6).
    destruct (objects _ _ _ _ Hwf Hmm Hom) as (P1 & P2 & P3 & P4 & P5 & P6).
    destruct (mk_series_ok _ _ _ Hs) as [Ls _]. rewrite alist_length in Ls.
    assert (EO : obs_ids (mo_cols mo) = obs_ids (mo_cols mom)).
    { cbn [recreation_args mnl_args a_obs_col] in O1, P1. congruence. }
    destruct (created_facts _ _ _ Hwf Hmm) as (_ & _ & _ & _ & _ & _ & _ & _ & HKm & _).
    apply (mnl_same_values _ _ None None); try assumption; try (cbn [alen]; rewrite ?P4, ?O4; lia); try reflexivity.
    - intros q Hq. cbn [aget]. apply (mnl_rows mo mom mp w r ic b q); try assumption. rewrite <- O3. exact Hq.
  Qed.

  Theorem C60_scobit_and_uneven_start_at_the_mnl :
    c_type orig = TScobit \/ c_type orig = TUneven ->
    exists v, extract_default_init_vals orig s (J + num_constants iref J + length (c_design m)) = Ok v /\
      length v = (J + num_constants iref J + length (c_design m))%nat /\
      forall mo mom rvs ridge ridge' cons cons' w w' e em cols ch lp colsm chm lpm,
        model_obj_of m = Ok mo -> model_obj_of mm = Ok mom ->
        create_estimation_obj mo 0 rvs (of_list v) ridge cons w = Ok e ->
        create_estimation_obj mom 0 rvs x ridge' cons' w' = Ok em ->
        est_probs e (of_list v) = Ok (cols, ch, lp) -> est_probs em x = Ok (colsm, chm, lpm) ->
        forall i, (i < f_rows f)%nat -> lp i 0%nat = lpm i 0%nat.
  Proof.
    intros Ht. assert (Ht' : shaped (c_type orig)) by (destruct Ht; [left|right; left]; assumption).
    destruct (start_values J Ht') as (ic & b & Lic & Lb & HK & HR & Ev); [destruct Ht as [-> | ->]; discriminate|].
    rewrite <- Nat.add_assoc. rewrite Ev.
    assert (Eb : map (fun y : R => if match c_type orig with TAsym => true | _ => false end
        then y / ln (INR (length (np_unique (c_alt_ids orig)))) else y) b = b).
    { destruct Ht as [-> | ->]; apply map_id. }
    rewrite Eb. clear Eb Ev. eexists. split; [reflexivity|]. split; [rewrite !app_length, repeat_length; lia|].
    intros mo mom rvs ridge ridge' cons cons' w w' e em cols ch lp colsm chm lpm Ho Hom He Hem Hp Hpm i Hi.
    destruct (objects _ _ _ _ Hwf Hm Ho) as (O1 & O2 & O3 & O4 & O5 & O6).
    destruct (objects _ _ _ _ Hwf Hmm Hom) as (P1 & P2 & P3 & P4 & P5 & P6).
    rewrite (mnl_class mm type_mm) in P6. injection P6 as P6.
    assert (EC : exists k, mo_class mo = ClassLogit k /\ (k = KScobit iref \/ k = KUneven iref)).
    { unfold class_of in O6. rewrite type_m in O6. destruct (names_m Ht') as (_ & Er & _). rewrite Er, Hiref in O6.
      cbn [bind] in O6. destruct Ht as [Ht|Ht]; rewrite Ht in O6; injection O6 as O6; eexists; (split; [symmetry; exact O6|auto]). }
    destruct EC as (k & EC & Hk).
    destruct (logit_core _ _ _ _ _ _ _ _ _ EC He) as (mp & ww & rr & Hmp & Ee).
    destruct (logit_core _ _ _ _ _ _ _ _ _ (eq_sym P6) Hem) as (mpm & wwm & rrm & Hmpm & Eem).
    rewrite (logit_probs _ _ _ _ _ _ _ Ee Hp), (logit_probs _ _ _ _ _ _ _ Eem Hpm).
    rewrite <- (mnl_side mo mom mp mpm ww rr wwm rrm ic b i Ho Hom Hmp Hmpm Lic Lb HK HR Hi).
    set (D := data_of (mo_cols mo) mp (mo_K mo) (mo_X mo) ww rr).
    assert (EJ : d_J D = J) by (unfold D, J; rewrite <- O2; apply (data_J (mo_cols mo) None); exact Hmp).
    assert (LA : length (alt_ids (mo_cols mo)) = length (obs_ids (mo_cols mo))).
    { rewrite O2, O3. destruct (created_facts _ _ _ Hwf Hm) as (_ & _ & _ & _ & E & _). exact E. }
    assert (HJ : (0 < d_J D)%nat).
    { rewrite EJ. unfold J. rewrite <- O2. apply Nat.neq_0_lt_0. intros E0. apply length_zero_iff_nil in E0.
      assert (In (nth i (alt_ids (mo_cols mo)) 0%Z) (np_unique (alt_ids (mo_cols mo)))) by (apply np_unique_In, nth_In; lia).
      rewrite E0 in H. destruct H. }
    rewrite zeros_then, Lic, Lb, <- O4, <- EJ.
    destruct Hk as [-> | ->].
    - apply (C22_scobit_at_zero_shape_is_mnl (mo_cols mo) None mp (mo_K mo) (mo_X mo) ww rr Hmp LA); try assumption.
      + rewrite O4. exact HK.
      + fold D. rewrite EJ. exact Href.
      + rewrite O3. exact Hi.
    - apply (C22_uneven_at_zero_shape_is_mnl (mo_cols mo) None mp (mo_K mo) (mo_X mo) ww rr Hmp LA); try assumption.
      + rewrite O4. exact HK.
      + fold D. rewrite EJ. exact Href.
      + rewrite O3. exact Hi.
  Qed.

  (** Asymmetric logit: the code divides the index coefficients by the logarithm of the
      number of alternatives of the original data, so the replicate must have as many;
      and intercepts outside the index must have names. *)
  Theorem C60_asym_starts_at_the_mnl sref :
    c_type orig = TAsym -> ref_pos (c_sref orig) = Ok (Some sref) -> (sref < J)%nat -> (2 <= J)%nat ->
    length (np_unique (c_alt_ids orig)) = J -> (c_inames orig = None -> iref = None) ->
    exists v, extract_default_init_vals orig s (J - 1 + num_constants iref J + length (c_design m)) = Ok v /\
      length v = (J - 1 + num_constants iref J + length (c_design m))%nat /\
      forall mo mom rvs ridge ridge' cons cons' w w' e em cols ch lp colsm chm lpm,
        model_obj_of m = Ok mo -> model_obj_of mm = Ok mom ->
        create_estimation_obj mo 0 rvs (of_list v) ridge cons w = Ok e ->
        create_estimation_obj mom 0 rvs x ridge' cons' w' = Ok em ->
        (forall k D, e_core e = CoreLogit k D -> no_clipping k D (of_list v)) ->
        (forall k D, e_core em = CoreLogit k D -> no_clipping k D x) ->
        est_probs e (of_list v) = Ok (cols, ch, lp) -> est_probs em x = Ok (colsm, chm, lpm) ->
        forall i, (i < f_rows f)%nat -> lp i 0%nat = lpm i 0%nat.
  Proof.
    intros Ht Hsr Hsl HJ2 EJo Hnames. assert (Ht' : shaped (c_type orig)) by (right; right; assumption).
    destruct (start_values (J - 1) Ht') as (ic & b & Lic & Lb & HK & HR & Ev); [intros _; exact Hnames|].
    rewrite <- Nat.add_assoc. rewrite Ev. rewrite Ht, EJo.
    assert (HJpos : 1 < INR J) by (replace 1 with (INR 1) by reflexivity; apply lt_INR; lia).
    assert (Hln : 0 < ln (INR J)) by (rewrite <- ln_1; apply ln_increasing; lra).
    set (b' := map (fun y => y / ln (INR J)) b). clear Ev.
    assert (Lb' : length b' = length (c_design m)) by (unfold b'; rewrite map_length; exact Lb).
    eexists. split; [reflexivity|]. split; [rewrite !app_length, repeat_length; lia|].
    intros mo mom rvs ridge ridge' cons cons' w w' e em cols ch lp colsm chm lpm Ho Hom He Hem Hc Hcm Hp Hpm i Hi.
    destruct (objects _ _ _ _ Hwf Hm Ho) as (O1 & O2 & O3 & O4 & O5 & O6).
    destruct (objects _ _ _ _ Hwf Hmm Hom) as (P1 & P2 & P3 & P4 & P5 & P6).
    rewrite (mnl_class mm type_mm) in P6. injection P6 as P6.
    assert (EC : mo_class mo = ClassLogit (KAsym sref iref)).
    { unfold class_of in O6. rewrite type_m, Ht in O6. destruct (names_m Ht') as (_ & Er & _).
      destruct (created_facts _ _ _ Hwf Hm) as (_ & _ & _ & _ & _ & _ & _ & _ & _ & _ & _ & G & _).
      rewrite G in O6 by (rewrite type_m; exact Ht). cbn [recreation_args a_sref] in O6.
      rewrite Hsr, Er, Hiref in O6. cbn [bind] in O6. congruence. }
    destruct (logit_core _ _ _ _ _ _ _ _ _ EC He) as (mp & ww & rr & Hmp & Ee).
    destruct (logit_core _ _ _ _ _ _ _ _ _ (eq_sym P6) Hem) as (mpm & wwm & rrm & Hmpm & Eem).
    rewrite (logit_probs _ _ _ _ _ _ _ Ee Hp), (logit_probs _ _ _ _ _ _ _ Eem Hpm).
    specialize (Hc _ _ Ee). specialize (Hcm _ _ Eem).
    rewrite <- (mnl_side mo mom mp mpm ww rr wwm rrm ic b i Ho Hom Hmp Hmpm Lic Lb HK HR Hi).
    set (D := data_of (mo_cols mo) mp (mo_K mo) (mo_X mo) ww rr) in *.
    assert (EJ : d_J D = J) by (unfold D, J; rewrite <- O2; apply (data_J (mo_cols mo) None); exact Hmp).
    assert (LA : length (alt_ids (mo_cols mo)) = length (obs_ids (mo_cols mo))).
    { rewrite O2, O3. destruct (created_facts _ _ _ Hwf Hm) as (_ & _ & _ & _ & E & _). exact E. }
    assert (Ebeta : (fun q => nth q b 0) = (fun q => ln (INR (d_J D)) * nth q b' 0)).
    { apply FunctionalExtensionality.functional_extensionality. intros q. unfold b'.
      destruct (Nat.lt_ge_cases q (length b)) as [Hq|Hq].
      - rewrite (nth_indep (map _ b) 0 (0 / ln (INR J))) by (rewrite map_length; exact Hq).
        rewrite (map_nth (fun y => y / ln (INR J)) b 0 q), EJ. field. lra.
      - rewrite !nth_overflow by (rewrite ?map_length; exact Hq). ring. }
    rewrite zeros_then, Lic, Lb', <- O4, <- EJ in Hc |- *. rewrite Ebeta.
    apply (C22_asym_at_zero_shape_is_scaled_mnl (mo_cols mo) None mp (mo_K mo) (mo_X mo) ww rr Hmp LA); try assumption.
    - rewrite O4. exact HK.
    - fold D. rewrite EJ. exact Href.
    - fold D. rewrite EJ. lia.
    - fold D. rewrite EJ. exact Hsl.
    - fold D. rewrite EJ. exact HJ2.
    - fold D. rewrite <- Ebeta. intros q Hq. cbn [data_of d_N] in Hq.
      assert (Eu : forall D' th q, est_utilities KMNL D' th q = sumn (d_K D') (fun p => d_X D' q p * aget th p)) by reflexivity.
      rewrite Eu. cbn [data_of d_K d_X aget].
      assert (MR := mnl_rows mo mom mp ww rr ic b q Ho Hom Hmp Lic Lb HK HR). cbv zeta in MR. fold D in MR.
      rewrite MR by (rewrite <- O3; exact Hq).
      specialize (Hcm q). rewrite Eu in Hcm. cbn [data_of d_K d_X d_N] in Hcm. apply Hcm. rewrite P3, <- O3. exact Hq.
    - rewrite O3. exact Hi.
  Qed.

  (** Mixed logit: in every draw. *)
  Theorem C60_mixed_starts_at_the_mnl mv :
    c_type orig = TMixed -> c_mix_vars orig = Some mv ->
    exists v, extract_default_init_vals orig s (length (c_design m) + length mv) = Ok v /\
      length v = (length (c_design m) + length mv)%nat /\
      forall mo mom num_draws rvs ridge ridge' cons cons' w w' e em cols ch lp colsm chm lpm,
        model_obj_of m = Ok mo -> model_obj_of mm = Ok mom ->
        create_estimation_obj mo num_draws rvs (of_list v) ridge cons w = Ok e ->
        create_estimation_obj mom 0 rvs x ridge' cons' w' = Ok em ->
        est_probs e (of_list v) = Ok (cols, ch, lp) -> est_probs em x = Ok (colsm, chm, lpm) ->
        forall i r, (i < f_rows f)%nat -> (r < num_draws)%nat -> lp i r = lpm i 0%nat.
  Proof.
    intros Ht Hmv.
    destruct (created_facts _ _ _ Hwf0 Horig) as (_ & _ & _ & _ & _ & _ & _ & _ & _ & _ & _ & _ & G0).
    destruct (G0 Ht) as (Ei0 & Er0 & _).
    destruct (created_facts _ _ _ Hwf Hm) as (_ & _ & _ & _ & _ & _ & _ & _ & HK & _ & _ & _ & G).
    assert (Ht' : c_type m = TMixed) by (rewrite type_m; exact Ht).
    destruct (G Ht') as (Ei & Er & Emv & Emc). cbn [recreation_args a_mix_vars a_mix_col] in Emv, Emc.
    rewrite Er0 in Hiref. injection Hiref as <-.
    destruct (mk_series_ok _ _ _ Hs) as [Ls ->].
    pose proof (cl_unnamed _ _ _ Hclose Ei) as Ed. cbn [with_intercepts map app] in Ed.
    rewrite alist_length in Ls. assert (Lx : alen x = length (c_design m)) by (rewrite <- Ls, Honem, Ed; reflexivity).
    exists (alist x ++ repeat 0 (length mv))%list.
    split.
    { unfold extract_default_init_vals. rewrite Ei0, Hmv, Ht. cbn [bind]. rewrite map_snd_combine by (rewrite alist_length; exact Ls).
      replace (length (c_design m) + length mv)%nat with (0 + length (alist x ++ repeat 0%R (length mv)))%nat
        by (rewrite app_length, repeat_length, alist_length; lia).
      apply assign_tail_ok. intros E. apply (f_equal (@length R)) in E. rewrite app_length, alist_length in E. simpl in E. lia. }
    split; [rewrite app_length, repeat_length, alist_length; lia|].
    intros mo mom nd rvs ridge ridge' cons cons' w w' e em cols ch lp colsm chm lpm Ho Hom He Hem Hp Hpm i r Hi Hr.
    destruct (objects _ _ _ _ Hwf Hm Ho) as (O1 & O2 & O3 & O4 & O5 & O6).
    destruct (objects _ _ _ _ Hwf Hmm Hom) as (P1 & P2 & P3 & P4 & P5 & P6).
    rewrite (mnl_class mm type_mm) in P6. injection P6 as P6.
    destruct (logit_core _ _ _ _ _ _ _ _ _ (eq_sym P6) Hem) as (mpm & wwm & rrm & Hmpm & Eem).
    rewrite (logit_probs _ _ _ _ _ _ _ Eem Hpm).
    assert (EC : exists pos, mo_class mo = ClassMixed pos /\ c_mix_pos m = Some pos).
    { unfold class_of in O6. rewrite Ht' in O6. destruct (c_mix_pos m) as [pos|]; [|discriminate]. injection O6 as O6. eauto. }
    destruct EC as (pos & EC & Epos).
    assert (Lpos : length pos = length mv).
    { destruct (C80_positions_of_the_mixing_variables f (recreation_args orig id) m mv Hm) as (pos' & E & F & _).
      - cbn [recreation_args a_type]. rewrite Ht. reflexivity.
      - exact Hmv.
      - rewrite Epos in E. injection E as <-. symmetry. exact (Forall2_len F). }
    unfold create_estimation_obj, estimator_core in He. rewrite EC in He.
    apply bind_ok in He. destruct He as (cc & Hcc & He). apply bind_ok in Hcc. destruct Hcc as (mp & Hmp & Hcc).
    apply bind_ok in Hcc. destruct Hcc as (rm & Hrm & Hcc). apply bind_ok in Hcc. destruct Hcc as (draws & Hdr & Hcc).
    apply bind_ok in Hcc. destruct Hcc as (E & HE & Hcc). injection Hcc as <-.
    apply bind_ok in He. destruct He as (_ & _ & He). injection He as <-. cbn [fst snd] in Hp.
    unfold est_probs in Hp. cbn [e_core e_chosen] in Hp. destruct (chosen_row_to_obs mp) as [C|]; [|discriminate].
    cbn [option_map] in Hp. injection Hp as _ _ <-.
    assert (HL : mixing_ids_per_row (mo_cols mo)).
    { unfold model_obj_of in Ho. apply bind_ok in Ho. destruct Ho as (cl & _ & Ho). apply bind_ok in Ho. destruct Ho as (d & Hd & Ho).
      injection Ho as <-. cbn [mo_cols] in *. unfold long_cols_of in Hd.
      apply bind_ok in Hd. destruct Hd as (oi & _ & Hd). apply bind_ok in Hd. destruct Hd as (ai & _ & Hd).
      apply bind_ok in Hd. destruct Hd as (ci & _ & Hd). apply bind_ok in Hd. destruct Hd as (mi & Hmi & Hd).
      injection Hd as <-. unfold mixing_ids_per_row. rewrite O3. unfold mix_of. cbn [mix_ids]. destruct (c_mix_col m) as [mc|].
      - cbn [opt_int_col] in Hmi. apply bind_ok in Hmi. destruct Hmi as (l & Hl & Hmi). injection Hmi as <-.
        destruct (created_facts _ _ _ Hwf Hm) as (_ & _ & _ & _ & _ & E5 & _). rewrite E5 in Hl. unfold int_col in Hl.
        destruct (assoc mc (f_ints f)) eqn:Ea; [|discriminate]. injection Hl as <-. destruct Hwf as [W _]. eauto.
      - cbn [opt_int_col] in Hmi. injection Hmi as <-. unfold mixed_data_of in HE.
        rewrite Hmp in HE. cbn [bind] in HE. unfold create_long_form_mappings in Hmp. cbn [mix_ids] in Hmp.
        apply bind_ok in Hmp. destruct Hmp as (rn & _ & Hmp). injection Hmp as <-. cbn [rows_to_mixers] in Hrm. discriminate. }
    pose proof (mixed_own _ _ _ _ _ _ _ _ _ HE) as HO. pose proof (mixed_N _ _ _ _ _ _ _ _ _ HE) as HN.
    set (th := of_list (alist x ++ repeat 0 (length mv))).
    rewrite (pa_eq E _ HO) by (rewrite HN, O3; exact Hi).
    rewrite est_long_probs_eq; [|cbn [data_of d_K]; rewrite P4, Ed; exact HK|cbn [data_of d_K num_shapes num_icpts kind_iref]; rewrite P4, <- Honem; cbn; lia].
    unfold probs_at.
    rewrite (long_probs_eq (model_of KMNL) _ _ (data_obs_indicator (mo_cols mom) None mpm (mo_K mom) (mo_X mom) wwm rrm Hmpm))
      by (cbn [data_of d_N]; rewrite P3; exact Hi).
    assert (EO : obs_ids (mo_cols mo) = obs_ids (mo_cols mom)).
    { cbn [recreation_args mnl_args a_obs_col] in O1, P1. congruence. }
    assert (EU : forall k, (k < length (obs_ids (mo_cols mo)))%nat ->
       vv E th k r = sumn (mo_K mom) (fun q => mo_X mom k q * aget x q)).
    { intros k Hk. unfold vv. rewrite (C45_utilities_use_own_draws _ _ _ _ _ _ _ _ _ th k r HE HL Hk).
      unfold mixed_utility. rewrite (sumn_eq0 (length pos)).
      - rewrite Rplus_0_r, O4, P4, O5, P5, Ed. apply sumn_ext. intros q Hq. f_equal. unfold th, of_list. cbn [aget].
        rewrite app_nth1 by (rewrite alist_length; lia). apply nth_alist. lia.
      - intros q Hq. unfold th, of_list. cbn [aget]. rewrite app_nth2 by (rewrite alist_length; lia). rewrite nth_repeat. ring. }
    f_equal.
    - rewrite EU by (rewrite O3; exact Hi). reflexivity.
    - rewrite HN, EO. cbn [data_of d_N]. apply osum_ext. intros k Hk _. rewrite EU by (rewrite EO; exact Hk). reflexivity.
  Qed.
End Start.

(** One name per column, as the hypotheses above ask, is what creation guarantees. *)
Theorem C79_one_name_per_column f a m :
  well_formed f -> NoDup (map fst (a_spec a)) -> (forall n, a_names a = Some n -> NoDup (map fst n)) ->
  create_choice_model f a = Ok m -> length (c_ind_var_names m) = length (c_design m).
Proof.
  intros Hwf Hns Hnn H. unfold create_choice_model in H. apply bind_ok in H. destruct H as (t & _ & H).
  assert (HwD : well_formed (add_intercept_to_dataframe (a_spec a) f) ).
  { unfold add_intercept_to_dataframe. destruct (assoc "intercept" (a_spec a)); [|exact Hwf].
    destruct (has_col f "intercept"); [exact Hwf|]. destruct Hwf as [W1 W2]. split; cbn [f_ints f_reals f_rows]; [exact W1|].
    intros c l E. rewrite assoc_snoc in E. destruct (assoc c (f_reals f)) eqn:Ec; [injection E as <-; eauto|].
    destruct (String.eqb c "intercept"); [|discriminate]. injection E as <-. apply repeat_length. }
  assert (G : forall iref sref inames snames nests mv mc,
    base_init t f (a_alt_col a) (a_obs_col a) (a_choice_col a) (a_spec a) iref sref (a_names a) inames snames nests mv mc = Ok m ->
    length (c_ind_var_names m) = length (c_design m)).
  { intros iref sref inames snames nests mv mc B.
    destruct (base_init_inv _ _ _ _ _ _ _ _ _ _ _ _ _ _ _ B) as (dm & alts & ch & pos & Hd & Ha & Hc & _ & _ & ->).
    cbn [c_ind_var_names c_design]. rewrite map_length. destruct dm as [cols labels]. cbn [fst snd].
    destruct (a_names a) as [n|] eqn:En.
    - exact (C08_as_many_names_as_columns _ _ _ _ _ _ HwD (Hnn n eq_refl) Hns Hd).
    - destruct (create_design_inv _ _ _ _ _ _ Hd) as (alts' & parts & _ & _ & _ & _ & Ec & El). subst cols labels.
      rewrite !map_length. reflexivity. }
  destruct t; cbn [class_init] in H;
    try (destruct (ref_given (a_iref a)) eqn:Er; [discriminate|]);
    try (destruct (a_sref a) eqn:Es; try discriminate);
    try (destruct (a_nests a); try discriminate);
    eapply G; exact H.
Qed.

(** ** Examples *)

(** The uneven logit of PropConstruct.v; its MNL lists the variables in another order and
    they are matched by name. *)
Definition exs_spec : specification :=
  [("cost", SStr "all_same"); ("time", SStr "all_diff"); ("intercept", SList [One 2%Z])].
Definition exs_names : name_dict :=
  [("cost", NStr "cost"); ("time", NList [NE "time_1"; NE "time_2"]); ("intercept", NList [NE "ASC 2"])].

Example ex_uneven_start : exists orig mm s,
  create_choice_model exc_frame exc_uneven = Ok orig /\
  create_choice_model exc_frame (recreation_args orig "obs") = Ok orig /\
  create_choice_model exc_frame (mnl_args orig "obs" exs_spec (Some exs_names)) = Ok mm /\
  length (c_ind_var_names orig) = length (c_design orig) /\ length (c_ind_var_names mm) = length (c_design mm) /\
  ref_pos (c_iref orig) = Ok (Some 0%nat) /\ valid_ref (Some 0%nat) (length (np_unique (c_alt_ids orig))) /\
  closest_mnl orig mm (Some 0%nat) /\
  mk_series (c_ind_var_names mm) (alist (of_list [1; 2; 3; 4])) = Ok s /\
  extract_default_init_vals orig s 6 = Ok [0; 0; 4; 2; 3; 1].
Proof.
  eexists. eexists. eexists. split; [reflexivity|]. split; [reflexivity|]. split; [reflexivity|].
  split; [reflexivity|]. split; [reflexivity|]. split; [reflexivity|]. split; [cbn; lia|].
  assert (E0 : (0 * 1 = 0)%R) by ring. assert (E1 : (1 * 1 = 1)%R) by ring.
  split.
  - constructor; [|discriminate]. intros inames E. injection E as <-.
    assert (P : Permutation ["cost"; "time_1"; "time_2"; "ASC 2"] ["ASC 2"; "time_1"; "time_2"; "cost"]).
    { apply Permutation_trans with ["time_1"; "time_2"; "ASC 2"; "cost"].
      - change ["time_1"; "time_2"; "ASC 2"; "cost"] with (["time_1"; "time_2"; "ASC 2"] ++ ["cost"])%list.
        change ["cost"; "time_1"; "time_2"; "ASC 2"] with ("cost" :: ["time_1"; "time_2"; "ASC 2"] ++ [])%list.
        rewrite app_nil_r. apply Permutation_cons_append.
      - change ["ASC 2"; "time_1"; "time_2"; "cost"] with ("ASC 2" :: ["time_1"; "time_2"] ++ ["cost"])%list.
        change ["time_1"; "time_2"; "ASC 2"; "cost"] with (["time_1"; "time_2"] ++ "ASC 2" :: ["cost"])%list.
        symmetry. apply Permutation_middle. }
    split.
    { repeat constructor; cbn; intuition discriminate. }
    split; [exact P|]. split.
    + intros v col Hin. cbn in Hin |- *. intuition.
    + intros v a Hin. cbn in Hin. destruct Hin as [Hin|[]]. injection Hin as <- <-. right. right. right. left.
      cbn. rewrite !E0, !E1. reflexivity.
  - split; [reflexivity|]. reflexivity.
Qed.

(** Without intercept names the asymmetric logit's intercepts are divided by the
    logarithm of the number of alternatives too, and the probabilities differ. *)
Definition exs_frame : frame :=
  mkFrame 2 [("obs", [1; 1]%Z); ("alt", [1; 2]%Z); ("choice", [0; 1]%Z)] [("time", [0; 0])].
Definition exs_asym : model_args :=
  mkArgs "alt" "obs" "choice" [("time", SStr "all_same")] "Asym" (RefInt 0) (RefInt 0) None None None None None None.
Definition exs_mnl_spec : specification := [("intercept", SList [One 2%Z]); ("time", SStr "all_same")].
Definition exs_x : arr := of_list [ln 2; 0].

Lemma two_rows k d mp K X w r th o :
  create_long_form_mappings d None = Ok mp -> obs_ids d = [o; o] ->
  let D := data_of d mp K X w r in
  (0 < K)%nat -> alen th = (num_shapes k (d_J D) + num_icpts k (d_J D) + K)%nat ->
  -700 < utility k D th 0%nat < 700 -> -700 < utility k D th 1%nat < 700 ->
  est_long_probs k D th 1%nat = exp (utility k D th 1%nat) / (exp (utility k D th 0%nat) + exp (utility k D th 1%nat)).
Proof.
  intros Hmp Ho D HK HL U0 U1. rewrite est_long_probs_eq by assumption. unfold probs_at, D.
  rewrite (probs_closed _ d None mp _ _ w r Hmp) by (rewrite Ho; simpl; lia). fold D. rewrite Ho.
  assert (E : forall i, -700 < utility k D th i < 700 ->
    long_exponentials (model_of k) D (sh k (d_J D) th) (ic k (d_J D) th) (be k (d_J D) (d_K D) th) i = exp (utility k D th i)).
  { intros i Hi. unfold long_exponentials. f_equal. apply clip_id. unfold unclipped, min_exponent_val, max_exponent_val.
    change (-700 <= utility k D th i <= 700). lra. }
  unfold id_sum. cbn [length sumn nth]. rewrite Z.eqb_refl. rewrite !E by assumption. f_equal. ring.
Qed.

Definition exs_cols : long_cols := mkLong [1; 1]%Z [1; 2]%Z (Some [0; 1]%Z) None.
Definition exs_mp : mappings := Eval compute in
  match create_long_form_mappings exs_cols None with
  | Ok mp => mp | Err _ => mkMappings (mkSmat 0 0 []) (mkSmat 0 0 []) None None None end.
Definition exs_v : list R := [0; ln 2 / ln 2; 0 / ln 2].
Definition exs_D (X : mat) : Data := data_of exs_cols exs_mp 1 X (Some (fun _ => 1)) None.
Definition exs_Dm (X : mat) : Data := data_of exs_cols exs_mp 2 X (Some (fun _ => 1)) None.

Lemma exs_mp_ok : create_long_form_mappings exs_cols None = Ok exs_mp.
Proof. reflexivity. Qed.

Lemma ln2_bounds : 0 < ln 2 < 1.
Proof.
  split; [rewrite <- ln_1; apply ln_increasing; lra|]. rewrite <- (ln_exp 1). apply ln_increasing; [lra|].
  assert (1 + 1 < exp 1) by (apply exp_ineq1; lra). lra.
Qed.

Lemma exs_mnl_prob X : X 0%nat 0%nat = 0 -> X 1%nat 0%nat = 1 -> est_long_probs KMNL (exs_Dm X) exs_x 1%nat = 2 / 3.
Proof.
  pose proof ln2_bounds as Hln. intros M0 M1.
  assert (UM : forall i, utility KMNL (exs_Dm X) exs_x i = 0 + X i 0%nat * ln 2 + X i 1%nat * 0) by (intros; reflexivity).
  assert (U0 : utility KMNL (exs_Dm X) exs_x 0%nat = 0) by (rewrite UM, M0; ring).
  assert (U1 : utility KMNL (exs_Dm X) exs_x 1%nat = ln 2) by (rewrite UM, M1; ring).
  unfold exs_Dm in *. rewrite (two_rows KMNL exs_cols exs_mp _ _ _ _ exs_x 1%Z exs_mp_ok eq_refl).
  - rewrite U0, U1, exp_0, exp_ln by lra. field.
  - lia.
  - reflexivity.
  - rewrite U0. lra.
  - rewrite U1. lra.
Qed.

Lemma exs_asym_prob X : X 0%nat 0%nat = 0 -> X 1%nat 0%nat = 0 ->
  est_long_probs (KAsym 0 (Some 0%nat)) (exs_D X) (of_list exs_v) 1%nat <> 2 / 3.
Proof.
  pose proof ln2_bounds as Hln. intros X0 X1.
  assert (EX : forall i, (i < 2)%nat -> X i 0%nat = 0) by (intros [|[|]] Hi; [exact X0|exact X1|lia]).
  assert (T0 : aget (of_list exs_v) 0%nat = 0) by reflexivity.
  assert (ET : aget (of_list exs_v) 1%nat = 1) by (change (ln 2 / ln 2 = 1); field; lra).
  assert (TL : alen (of_list exs_v) = 3%nat) by reflexivity.
  remember (of_list exs_v) as th eqn:Hth. clear Hth.
  assert (U : forall i, (i < 2)%nat -> utility (KAsym 0 (Some 0%nat)) (exs_D X) th i = - ln 2 + (if (i =? 1)%nat then 1 else 0)).
  { intros i Hi. rewrite (utility_row _ _ (alt_of [1; 2]%Z)).
    - assert (C2 : convert_eta_to_c (aslice 0 1 th) 0 (alt_of [1; 2]%Z i) = / 2).
      { rewrite convert_eta_eq. unfold eta_denom. destruct i as [|[|]]; [| |lia]; cbn; rewrite T0, exp_0; field. }
      pose proof (EX i Hi) as EXi.
      unfold Gk, srow, vrow, arow, asym_G, sys_utilities, mvec. cbn [kind_iref].
      replace (d_J (exs_D X)) with 2%nat by reflexivity.
      cbn [Nat.sub]. rewrite C2. unfold exs_D. cbn [data_of d_K d_X sumn]. rewrite EXi.
      replace ((1 - / 2) / (INR 2 - 1)) with (/ 2) by (simpl; field). rewrite ln_Rinv by lra.
      destruct i as [|[|]]; [| |lia]; cbn; rewrite ?ET; destruct (Rle_dec _ _); ring.
    - split; [cbn; lia|]. split; cbn; lia.
    - cbn; lia.
    - apply (data_alt_indicator exs_cols None exs_mp 1 X (Some (fun _ => 1)) None exs_mp_ok). reflexivity.
    - exact Hi. }
  unfold exs_D in *. rewrite (two_rows _ _ _ _ _ _ _ _ 1%Z exs_mp_ok eq_refl);
    [|lia|rewrite TL; reflexivity|rewrite U by lia; cbn; lra|rewrite U by lia; cbn; lra].
  rewrite !U by lia. cbn [Nat.eqb]. rewrite Rplus_0_r, exp_plus, exp_Ropp, exp_ln by lra.
  assert (1 + 1 < exp 1) by (apply exp_ineq1; lra).
  intros C. apply (f_equal (fun z => z * (/ 2 + / 2 * exp 1))) in C.
  replace (/ 2 * exp 1 / (/ 2 + / 2 * exp 1) * (/ 2 + / 2 * exp 1)) with (/ 2 * exp 1) in C by (field; lra). lra.
Qed.

Definition got {A} (r : Res A) : match r with Ok _ => A | Err _ => unit end :=
  match r with Ok a => a | Err _ => tt end.
Definition exs_orig : created := Eval lazy -[IZR Rmult Rplus Rminus Rdiv Rinv ln exp INR]
  in got (create_choice_model exs_frame exs_asym).
Definition exs_mm : created := Eval lazy -[IZR Rmult Rplus Rminus Rdiv Rinv ln exp INR]
  in got (create_choice_model exs_frame (mnl_args exs_orig "obs" exs_mnl_spec None)).
Definition exs_mo : model_obj := mkModel (ClassLogit (KAsym 0 (Some 0%nat))) exs_cols 1 (design_mat (c_design exs_orig)).
Definition exs_mom : model_obj := mkModel (ClassLogit KMNL) exs_cols 2 (design_mat (c_design exs_mm)).

Lemma exs_orig_ok : create_choice_model exs_frame exs_asym = Ok exs_orig.
Proof. reflexivity. Qed.
Lemma exs_mm_ok : create_choice_model exs_frame (mnl_args exs_orig "obs" exs_mnl_spec None) = Ok exs_mm.
Proof. reflexivity. Qed.

Theorem C60_refuted_asym_without_intercept_names :
  exists orig mm s v mo mom e em cols ch lp colsm chm lpm,
    create_choice_model exs_frame exs_asym = Ok orig /\
    create_choice_model exs_frame (mnl_args orig "obs" exs_mnl_spec None) = Ok mm /\
    closest_mnl orig mm (Some 0%nat) /\
    mk_series (c_ind_var_names mm) (alist exs_x) = Ok s /\
    extract_default_init_vals orig s 3 = Ok v /\
    model_obj_of orig = Ok mo /\ model_obj_of mm = Ok mom /\
    create_estimation_obj mo 0 (fun _ _ _ => 0) (of_list v) RidgeNone None WNone = Ok e /\
    create_estimation_obj mom 0 (fun _ _ _ => 0) exs_x RidgeNone None WNone = Ok em /\
    est_probs e (of_list v) = Ok (cols, ch, lp) /\ est_probs em exs_x = Ok (colsm, chm, lpm) /\
    lp 1%nat 0%nat <> lpm 1%nat 0%nat.
Proof.
  exists exs_orig, exs_mm. eexists. exists exs_v, exs_mo, exs_mom. do 8 eexists.
  split; [exact exs_orig_ok|]. split; [exact exs_mm_ok|].
  assert (E0 : (0 * 1 = 0)%R) by ring. assert (E1 : (1 * 1 = 1)%R) by ring.
  split.
  { constructor; [discriminate|]. intros _. cbn. rewrite E0, E1. reflexivity. }
  split; [reflexivity|]. split; [reflexivity|]. split; [reflexivity|]. split; [reflexivity|].
  split; [reflexivity|]. split; [reflexivity|]. split; [reflexivity|]. split; [reflexivity|].
  cbv beta.
  change (est_long_probs (KAsym 0 (Some 0%nat)) (exs_D (mo_X exs_mo)) (of_list exs_v) 1%nat <>
          est_long_probs KMNL (exs_Dm (mo_X exs_mom)) exs_x 1%nat).
  rewrite (exs_mnl_prob (mo_X exs_mom)) by (cbn; ring).
  apply (exs_asym_prob (mo_X exs_mo)); reflexivity.
Qed.

Print Assumptions C60_scobit_and_uneven_start_at_the_mnl.
Print Assumptions C60_asym_starts_at_the_mnl.
Print Assumptions C60_mixed_starts_at_the_mnl.
Print Assumptions C60_refuted_asym_without_intercept_names.
Print Assumptions C79_one_name_per_column.
