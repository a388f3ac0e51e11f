(** Properties C15 (slices of the replicates), C87 and C88: log-likelihoods and gradient
    norms of the replicates. *)
From Coq Require Import String ZArith List Reals Lra Lia Arith.
From Coquelicot Require Import Coquelicot.
From Verif Require Import Res Vec Arr Nd SpecLogit ChoiceCalcs ChoiceFacts Transforms Ids Mappings MappingFacts
  LongData LogitFacts ProbFacts Frame ChoiceTools BaseModel NestedCalcs NestedFacts MixedCalcs MixedFacts PropMixed
  RowDeriv HessFacts Estimation PropProbs PropGradient PropMappings PropDesign PropBaseModel PropNested PropEstimation PropLikelihood
  PropHessian PropFit PropAbc Predict PredictNd PropPredict PropConstruct PropPredictNd PropOwnRows PropRefit BootLogLike.
Import ListNotations.
Open Scope R_scope.

(** ** C15: slices *)

(** The slices of a table of replicates are, row by row, the blocks of the parameter
    vector, in the order predict expects: index, intercepts, shapes, nests. *)
Definition non_empty {A} (l : list A) : option (list A) := match l with [] => None | _ => Some l end.

Definition block (t : rep_table) (lo n : nat) : option nd :=
  if (n =? 0)%nat then None else Some (A2 n (rp_rows t) (fun i r => rp_get t r (lo + i)%nat)).

Lemma slices m t :
  let q := num_names (mn_nests m) in let s := num_names (mn_shapes m) in
  let a := num_names (mn_intercepts m) in let b := length (mn_index m) in
  rp_cols t = (q + s + a + b)%nat ->
  get_param_list_for_prediction m t =
  [block t (q + s + a) b; block t (q + s) a; block t q s; block t 0 q].
Proof.
  intros q s a b H. unfold get_param_list_for_prediction. fold q s a b. cbn [fold_left].
  assert (S : forall lo n acc, (lo + n <= rp_cols t)%nat -> pl_step t (lo, acc) n = ((lo + n)%nat, block t lo n :: acc)).
  { intros lo n acc Hn. unfold pl_step, block. destruct (Nat.eqb_spec n 0) as [->|]; [rewrite Nat.add_0_r; reflexivity|].
    rewrite Nat.min_l by lia. reflexivity. }
  rewrite S by lia. cbn [Nat.add]. rewrite S by lia. rewrite S by lia. rewrite S by lia. reflexivity.
Qed.

Lemma nth_firstn_lt {A} n i (l : list A) d : (i < n)%nat -> nth i (firstn n l) d = nth i l d.
Proof. revert i l. induction n; intros [|i] [|x l] H; try lia; cbn; auto. apply IHn. lia. Qed.
Lemma nth_skipn' {A} n i (l : list A) d : nth i (skipn n l) d = nth (n + i) l d.
Proof. revert l. induction n; intros [|x l]; cbn; auto. destruct i; reflexivity. Qed.

Lemma block_slice P l r lo n (b : list R) :
  (r < length l)%nat -> length b = n -> firstn n (skipn lo (nth r l [])) = b ->
  option_map (fun x => alist (column r x)) (block (reps_of P l) lo n) = non_empty b.
Proof.
  intros Hr Hb E. unfold block. destruct (Nat.eqb_spec n 0) as [->|Hn]; [destruct b; [reflexivity|discriminate]|].
  cbn [option_map column reps_of rp_get]. destruct b as [|x b]; [cbn in Hb; lia|]. cbn [non_empty]. f_equal.
  apply (nth_ext _ _ 0 0).
  - unfold alist. rewrite map_length, seq_length. cbn [alen]. lia.
  - unfold alist. cbn [alen]. rewrite map_length, seq_length. intros i Hi.
    rewrite nth_map_seq0 by exact Hi. cbn [aget]. rewrite <- E.
    rewrite nth_firstn_lt by exact Hi. rewrite nth_skipn'. reflexivity.
Qed.

Theorem C15_bootstrap_slices m l r nests shapes intercepts index :
  length nests = num_names (mn_nests m) -> length shapes = num_names (mn_shapes m) ->
  length intercepts = num_names (mn_intercepts m) -> length index = length (mn_index m) ->
  (r < length l)%nat -> nth r l [] = (nests ++ shapes ++ intercepts ++ index)%list ->
  map (option_map (fun x => alist (column r x)))
    (get_param_list_for_prediction m (reps_of (length (get_param_names m)) l)) =
  [non_empty index; non_empty intercepts; non_empty shapes; non_empty nests].
Proof.
  intros L1 L2 L3 L4 Hr E.
  assert (EP : length (get_param_names m) = (num_names (mn_nests m) + num_names (mn_shapes m) + num_names (mn_intercepts m) + length (mn_index m))%nat).
  { unfold get_param_names, num_names. destruct (mn_intercepts m), (mn_shapes m), (mn_nests m); rewrite ?app_length; lia. }
  rewrite slices by exact EP. rewrite EP. cbn [map]. rewrite <- L1, <- L2, <- L3, <- L4.
  rewrite (block_slice _ l r _ _ index Hr eq_refl).
  2: { rewrite E, !app_assoc, skipn_app, skipn_all2 by (rewrite !app_length; lia). rewrite !app_length.
       replace (_ - _)%nat with 0%nat by lia. cbn [skipn app]. apply firstn_all. }
  rewrite (block_slice _ l r _ _ intercepts Hr eq_refl).
  2: { rewrite E. replace (nests ++ shapes ++ intercepts ++ index)%list with ((nests ++ shapes) ++ intercepts ++ index)%list by (rewrite <- app_assoc; reflexivity).
       rewrite skipn_app, skipn_all2 by (rewrite !app_length; lia). rewrite !app_length.
       replace (_ - _)%nat with 0%nat by lia. cbn [skipn app]. rewrite firstn_app, Nat.sub_diag, firstn_all, firstn_O. apply app_nil_r. }
  rewrite (block_slice _ l r _ _ shapes Hr eq_refl).
  2: { rewrite E, skipn_app, skipn_all2 by lia. replace (_ - _)%nat with 0%nat by lia. cbn [skipn app].
       rewrite firstn_app, Nat.sub_diag, firstn_all, firstn_O. apply app_nil_r. }
  rewrite (block_slice _ l r _ _ nests Hr eq_refl).
  2: { rewrite E. cbn [skipn]. rewrite firstn_app, Nat.sub_diag, firstn_all, firstn_O. apply app_nil_r. }
  reflexivity.
Qed.

(** ** Specification *)

(** The names of the model's parameter blocks, which decide how the columns of the
    replicates are divided, are as many as the blocks have parameters. *)
Definition names_match (c : est_core) (m : model_names) : Prop :=
  let counts q s a b := num_names (mn_nests m) = q /\ num_names (mn_shapes m) = s /\
                        num_names (mn_intercepts m) = a /\ length (mn_index m) = b in
  match c with
  | CoreLogit k D => counts 0%nat (num_shapes k (d_J D)) (num_icpts k (d_J D)) (d_K D)
  | CoreNested E => (0 < n_Q E)%nat /\ counts (n_Q E) 0%nat 0%nat (d_K (n_D E))
  | CoreMixed E => counts 0%nat 0%nat 0%nat (x_vars E)
  end.
Definition num_named (m : model_names) : nat :=
  (num_names (mn_nests m) + num_names (mn_shapes m) + num_names (mn_intercepts m) + length (mn_index m))%nat.

(** The mixing units are the observations: two rows belong to the same unit exactly when
    they belong to the same observation. *)
Definition units_are_observations (d : long_cols) : Prop :=
  mixing_ids_per_row d /\
  forall i i', (i < length (obs_ids d))%nat -> (i' < length (obs_ids d))%nat ->
    nth i (mix_of d) 0%Z = nth i' (mix_of d) 0%Z <-> nth i (obs_ids d) 0%Z = nth i' (obs_ids d) 0%Z.

(** ** One parameter vector *)
Definition ablock (x : arr) (lo n : nat) : option arr := if (n =? 0)%nat then None else Some (aslice lo n x).
Definition vector_list (m : model_names) (x : arr) : list (option arr) :=
  let q := num_names (mn_nests m) in let s := num_names (mn_shapes m) in
  let a := num_names (mn_intercepts m) in let b := length (mn_index m) in
  [ablock x (q + s + a) b; ablock x (q + s) a; ablock x q s; ablock x 0 q].

Lemma block_column t r lo n : option_map (column r) (block t lo n) = ablock (rep_row t r) lo n.
Proof. unfold block, ablock. destruct (n =? 0)%nat; reflexivity. Qed.

Lemma table_column m t r : rp_cols t = num_named m ->
  list_column r (get_param_list_for_prediction m t) = vector_list m (rep_row t r).
Proof. intros H. rewrite slices by exact H. unfold list_column. cbn [map]. rewrite !block_column. reflexivity. Qed.

Lemma one_row m t r : rp_cols t = num_named m -> one_replicate m t r = vector_list m (rep_row t r).
Proof.
  intros H. unfold one_replicate. rewrite slices by exact H. cbn [map]. rewrite !block_column. reflexivity.
Qed.

Lemma table_shaped m t : rp_cols t = num_named m ->
  List.Forall (opt_shaped (Some (rp_rows t))) (get_param_list_for_prediction m t).
Proof.
  intros H. rewrite slices by exact H.
  repeat constructor; unfold block; destruct (_ =? _)%nat; cbn; auto.
Qed.

Lemma elem_block x lo n : elem_of (ablock x lo n) = if (n =? 0)%nat then PNone else PArray [n].
Proof. unfold ablock. destruct (n =? 0)%nat; reflexivity. Qed.

Lemma list_accepted m x : (0 < length (mn_index m))%nat ->
  check_param_list_validity m (Some (map elem_of (vector_list m x))) = Ok tt.
Proof.
  intros H. unfold vector_list. cbn [map]. rewrite !elem_block.
  destruct (Nat.eqb_spec (length (mn_index m)) 0) as [|_]; [lia|].
  unfold check_param_list_validity. cbn [length Nat.eqb bind].
  destruct (Nat.eqb_spec (num_names (mn_intercepts m)) 0), (Nat.eqb_spec (num_names (mn_shapes m)) 0),
    (Nat.eqb_spec (num_names (mn_nests m)) 0);
    cbn [check_type_of_param_list_elements check_dimensional_equality_of_param_list_arrays forallb length Nat.eqb orb andb bind
         check_num_rows_of_parameter_array]; rewrite ?Nat.eqb_refl; cbn [bind]; rewrite ?Nat.eqb_refl; cbn [bind];
    rewrite ?Nat.eqb_refl; cbn [bind]; rewrite ?Nat.eqb_refl; reflexivity.
Qed.

(** The mean over the columns of the chosen probabilities at [x]. *)
Definition mean_chosen (c : est_core) (C : mat) (x : arr) (j : nat) : R :=
  match c with
  | CoreLogit k D => est_chosen_probs k D C x j
  | CoreNested E => nested_chosen_probs E C (naturalize_nest_coefs (aget (fst (nested_split (n_Q E) x)))) (snd (nested_split (n_Q E) x)) j
  | CoreMixed E => row_mean (x_draws E) (chosen_array E C x) j
  end.

Lemma checks_pass_list m f choice d pl :
  long_cols_of (add_intercept_to_dataframe (fm_spec m) f) (fm_obs_col m) (fm_alt_col m) (Some choice) (fm_mix_col m) = Ok d ->
  check_param_list_validity (fm_names m) (Some (map elem_of pl)) = Ok tt ->
  request_independent_checks m f (Some pl) = Ok tt.
Proof.
  intros H Hc. pose proof (checks_pass _ _ _ _ H) as H0. unfold request_independent_checks in *. cbn [option_map].
  destruct (ensure_columns_are_in_dataframe [fm_alt_col m] _); [|discriminate]. cbn [bind] in *.
  destruct (ensure_columns_are_in_dataframe [fm_obs_col m] _); [|discriminate]. cbn [bind] in *.
  destruct (match fm_mix_col m with Some _ => _ | None => _ end); [|discriminate]. cbn [bind] in *. exact Hc.
Qed.

Lemma chosen_ext_scobit ref D C shape a b beta j :
  (ref < d_J D)%nat -> (forall q, (q < d_J D - 1)%nat -> aget a q = aget b q) ->
  chosen_probs (model_of (KScobit (Some ref))) D C shape (Some a) beta j =
  chosen_probs (model_of (KScobit (Some ref))) D C shape (Some b) beta j.
Proof.
  intros Hr H.
  assert (E : forall k, long_exponentials (model_of (KScobit (Some ref))) D shape (Some a) beta k =
                        long_exponentials (model_of (KScobit (Some ref))) D shape (Some b) beta k).
  { intros k. unfold long_exponentials. f_equal. f_equal. cbn [model_of Scobit_model m_transform]. unfold scobit_transform.
    assert (EL : long_intercepts (d_J D) (d_A D) (Some ref) (Some a) k = long_intercepts (d_J D) (d_A D) (Some ref) (Some b) k).
    { unfold long_intercepts, mvec. apply sumn_ext. intros q Hq.
      rewrite (fill_others_ext ref (d_J D) (aget a) (aget b)) by assumption. reflexivity. }
    rewrite EL. reflexivity. }
  unfold chosen_probs. apply (f_equal2 Rdiv).
  - unfold mvec. apply sumn_ext. intros k _. rewrite E. reflexivity.
  - unfold individual_denominators, mvec. apply sumn_ext. intros k _. rewrite E. reflexivity.
Qed.

Lemma predict_vector m f choice mo nd ndo rvs core C x :
  built_from m f choice mo -> positions_valid mo ->
  estimator_core mo nd rvs None (fun _ => 1) = Ok (core, Some C) ->
  names_match core (fm_names m) -> alen x = num_named (fm_names m) ->
  (forall pos, fm_class m = ClassMixed pos -> ndo = Some nd /\ nd <> 1%nat) ->
  exists pc, predict m f (Some (vector_list (fm_names m) x)) false (Some choice) ndo rvs = Ok (ChosenProbs pc) /\
    forall j, pc j = mean_chosen core C x j.
Proof.
  intros (cols & labels & Hd & Hl & EK & EX & Ec) Hpos Hcore Hn Hx Hnd.
  pose proof (design_nonempty _ _ _ _ _ _ Hd) as HK.
  set (d := mo_cols mo) in *. set (nm := fm_names m) in *.
  unfold estimator_core in Hcore. unfold positions_valid in Hpos. fold d in Hcore, Hpos. rewrite Ec in Hcore, Hpos.
  assert (G : (0 < length (mn_index nm))%nat -> forall r mp pr, create_long_form_mappings d (class_nests (fm_class m)) = Ok mp ->
     prediction_params m (Some (vector_list nm x)) = Ok pr ->
     dispatch m cols d mp pr false ndo rvs r ->
     predict m f (Some (vector_list nm x)) false (Some choice) ndo rvs = Ok r).
  { intros Hb r mp pr Hmp Hpr Hr. apply predict_ok. split.
    - apply (checks_pass_list _ _ _ _ _ Hl). apply list_accepted. exact Hb.
    - split; [right; exists choice; reflexivity|]. exists cols, labels, d, mp, pr. repeat split; assumption. }
  unfold dispatch in G. destruct (fm_class m) as [k|t|pos] eqn:Ek; cbn [class_nests] in G.
  - apply bind_ok in Hcore. destruct Hcore as (mp & Hmp & Hcore). injection Hcore as Ecore Ech. rewrite <- Ecore in *.
    destruct (chosen_row_to_obs mp) as [C0|] eqn:EC0; [|discriminate]. cbn [option_map] in Ech. injection Ech as <-.
    set (D := data_of d mp (mo_K mo) (mo_X mo) (@Some vec (fun _ => 1)) None) in *.
    assert (EJ : d_J D = length (np_unique (alt_ids d))) by (apply (data_J _ _ _ _ _ _ _ Hmp)).
    rewrite <- EJ in Hpos. cbn [names_match] in Hn. destruct Hn as (N1 & N2 & N3 & N4).
    unfold num_named in Hx. rewrite N1, N2, N3, N4 in Hx. cbn [Nat.add] in Hx.
    assert (HK' : (0 < d_K D)%nat) by (change (d_K D) with (mo_K mo); lia).
    assert (EV : vector_list nm x = [Some (be k (d_J D) (d_K D) x); ic k (d_J D) x; ablock x 0 (num_shapes k (d_J D)); None]).
    { unfold vector_list. rewrite N1, N2, N3, N4. cbn [Nat.add]. unfold ablock at 1 2 4. cbn [Nat.eqb].
      destruct (Nat.eqb_spec (d_K D) 0); [lia|]. unfold be, ic.
      destruct (Nat.eqb_spec (num_icpts k (d_J D)) 0) as [->|Hne]; [reflexivity|].
      destruct (Nat.ltb_spec 0 (num_icpts k (d_J D))); [reflexivity|lia]. }
    assert (ES : ablock x 0 (num_shapes k (d_J D)) = sh k (d_J D) x).
    { unfold ablock, sh. destruct Hpos as (P0 & P1 & P2). destruct (Nat.eqb_spec (num_shapes k (d_J D)) 0) as [E0|E0]; destruct k; cbn [LogitFacts.has_shape num_shapes] in *; try reflexivity; lia. }
    rewrite ES in EV.
    assert (PI : exists ic', place_intercepts k (d_J D) (ic k (d_J D) x) = Ok ic' /\
       forall i, chosen_probs (model_of k) D (smat_R C0) (sh k (d_J D) x) ic' (be k (d_J D) (d_K D) x) i =
                 chosen_probs (model_of k) D (smat_R C0) (sh k (d_J D) x) (ic k (d_J D) x) (be k (d_J D) (d_K D) x) i).
    { destruct Hpos as (P0 & P1 & P2). unfold ic.
      destruct (Nat.ltb_spec 0 (num_icpts k (d_J D))) as [Hn0|Hn0].
      - unfold num_icpts in *. destruct k as [|r|r|r|s r]; cbn [kind_iref] in *; try lia; destruct r as [ref|]; try lia;
          unfold place_intercepts; cbn [kind_iref alen aslice];
          try (destruct (Nat.ltb_spec ref (d_J D)); [|lia]; cbn [negb]; rewrite Nat.eqb_refl; eexists; split; [reflexivity|]; intros; reflexivity).
        destruct (Nat.leb_spec ref (d_J D - 1)); [|lia]. cbn [negb].
        assert (EB : (if (ref =? d_J D - 1)%nat then d_J D - 1 <=? d_J D else d_J D - 1 <? d_J D)%nat = true).
        { destruct (_ =? _)%nat; [apply Nat.leb_le; lia|apply Nat.ltb_lt; lia]. }
        rewrite EB. eexists. split; [reflexivity|]. intros i. apply chosen_ext_scobit; [exact P1|].
        intros q Hq. cbn [aget]. destruct (Nat.ltb_spec q (d_J D - 1)); [reflexivity|lia].
      - exists None. split; [|reflexivity]. unfold place_intercepts. destruct k as [|[r|]|[r|]|[r|]|s [r|]]; reflexivity. }
    destruct PI as (ic' & PI & EP).
    assert (CS : check_shapes k (d_J D) (sh k (d_J D) x) = Ok tt).
    { unfold sh, check_shapes. destruct Hpos as (P0 & P1 & P2). destruct k as [|r|r|r|s r]; cbn [LogitFacts.has_shape num_shapes alen aslice];
        try reflexivity; try (rewrite Nat.eqb_refl; reflexivity).
      destruct (Nat.leb_spec s (d_J D - 1)); [|lia]. cbn [negb]. destruct (Nat.eqb_spec (d_J D - 1 + 1) (d_J D)); [reflexivity|lia]. }
    exists (chosen_probs (model_of k) D (smat_R C0) (sh k (d_J D) x) ic' (be k (d_J D) (d_K D) x)). split.
    + eapply (G ltac:(lia) _ mp). { exact Hmp. } { rewrite EV. reflexivity. }
      rewrite EC0. cbn [option_map]. unfold predict_logit.
      assert (EB : (alen (be k (d_J D) (d_K D) x) =? length cols)%nat = true).
      { cbn [be aslice alen]. change (d_K D) with (mo_K mo). rewrite EK. apply Nat.eqb_refl. }
      cbn [pr_coefs pr_intercepts pr_shapes]. cbn [data_of d_K d_J rows_to_alts]. change (s_cols (rows_to_alts mp)) with (d_J D).
      change (mo_K mo) with (d_K D). rewrite EB, PI. cbn [bind]. rewrite CS. cbn [bind calc_probabilities].
      f_equal. f_equal. unfold D. rewrite EK, EX. reflexivity.
    + intros i. rewrite EP. cbn [mean_chosen]. unfold est_chosen_probs. rewrite split_eq by assumption. reflexivity.
  - apply bind_ok in Hcore. destruct Hcore as (mp & Hmp & Hcore). apply bind_ok in Hcore. destruct Hcore as (rn & Hrn & Hcore).
    injection Hcore as Ecore Ech. rewrite <- Ecore in *.
    destruct (chosen_row_to_obs mp) as [C0|] eqn:EC0; [|discriminate]. cbn [option_map] in Ech. injection Ech as <-.
    cbn [names_match n_Q n_D data_of d_K] in Hn. destruct Hn as (N0 & N1 & N2 & N3 & N4).
    unfold num_named in Hx. rewrite N1, N2, N3, N4 in Hx.
    assert (Er : rows_to_nests mp = Some rn).
    { unfold opt_smat in Hrn. destruct (rows_to_nests mp); [|discriminate]. injection Hrn as ->. reflexivity. }
    cbn [mean_chosen n_Q nested_split fst snd].
    eexists. split.
    + eapply (G ltac:(lia) _ mp). { exact Hmp. }
      { unfold vector_list. rewrite N1, N2, N3, N4, !Nat.add_0_r. unfold ablock at 1. destruct (Nat.eqb_spec (mo_K mo) 0); [lia|]. reflexivity. }
      exists rn. split; [exact Er|]. unfold predict_nested. cbn [pr_nests pr_coefs n_Q n_D data_of d_K].
      unfold ablock. destruct (Nat.eqb_spec (s_cols rn) 0) as [E0|E0]; [lia|].
      cbn [alen aslice]. rewrite Nat.eqb_refl. cbn [bind]. rewrite EK, Nat.eqb_refl. cbn [bind].
      rewrite EC0. cbn [option_map calc_nested_probs bind]. reflexivity.
    + intros i. cbn beta. replace (alen x - s_cols rn)%nat with (mo_K mo) by lia. rewrite EX, EK. reflexivity.
  - apply bind_ok in Hcore. destruct Hcore as (mp & Hmp & Hcore). apply bind_ok in Hcore. destruct Hcore as (rm & Hrm & Hcore).
    apply bind_ok in Hcore. destruct Hcore as (dr & Hdr & Hcore). apply bind_ok in Hcore. destruct Hcore as (E & HE & Hcore).
    injection Hcore as Ecore Ech. rewrite <- Ecore in *.
    destruct (chosen_row_to_obs mp) as [C0|] eqn:EC0; [|discriminate]. cbn [option_map] in Ech. injection Ech as <-.
    cbn [names_match] in Hn. destruct Hn as (N1 & N2 & N3 & N4).
    unfold num_named in Hx. rewrite N1, N2, N3, N4 in Hx. cbn [Nat.add] in Hx.
    destruct (mixed_setup _ _ _ _ _ _ _ _ _ HE) as (mp1 & Hmp1 & ED & ER & EV & _).
    unfold mixed_data_of in HE. rewrite Hmp in HE. cbn [bind] in HE.
    unfold opt_smat in Hrm. destruct (rows_to_mixers mp) as [rm'|] eqn:Erm; [|discriminate]. injection Hrm as ->.
    apply bind_ok in HE. destruct HE as (x3 & Hx3 & HE). injection HE as <-. cbn [x_draws x_vars] in *.
    destruct (Hnd pos eq_refl) as [-> Hnd1].
    eexists. split.
    + eapply (G ltac:(lia) _ mp). { exact Hmp. }
      { unfold vector_list. rewrite N1, N2, N3, N4. cbn [Nat.add]. unfold ablock. cbn [Nat.eqb].
        destruct (Nat.eqb_spec (fst x3) 0); [lia|]. reflexivity. }
      unfold predict_mixed. rewrite Erm. cbn [opt_smat bind].
      rewrite Hdr. cbn [bind]. unfold mixed_data_of. rewrite Hmp. cbn [bind].
      rewrite Erm. rewrite <- EK, <- EX, Hx3. cbn [bind pr_coefs x_vars aslice alen]. rewrite Nat.eqb_refl. cbn [bind].
      rewrite EC0. cbn [option_map mixed_predict x_draws]. destruct (Nat.eqb_spec nd 1) as [->|_]; [exfalso; exact (Hnd1 eq_refl)|].
      reflexivity.
    + intros i. cbn [mean_chosen x_draws]. destruct x as [n v]. cbn [alen] in Hx. subst n. reflexivity.
Qed.

(** ** Its log-likelihood *)
Lemma ll_by_obs d (p ch : vec) :
  exactly_one_choice d ->
  (forall j i, (j < length (first_seen (obs_ids d)))%nat -> (i < length (obs_ids d))%nat ->
     nth i (obs_ids d) 0%Z = nth j (first_seen (obs_ids d)) 0%Z -> choice_vec d i = 1 -> ch j = p i) ->
  sumn (length (obs_ids d)) (fun i => choice_vec d i * ln (p i)) =
  sumn (length (first_seen (obs_ids d))) (fun j => ln (ch j)).
Proof.
  intros (c & Ec & H01 & Hex) H. rewrite sumn_by_ids, suml_seq. apply sumn_ext. intros j Hj.
  assert (Hc : forall r, choice_vec d r = IZR (nth r c 0%Z)) by (intros r; unfold choice_vec; rewrite Ec; reflexivity).
  destruct (Hex (nth j (first_seen (obs_ids d)) 0%Z)) as (i & Hi & Ei & Ci & Hu).
  { apply first_seen_In, nth_In. exact Hj. }
  rewrite (id_sum_single _ _ _ i Hi Ei).
  - rewrite (H j i Hj Hi Ei), Hc, Ci by (rewrite Hc, Ci; reflexivity). ring.
  - intros i' Hi' E' Hne. destruct (H01 i' Hi') as [Z0|Z1]; [rewrite Hc, Z0; ring|].
    exfalso. apply Hne. apply Hu; assumption.
Qed.

(** Two columns of identifiers with the same groups number their groups alike. *)
Lemma first_seen_map g l : (forall x y, In x l -> In y l -> g x = g y -> x = y) ->
  first_seen (map g l) = map g (first_seen l).
Proof.
  induction l as [|a l IH]; intros H; [reflexivity|]. cbn [map first_seen]. f_equal.
  rewrite IH by (intros x y Hx Hy; apply H; right; assumption). clear IH.
  assert (HF : forall z, In z (first_seen l) -> In z l) by (intros z Hz; apply first_seen_In; exact Hz).
  revert HF. induction (first_seen l) as [|z f IHf]; intros HF; [reflexivity|]. cbn [map filter].
  assert (E : (g z =? g a)%Z = (z =? a)%Z).
  { destruct (Z.eqb_spec z a) as [->|Hne]; [apply Z.eqb_refl|]. apply Z.eqb_neq. intros Hg. apply Hne.
    apply H; [right; apply HF; left; reflexivity|left; reflexivity|exact Hg]. }
  rewrite E. destruct (z =? a)%Z; cbn [negb map]; rewrite IHf by (intros; apply HF; right; assumption); reflexivity.
Qed.

Lemma index_of_map g l x : (forall y, In y l -> g x = g y -> x = y) -> index_of (g x) (map g l) = index_of x l.
Proof.
  induction l as [|a l IH]; intros H; [reflexivity|]. cbn [map index_of].
  destruct (Z.eqb_spec x a) as [->|Hne]; [rewrite Z.eqb_refl; reflexivity|].
  destruct (Z.eqb_spec (g x) (g a)) as [Hg|_]; [exfalso; apply Hne, H; [left; reflexivity|exact Hg]|].
  f_equal. apply IH. intros y Hy. apply H. right. exact Hy.
Qed.

Lemma same_groups a b : length a = length b ->
  (forall i i', (i < length a)%nat -> (i' < length a)%nat -> nth i a 0%Z = nth i' a 0%Z <-> nth i b 0%Z = nth i' b 0%Z) ->
  length (first_seen a) = length (first_seen b) /\ forall i, (i < length a)%nat -> own_of a i = own_of b i.
Proof.
  intros HL H. set (g := fun z => nth (index_of z a) b 0%Z).
  assert (Hg : forall i, (i < length a)%nat -> g (nth i a 0%Z) = nth i b 0%Z).
  { intros i Hi. unfold g. apply (H (index_of (nth i a 0%Z) a) i); [apply index_of_lt, nth_In; exact Hi|exact Hi|].
    apply nth_index_of, nth_In. exact Hi. }
  assert (Eb : b = map g a).
  { apply (nth_ext _ _ 0%Z (g 0%Z)); [rewrite map_length; auto|]. intros i Hi. rewrite map_nth. rewrite Hg by lia. reflexivity. }
  assert (Hinj : forall x y, In x a -> In y a -> g x = g y -> x = y).
  { intros x y Hx Hy E. apply (In_nth _ _ 0%Z) in Hx. apply (In_nth _ _ 0%Z) in Hy.
    destruct Hx as (i & Hi & <-), Hy as (i' & Hi' & <-). rewrite !Hg in E by assumption. apply H; assumption. }
  split.
  - rewrite Eb, first_seen_map, map_length by exact Hinj. reflexivity.
  - intros i Hi. unfold own_of. rewrite <- (Hg i Hi). rewrite Eb at 1. rewrite first_seen_map by exact Hinj.
    symmetry. apply index_of_map. intros y Hy. apply Hinj; [apply nth_In; exact Hi|apply first_seen_In; exact Hy].
Qed.

Lemma log_likelihood_of_vector mo nd rvs core C x :
  estimator_core mo nd rvs None (fun _ => 1) = Ok (core, Some C) ->
  exactly_one_choice (mo_cols mo) -> positions_valid mo -> (0 < mo_K mo)%nat ->
  (forall k D, core = CoreLogit k D -> alen x = (num_shapes k (d_J D) + num_icpts k (d_J D) + d_K D)%nat) ->
  (forall pos, mo_class mo = ClassMixed pos -> (1 < nd)%nat /\ units_are_observations (mo_cols mo)) ->
  est_ll core x = sumn (length (first_seen (obs_ids (mo_cols mo)))) (fun j => ln (mean_chosen core C x j)).
Proof.
  intros Hcore Hone Hpos HK Hx Hmix. set (d := mo_cols mo) in *. unfold estimator_core in Hcore. fold d in Hcore.
  destruct (mo_class mo) as [k|t|pos] eqn:Ec.
  - apply bind_ok in Hcore. destruct Hcore as (mp & Hmp & Hcore). injection Hcore as Ecore Ech.
    destruct (chosen_row_to_obs mp) as [C0|] eqn:EC0; [|discriminate]. cbn [option_map] in Ech. injection Ech as <-.
    subst core. set (D := data_of d mp (mo_K mo) (mo_X mo) (@Some vec (fun _ => 1)) None) in *.
    specialize (Hx k D eq_refl). cbn [est_ll mean_chosen].
    rewrite est_ll_eq by (try exact HK; exact Hx). unfold ridge_or_0. cbn [D data_of d_ridge].
    rewrite Rmult_0_l, Rminus_0_r. change (d_N _) with (length (obs_ids d)). change (d_y _) with (choice_vec d).
    rewrite (sumn_ext _ _ (fun i => choice_vec d i * ln (long_probs (model_of k) D (sh k (d_J D) x) (ic k (d_J D) x) (be k (d_J D) (d_K D) x) i))).
    2: { intros i _. change (eff_weights _ i) with 1. rewrite Rmult_1_l. reflexivity. }
    rewrite (ll_by_obs d _ (est_chosen_probs k D (smat_R C0) x) Hone); [reflexivity|].
    intros j i Hj Hi Eo Hy. unfold est_chosen_probs. rewrite split_eq by (try exact HK; exact Hx).
    apply (C19_chosen_probs_are_long_probs (model_of k) d None mp (mo_K mo) (mo_X mo) (@Some vec (fun _ => 1)) None
      (sh k (d_J D) x) (ic k (d_J D) x) (be k (d_J D) (d_K D) x) C0
      (chosen_probs (model_of k) D (smat_R C0) (sh k (d_J D) x) (ic k (d_J D) x) (be k (d_J D) (d_K D) x))); auto.
  - apply bind_ok in Hcore. destruct Hcore as (mp & Hmp & Hcore). apply bind_ok in Hcore. destruct Hcore as (rn & Hrn & Hcore).
    injection Hcore as Ecore Ech.
    destruct (chosen_row_to_obs mp) as [C0|] eqn:EC0; [|discriminate]. cbn [option_map] in Ech. injection Ech as <-.
    subst core. change (mkNData _ _ _) with (ndata_of d mp rn (mo_K mo) (mo_X mo) (@Some vec (fun _ => 1)) None).
    set (E := ndata_of d mp rn (mo_K mo) (mo_X mo) (@Some vec (fun _ => 1)) None). cbn [est_ll mean_chosen nested_est_log_likelihood].
    unfold nested_est_log_likelihood. destruct (nested_split (n_Q E) x) as [orig beta]. cbn [fst snd].
    unfold calc_nested_log_likelihood. change (d_ridge (n_D E)) with (@None R). unfold vdot.
    change (d_N _) with (length (obs_ids d)). change (d_y _) with (choice_vec d).
    rewrite (sumn_ext _ _ (fun i => choice_vec d i * ln (nested_long_probs E (naturalize_nest_coefs (aget orig)) beta i))).
    2: { intros i _. change (eff_weights _ i) with 1. rewrite Rmult_1_l. reflexivity. }
    apply ll_by_obs; [exact Hone|]. intros j i Hj Hi Eo Hy.
    apply (nested_chosen_row d t mp rn (mo_K mo) (mo_X mo) (@Some vec (fun _ => 1)) None (naturalize_nest_coefs (aget orig)) beta C0
      (nested_chosen_probs E (smat_R C0) (naturalize_nest_coefs (aget orig)) beta)); auto.
  - apply bind_ok in Hcore. destruct Hcore as (mp & Hmp & Hcore). apply bind_ok in Hcore. destruct Hcore as (rm & Hrm & Hcore).
    apply bind_ok in Hcore. destruct Hcore as (dr & Hdr & Hcore). apply bind_ok in Hcore. destruct Hcore as (E & HE & Hcore).
    injection Hcore as Ecore Ech.
    destruct (chosen_row_to_obs mp) as [C0|] eqn:EC0; [|discriminate]. cbn [option_map] in Ech. injection Ech as <-. subst core.
    destruct (Hmix pos eq_refl) as (Hnd & HL & Hsame). cbn [est_ll mean_chosen].
    pose proof (mixed_own _ _ _ _ _ _ _ _ _ HE) as HO. pose proof (mixed_unit _ _ _ _ _ _ _ _ _ HE HL) as HU.
    pose proof (mixed_N _ _ _ _ _ _ _ _ _ HE) as HN.
    destruct (mixed_setup _ _ _ _ _ _ _ _ _ HE) as (mp' & Hmp' & ED & Er & EV & Em & _).
    rewrite Hmp in Hmp'. injection Hmp' as <-.
    assert (HR1 : x_draws E <> 1%nat) by lia.
    assert (Huw : unit_weights d (@Some vec (fun _ => 1)) (fun _ => 1)) by (intros i _; split; [reflexivity|lra]).
    rewrite (mll_eq E _ HU HR1 (fun _ => 1) (unit_Wu d _ _ pos nd dr _ None E (fun _ => 1) HE HL Huw)).
    replace (mridge E) with 0 by (unfold mridge; rewrite ED; reflexivity). rewrite Rmult_0_l, Rminus_0_r, Em.
    unfold mixing_ids_per_row in HL.
    destruct (same_groups (mix_of d) (obs_ids d) HL ltac:(rewrite HL; exact Hsame)) as [Hlen Hown]. rewrite HL in Hown.
    rewrite Hlen. apply sumn_ext. intros j Hj. rewrite Rmult_1_l. f_equal. unfold sim, row_mean. f_equal.
    apply sumn_ext. intros r Hr. unfold lseq. rewrite HN, ED. change (d_y _) with (choice_vec d).
    destruct Hone as (c & Ech & H01 & Hex).
    assert (Hc : forall q, choice_vec d q = IZR (nth q c 0%Z)) by (intros q; unfold choice_vec; rewrite Ech; reflexivity).
    destruct (Hex (nth j (first_seen (obs_ids d)) 0%Z)) as (i & Hi & Ei & Ci & Hu).
    { apply first_seen_In, nth_In. exact Hj. }
    assert (Eown : own_of (obs_ids d) i = j) by (unfold own_of; rewrite Ei; apply index_of_nth; [apply first_seen_NoDup|exact Hj]).
    transitivity (prob_array E x i r).
    + rewrite <- (exp_ln (prob_array E x i r)) by (apply (pa_pos E _ HO); rewrite HN; exact Hi). f_equal. unfold osum.
      rewrite <- (sumn_single (length (obs_ids d)) i (fun i => ln (prob_array E x i r))) by exact Hi. apply sumn_ext. intros q Hq.
      rewrite Hown by exact Hq. rewrite Hc.
      destruct (Nat.eqb_spec q i) as [->|Hne]; [rewrite Eown, Nat.eqb_refl, Ci; ring|].
      destruct (Nat.eqb_spec (own_of (obs_ids d) q) j) as [Eq|]; [|reflexivity].
      destruct (H01 q Hq) as [Z0|Z1]; [rewrite Z0; ring|]. exfalso. apply Hne. apply Hu; [exact Hq| |exact Z1].
      rewrite <- Ei. apply (own_of_eq (obs_ids d)); [exact Hq|exact Hi|]. rewrite Eq, Eown. reflexivity.
    + symmetry. unfold chosen_array, prob_array.
      assert (Ed : draw_data E r = data_of d mp (x_vars E) (fun i k => x_X E i r k) (@Some vec (fun _ => 1)) None)
        by (unfold draw_data; rewrite ED; reflexivity).
      rewrite Ed.
      apply (C19_chosen_probs_are_long_probs MNL_model d None mp (x_vars E) (fun i k => x_X E i r k) (@Some vec (fun _ => 1)) None None None x C0
        (chosen_probs MNL_model (data_of d mp (x_vars E) (fun i k => x_X E i r k) (@Some vec (fun _ => 1)) None) (smat_R C0) None None x)); auto.
      * exists c. auto.
      * rewrite Hc, Ci. reflexivity.
Qed.

Lemma mapM_seq {B} (g : nat -> Res B) (P : nat -> B -> Prop) n lo :
  (forall r, (lo <= r < lo + n)%nat -> exists b, g r = Ok b /\ P r b) ->
  exists bs, mapM g (seq lo n) = Ok bs /\ length bs = n /\ forall r d, (r < n)%nat -> P (lo + r)%nat (nth r bs d).
Proof.
  revert lo. induction n as [|n IH]; intros lo H; [exists []; repeat split; intros; lia|].
  destruct (H lo ltac:(lia)) as (b & Eb & Pb). destruct (IH (S lo)) as (bs & Ebs & L & Hbs); [intros r Hr; apply H; lia|].
  exists (b :: bs). cbn [seq mapM]. rewrite Eb. cbn [bind]. rewrite Ebs. cbn [bind length]. split; [reflexivity|]. split; [lia|].
  intros [|r] d Hr; [rewrite Nat.add_0_r; exact Pb|]. cbn [nth]. rewrite <- Nat.add_succ_comm. apply Hbs. lia.
Qed.

(** ** C87 *)

(** The parameter vectors are handed to predict all at once.  It accepts [n] of them for
    models with [J] alternatives (C86): two or more, or one for models that add nothing
    to the systematic utilities; never for a scobit model without outside intercepts. *)
Definition handled_at_once (k : logit_kind) (J n : nat) : Prop :=
  match k with
  | KMNL | KClog None | KUneven None => (1 <= n)%nat
  | KScobit None => False
  | KScobit (Some _) => (2 <= n)%nat /\ (2 <= J)%nat
  | _ => (2 <= n)%nat
  end.

Lemma reported_values m f choice mo nd num_draws rvs core C0 boots jacks which t :
  built_from m f choice mo -> positions_valid mo -> exactly_one_choice (mo_cols mo) ->
  estimator_core mo nd rvs None (fun _ => 1) = Ok (core, Some C0) -> names_match core (fm_names m) ->
  replicates_named which boots jacks = Ok t -> rp_cols t = length (get_param_names (fm_names m)) -> (0 < rp_rows t)%nat ->
  (forall k D, core = CoreLogit k D -> handled_at_once k (d_J D) (rp_rows t)) ->
  (forall pos, fm_class m = ClassMixed pos ->
     num_draws = Some nd /\ (1 < nd)%nat) ->
  exists ll, calc_log_likes_for_replicates m f choice boots jacks which num_draws (fun _ => rvs) = Ok ll /\
    alen ll = rp_rows t /\
    forall r, (r < rp_rows t)%nat -> aget ll r =
      sumn (length (first_seen (obs_ids (mo_cols mo)))) (fun j => ln (mean_chosen core C0 (rep_row t r) j)).
Proof.
  intros Hb Hpos Hone Hcore Hn Ht HP HR Hk Hmix.
  assert (EP : length (get_param_names (fm_names m)) = num_named (fm_names m)).
  { unfold get_param_names, num_named, num_names. destruct (mn_intercepts _), (mn_shapes _), (mn_nests _); rewrite ?app_length; lia. }
  rewrite EP in HP.
  assert (HV : forall r, exists pc,
     predict m f (Some (vector_list (fm_names m) (rep_row t r))) false (Some choice) num_draws rvs = Ok (ChosenProbs pc) /\
     forall j, pc j = mean_chosen core C0 (rep_row t r) j).
  { intros r. apply (predict_vector m f choice mo nd num_draws rvs core C0 (rep_row t r)); try assumption.
    intros pos Ep. destruct (Hmix pos Ep) as (H1 & H2). split; [exact H1|lia]. }
  destruct Hb as (cols & labels & Hd & Hl & EK & EX & Ec).
  pose proof (design_nonempty _ _ _ _ _ _ Hd) as HK. rewrite <- EK in HK.
  destruct (cols_of_ok _ _ _ _ _ _ Hl) as (Ho & _). pose proof Ho as Ho'. rewrite int_col_add_intercept in Ho'.
  set (d := mo_cols mo) in *.
  unfold calc_log_likes_for_replicates. rewrite Ht. cbn [bind].
  assert (R : exists ll, (do cs <- mapM (fun r => do p <- predict m f (Some (one_replicate (fm_names m) t r)) false (Some choice) num_draws rvs;
      match p with ChosenProbs c => Ok c | _ => Err TypeError end) (seq 0 (rp_rows t));
      do _ <- (if (rp_rows t =? 0)%nat then Err ValueError else Ok tt); do ids <- int_col f (fm_obs_col m);
      Ok (log_sum0 (A2 (length (first_seen ids)) (rp_rows t) (fun i r => nth r cs (fun _ => 0) i)))) = Ok ll /\
      alen ll = rp_rows t /\ forall r, (r < rp_rows t)%nat -> aget ll r =
      sumn (length (first_seen (obs_ids (mo_cols mo)))) (fun j => ln (mean_chosen core C0 (rep_row t r) j))).
  { destruct (mapM_seq (fun r => do p <- predict m f (Some (one_replicate (fm_names m) t r)) false (Some choice) num_draws rvs;
        match p with ChosenProbs c => Ok c | _ => Err TypeError end)
        (fun r (c : vec) => forall j, c j = mean_chosen core C0 (rep_row t r) j) (rp_rows t) 0) as (cs & -> & Lcs & Hcs).
    { intros r _. rewrite one_row by exact HP. destruct (HV r) as (pc & -> & Hpc). exists pc. auto. }
    cbn [bind]. destruct (Nat.eqb_spec (rp_rows t) 0); [lia|]. cbn [bind].
    rewrite Ho'. cbn [bind]. eexists. split; [reflexivity|]. split; [reflexivity|]. intros r Hr. cbn [log_sum0 aget].
    apply sumn_ext. intros j Hj. f_equal. apply (Hcs r _ Hr). }
  destruct (fm_class m) as [k|tn|pos] eqn:Ek; [|exact R|exact R].
  - assert (ED : exists D, core = CoreLogit k D).
    { unfold estimator_core in Hcore. rewrite Ec in Hcore. apply bind_ok in Hcore. destruct Hcore as (mp & _ & Hcore).
      injection Hcore as <- _. eexists. reflexivity. }
    destruct ED as [D ED]. specialize (Hk k D ED). subst core. destruct Hn as (N1 & N2 & N3 & N4).
    set (pl := get_param_list_for_prediction (fm_names m) t).
    assert (Hcol : forall r, exists pc,
       predict m f (Some (list_column r pl)) false (Some choice) num_draws rvs = Ok (ChosenProbs pc) /\
       forall j, pc j = mean_chosen (CoreLogit k D) C0 (rep_row t r) j).
    { intros r. unfold pl. rewrite table_column by exact HP. apply HV. }
    assert (Hsh : List.Forall (opt_shaped (Some (rp_rows t))) pl) by (apply table_shaped; exact HP).
    assert (Hi : nth 1 pl None = block t (num_names (mn_nests (fm_names m)) + num_names (mn_shapes (fm_names m))) (num_names (mn_intercepts (fm_names m)))).
    { unfold pl. rewrite slices by exact HP. reflexivity. }
    rewrite N3 in Hi.
    destruct (Nat.le_gt_cases 2 (rp_rows t)) as [H2|H2].
    + assert (Hsc : forall iref, k = KScobit iref -> iref <> None /\ nth 1 pl None <> None).
      { intros [ref|] ->; [|contradiction]. split; [discriminate|]. rewrite Hi. unfold block. cbn [num_icpts kind_iref].
        cbn in Hk. destruct (Nat.eqb_spec (d_J D - 1) 0); [lia|discriminate]. }
      destruct (C86_several_vectors_partial k m f pl false (Some choice) num_draws rvs (rp_rows t) Ek H2 Hsh Hsc) as [A B].
      destruct (Hcol 0%nat) as (pc0 & Hp0 & _). destruct (B 0%nat _ ltac:(lia) Hp0) as [res Hres].
      destruct (A res Hres) as [Hshape Hcols]. rewrite Hres. cbn [bind].
      specialize (Hshape _ Ho').
      destruct (Hcols 0%nat ltac:(lia)) as (p0 & Hp0' & Hc0). rewrite Hp0 in Hp0'. injection Hp0' as <-.
      destruct res as [ch lo|lo|ch]; try contradiction. cbn [result_shape] in Hshape. destruct Hshape as [Hs1 Hs2].
      destruct ch as [n v|n w v]; [contradiction|]. cbn in Hs1, Hs2. subst n w.
      eexists. split; [reflexivity|]. split; [reflexivity|]. intros r Hr. cbn [log_sum0 aget].
      apply sumn_ext. intros j Hj. f_equal. destruct (Hcols r Hr) as (p & Hp & Hc). destruct (Hcol r) as (pc & Hp' & Hpc).
      rewrite Hp in Hp'. injection Hp' as ->. cbn in Hc. rewrite <- Hpc. apply Hc. exact Hj.
    + assert (H1 : rp_rows t = 1%nat) by lia.
      assert (Hki : match k with KMNL => True | KClog iref | KUneven iref => iref = None \/ nth 1 pl None = None | _ => False end).
      { destruct k as [|[r|]|[r|]|[r|]|s r]; cbn in Hk; auto; lia. }
      rewrite H1 in Hsh.
      destruct (C86_one_column_partial k m f pl false (Some choice) num_draws rvs Ek Hsh Hki) as [A B].
      destruct (Hcol 0%nat) as (pc0 & Hp0 & Hpc). destruct (B _ Hp0) as [res Hres].
      destruct (A res Hres) as (Hshape & p0 & Hp0' & Hc0). rewrite Hres. cbn [bind].
      specialize (Hshape _ Ho'). rewrite Hp0 in Hp0'. injection Hp0' as <-.
      destruct res as [ch lo|lo|ch]; try contradiction. cbn [result_shape] in Hshape. destruct Hshape as [Hs1 Hs2].
      destruct ch as [n v|n w v]; [|contradiction]. cbn in Hs2. subst n.
      eexists. split; [reflexivity|]. cbn [log_sum0 alen aget]. rewrite H1. split; [reflexivity|]. intros r Hr.
      assert (r = 0%nat) by lia. subst r.
      apply sumn_ext. intros j Hj. f_equal. rewrite <- Hpc. apply Hc0. exact Hj.
Qed.

(** For every type of model: when the column names divide the replicates as the
    estimator does, each replicate's reported value is the log-likelihood of the model on
    its table at that replicate (without ridge penalty and weights), the function fit_mle
    maximises.  For a mixed logit this needs more than one draw and mixing units that are
    single observations. *)
Theorem C87_replicate_log_likelihoods_partial m f choice mo nd num_draws rvs core C boots jacks which t :
  built_from m f choice mo -> positions_valid mo -> exactly_one_choice (mo_cols mo) ->
  estimator_core mo nd rvs None (fun _ => 1) = Ok (core, C) -> names_match core (fm_names m) ->
  replicates_named which boots jacks = Ok t -> rp_cols t = length (get_param_names (fm_names m)) -> (0 < rp_rows t)%nat ->
  (forall k D, core = CoreLogit k D -> handled_at_once k (d_J D) (rp_rows t)) ->
  (forall pos, fm_class m = ClassMixed pos ->
     num_draws = Some nd /\ (1 < nd)%nat /\ units_are_observations (mo_cols mo)) ->
  exists ll, calc_log_likes_for_replicates m f choice boots jacks which num_draws (fun _ => rvs) = Ok ll /\
    alen ll = rp_rows t /\
    forall r, (r < rp_rows t)%nat -> aget ll r = est_ll core (rep_row t r).
Proof.
  intros Hb Hpos Hone Hcore Hn Ht HP HR Hk Hmix.
  assert (HC : exists C0, C = Some C0).
  { destruct Hone as (c & Ech & _). unfold estimator_core in Hcore. destruct (mo_class mo).
    - apply bind_ok in Hcore. destruct Hcore as (mp & Hmp & Hcore). injection Hcore as _ <-.
      destruct (mappings_ok _ _ _ Hmp) as (_ & _ & E). rewrite E, Ech. eexists. reflexivity.
    - apply bind_ok in Hcore. destruct Hcore as (mp & Hmp & Hcore). apply bind_ok in Hcore. destruct Hcore as (rn & _ & Hcore).
      injection Hcore as _ <-. destruct (mappings_ok _ _ _ Hmp) as (_ & _ & E). rewrite E, Ech. eexists. reflexivity.
    - apply bind_ok in Hcore. destruct Hcore as (mp & Hmp & Hcore). apply bind_ok in Hcore. destruct Hcore as (rm & _ & Hcore).
      apply bind_ok in Hcore. destruct Hcore as (dr & _ & Hcore). apply bind_ok in Hcore. destruct Hcore as (E & _ & Hcore).
      injection Hcore as _ <-. destruct (mappings_ok _ _ _ Hmp) as (_ & _ & E'). rewrite E', Ech. eexists. reflexivity. }
  destruct HC as [C0 ->].
  destruct (reported_values m f choice mo nd num_draws rvs core C0 boots jacks which t Hb Hpos Hone Hcore Hn Ht HP HR Hk)
    as (ll & Hll & L & Hr).
  { intros pos Ep. destruct (Hmix pos Ep) as (H1 & H2 & _). auto. }
  exists ll. split; [exact Hll|]. split; [exact L|]. intros r Hlt. rewrite Hr by exact Hlt.
  destruct Hb as (cols & labels & Hd & Hl & EK & EX & Ec).
  pose proof (design_nonempty _ _ _ _ _ _ Hd) as HK. rewrite <- EK in HK.
  symmetry. apply (log_likelihood_of_vector mo nd rvs core C0); try assumption.
  - intros k D Ek. rewrite Ek in Hn. destruct Hn as (N1 & N2 & N3 & N4). cbn [rep_row alen]. rewrite HP.
    unfold get_param_names, num_names in *. destruct (mn_intercepts _), (mn_shapes _), (mn_nests _); rewrite ?app_length; lia.
  - intros pos Ep. rewrite Ec in Ep. destruct (Hmix pos Ep) as (_ & H). exact H.
Qed.

(** ** Where the reported values are something else *)

(** A scobit model without outside intercepts: no values at all, for two or more
    replicates whose number is not the number of rows of the table. *)
Theorem C87_refuted_scobit_without_intercepts m f choice boots jacks which num_draws rvs t ids :
  fm_class m = ClassLogit (KScobit None) ->
  replicates_named which boots jacks = Ok t -> rp_cols t = length (get_param_names (fm_names m)) ->
  int_col f (fm_obs_col m) = Ok ids -> (2 <= rp_rows t)%nat -> length ids <> 1%nat -> length ids <> rp_rows t ->
  forall ll, calc_log_likes_for_replicates m f choice boots jacks which num_draws rvs <> Ok ll.
Proof.
  intros Ek Ht HP Ho H2 H1 HN ll H. unfold calc_log_likes_for_replicates in H. rewrite Ht, Ek in H. cbn [bind] in H.
  apply bind_ok in H. destruct H as (p & Hp & _). revert Hp.
  apply (C86_refuted_scobit_without_intercepts _ _ _ _ _ (rp_rows t) None ids H2); auto.
  apply table_shaped. rewrite HP. unfold num_named, get_param_names, num_names.
  destruct (mn_intercepts _), (mn_shapes _), (mn_nests _); rewrite ?app_length; lia.
Qed.

(** A mixed logit with a person observed twice: the reported value treats the two
    observations as two people. *)
Definition panel_frame : frame :=
  mkFrame 4 [("obs"%string, [1; 1; 2; 2]%Z); ("alt"%string, [1; 2; 1; 2]%Z); ("choice"%string, [1; 0; 1; 0]%Z);
             ("person"%string, [9; 9; 9; 9]%Z)] [("x"%string, [1; 0; 1; 0])].
Definition panel_names : model_names := mkModelNames ["x"%string; "Sigma x"%string] None None None.
Definition panel_model : fitted_model :=
  mkFitted (ClassMixed [0%nat]) "alt" "obs" (Some "person"%string) [("x"%string, SStr "all_same")] None panel_names
    (mkArr 2 (fun _ => 0)) None None None.
Definition panel_cols : long_cols := mkLong [1; 1; 2; 2]%Z [1; 2; 1; 2]%Z (Some [1; 0; 1; 0]%Z) (Some [9; 9; 9; 9]%Z).
Definition panel_X : mat := design_mat [[1; 0; 1; 0]].
Definition panel_mo : model_obj := mkModel (ClassMixed [0%nat]) panel_cols 1 panel_X.
(** Two draws: 0 and ln 2; a coefficient of mean 0 and standard deviation 1. *)
Definition panel_rvs : nat -> mat := fun _ _ r => if (r =? 0)%nat then 0 else ln 2.
Definition panel_reps : rep_table := mkReps 1 2 (fun _ j => INR j).

Lemma panel_one_choice : exactly_one_choice panel_cols.
Proof.
  eexists. split; [reflexivity|]. split.
  - intros i Hi. simpl in Hi. do 4 (destruct i as [|i]; [simpl; auto|]). lia.
  - intros o Ho. simpl in Ho.
    assert (Hc : o = 1%Z \/ o = 2%Z) by (repeat destruct Ho as [Ho|Ho]; auto; contradiction). destruct Hc as [->| ->].
    + exists 0%nat. split; [cbn; lia|]. split; [reflexivity|]. split; [reflexivity|]. intros i' Hi' E1 E2. simpl in Hi'.
      do 4 (destruct i' as [|i']; [simpl in E1, E2; try reflexivity; lia|]). lia.
    + exists 2%nat. split; [cbn; lia|]. split; [reflexivity|]. split; [reflexivity|]. intros i' Hi' E1 E2. simpl in Hi'.
      do 4 (destruct i' as [|i']; [simpl in E1, E2; try reflexivity; lia|]). lia.
Qed.

Lemma prob_is_logit d K X pos nR draws w ridge E theta i r :
  mixed_data_of d K X pos nR draws w ridge = Ok E -> mixing_ids_per_row d -> (i < length (obs_ids d))%nat ->
  (forall k, (k < length (obs_ids d))%nat -> unclipped (mixed_utility d K X pos draws theta k r)) ->
  prob_array E theta i r = logit_prob d (fun k => mixed_utility d K X pos draws theta k r) i.
Proof.
  intros H HL Hi Hun. pose proof (mixed_own _ _ _ _ _ _ _ _ _ H) as HO. pose proof (mixed_N _ _ _ _ _ _ _ _ _ H) as HN.
  rewrite (pa_eq E _ HO) by (rewrite HN; exact Hi).
  assert (EU : forall k, (k < length (obs_ids d))%nat -> exp (clip_exponent (vv E theta k r)) = exp (mixed_utility d K X pos draws theta k r)).
  { intros k Hk. unfold vv. rewrite (C45_utilities_use_own_draws d K X pos nR draws w ridge E theta k r H HL Hk).
    rewrite clip_id by (apply Hun; assumption). reflexivity. }
  unfold logit_prob. rewrite EU by exact Hi. f_equal. rewrite HN, <- osum_id_sum by exact Hi.
  apply osum_ext. intros k Hk _. apply EU. exact Hk.
Qed.

Lemma chosen_is_logit d K X pos nR draws w ridge E theta mp C0 i j r :
  mixed_data_of d K X pos nR draws w ridge = Ok E -> mixing_ids_per_row d -> exactly_one_choice d ->
  create_long_form_mappings d None = Ok mp -> chosen_row_to_obs mp = Some C0 ->
  (j < length (first_seen (obs_ids d)))%nat -> (i < length (obs_ids d))%nat ->
  nth i (obs_ids d) 0%Z = nth j (first_seen (obs_ids d)) 0%Z -> choice_vec d i = 1 ->
  (forall k, (k < length (obs_ids d))%nat -> unclipped (mixed_utility d K X pos draws theta k r)) ->
  chosen_array E (smat_R C0) theta j r = logit_prob d (fun k => mixed_utility d K X pos draws theta k r) i.
Proof.
  intros H HL Hone Hmp HC0 Hj Hi Ei Ci Hun.
  rewrite <- (prob_is_logit d K X pos nR draws w ridge E theta i r H HL Hi Hun).
  destruct (mixed_setup _ _ _ _ _ _ _ _ _ H) as (mp' & Hmp' & ED & Er & EV & Em & _).
  rewrite Hmp in Hmp'. injection Hmp' as <-. unfold chosen_array, prob_array.
  assert (Ed : draw_data E r = data_of d mp (x_vars E) (fun i k => x_X E i r k) w ridge)
    by (unfold draw_data; rewrite ED; reflexivity).
  rewrite Ed.
  apply (C19_chosen_probs_are_long_probs MNL_model d None mp (x_vars E) (fun i k => x_X E i r k) w ridge None None theta C0
    (chosen_probs MNL_model (data_of d mp (x_vars E) (fun i k => x_X E i r k) w ridge) (smat_R C0) None None theta)); auto.
Qed.

Theorem C87_refuted_panel_mixed_logit : exists m f choice mo nd rvs core C t ll,
  built_from m f choice mo /\ positions_valid mo /\ exactly_one_choice (mo_cols mo) /\
  estimator_core mo nd rvs None (fun _ => 1) = Ok (core, C) /\ names_match core (fm_names m) /\
  rp_cols t = length (get_param_names (fm_names m)) /\ rp_rows t = 1%nat /\ (1 < nd)%nat /\
  calc_log_likes_for_replicates m f choice (Some t) None "bootstrap" (Some nd) (fun _ => rvs) = Ok ll /\
  aget ll 0%nat <> est_ll core (rep_row t 0).
Proof.
  exists panel_model, panel_frame, "choice"%string, panel_mo, 2%nat, panel_rvs.
  assert (HC : exists E C0 mp, estimator_core panel_mo 2 panel_rvs None (fun _ => 1) = Ok (CoreMixed E, Some (smat_R C0)) /\
     mixed_data_of panel_cols 1 panel_X [0%nat] 2 [panel_rvs 0%nat] (Some (fun _ => 1)) None = Ok E /\
     create_long_form_mappings panel_cols None = Ok mp /\ chosen_row_to_obs mp = Some C0).
  { eexists. eexists. eexists. split; [reflexivity|]. split; [reflexivity|]. split; reflexivity. }
  destruct HC as (E & C0 & mp & Hcore & HE & Hmp & HC0). exists (CoreMixed E), (Some (smat_R C0)), panel_reps.
  assert (Hb : built_from panel_model panel_frame "choice" panel_mo).
  { exists [[1; 0; 1; 0]]. eexists. repeat split. }
  assert (Hn : names_match (CoreMixed E) (fm_names panel_model)).
  { destruct (mixed_setup _ _ _ _ _ _ _ _ _ HE) as (? & _ & _ & _ & EV & _). cbn [names_match]. rewrite EV. repeat split. }
  destruct (reported_values panel_model panel_frame "choice" panel_mo 2 (Some 2%nat) panel_rvs (CoreMixed E) (smat_R C0)
    (Some panel_reps) None "bootstrap" panel_reps Hb I panel_one_choice Hcore Hn eq_refl eq_refl ltac:(cbn; lia)) as (ll & Hll & _ & Hv).
  { discriminate. }
  { intros pos _. split; [reflexivity|lia]. }
  exists ll. do 3 (split; [assumption || exact I || apply panel_one_choice|]). split; [exact Hcore|]. split; [exact Hn|].
  do 2 (split; [reflexivity|]). split; [lia|]. split; [exact Hll|].
  rewrite Hv by (cbn; lia). set (th := rep_row panel_reps 0).
  assert (L2 : 0 < ln 2 < 1).
  { split; [rewrite <- ln_1; apply ln_increasing; lra|]. replace 1 with (ln (exp 1)) by apply ln_exp. apply ln_increasing; [lra|].
    pose proof (exp_ineq1 1 ltac:(lra)). lra. }
  assert (EU : forall i r, mixed_utility panel_cols 1 panel_X [0%nat] [panel_rvs 0%nat] th i r = panel_X i 0%nat * (if (r =? 0)%nat then 0 else ln 2)).
  { intros i r. unfold mixed_utility. cbn [length sumn Nat.add nth]. unfold draw_of. cbn [nth]. unfold panel_rvs.
    cbn [th rep_row panel_reps rp_get aget INR]. ring. }
  assert (HX : forall i, (i < 4)%nat -> panel_X i 0%nat = if (i mod 2 =? 0)%nat then 1 else 0).
  { intros i Hi. do 4 (destruct i as [|i]; [reflexivity|]). lia. }
  assert (Hun : forall i r, (i < length (obs_ids panel_cols))%nat -> (r < 2)%nat ->
     unclipped (mixed_utility panel_cols 1 panel_X [0%nat] [panel_rvs 0%nat] th i r)).
  { intros i r Hi _. rewrite EU, HX by exact Hi. unfold unclipped, min_exponent_val, max_exponent_val.
    destruct (_ =? _)%nat, (r =? 0)%nat; lra. }
  cbn [est_ll].
  rewrite (C47_simulated_log_likelihood panel_cols 1 panel_X [0%nat] 2 [panel_rvs 0%nat] _ None E th (fun _ => 1) HE eq_refl ltac:(lia)
    ltac:(intros i _; split; [reflexivity|lra]) ltac:(destruct panel_one_choice as (c & E1 & E2 & _); exists c; auto) Hun).
  cbn [mix_of panel_cols mix_ids]. change (first_seen [9; 9; 9; 9]%Z) with [9%Z].
  change (length (first_seen (obs_ids (mo_cols panel_mo)))) with 2%nat. cbn [length sumn nth mean_chosen].
  destruct (mixed_setup _ _ _ _ _ _ _ _ _ HE) as (? & _ & _ & ER & _).
  assert (E2 : exp (ln 2) = 2) by (apply exp_ln; lra).
  assert (EP : forall i r, (i = 0 \/ i = 2)%nat -> logit_prob panel_cols (fun k => mixed_utility panel_cols 1 panel_X [0%nat] [panel_rvs 0%nat] th k r) i
     = if (r =? 0)%nat then / 2 else 2 / 3).
  { intros i r Hi. unfold logit_prob. rewrite EU, HX by lia. unfold id_sum. cbn [obs_ids panel_cols length sumn].
    rewrite !EU, !HX by lia.
    destruct Hi as [-> | ->]; cbn; destruct (r =? 0)%nat; rewrite ?Rmult_1_l, ?Rmult_0_l, ?exp_0, ?E2; field. }
  assert (EC : forall j, (j < 2)%nat -> row_mean (x_draws E) (chosen_array E (smat_R C0) th) j = 7 / 12).
  { intros j Hj. unfold row_mean. rewrite ER. cbn [sumn].
    rewrite !(chosen_is_logit panel_cols 1 panel_X [0%nat] 2 [panel_rvs 0%nat] _ None E th mp C0 (2 * j) j _ HE eq_refl panel_one_choice Hmp HC0)
      by (try (intros k Hk; apply Hun; [exact Hk|lia]); do 2 (destruct j as [|j]; [cbn; (reflexivity || lia)|]); lia).
    rewrite !EP by lia. cbn [Nat.eqb]. simpl INR. field. }
  rewrite !EC by lia. unfold unit_likelihood. cbn [obs_ids panel_cols length prodn mix_of mix_ids nth].
  rewrite !Z.eqb_refl. cbn [andb chosen panel_cols choices nth]. unfold chosen. cbn [panel_cols choices nth Z.eqb Pos.eqb].
  fold panel_cols. rewrite !EP by lia. cbn [Nat.eqb]. simpl INR.
  rewrite Rminus_0_r, Rplus_0_l, Rplus_0_l, Rmult_1_l. rewrite <- ln_mult by lra. intros Hc. apply ln_inv in Hc; lra.
Qed.

(** ** C88: gradient norms *)

(** [v] is the Euclidean norm of the vector of partial derivatives of [f] at [x]. *)
Definition norm_of_partials (f : arr -> R) (x : arr) (v : R) : Prop :=
  exists g : vec, (forall j, (j < alen x)%nat -> is_derive (fun s => f (aupd x j s)) (aget x j) (g j)) /\
    v = sqrt (sumn (alen x) (fun j => g j ^ 2)).

(** Conditions on the table, the weights and the ridge penalty under which the estimator's
    gradient is the derivative of its log-likelihood (C25-C29, C43, C48). *)
Definition usable_data (mo : model_obj) (nd : nat) (ridge : option R) (w : vec) : Prop :=
  let d := mo_cols mo in
  length (alt_ids d) = length (obs_ids d) /\ (0 < mo_K mo)%nat /\ exactly_one_choice d /\
  match mo_class mo with
  | ClassLogit k => positions_valid mo /\ same_weight_within_observation d (Some w)
  | ClassNested t =>
      ridge = None /\ NoDup (map fst t) /\ check_nest_spec (raw_of t) (np_unique (alt_ids d)) = Ok tt /\
      (exists wobs, observation_weights d (Some w) wobs) /\
      (forall o q, In o (obs_ids d) -> (q < length t)%nat -> lacks_nest d t o q = false)
  | ClassMixed pos =>
      (1 < nd)%nat /\ mixing_ids_per_row d /\ units_contain_observations d /\ (exists wu, unit_weights d (Some w) wu)
  end.

(** At [x] no utility is clipped and no transform has its switch-over point or kink. *)
Definition regular_at (mo : model_obj) (nd : nat) (rvs : nat -> mat) (core : est_core) (x : arr) : Prop :=
  match core, mo_class mo with
  | CoreLogit k D, _ => no_clipping k D x /\ forall i, (i < d_N D)%nat -> regular k (est_index k D x i)
  | CoreMixed E, ClassMixed pos => forall i r, (i < length (obs_ids (mo_cols mo)))%nat -> (r < nd)%nat ->
      strictly_unclipped (mixed_utility (mo_cols mo) (mo_K mo) (mo_X mo) pos (map rvs (seq 0 (length pos))) x i r)
  | _, _ => True
  end.

Lemma gradient_of_core mo nd rvs ridge w core C x :
  estimator_core mo nd rvs ridge w = Ok (core, C) -> usable_data mo nd ridge w ->
  est_check_length core x = Ok tt -> regular_at mo nd rvs core x ->
  exists g, est_grad core x = Ok g /\ alen g = alen x /\
    forall j, (j < alen x)%nat -> is_derive (fun s => est_ll core (aupd x j s)) (aget x j) (aget g j).
Proof.
  intros Hcore (HL & HK & Hone & HM) Hx Hr. unfold estimator_core in Hcore. unfold regular_at in Hr. destruct (mo_class mo) as [k|t|pos] eqn:Ec.
  - apply bind_ok in Hcore. destruct Hcore as (mp & Hmp & Hcore). injection Hcore as <- <-. destruct HM as [Hp Hw].
    destruct Hr as [Hr1 Hr2]. cbn [est_check_length] in Hx.
    apply (gradient_correct k (mo_cols mo) None mp (mo_K mo) (mo_X mo) (Some w) ridge x); auto.
    unfold positions_valid in Hp. rewrite Ec in Hp. rewrite (data_J _ None) by exact Hmp. exact Hp.
  - apply bind_ok in Hcore. destruct Hcore as (mp & Hmp & Hcore). apply bind_ok in Hcore. destruct Hcore as (rn & Hrn & Hcore).
    injection Hcore as <- <-. destruct HM as (-> & Hnd & Hch & (wobs & Hw) & Hall).
    unfold opt_smat in Hrn. destruct (rows_to_nests mp) as [rn'|] eqn:Ern; [|discriminate]. injection Hrn as ->.
    destruct (C43_nested_gradient (mo_cols mo) t mp rn (mo_K mo) (mo_X mo) (Some w) x wobs
      (nested_setup_own _ _ _ _ HL Hnd Hch Hmp Ern) Hone Hw Hall Hx) as [A B].
    eexists. split; [reflexivity|]. split; [exact A|exact B].
  - apply bind_ok in Hcore. destruct Hcore as (mp & Hmp & Hcore). apply bind_ok in Hcore. destruct Hcore as (rm & Hrm & Hcore).
    apply bind_ok in Hcore. destruct Hcore as (dr & Hdr & Hcore). apply bind_ok in Hcore. destruct Hcore as (E & HE & Hcore).
    injection Hcore as <- <-. destruct HM as (H1 & Hmix & Hcont & (wu & Hw)).
    unfold get_normal_draws in Hdr. destruct (_ && _)%bool in Hdr; [|discriminate]. injection Hdr as <-.
    destruct (C48_mixed_gradient _ _ _ _ _ _ _ _ _ x wu HE Hmix H1 Hx Hw Hone Hcont Hr) as [A B].
    eexists. split; [reflexivity|]. split; [exact A|exact B].
Qed.

(** One norm per replicate, of the gradient of the log-likelihood (with the ridge penalty
    and weights that are passed) at that replicate. *)
Theorem C88_gradient_norms_partial mo nd rvs mle boots jacks which ridge constrained w t core C :
  estimator_core mo nd rvs (ridge_value ridge) (default_weights w) = Ok (core, C) ->
  estimation_checks (mo_cols mo) ridge w = Ok tt ->
  replicates_named which boots jacks = Ok t ->
  usable_data mo nd (ridge_value ridge) (default_weights w) ->
  (forall r, (r < rp_rows t)%nat -> est_check_length core (rep_row t r) = Ok tt /\ regular_at mo nd rvs core (rep_row t r)) ->
  exists norms, calc_gradient_norm_for_replicates mo nd rvs mle boots jacks which ridge constrained w = Ok norms /\
    length norms = rp_rows t /\
    forall r, (r < rp_rows t)%nat -> norm_of_partials (est_ll core) (rep_row t r) (nth r norms 0).
Proof.
  intros Hcore Hchk Ht Hu Hr. unfold calc_gradient_norm_for_replicates, create_estimation_obj.
  rewrite Hcore. cbn [bind]. rewrite Hchk. cbn [bind fst e_core].
  assert (Hw : (String.eqb which "bootstrap" || String.eqb which "jackknife")%bool = true).
  { unfold replicates_named in Ht. destruct (String.eqb which "bootstrap"); [reflexivity|].
    destruct (String.eqb which "jackknife"); [reflexivity|discriminate]. }
  rewrite Hw, Ht. cbn [bind].
  destruct (mapM_seq (fun r => do g <- est_grad core (rep_row t r); Ok (sqrt (sumn (alen g) (fun j => Rsqr (aget g j)))))
    (fun r v => norm_of_partials (est_ll core) (rep_row t r) v) (rp_rows t) 0) as (bs & E & L & H).
  { intros r Hlt. destruct (Hr r ltac:(lia)) as [H1 H2].
    destruct (gradient_of_core _ _ _ _ _ _ _ _ Hcore Hu H1 H2) as (g & Eg & Lg & Hg). rewrite Eg. cbn [bind].
    eexists. split; [reflexivity|]. exists (aget g). split; [exact Hg|]. rewrite Lg. f_equal. apply sumn_ext. intros j _. unfold Rsqr. ring. }
  exists bs. split; [exact E|]. split; [exact L|]. intros r Hlt. apply (H r 0 Hlt).
Qed.

(** A norm is 0 exactly at stationary points. *)
Theorem C88_zero_norm f x v : norm_of_partials f x v ->
  (v = 0 <-> forall j, (j < alen x)%nat -> is_derive (fun s => f (aupd x j s)) (aget x j) 0).
Proof.
  intros (g & Hg & ->).
  assert (P : 0 <= sumn (alen x) (fun j => g j ^ 2)).
  { apply sumn_ge0. intros j _. apply pow2_ge_0. }
  split.
  - intros H j Hj. apply sqrt_eq_0 in H; [|exact P].
    assert (Z : g j ^ 2 = 0).
    { clear -H Hj. revert H Hj. set (n := alen x). generalize n. clear n. intros n. induction n as [|n IH]; [lia|]. cbn [sumn]. intros H Hj.
      assert (0 <= sumn n (fun j => g j ^ 2)) by (apply sumn_ge0; intros; apply pow2_ge_0). pose proof (pow2_ge_0 (g n)).
      destruct (Nat.eq_dec j n) as [->|]; [lra|]. apply IH; [lra|lia]. }
    replace 0 with (g j) by nra. apply Hg. exact Hj.
  - intros H. replace (sumn (alen x) (fun j => g j ^ 2)) with 0; [apply sqrt_0|]. symmetry. apply sumn_eq0. intros j Hj.
    replace (g j) with 0; [ring|]. rewrite <- (is_derive_unique _ _ _ (Hg j Hj)). symmetry. apply is_derive_unique. apply H. exact Hj.
Qed.

(** constrained_pos and the values of mle_params play no role: constrained parameters
    count in the norm. *)
Theorem C88_refuted_constrained_positions_ignored mo nd rvs mle mle' boots jacks which ridge constrained constrained' w :
  calc_gradient_norm_for_replicates mo nd rvs mle boots jacks which ridge constrained w =
  calc_gradient_norm_for_replicates mo nd rvs mle' boots jacks which ridge constrained' w.
Proof.
  unfold calc_gradient_norm_for_replicates, create_estimation_obj. destruct (if (_ || _)%bool then _ else _); [|reflexivity]. cbn [bind].
  destruct (estimator_core _ _ _ _ _) as [[c C]|]; [|reflexivity]. cbn [bind]. destruct (estimation_checks _ _ _); reflexivity.
Qed.

(** Any other name raises a ValueError; a table that was not generated, an
    AttributeError. *)
Theorem C88_replicates_argument mo nd rvs mle boots jacks which ridge constrained w :
  (which <> "bootstrap"%string -> which <> "jackknife"%string ->
   calc_gradient_norm_for_replicates mo nd rvs mle boots jacks which ridge constrained w = Err ValueError /\
   forall m f choice num_draws draws, calc_log_likes_for_replicates m f choice boots jacks which num_draws draws = Err ValueError) /\
  (forall m f choice num_draws draws,
   calc_log_likes_for_replicates m f choice None jacks "bootstrap" num_draws draws = Err AttributeError /\
   calc_log_likes_for_replicates m f choice boots None "jackknife" num_draws draws = Err AttributeError).
Proof.
  split.
  - intros H1 H2. apply String.eqb_neq in H1. apply String.eqb_neq in H2.
    unfold calc_gradient_norm_for_replicates, calc_log_likes_for_replicates, replicates_named. rewrite H1, H2. split; reflexivity.
  - intros. split; reflexivity.
Qed.

(** ** The hypotheses are met *)

(** A multinomial logit with two replicates (or any other number). *)
Definition mnl_reps (n : nat) : rep_table := mkReps n 1 (fun r _ => INR r).
Definition mnl_mo : model_obj := mkModel (ClassLogit KMNL) fit_cols 1 refit_X.

Example ex_mnl_log_likelihoods n : (0 < n)%nat ->
  let m := refit_model (mkArr 1 (fun _ => 0)) in
  built_from m refit_frame "choice" mnl_mo /\ positions_valid mnl_mo /\ exactly_one_choice (mo_cols mnl_mo) /\
  estimator_core mnl_mo 0 no_draws None (fun _ => 1) = Ok (CoreLogit KMNL refit_data, option_map smat_R (chosen_row_to_obs fit_map)) /\
  names_match (CoreLogit KMNL refit_data) (fm_names m) /\
  replicates_named "jackknife" None (Some (mnl_reps n)) = Ok (mnl_reps n) /\
  rp_cols (mnl_reps n) = length (get_param_names (fm_names m)) /\
  handled_at_once KMNL (d_J refit_data) (rp_rows (mnl_reps n)).
Proof.
  intros Hn m. split; [exists [[5; 6; 7; 8]]; eexists; repeat split|]. split; [cbn; repeat split; lia|].
  split.
  { eexists. split; [reflexivity|]. split.
    - intros i Hi. simpl in Hi. do 4 (destruct i as [|i]; [simpl; auto|]). lia.
    - intros o Ho. simpl in Ho.
      assert (Hc : o = 1%Z \/ o = 2%Z) by (repeat destruct Ho as [Ho|Ho]; auto; contradiction). destruct Hc as [->| ->].
      + exists 0%nat. split; [cbn; lia|]. split; [reflexivity|]. split; [reflexivity|]. intros i' Hi' E1 E2. simpl in Hi'.
        do 4 (destruct i' as [|i']; [simpl in E1, E2; try reflexivity; lia|]). lia.
      + exists 3%nat. split; [cbn; lia|]. split; [reflexivity|]. split; [reflexivity|]. intros i' Hi' E1 E2. simpl in Hi'.
        do 4 (destruct i' as [|i']; [simpl in E1, E2; try reflexivity; lia|]). lia. }
  split; [reflexivity|]. split; [repeat split|]. split; [reflexivity|]. split; [reflexivity|exact Hn].
Qed.

(** A scobit model with outside intercepts, and a nested logit, on the same table. *)
Definition scobit_names : model_names :=
  mkModelNames ["cost"%string] (Some ["asc"%string]) (Some ["shape_1"%string; "shape_2"%string]) None.
Definition scobit_model : fitted_model :=
  mkFitted (ClassLogit (KScobit (Some 1%nat))) "alt" "obs" None [("cost"%string, SStr "all_same")] None scobit_names
    (mkArr 1 (fun _ => 0)) None None None.
Definition scobit_mo : model_obj := mkModel (ClassLogit (KScobit (Some 1%nat))) fit_cols 1 refit_X.
Definition scobit_reps : rep_table := mkReps 3 4 (fun r j => INR (r + j)).

Example ex_scobit_log_likelihoods :
  built_from scobit_model refit_frame "choice" scobit_mo /\ positions_valid scobit_mo /\
  estimator_core scobit_mo 0 no_draws None (fun _ => 1) =
    Ok (CoreLogit (KScobit (Some 1%nat)) refit_data, option_map smat_R (chosen_row_to_obs fit_map)) /\
  names_match (CoreLogit (KScobit (Some 1%nat)) refit_data) (fm_names scobit_model) /\
  replicates_named "bootstrap" (Some scobit_reps) None = Ok scobit_reps /\
  rp_cols scobit_reps = length (get_param_names (fm_names scobit_model)) /\
  handled_at_once (KScobit (Some 1%nat)) (d_J refit_data) (rp_rows scobit_reps).
Proof.
  split; [exists [[5; 6; 7; 8]]; eexists; repeat split|]. split; [cbn; split; [lia|]; cbn; split; [lia|exact I]|].
  split; [reflexivity|]. split; [repeat split|]. split; [reflexivity|]. split; [reflexivity|cbn; lia].
Qed.

Definition two_nests : nest_spec := [("car"%string, [1%Z]); ("bus"%string, [2%Z])].
Definition nested_names : model_names := mkModelNames ["cost"%string] None None (Some ["car"%string; "bus"%string]).
Definition nested_model : fitted_model :=
  mkFitted (ClassNested two_nests) "alt" "obs" None [("cost"%string, SStr "all_same")] None nested_names
    (mkArr 1 (fun _ => 0)) None None None.
Definition nested_mo : model_obj := mkModel (ClassNested two_nests) fit_cols 1 refit_X.
Definition nested_reps : rep_table := mkReps 2 3 (fun r j => INR (r + j)).

Example ex_nested_log_likelihoods : exists E C,
  built_from nested_model refit_frame "choice" nested_mo /\ positions_valid nested_mo /\
  estimator_core nested_mo 0 no_draws None (fun _ => 1) = Ok (CoreNested E, C) /\
  names_match (CoreNested E) (fm_names nested_model) /\
  replicates_named "bootstrap" (Some nested_reps) None = Ok nested_reps /\
  rp_cols nested_reps = length (get_param_names (fm_names nested_model)) /\
  usable_data nested_mo 0 None (fun _ => 1) /\
  (forall r, (r < 2)%nat -> est_check_length (CoreNested E) (rep_row nested_reps r) = Ok tt /\
     regular_at nested_mo 0 no_draws (CoreNested E) (rep_row nested_reps r)).
Proof.
  eexists. eexists.
  split; [exists [[5; 6; 7; 8]]; eexists; repeat split|]. split; [exact I|].
  split; [reflexivity|]. split; [cbn; repeat split; lia|]. split; [reflexivity|]. split; [reflexivity|]. split.
  - split; [reflexivity|]. split; [cbn; lia|]. split; [apply fit_one_choice|]. split; [reflexivity|].
    split; [repeat constructor; cbn; intuition discriminate|]. split; [reflexivity|]. split.
    + exists (fun _ => 1). intros i _. split; [reflexivity|lra].
    + intros o q Ho Hq. cbn in Ho, Hq.
      assert (Hc : o = 1%Z \/ o = 2%Z) by (repeat destruct Ho as [Ho|Ho]; auto; contradiction).
      destruct Hc as [->| ->]; destruct q as [|[|q]]; try lia; reflexivity.
  - intros r _. split; [reflexivity|exact I].
Qed.

(** A mixed logit whose mixing units are the observations. *)
Definition cross_frame : frame :=
  mkFrame 4 [("obs"%string, [1; 1; 2; 2]%Z); ("alt"%string, [1; 2; 1; 2]%Z); ("choice"%string, [1; 0; 1; 0]%Z);
             ("person"%string, [9; 9; 5; 5]%Z)] [("x"%string, [1; 0; 1; 0])].
Definition cross_cols : long_cols := mkLong [1; 1; 2; 2]%Z [1; 2; 1; 2]%Z (Some [1; 0; 1; 0]%Z) (Some [9; 9; 5; 5]%Z).
Definition cross_mo : model_obj := mkModel (ClassMixed [0%nat]) cross_cols 1 panel_X.

Example ex_mixed_log_likelihoods : exists E C,
  built_from panel_model cross_frame "choice" cross_mo /\ positions_valid cross_mo /\ exactly_one_choice (mo_cols cross_mo) /\
  estimator_core cross_mo 2 panel_rvs None (fun _ => 1) = Ok (CoreMixed E, C) /\
  names_match (CoreMixed E) (fm_names panel_model) /\
  rp_cols panel_reps = length (get_param_names (fm_names panel_model)) /\
  units_are_observations (mo_cols cross_mo).
Proof.
  eexists. eexists.
  split; [exists [[1; 0; 1; 0]]; eexists; repeat split|]. split; [exact I|].
  split; [destruct panel_one_choice as (c & A & B); exists c; split; [exact A|exact B]|].
  split; [reflexivity|]. split; [repeat split|]. split; [reflexivity|]. split; [reflexivity|].
  intros i i' Hi Hi'. cbn in Hi, Hi'. do 4 (destruct i as [|i]; [do 4 (destruct i' as [|i']; [cbn; split; congruence|]); lia|]). lia.
Qed.

(** Gradient norms of the multinomial logit above, with weights and a ridge penalty. *)
Example ex_mnl_gradient_norms n : (n <= 80)%nat ->
  let D := data_of fit_cols fit_map 1 refit_X (@Some vec (fun i => if (i <? 2)%nat then 1 else 3)) (Some (/ 10)) in
  let w := WArray (mkArr 4 (fun i => if (i <? 2)%nat then 1 else 3)) in
  estimator_core mnl_mo 0 no_draws (ridge_value (RidgeNumber (/ 10))) (default_weights w) =
    Ok (CoreLogit KMNL D, option_map smat_R (chosen_row_to_obs fit_map)) /\
  estimation_checks fit_cols (RidgeNumber (/ 10)) w = Ok tt /\
  usable_data mnl_mo 0 (Some (/ 10)) (default_weights w) /\
  forall r, (r < rp_rows (mnl_reps n))%nat ->
    est_check_length (CoreLogit KMNL D) (rep_row (mnl_reps n) r) = Ok tt /\
    regular_at mnl_mo 0 no_draws (CoreLogit KMNL D) (rep_row (mnl_reps n) r).
Proof.
  intros Hn D w. split; [reflexivity|]. split.
  { unfold estimation_checks, ensure_positivity_and_length_of_weights, w. cbn. unfold is_negative.
    repeat (destruct (Rlt_dec _ _); [exfalso; lra|]). reflexivity. }
  split.
  { split; [reflexivity|]. split; [cbn; lia|]. split; [apply fit_one_choice|]. split; [cbn; repeat split; lia|].
    intros i i' Hi Hi'. cbn in Hi, Hi'. do 4 (destruct i as [|i]; [do 4 (destruct i' as [|i']; [cbn; (reflexivity || discriminate)|]); lia|]). lia. }
  intros r Hr. cbn in Hr. split; [reflexivity|]. split; [|intros; exact I].
  intros i Hi. cbn in Hi.
  assert (B : 0 <= INR r <= 80).
  { split; [apply pos_INR|]. replace 80 with (INR 80) by (simpl; lra). apply le_INR. lia. }
  do 4 (destruct i as [|i]; [cbn; lra|]). lia.
Qed.

Print Assumptions C15_bootstrap_slices.
Print Assumptions C87_replicate_log_likelihoods_partial.
Print Assumptions C87_refuted_scobit_without_intercepts.
Print Assumptions C87_refuted_panel_mixed_logit.
Print Assumptions C88_gradient_norms_partial.
Print Assumptions C88_zero_norm.
Print Assumptions C88_refuted_constrained_positions_ignored.
Print Assumptions C88_replicates_argument.
