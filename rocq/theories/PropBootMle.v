(** C61, C81, C82, C83: the re-estimations of the bootstrap and of the jackknife. *)
From Coq Require Import String ZArith List Reals Bool Lia Lra Arith Sorting.Sorted.
From Verif Require Import Res Ids Vec Arr Mappings Frame ChoiceTools WideLong BaseModel ChoiceCalcs LongData Transforms
  Estimation Predict Construct BootSampler BootMle.
From Verif Require Import PropMappings PropWideLong PropDesign PropBaseModel PropConstruct PropBootSampler PropBootFrame
  PropEstimation PropBootStart.
Import ListNotations.
Local Open Scope string_scope.

(** ** C81: a model can be rebuilt from its own settings *)

(** The arguments [a] with another observation id column. *)
Definition with_obs_col (a : model_args) (id_col : string) : model_args :=
  mkArgs (a_alt_col a) id_col (a_choice_col a) (a_spec a) (a_type a) (a_iref a) (a_sref a) (a_names a)
    (a_inames a) (a_snames a) (a_nests a) (a_mix_col a) (a_mix_vars a).

Lemma lookup_name t : lookup_model_type (mtype_name t) = Ok t.
Proof. destruct t; reflexivity. Qed.

Lemma lookup_inv s t : lookup_model_type s = Ok t -> s = mtype_name t.
Proof.
  unfold lookup_model_type. intros H.
  destruct (find _ _) as [t'|] eqn:E; [|discriminate]. injection H as <-.
  apply find_some in E. destruct E as [_ E]. apply String.eqb_eq in E. congruence.
Qed.

(** On any new table, with any id column, the settings stored by the model create
    exactly what the user's original arguments would create. *)
Theorem C81_stored_settings_are_the_users f a m g id_col :
  create_choice_model f a = Ok m ->
  create_choice_model g (recreation_args m id_col) = create_choice_model g (with_obs_col a id_col).
Proof.
  unfold create_choice_model. intros H. apply bind_ok in H. destruct H as (t & Ht & H).
  cbn [recreation_args a_type with_obs_col]. rewrite Ht. cbn [bind].
  assert (E : c_type m = t).
  { unfold class_init in H. destruct t; repeat match type of H with
      | (if ?b then _ else _) = _ => destruct b; [discriminate|]
      | match ?b with _ => _ end = _ => destruct b; try discriminate
      end; apply base_init_inv in H; destruct H as (dm & al & ch & pos & _ & _ & _ & _ & _ & ->); reflexivity. }
  rewrite E, lookup_name. cbn [bind].
  unfold class_init in H |- *. cbn [recreation_args a_alt_col a_obs_col a_choice_col a_spec a_type a_iref a_sref a_names a_inames
    a_snames a_nests a_mix_col a_mix_vars with_obs_col].
  destruct t; repeat match type of H with
      | (if ?b then _ else _) = _ => destruct b; [discriminate|]
      | match ?b with _ => _ end = _ => destruct b; try discriminate
      end; apply base_init_inv in H; destruct H as (dm & al & ch & pos & _ & _ & _ & _ & _ & ->); reflexivity.
Qed.

Lemma has_col_mono spec f c : has_col f c = true -> has_col (add_intercept_to_dataframe spec f) c = true.
Proof.
  unfold add_intercept_to_dataframe. destruct (assoc "intercept" spec); [|auto].
  destruct (has_col f "intercept"); [auto|]. unfold has_col. cbn [f_ints f_reals].
  destruct (assoc c (f_ints f)); [reflexivity|]. rewrite assoc_app. destruct (assoc c (f_reals f)); [reflexivity|discriminate].
Qed.

Lemma add_intercept_twice spec f :
  add_intercept_to_dataframe spec (add_intercept_to_dataframe spec f) = add_intercept_to_dataframe spec f.
Proof.
  unfold add_intercept_to_dataframe. destruct (assoc "intercept" spec) eqn:E; [|reflexivity].
  destruct (has_col f "intercept") eqn:Hc; [rewrite Hc; reflexivity|].
  replace (has_col _ "intercept") with true; [reflexivity|]. symmetry. unfold has_col. cbn [f_ints f_reals].
  destruct (assoc "intercept" (f_ints f)); [reflexivity|]. rewrite assoc_app.
  destruct (assoc "intercept" (f_reals f)); [reflexivity|]. reflexivity.
Qed.

Lemma base_init_again t f alt_col obs_col choice_col spec iref sref names inames snames nests mv mc m :
  base_init t f alt_col obs_col choice_col spec iref sref names inames snames nests mv mc = Ok m ->
  base_init t (c_data m) alt_col obs_col choice_col spec iref sref names inames snames nests mv mc = Ok m.
Proof.
  intros H0. pose proof H0 as H. apply base_init_inv in H.
  destruct H as (dm & al & ch & pos & _ & _ & _ & _ & _ & E).
  assert (Ed : c_data m = add_intercept_to_dataframe spec f) by (rewrite E; reflexivity). rewrite Ed.
  rewrite <- H0. unfold base_init in H0 |- *. rewrite add_intercept_twice, !int_col_add_intercept.
  f_equal. apply bind_ok in H0. destruct H0 as ([] & H0 & _). rewrite H0.
  unfold ensure_columns_are_in_dataframe in H0 |- *.
  destruct (forallb (has_col f) _) eqn:E1; [|discriminate].
  replace (forallb _ _) with true; [reflexivity|]. symmetry. rewrite forallb_forall in E1 |- *.
  intros c Hc. apply has_col_mono, E1, Hc.
Qed.

(** Rebuilding on its own table gives the model itself. *)
Theorem C81_rebuilt_model_is_the_model f a m :
  create_choice_model f a = Ok m ->
  create_choice_model (c_data m) (recreation_args m (c_obs_col m)) = Ok m.
Proof.
  intros H0. rewrite (C81_stored_settings_are_the_users f a m _ _ H0).
  unfold create_choice_model in H0 |- *. apply bind_ok in H0. destruct H0 as (t & Ht & H).
  cbn [a_type with_obs_col]. rewrite Ht. cbn [bind].
  assert (Eo : c_obs_col m = a_obs_col a).
  { unfold class_init in H. destruct t; repeat match type of H with
      | (if ?b then _ else _) = _ => destruct b; [discriminate|]
      | match ?b with _ => _ end = _ => destruct b; try discriminate
      end; apply base_init_inv in H; destruct H as (dm & al & ch & pos & _ & _ & _ & _ & _ & ->); reflexivity. }
  rewrite Eo. replace (with_obs_col a (a_obs_col a)) with a by (destruct a; reflexivity).
  unfold class_init in H |- *.
  destruct t; repeat match type of H with
      | (if ?b then _ else _) = _ => destruct b; [discriminate|]
      | match ?b with _ => _ end = _ => destruct b; try discriminate
      end; exact (base_init_again _ _ _ _ _ _ _ _ _ _ _ _ _ _ _ H).
Qed.

Lemma created_type f a m : create_choice_model f a = Ok m -> a_type a = mtype_name (c_type m).
Proof.
  unfold create_choice_model. intros H. apply bind_ok in H. destruct H as (t & Ht & H).
  apply lookup_inv in Ht. rewrite Ht. f_equal. unfold class_init in H.
  destruct t; repeat match type of H with
      | (if ?b then _ else _) = _ => destruct b; [discriminate|]
      | match ?b with _ => _ end = _ => destruct b; try discriminate
      end; apply base_init_inv in H; destruct H as (dm & al & ch & pos & _ & _ & _ & _ & _ & ->); reflexivity.
Qed.

(** ** C61: the options of the re-estimations *)

(** [r] is what fit_mle, asked for the point estimate only, answers for the model
    created from table [g] with arguments [a], from starting values [start], with
    estimation options [o]. *)
Definition estimate_of (sp : optimizer) (nm : numerics) (g : frame) (a : model_args) (o : fit_options)
    (start : arr) (r : min_result) : Prop :=
  exists m mo,
    create_choice_model g a = Ok m /\ model_obj_of m = Ok mo /\
    fit_mle (sp (o_method o) (o_loss_tol o) (o_gradient_tol o) (o_maxiter o)) nm (names_of m) (c_mix_vars m)
      mo 0 (fun _ _ _ => 0%R)
      (mkFitArgs (Some start) None None None (o_ridge o) (o_constrained o) true WNone) = Ok (Returned r).

Lemma fit_point_inv sp nm m start o r :
  fit_point sp nm m (Some start) o = Ok r ->
  c_type m <> TMixed /\
  exists mo, model_obj_of m = Ok mo /\
    fit_mle (sp (o_method o) (o_loss_tol o) (o_gradient_tol o) (o_maxiter o)) nm (names_of m) (c_mix_vars m)
      mo 0 (fun _ _ _ => 0%R)
      (mkFitArgs (Some start) None None None (o_ridge o) (o_constrained o) true WNone) = Ok (Returned r).
Proof.
  unfold fit_point. intros H. split; [intros E; rewrite E in H; discriminate|].
  assert (H' : (do mo <- model_obj_of m;
        do r <- fit_mle (sp (o_method o) (o_loss_tol o) (o_gradient_tol o) (o_maxiter o)) nm (names_of m)
                  (c_mix_vars m) mo 0 (fun _ _ _ => 0%R)
                  (mkFitArgs (Some start) None None None (o_ridge o) (o_constrained o) true WNone);
        match r with
        | Returned r => Ok r
        | Stored _ _ => Err TypeError
        end) = Ok r) by (destruct (c_type m); try exact H; discriminate).
  apply bind_ok in H'. destruct H' as (mo & Hm & H'). apply bind_ok in H'. destruct H' as ([r'|? ?] & Hf & H'); [|discriminate].
  injection H' as <-. eauto.
Qed.

Lemma fit_point_estimate_of sp nm g a m start o r :
  create_choice_model g a = Ok m -> fit_point sp nm m (Some start) o = Ok r -> estimate_of sp nm g a o start r.
Proof. intros Hc H. apply fit_point_inv in H. destruct H as (_ & mo & Hm & Hf). exists m, mo. auto. Qed.

Lemma mnl_recreated f a m g id_col :
  create_choice_model f a = Ok m -> c_type m = TMNL ->
  create_choice_model g (mnl_args m id_col (c_spec m) (c_name_spec m)) = create_choice_model g (with_obs_col a id_col).
Proof.
  intros H E. rewrite <- (C81_stored_settings_are_the_users f a m g id_col H).
  pose proof (created_type _ _ _ H) as Ht. rewrite E in Ht.
  unfold create_choice_model in *. cbn [mnl_args recreation_args a_type]. rewrite E. cbn [mtype_name].
  apply bind_ok in H. destruct H as (t & Ht' & H). rewrite Ht in Ht'. injection Ht' as <-.
  unfold class_init in H. destruct (ref_given (a_iref a)); [discriminate|].
  apply base_init_inv in H. destruct H as (dm & al & ch & pos & _ & _ & _ & _ & _ & ->). reflexivity.
Qed.

(** For every type but the MNL, each re-estimation is fit_mle on the new table, for a
    model with the user's arguments, with exactly the options the user gave; it starts
    from values extracted from an MNL estimated on the same table. *)
Theorem C61_options_are_used sp nm f a m g id_col np spec names init kw extract o r :
  create_choice_model f a = Ok m -> a_type a <> "MNL" ->
  retrieve_point_est sp nm m g id_col np spec names init kw extract o = Ok r ->
  exists start, estimate_of sp nm g (with_obs_col a id_col) o start r /\
    exists k s mnl_obj mnl_point series vals,
      kw = Some k /\ spec = Some s /\
      create_choice_model g (mnl_args m id_col s names) = Ok mnl_obj /\
      fit_point sp nm mnl_obj init (options_of k) = Ok mnl_point /\
      mk_series (c_ind_var_names mnl_obj) (alist (mr_x mnl_point)) = Ok series /\
      match extract with Some e => e | None => extract_default_init_vals end m series np = Ok vals /\
      alist start = vals.
Proof.
  intros Hc Hne H. pose proof (created_type _ _ _ Hc) as Ht.
  assert (Hm : c_type m <> TMNL) by (intros E; rewrite E in Ht; exact (Hne Ht)).
  unfold retrieve_point_est in H. apply bind_ok in H. destruct H as ([mp mo] & Hmnl & H).
  apply bind_ok in H. destruct H as (s & Hs & H).
  assert (H' : (do default_init_vals <- or_default extract extract_default_init_vals m s np;
        do new_obj <- create_choice_model g (recreation_args m id_col);
        fit_point sp nm new_obj (Some (mkArr (length default_init_vals) (fun i => nth i default_init_vals 0%R))) o) = Ok r)
    by (destruct (c_type m); try exact H; congruence). clear H.
  apply bind_ok in H'. destruct H' as (vals & Hv & H'). apply bind_ok in H'. destruct H' as (no & Hn & H').
  rewrite (C81_stored_settings_are_the_users f a m g id_col Hc) in Hn.
  exists (mkArr (length vals) (fun i => nth i vals 0%R)). split; [exact (fit_point_estimate_of _ _ _ _ _ _ _ _ Hn H')|].
  unfold get_mnl_point_est in Hmnl.
  replace (match c_type m with TMNL => true | _ => false end) with false in Hmnl by (destruct (c_type m); congruence).
  destruct kw as [k|]; [|discriminate]. destruct spec as [sc|]; [|discriminate].
  apply bind_ok in Hmnl. destruct Hmnl as (mo' & Hmo & Hmnl). apply bind_ok in Hmnl. destruct Hmnl as (mp' & Hmp & E).
  injection E as <- <-.
  exists k, sc, mo', mp', s, vals. split; [reflexivity|]. split; [reflexivity|].
  split; [exact Hmo|]. split; [exact Hmp|]. split; [exact Hs|]. split; [destruct extract; exact Hv|].
  unfold alist. cbn [alen aget]. symmetry. apply list_as_map.
Qed.

(** A mixed logit is never re-estimated: fit_mle is called without num_draws. *)
Theorem C61_refuted_mixed_logit sp nm f a m g id_col np spec names init kw extract o r :
  create_choice_model f a = Ok m -> a_type a = "Mixed Logit" ->
  retrieve_point_est sp nm m g id_col np spec names init kw extract o <> Ok r.
Proof.
  intros Hc Ht H.
  unfold retrieve_point_est in H. apply bind_ok in H. destruct H as ([mp mo'] & _ & H).
  apply bind_ok in H. destruct H as (s & _ & H).
  pose proof (created_type _ _ _ Hc) as E. rewrite Ht in E.
  destruct (c_type m) eqn:Et; try discriminate E.
  apply bind_ok in H. destruct H as (vals & _ & H). apply bind_ok in H. destruct H as (no & Hn & H).
  rewrite (C81_stored_settings_are_the_users f a m g id_col Hc) in Hn.
  apply fit_point_inv in H. destruct H as (Hx & _). apply Hx.
  pose proof (created_type _ _ _ Hn) as E2. cbn [with_obs_col a_type] in E2. rewrite Ht in E2.
  destruct (c_type no); try discriminate E2. reflexivity.
Qed.

(** For the MNL the options given for the re-estimations are not used at all: the
    options of mnl_fit_kwargs, or fit_mle's defaults, are. *)
Theorem C61_refuted_mnl_options_ignored sp nm f a m g id_col np spec names init kw extract o :
  create_choice_model f a = Ok m -> a_type a = "MNL" ->
  (forall o', retrieve_point_est sp nm m g id_col np spec names init kw extract o =
              retrieve_point_est sp nm m g id_col np spec names init kw extract o') /\
  (forall r, retrieve_point_est sp nm m g id_col np spec names init kw extract o = Ok r ->
     estimate_of sp nm g (with_obs_col a id_col) (options_of (match kw with Some k => k | None => no_kwargs end))
       (match init with Some x => x | None => mkArr np (fun _ => 0%R) end) r).
Proof.
  intros Hc Ht. pose proof (created_type _ _ _ Hc) as E. rewrite Ht in E.
  destruct (c_type m) eqn:Et; try discriminate E. split.
  - intros o'. unfold retrieve_point_est. rewrite Et. reflexivity.
  - intros r H. unfold retrieve_point_est in H. apply bind_ok in H. destruct H as ([mp mo] & Hmnl & H).
    apply bind_ok in H. destruct H as (s & _ & H). rewrite Et in H. injection H as <-.
    unfold get_mnl_point_est in Hmnl. rewrite Et in Hmnl. cbn iota in Hmnl.
    apply bind_ok in Hmnl. destruct Hmnl as (mo' & Hmo & Hmnl). apply bind_ok in Hmnl. destruct Hmnl as (mp' & Hmp & E').
    injection E' as <- <-. rewrite (mnl_recreated f a m g id_col Hc Et) in Hmo.
    unfold or_default in *. destruct init; destruct kw; exact (fit_point_estimate_of _ _ _ _ _ _ _ _ Hmo Hmp).
Qed.

(** ** C82: the jackknife *)

(** The row numbers that do not belong to observation [o]. *)
Definition other_rows (ids : list Z) (o : Z) : list nat :=
  filter (fun i => negb (nth i ids 0 =? o)%Z) (seq 0 (length ids)).

(** [g] is the table [f] restricted to the rows [rows], in that order. *)
Definition restricted (f g : frame) (rows : list nat) : Prop :=
  f_rows g = length rows /\
  (forall c l, assoc c (f_ints f) = Some l -> assoc c (f_ints g) = Some (map (fun i => nth i l 0%Z) rows)) /\
  (forall c l, assoc c (f_reals f) = Some l -> assoc c (f_reals g) = Some (map (fun i => nth i l 0%R) rows)) /\
  (forall c, has_col g c = has_col f c).

Lemma filter_rows_restricted f ids o :
  well_formed f -> length ids = f_rows f ->
  restricted f (filter_rows (map (fun x => negb (x =? o)%Z) ids) f) (other_rows ids o).
Proof.
  intros [Hi Hr] Hlen.
  assert (Hsel : forall {A} (l : list A) d, length l = f_rows f ->
    select (map (fun x => negb (x =? o)%Z) ids) l = map (fun i => nth i l d) (other_rows ids o)).
  { intros A l d Hl. rewrite (list_as_map ids 0%Z) at 1. rewrite (list_as_map l d) at 1. rewrite Hl, <- Hlen.
    exact (select_map (fun x => negb (x =? o)%Z) (fun i => nth i ids 0%Z) (fun i => nth i l d) (length ids)). }
  unfold restricted, filter_rows. cbn [f_rows f_ints f_reals]. split; [|split; [|split]].
  - unfold other_rows. rewrite (list_as_map ids 0%Z) at 1. rewrite map_map.
    generalize (seq 0 (length ids)). intros l. induction l as [|i l IH]; [reflexivity|]. cbn [map filter].
    destruct (negb (nth i ids 0 =? o)%Z); cbn [length]; congruence.
  - intros c l Hl. rewrite assoc_map_snd, Hl. cbn [option_map]. f_equal. apply Hsel, (Hi c l Hl).
  - intros c l Hl. rewrite assoc_map_snd, Hl. cbn [option_map]. f_equal. apply Hsel, (Hr c l Hl).
  - intros c. unfold has_col. cbn [f_ints f_reals]. rewrite !assoc_map_snd.
    destruct (assoc c (f_ints f)), (assoc c (f_reals f)); reflexivity.
Qed.

(** The options a re-estimation really uses (C61). *)
Definition options_used (a : model_args) (kw : option mnl_kwargs) (o : fit_options) : fit_options :=
  if String.eqb (a_type a) "MNL" then options_of (match kw with Some k => k | None => no_kwargs end) else o.

Lemma retrieve_estimate_of sp nm f a m g id_col np spec names init kw extract o r :
  create_choice_model f a = Ok m ->
  retrieve_point_est sp nm m g id_col np spec names init kw extract o = Ok r ->
  exists start, estimate_of sp nm g (with_obs_col a id_col) (options_used a kw o) start r.
Proof.
  intros Hc H. unfold options_used. destruct (String.eqb_spec (a_type a) "MNL") as [E|E].
  - eexists. eapply (proj2 (C61_refuted_mnl_options_ignored sp nm f a m g id_col np spec names init kw extract o Hc E)). exact H.
  - destruct (C61_options_are_used sp nm f a m g id_col np spec names init kw extract o r Hc E H) as (start & Hs & _). eauto.
Qed.

(** [row] holds the estimate [x]: entry by entry if the lengths agree (numpy repeats a
    single value). *)
Definition row_holds (n : nat) (row : list R) (x : arr) : Prop :=
  length row = n /\ (alen x = n \/ alen x = 1%nat) /\
  (alen x = n -> forall i, (i < n)%nat -> nth i row 0%R = aget x i).

Lemma store_row_holds n x row : store_row n x = Ok row -> row_holds n row x.
Proof.
  unfold store_row, row_holds. destruct (Nat.eqb_spec (alen x) n) as [E|E].
  - intros H. injection H as <-. unfold alist. rewrite map_length, seq_length. split; [exact E|]. split; [auto|].
    intros _ i Hi. rewrite (nth_indep _ 0%R (aget x 0%nat)) by (rewrite map_length, seq_length; lia).
    rewrite map_nth, seq_nth by lia. reflexivity.
  - destruct (Nat.eqb_spec (alen x) 1) as [E1|E1]; [|discriminate].
    intros H. injection H as <-. rewrite repeat_length. split; [reflexivity|]. split; [auto|]. congruence.
Qed.

Lemma created_obs_col f a m : create_choice_model f a = Ok m -> c_obs_col m = a_obs_col a.
Proof.
  unfold create_choice_model. intros H. apply bind_ok in H. destruct H as (t & Ht & H). unfold class_init in H.
  destruct t; repeat match type of H with
      | (if ?b then _ else _) = _ => destruct b; [discriminate|]
      | match ?b with _ => _ end = _ => destruct b; try discriminate
      end; apply base_init_inv in H; destruct H as (dm & al & ch & pos & _ & _ & _ & _ & _ & ->); reflexivity.
Qed.

Lemma well_formed_length f c l : well_formed f -> int_col f c = Ok l -> length l = f_rows f.
Proof. intros [Hi _] H. unfold int_col in H. destruct (assoc c (f_ints f)) eqn:E; [|discriminate]. injection H as <-. eauto. Qed.

(** The k-th jackknife replicate is the estimate, under the options of C61, of a model
    with the user's arguments on the model's table without exactly the rows of the k-th
    smallest observation id. *)
Theorem C82_jackknife_leaves_one_observation_out sp nm f a m b ids mnl init kw extract o rows :
  create_choice_model f a = Ok m -> bt_model b = m -> well_formed (c_data m) ->
  int_col (c_data m) (a_obs_col a) = Ok ids ->
  generate_jackknife_replicates sp nm b mnl init kw extract o = Ok rows ->
  exists omitted,
    StronglySorted Z.lt omitted /\ (forall x, In x omitted <-> In x ids) /\
    length rows = length omitted /\
    forall k, (k < length omitted)%nat ->
      exists g start r,
        restricted (c_data m) g (other_rows ids (nth k omitted 0%Z)) /\
        estimate_of sp nm g a (options_used a kw o) start r /\
        row_holds (length (bt_mle b)) (nth k rows []) (mr_x r).
Proof.
  intros Hc Hb Hwf Hids H. unfold generate_jackknife_replicates in H. rewrite Hb in H.
  pose proof (created_obs_col _ _ _ Hc) as Ho. rewrite Ho, Hids in H. cbn [bind] in H.
  exists (np_unique ids). split; [apply np_unique_sorted|]. split; [intros x; apply np_unique_In|].
  assert (Hl : length rows = length (np_unique ids)) by (apply mapM_ok in H; symmetry; exact (Forall2_len H)).
  split; [exact Hl|]. intros k Hk.
  destruct (mapM_nth _ _ _ k 0%Z [] H Hk) as [_ Hrow].
  apply bind_ok in Hrow. destruct Hrow as (r & Hr & Hs).
  destruct (retrieve_estimate_of sp nm f a m _ _ _ _ _ _ _ _ _ r Hc Hr) as (start & He).
  replace (with_obs_col a (a_obs_col a)) with a in He by (destruct a; reflexivity).
  eexists. exists start, r. split; [|split; [exact He|exact (store_row_holds _ _ _ Hs)]].
  apply filter_rows_restricted; [exact Hwf|exact (well_formed_length _ _ _ Hwf Hids)].
Qed.

(** ** C83: the bootstrap *)

(** The r-th bootstrap replicate is the estimate, under the options of C61, of a model
    with the user's arguments on the table of the r-th sample: for each sampled
    observation in turn the rows of that observation, under a new observation id. *)
Theorem C83_bootstrap_replicates sp nm f a m b ids n mnl init kw extract o seed rng empty rows :
  create_choice_model f a = Ok m -> bt_model b = m -> well_formed (c_data m) ->
  int_col (c_data m) (a_obs_col a) = Ok ids ->
  generate_bootstrap_replicates sp nm b n mnl init kw extract o seed rng empty = Ok rows ->
  exists size sampled,
    create_cross_sectional_bootstrap_samples ids (c_alt_ids m) (c_choices m) n seed rng empty = Ok (size, sampled) /\
    length rows = n /\
    forall s, (s < n)%nat ->
      let src := sources ids (map (sampled s) (seq 0 size)) in
      (forall k, (k < size)%nat -> In (sampled s k) ids) /\
      exists g start r,
        f_rows g = length src /\
        int_col g "bootstrap_id" = Ok (map fst src) /\
        (forall c l, assoc c (f_ints (c_data m)) = Some l ->
           assoc c (f_ints g) = Some (map (fun p => nth (snd p) l 0%Z) src)) /\
        (forall c l, assoc c (f_reals (c_data m)) = Some l ->
           assoc c (f_reals g) = Some (map (fun p => nth (snd p) l 0%R) src)) /\
        estimate_of sp nm g (with_obs_col a "bootstrap_id") (options_used a kw o) start r /\
        row_holds (length (bt_mle b)) (nth s rows []) (mr_x r).
Proof.
  intros Hc Hb Hwf Hids H. unfold generate_bootstrap_replicates in H. rewrite Hb in H.
  pose proof (created_obs_col _ _ _ Hc) as Ho. rewrite Ho, Hids in H. cbn [bind] in H.
  apply bind_ok in H. destruct H as ([size sampled] & Hsam & H). apply bind_ok in H. destruct H as (gd & Hgd & H).
  exists size, sampled. split; [exact Hsam|].
  assert (Hl : length rows = n) by (apply mapM_ok in H; rewrite <- (Forall2_len H); apply seq_length).
  split; [exact Hl|]. intros s Hs src.
  destruct (mapM_nth _ _ _ s 0%nat [] H) as [_ Hrow]; [rewrite seq_length; exact Hs|].
  rewrite seq_nth in Hrow by exact Hs. cbn [Nat.add] in Hrow.
  apply bind_ok in Hrow. destruct Hrow as (g & Hg & Hrow). apply bind_ok in Hrow. destruct Hrow as (r & Hr & Hst).
  destruct (C56_rejections (c_data m) (a_obs_col a) ids "bootstrap_id" (map (sampled s) (seq 0 size)) gd) as (R1 & R2 & R3 & R4).
  assert (Hoc : has_col (c_data m) (a_obs_col a) = true).
  { destruct (has_col (c_data m) (a_obs_col a)) eqn:E; [reflexivity|]. rewrite (R1 eq_refl) in Hg. discriminate. }
  assert (Hbc : has_col (c_data m) "bootstrap_id" = false).
  { destruct (has_col (c_data m) "bootstrap_id") eqn:E; [|reflexivity]. rewrite (R2 Hoc eq_refl) in Hg. discriminate. }
  assert (Hin : forall x, In x (map (sampled s) (seq 0 size)) -> In x ids).
  { intros x Hx. destruct (in_dec Z.eq_dec x ids) as [Hi|Hi]; [exact Hi|]. rewrite (R3 Hids) in Hg; [discriminate|eauto]. }
  assert (Hne : map (sampled s) (seq 0 size) <> []). { intros E. rewrite (R4 Hids E) in Hg. discriminate. }
  destruct (C56_rows_are_copies (c_data m) (a_obs_col a) ids "bootstrap_id" _ gd Hwf Hids
              (well_formed_length _ _ _ Hwf Hids) Hbc Hne Hin Hgd) as (g' & Hg' & _ & H1 & H2 & H3 & H4 & _).
  rewrite Hg in Hg'. injection Hg' as <-.
  destruct (retrieve_estimate_of sp nm f a m _ _ _ _ _ _ _ _ _ r Hc Hr) as (start & He).
  split. { intros k Hk. apply Hin, in_map_iff. exists k. split; [reflexivity|]. apply in_seq. lia. }
  exists g, start, r. repeat (split; [assumption|]). exact (store_row_holds _ _ _ Hst).
Qed.

(** ** Examples *)

(** An optimizer whose answer depends on the method: "BFGS" stops at once, the others
    after adding one to each parameter. *)
Definition exj_sp : optimizer := fun method _ _ _ => fun _ _ init =>
  Ok (mkMin (mkArr (alen init) (fun i => if String.eqb method "BFGS" then aget init i else aget init i + 1)%R) 0%R).
Definition exj_nm : numerics := mkNumerics (fun h => Ok h) (fun x => x) (fun x => x).
Definition exj_opts : fit_options := mkOpts "newton-cg" 1 1 10 RidgeNone None.

Definition exj_m : created := Eval lazy -[IZR Rmult Rplus Rminus Rdiv Rinv ln exp INR]
  in got (create_choice_model exc_frame exc_uneven).
Definition exj_b : boot := Eval lazy -[IZR Rmult Rplus Rminus Rdiv Rinv ln exp INR]
  in got (boot_init exj_m [0; 0; 0; 0; 0; 0]%R).
Definition exj_rows : list (list R) :=
  [[0 + 1; 0 + 1; 4 + 1; 2 + 1; 3 + 1; 1 + 1]; [0 + 1; 0 + 1; 4 + 1; 2 + 1; 3 + 1; 1 + 1]]%R.

Lemma exj_wf : well_formed (c_data exj_m).
Proof.
  split; intros c l; unfold exj_m; cbn [c_data f_ints f_reals f_rows assoc];
    repeat match goal with |- context [String.eqb c ?s] => destruct (String.eqb c s) end;
    intros E; try discriminate; injection E as <-; reflexivity.
Qed.

Example ex_jackknife :
  create_choice_model exc_frame exc_uneven = Ok exj_m /\ well_formed (c_data exj_m) /\
  int_col (c_data exj_m) "obs" = Ok [1; 1; 2; 2]%Z /\
  boot_init exj_m [0; 0; 0; 0; 0; 0]%R = Ok exj_b /\ bt_model exj_b = exj_m /\
  generate_jackknife_replicates exj_sp exj_nm exj_b (Some (exs_spec, Some exs_names)) (Some (of_list [1; 2; 3; 4]%R))
    (Some no_kwargs) None exj_opts = Ok exj_rows.
Proof.
  split; [reflexivity|]. split; [exact exj_wf|].
  split; [reflexivity|]. split; [reflexivity|]. split; [reflexivity|].
  lazy -[IZR Rmult Rplus Rminus Rdiv Rinv ln exp INR]. reflexivity.
Qed.

(** Every draw picks the first observation of its stratum. *)
Example ex_bootstrap :
  generate_bootstrap_replicates exj_sp exj_nm exj_b 2 (Some (exs_spec, Some exs_names)) (Some (of_list [1; 2; 3; 4]%R))
    (Some no_kwargs) None exj_opts SeedNone (fun _ _ => 0%nat) (fun _ _ => 0%Z) = Ok exj_rows.
Proof. lazy -[IZR Rmult Rplus Rminus Rdiv Rinv ln exp INR]. reflexivity. Qed.

(** The estimate of a re-estimated MNL is not the one with the requested options. *)
Definition exj_mnl : model_args :=
  mkArgs "alt" "obs" "choice" [("time", SStr "all_same")] "MNL" RefNone RefNone None None None None None None.
Definition exj_mm : created := Eval lazy -[IZR Rmult Rplus Rminus Rdiv Rinv ln exp INR]
  in got (create_choice_model exc_frame exj_mnl).
Definition exj_mo : model_obj := Eval lazy -[IZR Rmult Rplus Rminus Rdiv Rinv ln exp INR]
  in got (model_obj_of exj_mm).
Theorem C61_refuted_mnl : exists m r r',
  create_choice_model exc_frame exj_mnl = Ok m /\
  retrieve_point_est exj_sp exj_nm m exc_frame "obs" 1 None None None None None exj_opts = Ok r /\
  estimate_of exj_sp exj_nm exc_frame exj_mnl exj_opts (mkArr 1 (fun _ => 0%R)) r' /\
  aget (mr_x r) 0%nat <> aget (mr_x r') 0%nat.
Proof.
  exists exj_mm, (mkMin (mkArr 1 (fun _ => 0%R)) 0%R), (mkMin (mkArr 1 (fun _ => 0 + 1)%R) 0%R).
  split; [reflexivity|]. split; [lazy -[IZR Rmult Rplus Rminus Rdiv Rinv ln exp INR]; reflexivity|]. split.
  - exists exj_mm, exj_mo. split; [reflexivity|]. split; [lazy -[IZR Rmult Rplus Rminus Rdiv Rinv ln exp INR]; reflexivity|].
    lazy -[IZR Rmult Rplus Rminus Rdiv Rinv ln exp INR]; reflexivity.
  - cbn. lra.
Qed.

Print Assumptions C61_options_are_used.
Print Assumptions C61_refuted_mnl_options_ignored.
Print Assumptions C61_refuted_mixed_logit.
Print Assumptions C61_refuted_mnl.
Print Assumptions C81_stored_settings_are_the_users.
Print Assumptions C81_rebuilt_model_is_the_model.
Print Assumptions C82_jackknife_leaves_one_observation_out.
Print Assumptions C83_bootstrap_replicates.
