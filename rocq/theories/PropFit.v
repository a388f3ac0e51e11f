(** What fit_mle starts from and reports: residuals and chi-squares (C67), market
    shares at a stationary point (C68), starting values (C69), constrained positions of
    nested models (C70), just_point (C72) and the reported log-likelihood (C73).

    [mz] ranges over all optimizers; what a theorem assumes about the optimizer is
    stated in it. *)
From Coq Require Import String ZArith List Reals Lra Lia Arith FunctionalExtensionality Sorting.Sorted.
From Coquelicot Require Import Coquelicot.
From Verif Require Import Res Vec Arr SpecLogit ChoiceCalcs ChoiceFacts Transforms Ids Mappings
  MappingFacts LongData LogitFacts ProbFacts PropMappings PropProbs Frame ChoiceTools BaseModel
  PropBaseModel NestedCalcs RowDeriv HessFacts PropGradient PropGradientLimits PropLikelihood PropNested MixedCalcs MixedFacts PropMixed Estimation PropEstimation.
Import ListNotations.
Open Scope R_scope.

(** For a nested model: a table and a nest specification that the constructor accepts. *)
Definition nests_accepted (m : model_obj) : Prop :=
  match mo_class m with
  | ClassNested t =>
      length (alt_ids (mo_cols m)) = length (obs_ids (mo_cols m)) /\ NoDup (map fst t) /\
      check_nest_spec (raw_of t) (np_unique (alt_ids (mo_cols m))) = Ok tt
  | _ => True
  end.

(** ** C67: probabilities, residuals and chi-squares reported by a fit *)

(** The probability arrays of an estimator built by fit_mle (or by
    create_estimation_obj): every column is a probability distribution within each
    observation, and the "chosen" array holds the entries of the chosen rows. *)
Lemma estimator_probs m nd rvs ridge w core C x cols ch long con z :
  nests_accepted m -> exactly_one_choice (mo_cols m) ->
  estimator_core m nd rvs ridge w = Ok (core, C) ->
  est_probs (mkEst core C con z) x = Ok (cols, ch, long) ->
  let d := mo_cols m in
  indicator_of (d_N (core_data core)) (d_obs (core_data core)) (d_M (core_data core)) (own_of (obs_ids d)) /\
  d_N (core_data core) = length (obs_ids d) /\
  d_obs (core_data core) = length (first_seen (obs_ids d)) /\
  d_y (core_data core) = choice_vec d /\
  forall c, (c < cols)%nat ->
    (forall i, (i < length (obs_ids d))%nat -> 0 < long i c <= 1) /\
    (forall o, In o (obs_ids d) -> id_sum (obs_ids d) o (fun i => long i c) = 1) /\
    (forall i j, (j < length (first_seen (obs_ids d)))%nat -> (i < length (obs_ids d))%nat ->
       nth i (obs_ids d) 0%Z = nth j (first_seen (obs_ids d)) 0%Z -> choice_vec d i = 1 -> ch j c = long i c).
Proof.
  intros Hm Hone Hcore Hp d. unfold estimator_core in Hcore. unfold nests_accepted in Hm.
  fold d in Hcore. destruct (mo_class m) as [k|t|pos].
  - apply bind_ok in Hcore. destruct Hcore as (mp & Hmp & Hcore). injection Hcore as <- <-. cbn [core_data].
    split; [apply (data_obs_indicator d None mp _ _ _ _ Hmp)|]. split; [reflexivity|].
    split; [apply (data_nobs d None mp _ _ _ _ Hmp)|]. split; [reflexivity|].
    unfold est_probs in Hp. cbn [e_core e_chosen] in Hp.
    destruct (chosen_row_to_obs mp) as [CM|] eqn:EC; [|discriminate]. cbn [option_map] in Hp. injection Hp as <- <- <-.
    intros c Hc. unfold est_long_probs, est_chosen_probs.
    destruct (split_param_vec k _ _ x) as [[s i0] b]. split; [|split].
    + intros i Hi. apply (C18_probabilities_positive (model_of k) d None mp (mo_K m) (mo_X m) (Some w) ridge s i0 b _ i Hmp eq_refl Hi).
    + intros o Ho. apply (C17_probabilities_sum_to_one (model_of k) d None mp (mo_K m) (mo_X m) (Some w) ridge s i0 b _ o Hmp eq_refl Ho).
    + intros i j Hj Hi Eo Hy.
      apply (C19_chosen_probs_are_long_probs (model_of k) d None mp (mo_K m) (mo_X m) (Some w) ridge s i0 b CM _ _ j i Hmp EC Hone eq_refl Hj Hi Eo Hy).
  - apply bind_ok in Hcore. destruct Hcore as (mp & Hmp & Hcore). apply bind_ok in Hcore.
    destruct Hcore as (rn & Hrn & Hcore). injection Hcore as <- <-. cbn [core_data n_D].
    split; [apply (data_obs_indicator d (Some t) mp _ _ _ _ Hmp)|]. split; [reflexivity|].
    split; [apply (data_nobs d (Some t) mp _ _ _ _ Hmp)|]. split; [reflexivity|].
    unfold est_probs in Hp. cbn [e_core e_chosen] in Hp.
    destruct (chosen_row_to_obs mp) as [CM|] eqn:EC; [|discriminate]. cbn [option_map nested_split] in Hp. injection Hp as <- <- <-.
    intros c Hc. set (ns := naturalize_nest_coefs _). set (b := aslice _ _ _).
    assert (HS : nested_setup d t mp rn).
    { destruct Hm as (A & B & C'). apply nested_setup_own; try assumption. unfold opt_smat in Hrn.
      destruct (rows_to_nests mp); [|discriminate]. injection Hrn as ->. reflexivity. }
    assert (HP : positive_nests t ns) by (intros q _; apply C42_nest_coefs_in_unit_interval).
    destruct (C39_nested_probabilities d t mp rn (mo_K m) (mo_X m) (Some w) ridge ns b _ HS HP eq_refl) as (P1 & P2).
    split; [exact P1|]. split; [exact P2|]. intros i j Hj Hi Eo Hy.
    apply (C39_nested_chosen_probs d t mp rn (mo_K m) (mo_X m) (Some w) ridge ns b CM _ _ j i HS EC Hone eq_refl Hj Hi Eo Hy).
  - apply bind_ok in Hcore. destruct Hcore as (mp & Hmp & Hcore). apply bind_ok in Hcore.
    destruct Hcore as (rm & Hrm & Hcore). apply bind_ok in Hcore. destruct Hcore as (dr & _ & Hcore).
    apply bind_ok in Hcore. destruct Hcore as (E & HE & Hcore). injection Hcore as <- <-. cbn [core_data].
    pose proof (mixed_own _ _ _ _ _ _ _ _ _ HE) as HO. pose proof (mixed_N _ _ _ _ _ _ _ _ _ HE) as HN.
    destruct (mixed_setup _ _ _ _ _ _ _ _ _ HE) as (mp' & Hmp' & ED & Er & EV & _).
    assert (mp' = mp) by congruence. subst mp'.
    split; [exact HO|]. split; [exact HN|].
    split; [rewrite ED; apply (data_nobs d None mp _ _ _ _ Hmp)|]. split; [rewrite ED; reflexivity|].
    unfold est_probs in Hp. cbn [e_core e_chosen] in Hp.
    destruct (chosen_row_to_obs mp) as [CM|] eqn:EC; [|discriminate]. cbn [option_map] in Hp. injection Hp as <- <- <-.
    intros c Hc. split; [|split].
    + intros i Hi. rewrite <- HN in Hi. split; [apply (pa_pos E _ HO)|apply (pa_le1 E _ HO)]; exact Hi.
    + intros o Ho. destruct (In_row _ _ Ho) as (i & Hi & <-). rewrite <- osum_id_sum by exact Hi.
      rewrite <- HN. apply (pa_sum E _ HO). rewrite HN. exact Hi.
    + intros i j Hj Hi Eo Hy.
      assert (Ed : draw_data E c = data_of d mp (x_vars E) (fun i k => x_X E i c k) (Some w) ridge)
        by (unfold draw_data; rewrite ED; reflexivity).
      unfold chosen_array, prob_array. rewrite Ed.
      apply (C19_chosen_probs_are_long_probs MNL_model d None mp (x_vars E) (fun i k => x_X E i c k) (Some w) ridge None None x CM
        (chosen_probs MNL_model (data_of d mp (x_vars E) (fun i k => x_X E i c k) (Some w) ridge) (smat_R CM) None None x)); auto.
Qed.

Lemma post_inv r nll e p :
  post_estimation r nll e = Ok p ->
  po_min p = r /\ po_final_ll p = - mr_fun r /\ po_null_ll p = nll /\
  po_blocks p = est_split (e_core e) (mr_x r) /\ po_constrained p = e_constrained e /\
  est_probs e (mr_x r) = Ok (po_cols p, po_chosen p, po_long p) /\
  (forall i c, po_residuals p i c = d_y (core_data (e_core e)) i - po_long p i c) /\
  po_chi_squares p = calc_individual_chi_squares (d_N (core_data (e_core e))) (d_M (core_data (e_core e)))
                       (po_residuals p) (po_long p) /\
  (po_rho p, po_rho_bar p) = calc_rho_and_rho_bar_squared (- mr_fun r) nll (alen (mr_x r)) /\
  est_grad (e_core e) (mr_x r) = Ok (po_gradient p) /\
  est_hess e (mr_x r) = Ok (po_hessian p) /\
  est_fish (e_core e) (mr_x r) = Ok (po_fisher p).
Proof.
  unfold post_estimation. intros H. apply bind_ok in H. destruct H as ([[c ch] lo] & H1 & H).
  apply bind_ok in H. destruct H as (g & H2 & H). apply bind_ok in H. destruct H as (h & H3 & H).
  apply bind_ok in H. destruct H as (f & H4 & H). injection H as <-.
  cbn [po_min po_final_ll po_null_ll po_blocks po_constrained po_cols po_chosen po_long po_residuals po_chi_squares po_rho
       po_rho_bar po_gradient po_hessian po_fisher].
  replace (-1 * mr_fun r) with (- mr_fun r) by ring.
  repeat split; try assumption; try reflexivity.
Qed.

(** For every model class, every fit and every column of the probability array (one
    column, or one per draw): the residuals of an observation sum to zero, and the
    observation's chi-square statistic is (1 - p) / p, where p is the probability of
    the alternative that was chosen. *)
Theorem C67_residuals_and_chi_squares mz nm names mixing m nd rvs fa p out c j i :
  nests_accepted m -> exactly_one_choice (mo_cols m) ->
  fit_mle mz nm names mixing m nd rvs fa = Ok (Stored p out) ->
  (c < po_cols p)%nat ->
  let ids := obs_ids (mo_cols m) in
  (j < length (first_seen ids))%nat -> (i < length ids)%nat ->
  nth i ids 0%Z = nth j (first_seen ids) 0%Z -> choice_vec (mo_cols m) i = 1 ->
  id_sum ids (nth i ids 0%Z) (fun r => po_residuals p r c) = 0 /\
  po_residuals p i c = 1 - po_chosen p j c /\
  0 < po_chosen p j c <= 1 /\
  po_chi_squares p j c = (1 - po_chosen p j c) / po_chosen p j c.
Proof.
  intros Hm Hone H Hc ids Hj Hi Eo Hy. apply fit_mle_inv in H. destruct H as (e & init & mr & He & _ & _ & Hpost & _).
  apply fit_estimator_inv in He. destruct He as (_ & _ & _ & _ & _ & Hcore).
  apply post_inv in Hpost. destruct Hpost as (_ & _ & _ & _ & _ & Hp & Hres & Hchi & _).
  destruct e as [core C con z]. cbn [e_core e_chosen] in *.
  destruct (estimator_probs m nd rvs _ _ core C (mr_x mr) _ _ _ con z Hm Hone Hcore Hp) as (HI & HN & HO & HY & HP).
  destruct (HP c Hc) as (P1 & P2 & P3). fold ids in HI, HN, HO, P1, P2, P3.
  pose proof (one_choice_of _ Hone) as (Y01 & Y1). fold ids in Y01, Y1.
  rewrite (P3 i j Hj Hi Eo Hy). specialize (P1 i Hi) as Pi.
  assert (Eown : own_of ids i = j) by (unfold own_of; rewrite Eo; apply index_of_nth; [apply first_seen_NoDup|exact Hj]).
  assert (SP : osum (length ids) (own_of ids) j (fun r => po_long p r c) = 1).
  { rewrite <- Eown, osum_id_sum by exact Hi. apply P2, nth_In, Hi. }
  assert (SY : osum (length ids) (own_of ids) j (choice_vec (mo_cols m)) = 1) by (rewrite <- Eown; apply Y1, Hi).
  split; [|split; [|split; [exact Pi|]]].
  - rewrite <- osum_id_sum by exact Hi. rewrite Eown.
    rewrite (osum_ext _ _ _ _ (fun r => choice_vec (mo_cols m) r - po_long p r c)).
    + rewrite osum_minus, SP, SY. ring.
    + intros r Hr _. rewrite Hres, HY. reflexivity.
  - rewrite Hres, HY, Hy. reflexivity.
  - rewrite Hchi. unfold calc_individual_chi_squares, mdot, transp. rewrite HN.
    rewrite (sumn_ext _ _ (fun r => if (own_of ids r =? j)%nat
       then (choice_vec (mo_cols m) r * choice_vec (mo_cols m) r) / po_long p r c
            - 2 * choice_vec (mo_cols m) r + po_long p r c else 0)).
    2: { intros r Hr. destruct (HI r ltac:(rewrite HN; exact Hr)) as (_ & HM).
         rewrite HM by (rewrite HO; exact Hj). destruct (own_of ids r =? j)%nat; [|ring].
         rewrite Hres, HY. field. specialize (P1 r Hr). lra. }
    change (osum (length ids) (own_of ids) j (fun r => (choice_vec (mo_cols m) r * choice_vec (mo_cols m) r) / po_long p r c
            - 2 * choice_vec (mo_cols m) r + po_long p r c) = (1 - po_long p i c) / po_long p i c).
    rewrite osum_plus, osum_minus, osum_scal_l, SP, SY.
    assert (E1 : osum (length ids) (own_of ids) j (fun r => (choice_vec (mo_cols m) r * choice_vec (mo_cols m) r) / po_long p r c)
                 = 1 / po_long p i c).
    { unfold osum. rewrite (sumn_ext _ _ (fun r => if (r =? i)%nat then 1 / po_long p r c else 0)).
      - rewrite (sumn_single (length ids) i (fun r => 1 / po_long p r c)) by exact Hi. reflexivity.
      - intros r Hr. destruct (Nat.eqb_spec r i) as [->|Ne].
        + rewrite Eown, Nat.eqb_refl, Hy. field. lra.
        + destruct (Nat.eqb_spec (own_of ids r) j) as [A|A]; [|reflexivity].
          assert (choice_vec (mo_cols m) r = 0) as ->; [|unfold Rdiv; ring].
          destruct Hone as (cc & Ec & H01 & Hex). fold ids in H01, Hex.
          assert (Hcv : forall k, choice_vec (mo_cols m) k = IZR (nth k cc 0%Z)) by (intros k; unfold choice_vec; rewrite Ec; reflexivity).
          destruct (H01 r Hr) as [Z0|Z1]; [rewrite Hcv, Z0; reflexivity|]. exfalso. apply Ne.
          destruct (Hex (nth i ids 0%Z)) as (k & Hk & Ek & Ck & Hu); [apply nth_In; exact Hi|].
          assert (Er : nth r ids 0%Z = nth i ids 0%Z) by (apply (own_of_eq ids); [exact Hr|exact Hi|congruence]).
          rewrite (Hu r Hr Er Z1). symmetry. apply Hu; [exact Hi|reflexivity|].
          rewrite Hcv in Hy. apply eq_IZR. exact Hy. }
    rewrite E1. field. lra.
Qed.

(** ** C68: shares of the alternatives at a stationary point *)

(** Position [j] of the parameter vector is a constant for the alternative [a]:
    either a column of the MNL design that is 1 on the rows of [a] and 0 elsewhere,
    or an "outside" intercept of one of the other models. *)
Definition constant_for (k : logit_kind) (d : long_cols) (K : nat) (X : mat) (j : nat) (a : Z) : Prop :=
  match k, kind_iref k with
  | KMNL, _ =>
      (j < K)%nat /\
      forall i, (i < length (obs_ids d))%nat -> X i j = if (nth i (alt_ids d) 0 =? a)%Z then 1 else 0
  | _, Some ref =>
      let alts := np_unique (alt_ids d) in
      exists q, (q < length alts - 1)%nat /\ j = (num_shapes k (length alts) + q)%nat /\
                a = nth (skip ref q) alts 0%Z
  | _, None => False
  end.

(** An optimizer returns a point with as many entries as its starting point. *)
Definition keeps_length (mz : minimizer) : Prop :=
  forall f h x0 r, mz f h x0 = Ok r -> alen (mr_x r) = alen x0.

(** If the slope of the log-likelihood with respect to the constant of alternative
    [a] is zero at the reported estimates, then the predicted number of choices of
    [a] (the sum of its probabilities) is the observed one. *)
Theorem C68_shares_are_reproduced mz nm names mixing m k nd rvs fa p out j a :
  mo_class m = ClassLogit k -> kind_ok k (length (np_unique (alt_ids (mo_cols m)))) -> (0 < mo_K m)%nat ->
  length (alt_ids (mo_cols m)) = length (obs_ids (mo_cols m)) ->
  fa_ridge fa = RidgeNone -> keeps_length mz ->
  fit_mle mz nm names mixing m nd rvs fa = Ok (Stored p out) ->
  constant_for k (mo_cols m) (mo_K m) (mo_X m) j a ->
  aget (po_gradient p) j = 0 ->
  let d := mo_cols m in
  id_sum (alt_ids d) a (fun i => po_long p i 0%nat) = id_sum (alt_ids d) a (choice_vec d).
Proof.
  intros Ek Hk HK HL Hr Hkl H Hj Hg d. apply fit_mle_inv in H. destruct H as (e & init & mr & He & Hm & _ & Hpost & _).
  apply fit_estimator_inv in He. destruct He as (_ & Hlen & _ & _ & _ & Hcore).
  apply Hkl in Hm. rewrite <- (check_length_ext _ _ _ Hm) in Hlen.
  apply post_inv in Hpost. destruct Hpost as (_ & _ & _ & _ & _ & Hp & _ & _ & _ & Hgr & _).
  destruct e as [core C con z]. cbn [e_core e_chosen] in *. unfold estimator_core in Hcore. rewrite Ek in Hcore.
  apply bind_ok in Hcore. destruct Hcore as (mp & Hmp & Hcore). injection Hcore as <- <-. rewrite Hr in *.
  fold d in Hp, Hgr, Hlen, Hmp, Hk, HL, Hj. cbn [ridge_value] in *.
  set (D := data_of d mp (mo_K m) (mo_X m) (@Some vec (fun _ => 1)) None) in *. set (x := mr_x mr) in *.
  assert (EJ : d_J D = length (np_unique (alt_ids d))) by (apply (data_J _ _ _ _ _ _ _ Hmp)).
  cbn [est_check_length] in Hlen. unfold check_length_of_initial_values in Hlen.
  destruct (Nat.eqb_spec (alen x) (assumed_param_dimensions k (d_J D) (d_K D))) as [El|]; [|discriminate].
  rewrite dims_eq in El by (rewrite EJ; exact Hk).
  destruct (grad_form k D x HK El) as (g & Eg & Lg & Fg). cbn [est_grad] in Hgr. rewrite Eg in Hgr. injection Hgr as Egp.
  rewrite <- Egp in Hg.
  assert (EL : forall i, po_long p i 0%nat = long_probs (model_of k) D (sh k (d_J D) x) (ic k (d_J D) x) (be k (d_J D) (d_K D) x) i).
  { intros i. unfold est_probs in Hp. cbn [e_core e_chosen] in Hp. destruct (chosen_row_to_obs mp); [|discriminate].
    cbn [option_map] in Hp. injection Hp as _ _ <-. unfold est_long_probs. rewrite split_eq by assumption. reflexivity. }
  assert (G : (j < alen x)%nat /\ forall i, (i < length (obs_ids d))%nat ->
     DH k D x i j = if (nth i (alt_ids d) 0 =? a)%Z then 1 else 0).
  { unfold constant_for in Hj. destruct (kind_iref k) as [ref|] eqn:Er.
    - assert (Hj' : exists q, (q < d_J D - 1)%nat /\ j = (num_shapes k (d_J D) + q)%nat /\
                              a = nth (skip ref q) (np_unique (alt_ids d)) 0%Z).
      { rewrite EJ. destruct k; rewrite ?Er in Hj; first [exact Hj | discriminate Er]. }
      destruct Hj' as (q & Hq & -> & ->). assert (EI : num_icpts k (d_J D) = (d_J D - 1)%nat) by (unfold num_icpts; rewrite Er; reflexivity).
      split; [lia|]. intros i Hi. unfold DH, hcat, vcat.
      destruct (Nat.ltb_spec (num_shapes k (d_J D) + q) (num_shapes k (d_J D))); [lia|].
      destruct (Nat.ltb_spec (num_shapes k (d_J D) + q - num_shapes k (d_J D)) (num_icpts k (d_J D))); [|lia].
      destruct (dh_da_some k (d_J D) (d_A D) (sys_utilities D (be k (d_J D) (d_K D) x)) (ic k (d_J D) x)) as (r' & E1 & E2); [lia|].
      rewrite E2. cbn [cent_or_zero cent]. replace (num_shapes k (d_J D) + q - num_shapes k (d_J D))%nat with q by lia.
      assert (r' = ref) by congruence. subst r'.
      assert (Hs : (skip ref q < d_J D)%nat).
      { destruct Hk as (_ & Hk & _). rewrite Er in Hk. unfold skip. destruct (q <? ref)%nat; lia. }
      pose proof (data_alt_indicator d None mp (mo_K m) (mo_X m) (@Some vec (fun _ => 1)) None Hmp HL) as HA. fold D in HA.
      destruct (HA i Hi) as (_ & HA'). rewrite HA' by exact Hs. unfold alt_of.
      assert (Hin : In (nth i (alt_ids d) 0%Z) (np_unique (alt_ids d))) by (apply np_unique_In, nth_In; rewrite HL; exact Hi).
      destruct (Nat.eqb_spec (index_of (nth i (alt_ids d) 0%Z) (np_unique (alt_ids d))) (skip ref q)) as [A|A];
        destruct (Z.eqb_spec (nth i (alt_ids d) 0%Z) (nth (skip ref q) (np_unique (alt_ids d)) 0%Z)) as [B|B]; try reflexivity; exfalso.
      + apply B. rewrite <- A. symmetry. apply nth_index_of. exact Hin.
      + apply A. rewrite B. apply index_of_nth; [apply np_unique_NoDup|]. rewrite <- EJ. exact Hs.
    - destruct k; rewrite ?Er in Hj; try contradiction. destruct Hj as (Hj & HX). split; [cbn in El; change (d_K D) with (mo_K m) in El; lia|].
      intros i Hi. rewrite <- HX by exact Hi. unfold DH, hcat, vcat. cbn [num_shapes num_icpts kind_iref]. cbn [Nat.ltb Nat.leb].
      rewrite !Nat.sub_0_r. unfold dh_db. cbn [model_of MNL_model m_dh_dv]. unfold mdot, diagm.
      rewrite (sumn_ext _ _ (fun r => if (i =? r)%nat then d_X D r j else 0)) by (intros r _; destruct (i =? r)%nat; ring).
      rewrite sumn_single' by exact Hi. reflexivity. }
  destruct G as (Hjx & G). rewrite Fg in Hg by exact Hjx. unfold ridge_or_0 in Hg. cbn [D data_of d_ridge] in Hg. fold D in Hg.
  assert (S : sumn (length (obs_ids d)) (fun i => if (nth i (alt_ids d) 0 =? a)%Z then choice_vec d i - po_long p i 0%nat else 0) = 0).
  { etransitivity; [|exact Hg]. rewrite Rmult_0_r, Rmult_0_l, Rminus_0_r. apply sumn_ext. intros i Hi. rewrite G by exact Hi.
    cbn [D data_of d_w d_y eff_weights]. fold D. rewrite EL. destruct (_ =? a)%Z; ring. }
  unfold id_sum. rewrite HL. symmetry. apply Rminus_diag_uniq. rewrite <- sumn_minus. rewrite <- S.
  apply sumn_ext. intros i _. destruct (_ =? a)%Z; ring.
Qed.

(** ** C69: starting values *)

Definition same_arr (a b : arr) : Prop := alen a = alen b /\ forall i, (i < alen a)%nat -> aget a i = aget b i.
Definition same_opt (a b : option arr) : Prop :=
  match a, b with Some x, Some y => same_arr x y | None, None => True | _, _ => False end.

(** Values passed per block end up in the blocks they were passed for. *)
Theorem C69_separate_starting_values m k nd rvs fa e init :
  mo_class m = ClassLogit k -> kind_ok k (length (np_unique (alt_ids (mo_cols m)))) -> (0 < mo_K m)%nat ->
  (2 <= length (np_unique (alt_ids (mo_cols m))))%nat ->
  fa_init_vals fa = None ->
  fit_estimator m nd rvs fa = Ok (e, init) ->
  let B := est_split (e_core e) init in
  same_opt (bl_shapes B) (fa_init_shapes fa) /\ same_opt (bl_intercepts B) (fa_init_intercepts fa) /\
  same_opt (Some (bl_coefs B)) (fa_init_coefs fa) /\ bl_nests B = None.
Proof.
  intros Ek Hk HK HJ Hv H. apply fit_estimator_inv in H. destruct H as (Hi & Hlen & _ & _ & _ & Hcore).
  unfold estimator_core in Hcore. rewrite Ek in Hcore. apply bind_ok in Hcore. destruct Hcore as (mp & Hmp & Hcore).
  injection Hcore as Ec _. rewrite <- Ec in *. clear Ec. cbn [est_split est_check_length] in *.
  set (D := data_of (mo_cols m) mp (mo_K m) (mo_X m) (@Some vec (fun _ => 1)) (ridge_value (fa_ridge fa))) in *.
  assert (EJ : d_J D = length (np_unique (alt_ids (mo_cols m)))) by (apply (data_J _ _ _ _ _ _ _ Hmp)).
  unfold check_length_of_initial_values in Hlen.
  destruct (Nat.eqb_spec (alen init) (assumed_param_dimensions k (d_J D) (d_K D))) as [El|]; [|discriminate].
  rewrite dims_eq in El by (rewrite EJ; exact Hk). rewrite split_eq by assumption.
  cbn [bl_shapes bl_intercepts bl_coefs bl_nests]. unfold init_vector in Hi. rewrite Ek, <- EJ in Hi. rewrite <- EJ in HJ.
  change (mo_K m) with (d_K D) in Hi, HK. set (J := d_J D) in *. set (K := d_K D) in *.
  assert (HI : (0 < num_icpts k J)%nat <-> kind_iref k <> None).
  { unfold num_icpts. destruct (kind_iref k); split; intros; try discriminate; try lia; congruence. }
  assert (PL : forall a, plain_init fa = Ok a -> False).
  { intros a. unfold plain_init. rewrite Hv. destruct (_ || _)%bool; discriminate. }
  assert (CL : num_shapes k J = 0%nat -> has_shape k = false -> clog_init J K fa = Ok init ->
     same_opt (sh k J init) (fa_init_shapes fa) /\ same_opt (ic k J init) (fa_init_intercepts fa) /\
     same_opt (Some (be k J K init)) (fa_init_coefs fa) /\ @None arr = None).
  { intros H0 Hs Hc. unfold clog_init in Hc. rewrite Hv in Hc. unfold sh, ic, be. rewrite Hs, H0 in *. cbn [Nat.add] in *.
    destruct (fa_init_shapes fa); cbn [given] in Hc; [discriminate|].
    destruct (fa_init_coefs fa) as [b|]; [|discriminate]. destruct (Nat.eqb_spec (alen b) K) as [Eb|]; cbn [negb] in Hc; [|discriminate].
    destruct (fa_init_intercepts fa) as [a|].
    - destruct (Nat.eqb_spec (alen a) (J - 1)) as [Ea|]; [|discriminate]. injection Hc as <-. cbn [acat alen aget] in *.
      assert (EN : num_icpts k J = (J - 1)%nat) by (unfold num_icpts in *; destruct (kind_iref k); lia). rewrite EN.
      destruct (Nat.ltb_spec 0 (J - 1)); [|lia]. cbn [same_opt]. unfold same_arr. cbn [aslice acat alen aget]. unfold vcat.
      repeat split; try lia.
      + intros i Hi'. destruct (Nat.ltb_spec (0 + i) (alen a)); [reflexivity|lia].
      + intros i Hi'. destruct (Nat.ltb_spec (J - 1 + i) (alen a)); [lia|]. f_equal. lia.
    - injection Hc as <-. assert (EN : num_icpts k J = 0%nat) by lia. rewrite EN. cbn [Nat.ltb Nat.leb same_opt].
      unfold same_arr. cbn [aslice acat alen aget]. repeat split; auto. }
  assert (SL : has_shape k = true -> shaped_init (num_shapes k J) J K fa = Ok init ->
     same_opt (sh k J init) (fa_init_shapes fa) /\ same_opt (ic k J init) (fa_init_intercepts fa) /\
     same_opt (Some (be k J K init)) (fa_init_coefs fa) /\ @None arr = None).
  { intros Hs Hc. unfold shaped_init in Hc. rewrite Hv in Hc. unfold sh, ic, be. rewrite Hs.
    destruct (fa_init_shapes fa) as [s|]; [|discriminate]. destruct (fa_init_coefs fa) as [b|]; [|discriminate].
    destruct (Nat.eqb_spec (alen s) (num_shapes k J)) as [Es|]; cbn [negb] in Hc; [|discriminate].
    destruct (Nat.eqb_spec (alen b) K) as [Eb|]; cbn [negb] in Hc; [|discriminate].
    destruct (fa_init_intercepts fa) as [a|].
    - destruct (Nat.eqb_spec (alen a) (J - 1)) as [Ea|]; [|discriminate]. injection Hc as <-. cbn [acat alen aget] in *.
      assert (EN : num_icpts k J = (J - 1)%nat) by (unfold num_icpts in *; destruct (kind_iref k); lia). rewrite EN.
      destruct (Nat.ltb_spec 0 (J - 1)); [|lia]. cbn [same_opt]. unfold same_arr. cbn [aslice acat alen aget]. unfold vcat.
      repeat split; try lia; intros i Hi'.
      + destruct (Nat.ltb_spec (0 + i) (alen s)); [reflexivity|lia].
      + destruct (Nat.ltb_spec (num_shapes k J + i) (alen s)); [lia|].
        destruct (Nat.ltb_spec (num_shapes k J + i - alen s) (alen a)); [f_equal; lia|lia].
      + destruct (Nat.ltb_spec (num_shapes k J + (J - 1) + i) (alen s)); [lia|].
        destruct (Nat.ltb_spec (num_shapes k J + (J - 1) + i - alen s) (alen a)); [lia|f_equal; lia].
    - injection Hc as <-. cbn [acat alen aget] in *. assert (EN : num_icpts k J = 0%nat) by lia. rewrite EN. cbn [Nat.ltb Nat.leb same_opt].
      unfold same_arr. cbn [aslice acat alen aget]. unfold vcat. repeat split; try lia; intros i Hi'.
      + destruct (Nat.ltb_spec (0 + i) (alen s)); [reflexivity|lia].
      + destruct (Nat.ltb_spec (num_shapes k J + 0 + i) (alen s)); [lia|f_equal; lia]. }
  destruct k; [destruct (PL _ Hi)|apply CL|apply SL|apply SL|apply SL]; try reflexivity; exact Hi.
Qed.

(** A full starting vector is used unchanged. *)
Theorem C69_full_starting_vector m nd rvs fa e init v :
  fa_init_vals fa = Some v -> fit_estimator m nd rvs fa = Ok (e, init) -> init = v.
Proof.
  intros Hv H. apply fit_estimator_inv in H. destruct H as (H & _). unfold init_vector in H.
  assert (P : plain_init fa = Ok init -> init = v).
  { unfold plain_init. destruct (_ || _)%bool; [discriminate|]. rewrite Hv. congruence. }
  assert (C : forall J K, clog_init J K fa = Ok init -> init = v).
  { intros J K. unfold clog_init. destruct (given _); [discriminate|]. rewrite Hv. congruence. }
  assert (S : forall n J K, shaped_init n J K fa = Ok init -> init = v).
  { intros n J K. unfold shaped_init. rewrite Hv. congruence. }
  destruct (mo_class m) as [[| | | |]|t|pos]; eauto.
Qed.

(** The number of free parameters of a model *)
Definition num_params (m : model_obj) : nat :=
  let J := length (np_unique (alt_ids (mo_cols m))) in
  match mo_class m with
  | ClassLogit k => (num_shapes k J + match kind_iref k with Some _ => J - 1 | None => 0 end + mo_K m)%nat
  | ClassNested t => (length t + mo_K m)%nat
  | ClassMixed pos => (mo_K m + length pos)%nat
  end.

(** A starting vector of any other length is refused. *)
Theorem C69_wrong_length_refused mz nm names mixing m nd rvs fa v :
  (forall k, mo_class m = ClassLogit k -> kind_ok k (length (np_unique (alt_ids (mo_cols m))))) ->
  nests_accepted m ->
  fa_init_vals fa = Some v -> alen v <> num_params m ->
  exists x, fit_mle mz nm names mixing m nd rvs fa = Err x.
Proof.
  intros Hk Hn Hv Hl. destruct (fit_mle mz nm names mixing m nd rvs fa) as [r|x] eqn:H; [|eauto]. exfalso.
  apply fit_mle_inv in H. destruct H as (e & init & mr & He & _).
  pose proof (C69_full_starting_vector _ _ _ _ _ _ _ Hv He) as ->.
  apply fit_estimator_inv in He. destruct He as (_ & Hlen & _ & _ & _ & Hcore). apply Hl. clear Hl.
  unfold estimator_core in Hcore. unfold num_params, nests_accepted in *. destruct (mo_class m) as [k|t|pos].
  - apply bind_ok in Hcore. destruct Hcore as (mp & Hmp & Hcore). injection Hcore as Ec _. rewrite <- Ec in Hlen.
    cbn [est_check_length] in Hlen. unfold check_length_of_initial_values in Hlen.
    rewrite (data_J _ _ _ _ _ _ _ Hmp) in Hlen.
    destruct (Nat.eqb_spec (alen v) (assumed_param_dimensions k (length (np_unique (alt_ids (mo_cols m)))) (d_K
      (data_of (mo_cols m) mp (mo_K m) (mo_X m) (@Some vec (fun _ => 1)) (ridge_value (fa_ridge fa)))))) as [El|]; [|discriminate].
    rewrite dims_eq in El by (apply Hk; reflexivity). exact El.
  - apply bind_ok in Hcore. destruct Hcore as (mp & Hmp & Hcore). apply bind_ok in Hcore.
    destruct Hcore as (rn & Hrn & Hcore). injection Hcore as Ec _. rewrite <- Ec in Hlen.
    cbn [est_check_length] in Hlen. unfold nested_check_length in Hlen. cbn [n_D n_Q data_of d_K] in Hlen.
    destruct (Nat.eqb_spec (alen v) (mo_K m + s_cols rn)) as [El|]; [|discriminate].
    assert (HS : nested_setup (mo_cols m) t mp rn).
    { destruct Hn as (A & B & C'). apply nested_setup_own; try assumption. unfold opt_smat in Hrn.
      destruct (rows_to_nests mp); [|discriminate]. injection Hrn as ->. reflexivity. }
    destruct (setup_nests _ _ _ _ HS) as (Eq & _). lia.
  - apply bind_ok in Hcore. destruct Hcore as (mp & Hmp & Hcore). apply bind_ok in Hcore.
    destruct Hcore as (rm & Hrm & Hcore). apply bind_ok in Hcore. destruct Hcore as (dr & _ & Hcore).
    apply bind_ok in Hcore. destruct Hcore as (E & HE & Hcore). injection Hcore as Ec _. rewrite <- Ec in Hlen.
    destruct (mixed_setup _ _ _ _ _ _ _ _ _ HE) as (mp' & _ & _ & _ & EV & _).
    cbn [est_check_length] in Hlen. unfold mixed_check_length in Hlen.
    destruct (Nat.eqb_spec (alen v) (x_vars E)) as [El|]; [|discriminate]. lia.
Qed.

(** Without any starting values, or with values per block that are incomplete or of
    wrong length, fit_mle raises before the optimizer is called. *)
Theorem C69_bad_starting_values mz nm names mixing m nd rvs fa x :
  init_vector m fa = Err x ->
  fit_mle mz nm names mixing m nd rvs fa = Err x /\
  (x = ValueError \/
   (x = AttributeError /\ fa_init_vals fa = None /\ fa_init_shapes fa = None /\
    fa_init_intercepts fa = None /\ fa_init_coefs fa = None)).
Proof.
  intros H. split; [unfold fit_mle, fit_estimator; rewrite H; reflexivity|]. unfold init_vector in H.
  assert (P : plain_init fa = Err x -> x = ValueError \/
   (x = AttributeError /\ fa_init_vals fa = None /\ fa_init_shapes fa = None /\
    fa_init_intercepts fa = None /\ fa_init_coefs fa = None)).
  { unfold plain_init. destruct (fa_init_shapes fa), (fa_init_intercepts fa), (fa_init_coefs fa); cbn [given orb];
      try (intros E; injection E; auto; fail). destruct (fa_init_vals fa); [discriminate|]. intros E. injection E as <-. auto 10. }
  assert (C : forall J K, clog_init J K fa = Err x -> x = ValueError).
  { intros J K. unfold clog_init. destruct (given _); [congruence|]. destruct (fa_init_vals fa), (fa_init_coefs fa);
      try congruence. destruct (negb _); [congruence|]. destruct (fa_init_intercepts fa); [|congruence]. destruct (_ =? _)%nat; congruence. }
  assert (S : forall n J K, shaped_init n J K fa = Err x -> x = ValueError).
  { intros n J K. unfold shaped_init. destruct (fa_init_vals fa); [congruence|]. destruct (fa_init_shapes fa), (fa_init_coefs fa);
      try congruence. destruct (negb _); [congruence|]. destruct (negb _); [congruence|]. destruct (fa_init_intercepts fa); [|congruence].
    destruct (_ =? _)%nat; congruence. }
  destruct (mo_class m) as [[| | | |]|t|pos]; eauto.
Qed.

(** ** C70: the constrained positions of a nested model *)

(** A nest with a single alternative cannot be estimated: its position is constrained
    whether the user asks for it or not; the list has no duplicates and is increasing. *)
Theorem C70_nested_constrained_positions m t nd rvs fa e init :
  mo_class m = ClassNested t -> fit_estimator m nd rvs fa = Ok (e, init) ->
  exists l, e_constrained e = Some l /\ StronglySorted Z.lt l /\
    forall z, In z l <->
      (exists q, z = Z.of_nat q /\ (q < length t)%nat /\ length (nest_alts t q) = 1%nat) \/
      (exists user, fa_constrained fa = Some user /\ In z user).
Proof.
  intros Et H. apply fit_estimator_inv in H. destruct H as (_ & _ & H & _).
  unfold fit_constrained in H. rewrite Et in H. eexists. split; [exact H|]. split; [apply np_unique_sorted|].
  intros z. rewrite np_unique_In.
  assert (D : In z (map Z.of_nat (identify_degenerate_nests t)) <->
              exists q, z = Z.of_nat q /\ (q < length t)%nat /\ length (nest_alts t q) = 1%nat).
  { rewrite in_map_iff. split.
    - intros (q & <- & Hq). apply identify_degenerate_spec in Hq. eauto.
    - intros (q & -> & Hq). exists q. split; [reflexivity|]. apply identify_degenerate_spec. exact Hq. }
  destruct (fa_constrained fa) as [user|].
  - rewrite in_app_iff, D. split; intros [A|A]; auto; right; [eauto|]. destruct A as (u & E & A). congruence.
  - rewrite D. split; [auto|]. intros [A|(u & E & _)]; [exact A|discriminate].
Qed.

(** Hence their parameters keep their starting values in any fit by an optimizer that
    moves along gradients. *)
Theorem C70_degenerate_nests_keep_starting_values mz nm names mixing m t nd rvs fa r init q :
  mo_class m = ClassNested t -> moves_along_gradients mz ->
  fit_mle mz nm names mixing m nd rvs fa = Ok r ->
  init_vector m fa = Ok init -> (q < alen init)%nat ->
  (q < length t)%nat -> length (nest_alts t q) = 1%nat ->
  aget (final_point r) q = aget init q.
Proof.
  intros Et Hmz H Hi Hql Hq H1. apply fit_mle_inv in H. destruct H as (e & i & mr & He & Hm & H).
  destruct (C70_nested_constrained_positions _ _ _ _ _ _ _ Et He) as (l & El & _ & Hl).
  apply fit_estimator_inv in He. destruct He as (Hi' & Hlen & _ & _ & _ & Hcore).
  assert (i = init) by congruence. subst i. clear Hi'.
  assert (Efin : final_point r = mr_x mr).
  { destruct r as [mr'|p out]; cbn [final_point]; [destruct H as (_ & ->); reflexivity|].
    destruct H as (_ & Hp & _). apply post_min in Hp. rewrite Hp. reflexivity. }
  rewrite Efin. apply (C50_constrained_parameters_do_not_move e init (mr_x mr) l q); try assumption.
  - unfold estimator_core in Hcore. rewrite Et in Hcore. apply bind_ok in Hcore. destruct Hcore as (mp & Hmp & Hcore).
    apply bind_ok in Hcore. destruct Hcore as (rn & Hrn & Hcore). injection Hcore as <- _. exact I.
  - apply (Hmz _ _ _ _ Hm).
  - left. apply Hl. left. eauto.
Qed.

(** ** C72: just_point *)
Definition with_just_point (fa : fit_args) (b : bool) : fit_args :=
  mkFitArgs (fa_init_vals fa) (fa_init_shapes fa) (fa_init_intercepts fa) (fa_init_coefs fa)
    (fa_ridge fa) (fa_constrained fa) b (fa_weights fa).

(** Asking for the point only gives the point of the full fit, and never stores
    anything; whenever the full fit succeeds, so does the short one. *)
Theorem C72_just_point mz nm names mixing m nd rvs fa :
  (forall r, fit_mle mz nm names mixing m nd rvs (with_just_point fa true) = Ok r ->
     exists mr, r = Returned mr) /\
  (forall r, fit_mle mz nm names mixing m nd rvs (with_just_point fa false) = Ok r ->
     exists p out, r = Stored p out /\
       fit_mle mz nm names mixing m nd rvs (with_just_point fa true) = Ok (Returned (po_min p))) /\
  (forall x, fit_mle mz nm names mixing m nd rvs (with_just_point fa true) = Err x ->
     fit_mle mz nm names mixing m nd rvs (with_just_point fa false) = Err x).
Proof.
  assert (EF : forall b, fit_estimator m nd rvs (with_just_point fa b) = fit_estimator m nd rvs fa) by reflexivity.
  split; [|split].
  - intros r H. apply fit_mle_inv in H. destruct H as (e & i & mr & _ & _ & H). destruct r as [mr'|p out]; [eauto|].
    destruct H as (H & _). discriminate.
  - intros r H. apply fit_mle_inv in H. destruct H as (e & i & mr & He & Hm & H). destruct r as [mr'|p out].
    + destruct H as (H & _). discriminate.
    + exists p, out. split; [reflexivity|]. destruct H as (_ & Hp & _). rewrite (post_min _ _ _ _ Hp).
      unfold fit_mle. rewrite EF in He. rewrite EF, He. cbn [bind]. unfold estimate. rewrite Hm. reflexivity.
  - intros x H. unfold fit_mle in *. rewrite EF in *. destruct (fit_estimator m nd rvs fa) as [[e i]|y]; cbn [bind] in *; [|congruence].
    unfold estimate in *. destruct (mz _ _ i) as [mr|y]; cbn [bind] in *; [discriminate|congruence].
Qed.

(** ** C73: the reported log-likelihood *)

(** The optimizer reports the value of the objective at the point it returns. *)
Definition reports_objective (mz : minimizer) : Prop :=
  forall f h x0 r, mz f h x0 = Ok r -> exists g, f (mr_x r) = Ok (mr_fun r, g).
(** It never returns a worse point than the one it was given. *)
Definition never_worse (mz : minimizer) : Prop :=
  forall f h x0 r F0 g0, mz f h x0 = Ok r -> f x0 = Ok (F0, g0) -> mr_fun r <= F0.

Lemma neg_ll_value e x F g : neg_ll_and_neg_gradient e x = Ok (F, g) -> F = - est_ll (e_core e) x.
Proof.
  unfold neg_ll_and_neg_gradient. intros H. apply bind_ok in H. destruct H as (g0 & _ & H).
  destruct (e_constrained e); [apply bind_ok in H; destruct H as (p & _ & H)|]; injection H as <- _; ring.
Qed.

(** The stored log-likelihood is the (ridge-penalised) log-likelihood at the reported
    parameters; it is at least the one at the starting values; the null
    log-likelihood is the one at the zero vector; rho-squared and adjusted
    rho-squared are computed from the two; and AIC and BIC use the same value. *)
Theorem C73_reported_log_likelihood mz nm names mixing m nd rvs fa p out :
  reports_objective mz ->
  fit_mle mz nm names mixing m nd rvs fa = Ok (Stored p out) ->
  exists e init,
    fit_estimator m nd rvs fa = Ok (e, init) /\
    let x := mr_x (po_min p) in
    let LL := est_ll (e_core e) in
    f_log_likelihood out = LL x /\
    po_null_ll p = LL (mkArr (alen init) (fun _ => 0)) /\
    po_rho p = 1 - LL x / po_null_ll p /\
    po_rho_bar p = 1 - (LL x - INR (alen x)) / po_null_ll p /\
    (never_worse mz -> forall F g, neg_ll_and_neg_gradient e init = Ok (F, g) -> LL init <= f_log_likelihood out).
Proof.
  intros Hro H. apply fit_mle_inv in H. destruct H as (e & init & mr & He & Hm & _ & Hp & Hs).
  exists e, init. split; [exact He|]. intros x LL.
  apply fit_estimator_inv in He. destruct He as (_ & _ & _ & Hz & _).
  apply post_inv in Hp. destruct Hp as (Ex & EL & EN & _ & _ & _ & _ & _ & Erho & _).
  pose proof (C52_information_criteria _ _ _ _ _ Hs) as (EF & _). cbv zeta in EF.
  destruct (Hro _ _ _ _ Hm) as (g & Hg). apply neg_ll_value in Hg as EFun.
  assert (E1 : f_log_likelihood out = LL x).
  { rewrite EF. cbn [results_of r_log_likelihood]. rewrite EL, EFun. unfold x. rewrite Ex. unfold LL. ring. }
  split; [exact E1|]. split; [rewrite EN, Hz; reflexivity|].
  unfold calc_rho_and_rho_bar_squared in Erho. injection Erho as E2 E3.
  replace (- mr_fun mr) with (LL x) in E2, E3 by (rewrite EFun; unfold LL, x; rewrite Ex; ring).
  rewrite EN. split; [exact E2|]. split; [rewrite E3; unfold x; rewrite Ex; reflexivity|].
  intros Hnw F g0 Hf. specialize (Hnw _ _ _ _ _ _ Hm Hf). apply neg_ll_value in Hf.
  rewrite E1. unfold x. rewrite Ex. unfold LL in *. lra.
Qed.

(** The parameter table of the fit is the optimizer's point. *)
Theorem C73_reported_parameters mz nm names mixing m k nd rvs fa p out :
  mo_class m = ClassLogit k -> kind_ok k (length (np_unique (alt_ids (mo_cols m)))) -> (0 < mo_K m)%nat ->
  keeps_length mz ->
  fit_mle mz nm names mixing m nd rvs fa = Ok (Stored p out) ->
  map snd (f_params out) = alist (mr_x (po_min p)).
Proof.
  intros Ek Hk HK Hkl H. apply fit_mle_inv in H. destruct H as (e & init & mr & He & Hm & _ & Hp & Hs).
  apply fit_estimator_inv in He. destruct He as (_ & Hlen & _ & _ & _ & Hcore).
  apply Hkl in Hm. rewrite <- (check_length_ext _ _ _ Hm) in Hlen.
  apply post_inv in Hp. destruct Hp as (Ex & _ & _ & Eb & _). rewrite Ex.
  unfold estimator_core in Hcore. rewrite Ek in Hcore. apply bind_ok in Hcore. destruct Hcore as (mp & Hmp & Hcore).
  injection Hcore as Ec _. rewrite <- Ec in *. cbn [est_check_length est_split core_data] in *.
  set (D := data_of (mo_cols m) mp (mo_K m) (mo_X m) (@Some vec (fun _ => 1)) (ridge_value (fa_ridge fa))) in *.
  assert (EJ : d_J D = length (np_unique (alt_ids (mo_cols m)))) by (apply (data_J _ _ _ _ _ _ _ Hmp)).
  rewrite <- EJ in Hk.
  apply (C15_table_is_the_optimizers_point nm names mixing (results_of (d_obs D) p) out k (d_J D) (d_K D) (mr_x mr) Hk HK Hlen); [| |exact Hs];
    cbn [results_of r_nest_params r_shape_params r_intercept_params r_utility_coefs]; rewrite Eb;
    destruct (split_param_vec k (d_J D) (d_K D) (mr_x mr)) as [[s i] b]; cbn; auto.
Qed.

(** ** A concrete optimizer and a concrete fit *)

(** One step of gradient descent, taken only if it does not make things worse. *)
Definition careful_step (c : R) : minimizer :=
  fun f _ x0 =>
    do Fg0 <- f x0;
    let x1 := mkArr (alen x0) (fun i => aget x0 i + - c * aget (snd Fg0) i) in
    do Fg1 <- f x1;
    if Rle_dec (fst Fg1) (fst Fg0) then Ok (mkMin x1 (fst Fg1)) else Ok (mkMin x0 (fst Fg0)).

(** It meets every assumption made about optimizers in this development. *)
Example careful_step_meets_assumptions c :
  moves_along_gradients (careful_step c) /\ keeps_length (careful_step c) /\
  reports_objective (careful_step c) /\ never_worse (careful_step c).
Proof.
  assert (G : forall f h x0 r, careful_step c f h x0 = Ok r -> exists F0 g0 F1 g1,
    let x1 := mkArr (alen x0) (fun i => aget x0 i + - c * aget g0 i) in
    f x0 = Ok (F0, g0) /\ f x1 = Ok (F1, g1) /\ (r = mkMin x1 F1 /\ F1 <= F0 \/ r = mkMin x0 F0)).
  { intros f h x0 r H. unfold careful_step in H. apply bind_ok in H. destruct H as ([F0 g0] & H0 & H).
    apply bind_ok in H. destruct H as ([F1 g1] & H1 & H). cbn [fst snd] in *. exists F0, g0, F1, g1.
    split; [exact H0|]. split; [exact H1|]. destruct (Rle_dec F1 F0); injection H as <-; auto. }
  repeat split; intros f h x0 r; [| | |intros F g]; intros H; destruct (G _ _ _ _ H) as (F0 & g0 & F1 & g1 & H0 & H1 & [(-> & Hle)| ->]);
    cbn [mr_x mr_fun alen]; eauto.
  - apply (span_step f x0 x0 x0 (- c) F0 g0); auto; apply span_start.
  - apply span_start.
  - intros E. rewrite H0 in E. injection E as <- _. exact Hle.
  - intros E. rewrite H0 in E. injection E as <- _. lra.
Qed.

(** Two observations of two alternatives, the first alternative chosen in the first
    one, the second in the other; one constant, for alternative 1. *)
Definition fit_cols : long_cols := mkLong [1; 1; 2; 2]%Z [1; 2; 1; 2]%Z (Some [1; 0; 0; 1]%Z) None.
Definition asc_one : mat := fun i _ => match i with 0%nat | 2%nat => 1 | _ => 0 end.
Definition fit_model (c : model_class) : model_obj := mkModel c fit_cols 1 asc_one.
Definition start_at (v : arr) : fit_args := mkFitArgs (Some v) None None None RidgeNone None false WNone.
Definition ex_nm : numerics := mkNumerics (fun h => Ok h) (fun _ => 0) (fun _ => 0).
Definition no_draws : nat -> mat := fun _ _ _ => 0.

Lemma fit_one_choice : exactly_one_choice fit_cols.
Proof.
  exists [1; 0; 0; 1]%Z. split; [reflexivity|]. split.
  - intros [|[|[|[|i]]]] Hi; cbn in *; try lia; auto.
  - intros o Ho. cbn in Ho. destruct Ho as [<-|[<-|[<-|[<-|[]]]]].
    + exists 0%nat. repeat split; try (cbn; lia). intros [|[|[|[|i]]]] Hi E C; cbn in *; try lia.
    + exists 0%nat. repeat split; try (cbn; lia). intros [|[|[|[|i]]]] Hi E C; cbn in *; try lia.
    + exists 3%nat. repeat split; try (cbn; lia). intros [|[|[|[|i]]]] Hi E C; cbn in *; try lia.
    + exists 3%nat. repeat split; try (cbn; lia). intros [|[|[|[|i]]]] Hi E C; cbn in *; try lia.
Qed.

Definition fit_map : mappings :=
  mkMappings (create_sparse_mapping [1; 1; 2; 2]%Z None) (create_sparse_mapping [1; 2; 1; 2]%Z (Some [1; 2]%Z))
    (Some (multiply_rows (create_sparse_mapping [1; 1; 2; 2]%Z None) [1; 0; 0; 1]%Z)) None None.
Lemma fit_map_ok : create_long_form_mappings fit_cols None = Ok fit_map.
Proof. reflexivity. Qed.

Definition fit_data : Data := data_of fit_cols fit_map 1 asc_one (@Some vec (fun _ => 1)) None.
Definition fit_est : estimator :=
  mkEst (CoreLogit KMNL fit_data) (option_map smat_R (chosen_row_to_obs fit_map)) None (mkArr 1 (fun _ => 0)).

(** For every optimizer that gives an answer, the fit of this table succeeds. *)
Example a_fit_succeeds mz r v :
  mz (neg_ll_and_neg_gradient fit_est) (Some (calc_neg_hessian fit_est)) (mkArr 1 v) = Ok r ->
  alen (mr_x r) = 1%nat ->
  exists p out,
    fit_mle mz ex_nm (mkModelNames ["asc"%string] None None None) None (fit_model (ClassLogit KMNL)) 0 no_draws
      (start_at (mkArr 1 v)) = Ok (Stored p out) /\ po_cols p = 1%nat /\ po_min p = r.
Proof.
  intros Hm Hl. unfold fit_mle.
  assert (EF : fit_estimator (fit_model (ClassLogit KMNL)) 0 no_draws (start_at (mkArr 1 v)) = Ok (fit_est, mkArr 1 v)) by reflexivity.
  rewrite EF. cbn [bind]. unfold estimate. rewrite Hm. cbn [bind start_at fa_just_point].
  destruct r as [[n x] F]. cbn [mr_x alen] in Hl. subst n.
  destruct (grad_form KMNL fit_data (mkArr 1 x) ltac:(cbn; lia) eq_refl) as (g & Eg & Lg & _).
  destruct (hess_form KMNL fit_data (own_of (obs_ids fit_cols)) (mkArr 1 x) ltac:(cbn; lia) eq_refl
     (data_obs_indicator fit_cols None fit_map 1 asc_one (@Some vec (fun _ => 1)) None fit_map_ok) (or_introl eq_refl)) as (h & Eh & Lh & _).
  destruct (fisher_form KMNL fit_data (mkArr 1 x) ltac:(cbn; lia) eq_refl) as (f & Ef & Lf & _).
  unfold post_estimation. cbn [mr_x]. unfold est_probs, est_hess, fit_est. cbn [e_core e_chosen fit_map chosen_row_to_obs option_map bind est_grad est_fish].
  rewrite Eg. cbn [bind]. rewrite Eh. cbn [bind]. rewrite Ef. cbn [bind].
  destruct g as [ng g], h as [nh h], f as [nf f]. cbn [alen sqn] in Lg, Lh, Lf. subst ng nh nf.
  eexists. eexists. split; [reflexivity|]. split; reflexivity.
Qed.

(** C68's hypotheses: a constant of an MNL model and one of a scobit model, and a
    point at which the slope is zero. *)
Example ex_constants :
  constant_for KMNL fit_cols 1 asc_one 0 1%Z /\
  constant_for (KScobit (Some 1%nat)) fit_cols 1 asc_one 2 1%Z.
Proof.
  split.
  - split; [lia|]. intros [|[|[|[|i]]]] Hi; cbn in *; try lia; reflexivity.
  - exists 0%nat. cbn. repeat split; lia.
Qed.

Example ex_stationary :
  exists g, est_gradient KMNL fit_data (zeros 1) = Ok g /\ aget g 0%nat = 0.
Proof.
  destruct (grad_form KMNL fit_data (zeros 1) ltac:(cbn; lia) eq_refl) as (g & Eg & Lg & Hg).
  exists g. split; [exact Eg|]. rewrite Hg by (cbn; lia).
  assert (LE : forall r, long_exponentials (model_of KMNL) fit_data (sh KMNL 2 (zeros 1)) (ic KMNL 2 (zeros 1)) (be KMNL 2 1 (zeros 1)) r = 1).
  { intros r. change (exp (clip_exponent (0 + asc_one r 0%nat * 0)) = 1).
    replace (0 + asc_one r 0%nat * 0) with 0 by ring.
    rewrite clip_in by (unfold strictly_unclipped, min_exponent_val, max_exponent_val; lra). apply exp_0. }
  assert (EP : forall i, (i < 4)%nat -> long_probs (model_of KMNL) fit_data (sh KMNL 2 (zeros 1)) (ic KMNL 2 (zeros 1)) (be KMNL 2 1 (zeros 1)) i = / 2).
  { intros i Hi. unfold fit_data. rewrite (probs_closed _ _ _ _ _ _ _ _ fit_map_ok) by exact Hi. fold fit_data. rewrite LE.
    unfold id_sum. cbn [length fit_cols obs_ids sumn nth]. destruct i as [|[|[|[|]]]]; try lia; cbn [nth Z.eqb Pos.eqb]; rewrite !LE; field. }
  assert (ED : forall i, (i < 4)%nat -> DH KMNL fit_data (zeros 1) i 0%nat = asc_one i 0%nat).
  { intros i Hi. unfold DH. cbn [num_shapes num_icpts kind_iref model_of]. unfold hcat, vcat.
    cbn [Nat.ltb Nat.leb]. rewrite !Nat.sub_0_r. unfold dh_db. cbn [MNL_model m_dh_dv].
    rewrite diag_dot by exact Hi. cbn [d_X fit_data data_of]. ring. }
  change (d_J fit_data) with 2%nat. change (d_K fit_data) with 1%nat. change (d_N fit_data) with 4%nat. cbn [sumn].
  rewrite !EP, !ED by lia. change (ridge_or_0 fit_data) with 0.
  cbn [eff_weights d_w d_y fit_data data_of asc_one zeros aget]. unfold choice_vec. cbn [fit_cols choices nth]. lra.
Qed.

(** C69: a scobit model with separate starting values. *)
Example ex_separate :
  exists e init,
    fit_estimator (fit_model (ClassLogit (KScobit (Some 1%nat)))) 0 no_draws
      (mkFitArgs None (Some (mkArr 2 (fun i => INR i))) (Some (mkArr 1 (fun _ => 7))) (Some (mkArr 1 (fun _ => 9)))
         RidgeNone None false WNone) = Ok (e, init) /\ alen init = 4%nat /\ aget init 2%nat = 7.
Proof. eexists. eexists. split; [reflexivity|]. split; reflexivity. Qed.

(** C70: two nests of which the second holds one alternative. *)
Example ex_degenerate :
  exists e init,
    fit_estimator (mkModel (ClassNested [("A"%string, [1; 2]%Z); ("B"%string, [3]%Z)])
        (mkLong [1; 1; 1]%Z [1; 2; 3]%Z (Some [1; 0; 0]%Z) None) 1 asc_one) 0 no_draws
      (mkFitArgs (Some (mkArr 3 (fun _ => 0))) None None None RidgeNone (Some [2]%Z) false WNone) = Ok (e, init) /\
    e_constrained e = Some [1; 2]%Z.
Proof. eexists. eexists. split; reflexivity. Qed.

Print Assumptions C67_residuals_and_chi_squares.
Print Assumptions C68_shares_are_reproduced.
Print Assumptions C69_separate_starting_values.
Print Assumptions C69_full_starting_vector.
Print Assumptions C69_wrong_length_refused.
Print Assumptions C69_bad_starting_values.
Print Assumptions C70_nested_constrained_positions.
Print Assumptions C70_degenerate_nests_keep_starting_values.
Print Assumptions C72_just_point.
Print Assumptions C73_reported_log_likelihood.
Print Assumptions C73_reported_parameters.
