(** Property C107: the reported rho-squared. *)
From Coq Require Import String ZArith List Reals Lra Lia Arith.
From Coquelicot Require Import Coquelicot.
From Verif Require Import Res Vec Arr SpecLogit ChoiceCalcs ChoiceFacts Transforms Ids Mappings
  MappingFacts LongData LogitFacts RowDeriv HessFacts ProbFacts PropMappings PropProbs PropGradient
  PropHessian PropLikelihood PropConcave Frame ChoiceTools BaseModel PropBaseModel Estimation
  PropEstimation PropFit.
Import ListNotations.
Open Scope R_scope.

(** Some observation has a real choice: two of its rows. *)
Definition some_alternatives (d : long_cols) : Prop :=
  exists i i', (i < length (obs_ids d))%nat /\ (i' < length (obs_ids d))%nat /\ i <> i' /\
    nth i (obs_ids d) 0%Z = nth i' (obs_ids d) 0%Z.

Lemma two_rows ids i i' : (i < length ids)%nat -> (i' < length ids)%nat -> i <> i' -> nth i ids 0%Z = nth i' ids 0%Z ->
  2 <= INR (rows_of ids (nth i ids 0%Z)).
Proof.
  intros Hi Hi' Hne E. pose proof (id_sum_const ids (nth i ids 0%Z) 1) as S. rewrite Rmult_1_r in S. rewrite <- S.
  unfold id_sum. set (f := fun r => if (nth r ids 0 =? nth i ids 0)%Z then 1 else 0).
  pose proof (sumn_ge_two (length ids) f i i') as T. unfold f in T at 2 3. rewrite <- E, Z.eqb_refl in T.
  apply Rle_trans with (1 + 1); [lra|]. apply T; try assumption. intros r _. unfold f. destruct (_ =? _)%Z; lra.
Qed.

Lemma null_negative k d spec mp K X w ridge :
  create_long_form_mappings d spec = Ok mp -> length (alt_ids d) = length (obs_ids d) -> (0 < K)%nat ->
  exactly_one_choice d -> some_alternatives d ->
  (forall i, (i < length (obs_ids d))%nat -> 0 < eff_weights w i) ->
  let D := data_of d mp K X w ridge in kind_ok k (d_J D) ->
  est_log_likelihood k D (zeros (assumed_param_dimensions k (d_J D) K)) < 0.
Proof.
  intros Hmp HL HK Hone (i & i' & Hi & Hi' & Hne & E) Hw D Hk.
  set (z := zeros (assumed_param_dimensions k (d_J D) K)).
  assert (L : alen z = (num_shapes k (d_J D) + num_icpts k (d_J D) + d_K D)%nat).
  { unfold z. cbn [zeros alen]. change (d_K D) with K. apply dims_eq. exact Hk. }
  rewrite (est_ll_eq k D z HK L).
  assert (Z : asumsq z = 0) by (unfold asumsq; apply sumn_eq0; intros; cbn [z zeros aget]; unfold Rsqr; ring).
  rewrite Z, Rmult_0_r, Rminus_0_r.
  assert (P : forall r, (r < length (obs_ids d))%nat ->
    long_probs (model_of k) D (sh k (d_J D) z) (ic k (d_J D) z) (be k (d_J D) (d_K D) z) r = / INR (rows_of (obs_ids d) (nth r (obs_ids d) 0%Z))).
  { intros r Hr. rewrite <- (C37_equal_shares k d spec mp K X w ridge r Hmp HL HK Hk Hr). fold D z.
    rewrite (est_long_probs_eq k D z HK L). reflexivity. }
  destruct Hone as (c & Ec & H01 & H1).
  destruct (H1 (nth i (obs_ids d) 0%Z)) as (r0 & Hr0 & Er0 & Cr0 & _); [apply nth_In; exact Hi|].
  assert (Y : forall r, d_y D r = IZR (nth r c 0%Z)).
  { intros r. change (d_y D) with (choice_vec d). unfold choice_vec. rewrite Ec. reflexivity. }
  assert (R1 : forall r, (r < length (obs_ids d))%nat -> 1 <= INR (rows_of (obs_ids d) (nth r (obs_ids d) 0%Z))).
  { intros r Hr. replace 1 with (INR 1) by reflexivity. apply le_INR. apply count_occ_In. apply nth_In. exact Hr. }
  set (f := fun r => - (d_y D r * (eff_weights (d_w D) r *
      ln (long_probs (model_of k) D (sh k (d_J D) z) (ic k (d_J D) z) (be k (d_J D) (d_K D) z) r)))).
  assert (F0 : forall r, (r < length (obs_ids d))%nat -> f r = d_y D r * (eff_weights w r * ln (INR (rows_of (obs_ids d) (nth r (obs_ids d) 0%Z))))).
  { intros r Hr. unfold f. rewrite P by exact Hr. specialize (R1 r Hr). rewrite ln_Rinv by lra. change (d_w D) with w. ring. }
  assert (LN : forall x, 1 <= x -> 0 <= ln x).
  { intros x Hx. rewrite <- ln_1. destruct Hx as [Hx| <-]; [left; apply ln_increasing; lra|lra]. }
  assert (S : 0 < sumn (length (obs_ids d)) f).
  { apply (sumn_pos _ f r0); [|exact Hr0|].
    - intros r Hr. rewrite F0 by exact Hr. apply Rmult_le_pos.
      + rewrite Y. destruct (H01 r Hr) as [->| ->]; lra.
      + apply Rmult_le_pos; [left; apply Hw; exact Hr|]. apply LN, R1. exact Hr.
    - rewrite F0 by exact Hr0. rewrite Y, Cr0, Er0, Rmult_1_l. apply Rmult_lt_0_compat; [apply Hw; exact Hr0|].
      pose proof (two_rows _ i i' Hi Hi' Hne E). rewrite <- ln_1. apply ln_increasing; lra. }
  unfold f in S. rewrite sumn_opp in S. change (d_N D) with (length (obs_ids d)). lra.
Qed.

Section Rho.
  Context (mz : minimizer) (nm : numerics) (names : model_names) (mixing : option (list string))
    (m : model_obj) (k : logit_kind) (nd : nat) (rvs : nat -> mat) (fa : fit_args) (p : post_results) (out : fit_output).
  Hypothesis Ek : mo_class m = ClassLogit k.
  Hypothesis Hk : kind_ok k (length (np_unique (alt_ids (mo_cols m)))).
  Hypothesis HK : (0 < mo_K m)%nat.
  Hypothesis HL : length (alt_ids (mo_cols m)) = length (obs_ids (mo_cols m)).
  Hypothesis Hone : exactly_one_choice (mo_cols m).
  Hypothesis Halt : some_alternatives (mo_cols m).
  Hypothesis Hr : nonneg_ridge (ridge_value (fa_ridge fa)).
  Hypothesis Hkl : keeps_length mz.
  Hypothesis Hro : reports_objective mz.
  Hypothesis Hfit : fit_mle mz nm names mixing m nd rvs fa = Ok (Stored p out).

  (** What the fit evaluates. *)
  Lemma rho_setup : exists mp,
    create_long_form_mappings (mo_cols m) None = Ok mp /\
    let D := data_of (mo_cols m) mp (mo_K m) (mo_X m) (@Some vec (fun _ => 1)) (ridge_value (fa_ridge fa)) in
    kind_ok k (d_J D) /\
    check_length_of_initial_values k (d_J D) (mo_K m) (mr_x (po_min p)) = Ok tt /\
    f_log_likelihood out = est_log_likelihood k D (mr_x (po_min p)) /\
    po_null_ll p = est_log_likelihood k D (zeros (assumed_param_dimensions k (d_J D) (mo_K m))) /\
    po_rho p = 1 - f_log_likelihood out / po_null_ll p /\
    est_gradient k D (mr_x (po_min p)) = Ok (po_gradient p).
  Proof.
    destruct (C73_reported_log_likelihood mz nm names mixing m nd rvs fa p out Hro Hfit) as (e & init & He & H73).
    cbv zeta in H73. destruct H73 as (EL & EN & ER & _ & NW).
    pose proof Hfit as H. apply fit_mle_inv in H. destruct H as (e' & init' & mr & He' & Hm & _ & Hp & _).
    rewrite He in He'. injection He' as <- <-.
    apply fit_estimator_inv in He. destruct He as (Ein & Hlen & _ & _ & _ & Hcore).
    pose proof (Hkl _ _ _ _ Hm) as Hl.
    apply post_inv in Hp. destruct Hp as (Ex & _ & _ & _ & _ & _ & _ & _ & _ & Eg & _). rewrite Ex in *.
    destruct e as [core C con z]. cbn [e_core e_chosen] in *. unfold estimator_core in Hcore. rewrite Ek in Hcore.
    apply bind_ok in Hcore. destruct Hcore as (mp & Hmp & Hcore). injection Hcore as <- <-.
    exists mp. split; [exact Hmp|].
    set (D := data_of (mo_cols m) mp (mo_K m) (mo_X m) (@Some vec (fun _ => 1)) (ridge_value (fa_ridge fa))) in *.
    assert (EJ : d_J D = length (np_unique (alt_ids (mo_cols m)))) by (apply (data_J _ _ _ _ _ _ _ Hmp)).
    assert (HkD : kind_ok k (d_J D)) by (rewrite EJ; exact Hk).
    split; [exact HkD|]. cbn [est_check_length est_ll est_grad] in *. change (d_K D) with (mo_K m) in Hlen.
    pose proof (check_length_ok _ _ _ _ Hlen) as Li.
    assert (Hlx : check_length_of_initial_values k (d_J D) (mo_K m) (mr_x mr) = Ok tt)
      by (unfold check_length_of_initial_values in *; rewrite Hl; exact Hlen).
    assert (EZ : mkArr (alen init) (fun _ => 0) = zeros (assumed_param_dimensions k (d_J D) (mo_K m))) by (rewrite Li; reflexivity).
    split; [exact Hlx|]. split; [exact EL|]. split; [rewrite EN, EZ; reflexivity|]. split; [rewrite ER, EL; reflexivity|].
    exact Eg.
  Qed.

  (** Never above 1, and at least 0 exactly when the fit is no worse than equal shares. *)
  Theorem C107_rho_squared :
    po_null_ll p < 0 /\ f_log_likelihood out <= 0 /\
    po_rho p <= 1 /\ (po_null_ll p <= f_log_likelihood out <-> 0 <= po_rho p).
  Proof.
    destruct rho_setup as (mp & Hmp & HkD & Hlx & EL & EN & ER & _).
    set (D := data_of (mo_cols m) mp (mo_K m) (mo_X m) (@Some vec (fun _ => 1)) (ridge_value (fa_ridge fa))) in *.
    assert (N0 : po_null_ll p < 0).
    { rewrite EN. apply (null_negative k (mo_cols m) None mp (mo_K m) (mo_X m)); try assumption. intros i _. cbn [eff_weights]. lra. }
    assert (F0 : f_log_likelihood out <= 0).
    { rewrite EL. apply (C24_log_likelihood_nonpositive k (mo_cols m) None mp (mo_K m) (mo_X m) _ _ _ Hmp HK HkD Hlx Hone); [|exact Hr].
      intros i _. cbn [eff_weights]. lra. }
    split; [exact N0|]. split; [exact F0|].
    assert (E52 : calc_rho_and_rho_bar_squared (f_log_likelihood out) (po_null_ll p) 0 =
                  (po_rho p, snd (calc_rho_and_rho_bar_squared (f_log_likelihood out) (po_null_ll p) 0)))
      by (unfold calc_rho_and_rho_bar_squared; cbn [snd]; rewrite ER; reflexivity).
    destruct (C52_rho_squared _ _ _ _ _ N0 F0 E52) as (A & B & _). split; assumption.
  Qed.

  (** A multinomial logit whose reported gradient is zero has a rho-squared between 0 and 1. *)
  Theorem C107_mnl_rho_squared_in_unit_interval :
    k = KMNL -> (forall j, (j < mo_K m)%nat -> aget (po_gradient p) j = 0) ->
    (forall i, (i < length (obs_ids (mo_cols m)))%nat ->
       -700 < sumn (mo_K m) (fun q => mo_X m i q * aget (mr_x (po_min p)) q) < 700) ->
    0 <= po_rho p <= 1.
  Proof.
    intros EkM Hg Hc. destruct C107_rho_squared as (_ & _ & R1 & R0).
    destruct rho_setup as (mp & Hmp & HkD & Hlx & EL & EN & ER & Eg).
    set (D := data_of (mo_cols m) mp (mo_K m) (mo_X m) (@Some vec (fun _ => 1)) (ridge_value (fa_ridge fa))) in *.
    split; [|exact R1]. apply R0. rewrite EL, EN. rewrite EkM in *.
    assert (Hz : check_length_of_initial_values KMNL (d_J D) (mo_K m) (zeros (assumed_param_dimensions KMNL (d_J D) (mo_K m))) = Ok tt)
      by (unfold check_length_of_initial_values; cbn [zeros alen]; rewrite Nat.eqb_refl; reflexivity).
    apply (C33_stationary_point_is_maximum (mo_cols m) None mp (mo_K m) (mo_X m) (@Some vec (fun _ => 1)) (ridge_value (fa_ridge fa)))
      with (g := po_gradient p); try assumption.
    - intros i i' _ _ _. reflexivity.
    - intros i _. cbn [eff_weights]. lra.
    - intros i Hi. unfold est_utilities. cbn [split_param_vec]. unfold sys_utilities, mvec. cbn. rewrite sumn_eq0; [lra|].
      intros; ring.
  Qed.
End Rho.

(** A fit that meets all hypotheses: the optimizer that stays where it starts, at zero. *)
Definition stay : minimizer := fun f _ x0 => do Fg <- f x0; Ok (mkMin x0 (fst Fg)).

Example ex_rho : keeps_length stay /\ reports_objective stay /\ exists p out,
  fit_mle stay ex_nm (mkModelNames ["asc"%string] None None None) None (fit_model (ClassLogit KMNL)) 0 no_draws
    (start_at (mkArr 1 (fun _ => 0))) = Ok (Stored p out) /\
  some_alternatives (mo_cols (fit_model (ClassLogit KMNL))) /\
  (forall j, (j < 1)%nat -> aget (po_gradient p) j = 0) /\
  0 <= po_rho p <= 1.
Proof.
  assert (S1 : keeps_length stay).
  { intros f h x0 r H. unfold stay in H. apply bind_ok in H. destruct H as ([F g] & _ & H). injection H as <-. reflexivity. }
  assert (S2 : reports_objective stay).
  { intros f h x0 r H. unfold stay in H. apply bind_ok in H. destruct H as ([F g] & E & H). injection H as <-. exists g. exact E. }
  split; [exact S1|]. split; [exact S2|].
  destruct (grad_form KMNL fit_data (mkArr 1 (fun _ => 0)) ltac:(cbn; lia) eq_refl) as (g & Eg & Lg & Fg).
  assert (G0 : aget g 0%nat = 0).
  { rewrite Fg by (cbn; lia). pose proof (C37_equal_shares KMNL fit_cols None fit_map 1 asc_one (@Some vec (fun _ => 1)) None) as E.
    assert (P : forall i, (i < 4)%nat -> long_probs (model_of KMNL) fit_data (sh KMNL (d_J fit_data) (mkArr 1 (fun _ => 0)))
       (ic KMNL (d_J fit_data) (mkArr 1 (fun _ => 0))) (be KMNL (d_J fit_data) (d_K fit_data) (mkArr 1 (fun _ => 0))) i = / 2).
    { intros i Hi. specialize (E i fit_map_ok eq_refl ltac:(lia) ltac:(cbn; repeat split; lia) Hi). cbv zeta in E.
      transitivity (/ INR (rows_of (obs_ids fit_cols) (nth i (obs_ids fit_cols) 0%Z))).
      - rewrite <- E. rewrite est_long_probs_eq; [reflexivity|cbn; lia|reflexivity].
      - do 4 (destruct i as [|i]; [cbn; f_equal; ring|]). lia. }
    change (d_N fit_data) with 4%nat. cbn [sumn]. rewrite !P by lia.
    cbn. lra. }
  set (z := mkArr 1 (fun _ => 0)) in *.
  assert (A : exists F g', neg_ll_and_neg_gradient fit_est z = Ok (F, g')).
  { unfold neg_ll_and_neg_gradient, fit_est. cbn [e_core est_grad e_constrained]. rewrite Eg. cbn [bind]. eexists. eexists. reflexivity. }
  destruct A as (F & g' & A).
  destruct (a_fit_succeeds stay (mkMin z F) (fun _ => 0)) as (p & out & Ef & _ & Em).
  { unfold stay. fold z. rewrite A. reflexivity. }
  { reflexivity. }
  fold z in Ef. exists p, out. split; [exact Ef|].
  assert (Alt : some_alternatives (mo_cols (fit_model (ClassLogit KMNL)))).
  { exists 0%nat, 1%nat. cbn. repeat split; lia. }
  split; [exact Alt|].
  assert (Hk : kind_ok KMNL (length (np_unique (alt_ids (mo_cols (fit_model (ClassLogit KMNL))))))) by (cbn; repeat split; lia).
  assert (Gp : forall j, (j < 1)%nat -> aget (po_gradient p) j = 0).
  { destruct (rho_setup stay ex_nm _ _ (fit_model (ClassLogit KMNL)) KMNL 0 no_draws (start_at z) p out eq_refl Hk S1 S2 Ef)
      as (mp & Hmp & HH). cbv zeta in HH. destruct HH as (_ & _ & _ & _ & _ & Egp).
    change (mo_cols (fit_model (ClassLogit KMNL))) with fit_cols in Hmp. rewrite fit_map_ok in Hmp. injection Hmp as <-.
    change (est_gradient KMNL fit_data (mr_x (po_min p)) = Ok (po_gradient p)) in Egp. rewrite Em in Egp. cbn [mr_x] in Egp.
    rewrite Eg in Egp. injection Egp as <-. intros j Hj. replace j with 0%nat by lia. exact G0. }
  split; [exact Gp|].
  apply (C107_mnl_rho_squared_in_unit_interval stay ex_nm (mkModelNames ["asc"%string] None None None) None (fit_model (ClassLogit KMNL)) KMNL 0 no_draws (start_at z) p out);
    try assumption; try reflexivity.
  - cbn. lia.
  - exact fit_one_choice.
  - intros i _. rewrite Em. cbn. lra.
Qed.

Print Assumptions C107_rho_squared.
Print Assumptions C107_mnl_rho_squared_in_unit_interval.
