(** Property C100, at the level of fit_mle: the standard errors a multinomial logit
    reports are positive numbers when the model is identified, and no fit completes when it
    is not. *)
From Coq Require Import String ZArith List Reals Lra Lia Arith.
From Coquelicot Require Import Coquelicot.
From Verif Require Import Res Vec Arr SpecLogit ChoiceCalcs ChoiceFacts Transforms Ids Mappings
  MappingFacts LongData LogitFacts RowDeriv HessFacts ProbFacts PropMappings PropProbs PropGradient
  PropHessian PropConcave DefiniteMat PropIdentified Frame ChoiceTools BaseModel PropBaseModel
  NestedCalcs MixedCalcs Estimation PropEstimation PropFit PropInference.
Import ListNotations.
Open Scope R_scope.

(** What is assumed of scipy.linalg.inv here: it finds the inverse of an n x n matrix
    that has one. *)
Definition inverts_when_possible (n : nat) (nm : numerics) : Prop :=
  forall h G, sqn h = n -> is_inverse (sqn h) (sqe h) G -> exists g, n_inv nm h = Ok g.

Section Fit.
  Context (d : long_cols) (K : nat) (X : mat) (names : model_names) (mixing : option (list string))
          (nd : nat) (rvs : nat -> mat) (fa : fit_args).
  Let m := mkModel (ClassLogit KMNL) d K X.
  Let ridge := ridge_value (fa_ridge fa).
  Hypothesis HK : (0 < K)%nat.

  Lemma unit_weights : same_weight_within_observation d (Some (fun _ => 1)).
  Proof. intros i i' _ _ _. reflexivity. Qed.

  Lemma mnl_estimator_inv e init :
    fit_estimator m nd rvs fa = Ok (e, init) ->
    exists mp, create_long_form_mappings d None = Ok mp /\
      e_core e = CoreLogit KMNL (data_of d mp K X (Some (fun _ => 1)) ridge) /\
      alen init = K /\ e_constrained e = fa_constrained fa /\
      e_chosen e = option_map smat_R (chosen_row_to_obs mp).
  Proof.
    intros He. apply fit_estimator_inv in He. destruct He as (_ & Hl & Hcon & _ & _ & Hcore).
    unfold estimator_core in Hcore. cbn [m mo_class mo_cols mo_K mo_X] in Hcore.
    apply bind_ok in Hcore. destruct Hcore as (mp & Hmp & Hcore). injection Hcore as Ec Ech.
    exists mp. split; [exact Hmp|]. split; [symmetry; exact Ec|]. rewrite <- Ec in Hl. cbn [est_check_length] in Hl.
    apply check_length_ok in Hl. cbn in Hl. split; [exact Hl|].
    split; [exact Hcon|]. symmetry. exact Ech.
  Qed.

  Lemma stored_hessian mz nm p out :
    keeps_length mz -> fit_mle mz nm names mixing m nd rvs fa = Ok (Stored p out) ->
    exists mp, create_long_form_mappings d None = Ok mp /\
      let D := data_of d mp K X (Some (fun _ => 1)) ridge in
      check_length_of_initial_values KMNL (d_J D) K (mr_x (po_min p)) = Ok tt /\
      est_hessian KMNL D (mr_x (po_min p)) = Ok (po_hessian p) /\
      store_fit_results nm names mixing (results_of (d_obs D) p) = Ok out /\
      po_constrained p = fa_constrained fa.
  Proof.
    intros Hkl H. apply fit_mle_inv in H. destruct H as (e & init & mr & He & Hm & _ & Hpost & Hst).
    apply mnl_estimator_inv in He. destruct He as (mp & Hmp & Ec & Li & Econ & _).
    exists mp. split; [exact Hmp|]. cbv zeta. apply Hkl in Hm.
    apply post_inv in Hpost. destruct Hpost as (Em & _ & _ & _ & Ecp & _ & _ & _ & _ & _ & Hh & _).
    unfold est_hess in Hh. rewrite Ec in Hh, Hst. rewrite Em. split.
    { unfold check_length_of_initial_values. cbn. rewrite Hm, Li, Nat.eqb_refl. reflexivity. }
    split; [exact Hh|]. split; [exact Hst|]. congruence.
  Qed.

  (** Whatever the optimizer returns, when the model is identified (or penalised) every
      reported standard error is a positive number, the t-statistic is the estimate divided by
      it, and the p-value is a number between 0 and 1. *)
  Theorem C100_standard_errors_are_positive mz nm p out j name theta :
    sound_numerics nm -> keeps_length mz ->
    identified d None K X \/ (exists r, ridge = Some r /\ 0 < r) -> nonneg_ridge ridge ->
    fa_constrained fa = None ->
    fit_mle mz nm names mixing m nd rvs fa = Ok (Stored p out) ->
    nth_error (f_params out) j = Some (name, theta) ->
    exists se pv, 0 < se /\ 0 <= pv <= 1 /\
      nth_error (i_standard_errors (f_inference out)) j = Some (name, Fin se) /\
      nth_error (i_tvalues (f_inference out)) j = Some (name, Fin (theta / se)) /\
      nth_error (i_pvalues (f_inference out)) j = Some (name, Fin pv).
  Proof.
    intros HS Hkl Hid Hr Hcon H Hj.
    destruct (stored_hessian mz nm p out Hkl H) as (mp & Hmp & Hl & Hh & Hst & Ecp). cbv zeta in Hl, Hh, Hst.
    set (D := data_of d mp K X (Some (fun _ => 1)) ridge) in *.
    destruct (C100_hessian_negative_definite d None mp K X (Some (fun _ => 1)) ridge Hmp HK unit_weights
       (mr_x (po_min p)) ltac:(intros i _; cbn; lra) Hr Hid Hl) as (H0 & E0 & L0 & _ & Nd & _).
    fold D in E0. rewrite Hh in E0. injection E0 as <-.
    destruct (C84_inference_tables nm names mixing _ out HS Hst ltac:(cbn [results_of r_constrained_pos]; congruence))
      as (En & Ec & Hinv & Hrow). cbn [results_of r_hessian] in En, Hinv.
    rewrite L0 in En. rewrite <- En in Hinv, Ec.
    assert (Lj : (j < K)%nat).
    { rewrite En. apply nth_error_Some. congruence. }
    assert (HV : 0 < sqe (f_cov out) j j).
    { pose proof (negdef_inverse_diag K (sqe (po_hessian p)) (fun a b => - sqe (f_cov out) a b) j Nd) as Q.
      cbv beta in Q. enough (- sqe (f_cov out) j j < 0) by lra. apply Q; [|exact Lj].
      intros a b Ha Hb. specialize (Hinv a b Ha Hb). unfold mdot.
      rewrite (sumn_ext K _ (fun k => -1 * (sqe (po_hessian p) a k * sqe (f_cov out) k b))) by (intros; ring).
      rewrite sumn_scal_l, Hinv. destruct (a =? b)%nat; ring. }
    destruct (Hrow j name theta Hj) as ((Hpos & _) & _).
    destruct (Hpos HV) as (E1 & E2 & pv & E3 & Hpv & _).
    exists (sqrt (sqe (f_cov out) j j)), pv. split; [apply sqrt_lt_R0; exact HV|]. auto.
  Qed.

  (** When some combination of the variables is constant within every observation and there
      is no penalty, no optimizer and no (sound) matrix inversion let fit_mle complete:
      the inversion of the Hessian has to raise. *)
  Theorem C100_no_fit_completes_when_unidentified mz nm p out :
    sound_numerics nm -> keeps_length mz ->
    ~ identified d None K X -> fa_ridge fa = RidgeNone ->
    fit_mle mz nm names mixing m nd rvs fa <> Ok (Stored p out).
  Proof.
    intros HS Hkl Hid Hr H.
    destruct (stored_hessian mz nm p out Hkl H) as (mp & Hmp & Hl & Hh & Hst & Ecp). cbv zeta in Hl, Hh, Hst.
    set (D := data_of d mp K X (Some (fun _ => 1)) ridge) in *.
    apply Hid. intros v Hv j Hj. destruct (Req_dec (v j) 0) as [E|E]; [exact E|]. exfalso.
    destruct (C100_unidentified_hessian_is_singular d None mp K X (Some (fun _ => 1)) ridge Hmp HK unit_weights
       (mr_x (po_min p)) v j ltac:(unfold ridge; rewrite Hr; reflexivity) Hv Hj E Hl) as (H0 & E0 & L0 & _ & Hsing).
    fold D in E0. rewrite Hh in E0. injection E0 as <-.
    unfold store_fit_results in Hst.
    apply bind_ok in Hst. destruct Hst as (b1 & _ & Hst). apply bind_ok in Hst. destruct Hst as (b2 & _ & Hst).
    apply bind_ok in Hst. destruct Hst as (b3 & _ & Hst). apply bind_ok in Hst. destruct Hst as (c4 & _ & Hst).
    apply bind_ok in Hst. destruct Hst as (c5 & _ & Hst). apply bind_ok in Hst. destruct Hst as (c6 & _ & Hst).
    apply bind_ok in Hst. destruct Hst as (inf & Hi & _). unfold generic_inference in Hi.
    apply bind_ok in Hi. destruct Hi as (h & G1 & Hi). apply bind_ok in Hi. destruct Hi as (hinv & G2 & _).
    unfold mk_square in G1. destruct (_ =? _)%nat in G1; [|discriminate]. injection G1 as <-.
    destruct (sn_inv nm HS _ _ G2) as (_ & Hinv). cbn [results_of r_hessian] in Hinv. rewrite L0 in Hinv.
    exact (Hsing _ Hinv).
  Qed.

  (** When it is identified, and matrix inversion works, the fit completes for every answer
      of the optimizer. *)
  Theorem C100_fit_completes_when_identified mz nm e init r :
    sound_numerics nm -> inverts_when_possible K nm -> keeps_length mz ->
    identified d None K X \/ (exists r, ridge = Some r /\ 0 < r) -> nonneg_ridge ridge ->
    choices d <> None -> length (index_names_after_fit (mn_index names) mixing) = K ->
    fa_constrained fa = None -> fa_just_point fa = false ->
    fit_estimator m nd rvs fa = Ok (e, init) ->
    mz (neg_ll_and_neg_gradient e) (Some (calc_neg_hessian e)) init = Ok r ->
    exists p out, fit_mle mz nm names mixing m nd rvs fa = Ok (Stored p out).
  Proof.
    intros HS Hinv Hkl Hid Hr Hch Hn Hcon Hjp He Hm. unfold fit_mle. rewrite He. cbn [bind]. unfold estimate. rewrite Hm. cbn [bind]. rewrite Hjp.
    pose proof (mnl_estimator_inv _ _ He) as (mp & Hmp & Ec & Li & Econ & Ech).
    apply Hkl in Hm. destruct r as [x F]. cbn [mr_x] in Hm. assert (Lx : alen x = K) by congruence.
    set (D := data_of d mp K X (Some (fun _ => 1)) ridge) in *.
    assert (Hl : check_length_of_initial_values KMNL (d_J D) K x = Ok tt).
    { unfold check_length_of_initial_values. cbn. rewrite Lx, Nat.eqb_refl. reflexivity. }
    destruct (grad_form KMNL D x HK Lx) as (g & Eg & Lg & _).
    destruct (fisher_form KMNL D x HK Lx) as (f & Ef & Lf & _).
    destruct (C100_hessian_negative_definite d None mp K X (Some (fun _ => 1)) ridge Hmp HK unit_weights
       x ltac:(intros i _; cbn; lra) Hr Hid Hl) as (h & Eh & Lh & _ & _ & (G & HG) & _). fold D in Eh.
    rewrite <- Lh in HG at 1. destruct (Hinv h G Lh HG) as (hinv & Ei).
    destruct (sn_inv nm HS _ _ Ei) as (Li' & _).
    assert (Hc : exists C, chosen_row_to_obs mp = Some C).
    { unfold create_long_form_mappings in Hmp. destruct (choices d); [|congruence].
      repeat (apply bind_ok in Hmp; destruct Hmp as (? & _ & Hmp)). injection Hmp as <-. cbn. eauto. }
    destruct Hc as (C & HC).
    unfold post_estimation, est_probs, est_hess. cbn [mr_x]. rewrite Ec, Ech, HC. cbn [option_map bind est_grad est_fish].
    rewrite Eg. cbn [bind]. rewrite Eh. cbn [bind]. rewrite Ef. cbn [bind].
    eexists. match goal with |- context [store_fit_results nm names mixing ?r] => destruct (C15_storing_succeeds nm names mixing r hinv) as (out & Eo) end;
      try reflexivity.
    - unfold results_of. cbn. rewrite Hn. unfold alist. rewrite map_length, seq_length. symmetry. exact Lx.
    - cbn. unfold num_params, alist; cbn. unfold alist. rewrite !map_length, !seq_length. congruence.
    - cbn. unfold num_params, alist; cbn. unfold alist. rewrite !map_length, !seq_length. congruence.
    - cbn. unfold num_params, alist; cbn. unfold alist. rewrite !map_length, !seq_length. congruence.
    - exact Ei.
    - cbn. unfold num_params, alist; cbn. unfold alist. rewrite !map_length, !seq_length. congruence.
    - intros c z. cbn. rewrite Econ, Hcon. discriminate.
    - exists out. rewrite Eo. cbn [bind]. reflexivity.
  Qed.
End Fit.

(** ** Cases *)

(** One parameter: inversion is division. *)
Definition scalar_numerics : numerics :=
  mkNumerics (fun h => if (sqn h =? 1)%nat
                       then if Req_EM_T (sqe h 0%nat 0%nat) 0 then Err ValueError
                            else Ok (mkSq 1 (fun _ _ => / sqe h 0%nat 0%nat))
                       else Err ValueError) (fun x => / (1 + exp x)) (fun _ => 0).

Example ex_scalar_numerics : sound_numerics scalar_numerics.
Proof.
  constructor; cbn [n_inv n_sf scalar_numerics].
  - intros h g H. destruct (Nat.eqb_spec (sqn h) 1) as [E|]; [|discriminate].
    destruct (Req_EM_T _ 0) as [|Hd]; [discriminate|]. injection H as <-. cbn [sqn sqe]. split; [auto|]. rewrite E.
    split; intros [|i] [|j] Hi Hj; try lia; unfold mdot; cbn [sumn Nat.eqb]; field; exact Hd.
  - intros x. rewrite exp_Ropp. pose proof (exp_pos x). field. split; lra.
  - intros x y [H| ->]; [|lra]. apply exp_increasing in H. pose proof (exp_pos x). pose proof (exp_pos y).
    apply Rinv_le_contravar; lra.
  - intros x. pose proof (exp_pos x). left. apply Rinv_0_lt_compat. lra.
Qed.

Example ex_scalar_inverts : inverts_when_possible 1 scalar_numerics.
Proof.
  intros h G E [H _]. rewrite E in H. specialize (H 0%nat 0%nat ltac:(lia) ltac:(lia)). cbn in H.
  cbn [n_inv scalar_numerics]. rewrite E. cbn [Nat.eqb]. destruct (Req_EM_T _ 0) as [C|]; [|eauto].
  exfalso. rewrite C in H. lra.
Qed.

(** The fitted table of PropFit: a constant for the first of two alternatives. *)
Example ex_fit_identified : identified fit_cols None 1 asc_one.
Proof.
  intros v Hv j Hj. assert (j = 0%nat) by lia. subst j.
  specialize (Hv 0%nat 1%nat ltac:(cbn; lia) ltac:(cbn; lia) eq_refl). cbn in Hv. lra.
Qed.

(** A fit of it completes, for every starting value, with an optimizer that returns it, and
    reports a positive standard error. *)
Example ex_identified_fit v : exists p out se pv,
  fit_mle (fun _ _ x0 => Ok (mkMin x0 0)) scalar_numerics (mkModelNames ["asc"%string] None None None) None
    (fit_model (ClassLogit KMNL)) 0 no_draws (start_at (mkArr 1 v)) = Ok (Stored p out) /\
  0 < se /\ nth_error (i_standard_errors (f_inference out)) 0 = Some ("asc"%string, Fin se) /\
  nth_error (i_pvalues (f_inference out)) 0 = Some ("asc"%string, Fin pv).
Proof.
  set (mz := fun _ _ x0 => Ok (mkMin x0 0)). set (nms := mkModelNames ["asc"%string] None None None).
  assert (Hkl : keeps_length mz) by (intros f h x0 r H; injection H as <-; reflexivity).
  assert (Hn : length (index_names_after_fit (mn_index nms) None) = 1%nat) by reflexivity.
  assert (Hl : check_length_of_initial_values KMNL (d_J fit_data) 1 (mkArr 1 v) = Ok tt) by reflexivity.
  destruct (C100_hessian_negative_definite fit_cols None fit_map 1 asc_one (Some (fun _ => 1)) None fit_map_ok
     ltac:(lia) (unit_weights fit_cols) (mkArr 1 v) ltac:(intros i _; cbn; lra) I (or_introl ex_fit_identified) Hl)
    as (h & Eh & Lh & _ & Nd & _).
  assert (Hh : sqe h 0%nat 0%nat < 0).
  { specialize (Nd (fun _ => 1) (ex_intro _ 0%nat (conj Nat.lt_0_1 R1_neq_R0))). unfold quad in Nd. cbn in Nd. lra. }
  destruct (grad_form KMNL fit_data (mkArr 1 v) ltac:(cbn; lia) eq_refl) as (g & Eg & Lg & _).
  destruct (fisher_form KMNL fit_data (mkArr 1 v) ltac:(cbn; lia) eq_refl) as (f & Ef & Lf & _).
  assert (E : exists p out, fit_mle mz scalar_numerics nms None (fit_model (ClassLogit KMNL)) 0 no_draws (start_at (mkArr 1 v)) = Ok (Stored p out)
     /\ exists th, nth_error (f_params out) 0 = Some ("asc"%string, th)).
  { unfold fit_mle.
    assert (EF : fit_estimator (fit_model (ClassLogit KMNL)) 0 no_draws (start_at (mkArr 1 v)) = Ok (fit_est, mkArr 1 v)) by reflexivity.
    rewrite EF. cbn [bind]. unfold estimate, mz. cbn [bind start_at fa_just_point].
    unfold post_estimation. cbn [mr_x]. unfold est_probs, est_hess, fit_est. cbn [e_core e_chosen fit_map chosen_row_to_obs option_map bind est_grad est_fish].
    rewrite Eg. cbn [bind]. change (est_hessian KMNL fit_data (mkArr 1 v) = Ok h) in Eh. rewrite Eh. cbn [bind]. rewrite Ef. cbn [bind].
    destruct g as [ng g], h as [nh h], f as [nf f]. cbn [alen sqn sqe] in Lg, Lh, Lf, Hh. subst ng nh nf.
    cbn -[Req_EM_T]. destruct (Req_EM_T (h 0%nat 0%nat) 0) as [C|C]; [exfalso; lra|].
    cbn -[Req_EM_T]. eexists. eexists. split; [reflexivity|]. eexists. reflexivity. }
  destruct E as (p & out & E & th & Eth). exists p, out.
  destruct (C100_standard_errors_are_positive fit_cols 1 asc_one nms None 0 no_draws (start_at (mkArr 1 v)) ltac:(lia)
    mz scalar_numerics p out 0 "asc"%string th ex_scalar_numerics Hkl (or_introl ex_fit_identified) I eq_refl E Eth)
    as (se & pv & Hse & _ & E1 & _ & E3).
  exists se, pv. auto.
Qed.

(** A model that is not identified: constants for both alternatives. *)
Example ex_not_identified : ~ identified fit_cols None 2
  (fun i q => if (nth i (alt_ids fit_cols) 0 =? Z.of_nat (S q))%Z then 1 else 0).
Proof.
  intros H. specialize (H (fun _ => 1)). enough (1 = 0) by lra. refine (H _ 0%nat ltac:(lia)).
  intros i i' Hi Hi' _ _. cbn in Hi, Hi'.
  destruct i as [|[|[|[|i]]]]; try lia; destruct i' as [|[|[|[|i']]]]; try lia; cbn; ring.
Qed.

Print Assumptions C100_standard_errors_are_positive.
Print Assumptions C100_no_fit_completes_when_unidentified.
Print Assumptions C100_fit_completes_when_identified.
