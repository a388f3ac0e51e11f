(** Concrete sessions: the cases in which C93, C96 and C97 fail, and sessions that meet the
    hypotheses of C91, C92, C94, C95, C96 and C98. *)
From Coq Require Import String ZArith List Reals Lia Lra Arith Bool FunctionalExtensionality.
From Verif Require Import Res Vec Arr ChoiceCalcs Ids Mappings LongData Transforms Frame ChoiceTools BaseModel
  NestedCalcs MixedCalcs SpecLogit LogitFacts HessFacts Estimation Predict Construct ObjectStore Session.
From Verif Require Import PropMappings PropDesign PropConstruct PropEstimation PropFit PropRefit PredictExt PropStore PropSession
  PropSessionPredict PropSessionRefit PropSessionEdits.
Import ListNotations.
Local Open Scope string_scope.

(** Two choices between alternatives 1 and 2; the only variable is zero throughout. *)
Definition flat_frame : frame :=
  mkFrame 4 [("obs", [1; 1; 2; 2]%Z); ("alt", [1; 2; 1; 2]%Z); ("choice", [1; 0; 0; 1]%Z)]
    [("x", [0; 0; 0; 0]%R)].
Definition flat_args : model_args :=
  mkArgs "alt" "obs" "choice" [("x", SStr "all_same")] "MNL" RefNone RefNone None None None None None None.
Definition flat_model : created :=
  mkCreated TMNL flat_frame None [[0; 0; 0; 0]%R] ["x"] "alt" "obs" "choice" [("x", SStr "all_same")]
    [1; 2; 1; 2]%Z [1; 0; 0; 1]%Z None None RefNone RefNone None None None None None.
Lemma flat_created : create_choice_model flat_frame flat_args = Ok flat_model.
Proof. reflexivity. Qed.

(** An optimizer that makes no step, and an inverse of 1 x 1 matrices that raises for
    zero. *)
Definition stay : minimizer := fun f _ x0 => do r <- f x0; Ok (mkMin x0 (fst r)).
Lemma stay_keeps_length : keeps_length stay.
Proof. intros f h x0 r H. unfold stay in H. apply bind_ok in H. destruct H as (q & _ & H). injection H as <-. reflexivity. Qed.
Definition inv1 (h : sqmat) : Res sqmat :=
  if (sqn h =? 1)%nat then
    if Req_EM_T (sqe h 0%nat 0%nat) 0 then Err ValueError else Ok (mkSq 1 (fun _ _ => / sqe h 0%nat 0%nat)%R)
  else Err ValueError.
Definition nm1 : numerics := mkNumerics inv1 (fun _ => 0%R) (fun _ => 0%R).

Definition fit_from (v : R) (r : ridge_arg) : fit_call :=
  mkFitCall stay nm1 (mkReport true "done") "bfgs" 0 no_draws
    (mkFitArgs (Some (mkArr 1 (fun _ => v))) None None None r None false WNone).

(** The table with the given observation ids. *)
Definition flat_frame_with (obs : list Z) : frame :=
  mkFrame 4 [("obs", obs); ("alt", [1; 2; 1; 2]%Z); ("choice", [1; 0; 0; 1]%Z)] [("x", [0; 0; 0; 0]%R)].
Definition flat_cols (obs : list Z) : long_cols := mkLong obs [1; 2; 1; 2]%Z (Some [1; 0; 0; 1]%Z) None.
Definition flat_map (obs : list Z) : mappings :=
  mkMappings (create_sparse_mapping obs None) (create_sparse_mapping [1; 2; 1; 2]%Z (Some [1; 2]%Z))
    (Some (multiply_rows (create_sparse_mapping obs None) [1; 0; 0; 1]%Z)) None None.
Definition flat_data (obs : list Z) (r : option R) : Data :=
  data_of (flat_cols obs) (flat_map obs) 1 (design_mat [[0; 0; 0; 0]%R]) (@Some vec (fun _ => 1%R)) r.
Definition flat_est (obs : list Z) (r : option R) : estimator :=
  mkEst (CoreLogit KMNL (flat_data obs r)) (option_map smat_R (chosen_row_to_obs (flat_map obs))) None (mkArr 1 (fun _ => 0%R)).

Definition two : list Z := [1; 1; 2; 2]%Z.
Definition one : list Z := [1; 1; 1; 1]%Z.

Lemma flat_setup obs v r : obs = two \/ obs = one -> r = RidgeNone \/ r = RidgeNumber 1 ->
  fit_setup flat_model (flat_frame_with obs) (fit_from v r) = Ok (flat_est obs (ridge_value r), mkArr 1 (fun _ => v)).
Proof. intros [-> | ->] [-> | ->]; reflexivity. Qed.

Lemma flat_X i k : design_mat [[0; 0; 0; 0]%R] i k = 0%R.
Proof. unfold design_mat. destruct k as [|[|k]]; cbn [nth]; [|destruct i; reflexivity|destruct i; reflexivity]. destruct i as [|[|[|[|[|i]]]]]; reflexivity. Qed.

Lemma flat_DH obs r v i : DH KMNL (flat_data obs r) (mkArr 1 (fun _ => v)) i 0%nat = 0%R.
Proof.
  transitivity (dh_db (model_of KMNL) (flat_data obs r) (sh KMNL (d_J (flat_data obs r)) (mkArr 1 (fun _ => v)))
    (be KMNL (d_J (flat_data obs r)) (d_K (flat_data obs r)) (mkArr 1 (fun _ => v))) i 0%nat); [reflexivity|].
  unfold dh_db, mdot. rewrite (sumn_ext _ _ (fun _ => 0%R)); [apply sumn_zero|].
  intros j _. cbn [flat_data data_of d_X]. rewrite flat_X. ring.
Qed.

Lemma flat_estimate obs v r : obs = two \/ obs = one ->
  exists p, estimate stay (mkArr 1 (fun _ => v)) (flat_est obs r) true false = Ok (FullResults p) /\
    po_blocks p = mkBlocks None None None (mkArr 1 (fun i => aget (mkArr 1 (fun _ => v)) (0 + i)%nat)) /\
    alen (po_gradient p) = 1%nat /\ sqn (po_hessian p) = 1%nat /\ sqn (po_fisher p) = 1%nat /\ po_constrained p = None /\
    sqe (po_hessian p) 0%nat 0%nat = (- 2 * match r with Some x => x | None => 0 end)%R /\
    po_final_ll p = est_log_likelihood KMNL (flat_data obs r) (mkArr 1 (fun _ => v)).
Proof.
  intros Ho. set (x := mkArr 1 (fun _ => v)).
  assert (Hmap : create_long_form_mappings (flat_cols obs) None = Ok (flat_map obs)) by (destruct Ho as [-> | ->]; reflexivity).
  destruct (grad_form KMNL (flat_data obs r) x ltac:(cbn; lia) eq_refl) as (g & Eg & Lg & _).
  destruct (hess_form KMNL (flat_data obs r) (own_of obs) x ltac:(cbn; lia) eq_refl
     (data_obs_indicator (flat_cols obs) None (flat_map obs) 1 (design_mat [[0; 0; 0; 0]%R]) (@Some vec (fun _ => 1%R)) r Hmap) (or_introl eq_refl)) as (h & Eh & Lh & Vh).
  destruct (fisher_form KMNL (flat_data obs r) x ltac:(cbn; lia) eq_refl) as (f & Ef & Lf & _).
  unfold estimate, stay, neg_ll_and_neg_gradient. cbn [flat_est e_core est_grad e_constrained]. rewrite Eg. cbn [bind fst].
  unfold post_estimation. cbn [mr_x mr_fun]. unfold est_probs, est_hess. cbn [flat_est e_core e_chosen flat_map chosen_row_to_obs option_map bind est_grad est_fish].
  rewrite Eg. cbn [bind]. rewrite Eh. cbn [bind]. rewrite Ef. cbn [bind].
  eexists. split; [reflexivity|]. cbn [po_blocks po_gradient po_hessian po_fisher po_constrained po_final_ll].
  split; [reflexivity|]. split; [exact Lg|]. split; [exact Lh|]. split; [exact Lf|]. split; [reflexivity|]. split.
  - rewrite Vh by (cbn; lia). unfold Qf.
    rewrite (sumn_ext _ _ (fun _ => 0%R)) by (intros i _; unfold x; rewrite flat_DH; ring).
    rewrite (sumn_ext _ (fun i => _ * osum _ _ _ _)%R (fun _ => 0%R)) by (intros i _; unfold x; rewrite flat_DH; ring).
    rewrite sumn_zero. unfold ridge_or_0, ident. cbn [flat_data data_of d_ridge Nat.eqb]. destruct r; ring.
  - cbn [est_ll]. ring.
Qed.

Lemma flat_exp obs r v i : long_exponentials MNL_model (flat_data obs r) None None (mkArr 1 (fun _ => v)) i = 1%R.
Proof.
  unfold long_exponentials. cbn [MNL_model m_transform mnl_transform]. unfold mnl_transform.
  assert (E : sys_utilities (flat_data obs r) (mkArr 1 (fun _ => v)) i = 0%R).
  { unfold sys_utilities, mvec. rewrite (sumn_ext _ _ (fun _ => 0%R)); [apply sumn_zero|].
    intros j _. cbn [flat_data data_of d_X]. rewrite flat_X. ring. }
  rewrite E. unfold clip_exponent, min_exponent_val, max_exponent_val.
  destruct (Rlt_dec 0 _); [lra|]. destruct (Rlt_dec _ 0); [lra|]. apply exp_0.
Qed.

Lemma flat_ll obs r v : obs = two \/ obs = one ->
  est_log_likelihood KMNL (flat_data obs r) (mkArr 1 (fun _ => v)) =
  (2 * ln (/ (if Z.eqb (nth 2 obs 0%Z) 2 then 2 else 4)) - match r with Some x => x | None => 0 end * (v * v))%R.
Proof.
  intros Ho. rewrite est_ll_eq by (reflexivity || (cbn; lia)).
  assert (P : forall i, (i < 4)%nat -> long_probs MNL_model (flat_data obs r) None None (be KMNL (d_J (flat_data obs r)) 1 (mkArr 1 (fun _ => v))) i
    = / (if Z.eqb (nth 2 obs 0%Z) 2 then 2 else 4)).
  { intros i Hi. unfold long_probs. change (be KMNL (d_J (flat_data obs r)) 1 (mkArr 1 (fun _ => v))) with (mkArr 1 (fun _ => v)).
    rewrite flat_exp.
    replace (long_denominators (flat_data obs r) (long_exponentials MNL_model (flat_data obs r) None None (mkArr 1 (fun _ => v))) i) with (if Z.eqb (nth 2 obs 0%Z) 2 then 2 else 4)%R.
    - unfold guard_zero. destruct (Z.eqb _ _); destruct (Req_EM_T _ 0); lra.
    - unfold long_denominators, individual_denominators, mvec, transp.
      rewrite (sumn_ext (d_obs (flat_data obs r)) _ (fun o => d_M (flat_data obs r) i o * sumn 4 (fun k => d_M (flat_data obs r) k o))%R).
      2:{ intros o _. f_equal. replace (d_N (flat_data obs r)) with 4%nat by (destruct Ho as [-> | ->]; reflexivity).
          apply sumn_ext. intros k _. rewrite flat_exp. ring. }
      destruct Ho as [-> | ->]; destruct i as [|[|[|[|i]]]]; try lia; cbn;
        repeat match goal with |- context [smat_R ?m ?a ?b] => let w := eval cbv -[IZR Rplus Rmult] in (smat_R m a b) in change (smat_R m a b) with w end; lra. }
  replace (d_N (flat_data obs r)) with 4%nat by (destruct Ho as [-> | ->]; reflexivity).
  change (d_K (flat_data obs r)) with 1%nat. change (model_of KMNL) with MNL_model.
  rewrite (sumn_ext 4 _ (fun i => d_y (flat_data obs r) i * ln (/ (if Z.eqb (nth 2 obs 0%Z) 2 then 2 else 4)))%R).
  2:{ intros i Hi. change (sh KMNL (d_J (flat_data obs r)) (mkArr 1 (fun _ => v))) with (@None arr).
      change (ic KMNL (d_J (flat_data obs r)) (mkArr 1 (fun _ => v))) with (@None arr). rewrite P by exact Hi. cbn [flat_data data_of d_w eff_weights]. ring. }
  unfold ridge_or_0. cbn [flat_data data_of d_ridge d_y choice_vec flat_cols choices sumn nth]. unfold asumsq. cbn. destruct (Z.eqb _ _), r; ring.
Qed.

Lemma flat_out nm v n p hi :
  po_blocks p = mkBlocks None None None (mkArr 1 (fun i => aget (mkArr 1 (fun _ => v)) (0 + i)%nat)) ->
  alen (po_gradient p) = 1%nat -> sqn (po_hessian p) = 1%nat -> sqn (po_fisher p) = 1%nat -> po_constrained p = None ->
  n_inv nm (po_hessian p) = Ok hi -> sqn hi = 1%nat ->
  exists out, store_fit_results nm (names_of flat_model) (c_mix_vars flat_model) (results_of n p) = Ok out /\
    f_coefs out = [("x", v)] /\ f_params out = [("x", v)].
Proof.
  intros Eb Lg Lh Lf Ec Ei Li. unfold store_fit_results, results_of. rewrite Eb, Ec.
  destruct (po_gradient p) as [ng gg], (po_hessian p) as [nh hh], (po_fisher p) as [nf ff], hi as [ni hi]. cbn [alen sqn] in *. subst ng nh nf ni.
  cbv zeta. cbn [names_of flat_model c_ind_var_names c_inames c_snames c_nest_names c_mix_vars mn_index mn_intercepts mn_shapes mn_nests add_mixing_variable_names
       bl_coefs bl_intercepts bl_shapes bl_nests option_map r_utility_coefs r_intercept_params r_shape_params r_nest_params r_gradient r_hessian r_fisher
       r_log_likelihood r_chosen_probs r_constrained_pos store_block bind fst snd].
  unfold generic_inference, mk_square, mk_series, diag_list. cbn [alist alen map seq length Nat.eqb bind sqn neg_sq]. rewrite Ei.
  cbn [alist alen map seq length Nat.eqb bind sqn neg_sq combine fst snd adjust_inferential_results].
  eexists. split; [reflexivity|]. split; reflexivity.
Qed.

(** Table 0, model 0. *)
Definition flat_start : list call := [NewTable flat_frame].
Lemma flat_table : nth_error (s_tables (run start flat_start)) 0 = Some flat_frame.
Proof. reflexivity. Qed.
Lemma flat_object : snd (step (run start flat_start) (Create 0 flat_args)) = Ok (OModel 0).
Proof. reflexivity. Qed.

Lemma flat_mo_ok : model_obj_of flat_model = Ok (mkModel (ClassLogit KMNL) (flat_cols two) 1 (design_mat [[0; 0; 0; 0]%R])).
Proof. reflexivity. Qed.

(** A fit with ridge penalty 1 succeeds. *)
Lemma flat_fit_ok v : exists p out,
  fit_mle stay nm1 (names_of flat_model) (c_mix_vars flat_model) (mkModel (ClassLogit KMNL) (flat_cols two) 1 (design_mat [[0; 0; 0; 0]%R])) 0 no_draws
    (fc_args (fit_from v (RidgeNumber 1))) = Ok (Stored p out) /\
  f_coefs out = [("x", v)] /\ f_params out = [("x", v)].
Proof.
  destruct (flat_estimate two v (Some 1%R) (or_introl eq_refl)) as (p & Ep & Eb & Lg & Lh & Lf & Ec & Vh & _).
  assert (Ei : n_inv nm1 (po_hessian p) = Ok (mkSq 1 (fun _ _ => / sqe (po_hessian p) 0%nat 0%nat)%R)).
  { cbn [nm1 n_inv]. unfold inv1. rewrite Lh. cbn [Nat.eqb]. destruct (Req_EM_T _ 0) as [E|]; [|reflexivity]. rewrite Vh in E. lra. }
  destruct (flat_out nm1 v (d_obs (core_data (e_core (flat_est two (Some 1%R))))) p _ Eb Lg Lh Lf Ec Ei eq_refl) as (out & Eo & C1 & C2).
  exists p, out. split; [|auto]. unfold fit_mle.
  change (fit_estimator (mkModel (ClassLogit KMNL) (flat_cols two) 1 (design_mat [[0; 0; 0; 0]%R])) 0 no_draws (fc_args (fit_from v (RidgeNumber 1))))
    with (@Ok (estimator * arr) (flat_est two (Some 1%R), mkArr 1 (fun _ => v))).
  cbn [bind]. cbn [fit_from fc_args fa_just_point fst snd]. rewrite Ep. cbn [bind]. rewrite Eo. reflexivity.
Qed.

(** ** C93: a fit whose Hessian is singular mixes two estimations

    The first fit (with a ridge penalty, so that the Hessian is not singular) succeeds; the
    second (without) raises.  Afterwards coefs shows the second, params the first. *)
Lemma run_cons s c h : run s (c :: h) = run (run s [c]) h.
Proof. reflexivity. Qed.
Lemma run_one s c : run s [c] = fst (step s c).
Proof. reflexivity. Qed.

Theorem C93_refuted_mixture : exists g fc1 fc2,
  let s1 := fst (step (run start g) (Fit 0 fc1)) in
  let s2 := fst (step s1 (Fit 0 fc2)) in
  snd (step (run start g) (Fit 0 fc1)) = Ok ONothing /\
  (exists e, snd (step s1 (Fit 0 fc2)) = Err e) /\
  attr s1 0 "coefs" = Some (VSeries [("x", 0%R)]) /\ attr s1 0 "params" = Some (VSeries [("x", 0%R)]) /\
  attr s2 0 "coefs" = Some (VSeries [("x", 5%R)]) /\ attr s2 0 "params" = Some (VSeries [("x", 0%R)]).
Proof.
  exists (flat_start ++ [Create 0 flat_args])%list, (fit_from 0 (RidgeNumber 1)), (fit_from 5 RidgeNone).
  cbv zeta. rewrite run_app.
  pose proof (C92_what_estimation_stores flat_start 0 flat_args 0 [] (fit_from 0 (RidgeNumber 1)) flat_frame flat_model flat_table flat_created flat_object ltac:(intros x H; exact H)) as W.
  cbv zeta in W. rewrite flat_mo_ok in W. cbn [bind] in W. destruct (flat_fit_ok 0) as (p & out & Ef & C1 & C2).
  change (fc_mz (fit_from 0 (RidgeNumber 1))) with stay in W. change (fc_nm (fit_from 0 (RidgeNumber 1))) with nm1 in W.
  change (fc_draws (fit_from 0 (RidgeNumber 1))) with 0%nat in W. change (fc_rvs (fit_from 0 (RidgeNumber 1))) with no_draws in W.
  rewrite Ef in W. cbn [bind] in W. destruct W as (W1 & _ & _ & hinv & _ & W).
  destruct (flat_estimate two 5 None (or_introl eq_refl)) as (q & Eq & Eb & Lg & Lh & Lf & Ec & Vh & _).
  assert (Ei : n_inv nm1 (po_hessian q) = Err ValueError).
  { cbn [nm1 n_inv]. unfold inv1. rewrite Lh. cbn [Nat.eqb]. destruct (Req_EM_T _ 0) as [E|E]; [reflexivity|]. exfalso. apply E. rewrite Vh. ring. }
  destruct (flat_out ex_nm 5 (d_obs (core_data (e_core (flat_est two None)))) q (po_hessian q) Eb Lg Lh Lf Ec eq_refl Lh) as (out2 & Eo & D1 & D2).
  destruct (C93_refuted_when_the_inverse_raises flat_start 0 flat_args 0 [Fit 0 (fit_from 0 (RidgeNumber 1))] (fit_from 5 RidgeNone) flat_frame flat_model
    _ (flat_est two None) (mkArr 1 (fun _ => 5%R)) q ex_nm out2 ValueError flat_table flat_created flat_object
    ltac:(intros x [H|[]]; discriminate) eq_refl flat_mo_ok eq_refl Eq Eo Ei) as (X1 & X2).
  rewrite (run_cons (run start flat_start) (Create 0 flat_args)) in X1, X2. rewrite run_one in X1, X2.
  set (s0 := run (run start flat_start) [Create 0 flat_args]) in *. clearbody s0.
  set (s1 := fst (step s0 (Fit 0 (fit_from 0 (RidgeNumber 1))))) in *. set (s2 := fst (step s1 (Fit 0 (fit_from 5 RidgeNone)))) in *.
  split; [exact W1|].
  split; [eauto|]. rewrite <- C1 at 1. rewrite <- C2 at 2.
  assert (A1 : attr s1 0 "coefs" = Some (VSeries (f_coefs out))) by (apply W; unfold fit_attributes; cbn [In]; tauto).
  assert (A2 : attr s1 0 "params" = Some (VSeries (f_params out))) by (apply W; unfold fit_attributes; cbn [In]; tauto).
  split; [exact A1|]. split; [rewrite A2, C2; reflexivity|]. split.
  - rewrite (X2 hinv "coefs" (VSeries (f_coefs out2))) by (unfold fit_attributes; cbn [In]; tauto). rewrite D1. reflexivity.
  - rewrite (X2 hinv "params" (VSeries (f_params out2))) by (unfold fit_attributes; cbn [In]; tauto).
    change (existsb (String.eqb "params") set_before_inversion) with false. cbn iota. rewrite A2, C2. reflexivity.
Qed.

(** ** C97: changing the observation ids

    The same call of fit_mle before and after the user changes the observation ids in the
    table: both succeed, with the log-likelihoods of two different data sets. *)
Lemma flat_fit_on obs : obs = two \/ obs = one ->
  let o := setattr "ind_var_names" (VNames (c_ind_var_names flat_model)) no_attrs in
  let r := fit_call_on flat_model (flat_frame_with obs) (fit_from 0 (RidgeNumber 1)) o in
  snd r = Ok None /\ fst r "log_likelihood" = Some (VNum (2 * ln (/ (if Z.eqb (nth 2 obs 0%Z) 2 then 2 else 4)))%R).
Proof.
  intros Ho o r. unfold r, fit_call_on. change (early_check (c_type flat_model) (fc_args (fit_from 0 (RidgeNumber 1)))) with (@Ok unit tt). cbv zeta.
  fold (with_settings flat_model (flat_frame_with obs) (fit_from 0 (RidgeNumber 1)) o).
  set (A := with_settings flat_model (flat_frame_with obs) (fit_from 0 (RidgeNumber 1)) o).
  rewrite (flat_setup obs 0 (RidgeNumber 1) Ho (or_intror eq_refl)). change (ridge_value (RidgeNumber 1)) with (Some 1%R).
  destruct (flat_estimate obs 0 (Some 1%R) Ho) as (p & Ep & Eb & Lg & Lh & Lf & Ec & Vh & Ell).
  cbn [fit_from fc_mz fc_args fa_just_point fc_nm fc_report]. rewrite Ep.
  assert (Ei : n_inv nm1 (po_hessian p) = Ok (mkSq 1 (fun _ _ => / sqe (po_hessian p) 0%nat 0%nat)%R)).
  { cbn [nm1 n_inv]. unfold inv1. rewrite Lh. cbn [Nat.eqb]. destruct (Req_EM_T _ 0) as [E|]; [|reflexivity]. rewrite Vh in E. lra. }
  set (D := core_data (e_core (flat_est obs (Some 1%R)))).
  destruct (flat_out nm1 0 (d_obs D) p _ Eb Lg Lh Lf Ec Ei eq_refl) as (out & Eo & _).
  destruct (store_fit nm1 (names_of flat_model) (c_mix_vars flat_model) (d_N D) (d_obs D) (mkReport true "done") p A) as [B rs] eqn:Es.
  assert (HA : A "ind_var_names" = Some (VNames ["x"])) by (unfold A; rewrite with_settings_at; reflexivity).
  pose proof (store_fit_agrees _ (names_of flat_model) _ _ _ _ _ _ _ _ _ HA eq_refl Es) as G. rewrite Eo in G.
  destruct G as (-> & hinv & _ & G). cbn [fst snd]. split; [reflexivity|].
  rewrite G. unfold updated, fit_attributes. cbn [assoc]. rewrite (String.eqb_refl "log_likelihood"). 
  change (String.eqb "log_likelihood" "ind_var_names") with false. cbn iota. rewrite Ell, (flat_ll obs (Some 1%R) 0 Ho). do 2 f_equal. ring.
Qed.

Theorem C97_refuted_observation_ids_are_read_again : exists g f' fc,
  let s := run start g in
  let s' := run s [Edit 0 f'] in
  (exists f, nth_error (s_tables s) 0 = Some f /\ f_reals f' = f_reals f /\
     forall c, c <> "obs" -> int_col f' c = int_col f c) /\
  snd (step s (Fit 0 fc)) = Ok ONothing /\ snd (step s' (Fit 0 fc)) = Ok ONothing /\
  attr (fst (step s (Fit 0 fc))) 0 "log_likelihood" = Some (VNum (2 * ln (/ 2))%R) /\
  attr (fst (step s' (Fit 0 fc))) 0 "log_likelihood" = Some (VNum (2 * ln (/ 4))%R) /\
  (2 * ln (/ 2) <> 2 * ln (/ 4))%R.
Proof.
  exists (flat_start ++ [Create 0 flat_args])%list, (flat_frame_with one), (fit_from 0 (RidgeNumber 1)). cbv zeta.
  destruct (flat_fit_on two (or_introl eq_refl)) as (R1 & L1). destruct (flat_fit_on one (or_intror eq_refl)) as (R2 & L2).
  set (o := setattr "ind_var_names" (VNames (c_ind_var_names flat_model)) no_attrs) in *.
  set (fc := fit_from 0 (RidgeNumber 1)) in *.
  set (s := run start (flat_start ++ [Create 0 flat_args])). set (s' := run s [Edit 0 (flat_frame_with one)]).
  assert (E1 : step s (Fit 0 fc) = (mkSession [flat_frame_with two] [mkObj flat_model 0 (fst (fit_call_on flat_model (flat_frame_with two) fc o))],
    match snd (fit_call_on flat_model (flat_frame_with two) fc o) with Ok (Some x) => Ok (OPoint x) | Ok None => Ok ONothing | Err e => Err e end)).
  { change s with (mkSession [flat_frame_with two] [mkObj flat_model 0 o]). cbn [step s_objs s_tables nth_error ob_table ob_model ob_attrs].
    destruct (fit_call_on flat_model (flat_frame_with two) fc o). reflexivity. }
  assert (E2 : step s' (Fit 0 fc) = (mkSession [flat_frame_with one] [mkObj flat_model 0 (fst (fit_call_on flat_model (flat_frame_with one) fc o))],
    match snd (fit_call_on flat_model (flat_frame_with one) fc o) with Ok (Some x) => Ok (OPoint x) | Ok None => Ok ONothing | Err e => Err e end)).
  { change s' with (mkSession [flat_frame_with one] [mkObj flat_model 0 o]). cbn [step s_objs s_tables nth_error ob_table ob_model ob_attrs].
    destruct (fit_call_on flat_model (flat_frame_with one) fc o). reflexivity. }
  rewrite E1, E2, R1, R2. cbn [fst snd]. unfold attr. cbn [s_objs nth_error ob_attrs]. rewrite L1, L2.
  split.
  { exists (flat_frame_with two). split; [reflexivity|]. split; [reflexivity|]. intros c Hc. unfold int_col, flat_frame_with. cbn [f_ints assoc].
    apply String.eqb_neq in Hc. rewrite Hc. reflexivity. }
  repeat (split; [reflexivity|]). rewrite !ln_Rinv by lra. intros H.
  assert (L : (ln 2 < ln 4)%R) by (apply ln_increasing; lra). lra.
Qed.

(** ** The hypotheses are met *)

(** C91, C92, C95, C98: a session in which the model of table 0 is made, then another
    table and model, a prediction with given parameters, and the fit. *)
Definition busy : list call :=
  [NewTable flat_frame; Create 1 flat_args; Predict 0 0 (mkPredictCall (Some [Some (mkArr 1 (fun _ => 2%R)); None; None; None]) true None None no_draws);
   Fit 1 (fit_from 3 (RidgeNumber 1))].
Example ex_busy_session :
  untouched 0 busy /\ untouched 0 [] /\ not_refitted 0 busy /\
  keeps_length stay /\ positions_valid (mkModel (ClassLogit KMNL) (flat_cols two) 1 (design_mat [[0; 0; 0; 0]%R])) /\
  (c_type flat_model = TMixed -> fc_draws (fit_from 0 (RidgeNumber 1)) <> 1%nat) /\
  snd (step (run (run start flat_start) (Create 0 flat_args :: busy)) (Fit 0 (fit_from 0 (RidgeNumber 1)))) = Ok ONothing.
Proof.
  assert (U : untouched 0 busy) by (intros f H; cbn in H; intuition discriminate).
  split; [exact U|]. split; [intros f []|]. split; [intros fc H; cbn in H; intuition discriminate|].
  split; [exact stay_keeps_length|]. split; [cbn; repeat split; lia|]. split; [discriminate|].
  pose proof (C92_what_estimation_stores flat_start 0 flat_args 0 busy (fit_from 0 (RidgeNumber 1)) flat_frame flat_model flat_table flat_created flat_object U) as W.
  cbv zeta in W. rewrite flat_mo_ok in W. cbn [bind] in W. destruct (flat_fit_ok 0) as (p & out & Ef & _).
  cbn [fit_from fc_mz fc_nm fc_draws fc_rvs] in W, Ef. rewrite Ef in W. cbn [bind] in W. destruct W as (W & _). exact W.
Qed.

(** C96: predictions with given parameters succeed before any fit. *)
Example ex_predict_unfitted : exists r,
  snd (step (run start (flat_start ++ [Create 0 flat_args]))
         (Predict 0 0 (mkPredictCall (Some [Some (mkArr 1 (fun _ => 2%R)); None; None; None]) true None None no_draws))) = Ok (OProbs r).
Proof. eexists. reflexivity. Qed.

(** C97: the variable's column is replaced. *)
Example ex_edit_keeps_ids :
  edits_keep_ids flat_model flat_frame 0
    [Edit 0 (mkFrame 4 [("obs", [1; 1; 2; 2]%Z); ("alt", [1; 2; 1; 2]%Z); ("choice", [1; 0; 0; 1]%Z)] [("x", [1; 2; 3; 4]%R)])].
Proof. intros f' [H|[]] c Hc. injection H as <-. cbn in Hc. destruct Hc as [<-|[<-|[<-|[]]]]; reflexivity. Qed.

(** C94: a specification with an intercept, so that the caller's table gets the column. *)
Example ex_intercept_added :
  let a := mkArgs "alt" "obs" "choice" [("intercept", SList [One 1%Z]); ("x", SStr "all_same")] "MNL" RefNone RefNone None None None None None None in
  exists f, nth_error (s_tables (run start [NewTable flat_frame; Create 0 a])) 0 = Some f /\ f <> flat_frame /\ same_or_intercept flat_frame f.
Proof. eexists. split; [reflexivity|]. split; [discriminate|]. right. split; reflexivity. Qed.

(** C96, mixed logit: a model made with one mixing variable. *)
Definition flat_mixed_args : model_args :=
  mkArgs "alt" "obs" "choice" [("x", SStr "all_same")] "Mixed Logit" RefNone RefNone None None None None (Some "obs") (Some ["x"]).
Example ex_mixed_unfitted : exists m, create_choice_model flat_frame flat_mixed_args = Ok m /\ c_type m = TMixed /\
  c_mix_vars m = Some ["x"] /\ length (c_ind_var_names m) = length (c_design m) /\
  snd (step (run start flat_start) (Create 0 flat_mixed_args)) = Ok (OModel 0).
Proof. eexists. split; [reflexivity|]. repeat split. Qed.

Print Assumptions C91_fit_does_not_depend_on_history.
Print Assumptions C92_what_estimation_stores.
Print Assumptions C93_failed_estimation_keeps_results.
Print Assumptions C93_refuted_when_the_inverse_raises.
Print Assumptions C93_refuted_mixture.
Print Assumptions C94_tables_keep_their_columns.
Print Assumptions C95_inference_stays_in_step.
Print Assumptions C96_explicit_parameters_need_no_history.
Print Assumptions C96_refuted_mixed_logit_before_estimation.
Print Assumptions C97_other_columns_may_change.
Print Assumptions C97_refuted_observation_ids_are_read_again.
Print Assumptions C98_results_stay_until_the_next_fit.
Print Assumptions C98_predictions_are_the_stored_probabilities.
