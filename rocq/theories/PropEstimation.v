(** Properties of estimation: C50 (constrained parameters), C52 (fit statistics),
    C53 (weights), C54 (derivative buffers) and what fit_mle starts from and
    reports (C67-C73).

    [mz] ranges over all optimizers.  What a theorem assumes about the optimizer is
    stated in it. *)
From Coq Require Import String ZArith List Reals Lra Lia Arith FunctionalExtensionality.
From Coquelicot Require Import Coquelicot.
From Verif Require Import Res Vec Arr SpecLogit ChoiceCalcs ChoiceFacts Transforms Ids Mappings
  MappingFacts LongData LogitFacts ProbFacts PropMappings PropProbs Frame ChoiceTools BaseModel
  PropBaseModel NestedCalcs RowDeriv HessFacts PropGradient PropGradientLimits PropHessian PropNested
  MixedCalcs PropMixed PropLikelihood Estimation PropDesign.
Import ListNotations.
Open Scope R_scope.

(** ** C50: constrained parameters do not move *)

(** The points an optimizer can reach by moving, from points it has reached, along
    gradients it has been given at points it has reached: gradient descent,
    conjugate gradients, BFGS, L-BFGS, with any step sizes. *)
Inductive gradient_span (f : arr -> Res (R * arr)) (x0 : arr) : arr -> Prop :=
| span_start : gradient_span f x0 x0
| span_step x y c F g :
    gradient_span f x0 x -> gradient_span f x0 y -> f y = Ok (F, g) ->
    gradient_span f x0 (mkArr (alen x) (fun i => aget x i + c * aget g i)).

(** The data make sense for the model (reference positions exist, at least one
    coefficient). *)
Definition core_ok (c : est_core) : Prop :=
  match c with CoreLogit k D => kind_ok k (d_J D) /\ (0 < d_K D)%nat | _ => True end.

Lemma est_grad_length c x g :
  core_ok c -> est_check_length c x = Ok tt -> est_grad c x = Ok g -> alen g = alen x.
Proof.
  destruct c as [k D|E|E]; cbn [core_ok est_check_length est_grad].
  - intros (Hk & HK) Hx Hg. unfold check_length_of_initial_values in Hx.
    destruct (Nat.eqb_spec (alen x) (assumed_param_dimensions k (d_J D) (d_K D))) as [E|]; [|discriminate].
    rewrite dims_eq in E by exact Hk. destruct (grad_form k D x HK E) as (g' & Eg & Hl & _). congruence.
  - intros _ Hx Hg. unfold nested_check_length in Hx.
    destruct (Nat.eqb_spec (alen x) (d_K (n_D E) + n_Q E)) as [El|]; [|discriminate].
    injection Hg as <-. unfold nested_est_gradient. cbn [nested_split]. unfold calc_nested_gradient.
    destruct (d_ridge (n_D E)); cbn [alen]; lia.
  - intros _ Hx Hg. unfold mixed_check_length in Hx.
    destruct (Nat.eqb_spec (alen x) (x_vars E)) as [El|]; [|discriminate].
    injection Hg as <-. cbn [calc_mixed_logit_gradient alen]. lia.
Qed.

Lemma check_length_ext c x y : alen x = alen y -> est_check_length c x = est_check_length c y.
Proof.
  intros E. destruct c; cbn [est_check_length]; unfold check_length_of_initial_values, nested_check_length,
    mixed_check_length; rewrite E; reflexivity.
Qed.

Lemma In_resolved n l p j :
  resolve_positions n l = Ok p -> (j < n)%nat -> constrained n l j -> In j p.
Proof.
  intros H Hj Hc. apply mapM_ok in H.
  assert (G : forall z, In z l -> py_pos n z = Some j -> In j p).
  { intros z Hz Ez. clear Hc. induction H as [|a b l' p' Hab HF IH]; [destruct Hz|].
    destruct Hz as [->|Hz]; [|right; apply IH; exact Hz].
    rewrite Ez in Hab. injection Hab as ->. left. reflexivity. }
  destruct Hc as [Hc|Hc]; [apply (G (Z.of_nat j) Hc)|apply (G _ Hc)]; apply py_pos_spec; auto.
Qed.

Lemma masked_gradient e x F g l j :
  core_ok (e_core e) -> est_check_length (e_core e) x = Ok tt ->
  neg_ll_and_neg_gradient e x = Ok (F, g) ->
  e_constrained e = Some l -> (j < alen x)%nat -> constrained (alen x) l j ->
  aget g j = 0.
Proof.
  intros Hc Hx H El Hj Hcon. unfold neg_ll_and_neg_gradient in H.
  apply bind_ok in H. destruct H as (g0 & Hg & H). rewrite El in H.
  apply bind_ok in H. destruct H as (p & Hp & H). injection H as _ <-.
  cbn [alen] in Hp. rewrite (est_grad_length _ _ _ Hc Hx Hg) in Hp.
  cbn [zero_at aget]. apply (In_resolved _ _ _ _ Hp Hj) in Hcon.
  apply existsb_eqb_In in Hcon. rewrite Hcon. reflexivity.
Qed.

Theorem C50_constrained_parameters_do_not_move e x0 x l j :
  core_ok (e_core e) -> est_check_length (e_core e) x0 = Ok tt ->
  gradient_span (neg_ll_and_neg_gradient e) x0 x ->
  e_constrained e = Some l -> (j < alen x0)%nat -> constrained (alen x0) l j ->
  aget x j = aget x0 j.
Proof.
  intros Hc Hx0 Hs El Hj Hcon.
  assert (G : alen x = alen x0 /\ aget x j = aget x0 j); [|apply G].
  induction Hs as [|x y c F g Hx [L1 IH1] Hy [L2 _] Hf]; [auto|].
  cbn [alen aget]. split; [exact L1|].
  rewrite (masked_gradient e y F g l j); try assumption.
  - lra.
  - rewrite (check_length_ext _ y x0) by exact L2. exact Hx0.
  - lia.
  - rewrite L2. exact Hcon.
Qed.

(** An optimizer all of whose answers lie in that span. *)
Definition moves_along_gradients (mz : minimizer) : Prop :=
  forall f h x0 r, mz f h x0 = Ok r -> gradient_span f x0 (mr_x r).

(** The point fit_mle ends at, returned or stored. *)
Definition final_point (r : fit_return) : arr :=
  match r with Returned m => mr_x m | Stored p _ => mr_x (po_min p) end.

Lemma fit_mle_inv mz nm names mixing m nd rvs fa r :
  fit_mle mz nm names mixing m nd rvs fa = Ok r ->
  exists e init mr,
    fit_estimator m nd rvs fa = Ok (e, init) /\
    mz (neg_ll_and_neg_gradient e) (Some (calc_neg_hessian e)) init = Ok mr /\
    match r with
    | Returned mr' => fa_just_point fa = true /\ mr' = mr
    | Stored p out =>
        fa_just_point fa = false /\
        post_estimation mr (est_ll (e_core e) (e_zero e)) e = Ok p /\
        store_fit_results nm names mixing (results_of (d_obs (core_data (e_core e))) p) = Ok out
    end.
Proof.
  unfold fit_mle. intros H. apply bind_ok in H. destruct H as ([e init] & He & H).
  apply bind_ok in H. destruct H as (o & Ho & H). unfold estimate in Ho.
  apply bind_ok in Ho. destruct Ho as (mr & Hm & Ho). exists e, init, mr. split; [exact He|].
  split; [exact Hm|]. destruct (fa_just_point fa).
  - injection Ho as <-. injection H as <-. auto.
  - apply bind_ok in Ho. destruct Ho as (p & Hp & Ho). injection Ho as <-.
    apply bind_ok in H. destruct H as (out & Hs & H). injection H as <-. auto.
Qed.

Lemma post_min r nll e p : post_estimation r nll e = Ok p -> po_min p = r.
Proof.
  unfold post_estimation. intros H. apply bind_ok in H. destruct H as ([[c ch] lo] & _ & H).
  apply bind_ok in H. destruct H as (g & _ & H). apply bind_ok in H. destruct H as (h & _ & H).
  apply bind_ok in H. destruct H as (f & _ & H). injection H as <-. reflexivity.
Qed.

Lemma fit_estimator_inv m nd rvs fa e init :
  fit_estimator m nd rvs fa = Ok (e, init) ->
  init_vector m fa = Ok init /\ est_check_length (e_core e) init = Ok tt /\
  e_constrained e = fit_constrained m (fa_constrained fa) /\
  e_zero e = mkArr (alen init) (fun _ => 0) /\
  estimation_checks (mo_cols m) (fa_ridge fa) WNone = Ok tt /\
  estimator_core m nd rvs (ridge_value (fa_ridge fa)) (fun _ => 1) = Ok (e_core e, e_chosen e).
Proof.
  unfold fit_estimator. intros H. apply bind_ok in H. destruct H as (i & Hi & H).
  apply bind_ok in H. destruct H as (e' & He & H). apply bind_ok in H. destruct H as ([] & Hc & H).
  injection H as <- <-. unfold create_estimation_obj in He.
  apply bind_ok in He. destruct He as ([c ch] & Hcc & He). apply bind_ok in He. destruct He as ([] & Hch & He).
  injection He as <-. cbn [e_core e_chosen e_constrained e_zero fst snd default_weights] in *. auto 10.
Qed.

(** At the level of the API: whatever the optimizer, as long as it moves along the
    gradients it is given, the fitted value of every parameter listed in
    constrained_pos is its starting value. *)
Theorem C50_fit_mle_keeps_constrained mz nm names mixing m nd rvs fa r init l j :
  moves_along_gradients mz ->
  fit_mle mz nm names mixing m nd rvs fa = Ok r ->
  init_vector m fa = Ok init ->
  (match mo_class m with
   | ClassLogit k => kind_ok k (length (np_unique (alt_ids (mo_cols m)))) /\ (0 < mo_K m)%nat
   | _ => True
   end) ->
  fa_constrained fa = Some l -> (j < alen init)%nat -> constrained (alen init) l j ->
  aget (final_point r) j = aget init j.
Proof.
  intros Hmz H Hi Hok El Hj Hc. apply fit_mle_inv in H. destruct H as (e & i & mr & He & Hm & H).
  apply fit_estimator_inv in He. destruct He as (Hi' & Hlen & Econ & _ & _ & Hcore).
  assert (i = init) by congruence. subst i. clear Hi'.
  assert (Efin : final_point r = mr_x mr).
  { destruct r as [mr'|p out]; cbn [final_point]; [destruct H as (_ & ->); reflexivity|].
    destruct H as (_ & Hp & _). apply post_min in Hp. rewrite Hp. reflexivity. }
  rewrite Efin. rewrite El in Econ.
  assert (Hl' : exists l', e_constrained e = Some l' /\ constrained (alen init) l' j).
  { unfold fit_constrained in Econ. destruct (mo_class m) as [k|t|pos]; [exists l; auto| |exists l; auto].
    eexists. split; [exact Econ|]. unfold constrained in *.
    rewrite !np_unique_In, !in_app_iff. destruct Hc; auto. }
  destruct Hl' as (l' & El' & Hc').
  apply (C50_constrained_parameters_do_not_move e init (mr_x mr) l' j); try assumption.
  - unfold core_ok. unfold estimator_core in Hcore. destruct (mo_class m) as [k|t|pos].
    + apply bind_ok in Hcore. destruct Hcore as (mp & Hmp & Hcore).
      injection Hcore as <- _. cbn [d_J d_K data_of]. rewrite <- (data_J _ _ _ (mo_K m) (mo_X m) None None Hmp) in Hok.
      exact Hok.
    + apply bind_ok in Hcore. destruct Hcore as (mp & Hmp & Hcore). apply bind_ok in Hcore.
      destruct Hcore as (rn & Hrn & Hcore). injection Hcore as <- _. exact I.
    + apply bind_ok in Hcore. destruct Hcore as (mp & Hmp & Hcore). apply bind_ok in Hcore.
      destruct Hcore as (rn & Hrn & Hcore). apply bind_ok in Hcore. destruct Hcore as (dr & _ & Hcore).
      apply bind_ok in Hcore. destruct Hcore as (E & _ & Hcore). injection Hcore as <- _. exact I.
  - apply (Hmz _ _ _ _ Hm).
Qed.

(** *** BFGS, as scipy.optimize runs it
    (inverse-Hessian approximation started at the identity, search direction
    -H g, rank-two update).  The step length and the factor rho of every iteration
    are arbitrary: [steps] is any history of them. *)
Definition bfgs_update (n : nat) (H : mat) (s y : vec) (rho : R) : mat :=
  let A1 : mat := fun i j => ident i j - s i * y j * rho in
  let A2 : mat := fun i j => ident i j - y i * s j * rho in
  fun i j => mdot n A1 (mdot n H A2) i j + rho * s i * s j.

Fixpoint bfgs (f : arr -> Res (R * arr)) (x : arr) (g : arr) (H : mat) (steps : list (R * R)) : Res arr :=
  match steps with
  | [] => Ok x
  | (alpha, rho) :: rest =>
      let n := alen x in
      let p := fun i => - mvec n H (aget g) i in
      let x' := mkArr n (fun i => aget x i + alpha * p i) in
      do Fg <- f x';
      let s := fun i => alpha * p i in
      let y := fun i => aget (snd Fg) i - aget g i in
      bfgs f x' (snd Fg) (bfgs_update n H s y rho) rest
  end.

(** The same algorithm as a minimizer. *)
Definition bfgs_minimizer (steps : list (R * R)) : minimizer :=
  fun f _ x0 =>
    do Fg0 <- f x0;
    do x <- bfgs f x0 (snd Fg0) ident steps;
    do Fg <- f x;
    Ok (mkMin x (fst Fg)).

Lemma bfgs_row n H s y rho c :
  (c < n)%nat -> s c = 0 -> y c = 0 ->
  (forall j, (j < n)%nat -> H c j = ident c j) ->
  forall j, (j < n)%nat -> bfgs_update n H s y rho c j = ident c j.
Proof.
  intros Hc Hs Hy HH j Hj. unfold bfgs_update, mdot.
  rewrite (sumn_ext n _ (fun k => if (k =? c)%nat then sumn n (fun k0 => H k k0 * (ident k0 j - y k0 * s j * rho)) else 0)).
  2: { intros k _. rewrite Hs. unfold ident at 1. rewrite (Nat.eqb_sym c k). destruct (k =? c)%nat; ring. }
  rewrite (sumn_single n c (fun k => sumn n (fun k0 => H k k0 * (ident k0 j - y k0 * s j * rho))) Hc).
  rewrite (sumn_ext n _ (fun k0 => if (k0 =? c)%nat then ident k0 j - y k0 * s j * rho else 0)).
  2: { intros k Hk. rewrite HH by exact Hk. unfold ident at 1. rewrite (Nat.eqb_sym c k). destruct (k =? c)%nat; ring. }
  rewrite (sumn_single n c (fun k0 => ident k0 j - y k0 * s j * rho) Hc). rewrite Hs, Hy. ring.
Qed.

Theorem C50_bfgs_keeps_constrained e x0 F0 g0 steps x l j :
  core_ok (e_core e) -> est_check_length (e_core e) x0 = Ok tt ->
  neg_ll_and_neg_gradient e x0 = Ok (F0, g0) ->
  bfgs (neg_ll_and_neg_gradient e) x0 g0 ident steps = Ok x ->
  e_constrained e = Some l -> (j < alen x0)%nat -> constrained (alen x0) l j ->
  aget x j = aget x0 j.
Proof.
  intros Hc Hx0 Hg0 Hb El Hj Hcon.
  assert (G : forall steps y g H,
    alen y = alen x0 -> aget y j = aget x0 j -> aget g j = 0 ->
    (forall b, (b < alen x0)%nat -> H j b = ident j b) ->
    bfgs (neg_ll_and_neg_gradient e) y g H steps = Ok x -> aget x j = aget x0 j).
  2: { apply (G steps x0 g0 ident); auto. apply (masked_gradient e x0 F0 g0 l j); assumption. }
  clear Hb steps. intros steps. induction steps as [|[alpha rho] rest IH]; intros y g H Ly Ey Eg HH Hb.
  - injection Hb as <-. exact Ey.
  - cbn [bfgs] in Hb. rewrite Ly in Hb. apply bind_ok in Hb. destruct Hb as ([F g'] & Hf & Hb). cbn [snd] in Hb.
    assert (Hp : mvec (alen x0) H (aget g) j = 0).
    { unfold mvec. rewrite (sumn_ext _ _ (fun b => if (b =? j)%nat then aget g b else 0)).
      - rewrite (sumn_single (alen x0) j (aget g) Hj). exact Eg.
      - intros b Hb'. rewrite HH by exact Hb'. unfold ident. rewrite (Nat.eqb_sym j b). destruct (b =? j)%nat; ring. }
    assert (Eg' : aget g' j = 0).
    { eapply (masked_gradient e _ F g' l j Hc _ Hf El); [exact Hj|exact Hcon]. Unshelve.
      rewrite (check_length_ext _ _ x0) by reflexivity. exact Hx0. }
    apply IH in Hb; [exact Hb| | | |].
    + reflexivity.
    + cbn [aget]. rewrite Hp, Ey. ring.
    + exact Eg'.
    + apply bfgs_row; [exact Hj| | |exact HH].
      * cbv beta. rewrite Hp. ring.
      * cbv beta. rewrite Eg', Eg. ring.
Qed.

(** *** Newton steps (methods that use the Hessian callable) *)

(** [p] solves the Newton equations H p = -g with the quantities the code hands to
    the optimizer. *)
Definition newton_step (n : nat) (H : mat) (g p : vec) : Prop :=
  forall a, (a < n)%nat -> sumn n (fun b => H a b * p b) = - g a.

(** Nested and mixed models decouple the constrained positions in the Hessian, so
    Newton steps leave them alone. *)
Theorem C50_newton_nested_mixed e x F g H p l j :
  (match e_core e with CoreLogit _ _ => False | _ => True end) ->
  est_check_length (e_core e) x = Ok tt ->
  neg_ll_and_neg_gradient e x = Ok (F, g) -> calc_neg_hessian e x = Ok H ->
  newton_step (alen x) (sqe H) (aget g) p ->
  e_constrained e = Some l -> (j < alen x)%nat -> constrained (alen x) l j ->
  p j = 0.
Proof.
  intros Hcore Hx Hg HH Hn El Hj Hcon.
  assert (Hok : core_ok (e_core e)) by (unfold core_ok; destruct (e_core e); [contradiction|exact I|exact I]).
  assert (Eg := masked_gradient e x F g l j Hok Hx Hg El Hj Hcon).
  assert (Hrow : forall b, sqe H j b = if (b =? j)%nat then 1 else 0).
  { unfold calc_neg_hessian in HH. apply bind_ok in HH. destruct HH as (h & Hh & HH). injection HH as <-.
    unfold neg_sq. cbn [sqe]. unfold est_hess in Hh. rewrite El in Hh. cbn [resolve_constrained] in Hh.
    destruct (e_core e) as [k D|E|E]; [contradiction| |]; cbn [est_check_length] in Hx.
    - apply bind_ok in Hh. destruct Hh as (lo & Hl & Hh). apply bind_ok in Hl. destruct Hl as (lp & Hl & El').
      injection El' as <-. injection Hh as <-. unfold nested_check_length in Hx.
      destruct (Nat.eqb_spec (alen x) (d_K (n_D E) + n_Q E)) as [Ex|]; [|discriminate].
      rewrite Nat.add_comm in Ex. rewrite <- Ex in Hl.
      destruct (C44_constrained_positions_decoupled E lp x) as (_ & Hd & _).
      intros b. rewrite Hd by (left; apply (In_resolved _ _ _ _ Hl Hj Hcon)).
      rewrite (Nat.eqb_sym j b). destruct (b =? j)%nat; ring.
    - apply bind_ok in Hh. destruct Hh as (lo & Hl & Hh). apply bind_ok in Hl. destruct Hl as (lp & Hl & El').
      injection El' as <-. injection Hh as <-. unfold mixed_check_length in Hx.
      destruct (Nat.eqb_spec (alen x) (x_vars E)) as [Ex|]; [|discriminate].
      rewrite <- Ex in Hl.
      destruct (C44_mixed_constrained_positions_decoupled E lp x) as (_ & Hd & _).
      intros b. rewrite Hd by (left; apply (In_resolved _ _ _ _ Hl Hj Hcon)).
      rewrite (Nat.eqb_sym j b). destruct (b =? j)%nat; ring. }
  specialize (Hn j Hj). rewrite Eg in Hn.
  rewrite (sumn_ext _ _ (fun b => if (b =? j)%nat then p b else 0)) in Hn.
  - rewrite (sumn_single (alen x) j p Hj) in Hn. lra.
  - intros b _. rewrite Hrow. destruct (b =? j)%nat; ring.
Qed.

(** The logit-type estimators mask the gradient but not the Hessian: a Newton step
    moves a constrained parameter.  One observation, two rows, two coefficients, the
    first of them constrained at 0, ridge 1/2. *)
Definition both_ones : mat := fun i _ => match i with O => 1 | _ => 0 end.
Definition newton_model : model_obj := mkModel (ClassLogit KMNL) (two_rows [1; 0]%Z) 2 both_ones.
Definition newton_args : fit_args :=
  mkFitArgs (Some (zeros 2)) None None None (RidgeNumber (/ 2)) (Some [0%Z]) false WNone.

Theorem C50_refuted_newton_logit :
  exists e g H p F,
    fit_estimator newton_model 0 (fun _ _ _ => 0) newton_args = Ok (e, zeros 2) /\
    e_constrained e = Some [0%Z] /\
    neg_ll_and_neg_gradient e (zeros 2) = Ok (F, g) /\ calc_neg_hessian e (zeros 2) = Ok H /\
    newton_step 2 (sqe H) (aget g) p /\
    (forall p', newton_step 2 (sqe H) (aget g) p' -> p' 0%nat = -1/12).
Proof.
  set (D := data_of (two_rows [1; 0]%Z) (two_map [1; 0]%Z) 2 both_ones (Some (fun _ => 1)) (Some (/ 2))).
  set (C := Some (smat_R (multiply_rows (create_sparse_mapping [1; 1]%Z None) [1; 0]%Z))).
  set (e := mkEst (CoreLogit KMNL D) C (Some [0%Z]) (zeros 2)).
  assert (HK : (0 < d_K D)%nat) by (cbn; lia).
  destruct (grad_form KMNL D (zeros 2) HK eq_refl) as (g0 & Eg & Lg & Hg).
  assert (Hmp := two_map_ok [1; 0]%Z).
  assert (Hown := data_obs_indicator (two_rows [1; 0]%Z) None _ 2 both_ones (Some (fun _ => 1)) (Some (/ 2)) Hmp).
  cbv zeta in Hown. fold D in Hown. set (own := own_of (obs_ids (two_rows [1; 0]%Z))) in *.
  destruct (hess_form KMNL D own (zeros 2) HK eq_refl Hown (or_introl eq_refl)) as (h & Eh & Lh & Hh).
  assert (EDH : forall i b, (i < 2)%nat -> DH KMNL D (zeros 2) i b = both_ones i b).
  { intros i b Hi. unfold DH. cbn [num_shapes num_icpts kind_iref model_of]. unfold hcat, vcat.
    cbn [Nat.ltb Nat.leb]. rewrite !Nat.sub_0_r. unfold dh_db. cbn [MNL_model m_dh_dv].
    rewrite diag_dot by exact Hi. cbn [d_X D data_of]. unfold both_ones. destruct i; ring. }
  assert (EP : forall i, (i < 2)%nat -> probs_at KMNL D (zeros 2) i = / 2).
  { intros i Hi. unfold probs_at, D.
    rewrite (probs_closed _ _ _ _ _ _ _ _ Hmp) by exact Hi.
    assert (LE : forall r, long_exponentials (model_of KMNL) D (sh KMNL 2 (zeros 2)) (ic KMNL 2 (zeros 2)) (be KMNL 2 2 (zeros 2)) r = 1).
    { intros r. change (exp (clip_exponent (sumn 2 (fun b => both_ones r b * 0))) = 1). cbn [sumn].
      replace (0 + both_ones r 0%nat * 0 + both_ones r 1%nat * 0) with 0 by ring.
      rewrite clip_in by (unfold strictly_unclipped, min_exponent_val, max_exponent_val; lra). apply exp_0. }
    fold D. change (d_J D) with 2%nat. change (d_K D) with 2%nat. rewrite LE.
    unfold id_sum. cbn [length two_rows obs_ids sumn nth]. destruct i as [|[|]]; [| |lia]; cbn [nth Z.eqb Pos.eqb];
      rewrite !LE; field. }
  assert (Hga : forall j, (j < 2)%nat -> aget g0 j = / 2).
  { intros j Hj. rewrite Hg by exact Hj.
    fold (probs_at KMNL D (zeros 2)). change (d_N D) with 2%nat. cbn [sumn]. rewrite !EDH, !EP by lia.
    change (d_y D 0%nat) with 1. change (d_y D 1%nat) with 0. change (ridge_or_0 D) with (/ 2).
    cbn [eff_weights d_w D data_of zeros aget both_ones]. lra. }
  assert (Hha : forall a b, (a < 2)%nat -> (b < 2)%nat -> sqe h a b = - / 4 - ident a b).
  { intros a b Ha Hb. rewrite Hh by assumption. unfold Qf. change (d_N D) with 2%nat.
    unfold osum. cbn [sumn]. rewrite !EDH, !EP by lia. change (ridge_or_0 D) with (/ 2).
    cbn [eff_weights d_w D data_of both_ones]. change (own 0%nat) with 0%nat. change (own 1%nat) with 0%nat.
    cbn [Nat.eqb]. lra. }
  exists e, (zero_at [0%nat] (mkArr (alen g0) (fun i => -1 * aget g0 i))), (neg_sq h),
    (fun i => match i with O => -1/12 | _ => 5/12 end), (-1 * est_ll (CoreLogit KMNL D) (zeros 2)).
  split; [reflexivity|]. split; [reflexivity|].
  split. { unfold neg_ll_and_neg_gradient, e. cbn [e_core e_constrained est_grad]. rewrite Eg. cbn [bind].
           unfold resolve_positions. cbn [mapM alen]. rewrite Lg. reflexivity. }
  split. { unfold calc_neg_hessian, e, est_hess. cbn [e_core]. rewrite Eh. reflexivity. }
  assert (Hrow : forall q a, (a < 2)%nat -> sumn 2 (fun b => sqe (neg_sq h) a b * q b) = (/ 4 + ident a 0%nat) * q 0%nat + (/ 4 + ident a 1%nat) * q 1%nat).
  { intros q a Ha. cbn [sumn neg_sq sqe]. rewrite !Hha by lia. ring. }
  assert (G0 : aget (zero_at [0%nat] (mkArr (alen g0) (fun i => -1 * aget g0 i))) 0%nat = 0) by reflexivity.
  assert (G1 : aget (zero_at [0%nat] (mkArr (alen g0) (fun i => -1 * aget g0 i))) 1%nat = - / 2).
  { cbn [zero_at aget existsb Nat.eqb orb]. rewrite Hga by lia. ring. }
  split.
  - intros a Ha. rewrite Hrow by exact Ha. destruct a as [|[|]]; [rewrite G0|rewrite G1|lia]; cbn [ident Nat.eqb]; unfold ident; cbn [Nat.eqb]; lra.
  - intros p' Hp. pose proof (Hp 0%nat ltac:(lia)) as P0. pose proof (Hp 1%nat ltac:(lia)) as P1.
    rewrite Hrow in P0, P1 by lia. rewrite G0 in P0. rewrite G1 in P1. unfold ident in P0, P1. cbn [Nat.eqb] in P0, P1. lra.
Qed.

(** ** C52: rho-squared and adjusted rho-squared *)
Theorem C52_rho_squared LL LL0 k rho rho_bar :
  LL0 < 0 -> LL <= 0 ->
  calc_rho_and_rho_bar_squared LL LL0 k = (rho, rho_bar) ->
  rho <= 1 /\ (LL0 <= LL <-> 0 <= rho) /\
  rho_bar = rho - INR k / Rabs LL0 /\ rho_bar <= rho.
Proof.
  intros H0 H E. unfold calc_rho_and_rho_bar_squared in E. injection E as <- <-.
  assert (Hi : / LL0 < 0) by (apply Rinv_lt_0_compat; exact H0).
  rewrite (Rabs_left LL0) by exact H0.
  assert (Hk := pos_INR k).
  assert (E1 : 1 - (LL - INR k) / LL0 = 1 - LL / LL0 - INR k / - LL0) by (field; lra).
  assert (Q : 0 <= INR k / - LL0).
  { apply Rmult_le_pos; [exact Hk|]. left. apply Rinv_0_lt_compat. lra. }
  repeat split.
  - assert (0 <= LL / LL0); [|lra]. unfold Rdiv. rewrite <- (Rmult_opp_opp LL (/ LL0)).
    apply Rmult_le_pos; lra.
  - intros HL. assert (LL / LL0 <= 1); [|lra]. apply (Rmult_le_reg_r (- LL0)); [lra|].
    replace (LL / LL0 * - LL0) with (- LL) by (field; lra). lra.
  - intros HL. apply (Rmult_le_reg_r (/ - LL0)); [apply Rinv_0_lt_compat; lra|].
    assert (LL / LL0 <= 1) by lra. replace (LL0 * / - LL0) with (-1) by (field; lra).
    replace (LL * / - LL0) with (- (LL / LL0)) by (field; lra). lra.
  - exact E1.
  - rewrite E1. lra.
Qed.

Example exr_rho : calc_rho_and_rho_bar_squared (-50) (-100) 10 = (1 / 2, 2 / 5).
Proof. unfold calc_rho_and_rho_bar_squared. cbn [INR]. f_equal; field. Qed.

(** ** C53: weights *)

Definition with_weights (fa : fit_args) (w : weights_arg) : fit_args :=
  mkFitArgs (fa_init_vals fa) (fa_init_shapes fa) (fa_init_intercepts fa) (fa_init_coefs fa)
    (fa_ridge fa) (fa_constrained fa) (fa_just_point fa) w.

(** What the claim asks for: an estimation object built with weights maximises the
    weighted log-likelihood.  This is true of create_estimation_obj ... *)
Theorem C53_estimation_object_uses_weights m nd rvs init ridge con w e k x cols ch long :
  mo_class m = ClassLogit k -> kind_ok k (length (np_unique (alt_ids (mo_cols m)))) -> (0 < mo_K m)%nat ->
  create_estimation_obj m nd rvs init ridge con (WArray w) = Ok e ->
  est_check_length (e_core e) x = Ok tt ->
  est_probs e x = Ok (cols, ch, long) ->
  est_ll (e_core e) x =
    sumn (length (obs_ids (mo_cols m))) (fun i => aget w i * choice_vec (mo_cols m) i * ln (long i 0%nat))
    - match ridge with RidgeNumber r => r * asumsq x | _ => 0 end.
Proof.
  intros Ek Hk HK He Hx Hp. unfold create_estimation_obj in He.
  apply bind_ok in He. destruct He as ([c C] & Hcc & He). apply bind_ok in He. destruct He as ([] & _ & He).
  injection He as <-. cbn [fst snd e_core e_chosen] in *. unfold estimator_core in Hcc. rewrite Ek in Hcc.
  apply bind_ok in Hcc. destruct Hcc as (mp & Hmp & Hcc). injection Hcc as <- <-.
  cbn [default_weights] in *.
  set (D := data_of (mo_cols m) mp (mo_K m) (mo_X m) (Some (aget w)) (ridge_value ridge)) in *.
  cbn [est_check_length] in Hx. unfold check_length_of_initial_values in Hx.
  destruct (Nat.eqb_spec (alen x) (assumed_param_dimensions k (d_J D) (d_K D))) as [El|]; [|discriminate].
  assert (Hk' : kind_ok k (d_J D)) by (unfold D; rewrite (data_J _ _ _ _ _ _ _ Hmp); exact Hk).
  rewrite dims_eq in El by exact Hk'. cbn [est_ll]. rewrite est_ll_eq by assumption.
  assert (EL : forall i, long i 0%nat = est_long_probs k D x i).
  { unfold est_probs in Hp. cbn [e_core e_chosen] in Hp. destruct (chosen_row_to_obs mp); [|discriminate].
    cbn [option_map] in Hp. injection Hp as _ _ <-. reflexivity. }
  f_equal.
  - apply sumn_ext. intros i _. rewrite EL. unfold est_long_probs. rewrite split_eq by assumption.
    cbn [D data_of d_w d_y eff_weights]. ring.
  - unfold ridge_or_0, D. cbn [data_of d_ridge]. destruct ridge; cbn [ridge_value]; ring.
Qed.

(** ... but no fit_mle passes the weights it is given on: for every model, every
    optimizer and every weights argument (of whatever type), the call does exactly
    what it does without weights. *)
Theorem C53_refuted_fit_mle_ignores_weights mz nm names mixing m nd rvs fa w :
  fit_mle mz nm names mixing m nd rvs (with_weights fa w) = fit_mle mz nm names mixing m nd rvs fa /\
  (forall e init, fit_estimator m nd rvs (with_weights fa w) = Ok (e, init) ->
     d_w (core_data (e_core e)) = Some (fun _ => 1)).
Proof.
  split; [reflexivity|]. intros e init H. apply fit_estimator_inv in H.
  destruct H as (_ & _ & _ & _ & _ & H). unfold estimator_core in H. destruct (mo_class m).
  - apply bind_ok in H. destruct H as (mp & _ & H). injection H as <- _. reflexivity.
  - apply bind_ok in H. destruct H as (mp & _ & H). apply bind_ok in H. destruct H as (rn & _ & H).
    injection H as <- _. reflexivity.
  - apply bind_ok in H. destruct H as (mp & _ & H). apply bind_ok in H. destruct H as (rn & _ & H).
    apply bind_ok in H. destruct H as (dr & _ & H). apply bind_ok in H. destruct H as (E & HE & H).
    injection H as <- _. unfold mixed_data_of in HE. apply bind_ok in HE. destruct HE as (mp' & _ & HE).
    destruct (rows_to_mixers mp'); [|discriminate]. apply bind_ok in HE. destruct HE as (x3 & _ & HE).
    injection HE as <-. reflexivity.
Qed.

(** The difference is observable: with weight 2 on the only observation the weighted
    log-likelihood of the null model is 2 ln(1/2); the optimised one is ln(1/2). *)
Definition weights_model : model_obj := mkModel (ClassLogit KMNL) (two_rows [1; 0]%Z) 1 (col 1 0).
Definition weights_args : fit_args :=
  mkFitArgs (Some (zeros 1)) None None None RidgeNone None false (WArray (mkArr 2 (fun _ => 2))).

Theorem C53_refuted_weights_change_nothing :
  exists e e',
    fit_estimator weights_model 0 (fun _ _ _ => 0) weights_args = Ok (e, zeros 1) /\
    create_estimation_obj weights_model 0 (fun _ _ _ => 0) (zeros 1) RidgeNone None (fa_weights weights_args) = Ok e' /\
    est_ll (e_core e) (zeros 1) = - ln 2 /\ est_ll (e_core e') (zeros 1) = - (2 * ln 2).
Proof.
  set (D := fun w => data_of (two_rows [1; 0]%Z) (two_map [1; 0]%Z) 1 (col 1 0) (Some w) None).
  set (C := Some (smat_R (multiply_rows (create_sparse_mapping [1; 1]%Z None) [1; 0]%Z))).
  exists (mkEst (CoreLogit KMNL (D (fun _ => 1))) C None (zeros 1)), (mkEst (CoreLogit KMNL (D (fun _ => 2))) C None (zeros 1)).
  split; [reflexivity|].
  assert (Hpick : picks_chosen_rows (two_rows [1; 0]%Z) (fun _ => 0%nat)).
  { intros j Hj. cbn in Hj. assert (j = 0)%nat by lia. subst j. repeat split; cbn; lia. }
  assert (HLL : forall w, est_log_likelihood KMNL (D w) (zeros 1) = - (w 0%nat * ln 2)).
  { intros w. pose proof (C37_null_log_likelihood KMNL (two_rows [1; 0]%Z) None (two_map [1; 0]%Z) 1 (col 1 0) (Some w) None (fun _ => 0%nat)
      eq_refl eq_refl ltac:(lia) one_choice_10 Hpick ltac:(repeat split; cbn; lia)) as H.
    cbv zeta in H. change (assumed_param_dimensions KMNL _ 1) with 1%nat in H. unfold D. rewrite H.
    cbn [first_seen two_rows obs_ids]. cbn [length filter zmem existsb Z.eqb Pos.eqb orb negb sumn eff_weights].
    replace (rows_of [1; 1]%Z (nth 0 [1]%Z 0%Z)) with 2%nat by reflexivity. cbn [INR].
    replace (1 + 1) with 2 by ring. ring. }
  split; [|cbn [e_core est_ll]; rewrite !HLL; split; ring].
  unfold create_estimation_obj, weights_model. cbn [estimator_core mo_class mo_cols].
  unfold estimation_checks, weights_args. cbn [fa_weights ensure_ridge_is_scalar_or_none bind].
  change (ensure_contiguity_in_observation_rows (obs_ids (two_rows [1; 0]%Z))) with (@Ok unit tt). cbn [bind].
  unfold ensure_positivity_and_length_of_weights. cbn [alen length two_rows obs_ids Nat.eqb negb seq existsb aget].
  unfold is_negative. destruct (Rlt_dec 2 0); [lra|]. reflexivity.
Qed.

(** ** C71: accepted weights are exactly the non-negative arrays with one entry per
    row of the table *)
Theorem C71_accepted_weights w n :
  ensure_positivity_and_length_of_weights w n = Ok tt <->
  match w with
  | WNone => True
  | WArray a => alen a = n /\ forall i, (i < n)%nat -> 0 <= aget a i
  | WOther => False
  end.
Proof.
  destruct w as [|a|]; cbn [ensure_positivity_and_length_of_weights].
  - split; auto.
  - destruct (Nat.eqb_spec (alen a) n) as [E|E]; cbn [negb]; [|split; [discriminate|intros [? _]; contradiction]].
    destruct (existsb _ _) eqn:X.
    + split; [discriminate|]. intros [_ H]. apply existsb_exists in X. destruct X as (i & Hi & X).
      apply in_seq in Hi. unfold is_negative in X. destruct (Rlt_dec (aget a i) 0) as [Hn|]; [|discriminate].
      specialize (H i ltac:(lia)). lra.
    + split; [|reflexivity]. intros _. split; [exact E|]. intros i Hi.
      destruct (Rlt_dec (aget a i) 0) as [Hn|Hn]; [|lra]. exfalso.
      assert (existsb (fun i => is_negative (aget a i)) (seq 0 (alen a)) = true); [|congruence].
      apply existsb_exists. exists i. split; [apply in_seq; lia|]. unfold is_negative.
      destruct (Rlt_dec (aget a i) 0); [reflexivity|contradiction].
  - split; [discriminate|contradiction].
Qed.
Theorem C71_rejected_weights w n x :
  ensure_positivity_and_length_of_weights w n = Err x -> x = ValueError.
Proof.
  destruct w as [|a|]; cbn [ensure_positivity_and_length_of_weights]; intros H; try congruence.
  destruct (negb _); [congruence|]. destruct (existsb _ _); congruence.
Qed.

(** ** C54: evaluations do not depend on earlier ones *)

Lemma with_data_ident d : with_data ident d = diagm d.
Proof.
  apply functional_extensionality. intros i. apply functional_extensionality. intros j.
  unfold with_data, ident, diagm. destruct (i =? j)%nat; ring.
Qed.

(** What every reachable buffer state keeps: the sparsity patterns, and for the MNL
    the constant identity. *)
Definition buffers_ok (k : logit_kind) (A : mat) (s : buffers) : Prop :=
  csr_pattern (bf_dv s) = ident /\ csr_pattern (bf_shape s) = A /\
  match k with KMNL => csr_values (bf_dv s) = fun _ => 1 | _ => True end.

Lemma initial_ok k A : buffers_ok k A (initial_buffers A).
Proof. repeat split. destruct k; reflexivity || exact I. Qed.

Lemma call_shape_ok k J A v sh s : buffers_ok k A s -> buffers_ok k A (call_dh_d_shape k J A v sh s).
Proof. intros (H1 & H2 & H3). destruct k; repeat split; assumption. Qed.
Lemma call_dv_ok k J A v sh s : buffers_ok k A s -> buffers_ok k A (call_dh_dv k J A v sh s).
Proof. intros (H1 & H2 & H3). destruct k; repeat split; assumption. Qed.

Lemma evaluate_spec {T} (calc : LModel -> Data -> option arr -> option arr -> arr -> T) k D s x :
  (forall m m' shape icpt beta,
     m_transform m = m_transform m' -> m_dh_da m = m_dh_da m' ->
     m_dh_dc m (d_J D) (d_A D) (sys_utilities D beta) shape = m_dh_dc m' (d_J D) (d_A D) (sys_utilities D beta) shape ->
     m_dh_dv m (d_J D) (d_A D) (sys_utilities D beta) shape = m_dh_dv m' (d_J D) (d_A D) (sys_utilities D beta) shape ->
     calc m D shape icpt beta = calc m' D shape icpt beta) ->
  buffers_ok k (d_A D) s ->
  fst (evaluate calc k D s x) =
    (let '(shape, icpt, beta) := split_param_vec k (d_J D) (d_K D) x in calc (model_of k) D shape icpt beta) /\
  buffers_ok k (d_A D) (snd (evaluate calc k D s x)).
Proof.
  intros Hcalc Hs. unfold evaluate. destruct (split_param_vec k (d_J D) (d_K D) x) as [[shape icpt] beta].
  cbn [fst snd]. split; [|apply call_dv_ok, call_shape_ok, Hs].
  apply Hcalc; cbn [m_transform m_dh_da m_dh_dc m_dh_dv]; try reflexivity.
  - destruct Hs as (_ & H2 & _).
    destruct k; cbn [returned_dh_d_shape call_dh_dv call_dh_d_shape bf_shape bf_dh_d_eta model_of MNL_model Clog_model
      Scobit_model Uneven_model Asym_model m_dh_dc]; try reflexivity; unfold csr_read, csr_assign; cbn [csr_pattern csr_values];
      rewrite H2; reflexivity.
  - destruct Hs as (H1 & _ & H3). unfold csr_read.
    destruct k; cbn [call_dh_dv call_dh_d_shape bf_dv csr_assign csr_pattern csr_values model_of MNL_model Clog_model
      Scobit_model Uneven_model Asym_model m_dh_dv]; rewrite H1, ?H3, with_data_ident; reflexivity.
Qed.

Lemma query_calc_ext q D m m' shape icpt beta :
  m_transform m = m_transform m' -> m_dh_da m = m_dh_da m' ->
  m_dh_dc m (d_J D) (d_A D) (sys_utilities D beta) shape = m_dh_dc m' (d_J D) (d_A D) (sys_utilities D beta) shape ->
  m_dh_dv m (d_J D) (d_A D) (sys_utilities D beta) shape = m_dh_dv m' (d_J D) (d_A D) (sys_utilities D beta) shape ->
  query_calc q m D shape icpt beta = query_calc q m' D shape icpt beta.
Proof.
  intros E1 E2 E3 E4.
  assert (EP : long_probs m D shape icpt beta = long_probs m' D shape icpt beta)
    by (unfold long_probs, long_exponentials; rewrite E1; reflexivity).
  assert (EB : dh_db m D shape beta = dh_db m' D shape beta) by (unfold dh_db; rewrite E4; reflexivity).
  destruct q; cbn [query_calc]; unfold calc_gradient, calc_hessian, calc_fisher_info_matrix; cbv zeta;
    rewrite EP, EB, E2, E3; reflexivity.
Qed.

(** Whatever was evaluated before, at whatever parameters, the gradient, the Hessian
    and the outer-product matrix at [x] are those of the stateless definitions. *)
Theorem C54_history_independence k D (history : list (query * arr)) x :
  let s := run_queries k D (initial_buffers (d_A D)) history in
  fst (evaluate (query_calc QGradient) k D s x) = (do g <- est_gradient k D x; Ok (inl g)) /\
  fst (evaluate (query_calc QHessian) k D s x) = (do h <- est_hessian k D x; Ok (inr h)) /\
  fst (evaluate (query_calc QFisher) k D s x) = (do h <- est_fisher k D x; Ok (inr h)).
Proof.
  intros s.
  assert (G : forall h s0, buffers_ok k (d_A D) s0 -> buffers_ok k (d_A D) (run_queries k D s0 h)).
  { induction h as [|[q y] r IH]; intros s0 H0; cbn [run_queries]; [exact H0|]. apply IH.
    apply evaluate_spec; [|exact H0]. intros. apply query_calc_ext; assumption. }
  assert (Hs : buffers_ok k (d_A D) s) by (apply G, initial_ok). clearbody s. clear G.
  assert (Q : forall q, fst (evaluate (query_calc q) k D s x) =
     (let '(shape, icpt, beta) := split_param_vec k (d_J D) (d_K D) x in query_calc q (model_of k) D shape icpt beta)).
  { intros q. apply evaluate_spec; [|exact Hs]. intros. apply query_calc_ext; assumption. }
  rewrite !Q. unfold est_gradient, est_hessian, est_fisher.
  destruct (split_param_vec k (d_J D) (d_K D) x) as [[shape icpt] beta]. auto.
Qed.

(** Same answers after any two histories. *)
Theorem C54_same_answer_after_any_history k D h h' q x :
  fst (evaluate (query_calc q) k D (run_queries k D (initial_buffers (d_A D)) h) x) =
  fst (evaluate (query_calc q) k D (run_queries k D (initial_buffers (d_A D)) h') x).
Proof.
  destruct (C54_history_independence k D h x) as (A & B & C).
  destruct (C54_history_independence k D h' x) as (A' & B' & C'). destruct q; congruence.
Qed.

(** C54 is about non-trivial histories: the buffers do change. *)
Example ex_buffers_change :
  let D := data_of (two_rows [1; 0]%Z) (two_map [1; 0]%Z) 1 (col 1 0) None None in
  csr_values (bf_shape (run_queries (KUneven None) D (initial_buffers (d_A D)) [(QGradient, zeros 3)])) <>
  csr_values (bf_shape (initial_buffers (d_A D))).
Proof.
  intros D E. apply (f_equal (fun f => f 0%nat)) in E.
  change (uneven_deriv_shape 2 (d_A D) (sys_utilities D (aslice 2 1 (zeros 3))) (Some (aslice 0 2 (zeros 3))) 0%nat = 1) in E.
  unfold uneven_deriv_shape in E.
  replace (sys_utilities D (aslice 2 1 (zeros 3)) 0%nat) with 0 in E
    by (change (0 = 0 + 1 * 0); ring).
  unfold Rdiv in E. rewrite !Rmult_0_l in E. lra.
Qed.

(** ** C05: estimation never sees a split observation.  [contiguous]: the rows of each
    observation form one block. *)
Theorem C05_estimation_sees_whole_observations mz nm names mixing m num_draws rvs fa :
  (forall init ridge constrained w e, create_estimation_obj m num_draws rvs init ridge constrained w = Ok e ->
     contiguous (obs_ids (mo_cols m))) /\
  (forall r, fit_mle mz nm names mixing m num_draws rvs fa = Ok r -> contiguous (obs_ids (mo_cols m))).
Proof.
  assert (A : forall init ridge constrained w e, create_estimation_obj m num_draws rvs init ridge constrained w = Ok e ->
     contiguous (obs_ids (mo_cols m))).
  { intros init ridge constrained w e H. unfold create_estimation_obj in H. apply bind_ok in H. destruct H as (cc & _ & H).
    apply bind_ok in H. destruct H as ([] & H & _). unfold estimation_checks in H. apply bind_ok in H. destruct H as ([] & _ & H).
    apply bind_ok in H. destruct H as ([] & H & _). apply C05_accepts_only_contiguous. exact H. }
  split; [exact A|]. intros r H. unfold fit_mle in H. apply bind_ok in H. destruct H as (ei & H & _).
  unfold fit_estimator in H. apply bind_ok in H. destruct H as (init & _ & H). apply bind_ok in H. destruct H as (e & H & _).
  exact (A _ _ _ _ _ H).
Qed.

Print Assumptions C05_estimation_sees_whole_observations.
Print Assumptions C50_constrained_parameters_do_not_move.
Print Assumptions C50_fit_mle_keeps_constrained.
Print Assumptions C50_bfgs_keeps_constrained.
Print Assumptions C50_newton_nested_mixed.
Print Assumptions C50_refuted_newton_logit.
Print Assumptions C52_rho_squared.
Print Assumptions C53_estimation_object_uses_weights.
Print Assumptions C53_refuted_fit_mle_ignores_weights.
Print Assumptions C53_refuted_weights_change_nothing.
Print Assumptions C71_accepted_weights.
Print Assumptions C71_rejected_weights.
Print Assumptions C54_history_independence.
Print Assumptions C54_same_answer_after_any_history.
