(** C84: the stored inference tables.  C85: what the optimizer is asked to minimise. *)
From Coq Require Import String ZArith List Reals Lra Lia Arith.
From Coquelicot Require Import Coquelicot.
From Verif Require Import Res Vec Arr SpecLogit ChoiceCalcs ChoiceFacts Transforms Ids Mappings
  MappingFacts LongData LogitFacts ProbFacts PropMappings PropProbs Frame ChoiceTools BaseModel
  PropBaseModel NestedCalcs RowDeriv HessFacts PropGradient PropGradientLimits PropHessian PropNested
  MixedCalcs PropMixed PropLikelihood Estimation PropEstimation.
Import ListNotations.
Open Scope R_scope.

(** ** C84 *)

(** What is assumed of scipy.linalg.inv and scipy.stats.norm.sf: an inverse that is
    returned is one, and the normal distribution is symmetric. *)
Record sound_numerics (nm : numerics) : Prop := mkSound {
  sn_inv : forall h g, n_inv nm h = Ok g -> sqn g = sqn h /\ is_inverse (sqn h) (sqe h) (sqe g);
  sn_sym : forall x, n_sf nm (- x) = 1 - n_sf nm x;
  sn_mono : forall x y, x <= y -> n_sf nm y <= n_sf nm x;
  sn_pos : forall x, 0 <= n_sf nm x
}.

(** Row [j] of a table of estimates and its three inference columns, for a parameter
    called [name] with estimate [theta] and estimated variance [v]: the standard
    error is the square root of the variance, the t-statistic their ratio, and the
    p-value the probability that a standard normal is further from zero. *)
Definition inference_row (sf : R -> R) (ses ts ps : series fcell) (j : nat) (name : string) (theta v : R) : Prop :=
  (0 < v ->
     nth_error ses j = Some (name, Fin (sqrt v)) /\
     nth_error ts j = Some (name, Fin (theta / sqrt v)) /\
     exists p, nth_error ps j = Some (name, Fin p) /\ 0 <= p <= 1 /\
       p = sf (Rabs (theta / sqrt v)) + (1 - sf (- Rabs (theta / sqrt v)))) /\
  (v < 0 -> nth_error ses j = Some (name, NaN) /\ nth_error ts j = Some (name, NaN) /\
            nth_error ps j = Some (name, NaN)).

Lemma nth_error_combine {A B} (l : list A) (r : list B) j :
  nth_error (combine l r) j =
  match nth_error l j, nth_error r j with Some a, Some b => Some (a, b) | _, _ => None end.
Proof.
  revert r j. induction l as [|a l IH]; intros [|b r] [|j]; cbn; auto.
  - destruct (nth_error l j); reflexivity.
Qed.

Lemma table_rows nm names vals cov ses ps :
  sound_numerics nm -> length names = length vals ->
  mk_series names (map fsqrt (diag_list cov)) = Ok ses ->
  let ts := map (fun q : R * (string * fcell) => (fst (snd q), fdiv (fst q) (snd (snd q)))) (combine vals ses) in
  mk_series names (map (fun kv => p_value nm (snd kv)) ts) = Ok ps ->
  forall j name theta, nth_error (combine names vals) j = Some (name, theta) ->
    (j < sqn cov)%nat /\ inference_row (n_sf nm) ses ts ps j name theta (sqe cov j j).
Proof.
  intros HS L H1 ts H2 j name theta Hj.
  apply mk_series_ok in H1. destruct H1 as [L1 E1]. apply mk_series_ok in H2. destruct H2 as [L2 E2].
  rewrite nth_error_combine in Hj.
  destruct (nth_error names j) as [nm'|] eqn:En; [|discriminate].
  destruct (nth_error vals j) as [th'|] eqn:Ev; [|discriminate]. injection Hj as -> ->.
  assert (Hlt : (j < length names)%nat) by (apply nth_error_Some; congruence).
  unfold diag_list in L1. rewrite !map_length, seq_length in L1.
  assert (Hd : nth_error (map fsqrt (diag_list cov)) j = Some (fsqrt (sqe cov j j))).
  { unfold diag_list. rewrite map_map, nth_error_map.
    rewrite (nth_error_nth' _ 0%nat) by (rewrite seq_length; lia). rewrite seq_nth by lia. reflexivity. }
  assert (Hs : nth_error ses j = Some (name, fsqrt (sqe cov j j))) by (rewrite E1, nth_error_combine, En, Hd; reflexivity).
  assert (Ht : nth_error ts j = Some (name, fdiv theta (fsqrt (sqe cov j j)))).
  { unfold ts. rewrite nth_error_map, nth_error_combine, Ev, Hs. reflexivity. }
  assert (Hp : nth_error ps j = Some (name, p_value nm (fdiv theta (fsqrt (sqe cov j j))))).
  { rewrite E2, nth_error_combine, En, nth_error_map, Ht. reflexivity. }
  split; [lia|]. split; intros Hv.
  - assert (E : fsqrt (sqe cov j j) = Fin (sqrt (sqe cov j j))) by (unfold fsqrt; destruct (Rle_dec _ _); [reflexivity|lra]).
    pose proof (sqrt_lt_R0 _ Hv) as Hsq. rewrite E in *.
    assert (Ed : fdiv theta (Fin (sqrt (sqe cov j j))) = Fin (theta / sqrt (sqe cov j j))).
    { unfold fdiv. destruct (Req_EM_T _ _); [lra|reflexivity]. }
    rewrite Ed in *. split; [exact Hs|]. split; [exact Ht|]. eexists. split; [exact Hp|].
    set (t := theta / sqrt (sqe cov j j)). pose proof (sn_sym nm HS (Rabs t)) as Es. rewrite Es.
    pose proof (sn_pos nm HS (Rabs t)). pose proof (Rabs_pos t).
    pose proof (sn_mono nm HS 0 (Rabs t) ltac:(lra)). pose proof (sn_sym nm HS 0) as E0. rewrite Ropp_0 in E0.
    split; [lra|]. ring.
  - assert (E : fsqrt (sqe cov j j) = NaN) by (unfold fsqrt; destruct (Rle_dec _ _); [lra|reflexivity]).
    rewrite E in *. cbn [fdiv p_value] in *. auto.
Qed.

(** For every fit that is stored without constrained parameters (C51 says what
    constraints change): [f_cov] is minus the inverse of the Hessian, the standard
    errors, t-statistics and p-values come from its diagonal, the robust ones from the
    diagonal of the sandwich of [f_cov] around the Fisher information, and row j of
    each table belongs to parameter j and carries its name. *)
Theorem C84_inference_tables nm m mixing r out :
  sound_numerics nm ->
  store_fit_results nm m mixing r = Ok out -> r_constrained_pos r = None ->
  let n := length (f_params out) in
  let i := f_inference out in
  let V := sqe (f_cov out) in
  sqn (r_hessian r) = n /\ sqn (f_cov out) = n /\
  (forall a b, (a < n)%nat -> (b < n)%nat ->
     sumn n (fun k => sqe (r_hessian r) a k * V k b) = if (a =? b)%nat then -1 else 0) /\
  forall j name theta, nth_error (f_params out) j = Some (name, theta) ->
    inference_row (n_sf nm) (i_standard_errors i) (i_tvalues i) (i_pvalues i) j name theta (V j j) /\
    inference_row (n_sf nm) (i_robust_std_errs i) (i_robust_t_stats i) (i_robust_p_vals i) j name theta
      (sumn n (fun k => V j k * sumn n (fun l => sqe (r_fisher r) k l * V l j))).
Proof.
  intros HS H Hc. unfold store_fit_results in H. rewrite Hc in H.
  apply bind_ok in H. destruct H as (b1 & H1 & H).
  apply bind_ok in H. destruct H as (b2 & H2 & H).
  apply bind_ok in H. destruct H as (b3 & H3 & H).
  apply bind_ok in H. destruct H as (coefs & H4 & H).
  apply bind_ok in H. destruct H as (grad & H5 & H).
  apply bind_ok in H. destruct H as (params & H6 & H).
  apply bind_ok in H. destruct H as (inf & H7 & H).
  cbn [adjust_inferential_results bind] in H. injection H as <-.
  cbn [f_params f_inference f_cov]. cbv zeta.
  apply mk_series_ok in H6. destruct H6 as [L6 ->].
  set (names := fst (fst b3)) in *. set (vals := snd (fst b3)) in *. clearbody names vals.
  rewrite combine_length, <- L6, Nat.min_id. set (n := length names) in *.
  unfold generic_inference in H7.
  apply bind_ok in H7. destruct H7 as (h & G1 & H7). unfold mk_square in G1.
  fold n in G1. destruct (Nat.eqb_spec n (sqn (r_hessian r))) as [En|]; [|discriminate]. injection G1 as <-.
  apply bind_ok in H7. destruct H7 as (hinv & G2 & H7).
  destruct (sn_inv nm HS _ _ G2) as (Ei & Hinv).
  apply bind_ok in H7. destruct H7 as (cov & G3 & H7). unfold mk_square in G3. fold n in G3. cbn [neg_sq sqn] in G3.
  destruct (Nat.eqb_spec n (sqn hinv)) as [Eh|]; [|discriminate]. injection G3 as <-.
  apply bind_ok in H7. destruct H7 as (ses & G4 & H7). cbv zeta in H7.
  apply bind_ok in H7. destruct H7 as (pvals & G5 & H7).
  apply bind_ok in H7. destruct H7 as (fi & G6 & H7). unfold mk_square in G6. fold n in G6.
  destruct (Nat.eqb_spec n (sqn (r_fisher r))) as [Ef|]; [|discriminate]. injection G6 as <-.
  apply bind_ok in H7. destruct H7 as (rcov & G7 & H7). unfold mk_square in G7. cbn [sqn] in G7. fold n in G7.
  destruct (Nat.eqb_spec n (sqn (r_hessian r))) as [_|]; [|congruence]. injection G7 as <-.
  apply bind_ok in H7. destruct H7 as (rses & G8 & H7).
  apply bind_ok in H7. destruct H7 as (rp & G9 & H7). injection H7 as <-.
  cbn [fst snd i_standard_errors i_tvalues i_pvalues i_robust_std_errs i_robust_t_stats i_robust_p_vals neg_sq sqn sqe].
  split; [auto|]. split; [auto|]. split.
  - intros a b Ha Hb. rewrite <- En in Hinv. destruct Hinv as [Hi _]. specialize (Hi a b Ha Hb).
    rewrite (sumn_ext n _ (fun k => -1 * (sqe (r_hessian r) a k * sqe hinv k b))) by (intros; ring).
    rewrite sumn_scal_l. unfold mdot in Hi. rewrite Hi. unfold ident. destruct (a =? b)%nat; ring.
  - intros j name theta Hj.
    destruct (table_rows nm names vals _ ses pvals HS L6 G4 G5 j name theta Hj) as (Hjl & R1).
    destruct (table_rows nm names vals _ rses rp HS L6 G8 G9 j name theta Hj) as (_ & R2).
    split; [exact R1|]. cbn [sqe] in R2. rewrite <- En in R2. unfold calc_asymptotic_covariance, mdot in R2.
    replace (sumn n (fun k => -1 * sqe hinv j k * sumn n (fun l => sqe (r_fisher r) k l * (-1 * sqe hinv l j))))
      with (sumn n (fun k => sqe hinv j k * sumn n (fun l => sqe (r_fisher r) k l * sqe hinv l j))); [exact R2|].
    apply sumn_ext. intros k _.
    rewrite (sumn_ext n (fun l => sqe (r_fisher r) k l * (-1 * sqe hinv l j))
      (fun l => -1 * (sqe (r_fisher r) k l * sqe hinv l j))) by (intros; ring). rewrite sumn_scal_l. ring.
Qed.

(** A case: two parameters whose covariance matrix is [[2,-1],[-1,2]]/3. *)
Definition cramer (h : sqmat) : Res sqmat :=
  let det := sqe h 0%nat 0%nat * sqe h 1%nat 1%nat - sqe h 0%nat 1%nat * sqe h 1%nat 0%nat in
  if (sqn h =? 2)%nat
  then if Req_EM_T det 0 then Err ValueError
       else Ok (mkSq 2 (fun i j => match i, j with
            | O, O => sqe h 1%nat 1%nat / det | O, _ => - sqe h 0%nat 1%nat / det
            | _, O => - sqe h 1%nat 0%nat / det | _, _ => sqe h 0%nat 0%nat / det end))
  else Err ValueError.
Definition logistic_numerics : numerics := mkNumerics cramer (fun x => / (1 + exp x)) (fun _ => 0).

Example ex_numerics : sound_numerics logistic_numerics.
Proof.
  constructor; cbn [n_inv n_sf logistic_numerics].
  - intros h g H. unfold cramer in H. destruct (Nat.eqb_spec (sqn h) 2) as [E|]; [|discriminate].
    destruct (Req_EM_T _ 0) as [|Hd]; [discriminate|]. injection H as <-. cbn [sqn sqe]. split; [auto|]. rewrite E.
    split; intros [|[|i]] [|[|j]] Hi Hj; try lia; unfold mdot; cbn [sumn Nat.eqb]; field; exact Hd.
  - intros x. rewrite exp_Ropp. pose proof (exp_pos x). field. split; lra.
  - intros x y [H| ->]; [|lra]. apply exp_increasing in H. pose proof (exp_pos x). pose proof (exp_pos y).
    apply Rinv_le_contravar; lra.
  - intros x. pose proof (exp_pos x). left. apply Rinv_0_lt_compat. lra.
Qed.

Definition two_results : results :=
  mkResults [1; 2] None None None [0; 0] (mkSq 2 (fun i j => if (i =? j)%nat then -2 else -1))
    (mkSq 2 (fun i j => if (i =? j)%nat then 1 else 0)) (-7) [1; 1] None.

Example ex_tables : exists out,
  store_fit_results logistic_numerics (mkModelNames ["x"%string; "y"%string] None None None) None two_results = Ok out /\
  nth_error (f_params out) 1 = Some ("y"%string, 2) /\ 0 < sqe (f_cov out) 1%nat 1%nat.
Proof.
  edestruct C15_storing_succeeds as (out & E); cycle -1.
  - exists out. split; [exact E|].
    destruct (C84_inference_tables _ _ _ _ _ ex_numerics E eq_refl) as (En & _ & Hinv & _).
    apply C15_parameter_table in E. destruct E as (E1 & E2 & _).
    assert (L : length (f_params out) = 2%nat) by (rewrite <- En; reflexivity).
    split.
    + destruct (f_params out) as [|[n1 v1] [|[n2 v2] [|]]]; try discriminate. cbn in E1, E2 |- *. congruence.
    + rewrite L in Hinv. pose proof (Hinv 0%nat 1%nat ltac:(lia) ltac:(lia)) as A.
      pose proof (Hinv 1%nat 1%nat ltac:(lia) ltac:(lia)) as B. cbn in A, B. lra.
  - reflexivity.
  - reflexivity.
  - reflexivity.
  - reflexivity.
  - reflexivity.
  - reflexivity.
  - reflexivity.
  - cbn [n_inv logistic_numerics two_results r_hessian]. unfold cramer. cbn [sqn sqe Nat.eqb].
    destruct (Req_EM_T _ 0) as [C|]; [exfalso; lra|reflexivity].
  - reflexivity.
  - discriminate.
Qed.

(** ** C85 *)

(** The value of the function handed to the optimizer. *)
Definition value (obj : arr -> Res (R * arr)) (x : arr) : R :=
  match obj x with Ok (f, _) => f | Err _ => 0 end.

(** The positions fit_mle holds fixed, among n parameters. *)
Definition held_fixed (m : model_obj) (fa : fit_args) (n j : nat) : Prop :=
  match fit_constrained m (fa_constrained fa) with Some l => constrained n l j | None => False end.

Lemma est_grad_total c x : core_ok c -> est_check_length c x = Ok tt -> exists g, est_grad c x = Ok g.
Proof.
  destruct c as [k D|E|E]; cbn [core_ok est_check_length est_grad]; [|eauto|eauto].
  intros (Hk & HK) Hx. unfold check_length_of_initial_values in Hx.
  destruct (Nat.eqb_spec (alen x) (assumed_param_dimensions k (d_J D) (d_K D))) as [El|]; [|discriminate].
  rewrite dims_eq in El by exact Hk. destruct (grad_form k D x HK El) as (g' & Eg & _). eauto.
Qed.

Lemma resolved_In n l p j : resolve_positions n l = Ok p -> In j p -> constrained n l j.
Proof.
  intros H Hj. apply mapM_ok in H. induction H as [|a b l' p' Hab HF IH]; [destruct Hj|].
  destruct Hj as [->|Hj].
  - destruct (py_pos n a) as [q|] eqn:Ea; [|discriminate]. injection Hab as ->.
    apply py_pos_spec in Ea. destruct Ea as (_ & [->| ->]); [left|right]; left; reflexivity.
  - destruct (IH Hj) as [G|G]; [left|right]; right; exact G.
Qed.

(** fit_mle hands the optimizer, with the starting values, a function whose value is
    minus the estimator's log-likelihood and whose second component is the gradient of
    that value, wherever the estimator's gradient is the derivative of its
    log-likelihood (C25-C29, C43 and C48 say where it is), except that the entries of
    the parameters held fixed are zero. *)
Theorem C85_objective_and_its_gradient m nd rvs fa e init :
  fit_estimator m nd rvs fa = Ok (e, init) -> core_ok (e_core e) ->
  (forall l z, fit_constrained m (fa_constrained fa) = Some l -> In z l ->
     (- Z.of_nat (alen init) <= z < Z.of_nat (alen init))%Z) ->
  exists obj hess,
    (forall mz nm names mixing r, fit_mle mz nm names mixing m nd rvs fa = Ok r ->
       exists best, mz obj (Some hess) init = Ok best /\ mr_x best = final_point r) /\
    forall x, alen x = alen init ->
      exists g, obj x = Ok (- est_ll (e_core e) x, g) /\ alen g = alen x /\
        forall G, est_grad (e_core e) x = Ok G ->
          forall j, (j < alen x)%nat ->
            is_derive (fun t => est_ll (e_core e) (aupd x j t)) (aget x j) (aget G j) ->
            (held_fixed m fa (alen x) j -> aget g j = 0) /\
            (~ held_fixed m fa (alen x) j -> is_derive (fun t => value obj (aupd x j t)) (aget x j) (aget g j)).
Proof.
  intros He Hok Hval. pose proof (fit_estimator_inv _ _ _ _ _ _ He) as (_ & Hlen & Econ & _).
  exists (neg_ll_and_neg_gradient e), (calc_neg_hessian e). split.
  - intros mz nm names mixing r H. apply fit_mle_inv in H. destruct H as (e' & i' & mr & He' & Hm & H).
    rewrite He in He'. injection He' as <- <-. exists mr. split; [exact Hm|].
    destruct r as [mr'|p out]; cbn [final_point]; [destruct H as (_ & ->); reflexivity|].
    destruct H as (_ & Hp & _). apply post_min in Hp. rewrite Hp. reflexivity.
  - assert (Total : forall x, alen x = alen init -> exists G g, est_grad (e_core e) x = Ok G /\
      neg_ll_and_neg_gradient e x = Ok (- est_ll (e_core e) x, g) /\ alen g = alen x /\
      forall j, (j < alen x)%nat ->
        (held_fixed m fa (alen x) j -> aget g j = 0) /\ (~ held_fixed m fa (alen x) j -> aget g j = - aget G j)).
    { intros x Lx. assert (Hx : est_check_length (e_core e) x = Ok tt) by (rewrite (check_length_ext _ x init) by exact Lx; exact Hlen).
      destruct (est_grad_total _ _ Hok Hx) as (G & EG). pose proof (est_grad_length _ _ _ Hok Hx EG) as LG.
      exists G. unfold neg_ll_and_neg_gradient. rewrite EG. cbn [bind]. unfold held_fixed. rewrite <- Econ.
      replace (-1 * est_ll (e_core e) x) with (- est_ll (e_core e) x) by ring.
      destruct (e_constrained e) as [l|] eqn:El.
      - cbn [alen]. rewrite LG.
        assert (Hr : exists p, resolve_positions (alen x) l = Ok p).
        { unfold resolve_positions. symmetry in Econ. rewrite <- Lx in Hval. specialize (fun z => Hval l z Econ).
          clear - Hval. induction l as [|z l IH]; [exists []; reflexivity|].
          destruct IH as (p & Hp); [intros; apply Hval; right; assumption|].
          pose proof (Hval z (or_introl eq_refl)) as Hz. cbn [mapM].
          assert (Hq : exists q, py_pos (alen x) z = Some q).
          { unfold py_pos.
            destruct (Z.leb_spec 0 z), (Z.ltb_spec z (Z.of_nat (alen x))); cbn [andb]; eauto; try lia.
            destruct (Z.leb_spec (- Z.of_nat (alen x)) z), (Z.ltb_spec z 0); cbn [andb]; eauto; lia. }
          destruct Hq as (q & ->). cbn [bind]. rewrite Hp. cbn [bind]. eauto. }
        destruct Hr as (p & Hp). rewrite Hp. cbn [bind]. eexists. split; [reflexivity|]. split; [reflexivity|].
        split; [reflexivity|]. intros j Hj. cbn [zero_at aget]. split; intros Hc.
        + apply (In_resolved _ _ _ _ Hp Hj) in Hc. apply existsb_eqb_In in Hc. rewrite Hc. reflexivity.
        + destruct (existsb (Nat.eqb j) p) eqn:Ee.
          * exfalso. apply Hc. apply (resolved_In _ _ _ _ Hp). apply existsb_eqb_In. exact Ee.
          * ring.
      - eexists. split; [reflexivity|]. split; [reflexivity|]. split; [exact LG|]. intros j Hj. cbn [aget].
        split; [contradiction|]. intros _. ring. }
    intros x Lx. destruct (Total x Lx) as (G & g & EG & Eo & Lg & Hj).
    exists g. split; [exact Eo|]. split; [exact Lg|]. intros G' EG' j Lj Hd. rewrite EG in EG'. injection EG' as <-.
    destruct (Hj j Lj) as (H1 & H2). split; [exact H1|]. intros Hc. rewrite (H2 Hc).
    apply is_derive_ext with (f := fun t => - est_ll (e_core e) (aupd x j t)).
    { intros t. unfold value. destruct (Total (aupd x j t)) as (? & ? & _ & E & _); [exact Lx|]. rewrite E. reflexivity. }
    apply (is_derive_opp (K := R_AbsRing) (V := R_NormedModule)). exact Hd.
Qed.

(** For the conditional logit, in full.  [u] are the systematic utilities; the value is
    minus the penalised log-likelihood of the observed choices. *)
Definition mnl_utility (K : nat) (X : mat) (x : arr) (i : nat) : R := sumn K (fun k => X i k * aget x k).
Definition mnl_log_likelihood (d : long_cols) (K : nat) (X : mat) (lambda : R) (x : arr) : R :=
  sumn (length (obs_ids d)) (fun i =>
    choice_vec d i * ln (exp (mnl_utility K X x i) /
      id_sum (obs_ids d) (nth i (obs_ids d) 0%Z) (fun r => exp (mnl_utility K X x r))))
  - lambda * sumn K (fun k => aget x k * aget x k).

Theorem C85_conditional_logit_objective d K X nd rvs fa e init :
  let m := mkModel (ClassLogit KMNL) d K X in
  fit_estimator m nd rvs fa = Ok (e, init) ->
  length (alt_ids d) = length (obs_ids d) -> obs_ids d <> [] -> (0 < K)%nat -> exactly_one_choice d ->
  (forall l z, fa_constrained fa = Some l -> In z l -> (- Z.of_nat K <= z < Z.of_nat K)%Z) ->
  let lambda := match fa_ridge fa with RidgeNumber r => r | _ => 0 end in
  exists obj hess,
    (forall mz nm names mixing r, fit_mle mz nm names mixing m nd rvs fa = Ok r ->
       exists best, mz obj (Some hess) init = Ok best /\ mr_x best = final_point r) /\
    forall x, alen x = K -> (forall i, (i < length (obs_ids d))%nat -> -700 < mnl_utility K X x i < 700) ->
      exists g, obj x = Ok (- mnl_log_likelihood d K X lambda x, g) /\ alen g = K /\
        forall j, (j < K)%nat ->
          (held_fixed m fa K j -> aget g j = 0) /\
          (~ held_fixed m fa K j -> is_derive (fun t => value obj (aupd x j t)) (aget x j) (aget g j)).
Proof.
  intros m He HL Hne HK Hone Hval lambda.
  pose proof (fit_estimator_inv _ _ _ _ _ _ He) as (_ & Hlen & _ & _ & _ & Hcore).
  unfold estimator_core in Hcore. cbn [m mo_class mo_cols mo_K mo_X] in Hcore.
  apply bind_ok in Hcore. destruct Hcore as (mp & Hmp & Hcore). injection Hcore as Ec _.
  set (D := data_of d mp K X (Some (fun _ => 1)) (ridge_value (fa_ridge fa))) in *.
  rewrite <- Ec in Hlen. cbn [est_check_length] in Hlen.
  assert (LI : alen init = K) by (apply check_length_ok in Hlen; exact Hlen).
  assert (HaneZ : alt_ids d <> []) by (destruct (alt_ids d); [destruct (obs_ids d); [contradiction|discriminate]|discriminate]).
  assert (Hok : core_ok (e_core e)).
  { rewrite <- Ec. split; [|exact HK]. split; [apply (num_alts_pos d None mp K X _ _ Hmp HaneZ)|]. split; exact I. }
  destruct (C85_objective_and_its_gradient m nd rvs fa e init He Hok) as (obj & hess & H1 & H2).
  { intros l z El Hz. rewrite LI. apply (Hval l z); assumption. }
  exists obj, hess. split; [exact H1|]. intros x Lx Hu.
  destruct (H2 x) as (g & Eo & Lg & Hg); [lia|]. rewrite <- Ec in Eo, Hg. cbn [est_ll est_grad] in Eo, Hg.
  assert (HU : forall i, utility KMNL D x i = mnl_utility K X x i).
  { intros i. reflexivity. }
  assert (Hclip : no_clipping KMNL D x).
  { intros i Hi. rewrite est_utilities_eq by assumption. rewrite HU. exact (Hu i Hi). }
  destruct (C25_mnl_gradient d None mp K X (Some (fun _ => 1)) (ridge_value (fa_ridge fa)) x Hmp HL HK Hone) as (G & EG & LG & HG).
  { intros i i' _ _ _. reflexivity. }
  { fold D. rewrite <- Hlen. unfold check_length_of_initial_values. rewrite Lx, LI. reflexivity. }
  { exact Hclip. }
  exists g. split; [|split; [lia|]].
  - rewrite Eo. do 3 f_equal. unfold est_log_likelihood. rewrite split_eq by assumption.
    unfold calc_log_likelihood, mnl_log_likelihood. cbv zeta.
    assert (Hp : forall i, (i < length (obs_ids d))%nat ->
      long_probs (model_of KMNL) D (sh KMNL (d_J D) x) (ic KMNL (d_J D) x) (be KMNL (d_J D) (d_K D) x) i =
      exp (mnl_utility K X x i) / id_sum (obs_ids d) (nth i (obs_ids d) 0%Z) (fun r => exp (mnl_utility K X x r))).
    { assert (Hex : forall i, (i < length (obs_ids d))%nat ->
        long_exponentials (model_of KMNL) D (sh KMNL (d_J D) x) (ic KMNL (d_J D) x) (be KMNL (d_J D) (d_K D) x) i =
        exp (mnl_utility K X x i)).
      { intros i Hi. unfold long_exponentials. cbv zeta. f_equal. fold (utility KMNL D x i).
        rewrite clip_id; [apply HU|]. change (-700 <= utility KMNL D x i <= 700). rewrite HU. specialize (Hu i Hi). lra. }
      intros i Hi. unfold D. rewrite (probs_closed _ d None mp K X _ _ Hmp) by exact Hi. fold D. rewrite Hex by exact Hi.
      f_equal. unfold id_sum. apply sumn_ext. intros r Hr. rewrite Hex by exact Hr. reflexivity. }
    assert (HS : vdot (d_N D) (d_y D) (fun i => eff_weights (d_w D) i * ln (long_probs (model_of KMNL) D (sh KMNL (d_J D) x)
        (ic KMNL (d_J D) x) (be KMNL (d_J D) (d_K D) x) i)) =
      sumn (length (obs_ids d)) (fun i => choice_vec d i * ln (exp (mnl_utility K X x i) /
        id_sum (obs_ids d) (nth i (obs_ids d) 0%Z) (fun r => exp (mnl_utility K X x r))))).
    { unfold vdot. apply sumn_ext. intros i Hi. rewrite Hp by exact Hi. cbn [D data_of d_w eff_weights d_y]. ring. }
    change (data_of d mp K X (Some (fun _ => 1)) (ridge_value (fa_ridge fa))) with D. rewrite HS. unfold lambda. cbn [D data_of d_ridge]. destruct (fa_ridge fa) as [|r|]; cbn [ridge_value]; try ring.
    reflexivity.
  - intros j Hj. rewrite <- Lx at 1 2. apply (Hg G EG j); [lia|]. apply HG. lia.
Qed.

(** A case: two rows of one observation, two coefficients, the first held fixed, ridge. *)
Example ex_objective : exists e,
  fit_estimator newton_model 0 (fun _ _ _ => 0) newton_args = Ok (e, zeros 2) /\
  exactly_one_choice (mo_cols newton_model) /\ held_fixed newton_model newton_args 2 0 /\
  ~ held_fixed newton_model newton_args 2 1 /\
  (forall i, (i < 2)%nat -> -700 < mnl_utility 2 both_ones (zeros 2) i < 700).
Proof.
  destruct C50_refuted_newton_logit as (e & g & H & p & F & He & _). exists e. split; [exact He|]. split.
  { exact one_choice_10. }
  split; [left; left; reflexivity|]. split.
  { intros [[C|[]]|[C|[]]]; discriminate. }
  intros i _. unfold mnl_utility. cbn. lra.
Qed.

Print Assumptions C84_inference_tables.
Print Assumptions C85_objective_and_its_gradient.
Print Assumptions C85_conditional_logit_objective.
