(** C34 as stated ("the Hessian is the second derivative for every model") and
    C35 with a penalty are false of the code; witnesses.  Also the non-vacuity
    examples of PropHessian.v. *)
From Coq Require Import String ZArith List Reals Lra Lia Arith.
From Coquelicot Require Import Coquelicot.
From Verif Require Import Res Vec Arr SpecLogit ChoiceCalcs ChoiceFacts Transforms Ids Mappings
  MappingFacts LongData LogitFacts RowDeriv HessFacts ProbFacts PropMappings PropProbs PropGradient
  PropGradientLimits PropHessian.
Import ListNotations.
Open Scope R_scope.

(** ** C34: clog-log, one observation with two rows, coefficient 0. *)
Theorem C34_refuted_clog_log_curvature :
  exists d mp K X theta,
    create_long_form_mappings d None = Ok mp /\ length (alt_ids d) = length (obs_ids d) /\
    exactly_one_choice d /\
    check_length_of_initial_values (KClog None) (d_J (data_of d mp K X None None)) K theta = Ok tt /\
    no_clipping (KClog None) (data_of d mp K X None None) theta /\
    (forall i, (i < length (obs_ids d))%nat -> est_index (KClog None) (data_of d mp K X None None) theta i < 3.7) /\
    ~ hessian_is_derivative (KClog None) (data_of d mp K X None None) theta.
Proof.
  exists (two_rows [1; 0]%Z), (two_map [1; 0]%Z), 1%nat, (col 1 0), (par1 0).
  split; [reflexivity|]. split; [reflexivity|]. split; [exact one_choice_10|]. split; [reflexivity|].
  fold (two_data [1; 0]%Z 1 0 None).
  set (D := two_data [1; 0]%Z 1 0 None) in *.
  pose proof ln_e_minus_1 as EL.
  assert (E2 : 2 < exp 1) by (assert (1 + 1 < exp 1) by (apply exp_ineq1; lra); lra).
  assert (U : forall i, utility (KClog None) D (par1 0) i = ln (exp 1 - 1)).
  { intros i. unfold utility. cbn [model_of Clog_model m_transform]. unfold cloglog_transform, sys_utilities, mvec. cbn.
    rewrite Rmult_0_r, Rplus_0_l, exp_0. destruct (Rle_dec 3.7 0); [lra|ring]. }
  assert (V0 : forall i, est_index (KClog None) D (par1 0) i = 0).
  { intros i. unfold est_index. cbn. unfold sys_utilities, mvec. cbn. ring. }
  assert (HClip : no_clipping (KClog None) D (par1 0)).
  { intros i Hi. rewrite est_utilities_eq by (cbn; lia). rewrite U. exact EL. }
  split; [exact HClip|]. split; [intros i _; rewrite V0; lra|].
  intros (H & EH & _ & HH). destruct (HH 0%nat ltac:(cbn; lia)) as (ga & Ega & Hd).
  specialize (Hd 0%nat ltac:(cbn; lia)). cbn [par1 aget] in Hd.
  assert (Hmp := two_map_ok [1; 0]%Z).
  assert (HK : (0 < d_K D)%nat) by (cbn; lia).
  assert (HL : forall t, alen (aupd (par1 0) 0 t) = (num_shapes (KClog None) (d_J D) + num_icpts (KClog None) (d_J D) + d_K D)%nat) by reflexivity.
  assert (Hown := data_obs_indicator (two_rows [1; 0]%Z) None _ 1 (col 1 0) None None Hmp).
  cbv zeta in Hown. fold (two_data [1; 0]%Z 1 0 None) in Hown. fold D in Hown.
  set (own := own_of (obs_ids (two_rows [1; 0]%Z))) in *.
  assert (Halt := data_alt_indicator (two_rows [1; 0]%Z) None _ 1 (col 1 0) None None Hmp eq_refl).
  cbv zeta in Halt. fold (two_data [1; 0]%Z 1 0 None) in Halt. fold D in Halt.
  assert (Hok : kind_ok (KClog None) (d_J D)) by (split; [cbn; lia|split; exact I]).
  (* the derivative matrix *)
  set (cl := fun t => exp t / (1 - exp (- exp t))).
  assert (Hcl : forall t, 0 < 1 - exp (- exp t)).
  { intros t. assert (exp (- exp t) < 1); [|lra]. rewrite <- exp_0. apply exp_increasing. pose proof (exp_pos t). lra. }
  assert (Ecl : forall t, cloglog_deriv_v (fun _ => t) 0%nat = cl t).
  { intros t. unfold cloglog_deriv_v, cl. cbv zeta. specialize (Hcl t).
    replace (-1 * exp t) with (- exp t) by ring.
    destruct (Req_EM_T (exp (-1 * t)) 0) as [Ez|_]; [pose proof (exp_pos (-1 * t)); lra|].
    destruct (Req_EM_T (1 - exp (- exp t)) 0) as [Ez|_]; [lra|].
    replace (-1 * t) with (- t) by ring. rewrite (exp_Ropp t). pose proof (exp_pos t). field. lra. }
  assert (EDH : forall t i, (i < 2)%nat -> DH (KClog None) D (aupd (par1 0) 0 t) i 0%nat = (if (i =? 0)%nat then cl t else 0)).
  { intros t i Hi. unfold DH. cbn [num_shapes num_icpts kind_iref model_of]. unfold hcat, vcat.
    cbn [Nat.ltb Nat.leb]. rewrite !Nat.sub_0_r. unfold dh_db. cbn [Clog_model m_dh_dv].
    rewrite diag_dot by exact Hi. destruct i as [|[|]]; [| |lia]; cbn [Nat.eqb].
    - rewrite <- Ecl. unfold cloglog_deriv_v.
      replace (sys_utilities D (be (KClog None) (d_J D) (d_K D) (aupd (par1 0) 0 t)) 0%nat) with t.
      + cbn [d_X D two_data data_of col]. ring.
      + unfold sys_utilities, mvec. cbn. ring.
    - cbn [d_X D two_data data_of col]. ring. }
  set (P0 := fun t => probs_at (KClog None) D (aupd (par1 0) 0 t) 0%nat).
  assert (Eg : forall t, aget (ga t) 0%nat = (1 - P0 t) * cl t).
  { intros t. destruct (grad_form (KClog None) D (aupd (par1 0) 0 t) HK (HL t)) as (g & E & _ & G).
    rewrite Ega in E. inversion E; subst g. rewrite G by (cbn; lia).
    fold (probs_at (KClog None) D (aupd (par1 0) 0 t)).
    change (d_N D) with 2%nat. cbn [sumn]. rewrite !EDH by lia. fold (P0 t). cbn [Nat.eqb].
    change (ridge_or_0 D) with 0. cbn. ring. }
  (* derivative of the probability *)
  assert (HU : forall r, (r < d_N D)%nat -> strictly_unclipped (utility (KClog None) D (par1 0) r)).
  { intros r _. rewrite U. exact EL. }
  assert (HD : forall r, (r < d_N D)%nat ->
     is_derive (fun t => utility (KClog None) D (aupd (par1 0) 0 t) r) (aget (par1 0) 0%nat) (DH (KClog None) D (par1 0) r 0%nat)).
  { intros r Hr. apply (row_derivative (KClog None) D _ Hok HK Halt); try (cbn; lia).
    - exact Hr.
    - change (vrow (KClog None) D (par1 0) r < 3.7). rewrite <- est_index_eq by (cbn; lia). rewrite V0. lra. }
  assert (HP := probs_at_derive (KClog None) D own (par1 0) 0 0 Hown HU HD ltac:(cbn; lia)).
  cbn [par1 aget] in HP.
  assert (HPE := hess_form (KClog None) D own (par1 0) HK (HL 0) Hown).
  destruct HPE as (H' & EH' & _ & FH).
  { right. intros i i' _ _ _. reflexivity. }
  rewrite EH in EH'. inversion EH'; subst H'. clear EH'.
  assert (Ecl' : is_derive cl 0 ((1 - 2 * exp (-1)) / Rsqr (1 - exp (-1)))).
  { unfold cl. specialize (Hcl 0). rewrite exp_0 in Hcl. evar_last.
    - auto_derive; [rewrite ?exp_0; try lra|reflexivity].
    - rewrite exp_0. replace (- (1)) with (-1) in * by ring. unfold Rsqr. field. lra. }
  assert (Hd' : is_derive (fun t => (1 - P0 t) * cl t) 0 (sqe H 0%nat 0%nat)).
  { eapply is_derive_ext; [|exact Hd]. intros t. apply Eg. }
  set (S := osum (d_N D) own (own 0%nat) (fun r => probs_at (KClog None) D (par1 0) r * DH (KClog None) D (par1 0) r 0%nat)) in *.
  assert (HP' : is_derive P0 0 (probs_at (KClog None) D (par1 0) 0%nat * (DH (KClog None) D (par1 0) 0%nat 0%nat - S)))
    by exact HP.
  set (dP := probs_at (KClog None) D (par1 0) 0%nat * (DH (KClog None) D (par1 0) 0%nat 0%nat - S)) in *.
  assert (Hprod : is_derive (fun t => (1 - P0 t) * cl t) 0 ((0 - dP) * cl 0 + (1 - P0 0) * ((1 - 2 * exp (-1)) / Rsqr (1 - exp (-1))))).
  { evar_last.
    - apply (is_derive_mult (fun t => 1 - P0 t) cl 0 (0 - dP)).
      + apply (is_derive_minus (K := R_AbsRing) (V := R_NormedModule) (fun _ => 1)); [|exact HP'].
        apply (is_derive_const (K := R_AbsRing) (V := R_NormedModule)).
      + exact Ecl'.
      + intros n m. unfold mult; simpl. ring.
    - reflexivity. }
  apply is_derive_unique in Hd'. apply is_derive_unique in Hprod. rewrite Hd' in Hprod. clear Hd'.
  (* H00 = - Q = - dP * cl 0 *)
  assert (Par : aupd (par1 0) 0 0 = par1 0) by (apply (aupd_id (par1 0) 0)).
  assert (ED0 : DH (KClog None) D (par1 0) 0%nat 0%nat = cl 0) by (rewrite <- Par; rewrite EDH by lia; reflexivity).
  assert (ED1 : DH (KClog None) D (par1 0) 1%nat 0%nat = 0) by (rewrite <- Par; rewrite EDH by lia; reflexivity).
  rewrite FH in Hprod by (cbn; lia). unfold Qf in Hprod. change (d_N D) with 2%nat in Hprod. cbn [sumn] in Hprod.
  change (ridge_or_0 D) with 0 in Hprod.
  change (eff_weights (d_w D) 0%nat) with 1 in Hprod. change (eff_weights (d_w D) 1%nat) with 1 in Hprod.
  change (osum 2 own (own 0%nat) (fun k => probs_at (KClog None) D (par1 0) k * DH (KClog None) D (par1 0) k 0%nat)) with S in Hprod.
  rewrite ED1, ED0 in Hprod. unfold dP in Hprod. rewrite ED0 in Hprod.
  assert (HP0 : P0 0 = / 2).
  { unfold P0. rewrite Par. unfold probs_at.
    assert (LE : forall i, long_exponentials (model_of (KClog None)) D (sh (KClog None) (d_J D) (par1 0)) (ic (KClog None) (d_J D) (par1 0))
                  (be (KClog None) (d_J D) (d_K D) (par1 0)) i = exp 1 - 1).
    { intros i. change (exp (clip_exponent (utility (KClog None) D (par1 0) i)) = exp 1 - 1).
      rewrite U, clip_in by exact EL. apply exp_ln. lra. }
    unfold D. rewrite two_probs by lia. fold D. rewrite !LE. field. lra. }
  rewrite HP0 in Hprod.
  assert (He : exp (-1) < / 2).
  { replace (-1) with (- (1)) by ring. rewrite exp_Ropp. apply Rinv_lt_contravar; lra. }
  assert (0 < (1 - 2 * exp (-1)) / Rsqr (1 - exp (-1))).
  { apply Rdiv_lt_0_compat; [lra|]. apply Rlt_0_sqr. lra. }
  lra.
Qed.

(** ** C35 with a penalty: 2*ridge is subtracted from the diagonal of the BHHH
    matrix, so it can be indefinite and the robust covariance negative. *)
Theorem C35_refuted_with_ridge :
  exists d mp K X r theta F,
    create_long_form_mappings d None = Ok mp /\ length (alt_ids d) = length (obs_ids d) /\
    exactly_one_choice d /\ 0 < r /\
    check_length_of_initial_values KMNL (d_J (data_of d mp K X None (Some r))) K theta = Ok tt /\
    est_fisher KMNL (data_of d mp K X None (Some r)) theta = Ok F /\
    ~ psd (alen theta) (sqe F).
Proof.
  set (D := data_of (two_rows [1; 0]%Z) (two_map [1; 0]%Z) 1 (col 0 0) None (Some 1)).
  assert (HK : (0 < d_K D)%nat) by (cbn; lia).
  destruct (fisher_form KMNL D (par1 0) HK eq_refl) as (F & EF & _ & G).
  exists (two_rows [1; 0]%Z), (two_map [1; 0]%Z), 1%nat, (col 0 0), 1, (par1 0), F.
  split; [reflexivity|]. split; [reflexivity|]. split; [exact one_choice_10|]. split; [lra|]. split; [reflexivity|].
  split; [exact EF|].
  intros Hp. specialize (Hp (fun _ => 1)). unfold quad in Hp. cbn [par1 alen sumn] in Hp.
  rewrite G in Hp by (cbn; lia).
  assert (EDH : forall i, (i < 2)%nat -> DH KMNL D (par1 0) i 0%nat = 0).
  { intros i Hi. unfold DH. cbn [num_shapes num_icpts kind_iref model_of]. unfold hcat, vcat.
    cbn [Nat.ltb Nat.leb]. rewrite !Nat.sub_0_r. unfold dh_db. cbn [MNL_model m_dh_dv].
    rewrite diag_dot by exact Hi. cbn [d_X D data_of]. unfold col. destruct i; ring. }
  change (d_N D) with 2%nat in Hp. change (d_obs D) with 1%nat in Hp. cbn [sumn] in Hp.
  rewrite !EDH in Hp by lia. change (ridge_or_0 D) with 1 in Hp. unfold ident in Hp. cbn [Nat.eqb] in Hp. lra.
Qed.

(** ** The hypotheses of PropHessian.v are met (the MNL case of C31, C32, C35 with
    weights 2 and 1; kind_ok for an asymmetric model with three alternatives). *)
Example ex_hessian_case : exists mp,
  create_long_form_mappings ex_cols None = Ok mp /\
  same_weight_within_observation ex_cols ex_w /\ nonneg_weights ex_cols ex_w /\ nonneg_ridge (Some (/ 10)) /\
  let D := data_of ex_cols mp 1 ex_X1 ex_w (Some (/ 10)) in
  check_length_of_initial_values KMNL (d_J D) 1 (mkArr 1 (fun _ => 3)) = Ok tt /\
  no_clipping KMNL D (mkArr 1 (fun _ => 3)) /\
  kind_ok (KAsym 1 (Some 0%nat)) (d_J D) /\
  check_length_of_initial_values (KAsym 1 (Some 0%nat)) (d_J D) 1 (mkArr 5 (fun _ => 3)) = Ok tt.
Proof.
  destruct ex_mnl_case as (mp & A & _ & _ & B & C & E). exists mp. split; [exact A|]. split; [exact B|].
  split. { intros i _. unfold ex_w, eff_weights. destruct (i <? 3)%nat; lra. }
  split; [simpl; lra|]. cbv zeta in *. split; [exact C|]. split; [exact E|].
  inversion A; subst mp. split; [|reflexivity]. repeat split; cbn; lia.
Qed.

Example ex_weights_by_id : forall i, (i < length (obs_ids ex_cols))%nat ->
  eff_weights ex_w i = (fun o => if (o =? 7)%Z then 2 else 1) (nth i (obs_ids ex_cols) 0%Z) /\ 0 <= eff_weights ex_w i.
Proof.
  intros i Hi. cbn [obs_ids ex_cols length] in Hi.
  destruct i as [|[|[|[|[|i]]]]]; try lia; cbn; lra.
Qed.

Example ex_inverse : is_inverse 2 (fun i j => if (i =? j)%nat then 2 else 1)
   (fun i j => if (i =? j)%nat then 2 / 3 else - 1 / 3) /\
   symmetric 2 (fun i j => if (i =? j)%nat then 2 else 1).
Proof.
  split; [split|]; intros i j Hi Hj; destruct i as [|[|]]; try lia; destruct j as [|[|]]; try lia; cbn; lra.
Qed.

Print Assumptions C31_mnl_hessian.
Print Assumptions C32_hessian_symmetric_nsd.
Print Assumptions C34_hessian_is_first_order_part.
Print Assumptions C34_refuted_clog_log_curvature.
Print Assumptions C35_bhhh_matrix.
Print Assumptions C35_refuted_with_ridge.
Print Assumptions C36_sandwich_symmetric_psd.
Print Assumptions C36_reported_robust_covariance.
