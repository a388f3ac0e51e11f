(** Facts about the five logit-type estimators: parameter splitting, the shape of
    the gradient / Hessian / outer-product matrix, and the row-wise derivative of
    each utility transform. *)
From Coq Require Import Reals Lra Lia Arith FunctionalExtensionality.
From Coquelicot Require Import Coquelicot.
From Verif Require Import Res Vec Arr SpecLogit ChoiceCalcs ChoiceFacts Transforms.
Open Scope R_scope.

Definition num_icpts (k : logit_kind) (J : nat) : nat :=
  match kind_iref k with Some _ => (J - 1)%nat | None => 0%nat end.

(** Reference positions are valid column positions. *)
Definition kind_ok (k : logit_kind) (J : nat) : Prop :=
  (0 < J)%nat /\
  (match kind_iref k with Some r => (r < J)%nat | None => True end) /\
  (match k with KAsym sref _ => (sref < J)%nat /\ (2 <= J)%nat | _ => True end).

Lemma dims_eq k J K :
  kind_ok k J -> assumed_param_dimensions k J K = (num_shapes k J + num_icpts k J + K)%nat.
Proof.
  intros [HJ _]. destruct k as [|[r|]|[r|]|[r|]|s [r|]];
    unfold num_icpts; simpl; lia.
Qed.

Definition has_shape (k : logit_kind) : bool :=
  match k with KMNL | KClog _ => false | _ => true end.

Definition sh (k : logit_kind) (J : nat) (th : arr) : option arr :=
  if has_shape k then Some (aslice 0 (num_shapes k J) th) else None.
Definition ic (k : logit_kind) (J : nat) (th : arr) : option arr :=
  if (0 <? num_icpts k J)%nat then Some (aslice (num_shapes k J) (num_icpts k J) th) else None.
Definition be (k : logit_kind) (J K : nat) (th : arr) : arr :=
  aslice (num_shapes k J + num_icpts k J) K th.

Lemma aslice_all n a : alen a = n -> aslice 0 n a = a.
Proof. intros <-. destruct a. reflexivity. Qed.

Lemma split_eq k J K th :
  (0 < K)%nat -> alen th = (num_shapes k J + num_icpts k J + K)%nat ->
  split_param_vec k J K th = (sh k J th, ic k J th, be k J K th).
Proof.
  intros HK HL.
  assert (NS : neg_slice K th = be k J K th).
  { unfold neg_slice, be. destruct (Nat.eqb_spec K 0); [lia|].
    replace (alen th - K)%nat with (num_shapes k J + num_icpts k J)%nat by lia. reflexivity. }
  destruct k as [|r|r|r|s r].
  - unfold sh, ic, be. simpl. rewrite aslice_all by exact HL. reflexivity.
  - cbn [split_param_vec]. rewrite NS. cbn [num_shapes] in HL.
    replace (alen th - K)%nat with (num_icpts (KClog r) J) by lia. reflexivity.
  - cbn [split_param_vec]. rewrite NS.
    replace (alen th - (num_shapes (KScobit r) J + K))%nat with (num_icpts (KScobit r) J) by lia.
    reflexivity.
  - cbn [split_param_vec]. rewrite NS.
    replace (alen th - (num_shapes (KUneven r) J + K))%nat with (num_icpts (KUneven r) J) by lia.
    reflexivity.
  - cbn [split_param_vec]. rewrite NS.
    replace (alen th - (num_shapes (KAsym s r) J + K))%nat with (num_icpts (KAsym s r) J) by lia.
    reflexivity.
Qed.

Lemma all_params_eq k J K th :
  alen th = (num_shapes k J + num_icpts k J + K)%nat ->
  alen (all_params (sh k J th) (ic k J th) (be k J K th)) = alen th /\
  forall j, (j < alen th)%nat ->
    aget (all_params (sh k J th) (ic k J th) (be k J K th)) j = aget th j.
Proof.
  intros HL.
  assert (HS : has_shape k = false -> num_shapes k J = 0%nat) by (destruct k; simpl; congruence).
  unfold sh, ic, be. destruct (has_shape k); destruct (Nat.ltb_spec 0 (num_icpts k J));
    simpl; (split; [try rewrite (HS eq_refl) in *; lia|]); intros j Hj; unfold vcat.
  - destruct (Nat.ltb_spec j (num_shapes k J)); [reflexivity|].
    destruct (Nat.ltb_spec (j - num_shapes k J) (num_icpts k J)); f_equal; lia.
  - destruct (Nat.ltb_spec j (num_shapes k J)); [reflexivity|]. f_equal; lia.
  - rewrite (HS eq_refl) in *. destruct (Nat.ltb_spec j (num_icpts k J)); f_equal; lia.
  - rewrite (HS eq_refl) in *. f_equal; lia.
Qed.

Lemma asumsq_all_params k J K th :
  alen th = (num_shapes k J + num_icpts k J + K)%nat ->
  asumsq (all_params (sh k J th) (ic k J th) (be k J K th)) = asumsq th.
Proof.
  intros HL. destruct (all_params_eq k J K th HL) as [H1 H2]. unfold asumsq. rewrite H1.
  apply sumn_ext. intros i Hi. rewrite H2 by exact Hi. reflexivity.
Qed.

(** ** Utilities and their derivative matrix, per row and parameter *)

(** The transformed utility of row i at the parameter vector th. *)
Definition utility (k : logit_kind) (D : Data) (th : arr) (i : nat) : R :=
  m_transform (model_of k) (d_J D) (d_A D)
    (sys_utilities D (be k (d_J D) (d_K D) th)) (sh k (d_J D) th) (ic k (d_J D) th) i.

Definition cent_or_zero (o : option cmat) : mat :=
  match o with Some c => cent c | None => fun _ _ => 0 end.

Definition DH (k : logit_kind) (D : Data) (th : arr) : mat :=
  let J := d_J D in
  let v := sys_utilities D (be k J (d_K D) th) in
  hcat (num_shapes k J) (cent_or_zero (m_dh_dc (model_of k) J (d_A D) v (sh k J th)))
    (hcat (num_icpts k J) (cent_or_zero (m_dh_da (model_of k) J (d_A D) v (ic k J th)))
      (dh_db (model_of k) D (sh k J th) (be k J (d_K D) th))).

Definition ridge_or_0 (D : Data) : R := match d_ridge D with Some r => r | None => 0 end.

Lemma est_ll_eq k D th :
  (0 < d_K D)%nat -> alen th = (num_shapes k (d_J D) + num_icpts k (d_J D) + d_K D)%nat ->
  est_log_likelihood k D th =
  sumn (d_N D) (fun i => d_y D i * (eff_weights (d_w D) i *
     ln (long_probs (model_of k) D (sh k (d_J D) th) (ic k (d_J D) th) (be k (d_J D) (d_K D) th) i)))
  - ridge_or_0 D * asumsq th.
Proof.
  intros HK HL. unfold est_log_likelihood. rewrite split_eq by assumption.
  unfold calc_log_likelihood, vdot, ridge_or_0. destruct (d_ridge D).
  - rewrite asumsq_all_params by exact HL. reflexivity.
  - lra.
Qed.

Lemma dh_dc_cols k J A v s c :
  m_dh_dc (model_of k) J A v s = Some c -> ccols c = num_shapes k J.
Proof. destruct k; simpl; intros H; inversion H; reflexivity. Qed.

Lemma dh_dc_some k J A v s :
  has_shape k = true -> exists c, m_dh_dc (model_of k) J A v s = Some c.
Proof. destruct k; simpl; intros H; try discriminate; eexists; reflexivity. Qed.

Lemma dh_da_some k J A v s :
  (0 < num_icpts k J)%nat ->
  exists r, kind_iref k = Some r /\
    m_dh_da (model_of k) J A v s = Some (mkCmat (num_icpts k J) (fun i q => A i (skip r q))).
Proof.
  unfold num_icpts. destruct k as [|[r|]|[r|]|[r|]|t [r|]]; simpl; intros H; try lia;
    (exists r; split; reflexivity).
Qed.

Lemma grad_form k D th :
  (0 < d_K D)%nat -> alen th = (num_shapes k (d_J D) + num_icpts k (d_J D) + d_K D)%nat ->
  exists g, est_gradient k D th = Ok g /\ alen g = alen th /\
    forall j, (j < alen th)%nat ->
      aget g j =
      sumn (d_N D) (fun i => eff_weights (d_w D) i *
        (d_y D i - long_probs (model_of k) D (sh k (d_J D) th) (ic k (d_J D) th) (be k (d_J D) (d_K D) th) i)
        * DH k D th i j)
      - 2 * ridge_or_0 D * aget th j.
Proof.
  intros HK HL. unfold est_gradient. rewrite split_eq by assumption.
  unfold calc_gradient.
  set (v := sys_utilities D (be k (d_J D) (d_K D) th)).
  set (p := long_probs _ _ _ _ _).
  destruct (all_params_eq k (d_J D) (d_K D) th HL) as [AP1 AP2].
  remember (all_params (sh k (d_J D) th) (ic k (d_J D) th) (be k (d_J D) (d_K D) th)) as ap eqn:Eap.
  clear Eap.
  assert (HS : has_shape k = false -> num_shapes k (d_J D) = 0%nat) by (destruct k; simpl; congruence).
  set (d := fun i => eff_weights (d_w D) i * (d_y D i - p i)).
  assert (CORE : exists g0,
    match sh k (d_J D) th, ic k (d_J D) th with
    | Some _, Some _ =>
        match m_dh_dc (model_of k) (d_J D) (d_A D) v (sh k (d_J D) th),
              m_dh_da (model_of k) (d_J D) (d_A D) v (ic k (d_J D) th) with
        | Some c, Some a =>
            Ok (acat (mkArr (ccols c + ccols a)
                        (vmat (d_N D) d (hcat (ccols c) (cent c) (cent a))))
                     (mkArr (d_K D) (vmat (d_N D) d (dh_db (model_of k) D (sh k (d_J D) th) (be k (d_J D) (d_K D) th)))))
        | _, _ => Err TypeError
        end
    | Some _, None =>
        match m_dh_dc (model_of k) (d_J D) (d_A D) v (sh k (d_J D) th) with
        | Some c => Ok (acat (mkArr (ccols c) (vmat (d_N D) d (cent c)))
                     (mkArr (d_K D) (vmat (d_N D) d (dh_db (model_of k) D (sh k (d_J D) th) (be k (d_J D) (d_K D) th)))))
        | None => Err TypeError
        end
    | None, Some _ =>
        match m_dh_da (model_of k) (d_J D) (d_A D) v (ic k (d_J D) th) with
        | Some a => Ok (acat (mkArr (ccols a) (vmat (d_N D) d (cent a)))
                     (mkArr (d_K D) (vmat (d_N D) d (dh_db (model_of k) D (sh k (d_J D) th) (be k (d_J D) (d_K D) th)))))
        | None => Err TypeError
        end
    | None, None => Ok (mkArr (d_K D) (vmat (d_N D) d (dh_db (model_of k) D (sh k (d_J D) th) (be k (d_J D) (d_K D) th))))
    end = Ok g0 /\ alen g0 = alen th /\
    forall j, (j < alen th)%nat -> aget g0 j = sumn (d_N D) (fun i => d i * DH k D th i j)).
  { unfold DH. fold v.
    set (B := dh_db (model_of k) D (sh k (d_J D) th) (be k (d_J D) (d_K D) th)).
    destruct (has_shape k) eqn:Eh.
    - destruct (dh_dc_some k (d_J D) (d_A D) v (sh k (d_J D) th) Eh) as [c Ec].
      pose proof (dh_dc_cols _ _ _ _ _ _ Ec) as Ecc. rewrite Ec.
      assert (Es : sh k (d_J D) th = Some (aslice 0 (num_shapes k (d_J D)) th))
        by (unfold sh; rewrite Eh; reflexivity).
      rewrite Es.
      destruct (Nat.ltb_spec 0 (num_icpts k (d_J D))) as [Hi|Hi].
      + destruct (dh_da_some k (d_J D) (d_A D) v (ic k (d_J D) th) Hi) as (r & Er & Ea).
        rewrite Ea.
        assert (Ei : ic k (d_J D) th = Some (aslice (num_shapes k (d_J D)) (num_icpts k (d_J D)) th)).
        { unfold ic. destruct (Nat.ltb_spec 0 (num_icpts k (d_J D))); [reflexivity|lia]. }
        rewrite Ei. eexists. split; [reflexivity|]. split; [cbn; lia|].
        intros j Hj. cbn [acat aget alen ccols cent cent_or_zero]. rewrite Ecc.
        unfold hcat, vcat, vmat.
        destruct (Nat.ltb_spec j (num_shapes k (d_J D) + num_icpts k (d_J D)));
        destruct (Nat.ltb_spec j (num_shapes k (d_J D))); try lia; try reflexivity;
        destruct (Nat.ltb_spec (j - num_shapes k (d_J D)) (num_icpts k (d_J D))); try lia; try reflexivity.
        apply sumn_ext. intros i _. f_equal. f_equal. lia.
      + assert (Ei : ic k (d_J D) th = None).
        { unfold ic. destruct (Nat.ltb_spec 0 (num_icpts k (d_J D))); [lia|reflexivity]. }
        assert (E0 : num_icpts k (d_J D) = 0%nat) by lia.
        rewrite Ei. eexists. split; [reflexivity|]. split; [cbn; lia|].
        intros j Hj. cbn [acat aget alen ccols cent cent_or_zero]. rewrite Ecc, E0.
        unfold hcat, vcat, vmat.
        destruct (Nat.ltb_spec j (num_shapes k (d_J D))); [reflexivity|].
        apply sumn_ext. intros i _. destruct (Nat.ltb_spec (j - num_shapes k (d_J D)) 0); [lia|].
        f_equal. f_equal. lia.
    - assert (Es : sh k (d_J D) th = None) by (unfold sh; rewrite Eh; reflexivity).
      rewrite Es. specialize (HS eq_refl).
      destruct (Nat.ltb_spec 0 (num_icpts k (d_J D))) as [Hi|Hi].
      + destruct (dh_da_some k (d_J D) (d_A D) v (ic k (d_J D) th) Hi) as (r & Er & Ea).
        rewrite Ea.
        assert (Ei : ic k (d_J D) th = Some (aslice (num_shapes k (d_J D)) (num_icpts k (d_J D)) th)).
        { unfold ic. destruct (Nat.ltb_spec 0 (num_icpts k (d_J D))); [reflexivity|lia]. }
        rewrite Ei. eexists. split; [reflexivity|]. split; [cbn; lia|].
        intros j Hj. cbn [acat aget alen ccols cent cent_or_zero]. rewrite HS.
        unfold hcat, vcat, vmat. simpl. rewrite Nat.sub_0_r.
        destruct (Nat.ltb_spec j (num_icpts k (d_J D))); reflexivity.
      + assert (Ei : ic k (d_J D) th = None).
        { unfold ic. destruct (Nat.ltb_spec 0 (num_icpts k (d_J D))); [lia|reflexivity]. }
        assert (E0 : num_icpts k (d_J D) = 0%nat) by lia.
        rewrite Ei. eexists. split; [reflexivity|]. split; [cbn; lia|].
        intros j Hj. cbn [acat aget alen ccols cent cent_or_zero]. rewrite HS, E0.
        unfold hcat, vcat, vmat. simpl. rewrite !Nat.sub_0_r. reflexivity. }
  destruct CORE as (g0 & E0 & L0 & G0). cbv zeta. fold d. rewrite E0. cbn [bind].
  unfold ridge_or_0. destruct (d_ridge D) as [r|].
  - eexists. split; [reflexivity|]. split; [exact L0|]. intros j Hj. cbn [aget].
    rewrite G0, AP2 by exact Hj. reflexivity.
  - eexists. split; [reflexivity|]. split; [exact L0|]. intros j Hj.
    rewrite G0 by exact Hj. unfold d. lra.
Qed.

(** ** From row-wise derivatives to the derivative of the log-likelihood *)
Lemma aupd_id th j : aupd th j (aget th j) = th.
Proof.
  destruct th as [n f]. unfold aupd. simpl. f_equal. apply functional_extensionality.
  intros i. apply upd_id.
Qed.

Lemma is_derive_asumsq th j :
  (j < alen th)%nat -> is_derive (fun t => asumsq (aupd th j t)) (aget th j) (2 * aget th j).
Proof.
  intros Hj. unfold asumsq, aupd. cbn [alen aget].
  evar_last.
  - apply (is_derive_sumn (alen th) (fun i t => upd (aget th) j t i * upd (aget th) j t i)
             (fun i => 2 * aget th i * (if (i =? j)%nat then 1 else 0))).
    intros i Hi. evar_last.
    + apply (is_derive_mult (fun t => upd (aget th) j t i) (fun t => upd (aget th) j t i) (aget th j)
               (if (i =? j)%nat then 1 else 0) (if (i =? j)%nat then 1 else 0));
        [apply is_derive_upd|apply is_derive_upd|]. intros; unfold mult; simpl; ring.
    + unfold plus, mult; simpl. rewrite upd_id. ring.
  - rewrite <- (sumn_single (alen th) j (fun i => 2 * aget th i) Hj). apply sumn_ext.
    intros i _. destruct (i =? j)%nat; lra.
Qed.

Lemma ll_derive k D own th j :
  (0 < d_K D)%nat -> alen th = (num_shapes k (d_J D) + num_icpts k (d_J D) + d_K D)%nat ->
  indicator_of (d_N D) (d_obs D) (d_M D) own ->
  (forall i, (i < d_N D)%nat ->
     osum (d_N D) own (own i) (fun r => d_y D r * eff_weights (d_w D) r) = eff_weights (d_w D) i) ->
  (forall i, (i < d_N D)%nat -> strictly_unclipped (utility k D th i)) ->
  (j < alen th)%nat ->
  (forall i, (i < d_N D)%nat ->
     is_derive (fun t => utility k D (aupd th j t) i) (aget th j) (DH k D th i j)) ->
  forall g, est_gradient k D th = Ok g ->
  is_derive (fun t => est_log_likelihood k D (aupd th j t)) (aget th j) (aget g j).
Proof.
  intros HK HL Hown Hw Hu Hj Hd g Hg.
  destruct (grad_form k D th HK HL) as (g' & E & _ & G). rewrite Hg in E. inversion E; subst g'.
  rewrite G by exact Hj. clear E G Hg.
  set (w := eff_weights (d_w D)) in *.
  (* the log-likelihood along the line, in closed form *)
  set (u := fun i t => clip_exponent (utility k D (aupd th j t) i)).
  assert (Lk : forall t, est_log_likelihood k D (aupd th j t) =
     sumn (d_N D) (fun i => d_y D i * (w i *
        ln (exp (u i t) / osum (d_N D) own (own i) (fun r => exp (u r t)))))
     - ridge_or_0 D * asumsq (aupd th j t)).
  { intros t. rewrite est_ll_eq by (try exact HK; exact HL). fold w. f_equal.
    apply sumn_ext. intros i Hi. rewrite (long_probs_eq _ _ _ Hown) by exact Hi. reflexivity. }
  apply is_derive_ext with (f := fun t =>
     sumn (d_N D) (fun i => d_y D i * (w i *
        ln (exp (u i t) / osum (d_N D) own (own i) (fun r => exp (u r t)))))
     - ridge_or_0 D * asumsq (aupd th j t)).
  { intros t. symmetry. apply Lk. }
  assert (U0 : forall i, (i < d_N D)%nat ->
     long_probs (model_of k) D (sh k (d_J D) th) (ic k (d_J D) th) (be k (d_J D) (d_K D) th) i =
     exp (u i (aget th j)) / osum (d_N D) own (own i) (fun r => exp (u r (aget th j)))).
  { intros i Hi. rewrite (long_probs_eq _ _ _ Hown) by exact Hi. unfold u. rewrite aupd_id. reflexivity. }
  apply (is_derive_minus (K := R_AbsRing) (V := R_NormedModule)).
  - rewrite (sumn_ext (d_N D) _ (fun i => w i * (d_y D i -
       exp (u i (aget th j)) / osum (d_N D) own (own i) (fun r => exp (u r (aget th j)))) * DH k D th i j)).
    2: { intros i Hi. rewrite U0 by exact Hi. reflexivity. }
    apply (is_derive_weighted_ll (d_N D) own u (fun i => DH k D th i j) (d_y D) w).
    + intros i Hi. apply is_derive_clip; [apply Hd; exact Hi|]. rewrite aupd_id. apply Hu. exact Hi.
    + exact Hw.
  - replace (2 * ridge_or_0 D * aget th j) with (ridge_or_0 D * (2 * aget th j)) by ring.
    apply (is_derive_scal (fun t => asumsq (aupd th j t))). apply is_derive_asumsq. exact Hj.
Qed.
