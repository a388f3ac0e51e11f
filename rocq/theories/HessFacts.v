(** Closed forms of the Hessian and of the BHHH matrix. *)
From Coq Require Import Reals Lra Lia Arith FunctionalExtensionality.
From Coquelicot Require Import Coquelicot.
From Verif Require Import Res Vec Arr SpecLogit ChoiceCalcs ChoiceFacts Transforms LogitFacts.
Open Scope R_scope.

(** The bilinear form behind quadratic_prod_wrt_dp_ds. *)
Definition Qf (N : nat) (own : nat -> nat) (w p l r : vec) : R :=
  sumn N (fun i => w i * p i * l i * r i)
  - sumn N (fun i => w i * p i * l i * osum N own (own i) (fun k => p k * r k)).

Lemma quadratic_prod_eq D own L R p w a b :
  indicator_of (d_N D) (d_obs D) (d_M D) own ->
  quadratic_prod_wrt_dp_ds D (transp L) R p w a b =
  Qf (d_N D) own (eff_weights w) p (fun i => L i a) (fun i => R i b).
Proof.
  intros Hown. unfold quadratic_prod_wrt_dp_ds, Qf, mdot, transp. f_equal.
  - apply sumn_ext. intros i _. ring.
  - set (W := eff_weights w).
    rewrite (sumn_ext (d_obs D) _ (fun o => sumn (d_N D) (fun i =>
       L i a * (d_M D i o * (W i * p i)) * sumn (d_N D) (fun k => d_M D k o * p k * R k b)))).
    2: { intros o _. rewrite <- sumn_scal_r. reflexivity. }
    rewrite sumn_swap. apply sumn_ext. intros i Hi. destruct (Hown i Hi) as [Ho Em].
    rewrite (sumn_ext (d_obs D) _ (fun o => if (own i =? o)%nat
        then W i * p i * L i a * sumn (d_N D) (fun k => d_M D k o * p k * R k b) else 0)).
    2: { intros o Hoo. rewrite Em by exact Hoo. destruct (own i =? o)%nat; ring. }
    rewrite (sumn_single' (d_obs D) (own i)
      (fun o => W i * p i * L i a * sumn (d_N D) (fun k => d_M D k o * p k * R k b)) Ho).
    f_equal. unfold osum. apply sumn_ext. intros k Hk. destruct (Hown k Hk) as [_ Ek].
    rewrite (Ek (own i) Ho). destruct (own k =? own i)%nat; ring.
Qed.

Lemma Qf_ext N own w p l l' r r' :
  (forall i, (i < N)%nat -> l i = l' i) -> (forall i, (i < N)%nat -> r i = r' i) ->
  Qf N own w p l r = Qf N own w p l' r'.
Proof.
  intros Hl Hr. unfold Qf. f_equal; apply sumn_ext; intros i Hi.
  - rewrite Hl, Hr by exact Hi. reflexivity.
  - rewrite Hl by exact Hi. f_equal. apply osum_ext. intros k Hk _. rewrite Hr by exact Hk. reflexivity.
Qed.

Lemma Qf_sym N own w p l r :
  weights_per_observation N own w -> Qf N own w p l r = Qf N own w p r l.
Proof.
  intros Hw. unfold Qf. f_equal.
  - apply sumn_ext. intros i _. ring.
  - rewrite (osum_sym N own (fun k => p k * r k) (fun i => w i * p i * l i)).
    apply sumn_ext. intros i Hi.
    rewrite (osum_ext _ _ _ _ (fun k => w i * (p k * l k))).
    + rewrite osum_scal_l. ring.
    + intros k Hk E. rewrite (Hw k i Hk Hi E). ring.
Qed.

Lemma Qf_square N own w p g :
  weights_per_observation N own w ->
  (forall i, (i < N)%nat -> osum N own (own i) p = 1) ->
  Qf N own w p g g =
  sumn N (fun i => w i * p i * Rsqr (g i - osum N own (own i) (fun k => p k * g k))).
Proof.
  intros Hw Hp. unfold Qf.
  set (m := fun i => osum N own (own i) (fun k => p k * g k)).
  assert (E : sumn N (fun i => (w i * p i * m i) * m i) = sumn N (fun i => w i * p i * g i * m i)).
  { unfold m at 2. rewrite (osum_sym N own (fun k => p k * g k) (fun i => w i * p i * m i)).
    apply sumn_ext. intros i Hi.
    rewrite (osum_ext _ _ _ _ (fun k => (w i * m i) * p k)).
    - rewrite osum_scal_l, Hp by exact Hi. ring.
    - intros k Hk Eo. rewrite (Hw k i Hk Hi Eo). unfold m. rewrite Eo. ring. }
  rewrite (sumn_ext N (fun i => w i * p i * Rsqr (g i - _))
     (fun i => (w i * p i * g i * g i - 2 * (w i * p i * g i * m i)) + w i * p i * m i * m i)).
  2: { intros i _. fold (m i). unfold Rsqr. ring. }
  rewrite sumn_plus, sumn_minus, sumn_scal_l, E. unfold m. ring.
Qed.

(** Bilinearity. *)
Lemma Qf_sum_l N own w p n (z : vec) (L : mat) r :
  sumn n (fun a => z a * Qf N own w p (fun i => L i a) r) =
  Qf N own w p (fun i => sumn n (fun a => z a * L i a)) r.
Proof.
  unfold Qf.
  rewrite (sumn_ext n _ (fun a =>
     sumn N (fun i => z a * (w i * p i * L i a * r i))
     - sumn N (fun i => z a * (w i * p i * L i a * osum N own (own i) (fun k => p k * r k))))).
  2: { intros a _. rewrite !sumn_scal_l. ring. }
  rewrite sumn_minus, !(sumn_swap n N). f_equal; apply sumn_ext; intros i _.
  - rewrite (sumn_ext n _ (fun a => w i * p i * r i * (z a * L i a))) by (intros; ring).
    rewrite sumn_scal_l. ring.
  - rewrite (sumn_ext n _ (fun a => w i * p i * osum N own (own i) (fun k => p k * r k) * (z a * L i a))) by (intros; ring).
    rewrite sumn_scal_l. ring.
Qed.

Lemma osum_sumn N own o n (f : mat) :
  osum N own o (fun i => sumn n (fun a => f i a)) = sumn n (fun a => osum N own o (fun i => f i a)).
Proof.
  unfold osum. rewrite sumn_swap. apply sumn_ext. intros i _.
  destruct (own i =? o)%nat; [reflexivity|symmetry; apply sumn_zero].
Qed.

Lemma Qf_sum_r N own w p n (z : vec) (L : mat) l :
  sumn n (fun a => z a * Qf N own w p l (fun i => L i a)) =
  Qf N own w p l (fun i => sumn n (fun a => z a * L i a)).
Proof.
  unfold Qf.
  rewrite (sumn_ext n _ (fun a =>
     sumn N (fun i => z a * (w i * p i * l i * L i a))
     - sumn N (fun i => z a * (w i * p i * l i * osum N own (own i) (fun k => p k * L k a))))).
  2: { intros a _. rewrite !sumn_scal_l. ring. }
  rewrite sumn_minus, !(sumn_swap n N). f_equal; apply sumn_ext; intros i _.
  - rewrite (sumn_ext n _ (fun a => w i * p i * l i * (z a * L i a))) by (intros; ring).
    rewrite sumn_scal_l. ring.
  - rewrite (osum_ext N own (own i) (fun k => p k * sumn n (fun a => z a * L k a))
              (fun k => sumn n (fun a => z a * (p k * L k a)))).
    2: { intros k _ _. rewrite <- sumn_scal_l. apply sumn_ext. intros; ring. }
    rewrite osum_sumn. rewrite <- sumn_scal_l. apply sumn_ext. intros a _.
    rewrite osum_scal_l. ring.
Qed.

Lemma quad_Qf N own w p n (L : mat) z :
  quad n (fun a b => Qf N own w p (fun i => L i a) (fun i => L i b)) z =
  Qf N own w p (fun i => sumn n (fun a => z a * L i a)) (fun i => sumn n (fun a => z a * L i a)).
Proof.
  unfold quad. rewrite <- Qf_sum_l. apply sumn_ext. intros a _.
  rewrite <- Qf_sum_r, <- sumn_scal_l. apply sumn_ext. intros b _. ring.
Qed.

Lemma quad_ident n c z : quad n (fun a b => c * ident a b) z = c * sumn n (fun a => Rsqr (z a)).
Proof.
  unfold quad. rewrite <- sumn_scal_l. apply sumn_ext. intros a Ha.
  rewrite (sumn_ext n _ (fun b => if (a =? b)%nat then c * Rsqr (z a) else 0)).
  - apply (sumn_single' n a (fun _ => c * Rsqr (z a)) Ha).
  - intros b _. unfold ident, Rsqr. destruct (Nat.eqb_spec a b); [subst|]; ring.
Qed.

Lemma quad_plus n A B z : quad n (fun a b => A a b + B a b) z = quad n A z + quad n B z.
Proof.
  unfold quad. rewrite <- sumn_plus. apply sumn_ext. intros i _.
  rewrite <- sumn_plus. apply sumn_ext. intros j _. ring.
Qed.

Lemma quad_opp n A z : quad n (fun a b => - A a b) z = - quad n A z.
Proof.
  unfold quad. rewrite <- sumn_opp. apply sumn_ext. intros i _.
  rewrite <- sumn_opp. apply sumn_ext. intros j _. ring.
Qed.

Lemma quad_ext n A B z :
  (forall a b, (a < n)%nat -> (b < n)%nat -> A a b = B a b) -> quad n A z = quad n B z.
Proof.
  intros H. apply sumn_ext. intros i Hi. apply sumn_ext. intros j Hj. rewrite H by assumption. reflexivity.
Qed.

Lemma ltb_0 n : (n <? 0)%nat = false.
Proof. reflexivity. Qed.

(** The probabilities at a parameter vector. *)
Definition probs_at (k : logit_kind) (D : Data) (th : arr) : vec :=
  long_probs (model_of k) D (sh k (d_J D) th) (ic k (d_J D) th) (be k (d_J D) (d_K D) th).

Lemma hess_form k D own th :
  (0 < d_K D)%nat -> alen th = (num_shapes k (d_J D) + num_icpts k (d_J D) + d_K D)%nat ->
  indicator_of (d_N D) (d_obs D) (d_M D) own ->
  (k = KMNL \/ weights_per_observation (d_N D) own (eff_weights (d_w D))) ->
  exists H, est_hessian k D th = Ok H /\ sqn H = alen th /\
    forall a b, (a < alen th)%nat -> (b < alen th)%nat ->
      sqe H a b =
      - Qf (d_N D) own (eff_weights (d_w D)) (probs_at k D th)
          (fun i => DH k D th i a) (fun i => DH k D th i b)
      - 2 * ridge_or_0 D * ident a b.
Proof.
  intros HK HL Hown Hw. unfold est_hessian. rewrite split_eq by assumption.
  unfold calc_hessian. fold (probs_at k D th). set (p := probs_at k D th).
  set (v := sys_utilities D (be k (d_J D) (d_K D) th)).
  cbv zeta.
  set (q := fun (l r : mat) => fun a b => -1 * quadratic_prod_wrt_dp_ds D (transp l) r p (d_w D) a b).
  set (W := eff_weights (d_w D)) in *.
  assert (Eq : forall l r a b, q l r a b = - Qf (d_N D) own W p (fun i => l i a) (fun i => r i b)).
  { intros. unfold q. rewrite (quadratic_prod_eq D own) by exact Hown. unfold W. ring. }
  assert (HS : has_shape k = false -> num_shapes k (d_J D) = 0%nat) by (destruct k; simpl; congruence).
  assert (CORE : exists H0,
    match sh k (d_J D) th with
    | Some _ =>
        match ic k (d_J D) th with
        | Some _ =>
            match m_dh_dc (model_of k) (d_J D) (d_A D) v (sh k (d_J D) th) with
            | Some c =>
               match m_dh_da (model_of k) (d_J D) (d_A D) v (ic k (d_J D) th) with
               | Some a =>
                let db := dh_db (model_of k) D (sh k (d_J D) th) (be k (d_J D) (d_K D) th) in
                Ok (mkSq (ccols c + (ccols a + d_K D))
                   (vstack (ccols c) (hcat (ccols c) (q (cent c) (cent c)) (hcat (ccols a) (transp (q (cent a) (cent c))) (transp (q db (cent c)))))
                   (vstack (ccols a) (hcat (ccols c) (q (cent a) (cent c)) (hcat (ccols a) (q (cent a) (cent a)) (transp (q db (cent a)))))
                       (hcat (ccols c) (q db (cent c)) (hcat (ccols a) (q db (cent a)) (q db db))))))
               | None => Err TypeError
               end
            | None => Err TypeError
            end
        | None =>
            match m_dh_dc (model_of k) (d_J D) (d_A D) v (sh k (d_J D) th) with
            | Some c =>
                let db := dh_db (model_of k) D (sh k (d_J D) th) (be k (d_J D) (d_K D) th) in
                Ok (mkSq (ccols c + d_K D) (vstack (ccols c) (hcat (ccols c) (q (cent c) (cent c)) (transp (q db (cent c))))
                                       (hcat (ccols c) (q db (cent c)) (q db db))))
            | None => Err TypeError
            end
        end
    | None =>
        match ic k (d_J D) th with
        | Some _ =>
            match m_dh_da (model_of k) (d_J D) (d_A D) v (ic k (d_J D) th) with
            | Some a =>
                let db := dh_db (model_of k) D (sh k (d_J D) th) (be k (d_J D) (d_K D) th) in
                Ok (mkSq (ccols a + d_K D) (vstack (ccols a) (hcat (ccols a) (q (cent a) (cent a)) (transp (q db (cent a))))
                                       (hcat (ccols a) (q db (cent a)) (q db db))))
            | None => Err TypeError
            end
        | None =>
            let db := dh_db (model_of k) D (sh k (d_J D) th) (be k (d_J D) (d_K D) th) in
            Ok (mkSq (d_K D) (q db db))
        end
    end = Ok H0 /\ sqn H0 = alen th /\
    forall a b, (a < alen th)%nat -> (b < alen th)%nat ->
      sqe H0 a b = - Qf (d_N D) own W p (fun i => DH k D th i a) (fun i => DH k D th i b)).
  { unfold DH. fold v. cbv zeta.
    set (B := dh_db (model_of k) D (sh k (d_J D) th) (be k (d_J D) (d_K D) th)).
    destruct (has_shape k) eqn:Eh.
    - assert (Hw' : weights_per_observation (d_N D) own W).
      { destruct Hw as [->|Hw]; [discriminate|exact Hw]. }
      destruct (dh_dc_some k (d_J D) (d_A D) v (sh k (d_J D) th) Eh) as [c Ec].
      pose proof (dh_dc_cols _ _ _ _ _ _ Ec) as Ecc. rewrite Ec.
      assert (Es : sh k (d_J D) th = Some (aslice 0 (num_shapes k (d_J D)) th))
        by (unfold sh; rewrite Eh; reflexivity).
      rewrite Es.
      destruct (Nat.ltb_spec 0 (num_icpts k (d_J D))) as [Hi|Hi].
      + destruct (dh_da_some k (d_J D) (d_A D) v (ic k (d_J D) th) Hi) as (r & Er & Ea).
        rewrite Ea.
        assert (Ei : ic k (d_J D) th = Some (aslice (num_shapes k (d_J D)) (num_icpts k (d_J D)) th)).
        { unfold ic. destruct (Nat.ltb_spec 0 (num_icpts k (d_J D))); [reflexivity|lia]. }
        rewrite Ei. eexists. split; [reflexivity|]. split; [cbn; lia|].
        intros a b Ha Hb. cbn [sqe ccols cent cent_or_zero]. rewrite Ecc.
        unfold vstack, hcat, vcat, transp.
        destruct (Nat.ltb_spec a (num_shapes k (d_J D)));
        destruct (Nat.ltb_spec b (num_shapes k (d_J D)));
        try destruct (Nat.ltb_spec (a - num_shapes k (d_J D)) (num_icpts k (d_J D)));
        try destruct (Nat.ltb_spec (b - num_shapes k (d_J D)) (num_icpts k (d_J D)));
        rewrite Eq; f_equal; first [reflexivity | apply Qf_sym; exact Hw'].
      + assert (Ei : ic k (d_J D) th = None).
        { unfold ic. destruct (Nat.ltb_spec 0 (num_icpts k (d_J D))); [lia|reflexivity]. }
        assert (E0 : num_icpts k (d_J D) = 0%nat) by lia.
        rewrite Ei. eexists. split; [reflexivity|]. split; [cbn; lia|].
        intros a b Ha Hb. cbn [sqe ccols cent cent_or_zero]. rewrite Ecc, E0.
        unfold vstack, hcat, vcat, transp. rewrite ?ltb_0, ?Nat.sub_0_r.
        destruct (Nat.ltb_spec a (num_shapes k (d_J D)));
        destruct (Nat.ltb_spec b (num_shapes k (d_J D)));
        rewrite Eq; f_equal; first [reflexivity | apply Qf_sym; exact Hw'].
    - assert (Es : sh k (d_J D) th = None) by (unfold sh; rewrite Eh; reflexivity).
      rewrite Es. specialize (HS eq_refl).
      destruct (Nat.ltb_spec 0 (num_icpts k (d_J D))) as [Hi|Hi].
      + assert (Hw' : weights_per_observation (d_N D) own W).
        { destruct Hw as [->|Hw]; [cbn in Hi; lia|exact Hw]. }
        destruct (dh_da_some k (d_J D) (d_A D) v (ic k (d_J D) th) Hi) as (r & Er & Ea).
        rewrite Ea.
        assert (Ei : ic k (d_J D) th = Some (aslice (num_shapes k (d_J D)) (num_icpts k (d_J D)) th)).
        { unfold ic. destruct (Nat.ltb_spec 0 (num_icpts k (d_J D))); [reflexivity|lia]. }
        rewrite Ei. eexists. split; [reflexivity|]. split; [cbn; lia|].
        intros a b Ha Hb. cbn [sqe ccols cent cent_or_zero]. rewrite HS.
        unfold vstack, hcat, vcat, transp. rewrite ?ltb_0, ?Nat.sub_0_r.
        destruct (Nat.ltb_spec a (num_icpts k (d_J D)));
        destruct (Nat.ltb_spec b (num_icpts k (d_J D)));
        rewrite Eq; f_equal; first [reflexivity | apply Qf_sym; exact Hw'].
      + assert (Ei : ic k (d_J D) th = None).
        { unfold ic. destruct (Nat.ltb_spec 0 (num_icpts k (d_J D))); [lia|reflexivity]. }
        assert (E0 : num_icpts k (d_J D) = 0%nat) by lia.
        rewrite Ei. eexists. split; [reflexivity|]. split; [cbn; lia|].
        intros a b Ha Hb. cbn [sqe ccols cent cent_or_zero]. rewrite HS, E0.
        unfold hcat, vcat. rewrite ?ltb_0, ?Nat.sub_0_r.
        rewrite Eq; reflexivity. }
  destruct CORE as (H0 & E0 & L0 & G0). unfold q in E0.
  unfold ridge_or_0.
  match goal with |- exists H, bind ?x _ = _ /\ _ => assert (Ex : x = Ok H0) end.
  { rewrite <- E0. destruct (sh k (d_J D) th), (ic k (d_J D) th); try reflexivity;
    destruct (m_dh_dc (model_of k) (d_J D) (d_A D) v _); try reflexivity. }
  rewrite Ex. cbn [bind].
  destruct (d_ridge D) as [r|].
  - eexists. split; [reflexivity|]. split; [exact L0|]. intros a b Ha Hb. cbn [sqe].
    rewrite G0 by assumption. reflexivity.
  - eexists. split; [reflexivity|]. split; [exact L0|]. intros a b Ha Hb.
    rewrite G0 by assumption. ring.
Qed.

(** ** BHHH matrix *)

Lemma fisher_form k D th :
  (0 < d_K D)%nat -> alen th = (num_shapes k (d_J D) + num_icpts k (d_J D) + d_K D)%nat ->
  exists F, est_fisher k D th = Ok F /\ sqn F = alen th /\
    forall a b, (a < alen th)%nat -> (b < alen th)%nat ->
      sqe F a b =
      sumn (d_obs D) (fun o =>
        sumn (d_N D) (fun i => d_M D i o * ((d_y D i - probs_at k D th i) * DH k D th i a)) *
        (weights_per_obs D o *
         sumn (d_N D) (fun i => d_M D i o * ((d_y D i - probs_at k D th i) * DH k D th i b))))
      - 2 * ridge_or_0 D * ident a b.
Proof.
  intros HK HL. unfold est_fisher. rewrite split_eq by assumption.
  unfold calc_fisher_info_matrix. fold (probs_at k D th). set (p := probs_at k D th).
  set (v := sys_utilities D (be k (d_J D) (d_K D) th)). cbv zeta.
  assert (HS : has_shape k = false -> num_shapes k (d_J D) = 0%nat) by (destruct k; simpl; congruence).
  match goal with |- exists F, bind ?x _ = _ /\ _ =>
    assert (CORE : exists c0, x = Ok c0 /\ ccols c0 = alen th /\
      forall i a, (a < alen th)%nat -> cent c0 i a = DH k D th i a) end.
  { unfold DH. fold v. cbv zeta.
    set (B := dh_db (model_of k) D (sh k (d_J D) th) (be k (d_J D) (d_K D) th)).
    destruct (has_shape k) eqn:Eh.
    - destruct (dh_dc_some k (d_J D) (d_A D) v (sh k (d_J D) th) Eh) as [c Ec].
      pose proof (dh_dc_cols _ _ _ _ _ _ Ec) as Ecc. rewrite Ec.
      assert (Es : sh k (d_J D) th = Some (aslice 0 (num_shapes k (d_J D)) th))
        by (unfold sh; rewrite Eh; reflexivity).
      rewrite Es.
      destruct (Nat.ltb_spec 0 (num_icpts k (d_J D))) as [Hi|Hi].
      + destruct (dh_da_some k (d_J D) (d_A D) v (ic k (d_J D) th) Hi) as (r & Er & Ea).
        rewrite Ea.
        assert (Ei : ic k (d_J D) th = Some (aslice (num_shapes k (d_J D)) (num_icpts k (d_J D)) th)).
        { unfold ic. destruct (Nat.ltb_spec 0 (num_icpts k (d_J D))); [reflexivity|lia]. }
        rewrite Ei. eexists. split; [reflexivity|]. split; [cbn; lia|].
        intros i a Ha. cbn [ccols cent cent_or_zero]. rewrite Ecc. reflexivity.
      + assert (Ei : ic k (d_J D) th = None).
        { unfold ic. destruct (Nat.ltb_spec 0 (num_icpts k (d_J D))); [lia|reflexivity]. }
        assert (E0 : num_icpts k (d_J D) = 0%nat) by lia.
        rewrite Ei. eexists. split; [reflexivity|]. split; [cbn; lia|].
        intros i a Ha. cbn [ccols cent cent_or_zero]. rewrite Ecc, E0.
        unfold hcat, vcat. rewrite ?ltb_0, ?Nat.sub_0_r. reflexivity.
    - assert (Es : sh k (d_J D) th = None) by (unfold sh; rewrite Eh; reflexivity).
      rewrite Es. specialize (HS eq_refl).
      destruct (Nat.ltb_spec 0 (num_icpts k (d_J D))) as [Hi|Hi].
      + destruct (dh_da_some k (d_J D) (d_A D) v (ic k (d_J D) th) Hi) as (r & Er & Ea).
        rewrite Ea.
        assert (Ei : ic k (d_J D) th = Some (aslice (num_shapes k (d_J D)) (num_icpts k (d_J D)) th)).
        { unfold ic. destruct (Nat.ltb_spec 0 (num_icpts k (d_J D))); [reflexivity|lia]. }
        rewrite Ei. eexists. split; [reflexivity|]. split; [cbn; lia|].
        intros i a Ha. cbn [ccols cent cent_or_zero]. rewrite HS.
        unfold hcat, vcat. rewrite ?ltb_0, ?Nat.sub_0_r. reflexivity.
      + assert (Ei : ic k (d_J D) th = None).
        { unfold ic. destruct (Nat.ltb_spec 0 (num_icpts k (d_J D))); [lia|reflexivity]. }
        assert (E0 : num_icpts k (d_J D) = 0%nat) by lia.
        rewrite Ei. eexists. split; [reflexivity|]. split; [cbn; lia|].
        intros i a Ha. cbn [ccols cent cent_or_zero]. rewrite HS, E0.
        unfold hcat, vcat. rewrite ?ltb_0, ?Nat.sub_0_r. reflexivity. }
  destruct CORE as (c0 & E0 & L0 & G0). rewrite E0. cbn [bind]. unfold ridge_or_0.
  assert (F0 : forall a b, (a < alen th)%nat -> (b < alen th)%nat ->
     mdot (d_obs D) (transp (mdot (d_N D) (transp (d_M D)) (fun i k0 => (d_y D i - p i) * cent c0 i k0)))
       (fun o k0 => weights_per_obs D o * mdot (d_N D) (transp (d_M D)) (fun i k1 => (d_y D i - p i) * cent c0 i k1) o k0) a b
     = sumn (d_obs D) (fun o =>
        sumn (d_N D) (fun i => d_M D i o * ((d_y D i - p i) * DH k D th i a)) *
        (weights_per_obs D o *
         sumn (d_N D) (fun i => d_M D i o * ((d_y D i - p i) * DH k D th i b))))).
  { intros a b Ha Hb. unfold mdot, transp. apply sumn_ext. intros o _.
    f_equal; [|f_equal]; apply sumn_ext; intros i _; rewrite G0 by assumption; reflexivity. }
  destruct (d_ridge D) as [r|].
  - eexists. split; [reflexivity|]. split; [exact L0|]. intros a b Ha Hb. cbn [sqe].
    rewrite F0 by assumption. reflexivity.
  - eexists. split; [reflexivity|]. split; [exact L0|]. intros a b Ha Hb. cbn [sqe].
    rewrite F0 by assumption. ring.
Qed.
