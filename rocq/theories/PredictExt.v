(** Predictions only read the entries of the parameter arrays. *)
From Coq Require Import String ZArith List Reals Lia Lra Arith Bool FunctionalExtensionality.
From Verif Require Import Res Vec Arr ChoiceCalcs Ids Mappings LongData Transforms Frame ChoiceTools BaseModel
  NestedCalcs MixedCalcs Estimation Predict.
Import ListNotations.
Open Scope R_scope.

(** Equal length and equal entries. *)
Definition arr_eq (a b : arr) : Prop := alen a = alen b /\ forall i, (i < alen a)%nat -> aget a i = aget b i.
Definition opt_arr_eq (a b : option arr) : Prop :=
  match a, b with Some x, Some y => arr_eq x y | None, None => True | _, _ => False end.

Lemma mvec_ext n (A : mat) u v : (forall j, (j < n)%nat -> u j = v j) -> mvec n A u = mvec n A v.
Proof. intros H. apply functional_extensionality. intros i. unfold mvec. apply sumn_ext. intros j Hj. rewrite H by exact Hj. reflexivity. Qed.

Lemma sys_utilities_ext D b b' : arr_eq b b' -> alen b = d_K D -> sys_utilities D b = sys_utilities D b'.
Proof. intros (L & H) E. unfold sys_utilities. apply mvec_ext. intros j Hj. apply H. lia. Qed.

Lemma long_intercepts_ext J A ref a a' : (ref < J)%nat -> alen a = (J - 1)%nat -> arr_eq a a' ->
  long_intercepts J A (Some ref) (Some a) = long_intercepts J A (Some ref) (Some a').
Proof.
  intros Hr L (_ & H). unfold long_intercepts. apply mvec_ext. intros j Hj. unfold fill_others.
  destruct (Nat.eqb_spec j ref); [reflexivity|]. destruct (Nat.ltb_spec j ref); apply H; lia.
Qed.

Lemma natural_shapes_ext J A s s' : alen s = J -> arr_eq s s' ->
  long_natural_shapes J A (Some s) = long_natural_shapes J A (Some s').
Proof. intros L (_ & H). unfold long_natural_shapes. apply mvec_ext. intros j Hj. rewrite H by lia. reflexivity. Qed.

Lemma asym_shapes_ext sref J A e e' : (sref <= alen e)%nat -> (alen e + 1 = J)%nat -> arr_eq e e' ->
  asym_long_shapes sref J A (Some e) = asym_long_shapes sref J A (Some e').
Proof.
  intros Hs L (L' & H). unfold asym_long_shapes. apply mvec_ext. intros j Hj. cbn [asym_natural_shapes]. unfold convert_eta_to_c.
  rewrite <- L'.
  rewrite (sumn_ext (alen e) (fun k => if Req_EM_T (exp (aget e k)) 0 then min_comp_value else exp (aget e k))
                    (fun k => if Req_EM_T (exp (aget e' k)) 0 then min_comp_value else exp (aget e' k)))
    by (intros k Hk; rewrite H by exact Hk; reflexivity).
  unfold fill_others. destruct (Nat.eqb_spec j sref); [reflexivity|].
  destruct (Nat.ltb_spec j sref); rewrite H by lia; reflexivity.
Qed.

(** Transforms with the intercepts that place_intercepts has checked. *)
Lemma place_ext k J a a' : opt_arr_eq a a' ->
  match place_intercepts k J a with
  | Ok i => exists i', place_intercepts k J a' = Ok i' /\ forall A, long_intercepts J A (kind_iref k) i = long_intercepts J A (kind_iref k) i'
  | Err e => place_intercepts k J a' = Err e
  end.
Proof.
  intros H. unfold place_intercepts. destruct a as [a|], a' as [a'|]; try contradiction.
  2:{ destruct k, (kind_iref _); (eexists; split; [reflexivity|intros; reflexivity]). }
  cbn [opt_arr_eq] in H. pose proof H as (L & E).
  assert (G : forall ref, match (if negb (ref <? J)%nat then Err ValueError
     else if (alen a =? J - 1)%nat then Ok (Some a) else if (alen a =? 1)%nat then Ok (Some (mkArr (J - 1) (fun _ => aget a 0%nat))) else Err ValueError) with
    | Ok i => exists i', (if negb (ref <? J)%nat then Err ValueError
     else if (alen a' =? J - 1)%nat then Ok (Some a') else if (alen a' =? 1)%nat then Ok (Some (mkArr (J - 1) (fun _ => aget a' 0%nat))) else Err ValueError) = Ok i' /\
       forall A, long_intercepts J A (Some ref) i = long_intercepts J A (Some ref) i'
    | Err e => (if negb (ref <? J)%nat then Err ValueError
     else if (alen a' =? J - 1)%nat then Ok (Some a') else if (alen a' =? 1)%nat then Ok (Some (mkArr (J - 1) (fun _ => aget a' 0%nat))) else Err ValueError) = Err e end).
  { intros ref. rewrite <- L. destruct (Nat.ltb_spec ref J) as [Hr|]; cbn [negb]; [|reflexivity].
    destruct (Nat.eqb_spec (alen a) (J - 1)) as [Ea|Ea].
    - eexists. split; [reflexivity|]. intros A. apply long_intercepts_ext; assumption.
    - destruct (Nat.eqb_spec (alen a) 1) as [E1|]; [|reflexivity]. eexists. split; [reflexivity|]. intros A. rewrite E by lia. reflexivity. }
  destruct k as [|[ref|]|[ref|]|[ref|]|sref [ref|]]; cbn [kind_iref];
    try (eexists; split; [reflexivity|intros; reflexivity]); try apply G.
  rewrite <- L. destruct (negb (ref <=? alen a)%nat); [reflexivity|].
  destruct (if (ref =? alen a)%nat then (alen a <=? J)%nat else (alen a <? J)%nat); [|reflexivity].
  eexists. split; [reflexivity|]. intros A.
  replace (fun i => if (i <? alen a)%nat then aget a' i else 0) with (fun i => if (i <? alen a)%nat then aget a i else 0); [reflexivity|].
  apply functional_extensionality. intros i. destruct (Nat.ltb_spec i (alen a)); [apply E; assumption|reflexivity].
Qed.

Lemma shapes_ext k J s s' : opt_arr_eq s s' -> check_shapes k J s = check_shapes k J s'.
Proof.
  intros H. unfold check_shapes. destruct k; try reflexivity; destruct s as [s|], s' as [s'|]; try contradiction; try reflexivity;
    destruct H as (<- & _); reflexivity.
Qed.

Lemma transform_ext k D s s' i i' b b' :
  opt_arr_eq s s' -> check_shapes k (d_J D) s = Ok tt -> arr_eq b b' -> alen b = d_K D ->
  (forall A, long_intercepts (d_J D) A (kind_iref k) i = long_intercepts (d_J D) A (kind_iref k) i') ->
  m_transform (model_of k) (d_J D) (d_A D) (sys_utilities D b) s i =
  m_transform (model_of k) (d_J D) (d_A D) (sys_utilities D b') s' i'.
Proof.
  intros Hs Hc Hb Lb Hi. rewrite (sys_utilities_ext D b b' Hb Lb). specialize (Hi (d_A D)).
  destruct k as [|iref|iref|iref|sref iref]; cbn [model_of MNL_model Clog_model Scobit_model Uneven_model Asym_model m_transform kind_iref] in *.
  - reflexivity.
  - unfold cloglog_transform. rewrite Hi. reflexivity.
  - unfold check_shapes in Hc. destruct s as [s|], s' as [s'|]; try contradiction; try discriminate.
    destruct (Nat.eqb_spec (alen s) (d_J D)) as [L|]; [|discriminate].
    unfold scobit_transform. rewrite Hi, (natural_shapes_ext _ _ s s' L Hs). reflexivity.
  - unfold check_shapes in Hc. destruct s as [s|], s' as [s'|]; try contradiction; try discriminate.
    destruct (Nat.eqb_spec (alen s) (d_J D)) as [L|]; [|discriminate].
    unfold uneven_transform. rewrite Hi, (natural_shapes_ext _ _ s s' L Hs). reflexivity.
  - unfold check_shapes in Hc. destruct s as [s|], s' as [s'|]; try contradiction; try discriminate.
    destruct (Nat.leb_spec sref (alen s)) as [Ls|]; cbn [negb] in Hc; [|discriminate].
    destruct (Nat.eqb_spec (alen s + 1) (d_J D)) as [L|]; [|discriminate].
    unfold asym_transform. rewrite Hi, (asym_shapes_ext _ _ _ s s' Ls L Hs). reflexivity.
Qed.

Definition params_eq (p q : params) : Prop :=
  arr_eq (pr_coefs p) (pr_coefs q) /\ opt_arr_eq (pr_intercepts p) (pr_intercepts q) /\
  opt_arr_eq (pr_shapes p) (pr_shapes q) /\ opt_arr_eq (pr_nests p) (pr_nests q).

Lemma predict_logit_ext k D p q C rlp : params_eq p q -> predict_logit k D p C rlp = predict_logit k D q C rlp.
Proof.
  intros (Hb & Hi & Hs & _). unfold predict_logit. pose proof Hb as (Lb & _). rewrite <- Lb.
  destruct (Nat.eqb_spec (alen (pr_coefs p)) (d_K D)) as [LK|]; cbn [bind]; [|reflexivity].
  pose proof (place_ext k (d_J D) _ _ Hi) as P. destruct (place_intercepts k (d_J D) (pr_intercepts p)) as [i|e].
  2:{ rewrite P. reflexivity. }
  destruct P as (i' & -> & P). cbn [bind]. rewrite <- (shapes_ext k (d_J D) _ _ Hs).
  destruct (check_shapes k (d_J D) (pr_shapes p)) as [[]|] eqn:Ec; cbn [bind]; [|reflexivity].
  assert (E : long_exponentials (model_of k) D (pr_shapes p) i (pr_coefs p) = long_exponentials (model_of k) D (pr_shapes q) i' (pr_coefs q)).
  { unfold long_exponentials. rewrite (transform_ext k D _ _ i i' _ _ Hs Ec Hb LK P). reflexivity. }
  unfold calc_probabilities, long_probs, chosen_probs. rewrite E. reflexivity.
Qed.

Lemma predict_nested_ext E p q C rlp : params_eq p q -> predict_nested E p C rlp = predict_nested E q C rlp.
Proof.
  intros (Hb & _ & _ & Hn). unfold predict_nested. destruct (pr_nests p) as [n|], (pr_nests q) as [n'|]; try contradiction; [|reflexivity].
  destruct Hn as (Ln & Hn). pose proof Hb as (Lb & _). rewrite <- Ln, <- Lb. cbv zeta.
  destruct (Nat.eqb_spec (alen n) (n_Q E)) as [LQ|]; cbn [bind]; [|reflexivity].
  destruct (Nat.eqb_spec (alen (pr_coefs p)) (d_K (n_D E))) as [LK|]; cbn [bind]; [|reflexivity].
  assert (Es := sys_utilities_ext (n_D E) _ _ Hb LK).
  set (u := naturalize_nest_coefs (aget n)). set (u' := naturalize_nest_coefs (aget n')).
  assert (Hu : forall j, (j < n_Q E)%nat -> u j = u' j) by (intros j Hj; unfold u, u', naturalize_nest_coefs; rewrite Hn by lia; reflexivity).
  assert (El : long_nest_coefs E u = long_nest_coefs E u') by (unfold long_nest_coefs; apply mvec_ext; exact Hu).
  assert (Ee : exp_scaled_index E u (pr_coefs p) = exp_scaled_index E u' (pr_coefs q)).
  { unfold exp_scaled_index, scaled_index. rewrite Es, El. reflexivity. }
  assert (Ei : ind_exp_sums_per_nest E u (pr_coefs p) = ind_exp_sums_per_nest E u' (pr_coefs q)).
  { unfold ind_exp_sums_per_nest. rewrite Ee. reflexivity. }
  assert (Ed : ind_denom E u (pr_coefs p) = ind_denom E u' (pr_coefs q)).
  { apply functional_extensionality. intros o. unfold ind_denom. f_equal. apply sumn_ext. intros j Hj. rewrite Ei, Hu by exact Hj. reflexivity. }
  assert (Elong : nested_long_probs E u (pr_coefs p) = nested_long_probs E u' (pr_coefs q)).
  { unfold nested_long_probs, long_numerators, long_exp_sums. rewrite Ed, Ei, Ee, El. reflexivity. }
  unfold calc_nested_probs. destruct rlp; [rewrite Elong; reflexivity|]. destruct C; [|reflexivity].
  cbn [bind]. unfold nested_chosen_probs. rewrite Elong. reflexivity.
Qed.


Lemma mixed_predict_ext E b b' C rlp : arr_eq b b' -> alen b = x_vars E -> mixed_predict E b C rlp = mixed_predict E b' C rlp.
Proof.
  intros H L. unfold mixed_predict.
  assert (Ee : forall r, long_exponentials MNL_model (draw_data E r) None None b = long_exponentials MNL_model (draw_data E r) None None b').
  { intros r. unfold long_exponentials. rewrite (sys_utilities_ext (draw_data E r) b b' H L). reflexivity. }
  assert (Ep : prob_array E b = prob_array E b').
  { apply functional_extensionality. intros i. apply functional_extensionality. intros r.
    unfold prob_array, long_probs. rewrite Ee. reflexivity. }
  assert (Ec : forall c, chosen_array E c b = chosen_array E c b').
  { intros c. apply functional_extensionality. intros i. apply functional_extensionality. intros r.
    unfold chosen_array, chosen_probs. unfold long_probs. rewrite Ee. reflexivity. }
  destruct C, rlp; try reflexivity; rewrite ?Ep, ?Ec; reflexivity.
Qed.

Lemma predict_mixed_ext d mp K X pos p q nd rvs C rlp : arr_eq (pr_coefs p) (pr_coefs q) ->
  predict_mixed d mp K X pos p nd rvs C rlp = predict_mixed d mp K X pos q nd rvs C rlp.
Proof.
  intros H. unfold predict_mixed. destruct (opt_smat (rows_to_mixers mp)); [|reflexivity]. cbn [bind].
  destruct nd as [nR|]; [|reflexivity]. destruct (get_normal_draws _ _ _ _); [|reflexivity]. cbn [bind].
  destruct (mixed_data_of _ _ _ _ _ _ _ _) as [E|]; [|reflexivity]. cbn [bind].
  pose proof H as (L & _). rewrite <- L. destruct (Nat.eqb_spec (alen (pr_coefs p)) (x_vars E)) as [Lx|]; [|reflexivity].
  cbn [bind]. apply mixed_predict_ext; assumption.
Qed.

(** Two objects whose stored parameters have the same entries predict the same. *)
Definition same_estimates (m n : fitted_model) : Prop :=
  arr_eq (fm_coefs m) (fm_coefs n) /\ opt_arr_eq (fm_intercepts m) (fm_intercepts n) /\
  opt_arr_eq (fm_shapes m) (fm_shapes n) /\ opt_arr_eq (fm_nests m) (fm_nests n).

Lemma predict_ext c ac oc mc sp ns nm b i s q b' i' s' q' f long ch nd rvs :
  same_estimates (mkFitted c ac oc mc sp ns nm b i s q) (mkFitted c ac oc mc sp ns nm b' i' s' q') ->
  predict (mkFitted c ac oc mc sp ns nm b i s q) f None long ch nd rvs =
  predict (mkFitted c ac oc mc sp ns nm b' i' s' q') f None long ch nd rvs.
Proof.
  intros (Hb & Hi & Hs & Hq). cbn [fm_coefs fm_intercepts fm_shapes fm_nests] in *.
  unfold predict. cbn [fm_spec fm_alt_col fm_obs_col fm_mix_col fm_names fm_name_spec fm_class prediction_params fm_coefs fm_intercepts fm_shapes fm_nests].
  repeat match goal with |- bind ?x _ = bind ?x _ => destruct x; cbn [bind]; [|reflexivity] end.
  assert (Hp : params_eq (mkParams b i s q) (mkParams b' i' s' q')) by (repeat split; assumption || apply Hb).
  destruct c as [k|n|pos].
  - apply predict_logit_ext. exact Hp.
  - destruct (opt_smat _); [|reflexivity]. cbn [bind]. apply predict_nested_ext. exact Hp.
  - apply predict_mixed_ext. exact Hb.
Qed.
