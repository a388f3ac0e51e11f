(** C38 and C112 for the nested logit: copied observations, observations of weight
    zero and the order of the rows. *)
From Coq Require Import String ZArith List Reals Lra Lia Arith Bool.
From Coquelicot Require Import Coquelicot.
From Verif Require Import Res Vec Arr SpecLogit ChoiceCalcs ChoiceFacts Transforms Ids Mappings
  MappingFacts LongData LogitFacts RowDeriv HessFacts ProbFacts PropMappings PropProbs PropGradient
  PropHessian Frame ChoiceTools BaseModel PropBaseModel NestedCalcs NestedFacts PropNested
  PropDesign WideLong PropWideLong BootSampler PropBootSampler PropBootFrame PropBootWeights
  PropLikelihood PropPooled PropCopies PropNestOrder.
Import ListNotations.
Open Scope R_scope.

(** ** Specification *)

(** Row r of the second table has the probability of row [phi r] of the first. *)
Definition nested_same_probs (E E' : NData) (phi : nat -> nat) (theta : arr) : Prop :=
  forall C C' pc pl, nested_est_probs E (Some C) theta = Ok (NProbs (BothProbs pc pl)) ->
    exists pc' pl', nested_est_probs E' (Some C') theta = Ok (NProbs (BothProbs pc' pl')) /\
      forall r, (r < d_N (n_D E'))%nat -> pl' r = pl (phi r).

(** The same log-likelihood, gradient and Hessian (which is the BHHH matrix, with the
    rows and columns of the constrained positions replaced) at [theta]. *)
Definition nested_same_estimation (E E' : NData) (theta : arr) : Prop :=
  nested_est_log_likelihood E' theta = nested_est_log_likelihood E theta /\
  alen (nested_est_gradient E' theta) = alen (nested_est_gradient E theta) /\
  (forall a, (a < alen theta)%nat -> aget (nested_est_gradient E' theta) a = aget (nested_est_gradient E theta) a) /\
  forall cp, sqn (nested_est_hessian E' cp theta) = sqn (nested_est_hessian E cp theta) /\
    forall a b, (a < alen theta)%nat -> (b < alen theta)%nat ->
      sqe (nested_est_hessian E' cp theta) a b = sqe (nested_est_hessian E cp theta) a b.

(** ** The calculations on related tables *)
Section Related.
  Context (E E' : NData) (phi psi : nat -> nat).
  Notation D := (n_D E).
  Notation D' := (n_D E').
  Notation N := (d_N D).
  Notation N' := (d_N D').
  Notation Q := (n_Q E).
  Hypothesis HQ : n_Q E' = Q.
  Hypothesis HK : d_K D' = d_K D.
  Hypothesis Hrdg : d_ridge D' = d_ridge D.
  Hypothesis Hphi : forall r, (r < N')%nat -> (phi r < N)%nat.
  Hypothesis HR : forall r a, (r < N')%nat -> (a < Q)%nat -> n_R E' r a = n_R E (phi r) a.
  Hypothesis HX : forall r k, (r < N')%nat -> (k < d_K D)%nat -> d_X D' r k = d_X D (phi r) k.
  Hypothesis Hy : forall r, (r < N')%nat -> d_y D' r = d_y D (phi r).
  (** sums over the rows of an observation *)
  Hypothesis Hsum : forall (f' f : vec) o, (o < d_obs D')%nat -> (forall r, (r < N')%nat -> f' r = f (phi r)) ->
    sumn N' (fun r => d_M D' r o * f' r) = sumn N (fun i => d_M D i (psi o) * f i).
  (** entry of the row's observation *)
  Hypothesis Hpick : forall (f' f : vec) r, (r < N')%nat -> (forall o, (o < d_obs D')%nat -> f' o = f (psi o)) ->
    sumn (d_obs D') (fun o => d_M D' r o * f' o) = sumn (d_obs D) (fun o => d_M D (phi r) o * f o).
  (** weighted sums *)
  Hypothesis Hrows : forall f' f : vec, (forall r, (r < N')%nat -> f' r = f (phi r)) ->
    sumn N' (fun r => eff_weights (d_w D') r * f' r) = sumn N (fun i => eff_weights (d_w D) i * f i).
  Hypothesis Hobs : forall f' f : vec, (forall o, (o < d_obs D')%nat -> f' o = f (psi o)) ->
    sumn (d_obs D') (fun o => weights_per_obs D' o * f' o) = sumn (d_obs D) (fun o => weights_per_obs D o * f o).
  Context (L : vec) (beta : arr).

  Lemma nc_util r : (r < N')%nat -> sys_utilities D' beta r = sys_utilities D beta (phi r).
  Proof. intros Hr. unfold sys_utilities, mvec. rewrite HK. apply sumn_ext. intros k Hk. rewrite HX by assumption. reflexivity. Qed.

  Lemma nc_lnc r : (r < N')%nat -> long_nest_coefs E' L r = long_nest_coefs E L (phi r).
  Proof. intros Hr. unfold long_nest_coefs, mvec. rewrite HQ. apply sumn_ext. intros a Ha. rewrite HR by assumption. reflexivity. Qed.

  Lemma nc_si r : (r < N')%nat -> scaled_index E' L beta r = scaled_index E L beta (phi r).
  Proof. intros Hr. unfold scaled_index. rewrite nc_util, nc_lnc by exact Hr. reflexivity. Qed.

  Lemma nc_esi r : (r < N')%nat -> exp_scaled_index E' L beta r = exp_scaled_index E L beta (phi r).
  Proof. intros Hr. unfold exp_scaled_index. rewrite nc_si by exact Hr. reflexivity. Qed.

  (** rows_to_obs.T.dot(rows_to_nests * column) *)
  Lemma nc_per_nest (f' f : vec) o a : (forall r, (r < N')%nat -> f' r = f (phi r)) -> (o < d_obs D')%nat -> (a < Q)%nat ->
    mdot N' (transp (d_M D')) (fun r q => n_R E' r q * f' r) o a = mdot N (transp (d_M D)) (fun i q => n_R E i q * f i) (psi o) a.
  Proof.
    intros H Ho Ha. unfold mdot, transp. apply (Hsum (fun r => n_R E' r a * f' r) (fun i => n_R E i a * f i) o Ho).
    intros r Hr. rewrite HR, H by assumption. reflexivity.
  Qed.

  Lemma nc_ies o a : (o < d_obs D')%nat -> (a < Q)%nat ->
    ind_exp_sums_per_nest E' L beta o a = ind_exp_sums_per_nest E L beta (psi o) a.
  Proof. intros Ho Ha. unfold ind_exp_sums_per_nest. apply nc_per_nest; [exact nc_esi|exact Ho|exact Ha]. Qed.

  Lemma nc_mdot (f' f : mat) r a : (r < N')%nat -> (forall o, (o < d_obs D')%nat -> f' o a = f (psi o) a) ->
    mdot (d_obs D') (d_M D') f' r a = mdot (d_obs D) (d_M D) f (phi r) a.
  Proof. intros Hr H. unfold mdot. apply (Hpick (fun o => f' o a) (fun o => f o a)); assumption. Qed.

  Lemma nc_les r : (r < N')%nat -> long_exp_sums E' L beta r = long_exp_sums E L beta (phi r).
  Proof.
    intros Hr. unfold long_exp_sums. rewrite HQ. apply sumn_ext. intros a Ha. rewrite HR by assumption. f_equal.
    apply nc_mdot; [exact Hr|]. intros o Ho. apply nc_ies; assumption.
  Qed.

  Lemma nc_denom o : (o < d_obs D')%nat -> ind_denom E' L beta o = ind_denom E L beta (psi o).
  Proof.
    intros Ho. unfold ind_denom. rewrite HQ. f_equal. apply sumn_ext. intros a Ha. rewrite nc_ies by assumption. reflexivity.
  Qed.

  Lemma nc_num r : (r < N')%nat -> long_numerators E' L beta r = long_numerators E L beta (phi r).
  Proof. intros Hr. unfold long_numerators. rewrite nc_esi, nc_les, nc_lnc by exact Hr. reflexivity. Qed.

  Lemma nc_probs r : (r < N')%nat -> nested_long_probs E' L beta r = nested_long_probs E L beta (phi r).
  Proof.
    intros Hr. unfold nested_long_probs. rewrite nc_num by exact Hr. f_equal. f_equal.
    unfold mvec. apply Hpick; [exact Hr|exact nc_denom].
  Qed.

  Lemma nc_given r : (r < N')%nat -> prob_given_nest E' L beta r = prob_given_nest E L beta (phi r).
  Proof. intros Hr. unfold prob_given_nest. rewrite nc_esi, nc_les by exact Hr. reflexivity. Qed.

  Lemma nc_nest_probs o a : (o < d_obs D')%nat -> (a < Q)%nat -> nest_choice_probs E' L beta o a = nest_choice_probs E L beta (psi o) a.
  Proof. intros Ho Ha. unfold nest_choice_probs. rewrite nc_ies, nc_denom by assumption. reflexivity. Qed.

  Lemma nc_ll : calc_nested_log_likelihood E' L beta = calc_nested_log_likelihood E L beta.
  Proof.
    unfold calc_nested_log_likelihood. rewrite Hrdg, HQ.
    assert (A : vdot N' (d_y D') (fun r => eff_weights (d_w D') r * ln (nested_long_probs E' L beta r)) =
                vdot N (d_y D) (fun i => eff_weights (d_w D) i * ln (nested_long_probs E L beta i))).
    { unfold vdot.
      transitivity (sumn N' (fun r => eff_weights (d_w D') r * (d_y D' r * ln (nested_long_probs E' L beta r)))).
      - apply sumn_ext. intros r _. ring.
      - rewrite (Hrows _ (fun i => d_y D i * ln (nested_long_probs E L beta i))).
        + apply sumn_ext. intros i _. ring.
        + intros r Hr. rewrite nc_probs, Hy by exact Hr. reflexivity. }
    destruct (d_ridge D) as [x|]; rewrite A; reflexivity.
  Qed.

  Lemma nc_otc o a : (o < d_obs D')%nat -> (a < Q)%nat -> obs_to_chosen_nests E' o a = obs_to_chosen_nests E (psi o) a.
  Proof. intros Ho Ha. unfold obs_to_chosen_nests. apply nc_per_nest; [exact Hy|exact Ho|exact Ha]. Qed.

  Lemma nc_lcn r : (r < N')%nat -> long_chosen_nest E' r = long_chosen_nest E (phi r).
  Proof.
    intros Hr. unfold long_chosen_nest. rewrite HQ. apply sumn_ext. intros a Ha. rewrite HR by assumption. f_equal.
    apply nc_mdot; [exact Hr|]. intros o Ho. apply nc_otc; assumption.
  Qed.

  Lemma nc_les2 o a : (o < d_obs D')%nat -> (a < Q)%nat -> log_exp_sums E' L beta o a = log_exp_sums E L beta (psi o) a.
  Proof. intros Ho Ha. unfold log_exp_sums. rewrite nc_ies by assumption. reflexivity. Qed.

  Lemma nc_half r : (r < N')%nat -> half_deriv E' L beta r = half_deriv E L beta (phi r).
  Proof. intros Hr. unfold half_deriv. rewrite nc_probs, nc_lcn, nc_given, nc_si by exact Hr. reflexivity. Qed.

  Lemma nc_3b r : (r < N')%nat -> term_3b E' L beta r = term_3b E L beta (phi r).
  Proof. intros Hr. unfold term_3b. rewrite Hy, nc_lcn, nc_given, nc_si, nc_lnc by exact Hr. reflexivity. Qed.

  Lemma nc_bt r : (r < N')%nat -> beta_term_1 E' L beta r = beta_term_1 E L beta (phi r).
  Proof.
    intros Hr. unfold beta_term_1, scaled_y, p_tilde_given_nest. rewrite Hy, nc_lcn, nc_given, nc_lnc, nc_probs by exact Hr. reflexivity.
  Qed.
End Related.

Section Derivs.
  Context (E E' : NData) (phi psi : nat -> nat).
  Notation D := (n_D E).
  Notation D' := (n_D E').
  Notation N := (d_N D).
  Notation N' := (d_N D').
  Notation Q := (n_Q E).
  Hypothesis HQ : n_Q E' = Q.
  Hypothesis HK : d_K D' = d_K D.
  Hypothesis Hrdg : d_ridge D' = d_ridge D.
  Hypothesis Hphi : forall r, (r < N')%nat -> (phi r < N)%nat.
  Hypothesis HR : forall r a, (r < N')%nat -> (a < Q)%nat -> n_R E' r a = n_R E (phi r) a.
  Hypothesis HX : forall r k, (r < N')%nat -> (k < d_K D)%nat -> d_X D' r k = d_X D (phi r) k.
  Hypothesis Hy : forall r, (r < N')%nat -> d_y D' r = d_y D (phi r).
  Hypothesis Hsum : forall (f' f : vec) o, (o < d_obs D')%nat -> (forall r, (r < N')%nat -> f' r = f (phi r)) ->
    sumn N' (fun r => d_M D' r o * f' r) = sumn N (fun i => d_M D i (psi o) * f i).
  Hypothesis Hpick : forall (f' f : vec) r, (r < N')%nat -> (forall o, (o < d_obs D')%nat -> f' o = f (psi o)) ->
    sumn (d_obs D') (fun o => d_M D' r o * f' o) = sumn (d_obs D) (fun o => d_M D (phi r) o * f o).
  Hypothesis Hrows : forall f' f : vec, (forall r, (r < N')%nat -> f' r = f (phi r)) ->
    sumn N' (fun r => eff_weights (d_w D') r * f' r) = sumn N (fun i => eff_weights (d_w D) i * f i).
  Hypothesis Hobs : forall f' f : vec, (forall o, (o < d_obs D')%nat -> f' o = f (psi o)) ->
    sumn (d_obs D') (fun o => weights_per_obs D' o * f' o) = sumn (d_obs D) (fun o => weights_per_obs D o * f o).
  Context (orig : vec) (beta : arr).
  Let L := naturalize_nest_coefs orig.

  Lemma ncd_rows (g' g f' f : vec) : (forall r, (r < N')%nat -> g' r = eff_weights (d_w D') r * f' r) ->
    (forall i, (i < N)%nat -> g i = eff_weights (d_w D) i * f i) ->
    (forall r, (r < N')%nat -> f' r = f (phi r)) -> sumn N' g' = sumn N g.
  Proof. intros H1 H2 H3. rewrite (sumn_ext N' _ _ H1), (sumn_ext N _ _ H2). apply Hrows. exact H3. Qed.

  Lemma ncd_grad a : (a < Q + d_K D)%nat ->
    aget (calc_nested_gradient E' orig beta) a = aget (calc_nested_gradient E orig beta) a.
  Proof.
    intros Ha. unfold calc_nested_gradient. fold L. rewrite Hrdg, HQ, HK.
    match goal with |- aget (match _ with None => mkArr _ (vcat _ ?g' ?b') | _ => _ end) _ = aget (match _ with None => mkArr _ (vcat _ ?g ?b) | _ => _ end) _ =>
      assert (A : vcat Q g' b' a = vcat Q g b a) end.
    { unfold vcat. destruct (Nat.ltb_spec a Q) as [Hlt|Hge].
      - f_equal. f_equal; [f_equal|].
        + set (F' := fun o => (obs_to_chosen_nests E' o a - nest_choice_probs E' L beta o a) * log_exp_sums E' L beta o a).
          set (F := fun o => (obs_to_chosen_nests E o a - nest_choice_probs E L beta o a) * log_exp_sums E L beta o a).
          transitivity (sumn (d_obs D') (fun o => weights_per_obs D' o * F' o)); [apply sumn_ext; intros; unfold F'; ring|].
          rewrite (Hobs F' F); [apply sumn_ext; intros; unfold F; ring|].
          intros o Ho. unfold F', F.
          rewrite (nc_otc E E' phi psi), (nc_nest_probs E E' phi psi), (nc_les2 E E' phi psi) by assumption. reflexivity.
        + apply (ncd_rows _ _ (fun r => n_R E' r a * half_deriv E' L beta r) (fun i => n_R E i a * half_deriv E L beta i));
            [intros; ring|intros; ring|]. intros r Hr. rewrite HR, (nc_half E E' phi psi) by assumption. reflexivity.
        + apply (ncd_rows _ _ (fun r => n_R E' r a * term_3b E' L beta r) (fun i => n_R E i a * term_3b E L beta i));
            [intros; unfold term_3b, Rdiv; ring|intros; unfold term_3b, Rdiv; ring|].
          intros r Hr. rewrite HR, (nc_3b E E' phi psi) by assumption. reflexivity.
      - apply (ncd_rows _ _ (fun r => beta_term_1 E' L beta r * d_X D' r (a - Q)%nat) (fun i => beta_term_1 E L beta i * d_X D i (a - Q)%nat));
            [intros; ring|intros; ring|]. intros r Hr. rewrite HX, (nc_bt E E' phi psi) by (assumption || lia). reflexivity. }
    destruct (d_ridge D); cbn [aget]; rewrite A; reflexivity.
  Qed.

  Lemma ncd_score o a : (o < d_obs D')%nat -> (a < Q + d_K D)%nat ->
    nested_score_matrix E' orig beta o a = nested_score_matrix E orig beta (psi o) a.
  Proof.
    intros Ho Ha. unfold nested_score_matrix, hcat, vcat. fold L. rewrite HQ.
    destruct (Nat.ltb_spec a Q) as [Hlt|Hge].
    - f_equal. f_equal; [f_equal|].
      + rewrite (nc_otc E E' phi psi), (nc_nest_probs E E' phi psi), (nc_les2 E E' phi psi) by assumption. reflexivity.
      + apply (nc_per_nest E E' phi psi); try assumption. intros r Hr. apply (nc_half E E' phi psi); assumption.
      + apply (nc_per_nest E E' phi psi); try assumption. intros r Hr. apply (nc_3b E E' phi psi); assumption.
    - unfold mdot, transp.
      apply (Hsum (fun r => beta_term_1 E' L beta r * d_X D' r (a - Q)%nat) (fun i => beta_term_1 E L beta i * d_X D i (a - Q)%nat) o Ho).
      intros r Hr. rewrite HX, (nc_bt E E' phi psi) by (assumption || lia). reflexivity.
  Qed.

  Lemma ncd_bhhh a b : (a < Q + d_K D)%nat -> (b < Q + d_K D)%nat ->
    sqe (calc_bhhh E' orig beta) a b = sqe (calc_bhhh E orig beta) a b.
  Proof.
    intros Ha Hb. unfold calc_bhhh. rewrite Hrdg. cbn [sqe]. f_equal.
    assert (A : mdot (d_obs D') (transp (nested_score_matrix E' orig beta)) (fun o k => weights_per_obs D' o * nested_score_matrix E' orig beta o k) a b =
                mdot (d_obs D) (transp (nested_score_matrix E orig beta)) (fun o k => weights_per_obs D o * nested_score_matrix E orig beta o k) a b).
    { unfold mdot, transp.
      set (F' := fun o => nested_score_matrix E' orig beta o a * nested_score_matrix E' orig beta o b).
      set (F := fun o => nested_score_matrix E orig beta o a * nested_score_matrix E orig beta o b).
      transitivity (sumn (d_obs D') (fun o => weights_per_obs D' o * F' o)); [apply sumn_ext; intros; unfold F'; ring|].
      rewrite (Hobs F' F); [apply sumn_ext; intros; unfold F; ring|].
      intros o Ho. unfold F', F. rewrite !ncd_score by assumption. reflexivity. }
    destruct (d_ridge D); rewrite A; reflexivity.
  Qed.
End Derivs.

(** ** Tables with copied observations *)
Section Tables.
  Context (d d' : long_cols) (spec spec' : option nest_spec) (mp mp' : mappings)
    (phi : nat -> nat) (K : nat) (X X' : mat) (w w' : option vec) (ridge : option R).
  Hypothesis Hmp : create_long_form_mappings d spec = Ok mp.
  Hypothesis Hmp' : create_long_form_mappings d' spec' = Ok mp'.
  Hypothesis Hcop : lists_copies d d' phi.
  Let D := data_of d mp K X w ridge.
  Let D' := data_of d' mp' K X' w' ridge.
  Let ids := obs_ids d.
  Let ids' := obs_ids d'.

  (** The observation of d that observation number o of d' copies. *)
  Definition copied_obs (o : nat) : nat :=
    own_of (obs_ids d) (phi (index_of (nth o (first_seen (obs_ids d')) 0%Z) (obs_ids d'))).

  Lemma tb_phi r : (r < length ids')%nat -> (phi r < length ids)%nat.
  Proof. intros Hr. destruct Hcop as (_ & _ & H & _). apply (H r Hr). Qed.

  Lemma tb_first o : (o < length (first_seen ids'))%nat ->
    let r := index_of (nth o (first_seen ids') 0%Z) ids' in (r < length ids')%nat /\ nth r ids' 0%Z = nth o (first_seen ids') 0%Z.
  Proof.
    intros Ho r. assert (Hin : In (nth o (first_seen ids') 0%Z) ids') by (apply first_seen_In, nth_In; exact Ho).
    split; [apply index_of_lt; exact Hin|apply nth_index_of; exact Hin].
  Qed.

  Lemma tb_nobs' : d_obs D' = length (first_seen ids').
  Proof. apply (data_nobs d' spec' mp' K X' w' ridge Hmp'). Qed.

  Lemma tb_nobs : d_obs D = length (first_seen ids).
  Proof. apply (data_nobs d spec mp K X w ridge Hmp). Qed.

  Lemma tb_own r : (r < length ids')%nat -> copied_obs (own_of ids' r) = own_of ids (phi r).
  Proof.
    intros Hr. unfold copied_obs. fold ids ids'.
    assert (Ho : (own_of ids' r < length (first_seen ids'))%nat).
    { unfold own_of. apply index_of_lt, first_seen_In, nth_In. exact Hr. }
    destruct (tb_first _ Ho) as (H1 & H2). cbv zeta in H1, H2.
    assert (En : nth (own_of ids' r) (first_seen ids') 0%Z = nth r ids' 0%Z).
    { unfold own_of. apply nth_index_of, first_seen_In, nth_In. exact Hr. }
    rewrite En in *. apply own_of_eq; [apply tb_phi; exact H1|apply tb_phi; exact Hr|].
    destruct Hcop as (_ & _ & _ & _ & Hsame & _). apply Hsame; assumption.
  Qed.

  Lemma ind_sum D0 own (f : vec) o : indicator_of (d_N D0) (d_obs D0) (d_M D0) own -> (o < d_obs D0)%nat ->
    sumn (d_N D0) (fun r => d_M D0 r o * f r) = osum (d_N D0) own o f.
  Proof.
    intros Hi Ho. unfold osum. apply sumn_ext. intros r Hr. destruct (Hi r Hr) as (_ & E). rewrite E by exact Ho.
    destruct (own r =? o)%nat; ring.
  Qed.

  Lemma tb_sum (f' f : vec) o : (o < d_obs D')%nat -> (forall r, (r < d_N D')%nat -> f' r = f (phi r)) ->
    sumn (d_N D') (fun r => d_M D' r o * f' r) = sumn (d_N D) (fun i => d_M D i (copied_obs o) * f i).
  Proof.
    intros Ho H. pose proof Ho as Ho2. rewrite tb_nobs' in Ho2. destruct (tb_first o Ho2) as (H1 & H2). cbv zeta in H1, H2.
    set (r0 := index_of (nth o (first_seen ids') 0%Z) ids') in *.
    rewrite (ind_sum D' _ f' o (data_obs_indicator d' spec' mp' K X' w' ridge Hmp') Ho).
    change (d_N D') with (length ids'). fold ids'. rewrite osum_column by exact Ho2. rewrite <- H2.
    rewrite (id_sum_ext ids' _ f' (fun r => f (phi r))) by (intros; apply H; assumption).
    unfold ids'. rewrite (copies_id_sum d d' phi f r0 Hcop H1).
    rewrite <- osum_id_sum by (apply tb_phi; exact H1).
    assert (Ec : copied_obs o = own_of ids (phi r0)) by reflexivity. rewrite Ec. symmetry.
    apply (ind_sum D _ f _ (data_obs_indicator d spec mp K X w ridge Hmp)).
    rewrite tb_nobs. unfold own_of. apply index_of_lt, first_seen_In, nth_In, tb_phi. exact H1.
  Qed.

  Lemma tb_pick (f' f : vec) r : (r < d_N D')%nat -> (forall o, (o < d_obs D')%nat -> f' o = f (copied_obs o)) ->
    sumn (d_obs D') (fun o => d_M D' r o * f' o) = sumn (d_obs D) (fun o => d_M D (phi r) o * f o).
  Proof.
    intros Hr H.
    pose proof (mapping_dot D' _ (data_obs_indicator d' spec' mp' K X' w' ridge Hmp') f' r Hr) as E'. unfold mvec in E'.
    pose proof (mapping_dot D _ (data_obs_indicator d spec mp K X w ridge Hmp) f (phi r) (tb_phi r Hr)) as E. unfold mvec in E.
    rewrite E, E'. fold ids ids'. rewrite <- tb_own by exact Hr. apply H. rewrite tb_nobs'.
    unfold own_of. apply index_of_lt, first_seen_In, nth_In. exact Hr.
  Qed.

  Hypothesis Hww : weights_add_up d d' phi w w'.

  Lemma tb_rows (f' f : vec) : (forall r, (r < d_N D')%nat -> f' r = f (phi r)) ->
    sumn (d_N D') (fun r => eff_weights (d_w D') r * f' r) = sumn (d_N D) (fun i => eff_weights (d_w D) i * f i).
  Proof.
    intros H. change (d_w D') with w'. change (d_w D) with w. change (d_N D') with (length ids') in *. change (d_N D) with (length ids).
    rewrite (sumn_ext (length ids') _ (fun r => f (phi r) * eff_weights w' r)) by (intros r Hr; rewrite H by exact Hr; ring).
    rewrite (sumn_fiber (length ids') (length ids) phi f (eff_weights w') tb_phi). apply sumn_ext. intros i Hi.
    unfold ids'. rewrite <- Hww by exact Hi. ring.
  Qed.

  Hypothesis Hsw' : same_weight_within_observation d' w'.
  Hypothesis Hnn' : nonneg_weights d' w'.

  (** A weighted sum over observations as a weighted sum over rows. *)
  Lemma wobs_rows d0 spec0 mp0 X0 w0 (f : vec) :
    create_long_form_mappings d0 spec0 = Ok mp0 -> same_weight_within_observation d0 w0 -> nonneg_weights d0 w0 ->
    let D0 := data_of d0 mp0 K X0 w0 ridge in
    sumn (d_obs D0) (fun o => weights_per_obs D0 o * f o) =
    sumn (d_N D0) (fun i => eff_weights (d_w D0) i * (f (own_of (obs_ids d0) i) / id_sum (obs_ids d0) (nth i (obs_ids d0) 0%Z) (fun _ => 1))).
  Proof.
    intros H0 Hs Hn D0.
    set (wo := fun o => eff_weights w0 (index_of o (obs_ids d0))).
    assert (Hwo : forall i, (i < length (obs_ids d0))%nat -> eff_weights w0 i = wo (nth i (obs_ids d0) 0%Z)).
    { intros i Hi. unfold wo. assert (Hin : In (nth i (obs_ids d0) 0%Z) (obs_ids d0)) by (apply nth_In; exact Hi).
      apply Hs; [exact Hi|apply index_of_lt; exact Hin|]. symmetry. apply nth_index_of. exact Hin. }
    change (d_N D0) with (length (obs_ids d0)). change (d_w D0) with w0.
    rewrite sumn_by_ids, suml_seq. replace (d_obs D0) with (length (first_seen (obs_ids d0)))
      by (symmetry; apply (data_nobs d0 spec0 mp0 K X0 w0 ridge H0)).
    apply sumn_ext. intros j Hj. set (o := nth j (first_seen (obs_ids d0)) 0%Z).
    assert (Hin : In o (obs_ids d0)) by (apply first_seen_In, nth_In; exact Hj).
    pose proof (weights_per_obs_eq d0 spec0 mp0 K X0 w0 H0 wo Hwo Hn ridge j Hj) as Ew. unfold D0. rewrite Ew. fold o.
    rewrite (id_sum_ext _ o _ (fun i => wo o * f j / id_sum (obs_ids d0) o (fun _ => 1) * 1)).
    - rewrite id_sum_scal_l. field. apply Rgt_not_eq, id_sum_pos; [exact Hin|]. intros; lra.
    - intros i Hi Eo. rewrite Hwo, Eo by exact Hi. unfold own_of. rewrite Eo. unfold o.
      rewrite index_of_nth by (first [apply first_seen_NoDup|exact Hj]). unfold Rdiv. ring.
  Qed.

  Lemma tb_obs (f' f : vec) : (forall o, (o < d_obs D')%nat -> f' o = f (copied_obs o)) ->
    sumn (d_obs D') (fun o => weights_per_obs D' o * f' o) = sumn (d_obs D) (fun o => weights_per_obs D o * f o).
  Proof.
    intros H. unfold D'. rewrite (wobs_rows d' spec' mp' X' w' f' Hmp' Hsw' Hnn').
    unfold D. rewrite (wobs_rows d spec mp X w f Hmp (copies_same_weight d d' phi w w' Hcop Hww Hsw') (copies_nonneg d d' phi w w' Hww Hnn')).
    apply tb_rows. intros r Hr.
    pose proof (copies_id_sum d d' phi (fun _ => 1) r Hcop Hr) as Ec. cbv beta in Ec. rewrite Ec. f_equal.
    rewrite H.
    - rewrite tb_own by exact Hr. reflexivity.
    - rewrite tb_nobs'. unfold own_of. apply index_of_lt, first_seen_In, nth_In. exact Hr.
  Qed.
End Tables.

Lemma nested_rows_same d d' t mp mp' rn rn' phi r a :
  nested_setup d t mp rn -> nested_setup d' t mp' rn' -> lists_copies d d' phi ->
  (r < length (obs_ids d'))%nat -> (a < length t)%nat -> smat_R rn' r a = smat_R rn (phi r) a.
Proof.
  intros HS HS' (_ & _ & Hrow & _) Hr Ha. destruct (Hrow r Hr) as (Hphi & Ealt & _).
  destruct (setup_nests d t mp rn HS) as (_ & Hq). destruct (setup_nests d' t mp' rn' HS') as (_ & Hq').
  destruct (Hq (phi r) Hphi) as (_ & H1). destruct (H1 a Ha) as (_ & G1).
  destruct (Hq' r Hr) as (_ & H2). destruct (H2 a Ha) as (_ & G2).
  unfold smat_R. rewrite G1, G2. unfold nst_of. rewrite Ealt. reflexivity.
Qed.

Lemma fold_decouple_ext l n (h h' : mat) :
  (forall a b, (a < n)%nat -> (b < n)%nat -> h' a b = h a b) ->
  forall a b, (a < n)%nat -> (b < n)%nat -> fold_left decouple l h' a b = fold_left decouple l h a b.
Proof.
  revert h h'. induction l as [|x l IH]; intros h h' H a b Ha Hb; cbn [fold_left]; [apply H; assumption|].
  apply IH; [|exact Ha|exact Hb]. intros c e Hc He. unfold decouple. rewrite H by assumption. reflexivity.
Qed.

(** ** C38 and C112 *)

(** Each observation of weight m in d can be listed any number of times in d' with
    weights that add up to m. *)
Theorem C38_nested_frequency_weights d d' t mp mp' rn rn' phi K X X' w w' ridge theta :
  nested_setup d t mp rn -> nested_setup d' t mp' rn' -> lists_copies d d' phi ->
  (forall r q, (r < length (obs_ids d'))%nat -> (q < K)%nat -> X' r q = X (phi r) q) ->
  weights_add_up d d' phi w w' -> same_weight_within_observation d' w' -> nonneg_weights d' w' ->
  let E := ndata_of d mp rn K X w ridge in
  let E' := ndata_of d' mp' rn' K X' w' ridge in
  nested_check_length E theta = Ok tt ->
  nested_same_probs E E' phi theta /\ nested_same_estimation E E' theta.
Proof.
  intros HS HS' Hcop HX Hww Hsw Hnn E E' Hc.
  assert (Hmp : create_long_form_mappings d (Some t) = Ok mp) by apply HS.
  assert (Hmp' : create_long_form_mappings d' (Some t) = Ok mp') by apply HS'.
  assert (EQ : n_Q E = length t) by apply (setup_nests d t mp rn HS).
  assert (HQ : n_Q E' = n_Q E) by (rewrite EQ; apply (setup_nests d' t mp' rn' HS')).
  assert (HK : d_K (n_D E') = d_K (n_D E)) by reflexivity.
  assert (Hrdg : d_ridge (n_D E') = d_ridge (n_D E)) by reflexivity.
  assert (HR : forall r a, (r < d_N (n_D E'))%nat -> (a < n_Q E)%nat -> n_R E' r a = n_R E (phi r) a).
  { intros r a Hr Ha. rewrite EQ in Ha. apply (nested_rows_same d d' t mp mp' rn rn' phi r a HS HS' Hcop Hr Ha). }
  assert (Hy : forall r, (r < d_N (n_D E'))%nat -> d_y (n_D E') r = d_y (n_D E) (phi r)).
  { intros r Hr. destruct Hcop as (_ & _ & H & _). apply (H r Hr). }
  pose proof (tb_sum d d' (Some t) (Some t) mp mp' phi K X X' w w' ridge Hmp Hmp' Hcop) as Hsum.
  pose proof (tb_pick d d' (Some t) (Some t) mp mp' phi K X X' w w' ridge Hmp Hmp' Hcop) as Hpick.
  pose proof (tb_rows d d' mp mp' phi K X X' w w' ridge Hcop Hww) as Hrows.
  pose proof (tb_obs d d' (Some t) (Some t) mp mp' phi K X X' w w' ridge Hmp Hmp' Hcop Hww Hsw Hnn) as Hobs.
  assert (Lth : alen theta = (n_Q E + d_K (n_D E))%nat).
  { unfold nested_check_length in Hc. destruct (Nat.eqb_spec (alen theta) (d_K (n_D E) + n_Q E)); [lia|discriminate]. }
  split; [|split; [|split; [|split]]].
  - intros C C' pc pl Hpr. unfold nested_est_probs in *. rewrite HQ. cbn [nested_split] in Hpr |- *.
    cbn [calc_nested_probs] in Hpr |- *. injection Hpr as <- <-. eexists. eexists. split; [reflexivity|].
    intros r Hr. apply (nc_probs E E' phi (copied_obs d d' phi)); assumption.
  - unfold nested_est_log_likelihood. rewrite HQ. cbn [nested_split].
    apply (nc_ll E E' phi (copied_obs d d' phi)); assumption.
  - unfold nested_est_gradient. rewrite HQ. cbn [nested_split]. unfold calc_nested_gradient. rewrite Hrdg, HQ, HK.
    destruct (d_ridge (n_D E)); reflexivity.
  - intros a Ha. unfold nested_est_gradient. rewrite HQ. cbn [nested_split].
    apply (ncd_grad E E' phi (copied_obs d d' phi)); try assumption. lia.
  - intros cp. unfold nested_est_hessian. rewrite HQ. cbn [nested_split].
    assert (G : forall a b, (a < alen theta)%nat -> (b < alen theta)%nat ->
      sqe (calc_bhhh E' (aget (aslice 0 (n_Q E) theta)) (aslice (n_Q E) (alen theta - n_Q E) theta)) a b =
      sqe (calc_bhhh E (aget (aslice 0 (n_Q E) theta)) (aslice (n_Q E) (alen theta - n_Q E) theta)) a b).
    { intros a b Ha Hb. apply (ncd_bhhh E E' phi (copied_obs d d' phi)); try assumption; lia. }
    destruct cp as [l|]; cbn [sqn sqe].
    + split; [unfold calc_bhhh; cbn [sqn]; rewrite HQ, HK; reflexivity|]. apply fold_decouple_ext. exact G.
    + split; [unfold calc_bhhh; cbn [sqn]; rewrite HQ, HK; reflexivity|exact G].
Qed.

Theorem C38_nested_weight_zero_is_left_out d d' t mp mp' rn rn' phi K X X' w w' ridge theta :
  nested_setup d t mp rn -> nested_setup d' t mp' rn' -> leaves_out_weight_zero d d' phi w w' ->
  (forall r q, (r < length (obs_ids d'))%nat -> (q < K)%nat -> X' r q = X (phi r) q) ->
  same_weight_within_observation d' w' -> nonneg_weights d' w' ->
  let E := ndata_of d mp rn K X w ridge in
  let E' := ndata_of d' mp' rn' K X' w' ridge in
  nested_check_length E theta = Ok tt ->
  nested_same_probs E E' phi theta /\ nested_same_estimation E E' theta.
Proof.
  intros HS HS' Hlv HX Hsw Hnn E E' Hc.
  apply (C38_nested_frequency_weights d d' t mp mp' rn rn' phi K X X' w w' ridge theta); try assumption.
  - apply Hlv.
  - apply left_out_weights. exact Hlv.
Qed.

Theorem C112_nested_order_of_the_rows d d' t mp mp' rn rn' p f K X X' w w' ridge theta :
  nested_setup d t mp rn -> nested_setup d' t mp' rn' -> rearranged d d' p f ->
  (forall r q, (r < length (obs_ids d))%nat -> (q < K)%nat -> X' r q = X (p r) q) ->
  (forall r, (r < length (obs_ids d))%nat -> eff_weights w' r = eff_weights w (p r)) ->
  same_weight_within_observation d w -> nonneg_weights d w ->
  let E := ndata_of d mp rn K X w ridge in
  let E' := ndata_of d' mp' rn' K X' w' ridge in
  nested_check_length E theta = Ok tt ->
  nested_same_probs E E' p theta /\ nested_same_estimation E E' theta.
Proof.
  intros HS HS' Hre HX HW Hsw Hnn E E' Hc.
  destruct (rearranged_weights d d' p f w w' Hre HW Hsw Hnn) as (Hlv & Hsw' & Hnn').
  apply (C38_nested_weight_zero_is_left_out d d' t mp mp' rn rn' p K X X' w w' ridge theta); try assumption.
  destruct Hre as (L1 & _). rewrite L1. exact HX.
Qed.

(** ** C111: bootstrap tables *)

(** A table with no other alternatives is accepted with the same nests. *)
Lemma nested_setup_incl d d' t mp rn :
  nested_setup d t mp rn -> length (alt_ids d') = length (obs_ids d') -> incl (alt_ids d') (alt_ids d) ->
  exists mp' rn', nested_setup d' t mp' rn'.
Proof.
  intros (HL & Hn & (all & Hincl & Hc) & Hmp & HR) L' HI.
  pose proof Hc as Hp. apply C13_accepted_specifications_are_partitions in Hp. destruct Hp as (t' & Et & _ & _ & Hall' & _).
  assert (Ett : t = t').
  { clear - Et. revert t' Et. induction t as [|[k l] r IH]; intros [|[k' l'] r'] E; simpl in E; try discriminate; [reflexivity|].
    injection E as E1 E2 E3. subst k'. f_equal; [|apply IH; exact E3]. f_equal.
    clear - E2. revert l' E2. induction l as [|x l IH]; intros [|x' l'] E; simpl in E; try discriminate; [reflexivity|].
    injection E as E1 E2. subst. f_equal. auto. }
  subst t'.
  assert (Hall : forall a, In a (alt_ids d') -> exists q, (q < length t)%nat /\ In a (nest_alts t q) /\
      forall q', (q' < length t)%nat -> In a (nest_alts t q') -> q' = q).
  { intros a Ha. apply Hall', Hincl, HI, Ha. }
  destruct (C04_rows_to_nests d' t Hn Hall) as (mp' & m & E1 & E2 & _).
  exists mp', m. split; [exact L'|]. split; [exact Hn|]. split; [|split; assumption].
  exists all. split; [|exact Hc]. intros x Hx. apply Hincl, HI, Hx.
Qed.

(** What the bootstrap table of the theorem below is: the copies and the weights of
    PropLikelihood.v. *)
Lemma boot_table f obs_col obs alt_col alts choice_col ch boot resampled gd g spec names cols labels w w' :
  well_formed f -> int_col f obs_col = Ok obs -> int_col f alt_col = Ok alts -> int_col f choice_col = Ok ch ->
  has_col f boot = false ->
  resampled <> [] -> (forall o, In o resampled -> In o obs) ->
  keeps_every_alternative obs alts resampled ->
  create_deepcopied_groupby_dict f obs_col = Ok gd ->
  create_bootstrap_dataframe f obs_col resampled gd boot = Ok g ->
  create_design_matrix f spec alt_col names = Ok (cols, labels) ->
  (forall r, (r < f_rows g)%nat ->
     eff_weights w' r = eff_weights w (snd (nth r (sources obs resampled) (0%Z, 0%nat)))) ->
  let d := mkLong obs alts (Some ch) None in
  same_weight_within_observation d w -> nonneg_weights d w ->
  exists obs' alts' ch' cols',
    int_col g boot = Ok obs' /\ int_col g alt_col = Ok alts' /\ int_col g choice_col = Ok ch' /\
    create_design_matrix g spec alt_col names = Ok (cols', labels) /\ length cols' = length cols /\
    (0 < length cols)%nat /\ length alts = length obs /\ length alts' = length obs' /\ incl alts' alts /\
    let d' := mkLong obs' alts' (Some ch') None in
    let src := fun r => snd (nth r (sources obs resampled) (0%Z, 0%nat)) in
    lists_copies d d' src /\
    (forall r q, (r < length obs')%nat -> (q < length cols)%nat -> design_of cols' r q = design_of cols (src r) q) /\
    weights_add_up d d' src (draw_weights obs resampled w) w' /\
    same_weight_within_observation d' w' /\ nonneg_weights d' w'.
Proof.
  intros Hwf Ho Ha Hc Hb Hne Hin Hkeep Hgd Hg Hd Hw d Hsw Hnn.
  pose proof (C111_design_of_the_bootstrap_table f obs_col obs alt_col alts boot resampled gd spec names cols labels g
    Hwf Ho Ha Hb Hne Hin Hkeep Hgd Hg Hd) as Hd'.
  assert (Hcol : forall c l, int_col f c = Ok l -> assoc c (f_ints f) = Some l /\ length l = f_rows f).
  { intros c l. unfold int_col. destruct (assoc c (f_ints f)) eqn:E; [|discriminate]. intros H. injection H as <-.
    split; [reflexivity|]. apply (proj1 Hwf _ _ E). }
  destruct (Hcol _ _ Ho) as [_ Lo]. destruct (Hcol _ _ Ha) as [Ia La]. destruct (Hcol _ _ Hc) as [Ic Lc].
  destruct (C56_rows_are_copies f obs_col obs boot resampled gd Hwf Ho Lo Hb Hne Hin Hgd)
    as (g' & Hg' & Wg & Rg & Bg & Ig & Fg & Cg).
  rewrite Hg in Hg'. injection Hg' as <-.
  set (S0 := sources obs resampled) in *.
  set (src := fun r => snd (nth r S0 (0%Z, 0%nat))).
  set (obs' := map fst S0). set (alts' := map (fun s => nth (snd s) alts 0%Z) S0).
  set (ch' := map (fun s => nth (snd s) ch 0%Z) S0).
  assert (Lao : length alts = length obs) by lia. assert (Lco : length ch = length obs) by lia.
  pose proof (boot_copies obs alts ch resampled Lao Lco Hkeep) as HC. fold S0 obs' alts' ch' src in HC.
  assert (HN : length obs' = length S0) by apply map_length.
  exists obs', alts', ch', (map (fun col => map (fun s => nth (snd s) col 0) S0) cols).
  split; [exact Bg|]. split; [unfold int_col; rewrite (Ig _ _ Ia); reflexivity|].
  split; [unfold int_col; rewrite (Ig _ _ Ic); reflexivity|]. split; [exact Hd'|].
  split; [apply map_length|]. split.
  { destruct cols as [|c cols]; [|cbn; lia]. exfalso. clear -Hd. unfold create_design_matrix in Hd.
    destruct (negb _); [discriminate|]. destruct (negb _); [discriminate|].
    apply bind_ok in Hd. destruct Hd as (? & _ & Hd). apply bind_ok in Hd. destruct Hd as (? & _ & Hd).
    apply bind_ok in Hd. destruct Hd as (? & _ & Hd). apply bind_ok in Hd. destruct Hd as (? & _ & Hd).
    destruct (concat _) as [|y l]; [discriminate|]. discriminate. }
  split; [exact Lao|]. split; [unfold alts', obs'; rewrite !map_length; reflexivity|]. split.
  { intros x Hx. apply in_map_iff in Hx. destruct Hx as ([b j] & <- & Hs). apply in_sources in Hs.
    destruct Hs as (k & _ & _ & Hj & _). cbn [snd]. apply nth_In. lia. }
  cbv zeta. fold src. split; [exact HC|]. split; [|split; [|split]].
  - intros r q Hr Hq. rewrite HN in Hr. unfold design_of.
    rewrite (nth_map_lt _ _ _ []) by exact Hq. rewrite (nth_map_lt _ _ _ (0%Z, 0%nat)) by exact Hr. reflexivity.
  - apply boot_weights. intros r Hr. apply Hw. rewrite Rg. exact Hr.
  - intros r r' Hr Hr' E. cbn [obs_ids] in Hr, Hr', E. rewrite HN in Hr, Hr'. rewrite !Hw by (rewrite Rg; assumption).
    destruct HC as (_ & _ & Hrow & _ & Hsame & _). cbn [obs_ids] in Hrow, Hsame. rewrite HN in Hrow, Hsame.
    apply Hsw; [apply (Hrow r Hr)|apply (Hrow r' Hr')|]. apply Hsame; assumption.
  - intros r Hr. cbn [obs_ids] in Hr. rewrite HN in Hr. rewrite Hw by (rewrite Rg; exact Hr). apply Hnn.
    destruct HC as (_ & _ & Hrow & _). cbn [obs_ids] in Hrow. rewrite HN in Hrow. apply (Hrow r Hr).
Qed.

(** The log-likelihood, gradient, Hessian and BHHH matrix of the bootstrap table are
    those of the original table with draw weights. *)
Theorem C111_bootstrap_curvature k f obs_col obs alt_col alts choice_col ch boot resampled gd g
    spec names cols labels mp ridge w w' :
  well_formed f -> int_col f obs_col = Ok obs -> int_col f alt_col = Ok alts -> int_col f choice_col = Ok ch ->
  has_col f boot = false ->
  resampled <> [] -> (forall o, In o resampled -> In o obs) ->
  keeps_every_alternative obs alts resampled ->
  create_deepcopied_groupby_dict f obs_col = Ok gd ->
  create_bootstrap_dataframe f obs_col resampled gd boot = Ok g ->
  create_design_matrix f spec alt_col names = Ok (cols, labels) ->
  let d := mkLong obs alts (Some ch) None in
  create_long_form_mappings d None = Ok mp ->
  (forall r, (r < f_rows g)%nat ->
     eff_weights w' r = eff_weights w (snd (nth r (sources obs resampled) (0%Z, 0%nat)))) ->
  same_weight_within_observation d w -> nonneg_weights d w ->
  exists obs' alts' ch' cols' mp',
    let d' := mkLong obs' alts' (Some ch') None in
    int_col g boot = Ok obs' /\ int_col g alt_col = Ok alts' /\ int_col g choice_col = Ok ch' /\
    create_design_matrix g spec alt_col names = Ok (cols', labels) /\ length cols' = length cols /\
    create_long_form_mappings d' None = Ok mp' /\
    let D := data_of d mp (length cols) (design_of cols) (draw_weights obs resampled w) ridge in
    let D' := data_of d' mp' (length cols') (design_of cols') w' ridge in
    kind_ok k (d_J D) -> forall theta, check_length_of_initial_values k (d_J D) (length cols) theta = Ok tt ->
    same_estimation k D D' theta.
Proof.
  intros Hwf Ho Ha Hc Hb Hne Hin Hkeep Hgd Hg Hd d Hmp Hw Hsw Hnn.
  destruct (boot_table f obs_col obs alt_col alts choice_col ch boot resampled gd g spec names cols labels w w'
    Hwf Ho Ha Hc Hb Hne Hin Hkeep Hgd Hg Hd Hw Hsw Hnn)
    as (obs' & alts' & ch' & cols' & B1 & B2 & B3 & B4 & B5 & HK & _ & _ & _ & HC & HX & HW & Hsw' & Hnn').
  assert (Hmp' : exists mp', create_long_form_mappings (mkLong obs' alts' (Some ch') None) None = Ok mp').
  { unfold create_long_form_mappings. cbn [bind]. eexists. reflexivity. }
  destruct Hmp' as (mp' & Hmp').
  exists obs', alts', ch', cols', mp'. intros d'. repeat (split; [assumption|]). intros D D' Hk theta Hth.
  unfold D'. rewrite B5.
  eapply (C38_frequency_weights_curvature k d d' None None mp mp'); eassumption.
Qed.

(** The same for the nested logit. *)
Theorem C111_nested_bootstrap_table_is_weighting f obs_col obs alt_col alts choice_col ch boot resampled gd g
    spec names cols labels t mp rn ridge w w' :
  well_formed f -> int_col f obs_col = Ok obs -> int_col f alt_col = Ok alts -> int_col f choice_col = Ok ch ->
  has_col f boot = false ->
  resampled <> [] -> (forall o, In o resampled -> In o obs) ->
  keeps_every_alternative obs alts resampled ->
  create_deepcopied_groupby_dict f obs_col = Ok gd ->
  create_bootstrap_dataframe f obs_col resampled gd boot = Ok g ->
  create_design_matrix f spec alt_col names = Ok (cols, labels) ->
  let d := mkLong obs alts (Some ch) None in
  nested_setup d t mp rn ->
  (forall r, (r < f_rows g)%nat ->
     eff_weights w' r = eff_weights w (snd (nth r (sources obs resampled) (0%Z, 0%nat)))) ->
  same_weight_within_observation d w -> nonneg_weights d w ->
  exists obs' alts' ch' cols' mp' rn',
    let d' := mkLong obs' alts' (Some ch') None in
    int_col g boot = Ok obs' /\ int_col g alt_col = Ok alts' /\ int_col g choice_col = Ok ch' /\
    create_design_matrix g spec alt_col names = Ok (cols', labels) /\ length cols' = length cols /\
    nested_setup d' t mp' rn' /\
    let E := ndata_of d mp rn (length cols) (design_of cols) (draw_weights obs resampled w) ridge in
    let E' := ndata_of d' mp' rn' (length cols') (design_of cols') w' ridge in
    forall theta, nested_check_length E theta = Ok tt -> nested_same_estimation E E' theta.
Proof.
  intros Hwf Ho Ha Hc Hb Hne Hin Hkeep Hgd Hg Hd d HS Hw Hsw Hnn.
  destruct (boot_table f obs_col obs alt_col alts choice_col ch boot resampled gd g spec names cols labels w w'
    Hwf Ho Ha Hc Hb Hne Hin Hkeep Hgd Hg Hd Hw Hsw Hnn)
    as (obs' & alts' & ch' & cols' & B1 & B2 & B3 & B4 & B5 & HK & _ & LA & HI & HC & HX & HW & Hsw' & Hnn').
  destruct (nested_setup_incl d (mkLong obs' alts' (Some ch') None) t mp rn HS LA HI) as (mp' & rn' & HS').
  exists obs', alts', ch', cols', mp', rn'. intros d'. repeat (split; [assumption|]). intros E E' theta Hth.
  unfold E'. rewrite B5.
  apply (C38_nested_frequency_weights d d' t mp mp' rn rn' _ (length cols) (design_of cols) (design_of cols')
     (draw_weights obs resampled w) w' ridge theta HS HS' HC HX HW Hsw' Hnn' Hth).
Qed.


(** ** Non-vacuity *)

(** exn_cols with observation 2 (which lacks nest "far") listed first and twice. *)
Definition exn_twice : long_cols :=
  mkLong [8; 8; 5; 5; 5; 5; 9; 9]%Z [2; 1; 4; 1; 2; 3; 1; 2]%Z (Some [1; 0; 0; 0; 0; 1; 0; 1]%Z) None.
Definition exn_phi (r : nat) : nat := nth r [4; 5; 3; 0; 1; 2; 5; 4]%nat 0%nat.
Example ex_nested_copies :
  (exists mp rn, nested_setup exn_cols exn_nests mp rn) /\ (exists mp rn, nested_setup exn_twice exn_nests mp rn) /\
  lists_copies exn_cols exn_twice exn_phi /\
  weights_add_up exn_cols exn_twice exn_phi (Some (fun i => if (i <? 4)%nat then 1 else 2)) None /\
  same_weight_within_observation exn_twice None /\ nonneg_weights exn_twice None.
Proof.
  split; [exact exn_setup|]. split.
  { eexists. eexists. apply nested_setup_own; try reflexivity. repeat constructor; simpl; intuition discriminate. }
  split; [|split; [|split; [intros i i' _ _ _; reflexivity|intros i _; cbn; lra]]].
  - unfold lists_copies. cbn [exn_cols exn_twice obs_ids alt_ids length]. split; [reflexivity|]. split; [reflexivity|].
    split; [|split; [|split; [|split]]].
    + intros r Hr. do 8 (destruct r as [|r]; [cbn; repeat split; lia|]). lia.
    + intros x Hx. simpl in *. intuition.
    + intros r r' Hr Hr' E. do 8 (destruct r as [|r]; [do 8 (destruct r' as [|r']; [cbn in *; first [reflexivity|discriminate]|]); lia|]). lia.
    + intros r i Hr Hi E.
      do 8 (destruct r as [|r]; [do 6 (destruct i as [|i]; [cbn in *; first [discriminate|
        (exists 0%nat; cbn; repeat split; lia)|(exists 1%nat; cbn; repeat split; lia)|(exists 2%nat; cbn; repeat split; lia)|
        (exists 3%nat; cbn; repeat split; lia)|(exists 4%nat; cbn; repeat split; lia)|(exists 5%nat; cbn; repeat split; lia)|
        (exists 6%nat; cbn; repeat split; lia)|(exists 7%nat; cbn; repeat split; lia)]|]); lia|]). lia.
    + intros r r' Hr Hr' E E2. do 8 (destruct r as [|r]; [do 8 (destruct r' as [|r']; [cbn in *; first [reflexivity|discriminate]|]); lia|]). lia.
  - intros i Hi. cbn in Hi. do 6 (destruct i as [|i]; [cbn; ring|]). lia.
Qed.

(** exn_cols sorted by alternative, observation ids renamed. *)
Definition exn_sorted : long_cols :=
  mkLong [102; 105; 105; 102; 105; 105]%Z [1; 1; 2; 2; 3; 4]%Z (Some [0; 0; 0; 1; 1; 0]%Z) None.
Example ex_nested_rearranged :
  (exists mp rn, nested_setup exn_sorted exn_nests mp rn) /\
  rearranged exn_cols exn_sorted (fun r => nth r [5; 0; 1; 4; 2; 3] 0)%nat (fun x => x + 100)%Z.
Proof.
  split.
  { eexists. eexists. apply nested_setup_own; try reflexivity. repeat constructor; simpl; intuition discriminate. }
  unfold rearranged. cbn [exn_cols exn_sorted obs_ids alt_ids length]. repeat split; try lia.
  - intros i Hi. do 6 (destruct i as [|i]; [cbn; lia|]). lia.
  - intros i j Hi Hj E. do 6 (destruct i as [|i]; [do 6 (destruct j as [|j]; [cbn in E; lia|]); lia|]). lia.
  - do 6 (destruct r as [|r]; [reflexivity|]). lia.
  - do 6 (destruct r as [|r]; [reflexivity|]). lia.
  - do 6 (destruct r as [|r]; [reflexivity|]). lia.
Qed.

(** The bootstrap example of PropBootWeights.v with alternatives 10 and 20 in a nest. *)
Example ex_nested_boot : exists mp rn,
  nested_setup (mkLong [3; 3; 7; 7; 7] [10; 20; 10; 20; 30] (Some [1; 0; 0; 0; 1]) None)%Z
    [("a"%string, [10; 20]%Z); ("b"%string, [30]%Z)] mp rn.
Proof.
  eexists. eexists. apply nested_setup_own; try reflexivity. repeat constructor; simpl; intuition discriminate.
Qed.

Print Assumptions C38_nested_frequency_weights.
Print Assumptions C38_nested_weight_zero_is_left_out.
Print Assumptions C112_nested_order_of_the_rows.
Print Assumptions C111_bootstrap_curvature.
Print Assumptions C111_nested_bootstrap_table_is_weighting.
