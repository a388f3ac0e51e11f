(** C38 and C112 for the mixed logit: copied panels, panels of weight zero and the
    order of the rows. *)
From Coq Require Import String ZArith List Reals Lra Lia Arith Bool.
From Coquelicot Require Import Coquelicot.
From Verif Require Import Res Vec Arr SpecLogit ChoiceCalcs ChoiceFacts Transforms Ids Mappings
  MappingFacts LongData LogitFacts RowDeriv HessFacts ProbFacts PropMappings PropProbs PropGradient
  PropGradientLimits PropHessian NestedCalcs NestedFacts PropNested MixedCalcs MixedFacts PropMixed
  PropBootLogLike PropLikelihood PropPooled PropCopies PropNestOrder PropNestCopies.
Import ListNotations.
Open Scope R_scope.

(** ** Specification *)

(** The table with the mixing ids in the place of the observation ids, so that what is
    said of observations is said of mixing units. *)
Definition by_unit (d : long_cols) : long_cols := mkLong (mix_of d) (alt_ids d) (choices d) (mix_ids d).

(** d' lists copies of units of d, with all their observations: the rows of one
    observation (unit) of d' are the rows of one observation (unit) of d, each once. *)
Definition copies_units (d d' : long_cols) (phi : nat -> nat) : Prop :=
  lists_copies d d' phi /\ lists_copies (by_unit d) (by_unit d') phi.

(** The rows of d' use the draws that the rows they copy use. *)
Definition same_draws (d d' : long_cols) (phi : nat -> nat) (npos nR : nat) (draws draws' : list mat) : Prop :=
  forall i p r, (i < length (obs_ids d'))%nat -> (p < npos)%nat -> (r < nR)%nat ->
    draw_of d' draws' p (nth i (mix_of d') 0%Z) r = draw_of d draws p (nth (phi i) (mix_of d) 0%Z) r.

(** The same log-likelihood, gradient and Hessian at [theta]. *)
Definition mixed_same_estimation (E E' : MData) (theta : arr) : Prop :=
  calc_mixed_log_likelihood E' theta = calc_mixed_log_likelihood E theta /\
  alen (calc_mixed_logit_gradient E' theta) = alen (calc_mixed_logit_gradient E theta) /\
  (forall a, (a < alen theta)%nat ->
     aget (calc_mixed_logit_gradient E' theta) a = aget (calc_mixed_logit_gradient E theta) a) /\
  forall cp, sqn (mixed_est_hessian E' cp theta) = sqn (mixed_est_hessian E cp theta) /\
    forall a b, (a < alen theta)%nat -> (b < alen theta)%nat ->
      sqe (mixed_est_hessian E' cp theta) a b = sqe (mixed_est_hessian E cp theta) a b.

(** Row i of the second table has the predicted probability of row [phi i] of the first. *)
Definition mixed_same_predictions (E E' : MData) (phi : nat -> nat) (theta : arr) : Prop :=
  forall p, mixed_predict E theta None true = Ok (LongProbs p) ->
    exists p', mixed_predict E' theta None true = Ok (LongProbs p') /\
      forall i, (i < d_N (x_D E'))%nat -> p' i = p (phi i).

(** ** Sums over the rows of an observation *)
Lemma copied_osum d d' phi (f' f : vec) o :
  lists_copies d d' phi -> (o < length (first_seen (obs_ids d')))%nat ->
  (forall r, (r < length (obs_ids d'))%nat -> f' r = f (phi r)) ->
  osum (length (obs_ids d')) (own_of (obs_ids d')) o f' =
  osum (length (obs_ids d)) (own_of (obs_ids d)) (copied_obs d d' phi o) f.
Proof.
  intros Hcop Ho H. destruct (tb_first d' o Ho) as (H1 & H2). cbv zeta in H1, H2.
  set (r0 := index_of (nth o (first_seen (obs_ids d')) 0%Z) (obs_ids d')) in *.
  rewrite osum_column by exact Ho. rewrite <- H2.
  rewrite (id_sum_ext (obs_ids d') _ f' (fun r => f (phi r))) by (intros; apply H; assumption).
  rewrite (copies_id_sum d d' phi f r0 Hcop H1).
  rewrite <- osum_id_sum by (exact (tb_phi d d' phi Hcop r0 H1)). reflexivity.
Qed.

Lemma mappings_exist d : exists mp, create_long_form_mappings d None = Ok mp.
Proof. unfold create_long_form_mappings. cbn [bind]. eexists. reflexivity. Qed.

Section Copies.
  Context (d d' : long_cols) (phi : nat -> nat) (K : nat) (X X' : mat) (pos : list nat) (nR : nat)
    (draws draws' : list mat) (w w' : option vec) (ridge : option R) (E E' : MData) (theta : arr).
  Hypothesis HE : mixed_data_of d K X pos nR draws w ridge = Ok E.
  Hypothesis HE' : mixed_data_of d' K X' pos nR draws' w' ridge = Ok E'.
  Hypothesis Hm : mixing_ids_per_row d.
  Hypothesis Hm' : mixing_ids_per_row d'.
  Hypothesis HR1 : nR <> 1%nat.
  Hypothesis Hcu : copies_units d d' phi.
  Hypothesis HX : forall r q, (r < length (obs_ids d'))%nat -> (q < K)%nat -> X' r q = X (phi r) q.
  Hypothesis Hdr : same_draws d d' phi (length pos) nR draws draws'.
  Hypothesis Hww : weights_add_up d d' phi w w'.
  Hypothesis Hsw' : same_weight_within_observation (by_unit d') w'.
  Hypothesis Hnn' : nonneg_weights d' w'.

  Let own := own_of (obs_ids d).
  Let own' := own_of (obs_ids d').
  Let unit := own_of (mix_of d).
  Let unit' := own_of (mix_of d').
  Let N := length (obs_ids d).
  Let N' := length (obs_ids d').
  Let cunit := copied_obs (by_unit d) (by_unit d') phi.

  Lemma mc_N : d_N (x_D E) = N.
  Proof. apply (mixed_N _ _ _ _ _ _ _ _ _ HE). Qed.
  Lemma mc_N' : d_N (x_D E') = N'.
  Proof. apply (mixed_N _ _ _ _ _ _ _ _ _ HE'). Qed.
  Lemma mc_draws : x_draws E = nR /\ x_draws E' = nR.
  Proof.
    destruct (mixed_setup _ _ _ _ _ _ _ _ _ HE) as (mp & _ & _ & H & _).
    destruct (mixed_setup _ _ _ _ _ _ _ _ _ HE') as (mp' & _ & _ & H' & _). auto.
  Qed.
  Lemma mc_vars : x_vars E' = x_vars E.
  Proof.
    destruct (mixed_setup _ _ _ _ _ _ _ _ _ HE) as (mp & _ & _ & _ & H & _).
    destruct (mixed_setup _ _ _ _ _ _ _ _ _ HE') as (mp' & _ & _ & _ & H' & _). congruence.
  Qed.
  Lemma mc_phi i : (i < N')%nat -> (phi i < N)%nat.
  Proof. apply (tb_phi d d' phi (proj1 Hcu)). Qed.
  Lemma mc_y i : (i < N')%nat -> d_y (x_D E') i = d_y (x_D E) (phi i).
  Proof.
    intros Hi. destruct (mixed_setup _ _ _ _ _ _ _ _ _ HE) as (mp & _ & -> & _).
    destruct (mixed_setup _ _ _ _ _ _ _ _ _ HE') as (mp' & _ & -> & _).
    destruct (proj1 Hcu) as (_ & _ & H & _). apply (H i Hi).
  Qed.

  (** The three-dimensional design. *)
  Lemma mc_x3 i r k : (i < N')%nat -> (r < nR)%nat -> (k < x_vars E)%nat -> x_X E' i r k = x_X E (phi i) r k.
  Proof.
    intros Hi Hr Hk.
    pose proof (mixed_unit _ _ _ _ _ _ _ _ _ HE Hm) as HU. pose proof (mixed_unit _ _ _ _ _ _ _ _ _ HE' Hm') as HU'.
    destruct (mixed_setup _ _ _ _ _ _ _ _ _ HE) as (mp & _ & _ & _ & EV & _ & _ & _ & _ & Hp & E5 & E6).
    destruct (mixed_setup _ _ _ _ _ _ _ _ _ HE') as (mp' & _ & _ & _ & _ & _ & _ & _ & _ & _ & E5' & E6').
    rewrite EV in Hk. destruct (Nat.lt_ge_cases k K) as [Hlt|Hge].
    - rewrite E5, E5' by exact Hlt. apply HX; assumption.
    - assert (Hpp : exists p, (p < length pos)%nat /\ k = (K + p)%nat) by (exists (k - K)%nat; lia).
      destruct Hpp as (p & Hp1 & ->). rewrite E6, E6' by exact Hp1. rewrite HX by (first [exact Hi|apply Hp; exact Hp1]). f_equal.
      unfold mdot.
      rewrite (indicator_dot (d_N (x_D E')) (x_mixers E') (x_R E') (own_of (mix_of d'))
        (fun u => nth p draws' (fun _ _ => 0) u r) i HU' ltac:(rewrite mc_N'; exact Hi) : sumn _ _ = _).
      rewrite (indicator_dot (d_N (x_D E)) (x_mixers E) (x_R E) (own_of (mix_of d))
        (fun u => nth p draws (fun _ _ => 0) u r) (phi i) HU ltac:(rewrite mc_N; apply mc_phi; exact Hi) : sumn _ _ = _).
      exact (Hdr i p r Hi Hp1 Hr).
  Qed.

  Lemma mc_vv i r : (i < N')%nat -> (r < nR)%nat -> vv E' theta i r = vv E theta (phi i) r.
  Proof.
    intros Hi Hr. unfold vv, sys_utilities, mvec, draw_data. cbn [d_K d_X]. rewrite mc_vars. apply sumn_ext.
    intros k Hk. rewrite mc_x3 by assumption. reflexivity.
  Qed.

  Lemma mc_pa i r : (i < N')%nat -> (r < nR)%nat -> prob_array E' theta i r = prob_array E theta (phi i) r.
  Proof.
    intros Hi Hr.
    rewrite (pa_eq E' own' (mixed_own _ _ _ _ _ _ _ _ _ HE')) by (rewrite mc_N'; exact Hi).
    rewrite (pa_eq E own (mixed_own _ _ _ _ _ _ _ _ _ HE)) by (rewrite mc_N; apply mc_phi; exact Hi).
    rewrite mc_vv by assumption. f_equal. rewrite mc_N, mc_N'. unfold own, own', N, N'.
    rewrite !osum_id_sum by (first [exact Hi|apply mc_phi; exact Hi]).
    rewrite <- (copies_id_sum d d' phi _ i (proj1 Hcu) Hi). apply id_sum_ext. intros q Hq _. rewrite mc_vv by assumption. reflexivity.
  Qed.

  Lemma mc_LU : length (obs_ids (by_unit d)) = N.
  Proof. exact Hm. Qed.
  Lemma mc_LU' : length (obs_ids (by_unit d')) = N'.
  Proof. exact Hm'. Qed.

  Lemma mc_mixers : x_mixers E = length (first_seen (mix_of d)) /\ x_mixers E' = length (first_seen (mix_of d')).
  Proof.
    destruct (mixed_setup _ _ _ _ _ _ _ _ _ HE) as (mp & _ & _ & _ & _ & H & _).
    destruct (mixed_setup _ _ _ _ _ _ _ _ _ HE') as (mp' & _ & _ & _ & _ & H' & _). auto.
  Qed.

  Lemma mc_uosum (f' f : vec) u : (u < x_mixers E')%nat -> (forall i, (i < N')%nat -> f' i = f (phi i)) ->
    osum N' unit' u f' = osum N unit (cunit u) f.
  Proof.
    intros Hu H. rewrite (proj2 mc_mixers) in Hu.
    pose proof (copied_osum (by_unit d) (by_unit d') phi f' f u (proj2 Hcu) Hu) as G. rewrite mc_LU, mc_LU' in G. exact (G H).
  Qed.

  Lemma mc_cunit i : (i < N')%nat -> cunit (unit' i) = unit (phi i).
  Proof. intros Hi. apply (tb_own (by_unit d) (by_unit d') phi (proj2 Hcu)). rewrite mc_LU'. exact Hi. Qed.

  Lemma mc_unit_lt i : (i < N')%nat -> (unit' i < x_mixers E')%nat.
  Proof.
    intros Hi. rewrite (proj2 mc_mixers). unfold unit', own_of. apply index_of_lt, first_seen_In, nth_In.
    rewrite Hm'. exact Hi.
  Qed.

  Lemma mc_lseq u r : (u < x_mixers E')%nat -> (r < nR)%nat -> lseq E' unit' theta u r = lseq E unit theta (cunit u) r.
  Proof.
    intros Hu Hr. unfold lseq. rewrite mc_N, mc_N'. apply mc_uosum; [exact Hu|]. intros i Hi.
    rewrite mc_y, mc_pa by assumption. reflexivity.
  Qed.

  Lemma mc_sim u : (u < x_mixers E')%nat -> sim E' unit' theta u = sim E unit theta (cunit u).
  Proof.
    intros Hu. unfold sim. destruct mc_draws as (-> & ->). f_equal. apply sumn_ext. intros r Hr.
    rewrite mc_lseq by assumption. reflexivity.
  Qed.

  Lemma mc_err i r : (i < N')%nat -> (r < nR)%nat -> scaled_error E' theta i r = scaled_error E theta (phi i) r.
  Proof.
    intros Hi Hr. destruct mc_draws as (D1 & D1').
    rewrite (scaled_error_eq E' unit' (mixed_unit _ _ _ _ _ _ _ _ _ HE' Hm')) by (first [rewrite D1'; exact HR1|rewrite mc_N'; exact Hi]).
    rewrite (scaled_error_eq E unit (mixed_unit _ _ _ _ _ _ _ _ _ HE Hm)) by (first [rewrite D1; exact HR1|rewrite mc_N; apply mc_phi; exact Hi]).
    rewrite mc_y, mc_pa by assumption.
    rewrite mc_lseq, mc_sim by (first [apply mc_unit_lt; exact Hi|exact Hr]). rewrite mc_cunit by exact Hi. reflexivity.
  Qed.

  (** Weighted sums. *)
  Lemma mc_w : d_w (x_D E) = w /\ d_w (x_D E') = w' /\ d_ridge (x_D E) = ridge /\ d_ridge (x_D E') = ridge.
  Proof.
    destruct (mixed_setup _ _ _ _ _ _ _ _ _ HE) as (mp & _ & -> & _).
    destruct (mixed_setup _ _ _ _ _ _ _ _ _ HE') as (mp' & _ & -> & _). auto.
  Qed.

  Lemma mc_rows (f' f : vec) : (forall i, (i < N')%nat -> f' i = f (phi i)) ->
    sumn N' (fun i => eff_weights w' i * f' i) = sumn N (fun i => eff_weights w i * f i).
  Proof.
    intros H. destruct (mappings_exist d) as (mp & _). destruct (mappings_exist d') as (mp' & _).
    apply (tb_rows d d' mp mp' phi 0 (fun _ _ => 0) (fun _ _ => 0) w w' None (proj1 Hcu) Hww). exact H.
  Qed.

  Lemma unit_weight_eq d0 K0 X0 pos0 nR0 draws0 w0 ridge0 E0 mp0 :
    mixed_data_of d0 K0 X0 pos0 nR0 draws0 w0 ridge0 = Ok E0 -> mixing_ids_per_row d0 ->
    create_long_form_mappings (by_unit d0) None = Ok mp0 ->
    let Du := data_of (by_unit d0) mp0 0 (fun _ _ => 0) w0 None in
    d_obs Du = x_mixers E0 /\ weights_per_obs Du = weights_per_mixer E0.
  Proof.
    intros H0 Hm0 Hmp0 Du. destruct (mixed_setup _ _ _ _ _ _ _ _ _ H0) as (mp1 & _ & ED & _ & _ & Eu & ER & _).
    destruct (mappings_ok _ _ _ Hmp0) as (Eo & _). split.
    - rewrite Eu. apply (data_nobs (by_unit d0) None mp0 0 (fun _ _ => 0) w0 None Hmp0).
    - unfold weights_per_obs, weights_per_mixer. rewrite ED, ER. unfold Du, data_of. cbn [d_N d_M d_w]. rewrite Eo.
      cbn [by_unit obs_ids]. rewrite Hm0. reflexivity.
  Qed.

  Lemma mc_units (f' f : vec) : (forall u, (u < x_mixers E')%nat -> f' u = f (cunit u)) ->
    sumn (x_mixers E') (fun u => weights_per_mixer E' u * f' u) = sumn (x_mixers E) (fun u => weights_per_mixer E u * f u).
  Proof.
    intros H. destruct (mappings_exist (by_unit d)) as (mp & Hmp). destruct (mappings_exist (by_unit d')) as (mp' & Hmp').
    destruct (unit_weight_eq _ _ _ _ _ _ _ _ _ mp HE Hm Hmp) as (Eu & Ew). cbv zeta in Eu, Ew.
    destruct (unit_weight_eq _ _ _ _ _ _ _ _ _ mp' HE' Hm' Hmp') as (Eu' & Ew'). cbv zeta in Eu', Ew'.
    assert (Hww2 : weights_add_up (by_unit d) (by_unit d') phi w w').
    { intros i Hi. rewrite mc_LU in Hi. rewrite mc_LU'. apply Hww. exact Hi. }
    assert (Hnn2 : nonneg_weights (by_unit d') w').
    { intros i Hi. apply Hnn'. rewrite mc_LU' in Hi. exact Hi. }
    pose proof (tb_obs (by_unit d) (by_unit d') None None mp mp' phi 0 (fun _ _ => 0) (fun _ _ => 0) w w' None Hmp Hmp'
      (proj2 Hcu) Hww2 Hsw' Hnn2 f' f) as G. rewrite Eu, Eu', Ew, Ew' in G. apply G. exact H.
  Qed.

  Hypothesis Hlen : mixed_check_length E theta = Ok tt.

  Lemma mc_len : alen theta = x_vars E.
  Proof. unfold mixed_check_length in Hlen. destruct (Nat.eqb_spec (alen theta) (x_vars E)); [assumption|discriminate]. Qed.

  Lemma mc_score u a : (u < x_mixers E')%nat -> (a < x_vars E)%nat ->
    mixed_score_matrix E' theta u a = mixed_score_matrix E theta (cunit u) a.
  Proof.
    intros Hu Ha. destruct mc_draws as (D1 & D1').
    destruct (bc_many E) as (Bc & _ & Bd); [congruence|]. destruct (bc_many E') as (Bc' & _ & Bd'); [congruence|].
    pose proof (mixed_unit _ _ _ _ _ _ _ _ _ HE Hm) as HU. pose proof (mixed_unit _ _ _ _ _ _ _ _ _ HE' Hm') as HU'.
    assert (Huu : (cunit u < x_mixers E)%nat).
    { rewrite (proj1 mc_mixers). rewrite (proj2 mc_mixers) in Hu. destruct (tb_first (by_unit d') u Hu) as (H1 & _).
      unfold cunit, copied_obs, own_of. apply index_of_lt, first_seen_In, nth_In. 
      exact (tb_phi (by_unit d) (by_unit d') phi (proj2 Hcu) _ H1). }
    unfold mixed_score_matrix. rewrite Bc, Bc', Bd, Bd', D1, D1'. unfold mdot, transp. rewrite mc_N, mc_N'.
    set (g' := fun i => sumn nR (fun r => scaled_error E' theta i r * x_X E' i r a) / INR nR).
    set (g := fun i => sumn nR (fun r => scaled_error E theta i r * x_X E i r a) / INR nR).
    transitivity (osum N' unit' u g').
    { unfold osum. apply sumn_ext. intros i Hi. destruct (HU' i) as (_ & Em); [rewrite mc_N'; exact Hi|]. rewrite Em by exact Hu.
      fold unit'. destruct (unit' i =? u)%nat; [unfold g'|]; ring. }
    rewrite (mc_uosum g' g u Hu).
    - unfold osum. apply sumn_ext. intros i Hi. destruct (HU i) as (_ & Em); [rewrite mc_N; exact Hi|]. rewrite Em by exact Huu.
      fold unit. destruct (unit i =? cunit u)%nat; [unfold g|]; ring.
    - intros i Hi. unfold g', g. f_equal. apply sumn_ext. intros r Hr. rewrite mc_err, mc_x3 by assumption. reflexivity.
  Qed.

  Theorem C38_mixed_frequency_weights :
    mixed_same_predictions E E' phi theta /\ mixed_same_estimation E E' theta.
  Proof.
    destruct mc_draws as (D1 & D1'). destruct mc_w as (W1 & W1' & G1 & G1'). pose proof mc_len as L.
    destruct (bc_many E) as (Bc & Bp & Bd); [congruence|]. destruct (bc_many E') as (Bc' & Bp' & Bd'); [congruence|].
    split; [|split; [|split; [|split]]].
    - intros p Hp. cbn [mixed_predict] in *. rewrite D1 in Hp. rewrite D1'.
      destruct (nR =? 1)%nat; [discriminate|]. injection Hp as <-. eexists. split; [reflexivity|].
      intros i Hi. rewrite mc_N' in Hi. unfold row_mean. f_equal. apply sumn_ext. intros r Hr. apply mc_pa; assumption.
    - unfold calc_mixed_log_likelihood. rewrite Bc, Bc', Bp, Bp', G1, G1'. unfold vdot.
      assert (A : sumn (x_mixers E') (fun u => weights_per_mixer E' u *
          ln (sequence_probs (d_N (x_D E')) (x_draws E') (prob_array E' theta) (d_y (x_D E')) (x_R E') u)) =
        sumn (x_mixers E) (fun u => weights_per_mixer E u *
          ln (sequence_probs (d_N (x_D E)) (x_draws E) (prob_array E theta) (d_y (x_D E)) (x_R E) u))).
      { transitivity (sumn (x_mixers E') (fun u => weights_per_mixer E' u * ln (sim E' unit' theta u))).
        - apply sumn_ext. intros u Hu. rewrite (sim_eq E' unit' (mixed_unit _ _ _ _ _ _ _ _ _ HE' Hm')) by exact Hu. reflexivity.
        - rewrite (mc_units _ (fun u => ln (sim E unit theta u))).
          + apply sumn_ext. intros u Hu. rewrite (sim_eq E unit (mixed_unit _ _ _ _ _ _ _ _ _ HE Hm)) by exact Hu. reflexivity.
          + intros u Hu. rewrite mc_sim by exact Hu. reflexivity. }
      rewrite A. reflexivity.
    - unfold calc_mixed_logit_gradient. cbn [alen]. exact mc_vars.
    - intros a Ha. rewrite L in Ha. unfold calc_mixed_logit_gradient. cbn [aget]. rewrite Bc, Bc', Bd, Bd', D1, D1', W1, W1', G1, G1', mc_N, mc_N'.
      set (g' := fun i => sumn nR (fun r => scaled_error E' theta i r * x_X E' i r a) / INR nR).
      set (g := fun i => sumn nR (fun r => scaled_error E theta i r * x_X E i r a) / INR nR).
      assert (T : forall n v s (x : nat -> nat -> nat -> R),
        sumn nR (fun r => sumn n (fun i => s i r * x i r a * eff_weights v i)) / INR nR =
        sumn n (fun i => eff_weights v i * (sumn nR (fun r => s i r * x i r a) / INR nR))).
      { intros n v s x. rewrite sumn_swap. unfold Rdiv. rewrite <- sumn_scal_r. apply sumn_ext. intros i _.
        rewrite sumn_scal_r. ring. }
      assert (A : sumn nR (fun r => sumn N' (fun i => scaled_error E' theta i r * x_X E' i r a * eff_weights w' i)) / INR nR =
                  sumn nR (fun r => sumn N (fun i => scaled_error E theta i r * x_X E i r a * eff_weights w i)) / INR nR).
      { rewrite !T. apply (mc_rows g' g). intros i Hi. unfold g', g. f_equal. apply sumn_ext. intros r Hr.
        rewrite mc_err, mc_x3 by assumption. reflexivity. }
      destruct ridge; rewrite A; reflexivity.
    - intros cp. unfold mixed_est_hessian.
      assert (G : forall a b, (a < alen theta)%nat -> (b < alen theta)%nat ->
         sqe (calc_bhhh_mixed E' theta) a b = sqe (calc_bhhh_mixed E theta) a b).
      { intros a b Ha Hb. rewrite L in Ha, Hb. unfold calc_bhhh_mixed. cbn [sqe]. f_equal. rewrite G1, G1'.
        assert (A : mdot (x_mixers E') (transp (mixed_score_matrix E' theta)) (fun u k => weights_per_mixer E' u * mixed_score_matrix E' theta u k) a b =
                    mdot (x_mixers E) (transp (mixed_score_matrix E theta)) (fun u k => weights_per_mixer E u * mixed_score_matrix E theta u k) a b).
        { unfold mdot, transp.
          set (F' := fun u => mixed_score_matrix E' theta u a * mixed_score_matrix E' theta u b).
          set (F := fun u => mixed_score_matrix E theta u a * mixed_score_matrix E theta u b).
          transitivity (sumn (x_mixers E') (fun u => weights_per_mixer E' u * F' u)); [apply sumn_ext; intros; unfold F'; ring|].
          rewrite (mc_units F' F); [apply sumn_ext; intros; unfold F; ring|].
          intros u Hu. unfold F', F. rewrite !mc_score by assumption. reflexivity. }
        destruct ridge; rewrite A; reflexivity. }
      destruct cp as [l|]; cbn [sqn sqe].
      + split; [unfold calc_bhhh_mixed; cbn [sqn]; exact mc_vars|]. apply fold_decouple_ext. exact G.
      + split; [unfold calc_bhhh_mixed; cbn [sqn]; exact mc_vars|exact G].
  Qed.
End Copies.

(** Units of weight zero can be left out. *)
Theorem C38_mixed_weight_zero_is_left_out d d' phi K X X' pos nR draws draws' w w' ridge E E' theta :
  mixed_data_of d K X pos nR draws w ridge = Ok E -> mixed_data_of d' K X' pos nR draws' w' ridge = Ok E' ->
  mixing_ids_per_row d -> mixing_ids_per_row d' -> nR <> 1%nat ->
  leaves_out_weight_zero d d' phi w w' -> copies_units d d' phi ->
  (forall r q, (r < length (obs_ids d'))%nat -> (q < K)%nat -> X' r q = X (phi r) q) ->
  same_draws d d' phi (length pos) nR draws draws' ->
  same_weight_within_observation (by_unit d') w' -> nonneg_weights d' w' ->
  mixed_check_length E theta = Ok tt ->
  mixed_same_predictions E E' phi theta /\ mixed_same_estimation E E' theta.
Proof.
  intros HE HE' Hm Hm' HR1 Hlv Hcu HX Hdr Hsw Hnn Hl.
  apply (C38_mixed_frequency_weights d d' phi K X X' pos nR draws draws' w w' ridge E E' theta); try assumption.
  apply left_out_weights. exact Hlv.
Qed.

(** ** C112 *)

(** Reordering the rows changes no result as long as every unit keeps its draws. *)
Theorem C112_mixed_order_of_the_rows d d' p f g K X X' pos nR draws draws' w w' ridge E E' theta :
  mixed_data_of d K X pos nR draws w ridge = Ok E -> mixed_data_of d' K X' pos nR draws' w' ridge = Ok E' ->
  mixing_ids_per_row d -> mixing_ids_per_row d' -> nR <> 1%nat ->
  rearranged d d' p f -> rearranged (by_unit d) (by_unit d') p g ->
  (forall r q, (r < length (obs_ids d))%nat -> (q < K)%nat -> X' r q = X (p r) q) ->
  same_draws d d' p (length pos) nR draws draws' ->
  (forall r, (r < length (obs_ids d))%nat -> eff_weights w' r = eff_weights w (p r)) ->
  same_weight_within_observation (by_unit d) w -> nonneg_weights d w ->
  mixed_check_length E theta = Ok tt ->
  mixed_same_predictions E E' p theta /\ mixed_same_estimation E E' theta.
Proof.
  intros HE HE' Hm Hm' HR1 Hre Hre2 HX Hdr HW Hsw Hnn Hl.
  pose proof (rearranged_copies _ _ _ _ Hre) as Hcop. pose proof (rearranged_copies _ _ _ _ Hre2) as Hcop2.
  assert (Hnn2 : nonneg_weights (by_unit d) w) by (intros i Hi; apply Hnn; cbn [by_unit obs_ids] in Hi; rewrite Hm in Hi; exact Hi).
  destruct (rearranged_weights (by_unit d) (by_unit d') p g w w' Hre2) as (Hlv & Hsw' & Hnn').
  { intros r Hr. apply HW. cbn [by_unit obs_ids] in Hr. rewrite Hm in Hr. exact Hr. }
  { exact Hsw. }
  { exact Hnn2. }
  pose proof (proj1 Hre) as L.
  apply (C38_mixed_frequency_weights d d' p K X X' pos nR draws draws' w w' ridge E E' theta); try assumption.
  - split; assumption.
  - rewrite L. exact HX.
  - apply left_out_weights in Hlv. intros i Hi. pose proof (Hlv i) as G. cbn [by_unit obs_ids] in G. rewrite Hm, Hm' in G. exact (G Hi).
  - intros i Hi. apply Hnn'. cbn [by_unit obs_ids]. rewrite Hm'. exact Hi.
Qed.

(** With the same draw arrays -- the same seed -- that is so when the units first appear
    in the same order. *)
Theorem C112_mixed_same_seed d d' p f g K X X' pos nR draws w w' ridge E E' theta :
  mixed_data_of d K X pos nR draws w ridge = Ok E -> mixed_data_of d' K X' pos nR draws w' ridge = Ok E' ->
  mixing_ids_per_row d -> mixing_ids_per_row d' -> nR <> 1%nat ->
  rearranged d d' p f -> rearranged (by_unit d) (by_unit d') p g ->
  first_seen (mix_of d') = map g (first_seen (mix_of d)) ->
  (forall r q, (r < length (obs_ids d))%nat -> (q < K)%nat -> X' r q = X (p r) q) ->
  (forall r, (r < length (obs_ids d))%nat -> eff_weights w' r = eff_weights w (p r)) ->
  same_weight_within_observation (by_unit d) w -> nonneg_weights d w ->
  mixed_check_length E theta = Ok tt ->
  mixed_same_predictions E E' p theta /\ mixed_same_estimation E E' theta.
Proof.
  intros HE HE' Hm Hm' HR1 Hre Hre2 Hfs HX HW Hsw Hnn Hl.
  apply (C112_mixed_order_of_the_rows d d' p f g K X X' pos nR draws draws w w' ridge E E' theta); try assumption.
  intros i q r Hi _ _. unfold draw_of. f_equal. rewrite Hfs.
  destruct Hre2 as (L1 & _ & _ & (Hp & _) & Hg & Hrow). cbn [by_unit obs_ids] in *. unfold mixing_ids_per_row in Hm, Hm'.
  rewrite Hm' in L1. rewrite Hm in L1, Hp, Hrow. rewrite L1 in Hi.
  destruct (Hrow i Hi) as (E1 & _). rewrite E1. apply index_of_map.
  intros y Hy Ey. apply Hg; [apply nth_In; rewrite Hm; apply Hp; exact Hi|apply first_seen_In; exact Hy|exact Ey].
Qed.

(** ** Sorting moves the draws

    Two persons with one observation each and the same draw arrays.  The explanatory
    variable is zero for the first person.  Listing the second person first gives
    them the other row of draws, and the log-likelihood changes. *)
Definition exo_cols : long_cols := mkLong [1; 1; 2; 2]%Z [1; 2; 1; 2]%Z (Some [1; 0; 1; 0]%Z) (Some [1; 1; 2; 2]%Z).
Definition exo_cols' : long_cols := mkLong [2; 2; 1; 1]%Z [1; 2; 1; 2]%Z (Some [1; 0; 1; 0]%Z) (Some [2; 2; 1; 1]%Z).
Definition exo_p (r : nat) : nat := nth r [2; 3; 0; 1]%nat 0%nat.
Definition exo_X : mat := fun i _ => if (i =? 2)%nat then 1 else 0.
Definition exo_X' : mat := fun i _ => if (i =? 0)%nat then 1 else 0.
Definition exo_draws : list mat := [fun u _ => INR u].
Definition exo_theta : arr := mkArr 2 INR.

Lemma exo_rearranged : rearranged exo_cols exo_cols' exo_p (fun x => x) /\
  rearranged (by_unit exo_cols) (by_unit exo_cols') exo_p (fun x => x).
Proof.
  split; unfold rearranged; cbn [exo_cols exo_cols' by_unit mix_of mix_ids obs_ids alt_ids length].
  all: repeat split; try lia.
  all: try (intros i Hi; do 4 (destruct i as [|i]; [cbn; lia|]); lia).
  all: try (intros i j Hi Hj E; do 4 (destruct i as [|i]; [do 4 (destruct j as [|j]; [cbn in E; lia|]); lia|]); lia).
  all: do 4 (destruct r as [|r]; [reflexivity|]); lia.
Qed.

Lemma exo_unit V :
  unit_likelihood exo_cols V 1 = exp (V 0%nat) / (exp (V 0%nat) + exp (V 1%nat)) /\
  unit_likelihood exo_cols V 2 = exp (V 2%nat) / (exp (V 2%nat) + exp (V 3%nat)) /\
  unit_likelihood exo_cols' V 2 = exp (V 0%nat) / (exp (V 0%nat) + exp (V 1%nat)) /\
  unit_likelihood exo_cols' V 1 = exp (V 2%nat) / (exp (V 2%nat) + exp (V 3%nat)).
Proof.
  unfold unit_likelihood, logit_prob, id_sum. cbn -[exp Rplus Rmult Rdiv].
  rewrite !Rplus_0_l, !Rplus_0_r, !Rmult_1_l, !Rmult_1_r. auto.
Qed.

Lemma exo_utils i r : (i < 4)%nat ->
  mixed_utility exo_cols 1 exo_X [0%nat] exo_draws exo_theta i r = (if (i =? 2)%nat then 1 else 0) /\
  mixed_utility exo_cols' 1 exo_X' [0%nat] exo_draws exo_theta i r = 0.
Proof. intros Hi. do 4 (destruct i as [|i]; [split; unfold mixed_utility, draw_of, exo_theta, exo_draws; cbn; try ring|]). lia. Qed.

Lemma exo_log_likelihoods : exists E E',
  mixed_data_of exo_cols 1 exo_X [0%nat] 2 exo_draws None None = Ok E /\
  mixed_data_of exo_cols' 1 exo_X' [0%nat] 2 exo_draws None None = Ok E' /\
  mixed_check_length E exo_theta = Ok tt /\
  calc_mixed_log_likelihood E exo_theta = ln (/ 2) + ln (exp 1 / (exp 1 + 1)) /\
  calc_mixed_log_likelihood E' exo_theta = ln (/ 2) + ln (/ 2).
Proof.
  eexists. eexists. split; [reflexivity|]. split; [reflexivity|]. split; [reflexivity|].
  assert (C : forall d, choices d = Some [1; 0; 1; 0]%Z -> length (obs_ids d) = 4%nat -> choices_are_0_or_1 d).
  { intros d Ed Ld. eexists. split; [exact Ed|]. rewrite Ld. intros i Hi. do 4 (destruct i as [|i]; [cbn; auto|]). lia. }
  assert (Z : exp 0 / (exp 0 + exp 0) = / 2) by (rewrite exp_0; field).
  assert (M : forall x, (0 + x + x) / INR 2 = x) by (intros; cbn; field).
  split.
  - erewrite (C47_simulated_log_likelihood exo_cols 1 exo_X [0%nat] 2 exo_draws None None _ exo_theta (fun _ => 1));
      [|reflexivity|reflexivity|lia|intros i _; cbn; split; [reflexivity|lra]|apply C; reflexivity|].
    + change (first_seen (mix_of exo_cols)) with [1; 2]%Z. cbn [length sumn nth]. cbv zeta.
      rewrite !(proj1 (exo_unit _)), !(proj1 (proj2 (exo_unit _))).
      rewrite !(fun i r H => proj1 (exo_utils i r H)) by lia. cbn [Nat.eqb]. rewrite !M, Z, exp_0. ring.
    + intros i r Hi _. rewrite (proj1 (exo_utils i r Hi)). unfold unclipped, min_exponent_val, max_exponent_val. destruct (i =? 2)%nat; lra.
  - erewrite (C47_simulated_log_likelihood exo_cols' 1 exo_X' [0%nat] 2 exo_draws None None _ exo_theta (fun _ => 1));
      [|reflexivity|reflexivity|lia|intros i _; cbn; split; [reflexivity|lra]|apply C; reflexivity|].
    + change (first_seen (mix_of exo_cols')) with [2; 1]%Z. cbn [length sumn nth]. cbv zeta.
      rewrite !(proj1 (proj2 (proj2 (exo_unit _)))), !(proj2 (proj2 (proj2 (exo_unit _)))).
      rewrite !(fun i r H => proj2 (exo_utils i r H)) by lia. rewrite !M, Z. ring.
    + intros i r Hi _. rewrite (proj2 (exo_utils i r Hi)). unfold unclipped, min_exponent_val, max_exponent_val. lra.
Qed.

Theorem C112_refuted_mixed_same_seed : exists d d' p K X X' pos nR draws E E' theta,
  mixed_data_of d K X pos nR draws None None = Ok E /\ mixed_data_of d' K X' pos nR draws None None = Ok E' /\
  mixing_ids_per_row d /\ mixing_ids_per_row d' /\ (1 < nR)%nat /\ exactly_one_choice d /\
  rearranged d d' p (fun x => x) /\ rearranged (by_unit d) (by_unit d') p (fun x => x) /\
  (forall r q, (r < length (obs_ids d))%nat -> (q < K)%nat -> X' r q = X (p r) q) /\
  mixed_check_length E theta = Ok tt /\
  calc_mixed_log_likelihood E' theta <> calc_mixed_log_likelihood E theta.
Proof.
  destruct exo_log_likelihoods as (E & E' & HE & HE' & Hl & L & L').
  exists exo_cols, exo_cols', exo_p, 1%nat, exo_X, exo_X', [0%nat], 2%nat, exo_draws, E, E', exo_theta.
  split; [exact HE|]. split; [exact HE'|]. split; [reflexivity|]. split; [reflexivity|]. split; [lia|]. split.
  { eexists. split; [reflexivity|]. split.
    - intros i Hi. cbn in Hi. do 4 (destruct i as [|i]; [cbn; auto|]). lia.
    - intros o Ho. cbn in Ho. assert (o = 1 \/ o = 2)%Z as [-> | ->] by lia; [exists 0%nat|exists 2%nat];
        (split; [cbn; lia|]; split; [reflexivity|]; split; [reflexivity|]; intros r' Hr' E1 E2; cbn in Hr';
         do 4 (destruct r' as [|r']; [cbn in E1, E2; first [reflexivity|discriminate]|]); lia). }
  split; [apply exo_rearranged|]. split; [apply exo_rearranged|]. split.
  { intros r q Hr _. cbn in Hr. do 4 (destruct r as [|r]; [reflexivity|]). lia. }
  split; [exact Hl|]. rewrite L, L'. intros H.
  assert (B : / 2 < exp 1 / (exp 1 + 1)).
  { pose proof (exp_ineq1 1 ltac:(lra)) as G. apply Rmult_lt_reg_r with (2 * (exp 1 + 1)); [lra|]. field_simplify; lra. }
  apply ln_increasing in B; lra.
Qed.

(** ** Non-vacuity *)

(** The panel of PropMixed.v with the persons in the other order; the draw arrays have
    their rows exchanged accordingly. *)
Definition exm_sorted : long_cols :=
  mkLong [30;20;10;20;30;10]%Z [2;1;1;2;1;2]%Z (Some [0;0;1;1;1;0]%Z) (Some [3;5;5;5;3;5]%Z).
Definition exm_p (r : nat) : nat := nth r [5; 2; 0; 3; 4; 1]%nat 0%nat.
Example ex_mixed_rearranged :
  rearranged exm_cols exm_sorted exm_p (fun x => x) /\
  rearranged (by_unit exm_cols) (by_unit exm_sorted) exm_p (fun x => x) /\
  same_draws exm_cols exm_sorted exm_p 1 2 exm_draws [fun u r => INR ((1 - u) + 2 * r)] /\
  same_weight_within_observation (by_unit exm_cols) None /\ nonneg_weights exm_cols None /\
  exists E', mixed_data_of exm_sorted 2 (fun i k => exm_X (exm_p i) k) [1%nat] 2 [fun u r => INR ((1 - u) + 2 * r)] None (Some 1) = Ok E'.
Proof.
  split; [|split; [|split; [|split; [|split]]]].
  1, 2: unfold rearranged; cbn [exm_cols exm_sorted by_unit mix_of mix_ids obs_ids alt_ids length]; repeat split; try lia;
    try (intros i Hi; do 6 (destruct i as [|i]; [cbn; lia|]); lia);
    try (intros i j Hi Hj E; do 6 (destruct i as [|i]; [do 6 (destruct j as [|j]; [cbn in E; lia|]); lia|]); lia);
    do 6 (destruct r as [|r]; [reflexivity|]); lia.
  - intros i p r Hi Hp Hr. cbn in Hi. assert (p = 0)%nat by lia. subst p.
    do 6 (destruct i as [|i]; [reflexivity|]). lia.
  - intros i i' _ _ _. reflexivity.
  - intros i _. cbn. lra.
  - eexists. reflexivity.
Qed.

(** Rows of the persons interleaved, first appearances in the same order, person ids renamed. *)
Definition exm_mingled : long_cols :=
  mkLong [10;30;20;10;30;20]%Z [1;2;2;2;1;1]%Z (Some [1;0;1;0;1;0]%Z) (Some [50;40;50;50;40;50]%Z).
Definition exm_q (r : nat) : nat := nth r [0; 5; 3; 1; 4; 2]%nat 0%nat.
Example ex_mixed_same_seed :
  let g := (fun x => if (x =? 5) then 50 else 40)%Z in
  rearranged exm_cols exm_mingled exm_q (fun x => x) /\
  rearranged (by_unit exm_cols) (by_unit exm_mingled) exm_q g /\
  first_seen (mix_of exm_mingled) = map g (first_seen (mix_of exm_cols)) /\
  exists E', mixed_data_of exm_mingled 2 (fun i k => exm_X (exm_q i) k) [1%nat] 2 exm_draws None (Some 1) = Ok E'.
Proof.
  cbv zeta. split; [|split; [|split; [reflexivity|eexists; reflexivity]]].
  - unfold rearranged; cbn [exm_cols exm_mingled by_unit mix_of mix_ids obs_ids alt_ids length]; repeat split; try lia;
    try (intros i Hi; do 6 (destruct i as [|i]; [cbn; lia|]); lia);
    try (intros i j Hi Hj E; do 6 (destruct i as [|i]; [do 6 (destruct j as [|j]; [cbn in E; lia|]); lia|]); lia);
    do 6 (destruct r as [|r]; [reflexivity|]); lia.
  - unfold rearranged; cbn [exm_cols exm_mingled by_unit mix_of mix_ids obs_ids alt_ids length]; repeat split; try lia;
    try (intros i Hi; do 6 (destruct i as [|i]; [cbn; lia|]); lia);
    try (intros i j Hi Hj E; do 6 (destruct i as [|i]; [do 6 (destruct j as [|j]; [cbn in E; lia|]); lia|]); lia);
    try (intros x y Hx Hy E; simpl in Hx, Hy; destruct (Z.eqb_spec x 5), (Z.eqb_spec y 5); lia);
    do 6 (destruct r as [|r]; [reflexivity|]); lia.
Qed.

(** Person 3 listed twice, with weight 1/2 each time. *)
Definition exm_double : long_cols :=
  mkLong [10;10;20;20;30;30;40;40]%Z [1;2;1;2;1;2;1;2]%Z (Some [1;0;0;1;1;0;1;0]%Z) (Some [5;5;5;5;3;3;4;4]%Z).
Definition exm_phi (r : nat) : nat := if (r <? 6)%nat then r else (r - 2)%nat.
Example ex_mixed_copies :
  copies_units exm_cols exm_double exm_phi /\
  same_draws exm_cols exm_double exm_phi 1 2 exm_draws [fun u r => INR (Nat.min u 1 + 2 * r)] /\
  weights_add_up exm_cols exm_double exm_phi None (Some (fun r => if (r <? 4)%nat then 1 else / 2)) /\
  same_weight_within_observation (by_unit exm_double) (Some (fun r => if (r <? 4)%nat then 1 else / 2)) /\
  nonneg_weights exm_double (Some (fun r => if (r <? 4)%nat then 1 else / 2)).
Proof.
  split; [|split; [|split; [|split]]].
  - split.
    { unfold lists_copies. cbn [exm_cols exm_double by_unit mix_of mix_ids obs_ids alt_ids length].
      split; [reflexivity|]. split; [reflexivity|]. split; [|split; [|split; [|split]]].
      + intros r Hr. do 8 (destruct r as [|r]; [cbn; repeat split; lia|]). lia.
      + intros x Hx. simpl in *. intuition.
      + intros r r' Hr Hr' E. do 8 (destruct r as [|r]; [do 8 (destruct r' as [|r']; [cbn in *; first [reflexivity|discriminate]|]); lia|]). lia.
      + intros r i Hr Hi E.
        do 8 (destruct r as [|r]; [do 6 (destruct i as [|i]; [cbn in *; first [discriminate|
          (exists 0%nat; cbn; repeat split; lia)|(exists 1%nat; cbn; repeat split; lia)|(exists 2%nat; cbn; repeat split; lia)|
          (exists 3%nat; cbn; repeat split; lia)|(exists 4%nat; cbn; repeat split; lia)|(exists 5%nat; cbn; repeat split; lia)|
          (exists 6%nat; cbn; repeat split; lia)|(exists 7%nat; cbn; repeat split; lia)]|]); lia|]). lia.
      + intros r r' Hr Hr' E E2. do 8 (destruct r as [|r]; [do 8 (destruct r' as [|r']; [cbn in *; first [reflexivity|discriminate]|]); lia|]). lia. }
    { unfold lists_copies. cbn [exm_cols exm_double by_unit mix_of mix_ids obs_ids alt_ids length].
      split; [reflexivity|]. split; [reflexivity|]. split; [|split; [|split; [|split]]].
      + intros r Hr. do 8 (destruct r as [|r]; [cbn; repeat split; lia|]). lia.
      + intros x Hx. simpl in *. intuition.
      + intros r r' Hr Hr' E. do 8 (destruct r as [|r]; [do 8 (destruct r' as [|r']; [cbn in *; first [reflexivity|discriminate]|]); lia|]). lia.
      + intros r i Hr Hi E.
        do 8 (destruct r as [|r]; [do 6 (destruct i as [|i]; [cbn in *; first [discriminate|
          (exists 0%nat; cbn; repeat split; lia)|(exists 1%nat; cbn; repeat split; lia)|(exists 2%nat; cbn; repeat split; lia)|
          (exists 3%nat; cbn; repeat split; lia)|(exists 4%nat; cbn; repeat split; lia)|(exists 5%nat; cbn; repeat split; lia)|
          (exists 6%nat; cbn; repeat split; lia)|(exists 7%nat; cbn; repeat split; lia)]|]); lia|]). lia.
      + intros r r' Hr Hr' E E2. do 8 (destruct r as [|r]; [do 8 (destruct r' as [|r']; [cbn in *; first [reflexivity|discriminate]|]); lia|]). lia. }
  - intros i p r Hi Hp Hr. cbn in Hi. assert (p = 0)%nat by lia. subst p. do 8 (destruct i as [|i]; [reflexivity|]). lia.
  - intros i Hi. cbn in Hi. do 6 (destruct i as [|i]; [cbn; lra|]). lia.
  - intros i i' Hi Hi' E. cbn in Hi, Hi'.
    do 8 (destruct i as [|i]; [do 8 (destruct i' as [|i']; [cbn in *; first [discriminate|reflexivity]|]); lia|]). lia.
  - intros i _. cbn [eff_weights]. destruct (i <? 4)%nat; lra.
Qed.

Print Assumptions C38_mixed_frequency_weights.
Print Assumptions C38_mixed_weight_zero_is_left_out.
Print Assumptions C112_mixed_order_of_the_rows.
Print Assumptions C112_mixed_same_seed.
Print Assumptions C112_refuted_mixed_same_seed.
