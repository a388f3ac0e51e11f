(** Properties C108 (the order of the draws is irrelevant) and C109 (the sign of a
    standard deviation), and the objective function of C48. *)
From Coq Require Import String ZArith List Reals Lra Lia Arith Bool.
From Coquelicot Require Import Coquelicot.
From Verif Require Import Res Vec Arr SpecLogit ChoiceCalcs ChoiceFacts Transforms Ids Mappings
  MappingFacts LongData LogitFacts RowDeriv HessFacts ProbFacts PropMappings PropProbs PropGradient
  PropHessian NestedCalcs NestedFacts MixedCalcs MixedFacts PropMixed
  PropNested Estimation PropBaseModel PropEstimation PropInference MixedObjective.
Import ListNotations.
Open Scope R_scope.

(** ** Specification *)

Definition a_sign (x : R) : Prop := x = 1 \/ x = -1.

(** For n units, m variables and nR draws: the draws of variable v are those of the
    first list in the order p, times the sign s v. *)
Definition redrawn (n m nR : nat) (p : nat -> nat) (s : nat -> R) (draws draws' : list mat) : Prop :=
  forall v u r, (v < m)%nat -> (u < n)%nat -> (r < nR)%nat ->
    nth v draws' (fun _ _ => 0) u r = s v * nth v draws (fun _ _ => 0) u (p r).

(** The K coefficients are equal and the standard deviations after them differ by the signs. *)
Definition resigned (K m : nat) (s : nat -> R) (theta theta' : arr) : Prop :=
  alen theta = (K + m)%nat /\ alen theta' = (K + m)%nat /\
  (forall k, (k < K)%nat -> aget theta' k = aget theta k) /\
  (forall v, (v < m)%nat -> aget theta' (K + v)%nat = s v * aget theta (K + v)%nat).

(** The sign that belongs to parameter k. *)
Definition sign_at (K : nat) (s : nat -> R) (k : nat) : R := if (k <? K)%nat then 1 else s (k - K)%nat.

(** ** The calculations on related inputs *)
Lemma mdot_ext3 n A B B' i r r' : (forall u, (u < n)%nat -> B' u r' = B u r) -> mdot n A B' i r' = mdot n A B i r.
Proof. intros H. unfold mdot. apply sumn_ext. intros u Hu. rewrite H by exact Hu. reflexivity. Qed.

Section Related.
  Context (E E' : MData) (p : nat -> nat) (s : nat -> R) (th th' : arr).
  Notation D := (x_D E).
  Notation N := (d_N D).
  Notation nR := (x_draws E).
  Hypothesis HD : x_D E' = D.
  Hypothesis Hr : x_draws E' = nR.
  Hypothesis Hv : x_vars E' = x_vars E.
  Hypothesis Hm : x_mixers E' = x_mixers E.
  Hypothesis HR : x_R E' = x_R E.
  Hypothesis Hp : perm_on nR p.
  Hypothesis Hs : forall k, a_sign (s k).
  Hypothesis HX : forall i r k, (i < N)%nat -> (r < nR)%nat -> (k < x_vars E)%nat -> x_X E' i r k = s k * x_X E i (p r) k.
  Hypothesis Ht : forall k, (k < x_vars E)%nat -> aget th' k = s k * aget th k.
  Hypothesis Hl : alen th = x_vars E.
  Hypothesis Hl' : alen th' = x_vars E.
  Context (own : nat -> nat).
  Hypothesis Hown : indicator_of N (d_obs D) (d_M D) own.

  Lemma sign_sq k : s k * s k = 1.
  Proof. destruct (Hs k) as [-> | ->]; ring. Qed.

  Lemma re_util i r : (i < N)%nat -> (r < nR)%nat -> sys_utilities (draw_data E' r) th' i = sys_utilities (draw_data E (p r)) th i.
  Proof.
    intros Hi Hr'. unfold sys_utilities, mvec, draw_data. cbn [d_K d_X]. rewrite Hv. apply sumn_ext. intros k Hk.
    rewrite HX, Ht by assumption. transitivity ((s k * s k) * (x_X E i (p r) k * aget th k)); [ring|]. rewrite sign_sq. ring.
  Qed.

  Lemma re_prob i r : (i < N)%nat -> (r < nR)%nat -> prob_array E' th' i r = prob_array E th i (p r).
  Proof.
    intros Hi Hr'. rewrite (pa_eq E own Hown th i (p r) Hi).
    assert (Hown' : indicator_of (d_N (x_D E')) (d_obs (x_D E')) (d_M (x_D E')) own) by (rewrite HD; exact Hown).
    assert (Hi' : (i < d_N (x_D E'))%nat) by (rewrite HD; exact Hi).
    rewrite (pa_eq E' own Hown' th' i r Hi'). unfold vv. rewrite HD. rewrite re_util by assumption. f_equal.
    apply osum_ext. intros k Hk _. rewrite re_util by assumption. reflexivity.
  Qed.

  Lemma re_chosen C j r : (r < nR)%nat -> chosen_array E' C th' j r = chosen_array E C th j (p r).
  Proof.
    intros Hr'. unfold chosen_array, chosen_probs.
    assert (A : forall i, (i < N)%nat -> long_exponentials MNL_model (draw_data E' r) None None th' i =
                                         long_exponentials MNL_model (draw_data E (p r)) None None th i).
    { intros i Hi. unfold long_exponentials. f_equal. f_equal. exact (re_util i r Hi Hr'). }
    unfold individual_denominators, mvec. cbn [draw_data d_N d_M]. rewrite HD. f_equal; apply sumn_ext; intros i Hi; rewrite A by exact Hi; reflexivity.
  Qed.

  (** The permutation of the columns the calculations actually use. *)
  Let q : nat -> nat := if (nR =? 1)%nat then fun r => r else p.

  Lemma re_cols : bc_cols E' = bc_cols E.
  Proof. unfold bc_cols. rewrite Hr, HD. reflexivity. Qed.

  Lemma re_perm : perm_on (bc_cols E) q.
  Proof.
    unfold bc_cols, q. destruct (nR =? 1)%nat; [|exact Hp]. split; intros; assumption.
  Qed.

  Lemma one_fixed : nR = 1%nat -> p 0%nat = 0%nat.
  Proof. intros E1. destruct Hp as (A & _). specialize (A 0%nat). lia. Qed.

  Lemma re_bc i r : (i < N)%nat -> (r < bc_cols E)%nat -> bc_probs E' th' i r = bc_probs E th i (q r).
  Proof.
    intros Hi Hr'. unfold bc_probs, q, bc_cols in *. rewrite Hr. destruct (Nat.eqb_spec nR 1) as [E1|].
    - rewrite re_prob by lia. rewrite one_fixed by exact E1. reflexivity.
    - apply re_prob; assumption.
  Qed.

  Lemma re_design i r k : (i < N)%nat -> (r < bc_cols E)%nat -> (k < x_vars E)%nat -> bc_design E' i r k = s k * bc_design E i (q r) k.
  Proof.
    intros Hi Hr' Hk. unfold bc_design, q, bc_cols in *. rewrite Hr. destruct (Nat.eqb_spec nR 1) as [E1|].
    - rewrite HX by (try assumption; lia). rewrite one_fixed by exact E1. reflexivity.
    - apply HX; assumption.
  Qed.

  Lemma re_expanded u r : (r < bc_cols E)%nat ->
    expanded_sequence_probs N (bc_probs E' th') (d_y D) (x_R E) u r = expanded_sequence_probs N (bc_probs E th) (d_y D) (x_R E) u (q r).
  Proof.
    intros Hr'. unfold expanded_sequence_probs. f_equal. f_equal. apply mdot_ext3. intros i Hi.
    rewrite re_bc by assumption. reflexivity.
  Qed.

  Lemma re_seq u : sequence_probs N (bc_cols E) (bc_probs E' th') (d_y D) (x_R E) u = sequence_probs N (bc_cols E) (bc_probs E th) (d_y D) (x_R E) u.
  Proof.
    unfold sequence_probs, row_mean. f_equal.
    rewrite <- (sumn_perm (bc_cols E) q (expanded_sequence_probs N (bc_probs E th) (d_y D) (x_R E) u) re_perm).
    apply sumn_ext. intros r Hr'. apply re_expanded. exact Hr'.
  Qed.

  Lemma re_asumsq : asumsq th' = asumsq th.
  Proof.
    unfold asumsq. rewrite Hl, Hl'. apply sumn_ext. intros k Hk. rewrite Ht by exact Hk.
    transitivity ((s k * s k) * (aget th k * aget th k)); [ring|]. rewrite sign_sq. ring.
  Qed.

  Lemma re_wpm u : weights_per_mixer E' u = weights_per_mixer E u.
  Proof. unfold weights_per_mixer. rewrite HD, HR. reflexivity. Qed.

  Lemma re_ll : calc_mixed_log_likelihood E' th' = calc_mixed_log_likelihood E th.
  Proof.
    unfold calc_mixed_log_likelihood. rewrite HD, HR, Hm, re_cols, re_asumsq.
    assert (A : vdot (x_mixers E) (weights_per_mixer E') (fun u => ln (sequence_probs N (bc_cols E) (bc_probs E' th') (d_y D) (x_R E) u)) =
                vdot (x_mixers E) (weights_per_mixer E) (fun u => ln (sequence_probs N (bc_cols E) (bc_probs E th) (d_y D) (x_R E) u))).
    { unfold vdot. apply sumn_ext. intros u _. rewrite re_wpm, re_seq. reflexivity. }
    destruct (d_ridge D); rewrite A; reflexivity.
  Qed.

  Lemma re_err i r : (i < N)%nat -> (r < bc_cols E)%nat -> scaled_error E' th' i r = scaled_error E th i (q r).
  Proof.
    intros Hi Hr'. unfold scaled_error. rewrite HD, HR, Hm, re_cols. rewrite re_bc by assumption. f_equal. f_equal.
    - apply mdot_ext3. intros u Hu. apply re_expanded. exact Hr'.
    - unfold mvec. apply sumn_ext. intros u Hu. rewrite re_seq. reflexivity.
  Qed.

  Lemma re_grad k : (k < x_vars E)%nat -> aget (calc_mixed_logit_gradient E' th') k = s k * aget (calc_mixed_logit_gradient E th) k.
  Proof.
    intros Hk. unfold calc_mixed_logit_gradient. rewrite HD, re_cols. cbn [aget].
    assert (A : sumn (bc_cols E) (fun r => sumn N (fun i => scaled_error E' th' i r * bc_design E' i r k * eff_weights (d_w D) i)) =
                s k * sumn (bc_cols E) (fun r => sumn N (fun i => scaled_error E th i r * bc_design E i r k * eff_weights (d_w D) i))).
    { rewrite <- (sumn_perm (bc_cols E) q (fun r => sumn N (fun i => scaled_error E th i r * bc_design E i r k * eff_weights (d_w D) i)) re_perm).
      rewrite <- sumn_scal_l. apply sumn_ext. intros r Hr'. rewrite <- sumn_scal_l. apply sumn_ext. intros i Hi.
      rewrite re_err, re_design by assumption. ring. }
    destruct (d_ridge D); cbn [aget]; rewrite A; [rewrite Ht by exact Hk|]; unfold Rdiv; ring.
  Qed.

  Lemma re_score u k : (k < x_vars E)%nat -> mixed_score_matrix E' th' u k = s k * mixed_score_matrix E th u k.
  Proof.
    intros Hk. unfold mixed_score_matrix. rewrite HD, HR, re_cols. unfold mdot. rewrite <- sumn_scal_l.
    apply sumn_ext. intros i Hi.
    assert (A : sumn (bc_cols E) (fun r => scaled_error E' th' i r * bc_design E' i r k) =
                s k * sumn (bc_cols E) (fun r => scaled_error E th i r * bc_design E i r k)).
    { rewrite <- (sumn_perm (bc_cols E) q (fun r => scaled_error E th i r * bc_design E i r k) re_perm).
      rewrite <- sumn_scal_l. apply sumn_ext. intros r Hr'. rewrite re_err, re_design by assumption. ring. }
    rewrite A. unfold Rdiv. ring.
  Qed.

  Lemma re_bhhh a b : (a < x_vars E)%nat -> (b < x_vars E)%nat ->
    sqe (calc_bhhh_mixed E' th') a b = s a * s b * sqe (calc_bhhh_mixed E th) a b.
  Proof.
    intros Ha Hb. unfold calc_bhhh_mixed. rewrite HD, Hm. cbn [sqe].
    assert (A : mdot (x_mixers E) (transp (mixed_score_matrix E' th')) (fun u k => weights_per_mixer E' u * mixed_score_matrix E' th' u k) a b =
                s a * s b * mdot (x_mixers E) (transp (mixed_score_matrix E th)) (fun u k => weights_per_mixer E u * mixed_score_matrix E th u k) a b).
    { unfold mdot, transp. rewrite <- sumn_scal_l. apply sumn_ext. intros u _. rewrite re_wpm, !re_score by assumption. ring. }
    destruct (d_ridge D); cbn [sqe]; rewrite A; [|ring].
    unfold ident. destruct (Nat.eqb_spec a b) as [<-|]; [|ring].
    replace (s a * s a) with 1 by (symmetry; apply sign_sq). ring.
  Qed.
End Related.

(** ** C108 and C109 *)
Section Tables.
  Context (d : long_cols) (K : nat) (X : mat) (pos : list nat) (nR : nat) (draws draws' : list mat)
          (w : option vec) (ridge : option R) (E E' : MData) (p : nat -> nat) (s : nat -> R) (theta theta' : arr).
  Hypothesis H : mixed_data_of d K X pos nR draws w ridge = Ok E.
  Hypothesis H' : mixed_data_of d K X pos nR draws' w ridge = Ok E'.
  Hypothesis Hp : perm_on nR p.
  Hypothesis Hs : forall v, a_sign (s v).
  Hypothesis Hdr : redrawn (length (first_seen (mix_of d))) (length pos) nR p s draws draws'.
  Hypothesis Hth : resigned K (length pos) s theta theta'.

  Lemma ta_related :
    x_D E' = x_D E /\ x_draws E = nR /\ x_draws E' = x_draws E /\ x_vars E = (K + length pos)%nat /\ x_vars E' = x_vars E /\
    x_mixers E' = x_mixers E /\ x_R E' = x_R E /\ perm_on (x_draws E) p /\ (forall k, a_sign (sign_at K s k)) /\
    (forall i r k, (i < d_N (x_D E))%nat -> (r < x_draws E)%nat -> (k < x_vars E)%nat ->
       x_X E' i r k = sign_at K s k * x_X E i (p r) k) /\
    (forall k, (k < x_vars E)%nat -> aget theta' k = sign_at K s k * aget theta k) /\
    alen theta = x_vars E /\ alen theta' = x_vars E /\
    indicator_of (d_N (x_D E)) (d_obs (x_D E)) (d_M (x_D E)) (own_of (obs_ids d)).
  Proof.
    destruct (mixed_setup _ _ _ _ _ _ _ _ _ H) as (mp & Hmp & ED & Er & Ev & Em & ER & _ & _ & _ & E5 & E6).
    destruct (mixed_setup _ _ _ _ _ _ _ _ _ H') as (mp' & Hmp' & ED' & Er' & Ev' & Em' & ER' & _ & _ & _ & E5' & E6').
    rewrite Hmp in Hmp'. injection Hmp' as <-. destruct Hth as (L & L' & T1 & T2).
    split; [congruence|]. split; [exact Er|]. split; [congruence|]. split; [exact Ev|]. split; [congruence|].
    split; [congruence|]. split; [congruence|]. split; [rewrite Er; exact Hp|]. split.
    { intros k. unfold sign_at. destruct (k <? K)%nat; [left; reflexivity|apply Hs]. }
    split.
    { intros i r k Hi Hr Hk. rewrite Er in Hr. rewrite Ev in Hk. unfold sign_at. destruct (Nat.ltb_spec k K) as [Hlt|Hge].
      - rewrite E5, E5' by exact Hlt. ring.
      - replace k with (K + (k - K))%nat by lia. set (v := (k - K)%nat). assert (Hv : (v < length pos)%nat) by (unfold v; lia).
        replace (K + v - K)%nat with v by lia. rewrite E6, E6' by exact Hv.
        rewrite Em', ER', <- Em, <- ER. unfold mdot. rewrite <- Rmult_assoc, (Rmult_comm (s v)), Rmult_assoc. f_equal.
        rewrite <- sumn_scal_l. apply sumn_ext. intros u Hu. rewrite Em in Hu.
        rewrite (Hdr v u r Hv Hu Hr). ring. }
    split.
    { intros k Hk. rewrite Ev in Hk. unfold sign_at. destruct (Nat.ltb_spec k K) as [Hlt|Hge].
      - rewrite T1 by exact Hlt. ring.
      - replace k with (K + (k - K))%nat at 1 3 by lia. rewrite T2 by lia. reflexivity. }
    split; [congruence|]. split; [congruence|]. exact (mixed_own _ _ _ _ _ _ _ _ _ H).
  Qed.

  (** Everything the estimation and prediction code computes from the draws. *)
  Lemma ta_all :
    calc_mixed_log_likelihood E' theta' = calc_mixed_log_likelihood E theta /\
    (forall k, (k < K + length pos)%nat ->
       aget (calc_mixed_logit_gradient E' theta') k = sign_at K s k * aget (calc_mixed_logit_gradient E theta) k) /\
    (forall a b, (a < K + length pos)%nat -> (b < K + length pos)%nat ->
       sqe (mixed_est_hessian E' None theta') a b = sign_at K s a * sign_at K s b * sqe (mixed_est_hessian E None theta) a b) /\
    (forall q, mixed_predict E' theta' None true = Ok (LongProbs q) -> exists q0, mixed_predict E theta None true = Ok (LongProbs q0) /\
       forall i, (i < length (obs_ids d))%nat -> q i = q0 i) /\
    (forall C q, mixed_predict E' theta' (Some C) false = Ok (ChosenProbs q) -> exists q0, mixed_predict E theta (Some C) false = Ok (ChosenProbs q0) /\
       forall j, q j = q0 j).
  Proof.
    destruct ta_related as (HD & Er & Hr & Ev & Hv & Hm & HR & HP & HS & HX & HT & L & L' & HO).
    pose proof (mixed_N _ _ _ _ _ _ _ _ _ H) as HN.
    split; [eapply re_ll; eassumption|].
    split; [intros k Hk; rewrite <- Ev in Hk; eapply re_grad; eassumption|].
    split; [intros a b Ha Hb; rewrite <- Ev in Ha, Hb; cbn [mixed_est_hessian]; eapply re_bhhh; eassumption|].
    split.
    - intros q Hq. cbn [mixed_predict] in Hq |- *. rewrite Hr in Hq. destruct (x_draws E =? 1)%nat; [discriminate|]. inversion Hq; subst q; clear Hq.
      eexists. split; [reflexivity|]. intros i Hi. rewrite <- HN in Hi. unfold row_mean. f_equal.
      rewrite <- (sumn_perm (x_draws E) p (prob_array E theta i) HP). apply sumn_ext. intros r Hr'.
      eapply re_prob; eassumption.
    - intros C q Hq. cbn [mixed_predict] in Hq |- *. rewrite Hr in Hq. destruct (x_draws E =? 1)%nat; [discriminate|]. inversion Hq; subst q; clear Hq.
      eexists. split; [reflexivity|]. intros j. unfold row_mean. f_equal.
      rewrite <- (sumn_perm (x_draws E) p (chosen_array E C theta j) HP). apply sumn_ext. intros r Hr'.
      eapply re_chosen; eassumption.
  Qed.
End Tables.

(** What a user sees of a mixed logit with given draws at given parameters: the
    log-likelihood, its gradient, the Hessian used for the standard errors and both
    kinds of predictions. *)
Definition same_results (d : long_cols) (E E' : MData) (theta theta' : arr) (sign : nat -> R) : Prop :=
  calc_mixed_log_likelihood E' theta' = calc_mixed_log_likelihood E theta /\
  (forall k, (k < alen theta)%nat ->
     aget (calc_mixed_logit_gradient E' theta') k = sign k * aget (calc_mixed_logit_gradient E theta) k) /\
  (forall a b, (a < alen theta)%nat -> (b < alen theta)%nat ->
     sqe (mixed_est_hessian E' None theta') a b = sign a * sign b * sqe (mixed_est_hessian E None theta) a b) /\
  (forall q, mixed_predict E' theta' None true = Ok (LongProbs q) ->
     exists q0, mixed_predict E theta None true = Ok (LongProbs q0) /\
       forall i, (i < length (obs_ids d))%nat -> q i = q0 i) /\
  (forall C q, mixed_predict E' theta' (Some C) false = Ok (ChosenProbs q) ->
     exists q0, mixed_predict E theta (Some C) false = Ok (ChosenProbs q0) /\ forall j, q j = q0 j).

(** The draws can be put in any order, the same for all units and variables. *)
Theorem C108_order_of_draws d K X pos nR draws draws' w ridge E E' p theta :
  mixed_data_of d K X pos nR draws w ridge = Ok E ->
  mixed_data_of d K X pos nR draws' w ridge = Ok E' ->
  mixed_check_length E theta = Ok tt ->
  perm_on nR p ->
  (forall v u r, (v < length pos)%nat -> (u < length (first_seen (mix_of d)))%nat -> (r < nR)%nat ->
     nth v draws' (fun _ _ => 0) u r = nth v draws (fun _ _ => 0) u (p r)) ->
  same_results d E E' theta theta (fun _ => 1).
Proof.
  intros H H' Hc Hp Hd.
  assert (L : alen theta = (K + length pos)%nat).
  { destruct (mixed_setup _ _ _ _ _ _ _ _ _ H) as (mp & _ & _ & _ & Ev & _). unfold mixed_check_length in Hc.
    destruct (Nat.eqb_spec (alen theta) (x_vars E)); [congruence|discriminate]. }
  destruct (ta_all d K X pos nR draws draws' w ridge E E' p (fun _ => 1) theta theta H H' Hp) as (A & B & C & D1 & D2).
  - intros v. left. reflexivity.
  - intros v u r Hv Hu Hr. rewrite (Hd v u r Hv Hu Hr). ring.
  - split; [exact L|]. split; [exact L|]. split; [reflexivity|]. intros; ring.
  - assert (S1 : forall k, sign_at K (fun _ => 1) k = 1) by (intros k; unfold sign_at; destruct (k <? K)%nat; reflexivity).
    split; [exact A|]. rewrite L. split; [|split; [|split; [exact D1|exact D2]]].
    + intros k Hk. rewrite (B k Hk), S1. reflexivity.
    + intros a b Ha Hb. rewrite (C a b Ha Hb), !S1. reflexivity.
Qed.

(** Changing the sign of some standard deviations is the same as changing the sign of
    the draws of those variables: the gradient changes sign there, the Hessian in the
    rows and columns. *)
Theorem C109_sign_of_sigma d K X pos nR draws draws' w ridge E E' s theta theta' :
  mixed_data_of d K X pos nR draws w ridge = Ok E ->
  mixed_data_of d K X pos nR draws' w ridge = Ok E' ->
  (forall v, a_sign (s v)) ->
  (forall v u r, (v < length pos)%nat -> (u < length (first_seen (mix_of d)))%nat -> (r < nR)%nat ->
     nth v draws' (fun _ _ => 0) u r = s v * nth v draws (fun _ _ => 0) u r) ->
  resigned K (length pos) s theta theta' ->
  same_results d E E' theta theta' (sign_at K s).
Proof.
  intros H H' Hs Hd Ht. assert (L : alen theta = (K + length pos)%nat) by apply Ht.
  destruct (ta_all d K X pos nR draws draws' w ridge E E' (fun r => r) s theta theta' H H') as (A & B & C & D1 & D2).
  - split; intros; assumption.
  - exact Hs.
  - exact Hd.
  - exact Ht.
  - split; [exact A|]. rewrite L. split; [exact B|]. split; [exact C|]. split; [exact D1|exact D2].
Qed.

(** With draws that come in opposite pairs the sign of a standard deviation is not
    identified: log-likelihood and predictions are the same at sigma and -sigma. *)
Theorem C109_symmetric_draws d K X pos nR draws w ridge E p s theta theta' :
  mixed_data_of d K X pos nR draws w ridge = Ok E ->
  (forall v, a_sign (s v)) -> perm_on nR p ->
  (forall v u r, (v < length pos)%nat -> (u < length (first_seen (mix_of d)))%nat -> (r < nR)%nat ->
     nth v draws (fun _ _ => 0) u (p r) = s v * nth v draws (fun _ _ => 0) u r) ->
  resigned K (length pos) s theta theta' ->
  same_results d E E theta theta' (sign_at K s).
Proof.
  intros H Hs Hp Hd Ht. assert (L : alen theta = (K + length pos)%nat) by apply Ht.
  destruct (ta_all d K X pos nR draws draws w ridge E E p s theta theta' H H Hp Hs) as (A & B & C & D1 & D2).
  - intros v u r Hv Hu Hr. rewrite (Hd v u r Hv Hu Hr), <- Rmult_assoc.
    replace (s v * s v) with 1 by (destruct (Hs v) as [-> | ->]; ring). ring.
  - exact Ht.
  - split; [exact A|]. rewrite L. split; [exact B|]. split; [exact C|]. split; [exact D1|exact D2].
Qed.

(** ** The hypotheses are met: the two persons of PropMixed.v, two draws. *)
Example ex_order : exists E E',
  mixed_data_of exm_cols 2 exm_X [1%nat] 2 exm_draws None (Some 1) = Ok E /\
  mixed_data_of exm_cols 2 exm_X [1%nat] 2 [fun u r => INR (u + 2 * (1 - r))] None (Some 1) = Ok E' /\
  mixed_check_length E (mkArr 3 (fun k => INR k)) = Ok tt /\ perm_on 2 (fun r => 1 - r)%nat /\
  (forall v u r, (v < 1)%nat -> (u < 2)%nat -> (r < 2)%nat ->
     nth v [fun u r => INR (u + 2 * (1 - r))] (fun _ _ => 0) u r = nth v exm_draws (fun _ _ => 0) u (1 - r)%nat).
Proof.
  eexists. eexists. split; [reflexivity|]. split; [reflexivity|]. split; [reflexivity|]. split; [split; intros; lia|].
  intros v u r Hv Hu Hr. replace v with 0%nat by lia. reflexivity.
Qed.

(** Antithetic draws: the second draw is minus the first. *)
Definition anti_draws : list mat := [fun u r => if (r =? 0)%nat then INR (S u) else - INR (S u)].
Example ex_symmetric : exists E,
  mixed_data_of exm_cols 2 exm_X [1%nat] 2 anti_draws None None = Ok E /\
  (forall v : nat, a_sign ((fun _ => -1) v)) /\ perm_on 2 (fun r => 1 - r)%nat /\
  (forall v u r, (v < 1)%nat -> (u < 2)%nat -> (r < 2)%nat ->
     nth v anti_draws (fun _ _ => 0) u (1 - r)%nat = -1 * nth v anti_draws (fun _ _ => 0) u r) /\
  resigned 2 1 (fun _ => -1) (mkArr 3 (fun k => INR k)) (mkArr 3 (fun k => if (k =? 2)%nat then - 2 else INR k)).
Proof.
  eexists. split; [reflexivity|]. split; [intros v; right; reflexivity|]. split; [split; intros; lia|]. split.
  - intros v u r Hv Hu Hr. replace v with 0%nat by lia. unfold anti_draws. cbn [nth].
    assert (r = 0 \/ r = 1)%nat as [-> | ->] by lia; cbn [Nat.sub Nat.eqb]; ring.
  - split; [reflexivity|]. split; [reflexivity|]. split.
    + intros k Hk. cbn [aget]. destruct (Nat.eqb_spec k 2); [lia|reflexivity].
    + intros v Hv. replace v with 0%nat by lia. cbn. ring.
Qed.

(** ** C48: the objective function of mixed_logit_calcs.py *)

Lemma neg_derive (f : R -> R) x l : is_derive f x l -> is_derive (fun t => - f t) x (-1 * l).
Proof. intros H. replace (-1 * l) with (- l) by ring. exact (is_derive_opp f x l H). Qed.

(** It returns minus the simulated log-likelihood and minus its derivatives, with zeros
    at the constrained positions. *)
Theorem C48_objective_function d K X pos nR draws w ridge E theta wu cpos F g :
  mixed_data_of d K X pos nR draws w ridge = Ok E -> mixing_ids_per_row d -> (1 < nR)%nat ->
  mixed_check_length E theta = Ok tt ->
  unit_weights d w wu -> exactly_one_choice d -> units_contain_observations d ->
  (forall i r, (i < length (obs_ids d))%nat -> (r < nR)%nat ->
     strictly_unclipped (mixed_utility d K X pos draws theta i r)) ->
  calc_neg_log_likelihood_and_neg_gradient E cpos theta = Ok (F, g) ->
  F = - calc_mixed_log_likelihood E theta /\ alen g = alen theta /\
  (forall k l, (k < alen theta)%nat -> cpos = Some l -> constrained (alen theta) l k -> aget g k = 0) /\
  (forall k, (k < alen theta)%nat -> (forall l, cpos = Some l -> ~ constrained (alen theta) l k) ->
     is_derive (fun t => - calc_mixed_log_likelihood E (aupd theta k t)) (aget theta k) (aget g k)).
Proof.
  intros H HL HR Hlen Hw Hone Hcont Hun HF.
  destruct (C48_mixed_gradient d K X pos nR draws w ridge E theta wu H HL HR Hlen Hw Hone Hcont Hun) as (Lg & Dg).
  unfold calc_neg_log_likelihood_and_neg_gradient in HF.
  destruct cpos as [l|].
  - apply bind_ok in HF. destruct HF as (p & Hp & HF). injection HF as <- <-. cbn [alen] in Hp. rewrite Lg in Hp.
    split; [ring|]. split; [cbn [zero_at alen]; exact Lg|]. split.
    + intros k l' Hk El Hc. injection El as <-. cbn [zero_at aget].
      apply (In_resolved _ _ _ _ Hp Hk) in Hc. apply existsb_eqb_In in Hc. rewrite Hc. reflexivity.
    + intros k Hk Hn. cbn [zero_at aget].
      destruct (existsb (Nat.eqb k) p) eqn:Ex.
      { exfalso. apply (Hn l eq_refl). apply (resolved_In _ _ _ _ Hp). apply existsb_eqb_In. exact Ex. }
      apply neg_derive. exact (Dg k Hk).
  - injection HF as <- <-. split; [ring|]. split; [exact Lg|]. split; [intros k l _ El; discriminate|].
    intros k Hk _. cbn [aget].
    apply neg_derive. exact (Dg k Hk).
Qed.

(** It is the function that fit_mle hands to the optimizer. *)
Theorem C48_objective_is_the_one_minimised e E x :
  e_core e = CoreMixed E -> calc_neg_log_likelihood_and_neg_gradient E (e_constrained e) x = neg_ll_and_neg_gradient e x.
Proof.
  intros Ec. unfold calc_neg_log_likelihood_and_neg_gradient, neg_ll_and_neg_gradient. rewrite Ec. cbn [est_ll est_grad bind].
  reflexivity.
Qed.

Example ex_objective : exists E F g,
  mixed_data_of exm_cols 2 exm_X [1%nat] 2 exm_draws None None = Ok E /\
  calc_neg_log_likelihood_and_neg_gradient E (Some [(-1)%Z]) exm_theta = Ok (F, g) /\
  constrained (alen exm_theta) [(-1)%Z] 2 /\ ~ constrained (alen exm_theta) [(-1)%Z] 1.
Proof.
  eexists. eexists. eexists. split; [reflexivity|]. split; [reflexivity|]. unfold constrained, exm_theta. cbn [alen In]. split.
  - right. left. reflexivity.
  - intros [[A|[]]|[A|[]]]; cbn in A; discriminate.
Qed.

Print Assumptions C48_objective_function.
Print Assumptions C48_objective_is_the_one_minimised.
Print Assumptions C108_order_of_draws.
Print Assumptions C109_sign_of_sigma.
Print Assumptions C109_symmetric_draws.
