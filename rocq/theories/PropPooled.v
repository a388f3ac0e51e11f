(** Property C103: two tables estimated as one. *)
From Coq Require Import String ZArith List Reals Lra Lia Arith.
From Coquelicot Require Import Coquelicot.
From Verif Require Import Res Vec Arr SpecLogit ChoiceCalcs ChoiceFacts Transforms Ids Mappings
  MappingFacts LongData LogitFacts RowDeriv HessFacts ProbFacts PropMappings PropProbs PropGradient
  PropHessian PropLikelihood.
Import ListNotations.
Open Scope R_scope.

(** ** Specification *)

(** [d] is [d1] on top of [d2]; no observation has rows in both; the same alternatives
    occur in both. *)
Definition stacked (d1 d2 d : long_cols) : Prop :=
  length (alt_ids d1) = length (obs_ids d1) /\ length (alt_ids d2) = length (obs_ids d2) /\
  obs_ids d = (obs_ids d1 ++ obs_ids d2)%list /\ alt_ids d = (alt_ids d1 ++ alt_ids d2)%list /\
  (exists c1 c2, length c1 = length (obs_ids d1) /\
     choices d1 = Some c1 /\ choices d2 = Some c2 /\ choices d = Some (c1 ++ c2)%list) /\
  (forall o, In o (obs_ids d1) -> In o (obs_ids d2) -> False) /\
  (forall a, In a (alt_ids d1) <-> In a (alt_ids d2)).

(** Likewise for quantities given row by row. *)
Definition stacked_rows (n1 n2 : nat) (v1 v2 v : nat -> R) : Prop :=
  (forall i, (i < n1)%nat -> v i = v1 i) /\ (forall i, (i < n2)%nat -> v (n1 + i)%nat = v2 i).

(** ** Facts *)

Lemma stacked_first d1 d2 d : stacked d1 d2 d -> lists_copies d d1 (fun r => r).
Proof.
  intros (L1 & L2 & Eo & Ea & (c1 & c2 & Lc & C1 & C2 & C) & Hd & Hs).
  unfold lists_copies. rewrite Eo, Ea, !app_length.
  split; [lia|]. split; [lia|]. split; [|split; [|split; [|split]]].
  - intros r Hr. split; [lia|]. rewrite app_nth1 by lia. split; [reflexivity|].
    unfold choice_vec. rewrite C1, C. rewrite app_nth1 by lia. reflexivity.
  - intros x Hx. apply in_app_or in Hx. destruct Hx as [Hx|Hx]; [exact Hx|apply Hs; exact Hx].
  - intros r r' Hr Hr' E. rewrite !app_nth1 by lia. exact E.
  - intros r i Hr Hi E. rewrite (app_nth1 (obs_ids d1) (obs_ids d2) 0%Z Hr) in E. destruct (Nat.lt_ge_cases i (length (obs_ids d1))) as [Hi1|Hi1].
    + exists i. rewrite app_nth1 in E by exact Hi1. auto.
    + exfalso. rewrite app_nth2 in E by exact Hi1. apply (Hd (nth r (obs_ids d1) 0%Z)).
      * apply nth_In. exact Hr.
      * rewrite <- E. apply nth_In. lia.
  - auto.
Qed.

Lemma stacked_second d1 d2 d : stacked d1 d2 d -> lists_copies d d2 (fun r => length (obs_ids d1) + r)%nat.
Proof.
  intros (L1 & L2 & Eo & Ea & (c1 & c2 & Lc & C1 & C2 & C) & Hd & Hs).
  unfold lists_copies. rewrite Eo, Ea, !app_length.
  split; [lia|]. split; [lia|].
  assert (N2 : forall l1 l2 r, length l1 = length (obs_ids d1) -> nth (length (obs_ids d1) + r) (l1 ++ l2)%list 0%Z = nth r l2 0%Z).
  { intros l1 l2 r H. rewrite app_nth2 by lia. f_equal. lia. }
  split; [|split; [|split; [|split]]].
  - intros r Hr. split; [lia|]. rewrite N2 by exact L1. split; [reflexivity|].
    unfold choice_vec. rewrite C2, C, N2 by exact Lc. reflexivity.
  - intros x Hx. apply in_app_or in Hx. destruct Hx as [Hx|Hx]; [apply Hs; exact Hx|exact Hx].
  - intros r r' Hr Hr' E. rewrite !N2 by reflexivity. exact E.
  - intros r i Hr Hi E. rewrite N2 in E by reflexivity. destruct (Nat.lt_ge_cases i (length (obs_ids d1))) as [Hi1|Hi1].
    + exfalso. rewrite app_nth1 in E by exact Hi1. apply (Hd (nth r (obs_ids d2) 0%Z)).
      * rewrite <- E. apply nth_In. exact Hi1.
      * apply nth_In. exact Hr.
    + exists (i - length (obs_ids d1))%nat. rewrite app_nth2 in E by exact Hi1. repeat split; [lia|exact E|lia].
  - intros r r' _ _ _ E. lia.
Qed.

(** The BHHH matrix as a sum over rows. *)
Lemma fisher_rows_ridge k d spec mp K X w ridge theta :
  create_long_form_mappings d spec = Ok mp -> (0 < K)%nat ->
  let D := data_of d mp K X w ridge in
  alen theta = (num_shapes k (d_J D) + num_icpts k (d_J D) + K)%nat ->
  same_weight_within_observation d w -> nonneg_weights d w ->
  let s c := fun i => (choice_vec d i - probs_at k D theta i) * DH k D theta i c in
  exists F, est_fisher k D theta = Ok F /\ sqn F = alen theta /\
    forall a b, (a < alen theta)%nat -> (b < alen theta)%nat ->
      sqe F a b = sumn (length (obs_ids d)) (fun i => eff_weights w i * s a i * id_sum (obs_ids d) (nth i (obs_ids d) 0%Z) (s b)) - 2 * ridge_or_0 D * ident a b.
Proof.
  intros Hmp HK D L Hw Hnn s.
  destruct (fisher_form k D theta HK L) as (F & EF & LF & G). exists F. split; [exact EF|]. split; [exact LF|].
  intros a b Ha Hb. rewrite G by assumption.
  pose proof (data_obs_indicator d spec mp K X w ridge Hmp) as Hown. fold D in Hown.
  f_equal.
  set (own := own_of (obs_ids d)) in *.
  assert (Eo : forall j c, (j < d_obs D)%nat ->
     sumn (d_N D) (fun i => d_M D i j * ((d_y D i - probs_at k D theta i) * DH k D theta i c)) = osum (d_N D) own j (s c)).
  { intros j c Hj. unfold osum. apply sumn_ext. intros i Hi. destruct (Hown i Hi) as (_ & E). rewrite E by exact Hj.
    destruct (own i =? j)%nat; [rewrite Rmult_1_l; reflexivity|apply Rmult_0_l]. }
  set (wobs := fun o => match find (fun i => Z.eqb (nth i (obs_ids d) 0%Z) o) (seq 0 (length (obs_ids d))) with Some i => eff_weights w i | None => 0 end).
  assert (Hwobs : forall i, (i < length (obs_ids d))%nat -> eff_weights w i = wobs (nth i (obs_ids d) 0%Z)).
  { intros i Hi. unfold wobs. destruct (find _ _) as [i'|] eqn:Ef.
    - apply find_some in Ef. destruct Ef as (Hin & E). apply in_seq in Hin. apply Z.eqb_eq in E.
      apply Hw; [exact Hi|lia|symmetry; exact E].
    - exfalso. pose proof (find_none _ _ Ef i ltac:(apply in_seq; lia)) as E. cbv beta in E. rewrite Z.eqb_refl in E. discriminate. }
  rewrite (sumn_ext (d_obs D) _ (fun o => osum (d_N D) own o (fun i => eff_weights w i * s a i * osum (d_N D) own (own i) (s b)))).
  2: { intros o Ho. rewrite !Eo by exact Ho.
       assert (Ho' : (o < length (first_seen (obs_ids d)))%nat) by (unfold D in Ho; rewrite (data_nobs d spec) in Ho by exact Hmp; exact Ho).
       change (weights_per_obs D o) with (weights_per_obs (data_of d mp K X w ridge) o).
       rewrite (weights_per_obs_eq d spec mp K X w Hmp wobs Hwobs Hnn ridge o Ho').
       set (B := osum (d_N D) own o (s b)). set (W := wobs _).
       transitivity (osum (d_N D) own o (fun i => (W * B) * s a i)).
       { rewrite (osum_scal_l _ _ _ (W * B) (s a)). ring. }
       symmetry. apply osum_ext.
       intros i Hi Eoi. rewrite Hwobs by exact Hi. rewrite Eoi. fold B.
       replace (nth i (obs_ids d) 0%Z) with (nth o (first_seen (obs_ids d)) 0%Z); [fold W; ring|].
       rewrite <- Eoi. unfold own, own_of. apply nth_index_of. apply first_seen_In, nth_In. exact Hi. }
  rewrite <- (sumn_by_obs (d_N D) (d_obs D) own) by (intros i Hi; apply (proj1 (Hown i Hi))).
  apply sumn_ext. intros i Hi. f_equal. apply osum_id_sum. exact Hi.
Qed.

Lemma fisher_rows k d spec mp K X w theta :
  create_long_form_mappings d spec = Ok mp -> (0 < K)%nat ->
  let D := data_of d mp K X w None in
  alen theta = (num_shapes k (d_J D) + num_icpts k (d_J D) + K)%nat ->
  same_weight_within_observation d w -> nonneg_weights d w ->
  let s c := fun i => (choice_vec d i - probs_at k D theta i) * DH k D theta i c in
  exists F, est_fisher k D theta = Ok F /\ sqn F = alen theta /\
    forall a b, (a < alen theta)%nat -> (b < alen theta)%nat ->
      sqe F a b = sumn (length (obs_ids d)) (fun i => eff_weights w i * s a i * id_sum (obs_ids d) (nth i (obs_ids d) 0%Z) (s b)).
Proof.
  intros Hmp HK D L Hw Hnn s. destruct (fisher_rows_ridge k d spec mp K X w None theta Hmp HK L Hw Hnn) as (F & EF & LF & G).
  exists F. split; [exact EF|]. split; [exact LF|]. intros a b Ha Hb. rewrite G by assumption.
  change (ridge_or_0 (data_of d mp K X w None)) with 0. rewrite Rmult_0_r, Rmult_0_l, Rminus_0_r. reflexivity.
Qed.

(** ** The property *)

Section Pooled.
  Context (k : logit_kind) (d1 d2 d : long_cols) (spec1 spec2 spec : option nest_spec) (mp1 mp2 mp : mappings)
    (K : nat) (X1 X2 X : mat) (w1 w2 w : option vec) (theta : arr).
  Hypothesis Hst : stacked d1 d2 d.
  Hypothesis Hmp1 : create_long_form_mappings d1 spec1 = Ok mp1.
  Hypothesis Hmp2 : create_long_form_mappings d2 spec2 = Ok mp2.
  Hypothesis Hmp : create_long_form_mappings d spec = Ok mp.
  Hypothesis HK : (0 < K)%nat.
  Hypothesis HX : forall q, (q < K)%nat ->
    stacked_rows (length (obs_ids d1)) (length (obs_ids d2)) (fun i => X1 i q) (fun i => X2 i q) (fun i => X i q).
  Hypothesis Hw : stacked_rows (length (obs_ids d1)) (length (obs_ids d2)) (eff_weights w1) (eff_weights w2) (eff_weights w).
  Let D1 := data_of d1 mp1 K X1 w1 None.
  Let D2 := data_of d2 mp2 K X2 w2 None.
  Let D := data_of d mp K X w None.
  Hypothesis Hk : kind_ok k (d_J D).
  Hypothesis Hlen : check_length_of_initial_values k (d_J D) K theta = Ok tt.

  Let n1 := length (obs_ids d1).
  Let n2 := length (obs_ids d2).

  Lemma pl_N : length (obs_ids d) = (n1 + n2)%nat.
  Proof. destruct Hst as (_ & _ & E & _). rewrite E, app_length. reflexivity. Qed.

  Lemma pl_L : alen theta = (num_shapes k (d_J D) + num_icpts k (d_J D) + K)%nat.
  Proof. rewrite <- dims_eq by exact Hk. apply check_length_ok. exact Hlen. Qed.

  Lemma pl_HX1 r q : (r < n1)%nat -> (q < K)%nat -> X1 r q = X r q.
  Proof. intros Hr Hq. symmetry. apply (proj1 (HX q Hq)). exact Hr. Qed.
  Lemma pl_HX2 r q : (r < n2)%nat -> (q < K)%nat -> X2 r q = X (n1 + r)%nat q.
  Proof. intros Hr Hq. symmetry. apply (proj2 (HX q Hq)). exact Hr. Qed.

  Let c1 := stacked_first d1 d2 d Hst.
  Let c2 := stacked_second d1 d2 d Hst.

  Lemma pl_J : d_J D1 = d_J D /\ d_J D2 = d_J D.
  Proof.
    split.
    - exact (proj1 (copies_cols d d1 spec spec1 mp mp1 (fun r => r) K X X1 w w1 None Hmp Hmp1 HK c1)).
    - exact (proj1 (copies_cols d d2 spec spec2 mp mp2 (fun r => n1 + r)%nat K X X2 w w2 None Hmp Hmp2 HK c2)).
  Qed.

  Lemma pl_P1 i : (i < n1)%nat -> probs_at k D1 theta i = probs_at k D theta i.
  Proof.
    intros Hi. unfold probs_at. rewrite (proj1 pl_J).
    exact (copies_probs k d d1 spec spec1 mp mp1 (fun r => r) K X X1 w w1 None Hmp Hmp1 HK c1 pl_HX1 _ _ _ i Hi).
  Qed.
  Lemma pl_P2 i : (i < n2)%nat -> probs_at k D2 theta i = probs_at k D theta (n1 + i)%nat.
  Proof.
    intros Hi. unfold probs_at. rewrite (proj2 pl_J).
    exact (copies_probs k d d2 spec spec2 mp mp2 (fun r => n1 + r)%nat K X X2 w w2 None Hmp Hmp2 HK c2 pl_HX2 _ _ _ i Hi).
  Qed.

  Lemma pl_DH1 i a : (i < n1)%nat -> (a < alen theta)%nat -> DH k D1 theta i a = DH k D theta i a.
  Proof.
    intros Hi Ha. apply DH_rowwise; [exact (proj1 pl_J)|reflexivity|exact Hk| |exact Hi| | |change (d_K D) with K; rewrite <- pl_L; exact Ha].
    - change (d_N D) with (length (obs_ids d)). rewrite pl_N. lia.
    - intros j Hj. exact (proj2 (copies_cols d d1 spec spec1 mp mp1 (fun r => r) K X X1 w w1 None Hmp Hmp1 HK c1) i j Hi Hj).
    - intros q Hq. exact (pl_HX1 i q Hi Hq).
  Qed.
  Lemma pl_DH2 i a : (i < n2)%nat -> (a < alen theta)%nat -> DH k D2 theta i a = DH k D theta (n1 + i)%nat a.
  Proof.
    intros Hi Ha. apply DH_rowwise; [exact (proj2 pl_J)|reflexivity|exact Hk| |exact Hi| | |change (d_K D) with K; rewrite <- pl_L; exact Ha].
    - change (d_N D) with (length (obs_ids d)). rewrite pl_N. lia.
    - intros j Hj. exact (proj2 (copies_cols d d2 spec spec2 mp mp2 (fun r => n1 + r)%nat K X X2 w w2 None Hmp Hmp2 HK c2) i j Hi Hj).
    - intros q Hq. exact (pl_HX2 i q Hi Hq).
  Qed.

  Lemma pl_y1 i : (i < n1)%nat -> choice_vec d1 i = choice_vec d i.
  Proof. intros Hi. destruct c1 as (_ & _ & H & _). apply (H i Hi). Qed.
  Lemma pl_y2 i : (i < n2)%nat -> choice_vec d2 i = choice_vec d (n1 + i)%nat.
  Proof. intros Hi. destruct c2 as (_ & _ & H & _). apply (H i Hi). Qed.

  Lemma pl_sum1 f1 f i : (i < n1)%nat -> (forall r, (r < n1)%nat -> f1 r = f r) ->
    id_sum (obs_ids d1) (nth i (obs_ids d1) 0%Z) f1 = id_sum (obs_ids d) (nth i (obs_ids d) 0%Z) f.
  Proof.
    intros Hi H. etransitivity; [|exact (copies_id_sum d d1 (fun r => r) f i c1 Hi)].
    apply id_sum_ext. intros r Hr _. apply H. exact Hr.
  Qed.
  Lemma pl_sum2 f2 f i : (i < n2)%nat -> (forall r, (r < n2)%nat -> f2 r = f (n1 + r)%nat) ->
    id_sum (obs_ids d2) (nth i (obs_ids d2) 0%Z) f2 = id_sum (obs_ids d) (nth (n1 + i) (obs_ids d) 0%Z) f.
  Proof.
    intros Hi H. etransitivity; [|exact (copies_id_sum d d2 (fun r => n1 + r)%nat f i c2 Hi)].
    apply id_sum_ext. intros r Hr _. apply H. exact Hr.
  Qed.

  (** Each row keeps its probability. *)
  Theorem C103_same_probabilities :
    stacked_rows n1 n2 (est_long_probs k D1 theta) (est_long_probs k D2 theta) (est_long_probs k D theta).
  Proof.
    pose proof pl_L as L. destruct pl_J as (J1 & J2).
    rewrite (est_long_probs_eq k D theta HK L), (est_long_probs_eq k D1 theta HK), (est_long_probs_eq k D2 theta HK)
      by (rewrite ?J1, ?J2; exact L).
    split; intros i Hi; symmetry; [apply pl_P1|apply pl_P2]; exact Hi.
  Qed.

  (** Log-likelihood and gradient add up. *)
  Theorem C103_log_likelihood_adds_up :
    est_log_likelihood k D theta = est_log_likelihood k D1 theta + est_log_likelihood k D2 theta.
  Proof.
    pose proof pl_L as L. destruct pl_J as (J1 & J2).
    rewrite (est_ll_eq k D theta HK L), (est_ll_eq k D1 theta HK), (est_ll_eq k D2 theta HK) by (rewrite ?J1, ?J2; exact L).
    change (ridge_or_0 D) with 0. change (ridge_or_0 D1) with 0. change (ridge_or_0 D2) with 0.
    rewrite !Rmult_0_l, !Rminus_0_r. fold (probs_at k D theta). fold (probs_at k D1 theta). fold (probs_at k D2 theta).
    change (d_N D) with (length (obs_ids d)). rewrite pl_N, sumn_app. f_equal; apply sumn_ext; intros i Hi.
    - change (choice_vec d i * (eff_weights w i * ln (probs_at k D theta i)) = choice_vec d1 i * (eff_weights w1 i * ln (probs_at k D1 theta i))).
      rewrite pl_P1, pl_y1 by exact Hi. rewrite (proj1 Hw i Hi). reflexivity.
    - change (choice_vec d (n1 + i)%nat * (eff_weights w (n1 + i)%nat * ln (probs_at k D theta (n1 + i)%nat)) = choice_vec d2 i * (eff_weights w2 i * ln (probs_at k D2 theta i))).
      rewrite pl_P2, pl_y2 by exact Hi. unfold n1. rewrite (proj2 Hw i Hi). reflexivity.
  Qed.

  Theorem C103_gradient_adds_up :
    exists g1 g2 g, est_gradient k D1 theta = Ok g1 /\ est_gradient k D2 theta = Ok g2 /\ est_gradient k D theta = Ok g /\
      alen g1 = alen theta /\ alen g2 = alen theta /\ alen g = alen theta /\
      forall a, (a < alen theta)%nat -> aget g a = aget g1 a + aget g2 a.
  Proof.
    pose proof pl_L as L. destruct pl_J as (J1 & J2).
    destruct (grad_form k D theta HK L) as (g & Eg & Lg & G).
    destruct (grad_form k D1 theta HK ltac:(rewrite J1; exact L)) as (g1 & Eg1 & Lg1 & G1).
    destruct (grad_form k D2 theta HK ltac:(rewrite J2; exact L)) as (g2 & Eg2 & Lg2 & G2).
    exists g1, g2, g. do 6 (split; [assumption|]). intros a Ha. rewrite G, G1, G2 by exact Ha.
    change (ridge_or_0 D) with 0. change (ridge_or_0 D1) with 0. change (ridge_or_0 D2) with 0.
    rewrite !Rmult_0_r, !Rmult_0_l, !Rminus_0_r. fold (probs_at k D theta). fold (probs_at k D1 theta). fold (probs_at k D2 theta).
    change (d_N D) with (length (obs_ids d)). rewrite pl_N, sumn_app. f_equal; apply sumn_ext; intros i Hi.
    - change (eff_weights w i * (choice_vec d i - probs_at k D theta i) * DH k D theta i a = eff_weights w1 i * (choice_vec d1 i - probs_at k D1 theta i) * DH k D1 theta i a).
      rewrite pl_P1, pl_y1, pl_DH1 by assumption. rewrite (proj1 Hw i Hi). reflexivity.
    - change (eff_weights w (n1 + i)%nat * (choice_vec d (n1 + i)%nat - probs_at k D theta (n1 + i)%nat) * DH k D theta (n1 + i)%nat a = eff_weights w2 i * (choice_vec d2 i - probs_at k D2 theta i) * DH k D2 theta i a).
      rewrite pl_P2, pl_y2, pl_DH2 by assumption. unfold n1. rewrite (proj2 Hw i Hi). reflexivity.
  Qed.

  Hypothesis Hsw : same_weight_within_observation d w.

  Lemma pl_sw1 : same_weight_within_observation d1 w1.
  Proof.
    intros i i' Hi Hi' E. rewrite <- !(proj1 Hw) by assumption. apply Hsw; [rewrite pl_N; unfold n1; lia|rewrite pl_N; unfold n1; lia|].
    pose proof Hst as (_ & _ & Eo & _). rewrite Eo, !app_nth1 by assumption. exact E.
  Qed.
  Lemma pl_sw2 : same_weight_within_observation d2 w2.
  Proof.
    intros i i' Hi Hi' E. rewrite <- !(proj2 Hw) by assumption. apply Hsw; [rewrite pl_N; unfold n1, n2; lia|rewrite pl_N; unfold n1, n2; lia|].
    pose proof Hst as (_ & _ & Eo & _). rewrite Eo, !app_nth2 by lia. replace (length (obs_ids d1) + i - length (obs_ids d1))%nat with i by lia. replace (length (obs_ids d1) + i' - length (obs_ids d1))%nat with i' by lia. exact E.
  Qed.

  (** So do the Hessian ... *)
  Theorem C103_hessian_adds_up :
    exists H1 H2 H, est_hessian k D1 theta = Ok H1 /\ est_hessian k D2 theta = Ok H2 /\ est_hessian k D theta = Ok H /\
      sqn H1 = alen theta /\ sqn H2 = alen theta /\ sqn H = alen theta /\
      forall a b, (a < alen theta)%nat -> (b < alen theta)%nat -> sqe H a b = sqe H1 a b + sqe H2 a b.
  Proof.
    pose proof pl_L as L. destruct pl_J as (J1 & J2).
    pose proof (data_obs_indicator d spec mp K X w None Hmp) as Ho. fold D in Ho.
    pose proof (data_obs_indicator d1 spec1 mp1 K X1 w1 None Hmp1) as Ho1. fold D1 in Ho1.
    pose proof (data_obs_indicator d2 spec2 mp2 K X2 w2 None Hmp2) as Ho2. fold D2 in Ho2.
    destruct (hess_form k D _ theta HK L Ho (or_intror (weights_of d w Hsw))) as (H & EH & LH & F).
    destruct (hess_form k D1 _ theta HK ltac:(rewrite J1; exact L) Ho1 (or_intror (weights_of d1 w1 pl_sw1))) as (H1 & EH1 & LH1 & F1).
    destruct (hess_form k D2 _ theta HK ltac:(rewrite J2; exact L) Ho2 (or_intror (weights_of d2 w2 pl_sw2))) as (H2 & EH2 & LH2 & F2).
    exists H1, H2, H. do 6 (split; [assumption|]). intros a b Ha Hb. rewrite F, F1, F2 by assumption.
    change (ridge_or_0 D) with 0. change (ridge_or_0 D1) with 0. change (ridge_or_0 D2) with 0.
    assert (Q : Qf (d_N D) (own_of (obs_ids d)) (eff_weights w) (probs_at k D theta) (fun i => DH k D theta i a) (fun i => DH k D theta i b) =
      Qf (d_N D1) (own_of (obs_ids d1)) (eff_weights w1) (probs_at k D1 theta) (fun i => DH k D1 theta i a) (fun i => DH k D1 theta i b) +
      Qf (d_N D2) (own_of (obs_ids d2)) (eff_weights w2) (probs_at k D2 theta) (fun i => DH k D2 theta i a) (fun i => DH k D2 theta i b)).
    2: { change (eff_weights (d_w D)) with (eff_weights w). change (eff_weights (d_w D1)) with (eff_weights w1).
         change (eff_weights (d_w D2)) with (eff_weights w2). rewrite Q. ring. }
    unfold Qf. change (d_N D) with (length (obs_ids d)). change (d_N D1) with n1. change (d_N D2) with n2.
    rewrite pl_N, !sumn_app.
    match goal with |- (?s1 + ?s2) - (?t1 + ?t2) = _ => transitivity ((s1 - t1) + (s2 - t2)); [ring|] end.
    assert (O : forall i f, (i < n1 + n2)%nat -> osum (n1 + n2) (own_of (obs_ids d)) (own_of (obs_ids d) i) f = id_sum (obs_ids d) (nth i (obs_ids d) 0%Z) f).
    { intros i f Hi. rewrite <- pl_N. apply osum_id_sum. rewrite pl_N. exact Hi. }
    f_equal; (f_equal; [apply sumn_ext; intros i Hi|apply sumn_ext; intros i Hi]).
    - rewrite pl_P1, !pl_DH1 by assumption. rewrite (proj1 Hw i Hi). reflexivity.
    - rewrite O by lia. change (osum n1 (own_of (obs_ids d1)) (own_of (obs_ids d1) i)) with (osum (length (obs_ids d1)) (own_of (obs_ids d1)) (own_of (obs_ids d1) i)).
      rewrite (osum_id_sum (obs_ids d1) i) by exact Hi.
      rewrite (pl_sum1 (fun r => probs_at k D1 theta r * DH k D1 theta r b) (fun r => probs_at k D theta r * DH k D theta r b) i Hi).
      + rewrite pl_P1, !pl_DH1 by assumption. rewrite (proj1 Hw i Hi). reflexivity.
      + intros r Hr. rewrite pl_P1, pl_DH1 by assumption. reflexivity.
    - rewrite pl_P2, !pl_DH2 by assumption. unfold n1. rewrite (proj2 Hw i Hi). reflexivity.
    - rewrite O by lia. change (osum n2 (own_of (obs_ids d2)) (own_of (obs_ids d2) i)) with (osum (length (obs_ids d2)) (own_of (obs_ids d2)) (own_of (obs_ids d2) i)).
      rewrite (osum_id_sum (obs_ids d2) i) by exact Hi.
      rewrite (pl_sum2 (fun r => probs_at k D2 theta r * DH k D2 theta r b) (fun r => probs_at k D theta r * DH k D theta r b) i Hi).
      + rewrite pl_P2, !pl_DH2 by assumption. unfold n1. rewrite (proj2 Hw i Hi). reflexivity.
      + intros r Hr. rewrite pl_P2, pl_DH2 by assumption. reflexivity.
  Qed.

  Hypothesis Hnn : nonneg_weights d w.

  Lemma pl_nn1 : nonneg_weights d1 w1.
  Proof. intros i Hi. rewrite <- (proj1 Hw) by exact Hi. apply Hnn. rewrite pl_N. unfold n1. lia. Qed.
  Lemma pl_nn2 : nonneg_weights d2 w2.
  Proof. intros i Hi. rewrite <- (proj2 Hw) by exact Hi. apply Hnn. rewrite pl_N. unfold n1, n2. lia. Qed.

  (** ... and the BHHH matrix. *)
  Theorem C103_bhhh_adds_up :
    exists F1 F2 F, est_fisher k D1 theta = Ok F1 /\ est_fisher k D2 theta = Ok F2 /\ est_fisher k D theta = Ok F /\
      sqn F1 = alen theta /\ sqn F2 = alen theta /\ sqn F = alen theta /\
      forall a b, (a < alen theta)%nat -> (b < alen theta)%nat -> sqe F a b = sqe F1 a b + sqe F2 a b.
  Proof.
    pose proof pl_L as L. destruct pl_J as (J1 & J2).
    destruct (fisher_rows k d spec mp K X w theta Hmp HK L Hsw Hnn) as (F & EF & LF & G).
    destruct (fisher_rows k d1 spec1 mp1 K X1 w1 theta Hmp1 HK ltac:(fold D1; rewrite J1; exact L) pl_sw1 pl_nn1) as (F1 & EF1 & LF1 & G1).
    destruct (fisher_rows k d2 spec2 mp2 K X2 w2 theta Hmp2 HK ltac:(fold D2; rewrite J2; exact L) pl_sw2 pl_nn2) as (F2 & EF2 & LF2 & G2).
    exists F1, F2, F. do 6 (split; [assumption|]). intros a b Ha Hb. rewrite G, G1, G2 by assumption.
    rewrite pl_N, sumn_app. fold D D1 D2. f_equal; apply sumn_ext; intros i Hi.
    - rewrite (pl_sum1 (fun i => (choice_vec d1 i - probs_at k D1 theta i) * DH k D1 theta i b) (fun i => (choice_vec d i - probs_at k D theta i) * DH k D theta i b) i Hi).
      + rewrite pl_P1, pl_y1, pl_DH1 by assumption. rewrite (proj1 Hw i Hi). reflexivity.
      + intros r Hr. rewrite pl_P1, pl_y1, pl_DH1 by assumption. reflexivity.
    - rewrite (pl_sum2 (fun i => (choice_vec d2 i - probs_at k D2 theta i) * DH k D2 theta i b) (fun i => (choice_vec d i - probs_at k D theta i) * DH k D theta i b) i Hi).
      + rewrite pl_P2, pl_y2, pl_DH2 by assumption. unfold n1. rewrite (proj2 Hw i Hi). reflexivity.
      + intros r Hr. rewrite pl_P2, pl_y2, pl_DH2 by assumption. reflexivity.
  Qed.
End Pooled.

(** ** Case: two observations each *)
Definition ex_d1 : long_cols := mkLong [1; 1; 2; 2; 2]%Z [10; 20; 10; 20; 30]%Z (Some [1; 0; 0; 0; 1]%Z) None.
Definition ex_d2 : long_cols := mkLong [9; 8; 8; 9]%Z [30; 10; 20; 20]%Z (Some [1; 0; 1; 0]%Z) None.
Definition ex_d12 : long_cols :=
  mkLong [1; 1; 2; 2; 2; 9; 8; 8; 9]%Z [10; 20; 10; 20; 30; 30; 10; 20; 20]%Z (Some [1; 0; 0; 0; 1; 1; 0; 1; 0]%Z) None.

Example ex_stacked : stacked ex_d1 ex_d2 ex_d12 /\
  stacked_rows 5 4 (eff_weights None) (eff_weights (Some (fun _ => 2))) (eff_weights (Some (fun i => if (i <? 5)%nat then 1 else 2))) /\
  same_weight_within_observation ex_d12 (Some (fun i => if (i <? 5)%nat then 1 else 2)) /\
  nonneg_weights ex_d12 (Some (fun i => if (i <? 5)%nat then 1 else 2)).
Proof.
  split; [|split; [|split]].
  - repeat split; try reflexivity.
    + exists [1; 0; 0; 0; 1]%Z, [1; 0; 1; 0]%Z. repeat split; reflexivity.
    + cbn. intros o H1 H2. intuition; subst; discriminate.
    + cbn. tauto.
    + cbn. tauto.
  - split; intros i Hi; cbn [eff_weights].
    + destruct (Nat.ltb_spec i 5); [reflexivity|lia].
    + destruct (Nat.ltb_spec (5 + i) 5); [lia|reflexivity].
  - intros i i' Hi Hi' E. cbn [ex_d12 obs_ids length] in Hi, Hi'.
    do 9 (destruct i as [|i]; [do 9 (destruct i' as [|i']; [cbn in *; first [reflexivity|discriminate]|]); lia|]). lia.
  - intros i Hi. cbn [eff_weights]. destruct (i <? 5)%nat; lra.
Qed.

Print Assumptions C103_same_probabilities.
Print Assumptions C103_log_likelihood_adds_up.
Print Assumptions C103_gradient_adds_up.
Print Assumptions C103_hessian_adds_up.
Print Assumptions C103_bhhh_adds_up.
