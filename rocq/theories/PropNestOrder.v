(** Property C110: the order of the nests is irrelevant. *)
From Coq Require Import String ZArith List Reals Lra Lia Arith Bool.
From Coquelicot Require Import Coquelicot.
From Verif Require Import Res Vec Arr SpecLogit ChoiceCalcs ChoiceFacts Transforms Ids Mappings
  MappingFacts LongData LogitFacts RowDeriv HessFacts ProbFacts PropMappings PropProbs PropGradient
  PropHessian Frame ChoiceTools BaseModel PropBaseModel NestedCalcs NestedFacts PropNested.
Import ListNotations.
Open Scope R_scope.

(** ** Specification *)

(** Nest a of t' has the alternatives of nest [p a] of t, whatever its name and the order
    in which they are listed. *)
Definition same_nests (p : nat -> nat) (t t' : nest_spec) : Prop :=
  length t' = length t /\ perm_on (length t) p /\
  forall a alt, (a < length t)%nat -> (In alt (nest_alts t' a) <-> In alt (nest_alts t (p a))).

(** Parameter a of the second model corresponds to this one of the first: Q nest
    parameters come before the coefficients. *)
Definition moved (Q : nat) (p : nat -> nat) (a : nat) : nat := if (a <? Q)%nat then p a else a.

(** ** The calculations on related inputs *)
Section Related.
  Context (E E' : NData) (p : nat -> nat) (L L' : vec) (beta beta' : arr).
  Notation D := (n_D E).
  Notation N := (d_N D).
  Notation Q := (n_Q E).
  Hypothesis HD : n_D E' = D.
  Hypothesis HQ : n_Q E' = Q.
  Hypothesis Hp : perm_on Q p.
  Hypothesis HR : forall i a, (i < N)%nat -> (a < Q)%nat -> n_R E' i a = n_R E i (p a).
  Hypothesis HL : forall a, (a < Q)%nat -> L' a = L (p a).
  Hypothesis Hb : forall k, (k < d_K D)%nat -> aget beta' k = aget beta k.

  Lemma no_sum (f f' : vec) : (forall a, (a < Q)%nat -> f' a = f (p a)) -> sumn Q f' = sumn Q f.
  Proof. intros H. rewrite <- (sumn_perm Q p f Hp). apply sumn_ext. exact H. Qed.

  Lemma no_util i : sys_utilities D beta' i = sys_utilities D beta i.
  Proof. unfold sys_utilities, mvec. apply sumn_ext. intros k Hk. rewrite Hb by exact Hk. reflexivity. Qed.

  Lemma no_lnc i : (i < N)%nat -> long_nest_coefs E' L' i = long_nest_coefs E L i.
  Proof.
    intros Hi. unfold long_nest_coefs, mvec. rewrite HQ. apply no_sum. intros a Ha. rewrite HR, HL by assumption. reflexivity.
  Qed.

  Lemma no_si i : (i < N)%nat -> scaled_index E' L' beta' i = scaled_index E L beta i.
  Proof. intros Hi. unfold scaled_index. rewrite HD, no_util, no_lnc by exact Hi. reflexivity. Qed.

  Lemma no_esi i : (i < N)%nat -> exp_scaled_index E' L' beta' i = exp_scaled_index E L beta i.
  Proof. intros Hi. unfold exp_scaled_index. rewrite no_si by exact Hi. reflexivity. Qed.

  (** rows_to_obs.T.dot(rows_to_nests * column) *)
  Lemma no_per_nest (f f' : vec) o a : (forall i, (i < N)%nat -> f' i = f i) -> (a < Q)%nat ->
    mdot N (transp (d_M D)) (fun i q => n_R E' i q * f' i) o a = mdot N (transp (d_M D)) (fun i q => n_R E i q * f i) o (p a).
  Proof. intros H Ha. unfold mdot. apply sumn_ext. intros i Hi. rewrite HR, H by assumption. reflexivity. Qed.

  Lemma no_ies o a : (a < Q)%nat -> ind_exp_sums_per_nest E' L' beta' o a = ind_exp_sums_per_nest E L beta o (p a).
  Proof. intros Ha. unfold ind_exp_sums_per_nest. rewrite HD. apply no_per_nest; [intros; apply no_esi; assumption|exact Ha]. Qed.

  Lemma no_mdot (f f' : mat) i a : (forall o, f' o a = f o (p a)) -> mdot (d_obs D) (d_M D) f' i a = mdot (d_obs D) (d_M D) f i (p a).
  Proof. intros H. unfold mdot. apply sumn_ext. intros o _. rewrite H. reflexivity. Qed.

  Lemma no_les i : (i < N)%nat -> long_exp_sums E' L' beta' i = long_exp_sums E L beta i.
  Proof.
    intros Hi. unfold long_exp_sums. rewrite HQ, HD. apply no_sum. intros a Ha. rewrite HR by assumption. f_equal.
    apply no_mdot. intros o. apply no_ies. exact Ha.
  Qed.

  Lemma no_denom o : ind_denom E' L' beta' o = ind_denom E L beta o.
  Proof.
    unfold ind_denom. rewrite HQ. f_equal.
    apply (no_sum (fun q => np_power (ind_exp_sums_per_nest E L beta o q) (L q))).
    intros a Ha. rewrite no_ies, HL by exact Ha. reflexivity.
  Qed.

  Lemma no_num i : (i < N)%nat -> long_numerators E' L' beta' i = long_numerators E L beta i.
  Proof. intros Hi. unfold long_numerators. rewrite no_esi, no_les, no_lnc by exact Hi. reflexivity. Qed.

  Lemma no_probs i : (i < N)%nat -> nested_long_probs E' L' beta' i = nested_long_probs E L beta i.
  Proof.
    intros Hi. unfold nested_long_probs. rewrite HD, no_num by exact Hi. f_equal. f_equal.
    unfold mvec. apply sumn_ext. intros o _. rewrite no_denom. reflexivity.
  Qed.

  Lemma no_chosen C j : nested_chosen_probs E' C L' beta' j = nested_chosen_probs E C L beta j.
  Proof.
    unfold nested_chosen_probs, mvec. rewrite HD. apply sumn_ext. intros i Hi. rewrite no_probs by exact Hi. reflexivity.
  Qed.

  Lemma no_given i : (i < N)%nat -> prob_given_nest E' L' beta' i = prob_given_nest E L beta i.
  Proof. intros Hi. unfold prob_given_nest. rewrite no_esi, no_les by exact Hi. reflexivity. Qed.

  Lemma no_nest_probs o a : (a < Q)%nat -> nest_choice_probs E' L' beta' o a = nest_choice_probs E L beta o (p a).
  Proof. intros Ha. unfold nest_choice_probs. rewrite no_ies, HL, no_denom by exact Ha. reflexivity. Qed.

  Hypothesis Hab : alen beta = d_K D.
  Hypothesis Hab' : alen beta' = d_K D.

  Lemma no_ll : calc_nested_log_likelihood E' L' beta' = calc_nested_log_likelihood E L beta.
  Proof.
    unfold calc_nested_log_likelihood. rewrite HD, HQ.
    assert (A : vdot N (d_y D) (fun i => eff_weights (d_w D) i * ln (nested_long_probs E' L' beta' i)) =
                vdot N (d_y D) (fun i => eff_weights (d_w D) i * ln (nested_long_probs E L beta i))).
    { unfold vdot. apply sumn_ext. intros i Hi. rewrite no_probs by exact Hi. reflexivity. }
    destruct (d_ridge D) as [r|]; rewrite A; [|reflexivity]. f_equal. f_equal.
    unfold asumsq, acat. cbn [alen aget]. rewrite Hab, Hab', !(sumn_vcat _ _ _ _ (fun x => x * x)). f_equal.
    - apply (no_sum (fun q => (L q - 1) * (L q - 1))). intros a Ha. rewrite HL by exact Ha. reflexivity.
    - apply sumn_ext. intros k Hk. rewrite Hb by exact Hk. reflexivity.
  Qed.

  Lemma no_otc o a : (a < Q)%nat -> obs_to_chosen_nests E' o a = obs_to_chosen_nests E o (p a).
  Proof. intros Ha. unfold obs_to_chosen_nests. rewrite HD. apply no_per_nest; [reflexivity|exact Ha]. Qed.

  Lemma no_lcn i : (i < N)%nat -> long_chosen_nest E' i = long_chosen_nest E i.
  Proof.
    intros Hi. unfold long_chosen_nest. rewrite HQ, HD. apply no_sum. intros a Ha. rewrite HR by assumption. f_equal.
    apply no_mdot. intros o. apply no_otc. exact Ha.
  Qed.

  Lemma no_les2 o a : (a < Q)%nat -> log_exp_sums E' L' beta' o a = log_exp_sums E L beta o (p a).
  Proof. intros Ha. unfold log_exp_sums. rewrite no_ies by exact Ha. reflexivity. Qed.

  Lemma no_half i : (i < N)%nat -> half_deriv E' L' beta' i = half_deriv E L beta i.
  Proof. intros Hi. unfold half_deriv. rewrite no_probs, no_lcn, no_given, no_si by exact Hi. reflexivity. Qed.

  Lemma no_3b i : (i < N)%nat -> term_3b E' L' beta' i = term_3b E L beta i.
  Proof. intros Hi. unfold term_3b. rewrite HD, no_lcn, no_given, no_si, no_lnc by exact Hi. reflexivity. Qed.

  Lemma no_bt i : (i < N)%nat -> beta_term_1 E' L' beta' i = beta_term_1 E L beta i.
  Proof.
    intros Hi. unfold beta_term_1, scaled_y, p_tilde_given_nest. rewrite HD, no_lcn, no_given, no_lnc, no_probs by exact Hi. reflexivity.
  Qed.
End Related.

Section Derivs.
  Context (E E' : NData) (p : nat -> nat) (orig orig' : vec) (beta beta' : arr).
  Notation D := (n_D E).
  Notation N := (d_N D).
  Notation Q := (n_Q E).
  Hypothesis HD : n_D E' = D.
  Hypothesis HQ : n_Q E' = Q.
  Hypothesis Hp : perm_on Q p.
  Hypothesis HR : forall i a, (i < N)%nat -> (a < Q)%nat -> n_R E' i a = n_R E i (p a).
  Hypothesis Ho : forall a, (a < Q)%nat -> orig' a = orig (p a).
  Hypothesis Hb : forall k, (k < d_K D)%nat -> aget beta' k = aget beta k.
  Let L := naturalize_nest_coefs orig.
  Let L' := naturalize_nest_coefs orig'.

  Lemma nd_L a : (a < Q)%nat -> L' a = L (p a).
  Proof. intros Ha. unfold L, L', naturalize_nest_coefs. rewrite Ho by exact Ha. reflexivity. Qed.

  Lemma nd_grad a : (a < Q + d_K D)%nat ->
    aget (calc_nested_gradient E' orig' beta') a = aget (calc_nested_gradient E orig beta) (moved Q p a).
  Proof.
    intros Ha. unfold calc_nested_gradient. fold L L'. rewrite HD, HQ.
    match goal with |- aget (match _ with None => mkArr _ (vcat _ ?g' ?b') | _ => _ end) _ = aget (match _ with None => mkArr _ (vcat _ ?g ?b) | _ => _ end) _ =>
      assert (A : vcat Q g' b' a = vcat Q g b (moved Q p a)) end.
    { unfold vcat, moved. destruct (Nat.ltb_spec a Q) as [Hlt|Hge].
      - destruct (Nat.ltb_spec (p a) Q) as [_|Hn]; [|exfalso; pose proof (proj1 Hp a Hlt); lia].
        rewrite nd_L by exact Hlt. f_equal. f_equal; [f_equal|].
        + apply sumn_ext. intros o _. rewrite (no_otc E E' p HD HR), (no_nest_probs E E' p L L' beta beta'), (no_les2 E E' p L L' beta beta') by
            (try assumption; exact nd_L). reflexivity.
        + apply sumn_ext. intros i Hi. rewrite HR by assumption. rewrite (no_half E E' p L L' beta beta') by (try assumption; exact nd_L). reflexivity.
        + apply sumn_ext. intros i Hi. rewrite HR by assumption.
          rewrite (no_lcn E E' p), (no_given E E' p L L' beta beta'), (no_si E E' p L L' beta beta'), (no_lnc E E' p L L') by (try assumption; exact nd_L). reflexivity.
      - destruct (Nat.ltb_spec a Q) as [|_]; [lia|]. apply sumn_ext. intros i Hi.
        rewrite (no_bt E E' p L L' beta beta') by (try assumption; exact nd_L). reflexivity. }
    destruct (d_ridge D); cbn [aget]; rewrite A; [|reflexivity]. f_equal. f_equal.
    unfold vcat, moved. destruct (Nat.ltb_spec a Q) as [Hlt|Hge].
    - destruct (Nat.ltb_spec (p a) Q) as [_|Hn]; [|exfalso; pose proof (proj1 Hp a Hlt); lia]. rewrite Ho by exact Hlt. reflexivity.
    - destruct (Nat.ltb_spec a Q) as [|_]; [lia|]. apply Hb. lia.
  Qed.

  Lemma nd_score o a : (a < Q + d_K D)%nat ->
    nested_score_matrix E' orig' beta' o a = nested_score_matrix E orig beta o (moved Q p a).
  Proof.
    intros Ha. unfold nested_score_matrix, hcat, vcat, moved. fold L L'. rewrite HD, HQ.
    destruct (Nat.ltb_spec a Q) as [Hlt|Hge].
    - destruct (Nat.ltb_spec (p a) Q) as [_|Hn]; [|exfalso; pose proof (proj1 Hp a Hlt); lia].
      rewrite nd_L by exact Hlt. f_equal. f_equal; [f_equal|].
      + rewrite (no_otc E E' p HD HR), (no_nest_probs E E' p L L' beta beta'), (no_les2 E E' p L L' beta beta') by
            (try assumption; exact nd_L). reflexivity.
      + apply (no_per_nest E E' p HR); [|exact Hlt]. intros i Hi. apply (no_half E E' p L L' beta beta'); try assumption; exact nd_L.
      + apply (no_per_nest E E' p HR); [|exact Hlt]. intros i Hi. apply (no_3b E E' p L L' beta beta'); try assumption; exact nd_L.
    - destruct (Nat.ltb_spec a Q) as [|_]; [lia|]. unfold mdot. apply sumn_ext. intros i Hi.
      rewrite (no_bt E E' p L L' beta beta') by (try assumption; exact nd_L). reflexivity.
  Qed.

  Lemma moved_inj a b : (a < Q + d_K D)%nat -> (b < Q + d_K D)%nat -> (moved Q p a =? moved Q p b)%nat = (a =? b)%nat.
  Proof.
    intros Ha Hb'. destruct Hp as (P1 & P2).
    destruct (Nat.eqb_spec a b) as [->|Ne]; [apply Nat.eqb_refl|]. apply Nat.eqb_neq. unfold moved.
    destruct (Nat.ltb_spec a Q) as [A|A]; destruct (Nat.ltb_spec b Q) as [B|B].
    - intros C. apply Ne, P2; assumption.
    - pose proof (P1 a A). lia.
    - pose proof (P1 b B). lia.
    - exact Ne.
  Qed.

  Lemma nd_bhhh a b : (a < Q + d_K D)%nat -> (b < Q + d_K D)%nat ->
    sqe (calc_bhhh E' orig' beta') a b = sqe (calc_bhhh E orig beta) (moved Q p a) (moved Q p b).
  Proof.
    intros Ha Hb'. unfold calc_bhhh. rewrite HD, HQ. cbn [sqe]. f_equal.
    assert (A : mdot (d_obs D) (transp (nested_score_matrix E' orig' beta')) (fun o k => weights_per_obs D o * nested_score_matrix E' orig' beta' o k) a b =
                mdot (d_obs D) (transp (nested_score_matrix E orig beta)) (fun o k => weights_per_obs D o * nested_score_matrix E orig beta o k) (moved Q p a) (moved Q p b)).
    { unfold mdot, transp. apply sumn_ext. intros o _. rewrite !nd_score by assumption. reflexivity. }
    destruct (d_ridge D); rewrite A; [|reflexivity]. unfold ident. rewrite moved_inj by assumption. reflexivity.
  Qed.
End Derivs.

(** ** C110 *)
Lemma mappings_but_nests d t t' mp mp' :
  create_long_form_mappings d (Some t) = Ok mp -> create_long_form_mappings d (Some t') = Ok mp' ->
  rows_to_obs mp' = rows_to_obs mp /\ rows_to_alts mp' = rows_to_alts mp /\ chosen_row_to_obs mp' = chosen_row_to_obs mp.
Proof.
  unfold create_long_form_mappings. intros H H'. apply bind_ok in H, H'. destruct H as (m & _ & H). destruct H' as (m' & _ & H').
  injection H as <-. injection H' as <-. repeat split; reflexivity.
Qed.

Theorem C110_order_of_nests d t t' mp mp' rn rn' p K X w ridge theta theta' :
  nested_setup d t mp rn -> nested_setup d t' mp' rn' -> same_nests p t t' ->
  let E := ndata_of d mp rn K X w ridge in
  let E' := ndata_of d mp' rn' K X w ridge in
  nested_check_length E theta = Ok tt -> alen theta' = alen theta ->
  (forall a, (a < alen theta)%nat -> aget theta' a = aget theta (moved (length t) p a)) ->
  nested_check_length E' theta' = Ok tt /\
  (forall C pc pl, nested_est_probs E (Some C) theta = Ok (NProbs (BothProbs pc pl)) ->
     exists pc' pl', nested_est_probs E' (Some C) theta' = Ok (NProbs (BothProbs pc' pl')) /\
       (forall j, pc' j = pc j) /\ (forall i, (i < length (obs_ids d))%nat -> pl' i = pl i)) /\
  nested_est_log_likelihood E' theta' = nested_est_log_likelihood E theta /\
  (forall a, (a < alen theta)%nat ->
     aget (nested_est_gradient E' theta') a = aget (nested_est_gradient E theta) (moved (length t) p a)) /\
  (forall a b, (a < alen theta)%nat -> (b < alen theta)%nat ->
     sqe (nested_est_hessian E' None theta') a b =
     sqe (nested_est_hessian E None theta) (moved (length t) p a) (moved (length t) p b)).
Proof.
  intros HS HS' (Lt & Hp & Hn) E E' Hc La Ht.
  destruct (setup_nests d t mp rn HS) as (Cq & Hq). destruct (setup_nests d t' mp' rn' HS') as (Cq' & Hq').
  destruct (mappings_but_nests d t t' mp mp') as (M1 & M2 & _); [apply HS|apply HS'|].
  assert (HD : n_D E' = n_D E) by (unfold E, E', ndata_of, data_of; cbn [n_D]; rewrite M1, M2; reflexivity).
  assert (EQ : n_Q E = length t) by exact Cq.
  assert (HQ : n_Q E' = n_Q E) by (rewrite EQ; unfold E', ndata_of; cbn [n_Q]; congruence).
  assert (Hp' : perm_on (n_Q E) p) by (rewrite EQ; exact Hp).
  assert (HR : forall i a, (i < d_N (n_D E))%nat -> (a < n_Q E)%nat -> n_R E' i a = n_R E i (p a)).
  { intros i a Hi Ha. rewrite EQ in Ha. change (d_N (n_D E)) with (length (obs_ids d)) in Hi.
    pose proof (proj1 Hp a Ha) as Hpa.
    destruct (Hq i Hi) as (_ & H1). destruct (H1 (p a) Hpa) as (Z1 & G1).
    destruct (Hq' i Hi) as (_ & H2). destruct (H2 a) as (Z2 & G2); [lia|].
    change (n_R E' i a) with (IZR (sget rn' i a)). change (n_R E i (p a)) with (IZR (sget rn i (p a))).
    rewrite G1, G2, <- Z1, <- Z2. specialize (Hn a (nth i (alt_ids d) 0%Z) Ha). rewrite <- !zmem_In in Hn.
    destruct (zmem (nth i (alt_ids d) 0%Z) (nest_alts t' a)), (zmem (nth i (alt_ids d) 0%Z) (nest_alts t (p a))); try reflexivity;
      exfalso; destruct Hn as (A & B); [discriminate (A eq_refl)|discriminate (B eq_refl)]. }
  assert (HK : d_K (n_D E) = K) by reflexivity.
  assert (Lth : alen theta = (K + length t)%nat).
  { unfold nested_check_length in Hc. rewrite EQ, HK in Hc. destruct (Nat.eqb_spec (alen theta) (K + length t)); [assumption|discriminate]. }
  split.
  { unfold nested_check_length. rewrite HD, HQ, La. exact Hc. }
  set (Q := n_Q E) in *.
  assert (Ho : forall a, (a < Q)%nat -> aget (fst (nested_split Q theta')) a = aget (fst (nested_split Q theta)) (p a)).
  { intros a Ha. cbn [nested_split fst aslice aget]. rewrite !Nat.add_0_l. rewrite Ht by lia. unfold moved. rewrite <- EQ.
    destruct (Nat.ltb_spec a Q); [reflexivity|lia]. }
  assert (Hb : forall k, (k < d_K (n_D E))%nat -> aget (snd (nested_split Q theta')) k = aget (snd (nested_split Q theta)) k).
  { intros k Hk. rewrite HK in Hk. cbn [nested_split snd aslice aget]. rewrite Ht by lia. unfold moved. rewrite <- EQ.
    destruct (Nat.ltb_spec (Q + k) Q); [lia|reflexivity]. }
  pose proof (nd_L E p (aget (fst (nested_split Q theta))) (aget (fst (nested_split Q theta'))) Ho) as HLL.
  assert (Ls : alen (snd (nested_split Q theta)) = d_K (n_D E)) by (cbn [nested_split snd aslice alen]; lia).
  assert (Ls' : alen (snd (nested_split Q theta')) = d_K (n_D E)) by (cbn [nested_split snd aslice alen]; lia).
  split; [|split; [|split]].
  - intros C pc pl Hpr. unfold nested_est_probs in *. rewrite HQ. cbn [nested_split] in Hpr |- *.
    cbn [calc_nested_probs] in Hpr |- *. injection Hpr as <- <-. eexists. eexists. split; [reflexivity|]. split.
    + intros j. apply (no_chosen E E' p); try assumption.
    + intros i Hi. apply (no_probs E E' p); try assumption.
  - unfold nested_est_log_likelihood. rewrite HQ. cbn [nested_split]. apply (no_ll E E' p); try assumption.
  - intros a Ha. unfold nested_est_gradient. rewrite HQ. cbn [nested_split]. rewrite <- EQ.
    apply (nd_grad E E' p); try assumption. rewrite HK. fold Q. lia.
  - intros a b Ha Hb'. unfold nested_est_hessian. rewrite HQ. cbn [nested_split]. rewrite <- EQ.
    apply (nd_bhhh E E' p); try assumption; rewrite HK; fold Q; lia.
Qed.

(** The nests of PropNested.v, listed the other way round, renamed and with the
    alternatives in another order. *)
Definition exn_swapped : nest_spec := [("b"%string, [3; 4]%Z); ("a"%string, [2; 1]%Z)].
Example ex_nest_order : exists mp rn mp' rn',
  nested_setup exn_cols exn_nests mp rn /\ nested_setup exn_cols exn_swapped mp' rn' /\
  same_nests (fun a => 1 - a)%nat exn_nests exn_swapped /\
  nested_check_length (ndata_of exn_cols mp rn 2 (fun i k => INR (i + k)) None (Some 1)) (mkArr 4 INR) = Ok tt /\
  forall a, (a < 4)%nat ->
    aget (mkArr 4 (fun a => if (a <? 2)%nat then INR (1 - a) else INR a)) a = aget (mkArr 4 INR) (moved 2 (fun a => 1 - a)%nat a).
Proof.
  destruct exn_setup as (mp & rn & HS).
  assert (HS' : exists mp' rn', nested_setup exn_cols exn_swapped mp' rn').
  { eexists. eexists. apply nested_setup_own; try reflexivity. repeat constructor; simpl; intuition discriminate. }
  destruct HS' as (mp' & rn' & HS'). exists mp, rn, mp', rn'. split; [exact HS|]. split; [exact HS'|]. split; [|split].
  - split; [reflexivity|]. split; [change (length exn_nests) with 2%nat; split; intros; lia|]. intros a alt Ha. cbn in Ha.
    destruct a as [|[|a]]; [| |lia]; cbn; tauto.
  - unfold nested_check_length. rewrite (su_Q exn_cols exn_nests mp rn HS). reflexivity.
  - intros a Ha. unfold moved. cbn [aget]. destruct (a <? 2)%nat; reflexivity.
Qed.

Print Assumptions C110_order_of_nests.
