(** Closed forms of the nested-logit calculations and derivative of the nested
    log-likelihood along any differentiable path of utilities and nest coefficients. *)
From Coq Require Import Reals Lra Lia Arith Bool.
From Coquelicot Require Import Coquelicot.
From Verif Require Import Res Vec Arr SpecLogit ChoiceCalcs ChoiceFacts RowDeriv HessFacts NestedCalcs.
Open Scope R_scope.

(** Sum over the rows of observation [o] that belong to nest [q]. *)
Definition nsum (N : nat) (own nst : nat -> nat) (o q : nat) (f : vec) : R :=
  sumn N (fun i => if ((own i =? o) && (nst i =? q))%nat%bool then f i else 0).

Section Nsum.
  Context (N : nat) (own nst : nat -> nat).

  Lemma nsum_ext o q f g :
    (forall i, (i < N)%nat -> own i = o -> nst i = q -> f i = g i) ->
    nsum N own nst o q f = nsum N own nst o q g.
  Proof.
    intros H. apply sumn_ext. intros i Hi.
    destruct (Nat.eqb_spec (own i) o); destruct (Nat.eqb_spec (nst i) q); simpl; auto.
  Qed.

  Lemma nsum_plus o q f g :
    nsum N own nst o q (fun i => f i + g i) = nsum N own nst o q f + nsum N own nst o q g.
  Proof.
    unfold nsum. rewrite <- sumn_plus. apply sumn_ext. intros i _.
    destruct ((own i =? o) && (nst i =? q))%nat%bool; lra.
  Qed.

  Lemma nsum_minus o q f g :
    nsum N own nst o q (fun i => f i - g i) = nsum N own nst o q f - nsum N own nst o q g.
  Proof.
    unfold nsum. rewrite <- sumn_minus. apply sumn_ext. intros i _.
    destruct ((own i =? o) && (nst i =? q))%nat%bool; lra.
  Qed.

  Lemma nsum_scal o q c f :
    nsum N own nst o q (fun i => c * f i) = c * nsum N own nst o q f.
  Proof.
    unfold nsum. rewrite <- sumn_scal_l. apply sumn_ext. intros i _.
    destruct ((own i =? o) && (nst i =? q))%nat%bool; lra.
  Qed.

  Lemma nsum_ge0 o q f :
    (forall i, (i < N)%nat -> own i = o -> nst i = q -> 0 <= f i) -> 0 <= nsum N own nst o q f.
  Proof.
    intros H. apply sumn_ge0. intros i Hi.
    destruct (Nat.eqb_spec (own i) o); destruct (Nat.eqb_spec (nst i) q); simpl; try lra; auto.
  Qed.

  Lemma nsum_pos i f :
    (forall k, (k < N)%nat -> 0 < f k) -> (i < N)%nat -> 0 < nsum N own nst (own i) (nst i) f.
  Proof.
    intros H Hi. apply (sumn_pos N _ i).
    - intros k Hk. destruct ((own k =? own i) && (nst k =? nst i))%nat%bool; [left; auto|lra].
    - exact Hi.
    - rewrite !Nat.eqb_refl. simpl. auto.
  Qed.

  (** A sum of positive terms is zero only over no rows. *)
  Lemma nsum_zero_empty o q f :
    (forall k, (k < N)%nat -> 0 < f k) -> nsum N own nst o q f = 0 ->
    forall i, (i < N)%nat -> ~ (own i = o /\ nst i = q).
  Proof.
    intros H E i Hi (Eo & Eq). subst. pose proof (nsum_pos i f H Hi). lra.
  Qed.

  Lemma nsum_empty o q f :
    (forall i, (i < N)%nat -> ~ (own i = o /\ nst i = q)) -> nsum N own nst o q f = 0.
  Proof.
    intros H. apply sumn_eq0. intros i Hi. specialize (H i Hi).
    destruct (Nat.eqb_spec (own i) o); destruct (Nat.eqb_spec (nst i) q); simpl; tauto.
  Qed.

  Lemma nsum_row_exists o q f :
    nsum N own nst o q f <> 0 -> exists i, (i < N)%nat /\ own i = o /\ nst i = q.
  Proof.
    intros H.
    destruct (List.existsb (fun i => (own i =? o) && (nst i =? q))%nat%bool (List.seq 0 N)) eqn:B.
    - apply List.existsb_exists in B. destruct B as (i & Hi & B). apply List.in_seq in Hi.
      apply andb_true_iff in B. destruct B as (B1 & B2). apply Nat.eqb_eq in B1, B2.
      exists i. repeat split; auto; lia.
    - exfalso. apply H. apply nsum_empty. intros i Hi (E1 & E2).
      assert (T : List.existsb (fun i => (own i =? o) && (nst i =? q))%nat%bool (List.seq 0 N) = true).
      { apply List.existsb_exists. exists i. split; [apply List.in_seq; lia|].
        rewrite E1, E2, !Nat.eqb_refl. reflexivity. }
      congruence.
  Qed.

  Lemma osum_nsum Q o f :
    (forall i, (i < N)%nat -> (nst i < Q)%nat) ->
    osum N own o f = sumn Q (fun q => nsum N own nst o q f).
  Proof.
    intros H. unfold osum, nsum. rewrite sumn_swap. apply sumn_ext. intros i Hi.
    destruct (own i =? o)%nat; simpl.
    - symmetry. apply (sumn_single' Q (nst i) (fun _ => f i)). auto.
    - symmetry. apply sumn_zero.
  Qed.

  (** A function of the row's nest only, times a row quantity. *)
  Lemma nsum_nest o q (c : vec) f :
    nsum N own nst o q (fun i => c (nst i) * f i) = c q * nsum N own nst o q f.
  Proof.
    rewrite <- nsum_scal. apply nsum_ext. intros i _ _ E. rewrite E. reflexivity.
  Qed.

  Lemma is_derive_nsum o q (f : nat -> R -> R) (df : vec) x :
    (forall i, (i < N)%nat -> is_derive (f i) x (df i)) ->
    is_derive (fun t => nsum N own nst o q (fun i => f i t)) x (nsum N own nst o q df).
  Proof.
    intros H. unfold nsum.
    apply (is_derive_sumn N
      (fun i t => if ((own i =? o) && (nst i =? q))%nat%bool then f i t else 0)).
    intros i Hi. destruct ((own i =? o) && (nst i =? q))%nat%bool; [apply H; exact Hi|].
    apply (is_derive_const (K := R_AbsRing) (V := R_NormedModule)).
  Qed.
End Nsum.

Lemma nonzero_id x : x <> 0 -> nonzero x = x.
Proof. intros H. unfold nonzero. destruct (Req_EM_T x 0); tauto. Qed.

Lemma min_comp_pos : 0 < min_comp_value.
Proof. unfold min_comp_value. apply Rinv_0_lt_compat, pow_lt. lra. Qed.

Lemma min_max_comp : min_comp_value * max_comp_value = 1.
Proof. unfold min_comp_value, max_comp_value. apply Rinv_l, pow_nonzero. lra. Qed.

Lemma np_power_pos x y : 0 < x -> np_power x y = Rpower x y.
Proof. intros H. unfold np_power. destruct (Req_EM_T x 0); [lra|reflexivity]. Qed.

Lemma np_power_0 y : 0 < y -> np_power 0 y = 0.
Proof.
  intros H. unfold np_power. destruct (Req_EM_T 0 0); [|lra].
  destruct (Rlt_dec 0 y); [reflexivity|lra].
Qed.

Lemma Rpower_pos x y : 0 < Rpower x y.
Proof. apply exp_pos. Qed.

Lemma np_power_ge0 x y : 0 < y -> 0 <= np_power x y.
Proof.
  intros H. unfold np_power. destruct (Req_EM_T x 0).
  - destruct (Rlt_dec 0 y); lra.
  - left. apply Rpower_pos.
Qed.

(** ** Nested-logit quantities as functions of the utilities [V] and the nest
    coefficients [L] *)
Section Closed.
  Context (N Q : nat) (own nst : nat -> nat).
  Hypothesis Hnst : forall i, (i < N)%nat -> (nst i < Q)%nat.

  Definition es (V L : vec) : vec := fun i => exp (V i / L (nst i)).
  Definition SS (V L : vec) : mat := fun o q => nsum N own nst o q (es V L).
  Definition DD (V L : vec) : vec := fun o => sumn Q (fun q => np_power (SS V L o q) (L q)).
  Definition PQ (V L : vec) : mat := fun o q => np_power (SS V L o q) (L q) / DD V L o.
  Definition gg (V L : vec) : vec := fun i => es V L i / SS V L (own i) (nst i).
  Definition pp (V L : vec) : vec := fun i => PQ V L (own i) (nst i) * gg V L i.
  Definition lp (V L : vec) : vec := fun i =>
    V i / L (nst i) + (L (nst i) - 1) * ln (SS V L (own i) (nst i)) - ln (DD V L (own i)).

  Section At.
    Context (V L : vec).
    Hypothesis HL : forall q, (q < Q)%nat -> 0 < L q.

    Lemma es_pos i : 0 < es V L i.
    Proof. apply exp_pos. Qed.

    Lemma SS_ge0 o q : 0 <= SS V L o q.
    Proof. apply nsum_ge0. intros. left. apply es_pos. Qed.

    Lemma SS_pos i : (i < N)%nat -> 0 < SS V L (own i) (nst i).
    Proof. intros Hi. apply nsum_pos; [intros; apply es_pos|exact Hi]. Qed.

    Lemma DD_pos i : (i < N)%nat -> 0 < DD V L (own i).
    Proof.
      intros Hi. apply (sumn_pos Q _ (nst i)); [|auto|].
      - intros q Hq. apply np_power_ge0. auto.
      - rewrite np_power_pos by (apply SS_pos; exact Hi). apply Rpower_pos.
    Qed.

    Lemma PQ_pos i : (i < N)%nat -> 0 < PQ V L (own i) (nst i).
    Proof.
      intros Hi. unfold PQ. apply Rdiv_lt_0_compat; [|apply DD_pos; exact Hi].
      rewrite np_power_pos by (apply SS_pos; exact Hi). apply Rpower_pos.
    Qed.

    Lemma gg_pos i : (i < N)%nat -> 0 < gg V L i.
    Proof. intros Hi. apply Rdiv_lt_0_compat; [apply es_pos|apply SS_pos; exact Hi]. Qed.

    Lemma PQ_sum i : (i < N)%nat -> sumn Q (PQ V L (own i)) = 1.
    Proof.
      intros Hi. unfold PQ. rewrite sumn_div. fold (DD V L (own i)).
      pose proof (DD_pos i Hi). field. lra.
    Qed.

    (** [nsum] of the within-nest probabilities *)
    Lemma gg_sum o q : nsum N own nst o q (gg V L) = if Req_EM_T (SS V L o q) 0 then 0 else 1.
    Proof.
      rewrite (nsum_ext N own nst o q (gg V L) (fun i => / SS V L o q * es V L i)).
      2: { intros i _ Eo Eq. unfold gg. rewrite Eo, Eq. unfold Rdiv. ring. }
      rewrite nsum_scal. fold (SS V L o q).
      destruct (Req_EM_T (SS V L o q) 0) as [E|E]; [rewrite E; ring|field; exact E].
    Qed.

    Lemma PQ_absent o q : (q < Q)%nat -> SS V L o q = 0 -> PQ V L o q = 0.
    Proof. intros Hq E. unfold PQ. rewrite E, np_power_0 by auto. unfold Rdiv. ring. Qed.

    Lemma pp_nsum o q : (q < Q)%nat -> nsum N own nst o q (pp V L) = PQ V L o q.
    Proof.
      intros Hq.
      rewrite (nsum_ext N own nst o q (pp V L) (fun i => PQ V L o q * gg V L i)).
      2: { intros i _ Eo Eq. unfold pp. rewrite Eo, Eq. reflexivity. }
      rewrite nsum_scal, gg_sum. destruct (Req_EM_T (SS V L o q) 0) as [E|E]; [|ring].
      rewrite (PQ_absent o q Hq E). ring.
    Qed.

    Lemma pp_sum i : (i < N)%nat -> osum N own (own i) (pp V L) = 1.
    Proof.
      intros Hi. rewrite (osum_nsum N own nst Q) by exact Hnst.
      rewrite (sumn_ext Q _ (PQ V L (own i))) by (intros q Hq; apply pp_nsum; exact Hq).
      apply PQ_sum. exact Hi.
    Qed.

    Lemma pp_pos i : (i < N)%nat -> 0 < pp V L i.
    Proof. intros Hi. apply Rmult_lt_0_compat; [apply PQ_pos|apply gg_pos]; exact Hi. Qed.

    Lemma pp_eq i :
      (i < N)%nat ->
      pp V L i = es V L i * Rpower (SS V L (own i) (nst i)) (L (nst i) - 1) / DD V L (own i).
    Proof.
      intros Hi. pose proof (SS_pos i Hi) as HS. pose proof (DD_pos i Hi) as HD.
      unfold pp, PQ, gg. rewrite np_power_pos by exact HS.
      unfold Rminus. rewrite Rpower_plus, Rpower_Ropp, Rpower_1 by exact HS.
      field. split; lra.
    Qed.

    Lemma ln_pp i : (i < N)%nat -> ln (pp V L i) = lp V L i.
    Proof.
      intros Hi. rewrite pp_eq by exact Hi. pose proof (SS_pos i Hi) as HS. pose proof (DD_pos i Hi) as HD.
      pose proof (es_pos i) as He. pose proof (Rpower_pos (SS V L (own i) (nst i)) (L (nst i) - 1)) as HP.
      unfold Rdiv. rewrite ln_mult, ln_mult, ln_Rinv; try assumption.
      - unfold es, Rpower. rewrite !ln_exp. unfold lp, Rdiv. ring.
      - apply Rmult_lt_0_compat; assumption.
      - apply Rinv_0_lt_compat. exact HD.
    Qed.
  End At.

  (** ** Derivative along a path *)
  Section Path.
    Context (Vt Lt : R -> vec) (V' L' : vec) (x : R).
    Hypothesis HL : forall t q, (q < Q)%nat -> 0 < Lt t q.
    Hypothesis HV' : forall i, (i < N)%nat -> is_derive (fun t => Vt t i) x (V' i).
    Hypothesis HL' : forall q, (q < Q)%nat -> is_derive (fun t => Lt t q) x (L' q).

    Notation V := (Vt x).
    Notation L := (Lt x).

    Definition uu : vec := fun i => V' i / L (nst i) - V i * L' (nst i) / (L (nst i) * L (nst i)).
    Definition LS : mat := fun o q => nsum N own nst o q (fun i => es V L i * uu i) / SS V L o q.

    Lemma scaled_derive i :
      (i < N)%nat -> is_derive (fun t => Vt t i / Lt t (nst i)) x (uu i).
    Proof.
      intros Hi. pose proof (Hnst i Hi) as Hq. pose proof (HL x (nst i) Hq).
      evar_last.
      - apply (is_derive_div (fun t => Vt t i) (fun t => Lt t (nst i)));
          [apply HV'; exact Hi|apply HL'; exact Hq|lra].
      - unfold uu. simpl. field. lra.
    Qed.

    Lemma es_derive i :
      (i < N)%nat -> is_derive (fun t => es (Vt t) (Lt t) i) x (es V L i * uu i).
    Proof.
      intros Hi. unfold es. evar_last.
      - apply (is_derive_comp exp); [apply is_derive_exp|apply scaled_derive; exact Hi].
      - simpl. unfold scal; simpl; unfold mult; simpl. ring.
    Qed.

    Lemma SS_derive o q :
      is_derive (fun t => SS (Vt t) (Lt t) o q) x (nsum N own nst o q (fun i => es V L i * uu i)).
    Proof.
      unfold SS. apply (is_derive_nsum N own nst o q (fun i t => es (Vt t) (Lt t) i)).
      exact es_derive.
    Qed.

    Lemma lnSS_derive i :
      (i < N)%nat -> is_derive (fun t => ln (SS (Vt t) (Lt t) (own i) (nst i))) x (LS (own i) (nst i)).
    Proof.
      intros Hi. pose proof (SS_pos V L i Hi) as HS. evar_last.
      - apply (is_derive_comp ln); [apply is_derive_ln; exact HS|apply SS_derive].
      - simpl. unfold scal; simpl; unfold mult; simpl. unfold LS. field. lra.
    Qed.

    (** derivative of one term of the denominator *)
    Lemma power_derive o q :
      (q < Q)%nat ->
      is_derive (fun t => np_power (SS (Vt t) (Lt t) o q) (Lt t q)) x
        (np_power (SS V L o q) (L q) * (L' q * ln (SS V L o q) + L q * LS o q)).
    Proof.
      intros Hq. destruct (Req_EM_T (SS V L o q) 0) as [E|E].
      - assert (Hemp : forall i, (i < N)%nat -> ~ (own i = o /\ nst i = q))
          by (apply (nsum_zero_empty N own nst o q (es V L)); [intros; apply es_pos|exact E]).
        rewrite E, np_power_0 by (apply HL; exact Hq). rewrite Rmult_0_l.
        apply is_derive_ext with (f := fun _ => 0).
        + intros t. unfold SS. rewrite nsum_empty by exact Hemp.
          rewrite np_power_0 by (apply HL; exact Hq). reflexivity.
        + apply (is_derive_const (K := R_AbsRing) (V := R_NormedModule)).
      - destruct (nsum_row_exists N own nst o q (es V L) E) as (i & Hi & <- & <-).
        pose proof (SS_pos V L i Hi) as HS.
        apply is_derive_ext with (f := fun t => exp (Lt t (nst i) * ln (SS (Vt t) (Lt t) (own i) (nst i)))).
        { intros t. rewrite np_power_pos by (apply SS_pos; exact Hi). reflexivity. }
        rewrite np_power_pos by exact HS. evar_last.
        + apply (is_derive_comp exp); [apply is_derive_exp|].
          apply (is_derive_mult (fun t => Lt t (nst i)) (fun t => ln (SS (Vt t) (Lt t) (own i) (nst i))));
            [apply HL'; exact Hq|apply lnSS_derive; exact Hi|intros; apply Rmult_comm].
        + simpl. unfold scal, plus; simpl; unfold mult; simpl. unfold Rpower. ring.
    Qed.

    Definition dlnDD : vec := fun o =>
      sumn Q (fun q => PQ V L o q * (L' q * ln (SS V L o q) + L q * LS o q)).

    Lemma lnDD_derive i :
      (i < N)%nat -> is_derive (fun t => ln (DD (Vt t) (Lt t) (own i))) x (dlnDD (own i)).
    Proof.
      intros Hi. pose proof (DD_pos V L (HL x) i Hi) as HD. evar_last.
      - apply (is_derive_comp ln); [apply is_derive_ln; exact HD|].
        unfold DD. apply (is_derive_sumn Q (fun q t => np_power (SS (Vt t) (Lt t) (own i) q) (Lt t q))).
        intros q Hq. apply power_derive. exact Hq.
      - simpl. unfold scal; simpl; unfold mult; simpl. unfold dlnDD, PQ.
        rewrite Rmult_comm. rewrite <- sumn_scal_l. apply sumn_ext. intros q _. field. lra.
    Qed.

    Definition dlp : vec := fun i =>
      uu i + (L' (nst i) * ln (SS V L (own i) (nst i)) + (L (nst i) - 1) * LS (own i) (nst i)) - dlnDD (own i).

    Lemma lp_derive i : (i < N)%nat -> is_derive (fun t => lp (Vt t) (Lt t) i) x (dlp i).
    Proof.
      intros Hi. unfold lp. pose proof (Hnst i Hi) as Hq. evar_last.
      - apply (is_derive_minus
          (fun t => Vt t i / Lt t (nst i) + (Lt t (nst i) - 1) * ln (SS (Vt t) (Lt t) (own i) (nst i)))
          (fun t => ln (DD (Vt t) (Lt t) (own i)))); [|apply lnDD_derive; exact Hi].
        apply (is_derive_plus (fun t => Vt t i / Lt t (nst i))
                 (fun t => (Lt t (nst i) - 1) * ln (SS (Vt t) (Lt t) (own i) (nst i))));
          [apply scaled_derive; exact Hi|].
        apply (is_derive_mult (fun t => Lt t (nst i) - 1) (fun t => ln (SS (Vt t) (Lt t) (own i) (nst i))));
          [|apply lnSS_derive; exact Hi|intros; apply Rmult_comm].
        apply (is_derive_minus (fun t => Lt t (nst i)) (fun _ => 1));
          [apply HL'; exact Hq|apply (is_derive_const (K := R_AbsRing) (V := R_NormedModule))].
      - simpl. unfold minus, plus, opp, zero, mult; simpl. unfold dlp. ring.
    Qed.

    (** ** The score of one observation *)

    (** chosen-nest indicator of the code *)
    Definition YQ (y : vec) : mat := fun o q => nsum N own nst o q y.

    Definition nest_score (y : vec) : mat := fun o q =>
      (YQ y o q - PQ V L o q) * ln (SS V L o q)
      + nsum N own nst o q (fun i => (pp V L i - YQ y o q * gg V L i) * (V i / L q))
      + nsum N own nst o q (fun i => -1 * (y i - YQ y o q * gg V L i) * (V i / L q) / L q).

    Definition beta_weight (y : vec) : vec := fun i =>
      y i / L (nst i) - gg V L i * YQ y (own i) (nst i) / L (nst i)
      + gg V L i * YQ y (own i) (nst i) / L (nst i) * L (nst i) - pp V L i.

    Lemma score_per_nest y o q :
      (q < Q)%nat ->
      nsum N own nst o q (fun i => y i * uu i)
      + YQ y o q * (L' q * ln (SS V L o q) + (L q - 1) * LS o q)
      - PQ V L o q * (L' q * ln (SS V L o q) + L q * LS o q)
      = L' q * nest_score y o q + nsum N own nst o q (fun i => beta_weight y i * V' i).
    Proof.
      intros Hq. pose proof (HL x q Hq) as Hl.
      set (A := nsum N own nst o q (fun i => y i * V' i)).
      set (B := nsum N own nst o q (fun i => y i * V i)).
      set (C := nsum N own nst o q (fun i => gg V L i * V' i)).
      set (F := nsum N own nst o q (fun i => gg V L i * V i)).
      set (Y := YQ y o q). set (P := PQ V L o q). set (lS := ln (SS V L o q)).
      assert (E1 : nsum N own nst o q (fun i => y i * uu i) = A / L q - L' q * B / (L q * L q)).
      { rewrite (nsum_ext N own nst o q _
          (fun i => / L q * (y i * V' i) - L' q / (L q * L q) * (y i * V i))).
        2: { intros i _ _ E. unfold uu. rewrite E. field. lra. }
        rewrite nsum_minus, !nsum_scal. fold A B. field. lra. }
      assert (E2 : LS o q = C / L q - L' q * F / (L q * L q)).
      { unfold LS. unfold Rdiv at 1. rewrite Rmult_comm, <- nsum_scal.
        rewrite (nsum_ext N own nst o q _
          (fun i => / L q * (gg V L i * V' i) - L' q / (L q * L q) * (gg V L i * V i))).
        2: { intros i _ Eo Eq. unfold uu, gg. rewrite Eo, Eq. unfold Rdiv.
             generalize (/ SS V L o q). intros s. field. lra. }
        rewrite nsum_minus, !nsum_scal. fold C F. field. lra. }
      assert (E3 : nsum N own nst o q (fun i => (pp V L i - Y * gg V L i) * (V i / L q)) = (P - Y) * F / L q).
      { rewrite (nsum_ext N own nst o q _ (fun i => (P - Y) / L q * (gg V L i * V i))).
        2: { intros i _ Eo Eq. unfold pp. rewrite Eo, Eq. fold P. field. lra. }
        rewrite nsum_scal. fold F. field. lra. }
      assert (E4 : nsum N own nst o q (fun i => -1 * (y i - Y * gg V L i) * (V i / L q) / L q)
                   = - B / (L q * L q) + Y * F / (L q * L q)).
      { rewrite (nsum_ext N own nst o q _
          (fun i => -1 / (L q * L q) * (y i * V i) + Y / (L q * L q) * (gg V L i * V i))).
        2: { intros i _ _ _. field. lra. }
        rewrite nsum_plus, !nsum_scal. fold B F. field. lra. }
      assert (E5 : nsum N own nst o q (fun i => beta_weight y i * V' i) = A / L q + (Y - Y / L q - P) * C).
      { rewrite (nsum_ext N own nst o q _
          (fun i => / L q * (y i * V' i) + (Y - Y / L q - P) * (gg V L i * V' i))).
        2: { intros i _ Eo Eq. unfold beta_weight, pp. rewrite Eo, Eq. fold Y P. field. lra. }
        rewrite nsum_plus, !nsum_scal. fold A C. field. lra. }
      rewrite E1, E2, E5. unfold nest_score. fold Y P lS. rewrite E3, E4. field. lra.
    Qed.

    Lemma score_of_observation y i :
      (i < N)%nat -> osum N own (own i) y = 1 ->
      osum N own (own i) (fun r => y r * dlp r) =
      sumn Q (fun q => L' q * nest_score y (own i) q) + osum N own (own i) (fun r => beta_weight y r * V' r).
    Proof.
      intros Hi H1. set (o := own i).
      rewrite (osum_ext N own o (fun r => y r * dlp r)
        (fun r => (y r * uu r + y r * (L' (nst r) * ln (SS V L o (nst r)) + (L (nst r) - 1) * LS o (nst r)))
                  - y r * dlnDD o)).
      2: { intros r _ E. unfold dlp. rewrite E. ring. }
      rewrite osum_minus, osum_scal_r. fold o in H1. rewrite H1, Rmult_1_l.
      rewrite osum_plus. rewrite !(osum_nsum N own nst Q) by exact Hnst.
      unfold dlnDD. rewrite <- !sumn_plus, <- sumn_minus. apply sumn_ext. intros q Hq.
      rewrite <- (score_per_nest y o q Hq). f_equal. f_equal.
      rewrite (nsum_ext N own nst o q
        (fun r => y r * (L' (nst r) * ln (SS V L o (nst r)) + (L (nst r) - 1) * LS o (nst r)))
        (fun r => (L' q * ln (SS V L o q) + (L q - 1) * LS o q) * y r)).
      2: { intros r _ _ E. rewrite E. ring. }
      rewrite nsum_scal. unfold YQ. ring.
    Qed.

    (** derivative of the weighted log-likelihood *)
    Lemma ll_path nobs (y w W : vec) :
      (forall i, (i < N)%nat -> (own i < nobs)%nat) ->
      (forall o, (o < nobs)%nat -> exists i, (i < N)%nat /\ own i = o) ->
      (forall i, (i < N)%nat -> osum N own (own i) y = 1) ->
      (forall i, (i < N)%nat -> w i = W (own i)) ->
      is_derive (fun t => sumn N (fun i => y i * (w i * lp (Vt t) (Lt t) i))) x
        (sumn Q (fun q => L' q * sumn nobs (fun o => W o * nest_score y o q))
         + sumn N (fun i => w i * (beta_weight y i * V' i))).
    Proof.
      intros Ho Hrow H1 Hw. evar_last.
      - apply (is_derive_sumn N (fun i t => y i * (w i * lp (Vt t) (Lt t) i))).
        intros i Hi. apply (is_derive_scal (fun t => w i * lp (Vt t) (Lt t) i)).
        apply (is_derive_scal (fun t => lp (Vt t) (Lt t) i)). apply lp_derive. exact Hi.
      - rewrite (sumn_ext N _ (fun i => w i * (y i * dlp i))) by (intros; ring).
        rewrite (sumn_by_obs N nobs own (fun i => w i * (y i * dlp i))) by exact Ho.
        rewrite (sumn_by_obs N nobs own (fun i => w i * (beta_weight y i * V' i))) by exact Ho.
        rewrite (sumn_ext Q _ (fun q => sumn nobs (fun o => W o * (L' q * nest_score y o q)))).
        2: { intros q _. rewrite <- sumn_scal_l. apply sumn_ext. intros o _. ring. }
        rewrite sumn_swap. rewrite <- sumn_plus. apply sumn_ext. intros o Hob.
        destruct (Hrow o Hob) as (i & Hi & <-).
        rewrite (osum_ext N own (own i) (fun r => w r * (y r * dlp r)) (fun r => W (own i) * (y r * dlp r))).
        2: { intros r Hr E. rewrite Hw, E by exact Hr. reflexivity. }
        rewrite (osum_ext N own (own i) (fun r => w r * (beta_weight y r * V' r))
                   (fun r => W (own i) * (beta_weight y r * V' r))).
        2: { intros r Hr E. rewrite Hw, E by exact Hr. reflexivity. }
        rewrite !osum_scal_l, sumn_scal_l. rewrite score_of_observation by auto. ring.
    Qed.
  End Path.
End Closed.

(** ** The code's quantities in closed form *)
Section Link.
  Context (E : NData) (own nst : nat -> nat).
  Notation D := (n_D E).
  Notation N := (d_N D).
  Notation Q := (n_Q E).
  Hypothesis Hown : indicator_of N (d_obs D) (d_M D) own.
  Hypothesis Hnest : indicator_of N Q (n_R E) nst.
  Hypothesis Hrow : forall o, (o < d_obs D)%nat -> exists i, (i < N)%nat /\ own i = o.

  Lemma nst_lt i : (i < N)%nat -> (nst i < Q)%nat.
  Proof. intros Hi. apply (Hnest i Hi). Qed.

  Lemma own_lt i : (i < N)%nat -> (own i < d_obs D)%nat.
  Proof. intros Hi. apply (Hown i Hi). Qed.

  (** rows_to_obs.T * (rows_to_nests o f) *)
  Lemma double_indicator o q f :
    (o < d_obs D)%nat -> (q < Q)%nat ->
    mdot N (transp (d_M D)) (fun i q' => n_R E i q' * f i) o q = nsum N own nst o q f.
  Proof.
    intros Ho Hq. unfold mdot, transp, nsum. apply sumn_ext. intros i Hi.
    destruct (Hown i Hi) as [_ Hm]. destruct (Hnest i Hi) as [_ Hr].
    rewrite Hm, Hr by assumption.
    destruct (own i =? o)%nat; destruct (nst i =? q)%nat; simpl; ring.
  Qed.

  Lemma own_dot (f : mat) i q : (i < N)%nat -> mdot (d_obs D) (d_M D) f i q = f (own i) q.
  Proof. intros Hi. exact (indicator_dot N (d_obs D) (d_M D) own (fun o => f o q) i Hown Hi). Qed.

  Lemma nest_pick (f : vec) i : (i < N)%nat -> sumn Q (fun q => n_R E i q * f q) = f (nst i).
  Proof. intros Hi. exact (indicator_dot N Q (n_R E) nst f i Hnest Hi). Qed.

  Lemma otc_eq o q : (o < d_obs D)%nat -> (q < Q)%nat -> obs_to_chosen_nests E o q = YQ N own nst (d_y D) o q.
  Proof. intros. apply double_indicator; assumption. Qed.

  Lemma lcn_eq i : (i < N)%nat -> long_chosen_nest E i = YQ N own nst (d_y D) (own i) (nst i).
  Proof.
    intros Hi. unfold long_chosen_nest.
    rewrite (nest_pick (fun q => mdot (d_obs D) (d_M D) (obs_to_chosen_nests E) i q)) by exact Hi.
    rewrite own_dot by exact Hi. apply otc_eq; [apply own_lt|apply nst_lt]; exact Hi.
  Qed.

  Context (nests : vec) (beta : arr).
  Hypothesis Hpos : forall q, (q < Q)%nat -> 0 < nests q.
  Notation V := (sys_utilities D beta).

  Lemma lnc_eq i : (i < N)%nat -> long_nest_coefs E nests i = nests (nst i).
  Proof. intros Hi. exact (indicator_dot N Q (n_R E) nst nests i Hnest Hi). Qed.

  Lemma sidx_eq i : (i < N)%nat -> scaled_index E nests beta i = V i / nests (nst i).
  Proof. intros Hi. unfold scaled_index. rewrite lnc_eq by exact Hi. reflexivity. Qed.

  Lemma esi_eq i : (i < N)%nat -> exp_scaled_index E nests beta i = es nst V nests i.
  Proof.
    intros Hi. unfold exp_scaled_index. rewrite sidx_eq by exact Hi.
    apply nonzero_id. apply Rgt_not_eq, exp_pos.
  Qed.

  Lemma ies_eq o q :
    (o < d_obs D)%nat -> (q < Q)%nat -> ind_exp_sums_per_nest E nests beta o q = SS N own nst V nests o q.
  Proof.
    intros Ho Hq. unfold ind_exp_sums_per_nest. rewrite double_indicator by assumption.
    apply nsum_ext. intros i Hi _ _. apply esi_eq. exact Hi.
  Qed.

  Lemma les_eq i : (i < N)%nat -> long_exp_sums E nests beta i = SS N own nst V nests (own i) (nst i).
  Proof.
    intros Hi. unfold long_exp_sums.
    rewrite (nest_pick (fun q => mdot (d_obs D) (d_M D) (ind_exp_sums_per_nest E nests beta) i q)) by exact Hi.
    rewrite own_dot by exact Hi. apply ies_eq; [apply own_lt|apply nst_lt]; exact Hi.
  Qed.

  Lemma idn_eq i : (i < N)%nat -> ind_denom E nests beta (own i) = DD N Q own nst V nests (own i).
  Proof.
    intros Hi. unfold ind_denom.
    rewrite (sumn_ext Q _ (fun q => np_power (SS N own nst V nests (own i) q) (nests q))).
    2: { intros q Hq. rewrite ies_eq; [reflexivity|apply own_lt; exact Hi|exact Hq]. }
    fold (DD N Q own nst V nests (own i)). apply nonzero_id.
    apply Rgt_not_eq. apply (DD_pos N Q own nst nst_lt V nests Hpos i Hi).
  Qed.

  Lemma nlp_eq i : (i < N)%nat -> nested_long_probs E nests beta i = pp N Q own nst V nests i.
  Proof.
    intros Hi. unfold nested_long_probs.
    rewrite (indicator_dot N (d_obs D) (d_M D) own _ i Hown Hi), idn_eq by exact Hi.
    unfold long_numerators. rewrite esi_eq, les_eq, lnc_eq by exact Hi.
    pose proof (SS_pos N own nst V nests i Hi) as HS.
    pose proof (DD_pos N Q own nst nst_lt V nests Hpos i Hi) as HD.
    pose proof (es_pos nst V nests i) as He.
    rewrite np_power_pos by exact HS.
    pose proof (Rpower_pos (SS N own nst V nests (own i) (nst i)) (nests (nst i) - 1)) as HP.
    assert (HN : 0 < es nst V nests i * Rpower (SS N own nst V nests (own i) (nst i)) (nests (nst i) - 1))
      by (apply Rmult_lt_0_compat; assumption).
    rewrite (nonzero_id (es nst V nests i * _)) by (apply Rgt_not_eq; exact HN).
    rewrite nonzero_id by (apply Rgt_not_eq, Rdiv_lt_0_compat; assumption).
    symmetry. apply (pp_eq N Q own nst nst_lt V nests Hpos). exact Hi.
  Qed.

  Lemma pgn_eq i : (i < N)%nat -> prob_given_nest E nests beta i = gg N own nst V nests i.
  Proof.
    intros Hi. unfold prob_given_nest. rewrite esi_eq, les_eq by exact Hi.
    apply nonzero_id. pose proof (gg_pos N own nst V nests i Hi). apply Rgt_not_eq. exact H.
  Qed.

  Lemma ncp_eq i q :
    (i < N)%nat -> (q < Q)%nat ->
    nest_choice_probs E nests beta (own i) q =
    if Req_EM_T (SS N own nst V nests (own i) q) 0 then min_comp_value else PQ N Q own nst V nests (own i) q.
  Proof.
    intros Hi Hq. unfold nest_choice_probs.
    rewrite ies_eq, idn_eq by (try assumption; apply own_lt; exact Hi).
    pose proof (DD_pos N Q own nst nst_lt V nests Hpos i Hi) as HD.
    destruct (Req_EM_T (SS N own nst V nests (own i) q) 0) as [Z|Z].
    - rewrite Z, np_power_0 by auto. unfold nonzero, Rdiv. rewrite Rmult_0_l.
      destruct (Req_EM_T 0 0); [reflexivity|lra].
    - apply nonzero_id. apply Rgt_not_eq, Rdiv_lt_0_compat; [|exact HD].
      pose proof (SS_ge0 N own nst V nests (own i) q).
      rewrite np_power_pos by lra. apply Rpower_pos.
  Qed.

  Lemma bt1_eq i : (i < N)%nat -> beta_term_1 E nests beta i =
    beta_weight N Q own nst (fun _ => V) (fun _ => nests) 0 (d_y D) i.
  Proof.
    intros Hi. unfold beta_term_1, scaled_y, p_tilde_given_nest, beta_weight.
    rewrite lnc_eq, pgn_eq, nlp_eq, lcn_eq by exact Hi. reflexivity.
  Qed.

  (** 1 when no alternative of nest q is available to observation o *)
  Definition absent : mat := fun o q => if Req_EM_T (SS N own nst V nests o q) 0 then 1 else 0.

  Lemma term_1_eq o q :
    (o < d_obs D)%nat -> (q < Q)%nat ->
    (obs_to_chosen_nests E o q - nest_choice_probs E nests beta o q) * log_exp_sums E nests beta o q
    = (YQ N own nst (d_y D) o q - PQ N Q own nst V nests o q) * ln (SS N own nst V nests o q) + absent o q.
  Proof.
    intros Ho Hq. destruct (Hrow o Ho) as (i & Hi & <-).
    rewrite otc_eq, ncp_eq by assumption. unfold log_exp_sums, absent. rewrite ies_eq by assumption.
    destruct (Req_EM_T (SS N own nst V nests (own i) q) 0) as [Z|Z]; [|ring].
    rewrite (PQ_absent N Q own nst V nests Hpos) by assumption.
    unfold YQ. rewrite nsum_empty.
    2: { apply (nsum_zero_empty N own nst (own i) q (es nst V nests)); [intros; apply es_pos|exact Z]. }
    pose proof min_max_comp. lra.
  Qed.

  Lemma score_nest_eq o q :
    (o < d_obs D)%nat -> (q < Q)%nat ->
    (obs_to_chosen_nests E o q - nest_choice_probs E nests beta o q) * log_exp_sums E nests beta o q
    + mdot N (transp (d_M D)) (fun i q' => n_R E i q' * half_deriv E nests beta i) o q
    + mdot N (transp (d_M D)) (fun i q' => n_R E i q' * term_3b E nests beta i) o q
    = nest_score N Q own nst (fun _ => V) (fun _ => nests) 0 (d_y D) o q + absent o q.
  Proof.
    intros Ho Hq. rewrite term_1_eq, !double_indicator by assumption.
    rewrite (nsum_ext N own nst o q (half_deriv E nests beta)
      (fun i => (pp N Q own nst V nests i - YQ N own nst (d_y D) o q * gg N own nst V nests i) * (V i / nests q))).
    2: { intros i Hi Eo Eq. unfold half_deriv. rewrite nlp_eq, lcn_eq, pgn_eq, sidx_eq by exact Hi.
         rewrite Eo, Eq. reflexivity. }
    rewrite (nsum_ext N own nst o q (term_3b E nests beta)
      (fun i => -1 * (d_y D i - YQ N own nst (d_y D) o q * gg N own nst V nests i) * (V i / nests q) / nests q)).
    2: { intros i Hi Eo Eq. unfold term_3b. rewrite lcn_eq, pgn_eq, sidx_eq, lnc_eq by exact Hi.
         rewrite Eo, Eq. reflexivity. }
    unfold nest_score. ring.
  Qed.
End Link.

(** ** naturalize_nest_coefs *)
Lemma nat_eq x q : naturalize_nest_coefs x q = 1 / (1 + exp (- x q)).
Proof.
  unfold naturalize_nest_coefs. replace (-1 * x q) with (- x q) by ring.
  pose proof (exp_pos (- x q)) as H. apply nonzero_id. apply Rgt_not_eq, Rdiv_lt_0_compat; lra.
Qed.

Lemma nat_bounds x q : 0 < naturalize_nest_coefs x q < 1.
Proof.
  rewrite nat_eq. pose proof (exp_pos (- x q)) as H. split; [apply Rdiv_lt_0_compat; lra|].
  unfold Rdiv. rewrite Rmult_1_l. rewrite <- Rinv_1. apply Rinv_lt_contravar; lra.
Qed.

Lemma nat_derive x j q :
  is_derive (fun t => naturalize_nest_coefs (upd x j t) q) (x j)
    (if (q =? j)%nat then naturalize_nest_coefs x q * (1 - naturalize_nest_coefs x q) else 0).
Proof.
  apply is_derive_ext with (f := fun t => 1 / (1 + exp (- upd x j t q))).
  { intros t. symmetry. apply nat_eq. }
  rewrite !nat_eq. pose proof (exp_pos (- x q)) as H. unfold upd. destruct (Nat.eqb_spec q j) as [->|Ne].
  - evar_last.
    + auto_derive; [|reflexivity]. pose proof (exp_pos (- x j)). lra.
    + simpl. field. lra.
  - apply (is_derive_const (K := R_AbsRing) (V := R_NormedModule)).
Qed.
