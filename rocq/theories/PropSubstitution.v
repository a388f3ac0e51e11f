(** Property C113 (substitution patterns) and the mixed-logit part of C104. *)
From Coq Require Import String ZArith List Reals Lra Lia Arith Bool.
From Coquelicot Require Import Coquelicot.
From Verif Require Import Res Vec Arr SpecLogit ChoiceCalcs ChoiceFacts Transforms Ids Mappings
  MappingFacts LongData LogitFacts RowDeriv HessFacts ProbFacts PropMappings PropProbs PropGradient
  PropHessian PropLikelihood NestedCalcs NestedFacts PropNested PropMonotone MixedCalcs MixedFacts PropMixed.
Import ListNotations.
Open Scope R_scope.

(** ** Nested logit: the odds of two rows of an observation *)

(** What the odds of a row in nest [q] are made of: its own utility and the sum over
    the observation's rows in that nest. *)
Definition nested_strength (d : long_cols) (t : nest_spec) (V nests : vec) (o : Z) (q i : nat) : R :=
  exp (V i / nests q) * Rpower (nest_sum d t o q (fun r => exp (V r / nests q))) (nests q - 1).

Lemma nested_row_prob d t mp rn K X w ridge nests beta p :
  nested_setup d t mp rn -> positive_nests t nests ->
  let E := ndata_of d mp rn K X w ridge in
  calc_nested_probs E nests beta None RT_long = Ok (NProbs (LongProbs p)) ->
  forall o, In o (obs_ids d) ->
  exists c, 0 < c /\ forall i q, (i < length (obs_ids d))%nat -> nth i (obs_ids d) 0%Z = o ->
    (q < length t)%nat -> In (nth i (alt_ids d) 0%Z) (nest_alts t q) ->
    0 < nest_sum d t o q (fun r => exp (sys_utilities (n_D E) beta r / nests q)) /\
    p i = nested_strength d t (sys_utilities (n_D E) beta) nests o q i / c.
Proof.
  intros HS Hpos E Hp o Ho. inversion Hp; subst p; clear Hp.
  pose proof (su_own d t mp rn HS K X w ridge) as Ho'. pose proof (su_nst d t mp rn HS K X w ridge) as Hn.
  pose proof (su_Q d t mp rn HS K X w ridge) as EQ. fold E in Ho', Hn, EQ.
  assert (Hpos' : forall q, (q < n_Q E)%nat -> 0 < nests q) by (rewrite EQ; exact Hpos).
  pose proof (nst_lt E _ Hn) as Hlt.
  destruct (In_row _ _ Ho) as (i0 & Hi0 & E0).
  set (own := own_of (obs_ids d)) in *. set (nst := nst_of d t) in *. set (V := sys_utilities (n_D E) beta).
  exists (DD (d_N (n_D E)) (n_Q E) own nst V nests (own i0)). split.
  { apply (DD_pos (d_N (n_D E)) (n_Q E) own nst Hlt V nests Hpos' i0 Hi0). }
  intros i q Hi Ei Hq Hiq.
  assert (Eq : nst i = q).
  { destruct (setup_nests d t mp rn HS) as (_ & H). destruct (H i Hi) as (_ & H2).
    destruct (H2 q Hq) as (H3 & _). apply zmem_In in Hiq. rewrite Hiq in H3. symmetry in H3.
    apply Nat.eqb_eq. exact H3. }
  assert (Eo : own i = own i0) by (apply (own_of_eq _ _ _ Hi Hi0); congruence).
  destruct (su_own_nth d i Hi) as (Hj & Ej). fold own in Hj, Ej.
  assert (ESS : SS (d_N (n_D E)) own nst V nests (own i) q = nest_sum d t o q (fun r => exp (V r / nests q))).
  { unfold SS. rewrite (su_nsum d t mp rn HS K X w ridge q (own i)) by assumption. rewrite Ej, Ei.
    unfold nest_sum. apply sumn_ext. intros r Hr. destruct (row_in d t o q r) eqn:B; [|reflexivity].
    unfold row_in in B. apply andb_true_iff in B. destruct B as (_ & B). unfold es. f_equal. f_equal.
    destruct (setup_nests d t mp rn HS) as (_ & H). destruct (H r Hr) as (_ & H2).
    destruct (H2 q Hq) as (H3 & _). rewrite B in H3. symmetry in H3. apply Nat.eqb_eq in H3. fold nst in H3. rewrite H3. reflexivity. }
  pose proof (SS_pos (d_N (n_D E)) own nst V nests i Hi) as HSS. rewrite Eq in HSS. rewrite ESS in HSS. split; [exact HSS|].
  rewrite (nlp_eq E own nst Ho' Hn nests beta Hpos' i Hi). rewrite (pp_eq _ _ own nst Hlt _ nests Hpos' i Hi).
  unfold nested_strength. fold V. rewrite Eq, ESS, Eo. unfold es. rewrite Eq. reflexivity.
Qed.

(** Two rows of one nest: their odds are exp((V_i - V_k) / nest coefficient), whatever
    the other rows are. *)
Theorem C113_odds_within_a_nest d t mp rn K X w ridge nests beta p i k q :
  nested_setup d t mp rn -> positive_nests t nests ->
  let E := ndata_of d mp rn K X w ridge in let V := sys_utilities (n_D E) beta in
  calc_nested_probs E nests beta None RT_long = Ok (NProbs (LongProbs p)) ->
  (i < length (obs_ids d))%nat -> (k < length (obs_ids d))%nat -> nth i (obs_ids d) 0%Z = nth k (obs_ids d) 0%Z ->
  (q < length t)%nat -> In (nth i (alt_ids d) 0%Z) (nest_alts t q) -> In (nth k (alt_ids d) 0%Z) (nest_alts t q) ->
  p i / p k = exp ((V i - V k) / nests q).
Proof.
  intros HS Hpos E V Hp Hi Hk Eo Hq Hiq Hkq.
  destruct (nested_row_prob d t mp rn K X w ridge nests beta p HS Hpos Hp (nth k (obs_ids d) 0%Z)) as (c & Hc & H).
  { apply nth_In. exact Hk. }
  destruct (H i q Hi Eo Hq Hiq) as (S & ->). destruct (H k q Hk eq_refl Hq Hkq) as (_ & ->).
  unfold nested_strength. fold E V in S |- *.
  replace ((V i - V k) / nests q) with (V i / nests q + - (V k / nests q)) by (pose proof (Hpos q Hq); field; lra).
  rewrite exp_plus, exp_Ropp. pose proof (exp_pos (V k / nests q)).
  assert (0 < Rpower (nest_sum d t (nth k (obs_ids d) 0%Z) q (fun r => exp (V r / nests q))) (nests q - 1)) by apply exp_pos.
  field. repeat split; lra.
Qed.

(** ** Any two rows: only the rows of their two nests count *)

(** [kept_rows d t o d' t' o' q q' phi]: the rows of observation [o'] of table [d']
    that lie in nest [q'] are, by [phi], the rows of observation [o] of [d] in nest
    [q], one for one. *)
Definition same_rows_in_nest (d : long_cols) (t : nest_spec) (o : Z) (q : nat)
    (d' : long_cols) (t' : nest_spec) (o' : Z) (q' : nat) (phi : nat -> nat) : Prop :=
  (forall r, (r < length (obs_ids d'))%nat -> row_in d' t' o' q' r = true ->
     (phi r < length (obs_ids d))%nat /\ row_in d t o q (phi r) = true) /\
  (forall r s, (r < length (obs_ids d'))%nat -> (s < length (obs_ids d'))%nat ->
     row_in d' t' o' q' r = true -> row_in d' t' o' q' s = true -> phi r = phi s -> r = s) /\
  (forall i, (i < length (obs_ids d))%nat -> row_in d t o q i = true ->
     exists r, (r < length (obs_ids d'))%nat /\ row_in d' t' o' q' r = true /\ phi r = i).

Lemma same_rows_sum d t o q d' t' o' q' phi (f f' : vec) :
  same_rows_in_nest d t o q d' t' o' q' phi ->
  (forall r, (r < length (obs_ids d'))%nat -> row_in d' t' o' q' r = true -> f' r = f (phi r)) ->
  nest_sum d' t' o' q' f' = nest_sum d t o q f.
Proof.
  intros (H1 & H2 & H3) Hf. unfold nest_sum.
  set (n := length (obs_ids d)) in *. set (n' := length (obs_ids d')) in *.
  set (g := fun i => if row_in d t o q i then f i else 0).
  rewrite (sumn_ext n' _ (fun r => sumn n (fun i => if (row_in d' t' o' q' r && (phi r =? i)%nat)%bool then g i else 0))).
  2: { intros r Hr. destruct (row_in d' t' o' q' r) eqn:B; cbn [andb].
       - destruct (H1 r Hr B) as (P1 & P2). rewrite (Hf r Hr B).
         rewrite (sumn_ext n _ (fun i => if (i =? phi r)%nat then g i else 0)) by (intros i _; rewrite Nat.eqb_sym; reflexivity).
         rewrite sumn_single by exact P1. unfold g. rewrite P2. reflexivity.
       - symmetry. apply sumn_zero. }
  rewrite sumn_swap. apply sumn_ext. intros i Hi. fold (g i). destruct (row_in d t o q i) eqn:B.
  - destruct (H3 i Hi B) as (r0 & Hr0 & B0 & Ph).
    rewrite (sumn_ext n' _ (fun r => if (r =? r0)%nat then g i else 0)).
    + rewrite (sumn_single n' r0 (fun _ => g i)) by exact Hr0. reflexivity.
    + intros r Hr. destruct (Nat.eqb_spec r r0) as [->|Ne].
      * rewrite B0, Ph, Nat.eqb_refl. reflexivity.
      * destruct (row_in d' t' o' q' r) eqn:B'; [|reflexivity]. cbn [andb].
        destruct (Nat.eqb_spec (phi r) i) as [Er|]; [|reflexivity]. exfalso. apply Ne.
        apply H2; try assumption. congruence.
  - assert (Z : g i = 0) by (unfold g; rewrite B; reflexivity). rewrite Z. apply sumn_eq0.
    intros r _. destruct (_ && _)%bool; reflexivity.
Qed.

(** Two nested logits, on two tables.  Rows [i'], [k'] of the second correspond to rows
    [i], [k] of the first; so do all rows of their observation in the same two nests,
    with the same utilities and the same two nest coefficients.  Then the odds are the
    same, whatever the other nests of the observation contain. *)
Theorem C113_odds_between_nests d t mp rn K X w ridge nests beta p d' t' mp' rn' K' X' w' ridge' nests' beta' p' phi i k q s i' k' q' s' :
  nested_setup d t mp rn -> positive_nests t nests -> nested_setup d' t' mp' rn' -> positive_nests t' nests' ->
  let E := ndata_of d mp rn K X w ridge in let E' := ndata_of d' mp' rn' K' X' w' ridge' in
  let V := sys_utilities (n_D E) beta in let V' := sys_utilities (n_D E') beta' in
  calc_nested_probs E nests beta None RT_long = Ok (NProbs (LongProbs p)) ->
  calc_nested_probs E' nests' beta' None RT_long = Ok (NProbs (LongProbs p')) ->
  (i < length (obs_ids d))%nat -> (k < length (obs_ids d))%nat -> nth i (obs_ids d) 0%Z = nth k (obs_ids d) 0%Z ->
  (i' < length (obs_ids d'))%nat -> (k' < length (obs_ids d'))%nat -> nth i' (obs_ids d') 0%Z = nth k' (obs_ids d') 0%Z ->
  let o := nth i (obs_ids d) 0%Z in let o' := nth i' (obs_ids d') 0%Z in
  (q < length t)%nat -> In (nth i (alt_ids d) 0%Z) (nest_alts t q) ->
  (s < length t)%nat -> In (nth k (alt_ids d) 0%Z) (nest_alts t s) ->
  (q' < length t')%nat -> In (nth i' (alt_ids d') 0%Z) (nest_alts t' q') ->
  (s' < length t')%nat -> In (nth k' (alt_ids d') 0%Z) (nest_alts t' s') ->
  nests' q' = nests q -> nests' s' = nests s -> phi i' = i -> phi k' = k ->
  same_rows_in_nest d t o q d' t' o' q' phi -> same_rows_in_nest d t o s d' t' o' s' phi ->
  (forall r, (r < length (obs_ids d'))%nat -> row_in d' t' o' q' r = true \/ row_in d' t' o' s' r = true -> V' r = V (phi r)) ->
  p' i' / p' k' = p i / p k.
Proof.
  intros HS Hpos HS' Hpos' E E' V V' Hp Hp' Hi Hk Eo Hi' Hk' Eo' o o' Hq Hiq Hs Hks Hq' Hiq' Hs' Hks' Lq Ls Pi Pk Sq Ss HV.
  destruct (nested_row_prob d t mp rn K X w ridge nests beta p HS Hpos Hp o) as (c & Hc & H); [apply nth_In; exact Hi|].
  destruct (nested_row_prob d' t' mp' rn' K' X' w' ridge' nests' beta' p' HS' Hpos' Hp' o') as (c' & Hc' & H'); [apply nth_In; exact Hi'|].
  destruct (H i q Hi eq_refl Hq Hiq) as (Si & ->). destruct (H k s Hk (eq_sym Eo) Hs Hks) as (Sk & ->).
  destruct (H' i' q' Hi' eq_refl Hq' Hiq') as (Si' & ->). destruct (H' k' s' Hk' (eq_sym Eo') Hs' Hks') as (Sk' & ->).
  fold E V in Si, Sk |- *. fold E' V' in Si', Sk' |- *.
  assert (Ri : row_in d' t' o' q' i' = true).
  { unfold row_in, o'. rewrite Z.eqb_refl. apply zmem_In in Hiq'. rewrite Hiq'. reflexivity. }
  assert (Rk : row_in d' t' o' s' k' = true).
  { unfold row_in, o'. rewrite Eo', Z.eqb_refl. apply zmem_In in Hks'. rewrite Hks'. reflexivity. }
  assert (A : nested_strength d' t' V' nests' o' q' i' = nested_strength d t V nests o q i).
  { unfold nested_strength. rewrite Lq, (HV i' Hi' (or_introl Ri)), Pi. f_equal. f_equal.
    apply (same_rows_sum d t o q d' t' o' q' phi _ _ Sq). intros r Hr B. rewrite (HV r Hr (or_introl B)). reflexivity. }
  assert (B : nested_strength d' t' V' nests' o' s' k' = nested_strength d t V nests o s k).
  { unfold nested_strength. rewrite Ls, (HV k' Hk' (or_intror Rk)), Pk. f_equal. f_equal.
    apply (same_rows_sum d t o s d' t' o' s' phi _ _ Ss). intros r Hr Br. rewrite (HV r Hr (or_intror Br)). reflexivity. }
  rewrite A, B.
  assert (0 < nested_strength d t V nests o s k) by (apply Rmult_lt_0_compat; apply exp_pos).
  field. repeat split; lra.
Qed.

(** In one table: changing rows outside the two nests changes no odds between them, so
    all rows of the untouched nests gain or lose in the same proportion. *)
Theorem C113_proportional_substitution d t mp rn K X X' w ridge nests beta p p' i k q s :
  nested_setup d t mp rn -> positive_nests t nests ->
  let E := ndata_of d mp rn K X w ridge in let E' := ndata_of d mp rn K X' w ridge in
  calc_nested_probs E nests beta None RT_long = Ok (NProbs (LongProbs p)) ->
  calc_nested_probs E' nests beta None RT_long = Ok (NProbs (LongProbs p')) ->
  (i < length (obs_ids d))%nat -> (k < length (obs_ids d))%nat -> nth i (obs_ids d) 0%Z = nth k (obs_ids d) 0%Z ->
  (q < length t)%nat -> In (nth i (alt_ids d) 0%Z) (nest_alts t q) ->
  (s < length t)%nat -> In (nth k (alt_ids d) 0%Z) (nest_alts t s) ->
  (forall r c, (r < length (obs_ids d))%nat -> (c < K)%nat ->
     row_in d t (nth i (obs_ids d) 0%Z) q r = true \/ row_in d t (nth i (obs_ids d) 0%Z) s r = true -> X' r c = X r c) ->
  p' i / p i = p' k / p k.
Proof.
  intros HS Hpos E E' Hp Hp' Hi Hk Eo Hq Hiq Hs Hks HX.
  assert (G : p' i / p' k = p i / p k).
  { apply (C113_odds_between_nests d t mp rn K X w ridge nests beta p d t mp rn K X' w ridge nests beta p' (fun r => r) i k q s i k q s);
      try assumption; try reflexivity.
    1,2: split; [intros r Hr B; split; assumption|split; [intros; assumption|intros r Hr B; exists r; auto]].
    intros r Hr B. unfold sys_utilities, mvec. apply sumn_ext. intros c Hc. f_equal. apply HX; assumption. }
  destruct (C39_nested_probabilities d t mp rn K X w ridge nests beta p HS Hpos Hp) as (P & _).
  destruct (C39_nested_probabilities d t mp rn K X' w ridge nests beta p' HS Hpos Hp') as (P' & _).
  pose proof (P i Hi). pose proof (P k Hk). pose proof (P' i Hi). pose proof (P' k Hk).
  assert (p' i * p k = p i * p' k).
  { apply (Rmult_eq_reg_r (/ (p' k * p k))); [|apply Rinv_neq_0_compat; nra].
    transitivity (p' i / p' k); [field; lra|]. rewrite G. field; lra. }
  apply (Rmult_eq_reg_r (p i * p k)); [|nra]. transitivity (p' i * p k); [field; lra|]. rewrite H3. field. lra.
Qed.

(** ** Mixed logit: improving a row *)
Lemma sumn_lt n f g s : (forall i, (i < n)%nat -> f i <= g i) -> (s < n)%nat -> f s < g s -> sumn n f < sumn n g.
Proof.
  intros H Hs Hlt. assert (0 < sumn n (fun i => g i - f i)); [|rewrite sumn_minus in H0; lra].
  apply (sumn_pos n _ s); [intros i Hi; pose proof (H i Hi); lra|exact Hs|lra].
Qed.

Theorem C104_mixed d K X X' pos nR draws w ridge E E' theta i p p' :
  mixed_data_of d K X pos nR draws w ridge = Ok E -> mixed_data_of d K X' pos nR draws w ridge = Ok E' ->
  mixing_ids_per_row d -> (0 < nR)%nat -> (i < length (obs_ids d))%nat ->
  (forall r c, (r < length (obs_ids d))%nat -> (c < K)%nat -> r <> i -> X' r c = X r c) ->
  (forall s, (s < nR)%nat -> mixed_utility d K X pos draws theta i s <= mixed_utility d K X' pos draws theta i s) ->
  mixed_predict E theta None true = Ok (LongProbs p) -> mixed_predict E' theta None true = Ok (LongProbs p') ->
  p i <= p' i /\
  (forall r, (r < length (obs_ids d))%nat -> r <> i ->
    (nth r (obs_ids d) 0%Z = nth i (obs_ids d) 0%Z -> p' r <= p r) /\
    (nth r (obs_ids d) 0%Z <> nth i (obs_ids d) 0%Z -> p' r = p r)) /\
  (forall s, (s < nR)%nat -> -700 <= mixed_utility d K X pos draws theta i s < mixed_utility d K X' pos draws theta i s ->
     mixed_utility d K X' pos draws theta i s <= 700 ->
   forall r, (r < length (obs_ids d))%nat -> r <> i -> nth r (obs_ids d) 0%Z = nth i (obs_ids d) 0%Z -> p i < p' i /\ p' r < p r).
Proof.
  intros H H' HM HR Hi Hoth Hbet Hp Hp'.
  cbn [mixed_predict] in Hp, Hp'. destruct (x_draws E =? 1)%nat; [discriminate|]. inversion Hp; subst p; clear Hp.
  destruct (x_draws E' =? 1)%nat; [discriminate|]. inversion Hp'; subst p'; clear Hp'.
  pose proof (mixed_own _ _ _ _ _ _ _ _ _ H) as HO. pose proof (mixed_N _ _ _ _ _ _ _ _ _ H) as HN.
  pose proof (mixed_own _ _ _ _ _ _ _ _ _ H') as HO'. pose proof (mixed_N _ _ _ _ _ _ _ _ _ H') as HN'.
  destruct (mixed_setup _ _ _ _ _ _ _ _ _ H) as (_ & _ & _ & -> & _).
  destruct (mixed_setup _ _ _ _ _ _ _ _ _ H') as (_ & _ & _ & -> & _ & _ & _ & _ & _ & Hpos & _).
  set (N := length (obs_ids d)) in *. set (own := own_of (obs_ids d)) in *.
  set (u := mixed_utility d K X pos draws theta) in *. set (u' := mixed_utility d K X' pos draws theta) in *.
  set (e := fun s k => exp (clip_exponent (u k s))). set (e' := fun s k => exp (clip_exponent (u' k s))).
  assert (P : forall k s, (k < N)%nat -> prob_array E theta k s = e s k / osum N own (own k) (e s)).
  { intros k s Hk. assert (Hk' : (k < d_N (x_D E))%nat) by (rewrite HN; exact Hk).
    assert (V : forall m, (m < N)%nat -> vv E theta m s = u m s)
      by (intros m Hm; exact (C45_utilities_use_own_draws d K X pos nR draws w ridge E theta m s H HM Hm)).
    rewrite (pa_eq E own HO theta k s Hk'), (V k Hk), HN. f_equal. apply osum_ext. intros m Hm _. rewrite (V m Hm). reflexivity. }
  assert (P' : forall k s, (k < N)%nat -> prob_array E' theta k s = e' s k / osum N own (own k) (e' s)).
  { intros k s Hk. assert (Hk' : (k < d_N (x_D E'))%nat) by (rewrite HN'; exact Hk).
    assert (V : forall m, (m < N)%nat -> vv E' theta m s = u' m s)
      by (intros m Hm; exact (C45_utilities_use_own_draws d K X' pos nR draws w ridge E' theta m s H' HM Hm)).
    rewrite (pa_eq E' own HO' theta k s Hk'), (V k Hk), HN'. f_equal. apply osum_ext. intros m Hm _. rewrite (V m Hm). reflexivity. }
  assert (Epos : forall s k, (k < N)%nat -> 0 < e s k) by (intros; apply exp_pos).
  assert (Epos' : forall s k, (k < N)%nat -> 0 < e' s k) by (intros; apply exp_pos).
  assert (Eoth : forall s k, (k < N)%nat -> k <> i -> e' s k = e s k).
  { intros s k Hk Hne. unfold e, e', u, u', mixed_utility. f_equal. f_equal. f_equal.
    - apply sumn_ext. intros c Hc. rewrite Hoth by assumption. reflexivity.
    - apply sumn_ext. intros c Hc. rewrite Hoth; try assumption; [reflexivity|]. apply Hpos. exact Hc. }
  assert (Ele : forall s, (s < nR)%nat -> e s i <= e' s i).
  { intros s Hs. unfold e, e'. pose proof (clip_le _ _ (Hbet s Hs)) as C.
    destruct (Rle_lt_or_eq_dec _ _ C) as [C'|C']; [left; apply exp_increasing; exact C'|right; rewrite C'; reflexivity]. }
  assert (HRp : 0 < INR nR) by (apply lt_0_INR; exact HR).
  assert (A : forall s, (s < nR)%nat -> prob_array E theta i s <= prob_array E' theta i s).
  { intros s Hs. rewrite P, P' by exact Hi. exact (share_own N own _ _ i Hi (Epos s) (Epos' s) (Eoth s) (Ele s Hs)). }
  assert (B : forall r, (r < N)%nat -> r <> i -> nth r (obs_ids d) 0%Z = nth i (obs_ids d) 0%Z ->
    forall s, (s < nR)%nat -> prob_array E' theta r s <= prob_array E theta r s).
  { intros r Hr Hne Ho s Hs. rewrite P, P' by exact Hr.
    exact (share_rival N own _ _ i Hi (Epos s) (Eoth s) r (Ele s Hs) Hr Hne (proj2 (own_of_eq _ _ _ Hr Hi) Ho)). }
  unfold row_mean, Rdiv. split; [|split].
  - apply Rmult_le_compat_r; [left; apply Rinv_0_lt_compat; exact HRp|]. apply sumn_le. exact A.
  - intros r Hr Hne. split; intros Ho.
    + apply Rmult_le_compat_r; [left; apply Rinv_0_lt_compat; exact HRp|]. apply sumn_le. exact (B r Hr Hne Ho).
    + f_equal. apply sumn_ext. intros s _. rewrite P, P' by exact Hr.
      apply (share_other_obs N own _ _ i Hi (Eoth s) r Hr). intros Eo. apply Ho. apply (own_of_eq _ _ _ Hr Hi). exact Eo.
  - intros s Hs Hst Hst' r Hr Hne Ho.
    assert (Lt : e s i < e' s i).
    { unfold e, e'. apply exp_increasing. rewrite !clip_id by (unfold unclipped, min_exponent_val, max_exponent_val; lra). lra. }
    pose proof (proj2 (own_of_eq _ _ _ Hr Hi) Ho) as Ho'. fold own in Ho'. split.
    + apply Rmult_lt_compat_r; [apply Rinv_0_lt_compat; exact HRp|]. apply (sumn_lt nR _ _ s A Hs).
      rewrite P, P' by exact Hi. exact (share_own_strict N own _ _ i Hi (Epos s) (Epos' s) (Eoth s) Lt r Hr Hne Ho').
    + apply Rmult_lt_compat_r; [apply Rinv_0_lt_compat; exact HRp|]. apply (sumn_lt nR _ _ s (B r Hr Hne Ho) Hs).
      rewrite P, P' by exact Hr. exact (share_rival_strict N own _ _ i Hi (Epos s) (Eoth s) Lt r Hr Hne Ho').
Qed.

(** ** Mixed logit: odds and mean coefficients *)

Lemma mixed_predict_formula d K X pos nR draws w ridge E theta p :
  mixed_data_of d K X pos nR draws w ridge = Ok E -> mixing_ids_per_row d ->
  mixed_predict E theta None true = Ok (LongProbs p) ->
  (forall k s, (k < length (obs_ids d))%nat -> (s < nR)%nat -> -700 <= mixed_utility d K X pos draws theta k s <= 700) ->
  forall i, (i < length (obs_ids d))%nat ->
  p i = sumn nR (fun s => logit_prob d (fun k => mixed_utility d K X pos draws theta k s) i) / INR nR.
Proof.
  intros H HM Hp Hc i Hi. cbn [mixed_predict] in Hp. destruct (x_draws E =? 1)%nat; [discriminate|]. inversion Hp; subst p; clear Hp.
  pose proof (mixed_own _ _ _ _ _ _ _ _ _ H) as HO. pose proof (mixed_N _ _ _ _ _ _ _ _ _ H) as HN.
  destruct (mixed_setup _ _ _ _ _ _ _ _ _ H) as (_ & _ & _ & -> & _).
  unfold row_mean. f_equal. apply sumn_ext. intros s Hs.
  assert (V : forall m, (m < length (obs_ids d))%nat -> clip_exponent (vv E theta m s) = mixed_utility d K X pos draws theta m s).
  { intros m Hm. unfold vv. rewrite (C45_utilities_use_own_draws d K X pos nR draws w ridge E theta m s H HM Hm).
    apply clip_id. exact (Hc m s Hm Hs). }
  rewrite (pa_eq E (own_of (obs_ids d)) HO theta i s) by (rewrite HN; exact Hi).
  unfold logit_prob. rewrite (V i Hi), HN, osum_id_sum by exact Hi. f_equal.
  unfold id_sum. apply sumn_ext. intros m Hm. rewrite (V m Hm). reflexivity.
Qed.

(** One person, one observation with three alternatives; one variable, whose
    coefficient is mixed; two draws, +1 and -1. *)
Definition bus_cols : long_cols := mkLong [10;10;10]%Z [1;2;3]%Z None (Some [7;7;7]%Z).
Definition bus_draws : list mat := [fun _ r => if (r =? 0)%nat then 1 else -1].
Definition bus_X (a b c : R) : mat := fun i _ => if (i =? 0)%nat then a else if (i =? 1)%nat then b else c.
Definition bus_theta (b s : R) : arr := mkArr 2 (fun k => if (k =? 0)%nat then b else s).

Lemma bus_utility a b c mu s i r :
  mixed_utility bus_cols 1 (bus_X a b c) [0%nat] bus_draws (bus_theta mu s) i r =
  bus_X a b c i 0%nat * (mu + s * (if (r =? 0)%nat then 1 else -1)).
Proof.
  unfold mixed_utility, draw_of. cbn [length sumn bus_theta bus_draws aget nth Nat.add Nat.eqb].
  destruct (r =? 0)%nat; ring.
Qed.

Lemma ln2_bounds : / 2 < ln 2 < 1.
Proof.
  split; [exact ln_lt_2|]. assert (0 < ln 2) by (pose proof ln_lt_2; lra).
  pose proof (exp_ineq1 (ln 2) ltac:(lra)) as H1. rewrite exp_ln in H1; lra.
Qed.

Lemma bus_probs a b c mu s p E :
  mixed_data_of bus_cols 1 (bus_X a b c) [0%nat] 2 bus_draws None None = Ok E ->
  mixed_predict E (bus_theta mu s) None true = Ok (LongProbs p) ->
  (forall x, x = a \/ x = b \/ x = c -> -700 <= x * (mu + s) <= 700 /\ -700 <= x * (mu - s) <= 700) ->
  forall i, (i < 3)%nat ->
  p i = (exp (bus_X a b c i 0%nat * (mu + s)) / (exp (a * (mu + s)) + exp (b * (mu + s)) + exp (c * (mu + s))) +
         exp (bus_X a b c i 0%nat * (mu - s)) / (exp (a * (mu - s)) + exp (b * (mu - s)) + exp (c * (mu - s)))) / 2.
Proof.
  intros H Hp Hx i Hi.
  rewrite (mixed_predict_formula bus_cols 1 (bus_X a b c) [0%nat] 2 bus_draws None None E (bus_theta mu s) p H eq_refl Hp); [| |exact Hi].
  - unfold logit_prob, id_sum. assert (Eo : nth i (obs_ids bus_cols) 0%Z = 10%Z) by (do 3 (destruct i as [|i]; [reflexivity|]); lia).
    rewrite Eo. change (length (obs_ids bus_cols)) with 3%nat. cbn [sumn]. rewrite !bus_utility.
    cbn [bus_cols obs_ids nth Z.eqb Pos.eqb]. cbn [bus_X Nat.eqb].
    replace (mu + s * 1) with (mu + s) by ring. replace (mu + s * -1) with (mu - s) by ring.
    replace (INR 2) with 2 by (cbn; ring). rewrite !Rplus_0_l. reflexivity.
  - intros k r Hk Hr. rewrite bus_utility. unfold bus_X.
    assert (G : forall x, x = a \/ x = b \/ x = c -> -700 <= x * (mu + s * (if (r =? 0)%nat then 1 else -1)) <= 700).
    { intros x D. destruct (Hx x D) as (A & B). destruct (r =? 0)%nat.
      - replace (mu + s * 1) with (mu + s) by ring. exact A.
      - replace (mu + s * -1) with (mu - s) by ring. exact B. }
    destruct (k =? 0)%nat; [apply G; auto|]. destruct (k =? 1)%nat; apply G; auto.
Qed.

Lemma bus_runs a b c mu s :
  (forall x, x = a \/ x = b \/ x = c -> -700 <= x * (mu + s) <= 700 /\ -700 <= x * (mu - s) <= 700) ->
  exists E p, mixed_data_of bus_cols 1 (bus_X a b c) [0%nat] 2 bus_draws None None = Ok E /\
  mixed_predict E (bus_theta mu s) None true = Ok (LongProbs p) /\
  forall i, (i < 3)%nat ->
  p i = (exp (bus_X a b c i 0%nat * (mu + s)) / (exp (a * (mu + s)) + exp (b * (mu + s)) + exp (c * (mu + s))) +
         exp (bus_X a b c i 0%nat * (mu - s)) / (exp (a * (mu - s)) + exp (b * (mu - s)) + exp (c * (mu - s)))) / 2.
Proof.
  intros Hx. eexists. eexists. split; [reflexivity|]. split; [reflexivity|].
  eapply bus_probs; [reflexivity|reflexivity|exact Hx].
Qed.

Lemma exp_ln2_nat n : exp (ln 2 * INR n) = 2 ^ n.
Proof. rewrite Rmult_comm. change (Rpower 2 (INR n) = 2 ^ n). apply Rpower_pow. lra. Qed.
Lemma exp_ln2_neg n : exp (ln 2 * - INR n) = / 2 ^ n.
Proof. rewrite Ropp_mult_distr_r_reverse, exp_Ropp, exp_ln2_nat. reflexivity. Qed.

(** The odds of two alternatives in a mixed logit do depend on the others: making the
    third alternative like the second changes the odds of the first two. *)
Theorem C113_mixed_odds_depend_on_others :
  exists d K X X' pos nR draws theta E E' p p',
    mixed_data_of d K X pos nR draws None None = Ok E /\ mixed_data_of d K X' pos nR draws None None = Ok E' /\
    mixing_ids_per_row d /\ length (obs_ids d) = 3%nat /\
    (forall i i', (i < 3)%nat -> (i' < 3)%nat -> nth i (obs_ids d) 0%Z = nth i' (obs_ids d) 0%Z) /\
    (forall c, X' 0%nat c = X 0%nat c /\ X' 1%nat c = X 1%nat c) /\
    mixed_predict E theta None true = Ok (LongProbs p) /\ mixed_predict E' theta None true = Ok (LongProbs p') /\
    p 0%nat / p 1%nat <> p' 0%nat / p' 1%nat.
Proof.
  exists bus_cols, 1%nat, (bus_X 0 (ln 2) (ln 2)), (bus_X 0 (ln 2) 0), [0%nat], 2%nat, bus_draws, (bus_theta 0 1).
  pose proof ln2_bounds as L.
  destruct (bus_runs 0 (ln 2) (ln 2) 0 1) as (E & p & HE & Hp & P); [intros x [->|[->| ->]]; split; lra|].
  destruct (bus_runs 0 (ln 2) 0 0 1) as (E' & p' & HE' & Hp' & P'); [intros x [->|[->| ->]]; split; lra|].
  exists E, E', p, p'. split; [exact HE|]. split; [exact HE'|]. split; [reflexivity|]. split; [reflexivity|].
  split; [intros i i' Hi Hi'; do 3 (destruct i as [|i]; [do 3 (destruct i' as [|i']; [reflexivity|]); lia|]); lia|].
  split; [intros c; split; reflexivity|]. split; [exact Hp|]. split; [exact Hp'|].
  assert (H1 : exp (ln 2 * (0 + 1)) = 2) by (transitivity (2 ^ 1); [rewrite <- exp_ln2_nat; f_equal; cbn; ring|ring]).
  assert (H2 : exp (ln 2 * (0 - 1)) = / 2) by (transitivity (/ 2 ^ 1); [rewrite <- exp_ln2_neg; f_equal; cbn; ring|f_equal; ring]).
  assert (H3 : forall x, exp (0 * x) = 1) by (intros x; rewrite Rmult_0_l; exact exp_0).
  rewrite !P, !P' by lia.
  cbn [bus_X Nat.eqb]. rewrite !H3, !H1, !H2. intros A. field_simplify in A. lra.
Qed.

(** A positive mean coefficient is not enough for C104 when the coefficient is mixed:
    raising the variable (draws of mean zero) can lower the probability. *)
Theorem C104_refuted_mixed_variable :
  exists d K X X' pos nR draws theta E E' p p' i,
    mixed_data_of d K X pos nR draws None None = Ok E /\ mixed_data_of d K X' pos nR draws None None = Ok E' /\
    mixing_ids_per_row d /\ (i < length (obs_ids d))%nat /\
    (forall r c, r <> i -> X' r c = X r c) /\
    K = 1%nat /\ X i 0%nat < X' i 0%nat /\ 0 < aget theta 0%nat /\
    (forall q u, (q < length draws)%nat -> sumn nR (nth q draws (fun _ _ => 0) u) = 0) /\
    mixed_predict E theta None true = Ok (LongProbs p) /\ mixed_predict E' theta None true = Ok (LongProbs p') /\
    p' i < p i.
Proof.
  exists bus_cols, 1%nat, (bus_X (2 * ln 2) 0 0), (bus_X (4 * ln 2) 0 0), [0%nat], 2%nat, bus_draws, (bus_theta 1 3).
  pose proof ln2_bounds as L.
  destruct (bus_runs (2 * ln 2) 0 0 1 3) as (E & p & HE & Hp & P); [intros x [->|[->| ->]]; split; lra|].
  destruct (bus_runs (4 * ln 2) 0 0 1 3) as (E' & p' & HE' & Hp' & P'); [intros x [->|[->| ->]]; split; lra|].
  exists E, E', p, p', 0%nat. split; [exact HE|]. split; [exact HE'|]. split; [reflexivity|]. split; [cbn; lia|].
  split; [intros r c Hr; unfold bus_X; destruct (Nat.eqb_spec r 0); [contradiction|reflexivity]|].
  split; [reflexivity|]. split; [cbn; lra|]. split; [cbn; lra|].
  split; [intros q u Hq; cbn in Hq; assert (q = 0)%nat by lia; subst; cbn; ring|].
  split; [exact Hp|]. split; [exact Hp'|].
  assert (H1 : exp (2 * ln 2 * (1 + 3)) = 256) by (replace 256 with (2 ^ 8) by ring; rewrite <- exp_ln2_nat; f_equal; cbn; ring).
  assert (H2 : exp (2 * ln 2 * (1 - 3)) = / 16) by (replace 16 with (2 ^ 4) by ring; rewrite <- exp_ln2_neg; f_equal; cbn; ring).
  assert (H3 : exp (4 * ln 2 * (1 + 3)) = 65536) by (replace 65536 with (2 ^ 16) by ring; rewrite <- exp_ln2_nat; f_equal; cbn; ring).
  assert (H4 : exp (4 * ln 2 * (1 - 3)) = / 256) by (replace 256 with (2 ^ 8) by ring; rewrite <- exp_ln2_neg; f_equal; cbn; ring).
  assert (H5 : forall x, exp (0 * x) = 1) by (intros x; rewrite Rmult_0_l; exact exp_0).
  rewrite P, P' by lia.
  cbn [bus_X Nat.eqb]. rewrite !H5, H1, H2, H3, H4. lra.
Qed.

(** ** Concrete cases *)

(** Alternatives 1 and 2 form a nest, 3 and 4 one nest each; the second table lacks
    alternative 4. *)
Definition sub_nests : nest_spec := [("AB"%string, [1;2]%Z); ("C"%string, [3]%Z); ("D"%string, [4]%Z)].
Definition sub_cols : long_cols := mkLong [10;10;10;10]%Z [1;2;3;4]%Z None None.
Definition sub_cols' : long_cols := mkLong [10;10;10]%Z [1;2;3]%Z None None.

Example ex_sub : exists mp rn mp' rn',
  nested_setup sub_cols sub_nests mp rn /\ nested_setup sub_cols' sub_nests mp' rn' /\
  positive_nests sub_nests (fun q => / INR (q + 1)) /\
  In (nth 0 (alt_ids sub_cols) 0%Z) (nest_alts sub_nests 0) /\ In (nth 1 (alt_ids sub_cols) 0%Z) (nest_alts sub_nests 0) /\
  In (nth 2 (alt_ids sub_cols) 0%Z) (nest_alts sub_nests 1) /\
  same_rows_in_nest sub_cols sub_nests 10 0 sub_cols' sub_nests 10 0 (fun r => r) /\
  same_rows_in_nest sub_cols sub_nests 10 1 sub_cols' sub_nests 10 1 (fun r => r) /\
  (exists p, calc_nested_probs (ndata_of sub_cols mp rn 1 (fun i _ => INR i) None None) (fun q => / INR (q + 1)) (mkArr 1 (fun _ => 1)) None RT_long
    = Ok (NProbs (LongProbs p))).
Proof.
  eexists. eexists. eexists. eexists. split.
  { apply nested_setup_own; [reflexivity| |reflexivity|reflexivity|reflexivity]. repeat constructor; cbn; intuition congruence. }
  split.
  { split; [reflexivity|]. split; [repeat constructor; cbn; intuition congruence|]. split; [|split; reflexivity].
    exists (alt_ids sub_cols). split; [intros x Hx; cbn in *; tauto|reflexivity]. }
  split; [intros q _; apply Rinv_0_lt_compat, lt_0_INR; lia|].
  split; [cbn; auto|]. split; [cbn; auto|]. split; [cbn; auto|].
  assert (G : forall q, (q < 2)%nat -> same_rows_in_nest sub_cols sub_nests 10 q sub_cols' sub_nests 10 q (fun r => r)).
  { intros q Hq. split; [|split; [auto|]].
    - intros r Hr B. cbn in Hr. split; [cbn; lia|]. do 3 (destruct r as [|r]; [exact B|]). lia.
    - intros r Hr B. cbn in Hr. exists r. split; [|split; [|reflexivity]].
      + do 3 (destruct r as [|r]; [cbn; lia|]). destruct r as [|r]; [|lia]. do 2 (destruct q as [|q]; [discriminate B|]). lia.
      + do 3 (destruct r as [|r]; [exact B|]). destruct r as [|r]; [|lia]. do 2 (destruct q as [|q]; [discriminate B|]). lia. }
  split; [apply G; lia|]. split; [apply G; lia|].
  eexists. reflexivity.
Qed.

Example ex_mixed_better : exists E E' p p',
  mixed_data_of bus_cols 1 (bus_X 0 1 2) [0%nat] 2 bus_draws None None = Ok E /\
  mixed_data_of bus_cols 1 (bus_X 0 3 2) [0%nat] 2 bus_draws None None = Ok E' /\
  mixing_ids_per_row bus_cols /\
  (forall r c, r <> 1%nat -> bus_X 0 3 2 r c = bus_X 0 1 2 r c) /\
  (forall s, -700 <= mixed_utility bus_cols 1 (bus_X 0 1 2) [0%nat] bus_draws (bus_theta 2 1) 1 s <
             mixed_utility bus_cols 1 (bus_X 0 3 2) [0%nat] bus_draws (bus_theta 2 1) 1 s) /\
  mixed_predict E (bus_theta 2 1) None true = Ok (LongProbs p) /\
  mixed_predict E' (bus_theta 2 1) None true = Ok (LongProbs p').
Proof.
  eexists. eexists. eexists. eexists. split; [reflexivity|]. split; [reflexivity|]. split; [reflexivity|].
  split; [intros r c Hr; unfold bus_X; destruct (r =? 0)%nat; [reflexivity|]; destruct (Nat.eqb_spec r 1); [contradiction|reflexivity]|].
  split; [|split; reflexivity].
  intros s. rewrite !bus_utility. cbn [bus_X Nat.eqb]. destruct (s =? 0)%nat; lra.
Qed.

Print Assumptions C113_odds_within_a_nest.
Print Assumptions C113_odds_between_nests.
Print Assumptions C113_proportional_substitution.
Print Assumptions C113_mixed_odds_depend_on_others.
Print Assumptions C104_mixed.
Print Assumptions C104_refuted_mixed_variable.
