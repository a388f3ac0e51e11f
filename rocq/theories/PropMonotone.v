(** Property C104: improving a row raises its probability at the expense of the others. *)
From Coq Require Import String ZArith List Reals Lra Lia Arith.
From Coquelicot Require Import Coquelicot.
From Verif Require Import Res Vec Arr SpecLogit ChoiceCalcs ChoiceFacts Transforms Ids Mappings
  MappingFacts LongData LogitFacts RowDeriv HessFacts ProbFacts PropMappings PropProbs PropGradient
  PropHessian PropLikelihood NestedCalcs NestedFacts PropNested.
Import ListNotations.
Open Scope R_scope.

(** ** The transforms are increasing *)

Lemma cloglog_increasing x y : x < y ->
  (if Rle_dec 3.7 x then exp x else ln (exp (exp x) - 1)) < (if Rle_dec 3.7 y then exp y else ln (exp (exp y) - 1)).
Proof.
  intros H. pose proof (exp_increasing x y H) as E. pose proof (exp_pos x) as Px. pose proof (exp_pos y) as Py.
  assert (G : forall z, 0 < z -> 0 < exp z - 1) by (intros z Hz; pose proof (exp_ineq1 z ltac:(lra)); lra).
  assert (L : ln (exp (exp x) - 1) < ln (exp (exp y) - 1)).
  { apply ln_increasing; [apply G; exact Px|]. pose proof (exp_increasing _ _ E). lra. }
  assert (S : ln (exp (exp x) - 1) < exp x).
  { rewrite <- (ln_exp (exp x)) at 2. apply ln_increasing; [apply G; exact Px|lra]. }
  destruct (Rle_dec 3.7 x), (Rle_dec 3.7 y); lra.
Qed.

Lemma scobit_increasing s x y : 0 < s -> x < y ->
  - ln (Rpower (1 + exp (-1 * x)) s - 1) < - ln (Rpower (1 + exp (-1 * y)) s - 1).
Proof.
  intros Hs H. pose proof (exp_pos (-1 * y)) as Py.
  assert (E : exp (-1 * y) < exp (-1 * x)) by (apply exp_increasing; lra).
  assert (P : 1 < Rpower (1 + exp (-1 * y)) s).
  { unfold Rpower. rewrite <- exp_0 at 1. apply exp_increasing. apply Rmult_lt_0_compat; [exact Hs|].
    rewrite <- ln_1. apply ln_increasing; lra. }
  apply Ropp_lt_contravar. apply ln_increasing; [lra|].
  assert (Rpower (1 + exp (-1 * y)) s < Rpower (1 + exp (-1 * x)) s); [|lra].
  unfold Rpower. apply exp_increasing. apply Rmult_lt_compat_l; [exact Hs|]. apply ln_increasing; lra.
Qed.

Lemma uneven_increasing s x y : 0 < s -> x < y ->
  x + ln (1 + exp (-1 * x)) - ln (1 + exp (-1 * s * x)) < y + ln (1 + exp (-1 * y)) - ln (1 + exp (-1 * s * y)).
Proof.
  intros Hs H.
  assert (F : forall z, z + ln (1 + exp (-1 * z)) = ln (1 + exp z)).
  { intros z. rewrite <- (ln_exp z) at 1. pose proof (exp_pos z). pose proof (exp_pos (-1 * z)).
    rewrite <- ln_mult by lra. f_equal. rewrite Rmult_plus_distr_l, <- exp_plus, Rmult_1_r.
    replace (z + -1 * z) with 0 by ring. rewrite exp_0. ring. }
  rewrite !F.
  assert (A : ln (1 + exp x) < ln (1 + exp y)).
  { pose proof (exp_pos x). pose proof (exp_increasing x y H). apply ln_increasing; lra. }
  assert (B : ln (1 + exp (-1 * s * y)) < ln (1 + exp (-1 * s * x))).
  { pose proof (exp_pos (-1 * s * y)). assert (exp (-1 * s * y) < exp (-1 * s * x)); [apply exp_increasing|apply ln_increasing; lra].
    pose proof (Rmult_lt_compat_l s x y Hs H). lra. }
  lra.
Qed.

Lemma asym_increasing (c c1 x y : R) : c < 0 -> c1 < 0 -> x < y ->
  - (x * (if Rle_dec 0 x then c else c1)) < - (y * (if Rle_dec 0 y then c else c1)).
Proof.
  intros Hc Hc1 H.
  destruct (Rle_dec 0 x) as [Hx|Hx], (Rle_dec 0 y) as [Hy|Hy]; try lra.
  - nra.
  - assert (0 < x * c1) by nra. assert (y * c <= 0) by nra. lra.
  - nra.
Qed.

Lemma transform_increasing k J N A alt v v' th i :
  kind_ok k J -> indicator_of N J A alt -> (i < N)%nat -> v i < v' i ->
  m_transform (model_of k) J A v (sh k J th) (ic k J th) i < m_transform (model_of k) J A v' (sh k J th) (ic k J th) i.
Proof.
  intros Hk HA Hi Hv. destruct (HA i Hi) as (Hj & _).
  destruct k as [|r|r|r|s r]; cbn [model_of MNL_model Clog_model Scobit_model Uneven_model Asym_model m_transform].
  - exact Hv.
  - unfold cloglog_transform. apply Rplus_lt_compat_r. apply cloglog_increasing. exact Hv.
  - unfold scobit_transform, Rminus. apply Rplus_lt_compat_l. apply scobit_increasing; [|exact Hv].
    cbn [sh has_shape long_natural_shapes]. rewrite (indicator_dot N J A alt) by assumption. apply exp_pos.
  - unfold uneven_transform. apply Rplus_lt_compat_r. apply uneven_increasing; [|exact Hv].
    cbn [sh has_shape long_natural_shapes]. rewrite (indicator_dot N J A alt) by assumption. apply exp_pos.
  - unfold asym_transform. apply Rplus_lt_compat_r. unfold Rminus. apply Rplus_lt_compat_l.
    destruct Hk as (_ & _ & Hs & HJ).
    assert (C : 0 < asym_long_shapes s J A (sh (KAsym s r) J th) i < 1).
    { unfold asym_long_shapes. rewrite (indicator_dot N J A alt) by assumption. cbn [sh has_shape asym_natural_shapes num_shapes].
      set (e := aslice 0 (J - 1) th).
      destruct (C23_natural_shapes_are_probabilities e s J Hs eq_refl) as (P & S & _). split; [apply P; exact Hj|].
      pose (j' := if (alt i =? 0)%nat then 1%nat else 0%nat).
      assert (Hj' : (j' < J)%nat /\ alt i <> j') by (unfold j'; destruct (Nat.eqb_spec (alt i) 0); split; lia).
      pose proof (sumn_ge_two J (convert_eta_to_c e s) (alt i) j' (fun q Hq => Rlt_le _ _ (proj1 (P q Hq))) Hj (proj1 Hj') (proj2 Hj')) as T.
      rewrite S in T. pose proof (proj1 (P j' (proj1 Hj'))). lra. }
    apply asym_increasing; [| |exact Hv].
    + rewrite <- ln_1. apply ln_increasing; lra.
    + assert (HJr : 1 <= INR J - 1). { assert (INR 2 <= INR J) by (apply le_INR; exact HJ). cbn in H. lra. }
      rewrite <- ln_1. apply ln_increasing.
      * apply Rdiv_lt_0_compat; lra.
      * apply (Rmult_lt_reg_r (INR J - 1)); [lra|]. unfold Rdiv. rewrite Rmult_assoc, Rinv_l by lra. lra.
Qed.

(** ** Shares *)

Section Shares.
  Context (N : nat) (own : nat -> nat) (e e' : vec) (i : nat).
  Hypothesis Hi : (i < N)%nat.
  Hypothesis P : forall r, (r < N)%nat -> 0 < e r.
  Hypothesis P' : forall r, (r < N)%nat -> 0 < e' r.
  Hypothesis Hoth : forall r, (r < N)%nat -> r <> i -> e' r = e r.

  Lemma share_diff o : osum N own o e' = osum N own o e + (if (own i =? o)%nat then e' i - e i else 0).
  Proof.
    assert (E : osum N own o e' - osum N own o e = (if (own i =? o)%nat then e' i - e i else 0)); [|lra].
    rewrite <- osum_minus. unfold osum.
    rewrite <- (sumn_single N i (fun r => if (own r =? o)%nat then e' r - e r else 0) Hi).
    apply sumn_ext. intros r Hr. destruct (Nat.eqb_spec r i) as [->|Hne]; [reflexivity|].
    destruct (own r =? o)%nat; [|reflexivity]. rewrite Hoth by assumption. ring.
  Qed.

  Lemma share_other_obs r : (r < N)%nat -> own r <> own i -> e' r / osum N own (own r) e' = e r / osum N own (own r) e.
  Proof.
    intros Hr Hne. rewrite share_diff. destruct (Nat.eqb_spec (own i) (own r)); [congruence|]. rewrite Rplus_0_r.
    rewrite Hoth; [reflexivity|exact Hr|congruence].
  Qed.

  Lemma share_sum_pos f r : (forall q, (q < N)%nat -> 0 < f q) -> (r < N)%nat -> 0 < osum N own (own r) f.
  Proof. intros H Hr. apply osum_pos; [intros; apply H; assumption|exact Hr]. Qed.

  Lemma share_own : e i <= e' i -> e i / osum N own (own i) e <= e' i / osum N own (own i) e'.
  Proof.
    intros Hle. pose proof (share_sum_pos e i P Hi) as S. pose proof (share_sum_pos e' i P' Hi) as S'.
    pose proof (osum_ge_term N own i e (fun q Hq _ => Rlt_le _ _ (P q Hq)) Hi) as T.
    rewrite share_diff in *. rewrite Nat.eqb_refl in *. set (s := osum N own (own i) e) in *.
    apply (Rmult_le_reg_r (s * (s + (e' i - e i)))); [apply Rmult_lt_0_compat; assumption|].
    replace (e i / s * (s * (s + (e' i - e i)))) with (e i * (s + (e' i - e i))) by (field; lra).
    replace (e' i / (s + (e' i - e i)) * (s * (s + (e' i - e i)))) with (e' i * s) by (field; lra).
    nra.
  Qed.

  Lemma share_rival r : e i <= e' i -> (r < N)%nat -> r <> i -> own r = own i ->
    e' r / osum N own (own r) e' <= e r / osum N own (own r) e.
  Proof.
    intros Hle Hr Hne Ho. rewrite Ho. pose proof (share_sum_pos e i P Hi) as S.
    rewrite Hoth by assumption. rewrite share_diff, Nat.eqb_refl.
    unfold Rdiv. apply Rmult_le_compat_l; [left; apply P; exact Hr|]. apply Rinv_le_contravar; lra.
  Qed.

  Hypothesis Hlt : e i < e' i.

  Lemma share_rival_strict r : (r < N)%nat -> r <> i -> own r = own i ->
    e' r / osum N own (own r) e' < e r / osum N own (own r) e.
  Proof.
    intros Hr Hne Ho. rewrite Ho. pose proof (share_sum_pos e i P Hi) as S.
    rewrite Hoth by assumption. rewrite share_diff, Nat.eqb_refl.
    unfold Rdiv. apply Rmult_lt_compat_l; [apply P; exact Hr|]. apply Rinv_lt_contravar; [|lra].
    apply Rmult_lt_0_compat; lra.
  Qed.

  Lemma share_own_strict r : (r < N)%nat -> r <> i -> own r = own i ->
    e i / osum N own (own i) e < e' i / osum N own (own i) e'.
  Proof.
    intros Hr Hne Ho. pose proof (share_sum_pos e i P Hi) as S. pose proof (share_sum_pos e' i P' Hi) as S'.
    assert (T : e i < osum N own (own i) e).
    { unfold osum. set (f := fun q => if (own q =? own i)%nat then e q else 0).
      assert (F : forall q, (q < N)%nat -> 0 <= f q) by (intros q Hq; unfold f; destruct (own q =? own i)%nat; [left; apply P; exact Hq|lra]).
      pose proof (sumn_ge_two N f i r F Hi Hr ltac:(auto)) as G. unfold f in G at 1 2. rewrite Ho, Nat.eqb_refl in G.
      pose proof (P r Hr). lra. }
    rewrite share_diff in *. rewrite Nat.eqb_refl in *. set (s := osum N own (own i) e) in *.
    apply (Rmult_lt_reg_r (s * (s + (e' i - e i)))); [apply Rmult_lt_0_compat; assumption|].
    replace (e i / s * (s * (s + (e' i - e i)))) with (e i * (s + (e' i - e i))) by (field; lra).
    replace (e' i / (s + (e' i - e i)) * (s * (s + (e' i - e i)))) with (e' i * s) by (field; lra).
    pose proof (P i Hi). nra.
  Qed.
End Shares.

Lemma clip_le x y : x <= y -> clip_exponent x <= clip_exponent y.
Proof.
  intros H. unfold clip_exponent, min_exponent_val, max_exponent_val.
  destruct (Rlt_dec x (-700)), (Rlt_dec y (-700)), (Rlt_dec 700 x), (Rlt_dec 700 y); lra.
Qed.

(** ** The property *)

Section Improve.
  Context (k : logit_kind) (d : long_cols) (spec : option nest_spec) (mp : mappings) (K : nat) (X X' : mat)
    (w : option vec) (ridge : option R) (theta : arr) (i : nat).
  Hypothesis Hmp : create_long_form_mappings d spec = Ok mp.
  Hypothesis HL : length (alt_ids d) = length (obs_ids d).
  Hypothesis HK : (0 < K)%nat.
  Let D := data_of d mp K X w ridge.
  Let D' := data_of d mp K X' w ridge.
  Hypothesis Hk : kind_ok k (d_J D).
  Hypothesis Hlen : check_length_of_initial_values k (d_J D) K theta = Ok tt.
  Hypothesis Hi : (i < length (obs_ids d))%nat.
  (** Only row i is changed, and for the better: its index X beta grows. *)
  Hypothesis Hoth : forall r q, (r < length (obs_ids d))%nat -> (q < K)%nat -> r <> i -> X' r q = X r q.
  Hypothesis Hbetter : est_index k D theta i < est_index k D' theta i.

  Lemma im_L : alen theta = (num_shapes k (d_J D) + num_icpts k (d_J D) + d_K D)%nat.
  Proof. change (d_K D) with K. rewrite <- dims_eq by exact Hk. apply check_length_ok. exact Hlen. Qed.

  Lemma im_utility : utility k D theta i < utility k D' theta i /\
    forall r, (r < length (obs_ids d))%nat -> r <> i -> utility k D' theta r = utility k D theta r.
  Proof.
    pose proof im_L as L.
    rewrite (est_index_eq k D theta HK L), (est_index_eq k D' theta HK L) in Hbetter. split.
    - exact (transform_increasing k (d_J D) (d_N D) (d_A D) (alt_of (alt_ids d)) _ _ theta i Hk
        (data_alt_indicator d spec mp K X w ridge Hmp HL) Hi Hbetter).
    - intros r Hr Hne. unfold utility. apply transform_rowwise; [|reflexivity].
      unfold sys_utilities, mvec. apply sumn_ext. intros q Hq. f_equal. apply Hoth; assumption.
  Qed.

  (** The utility of the row grows; the others stay. *)
  Theorem C104_utilities :
    est_utilities k D theta i < est_utilities k D' theta i /\
    forall r, (r < length (obs_ids d))%nat -> r <> i -> est_utilities k D' theta r = est_utilities k D theta r.
  Proof.
    pose proof im_L as L. rewrite (est_utilities_eq k D theta HK L), (est_utilities_eq k D' theta HK L). exact im_utility.
  Qed.

  Let own := own_of (obs_ids d).
  Let e th DD := long_exponentials (model_of k) DD (sh k (d_J DD) th) (ic k (d_J DD) th) (be k (d_J DD) (d_K DD) th).

  Lemma im_e DD r : e theta DD r = exp (clip_exponent (utility k DD theta r)).
  Proof. reflexivity. Qed.

  Lemma im_P r : (r < length (obs_ids d))%nat ->
    est_long_probs k D theta r = e theta D r / osum (length (obs_ids d)) own (own r) (e theta D) /\
    est_long_probs k D' theta r = e theta D' r / osum (length (obs_ids d)) own (own r) (e theta D').
  Proof.
    intros Hr. pose proof im_L as L.
    rewrite (est_long_probs_eq k D theta HK L), (est_long_probs_eq k D' theta HK L). split.
    - exact (long_probs_eq (model_of k) D own (data_obs_indicator d spec mp K X w ridge Hmp) _ _ _ r Hr).
    - exact (long_probs_eq (model_of k) D' own (data_obs_indicator d spec mp K X' w ridge Hmp) _ _ _ r Hr).
  Qed.

  Lemma im_pos DD r : (r < length (obs_ids d))%nat -> 0 < e theta DD r.
  Proof. intros _. rewrite im_e. apply exp_pos. Qed.

  Lemma im_oth r : (r < length (obs_ids d))%nat -> r <> i -> e theta D' r = e theta D r.
  Proof. intros Hr Hne. rewrite !im_e. rewrite (proj2 im_utility r Hr Hne). reflexivity. Qed.

  Lemma im_le : e theta D i <= e theta D' i.
  Proof.
    rewrite !im_e. pose proof (proj1 im_utility) as U. pose proof (clip_le _ _ (Rlt_le _ _ U)) as C.
    destruct (Rle_lt_or_eq_dec _ _ C) as [C'|C']; [left; apply exp_increasing; exact C'|right; rewrite C'; reflexivity].
  Qed.

  Lemma im_same_obs r : (r < length (obs_ids d))%nat -> own r = own i <-> nth r (obs_ids d) 0%Z = nth i (obs_ids d) 0%Z.
  Proof. intros Hr. unfold own. apply own_of_eq; assumption. Qed.

  (** Probabilities never move the wrong way, whatever the size of the utilities. *)
  Theorem C104_never_the_wrong_way :
    est_long_probs k D theta i <= est_long_probs k D' theta i /\
    forall r, (r < length (obs_ids d))%nat -> r <> i ->
      (nth r (obs_ids d) 0%Z = nth i (obs_ids d) 0%Z -> est_long_probs k D' theta r <= est_long_probs k D theta r) /\
      (nth r (obs_ids d) 0%Z <> nth i (obs_ids d) 0%Z -> est_long_probs k D' theta r = est_long_probs k D theta r).
  Proof.
    set (N := length (obs_ids d)) in *. split.
    - destruct (im_P i Hi) as (-> & ->). exact (share_own N own _ _ i Hi (im_pos D) (im_pos D') im_oth im_le).
    - intros r Hr Hne. destruct (im_P r Hr) as (-> & ->). split; intros Ho.
      + exact (share_rival N own _ _ i Hi (im_pos D) im_oth r im_le Hr Hne (proj2 (im_same_obs r Hr) Ho)).
      + apply (share_other_obs N own _ _ i Hi im_oth r Hr). intros E. apply Ho. apply (im_same_obs r Hr). exact E.
  Qed.

  (** Without clipping they do move. *)
  Theorem C104_better_row_gains :
    -700 <= est_utilities k D theta i -> est_utilities k D' theta i <= 700 ->
    forall r, (r < length (obs_ids d))%nat -> r <> i -> nth r (obs_ids d) 0%Z = nth i (obs_ids d) 0%Z ->
    est_long_probs k D theta i < est_long_probs k D' theta i /\
    est_long_probs k D' theta r < est_long_probs k D theta r.
  Proof.
    intros C C' r Hr Hne Ho. pose proof im_L as L. pose proof im_utility as (U & _).
    rewrite (est_utilities_eq k D theta HK L) in C. rewrite (est_utilities_eq k D' theta HK L) in C'.
    assert (Lt : e theta D i < e theta D' i).
    { rewrite !im_e. apply exp_increasing. rewrite !clip_id by (unfold unclipped, min_exponent_val, max_exponent_val; lra). exact U. }
    set (N := length (obs_ids d)) in *. destruct (im_P i Hi) as (-> & ->). destruct (im_P r Hr) as (-> & ->).
    pose proof (proj2 (im_same_obs r Hr) Ho) as Ho'. split.
    - exact (share_own_strict N own _ _ i Hi (im_pos D) (im_pos D') im_oth Lt r Hr Hne Ho').
    - exact (share_rival_strict N own _ _ i Hi (im_pos D) im_oth Lt r Hr Hne Ho').
  Qed.
End Improve.

(** ** Raising a variable *)

(** The table in which the entry of row i, column q has been raised by h. *)
Definition raised (X : mat) (i q : nat) (h : R) : mat :=
  fun r c => X r c + (if ((r =? i) && (c =? q))%nat%bool then h else 0).

Lemma raised_others X i q h r c : r <> i -> raised X i q h r c = X r c.
Proof. intros Hr. unfold raised. destruct (Nat.eqb_spec r i); [contradiction|]. cbn [andb]. ring. Qed.

Lemma raised_index d mp K X w ridge i q h beta : (q < K)%nat ->
  sys_utilities (data_of d mp K (raised X i q h) w ridge) beta i =
  sys_utilities (data_of d mp K X w ridge) beta i + h * aget beta q.
Proof.
  intros Hq. unfold sys_utilities, mvec. cbn [data_of d_K d_X].
  rewrite <- (sumn_single K q (fun c => h * aget beta c) Hq), <- sumn_plus.
  apply sumn_ext. intros c _. unfold raised. rewrite Nat.eqb_refl. cbn [andb]. destruct (c =? q)%nat; ring.
Qed.

(** The coefficient of column q is the entry of the parameter vector after the shape parameters
    and the intercepts: raising a variable with a positive coefficient favours the row. *)
Theorem C104_positive_coefficient k d spec mp K X w ridge theta i q h :
  create_long_form_mappings d spec = Ok mp -> length (alt_ids d) = length (obs_ids d) -> (q < K)%nat ->
  let D := data_of d mp K X w ridge in let D' := data_of d mp K (raised X i q h) w ridge in
  kind_ok k (d_J D) -> check_length_of_initial_values k (d_J D) K theta = Ok tt ->
  (i < length (obs_ids d))%nat -> 0 < h ->
  0 < aget theta (num_shapes k (d_J D) + num_icpts k (d_J D) + q)%nat ->
  est_long_probs k D theta i <= est_long_probs k D' theta i /\
  (forall r, (r < length (obs_ids d))%nat -> r <> i ->
      (nth r (obs_ids d) 0%Z = nth i (obs_ids d) 0%Z -> est_long_probs k D' theta r <= est_long_probs k D theta r) /\
      (nth r (obs_ids d) 0%Z <> nth i (obs_ids d) 0%Z -> est_long_probs k D' theta r = est_long_probs k D theta r)) /\
  (-700 <= est_utilities k D theta i -> est_utilities k D' theta i <= 700 ->
   forall r, (r < length (obs_ids d))%nat -> r <> i -> nth r (obs_ids d) 0%Z = nth i (obs_ids d) 0%Z ->
     est_long_probs k D theta i < est_long_probs k D' theta i /\
     est_long_probs k D' theta r < est_long_probs k D theta r).
Proof.
  intros Hmp HL Hq D D' Hk Hlen Hi Hh Hb. assert (HK : (0 < K)%nat) by lia.
  assert (L : alen theta = (num_shapes k (d_J D) + num_icpts k (d_J D) + d_K D)%nat).
  { change (d_K D) with K. rewrite <- dims_eq by exact Hk. apply check_length_ok. exact Hlen. }
  assert (B : est_index k D theta i < est_index k D' theta i).
  { rewrite (est_index_eq k D theta HK L), (est_index_eq k D' theta HK L).
    unfold vrow, D'. rewrite raised_index by exact Hq. change (d_J (data_of d mp K (raised X i q h) w ridge)) with (d_J D).
    change (d_K (data_of d mp K (raised X i q h) w ridge)) with (d_K D).
    cbn [be aslice aget]. pose proof (Rmult_lt_0_compat _ _ Hh Hb) as M. fold D.
    replace (q + (num_shapes k (d_J D) + num_icpts k (d_J D)))%nat with (num_shapes k (d_J D) + num_icpts k (d_J D) + q)%nat by lia.
    lra. }
  assert (O : forall r c, (r < length (obs_ids d))%nat -> (c < K)%nat -> r <> i -> raised X i q h r c = X r c)
    by (intros; apply raised_others; assumption).
  destruct (C104_never_the_wrong_way k d spec mp K X (raised X i q h) w ridge theta i Hmp HL HK Hk Hlen Hi O B) as (W1 & W2).
  split; [exact W1|]. split; [exact W2|].
  exact (C104_better_row_gains k d spec mp K X (raised X i q h) w ridge theta i Hmp HL HK Hk Hlen Hi O B).
Qed.

(** ** Nested logit *)

Lemma Rpower_base_increasing x y z : 0 < x < y -> 0 < z -> Rpower x z < Rpower y z.
Proof. intros (Hx & H) Hz. unfold Rpower. apply exp_increasing, Rmult_lt_compat_l; [exact Hz|]. apply ln_increasing; assumption. Qed.

Lemma Rpower_base_decreasing x y z : 0 < x < y -> z <= 0 -> Rpower y z <= Rpower x z.
Proof.
  intros (Hx & H) Hz. assert (M : z * ln y <= z * ln x).
  { apply Rmult_le_compat_neg_l; [exact Hz|]. left. apply ln_increasing; assumption. }
  unfold Rpower. destruct (Rle_lt_or_eq_dec _ _ M) as [M'|M']; [left; apply exp_increasing; exact M'|right; rewrite M'; reflexivity].
Qed.

Lemma osum_balance N own i f :
  (i < N)%nat -> osum N own (own i) f = 0 -> (forall r, (r < N)%nat -> r <> i -> own r = own i -> f r <= 0) ->
  0 <= f i /\ forall r, (r < N)%nat -> r <> i -> own r = own i -> f r < 0 -> 0 < f i.
Proof.
  intros Hi S H. unfold osum in S.
  set (g := fun r => if (r =? i)%nat then 0 else if (own r =? own i)%nat then - f r else 0).
  assert (G : sumn N g = f i).
  { rewrite <- (Rplus_0_r (sumn N g)), <- S. rewrite <- (sumn_single N i f Hi), <- sumn_plus.
    apply sumn_ext. intros r _. unfold g. destruct (Nat.eqb_spec r i) as [->|]; [rewrite Nat.eqb_refl; ring|].
    destruct (own r =? own i)%nat; ring. }
  assert (P : forall r, (r < N)%nat -> 0 <= g r).
  { intros r Hr. unfold g. destruct (Nat.eqb_spec r i); [lra|]. destruct (Nat.eqb_spec (own r) (own i)) as [E|]; [|lra].
    pose proof (H r Hr n E). lra. }
  rewrite <- G. split; [apply sumn_ge0; exact P|].
  intros r Hr Hne Ho Hlt. apply (sumn_pos N g r P Hr). unfold g.
  destruct (Nat.eqb_spec r i); [contradiction|]. rewrite Ho, Nat.eqb_refl. lra.
Qed.

Section NestedShares.
  Context (N Q : nat) (own nst : nat -> nat) (V V' L : vec) (i : nat).
  Hypothesis Hnst : forall r, (r < N)%nat -> (nst r < Q)%nat.
  Hypothesis HL : forall q, (q < Q)%nat -> 0 < L q <= 1.
  Hypothesis Hi : (i < N)%nat.
  Hypothesis Hoth : forall r, (r < N)%nat -> r <> i -> V' r = V r.
  Hypothesis Hlt : V i < V' i.

  Lemma ns_L q : (q < Q)%nat -> 0 < L q.
  Proof. intros Hq. apply HL. exact Hq. Qed.

  Lemma ns_es r : (r < N)%nat -> r <> i -> es nst V' L r = es nst V L r.
  Proof. intros Hr Hne. unfold es. rewrite Hoth by assumption. reflexivity. Qed.

  Lemma ns_SS_other o q : ~ (own i = o /\ nst i = q) -> SS N own nst V' L o q = SS N own nst V L o q.
  Proof. intros H. apply nsum_ext. intros r Hr Eo Eq. apply ns_es; [exact Hr|]. intros ->. tauto. Qed.

  Lemma ns_SS_own : SS N own nst V L (own i) (nst i) < SS N own nst V' L (own i) (nst i).
  Proof.
    assert (E : 0 < nsum N own nst (own i) (nst i) (fun r => es nst V' L r - es nst V L r)).
    { apply (sumn_pos N _ i); [|exact Hi|].
      - intros r Hr. destruct ((own r =? own i) && (nst r =? nst i))%nat%bool; [|lra].
        destruct (Nat.eq_dec r i) as [->|Hne]; [|rewrite ns_es by assumption; lra].
        unfold es. assert (exp (V i / L (nst i)) < exp (V' i / L (nst i))); [|lra]. apply exp_increasing.
        apply Rmult_lt_compat_r; [apply Rinv_0_lt_compat, ns_L, Hnst, Hi|exact Hlt].
      - rewrite !Nat.eqb_refl. cbn [andb]. unfold es. assert (exp (V i / L (nst i)) < exp (V' i / L (nst i))); [|lra].
        apply exp_increasing. apply Rmult_lt_compat_r; [apply Rinv_0_lt_compat, ns_L, Hnst, Hi|exact Hlt]. }
    rewrite nsum_minus in E. unfold SS. lra.
  Qed.

  Lemma ns_DD_other o : own i <> o -> DD N Q own nst V' L o = DD N Q own nst V L o.
  Proof. intros H. apply sumn_ext. intros q _. rewrite ns_SS_other by tauto. reflexivity. Qed.

  Lemma ns_DD_own : DD N Q own nst V L (own i) < DD N Q own nst V' L (own i).
  Proof.
    assert (B : forall q, (q < Q)%nat -> 0 <= np_power (SS N own nst V' L (own i) q) (L q) - np_power (SS N own nst V L (own i) q) (L q) /\
      (q = nst i -> 0 < np_power (SS N own nst V' L (own i) q) (L q) - np_power (SS N own nst V L (own i) q) (L q))).
    { intros q Hq. destruct (Nat.eq_dec (nst i) q) as [<-|Hne].
      - pose proof (SS_pos N own nst V L i Hi) as S. pose proof ns_SS_own as S'.
        rewrite !np_power_pos by lra. pose proof (Rpower_base_increasing _ _ (L (nst i)) (conj S S') (ns_L _ Hq)). split; [lra|intros; lra].
      - rewrite ns_SS_other by tauto. split; [lra|congruence]. }
    assert (E : 0 < sumn Q (fun q => np_power (SS N own nst V' L (own i) q) (L q) - np_power (SS N own nst V L (own i) q) (L q))).
    { apply (sumn_pos Q _ (nst i)); [intros q Hq; apply (B q Hq)|apply Hnst; exact Hi|]. apply (B (nst i) (Hnst i Hi)). reflexivity. }
    rewrite sumn_minus in E. unfold DD. lra.
  Qed.

  Lemma ns_other_obs r : (r < N)%nat -> own r <> own i -> pp N Q own nst V' L r = pp N Q own nst V L r.
  Proof.
    intros Hr Hne. rewrite !pp_eq by (try exact Hnst; try exact ns_L; exact Hr).
    rewrite ns_es by congruence. rewrite ns_SS_other by (intros (A & _); congruence). rewrite ns_DD_other by congruence. reflexivity.
  Qed.

  Lemma ns_rival r : (r < N)%nat -> r <> i -> own r = own i -> pp N Q own nst V' L r < pp N Q own nst V L r.
  Proof.
    intros Hr Hne Ho. rewrite !pp_eq by (try exact Hnst; try exact ns_L; exact Hr).
    rewrite ns_es by assumption.
    pose proof (es_pos nst V L r) as E. pose proof ns_DD_own as D1.
    pose proof (DD_pos N Q own nst Hnst V L ns_L i Hi) as D0. rewrite <- Ho in D0, D1.
    set (a := Rpower (SS N own nst V L (own r) (nst r)) (L (nst r) - 1)).
    set (a' := Rpower (SS N own nst V' L (own r) (nst r)) (L (nst r) - 1)).
    assert (A : a' <= a).
    { unfold a, a'. destruct (Nat.eq_dec (nst r) (nst i)) as [En|En].
      - rewrite En, Ho. apply Rpower_base_decreasing; [split; [apply SS_pos; exact Hi|apply ns_SS_own]|].
        pose proof (HL (nst i) (Hnst i Hi)). lra.
      - rewrite ns_SS_other by (intros (_ & A); congruence). lra. }
    assert (A0 : 0 < a) by apply Rpower_pos.
    unfold Rdiv. apply Rle_lt_trans with (es nst V L r * a * / DD N Q own nst V' L (own r)).
    - apply Rmult_le_compat_r; [left; apply Rinv_0_lt_compat; lra|]. apply Rmult_le_compat_l; lra.
    - apply Rmult_lt_compat_l; [apply Rmult_lt_0_compat; assumption|]. apply Rinv_lt_contravar; [apply Rmult_lt_0_compat; lra|exact D1].
  Qed.

  Lemma ns_own : pp N Q own nst V L i <= pp N Q own nst V' L i /\
    forall r, (r < N)%nat -> r <> i -> own r = own i -> pp N Q own nst V L i < pp N Q own nst V' L i.
  Proof.
    destruct (osum_balance N own i (fun r => pp N Q own nst V' L r - pp N Q own nst V L r) Hi) as (A & B).
    - rewrite osum_minus, !(pp_sum N Q own nst Hnst _ L ns_L i Hi). lra.
    - intros r Hr Hne Ho. pose proof (ns_rival r Hr Hne Ho). lra.
    - split; [lra|]. intros r Hr Hne Ho. pose proof (ns_rival r Hr Hne Ho). pose proof (B r Hr Hne Ho ltac:(lra)). lra.
  Qed.
End NestedShares.

(** In the nested logit the same holds, with no proviso about size, for every nest coefficient
    in (0, 1] - which is where the estimator keeps them (C42). *)
Theorem C104_nested d t mp rn K X X' w ridge nests beta i :
  nested_setup d t mp rn -> (forall q, (q < length t)%nat -> 0 < nests q <= 1) ->
  let E := ndata_of d mp rn K X w ridge in let E' := ndata_of d mp rn K X' w ridge in
  (i < length (obs_ids d))%nat ->
  (forall r q, (r < length (obs_ids d))%nat -> (q < K)%nat -> r <> i -> X' r q = X r q) ->
  sys_utilities (n_D E) beta i < sys_utilities (n_D E') beta i ->
  forall p p',
  calc_nested_probs E nests beta None RT_long = Ok (NProbs (LongProbs p)) ->
  calc_nested_probs E' nests beta None RT_long = Ok (NProbs (LongProbs p')) ->
  p i <= p' i /\
  forall r, (r < length (obs_ids d))%nat -> r <> i ->
    (nth r (obs_ids d) 0%Z = nth i (obs_ids d) 0%Z -> p' r < p r /\ p i < p' i) /\
    (nth r (obs_ids d) 0%Z <> nth i (obs_ids d) 0%Z -> p' r = p r).
Proof.
  intros HS Hn E E' Hi Hoth Hlt p p' Hp Hp'. inversion Hp; subst; clear Hp. inversion Hp'; subst; clear Hp'.
  pose proof (su_own d t mp rn HS K X w ridge) as Ho. pose proof (su_nst d t mp rn HS K X w ridge) as Hq.
  pose proof (su_own d t mp rn HS K X' w ridge) as Ho'. pose proof (su_nst d t mp rn HS K X' w ridge) as Hq'.
  pose proof (su_Q d t mp rn HS K X w ridge) as EQ. fold E in Ho, Hq, EQ. fold E' in Ho', Hq'.
  assert (Hn1 : forall q, (q < n_Q E)%nat -> 0 < nests q <= 1) by (rewrite EQ; exact Hn).
  assert (Hpos : forall q, (q < n_Q E)%nat -> 0 < nests q) by (intros q H; apply Hn1; exact H).
  pose proof (nst_lt E _ Hq) as Hl.
  assert (Hrow : forall r, (r < d_N (n_D E))%nat -> r <> i -> sys_utilities (n_D E') beta r = sys_utilities (n_D E) beta r).
  { intros r Hr Hne. unfold sys_utilities, mvec. apply sumn_ext. intros q Hqk. f_equal. apply Hoth; assumption. }
  assert (P : forall r, (r < length (obs_ids d))%nat ->
    nested_long_probs E nests beta r = pp (d_N (n_D E)) (n_Q E) (own_of (obs_ids d)) (nst_of d t) (sys_utilities (n_D E) beta) nests r)
    by (intros r Hr; exact (nlp_eq E _ _ Ho Hq nests beta Hpos r Hr)).
  assert (P' : forall r, (r < length (obs_ids d))%nat ->
    nested_long_probs E' nests beta r = pp (d_N (n_D E)) (n_Q E) (own_of (obs_ids d)) (nst_of d t) (sys_utilities (n_D E') beta) nests r)
    by (intros r Hr; exact (nlp_eq E' _ _ Ho' Hq' nests beta Hpos r Hr)).
  destruct (ns_own (d_N (n_D E)) (n_Q E) (own_of (obs_ids d)) (nst_of d t) _ _ nests i Hl Hn1 Hi Hrow Hlt) as (O1 & O2).
  rewrite (P i Hi), (P' i Hi). split; [exact O1|]. intros r Hr Hne. rewrite (P r Hr), (P' r Hr). split; intros Hs.
  - apply (own_of_eq _ _ _ Hr Hi) in Hs. split; [|exact (O2 r Hr Hne Hs)].
    exact (ns_rival (d_N (n_D E)) (n_Q E) (own_of (obs_ids d)) (nst_of d t) _ _ nests i Hl Hn1 Hi Hrow Hlt r Hr Hne Hs).
  - apply (ns_other_obs (d_N (n_D E)) (n_Q E) (own_of (obs_ids d)) (nst_of d t) _ _ nests i Hl Hn1 Hrow r Hr).
    intros Eo. apply Hs. apply (own_of_eq _ _ _ Hr Hi). exact Eo.
Qed.

(** ** A concrete case *)

Definition mono_theta : arr := mkArr 2 (fun q => if (q =? 0)%nat then 1 else -2).

Example ex_mono : exists mp, create_long_form_mappings ex_cols None = Ok mp /\
  length (alt_ids ex_cols) = length (obs_ids ex_cols) /\
  let D := data_of ex_cols mp 2 (fun i q => INR (i + q)) None None in
  let D' := data_of ex_cols mp 2 (raised (fun i q => INR (i + q)) 1%nat 0%nat 3) None None in
  kind_ok KMNL (d_J D) /\ check_length_of_initial_values KMNL (d_J D) 2 mono_theta = Ok tt /\
  (1 < length (obs_ids ex_cols))%nat /\
  0 < aget mono_theta (num_shapes KMNL (d_J D) + num_icpts KMNL (d_J D) + 0)%nat /\
  est_index KMNL D mono_theta 1%nat < est_index KMNL D' mono_theta 1%nat /\
  -700 <= est_utilities KMNL D mono_theta 1%nat /\ est_utilities KMNL D' mono_theta 1%nat <= 700 /\
  nth 0 (obs_ids ex_cols) 0%Z = nth 1 (obs_ids ex_cols) 0%Z.
Proof.
  eexists. split; [reflexivity|]. split; [reflexivity|]. intros D D'.
  split; [cbn; repeat split; lia|]. split; [reflexivity|]. split; [cbn; lia|].
  unfold est_index, est_utilities, D, D', raised. cbn. repeat split; lra.
Qed.

Print Assumptions C104_utilities.
Print Assumptions C104_never_the_wrong_way.
Print Assumptions C104_better_row_gains.
Print Assumptions C104_positive_coefficient.
Print Assumptions C104_nested.
