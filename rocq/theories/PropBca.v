(** C58: the constants and intervals of the BCa method. *)
From Coq Require Import Reals Lra Lia ZArith List Bool Permutation.
From Verif Require Import Res Vec PropWideLong BootCalcs PropPercentile.
Import ListNotations.
Open Scope R_scope.

(** ** What is assumed of the normal distribution functions *)
Definition normal_law (nd : normal_dist) : Prop :=
  (forall x, 0 < nd_cdf nd x < 1) /\
  (forall x y, x < y -> nd_cdf nd x < nd_cdf nd y) /\
  (forall p, 0 < p < 1 -> nd_cdf nd (nd_ppf nd p) = p).

(** ** Sums *)

Lemma rsum_app l r : rsum (l ++ r) = rsum l + rsum r.
Proof. induction l as [|x l IH]; simpl; [lra|]. rewrite IH. lra. Qed.

Lemma rsum_perm l r : Permutation l r -> rsum l = rsum r.
Proof. induction 1; simpl; lra. Qed.

Lemma rsum_map_ext {A} (f g : A -> R) l : (forall x, In x l -> f x = g x) -> rsum (map f l) = rsum (map g l).
Proof. intros H. f_equal. apply map_ext_in. exact H. Qed.

Lemma rsum_scal {A} c (f : A -> R) l : rsum (map (fun x => c * f x) l) = c * rsum (map f l).
Proof. induction l as [|x l IH]; simpl; [lra|]. rewrite IH. lra. Qed.

Lemma rsum_affine c b l : rsum (map (fun x => c * x + b) l) = c * rsum l + b * INR (length l).
Proof.
  induction l as [|x l IH]; [simpl; lra|]. cbn [map length]. rewrite S_INR. simpl rsum. rewrite IH. lra.
Qed.

Lemma rsum_nonneg l : (forall x, In x l -> 0 <= x) -> 0 <= rsum l.
Proof.
  induction l as [|x l IH]; intros H; simpl; [lra|].
  pose proof (H x (or_introl eq_refl)). specialize (IH (fun y Hy => H y (or_intror Hy))). lra.
Qed.

Lemma rsum_le_one l x : (forall y, In y l -> 0 <= y) -> In x l -> x <= rsum l.
Proof.
  induction l as [|y l IH]; intros H Hin; [destruct Hin|]. simpl.
  pose proof (H y (or_introl eq_refl)).
  pose proof (rsum_nonneg l (fun z Hz => H z (or_intror Hz))).
  destruct Hin as [->|Hin]; [lra|]. specialize (IH (fun z Hz => H z (or_intror Hz)) Hin). lra.
Qed.

Lemma rsum_zero l : (forall x, In x l -> 0 <= x) -> rsum l = 0 -> forall x, In x l -> x = 0.
Proof.
  intros H E x Hx. pose proof (rsum_le_one l x H Hx). pose proof (H x Hx). lra.
Qed.

(** ** The acceleration *)

Definition squares (l : list R) : R := rsum (map (fun d => d ^ 2) l).
Definition cubes (l : list R) : R := rsum (map (fun d => d ^ 3) l).

Lemma squares_nonneg l : 0 <= squares l.
Proof. apply rsum_nonneg. intros x Hx. apply in_map_iff in Hx. destruct Hx as (d & <- & _). nra. Qed.

Lemma square_le l d : In d l -> d ^ 2 <= squares l.
Proof.
  intros H. apply rsum_le_one; [|apply (in_map (fun d => d ^ 2)); exact H].
  intros x Hx. apply in_map_iff in Hx. destruct Hx as (e & <- & _). nra.
Qed.

Lemma abs_le_root l d : In d l -> Rabs d <= sqrt (squares l).
Proof.
  intros H. rewrite <- sqrt_Rsqr_abs. apply sqrt_le_1_alt. unfold Rsqr. pose proof (square_le l d H). lra.
Qed.

Lemma cubes_bound_aux M l : (forall d, In d l -> Rabs d <= M) -> Rabs (cubes l) <= M * squares l.
Proof.
  induction l as [|d l IH]; intros H.
  - unfold cubes, squares. simpl. rewrite Rabs_R0. lra.
  - unfold cubes, squares in *. cbn [map rsum fold_right]. fold (rsum (map (fun d => d ^ 3) l)) (rsum (map (fun d => d ^ 2) l)).
    eapply Rle_trans; [apply Rabs_triang|].
    specialize (IH (fun e He => H e (or_intror He))).
    assert (Rabs (d ^ 3) <= M * d ^ 2).
    { replace (d ^ 3) with (d * d ^ 2) by ring. rewrite Rabs_mult, (Rabs_right (d ^ 2)) by nra.
      apply Rmult_le_compat_r; [nra|]. apply H. left. reflexivity. }
    lra.
Qed.

Lemma cubes_bound l : Rabs (cubes l) <= pow_1_5 (squares l).
Proof.
  unfold pow_1_5. rewrite Rmult_comm. apply cubes_bound_aux. intros d H. apply abs_le_root. exact H.
Qed.

Definition diffs (jack : list R) : list R := map (fun x => rmean jack - x) jack.

Lemma pow_1_5_pos s : 0 < s -> 0 < pow_1_5 s.
Proof. intros H. unfold pow_1_5. apply Rmult_lt_0_compat; [exact H|apply sqrt_lt_R0; exact H]. Qed.

Lemma min_comp_pos : 0 < MIN_COMP_VALUE.
Proof. unfold MIN_COMP_VALUE. apply Rinv_0_lt_compat, pow_lt. lra. Qed.

(** The value in the two cases of the guard. *)
Lemma quotient_cases jack :
  (squares (diffs jack) = 0 /\ acceleration_quotient jack = XFin 0) \/
  (0 < squares (diffs jack) /\
   acceleration_quotient jack = XFin (cubes (diffs jack) / (6 * pow_1_5 (squares (diffs jack))))).
Proof.
  unfold acceleration_quotient. fold (diffs jack). fold (squares (diffs jack)) (cubes (diffs jack)).
  pose proof (squares_nonneg (diffs jack)) as Hs. pose proof (cubes_bound (diffs jack)) as Hc.
  destruct (Req_EM_T (6 * pow_1_5 (squares (diffs jack))) 0) as [E|E].
  - left. assert (Hz : squares (diffs jack) = 0).
    { destruct (Req_dec (squares (diffs jack)) 0) as [|Hn]; [assumption|].
      pose proof (pow_1_5_pos (squares (diffs jack)) ltac:(lra)). lra. }
    split; [exact Hz|]. rewrite Hz in Hc. unfold pow_1_5 in Hc. rewrite Rmult_0_l in Hc.
    assert (cubes (diffs jack) = 0) as ->.
    { pose proof (Rabs_pos (cubes (diffs jack))). destruct (Req_dec (cubes (diffs jack)) 0) as [|Hn]; [assumption|]. pose proof (Rabs_pos_lt _ Hn). lra. }
    pose proof min_comp_pos. cbn [xdiv]. destruct (Req_EM_T MIN_COMP_VALUE 0); [lra|]. f_equal. unfold Rdiv. ring.
  - right. split.
    + destruct Hs as [Hs|Hs]; [exact Hs|]. exfalso. apply E. rewrite <- Hs. unfold pow_1_5. ring.
    + cbn [xdiv]. destruct (Req_EM_T (6 * pow_1_5 (squares (diffs jack))) 0); [contradiction|]. reflexivity.
Qed.
Lemma acceleration_cases jack :
  (squares (diffs jack) = 0 /\ calc_acceleration_bca jack = 0) \/
  (0 < squares (diffs jack) /\
   calc_acceleration_bca jack = cubes (diffs jack) / (6 * pow_1_5 (squares (diffs jack)))).
Proof.
  unfold calc_acceleration_bca. destruct (quotient_cases jack) as [[H ->]|[H ->]]; auto.
Qed.

(** ** C58: the acceleration is a number, also for replicates that are all equal (then it is
    zero, not 0/0) *)
Theorem C58_acceleration_is_a_number jack :
  acceleration_quotient jack = XFin (calc_acceleration_bca jack) /\
  ((forall x y, In x jack -> In y jack -> x = y) -> acceleration_quotient jack = XFin 0).
Proof.
  unfold calc_acceleration_bca. destruct (quotient_cases jack) as [[H E]|[H E]]; rewrite E; split; try reflexivity.
  intros He. exfalso. apply (Rlt_irrefl 0). apply Rlt_le_trans with (1 := H). apply Req_le.
  destruct jack as [|a r]; [reflexivity|].
  assert (Ha : forall x, In x (a :: r) -> x = a) by (intros; apply He; [assumption|left; reflexivity]).
  assert (Em : rmean (a :: r) = a).
  { unfold rmean. assert (Es : rsum (a :: r) = INR (length (a :: r)) * a).
    { clear -Ha. induction (a :: r) as [|b l IH]; [cbn; ring|]. change (rsum (b :: l)) with (b + rsum l). rewrite IH by (intros; apply Ha; right; assumption).
      rewrite (Ha b) by (left; reflexivity). cbn [length]. rewrite S_INR. ring. }
    rewrite Es. field. apply not_0_INR. discriminate. }
  unfold squares, diffs. rewrite Em. clear -Ha. induction (a :: r) as [|b l IH]; [reflexivity|]. cbn [map]. match goal with |- rsum (?x :: ?y) = _ => change (rsum (x :: y)) with (x + rsum y) end.
  rewrite IH by (intros; apply Ha; right; assumption). rewrite (Ha b) by (left; reflexivity). ring.
Qed.

(** ** C58: the acceleration is at most 1/6 in absolute value *)
Theorem C58_acceleration_bound jack : Rabs (calc_acceleration_bca jack) <= / 6.
Proof.
  destruct (acceleration_cases jack) as [[_ ->]|[Hs ->]]; [rewrite Rabs_R0; lra|].
  pose proof (pow_1_5_pos _ Hs) as Hp. pose proof (cubes_bound (diffs jack)) as Hc.
  unfold Rdiv. rewrite Rabs_mult, (Rabs_right (/ (6 * pow_1_5 (squares (diffs jack)))))
    by (apply Rle_ge, Rlt_le, Rinv_0_lt_compat; lra).
  apply (Rmult_le_reg_r (6 * pow_1_5 (squares (diffs jack)))); [lra|].
  rewrite Rmult_assoc, Rinv_l by lra. lra.
Qed.

Lemma rmean_affine alpha beta jack :
  jack <> [] -> rmean (map (fun x => alpha * x + beta) jack) = alpha * rmean jack + beta.
Proof.
  intros H. unfold rmean. rewrite rsum_affine, map_length.
  assert (INR (length jack) <> 0). { apply not_0_INR. destruct jack; [congruence|simpl; lia]. }
  field. assumption.
Qed.

Lemma diffs_affine alpha beta jack :
  jack <> [] -> diffs (map (fun x => alpha * x + beta) jack) = map (fun d => alpha * d) (diffs jack).
Proof.
  intros H. unfold diffs. rewrite rmean_affine by exact H. rewrite !map_map. apply map_ext. intros x. ring.
Qed.

Lemma squares_scal alpha l : squares (map (fun d => alpha * d) l) = alpha ^ 2 * squares l.
Proof.
  unfold squares. rewrite map_map, <- rsum_scal. apply rsum_map_ext. intros. ring.
Qed.
Lemma cubes_scal alpha l : cubes (map (fun d => alpha * d) l) = alpha ^ 3 * cubes l.
Proof.
  unfold cubes. rewrite map_map, <- rsum_scal. apply rsum_map_ext. intros. ring.
Qed.

(** ** C58: location and scale. A change of scale by a negative factor flips the sign. *)
Theorem C58_acceleration_affine alpha beta jack :
  jack <> [] -> alpha <> 0 ->
  calc_acceleration_bca (map (fun x => alpha * x + beta) jack) = alpha / Rabs alpha * calc_acceleration_bca jack.
Proof.
  intros Hj Ha.
  pose proof (diffs_affine alpha beta jack Hj) as Ed.
  assert (Ha2 : 0 < alpha ^ 2) by (simpl; rewrite Rmult_1_r; apply Rsqr_pos_lt; exact Ha).
  assert (Hab : 0 < Rabs alpha) by (apply Rabs_pos_lt; exact Ha).
  destruct (acceleration_cases jack) as [[Hs ->]|[Hs ->]];
  destruct (acceleration_cases (map (fun x => alpha * x + beta) jack)) as [[Hs' ->]|[Hs' ->]];
  rewrite Ed, squares_scal in *.
  - ring.
  - rewrite Hs in Hs'. lra.
  - assert (0 < alpha ^ 2 * squares (diffs jack)) by (apply Rmult_lt_0_compat; lra). lra.
  - rewrite cubes_scal. unfold pow_1_5.
    rewrite sqrt_mult by lra.
    replace (sqrt (alpha ^ 2)) with (Rabs alpha).
    2: { rewrite <- sqrt_Rsqr_abs. f_equal. unfold Rsqr. ring. }
    pose proof (sqrt_lt_R0 _ Hs). field. repeat split; lra.
Qed.

Corollary C58_acceleration_location_scale alpha beta jack :
  jack <> [] -> 0 < alpha ->
  calc_acceleration_bca (map (fun x => alpha * x + beta) jack) = calc_acceleration_bca jack.
Proof.
  intros Hj Ha. rewrite C58_acceleration_affine by (assumption || lra).
  rewrite Rabs_right by lra. field. lra.
Qed.

Lemma acceleration_perm l r : Permutation l r -> calc_acceleration_bca l = calc_acceleration_bca r.
Proof.
  intros H. assert (Em : rmean l = rmean r).
  { unfold rmean. rewrite (rsum_perm l r H), (Permutation_length H). reflexivity. }
  assert (Hd : Permutation (diffs l) (diffs r)). { unfold diffs. rewrite Em. apply Permutation_map. exact H. }
  unfold calc_acceleration_bca, acceleration_quotient. fold (diffs l) (diffs r).
  rewrite (rsum_perm _ _ (Permutation_map (fun d => d ^ 3) Hd)), (rsum_perm _ _ (Permutation_map (fun d => d ^ 2) Hd)).
  reflexivity.
Qed.

(** ** C58: replicates symmetric about some centre have zero acceleration *)
Theorem C58_acceleration_symmetric jack center :
  jack <> [] -> Permutation (map (fun x => 2 * center - x) jack) jack ->
  calc_acceleration_bca jack = 0.
Proof.
  intros Hj HP. pose proof (C58_acceleration_affine (-1) (2 * center) jack Hj ltac:(lra)) as H.
  rewrite (map_ext _ (fun x => 2 * center - x)) in H by (intros; ring).
  rewrite (acceleration_perm _ _ HP) in H. rewrite Rabs_left in H by lra.
  replace (-1 / - -1) with (-1) in H by field. lra.
Qed.

(** The acceleration is not identically zero: with replicates 0, 0, 3 it is
    -6 / (6 * 6^1.5). *)
Example ex_acceleration : calc_acceleration_bca [0; 0; 3] < 0.
Proof.
  assert (Em : rmean [0; 0; 3] = 1) by (unfold rmean; simpl; field).
  destruct (acceleration_cases [0; 0; 3]) as [[Hs _]|[Hs E]].
  - exfalso. unfold squares, diffs in Hs. rewrite Em in Hs. simpl in Hs. lra.
  - rewrite E. pose proof (pow_1_5_pos _ Hs).
    assert (cubes (diffs [0; 0; 3]) = -6) as -> by (unfold cubes, diffs; rewrite Em; simpl; ring).
    unfold Rdiv. assert (0 < / (6 * pow_1_5 (squares (diffs [0; 0; 3])))) by (apply Rinv_0_lt_compat; lra). lra.
Qed.

(** ** The percentiles *)

Lemma ppf_mono nd p q : normal_law nd -> 0 < p -> p < q -> q < 1 -> nd_ppf nd p < nd_ppf nd q.
Proof.
  intros (_ & Hm & Hi) Hp Hpq Hq. destruct (Rlt_le_dec (nd_ppf nd p) (nd_ppf nd q)) as [|H]; [assumption|].
  exfalso. pose proof (Hi p ltac:(lra)). pose proof (Hi q ltac:(lra)).
  destruct H as [H|H]; [pose proof (Hm _ _ H); lra|rewrite H in *; lra].
Qed.

Lemma cdf_le nd x y : normal_law nd -> x <= y -> nd_cdf nd x <= nd_cdf nd y.
Proof. intros (_ & Hm & _) [H| ->]; [left; apply Hm; exact H|right; reflexivity]. Qed.

(** The transformed standard value. *)
Definition adjusted (b acc z : R) : R := b + (b + z) / (1 - acc * (b + z)).

Lemma bca_percentile_finite nd b acc z :
  1 - acc * (b + z) <> 0 ->
  bca_percentile nd (XFin b) acc (XFin z) = XFin (100 * nd_cdf nd (adjusted b acc z)).
Proof.
  intros H. unfold bca_percentile, adjusted. simpl.
  destruct (Req_EM_T (1 + - (acc * (b + z))) 0) as [E|E]; [exfalso; apply H; lra|].
  simpl. do 4 f_equal.
Qed.

Lemma adjusted_mono b acc z z' :
  z <= z' -> acc * (b + z) < 1 -> acc * (b + z') < 1 -> adjusted b acc z <= adjusted b acc z'.
Proof.
  intros Hz H1 H2. unfold adjusted. apply Rplus_le_compat_l.
  apply (Rmult_le_reg_r ((1 - acc * (b + z)) * (1 - acc * (b + z')))); [apply Rmult_lt_0_compat; lra|].
  replace ((b + z) / (1 - acc * (b + z)) * ((1 - acc * (b + z)) * (1 - acc * (b + z')))) with ((b + z) * (1 - acc * (b + z'))) by (field; lra).
  replace ((b + z') / (1 - acc * (b + z')) * ((1 - acc * (b + z)) * (1 - acc * (b + z')))) with ((b + z') * (1 - acc * (b + z))) by (field; lra).
  replace ((b + z) * (1 - acc * (b + z'))) with ((b + z) - acc * (b + z) * (b + z')) by ring.
  replace ((b + z') * (1 - acc * (b + z))) with ((b + z') - acc * (b + z) * (b + z')) by ring. lra.
Qed.

Lemma norm_ppf_inner nd p : 0 < p < 1 -> norm_ppf nd p = XFin (nd_ppf nd p).
Proof.
  intros H. unfold norm_ppf. destruct (Req_EM_T p 0); [lra|]. destruct (Req_EM_T p 1); [lra|reflexivity].
Qed.

(** ** C58: order of the percentiles *)
Theorem C58_lower_percentile_below_upper nd alpha b acc :
  normal_law nd -> 0 < alpha < 100 ->
  acc * (b + nd_ppf nd (alpha / (100 * 2))) < 1 -> acc * (b + nd_ppf nd (1 - alpha / (100 * 2))) < 1 ->
  exists lo hi, calc_lower_bca_percentile nd alpha (XFin b) acc = XFin lo /\
    calc_upper_bca_percentile nd alpha (XFin b) acc = XFin hi /\
    0 < lo <= hi /\ hi < 100.
Proof.
  intros Hn Ha H1 H2. unfold calc_lower_bca_percentile, calc_upper_bca_percentile.
  rewrite !norm_ppf_inner by lra. rewrite !bca_percentile_finite by lra.
  do 2 eexists. split; [reflexivity|]. split; [reflexivity|].
  pose proof (ppf_mono nd (alpha / (100 * 2)) (1 - alpha / (100 * 2)) Hn ltac:(lra) ltac:(lra) ltac:(lra)) as Hz.
  pose proof (adjusted_mono b acc _ _ (Rlt_le _ _ Hz) H1 H2) as Had.
  pose proof (cdf_le nd _ _ Hn Had). destruct Hn as (H01 & _).
  pose proof (H01 (adjusted b acc (nd_ppf nd (alpha / (100 * 2))))).
  pose proof (H01 (adjusted b acc (nd_ppf nd (1 - alpha / (100 * 2))))). lra.
Qed.

(** Without the condition the order can be reversed: when [1/acc] lies between the two
    standard values the upper percentile is below the lower one. *)
Theorem C58_refuted_percentiles_cross nd alpha b acc :
  normal_law nd -> 0 < alpha < 100 -> 0 < acc ->
  acc * (b + nd_ppf nd (alpha / (100 * 2))) < 1 -> 1 < acc * (b + nd_ppf nd (1 - alpha / (100 * 2))) ->
  exists lo hi, calc_lower_bca_percentile nd alpha (XFin b) acc = XFin lo /\
    calc_upper_bca_percentile nd alpha (XFin b) acc = XFin hi /\ hi < lo.
Proof.
  intros Hn Ha Hacc H1 H2. unfold calc_lower_bca_percentile, calc_upper_bca_percentile.
  rewrite !norm_ppf_inner by lra. rewrite !bca_percentile_finite by lra.
  do 2 eexists. split; [reflexivity|]. split; [reflexivity|].
  apply Rmult_lt_compat_l; [lra|]. destruct Hn as (_ & Hm & _). apply Hm. unfold adjusted. apply Rplus_lt_compat_l.
  set (w := b + nd_ppf nd (alpha / (100 * 2))) in *. set (w' := b + nd_ppf nd (1 - alpha / (100 * 2))) in *.
  assert (N1 : acc <> 0) by (intros E; lra).
  assert (N2 : 1 - acc * w <> 0) by (intros E; lra).
  assert (N3 : 1 - acc * w' <> 0) by (intros E; lra).
  apply Rlt_trans with (- / acc).
  - apply (Rmult_lt_reg_r (acc * (acc * w' - 1))); [apply Rmult_lt_0_compat; lra|].
    replace (w' / (1 - acc * w') * (acc * (acc * w' - 1))) with (- (acc * w')) by (field; auto).
    replace (- / acc * (acc * (acc * w' - 1))) with (1 - acc * w') by (field; auto). lra.
  - apply (Rmult_lt_reg_r (acc * (1 - acc * w))); [apply Rmult_lt_0_compat; lra|].
    replace (w / (1 - acc * w) * (acc * (1 - acc * w))) with (acc * w) by (field; auto).
    replace (- / acc * (acc * (1 - acc * w))) with (acc * w - 1) by (field; auto). lra.
Qed.

(** ** The interval *)

Lemma collect_Forall2 {A} (l : list (Res A)) xs : collect l = Ok xs -> Forall2 (fun r x => r = Ok x) l xs.
Proof.
  revert xs. induction l as [|r l IH]; simpl; intros xs H; [injection H as <-; constructor|].
  apply bind_ok in H. destruct H as (x & Hx & H). apply bind_ok in H. destruct H as (ys & Hy & H).
  injection H as <-. constructor; auto.
Qed.

Lemma valid_conf c : 0 < c < 100 -> check_conf_percentage_validity (ConfNumber c) = Ok c.
Proof.
  intros H. unfold check_conf_percentage_validity. destruct (Rlt_dec 0 c); [|lra]. destruct (Rlt_dec c 100); [reflexivity|lra].
Qed.

Lemma combine_map_seq {A} (f g : nat -> A) n :
  combine (map f (seq 0 n)) (map g (seq 0 n)) = map (fun j => (f j, g j)) (seq 0 n).
Proof. generalize (seq 0 n). intros l. induction l as [|j l IH]; simpl; [reflexivity|]. rewrite IH. reflexivity. Qed.

(** The interval when every percentage is a proper one. *)
Lemma bca_interval_eq nd rows cols a jrows jcols ja mle c lo hi :
  (0 < rows)%nat -> 0 < c < 100 ->
  (forall j, (j < cols)%nat ->
     calc_lower_bca_percentile nd (100 - c) (calc_bias_correction_bca nd (column rows a j) (mle j))
       (calc_acceleration_bca (column jrows ja j)) = XFin (lo j) /\
     calc_upper_bca_percentile nd (100 - c) (calc_bias_correction_bca nd (column rows a j) (mle j))
       (calc_acceleration_bca (column jrows ja j)) = XFin (hi j) /\
     0 <= lo j <= 100 /\ 0 <= hi j <= 100) ->
  calc_bca_interval nd (Samples2D rows cols a) (Samples2D jrows jcols ja) mle (ConfNumber c) =
  Ok (map (fun j => (np_percentile Lower (lo j) (column rows a j), np_percentile Higher (hi j) (column rows a j))) (seq 0 cols)).
Proof.
  intros Hr Hc H. unfold calc_bca_interval. rewrite valid_conf by exact Hc. simpl bind.
  unfold get_alpha_from_conf_percentage.
  rewrite (collect_map _ (fun j => np_percentile Lower (lo j) (column rows a j))).
  - rewrite (collect_map _ (fun j => np_percentile Higher (hi j) (column rows a j))).
    + simpl bind. rewrite combine_map_seq. reflexivity.
    + intros j Hj. apply in_seq in Hj. destruct (H j ltac:(lia)) as (_ & -> & _ & Hq). apply percentile_res_ok; assumption.
  - intros j Hj. apply in_seq in Hj. destruct (H j ltac:(lia)) as (-> & _ & Hq & _). apply percentile_res_ok; assumption.
Qed.

(** Share of the replicates below the estimate. *)
Definition share_below (rows : nat) (a : nat -> nat -> R) (mle : nat -> R) (j : nat) : R :=
  INR (below (mle j) (column rows a j)) / INR rows.

Lemma bias_correction_eq nd rows a mle j :
  calc_bias_correction_bca nd (column rows a j) (mle j) = norm_ppf nd (share_below rows a mle j).
Proof. unfold calc_bias_correction_bca. rewrite column_length. reflexivity. Qed.

(** ** C58: the intervals.  If for every parameter some but not all replicates are below
    the estimate and the stated condition holds, the endpoints are replicates and in order. *)
Theorem C58_bca_interval nd rows cols a jrows jcols ja mle c :
  normal_law nd -> (0 < rows)%nat -> 0 < c < 100 ->
  (forall j, (j < cols)%nat ->
     0 < share_below rows a mle j < 1 /\
     calc_acceleration_bca (column jrows ja j) * (nd_ppf nd (share_below rows a mle j) + nd_ppf nd ((100 - c) / 200)) < 1 /\
     calc_acceleration_bca (column jrows ja j) * (nd_ppf nd (share_below rows a mle j) + nd_ppf nd (1 - (100 - c) / 200)) < 1) ->
  exists iv, calc_bca_interval nd (Samples2D rows cols a) (Samples2D jrows jcols ja) mle (ConfNumber c) = Ok iv /\
    length iv = cols /\
    forall j, (j < cols)%nat ->
      (exists b, (b < rows)%nat /\ lower_end iv j = a b j) /\
      (exists b, (b < rows)%nat /\ upper_end iv j = a b j) /\
      lower_end iv j <= upper_end iv j.
Proof.
  intros Hn Hr Hc H.
  set (b := fun j => nd_ppf nd (share_below rows a mle j)).
  set (acc := fun j => calc_acceleration_bca (column jrows ja j)).
  set (lo := fun j => 100 * nd_cdf nd (adjusted (b j) (acc j) (nd_ppf nd ((100 - c) / 200)))).
  set (hi := fun j => 100 * nd_cdf nd (adjusted (b j) (acc j) (nd_ppf nd (1 - (100 - c) / 200)))).
  assert (E : forall j, (j < cols)%nat ->
     calc_lower_bca_percentile nd (100 - c) (calc_bias_correction_bca nd (column rows a j) (mle j)) (acc j) = XFin (lo j) /\
     calc_upper_bca_percentile nd (100 - c) (calc_bias_correction_bca nd (column rows a j) (mle j)) (acc j) = XFin (hi j) /\
     0 < lo j <= hi j /\ hi j < 100).
  { intros j Hj. destruct (H j Hj) as (Hs & H1 & H2).
    rewrite bias_correction_eq, norm_ppf_inner by exact Hs. fold (b j) in *.
    fold (acc j) in H1, H2. replace ((100 - c) / 200) with ((100 - c) / (100 * 2)) in * by field.
    destruct (C58_lower_percentile_below_upper nd (100 - c) (b j) (acc j) Hn ltac:(lra) H1 H2) as (l & h & El & Eh & Hlh).
    unfold calc_lower_bca_percentile, calc_upper_bca_percentile in *.
    rewrite (norm_ppf_inner nd ((100 - c) / (100 * 2))), (norm_ppf_inner nd (1 - (100 - c) / (100 * 2))) in * by lra.
    rewrite !bca_percentile_finite in * by lra.
    injection El as El. injection Eh as Eh. unfold lo, hi.
    replace ((100 - c) / 200) with ((100 - c) / (100 * 2)) by field. rewrite El, Eh. auto. }
  eexists. split; [|split].
  - apply (bca_interval_eq nd rows cols a jrows jcols ja mle c lo hi Hr Hc).
    intros j Hj. destruct (E j Hj) as (E1 & E2 & E3 & E4). repeat split; try assumption; lra.
  - rewrite map_length, seq_length. reflexivity.
  - intros j Hj. rewrite lower_end_eq, upper_end_eq by exact Hj. cbn [fst snd].
    destruct (E j Hj) as (_ & _ & E3 & E4). pose proof (column_nonempty rows a j Hr) as Hne.
    assert (Hin : forall x, In x (column rows a j) -> exists b, (b < rows)%nat /\ x = a b j).
    { intros x Hx. unfold column in Hx. apply in_map_iff in Hx. destruct Hx as (b' & E' & Hb). apply in_seq in Hb.
      exists b'. split; [lia|congruence]. }
    split; [|split].
    + apply Hin, percentile_in; [exact Hne|lra].
    + apply Hin, percentile_in; [exact Hne|lra].
    + apply percentile_lower_le_higher; [exact Hne|lra|lra|lra].
Qed.

(** ** C58: no bias, no acceleration: the percentile interval *)
Theorem C58_reduces_to_percentile_interval nd rows cols a jrows jcols ja mle c :
  normal_law nd -> nd_ppf nd (1 / 2) = 0 -> (0 < rows)%nat -> 0 < c < 100 ->
  (forall j, (j < cols)%nat -> share_below rows a mle j = 1 / 2 /\ calc_acceleration_bca (column jrows ja j) = 0) ->
  calc_bca_interval nd (Samples2D rows cols a) (Samples2D jrows jcols ja) mle (ConfNumber c) =
  calc_percentile_interval (Samples2D rows cols a) (ConfNumber c).
Proof.
  intros Hn Hmed Hr Hc H. rewrite interval_eq by assumption.
  apply (bca_interval_eq nd rows cols a jrows jcols ja mle c (fun _ => (100 - c) / 2) (fun _ => 100 - (100 - c) / 2) Hr Hc).
  intros j Hj. destruct (H j Hj) as [Hs ->]. rewrite bias_correction_eq, Hs, norm_ppf_inner, Hmed by lra.
  unfold calc_lower_bca_percentile, calc_upper_bca_percentile. rewrite !norm_ppf_inner by lra.
  rewrite !bca_percentile_finite by lra.
  assert (Ead : forall z, adjusted 0 0 z = z) by (intros z; unfold adjusted; field; lra).
  rewrite !Ead. destruct Hn as (_ & _ & Hi). rewrite !Hi by lra.
  split; [f_equal; field|]. split; [f_equal; field|]. lra.
Qed.

(** ** Parameters whose replicates are all on one side of the estimate.
    norm.ppf returns an infinity, both percentages become NaN, and the call fails for all
    parameters.  A constrained parameter, whose replicates all equal its fixed value, is
    such a case. *)
Lemma one_sided_nan nd b acc z : b = XPos \/ b = XNeg -> bca_percentile nd b acc (XFin z) = XNaN.
Proof.
  intros [-> | ->]; unfold bca_percentile; simpl; destruct (Req_EM_T acc 0); simpl; try reflexivity;
    destruct (Rlt_dec 0 acc); reflexivity.
Qed.

Lemma collect_value_error {A} (l : list (Res A)) :
  (forall r, In r l -> (exists x, r = Ok x) \/ r = Err ValueError) -> In (Err ValueError) l ->
  collect l = Err ValueError.
Proof.
  induction l as [|r l IH]; intros H Hin; [destruct Hin|]. simpl.
  destruct (H r (or_introl eq_refl)) as [[x ->]| ->]; [|reflexivity]. simpl.
  destruct Hin as [E|Hin]; [discriminate|]. rewrite IH; [reflexivity| |exact Hin]. intros r' Hr'. apply H. right. exact Hr'.
Qed.

Theorem C58_refuted_one_sided_replicates nd rows cols a jrows jcols ja mle c j :
  (0 < rows)%nat -> 0 < c < 100 -> (j < cols)%nat ->
  (forall b, (b < rows)%nat -> mle j <= a b j) \/ (forall b, (b < rows)%nat -> a b j < mle j) ->
  calc_bca_interval nd (Samples2D rows cols a) (Samples2D jrows jcols ja) mle (ConfNumber c) = Err ValueError.
Proof.
  intros Hr Hc Hj Hside. unfold calc_bca_interval. rewrite valid_conf by exact Hc. simpl bind.
  unfold get_alpha_from_conf_percentage.
  rewrite collect_value_error; [reflexivity| |].
  - intros r Hin. apply in_map_iff in Hin. destruct Hin as (k & <- & _).
    pose proof (column_nonempty rows a k Hr) as Hne.
    unfold np_percentile_res. destruct (calc_lower_bca_percentile _ _ _ _) as [q| | |]; auto.
    destruct (Rle_dec 0 q); auto. destruct (Rle_dec q 100); auto.
    destruct (column rows a k); [congruence|]. left. eexists. reflexivity.
  - apply in_map_iff. exists j. split; [|apply in_seq; lia].
    unfold calc_lower_bca_percentile. rewrite norm_ppf_inner by lra.
    rewrite one_sided_nan; [reflexivity|]. rewrite bias_correction_eq. unfold share_below, below.
    assert (Hn0 : INR rows <> 0) by (apply not_0_INR; lia).
    destruct Hside as [Hs|Hs]; [right|left].
    + rewrite filter_none.
      * simpl length. simpl INR. unfold norm_ppf. destruct (Req_EM_T (0 / INR rows) 0) as [|E]; [reflexivity|].
        exfalso. apply E. field. exact Hn0.
      * intros x Hx. unfold column in Hx. apply in_map_iff in Hx. destruct Hx as (b & <- & Hb). apply in_seq in Hb.
        specialize (Hs b ltac:(lia)). destruct (Rlt_dec (a b j) (mle j)); [lra|reflexivity].
    + rewrite filter_all.
      * rewrite column_length. unfold norm_ppf.
        destruct (Req_EM_T (INR rows / INR rows) 0) as [E|E]; [exfalso; unfold Rdiv in E; rewrite Rinv_r in E by exact Hn0; lra|].
        destruct (Req_EM_T (INR rows / INR rows) 1) as [|E']; [reflexivity|]. exfalso. apply E'. field. exact Hn0.
      * intros x Hx. unfold column in Hx. apply in_map_iff in Hx. destruct Hx as (b & <- & Hb). apply in_seq in Hb.
        specialize (Hs b ltac:(lia)). destruct (Rlt_dec (a b j) (mle j)); [reflexivity|lra].
Qed.

(** ** The assumptions can be met: the logistic distribution satisfies [normal_law]. *)
Definition logistic : normal_dist := mkNormal (fun x => / (1 + exp (- x))) (fun p => - ln (/ p - 1)).

Lemma logistic_law : normal_law logistic.
Proof.
  unfold normal_law, logistic. simpl. split; [|split].
  - intros x. pose proof (exp_pos (- x)). split; [apply Rinv_0_lt_compat; lra|].
    rewrite <- Rinv_1 at 2. apply Rinv_lt_contravar; lra.
  - intros x y H. pose proof (exp_pos (- x)). pose proof (exp_pos (- y)). apply Rinv_lt_contravar.
    + apply Rmult_lt_0_compat; lra.
    + apply Rplus_lt_compat_l, exp_increasing. lra.
  - intros p Hp. rewrite Ropp_involutive.
    assert (1 < / p) by (rewrite <- Rinv_1 at 1; apply Rinv_lt_contravar; lra).
    rewrite exp_ln by lra. replace (1 + (/ p - 1)) with (/ p) by ring. apply Rinv_inv.
Qed.

(** The crossing case arises, e.g. for bias correction 6 and acceleration 1/6. *)
Example ex_crossing :
  0 < 5 < 100 /\ / 6 * (6 + nd_ppf logistic (5 / (100 * 2))) < 1 /\ 1 < / 6 * (6 + nd_ppf logistic (1 - 5 / (100 * 2))).
Proof.
  assert (Hmed : nd_ppf logistic (1 / 2) = 0).
  { simpl. replace (/ (1 / 2) - 1) with 1 by field. rewrite ln_1. ring. }
  pose proof (ppf_mono logistic (5 / (100 * 2)) (1 / 2) logistic_law ltac:(lra) ltac:(lra) ltac:(lra)).
  pose proof (ppf_mono logistic (1 / 2) (1 - 5 / (100 * 2)) logistic_law ltac:(lra) ltac:(lra) ltac:(lra)).
  rewrite Hmed in *. lra.
Qed.

Example ex_bca :
  normal_law logistic /\ nd_ppf logistic (1 / 2) = 0 /\
  share_below 4 (fun b _ => nth b [1; 4; 2; 3] 0) (fun _ => 5 / 2) 0 = 1 / 2 /\
  calc_acceleration_bca (column 3 (fun b _ => nth b [1; 3; 2] 0) 0) = 0 /\
  exists iv, calc_bca_interval logistic (Samples2D 4 1 (fun b _ => nth b [1; 4; 2; 3] 0))
       (Samples2D 3 1 (fun b _ => nth b [1; 3; 2] 0)) (fun _ => 5 / 2) (ConfNumber 95) = Ok iv.
Proof.
  assert (Hmed : nd_ppf logistic (1 / 2) = 0).
  { simpl. replace (/ (1 / 2) - 1) with 1 by field. rewrite ln_1. ring. }
  assert (Hs : share_below 4 (fun b _ => nth b [1; 4; 2; 3] 0) (fun _ => 5 / 2) 0 = 1 / 2).
  { unfold share_below, below, column. simpl.
    repeat match goal with |- context [Rlt_dec ?x ?y] => destruct (Rlt_dec x y); try lra end. simpl. field. }
  assert (Ha : calc_acceleration_bca (column 3 (fun b _ => nth b [1; 3; 2] 0) 0) = 0).
  { apply (C58_acceleration_symmetric _ 2); [apply column_nonempty; lia|]. unfold column. simpl.
    replace (2 * 2 - 1) with 3 by ring. replace (2 * 2 - 3) with 1 by ring. replace (2 * 2 - 2) with 2 by ring. apply perm_swap. }
  split; [apply logistic_law|]. split; [exact Hmed|]. split; [exact Hs|]. split; [exact Ha|].
  rewrite (C58_reduces_to_percentile_interval logistic); [|apply logistic_law|exact Hmed|lia|lra|].
  - eexists. apply interval_eq; [lia|lra].
  - intros j Hj. assert (j = 0%nat) by lia. subst j. split; assumption.
Qed.

Print Assumptions C58_acceleration_is_a_number.
Print Assumptions C58_acceleration_bound.
Print Assumptions C58_acceleration_affine.
Print Assumptions C58_acceleration_symmetric.
Print Assumptions C58_lower_percentile_below_upper.
Print Assumptions C58_refuted_percentiles_cross.
Print Assumptions C58_bca_interval.
Print Assumptions C58_reduces_to_percentile_interval.
Print Assumptions C58_refuted_one_sided_replicates.
