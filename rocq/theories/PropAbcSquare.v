(** C78, second statistic: the ABC interval of the square of a weighted mean.

    The mean has no bias and no curvature, so [C78_abc_interval_of_a_weighted_mean] does
    not see how calc_abc_interval computes them (bootstrap_abc.py:481-508, 628-779).  The
    square of the mean has both.  Efron's method respects transformations: the interval of
    the square is the square of the interval of the mean, and for that the bias and the
    quadratic coefficient have to be exactly right, since they have to cancel. *)
From Coq Require Import Reals Lra Lia ZArith List Bool Arith FunctionalExtensionality.
From Verif Require Import Res Vec Arr Ids Mappings MappingFacts LongData PropMappings Frame ChoiceTools BaseModel PropLikelihood Estimation PropEstimation
  BootCalcs PropBca BootAbc PropAbc.
Import ListNotations.
Open Scope R_scope.

Section Square.
  Variables (n K : nat) (r2o : mat) (orig : option vec) (fit : xvec -> Res vec) (t : mat) (eps : R).
  Let mean := sample_mean n t.
  Let dev (o j : nat) : R := t o j - mean j.
  Let ss (j : nat) : R := sumn n (fun o => dev o j ^ 2).
  Let s (j : nat) : R := sqrt (ss j) / INR n.
  Let acc (j : nat) : R := sumn n (fun o => dev o j ^ 3) / (6 * (ss j * sqrt (ss j))).
  Let sq : vec := fun j => mean j ^ 2.
  Hypothesis Hn : (0 < n)%nat.
  Hypothesis Heps : 0 < eps.
  Hypothesis Hfit : forall wide : vec,
    fit (long_of n r2o orig (finite wide)) = Ok (fun j => sumn n (fun o => wide o * t o j) ^ 2).
  Hypothesis Hmean : forall j, (j < K)%nat -> 0 < mean j.
  Hypothesis Htol1 : forall o j, (o < n)%nat -> (j < K)%nat ->
    dev o j = 0 \/ / 10 ^ 12 < 4 * eps * mean j * Rabs (dev o j) /\ / 10 ^ 12 < 2 * eps ^ 2 * dev o j ^ 2.
  Hypothesis Htol2 : forall j, (j < K)%nat -> / 10 ^ 10 < 2 * eps ^ 2 * s j ^ 2.

  Let INRn : INR n <> 0.
  Proof. apply not_0_INR. lia. Qed.
  Let INRpos : 0 < INR n.
  Proof. apply lt_0_INR. lia. Qed.

  Let ss_nonneg j : 0 <= ss j.
  Proof. unfold ss. apply sumn_ge0. intros. apply pow2_ge_0. Qed.
  Let s_pos j : (j < K)%nat -> 0 < s j.
  Proof.
    intros Hj. specialize (Htol2 j Hj).
    assert (H0 : 0 <= s j).
    { unfold s, Rdiv. apply Rmult_le_pos; [apply sqrt_pos|left; apply Rinv_0_lt_compat, INRpos]. }
    destruct H0 as [H0|H0]; [exact H0|]. rewrite <- H0 in Htol2.
    assert (0 < / 10 ^ 10) by (apply Rinv_0_lt_compat, pow_lt; lra). exfalso. nra.
  Qed.
  Let ss_s j : ss j = (s j * INR n) ^ 2.
  Proof.
    unfold s. replace (sqrt (ss j) / INR n * INR n) with (sqrt (ss j)) by (field; exact INRn).
    rewrite pow2_sqrt; [reflexivity|apply ss_nonneg].
  Qed.
  Let ss_pos j : (j < K)%nat -> 0 < ss j.
  Proof. intros Hj. rewrite ss_s. apply pow_lt, Rmult_lt_0_compat; [apply s_pos, Hj|exact INRpos]. Qed.

  Let dev_t j : sumn n (fun o => dev o j * t o j) = ss j.
  Proof.
    assert (E0 : sumn n (fun o => dev o j) = 0).
    { unfold dev. rewrite sumn_minus, sumn_const. unfold mean, sample_mean. field. exact INRn. }
    unfold ss. rewrite (sumn_ext _ (fun o => dev o j * t o j) (fun o => dev o j ^ 2 + mean j * dev o j))
      by (intros; unfold dev; ring).
    rewrite sumn_plus, sumn_scal_l, E0. ring.
  Qed.

  Let P (o : nat) : vec := fun j => sumn n (fun i => wide_weights_plus n eps o i * t i j) ^ 2.
  Let M (o : nat) : vec := fun j => sumn n (fun i => wide_weights_minus n eps o i * t i j) ^ 2.
  Let terms := map (fun o => (P o, M o)) (seq 0 n).
  Let tp : mat := fun o => fst (nth o terms (fun _ => 0, fun _ => 0)).
  Let tm : mat := fun o => snd (nth o terms (fun _ => 0, fun _ => 0)).

  Let terms_ok : calc_finite_diff_terms_for_abc n r2o orig fit eps = Ok (tp, tm).
  Proof.
    unfold calc_finite_diff_terms_for_abc.
    rewrite (finite_diff_loop_ok n r2o orig fit eps P M) by (intros; apply Hfit). reflexivity.
  Qed.
  Let tp_val o j : (o < n)%nat -> tp o j = (mean j + eps * dev o j) ^ 2.
  Proof.
    intros Ho. unfold tp, terms. rewrite nth_map_seq0 by exact Ho. cbn [fst]. unfold P.
    rewrite (sum_plus_weights n eps o (fun i => t i j) Ho). fold (sample_mean n t j). fold (mean j). unfold dev. f_equal. ring.
  Qed.
  Let tm_val o j : (o < n)%nat -> tm o j = (mean j - eps * dev o j) ^ 2.
  Proof.
    intros Ho. unfold tm, terms. rewrite nth_map_seq0 by exact Ho. cbn [snd]. unfold M.
    rewrite (sum_minus_weights n eps o (fun i => t i j) Ho). fold (sample_mean n t j). fold (mean j). unfold dev. f_equal. ring.
  Qed.

  Lemma square_influence o j : (o < n)%nat -> (j < K)%nat ->
    calc_empirical_influence_abc tp tm eps o j = 2 * mean j * dev o j.
  Proof.
    intros Ho Hj. unfold calc_empirical_influence_abc. rewrite tp_val, tm_val by exact Ho. unfold isclose.
    replace ((mean j + eps * dev o j) ^ 2 - (mean j - eps * dev o j) ^ 2) with (4 * eps * mean j * dev o j) by ring.
    destruct (Rle_dec (Rabs (4 * eps * mean j * dev o j)) (/ 10 ^ 12)) as [Hle|_].
    - destruct (Htol1 o j Ho Hj) as [E|[Hgt _]]; [rewrite E; ring|]. exfalso.
      pose proof (Hmean j Hj) as Hm. assert (0 < 4 * eps * mean j) by (apply Rmult_lt_0_compat; lra).
      rewrite Rabs_mult, (Rabs_right (4 * eps * mean j)) in Hle by lra. lra.
    - field. lra.
  Qed.

  Lemma square_second_order o j : (o < n)%nat -> (j < K)%nat ->
    calc_2nd_order_influence_abc sq tp tm eps o j = 2 * dev o j ^ 2.
  Proof.
    intros Ho Hj. unfold calc_2nd_order_influence_abc. rewrite tp_val, tm_val by exact Ho. unfold isclose, sq.
    replace ((mean j + eps * dev o j) ^ 2 + (mean j - eps * dev o j) ^ 2 - 2 * mean j ^ 2) with (2 * eps ^ 2 * dev o j ^ 2) by ring.
    destruct (Rle_dec (Rabs (2 * eps ^ 2 * dev o j ^ 2)) (/ 10 ^ 12)) as [Hle|_].
    - destruct (Htol1 o j Ho Hj) as [E|[_ Hgt]]; [rewrite E; ring|]. exfalso.
      assert (0 <= 2 * eps ^ 2 * dev o j ^ 2).
      { apply Rmult_le_pos; [|apply pow2_ge_0]. apply Rmult_le_pos; [lra|apply pow2_ge_0]. }
      rewrite Rabs_right in Hle by lra. lra.
    - field. lra.
  Qed.

  Let infl := calc_empirical_influence_abc tp tm eps.

  Let infl2 j : (j < K)%nat -> sumn n (fun o => infl o j ^ 2) = (2 * mean j) ^ 2 * ss j.
  Proof.
    intros Hj. unfold ss. rewrite <- sumn_scal_l. apply sumn_ext. intros o Ho. unfold infl.
    rewrite square_influence by assumption. ring.
  Qed.

  Lemma square_std_error j : (j < K)%nat -> calc_std_error_abc n infl j = 2 * mean j * s j.
  Proof.
    intros Hj. unfold calc_std_error_abc, s. rewrite infl2 by exact Hj. pose proof (Hmean j Hj) as Hm.
    rewrite sqrt_mult_alt by apply pow2_ge_0. rewrite sqrt_pow2 by lra. unfold Rdiv. ring.
  Qed.

  Lemma square_acceleration j : (j < K)%nat -> calc_acceleration_abc n infl j = XFin (acc j).
  Proof.
    intros Hj. unfold calc_acceleration_abc, acc. rewrite infl2 by exact Hj.
    rewrite (sumn_ext _ (fun o => infl o j ^ 3) (fun o => (2 * mean j) ^ 3 * dev o j ^ 3))
      by (intros o Ho; unfold infl; rewrite square_influence by assumption; ring).
    rewrite sumn_scal_l. unfold pow_1_5. cbn [xdiv]. pose proof (Hmean j Hj) as Hm.
    rewrite sqrt_mult_alt by apply pow2_ge_0. rewrite sqrt_pow2 by lra.
    pose proof (ss_pos j Hj) as Hs. pose proof (sqrt_lt_R0 _ Hs) as Hq.
    assert (0 < ss j * sqrt (ss j)) by (apply Rmult_lt_0_compat; assumption).
    assert (0 < (2 * mean j) ^ 3) by (apply pow_lt; lra).
    replace (6 * ((2 * mean j) ^ 2 * ss j * (2 * mean j * sqrt (ss j)))) with ((2 * mean j) ^ 3 * (6 * (ss j * sqrt (ss j)))) by ring.
    destruct (Req_EM_T ((2 * mean j) ^ 3 * (6 * (ss j * sqrt (ss j)))) 0) as [E|_]; [exfalso; nra|]. f_equal. field.
    repeat split; lra.
  Qed.

  (** The bias of the square of the mean is the squared standard error of the mean. *)
  Lemma square_bias j : (j < K)%nat -> calc_bias_abc n (calc_2nd_order_influence_abc sq tp tm eps) j = s j ^ 2.
  Proof.
    intros Hj. unfold calc_bias_abc.
    rewrite (sumn_ext _ (fun o => calc_2nd_order_influence_abc sq tp tm eps o j) (fun o => 2 * dev o j ^ 2))
      by (intros o Ho; apply square_second_order; assumption).
    rewrite sumn_scal_l. fold (ss j). rewrite ss_s. field. exact INRn.
  Qed.

  Let sum_shift j c : (j < K)%nat ->
    sumn n (fun o => (1 / INR n + c * infl o j) * t o j) = mean j + c * (2 * mean j * ss j).
  Proof.
    intros Hj. rewrite (sumn_ext _ _ (fun o => 1 / INR n * t o j + c * (2 * mean j) * (dev o j * t o j)))
      by (intros o Ho; unfold infl; rewrite square_influence by assumption; ring).
    rewrite sumn_plus, !sumn_scal_l, dev_t. unfold mean, sample_mean. field. exact INRn.
  Qed.

  Let fit_ext (w : xvec) (v : vec) : (forall o, w o = XFin (v o)) ->
    fit (long_of n r2o orig w) = Ok (fun j => sumn n (fun o => v o * t o j) ^ 2).
  Proof.
    intros Hw. replace w with (finite v) by (apply functional_extensionality; intros o; symmetry; apply Hw).
    apply Hfit.
  Qed.

  Let SEpos j : (j < K)%nat -> 0 < 2 * mean j * s j.
  Proof. intros Hj. pose proof (Hmean j Hj). pose proof (s_pos j Hj). apply Rmult_lt_0_compat; lra. Qed.

  Lemma square_quadratic_coef std :
    (forall j, (j < K)%nat -> std j = 2 * mean j * s j) ->
    exists q, efron_quadratic_coef_abc n r2o K orig fit sq infl std eps = Ok q /\
      forall j, (j < K)%nat -> q j = XFin (s j / (2 * mean j)).
  Proof.
    intros Hstd. unfold efron_quadratic_coef_abc.
    set (c := fun j => eps / (INR n ^ 2 * std j)).
    assert (HW : forall g j o, (j < K)%nat ->
      xadd (XFin (1 / INR n)) (xscale (g * eps) (standardized_influence n infl std o j)) =
      XFin (1 / INR n + g * c j * infl o j)).
    { intros g j o Hj. unfold standardized_influence. cbn [xdiv].
      pose proof (SEpos j Hj) as Hs. rewrite <- Hstd in Hs by exact Hj.
      assert (0 < INR n ^ 2 * std j) by (apply Rmult_lt_0_compat; [apply pow_lt, INRpos|exact Hs]).
      destruct (Req_EM_T (INR n ^ 2 * std j) 0) as [E|_]; [lra|]. cbn [xscale xadd]. f_equal. unfold c. field. split; lra. }
    set (T := fun g j => (fun k => sumn n (fun o => (1 / INR n + g * c j * infl o j) * t o k) ^ 2)).
    assert (HT : forall g j, (0 <= j < 0 + K)%nat ->
      fit (long_of n r2o orig (fun o => xadd (XFin (1 / INR n)) (xscale (g * eps) (standardized_influence n infl std o j)))) = Ok (T g j)).
    { intros g j Hj. apply fit_ext. intros o. apply HW. lia. }
    rewrite (quadratic_loop_ok n r2o orig fit _ _ (T 1) (T (-1))) by (intros; apply HT; assumption).
    cbn [bind]. unfold diag_terms. set (l := map _ (seq 0 K)).
    assert (HV : forall j, (j < K)%nat ->
      fst (nth j l (fun _ => 0, fun _ => 0)) j = (mean j + eps * s j) ^ 2 /\
      snd (nth j l (fun _ => 0, fun _ => 0)) j = (mean j - eps * s j) ^ 2).
    { intros j Hj. unfold l. rewrite nth_map_seq0 by exact Hj. cbn [fst snd]. unfold T.
      rewrite !sum_shift by exact Hj. unfold c. rewrite Hstd, ss_s by exact Hj.
      pose proof (Hmean j Hj). pose proof (s_pos j Hj).
      split; f_equal; field; repeat split; try lra; exact INRn. }
    set (close := fun j : nat => isclose (/ 10 ^ 10) (fst (nth j l (fun _ => 0, fun _ => 0)) j + snd (nth j l (fun _ => 0, fun _ => 0)) j) (2 * sq j)).
    assert (Hclose : forall j, (j < K)%nat -> close j = false).
    { intros j Hj. unfold close. destruct (HV j Hj) as [-> ->]. unfold isclose, sq.
      replace ((mean j + eps * s j) ^ 2 + (mean j - eps * s j) ^ 2 - 2 * mean j ^ 2) with (2 * eps ^ 2 * s j ^ 2) by ring.
      specialize (Htol2 j Hj). assert (0 < / 10 ^ 10) by (apply Rinv_0_lt_compat, pow_lt; lra).
      rewrite Rabs_right by lra. destruct (Rle_dec _ _) as [Hx|_]; [lra|reflexivity]. }
    assert (Ef : filter (fun j => negb (close j)) (seq 0 K) = seq 0 K).
    { assert (G : forall L, (forall j, In j L -> (j < K)%nat) -> filter (fun j => negb (close j)) L = L).
      { induction L as [|j L IH]; intros HL; [reflexivity|]. cbn [filter].
        rewrite Hclose by (apply HL; left; reflexivity). cbn [negb]. f_equal. apply IH. intros; apply HL; right; assumption. }
      apply G. intros j Hj. apply in_seq in Hj. lia. }
    unfold close in Ef. rewrite Ef, seq_length, Nat.ltb_irrefl, andb_false_r. eexists. split; [reflexivity|].
    intros j Hj. cbv beta. pose proof (Hclose j Hj) as Hf. unfold close in Hf. rewrite Hf.
    destruct (HV j Hj) as [-> ->]. cbn [xdiv]. pose proof (SEpos j Hj) as Hs. pose proof (Hmean j Hj). pose proof (s_pos j Hj).
    rewrite Hstd by exact Hj. assert (0 < eps ^ 2) by (apply pow_lt; exact Heps).
    assert (0 < 2 * (2 * mean j * s j) * eps ^ 2) by (apply Rmult_lt_0_compat; lra).
    destruct (Req_EM_T (2 * (2 * mean j * s j) * eps ^ 2) 0) as [E|_]; [lra|]. f_equal. unfold sq. field.
    repeat split; lra.
  Qed.

  Variables (nd : normal_dist) (c : R).
  Hypothesis Hnd : normal_law nd.
  Hypothesis Hmed : nd_cdf nd 0 = 1 / 2.
  Hypothesis Hc : 0 < c < 100.

  Let ppf_cdf x : nd_ppf nd (nd_cdf nd x) = x.
  Proof.
    destruct Hnd as (H1 & H2 & H3). pose proof (H3 _ (H1 x)) as E.
    destruct (Rtotal_order (nd_ppf nd (nd_cdf nd x)) x) as [H|[H|H]]; [|exact H|];
      pose proof (H2 _ _ H); lra.
  Qed.

  Lemma square_endpoint pct (bc ac : xvec) std :
    0 < pct < 100 ->
    (forall j, (j < K)%nat -> std j = 2 * mean j * s j) -> (forall j, (j < K)%nat -> ac j = XFin (acc j)) ->
    (forall j, (j < K)%nat -> bc j = XFin (acc j)) ->
    (forall j, (j < K)%nat -> acc j * (acc j + nd_ppf nd (pct / 100)) <> 1) ->
    efron_endpoint_from_percentile_abc n r2o K orig fit nd pct bc ac std infl =
    Ok (map (fun j => (mean j + s j * abc_lambda (acc j) (nd_ppf nd (pct / 100))) ^ 2) (seq 0 K)).
  Proof.
    intros Hp Hstd Hac Hbc Hne. unfold efron_endpoint_from_percentile_abc.
    set (m := fun j => abc_lambda (acc j) (nd_ppf nd (pct / 100)) / (2 * mean j * s j * INR n ^ 2)).
    assert (HW : forall j o, (j < K)%nat ->
      xadd (XFin (1 / INR n)) (xmul (xdiv (least_favorable_lambda nd pct (bc j) (ac j)) (XFin (std j * INR n ^ 2))) (XFin (infl o j)))
      = XFin (1 / INR n + m j * infl o j)).
    { intros j o Hj. rewrite Hac, Hbc, Hstd by exact Hj. unfold least_favorable_lambda, norm_ppf_x.
      replace (pct * (1 / 100)) with (pct / 100) by lra.
      destruct (Rle_dec 0 (pct / 100)) as [_|Hx]; [|lra]. destruct (Rle_dec (pct / 100) 1) as [_|Hx]; [|lra].
      unfold norm_ppf. destruct (Req_EM_T (pct / 100) 0) as [Hx|_]; [lra|].
      destruct (Req_EM_T (pct / 100) 1) as [Hx|_]; [lra|]. cbn [xadd xmul xscale xopp].
      specialize (Hne j Hj). set (z := nd_ppf nd (pct / 100)) in *. cbn [xdiv].
      assert (Hd : (1 + - (acc j * (acc j + z))) * (1 + - (acc j * (acc j + z))) <> 0)
        by (intros E; apply Rmult_integral in E; destruct E as [E|E]; apply Hne; lra).
      destruct (Req_EM_T _ 0) as [E|_]; [contradiction|]. cbn [xdiv].
      pose proof (SEpos j Hj) as Hs. pose proof (Hmean j Hj). pose proof (s_pos j Hj).
      assert (0 < 2 * mean j * s j * INR n ^ 2) by (apply Rmult_lt_0_compat; [exact Hs|apply pow_lt, INRpos]).
      destruct (Req_EM_T (2 * mean j * s j * INR n ^ 2) 0) as [E|_]; [lra|]. cbn [xmul xscale xadd]. f_equal.
      unfold m, abc_lambda. fold z. field. repeat split; try lra; exact INRn || (intros E; apply Hne; lra). }
    set (T := fun j => (fun k => sumn n (fun o => (1 / INR n + m j * infl o j) * t o k) ^ 2)).
    rewrite (endpoint_loop_ok n r2o orig fit _ T).
    - f_equal. apply map_ext_in. intros j Hj. apply in_seq in Hj. unfold T. rewrite sum_shift by lia. f_equal. f_equal.
      unfold m. pose proof (s_pos j ltac:(lia)) as Hs. pose proof (Hmean j ltac:(lia)).
      rewrite ss_s. field. repeat split; try lra; exact INRn.
    - intros j Hj. apply fit_ext. intros o. apply HW. lia.
  Qed.

  Lemma abc_squared_mean :
    let zlo := nd_ppf nd ((100 - c) / 200) in
    let zhi := nd_ppf nd (1 - (100 - c) / 200) in
    (forall j, (j < K)%nat -> acc j * (acc j + zlo) <> 1 /\ acc j * (acc j + zhi) <> 1) ->
    calc_abc_interval n r2o K orig fit nd sq (ConfNumber c) eps =
    Ok (map (fun j => ((mean j + s j * abc_lambda (acc j) zlo) ^ 2, (mean j + s j * abc_lambda (acc j) zhi) ^ 2)) (seq 0 K)).
  Proof.
    intros zlo zhi Hne. unfold calc_abc_interval. cbn [check_conf_percentage_validity].
    destruct (Rlt_dec 0 c) as [_|Hx]; [|lra]. destruct (Rlt_dec c 100) as [_|Hx]; [|lra]. cbn [bind].
    rewrite terms_ok. cbn [bind]. fold infl.
    destruct (square_quadratic_coef (calc_std_error_abc n infl)) as (q & Eq & Hq); [apply square_std_error|].
    rewrite Eq. cbn [bind]. set (bc := calc_bias_correction_abc _ _ _).
    assert (Hbc : forall j, (j < K)%nat -> bc j = XFin (acc j)).
    { intros j Hj. unfold bc, calc_bias_correction_abc. rewrite square_acceleration by exact Hj.
      unfold calc_total_curvature_abc. rewrite Hq, square_bias, square_std_error by exact Hj.
      pose proof (SEpos j Hj) as Hs. pose proof (Hmean j Hj). pose proof (s_pos j Hj).
      cbn [xdiv]. destruct (Req_EM_T (2 * mean j * s j) 0) as [E|_]; [lra|].
      cbn [xopp xadd xscale norm_cdf xmul].
      replace (-1 * (s j ^ 2 / (2 * mean j * s j) + - (s j / (2 * mean j)))) with 0 by (field; split; lra).
      rewrite Hmed. replace (2 * nd_cdf nd (acc j) * (1 / 2)) with (nd_cdf nd (acc j)) by field.
      destruct Hnd as (H1 & _ & _). specialize (H1 (acc j)). unfold norm_ppf_x.
      destruct (Rle_dec 0 (nd_cdf nd (acc j))) as [_|Hx]; [|lra].
      destruct (Rle_dec (nd_cdf nd (acc j)) 1) as [_|Hx]; [|lra]. unfold norm_ppf.
      destruct (Req_EM_T (nd_cdf nd (acc j)) 0) as [Hx|_]; [lra|].
      destruct (Req_EM_T (nd_cdf nd (acc j)) 1) as [Hx|_]; [lra|]. f_equal. apply ppf_cdf. }
    unfold get_alpha_from_conf_percentage.
    assert (E1 : (100 - c) / 2 / 100 = (100 - c) / 200) by field.
    assert (E2 : (100 - (100 - c) / 2) / 100 = 1 - (100 - c) / 200) by field.
    rewrite (square_endpoint ((100 - c) / 2)); [|lra|apply square_std_error|apply square_acceleration|exact Hbc|].
    2:{ intros j Hj. rewrite E1. apply Hne. exact Hj. }
    cbn [bind]. rewrite (square_endpoint (100 - (100 - c) / 2)); [|lra|apply square_std_error|apply square_acceleration|exact Hbc|].
    2:{ intros j Hj. rewrite E2. apply Hne. exact Hj. }
    cbn [bind]. rewrite combine_map, E1, E2. reflexivity.
  Qed.
End Square.

(** If refitting with observation weights w returns the square of the weighted mean, and
    the mean is positive, the interval is the square of the interval of the mean.  The
    last two hypotheses say that no difference falls below the tolerances 1e-12 and 1e-10
    under which the code takes it for zero. *)
Theorem C78_abc_interval_of_a_squared_mean n K r2o orig fit t eps nd c :
  (0 < n)%nat -> 0 < eps -> 0 < c < 100 ->
  normal_law nd -> nd_cdf nd 0 = 1 / 2 ->
  (forall w : vec, fit (long_of n r2o orig (finite w)) = Ok (fun j => sumn n (fun o => w o * t o j) ^ 2)) ->
  (forall j, (j < K)%nat -> 0 < sample_mean n t j) ->
  let a := mean_acceleration n t in
  let zlo := nd_ppf nd ((100 - c) / 200) in
  let zhi := nd_ppf nd (1 - (100 - c) / 200) in
  (forall j, (j < K)%nat -> a j * (a j + zlo) <> 1 /\ a j * (a j + zhi) <> 1) ->
  (forall o j, (o < n)%nat -> (j < K)%nat ->
     let d := t o j - sample_mean n t j in
     d = 0 \/ / 10 ^ 12 < 4 * eps * sample_mean n t j * Rabs d /\ / 10 ^ 12 < 2 * eps ^ 2 * d ^ 2) ->
  (forall j, (j < K)%nat -> / 10 ^ 10 < 2 * eps ^ 2 * mean_std_error n t j ^ 2) ->
  calc_abc_interval n r2o K orig fit nd (fun j => sample_mean n t j ^ 2) (ConfNumber c) eps =
  Ok (map (fun j => ((sample_mean n t j + mean_std_error n t j * abc_lambda (a j) zlo) ^ 2,
                     (sample_mean n t j + mean_std_error n t j * abc_lambda (a j) zhi) ^ 2)) (seq 0 K)).
Proof.
  intros Hn He Hc Hnd Hm Hfit Hpos a zlo zhi Hne Ht1 Ht2.
  exact (abc_squared_mean n K r2o orig fit t eps Hn He Hfit Hpos Ht1 Ht2 nd c Hnd Hm Hc Hne).
Qed.

(** The observations 0, 0, 3 again, and the square of their mean. *)
Definition square_fit (w : xvec) : Res vec := Ok (fun j => sumn 3 (fun o => value_of (w o) * mean_t o j) ^ 2).

Example ex_abc_square :
  let a := / (6 * sqrt 6) in
  calc_abc_interval 3 ident 1 None square_fit logistic (fun _ => 1) (ConfNumber 50) (1 / 1000) =
  Ok [((1 + sqrt 6 / 3 * abc_lambda a (- ln 3)) ^ 2, (1 + sqrt 6 / 3 * abc_lambda a (ln 3)) ^ 2)].
Proof.
  intros a.
  assert (Hs : 2 < sqrt 6) by (rewrite <- (sqrt_square 2) by lra; apply sqrt_lt_1; lra).
  assert (Em : forall j, sample_mean 3 mean_t j = 1) by (intros j; unfold sample_mean, mean_t; simpl; field).
  assert (Ess : sum_of_powers 3 mean_t 2 0 = 6) by (unfold sum_of_powers; rewrite Em; unfold mean_t; simpl; ring).
  assert (Ec : sum_of_powers 3 mean_t 3 0 = 6) by (unfold sum_of_powers; rewrite Em; unfold mean_t; simpl; ring).
  assert (Ese : mean_std_error 3 mean_t 0 = sqrt 6 / 3)
    by (unfold mean_std_error; rewrite Ess; replace (INR 3) with 3 by (simpl; ring); reflexivity).
  assert (Ea : mean_acceleration 3 mean_t 0 = a) by (unfold mean_acceleration, a; rewrite Ess, Ec; field; lra).
  assert (Ha : 0 < a < 1 / 12).
  { unfold a. split; [apply Rinv_0_lt_compat; lra|]. replace (1 / 12) with (/ 12) by lra.
    apply Rinv_lt_contravar; lra. }
  assert (Hln : 0 < ln 3 < 2).
  { split; [rewrite <- ln_1; apply ln_increasing; lra|].
    rewrite <- (ln_exp 2). apply ln_increasing; [lra|]. pose proof (exp_ineq1 2 ltac:(lra)). lra. }
  assert (Elo : nd_ppf logistic ((100 - 50) / 200) = - ln 3)
    by (simpl; replace (/ ((100 - 50) / 200) - 1) with 3 by field; reflexivity).
  assert (Ehi : nd_ppf logistic (1 - (100 - 50) / 200) = ln 3).
  { simpl. replace (/ (1 - (100 - 50) / 200) - 1) with (/ 3) by field. rewrite ln_Rinv by lra. ring. }
  assert (T12 : / 10 ^ 12 < / 1000000).
  { replace 1000000 with (10 ^ 6) by (simpl; ring). apply Rinv_lt_contravar; [apply Rmult_lt_0_compat; apply pow_lt; lra|].
    apply Rlt_pow; [lra|lia]. }
  assert (T10 : / 10 ^ 10 < / 1000000).
  { replace 1000000 with (10 ^ 6) by (simpl; ring). apply Rinv_lt_contravar; [apply Rmult_lt_0_compat; apply pow_lt; lra|].
    apply Rlt_pow; [lra|lia]. }
  pose proof (C78_abc_interval_of_a_squared_mean 3 1 ident None square_fit mean_t (1 / 1000) logistic 50) as H.
  replace (fun _ : nat => 1) with (fun j => sample_mean 3 mean_t j ^ 2)
    by (apply functional_extensionality; intros j; rewrite Em; ring).
  rewrite H; clear H.
  - cbn [seq map]. rewrite Ese, Em, Ea, Elo, Ehi. reflexivity.
  - lia.
  - lra.
  - lra.
  - apply logistic_law.
  - simpl. rewrite Ropp_0, exp_0. lra.
  - intros wide. unfold square_fit. f_equal. apply functional_extensionality. intros j. f_equal. apply sumn_ext. intros o Ho.
    f_equal. unfold long_of, times_orig, create_long_form_weights. rewrite (sparse_row_single 3 _ _ o).
    + simpl. ring.
    + exact Ho.
    + unfold ident. rewrite Nat.eqb_refl. reflexivity.
    + intros k Hk Hne. unfold ident. destruct (Nat.eqb_spec o k); [lia|reflexivity].
  - intros j Hj. rewrite Em. lra.
  - intros j Hj. assert (j = 0)%nat by lia. subst j. rewrite Ea, Elo, Ehi. split; intros E; nra.
  - intros o j Ho Hj d. right. unfold d. rewrite Em. unfold mean_t.
    destruct o as [|[|[|o]]]; [| | |lia]; cbn [nth].
    + rewrite Rabs_left by lra. split; lra.
    + rewrite Rabs_left by lra. split; lra.
    + rewrite Rabs_right by lra. split; lra.
  - intros j Hj. assert (j = 0)%nat by lia. subst j. rewrite Ese.
    replace ((sqrt 6 / 3) ^ 2) with (sqrt 6 ^ 2 / 9) by field. rewrite pow2_sqrt by lra. lra.
Qed.

Print Assumptions C78_abc_interval_of_a_squared_mean.
