(** C135: the reported statistics in double precision. *)
From Coq Require Import ZArith Reals Lra Lia List Bool.
From Flocq Require Import Core.
From Verif Require BaseModel Estimation.
From Verif Require Import Floats FloatFacts FloatTransforms PropFloatTransforms PropFloatUtilities FloatReport.
Open Scope R_scope.

#[local] Instance prec_53r : Prec_gt_0 53 := FloatFacts.prec_53.

(** ** Specification *)

(** Comparison of doubles; nothing is comparable with nan. *)
Definition fle (a b : fl) : Prop :=
  match a, b with
  | FNaN, _ | _, FNaN => False
  | FInf true, _ => True
  | _, FInf false => True
  | FNum x, FNum y => x <= y
  | _, _ => False
  end.
Definition finite (x : R) : Prop := double_format x /\ Rabs x < bpow radix2 1024.

(** ** Monotonicity of the operations *)

Lemma overflow_le x y : x <= y -> fle (overflow x) (overflow y).
Proof.
  intros H. unfold overflow. pose proof (bpow_gt_0 radix2 1024) as P.
  destruct (Rle_dec (bpow radix2 1024) (Rabs x)) as [X|X], (Rle_dec (bpow radix2 1024) (Rabs y)) as [Y|Y]; try destruct (Rlt_dec x 0) as [SX|SX]; try destruct (Rlt_dec y 0) as [SY|SY]; cbn; trivial.
  all: exfalso; first [lra|rewrite Rabs_right in X by lra; apply Y; rewrite Rabs_right; lra|rewrite Rabs_left in Y by lra; apply X; rewrite Rabs_left; lra].
Qed.
Lemma overflow_id x : finite x -> overflow (rnd x) = FNum x.
Proof. intros (F & B). rewrite rnd_id by exact F. apply overflow_num. exact B. Qed.
Lemma big_one : 1 < bpow radix2 1024.
Proof. apply (bpow_lt radix2 0 1024). lia. Qed.
Lemma fle_refl_num x : fle (overflow x) (overflow x).
Proof. apply overflow_le. lra. Qed.
Lemma fadd_mono a a' x x' : fle a a' -> x <= x' -> fle (fadd a (FNum x)) (fadd a' (FNum x')).
Proof.
  intros H Hx. destruct a as [a|[|]|], a' as [a'|[|]|]; cbn in H |- *; try contradiction; trivial.
  - apply overflow_le, rnd_le. lra.
  - destruct (overflow (rnd (a + x))) as [?|[|]|] eqn:E; trivial. unfold overflow in E. destruct (Rle_dec _ _); discriminate.
  - destruct (overflow (rnd (a' + x'))) as [?|[|]|] eqn:E; trivial. unfold overflow in E. destruct (Rle_dec _ _); discriminate.
Qed.
Lemma fle_trans a b c : fle a b -> fle b c -> fle a c.
Proof. destruct a as [a|[|]|], b as [b|[|]|], c as [c|[|]|]; cbn; try contradiction; trivial. lra. Qed.
Lemma fneg_le a b : fle a b -> fle (fneg b) (fneg a).
Proof. destruct a as [a|[|]|], b as [b|[|]|]; cbn; try contradiction; trivial. lra. Qed.
Lemma fadd_comm_num a x : fadd (FNum x) a = fadd a (FNum x).
Proof. destruct a as [a|[|]|]; cbn; trivial. rewrite Rplus_comm. reflexivity. Qed.
Lemma fsub_mono x a a' : fle a a' -> fle (fsub (FNum x) a') (fsub (FNum x) a).
Proof. intros H. unfold fsub. rewrite !fadd_comm_num. apply fadd_mono; [apply fneg_le, H|lra]. Qed.
Lemma overflow_neg x : fneg (overflow x) = overflow (- x).
Proof.
  unfold overflow. rewrite Rabs_Ropp. pose proof (bpow_gt_0 radix2 1024) as P. destruct (Rle_dec _ _) as [L|L]; [|reflexivity]. cbn.
  destruct (Rlt_dec x 0), (Rlt_dec (- x) 0); cbn; trivial; exfalso; [lra|]. assert (x = 0) by lra. subst x. rewrite Rabs_R0 in L. lra.
Qed.

Lemma minus_two_exact x : double_format x -> double_format (-2 * x).
Proof.
  intros F. apply FLT_format_generic in F; [|exact prec_53r]. destruct F as [[m e] E H1 H2]. apply generic_format_FLT. exists (Float radix2 (- m) (e + 1)).
  - rewrite E. unfold F2R. cbn [Fnum Fexp]. rewrite bpow_plus, opp_IZR. change (bpow radix2 1) with 2. ring.
  - cbn [Fnum]. rewrite Z.abs_opp. exact H1.
  - cbn [Fexp] in *. lia.
Qed.

(** ** Information criteria *)

(** The AIC is the exact value, rounded once. *)
Theorem C135_aic_is_rounded_once :
  forall ll k, double_format ll -> Rabs ll <= bpow radix2 1000 -> (Z.of_nat k < 2 ^ 52)%Z ->
  faic (FNum ll) k = FNum (rnd (BaseModel.compute_aic ll k)).
Proof.
  intros ll k Fl Bl Hk. unfold faic, fint, BaseModel.compute_aic.
  assert (F2 : double_format (-2 * ll)).
  { apply minus_two_exact. exact Fl. }
  assert (B2 : Rabs (-2 * ll) <= bpow radix2 1001).
  { rewrite Rabs_mult, (Rabs_left (-2)) by lra. change 1001%Z with (1 + 1000)%Z. rewrite bpow_plus. change (bpow radix2 1) with 2. lra. }
  assert (K : INR (2 * k) = IZR (Z.of_nat (2 * k))) by apply INR_IZR_INZ.
  assert (FK : double_format (INR (2 * k))) by (rewrite K; apply small_integer; lia).
  assert (BK : 0 <= INR (2 * k) <= bpow radix2 53).
  { rewrite K. split; [apply IZR_le; lia|]. rewrite <- (IZR_Zpower radix2 53) by lia. apply IZR_le. change (radix2 ^ 53)%Z with (2 ^ 53)%Z. lia. }
  cbn [fmul]. rewrite overflow_id by (split; [exact F2|eapply Rle_lt_trans; [exact B2|apply bpow_lt; lia]]). rewrite (rnd_id (INR (2 * k))) by exact FK.
  cbn [fadd]. replace (2 * INR k) with (INR (2 * k)) by (rewrite mult_INR; reflexivity). apply overflow_num.
  assert (R : Rabs (-2 * ll + INR (2 * k)) <= bpow radix2 1002).
  { eapply Rle_trans; [apply Rabs_triang|]. rewrite (Rabs_right (INR (2 * k))) by lra. assert (bpow radix2 53 <= bpow radix2 1001) by (apply bpow_le; lia). assert (bpow radix2 1002 = 2 * bpow radix2 1001) by (change 1002%Z with (1 + 1001)%Z; rewrite bpow_plus; reflexivity). lra. }
  apply Rle_lt_trans with (bpow radix2 1002); [|apply bpow_lt; lia]. apply Rabs_le_inv in R.
  assert (F : double_format (bpow radix2 1002)) by (apply generic_format_bpow; cbv; discriminate).
  apply Rabs_le. split.
  - apply Rle_trans with (rnd (- bpow radix2 1002)); [right; symmetry; apply rnd_id, generic_format_opp; exact F|apply rnd_le; lra].
  - apply Rle_trans with (rnd (bpow radix2 1002)); [apply rnd_le; lra|right; apply rnd_id; exact F].
Qed.

Lemma fint_le k k' : (k <= k')%nat -> rnd (INR k) <= rnd (INR k').
Proof. intros H. apply rnd_le, le_INR, H. Qed.
Lemma minus_two_antitone ll ll' : ll <= ll' -> fle (fmul (FNum (-2)) (FNum ll')) (fmul (FNum (-2)) (FNum ll)).
Proof. intros H. cbn [fmul]. apply overflow_le, rnd_le. lra. Qed.

(** A model with a log-likelihood that is not lower and not more parameters does not get a larger
    AIC or BIC, for every two doubles, also where the criteria overflow. *)
Theorem C135_criteria_keep_the_order :
  forall ll ll' k k', ll <= ll' -> (k' <= k)%nat ->
  fle (faic (FNum ll') k') (faic (FNum ll) k) /\
  forall L, 0 <= L <= 1000 -> (Z.of_nat k < 2 ^ 53)%Z -> fle (fbic (FNum L) (FNum ll') k') (fbic (FNum L) (FNum ll) k).
Proof.
  intros ll ll' k k' Hl Hk. split.
  - unfold faic, fint. apply fadd_mono; [apply minus_two_antitone, Hl|]. apply fint_le. lia.
  - intros L HL HK. unfold fbic, fint. pose proof (pos_INR k') as K0. pose proof (le_INR _ _ Hk) as K1.
    assert (KB : INR k <= bpow radix2 53).
    { rewrite INR_IZR_INZ, <- (IZR_Zpower radix2 53) by lia. apply IZR_le. change (radix2 ^ 53)%Z with (2 ^ 53)%Z. lia. }
    assert (N : forall j, 0 <= INR j <= INR k -> fmul (FNum L) (FNum (rnd (INR j))) = FNum (rnd (L * rnd (INR j)))).
    { intros j Hj. cbn [fmul]. apply overflow_num. assert (R : 0 <= rnd (INR j) <= bpow radix2 53).
      { rewrite <- rnd_0 at 1. rewrite <- (rnd_id (bpow radix2 53)) by (apply generic_format_bpow; cbv; discriminate). split; apply rnd_le; lra. }
      assert (Q : 0 <= L * rnd (INR j) <= bpow radix2 63).
      { split; [apply Rmult_le_pos; lra|]. apply Rle_trans with (bpow radix2 10 * bpow radix2 53); [apply Rmult_le_compat; try lra; cbn; lra|]. rewrite <- bpow_plus. right. reflexivity. }
      assert (Q' : 0 <= rnd (L * rnd (INR j)) <= bpow radix2 63).
      { rewrite <- rnd_0 at 1. rewrite <- (rnd_id (bpow radix2 63)) by (apply generic_format_bpow; cbv; discriminate). split; apply rnd_le; lra. }
      rewrite Rabs_right by lra. apply Rle_lt_trans with (bpow radix2 63); [lra|apply bpow_lt; lia]. }
    rewrite !N by lra. apply fadd_mono; [apply minus_two_antitone, Hl|]. apply rnd_le, Rmult_le_compat_l; [lra|]. apply fint_le, Hk.
Qed.

(** ** Rho-squared *)

Lemma fdiv_neg_antitone a b c : c < 0 -> fle (FNum a) (FNum b) -> fle (fdiv (FNum b) (FNum c)) (fdiv (FNum a) (FNum c)).
Proof.
  intros Hc H. cbn in H. cbn [fdiv]. destruct (Req_EM_T c 0); [lra|]. apply overflow_le, rnd_le. unfold Rdiv. assert (/ c < 0) by (apply Rinv_lt_0_compat; exact Hc). apply neg_le_r; lra.
Qed.

(** With a null log-likelihood below zero: a higher log-likelihood does not give a lower
    rho-squared, rho-bar-squared does not exceed rho-squared, and a log-likelihood between the
    null log-likelihood and zero gives a rho-squared between 0 and 1, within 2^-52 of the exact
    one. *)
Theorem C135_rho_squared :
  forall ll ll' null k, null < 0 -> ll <= ll' ->
  fle (frho (FNum ll) (FNum null)) (frho (FNum ll') (FNum null)) /\
  (double_format ll' -> Rabs ll' < bpow radix2 1024 -> fle (frho_bar (FNum ll') (FNum null) k) (frho (FNum ll') (FNum null))) /\
  (null <= ll <= 0 -> exists r, frho (FNum ll) (FNum null) = FNum r /\ 0 <= r <= 1 /\
     Rabs (r - fst (Estimation.calc_rho_and_rho_bar_squared ll null k)) <= / 2 ^ 52).
Proof.
  intros ll ll' null k Hn Hl. split; [|split].
  - unfold frho. apply fsub_mono. apply fdiv_neg_antitone; [exact Hn|exact Hl].
  - intros Fl Bl. unfold frho, frho_bar. apply fsub_mono. unfold fsub, fint. cbn [fneg fadd].
    assert (I : 0 <= rnd (INR k)) by (rewrite <- rnd_0; apply rnd_le, pos_INR).
    assert (S : rnd (ll' + - rnd (INR k)) <= ll') by (rewrite <- (rnd_id ll' Fl) at 2; apply rnd_le; lra).
    unfold overflow at 1. destruct (Rle_dec _ _) as [O|O].
    + destruct (Rlt_dec _ 0) as [N|N].
      * cbn [fdiv]. destruct (Rlt_dec null 0); [|lra]. destruct (Req_EM_T null 0); [lra|]. cbn [xorb]. destruct (overflow (rnd (ll' / null))) as [?|[|]|] eqn:E; cbn; trivial. unfold overflow in E. destruct (Rle_dec _ _); discriminate.
      * exfalso. rewrite Rabs_right in O by lra. rewrite Rabs_right in Bl by lra. lra.
    + apply fdiv_neg_antitone; [exact Hn|exact S].
  - intros H. unfold frho. cbn [fdiv]. destruct (Req_EM_T null 0); [lra|].
    assert (Q : 0 <= ll / null <= 1).
    { assert (IN : 0 < / - null) by (apply Rinv_0_lt_compat; lra). replace (ll / null) with (- ll * / - null) by (field; lra). split; [apply Rmult_le_pos; lra|].
      apply (Rmult_le_reg_r (- null)); [lra|]. rewrite Rmult_assoc, Rinv_l by lra. lra. }
    set (q := ll / null) in *.
    assert (RB : forall x, 0 <= x <= 1 -> 0 <= rnd x <= 1 /\ Rabs (rnd x - x) <= / 2 ^ 53).
    { intros x Hx. split; [split; [rewrite <- rnd_0|rewrite <- rnd_1]; apply rnd_le; lra|].
      destruct (Rle_lt_dec (bpow radix2 (-1022)) x) as [B|B].
      - pose proof (rnd_relative x B) as G. fold uround. assert (uround * x <= uround * 1) by (apply Rmult_le_compat_l; [left; apply uround_pos|lra]). apply Rabs_le. lra.
      - assert (T : bpow radix2 (-1022) <= / 2 ^ 53).
        { replace (/ 2 ^ 53) with (bpow radix2 (-53)); [apply bpow_le; lia|]. change (-53)%Z with (- (53))%Z. rewrite bpow_opp. f_equal. rewrite <- (IZR_Zpower radix2 53) by lia. rewrite pow_IZR. reflexivity. }
        assert (0 <= rnd x <= bpow radix2 (-1022)).
        { split; [rewrite <- rnd_0; apply rnd_le; lra|]. rewrite <- (rnd_id (bpow radix2 (-1022))) by (apply generic_format_bpow; cbv; discriminate). apply rnd_le. lra. }
        apply Rabs_le. lra. }
    destruct (RB q Q) as (R1 & A1). pose proof (big_one) as B1.
    rewrite (overflow_num (rnd q)) by (rewrite Rabs_right; lra). cbn [fsub fneg fadd]. destruct (RB (1 + - rnd q) ltac:(lra)) as (R2 & A2).
    rewrite overflow_num by (rewrite Rabs_right; lra). eexists. split; [reflexivity|]. split; [exact R2|].
    unfold Estimation.calc_rho_and_rho_bar_squared. cbn [fst]. fold q. apply Rabs_le_inv in A1, A2. 
    replace (/ 2 ^ 52) with (2 * / 2 ^ 53) by (field; apply pow_nonzero; lra). apply Rabs_le. lra.
Qed.

(** ** Standard errors, t-statistics and p-values *)

(** The standard error of a finite variance that is not negative is a number that is not negative;
    a larger variance has no smaller standard error; a negative variance gives nan. *)
Theorem C135_standard_errors :
  forall d, (d < 0 -> fstd_err (FNum d) = FNaN) /\
  (0 <= d -> exists s, fstd_err (FNum d) = FNum s /\ double_format s /\ 0 <= s /\ (d < bpow radix2 1024 -> s <= bpow radix2 512) /\
     (bpow radix2 (-1022) <= d -> Rabs (s - sqrt d) <= / 2 ^ 53 * sqrt d)) /\
  forall d', 0 <= d <= d' -> fle (fstd_err (FNum d)) (fstd_err (FNum d')).
Proof.
  intros d. split; [|split].
  - intros H. cbn. destruct (Rlt_dec d 0); [reflexivity|lra].
  - intros H. unfold fstd_err. destruct (Rlt_dec d 0); [lra|]. pose proof (sqrt_pos d) as S. eexists. split; [reflexivity|]. split; [apply rnd_format|]. split; [rewrite <- rnd_0; apply rnd_le; exact S|]. split.
    + intros B. apply Rle_trans with (rnd (bpow radix2 512)); [|right; apply rnd_id, generic_format_bpow; cbv; discriminate]. apply rnd_le.
      rewrite <- (sqrt_Rsqr (bpow radix2 512)) by apply bpow_ge_0. apply sqrt_le_1_alt. unfold Rsqr. rewrite <- bpow_plus. left. exact B.
    + intros B. assert (Q : bpow radix2 (-1022) <= sqrt d).
      { apply Rle_trans with (bpow radix2 (-511)); [apply bpow_le; lia|]. rewrite <- (sqrt_Rsqr (bpow radix2 (-511))) by apply bpow_ge_0. apply sqrt_le_1_alt. unfold Rsqr. rewrite <- bpow_plus. exact B. }
      pose proof (rnd_relative _ Q) as G. fold uround. apply Rabs_le. lra.
  - intros d' H. cbn. destruct (Rlt_dec d 0); [lra|]. destruct (Rlt_dec d' 0); [lra|]. cbn. apply rnd_le, sqrt_le_1_alt. lra.
Qed.

(** The t-statistic is a number or an infinity unless estimate and standard error are both zero;
    it has the sign of the estimate, changes sign with it, grows with the estimate, and its
    absolute value does not grow with the standard error. *)
Theorem C135_t_statistics :
  forall p se, 0 <= se ->
  (ftvalue (FNum p) (FNum se) = FNaN <-> p = 0 /\ se = 0) /\
  (0 < p -> fle (FNum 0) (ftvalue (FNum p) (FNum se))) /\
  (p <> 0 \/ se <> 0 -> ftvalue (FNum (- p)) (FNum se) = fneg (ftvalue (FNum p) (FNum se))) /\
  (forall p', 0 < se -> p <= p' -> fle (ftvalue (FNum p) (FNum se)) (ftvalue (FNum p') (FNum se))) /\
  (forall se', 0 < p -> se <= se' -> fle (ftvalue (FNum p) (FNum se')) (ftvalue (FNum p) (FNum se))).
Proof.
  intros p se Hs. unfold ftvalue. cbn [fdiv]. assert (NN : forall x, overflow x <> FNaN) by (intros x; unfold overflow; destruct (Rle_dec _ _); discriminate).
  assert (Z0 : fle (FNum 0) (FInf false)) by exact I. 
  assert (O0 : FNum 0 = overflow 0) by (symmetry; apply overflow_num; rewrite Rabs_R0; apply bpow_gt_0).
  split; [|split; [|split; [|split]]].
  - destruct (Req_EM_T se 0) as [E|E]; [destruct (Req_EM_T p 0) as [E'|E']|]; split; intros H; try discriminate; try (exfalso; apply (NN _ H)); try (split; assumption); try reflexivity; exfalso; destruct H; contradiction.
  - intros H. destruct (Req_EM_T se 0) as [E|E].
    + destruct (Req_EM_T p 0); [lra|]. destruct (Rlt_dec p 0); [lra|]. exact I.
    + rewrite O0, <- rnd_0 at 1. apply overflow_le, rnd_le. apply Rmult_le_pos; [lra|]. left. apply Rinv_0_lt_compat. lra.
  - intros H. destruct (Req_EM_T se 0) as [E|E].
    + destruct H as [H|H]; [|contradiction]. destruct (Req_EM_T (- p) 0); [lra|]. destruct (Req_EM_T p 0); [contradiction|]. cbn. destruct (Rlt_dec (- p) 0), (Rlt_dec p 0); cbn; trivial; exfalso; lra.
    + rewrite overflow_neg. replace (- p / se) with (- (p / se)) by (field; exact E). f_equal. unfold rnd. apply round_NE_opp.
  - intros p' H Hp. destruct (Req_EM_T se 0); [lra|]. apply overflow_le, rnd_le. apply Rmult_le_compat_r; [left; apply Rinv_0_lt_compat; exact H|exact Hp].
  - intros se' H Hse. destruct (Req_EM_T se 0) as [E|E].
    + destruct (Req_EM_T p 0); [lra|]. destruct (Rlt_dec p 0); [lra|]. destruct (Req_EM_T se' 0); [exact I|].
      destruct (overflow (rnd (p / se'))) as [?|[|]|] eqn:E'; cbn; trivial. apply (NN _ E').
    + destruct (Req_EM_T se' 0); [lra|]. apply overflow_le, rnd_le. apply Rmult_le_compat_l; [lra|]. apply Rinv_le_contravar; lra.
Qed.

(** What is assumed of norm.sf for arguments that are not negative *)
Definition sane_sf (sf : R -> R) : Prop :=
  (forall x, 0 <= x -> double_format (sf x) /\ 0 <= sf x <= / 2) /\ forall x y, 0 <= x <= y -> sf y <= sf x.

(** The p-value of every t-statistic that is not nan is between 0 and 1, and a t-statistic further
    from zero has no larger p-value. *)
Definition fabs (t : fl) : fl := match t with FNum x => FNum (Rabs x) | FInf _ => FInf false | FNaN => FNaN end.
Theorem C135_p_values :
  forall sf, sane_sf sf ->
  (forall t, t <> FNaN -> exists p, fpvalue sf t = FNum p /\ 0 <= p <= 1) /\
  forall t t', fle (fabs t) (fabs t') -> fle (fpvalue sf t') (fpvalue sf t).
Proof.
  intros sf (S1 & S2).
  assert (V : forall y, double_format y -> 0 <= y <= / 2 -> fmul (FNum 2) (FNum y) = FNum (2 * y)).
  { intros y F Hy. cbn [fmul]. apply overflow_id. split; [|rewrite Rabs_right by lra; pose proof big_one; lra]. replace (2 * y) with (- (-2 * y)) by ring. apply generic_format_opp, minus_two_exact, F. }
  assert (Z : fmul (FNum 2) (FNum 0) = FNum 0) by (rewrite V by (try apply generic_format_0; lra); f_equal; ring).
  assert (P : forall t, t <> FNaN -> exists p, fpvalue sf t = FNum p /\ 0 <= p <= 1).
  { intros [x|s|] Ht; [| |congruence]; unfold fpvalue; cbv iota.
    - destruct (S1 (Rabs x) (Rabs_pos x)) as (F & B). rewrite V by assumption. eexists. split; [reflexivity|lra].
    - rewrite Z. exists 0. split; [reflexivity|lra]. }
  split; [exact P|]. intros [x|s|] [y|s'|] H; cbn in H; try contradiction.
  - unfold fpvalue. cbv iota. destruct (S1 (Rabs x) (Rabs_pos x)) as (F & B), (S1 (Rabs y) (Rabs_pos y)) as (F' & B'). rewrite !V by assumption. cbn. pose proof (S2 (Rabs x) (Rabs y) (conj (Rabs_pos x) H)). lra.
  - destruct (P (FNum x) ltac:(discriminate)) as (p & -> & Hp). unfold fpvalue. cbv iota. rewrite Z. cbn. lra.
  - unfold fpvalue. cbv iota. rewrite Z. cbn. lra.
Qed.

(** ** Confidence intervals *)

(** The interval contains the estimate, and a larger critical value gives an interval that contains
    the smaller one. *)
Theorem C135_confidence_intervals :
  forall z z' p se, 0 <= z <= z' -> 0 <= se -> finite p ->
  fle (flower (FNum z) (FNum p) (FNum se)) (FNum p) /\ fle (FNum p) (fupper (FNum z) (FNum p) (FNum se)) /\
  fle (flower (FNum z') (FNum p) (FNum se)) (flower (FNum z) (FNum p) (FNum se)) /\
  fle (fupper (FNum z) (FNum p) (FNum se)) (fupper (FNum z') (FNum p) (FNum se)).
Proof.
  intros z z' p se Hz Hs Hp. unfold flower, fupper.
  assert (M : fle (fmul (FNum z) (FNum se)) (fmul (FNum z') (FNum se))) by (cbn [fmul]; apply overflow_le, rnd_le, Rmult_le_compat_r; lra).
  assert (M0 : fle (FNum 0) (fmul (FNum z) (FNum se))).
  { cbn [fmul]. replace (FNum 0) with (overflow (rnd 0)) by (rewrite rnd_0; apply overflow_num; rewrite Rabs_R0; apply bpow_gt_0). apply overflow_le, rnd_le. apply Rmult_le_pos; lra. }
  assert (E1 : fadd (FNum p) (FNum 0) = FNum p) by (cbn [fadd]; rewrite Rplus_0_r; apply overflow_id, Hp).
  assert (E2 : fsub (FNum p) (FNum 0) = FNum p) by (unfold fsub; cbn [fneg fadd]; rewrite Ropp_0, Rplus_0_r; apply overflow_id, Hp).
  split; [|split; [|split]].
  - rewrite <- E2 at 2. apply fsub_mono, M0.
  - rewrite <- E1 at 1. rewrite !(fadd_comm_num _ p). apply fadd_mono; [exact M0|lra].
  - apply fsub_mono, M.
  - rewrite !(fadd_comm_num _ p). apply fadd_mono; [exact M|lra].
Qed.

(** Interval and t-statistic agree on significance, up to ties: an interval above zero has a
    t-statistic of at least the critical value, and a t-statistic above the critical value an
    interval that does not reach below zero. *)
Theorem C135_intervals_and_t_statistics_agree :
  forall z p se, finite z -> 0 <= z -> finite p -> 0 < se ->
  (forall l, flower (FNum z) (FNum p) (FNum se) = FNum l -> 0 < l -> fle (FNum z) (ftvalue (FNum p) (FNum se))) /\
  (~ fle (ftvalue (FNum p) (FNum se)) (FNum z) -> fle (FNum 0) (flower (FNum z) (FNum p) (FNum se))) /\
  (forall l, fupper (FNum z) (FNum p) (FNum se) = FNum l -> l < 0 -> fle (ftvalue (FNum p) (FNum se)) (FNum (- z))) /\
  (~ fle (FNum (- z)) (ftvalue (FNum p) (FNum se)) -> fle (fupper (FNum z) (FNum p) (FNum se)) (FNum 0)).
Proof.
  intros z p se Hz z0 Hp Hs.
  assert (O0 : FNum 0 = overflow (rnd 0)) by (rewrite rnd_0; symmetry; apply overflow_num; rewrite Rabs_R0; apply bpow_gt_0).
  (* the half for estimates above zero *)
  assert (A : forall p, finite p -> (forall l, flower (FNum z) (FNum p) (FNum se) = FNum l -> 0 < l -> fle (FNum z) (ftvalue (FNum p) (FNum se))) /\
    (~ fle (ftvalue (FNum p) (FNum se)) (FNum z) -> fle (FNum 0) (flower (FNum z) (FNum p) (FNum se)))).
  { clear p Hp. intros p Hp. pose proof (overflow_id z Hz) as EZ. pose proof (overflow_id p Hp) as EP.
    assert (X0 : 0 <= rnd (z * se)) by (rewrite <- rnd_0; apply rnd_le, Rmult_le_pos; lra).
    unfold ftvalue, flower. cbn [fdiv]. destruct (Req_EM_T se 0); [lra|]. split.
    - intros l El L0. rewrite <- EZ. apply overflow_le, rnd_le. apply (Rmult_le_reg_r se); [exact Hs|]. unfold Rdiv. rewrite Rmult_assoc, Rinv_l, Rmult_1_r by lra.
      apply Rnot_lt_le. intros C. assert (p <= rnd (z * se)) by (rewrite <- (rnd_id p (proj1 Hp)); apply rnd_le; lra).
      cbn [fmul] in El. destruct (overflow_cases (rnd (z * se))) as [(E & _)|(([|] & E) & _)]; rewrite E in El; unfold fsub in El; cbn [fneg fadd negb] in El; try discriminate.
      unfold overflow in El. destruct (Rle_dec _ _); [discriminate|]. injection El as <-. assert (rnd (p + - rnd (z * se)) <= 0) by (rewrite <- rnd_0; apply rnd_le; lra). lra.
    - intros N. assert (C : z * se <= p).
      { apply Rnot_lt_le. intros C. apply N. rewrite <- EZ. apply overflow_le, rnd_le. apply (Rmult_le_reg_r se); [exact Hs|]. unfold Rdiv. rewrite Rmult_assoc, Rinv_l, Rmult_1_r by lra. lra. }
      assert (D : rnd (z * se) <= p) by (rewrite <- (rnd_id p (proj1 Hp)); apply rnd_le; exact C).
      cbn [fmul]. rewrite overflow_num by (rewrite Rabs_right by lra; destruct Hp as (_ & B); rewrite Rabs_right in B by lra; lra).
      unfold fsub. cbn [fneg fadd]. rewrite O0. apply overflow_le, rnd_le. lra. }
  split; [apply A, Hp|]. split; [apply A, Hp|].
  (* the other half by changing the sign *)
  assert (Hn : finite (- p)) by (destruct Hp as (F & B); split; [apply generic_format_opp, F|rewrite Rabs_Ropp; exact B]).
  destruct (A (- p) Hn) as (A1 & A2).
  assert (T : ftvalue (FNum (- p)) (FNum se) = fneg (ftvalue (FNum p) (FNum se))) by (apply C135_t_statistics; [lra|right; lra]).
  assert (U : flower (FNum z) (FNum (- p)) (FNum se) = fneg (fupper (FNum z) (FNum p) (FNum se))).
  { unfold flower, fupper, fsub. destruct (fmul (FNum z) (FNum se)) as [x|s|]; cbn [fneg fadd]; trivial. rewrite overflow_neg. replace (- p + - x) with (- (p + x)) by ring. f_equal. unfold rnd. apply round_NE_opp. }
  rewrite T, U in A1. rewrite T, U in A2. set (t := ftvalue (FNum p) (FNum se)) in *. set (up := fupper (FNum z) (FNum p) (FNum se)) in *. split.
  - intros l El L. assert (Q : fneg up = FNum (- l)) by (rewrite El; reflexivity). specialize (A1 (- l) Q ltac:(lra)). apply fneg_le in A1. replace (fneg (fneg t)) with t in A1 by (destruct t as [x|s|]; cbn; trivial; [rewrite Ropp_involutive|rewrite negb_involutive]; reflexivity). exact A1.
  - intros N. assert (Q : ~ fle (fneg t) (FNum z)).
    { intros C. apply N. apply fneg_le in C. replace (fneg (fneg t)) with t in C by (destruct t as [x|s|]; cbn; trivial; [rewrite Ropp_involutive|rewrite negb_involutive]; reflexivity). exact C. }
    specialize (A2 Q). apply fneg_le in A2. cbn [fneg] in A2. rewrite Ropp_0 in A2. replace (fneg (fneg up)) with up in A2 by (destruct up as [x|s|]; cbn; trivial; [rewrite Ropp_involutive|rewrite negb_involutive]; reflexivity). exact A2.
Qed.

(** ** Non-vacuity *)

Lemma whole z : (Z.abs z < 2 ^ 53)%Z -> finite (IZR z).
Proof.
  intros H. split; [apply small_integer, H|]. rewrite <- abs_IZR. apply Rle_lt_trans with (bpow radix2 53); [|apply bpow_lt; lia].
  rewrite <- (IZR_Zpower radix2 53) by lia. apply IZR_le. change (radix2 ^ 53)%Z with (2 ^ 53)%Z. lia.
Qed.

Example C135_aic_of_a_model : faic (FNum (-100)) 3 = FNum 206.
Proof.
  rewrite C135_aic_is_rounded_once.
  - f_equal. unfold BaseModel.compute_aic. replace (-2 * -100 + 2 * INR 3) with 206 by (cbn; lra). apply rnd_id, small_integer. reflexivity.
  - apply small_integer. reflexivity.
  - rewrite Rabs_left by lra. apply Rle_trans with (bpow radix2 7); [cbn; lra|apply bpow_le; lia].
  - reflexivity.
Qed.

Example C135_sane_survival_function : sane_sf (fun x => rnd (/ 2 * exp (- x))).
Proof.
  assert (H2 : rnd (/ 2) = / 2) by (apply rnd_id; apply (generic_format_bpow radix2 (FLT_exp (-1074) 53) (-1)); cbv; discriminate).
  split.
  - intros x Hx. split; [apply rnd_format|]. pose proof (exp_pos (- x)). assert (exp (- x) <= 1) by (rewrite <- exp_0; destruct Hx as [L| <-]; [left; apply exp_increasing; lra|right; f_equal; ring]).
    split; [rewrite <- rnd_0; apply rnd_le; lra|]. apply Rle_trans with (rnd (/ 2)); [apply rnd_le; lra|lra].
  - intros x y (H0 & H). apply rnd_le. apply Rmult_le_compat_l; [lra|]. destruct H as [L| ->]; [left; apply exp_increasing; lra|lra].
Qed.

(** An estimate of 5 with standard error 1 and a critical value of 2: the interval is [3, 7] and
    the t-statistic 5. *)
Example C135_significant_estimate :
  flower (FNum 2) (FNum 5) (FNum 1) = FNum 3 /\ fupper (FNum 2) (FNum 5) (FNum 1) = FNum 7 /\ fle (FNum 2) (ftvalue (FNum 5) (FNum 1)).
Proof.
  assert (M : fmul (FNum 2) (FNum 1) = FNum 2) by (cbn [fmul]; rewrite Rmult_1_r; apply overflow_id, (whole 2); reflexivity).
  assert (L : flower (FNum 2) (FNum 5) (FNum 1) = FNum 3).
  { unfold flower. rewrite M. unfold fsub. cbn [fneg fadd]. replace (5 + - (2)) with 3 by ring. apply overflow_id, (whole 3). reflexivity. }
  split; [exact L|]. split.
  - unfold fupper. rewrite M. cbn [fadd]. replace (5 + 2) with 7 by ring. apply overflow_id, (whole 7). reflexivity.
  - refine (proj1 (C135_intervals_and_t_statistics_agree 2 5 1 (whole 2 eq_refl) _ (whole 5 eq_refl) _) 3 L _); lra.
Qed.

Print Assumptions C135_aic_is_rounded_once.
Print Assumptions C135_criteria_keep_the_order.
Print Assumptions C135_rho_squared.
Print Assumptions C135_standard_errors.
Print Assumptions C135_t_statistics.
Print Assumptions C135_p_values.
Print Assumptions C135_confidence_intervals.
Print Assumptions C135_intervals_and_t_statistics_agree.
