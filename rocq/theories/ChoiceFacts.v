(** Facts about the choice_calcs model for an arbitrary utility transform. *)
From Coq Require Import Reals Lra Lia Arith.
From Coquelicot Require Import Coquelicot.
From Verif Require Import Res Vec Arr SpecLogit ChoiceCalcs.
Open Scope R_scope.

(** ** Sums over observations *)

Lemma osum_ext N own o f g :
  (forall i, (i < N)%nat -> own i = o -> f i = g i) -> osum N own o f = osum N own o g.
Proof.
  intros H. apply sumn_ext. intros i Hi. destruct (Nat.eqb_spec (own i) o); auto.
Qed.

Lemma osum_scal_l N own o c f : osum N own o (fun i => c * f i) = c * osum N own o f.
Proof.
  unfold osum. rewrite <- sumn_scal_l. apply sumn_ext. intros i _.
  destruct (own i =? o)%nat; lra.
Qed.

Lemma osum_scal_r N own o c f : osum N own o (fun i => f i * c) = osum N own o f * c.
Proof.
  unfold osum. rewrite <- sumn_scal_r. apply sumn_ext. intros i _.
  destruct (own i =? o)%nat; lra.
Qed.

Lemma osum_div N own o c f : osum N own o (fun i => f i / c) = osum N own o f / c.
Proof. unfold Rdiv. apply osum_scal_r. Qed.

Lemma osum_plus N own o f g : osum N own o (fun i => f i + g i) = osum N own o f + osum N own o g.
Proof.
  unfold osum. rewrite <- sumn_plus. apply sumn_ext. intros i _.
  destruct (own i =? o)%nat; lra.
Qed.

Lemma osum_minus N own o f g : osum N own o (fun i => f i - g i) = osum N own o f - osum N own o g.
Proof.
  unfold osum. rewrite <- sumn_minus. apply sumn_ext. intros i _.
  destruct (own i =? o)%nat; lra.
Qed.

Lemma osum_ge0 N own o f : (forall i, (i < N)%nat -> own i = o -> 0 <= f i) -> 0 <= osum N own o f.
Proof.
  intros H. apply sumn_ge0. intros i Hi. destruct (Nat.eqb_spec (own i) o); [auto|lra].
Qed.

Lemma osum_le N own o f g :
  (forall i, (i < N)%nat -> own i = o -> f i <= g i) -> osum N own o f <= osum N own o g.
Proof.
  intros H. apply sumn_le. intros i Hi. destruct (Nat.eqb_spec (own i) o); [auto|lra].
Qed.

Lemma osum_ge_term N own i f :
  (forall k, (k < N)%nat -> own k = own i -> 0 <= f k) -> (i < N)%nat -> f i <= osum N own (own i) f.
Proof.
  intros H Hi. unfold osum.
  pose proof (sumn_ge_term N (fun k => if (own k =? own i)%nat then f k else 0) i) as T.
  simpl in T. rewrite Nat.eqb_refl in T. apply T; [|exact Hi].
  intros k Hk. destruct (Nat.eqb_spec (own k) (own i)); [auto|lra].
Qed.

Lemma osum_pos N own i f :
  (forall k, (k < N)%nat -> own k = own i -> 0 < f k) -> (i < N)%nat -> 0 < osum N own (own i) f.
Proof.
  intros H Hi. apply Rlt_le_trans with (f i); [auto|].
  apply osum_ge_term; [|exact Hi]. intros k Hk E. left. auto.
Qed.

(** Exchanging the roles of the two functions in a sum over pairs of rows of the
    same observation. *)
Lemma osum_sym N own f g :
  sumn N (fun i => g i * osum N own (own i) f) = sumn N (fun i => f i * osum N own (own i) g).
Proof.
  unfold osum.
  rewrite (sumn_ext N _ (fun i => sumn N (fun k => if (own k =? own i)%nat then g i * f k else 0))).
  2: { intros i _. rewrite <- sumn_scal_l. apply sumn_ext. intros k _.
       destruct (own k =? own i)%nat; lra. }
  rewrite sumn_swap. apply sumn_ext. intros k _. rewrite <- sumn_scal_l.
  apply sumn_ext. intros i _. rewrite (Nat.eqb_sym (own k) (own i)).
  destruct (own i =? own k)%nat; lra.
Qed.

(** Summing over all rows = summing observation by observation. *)
Lemma sumn_by_obs N n own f :
  (forall i, (i < N)%nat -> (own i < n)%nat) ->
  sumn N f = sumn n (fun o => osum N own o f).
Proof.
  intros H. unfold osum. rewrite sumn_swap. apply sumn_ext. intros i Hi.
  symmetry. apply (sumn_single' n (own i) (fun _ => f i)). auto.
Qed.

(** ** The clipping *)
Definition unclipped (x : R) : Prop := min_exponent_val <= x <= max_exponent_val.
Definition strictly_unclipped (x : R) : Prop := min_exponent_val < x < max_exponent_val.

Lemma clip_id x : unclipped x -> clip_exponent x = x.
Proof.
  unfold unclipped, clip_exponent. intros H.
  destruct (Rlt_dec x min_exponent_val); [lra|].
  destruct (Rlt_dec max_exponent_val x); lra.
Qed.

Lemma clip_bounds x : min_exponent_val <= clip_exponent x <= max_exponent_val.
Proof.
  unfold clip_exponent, min_exponent_val, max_exponent_val.
  destruct (Rlt_dec x (-700)); [lra|]. destruct (Rlt_dec 700 x); lra.
Qed.

Lemma guard_id p : p <> 0 -> guard_zero p = p.
Proof. unfold guard_zero. destruct (Req_EM_T p 0); tauto. Qed.

(** ** Denominators and probabilities *)
Section Fix.
  Context (m : LModel) (D : Data) (own : nat -> nat).
  Hypothesis Hown : indicator_of (d_N D) (d_obs D) (d_M D) own.

  Notation N := (d_N D).

  Lemma denom_eq e j : (j < d_obs D)%nat -> individual_denominators D e j = osum N own j e.
  Proof.
    intros Hj. unfold individual_denominators, mvec, transp, osum. apply sumn_ext.
    intros i Hi. destruct (Hown i Hi) as [_ H]. rewrite H by exact Hj.
    destruct (own i =? j)%nat; lra.
  Qed.

  Lemma mapping_dot f i : (i < N)%nat -> mvec (d_obs D) (d_M D) f i = f (own i).
  Proof.
    intros Hi. destruct (Hown i Hi) as [Ho H]. unfold mvec.
    rewrite <- (sumn_single' (d_obs D) (own i) f Ho). apply sumn_ext.
    intros j Hj. rewrite H by exact Hj. destruct (own i =? j)%nat; lra.
  Qed.

  Lemma ldenom_eq e i : (i < N)%nat -> long_denominators D e i = osum N own (own i) e.
  Proof.
    intros Hi. unfold long_denominators. rewrite mapping_dot by exact Hi.
    apply denom_eq. apply Hown. exact Hi.
  Qed.

  Variables (shape icpt : option arr) (beta : arr).
  Let e := long_exponentials m D shape icpt beta.

  Lemma exps_pos i : 0 < e i.
  Proof. apply exp_pos. Qed.

  Lemma denom_pos i : (i < N)%nat -> 0 < osum N own (own i) e.
  Proof. intros Hi. apply osum_pos; [intros; apply exps_pos|exact Hi]. Qed.

  Lemma long_probs_eq i :
    (i < N)%nat -> long_probs m D shape icpt beta i = e i / osum N own (own i) e.
  Proof.
    intros Hi. unfold long_probs. fold e. rewrite ldenom_eq by exact Hi.
    apply guard_id. apply Rgt_not_eq. apply Rdiv_lt_0_compat; [apply exps_pos|apply denom_pos; exact Hi].
  Qed.

  Lemma long_probs_pos i : (i < N)%nat -> 0 < long_probs m D shape icpt beta i.
  Proof.
    intros Hi. rewrite long_probs_eq by exact Hi.
    apply Rdiv_lt_0_compat; [apply exps_pos|apply denom_pos; exact Hi].
  Qed.

  Lemma long_probs_sum i :
    (i < N)%nat -> osum N own (own i) (long_probs m D shape icpt beta) = 1.
  Proof.
    intros Hi.
    rewrite (osum_ext _ _ _ _ (fun k => e k / osum N own (own i) e)).
    - rewrite osum_div. field. apply Rgt_not_eq. apply denom_pos; exact Hi.
    - intros k Hk E. rewrite long_probs_eq by exact Hk. rewrite E. reflexivity.
  Qed.

  Lemma long_probs_le1 i : (i < N)%nat -> long_probs m D shape icpt beta i <= 1.
  Proof.
    intros Hi. rewrite <- (long_probs_sum i Hi). apply osum_ge_term; [|exact Hi].
    intros k Hk _. left. apply long_probs_pos. exact Hk.
  Qed.

  Lemma long_probs_lt1 i k :
    (i < N)%nat -> (k < N)%nat -> i <> k -> own i = own k ->
    long_probs m D shape icpt beta i < 1.
  Proof.
    intros Hi Hk Hne E.
    pose proof (long_probs_sum i Hi) as HS. unfold osum in HS.
    pose proof (sumn_ge_two N (fun r => if (own r =? own i)%nat
                  then long_probs m D shape icpt beta r else 0) i k) as T.
    simpl in T. rewrite HS, <- E, Nat.eqb_refl in T.
    pose proof (long_probs_pos k Hk).
    assert (long_probs m D shape icpt beta i + long_probs m D shape icpt beta k <= 1); [|lra].
    apply T; auto. intros r Hr. destruct (own r =? own i)%nat; [|lra].
    left. apply long_probs_pos. exact Hr.
  Qed.

  (** chosen_row_to_obs = rows_to_obs with rows multiplied by the choices *)
  Lemma chosen_probs_eq C j :
    (j < d_obs D)%nat ->
    (forall i, (i < N)%nat -> C i j = d_M D i j * d_y D i) ->
    chosen_probs m D C shape icpt beta j =
    osum N own j (fun i => d_y D i * long_probs m D shape icpt beta i).
  Proof.
    intros Hj HC. unfold chosen_probs. fold e. rewrite denom_eq by exact Hj.
    unfold mvec, transp.
    rewrite (sumn_ext N _ (fun i => if (own i =? j)%nat then d_y D i * e i else 0)).
    2: { intros i Hi. rewrite HC by exact Hi. destruct (Hown i Hi) as [_ H].
         rewrite H by exact Hj. destruct (own i =? j)%nat; lra. }
    fold (osum N own j (fun i => d_y D i * e i)).
    rewrite <- osum_div. apply osum_ext. intros i Hi E.
    rewrite long_probs_eq by exact Hi. rewrite E. unfold Rdiv. ring.
  Qed.
End Fix.

(** ** Derivative of the log-likelihood along one parameter *)

Ltac eqR := match goal with |- @eq _ ?a ?b => change (@eq R a b) end.

Lemma is_derive_clip (f : R -> R) t0 l :
  is_derive f t0 l -> strictly_unclipped (f t0) ->
  is_derive (fun t => clip_exponent (f t)) t0 l.
Proof.
  intros Hd [Hl Hu].
  apply is_derive_ext_loc with (f := f); [|exact Hd].
  assert (Hc : continuous f t0) by (apply (ex_derive_continuous (K := R_AbsRing) (V := R_NormedModule)); exists l; exact Hd).
  assert (H1 : locally t0 (fun t => min_exponent_val < f t < max_exponent_val)).
  { apply (Hc (fun z => min_exponent_val < z < max_exponent_val)).
    apply (filter_and (F := locally (f t0))).
    - exact (open_gt min_exponent_val (f t0) Hl).
    - exact (open_lt max_exponent_val (f t0) Hu). }
  revert H1. apply filter_imp. intros t Ht. symmetry. apply clip_id.
  unfold unclipped. lra.
Qed.

Lemma is_derive_osum N own o (f : nat -> R -> R) (df : nat -> R) x :
  (forall i, (i < N)%nat -> is_derive (f i) x (df i)) ->
  is_derive (fun t => osum N own o (fun i => f i t)) x (osum N own o df).
Proof.
  intros H. unfold osum.
  apply (is_derive_sumn N (fun i t => if (own i =? o)%nat then f i t else 0)).
  intros i Hi. destruct (own i =? o)%nat; [auto|].
  apply (is_derive_const (K := R_AbsRing) (V := R_NormedModule)).
Qed.

(** log P_i = u_i - ln (sum of exp u) has derivative du_i - (mean of du). *)
Lemma is_derive_log_prob N own (u : nat -> R -> R) (du : nat -> R) t0 i :
  (i < N)%nat ->
  (forall k, (k < N)%nat -> is_derive (u k) t0 (du k)) ->
  is_derive (fun t => ln (exp (u i t) / osum N own (own i) (fun k => exp (u k t)))) t0
    (du i - osum N own (own i) (fun k => exp (u k t0) / osum N own (own i) (fun r => exp (u r t0)) * du k)).
Proof.
  intros Hi Hu.
  assert (Dpos : forall t, 0 < osum N own (own i) (fun k => exp (u k t))).
  { intros t. apply osum_pos; [intros; apply exp_pos|exact Hi]. }
  apply is_derive_ext with (f := fun t => u i t - ln (osum N own (own i) (fun k => exp (u k t)))).
  { intros t. eqR. unfold Rdiv. rewrite ln_mult.
    - rewrite ln_exp, ln_Rinv by apply Dpos. ring.
    - apply exp_pos.
    - apply Rinv_0_lt_compat. apply Dpos. }
  apply (is_derive_minus (K := R_AbsRing) (V := R_NormedModule)); [apply Hu; exact Hi|].
  assert (HD : is_derive (fun t => osum N own (own i) (fun k => exp (u k t))) t0
                 (osum N own (own i) (fun k => exp (u k t0) * du k))).
  { apply (is_derive_osum N own (own i) (fun k t => exp (u k t))). intros k Hk.
    evar_last.
    - apply (is_derive_comp exp (u k)); [apply is_derive_exp|apply Hu; exact Hk].
    - unfold scal; simpl; unfold mult; simpl. ring. }
  evar_last.
  - apply (is_derive_comp ln (fun t => osum N own (own i) (fun k => exp (u k t)))).
    + apply is_derive_ln. apply Dpos.
    + exact HD.
  - unfold scal; simpl; unfold mult; simpl.
    rewrite <- osum_scal_r. apply osum_ext. intros k Hk _. unfold Rdiv. ring.
Qed.

(** The score of the weighted log-likelihood in one direction. *)
Lemma is_derive_weighted_ll N own (u : nat -> R -> R) (du : nat -> R) (y w : vec) t0 :
  (forall k, (k < N)%nat -> is_derive (u k) t0 (du k)) ->
  (forall i, (i < N)%nat -> osum N own (own i) (fun k => y k * w k) = w i) ->
  is_derive
    (fun t => sumn N (fun i => y i * (w i * ln (exp (u i t) / osum N own (own i) (fun k => exp (u k t))))))
    t0
    (sumn N (fun i => w i * (y i - exp (u i t0) / osum N own (own i) (fun k => exp (u k t0))) * du i)).
Proof.
  intros Hu Hw.
  set (P := fun i => exp (u i t0) / osum N own (own i) (fun k => exp (u k t0))).
  evar_last.
  - apply (is_derive_sumn N (fun i t => y i * (w i * ln (exp (u i t) / osum N own (own i) (fun k => exp (u k t)))))).
    intros i Hi.
    apply (is_derive_scal (fun t => w i * ln (exp (u i t) / osum N own (own i) (fun k => exp (u k t))))).
    apply (is_derive_scal (fun t => ln (exp (u i t) / osum N own (own i) (fun k => exp (u k t))))).
    apply is_derive_log_prob; auto.
  - simpl.
    rewrite (sumn_ext N _ (fun i => y i * w i * du i - (y i * w i) * osum N own (own i) (fun k => P k * du k))).
    2: { intros i Hi.
         rewrite (osum_ext N own (own i)
                    (fun k => exp (u k t0) / osum N own (own i) (fun r => exp (u r t0)) * du k)
                    (fun k => P k * du k)).
         - ring.
         - intros k Hk E. unfold P. rewrite E. reflexivity. }
    rewrite sumn_minus.
    rewrite (osum_sym N own (fun k => P k * du k) (fun i => y i * w i)).
    rewrite <- sumn_minus. apply sumn_ext. intros i Hi. rewrite Hw by exact Hi.
    fold (P i). ring.
Qed.

(** Weight condition: one choice per observation, weights per observation. *)
Lemma weight_condition N own y w :
  one_choice N own y -> weights_per_observation N own w ->
  forall i, (i < N)%nat -> osum N own (own i) (fun k => y k * w k) = w i.
Proof.
  intros [_ H1] Hw i Hi.
  rewrite (osum_ext _ _ _ _ (fun k => y k * w i)).
  - rewrite osum_scal_r, H1 by exact Hi. ring.
  - intros k Hk E. rewrite (Hw k i Hk Hi E). reflexivity.
Qed.
