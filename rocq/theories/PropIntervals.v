(** Property C89: the interval methods of the Boot class. *)
From Coq Require Import String ZArith List Bool Reals Lra Lia Arith Permutation FunctionalExtensionality.
From Verif Require Import Res Vec Arr Frame BootCalcs BootAbc BootLogLike BootIntervals PropPercentile PropBca PropAbc.
Import ListNotations.
Local Open Scope R_scope.

(** ** Specification *)

(** A call on a Boot object, in the order in which a user makes them: storing bootstrap or
    jackknife replicates, or computing intervals of some type. *)
Inductive call :=
| StoreBootstrap (r : rep_table)
| StoreJackknife (r : rep_table)
| Intervals (env : abc_env) (conf : conf_arg) (interval_type : string) (init_vals : option arr) (epsilon : R).

Section Calls.
  Variables (fmt : R -> string) (nd : normal_dist).
  Definition perform (c : call) (s : bstate) : bstate :=
    match c with
    | StoreBootstrap r => set_boot s r
    | StoreJackknife r => set_jack s r
    | Intervals env conf ty init eps => fst (calc_conf_intervals fmt nd env conf ty init eps s)
    end.
  Definition history (cs : list call) (s : bstate) : bstate := fold_left (fun s c => perform c s) cs s.
End Calls.

(** The object as the constructor leaves it. *)
Definition fresh (names : list string) (mle : list R) : bstate := mkBS names mle None None None None None None.

(** Row [j] of a stored table. *)
Definition lower (t : itable) (j : nat) : R := fst (nth j (it_vals t) (0, 0)).
Definition upper (t : itable) (j : nat) : R := snd (nth j (it_vals t) (0, 0)).
(** Row [j], column [k] of the combined table. *)
Definition cell (t : atable) (j k : nat) : R := nth k (nth j (at_vals t) []) 0.

(** Everything but the four stored results. *)
Definition same_inputs (s s' : bstate) : Prop :=
  bs_names s' = bs_names s /\ bs_mle s' = bs_mle s /\ bs_boot s' = bs_boot s /\ bs_jack s' = bs_jack s.

(** ** One call *)
Section One.
  Variables (fmt : R -> string) (nd : normal_dist) (env : abc_env) (conf : conf_arg) (init : option arr) (eps : R).
  Notation run ty := (calc_conf_intervals fmt nd env conf ty init eps).

  Lemma run_pi s : run "pi"%string s = boot_percentile_interval fmt conf s.
  Proof. reflexivity. Qed.
  Lemma run_bca s : run "bca"%string s = boot_bca_interval fmt nd conf s.
  Proof. reflexivity. Qed.
  Lemma run_abc s : run "abc"%string s = boot_abc_interval fmt nd env conf init eps s.
  Proof. reflexivity. Qed.

  Lemma pi_inputs s s' : same_inputs s s' -> percentile_table fmt conf s' = percentile_table fmt conf s.
  Proof. intros (A & B & C & D). unfold percentile_table. rewrite A, C. reflexivity. Qed.
  Lemma bca_inputs s s' : same_inputs s s' -> bca_table fmt nd conf s' = bca_table fmt nd conf s.
  Proof. intros (A & B & C & D). unfold bca_table. rewrite A, B, C, D. reflexivity. Qed.
  Lemma abc_inputs s s' : same_inputs s s' -> abc_table fmt nd env conf init eps s' = abc_table fmt nd env conf init eps s.
  Proof. intros (A & B & C & D). unfold abc_table. rewrite A, B. reflexivity. Qed.

  Lemma frame_shape iv index cols t : interval_frame iv index cols = Ok t ->
    it_index t = index /\ it_cols t = cols /\ it_vals t = iv /\ length (it_vals t) = length index.
  Proof. unfold interval_frame. destruct (Nat.eqb_spec (length iv) (length index)); [|discriminate]. intros E. inversion E. cbn. auto. Qed.

  Definition labelled (t : itable) (s : bstate) : Prop :=
    it_index t = bs_names s /\ length (it_vals t) = length (bs_names s) /\
    forall c, conf = ConfNumber c -> it_cols t = (fmt ((100 - c) / 2), fmt (100 - (100 - c) / 2)).

  Lemma labelled_frame iv s alpha t : interval_frame iv (bs_names s) (endpoint_names fmt alpha) = Ok t ->
    alpha_of conf = Ok alpha -> labelled t s.
  Proof.
    intros H Ha. destruct (frame_shape _ _ _ _ H) as (A & B & C & D). split; [exact A|]. split; [exact D|].
    intros c ->. cbn in Ha. inversion Ha. subst alpha. rewrite B. reflexivity.
  Qed.

  Lemma pi_labelled s t : percentile_table fmt conf s = Ok t -> labelled t s.
  Proof.
    unfold percentile_table. intros H. apply bind_ok in H. destruct H as (al & Ha & H).
    apply bind_ok in H. destruct H as (b & Hb & H). apply bind_ok in H. destruct H as (iv & Hi & H).
    eapply labelled_frame; eassumption.
  Qed.
  Lemma bca_labelled s t : bca_table fmt nd conf s = Ok t -> labelled t s.
  Proof.
    unfold bca_table. intros H. apply bind_ok in H. destruct H as (al & Ha & H).
    apply bind_ok in H. destruct H as (b & Hb & H). apply bind_ok in H. destruct H as (j & Hj & H).
    destruct (andb _ _); [|discriminate]. apply bind_ok in H. destruct H as (iv & Hi & H).
    eapply labelled_frame; eassumption.
  Qed.
  Lemma abc_labelled s t : abc_table fmt nd env conf init eps s = Ok t -> labelled t s.
  Proof.
    unfold abc_table. intros H. apply bind_ok in H. destruct H as (al & Ha & H).
    apply bind_ok in H. destruct H as (iv & Hi & H). eapply labelled_frame; eassumption.
  Qed.

  (** What 'all' does, in terms of the three tables. *)
  Lemma all_cases s :
    match percentile_table fmt conf s with
    | Err e => run "all"%string s = (s, Err e)
    | Ok p =>
      match bca_table fmt nd conf s with
      | Err e => run "all"%string s = (set_pi s p, Err e)
      | Ok b =>
        match abc_table fmt nd env conf init eps s with
        | Err e => run "all"%string s = (set_bca (set_pi s p) b, Err e)
        | Ok a => exists alpha, alpha_of conf = Ok alpha /\
            run "all"%string s =
            (set_all (set_abc (set_bca (set_pi s p) b) a)
               (mkAT (bs_names s) (all_names (endpoint_names fmt alpha)) (side_by_side p b a)), Ok tt)
        end
      end
    end.
  Proof.
    unfold calc_conf_intervals. cbn [String.eqb Ascii.eqb Bool.eqb]. unfold and_then, boot_percentile_interval, stores.
    destruct (percentile_table fmt conf s) as [p|e] eqn:Ep; [|reflexivity].
    unfold boot_bca_interval, stores. rewrite (bca_inputs s (set_pi s p)) by (repeat split).
    destruct (bca_table fmt nd conf s) as [b|e] eqn:Eb; [|reflexivity].
    unfold boot_abc_interval, stores. rewrite (abc_inputs s (set_bca (set_pi s p) b)) by (repeat split).
    destruct (abc_table fmt nd env conf init eps s) as [a|e] eqn:Ea; [|reflexivity].
    unfold boot_combine, stores, all_table. cbn [bs_pi bs_bca bs_abc set_pi set_bca set_abc].
    assert (exists alpha, alpha_of conf = Ok alpha) as (alpha & Ha).
    { unfold percentile_table in Ep. apply bind_ok in Ep. destruct Ep as (al & Ha & _). exists al. exact Ha. }
    exists alpha. split; [exact Ha|]. rewrite Ha. reflexivity.
  Qed.

  Lemma side_nth p b a j k :
    length (it_vals b) = length (it_vals p) -> length (it_vals a) = length (it_vals p) -> (j < length (it_vals p))%nat ->
    nth k (nth j (side_by_side p b a) []) 0 =
    nth k [lower p j; upper p j; lower b j; upper b j; lower a j; upper a j] 0.
  Proof.
    intros Hb Ha Hj. unfold side_by_side.
    set (f := fun r : R * R * (R * R) * (R * R) => _).
    rewrite (nth_indep _ [] (f ((0, 0), (0, 0), (0, 0)))).
    2: { rewrite map_length, !combine_length. lia. }
    rewrite map_nth. rewrite !combine_nth by (rewrite ?combine_length; lia). reflexivity.
  Qed.
End One.

(** ** C89: the three single types.  A successful call stores one table, labelled with the
    parameter names and the two percentages, with one row per parameter, and changes
    nothing else; a failing call changes nothing at all. *)
Theorem C89_single_type fmt nd env conf ty init eps s s' r :
  In ty ["pi"; "bca"; "abc"]%string ->
  calc_conf_intervals fmt nd env conf ty init eps s = (s', r) ->
  match r with
  | Err _ => s' = s
  | Ok _ => exists c t, conf = ConfNumber c /\
      it_index t = bs_names s /\ length (it_vals t) = length (bs_names s) /\
      it_cols t = (fmt ((100 - c) / 2), fmt (100 - (100 - c) / 2)) /\
      s' = (if String.eqb ty "pi" then set_pi s t else if String.eqb ty "bca" then set_bca s t else set_abc s t)
  end.
Proof.
  intros [<-|[<-|[<-|[]]]]; intros H.
  - rewrite run_pi in H. unfold boot_percentile_interval, stores in H.
    destruct (percentile_table fmt conf s) as [t|e] eqn:E; inversion H; subst; [|reflexivity].
    destruct (pi_labelled fmt conf s t E) as (A & B & C).
    destruct conf as [c|]; [|discriminate]. exists c, t. split; [reflexivity|]. repeat split; auto.
  - rewrite run_bca in H. unfold boot_bca_interval, stores in H.
    destruct (bca_table fmt nd conf s) as [t|e] eqn:E; inversion H; subst; [|reflexivity].
    destruct (bca_labelled fmt nd conf s t E) as (A & B & C).
    destruct conf as [c|]; [|discriminate]. exists c, t. split; [reflexivity|]. repeat split; auto.
  - rewrite run_abc in H. unfold boot_abc_interval, stores in H.
    destruct (abc_table fmt nd env conf init eps s) as [t|e] eqn:E; inversion H; subst; [|reflexivity].
    destruct (abc_labelled fmt nd env conf init eps s t E) as (A & B & C).
    destruct conf as [c|]; [|discriminate]. exists c, t. split; [reflexivity|]. repeat split; auto.
Qed.

(** The numbers stored by 'pi' are those of C57: replicates of that parameter, in order,
    enclosing at least the requested share of them. *)
Theorem C89_percentile_numbers fmt nd env c init eps s b :
  bs_boot s = Some b -> (0 < rp_rows b)%nat -> rp_cols b = length (bs_names s) -> 0 < c < 100 ->
  exists t, calc_conf_intervals fmt nd env (ConfNumber c) "pi" init eps s = (set_pi s t, Ok tt) /\
  forall j, (j < length (bs_names s))%nat ->
    (exists r, (r < rp_rows b)%nat /\ lower t j = rp_get b r j) /\
    (exists r, (r < rp_rows b)%nat /\ upper t j = rp_get b r j) /\
    lower t j <= upper t j /\
    c / 100 * INR (rp_rows b) <= INR (inside (lower t j) (upper t j) (column (rp_rows b) (rp_get b) j)).
Proof.
  intros Hb Hr Hc Hl. destruct (C57_percentile_interval (rp_rows b) (rp_cols b) (rp_get b) c Hr Hl) as (iv & E & L & H).
  exists (mkIT (bs_names s) (endpoint_names fmt (100 - c)) iv). split.
  - rewrite run_pi. unfold boot_percentile_interval, stores, percentile_table, values. rewrite Hb. cbn [bind alpha_of].
    unfold samples. rewrite E. cbn [bind]. unfold interval_frame. rewrite L, Hc, Nat.eqb_refl. reflexivity.
  - intros j Hj. rewrite <- Hc in Hj. destruct (H j Hj) as (A & B & C & D & _). auto.
Qed.

(** The numbers stored by 'bca' are those of bootstrap_calcs (C58), by parameter. *)
Theorem C89_bca_numbers fmt nd env c init eps s b j :
  bs_boot s = Some b -> bs_jack s = Some j -> length (bs_mle s) = length (bs_names s) ->
  rp_cols b = length (bs_names s) -> rp_cols j = length (bs_names s) ->
  forall iv, calc_bca_interval nd (Samples2D (rp_rows b) (rp_cols b) (rp_get b)) (Samples2D (rp_rows j) (rp_cols j) (rp_get j))
               (fun k => nth k (bs_mle s) 0) (ConfNumber c) = Ok iv ->
  length iv = length (bs_names s) ->
  exists t, calc_conf_intervals fmt nd env (ConfNumber c) "bca" init eps s = (set_bca s t, Ok tt) /\ it_vals t = iv.
Proof.
  intros Hb Hj Hm Hcb Hcj iv E L. exists (mkIT (bs_names s) (endpoint_names fmt (100 - c)) iv). split; [|reflexivity].
  rewrite run_bca. unfold boot_bca_interval, stores, bca_table, values. rewrite Hb, Hj. cbn [bind alpha_of].
  rewrite Hcb, Hcj, Hm, Nat.eqb_refl. cbn [andb]. unfold samples. rewrite E. cbn [bind]. unfold interval_frame.
  rewrite L, Nat.eqb_refl. reflexivity.
Qed.

(** ** C89: 'all' is the three types, and the combined table shows them side by side. *)
Theorem C89_all fmt nd env conf init eps s s' :
  let run ty := calc_conf_intervals fmt nd env conf ty init eps s in
  run "all"%string = (s', Ok tt) <->
  exists p b a c t, conf = ConfNumber c /\
    run "pi"%string = (set_pi s p, Ok tt) /\ run "bca"%string = (set_bca s b, Ok tt) /\ run "abc"%string = (set_abc s a, Ok tt) /\
    s' = mkBS (bs_names s) (bs_mle s) (bs_boot s) (bs_jack s) (Some p) (Some b) (Some a) (Some t) /\
    at_index t = bs_names s /\ length (at_vals t) = length (bs_names s) /\
    at_cols t = [("percentile_interval", fmt ((100 - c) / 2)); ("percentile_interval", fmt (100 - (100 - c) / 2));
                 ("BCa_interval", fmt ((100 - c) / 2)); ("BCa_interval", fmt (100 - (100 - c) / 2));
                 ("ABC_interval", fmt ((100 - c) / 2)); ("ABC_interval", fmt (100 - (100 - c) / 2))]%string /\
    (forall j, (j < length (bs_names s))%nat ->
       nth j (at_vals t) [] = [lower p j; upper p j; lower b j; upper b j; lower a j; upper a j]).
Proof.
  intros run. pose proof (all_cases fmt nd env conf init eps s) as HA. split.
  - intros H. unfold run in H.
    destruct (percentile_table fmt conf s) as [p|e] eqn:Ep; [|rewrite HA in H; discriminate].
    destruct (bca_table fmt nd conf s) as [b|e] eqn:Eb; [|rewrite HA in H; discriminate].
    destruct (abc_table fmt nd env conf init eps s) as [a|e] eqn:Ea; [|rewrite HA in H; discriminate].
    destruct HA as (alpha & Ha & HA). rewrite HA in H. injection H as <-.
    destruct conf as [c|]; [|discriminate]. cbn in Ha. injection Ha as <-.
    destruct (pi_labelled _ _ _ _ Ep) as (_ & Lp & _). destruct (bca_labelled _ _ _ _ _ Eb) as (_ & Lb & _).
    destruct (abc_labelled _ _ _ _ _ _ _ _ Ea) as (_ & La & _).
    exists p, b, a, c. eexists. split; [reflexivity|].
    split; [unfold run; rewrite run_pi; unfold boot_percentile_interval, stores; rewrite Ep; reflexivity|].
    split; [unfold run; rewrite run_bca; unfold boot_bca_interval, stores; rewrite Eb; reflexivity|].
    split; [unfold run; rewrite run_abc; unfold boot_abc_interval, stores; rewrite Ea; reflexivity|].
    split; [reflexivity|]. split; [reflexivity|]. split; [|split; [reflexivity|]].
    + cbn [at_vals]. unfold side_by_side. rewrite map_length, !combine_length. lia.
    + intros j Hj. cbn [at_vals].
      assert (Hlen : length (nth j (side_by_side p b a) []) = 6%nat).
      { unfold side_by_side. set (f := fun r : R * R * (R * R) * (R * R) => _).
        rewrite (nth_indep _ [] (f ((0, 0), (0, 0), (0, 0)))) by (rewrite map_length, !combine_length; lia).
        rewrite map_nth. reflexivity. }
      apply (nth_ext _ _ 0 0); [exact Hlen|]. intros k _. apply side_nth; lia.
  - intros (p & b & a & c & t & -> & Hp & Hb & Ha & -> & Hi & Hl & Hc & Hv). unfold run in *.
    rewrite run_pi in Hp. rewrite run_bca in Hb. rewrite run_abc in Ha.
    unfold boot_percentile_interval, stores in Hp. unfold boot_bca_interval, stores in Hb. unfold boot_abc_interval, stores in Ha.
    destruct (percentile_table fmt (ConfNumber c) s) as [p'|e] eqn:Ep; [|discriminate].
    destruct (bca_table fmt nd (ConfNumber c) s) as [b'|e] eqn:Eb; [|discriminate].
    destruct (abc_table fmt nd env (ConfNumber c) init eps s) as [a'|e] eqn:Ea; [|discriminate].
    injection Hp as <-. injection Hb as <-. injection Ha as <-.
    destruct HA as (alpha & E & HA). rewrite HA. cbn in E. injection E as <-.
    unfold set_all, set_abc, set_bca, set_pi. cbn [bs_names bs_mle bs_boot bs_jack bs_pi bs_bca bs_abc]. do 3 f_equal.
    destruct (pi_labelled _ _ _ _ Ep) as (_ & Lp & _). destruct (bca_labelled _ _ _ _ _ Eb) as (_ & Lb & _).
    destruct (abc_labelled _ _ _ _ _ _ _ _ Ea) as (_ & La & _).
    destruct t as [ti tc tv]. cbn [at_index at_cols at_vals] in *. subst ti tc. f_equal.
    assert (Hs : length (side_by_side p' b' a') = length (bs_names s)) by (unfold side_by_side; rewrite map_length, !combine_length; lia).
    apply (nth_ext _ _ [] []); [lia|]. intros j Hj. rewrite Hv by lia.
    assert (Hlen : length (nth j (side_by_side p' b' a') []) = 6%nat).
    { unfold side_by_side. set (f := fun r : R * R * (R * R) * (R * R) => _).
      rewrite (nth_indep _ [] (f ((0, 0), (0, 0), (0, 0)))) by (rewrite map_length, !combine_length; lia).
      rewrite map_nth. reflexivity. }
    apply (nth_ext _ _ 0 0); [exact Hlen|]. intros k _. apply side_nth; lia.
Qed.

(** A failing 'all' raises the exception of the first type that fails; the types before it
    stay stored, the combined table is the old one.  Any other string is a ValueError and
    changes nothing. *)
Theorem C89_failures fmt nd env conf init eps s s' e :
  let run ty := calc_conf_intervals fmt nd env conf ty init eps s in
  (run "all"%string = (s', Err e) ->
    same_inputs s s' /\ bs_all s' = bs_all s /\ bs_abc s' = bs_abc s /\
    ((run "pi"%string = (s, Err e) /\ s' = s) \/
     (exists p, run "pi"%string = (set_pi s p, Ok tt) /\ run "bca"%string = (s, Err e) /\ s' = set_pi s p) \/
     (exists p b, run "pi"%string = (set_pi s p, Ok tt) /\ run "bca"%string = (set_bca s b, Ok tt) /\
        run "abc"%string = (s, Err e) /\ s' = set_bca (set_pi s p) b))) /\
  (forall ty, ~ In ty ["pi"; "bca"; "abc"; "all"]%string -> run ty = (s, Err ValueError)).
Proof.
  intros run. split.
  - intros H. pose proof (all_cases fmt nd env conf init eps s) as HA. unfold run in *. rewrite run_pi, run_bca, run_abc.
    unfold boot_percentile_interval, boot_bca_interval, boot_abc_interval, stores.
    destruct (percentile_table fmt conf s) as [p|e1].
    2: { rewrite HA in H. injection H as <- <-. split; [repeat split|]. split; [reflexivity|]. split; [reflexivity|]. left. auto. }
    destruct (bca_table fmt nd conf s) as [b|e1].
    2: { rewrite HA in H. injection H as <- <-. split; [repeat split|]. split; [reflexivity|]. split; [reflexivity|].
         right. left. exists p. auto. }
    destruct (abc_table fmt nd env conf init eps s) as [a|e1].
    2: { rewrite HA in H. injection H as <- <-. split; [repeat split|]. split; [reflexivity|]. split; [reflexivity|].
         right. right. exists p, b. auto. }
    destruct HA as (al & _ & HA). rewrite HA in H. discriminate.
  - intros ty Hn. unfold run, calc_conf_intervals.
    destruct (String.eqb_spec ty "pi"); [subst; exfalso; apply Hn; cbn; auto|].
    destruct (String.eqb_spec ty "bca"); [subst; exfalso; apply Hn; cbn; auto|].
    destruct (String.eqb_spec ty "abc"); [subst; exfalso; apply Hn; cbn; auto|].
    destruct (String.eqb_spec ty "all"); [subst; exfalso; apply Hn; cbn; auto|]. reflexivity.
Qed.

(** The methods fail before the replicates exist, and ABC intervals without starting values. *)
Theorem C89_needs_replicates fmt nd env c init eps s :
  0 < c < 100 ->
  (bs_boot s = None -> forall ty, In ty ["pi"; "bca"; "all"]%string ->
     calc_conf_intervals fmt nd env (ConfNumber c) ty init eps s = (s, Err AttributeError)) /\
  (bs_jack s = None -> bs_boot s <> None ->
     calc_conf_intervals fmt nd env (ConfNumber c) "bca" init eps s = (s, Err AttributeError)) /\
  calc_conf_intervals fmt nd env (ConfNumber c) "abc" None eps s = (s, Err AttributeError).
Proof.
  intros Hc. split; [|split].
  - intros Hb ty Hty. assert (Ep : percentile_table fmt (ConfNumber c) s = Err AttributeError)
      by (unfold percentile_table, values; rewrite Hb; reflexivity).
    assert (Eb : bca_table fmt nd (ConfNumber c) s = Err AttributeError)
      by (unfold bca_table, values; rewrite Hb; reflexivity).
    destruct Hty as [<-|[<-|[<-|[]]]].
    + rewrite run_pi. unfold boot_percentile_interval, stores. rewrite Ep. reflexivity.
    + rewrite run_bca. unfold boot_bca_interval, stores. rewrite Eb. reflexivity.
    + pose proof (all_cases fmt nd env (ConfNumber c) init eps s) as HA. rewrite Ep in HA. exact HA.
  - intros Hj Hb. rewrite run_bca. unfold boot_bca_interval, stores, bca_table, values. rewrite Hj.
    destruct (bs_boot s); [reflexivity|congruence].
  - rewrite run_abc. unfold boot_abc_interval, stores, abc_table. cbn [alpha_of bind].
    rewrite valid_conf by exact Hc. reflexivity.
Qed.

(** ** C89: histories *)
Section Histories.
  Variables (fmt : R -> string) (nd : normal_dist).

  Lemma history_app cs cs' s : history fmt nd (cs ++ cs') s = history fmt nd cs' (history fmt nd cs s).
  Proof. apply fold_left_app. Qed.

  Lemma perform_names c s : bs_names (perform fmt nd c s) = bs_names s /\ bs_mle (perform fmt nd c s) = bs_mle s.
  Proof.
    destruct c as [r|r|env conf ty init eps]; [auto|auto|]. cbn [perform].
    unfold calc_conf_intervals, and_then, boot_percentile_interval, boot_bca_interval, boot_abc_interval, boot_combine, stores.
    repeat match goal with
           | |- context [if ?b then _ else _] => destruct b
           | |- context [match ?x with Ok _ => _ | Err _ => _ end] => destruct x
           end; cbn; auto.
  Qed.

  Lemma pi_after env conf ty init eps s :
    bs_pi (perform fmt nd (Intervals env conf ty init eps) s) =
    if (String.eqb ty "pi" || String.eqb ty "all")%bool
    then match percentile_table fmt conf s with Ok t => Some t | Err _ => bs_pi s end
    else bs_pi s.
  Proof.
    cbn [perform]. unfold calc_conf_intervals. destruct (String.eqb_spec ty "pi") as [->|N1]; cbn [orb].
    { unfold boot_percentile_interval, stores. destruct (percentile_table fmt conf s); reflexivity. }
    destruct (String.eqb_spec ty "bca") as [->|N2].
    { cbn. unfold boot_bca_interval, stores. destruct (bca_table fmt nd conf s); reflexivity. }
    destruct (String.eqb_spec ty "abc") as [->|N3].
    { cbn. unfold boot_abc_interval, stores. destruct (abc_table fmt nd env conf init eps s); reflexivity. }
    destruct (String.eqb_spec ty "all") as [->|N4]; [|reflexivity].
    pose proof (all_cases fmt nd env conf init eps s) as HA. unfold calc_conf_intervals in HA. cbn in HA.
    destruct (percentile_table fmt conf s) as [p|e]; [|rewrite HA; reflexivity].
    destruct (bca_table fmt nd conf s) as [b|e]; [|rewrite HA; reflexivity].
    destruct (abc_table fmt nd env conf init eps s) as [a|e]; [|rewrite HA; reflexivity].
    destruct HA as (al & _ & ->). reflexivity.
  Qed.

  (** The percentile table on the object is the one made by the last call of type 'pi' or
      'all' that could make one, from the replicates that were stored at that moment. *)
  Theorem C89_stored_percentile_table cs names mle t :
    bs_pi (history fmt nd cs (fresh names mle)) = Some t ->
    exists before env conf ty init eps after,
      cs = before ++ Intervals env conf ty init eps :: after /\ (ty = "pi" \/ ty = "all")%string /\
      let s := history fmt nd before (fresh names mle) in
      calc_conf_intervals fmt nd env conf "pi" init eps s = (set_pi s t, Ok tt) /\
      forall later env' conf' ty' init' eps' rest,
        after = later ++ Intervals env' conf' ty' init' eps' :: rest -> (ty' = "pi" \/ ty' = "all")%string ->
        let s' := history fmt nd (before ++ Intervals env conf ty init eps :: later) (fresh names mle) in
        exists e, calc_conf_intervals fmt nd env' conf' "pi" init' eps' s' = (s', Err e).
  Proof.
    induction cs as [|c cs IH] using rev_ind; [discriminate|].
    rewrite history_app. cbn [history fold_left]. set (s := history fmt nd cs (fresh names mle)) in *.
    assert (KEEP : bs_pi s = Some t ->
      (forall env conf ty init eps, c = Intervals env conf ty init eps -> (ty = "pi" \/ ty = "all")%string ->
         exists e, calc_conf_intervals fmt nd env conf "pi" init eps s = (s, Err e)) ->
      exists before env conf ty init eps after,
        cs ++ [c] = before ++ Intervals env conf ty init eps :: after /\ (ty = "pi" \/ ty = "all")%string /\
        let s := history fmt nd before (fresh names mle) in
        calc_conf_intervals fmt nd env conf "pi" init eps s = (set_pi s t, Ok tt) /\
        forall later env' conf' ty' init' eps' rest,
          after = later ++ Intervals env' conf' ty' init' eps' :: rest -> (ty' = "pi" \/ ty' = "all")%string ->
          let s' := history fmt nd (before ++ Intervals env conf ty init eps :: later) (fresh names mle) in
          exists e, calc_conf_intervals fmt nd env' conf' "pi" init' eps' s' = (s', Err e)).
    { intros E HC. destruct (IH E) as (before & env & conf & ty & init & eps & after & -> & Hty & Hrun & Hlater).
      exists before, env, conf, ty, init, eps, (after ++ [c]). split; [rewrite <- app_assoc; reflexivity|].
      split; [exact Hty|]. split; [exact Hrun|].
      intros later env' conf' ty' init' eps' rest Ea Hty'.
      destruct rest as [|x rest _] using rev_ind.
      - assert (X : after = later /\ c = Intervals env' conf' ty' init' eps') by (apply app_inj_tail; exact Ea).
        destruct X as [<- X]. apply (HC _ _ _ _ _ X Hty').
      - rewrite app_comm_cons, app_assoc in Ea. apply app_inj_tail in Ea. destruct Ea as [Ea _].
        apply (Hlater later env' conf' ty' init' eps' rest Ea Hty'). }
    destruct c as [r|r|env conf ty init eps].
    - cbn [perform set_boot bs_pi]. intros E. apply KEEP; [exact E|]. intros; discriminate.
    - cbn [perform set_jack bs_pi]. intros E. apply KEEP; [exact E|]. intros; discriminate.
    - rewrite pi_after. destruct ((String.eqb ty "pi" || String.eqb ty "all")%bool) eqn:B.
      + assert (Hty : (ty = "pi" \/ ty = "all")%string) by (apply orb_true_iff in B; destruct B as [B|B]; apply String.eqb_eq in B; auto).
        destruct (percentile_table fmt conf s) as [t'|e] eqn:Ep.
        * intros E. injection E as <-. exists cs, env, conf, ty, init, eps, []. split; [reflexivity|]. split; [exact Hty|]. split.
          -- fold s. rewrite run_pi. unfold boot_percentile_interval, stores. rewrite Ep. reflexivity.
          -- intros later env' conf' ty' init' eps' rest Ea. destruct later; discriminate.
        * intros E. apply KEEP; [exact E|]. intros env' conf' ty' init' eps' X _. injection X as <- <- <- <- <-.
          exists e. rewrite run_pi. unfold boot_percentile_interval, stores. rewrite Ep. reflexivity.
      + intros E. apply KEEP; [exact E|]. intros env' conf' ty' init' eps' X [-> | ->]; injection X as <- <- -> <- <-; discriminate.
  Qed.

  (** Every table on the object carries the parameter names and has one row per parameter,
      whatever was called before. *)
  Definition well_labelled (s : bstate) : Prop :=
    (forall t, In (Some t) [bs_pi s; bs_bca s; bs_abc s] -> it_index t = bs_names s /\ length (it_vals t) = length (bs_names s)) /\
    (forall t, bs_all s = Some t -> at_index t = bs_names s /\ length (at_vals t) = length (bs_names s) /\ length (at_cols t) = 6%nat).

  Lemma perform_labelled c s : well_labelled s -> well_labelled (perform fmt nd c s).
  Proof.
    intros (W1 & W2).
    assert (P : forall t, bs_pi s = Some t -> it_index t = bs_names s /\ length (it_vals t) = length (bs_names s)) by (intros; apply W1; cbn; auto).
    assert (Q : forall t, bs_bca s = Some t -> it_index t = bs_names s /\ length (it_vals t) = length (bs_names s)) by (intros; apply W1; cbn; auto).
    assert (U : forall t, bs_abc s = Some t -> it_index t = bs_names s /\ length (it_vals t) = length (bs_names s)) by (intros; apply W1; cbn; auto).
    destruct c as [r|r|env conf ty init eps]; [split; assumption|split; assumption|]. cbn [perform].
    destruct (in_dec string_dec ty ["pi"; "bca"; "abc"]%string) as [Hs|Hs].
    - destruct (calc_conf_intervals fmt nd env conf ty init eps s) as [s' r] eqn:E.
      pose proof (C89_single_type fmt nd env conf ty init eps s s' r Hs E) as H. cbn [fst].
      destruct r as [u|e]; [|subst s'; split; assumption].
      destruct H as (c & t & _ & A & B & _ & ->).
      destruct (String.eqb ty "pi"); [|destruct (String.eqb ty "bca")]; (split; [|exact W2]);
        intros t' [X|[X|[X|[]]]]; cbn in X; try (injection X as <-; auto; fail); auto.
    - destruct (string_dec ty "all") as [->|Hn].
      + destruct (calc_conf_intervals fmt nd env conf "all" init eps s) as [s' [u|e]] eqn:E; cbn [fst].
        * destruct u. pose proof (proj1 (C89_all fmt nd env conf init eps s s') E) as
            (p & b & a & c & t & _ & Hp & Hb & Ha & -> & I1 & I2 & I3 & _).
          pose proof (C89_single_type _ _ _ _ "pi"%string _ _ _ _ _ ltac:(cbn; auto) Hp) as (c1 & t1 & _ & A1 & B1 & _ & E1).
          pose proof (C89_single_type _ _ _ _ "bca"%string _ _ _ _ _ ltac:(cbn; auto) Hb) as (c2 & t2 & _ & A2 & B2 & _ & E2).
          pose proof (C89_single_type _ _ _ _ "abc"%string _ _ _ _ _ ltac:(cbn; auto) Ha) as (c3 & t3 & _ & A3 & B3 & _ & E3).
          cbn in E1, E2, E3. apply (f_equal bs_pi) in E1. apply (f_equal bs_bca) in E2. apply (f_equal bs_abc) in E3.
          cbn in E1, E2, E3. injection E1 as ->. injection E2 as ->. injection E3 as ->.
          split.
          -- intros t' [X|[X|[X|[]]]]; cbn in X; injection X as <-; auto.
          -- intros t' X. cbn in X. injection X as <-. cbn [bs_names]. rewrite I3. auto.
        * destruct (proj1 (C89_failures fmt nd env conf init eps s s' e) E) as (_ & _ & _ & [(_ & ->)|[(p & Hp & _ & ->)|(p & b & Hp & Hb & _ & ->)]]).
          -- split; assumption.
          -- pose proof (C89_single_type _ _ _ _ "pi"%string _ _ _ _ _ ltac:(cbn; auto) Hp) as (c1 & t1 & _ & A1 & B1 & _ & E1).
             cbn in E1. apply (f_equal bs_pi) in E1. cbn in E1. injection E1 as ->.
             split; [|exact W2]. intros t' [X|[X|[X|[]]]]; cbn in X; try (injection X as <-; auto; fail); auto.
          -- pose proof (C89_single_type _ _ _ _ "pi"%string _ _ _ _ _ ltac:(cbn; auto) Hp) as (c1 & t1 & _ & A1 & B1 & _ & E1).
             pose proof (C89_single_type _ _ _ _ "bca"%string _ _ _ _ _ ltac:(cbn; auto) Hb) as (c2 & t2 & _ & A2 & B2 & _ & E2).
             cbn in E1, E2. apply (f_equal bs_pi) in E1. apply (f_equal bs_bca) in E2. cbn in E1, E2. injection E1 as ->. injection E2 as ->.
             split; [|exact W2]. intros t' [X|[X|[X|[]]]]; cbn in X; try (injection X as <-; auto; fail); auto.
      + rewrite (proj2 (C89_failures fmt nd env conf init eps s s ValueError)); [split; assumption|].
        cbn in *. intuition.
  Qed.

  Theorem C89_tables_are_labelled cs names mle :
    let s := history fmt nd cs (fresh names mle) in
    bs_names s = names /\ bs_mle s = mle /\ well_labelled s.
  Proof.
    induction cs as [|c cs IH] using rev_ind.
    - split; [reflexivity|]. split; [reflexivity|]. split; [intros t [H|[H|[H|[]]]]; discriminate|discriminate].
    - cbv zeta in *. rewrite history_app. cbn [history fold_left]. destruct IH as (A & B & C).
      destruct (perform_names c (history fmt nd cs (fresh names mle))) as (N & M). unfold history in *.
      rewrite N, M. split; [exact A|]. split; [exact B|]. apply perform_labelled. exact C.
  Qed.
End Histories.

(** ** Not so: "the stored intervals belong to the stored replicates" *)

(** Nothing clears the intervals when replicates are generated anew. *)
Theorem C89_refuted_stale_after_new_replicates fmt nd env init eps names mle c r r' :
  (0 < rp_rows r)%nat -> rp_cols r = length names -> 0 < c < 100 ->
  let s := history fmt nd [StoreBootstrap r; Intervals env (ConfNumber c) "pi" init eps; StoreBootstrap r'] (fresh names mle) in
  bs_boot s = Some r' /\
  exists t, bs_pi s = Some t /\
    forall j, (j < length names)%nat -> exists b, (b < rp_rows r)%nat /\ lower t j = rp_get r b j.
Proof.
  intros Hr Hc Hl s. unfold s. split; [reflexivity|].
  destruct (C89_percentile_numbers fmt nd env c init eps (set_boot (fresh names mle) r) r eq_refl Hr Hc Hl) as (t & E & H).
  exists t. split; [|intros j Hj; apply (H j Hj)].
  cbn [history fold_left perform]. rewrite E. reflexivity.
Qed.

(** A later call of type 'pi' does not update the combined table. *)
Theorem C89_refuted_combined_table_stale fmt nd env init eps s s' s'' ta c c' :
  calc_conf_intervals fmt nd env (ConfNumber c) "all" init eps s = (s', Ok tt) -> bs_all s' = Some ta ->
  calc_conf_intervals fmt nd env (ConfNumber c') "pi" init eps s' = (s'', Ok tt) ->
  bs_all s'' = Some ta /\
  (forall tp, bs_pi s'' = Some tp -> it_cols tp = (fmt ((100 - c') / 2), fmt (100 - (100 - c') / 2))) /\
  nth 0 (at_cols ta) (EmptyString, EmptyString) = ("percentile_interval"%string, fmt ((100 - c) / 2)).
Proof.
  intros H1 H2 H3.
  pose proof (C89_single_type _ _ _ _ "pi"%string _ _ _ _ _ ltac:(cbn; auto) H3) as (c1 & t1 & X & _ & _ & B & ->).
  injection X as <-. cbn. split; [exact H2|]. split; [intros tp Y; injection Y as <-; exact B|].
  apply (proj1 (C89_all fmt nd env (ConfNumber c) init eps s s')) in H1.
  destruct H1 as (p & b & a & c2 & t & X & _ & _ & _ & -> & _ & _ & C & _). injection X as <-. cbn in H2. injection H2 as <-.
  rewrite C. reflexivity.
Qed.

(** ** The hypotheses are met: three observations with values 0, 0, 3 whose mean is
    estimated, four bootstrap replicates and three jackknife replicates; the 50% intervals
    of all three types. *)
Definition bi_t : mat := fun o j => if (j =? 0)%nat then nth o [0; 0; 3] 0 else 0.
Definition bi_fit (w : xvec) : Res vec := Ok (fun j => sumn 3 (fun o => value_of (w o) * bi_t o j)).
Definition bi_env : abc_env := mkAbc 3 ident None (fun _ => bi_fit).
Definition bi_boot : rep_table := mkReps 4 1 (fun b _ => nth b [0; 2; 1 / 2; 3 / 2] 0).
Definition bi_jack : rep_table := mkReps 3 1 (fun b _ => nth b [1; 3; 2] 0).
Definition bi_fmt (x : R) : string := if Rlt_dec x 50 then "25%"%string else "75%"%string.
Definition bi_calls : list call :=
  [StoreBootstrap bi_boot; StoreJackknife bi_jack;
   Intervals bi_env (ConfNumber 50) "all" (Some (mkArr 1 (fun _ => 0))) (1 / 1000)].

Lemma bi_mean : sample_mean 3 bi_t = (fun k => nth k [1] 0).
Proof.
  apply functional_extensionality. intros [|j]; unfold sample_mean, bi_t; simpl; [field|]. destruct j; field.
Qed.

Lemma bi_abc : exists iv,
  calc_abc_interval 3 ident 1 None bi_fit logistic (fun k => nth k [1] 0) (ConfNumber 50) (1 / 1000) = Ok [iv].
Proof.
  assert (Hs : 2 < sqrt 6) by (rewrite <- (sqrt_square 2) by lra; apply sqrt_lt_1; lra).
  assert (Em : sample_mean 3 bi_t 0%nat = 1) by (rewrite bi_mean; reflexivity).
  assert (E2 : sum_of_powers 3 bi_t 2 0%nat = 6) by (unfold sum_of_powers; rewrite Em; unfold bi_t; simpl; ring).
  assert (E3 : sum_of_powers 3 bi_t 3 0%nat = 6) by (unfold sum_of_powers; rewrite Em; unfold bi_t; simpl; ring).
  assert (Ea : mean_acceleration 3 bi_t 0%nat = / (6 * sqrt 6)) by (unfold mean_acceleration; rewrite E2, E3; field; lra).
  assert (Ha : 0 < / (6 * sqrt 6) < 1 / 12).
  { split; [apply Rinv_0_lt_compat; lra|]. replace (1 / 12) with (/ 12) by lra. apply Rinv_lt_contravar; lra. }
  assert (Hln : 0 < ln 3 < 2).
  { split; [rewrite <- ln_1; apply ln_increasing; lra|].
    rewrite <- (ln_exp 2). apply ln_increasing; [lra|]. pose proof (exp_ineq1 2 ltac:(lra)). lra. }
  assert (Elo : nd_ppf logistic ((100 - 50) / 200) = - ln 3)
    by (simpl; replace (/ ((100 - 50) / 200) - 1) with 3 by field; reflexivity).
  assert (Ehi : nd_ppf logistic (1 - (100 - 50) / 200) = ln 3).
  { simpl. replace (/ (1 - (100 - 50) / 200) - 1) with (/ 3) by field. rewrite ln_Rinv by lra. ring. }
  eexists. rewrite <- bi_mean.
  rewrite (C78_abc_interval_of_a_weighted_mean 3 1 ident None bi_fit bi_t (1 / 1000) logistic 50); [reflexivity| | | | | | | | |].
  - lia.
  - lra.
  - lra.
  - exact logistic_law.
  - simpl. rewrite Ropp_0, exp_0. lra.
  - intros wide. unfold bi_fit. f_equal. apply functional_extensionality. intros j. apply sumn_ext. intros o Ho.
    f_equal. unfold long_of, times_orig, create_long_form_weights. rewrite (sparse_row_single 3 _ _ o).
    + simpl. ring.
    + exact Ho.
    + unfold ident. rewrite Nat.eqb_refl. reflexivity.
    + intros k Hk Hne. unfold ident. destruct (Nat.eqb_spec o k); [lia|reflexivity].
  - intros j Hj. assert (j = 0)%nat as -> by lia. exists 2%nat. split; [lia|]. rewrite Em. unfold bi_t. simpl. lra.
  - intros o j Ho Hj. assert (j = 0)%nat as -> by lia. right. rewrite Em. unfold bi_t.
    assert (E : / 10 ^ 12 < 1 / 1000).
    { replace (1 / 1000) with (/ 10 ^ 3) by (simpl; field). apply Rinv_lt_contravar; [simpl; lra|simpl; lra]. }
    destruct o as [|[|[|o]]]; [| | |lia]; cbn [nth Nat.eqb]; unfold Rabs; destruct (Rcase_abs _); lra.
  - intros j Hj. assert (j = 0)%nat as -> by lia. rewrite Ea, Elo, Ehi. split; nra.
Qed.

Example ex_all_intervals : exists p b a t,
  let s := history bi_fmt logistic bi_calls (fresh ["mean"%string] [1]) in
  bs_pi s = Some p /\ bs_bca s = Some b /\ bs_abc s = Some a /\ bs_all s = Some t /\
  it_cols p = ("25%", "75%")%string /\ at_vals t = [[lower p 0; upper p 0; lower b 0; upper b 0; lower a 0; upper a 0]].
Proof.
  set (s := set_jack (set_boot (fresh ["mean"%string] [1]) bi_boot) bi_jack).
  assert (Hmed : nd_ppf logistic (1 / 2) = 0).
  { simpl. replace (/ (1 / 2) - 1) with 1 by field. rewrite ln_1. ring. }
  destruct (C57_percentile_interval 4 1 (rp_get bi_boot) 50 ltac:(lia) ltac:(lra)) as (iv & Eiv & Liv & _).
  set (init := Some (mkArr 1 (fun _ => 0))).
  destruct (C89_percentile_numbers bi_fmt logistic bi_env 50 init (1 / 1000) s bi_boot eq_refl ltac:(cbn; lia) eq_refl ltac:(lra)) as (p & Ep & _).
  assert (Eb : exists b, calc_conf_intervals bi_fmt logistic bi_env (ConfNumber 50) "bca" init (1 / 1000) s = (set_bca s b, Ok tt)).
  { assert (Hs : share_below 4 (rp_get bi_boot) (fun k => nth k [1] 0) 0 = 1 / 2).
    { unfold share_below, below, column. simpl.
      repeat match goal with |- context [Rlt_dec ?x ?y] => destruct (Rlt_dec x y); try lra end. simpl. field. }
    assert (Ha : calc_acceleration_bca (column 3 (rp_get bi_jack) 0) = 0).
    { apply (C58_acceleration_symmetric _ 2); [apply column_nonempty; lia|]. unfold column. simpl.
      replace (2 * 2 - 1) with 3 by ring. replace (2 * 2 - 3) with 1 by ring. replace (2 * 2 - 2) with 2 by ring. apply perm_swap. }
    destruct (C89_bca_numbers bi_fmt logistic bi_env 50 init (1 / 1000) s bi_boot bi_jack eq_refl eq_refl eq_refl eq_refl eq_refl iv) as (b & E & _).
    - change (calc_bca_interval logistic (Samples2D 4 1 (rp_get bi_boot)) (Samples2D 3 1 (rp_get bi_jack)) (fun k => nth k [1] 0) (ConfNumber 50) = Ok iv).
      rewrite C58_reduces_to_percentile_interval; [exact Eiv|exact logistic_law|exact Hmed|lia|lra|].
      intros j Hj. assert (j = 0)%nat as -> by lia. split; [exact Hs|exact Ha].
    - exact Liv.
    - exists b. exact E. }
  destruct Eb as (b & Eb).
  assert (Ea : exists a, calc_conf_intervals bi_fmt logistic bi_env (ConfNumber 50) "abc" init (1 / 1000) s = (set_abc s a, Ok tt)).
  { destruct bi_abc as (i & E). eexists. rewrite run_abc. unfold boot_abc_interval, stores, abc_table. cbn [alpha_of bind init].
    change (bs_mle s) with [1]. change (ae_fit bi_env (mkArr 1 (fun _ => 0))) with bi_fit. cbn [ae_num_obs ae_rows_to_obs ae_orig bi_env alen].
    rewrite E. cbn [bind]. reflexivity. }
  destruct Ea as (a & Ea).
  set (t := mkAT ["mean"%string] (all_names (endpoint_names bi_fmt (100 - 50))) [[lower p 0; upper p 0; lower b 0; upper b 0; lower a 0; upper a 0]]).
  exists p, b, a, t. cbv zeta. unfold bi_calls. cbn [history fold_left perform]. fold s. fold init.
  assert (H : calc_conf_intervals bi_fmt logistic bi_env (ConfNumber 50) "all" init (1 / 1000) s =
     (mkBS (bs_names s) (bs_mle s) (bs_boot s) (bs_jack s) (Some p) (Some b) (Some a) (Some t), Ok tt)).
  { apply C89_all. exists p, b, a, 50, t. split; [reflexivity|]. split; [exact Ep|]. split; [exact Eb|]. split; [exact Ea|].
    split; [reflexivity|]. split; [reflexivity|]. split; [reflexivity|]. split; [reflexivity|].
    intros j Hj. cbn in Hj. assert (j = 0)%nat as -> by lia. reflexivity. }
  rewrite H. cbn [fst bs_pi bs_bca bs_abc bs_all]. split; [reflexivity|]. split; [reflexivity|]. split; [reflexivity|]. split; [reflexivity|].
  split; [|reflexivity].
  pose proof (C89_single_type _ _ _ _ "pi"%string _ _ _ _ _ ltac:(cbn; auto) Ep) as (c1 & t1 & X & _ & _ & B & E1).
  cbn in E1. apply (f_equal bs_pi) in E1. cbn in E1. injection E1 as ->. injection X as <-. rewrite B. unfold bi_fmt.
  destruct (Rlt_dec _ _); [|lra]. destruct (Rlt_dec _ _); [lra|]. reflexivity.
Qed.

Print Assumptions C89_single_type.
Print Assumptions C89_percentile_numbers.
Print Assumptions C89_bca_numbers.
Print Assumptions C89_all.
Print Assumptions C89_failures.
Print Assumptions C89_needs_replicates.
Print Assumptions C89_stored_percentile_table.
Print Assumptions C89_tables_are_labelled.
Print Assumptions C89_refuted_stale_after_new_replicates.
Print Assumptions C89_refuted_combined_table_stale.
