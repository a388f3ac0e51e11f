(** C118: seeds. *)
From Coq Require Import String ZArith List Reals Lra Lia Bool Arith FunctionalExtensionality.
From Verif Require Import Res Vec Arr Ids Mappings LongData Frame ChoiceTools WideLong ChoiceCalcs BaseModel NestedCalcs MixedCalcs
  Estimation Predict BootSampler Generator.
Import ListNotations.

(** ** Specification *)

(** The seed argument of a call, and the call without it *)
Definition seed_of (c : gcall) : seed_value :=
  match c with
  | CallSeed _ | CallNormals _ => SdNone
  | CallFit _ _ _ _ _ _ s _ => s
  | CallPredict _ _ _ _ _ _ s => s
  | CallPanel _ _ s _ => s
  | CallSamples _ _ _ _ s _ => s
  end.
Definition unseeded (c : gcall) : gcall :=
  match c with
  | CallSeed z => CallSeed z
  | CallNormals k => CallNormals k
  | CallFit mz nm names mixing m nR _ fa => CallFit mz nm names mixing m nR SdNone fa
  | CallPredict m data pl rlp cc nR _ => CallPredict m data pl rlp cc nR SdNone
  | CallPanel pin nR _ rlp => CallPanel pin nR SdNone rlp
  | CallSamples obs alts choice n _ empty => CallSamples obs alts choice n SdNone empty
  end.
(** The results that a program returns after its first n calls *)
Definition results_after (g : generator) (n : nat) (calls : list gcall) (st : g_state g) : list outcome :=
  skipn n (fst (program g calls st)).
(** A call that gets to its random numbers: it makes bootstrap samples, or it simulates a
    mixed logit and none of the earlier checks of its arguments fails. *)
Definition positive (r : Res (option (nat * nat * nat))) : Prop :=
  exists U n V, r = Ok (Some (U, n, V)) /\ (0 < U)%nat /\ (0 < n)%nat /\ (0 < V)%nat.
Definition gets_to_draws (c : gcall) : Prop :=
  match c with
  | CallSeed _ | CallNormals _ => False
  | CallFit _ _ _ _ m nR _ fa => positive (fit_request m nR fa)
  | CallPredict m data pl rlp cc nR _ => positive (predict_request m data pl rlp cc nR)
  | CallPanel pin nR _ rlp => positive (panel_request pin nR rlp)
  | CallSamples _ _ _ _ _ _ => True
  end.
(** Mixed logits ask for a seed greater than zero, bootstrap samples do not. *)
Definition allowed_seed (c : gcall) (z : Z) : Prop :=
  match c with CallSamples _ _ _ _ _ _ => True | _ => (0 < z)%Z end.
(** The k-th normal number (from 0) that the generator yields from a state *)
Fixpoint number (g : generator) (st : g_state g) (k : nat) : R :=
  match k with O => fst (g_normal g st) | S k => number g (snd (g_normal g st)) k end.

(** ** Proof *)
Section G.
  Context (g : generator).
  Notation St := (g_state g).

  Lemma program_app h t st :
    program g (h ++ t) st = (fst (program g h st) ++ fst (program g t (snd (program g h st))), snd (program g t (snd (program g h st))))%list.
  Proof.
    revert st. induction h as [|c h IH]; intros st; cbn [program app fst snd].
    - destruct (program g t st). reflexivity.
    - destruct (gcall_run g c st) as [o st1]. rewrite IH. destruct (program g h st1) as [os st2]. cbn [fst snd app]. destruct (program g t st2). reflexivity.
  Qed.
  Lemma program_length h st : length (fst (program g h st)) = length h.
  Proof.
    revert st. induction h as [|c h IH]; intros st; cbn [program]; [reflexivity|]. destruct (gcall_run g c st) as [o st1].
    specialize (IH st1). destruct (program g h st1) as [os st2]. cbn in *. lia.
  Qed.
  Lemma results_after_app h t st : results_after g (length h) (h ++ t) st = fst (program g t (snd (program g h st))).
  Proof.
    unfold results_after. rewrite program_app. cbn [fst]. rewrite skipn_app, program_length, Nat.sub_diag, skipn_O.
    rewrite skipn_all2 by (rewrite program_length; lia). reflexivity.
  Qed.

  Lemma draws_seeded U n V s st st' : s <> SdNone -> fst (g_normal_draws g U n V s st) = fst (g_normal_draws g U n V s st').
  Proof.
    intros Hs. unfold g_normal_draws, np_seed. destruct (_ && _ && _)%bool; [|reflexivity]. destruct s as [|z|]; [congruence| |reflexivity].
    destruct (0 <? z)%Z; [|reflexivity]. destruct (g_seed g z); reflexivity.
  Qed.
  Lemma with_draws_seeded {A} rq s (f : (nat -> mat) -> Res A) st st' : s <> SdNone ->
    fst (with_draws g rq s f st) = fst (with_draws g rq s f st').
  Proof.
    intros Hs. unfold with_draws. destruct rq as [[[[U n] V]|]|e]; try reflexivity.
    pose proof (draws_seeded U n V s st st' Hs) as E. destruct (g_normal_draws g U n V s st) as [r st1]. destruct (g_normal_draws g U n V s st') as [r' st2].
    cbn [fst] in E. subst r'. destruct r; reflexivity.
  Qed.
  Lemma samples_seeded obs alts choice n s empty st st' : s <> SdNone ->
    fst (g_bootstrap_samples g obs alts choice n s empty st) = fst (g_bootstrap_samples g obs alts choice n s empty st').
  Proof.
    intros Hs. unfold g_bootstrap_samples, np_seed. destruct (get_num_obs_choosing_each_alternative _) as [gr tot].
    destruct s as [|z|]; [congruence| |reflexivity]. destruct (g_seed g z); reflexivity.
  Qed.
  Lemma call_seeded c st st' : seed_of c <> SdNone -> fst (gcall_run g c st) = fst (gcall_run g c st').
  Proof.
    destruct c as [z|k|mz nm names mixing m nR s fa|m data pl rlp cc nR s|pin nR s rlp|obs alts choice n s empty]; cbn [seed_of gcall_run]; intros Hs; try congruence.
    - unfold g_fit. pose proof (with_draws_seeded (fit_request m nR fa) s (fun rvs => fit_mle mz nm names mixing m nR rvs fa) st st' Hs) as E.
      destruct (with_draws g _ s _ st), (with_draws g _ s _ st'). cbn in *. congruence.
    - unfold g_predict. pose proof (with_draws_seeded (predict_request m data pl rlp cc nR) s (predict m data pl rlp cc nR) st st' Hs) as E.
      destruct (with_draws g _ s _ st), (with_draws g _ s _ st'). cbn in *. congruence.
    - unfold g_panel_predict. pose proof (with_draws_seeded (panel_request pin nR rlp) s (fun rvs => panel_predict pin nR rvs rlp) st st' Hs) as E.
      destruct (with_draws g _ s _ st), (with_draws g _ s _ st'). cbn in *. congruence.
    - pose proof (samples_seeded obs alts choice n s empty st st' Hs) as E.
      destruct (g_bootstrap_samples g _ _ _ _ s _ st), (g_bootstrap_samples g _ _ _ _ s _ st'). cbn in *. congruence.
  Qed.

  (** ** C118 *)

  (** (a) The result of a call with a seed does not depend on what was drawn or seeded before. *)
  Theorem C118_same_seed_same_result c h h' st st' :
    seed_of c <> SdNone ->
    results_after g (length h) (h ++ [c]) st = results_after g (length h') (h' ++ [c]) st'.
  Proof.
    intros Hs. rewrite !results_after_app. cbn [program].
    pose proof (call_seeded c (snd (program g h st)) (snd (program g h' st')) Hs) as E.
    destruct (gcall_run g c (snd (program g h st))), (gcall_run g c (snd (program g h' st'))). cbn in *. congruence.
  Qed.

  Lemma with_draws_reseeds {A} rq z s0 (f : (nat -> mat) -> Res A) st : positive rq -> (0 < z)%Z -> g_seed g z = Some s0 ->
    with_draws g rq (SdInt z) f st = with_draws g rq SdNone f s0.
  Proof.
    intros (U & n & V & -> & HU & Hn & HV) Hz E. unfold with_draws, g_normal_draws, np_seed. rewrite E.
    apply Z.ltb_lt in Hz. rewrite Hz. apply Nat.ltb_lt in HU, Hn, HV. rewrite HU, Hn, HV. reflexivity.
  Qed.
  Lemma call_reseeds c z s0 st : gets_to_draws c -> seed_of c = SdInt z -> allowed_seed c z -> g_seed g z = Some s0 ->
    gcall_run g c st = gcall_run g (unseeded c) s0.
  Proof.
    intros Hd Hs Ha E.
    destruct c as [z'|k|mz nm names mixing m nR s fa|m data pl rlp cc nR s|pin nR s rlp|obs alts choice n s empty];
      cbn [seed_of gets_to_draws unseeded gcall_run allowed_seed] in *; try contradiction; subst s.
    - unfold g_fit. rewrite (with_draws_reseeds _ z s0 _ st Hd Ha E). reflexivity.
    - unfold g_predict. rewrite (with_draws_reseeds _ z s0 _ st Hd Ha E). reflexivity.
    - unfold g_panel_predict. rewrite (with_draws_reseeds _ z s0 _ st Hd Ha E). reflexivity.
    - unfold g_bootstrap_samples, np_seed. destruct (get_num_obs_choosing_each_alternative _). rewrite E. reflexivity.
  Qed.

  (** (b) Passing a seed is calling np.random.seed before: the call changes the generator of
      the whole program, and all random numbers drawn after it repeat too. *)
  Theorem C118_seed_argument_is_np_random_seed c z s0 h t st :
    gets_to_draws c -> seed_of c = SdInt z -> allowed_seed c z -> g_seed g z = Some s0 ->
    results_after g (length h) (h ++ c :: t) st = results_after g (S (length h)) (h ++ CallSeed z :: unseeded c :: t) st.
  Proof.
    intros Hd Hs Ha E.
    replace (S (length h)) with (length (h ++ [CallSeed z])%list) by (rewrite app_length; cbn; lia).
    replace (h ++ CallSeed z :: unseeded c :: t)%list with ((h ++ [CallSeed z]) ++ unseeded c :: t)%list by (rewrite <- app_assoc; reflexivity).
    rewrite !results_after_app. rewrite program_app. cbn [snd program gcall_run].
    unfold np_seed. rewrite E. cbn [snd]. rewrite (call_reseeds c z s0 _ Hd Hs Ha E). reflexivity.
  Qed.
  Theorem C118_later_draws_repeat c z s0 h h' t st st' :
    gets_to_draws c -> seed_of c = SdInt z -> allowed_seed c z -> g_seed g z = Some s0 ->
    results_after g (length h) (h ++ c :: t) st = results_after g (length h') (h' ++ c :: t) st'.
  Proof.
    intros Hd Hs Ha E. rewrite !results_after_app. cbn [program]. rewrite !(call_reseeds c z s0 _ Hd Hs Ha E). reflexivity.
  Qed.

  (** (c) A seed that is refused leaves the generator as it was. *)
  Definition failed (o : outcome) (e : exn) : Prop :=
    match o with
    | OutUnit r => r = Err e | OutNumbers _ => False | OutFit r => r = Err e
    | OutProbs r => r = Err e | OutSamples r => r = Err e
    end.
  Lemma with_draws_refused {A} rq s (f : (nat -> mat) -> Res A) st : positive rq ->
    (s = SdOther \/ exists z, s = SdInt z /\ (z <= 0)%Z) -> with_draws g rq s f st = (Err AssertionError, st).
  Proof.
    intros (U & n & V & -> & HU & Hn & HV) Hs. unfold with_draws, g_normal_draws.
    apply Nat.ltb_lt in HU, Hn, HV. rewrite HU, Hn, HV. cbn [andb]. destruct Hs as [->|(z & -> & Hz)]; [reflexivity|].
    destruct (Z.ltb_spec 0 z); [lia|reflexivity].
  Qed.
  Lemma with_draws_refused_by_numpy {A} rq z (f : (nat -> mat) -> Res A) st : positive rq ->
    (0 < z)%Z -> g_seed g z = None -> with_draws g rq (SdInt z) f st = (Err ValueError, st).
  Proof.
    intros (U & n & V & -> & HU & Hn & HV) Hz E. unfold with_draws, g_normal_draws, np_seed.
    apply Nat.ltb_lt in HU, Hn, HV. rewrite HU, Hn, HV. cbn [andb]. apply Z.ltb_lt in Hz. rewrite Hz, E. reflexivity.
  Qed.
  Theorem C118_refused_seed c st :
    gets_to_draws c ->
    (seed_of c = SdOther \/ exists z, seed_of c = SdInt z /\ (~ allowed_seed c z \/ g_seed g z = None)) ->
    snd (gcall_run g c st) = st /\ exists e, failed (fst (gcall_run g c st)) e.
  Proof.
    intros Hd Hs.
    assert (Q : forall rq (A : Type) (f : (nat -> mat) -> Res A) s, positive rq ->
      (s = SdOther \/ exists z, s = SdInt z /\ (~ (0 < z)%Z \/ g_seed g z = None)) -> exists e, with_draws g rq s f st = (Err e, st)).
    { intros rq A f s Hp [->|(z & -> & Hz)]; [eexists; apply with_draws_refused; auto|].
      destruct (Z_le_gt_dec z 0) as [Hle|Hgt]; [eexists; apply with_draws_refused; eauto|].
      destruct Hz as [Hz|Hz]; [lia|]. eexists. apply with_draws_refused_by_numpy; [exact Hp|lia|exact Hz]. }
    destruct c as [z'|k|mz nm names mixing m nR s fa|m data pl rlp cc nR s|pin nR s rlp|obs alts choice n s empty];
      cbn [seed_of gets_to_draws gcall_run allowed_seed] in *; try contradiction.
    - unfold g_fit. destruct (Q _ _ (fun rvs => fit_mle mz nm names mixing m nR rvs fa) s Hd Hs) as (e & ->). cbn. eauto.
    - unfold g_predict. destruct (Q _ _ (predict m data pl rlp cc nR) s Hd Hs) as (e & ->). cbn. eauto.
    - unfold g_panel_predict. destruct (Q _ _ (fun rvs => panel_predict pin nR rvs rlp) s Hd Hs) as (e & ->). cbn. eauto.
    - unfold g_bootstrap_samples, np_seed. destruct (get_num_obs_choosing_each_alternative _). destruct Hs as [->|(z & -> & [Hz|Hz])]; [cbn; eauto|tauto|].
      rewrite Hz. cbn. eauto.
  Qed.

  (** (d) Which numbers are used: the draws of variable v for unit u are the numbers
      v*U*n + u*n, ... of the generator: all units' draws of the first variable come before
      those of the second. *)
  Lemma normals_nth k st i : (i < k)%nat -> nth i (fst (normals g k st)) 0%R = number g st i.
  Proof.
    revert st i. induction k as [|k IH]; intros st i Hi; [lia|]. cbn [normals]. destruct (g_normal g st) as [x st1] eqn:E.
    specialize (IH st1). destruct (normals g k st1) as [l st2]. cbn [fst] in *. destruct i; cbn [nth number]; rewrite E; [reflexivity|]. cbn [snd]. apply IH. lia.
  Qed.
  Fixpoint skip_numbers (k : nat) (st : St) : St := match k with O => st | S k => skip_numbers k (snd (g_normal g st)) end.
  Lemma normals_state k st : snd (normals g k st) = skip_numbers k st.
  Proof.
    revert st. induction k as [|k IH]; intros st; cbn [normals skip_numbers]; [reflexivity|]. destruct (g_normal g st) as [x st1]. specialize (IH st1).
    destruct (normals g k st1). exact IH.
  Qed.
  Lemma number_skip k st i : number g (skip_numbers k st) i = number g st (k + i).
  Proof. revert st. induction k as [|k IH]; intros st; cbn [skip_numbers number Nat.add]; [reflexivity|]. apply IH. Qed.
  Lemma rvs_array_spec U n st : (forall u r, (u < U)%nat -> (r < n)%nat -> fst (rvs_array g U n st) u r = number g st (u * n + r)) /\
    snd (rvs_array g U n st) = skip_numbers (U * n) st /\
    (forall u r, ~ ((u < U)%nat /\ (r < n)%nat) -> fst (rvs_array g U n st) u r = 0%R).
  Proof.
    unfold rvs_array. pose proof (normals_nth (U * n) st) as E. pose proof (normals_state (U * n) st) as HS. destruct (normals g (U * n) st) as [l st1].
    cbn [fst snd] in *. split; [|split; [exact HS|]].
    - intros u r Hu Hr. apply Nat.ltb_lt in Hu as Hu'. apply Nat.ltb_lt in Hr as Hr'. rewrite Hu', Hr'. cbn [andb]. apply E.
      assert (S u * n <= U * n)%nat by (apply Nat.mul_le_mono_r; lia). cbn in *. lia.
    - intros u r H. destruct (Nat.ltb_spec u U); [|reflexivity]. destruct (Nat.ltb_spec r n); [tauto|reflexivity].
  Qed.
  Lemma draw_arrays_spec V U n st : length (fst (draw_arrays g V U n st)) = V /\
    (forall v u r, (v < V)%nat -> (u < U)%nat -> (r < n)%nat ->
      as_rvs (fst (draw_arrays g V U n st)) v u r = number g st (v * (U * n) + u * n + r)) /\
    (forall v u r, ~ ((u < U)%nat /\ (r < n)%nat) -> as_rvs (fst (draw_arrays g V U n st)) v u r = 0%R) /\
    snd (draw_arrays g V U n st) = skip_numbers (V * (U * n)) st.
  Proof.
    revert st. induction V as [|V IH]; intros st; cbn [draw_arrays].
    - cbn [fst snd length]. split; [reflexivity|]. split; [intros; lia|]. split; [intros v u r _; unfold as_rvs; destruct v; reflexivity|reflexivity].
    - pose proof (rvs_array_spec U n st) as (A1 & A2 & A3). destruct (rvs_array g U n st) as [x st1]. cbn [fst snd] in *.
      specialize (IH st1). destruct (draw_arrays g V U n st1) as [l st2]. cbn [fst snd length] in *. destruct IH as (B1 & B2 & B3 & B4).
      split; [congruence|]. split; [|split].
      + intros v u r Hv Hu Hr. unfold as_rvs in *. destruct v as [|v]; cbn [nth].
        * rewrite A1 by assumption. f_equal.
        * rewrite B2 by lia. rewrite A2, number_skip. f_equal. cbn. lia.
      + intros v u r H. unfold as_rvs in *. destruct v as [|v]; cbn [nth]; [apply A3; exact H|apply B3; exact H].
      + rewrite B4, A2. clear. cbn [Nat.mul]. generalize (V * (U * n))%nat. intros k. revert st. induction (U * n)%nat as [|j IHj]; intros st; [reflexivity|].
        cbn [Nat.add skip_numbers]. apply IHj.
  Qed.
  Theorem C118_numbers_used U n V st l st' :
    g_normal_draws g U n V SdNone st = (Ok l, st') ->
    length l = V /\ forall v u r, (v < V)%nat -> (u < U)%nat -> (r < n)%nat ->
      nth v l (fun _ _ => 0%R) u r = number g st (v * (U * n) + u * n + r).
  Proof.
    unfold g_normal_draws. destruct (_ && _ && _)%bool; [|discriminate]. pose proof (draw_arrays_spec V U n st) as (A & B & _).
    destruct (draw_arrays g V U n st) as [l' st1]. cbn [fst] in *. intros E. injection E as -> _. split; [exact A|exact B].
  Qed.

  (** (e) Bootstrap samples made with a generator are among those of BootSampler.v, about
      which C55, C56, C83 and C111 speak. *)
  Lemma choices_length n size st : length (fst (choices_of g n size st)) = size.
  Proof.
    revert st. induction size as [|k IH]; intros st; cbn [choices_of]; [reflexivity|]. destruct (g_below g st n) as [x st1]. specialize (IH st1).
    destruct (choices_of g n k st1). cbn in *. lia.
  Qed.
  Lemma fill_ext d num_samples rng rng' groups c col a : (forall k i, (c <= k)%nat -> rng k i = rng' k i) ->
    fill_samples d num_samples rng groups c col a = fill_samples d num_samples rng' groups c col a.
  Proof.
    revert c col a. induction groups as [|[alt size] groups IH]; intros c col a H; cbn [fill_samples]; [reflexivity|].
    destruct (dict_get Z.eqb d alt) as [ids|]; [|reflexivity].
    assert (E : np_random_choice ids (rng c) (size * num_samples) = np_random_choice ids (rng' c) (size * num_samples)).
    { unfold np_random_choice. destruct (_ && _)%bool; [reflexivity|]. f_equal. apply map_ext. intros i. rewrite H by lia. reflexivity. }
    rewrite E. destruct (np_random_choice ids (rng' c) _); cbn [bind]; [|reflexivity]. apply IH. intros k i Hk. apply H. lia.
  Qed.
  Lemma fill_covered d num_samples groups c col a st :
    exists rng, fst (g_fill_samples g d num_samples groups col a st) = fill_samples d num_samples rng groups c col a.
  Proof.
    revert c col a st. induction groups as [|[alt size] groups IH]; intros c col a st; cbn [g_fill_samples fill_samples].
    - exists (fun _ _ => O). reflexivity.
    - destruct (dict_get Z.eqb d alt) as [ids|]; [|exists (fun _ _ => O); reflexivity].
      unfold g_random_choice. destruct ((length ids =? 0)%nat && (0 <? size * num_samples)%nat)%bool eqn:Eb.
      + exists (fun _ _ => O). unfold np_random_choice. rewrite Eb. reflexivity.
      + pose proof (choices_length (length ids) (size * num_samples) st) as L. destruct (choices_of g (length ids) (size * num_samples) st) as [l st1]. cbn [fst] in L.
        set (drawn := map (fun i => nth (i mod length ids) ids 0%Z) l).
        destruct (IH (S c) (col + size)%nat (assign_cols a col (col + size)%nat (fun s j => nth (s * size + j) drawn 0%Z)) st1) as (rng & E).
        exists (fun k i => if (k =? c)%nat then nth i l O else rng k i).
        assert (Ed : np_random_choice ids (fun i => if (c =? c)%nat then nth i l O else rng c i) (size * num_samples) = Ok drawn).
        { unfold np_random_choice. rewrite Eb. f_equal. unfold drawn. rewrite <- L. clear. rewrite Nat.eqb_refl.
          transitivity (map (fun i => nth (i mod length ids) ids 0%Z) (map (fun i => nth i l O) (seq 0 (length l)))).
          - rewrite map_map. reflexivity.
          - f_equal. clear. induction l as [|x l IHl]; cbn [length seq map nth]; [reflexivity|]. f_equal. rewrite <- seq_shift, map_map. exact IHl. }
        rewrite Ed. cbn [bind]. rewrite E. apply fill_ext. intros k i Hk. destruct (Nat.eqb_spec k c); [lia|reflexivity].
  Qed.
  Definition seed_kind (s : seed_value) : seed_arg := match s with SdNone => SeedNone | SdInt _ => SeedInt | SdOther => SeedOther end.
  Theorem C118_samples_are_covered obs alts choice num_samples seed empty st :
    (forall z, seed = SdInt z -> g_seed g z <> None) ->
    exists rng, fst (g_bootstrap_samples g obs alts choice num_samples seed empty st) =
      create_cross_sectional_bootstrap_samples obs alts choice num_samples (seed_kind seed) rng empty.
  Proof.
    intros Hs. unfold g_bootstrap_samples, create_cross_sectional_bootstrap_samples, np_seed.
    set (d := relate_obs_ids_to_chosen_alts obs alts choice). destruct (get_num_obs_choosing_each_alternative d) as [groups tot].
    assert (Q : forall s1, exists rng, fst (let (r, s2) := g_fill_samples g d num_samples groups 0 empty s1 in (do ids <- r; Ok (tot, ids), s2)) =
      (do ids <- fill_samples d num_samples rng groups 0 0 empty; Ok (tot, ids))).
    { intros s1. destruct (fill_covered d num_samples groups 0 0 empty s1) as (rng & E). exists rng. destruct (g_fill_samples g d num_samples groups 0 empty s1). cbn [fst] in *. rewrite E. reflexivity. }
    destruct seed as [|z|]; cbn [seed_kind bind].
    - apply Q.
    - destruct (g_seed g z) as [s0|] eqn:E; [apply Q|exfalso; exact (Hs z eq_refl E)].
    - exists (fun _ _ => O). reflexivity.
  Qed.
End G.
