(** C119, and examples for C118: a person's simulated prediction and the other people in the table. *)
From Coq Require Import String ZArith List Reals Lra Lia Bool Arith FunctionalExtensionality.
From Verif Require Import Res Vec Arr Ids Mappings MappingFacts LongData Frame ChoiceTools WideLong ChoiceCalcs Transforms BaseModel NestedCalcs MixedCalcs
  Estimation Predict BootSampler SpecLogit ChoiceFacts LogitFacts MixedFacts PropMixed PropBaseModel PropPredict PropOwnRows PropSubstitution Generator PropGenerator.
Import ListNotations.
Local Open Scope R_scope.

(** ** predict reads the draws of its own units only *)
Lemma mdot_rows U R2m (a b : mat) : (forall u r, (u < U)%nat -> a u r = b u r) -> mdot U R2m a = mdot U R2m b.
Proof.
  intros H. apply functional_extensionality. intros i. apply functional_extensionality. intros r. unfold mdot. apply sumn_ext.
  intros u Hu. rewrite H by exact Hu. reflexivity.
Qed.
Lemma expanded_ext K X (draws draws' : list mat) pos U R2m : length draws = length draws' ->
  (forall p u r, (u < U)%nat -> nth p draws (fun _ _ => 0) u r = nth p draws' (fun _ _ => 0) u r) ->
  create_expanded_design_for_mixing K X draws pos U R2m = create_expanded_design_for_mixing K X draws' pos U R2m.
Proof.
  intros L H. unfold create_expanded_design_for_mixing. rewrite L. destruct (negb _); [reflexivity|].
  destruct draws as [|x draws], draws' as [|x' draws']; cbn in L; try discriminate; [reflexivity|].
  destruct (existsb _ pos); [reflexivity|]. f_equal. f_equal.
  generalize (fun i (_ : nat) k => hcat K X (fun i0 p => X i0 (nth p pos 0%nat)) i k). generalize (seq 0 (length pos)).
  intros l. induction l as [|p l IH]; intros x0; [reflexivity|]. cbn [fold_left]. rewrite IH. f_equal.
  rewrite (mdot_rows U R2m _ (nth p (x' :: draws') (fun _ _ => 0))) by (intros u r Hu; apply H; exact Hu). reflexivity.
Qed.

Lemma predict_draws m f pl rlp cc nd U n V rvs rvs' :
  predict_request m f pl rlp cc nd = Ok (Some (U, n, V)) ->
  (forall v u r, (v < V)%nat -> (u < U)%nat -> rvs v u r = rvs' v u r) ->
  predict m f pl rlp cc nd rvs = predict m f pl rlp cc nd rvs'.
Proof.
  unfold predict_request, predict. intros H E. destruct (fm_class m) as [k|t|pos] eqn:Ec; cbn [class_nests] in *.
  1,2: exfalso; repeat match type of H with bind ?r _ = Ok _ => destruct r; cbn [bind] in H; [|discriminate] end; discriminate.
  repeat match type of H with
  | bind (opt_smat _) _ = Ok _ => fail 1
  | bind ?r _ = Ok _ => let x := fresh "x" in let Q := fresh "Q" in destruct r as [x|] eqn:Q; cbn [bind] in H |- *; [|discriminate]
  end.
  unfold predict_mixed. destruct (opt_smat (rows_to_mixers _)) as [rm|] eqn:Erm; cbn [bind] in H |- *; [|discriminate].
  destruct nd as [nR|]; [|discriminate]. injection H as EU En EV. subst U n V.
  unfold get_normal_draws. destruct (_ && _ && _)%bool; [|reflexivity]. cbn [bind].
  match goal with |- bind ?A _ = bind ?B _ => assert (QQ : A = B) end.
  { unfold mixed_data_of.
    match goal with H0 : create_long_form_mappings _ _ = Ok _ |- _ => rewrite H0 end. cbn [bind].
    unfold opt_smat in Erm. destruct (rows_to_mixers _) as [rm'|]; [|discriminate]. injection Erm as ->.
    rewrite (expanded_ext _ _ (map rvs (seq 0 (length pos))) (map rvs' (seq 0 (length pos)))); [reflexivity|rewrite !map_length; reflexivity|].
    intros p u r Hu. destruct (Nat.lt_ge_cases p (length pos)) as [Hp|Hp].
    - rewrite (nth_indep _ _ (rvs 0%nat)) by (rewrite map_length, seq_length; exact Hp).
      rewrite (nth_indep (map rvs' _) _ (rvs' 0%nat)) by (rewrite map_length, seq_length; exact Hp).
      rewrite !map_nth, !seq_nth by exact Hp. apply E; [exact Hp|exact Hu].
    - rewrite !nth_overflow by (rewrite map_length, seq_length; exact Hp). reflexivity. }
  rewrite QQ. reflexivity.
Qed.

Lemma request_units m f pl rlp cc nd U n V : predict_request m f pl rlp cc nd = Ok (Some (U, n, V)) ->
  exists pos c u, fm_class m = ClassMixed pos /\ fm_mix_col m = Some c /\ int_col f c = Ok u /\
    U = length (first_seen u) /\ V = length pos /\ nd = Some n.
Proof.
  unfold predict_request. intros H.
  do 6 (apply bind_ok in H; destruct H as (? & _ & H)).
  apply bind_ok in H. destruct H as (d & Hl & H). apply bind_ok in H. destruct H as (mp & Hm & H).
  apply bind_ok in H. destruct H as (_ & _ & H). destruct (fm_class m) as [k|t|pos]; try discriminate.
  apply bind_ok in H. destruct H as (rm & Hr & H). destruct nd as [nR|]; [|discriminate].
  injection H as <- <- <-. destruct (cols_of_ok _ _ _ _ _ _ Hl) as (_ & _ & _ & Emx).
  assert (HR : rows_to_mixers mp = match mix_ids d with Some ids => Some (create_sparse_mapping ids None) | None => None end).
  { unfold create_long_form_mappings in Hm. apply bind_ok in Hm. destruct Hm as (q & _ & Hq). inversion Hq. reflexivity. }
  unfold opt_smat in Hr. destruct (fm_mix_col m) as [c|].
  - destruct Emx as (l & El & Ed). rewrite int_col_intercept in El. rewrite Ed, mapping_None_Some in HR. rewrite HR in Hr. injection Hr as <-.
    exists pos, c, l. repeat (split; [first [reflexivity | exact El]|]). reflexivity.
  - rewrite Emx in HR. rewrite HR in Hr. discriminate.
Qed.

(** ** The same person in two tables *)

(** One random coefficient, or as many different units in both tables *)
Definition same_layout (m : fitted_model) (f f' : frame) : Prop :=
  match fm_class m, fm_mix_col m with
  | ClassMixed pos, Some c =>
      length pos = 1%nat \/
      forall u u', int_col f c = Ok u -> int_col f' c = Ok u' -> length (first_seen u') = length (first_seen u)
  | _, _ => True
  end.

Theorem C119_same_rows_same_seed gen m f f' pl nd seed st st' p p' ids alts ids' alts' o o' g i :
  well_formed f -> well_formed f' -> constructed m ->
  int_col f (fm_obs_col m) = Ok ids -> int_col f (fm_alt_col m) = Ok alts ->
  int_col f' (fm_obs_col m) = Ok ids' -> int_col f' (fm_alt_col m) = Ok alts' ->
  (forall a, In a alts <-> In a alts') ->
  same_observation f f' (map fst (fm_spec m)) ids alts ids' alts' o o' g ->
  same_draws m f f' ids o g -> same_layout m f f' -> seed <> SdNone ->
  fst (g_predict gen m f pl true None nd seed st) = Ok (LongProbs p) ->
  fst (g_predict gen m f' pl true None nd seed st') = Ok (LongProbs p') ->
  (i < length ids)%nat -> nth i ids 0%Z = o ->
  p' (g i) = p i.
Proof.
  intros W W' Hcon Hids Halts Hids' Halts' Hset Hobs Hdraws Hlay Hseed H H' Hi Eo.
  assert (Q : exists rvs, predict m f pl true None nd rvs = Ok (LongProbs p) /\ predict m f' pl true None nd rvs = Ok (LongProbs p')).
  { unfold g_predict, with_draws in H, H'.
    destruct (predict_request m f pl true None nd) as [[[[U n] V]|]|e] eqn:Er; [| |discriminate].
    - destruct (request_units _ _ _ _ _ _ _ _ _ Er) as (pos & c & u & Ec & Em & Eu & EU & EV & En).
      destruct (predict_request m f' pl true None nd) as [[[[U' n'] V']|]|e] eqn:Er'; [| |discriminate].
      + destruct (request_units _ _ _ _ _ _ _ _ _ Er') as (pos' & c' & u' & Ec' & Em' & Eu' & EU' & EV' & En').
        assert (pos' = pos) by congruence. assert (c' = c) by congruence. assert (n' = n) by congruence. subst pos' c' n'.
        unfold g_normal_draws in H, H'. destruct (_ && _ && _)%bool; [|discriminate]. destruct (_ && _ && _)%bool; [|discriminate].
        destruct seed as [|z|]; [congruence| |discriminate]. destruct (0 <? z)%Z; [|discriminate].
        unfold np_seed in H, H'. destruct (g_seed gen z) as [s0|]; [|discriminate].
        pose proof (draw_arrays_spec gen V U n s0) as (_ & A & B & _). pose proof (draw_arrays_spec gen V' U' n s0) as (_ & A' & B' & _).
        destruct (draw_arrays gen V U n s0) as [l s1]. destruct (draw_arrays gen V' U' n s0) as [l' s1']. cbn [fst] in *.
        exists (fun v u0 r => if (r <? n)%nat then number gen s0 (v * (U * n) + u0 * n + r) else 0). split.
        * rewrite <- H. apply (predict_draws _ _ _ _ _ _ _ _ _ _ _ Er). intros v w r Hv Hw. destruct (Nat.ltb_spec r n).
          -- rewrite A by assumption. reflexivity.
          -- rewrite B by lia. reflexivity.
        * rewrite <- H'. apply (predict_draws _ _ _ _ _ _ _ _ _ _ _ Er'). intros v w r Hv Hw. destruct (Nat.ltb_spec r n).
          -- rewrite A' by assumption. f_equal. f_equal. f_equal.
             unfold same_layout in Hlay. rewrite Ec, Em in Hlay. destruct Hlay as [L|L].
             ++ replace v with 0%nat by lia. reflexivity.
             ++ rewrite EU, EU', (L u u' Eu Eu'). reflexivity.
          -- rewrite B' by lia. reflexivity.
      + exfalso. revert Er'. unfold predict_request. rewrite Ec. intros Er'.
        repeat (apply bind_ok in Er'; destruct Er' as (? & _ & Er')). destruct nd; discriminate.
    - destruct (predict_request m f' pl true None nd) as [[[[U' n'] V']|]|e] eqn:Er'; [| |discriminate].
      + exfalso. destruct (request_units _ _ _ _ _ _ _ _ _ Er') as (pos' & c' & u' & Ec' & _).
        revert Er. unfold predict_request. rewrite Ec'. intros Er.
        repeat (apply bind_ok in Er; destruct Er as (? & _ & Er)). destruct nd; discriminate.
      + exists (as_rvs []). split; assumption. }
  destruct Q as (rvs & Q & Q').
  exact (C75_own_rows m f f' pl nd rvs p p' ids alts ids' alts' o o' g i W W' Hcon Hids Halts Hids' Halts' Hset Hobs Hdraws Q Q' Hi Eo).
Qed.

(** ** Two random coefficients: the other people in the table *)

(** A generator that counts. *)
Definition counting : generator :=
  mkGenerator nat (fun z => if (z <? 0)%Z then None else Some (Z.to_nat z)) (fun k => (INR k, S k)) (fun k n => (k mod n, S k)%nat).
(** Person 7 chooses once; with [more], person 8 as well. *)
Definition trip (more : bool) : frame :=
  if more
  then mkFrame 4 [("obs"%string, [1; 1; 2; 2]%Z); ("alt"%string, [1; 2; 1; 2]%Z); ("person"%string, [7; 7; 8; 8]%Z)]
         [("time"%string, [1; 0; 1; 0]); ("cost"%string, [1; 0; 1; 0])]
  else mkFrame 2 [("obs"%string, [1; 1]%Z); ("alt"%string, [1; 2]%Z); ("person"%string, [7; 7]%Z)]
         [("time"%string, [1; 0]); ("cost"%string, [1; 0])].
(** Mean coefficients 0, standard deviation 0 for time and 1 for cost. *)
Definition trip_coefs : arr := mkArr 4 (fun k => if (k =? 3)%nat then 1 else 0).
Definition trip_model : fitted_model :=
  mkFitted (ClassMixed [0; 1]%nat) "alt" "obs" (Some "person"%string)
    [("time"%string, SStr "all_same"); ("cost"%string, SStr "all_same")] None
    (mkModelNames ["time"; "cost"; "Sigma time"; "Sigma cost"]%string None None None) trip_coefs None None None.
Definition share (x : R) : R := exp x / (exp x + 1).

Definition trip_cols (more : bool) : long_cols :=
  if more then mkLong [1; 1; 2; 2]%Z [1; 2; 1; 2]%Z None (Some [7; 7; 8; 8]%Z) else mkLong [1; 1]%Z [1; 2]%Z None (Some [7; 7]%Z).
Definition trip_X (more : bool) : mat :=
  design_mat (if more then [[1; 0; 1; 0]; [1; 0; 1; 0]] else [[1; 0]; [1; 0]]).
Definition trip_draws (more : bool) : list mat :=
  map (as_rvs (fst (draw_arrays counting 2 (if more then 2 else 1) 2 1%nat))) (seq 0 2).
Lemma trip_runs more st : exists E p, mixed_data_of (trip_cols more) 2 (trip_X more) [0; 1]%nat 2 (trip_draws more) None None = Ok E /\
  mixed_predict E trip_coefs None true = Ok (LongProbs p) /\
  fst (g_predict counting trip_model (trip more) None true None (Some 2%nat) (SdInt 1) st) = Ok (LongProbs p).
Proof. destruct more; eexists; eexists; (split; [reflexivity|]); (split; [reflexivity|]); reflexivity. Qed.

Lemma trip_utility more i r : (i < length (obs_ids (trip_cols more)))%nat -> (r < 2)%nat ->
  mixed_utility (trip_cols more) 2 (trip_X more) [0; 1]%nat (trip_draws more) trip_coefs i r =
  match i with O => INR ((if more then 5 else 3) + r) | S (S O) => INR (7 + r) | _ => 0 end.
Proof.
  intros Hi Hr. unfold mixed_utility, trip_coefs. cbn [length sumn aget Nat.add Nat.eqb nth].
  destruct r as [|[|r]]; try lia; destruct more; cbn in Hi; do 4 (destruct i as [|i]; [cbn; ring || lia|]); lia.
Qed.
Lemma trip_value more E p :
  mixed_data_of (trip_cols more) 2 (trip_X more) [0; 1]%nat 2 (trip_draws more) None None = Ok E ->
  mixed_predict E trip_coefs None true = Ok (LongProbs p) ->
  p 0%nat = (share (if more then 5 else 3) + share (if more then 6 else 4)) / 2.
Proof.
  intros H Hp.
  assert (HM : mixing_ids_per_row (trip_cols more)) by (destruct more; reflexivity).
  assert (H0 : (0 < length (obs_ids (trip_cols more)))%nat) by (destruct more; cbn; lia).
  rewrite (mixed_predict_formula _ _ _ _ _ _ _ _ _ _ _ H HM Hp); [| |exact H0].
  - replace (INR 2) with 2 by (cbn; ring). f_equal. cbn [sumn]. rewrite Rplus_0_l.
    assert (V : forall r, (r < 2)%nat -> logit_prob (trip_cols more)
      (fun k => mixed_utility (trip_cols more) 2 (trip_X more) [0; 1]%nat (trip_draws more) trip_coefs k r) 0 =
      share (INR ((if more then 5 else 3) + r))).
    { intros r Hr. unfold logit_prob, share. rewrite (trip_utility more 0 r H0 Hr). f_equal. unfold id_sum.
      pose proof (fun k Hk => trip_utility more k r Hk Hr) as T. revert T.
      generalize (fun k => mixed_utility (trip_cols more) 2 (trip_X more) [0; 1]%nat (trip_draws more) trip_coefs k r). intros V T.
      destruct more; cbn [trip_cols obs_ids length sumn nth Z.eqb Pos.eqb] in *;
        rewrite (T 0%nat), (T 1%nat) by lia; rewrite exp_0; ring. }
    rewrite !V by lia. destruct more; cbn; f_equal; f_equal; ring.
  - intros k r Hk Hr. rewrite trip_utility by assumption.
    destruct more; destruct r as [|[|r]]; try lia; do 4 (destruct k as [|k]; [cbn; lra|]); cbn; lra.
Qed.

Lemma share_lt x y : x < y -> share x < share y.
Proof.
  intros H. apply exp_increasing in H. unfold share. pose proof (exp_pos x). pose proof (exp_pos y).
  apply Rmult_lt_reg_r with ((exp x + 1) * (exp y + 1)); [nra|].
  replace (exp x / (exp x + 1) * ((exp x + 1) * (exp y + 1))) with (exp x * (exp y + 1)) by (field; lra).
  replace (exp y / (exp y + 1) * ((exp x + 1) * (exp y + 1))) with (exp y * (exp x + 1)) by (field; lra). lra.
Qed.

(** The same model, parameters, draws per person and seed: person 7's probabilities change
    when person 8 is added to the end of the table.  All other hypotheses of
    C119_same_rows_same_seed hold. *)
Theorem C119_refuted_other_people st st' :
  well_formed (trip false) /\ well_formed (trip true) /\ constructed trip_model /\
  same_observation (trip false) (trip true) ["time"; "cost"]%string [1; 1]%Z [1; 2]%Z [1; 1; 2; 2]%Z [1; 2; 1; 2]%Z 1 1 (fun i => i) /\
  same_draws trip_model (trip false) (trip true) [1; 1]%Z 1 (fun i => i) /\
  exists p p', fst (g_predict counting trip_model (trip false) None true None (Some 2%nat) (SdInt 1) st) = Ok (LongProbs p) /\
    fst (g_predict counting trip_model (trip true) None true None (Some 2%nat) (SdInt 1) st') = Ok (LongProbs p') /\
    p 0%nat < p' 0%nat.
Proof.
  assert (W : forall more, well_formed (trip more)).
  { intros more. split; intros c l; destruct more; cbn;
      repeat (match goal with |- context [String.eqb c ?s] => destruct (String.eqb c s) end; [intros H; injection H as <-; reflexivity|]); discriminate. }
  split; [apply W|]. split; [apply W|]. split; [cbn; try exact Logic.I; auto|]. split.
  { split; [|split].
    - intros i Hi E. cbn in Hi. destruct i as [|[|i]]; [| |lia];
        (split; [cbn; lia|split; [reflexivity|split; [reflexivity|intros v [<-|[<-|[]]]; reflexivity]]]).
    - auto.
    - intros i Hi E. exists i. cbn in Hi. do 4 (destruct i as [|i]; [try discriminate; cbn; (split; [lia|split; reflexivity])|]). lia. }
  split.
  { cbn. intros u u' Hu Hu'. injection Hu as <-. injection Hu' as <-. intros i Hi _. do 2 (destruct i as [|i]; [reflexivity|]). lia. }
  destruct (trip_runs false st) as (E & p & A & B & C). destruct (trip_runs true st') as (E' & p' & A' & B' & C').
  exists p, p'. split; [exact C|]. split; [exact C'|]. rewrite (trip_value _ _ _ A B), (trip_value _ _ _ A' B').
  pose proof (share_lt 3 5). pose proof (share_lt 4 6). lra.
Qed.

(** ** Non-vacuity *)

(** A call that gets to its draws, with an allowed seed, and a refused one. *)
Example ex_gets_to_draws seed : gets_to_draws (CallPredict trip_model (trip true) None true None (Some 2%nat) seed).
Proof. exists 2%nat, 2%nat, 2%nat. split; [reflexivity|]. lia. Qed.
Example ex_seed_allowed : allowed_seed (CallPredict trip_model (trip true) None true None (Some 2%nat) (SdInt 1)) 1 /\ g_seed counting 1 = Some 1%nat.
Proof. split; [cbn; lia|reflexivity]. Qed.
Example ex_seed_refused st :
  gcall_run counting (CallPredict trip_model (trip true) None true None (Some 2%nat) (SdInt 0)) st = (OutProbs (Err AssertionError), st) /\
  gcall_run counting (CallSamples [1; 1]%Z [1; 2]%Z [0; 1]%Z 1 (SdInt (-1)) (fun _ _ => 0%Z)) st = (OutSamples (Err ValueError), st).
Proof. split; reflexivity. Qed.
(** Bootstrap samples accept the seed 0. *)
Example ex_seed_zero st : exists r, fst (gcall_run counting (CallSamples [1; 1; 2; 2]%Z [1; 2; 1; 2]%Z [0; 1; 0; 1]%Z 1 (SdInt 0) (fun _ _ => 0%Z)) st) = OutSamples (Ok r).
Proof. eexists. reflexivity. Qed.
(** With one random coefficient the hypotheses of C119_same_rows_same_seed hold. *)
Definition trip_model_1 : fitted_model :=
  mkFitted (ClassMixed [1]%nat) "alt" "obs" (Some "person"%string)
    [("time"%string, SStr "all_same"); ("cost"%string, SStr "all_same")] None
    (mkModelNames ["time"; "cost"; "Sigma cost"]%string None None None) (mkArr 3 (fun k => if (k =? 2)%nat then 1 else 0)) None None None.
Example ex_one_random_coefficient st st' :
  same_layout trip_model_1 (trip false) (trip true) /\
  exists p p', fst (g_predict counting trip_model_1 (trip false) None true None (Some 2%nat) (SdInt 1) st) = Ok (LongProbs p) /\
    fst (g_predict counting trip_model_1 (trip true) None true None (Some 2%nat) (SdInt 1) st') = Ok (LongProbs p') /\
    p' 0%nat = p 0%nat /\ p' 1%nat = p 1%nat.
Proof.
  assert (L : same_layout trip_model_1 (trip false) (trip true)) by (left; reflexivity). split; [exact L|].
  pose proof (C119_refuted_other_people st st') as (W & W' & _ & S1 & S2 & _).
  eexists. eexists. split; [reflexivity|]. split; [reflexivity|].
  split; (eapply (C119_same_rows_same_seed counting trip_model_1 (trip false) (trip true) None (Some 2%nat) (SdInt 1) st st' _ _
      [1; 1]%Z [1; 2]%Z [1; 1; 2; 2]%Z [1; 2; 1; 2]%Z 1 1 (fun i => i));
    [exact W|exact W'|cbn; auto|reflexivity|reflexivity|reflexivity|reflexivity|cbn; tauto|exact S1|exact S2|exact L|discriminate|reflexivity|reflexivity|cbn; lia|reflexivity]).
Qed.
(** A program with draws of the user in between: after predict with a seed, the user's own
    numbers are the same whatever was done before. *)
Example ex_users_numbers_repeat :
  let c := CallPredict trip_model (trip true) None true None (Some 2%nat) (SdInt 5) in
  results_after counting 2 [CallSeed 3; c; CallNormals 2] 0%nat = results_after counting 3 [CallNormals 4; CallSeed 9; c; CallNormals 2] 100%nat.
Proof. reflexivity. Qed.

Print Assumptions C118_same_seed_same_result.
Print Assumptions C118_seed_argument_is_np_random_seed.
Print Assumptions C118_later_draws_repeat.
Print Assumptions C118_refused_seed.
Print Assumptions C118_numbers_used.
Print Assumptions C118_samples_are_covered.
Print Assumptions C119_same_rows_same_seed.
Print Assumptions C119_refuted_other_people.
