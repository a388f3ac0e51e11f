(** C86: predictions with several parameter vectors at once. *)
From Coq Require Import String ZArith List Reals Lra Lia Arith Bool.
From Verif Require Import Res Vec Arr Nd ChoiceCalcs Transforms Ids Mappings LongData Frame ChoiceTools
  BaseModel NestedCalcs MixedCalcs Estimation PropConstruct Predict PropPredict PredictNd.
Import ListNotations.
Open Scope R_scope.

(** ** Specification *)

(** The arrays of a parameter list are one-dimensional ([None]) or two-dimensional with
    [w] columns. *)
Definition shaped (o : option nat) (x : nd) : Prop :=
  match o, x with
  | None, A1 _ _ => True
  | Some w, A2 _ s _ => s = w
  | _, _ => False
  end.
Definition opt_shaped (o : option nat) (x : option nd) : Prop := match x with Some x => shaped o x | None => True end.
Definition num_columns (o : option nat) : nat := match o with None => 1 | Some w => w end.

(** Column [c] of a result of predict is the one-dimensional result [p]. *)
Definition is_column (c : nat) (r : nd_result) (p : prob_result) : Prop :=
  let same x (v : vec) := forall i, (i < nd_rows x)%nat -> aget (column c x) i = v i in
  match r, p with
  | NBoth ch l, BothProbs ch' l' => same ch ch' /\ same l l'
  | NLong l, LongProbs l' => same l l'
  | NChosen ch, ChosenProbs ch' => same ch ch'
  | _, _ => False
  end.
(** A parameter list with its arrays' columns [c]. *)
Definition list_column (c : nat) (pl : list (option nd)) : list (option arr) := map (option_map (column c)) pl.
(** The shape of a result: one row per row of the data or per observation. *)
Definition has_shape (o : option nat) (n : nat) (x : nd) : Prop := shaped o x /\ nd_rows x = n.
Definition result_shape (o : option nat) (N nobs : nat) (r : nd_result) : Prop :=
  match r with
  | NBoth c l => has_shape o nobs c /\ has_shape o N l
  | NLong l => has_shape o N l
  | NChosen c => has_shape o nobs c
  end.

(** ** Arrays given by their entries *)
Definition fits (o : option nat) (n : nat) (x : nd) (F : nat -> nat -> R) : Prop :=
  match o, x with
  | None, A1 m f => m = n /\ forall i, (i < n)%nat -> f i = F i 0%nat
  | Some w, A2 m s f => m = n /\ s = w /\ forall i j, (i < n)%nat -> (j < w)%nat -> f i j = F i j
  | _, _ => False
  end.

Lemma bdim_same n : bdim n n = Ok n.
Proof. unfold bdim. rewrite Nat.eqb_refl. reflexivity. Qed.
Lemma bidx_lt n i : (i < n)%nat -> bidx n i = i.
Proof. unfold bidx. destruct (Nat.eqb_spec n 1); intros; lia. Qed.

Lemma fits_column o x : shaped o x -> fits o (nd_rows x) x (fun i j => aget (column j x) i).
Proof. destruct o, x; cbn; intuition. Qed.

Lemma fits_shaped o n x F : fits o n x F -> shaped o x /\ nd_rows x = n.
Proof. destruct o, x; cbn; tauto. Qed.

Lemma fits_get o n x F i j : fits o n x F -> (i < n)%nat -> (j < num_columns o)%nat -> aget (column j x) i = F i j.
Proof.
  destruct o, x; cbn; try tauto.
  - intros (-> & -> & H). auto.
  - intros (-> & H) Hi Hj. assert (j = 0%nat) by lia. subst. auto.
Qed.

Lemma fits_ext o n x F G : fits o n x F -> (forall i j, (i < n)%nat -> (j < num_columns o)%nat -> F i j = G i j) -> fits o n x G.
Proof.
  destruct o, x; cbn; try tauto.
  - intros (-> & -> & H) E. repeat split. intros i j Hi Hj. rewrite H by assumption. auto.
  - intros (-> & H) E. split; [reflexivity|]. intros i Hi. rewrite H by assumption. apply E; lia.
Qed.

Lemma fits_umap op o n x F : fits o n x F -> fits o n (umap op x) (fun i j => op (F i j)).
Proof.
  destruct o, x; cbn; try tauto.
  - intros (-> & -> & H). repeat split. intros. rewrite H by assumption. reflexivity.
  - intros (-> & H). split; [reflexivity|]. intros. rewrite H by assumption. reflexivity.
Qed.

Lemma fits_bop op o n x y F G : fits o n x F -> fits o n y G ->
  exists z, bop op x y = Ok z /\ fits o n z (fun i j => op (F i j) (G i j)).
Proof.
  destruct o, x, y; cbn; try tauto.
  - intros (-> & -> & H) (-> & -> & H'). rewrite !bdim_same. cbn [bind]. eexists. split; [reflexivity|].
    cbn. repeat split. intros i j Hi Hj. rewrite !bidx_lt by assumption. rewrite H, H' by assumption. reflexivity.
  - intros (-> & H) (-> & H'). rewrite !bdim_same. cbn [bind]. eexists. split; [reflexivity|].
    cbn. split; [reflexivity|]. intros i Hi. rewrite !bidx_lt by assumption. rewrite H, H' by assumption. reflexivity.
Qed.

Lemma fits_inplace op o n x y F G : fits o n x F -> fits o n y G ->
  exists z, inplace op x y = Ok z /\ fits o n z (fun i j => op (F i j) (G i j)).
Proof.
  intros Hx Hy. destruct (fits_bop op o n x y F G Hx Hy) as (z & Hz & Hf). exists z. split; [|exact Hf].
  unfold inplace. rewrite Hz. cbn [bind]. replace (same_shape x z) with true; [reflexivity|].
  destruct o, x, z; cbn in *; try tauto.
  - destruct Hx as (-> & -> & _), Hf as (-> & -> & _). rewrite !Nat.eqb_refl. reflexivity.
  - destruct Hx as (-> & _), Hf as (-> & _). rewrite !Nat.eqb_refl. reflexivity.
Qed.

Lemma fits_dot o n k M x F : fits o k x F ->
  exists z, nd_dot n k M x = Ok z /\ fits o n z (fun i j => mvec k M (fun l => F l j) i).
Proof.
  destruct o, x; cbn; try tauto.
  - intros (-> & -> & H). rewrite Nat.eqb_refl. eexists. split; [reflexivity|]. cbn. repeat split.
    intros i j Hi Hj. unfold mdot, mvec. apply sumn_ext. intros l Hl. rewrite H by assumption. reflexivity.
  - intros (-> & H). rewrite Nat.eqb_refl. eexists. split; [reflexivity|]. cbn. repeat split.
    intros i Hi. unfold mvec. apply sumn_ext. intros l Hl. rewrite H by assumption. reflexivity.
Qed.
Lemma dot_mismatch o n k m M x F : fits o m x F -> m <> k -> nd_dot n k M x = Err ValueError.
Proof.
  destruct o, x; cbn; try tauto.
  - intros (-> & -> & H) Hne. apply Nat.eqb_neq in Hne. rewrite Hne. reflexivity.
  - intros (-> & H) Hne. apply Nat.eqb_neq in Hne. rewrite Hne. reflexivity.
Qed.

Lemma fits_as_column o n x F : fits o n x F -> fits (Some (num_columns o)) n (as_column x) F.
Proof.
  destruct o, x; cbn; try tauto. intros (-> & H). repeat split. intros i j Hi Hj.
  assert (j = 0%nat) by lia. subst. auto.
Qed.

(** ** Filling in the intercepts *)
Definition proper (o : option nat) : Prop := match o with None => True | Some w => (2 <= w)%nat end.

Lemma proper_several o n x F : proper o -> fits o n x F -> several_columns x = match o with None => false | Some _ => true end.
Proof.
  destruct o, x; cbn; try tauto. intros Hp (_ & -> & _). destruct n0 as [|[|?]]; [lia|lia|reflexivity].
Qed.

Lemma scatter_ok o J cnt ref q x F : proper o -> fits o q x F -> (ref <= cnt)%nat ->
  (cnt = 0 \/ (if (ref =? cnt)%nat then cnt else S cnt) <= J)%nat ->
  q = cnt \/ q = 1%nat ->
  exists z, scatter J cnt ref x = Ok z /\
    fits o J z (fun i j => fill_others ref (fun i => if (i <? cnt)%nat then F (if (q =? cnt)%nat then i else 0%nat) j else 0) 0 i).
Proof.
  intros Hp Hf Hr Hb Hq. unfold scatter.
  replace (ref <=? cnt)%nat with true by (symmetry; apply Nat.leb_le; exact Hr). cbn [bind].
  replace ((cnt =? 0)%nat || ((if (ref =? cnt)%nat then cnt else S cnt) <=? J)%nat)%bool with true.
  2:{ symmetry. apply orb_true_iff. destruct Hb as [->|Hb]; [left; reflexivity|right; apply Nat.leb_le; exact Hb]. }
  cbn [bind]. rewrite (proper_several o q x F Hp Hf).
  assert (Hget : forall (v w : vec) i, (forall i, (i < cnt)%nat -> v i = w i) ->
    fill_others ref (fun i => if (i <? cnt)%nat then v i else 0) 0 i = fill_others ref (fun i => if (i <? cnt)%nat then w i else 0) 0 i).
  { intros v w i H. unfold fill_others. destruct (i =? ref)%nat; [reflexivity|].
    destruct (i <? ref)%nat; (match goal with |- (if (?a <? cnt)%nat then _ else _) = _ => destruct (Nat.ltb_spec a cnt) end);
      [apply H; assumption|reflexivity|apply H; assumption|reflexivity]. }
  destruct o as [w|], x as [m f|m s f]; cbn in Hf; try tauto.
  - destruct Hf as (-> & -> & H). unfold to_region2.
    replace ((q =? cnt)%nat || (q =? 1)%nat)%bool with true.
    2:{ symmetry. apply orb_true_iff. destruct Hq as [->| ->]; [left; apply Nat.eqb_refl|right; reflexivity]. }
    rewrite Nat.eqb_refl. cbn [orb bind]. eexists. split; [reflexivity|]. cbn. repeat split.
    intros i j Hi Hj. apply Hget. intros l Hl. apply H; [|exact Hj].
    destruct (Nat.eqb_spec q cnt); lia.
  - destruct Hf as (-> & H). unfold to_region. destruct (Nat.eqb_spec q cnt) as [E|E].
    + cbn [bind]. eexists. split; [reflexivity|]. cbn. split; [reflexivity|]. intros i Hi.
      apply Hget. intros l Hl. apply H. lia.
    + destruct Hq as [Hq|Hq]; [lia|]. subst q. cbn [Nat.eqb bind]. eexists. split; [reflexivity|]. cbn. split; [reflexivity|]. intros i Hi.
      apply Hget. intros l Hl. apply H. lia.
Qed.

Lemma scatter_mismatch o J cnt ref q x F : proper o -> fits o q x F -> q <> cnt -> q <> 1%nat ->
  exists e, scatter J cnt ref x = Err e.
Proof.
  intros Hp Hf H1 H2. unfold scatter. destruct (ref <=? cnt)%nat; [|eexists; reflexivity]. cbn [bind].
  destruct (_ || _)%bool; [|eexists; reflexivity]. cbn [bind]. rewrite (proper_several o q x F Hp Hf).
  apply Nat.eqb_neq in H1, H2.
  destruct o as [w|], x as [m f|m s f]; cbn in Hf; try tauto.
  - destruct Hf as (-> & -> & H). unfold to_region2. rewrite H1, H2. cbn. eexists. reflexivity.
  - destruct Hf as (-> & H). unfold to_region. rewrite H1, H2. cbn. eexists. reflexivity.
Qed.

Lemma alen_column c x : alen (column c x) = nd_rows x.
Proof. destruct x; reflexivity. Qed.

(** The intercepts of column [c] as the one-dimensional prediction places them. *)
Definition placed (k : logit_kind) (J : nat) (icpt : option nd) (c : nat) : option arr :=
  match place_intercepts k J (option_map (column c) icpt) with Ok p => p | Err _ => None end.
Definition placeable (k : logit_kind) (J : nat) (icpt : option nd) (c : nat) : Prop :=
  exists p, place_intercepts k J (option_map (column c) icpt) = Ok p.

Lemma placeable_any_column k J icpt c c' : placeable k J icpt c -> placeable k J icpt c'.
Proof.
  intros [p H]. unfold placeable. revert H. unfold place_intercepts.
  destruct k as [|r|r|r|s r], icpt as [x|]; cbn [option_map kind_iref]; try destruct r as [ref|]; rewrite ?alen_column; eauto;
    repeat match goal with |- context [if ?b then _ else _] => destruct b end; intros H; try discriminate H; eauto.
Qed.

(** The classes other than MNL and scobit place intercepts the same way. *)
Definition usual (k : logit_kind) (iref : option nat) : Prop :=
  k = KClog iref \/ k = KUneven iref \/ exists s, k = KAsym s iref.

Lemma intercepts_ok k o N J A iref icpt : proper o \/ iref = None \/ icpt = None -> usual k iref -> opt_shaped o icpt -> placeable k J icpt 0 ->
  exists l, outside_intercepts N J A iref icpt = Ok l /\
  forall t T, fits o N t T ->
    exists t', add_intercepts t l = Ok t' /\
      fits o N t' (fun i c => T i c + long_intercepts J A iref (placed k J icpt c) i).
Proof.
  intros Hp Hk Hs Hpl. unfold outside_intercepts.
  assert (Hnone : icpt = None \/ iref = None -> exists l : option nd, (Ok None : Res (option nd)) = Ok l /\ forall t T, fits o N t T ->
    exists t', add_intercepts t l = Ok t' /\ fits o N t' (fun i c => T i c + long_intercepts J A iref (placed k J icpt c) i)).
  { intros Hn. exists None. split; [reflexivity|]. intros t T Ht. exists t. split; [reflexivity|].
    eapply fits_ext; [exact Ht|]. intros i c Hi Hc. cbn beta.
    replace (long_intercepts J A iref (placed k J icpt c) i) with 0; [ring|].
    unfold long_intercepts. destruct Hn as [-> | ->].
    - unfold placed. cbn [option_map]. unfold place_intercepts.
      destruct Hk as [->|[->|[s ->]]]; destruct iref; cbn; reflexivity.
    - destruct (placed _ _ _ _); reflexivity. }
  destruct icpt as [x|]; [|apply Hnone; left; reflexivity].
  destruct iref as [ref|]; [|apply Hnone; right; reflexivity]. clear Hnone.
  destruct Hp as [Hp|[Hp|Hp]]; [|discriminate|discriminate].
  cbn [opt_shaped] in Hs. pose proof (fits_column o x Hs) as Hf.
  assert (Hplace : forall c, place_intercepts k J (option_map (column c) (Some x)) =
    if negb (ref <? J)%nat then Err ValueError
      else if (nd_rows x =? J - 1)%nat then Ok (Some (column c x))
      else if (nd_rows x =? 1)%nat then Ok (Some (mkArr (J - 1) (fun _ => aget (column c x) 0%nat)))
      else Err ValueError).
  { intros c. rewrite <- (alen_column c x). destruct Hk as [->|[->|[s ->]]]; reflexivity. }
  destruct Hpl as [p Hpl]. rewrite Hplace in Hpl.
  destruct (Nat.ltb_spec ref J) as [Hr|Hr]; cbn [negb] in Hpl; [|discriminate]. cbn [bind].
  assert (Hq : nd_rows x = (J - 1)%nat \/ nd_rows x = 1%nat).
  { destruct (Nat.eqb_spec (nd_rows x) (J - 1)); [auto|]. destruct (Nat.eqb_spec (nd_rows x) 1); [auto|discriminate]. }
  destruct (scatter_ok o J (J - 1) ref (nd_rows x) x _ Hp Hf) as (z & Hz & Hfz); [lia| |exact Hq|].
  { right. destruct (Nat.eqb_spec ref (J - 1)); lia. }
  rewrite Hz. cbn [bind]. destruct (fits_dot o N J A z _ Hfz) as (l & Hl & Hfl). rewrite Hl. cbn [bind].
  exists (Some l). split; [reflexivity|]. intros t T Ht. cbn [add_intercepts].
  destruct (fits_inplace Rplus o N t l _ _ Ht Hfl) as (t' & Ht' & Hft'). exists t'. split; [exact Ht'|].
  eapply fits_ext; [exact Hft'|]. intros i c Hi Hc. cbn beta. f_equal. unfold placed. rewrite Hplace.
  replace (ref <? J)%nat with true by (symmetry; apply Nat.ltb_lt; exact Hr). cbn [negb].
  unfold long_intercepts. destruct (Nat.eqb_spec (nd_rows x) (J - 1)) as [E|E].
  - unfold mvec. apply sumn_ext. intros a Ha. f_equal. unfold fill_others. destruct (Nat.eqb_spec a ref); [reflexivity|].
    destruct (Nat.ltb_spec a ref); (match goal with |- (if (?b <? _)%nat then _ else _) = _ => destruct (Nat.ltb_spec b (J - 1)); [reflexivity|lia] end).
  - destruct Hq as [Hq|Hq]; [lia|]. rewrite Hq. cbn [Nat.eqb aget].
    unfold mvec. apply sumn_ext. intros a Ha. f_equal. unfold fill_others. destruct (Nat.eqb_spec a ref); [reflexivity|].
    destruct (Nat.ltb_spec a ref); (match goal with |- (if (?b <? _)%nat then _ else _) = _ => destruct (Nat.ltb_spec b (J - 1)); [reflexivity|lia] end).
Qed.

Lemma intercepts_bad k o N J A iref icpt : proper o \/ iref = None \/ icpt = None -> usual k iref -> opt_shaped o icpt -> ~ placeable k J icpt 0 ->
  exists e, outside_intercepts N J A iref icpt = Err e.
Proof.
  intros Hp Hk Hs Hpl. unfold outside_intercepts.
  destruct icpt as [x|].
  2:{ exfalso. apply Hpl. unfold placeable. cbn [option_map]. destruct Hk as [->|[->|[s ->]]]; destruct iref; cbn; eauto. }
  destruct iref as [ref|].
  2:{ exfalso. apply Hpl. unfold placeable. cbn [option_map]. destruct Hk as [->|[->|[s ->]]]; cbn; eauto. }
  destruct Hp as [Hp|[Hp|Hp]]; [|discriminate|discriminate].
  cbn [opt_shaped] in Hs. pose proof (fits_column o x Hs) as Hf.
  destruct (Nat.ltb_spec ref J) as [Hr|Hr]; [|eexists; reflexivity]. cbn [bind].
  destruct (Nat.eq_dec (nd_rows x) (J - 1)) as [E|E]; [|destruct (Nat.eq_dec (nd_rows x) 1) as [E'|E']].
  - exfalso. apply Hpl. unfold placeable. exists (Some (column 0 x)). apply Nat.eqb_eq in E. apply Nat.ltb_lt in Hr.
    destruct Hk as [->|[->|[s ->]]]; unfold place_intercepts; cbn [kind_iref option_map]; rewrite Hr, ?alen_column, E; reflexivity.
  - exfalso. apply Hpl. unfold placeable. eexists. apply Nat.eqb_neq in E. apply Nat.eqb_eq in E'. apply Nat.ltb_lt in Hr.
    destruct Hk as [->|[->|[s ->]]]; unfold place_intercepts; cbn [kind_iref option_map]; rewrite Hr, ?alen_column, E, E'; reflexivity.
  - destruct (scatter_mismatch o J (J - 1) ref (nd_rows x) x _ Hp Hf E E') as [e He]. rewrite He. eexists. reflexivity.
Qed.

(** ** The natural shapes *)
Lemma fits_natural o N J A x : shaped o x -> nd_rows x = J ->
  exists z, nd_dot N J A (umap exp x) = Ok z /\
    fits o N z (fun i c => long_natural_shapes J A (Some (column c x)) i).
Proof.
  intros Hs Hj. pose proof (fits_umap exp _ _ _ _ (fits_column o x Hs)) as Hf. rewrite Hj in Hf.
  destruct (fits_dot o N J A _ _ Hf) as (z & Hz & Hfz). exists z. split; [exact Hz|exact Hfz].
Qed.

Lemma fits_eta o J x sref : proper o -> shaped o x -> (sref <= nd_rows x)%nat -> (nd_rows x + 1 = J)%nat ->
  exists z, convert_eta_to_c_nd x sref = Ok z /\ fits o J z (fun i c => convert_eta_to_c (column c x) sref i).
Proof.
  intros Hp Hs Hr Hj. unfold convert_eta_to_c_nd.
  replace (sref <=? nd_rows x)%nat with true by (symmetry; apply Nat.leb_le; exact Hr). cbn [bind].
  set (g := fun x0 : R => let e := exp x0 in if Req_EM_T e 0 then min_comp_value else e).
  rewrite (proper_several o _ x _ Hp (fits_column o x Hs)).
  destruct o as [w|], x as [n f|n s f]; cbn in Hs; try tauto.
  - subst s. cbn [umap sum0_plus_1 bop nd_rows] in *. rewrite bdim_same. cbn [bind]. unfold to_region2.
    rewrite !Nat.eqb_refl. cbn [orb bind]. eexists. split; [reflexivity|]. cbn. repeat split; [lia|].
    intros i c Hi Hc. unfold convert_eta_to_c, fill_others. cbn [aget alen column].
    destruct (i =? sref)%nat; [reflexivity|]. rewrite !(bidx_lt w) by assumption. reflexivity.
  - cbn [umap sum0_plus_1 bop nd_rows] in *.
    assert (Hb : bdim n 1 = Ok n). { unfold bdim. destruct (Nat.eqb_spec n 1); [subst; reflexivity|reflexivity]. }
    rewrite Hb. cbn [bind]. unfold to_region. rewrite Nat.eqb_refl. cbn [bind]. eexists. split; [reflexivity|].
    cbn. split; [lia|]. intros i Hi. unfold convert_eta_to_c, fill_others. cbn [aget alen column].
    destruct (Nat.eqb_spec i sref); [reflexivity|].
    destruct (Nat.ltb_spec i sref); (rewrite bidx_lt by lia); reflexivity.
Qed.

(** ** The transformed utilities *)

(** The one combination that two-dimensional parameters do not work for. *)
Definition no_bare_scobit (o : option nat) (k : logit_kind) (icpt : option nd) : Prop :=
  match o, k with
  | Some _, KScobit iref => iref <> None /\ icpt <> None
  | _, _ => True
  end.

(** Arrays of one column work only for the classes whose parameters are all index
    coefficients or full sets of shapes. *)
Definition works (o : option nat) (k : logit_kind) (icpt : option nd) : Prop :=
  (proper o /\ no_bare_scobit o k icpt) \/
  (o = Some 1%nat /\
   match k with KMNL => True | KClog iref | KUneven iref => iref = None \/ icpt = None | _ => False end).
(** Results of one column are flattened. *)
Definition out (o : option nat) : option nat := match o with Some 1%nat => None | _ => o end.

Lemma works_intercepts o k iref icpt : works o k icpt -> usual k iref -> proper o \/ iref = None \/ icpt = None.
Proof.
  intros [[H _]|[_ H]] Hk; [auto|]. destruct Hk as [->|[->|[s ->]]]; [auto|auto|contradiction].
Qed.

Lemma scobit_intercepts_ok o N J A iref icpt : proper o -> opt_shaped o icpt ->
  no_bare_scobit o (KScobit iref) icpt -> placeable (KScobit iref) J icpt 0 ->
  exists z l, match iref, icpt with
    | Some ref, Some x => scatter J (nd_rows x) ref x
    | _, _ => Ok (A1 J (fun _ => 0)) end = Ok z /\
    nd_dot N J A z = Ok l /\
    fits o N l (fun i c => long_intercepts J A iref (placed (KScobit iref) J icpt c) i).
Proof.
  intros Hp Hs Hb Hpl.
  assert (Hnone : iref = None \/ icpt = None -> exists z l, Ok (A1 J (fun _ => 0)) = Ok z /\
    nd_dot N J A z = Ok l /\
    fits o N l (fun i c => long_intercepts J A iref (placed (KScobit iref) J icpt c) i)).
  { intros Hn. destruct o as [w|]; [cbn in Hb; intuition|].
    eexists. eexists. split; [reflexivity|]. cbn [nd_dot]. rewrite Nat.eqb_refl. split; [reflexivity|]. cbn [fits].
    split; [reflexivity|]. intros i Hi.
    replace (long_intercepts J A iref (placed (KScobit iref) J icpt 0) i) with 0.
    - unfold mvec. rewrite (sumn_ext J _ (fun _ => 0)) by (intros; ring). apply sumn_zero.
    - unfold long_intercepts. destruct Hn as [-> | ->]; [destruct (placed _ _ _ _); reflexivity|].
      unfold placed. cbn. destruct iref; reflexivity. }
  destruct iref as [ref|]; [|apply Hnone; left; reflexivity].
  destruct icpt as [x|]; [|apply Hnone; right; reflexivity]. clear Hnone.
  cbn [opt_shaped] in Hs. pose proof (fits_column o x Hs) as Hf.
  assert (Hplace : forall c, place_intercepts (KScobit (Some ref)) J (option_map (column c) (Some x)) =
      if negb (ref <=? nd_rows x)%nat then Err ValueError
      else if (if (ref =? nd_rows x)%nat then nd_rows x <=? J else nd_rows x <? J)%nat
      then Ok (Some (mkArr (J - 1) (fun i => if (i <? nd_rows x)%nat then aget (column c x) i else 0)))
      else Err IndexError).
  { intros c. rewrite <- (alen_column c x). reflexivity. }
  destruct Hpl as [p Hpl]. rewrite Hplace in Hpl.
  destruct (Nat.leb_spec ref (nd_rows x)) as [Hr|Hr]; cbn [negb] in Hpl; [|discriminate].
  set (q := nd_rows x) in *.
  destruct (if (ref =? q)%nat then (q <=? J)%nat else (q <? J)%nat) eqn:Eb; [|discriminate].
  destruct (scatter_ok o J q ref q x _ Hp Hf Hr) as (z & Hz & Hfz); [|left; reflexivity|].
  { right. destruct (Nat.eqb_spec ref q); [apply Nat.leb_le in Eb; lia|apply Nat.ltb_lt in Eb; lia]. }
  destruct (fits_dot o N J A z _ Hfz) as (l & Hl & Hfl). exists z, l. split; [exact Hz|]. split; [exact Hl|].
  eapply fits_ext; [exact Hfl|]. intros i c Hi Hc. cbn beta. unfold placed. rewrite Hplace.
  replace (ref <=? q)%nat with true by (symmetry; apply Nat.leb_le; exact Hr). cbn [negb].
  unfold long_intercepts. cbn [aget]. rewrite Nat.eqb_refl. reflexivity.
Qed.

Lemma scobit_intercepts_bad o J iref icpt : proper o -> opt_shaped o icpt -> ~ placeable (KScobit iref) J icpt 0 ->
  exists e, match iref, icpt with
    | Some ref, Some x => scatter J (nd_rows x) ref x
    | _, _ => Ok (A1 J (fun _ => 0)) end = Err e.
Proof.
  intros Hp Hs Hpl. destruct iref as [ref|]; [|exfalso; apply Hpl; eexists; reflexivity].
  destruct icpt as [x|]; [|exfalso; apply Hpl; eexists; reflexivity].
  unfold scatter. set (q := nd_rows x) in *.
  destruct (Nat.leb_spec ref q) as [Hr|Hr]; [|eexists; reflexivity]. cbn [bind].
  destruct (_ || _)%bool eqn:Eb; [|eexists; reflexivity]. exfalso. apply Hpl.
  unfold placeable, place_intercepts. cbn [kind_iref option_map]. rewrite alen_column. fold q.
  replace (ref <=? q)%nat with true by (symmetry; apply Nat.leb_le; exact Hr). cbn [negb].
  assert (Ht : (if (ref =? q)%nat then (q <=? J)%nat else (q <? J)%nat) = true).
  { apply orb_true_iff in Eb. destruct (Nat.eqb_spec ref q).
    - apply Nat.leb_le. destruct Eb as [Eb|Eb]; [apply Nat.eqb_eq in Eb; lia|apply Nat.leb_le in Eb; lia].
    - apply Nat.ltb_lt. destruct Eb as [Eb|Eb]; [apply Nat.eqb_eq in Eb; lia|apply Nat.leb_le in Eb; lia]. }
  rewrite Ht. eexists. reflexivity.
Qed.

Ltac step H := let z := fresh "z" in let E := fresh "E" in let F := fresh "F" in
  destruct H as (z & E & F); rewrite E; cbn [bind].

Lemma shapes_given k J shape : check_shapes k J shape = Ok tt ->
  match k with
  | KMNL | KClog _ => True
  | KScobit _ | KUneven _ => exists s, shape = Some s /\ alen s = J
  | KAsym sref _ => exists s, shape = Some s /\ (sref <= alen s)%nat /\ (alen s + 1 = J)%nat
  end.
Proof.
  destruct k, shape as [a|]; cbn [check_shapes]; intros H; try exact I; try discriminate.
  - exists a. destruct (Nat.eqb_spec (alen a) J); [auto|discriminate].
  - exists a. destruct (Nat.eqb_spec (alen a) J); [auto|discriminate].
  - exists a. destruct (Nat.leb_spec sref (alen a)); [|discriminate]. cbn [negb] in H.
    destruct (Nat.eqb_spec (alen a + 1) J); [auto|discriminate].
Qed.

Lemma transform_ok o k N J A v V shape icpt : works o k icpt -> fits o N v V ->
  opt_shaped o shape -> opt_shaped o icpt ->
  placeable k J icpt 0 -> check_shapes k J (option_map (column 0) shape) = Ok tt ->
  exists t, transform_nd k N J A v shape icpt = Ok t /\
    fits (Some (num_columns o)) N t
      (fun i c => m_transform (model_of k) J A (fun i => V i c) (option_map (column c) shape) (placed k J icpt c) i).
Proof.
  intros Hw Hv Hs Hi Hpl Hc. apply shapes_given in Hc. destruct k as [|iref|iref|iref|sref iref]; cbn [transform_nd].
  - eexists. split; [reflexivity|]. apply fits_as_column. exact Hv.
  - unfold cloglog_transform_nd.
    assert (Hu : usual (KClog iref) iref) by (left; reflexivity).
    destruct (intercepts_ok (KClog iref) o N J A iref icpt (works_intercepts _ _ _ _ Hw Hu) Hu Hi Hpl) as (l & El & Hl).
    rewrite El. cbn [bind].
    step (Hl _ _ (fits_umap (fun x => if Rle_dec 3.7 x then exp x else ln (exp (exp x) - 1)) _ _ _ _ Hv)).
    eexists. split; [reflexivity|]. apply fits_as_column. exact F.
  - destruct Hc as (s & Es & Hc). destruct shape as [x|]; [|discriminate Es]. cbn [option_map opt_shaped] in *.
    injection Es as <-. rewrite alen_column in Hc. unfold scobit_transform_nd.
    assert (Hpb : proper o /\ no_bare_scobit o (KScobit iref) icpt) by (destruct Hw as [Hw|[_ []]]; exact Hw). destruct Hpb as [Hp Hb].
    destruct (scobit_intercepts_ok o N J A iref icpt Hp Hi Hb Hpl) as (z & l & Ez & El & Fl). rewrite Ez. cbn [bind]. rewrite El. cbn [bind needed].
    step (fits_natural o N J A x Hs Hc).
    step (fits_bop (fun e s => Rpower (1 + e) s) o N _ _ _ _ (fits_umap (fun x => exp (-1 * x)) _ _ _ _ Hv) F).
    step (fits_bop Rminus o N _ _ _ _ Fl (fits_umap (fun p => ln (p - 1)) _ _ _ _ F0)).
    eexists. split; [reflexivity|]. apply fits_as_column. exact F1.
  - destruct Hc as (s & Es & Hc). destruct shape as [x|]; [|discriminate Es]. cbn [option_map opt_shaped] in *.
    injection Es as <-. rewrite alen_column in Hc. unfold uneven_transform_nd. cbn [needed bind].
    step (fits_natural o N J A x Hs Hc).
    step (fits_bop (fun s x => ln (1 + exp (-1 * s * x))) o N _ _ _ _ F Hv).
    step (fits_bop Rplus o N _ _ _ _ Hv (fits_umap (fun x => ln (1 + exp (-1 * x))) _ _ _ _ Hv)).
    step (fits_bop Rminus o N _ _ _ _ F1 F0).
    assert (Hu : usual (KUneven iref) iref) by (right; left; reflexivity).
    destruct (intercepts_ok (KUneven iref) o N J A iref icpt (works_intercepts _ _ _ _ Hw Hu) Hu Hi Hpl) as (l & El & Hl).
    rewrite El. cbn [bind]. step (Hl _ _ F2).
    eexists. split; [reflexivity|]. apply fits_as_column. exact F3.
  - destruct Hc as (s & Es & Hr & Hc). destruct shape as [x|]; [|discriminate Es]. cbn [option_map opt_shaped] in *.
    injection Es as <-. rewrite alen_column in Hc, Hr. unfold asym_transform_nd. cbn [needed bind].
    assert (Hp : proper o) by (destruct Hw as [[Hw _]|[_ []]]; exact Hw).
    step (fits_eta o J x sref Hp Hs Hr Hc).
    step (fits_dot o N J A _ _ F).
    step (fits_bop (fun x l => (if Rle_dec 0 x then 1 else 0) * l) o N _ _ _ _ Hv (fits_umap ln _ _ _ _ F0)).
    step (fits_bop (fun x l => (if Rlt_dec x 0 then 1 else 0) * l) o N _ _ _ _ Hv
            (fits_umap (fun c => ln ((1 - c) / (INR J - 1))) _ _ _ _ F0)).
    step (fits_bop Rplus o N _ _ _ _ F1 F2).
    step (fits_bop Rmult o N _ _ _ _ Hv F3).
    step (fits_bop Rminus o N _ _ _ _ (fits_umap ln _ _ _ _ F0) F4).
    assert (Hu : usual (KAsym sref iref) iref) by (right; right; eexists; reflexivity).
    destruct (intercepts_ok (KAsym sref iref) o N J A iref icpt (works_intercepts _ _ _ _ Hw Hu) Hu Hi Hpl) as (l & El & Hl).
    rewrite El. cbn [bind]. step (Hl _ _ F5).
    eexists. split; [reflexivity|]. apply fits_as_column. eapply fits_ext; [exact F6|]. intros i c Hi' Hc'. cbn beta.
    cbn [model_of Asym_model m_transform]. unfold asym_transform, asym_long_shapes. cbn [option_map asym_natural_shapes].
    change (mvec J A (fun l0 => convert_eta_to_c (column c x) sref l0) i) with (mvec J A (convert_eta_to_c (column c x) sref) i).
    destruct (Rle_dec 0 (V i c)), (Rlt_dec (V i c) 0); try lra; f_equal; f_equal; ring.
Qed.

Lemma shape_columns k J shape c c' : check_shapes k J (option_map (column c) shape) = check_shapes k J (option_map (column c') shape).
Proof. destruct k, shape; cbn [check_shapes option_map]; rewrite ?alen_column; reflexivity. Qed.

Lemma umap_rows op x : nd_rows (umap op x) = nd_rows x.
Proof. destruct x; reflexivity. Qed.
Lemma dot_bad n k M x : nd_rows x <> k -> nd_dot n k M x = Err ValueError.
Proof. destruct x; cbn; intros H; apply Nat.eqb_neq in H; rewrite H; reflexivity. Qed.

Ltac peel := match goal with
  | |- exists e, bind ?r _ = Err e => let E := fresh "E" in destruct r eqn:E; cbn [bind]; [|eexists; reflexivity]
  end.

Lemma transform_bad o k N J A v V shape icpt : works o k icpt -> fits o N v V ->
  opt_shaped o shape -> opt_shaped o icpt ->
  ~ (placeable k J icpt 0 /\ check_shapes k J (option_map (column 0) shape) = Ok tt) ->
  exists e, transform_nd k N J A v shape icpt = Err e.
Proof.
  intros Hw Hv Hs Hi Hn.
  assert (Hcases : ~ placeable k J icpt 0 \/ check_shapes k J (option_map (column 0) shape) <> Ok tt).
  { destruct (check_shapes k J (option_map (column 0) shape)) as [[]|]; [|right; discriminate]. left. tauto. }
  clear Hn. destruct k as [|iref|iref|iref|sref iref]; cbn [transform_nd].
  - exfalso. destruct Hcases as [H|H]; apply H; [|reflexivity]. eexists. reflexivity.
  - destruct Hcases as [H|H]; [|exfalso; apply H; reflexivity].
    unfold cloglog_transform_nd. assert (Hu : usual (KClog iref) iref) by (left; reflexivity).
    destruct (intercepts_bad (KClog iref) o N J A iref icpt (works_intercepts _ _ _ _ Hw Hu) Hu Hi H) as [e ->].
    eexists. reflexivity.
  - assert (Hp : proper o) by (destruct Hw as [[Hw _]|[_ []]]; exact Hw).
    unfold scobit_transform_nd. destruct Hcases as [H|H].
    { destruct (scobit_intercepts_bad o J iref icpt Hp Hi H) as [e ->]. eexists. reflexivity. }
    peel. peel. destruct shape as [x|]; [|eexists; reflexivity]. cbn [needed bind check_shapes option_map] in *.
    rewrite alen_column in H. rewrite dot_bad; [eexists; reflexivity|]. rewrite umap_rows. intros E'. apply H.
    rewrite E', Nat.eqb_refl. reflexivity.
  - unfold uneven_transform_nd. destruct Hcases as [H|H].
    { assert (Hu : usual (KUneven iref) iref) by (right; left; reflexivity).
    destruct (intercepts_bad (KUneven iref) o N J A iref icpt (works_intercepts _ _ _ _ Hw Hu) Hu Hi H) as [e He].
      repeat peel. congruence. }
    destruct shape as [x|]; [|eexists; reflexivity]. cbn [needed bind check_shapes option_map] in *.
    rewrite alen_column in H. rewrite dot_bad; [eexists; reflexivity|]. rewrite umap_rows. intros E'. apply H.
    rewrite E', Nat.eqb_refl. reflexivity.
  - assert (Hp : proper o) by (destruct Hw as [[Hw _]|[_ []]]; exact Hw).
    unfold asym_transform_nd. destruct Hcases as [H|H].
    { assert (Hu : usual (KAsym sref iref) iref) by (right; right; eexists; reflexivity).
    destruct (intercepts_bad (KAsym sref iref) o N J A iref icpt (works_intercepts _ _ _ _ Hw Hu) Hu Hi H) as [e He].
      repeat peel. congruence. }
    destruct shape as [x|]; [|eexists; reflexivity]. cbn [needed bind check_shapes option_map opt_shaped] in *.
    rewrite alen_column in H. destruct (Nat.leb_spec sref (nd_rows x)) as [Hr|Hr].
    + cbn [negb] in H. destruct (fits_eta o (nd_rows x + 1) x sref Hp Hs Hr eq_refl) as (z & -> & Hz). cbn [bind].
      apply fits_shaped in Hz. rewrite dot_bad; [eexists; reflexivity|]. destruct Hz as [_ ->]. intros E'. apply H.
      rewrite E', Nat.eqb_refl. reflexivity.
    + unfold convert_eta_to_c_nd. apply Nat.leb_gt in Hr. rewrite Hr. eexists. reflexivity.
Qed.

(** ** Probabilities *)
Lemma fits_same o n x F (v : vec) c : fits o n x F -> (c < num_columns o)%nat -> (forall i, (i < n)%nat -> F i c = v i) ->
  forall i, (i < nd_rows x)%nat -> aget (column c x) i = v i.
Proof.
  intros Hf Hc Hv i Hi. destruct (fits_shaped _ _ _ _ Hf) as [_ E]. rewrite E in Hi.
  rewrite (fits_get o n x F i c Hf Hi Hc). apply Hv. exact Hi.
Qed.

(** Dropping the extra column axis when there is one column. *)
Definition several (o : option nat) : bool := match out o with None => false | Some _ => true end.
Lemma fits_ravel o n x F : fits (Some (num_columns o)) n x F ->
  fits (out o) n (if several o then x else ravel x) F.
Proof.
  unfold several, out. destruct x as [m f|m s f]; [cbn; tauto|].
  destruct o as [[|[|w]]|]; cbn [num_columns fits]; try tauto; intros (-> & -> & H).
  - cbn. split; [lia|]. intros i Hi. apply H; lia.
  - cbn. split; [lia|]. intros i Hi. apply H; lia.
Qed.
Lemma out_columns o : num_columns (out o) = num_columns o.
Proof. destruct o as [[|[|w]]|]; reflexivity. Qed.

Lemma probs_ok o k D shape icpt beta C rlp : works o k icpt ->
  shaped o beta -> opt_shaped o shape -> opt_shaped o icpt -> nd_rows beta = d_K D ->
  placeable k (d_J D) icpt 0 -> check_shapes k (d_J D) (option_map (column 0) shape) = Ok tt ->
  (C <> None \/ rlp = true) ->
  exists r, calc_probabilities_nd k D shape icpt beta C rlp = Ok r /\ result_shape (out o) (d_N D) (d_obs D) r /\
    forall c, (c < num_columns o)%nat -> exists p,
      calc_probabilities (model_of k) D (option_map (column c) shape) (placed k (d_J D) icpt c) (column c beta) C rlp = Ok p /\
      is_column c r p.
Proof.
  intros Hw Hs Hsh Hi Hk Hpl Hc HC. unfold calc_probabilities_nd.
  pose proof (fits_column o beta Hs) as Hbeta. rewrite Hk in Hbeta.
  replace (match C with Some _ => Ok tt | None => if rlp then Ok tt else Err ValueError end) with (Ok tt : Res unit).
  2:{ destruct C; [reflexivity|]. destruct rlp; [reflexivity|]. destruct HC as [HC|HC]; [congruence|discriminate]. }
  cbn [bind]. step (fits_dot o (d_N D) (d_K D) (d_X D) _ _ Hbeta).
  step (transform_ok o k (d_N D) (d_J D) (d_A D) _ _ shape icpt Hw F Hsh Hi Hpl Hc).
  pose proof (fits_umap (fun x => exp (clip_exponent x)) _ _ _ _ F0) as Fe. set (e := umap _ z0) in *.
  step (fits_dot _ (d_obs D) (d_N D) (transp (d_M D)) _ _ Fe).
  step (fits_dot _ (d_N D) (d_obs D) (d_M D) _ _ F1).
  step (fits_bop Rdiv _ (d_N D) _ _ _ _ Fe F2).
  assert (Hse : several_columns e = several o).
  { destruct e as [m f|m s f]; [contradiction|]. destruct Fe as (_ & -> & _). destruct o as [[|[|w]]|]; try reflexivity.
    destruct Hw as [[[]%Nat.nle_succ_0 _]|[Hw _]]; discriminate. }
  rewrite Hse.
  pose proof (fits_umap guard_zero _ _ _ _ (fits_ravel o _ _ _ F3)) as Flong. set (long := umap guard_zero _) in *.
  assert (Hlong : has_shape (out o) (d_N D) long) by (exact (fits_shaped _ _ _ _ Flong)).
  assert (Hlongc : forall c, (c < num_columns o)%nat -> forall i, (i < nd_rows long)%nat -> aget (column c long) i =
    long_probs (model_of k) D (option_map (column c) shape) (placed k (d_J D) icpt c) (column c beta) i).
  { intros c Hc0. apply (fits_same (out o) (d_N D) long _ _ c Flong); [rewrite out_columns; exact Hc0|]. intros i Hi0. reflexivity. }
  destruct C as [C|].
  - step (fits_dot _ (d_obs D) (d_N D) (transp C) _ _ Fe).
    step (fits_bop Rdiv _ (d_obs D) _ _ _ _ F4 F1).
    pose proof (fits_ravel o _ _ _ F5) as Fch. set (ch := if several o then z5 else ravel z5) in *.
    assert (Hch : has_shape (out o) (d_obs D) ch) by (exact (fits_shaped _ _ _ _ Fch)).
    assert (Hchc : forall c, (c < num_columns o)%nat -> forall i, (i < nd_rows ch)%nat -> aget (column c ch) i =
      chosen_probs (model_of k) D C (option_map (column c) shape) (placed k (d_J D) icpt c) (column c beta) i).
    { intros c Hc0. apply (fits_same (out o) (d_obs D) ch _ _ c Fch); [rewrite out_columns; exact Hc0|]. intros i Hi0. reflexivity. }
    eexists. split; [reflexivity|]. destruct rlp.
    + split; [split; assumption|]. intros c Hc0. eexists. split; [reflexivity|]. split; auto.
    + split; [assumption|]. intros c Hc0. eexists. split; [reflexivity|]. cbn. auto.
  - destruct HC as [HC| ->]; [congruence|]. eexists. split; [reflexivity|]. split; [assumption|].
    intros c Hc0. eexists. split; [reflexivity|]. cbn. auto.
Qed.

Lemma predict_logit_ok k D pr C rlp p : predict_logit k D pr C rlp = Ok p <->
  alen (pr_coefs pr) = d_K D /\ check_shapes k (d_J D) (pr_shapes pr) = Ok tt /\
  exists i, place_intercepts k (d_J D) (pr_intercepts pr) = Ok i /\
    calc_probabilities (model_of k) D (pr_shapes pr) i (pr_coefs pr) C rlp = Ok p.
Proof.
  unfold predict_logit. split.
  - intros H. apply bind_ok in H. destruct H as ([] & H1 & H). apply bind_ok in H. destruct H as (i & H2 & H).
    apply bind_ok in H. destruct H as ([] & H3 & H). destruct (Nat.eqb_spec (alen (pr_coefs pr)) (d_K D)); [|discriminate]. eauto 6.
  - intros (-> & H3 & i & H2 & H). rewrite Nat.eqb_refl. cbn [bind]. rewrite H2. cbn [bind]. rewrite H3. exact H.
Qed.

Lemma probs_iff o k D shape icpt beta n C rlp : works o k icpt ->
  shaped o beta -> opt_shaped o shape -> opt_shaped o icpt ->
  let one c := predict_logit k D (mkParams (column c beta) (option_map (column c) icpt) (option_map (column c) shape) (n c)) C rlp in
  (forall r, calc_probabilities_nd k D shape icpt beta C rlp = Ok r ->
     result_shape (out o) (d_N D) (d_obs D) r /\ forall c, (c < num_columns o)%nat -> exists p, one c = Ok p /\ is_column c r p) /\
  (forall c p, (c < num_columns o)%nat -> one c = Ok p -> exists r, calc_probabilities_nd k D shape icpt beta C rlp = Ok r).
Proof.
  intros Hw Hs Hsh Hi one.
  assert (Hone : forall c p, one c = Ok p <-> nd_rows beta = d_K D /\ check_shapes k (d_J D) (option_map (column 0) shape) = Ok tt /\
    placeable k (d_J D) icpt 0 /\
    calc_probabilities (model_of k) D (option_map (column c) shape) (placed k (d_J D) icpt c) (column c beta) C rlp = Ok p).
  { intros c p. unfold one. rewrite predict_logit_ok. cbn [pr_coefs pr_shapes pr_intercepts]. rewrite alen_column, (shape_columns _ _ _ c 0).
    split.
    - intros (H1 & H2 & i & H3 & H4). repeat split; auto.
      + apply (placeable_any_column k (d_J D) icpt c 0). eexists. exact H3.
      + unfold placed. rewrite H3. exact H4.
    - intros (H1 & H2 & H3 & H4). repeat split; auto. apply (placeable_any_column k (d_J D) icpt 0 c) in H3.
      destruct H3 as [i H3]. exists i. split; [exact H3|]. unfold placed in H4. rewrite H3 in H4. exact H4. }
  split.
  - intros r Hr.
    assert (Hpre : nd_rows beta = d_K D /\ placeable k (d_J D) icpt 0 /\ check_shapes k (d_J D) (option_map (column 0) shape) = Ok tt /\ (C <> None \/ rlp = true)).
    { unfold calc_probabilities_nd in Hr. apply bind_ok in Hr. destruct Hr as ([] & H0 & Hr).
      apply bind_ok in Hr. destruct Hr as (v & Hv & Hr). apply bind_ok in Hr. destruct Hr as (t & Ht & Hr).
      destruct (Nat.eq_dec (nd_rows beta) (d_K D)) as [E|E]; [|rewrite dot_bad in Hv by exact E; discriminate].
      split; [exact E|].
      pose proof (fits_column o beta Hs) as Hbeta. rewrite E in Hbeta.
      destruct (fits_dot o (d_N D) (d_K D) (d_X D) _ _ Hbeta) as (v' & Hv' & Fv).
      assert (v' = v) by congruence. subst v'.
      assert (Hdec : (placeable k (d_J D) icpt 0 /\ check_shapes k (d_J D) (option_map (column 0) shape) = Ok tt) \/
        ~ (placeable k (d_J D) icpt 0 /\ check_shapes k (d_J D) (option_map (column 0) shape) = Ok tt)).
      { unfold placeable. destruct (place_intercepts k (d_J D) (option_map (column 0) icpt)).
        - destruct (check_shapes k (d_J D) (option_map (column 0) shape)) as [[]|]; [left; eauto|right; intros [_ H]; discriminate].
        - right. intros [[? H] _]. discriminate. }
      destruct Hdec as [[H1 H2]|Hbad].
      - repeat split; auto. destruct C; [left; discriminate|]. destruct rlp; [right; reflexivity|discriminate].
      - destruct (transform_bad o k (d_N D) (d_J D) (d_A D) v _ shape icpt Hw Fv Hsh Hi Hbad) as [e He]. congruence. }
    destruct Hpre as (H1 & H2 & H3 & H4).
    destruct (probs_ok o k D shape icpt beta C rlp Hw Hs Hsh Hi H1 H2 H3 H4) as (r' & Hr' & Hshape & Hcols).
    assert (r' = r) by congruence. subst r'. split; [exact Hshape|]. intros c Hc.
    destruct (Hcols c Hc) as (p & E & Hcol). exists p. split; [|exact Hcol]. apply Hone. auto.
  - intros c p Hc H. apply Hone in H. destruct H as (H1 & H2 & H3 & H4).
    destruct (probs_ok o k D shape icpt beta C rlp Hw Hs Hsh Hi H1 H3 H2) as (r & Hr & _).
    { unfold calc_probabilities in H4. destruct C; [left; discriminate|]. destruct rlp; [right; reflexivity|discriminate]. }
    eauto.
Qed.

(** ** predict *)
Lemma check_column o m pl c : List.Forall (opt_shaped o) pl ->
  check_param_list_validity m (Some (map elem_of_nd pl)) = check_param_list_validity m (Some (map elem_of (list_column c pl))).
Proof.
  intros H. unfold list_column, check_param_list_validity. rewrite !map_length.
  destruct (Nat.eqb_spec (length pl) 4) as [E|E]; [|reflexivity].
  destruct pl as [|a [|b [|d [|e [|? ?]]]]]; try discriminate E.
  inversion H; subst. inversion H3; subst. inversion H5; subst. inversion H7; subst. clear H H3 H5 H7 H9 E.
  destruct a as [a|], b as [b|], d as [d|], e as [e|], o as [w|];
    repeat match goal with x : nd |- _ => destruct x end; cbn in H2, H4, H6, H8; try tauto; subst;
    cbn -[Nat.eqb]; rewrite ?Nat.eqb_refl; reflexivity.
Qed.

Lemma predict_nd_ok k m f pl rlp cc r :
  predict_nd k m f pl rlp cc = Ok r <->
  (let dataframe := add_intercept_to_dataframe (fm_spec m) f in
   do _ <- ensure_columns_are_in_dataframe [fm_alt_col m] dataframe;
   do _ <- ensure_columns_are_in_dataframe [fm_obs_col m] dataframe;
   do _ <- match fm_mix_col m with
           | Some c => ensure_columns_are_in_dataframe [c] dataframe
           | None => Ok tt
           end;
   check_param_list_validity (fm_names m) (option_map (map elem_of_nd) pl)) = Ok tt /\
  (rlp = true \/ exists c, cc = Some c) /\
  exists cols names d mp b i s,
    create_design_matrix (add_intercept_to_dataframe (fm_spec m) f) (fm_spec m) (fm_alt_col m) (fm_name_spec m)
      = Ok (cols, names) /\
    long_cols_of (add_intercept_to_dataframe (fm_spec m) f) (fm_obs_col m) (fm_alt_col m) cc (fm_mix_col m) = Ok d /\
    create_long_form_mappings d None = Ok mp /\
    prediction_params_nd m pl = Ok (b, i, s) /\
    calc_probabilities_nd k (data_of d mp (length cols) (design_mat cols) None None) s i b
      (option_map smat_R (chosen_row_to_obs mp)) rlp = Ok r.
Proof.
  unfold predict_nd. set (f' := add_intercept_to_dataframe _ _). split.
  - intros H.
    apply bind_ok in H. destruct H as ([] & H1 & H). apply bind_ok in H. destruct H as ([] & H2 & H).
    apply bind_ok in H. destruct H as ([] & H3 & H). apply bind_ok in H. destruct H as ([] & H4 & H).
    apply bind_ok in H. destruct H as ([] & H5 & H). apply bind_ok in H. destruct H as ([cols names] & Hd & H).
    cbn [fst] in H. apply bind_ok in H. destruct H as (d & Hl & H). apply bind_ok in H. destruct H as (mp & Hm & H).
    apply bind_ok in H. destruct H as ([[b i] s] & Hp & H). cbn zeta. rewrite H1, H2, H3. split; [exact H4|]. split.
    { unfold check_for_choice_col_based_on_return_long_probs in H5. destruct rlp; [left; reflexivity|].
      destruct cc; [right; eauto|discriminate]. }
    exists cols, names, d, mp, b, i, s. repeat (split; [assumption|]). exact H.
  - intros (H & Hc & cols & names & d & mp & b & i & s & Hd & Hl & Hm & Hp & Hr). cbn zeta in H.
    apply bind_ok in H. destruct H as ([] & H1 & H). apply bind_ok in H. destruct H as ([] & H2 & H).
    apply bind_ok in H. destruct H as ([] & H3 & H4). rewrite H1, H2, H3, H4. cbn [bind].
    assert (H5 : check_for_choice_col_based_on_return_long_probs rlp (given cc) = Ok tt).
    { unfold check_for_choice_col_based_on_return_long_probs. destruct Hc as [->|(c & ->)]; [reflexivity|destruct rlp; reflexivity]. }
    rewrite H5, Hd. cbn [bind fst]. rewrite Hl. cbn [bind]. rewrite Hm. cbn [bind]. rewrite Hp. exact Hr.
Qed.

Lemma predict_columns o k m f pl plc rlp cc nd rvs :
  fm_class m = ClassLogit k ->
  (forall c, check_param_list_validity (fm_names m) (option_map (map elem_of_nd) pl)
     = check_param_list_validity (fm_names m) (option_map (map elem_of) (plc c))) ->
  (forall b i s, prediction_params_nd m pl = Ok (b, i, s) ->
     shaped o b /\ opt_shaped o i /\ opt_shaped o s /\ works o k i /\
     forall c, exists n, prediction_params m (plc c) = Ok (mkParams (column c b) (option_map (column c) i) (option_map (column c) s) n)) ->
  (forall c pr, prediction_params m (plc c) = Ok pr -> exists b i s, prediction_params_nd m pl = Ok (b, i, s)) ->
  (forall r, predict_nd k m f pl rlp cc = Ok r ->
     (forall ids, int_col f (fm_obs_col m) = Ok ids -> result_shape (out o) (length ids) (length (first_seen ids)) r) /\
     forall c, (c < num_columns o)%nat -> exists p, predict m f (plc c) rlp cc nd rvs = Ok p /\ is_column c r p) /\
  (forall c p, (c < num_columns o)%nat -> predict m f (plc c) rlp cc nd rvs = Ok p ->
     exists r, predict_nd k m f pl rlp cc = Ok r).
Proof.
  intros Hk Hcheck Hpar Hpar'. split.
  - intros r H. apply predict_nd_ok in H. cbn zeta in H.
    destruct H as (H & Hc & cols & names & d & mp & b & i & s & Hd & Hl & Hm & Hpp & Hr).
    destruct (Hpar _ _ _ Hpp) as (Hb & Hi & Hs & Hbare & Hn).
    set (D := data_of d mp (length cols) (design_mat cols) None None) in *.
    destruct (probs_iff o k D s i b (fun _ => None) (option_map smat_R (chosen_row_to_obs mp)) rlp Hbare Hb Hs Hi) as [HA _].
    destruct (HA r Hr) as [Hshape Hcols]. split.
    + intros ids Hids. unfold long_cols_of in Hl. apply bind_ok in Hl. destruct Hl as (o' & Ho & Hl).
      rewrite int_col_add_intercept in Ho. assert (o' = ids) by congruence. subst o'.
      apply bind_ok in Hl. destruct Hl as (a & _ & Hl). apply bind_ok in Hl. destruct Hl as (ch & _ & Hl).
      apply bind_ok in Hl. destruct Hl as (mx & _ & Hl). injection Hl as <-.
      pose proof (data_nobs _ _ _ (length cols) (design_mat cols) None None Hm) as Hnobs. cbn [obs_ids] in Hnobs.
      rewrite <- Hnobs. exact Hshape.
    + intros c Hcl. destruct (Hcols c Hcl) as (p & Ep & Hcol). exists p. split; [|exact Hcol].
      apply predict_ok. split; [|split; [exact Hc|]].
      * unfold request_independent_checks. rewrite <- (Hcheck c). exact H.
      * destruct (Hn c) as [n En]. exists cols, names, d, mp. eexists. split; [exact Hd|]. split; [exact Hl|].
        rewrite Hk. split; [exact Hm|]. split; [exact En|]. unfold dispatch. rewrite Hk.
        change (data_of d mp (length cols) (design_mat cols) None None) with D.
        apply predict_logit_ok. apply predict_logit_ok in Ep. exact Ep.
  - intros c p Hcl H. apply predict_ok in H. destruct H as (H & Hc & cols & names & d & mp & pr & Hd & Hl & Hm & Hpp & Hr).
    destruct (Hpar' c pr Hpp) as (b & i & s & Hnd). destruct (Hpar _ _ _ Hnd) as (Hb & Hi & Hs & Hbare & Hn).
    destruct (Hn c) as [n En]. assert (pr = mkParams (column c b) (option_map (column c) i) (option_map (column c) s) n) by congruence. subst pr.
    unfold dispatch in Hr. rewrite Hk in Hr, Hm.
    destruct (probs_iff o k (data_of d mp (length cols) (design_mat cols) None None) s i b (fun _ => n) (option_map smat_R (chosen_row_to_obs mp)) rlp Hbare Hb Hs Hi) as [_ HB].
    destruct (HB c p Hcl Hr) as [r Er]. exists r. apply predict_nd_ok. cbn zeta. split; [|split; [exact Hc|]].
    + unfold request_independent_checks in H. rewrite <- (Hcheck c) in H. exact H.
    + exists cols, names, d, mp, b, i, s. auto.
Qed.

Lemma params_column o k m pl : List.Forall (opt_shaped o) pl -> works o k (nth 1 pl None) ->
  (forall b i s, prediction_params_nd m (Some pl) = Ok (b, i, s) ->
     shaped o b /\ opt_shaped o i /\ opt_shaped o s /\ works o k i /\
     forall c, exists n, prediction_params m (Some (list_column c pl)) = Ok (mkParams (column c b) (option_map (column c) i) (option_map (column c) s) n)) /\
  (forall c pr, prediction_params m (Some (list_column c pl)) = Ok pr -> exists b i s, prediction_params_nd m (Some pl) = Ok (b, i, s)).
Proof.
  intros Hf Hb. split.
  - intros b i s H. destruct pl as [|[b'|] [|i' [|s' [|n' [|? ?]]]]]; try discriminate H. injection H as -> -> ->.
    inversion Hf; subst. inversion H2; subst. inversion H4; subst. repeat split; auto. intros c. eexists. reflexivity.
  - intros c pr H. destruct pl as [|[b'|] [|i' [|s' [|n' [|? ?]]]]]; try discriminate H. eexists. eexists. eexists. reflexivity.
Qed.

(** ** C86 *)

(** Parameter arrays with [w >= 2] columns: predict accepts the list of arrays exactly
    when it accepts the list of their columns [c]; the result has one column per
    parameter vector, with a row for every row of the data (or for every observation, for
    the probabilities of the chosen alternatives); and column [c] is the prediction with
    column [c] of the parameters.  [no_bare_scobit]: a scobit model needs outside intercepts. *)
Theorem C86_several_vectors_partial k m f pl rlp cc nd rvs w :
  fm_class m = ClassLogit k -> (2 <= w)%nat -> List.Forall (opt_shaped (Some w)) pl ->
  (forall iref, k = KScobit iref -> iref <> None /\ nth 1 pl None <> None) ->
  (forall r, predict_nd k m f (Some pl) rlp cc = Ok r ->
     (forall ids, int_col f (fm_obs_col m) = Ok ids -> result_shape (Some w) (length ids) (length (first_seen ids)) r) /\
     forall c, (c < w)%nat -> exists p, predict m f (Some (list_column c pl)) rlp cc nd rvs = Ok p /\ is_column c r p) /\
  (forall c p, (c < w)%nat -> predict m f (Some (list_column c pl)) rlp cc nd rvs = Ok p ->
     exists r, predict_nd k m f (Some pl) rlp cc = Ok r).
Proof.
  intros Hk Hw Hf Hb.
  assert (Hb' : works (Some w) k (nth 1 pl None)).
  { left. split; [exact Hw|]. unfold no_bare_scobit. destruct k; try exact I. apply (Hb iref). reflexivity. }
  destruct (params_column (Some w) k m pl Hf Hb') as [H1 H2].
  pose proof (predict_columns (Some w) k m f (Some pl) (fun c => Some (list_column c pl)) rlp cc nd rvs Hk) as HC.
  replace (out (Some w)) with (Some w) in HC by (destruct w as [|[|w]]; [lia|lia|reflexivity]). apply HC; auto.
  intros c. apply (check_column (Some w) (fm_names m) pl c Hf).
Qed.

(** One column: for the multinomial logit, and for the clog-log and uneven logit models
    without outside intercepts, predict treats it as the vector it holds and returns
    one-dimensional results. *)
Theorem C86_one_column_partial k m f pl rlp cc nd rvs :
  fm_class m = ClassLogit k -> List.Forall (opt_shaped (Some 1%nat)) pl ->
  match k with KMNL => True | KClog iref | KUneven iref => iref = None \/ nth 1 pl None = None | _ => False end ->
  (forall r, predict_nd k m f (Some pl) rlp cc = Ok r ->
     (forall ids, int_col f (fm_obs_col m) = Ok ids -> result_shape None (length ids) (length (first_seen ids)) r) /\
     exists p, predict m f (Some (list_column 0 pl)) rlp cc nd rvs = Ok p /\ is_column 0 r p) /\
  (forall p, predict m f (Some (list_column 0 pl)) rlp cc nd rvs = Ok p ->
     exists r, predict_nd k m f (Some pl) rlp cc = Ok r).
Proof.
  intros Hk Hf Hb.
  assert (Hb' : works (Some 1%nat) k (nth 1 pl None)) by (right; split; [reflexivity|exact Hb]).
  destruct (params_column (Some 1%nat) k m pl Hf Hb') as [H1 H2].
  destruct (predict_columns (Some 1%nat) k m f (Some pl) (fun c => Some (list_column c pl)) rlp cc nd rvs Hk) as [HA HB]; auto.
  { intros c. apply (check_column (Some 1%nat) (fm_names m) pl c Hf). }
  split.
  - intros r Hr. destruct (HA r Hr) as [H3 H4]. split; [exact H3|]. apply (H4 0%nat). cbn. lia.
  - intros p Hp. apply (HB 0%nat p); [cbn; lia|exact Hp].
Qed.

(** One-dimensional parameter arrays: this model of predict and that of Predict.v agree. *)
Definition flat (a : arr) : nd := A1 (alen a) (aget a).
Theorem C86_one_vector k m f (pl : option (list (option arr))) rlp cc nd rvs :
  fm_class m = ClassLogit k ->
  let pl' := option_map (map (option_map flat)) pl in
  (forall r, predict_nd k m f pl' rlp cc = Ok r ->
     (forall ids, int_col f (fm_obs_col m) = Ok ids -> result_shape None (length ids) (length (first_seen ids)) r) /\
     exists p, predict m f pl rlp cc nd rvs = Ok p /\ is_column 0 r p) /\
  (forall p, predict m f pl rlp cc nd rvs = Ok p -> exists r, predict_nd k m f pl' rlp cc = Ok r).
Proof.
  intros Hk pl'.
  assert (Hcol : forall a : option arr, option_map (column 0) (option_map flat a) = a) by (intros [[n v]|]; reflexivity).
  assert (H : forall c, (c < 1)%nat -> c = 0%nat) by (intros; lia).
  destruct (predict_columns None k m f pl' (fun _ => pl) rlp cc nd rvs Hk) as [HA HB].
  - intros _. unfold pl'. destruct pl as [l|]; [|reflexivity]. cbn [option_map]. f_equal. f_equal. rewrite map_map. apply map_ext.
    intros [a|]; reflexivity.
  - intros b i s Hp. unfold pl', prediction_params_nd in Hp. destruct pl as [l|]; cbn [option_map] in Hp.
    + destruct l as [|[b'|] [|i' [|s' [|n' [|? ?]]]]]; try discriminate Hp. cbn [map option_map] in Hp. injection Hp as <- <- <-.
      split; [exact I|]. split; [destruct i'; exact I|]. split; [destruct s'; exact I|]. split; [left; split; exact I|].
      intros c. exists n'. unfold prediction_params. f_equal.
      destruct b', i' as [[? ?]|], s' as [[? ?]|]; reflexivity.
    + injection Hp as <- <- <-. split; [exact I|]. split; [destruct (fm_intercepts m); exact I|]. split; [destruct (fm_shapes m); exact I|].
      split; [left; split; exact I|]. intros c. exists (fm_nests m). unfold prediction_params. f_equal.
      destruct (fm_coefs m), (fm_intercepts m) as [[? ?]|], (fm_shapes m) as [[? ?]|]; reflexivity.
  - intros _ pr Hp. unfold pl'. destruct pl as [l|]; [|eexists; eexists; eexists; reflexivity].
    destruct l as [|[b'|] [|i' [|s' [|n' [|? ?]]]]]; try discriminate Hp. eexists. eexists. eexists. reflexivity.
  - split.
    + intros r Hr. destruct (HA r Hr) as [H1 H2]. split; [exact H1|]. apply (H2 0%nat). cbn. lia.
    + intros p Hp. apply (HB 0%nat p); [cbn; lia|exact Hp].
Qed.

(** ** Where it fails *)
Lemma dot_shape o n k M x z : shaped o x -> nd_dot n k M x = Ok z -> has_shape o n z.
Proof.
  unfold has_shape. destruct o, x; cbn; try tauto; intros H E; destruct (_ =? _)%nat; try discriminate E; injection E as <-; cbn; auto.
Qed.
Lemma umap_shape o n op x : has_shape o n x -> has_shape o n (umap op x).
Proof. unfold has_shape. destruct o, x; cbn; tauto. Qed.
Lemma bop_shape o op n x y z : has_shape o n x -> has_shape o n y -> bop op x y = Ok z -> has_shape o n z.
Proof.
  unfold has_shape. destruct o, x, y; cbn; try tauto; intros H1 H2 E; destruct H1, H2; subst;
  rewrite ?bdim_same in E; cbn [bind] in E; injection E as <-; cbn; auto.
Qed.
(** A column against a one-dimensional array of the same length. *)
Lemma bop_outer op n x y z : has_shape (Some 1%nat) n x -> has_shape None n y -> bop op x y = Ok z -> has_shape (Some n) n z.
Proof.
  unfold has_shape. destruct x as [|a b f], y as [c g|]; cbn; try tauto. intros [-> ->] [_ ->] E.
  assert (Hb : bdim 1 n = Ok n). { unfold bdim. destruct (Nat.eqb_spec 1 n) as [<-|]; reflexivity. }
  rewrite Hb in E. injection E as <-. cbn. auto.
Qed.
Lemma bop_outer' op n x y z : has_shape None n x -> has_shape (Some 1%nat) n y -> bop op x y = Ok z -> has_shape (Some n) n z.
Proof.
  unfold has_shape. destruct x as [c g|c1 c2 g1], y as [a1 f1|a b f]; cbn; try tauto. intros [_ ->] [-> ->] E.
  assert (Hb : bdim n 1 = Ok n). { unfold bdim. destruct (Nat.eqb_spec n 1) as [->|]; reflexivity. }
  rewrite Hb in E. injection E as <-. cbn. auto.
Qed.
Lemma bop_row op n x y z : has_shape None n x -> has_shape (Some n) n y -> bop op x y = Ok z -> has_shape (Some n) n z.
Proof.
  unfold has_shape. destruct x as [c g|c1 c2 g1], y as [a1 f1|a b f]; cbn; try tauto. intros [_ ->] [-> ->] E.
  rewrite bdim_same in E. injection E as <-. cbn. auto.
Qed.

(** What a successful prediction needs. *)
Lemma predict_nd_inv k m f pl rlp cc r ids : predict_nd k m f (Some pl) rlp cc = Ok r -> int_col f (fm_obs_col m) = Ok ids ->
  exists b i s n J K X A v t, pl = [Some b; i; s; n] /\ nd_dot (length ids) K X b = Ok v /\
    transform_nd k (length ids) J A v s i = Ok t /\
    exists D C, d_N D = length ids /\ d_obs D = length (first_seen ids) /\ calc_probabilities_nd k D s i b C rlp = Ok r /\
      d_J D = J /\ d_A D = A /\ d_K D = K /\ d_X D = X /\
      (forall alts, int_col f (fm_alt_col m) = Ok alts -> J = length (np_unique alts)).
Proof.
  intros H Hids. apply predict_nd_ok in H. cbn zeta in H.
  destruct H as (_ & _ & cols & names & d & mp & b & i & s & _ & Hl & Hm & Hpp & Hr).
  assert (HN : obs_ids d = ids /\ forall alts, int_col f (fm_alt_col m) = Ok alts -> alt_ids d = alts).
  { unfold long_cols_of in Hl. apply bind_ok in Hl. destruct Hl as (o' & Ho & Hl).
    rewrite int_col_add_intercept in Ho. assert (o' = ids) by congruence. subst o'.
    apply bind_ok in Hl. destruct Hl as (a & Ha & Hl). apply bind_ok in Hl. destruct Hl as (ch & _ & Hl).
    apply bind_ok in Hl. destruct Hl as (mx & _ & Hl). injection Hl as <-. split; [reflexivity|].
    intros alts Halts. rewrite int_col_add_intercept in Ha. cbn. congruence. }
  destruct HN as [HN Halts].
  assert (Hpl : exists n, pl = [Some b; i; s; n]).
  { destruct pl as [|[b'|] [|i' [|s' [|n' [|? ?]]]]]; try discriminate Hpp. injection Hpp as -> -> ->. eauto. }
  destruct Hpl as [n ->]. set (D := data_of d mp (length cols) (design_mat cols) None None) in *.
  assert (HD : d_N D = length ids) by (unfold D, data_of; cbn [d_N]; congruence).
  pose proof Hr as Hr'. unfold calc_probabilities_nd in Hr'. apply bind_ok in Hr'. destruct Hr' as ([] & _ & Hr').
  apply bind_ok in Hr'. destruct Hr' as (v & Hv & Hr'). apply bind_ok in Hr'. destruct Hr' as (t & Ht & _).
  rewrite HD in Hv, Ht.
  exists b, i, s, n, (d_J D), (d_K D), (d_X D), (d_A D), v, t. split; [reflexivity|]. split; [exact Hv|]. split; [exact Ht|].
  exists D, (option_map smat_R (chosen_row_to_obs mp)). repeat split; auto.
  - unfold D. rewrite (data_nobs _ _ _ _ _ _ _ Hm), HN. reflexivity.
  - intros alts Ha. unfold D. rewrite (data_J _ _ _ _ _ _ _ Hm), (Halts _ Ha). reflexivity.
Qed.

(** Scobit without outside intercepts: two or more parameter vectors at once are rejected
    unless there happen to be as many as rows (or a single row). *)
Theorem C86_refuted_scobit_without_intercepts m f pl rlp cc w iref ids :
  (2 <= w)%nat -> List.Forall (opt_shaped (Some w)) pl -> (iref = None \/ nth 1 pl None = None) ->
  int_col f (fm_obs_col m) = Ok ids -> length ids <> 1%nat -> length ids <> w ->
  forall r, predict_nd (KScobit iref) m f (Some pl) rlp cc <> Ok r.
Proof.
  intros Hw Hf Hi Hids H1 H2 r Hr.
  destruct (predict_nd_inv _ _ _ _ _ _ _ _ Hr Hids) as (b & i & s & n & J & K & X & A & v & t & -> & Hv & Ht & _).
  inversion Hf as [|? ? Hb H3]; subst. inversion H3 as [|? ? _ H4]; subst. inversion H4 as [|? ? Hs _]; subst.
  cbn [nth] in Hi. cbn [opt_shaped] in Hb.
  cbn [transform_nd] in Ht. unfold scobit_transform_nd in Ht.
  replace (match iref with Some ref => match i with Some x => scatter J (nd_rows x) ref x | None => Ok (A1 J (fun _ => 0)) end
           | None => Ok (A1 J (fun _ => 0)) end) with (Ok (A1 J (fun _ => 0)) : Res nd) in Ht.
  2:{ destruct Hi as [-> | ->]; [reflexivity|]. destruct iref; reflexivity. }
  cbn [bind] in Ht. apply bind_ok in Ht. destruct Ht as (l & Hl & Ht). apply bind_ok in Ht. destruct Ht as (sh & Hsh & Ht).
  destruct s as [s'|]; [|discriminate Hsh]. injection Hsh as <-. cbn [opt_shaped] in Hs.
  apply bind_ok in Ht. destruct Ht as (ns & Hns & Ht). apply bind_ok in Ht. destruct Ht as (pt & Hpt & Ht).
  apply bind_ok in Ht. destruct Ht as (t' & Ht' & _).
  apply (dot_shape None) in Hl; [|exact I]. apply (dot_shape (Some w)) in Hv; [|exact Hb].
  apply (dot_shape (Some w)) in Hns; [|destruct s'; cbn in *; tauto].
  pose proof (bop_shape (Some w) _ _ _ _ _ (umap_shape _ _ (fun x => exp (-1 * x)) _ Hv) Hns Hpt) as Hpt'.
  apply (umap_shape _ _ (fun p => ln (p - 1))) in Hpt'. set (t2 := umap _ pt) in *.
  destruct Hl as [Hl1 Hl2], Hpt' as [Hq1 Hq2]. destruct l as [a g|]; [|tauto]. destruct t2 as [|p q h]; [tauto|].
  cbn in Hl2, Hq1, Hq2. subst. cbn [bop] in Ht'. unfold bdim in Ht'.
  apply Nat.eqb_neq in H1, H2. rewrite H2, H1 in Ht'. assert (H3' : (w =? 1)%nat = false) by (apply Nat.eqb_neq; lia).
  rewrite H3' in Ht'. discriminate.
Qed.

(** A single parameter vector as a one-column array, with outside intercepts: rejected
    by the clog-log and uneven logit models. *)
Theorem C86_refuted_one_column_with_intercepts k m f pl rlp cc ref ids :
  k = KClog (Some ref) \/ k = KUneven (Some ref) -> List.Forall (opt_shaped (Some 1%nat)) pl -> nth 1 pl None <> None ->
  int_col f (fm_obs_col m) = Ok ids -> length ids <> 1%nat ->
  forall r, predict_nd k m f (Some pl) rlp cc <> Ok r.
Proof.
  intros Hk Hf Hi Hids H1 r Hr.
  destruct (predict_nd_inv _ _ _ _ _ _ _ _ Hr Hids) as (b & i & s & n & J & K & X & A & v & t & -> & Hv & Ht & _).
  inversion Hf as [|? ? Hb H3]; subst. inversion H3 as [|? ? Hi' H4]; subst. inversion H4 as [|? ? Hs _]; subst.
  cbn [nth] in Hi. destruct i as [x|]; [|congruence]. cbn [opt_shaped] in Hb, Hi'.
  apply (dot_shape (Some 1%nat)) in Hv; [|exact Hb].
  assert (Hkey : forall t t', has_shape (Some 1%nat) (length ids) t ->
    (do l <- outside_intercepts (length ids) J A (Some ref) (Some x); add_intercepts t l) <> Ok t').
  { intros u u' Hu E. apply bind_ok in E. destruct E as (l & El & E). unfold outside_intercepts in El.
    apply bind_ok in El. destruct El as ([] & _ & El). apply bind_ok in El. destruct El as (z & Hz & El).
    apply bind_ok in El. destruct El as (l' & Hl' & El). injection El as <-. cbn [add_intercepts] in E.
    assert (Hzs : shaped None z).
    { unfold scatter in Hz. apply bind_ok in Hz. destruct Hz as ([] & _ & Hz). apply bind_ok in Hz. destruct Hz as ([] & _ & Hz).
      destruct x as [|p q g]; [contradiction|]. cbn in Hi'. subst q. cbn [several_columns Nat.ltb Nat.leb] in Hz.
      apply bind_ok in Hz. destruct Hz as (vv & _ & Hz). injection Hz as <-. exact I. }
    apply (dot_shape None) in Hl'; [|exact Hzs]. unfold inplace in E. apply bind_ok in E. destruct E as (y & Hy & E).
    pose proof (bop_outer _ _ _ _ _ Hu Hl' Hy) as [Ha Hbb]. destruct Hu as [Hu1 Hu2].
    destruct u as [|p q g]; [contradiction|]. destruct y as [|p' q' g']; [contradiction|]. cbn in Hu1, Hu2, Ha, Hbb. subst.
    cbn [same_shape] in E. replace (1 =? length ids)%nat with false in E by (symmetry; apply Nat.eqb_neq; lia).
    rewrite Bool.andb_false_r in E. discriminate. }
  destruct Hk as [-> | ->]; cbn [transform_nd] in Ht.
  - unfold cloglog_transform_nd in Ht. apply bind_ok in Ht. destruct Ht as (l & Hl & Ht).
    apply bind_ok in Ht. destruct Ht as (t' & Ht' & _).
    eapply Hkey; [apply umap_shape; exact Hv|]. rewrite Hl. exact Ht'.
  - unfold uneven_transform_nd in Ht. apply bind_ok in Ht. destruct Ht as (sh & Hsh & Ht).
    destruct s as [s'|]; [|discriminate Hsh]. injection Hsh as <-. cbn [opt_shaped] in Hs.
    apply bind_ok in Ht. destruct Ht as (ns & Hns & Ht). apply bind_ok in Ht. destruct Ht as (l2 & Hl2 & Ht).
    apply bind_ok in Ht. destruct Ht as (t1 & Ht1 & Ht). apply bind_ok in Ht. destruct Ht as (t2 & Ht2 & Ht).
    apply bind_ok in Ht. destruct Ht as (l & Hl & Ht). apply bind_ok in Ht. destruct Ht as (t' & Ht' & _).
    apply (dot_shape (Some 1%nat)) in Hns; [|destruct s'; cbn in *; tauto].
    pose proof (bop_shape _ _ _ _ _ _ Hns Hv Hl2) as S1.
    pose proof (bop_shape _ _ _ _ _ _ Hv (umap_shape _ _ (fun x => ln (1 + exp (-1 * x))) _ Hv) Ht1) as S2.
    pose proof (bop_shape _ _ _ _ _ _ S2 S1 Ht2) as S3.
    eapply Hkey; [exact S3|]. rewrite Hl. exact Ht'.
Qed.

(** The asymmetric logit with a single parameter vector as a one-column array: rejected
    when there are three or more alternatives. *)
Theorem C86_refuted_one_column_asymmetric m f pl rlp cc sref iref ids alts :
  List.Forall (opt_shaped (Some 1%nat)) pl -> int_col f (fm_obs_col m) = Ok ids ->
  int_col f (fm_alt_col m) = Ok alts -> (3 <= length (np_unique alts))%nat ->
  forall r, predict_nd (KAsym sref iref) m f (Some pl) rlp cc <> Ok r.
Proof.
  intros Hf Hids Halts HJ r Hr.
  destruct (predict_nd_inv _ _ _ _ _ _ _ _ Hr Hids) as (b & i & s & n & J & K & X & A & v & t & -> & Hv & Ht & D & C & _ & _ & _ & _ & _ & _ & _ & EJ).
  specialize (EJ _ Halts). rewrite <- EJ in HJ.
  inversion Hf as [|? ? Hb H3]; subst. inversion H3 as [|? ? Hi' H4]; subst. inversion H4 as [|? ? Hs _]; subst.
  cbn [transform_nd] in Ht. unfold asym_transform_nd in Ht. apply bind_ok in Ht. destruct Ht as (sh & Hsh & Ht).
  destruct s as [s'|]; [|discriminate Hsh]. injection Hsh as <-. cbn [opt_shaped] in Hs.
  apply bind_ok in Ht. destruct Ht as (c & Hc & Ht). apply bind_ok in Ht. destruct Ht as (ls & Hls & _).
  destruct s' as [|p q g]; [contradiction|]. cbn in Hs. subst q. unfold convert_eta_to_c_nd in Hc. cbn [nd_rows umap sum0_plus_1] in Hc.
  apply bind_ok in Hc. destruct Hc as ([] & _ & Hc). apply bind_ok in Hc. destruct Hc as (o & Ho & Hc).
  cbn [several_columns Nat.ltb Nat.leb] in Hc. apply bind_ok in Hc. destruct Hc as (o' & Ho' & Hc). injection Hc as <-.
  cbn [bop] in Ho. rewrite bdim_same in Ho. cbn [bind] in Ho. injection Ho as <-. cbn [to_region] in Ho'.
  destruct (Nat.eqb_spec p 1); [|discriminate]. subst p. cbn [nd_dot] in Hls.
  destruct (Nat.eqb_spec (1 + 1) (length (np_unique alts))); [lia|discriminate].
Qed.

(** ... and with two alternatives it returns a square array, a column per row of the data
    instead of one; so does scobit, whether it has outside intercepts or not. *)
Theorem C86_refuted_one_column_square k m f pl rlp cc ids r :
  (exists iref, k = KScobit iref) \/ (exists sref iref, k = KAsym sref iref) ->
  List.Forall (opt_shaped (Some 1%nat)) pl -> int_col f (fm_obs_col m) = Ok ids -> (2 <= length ids)%nat ->
  predict_nd k m f (Some pl) rlp cc = Ok r ->
  result_shape (Some (length ids)) (length ids) (length (first_seen ids)) r.
Proof.
  intros Hk Hf Hids HN Hr.
  destruct (predict_nd_inv _ _ _ _ _ _ _ _ Hr Hids) as (b & i & s & n & J & K & X & A & v & t & -> & Hv & Ht & D & C & HDN & HDo & Hcp & HJ & HA & HK & HX & _).
  clear Hr. inversion Hf as [|? ? Hb H3]; subst. inversion H3 as [|? ? Hi' H4]; subst. inversion H4 as [|? ? Hs _]; subst. clear Hf H3 H4.
  cbn [opt_shaped] in Hb. pose proof (dot_shape (Some 1%nat) _ _ _ _ _ Hb Hv) as Sv.
  assert (St : has_shape (Some (length ids)) (length ids) t).
  { destruct Hk as [[iref ->]|[sref [iref ->]]]; cbn [transform_nd] in Ht.
    - unfold scobit_transform_nd in Ht. apply bind_ok in Ht. destruct Ht as (z & Hz & Ht).
      apply bind_ok in Ht. destruct Ht as (l & Hl & Ht). apply bind_ok in Ht. destruct Ht as (sh & Hsh & Ht).
      destruct s as [s'|]; [|discriminate Hsh]. injection Hsh as <-. cbn [opt_shaped] in Hs.
      apply bind_ok in Ht. destruct Ht as (ns & Hns & Ht). apply bind_ok in Ht. destruct Ht as (pt & Hpt & Ht).
      apply bind_ok in Ht. destruct Ht as (t' & Ht' & Ht). injection Ht as <-.
      assert (Hzs : shaped None z).
      { destruct iref as [ref|]; [|injection Hz as <-; exact I]. destruct i as [x|]; [|injection Hz as <-; exact I].
        unfold scatter in Hz. apply bind_ok in Hz. destruct Hz as ([] & _ & Hz). apply bind_ok in Hz. destruct Hz as ([] & _ & Hz).
        cbn [opt_shaped] in Hi'. destruct x as [|p q g]; [contradiction|]. cbn in Hi'. subst q.
        cbn [several_columns Nat.ltb Nat.leb] in Hz.
        apply bind_ok in Hz. destruct Hz as (vv & _ & Hz). injection Hz as <-. exact I. }
      apply (dot_shape None) in Hl; [|exact Hzs]. apply (dot_shape (Some 1%nat)) in Hns; [|destruct s'; cbn in *; tauto].
      pose proof (bop_shape _ _ _ _ _ _ (umap_shape _ _ (fun x => exp (-1 * x)) _ Sv) Hns Hpt) as S1.
      pose proof (bop_outer' _ _ _ _ _ Hl (umap_shape _ _ (fun p => ln (p - 1)) _ S1) Ht') as S2.
      destruct t' as [|p q g]; [destruct S2 as [[] _]|]. exact S2.
    - unfold asym_transform_nd in Ht. apply bind_ok in Ht. destruct Ht as (sh & Hsh & Ht).
      destruct s as [s'|]; [|discriminate Hsh]. injection Hsh as <-. cbn [opt_shaped] in Hs.
      apply bind_ok in Ht. destruct Ht as (c & Hc & Ht). apply bind_ok in Ht. destruct Ht as (ls & Hls & Ht).
      apply bind_ok in Ht. destruct Ht as (m1 & Hm1 & Ht). apply bind_ok in Ht. destruct Ht as (m2 & Hm2 & Ht).
      apply bind_ok in Ht. destruct Ht as (mu & Hmu & Ht). apply bind_ok in Ht. destruct Ht as (vm & Hvm & Ht).
      apply bind_ok in Ht. destruct Ht as (t1 & Ht1 & Ht). apply bind_ok in Ht. destruct Ht as (l & Hl & Ht).
      apply bind_ok in Ht. destruct Ht as (t2 & Ht2 & Ht). injection Ht as <-.
      assert (Hcs : shaped None c).
      { destruct s' as [|p q g]; [contradiction|]. cbn in Hs. subst q. unfold convert_eta_to_c_nd in Hc. cbn [nd_rows umap sum0_plus_1] in Hc.
        apply bind_ok in Hc. destruct Hc as ([] & _ & Hc). apply bind_ok in Hc. destruct Hc as (o & Ho & Hc).
        cbn [several_columns Nat.ltb Nat.leb] in Hc. apply bind_ok in Hc. destruct Hc as (o' & Ho' & Hc). injection Hc as <-. exact I. }
      apply (dot_shape None) in Hls; [|exact Hcs].
      pose proof (umap_shape _ _ ln _ Hls) as L1. pose proof (umap_shape _ _ (fun c => ln ((1 - c) / (INR (d_J D) - 1))) _ Hls) as L2.
      pose proof (bop_outer _ _ _ _ _ Sv L1 Hm1) as S1. pose proof (bop_outer _ _ _ _ _ Sv L2 Hm2) as S2.
      pose proof (bop_shape _ _ _ _ _ _ S1 S2 Hmu) as S3.
      assert (S4 : has_shape (Some (length ids)) (length ids) vm).
      { destruct v as [|p q g]; [destruct Sv as [[] _]|]. destruct mu as [|p' q' g']; [destruct S3 as [[] _]|].
        destruct Sv as [V1 V2], S3 as [M1 M2]. cbn in V1, V2, M1, M2. subst. cbn [bop] in Hvm. rewrite bdim_same in Hvm. cbn [bind] in Hvm.
        assert (Hb1 : bdim 1 (length ids) = Ok (length ids)). { unfold bdim. destruct (Nat.eqb_spec 1 (length ids)) as [<-|]; reflexivity. }
        rewrite Hb1 in Hvm. injection Hvm as <-. split; reflexivity. }
      pose proof (bop_row _ _ _ _ _ L1 S4 Ht1) as S5.
      assert (S6 : has_shape (Some (length ids)) (length ids) t2).
      { destruct l as [l|]; cbn [add_intercepts] in Ht2; [|injection Ht2 as <-; exact S5].
        unfold inplace in Ht2. apply bind_ok in Ht2. destruct Ht2 as (y & Hy & Ht2).
        destruct (same_shape t1 y) eqn:E; [|discriminate]. injection Ht2 as <-.
        destruct t1 as [|p q g]; [destruct S5 as [[] _]|]. destruct y as [|p' q' g']; [discriminate|].
        cbn [same_shape] in E. apply andb_true_iff in E. destruct E as [E1 E2]. apply Nat.eqb_eq in E1, E2.
        destruct S5 as [T1 T2]. cbn in T1, T2. subst. split; cbn; congruence. }
      destruct t2 as [|p q g]; [destruct S6 as [[] _]|]. exact S6. }
  unfold calc_probabilities_nd in Hcp. rewrite HDN, HDo in Hcp. apply bind_ok in Hcp. destruct Hcp as ([] & _ & Hcp).
  rewrite Hv in Hcp. cbn [bind] in Hcp. rewrite Ht in Hcp. cbn [bind] in Hcp.
  pose proof (umap_shape _ _ (fun x => exp (clip_exponent x)) _ St) as Se. set (e := umap _ t) in *.
  apply bind_ok in Hcp. destruct Hcp as (de & Hde & Hcp). apply bind_ok in Hcp. destruct Hcp as (lde & Hlde & Hcp).
  apply bind_ok in Hcp. destruct Hcp as (ra & Hra & Hcp).
  pose proof (dot_shape _ _ _ _ _ _ (proj1 Se) Hde) as S1. pose proof (dot_shape _ _ _ _ _ _ (proj1 S1) Hlde) as S2.
  pose proof (bop_shape _ _ _ _ _ _ Se S2 Hra) as S3.
  assert (Hsev : several_columns e = true).
  { destruct e as [|p q g]; [destruct Se as [[] _]|]. destruct Se as [E1 E2]. cbn in E1, E2. subst. cbn [several_columns]. apply Nat.ltb_lt. lia. }
  rewrite Hsev in Hcp. pose proof (umap_shape _ _ guard_zero _ S3) as S4.
  destruct C as [C|].
  - apply bind_ok in Hcp. destruct Hcp as (ce & Hce & Hcp). apply bind_ok in Hcp. destruct Hcp as (cr & Hcr & Hcp).
    pose proof (dot_shape _ _ _ _ _ _ (proj1 Se) Hce) as S5. pose proof (bop_shape _ _ _ _ _ _ S5 S1 Hcr) as S6.
    injection Hcp as <-. destruct rlp; cbn [result_shape]; auto.
  - injection Hcp as <-. exact S4.
Qed.

(** ** The hypotheses are met *)

(** Parameter arrays with [w] columns, all different. *)
Definition cols_of (n w : nat) : nd := A2 n w (fun i j => INR i + INR j).
Definition icpt_names : model_names :=
  mkModelNames ["b1"%string; "b2"%string] (Some ["i1"%string]) (Some ["s1"%string; "s2"%string]) None.
Definition with_names (k : logit_kind) (nm : model_names) : fitted_model :=
  mkFitted (ClassLogit k) "alt" "obs" None [("cost"%string, SStr "all_diff")] None nm (pred_theta 2) None None None.

Definition got_probs (r : Res prob_result) : prob_result := match r with Ok p => p | Err _ => LongProbs (fun _ => 0) end.
(** Three parameter vectors for an uneven logit and for a scobit with an outside intercept. *)
Example ex_three_vectors :
  (exists r, predict_nd (KUneven None) ex_logit pred_frame (Some [Some (cols_of 2 3); None; Some (cols_of 2 3); None]) true None = Ok r) /\
  (exists r, predict_nd (KScobit (Some 1%nat)) (with_names (KScobit (Some 1%nat)) icpt_names) pred_frame
     (Some [Some (cols_of 2 3); Some (cols_of 1 3); Some (cols_of 2 3); None]) false (Some "choice"%string) = Ok r).
Proof.
  split.
  - apply (proj2 (C86_several_vectors_partial (KUneven None) ex_logit pred_frame
      [Some (cols_of 2 3); None; Some (cols_of 2 3); None] true None None (fun _ _ _ => 0) 3
      eq_refl ltac:(lia) ltac:(repeat constructor) ltac:(discriminate)) 0%nat (got_probs (predict ex_logit pred_frame
        (Some (list_column 0 [Some (cols_of 2 3); None; Some (cols_of 2 3); None])) true None None (fun _ _ _ => 0)))); [lia|].
    reflexivity.
  - apply (proj2 (C86_several_vectors_partial (KScobit (Some 1%nat)) (with_names (KScobit (Some 1%nat)) icpt_names) pred_frame
      [Some (cols_of 2 3); Some (cols_of 1 3); Some (cols_of 2 3); None] false (Some "choice"%string) None (fun _ _ _ => 0) 3
      eq_refl ltac:(lia) ltac:(repeat constructor) ltac:(intros; injection H as <-; split; discriminate)) 0%nat
      (got_probs (predict (with_names (KScobit (Some 1%nat)) icpt_names) pred_frame
        (Some (list_column 0 [Some (cols_of 2 3); Some (cols_of 1 3); Some (cols_of 2 3); None])) false (Some "choice"%string) None (fun _ _ _ => 0)))); [lia|].
    reflexivity.
Qed.

(** Scobit without outside intercepts: the vectors work one at a time, not together. *)
Example ex_bare_scobit :
  let m := with_names (KScobit None) pred_names in
  let pl := [Some (cols_of 2 3); None; Some (cols_of 2 3); None] in
  (forall c, exists p, predict m pred_frame (Some (list_column c pl)) true None None (fun _ _ _ => 0) = Ok p) /\
  (forall r, predict_nd (KScobit None) m pred_frame (Some pl) true None <> Ok r).
Proof.
  split.
  - intros c. eexists. reflexivity.
  - apply (C86_refuted_scobit_without_intercepts _ _ _ _ _ 3 None [7; 7; 3; 3]%Z);
      [lia|repeat constructor|left; reflexivity|reflexivity|cbn; lia|cbn; lia].
Qed.

(** One column with an outside intercept. *)
Example ex_one_column :
  let m := with_names (KClog (Some 1%nat)) icpt_names in
  let pl := [Some (cols_of 2 1); Some (cols_of 1 1); None; None] in
  (exists p, predict m pred_frame (Some (list_column 0 pl)) true None None (fun _ _ _ => 0) = Ok p) /\
  (forall r, predict_nd (KClog (Some 1%nat)) m pred_frame (Some pl) true None <> Ok r).
Proof.
  split; [eexists; reflexivity|].
  apply (C86_refuted_one_column_with_intercepts _ _ _ _ _ _ 1 [7; 7; 3; 3]%Z);
    [left; reflexivity|repeat constructor|discriminate|reflexivity|cbn; lia].
Qed.

(** One column of an asymmetric logit: rejected with three alternatives; a 4 by 4 array
    with two. *)
Definition pred_frame3 : frame :=
  mkFrame 3 [("obs"%string, [7; 7; 7]%Z); ("alt"%string, [1; 2; 3]%Z); ("choice"%string, [1; 0; 0]%Z)]
    [("cost"%string, [5; 6; 7])].
Definition names3 : model_names :=
  mkModelNames ["b1"%string; "b2"%string; "b3"%string] None (Some ["s1"%string; "s2"%string]) None.
Definition names2 : model_names := mkModelNames ["b1"%string; "b2"%string] None (Some ["s1"%string]) None.
Example ex_one_column_asymmetric :
  (let m := with_names (KAsym 2 None) names3 in
   let pl := [Some (cols_of 3 1); None; Some (cols_of 2 1); None] in
   (exists p, predict m pred_frame3 (Some (list_column 0 pl)) true None None (fun _ _ _ => 0) = Ok p) /\
   (forall r, predict_nd (KAsym 2 None) m pred_frame3 (Some pl) true None <> Ok r)) /\
  (let m := with_names (KAsym 1 None) names2 in
   let pl := [Some (cols_of 2 1); None; Some (cols_of 1 1); None] in
   exists r, predict_nd (KAsym 1 None) m pred_frame (Some pl) true None = Ok r /\ result_shape (Some 4%nat) 4 2 r).
Proof.
  split; [split; [eexists; reflexivity|]|].
  - apply (C86_refuted_one_column_asymmetric _ _ _ _ _ 2 None [7; 7; 7]%Z [1; 2; 3]%Z);
      [repeat constructor|reflexivity|reflexivity|cbn; lia].
  - intros m pl. assert (H : exists r, predict_nd (KAsym 1 None) m pred_frame (Some pl) true None = Ok r) by (eexists; reflexivity).
    destruct H as [r H]. exists r. split; [exact H|].
    apply (C86_refuted_one_column_square (KAsym 1 None) m pred_frame pl true None [7; 7; 3; 3]%Z r);
      [right; eauto|repeat constructor|reflexivity|cbn; lia|exact H].
Qed.

Print Assumptions C86_several_vectors_partial.
Print Assumptions C86_one_column_partial.
Print Assumptions C86_one_vector.
Print Assumptions C86_refuted_scobit_without_intercepts.
Print Assumptions C86_refuted_one_column_with_intercepts.
Print Assumptions C86_refuted_one_column_asymmetric.
Print Assumptions C86_refuted_one_column_square.
