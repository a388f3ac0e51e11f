(** Missing and infinite values: none enter an estimation (C116); in a prediction they
    matter for their own observation only (C117). *)
From Coq Require Import String ZArith List Reals Lra Lia Bool Arith.
From Verif Require Import Res Vec Arr Ids Mappings LongData Frame ChoiceTools ChoiceCalcs Transforms BaseModel NestedCalcs MixedCalcs
  Estimation Predict Construct Summaries SpecLogit ChoiceFacts LogitFacts RawData.
From Verif Require Import PropMappings PropDesign.
Import ListNotations.
Local Open Scope R_scope.

(** ** Specification *)
Definition finite (x : xnum) : Prop := exists r, x = XFin r.
(** A column of finite numbers: integers, or floats none of which is NaN or infinite.
    (Booleans and everything else are not numbers for this check.) *)
Definition only_finite_numbers (c : rcol) : Prop :=
  match c with CInt _ => True | CFloat l => forall x, In x l -> finite x | CBool _ | COther => False end.

(** [g] is the table [f] with some number in the place of every missing or infinite value
    (and of every cell that is not a number). *)
Definition fills (f : rframe) (g : frame) : Prop :=
  f_rows g = r_rows f /\
  forall c, match assoc c (r_cols f) with
            | None => assoc c (f_ints g) = None /\ assoc c (f_reals g) = None
            | Some (CInt l) => assoc c (f_ints g) = Some l /\ assoc c (f_reals g) = None
            | Some (CBool l) => assoc c (f_ints g) = None /\ assoc c (f_reals g) = Some (map (fun b : bool => if b then 1 else 0) l)
            | Some (CFloat xs) => assoc c (f_ints g) = None /\
                exists rs, assoc c (f_reals g) = Some rs /\ length rs = length xs /\
                  forall i r, nth_error xs i = Some (XFin r) -> nth_error rs i = Some r
            | Some COther => assoc c (f_ints g) = None /\ exists rs, assoc c (f_reals g) = Some rs
            end.

(** The cell of column [v] in row [i] *)
Definition cell (f : rframe) (v : string) (i : nat) : option xnum :=
  match rnum_col f v with Ok l => nth_error l i | Err _ => None end.
(** Every variable of the specification has a finite value in row [i]. *)
Definition row_is_finite (f : rframe) (spec : specification) (i : nat) : Prop :=
  forall v, In v (map fst spec) -> exists r, cell f v i = Some (XFin r).
Definition rwell_formed (f : rframe) : Prop :=
  forall c k, assoc c (r_cols f) = Some k ->
    match k with CInt l => length l = r_rows f | CFloat l => length l = r_rows f | CBool l => length l = r_rows f | COther => True end.

(** The specification of one variable has a column that leaves out alternative [a]. *)
Definition leaves_out (u : list Z) (v : spec_value) (a : Z) : Prop :=
  match v with
  | SStr s => s = "all_diff"%string /\ exists b, In b u /\ b <> a
  | SList l => exists g, In g l /\
      match g with One b => b <> a | Group items => ~ In (GAlt a) items | OneJunk => False end
  | SOther => False
  end.
(** It has at least one column. *)
Definition has_columns (v : spec_value) : Prop := match v with SList [] => False | _ => True end.

(** ** Proof *)
Lemma problem_iff c : problem_col c = false <-> only_finite_numbers c.
Proof.
  destruct c as [l|l|l|]; cbn [problem_col only_finite_numbers]; [tauto| |split; [discriminate|intros []]|split; [discriminate|intros []]].
  split.
  - destruct (existsb _ l) eqn:E1; [discriminate|]. intros E2 x Hx.
    destruct x as [r| | |]; [exists r; reflexivity| | |]; exfalso.
    + assert (existsb (fun x => match x with XNaN => true | _ => false end) l = true) by (apply existsb_exists; exists XNaN; auto). congruence.
    + assert (existsb (fun x => match x with XPInf | XNInf => true | _ => false end) l = true) by (apply existsb_exists; exists XPInf; auto). congruence.
    + assert (existsb (fun x => match x with XPInf | XNInf => true | _ => false end) l = true) by (apply existsb_exists; exists XNInf; auto). congruence.
  - intros H. destruct (existsb (fun x => match x with XPInf | XNInf => true | _ => false end) l) eqn:E1.
    + apply existsb_exists in E1. destruct E1 as (x & Hx & E). destruct (H x Hx) as (r & ->). discriminate.
    + destruct (existsb (fun x => match x with XNaN => true | _ => false end) l) eqn:E2; [|reflexivity].
      apply existsb_exists in E2. destruct E2 as (x & Hx & E). destruct (H x Hx) as (r & ->). discriminate.
Qed.

Lemma mapM_in {A B} (f : A -> Res B) l bs a : mapM f l = Ok bs -> In a l -> exists b, f a = Ok b /\ In b bs.
Proof.
  revert bs. induction l as [|x l IH]; intros bs H []; cbn [mapM] in H; apply bind_ok in H; destruct H as (b & Hb & H);
    apply bind_ok in H; destruct H as (bs' & Hbs & H); injection H as <-.
  - subst x. exists b. split; [exact Hb|left; reflexivity].
  - destruct (IH bs' Hbs H0) as (b' & E & Hin). exists b'. split; [exact E|right; exact Hin].
Qed.
Lemma mapM_back {A B} (f : A -> Res B) l bs b : mapM f l = Ok bs -> In b bs -> exists a, In a l /\ f a = Ok b.
Proof.
  revert bs. induction l as [|x l IH]; intros bs H Hin; cbn [mapM] in H.
  - injection H as <-. destruct Hin.
  - apply bind_ok in H; destruct H as (b' & Hb & H); apply bind_ok in H; destruct H as (bs' & Hbs & H); injection H as <-.
    destruct Hin as [->|Hin]; [exists x; split; [left; reflexivity|exact Hb]|].
    destruct (IH bs' Hbs Hin) as (a & Ha & E). exists a. split; [right; exact Ha|exact E].
Qed.

(** ** C116: what construction accepts *)
Theorem C116_accepts_exactly_finite_numbers spec f :
  ensure_valid_nums_in_specification_cols spec f = Ok tt <->
  forall v, In v (map fst spec) -> exists c, assoc v (r_cols f) = Some c /\ only_finite_numbers c.
Proof.
  unfold ensure_valid_nums_in_specification_cols. split.
  - intros H v Hv. apply bind_ok in H. destruct H as (l & Hl & H).
    apply in_map_iff in Hv. destruct Hv as (kv & <- & Hin). destruct (mapM_in _ _ _ _ Hl Hin) as (b & Hb & Hbl).
    destruct (assoc (fst kv) (r_cols f)) as [c|]; [|discriminate]. injection Hb as <-. exists c. split; [reflexivity|].
    apply problem_iff. destruct (problem_col c) eqn:E; [|reflexivity].
    assert (X : existsb (fun b => b) l = true) by (apply existsb_exists; exists true; auto). rewrite X in H. discriminate.
  - intros H.
    assert (E : mapM (fun kv => match assoc (fst kv) (r_cols f) with Some c => Ok (problem_col c) | None => Err KeyError end) spec = Ok (map (fun _ => false) spec)).
    { apply mapM_total. intros kv Hin. destruct (H (fst kv)) as (c & -> & Hc); [apply in_map; exact Hin|].
      apply problem_iff in Hc. rewrite Hc. reflexivity. }
    rewrite E. cbn [bind].
    assert (X : existsb (fun b : bool => b) (map (fun _ : string * spec_value => false) spec) = false).
    { clear. induction spec; cbn; auto. }
    rewrite X. reflexivity.
Qed.

(** When the columns exist, anything else is a ValueError. *)
Theorem C116_rejects_with_value_error spec f :
  (forall v, In v (map fst spec) -> exists c, assoc v (r_cols f) = Some c) ->
  ~ (forall v, In v (map fst spec) -> exists c, assoc v (r_cols f) = Some c /\ only_finite_numbers c) ->
  ensure_valid_nums_in_specification_cols spec f = Err ValueError.
Proof.
  intros He Hn. destruct (ensure_valid_nums_in_specification_cols spec f) as [[]|e] eqn:E.
  - exfalso. apply Hn. apply C116_accepts_exactly_finite_numbers. exact E.
  - unfold ensure_valid_nums_in_specification_cols in E.
    destruct (mapM _ spec) as [l|e'] eqn:El; cbn [bind] in E.
    + destruct (existsb (fun b => b) l); [injection E as <-; reflexivity|discriminate].
    + exfalso. clear E Hn. revert El He. induction spec as [|kv spec IH]; cbn [mapM]; [discriminate|]. intros El He.
      destruct (He (fst kv)) as (c & Ec); [left; reflexivity|]. rewrite Ec in El. cbn [bind] in El.
      destruct (mapM _ spec) as [bs|e2]; cbn [bind] in El; [discriminate|]. apply (IH El). intros v Hv. apply He. right. exact Hv.
Qed.

(** *** Design matrices of a table with gaps and of the filled table *)
Lemma fills_has f g c : fills f g -> rhas_col f c = has_col g c.
Proof.
  intros (_ & H). specialize (H c). unfold rhas_col, has_col. destruct (assoc c (r_cols f)) as [[l|l|l|]|].
  - destruct H as (-> & _). reflexivity.
  - destruct H as (-> & rs & -> & _). reflexivity.
  - destruct H as (-> & ->). reflexivity.
  - destruct H as (-> & rs & ->). reflexivity.
  - destruct H as (-> & ->). reflexivity.
Qed.
Lemma fills_int f g c l : fills f g -> rint_col f c = Ok l -> int_col g c = Ok l.
Proof.
  intros (_ & H) E. specialize (H c). unfold rint_col in E. unfold int_col. destruct (assoc c (r_cols f)) as [[l'|l'|l'|]|]; try discriminate.
  injection E as ->. destruct H as (-> & _). reflexivity.
Qed.
Definition vals_rel (xs : list xnum) (rs : list R) : Prop :=
  length xs = length rs /\ forall i, finite (nth i xs (XFin 0)) -> nth i xs (XFin 0) = XFin (nth i rs 0).
Lemma fills_num f g c xs : fills f g -> rnum_col f c = Ok xs -> exists rs, num_col g c = Ok rs /\ vals_rel xs rs.
Proof.
  intros (_ & H) E. specialize (H c). unfold rnum_col in E. unfold num_col. destruct (assoc c (r_cols f)) as [[l|l|l|]|]; try discriminate;
    cbn [xcells] in E; injection E as <-.
  - destruct H as (-> & ->). exists (map IZR l). split; [reflexivity|]. split; [rewrite !map_length; reflexivity|].
    intros i _. pose proof (map_nth (fun z => XFin (IZR z)) l 0%Z i) as E1. pose proof (map_nth IZR l 0%Z i) as E2. cbn beta in E1.
    exact (eq_trans E1 (f_equal XFin (eq_sym E2))).
  - destruct H as (_ & rs & -> & L & V). exists rs. split; [reflexivity|]. split; [lia|]. intros i (r & Hr).
    destruct (lt_dec i (length l)) as [Hi|Hi].
    + assert (En : nth_error l i = Some (XFin r)) by (rewrite <- Hr; apply nth_error_nth'; exact Hi).
      apply V in En. rewrite Hr. f_equal. symmetry. apply nth_error_nth. exact En.
    + rewrite !nth_overflow by lia. reflexivity.
  - destruct H as (_ & ->). exists (map (fun b : bool => if b then 1 else 0) l). split; [reflexivity|]. split; [rewrite !map_length; reflexivity|].
    intros i _. pose proof (map_nth (fun b : bool => XFin (if b then 1 else 0)) l false i) as E1.
    pose proof (map_nth (fun b : bool => if b then 1 else 0) l false i) as E2.
    exact (eq_trans E1 (f_equal XFin (eq_sym E2))).
Qed.

Lemma xmask_nth m xs rs i : length xs = length rs -> nth i xs (XFin 0) = XFin (nth i rs 0) ->
  nth i (xmask_times m xs) (XFin 0) = XFin (nth i (mask_times m rs) 0).
Proof.
  intros L E. unfold xmask_times, mask_times.
  destruct (lt_dec i (Nat.min (length m) (length xs))) as [Hi|Hi].
  - rewrite (nth_indep _ (XFin 0) (xmask (fst (true, XFin 0)) (snd (true, XFin 0)))) by (rewrite map_length, combine_length; exact Hi).
    rewrite (map_nth (fun mv => xmask (fst mv) (snd mv))).
    rewrite (nth_indep _ 0 ((if fst (true, 0) : bool then 1 else 0) * snd (true, 0))%R) by (rewrite map_length, combine_length; lia).
    rewrite (map_nth (fun mv : bool * R => ((if fst mv : bool then 1 else 0) * snd mv)%R)).
    assert (C1 : nth i (combine m xs) (true, XFin 0) = (nth i m true, nth i xs (XFin 0))).
    { clear - Hi. revert m i Hi. induction xs as [|x xs IH]; intros [|b m] i Hi; cbn in *; try lia. destruct i; [reflexivity|]. apply IH. lia. }
    assert (C2 : nth i (combine m rs) (true, 0) = (nth i m true, nth i rs 0)).
    { rewrite L in Hi. clear - Hi. revert m i Hi. induction rs as [|x rs IH]; intros [|b m] i Hi; cbn in *; try lia. destruct i; [reflexivity|]. apply IH. lia. }
    rewrite C1, C2. cbn [fst snd]. rewrite E. destruct (nth i m true); cbn [xmask]; f_equal; ring.
  - rewrite !nth_overflow; [reflexivity| |]; rewrite map_length, combine_length; lia.
Qed.
Lemma xmask_length m xs : length (xmask_times m xs) = Nat.min (length m) (length xs).
Proof. unfold xmask_times. rewrite map_length, combine_length. reflexivity. Qed.

Definition col_rel (F : nat -> Prop) (a : list xnum * label) (b : list R * label) : Prop :=
  snd a = snd b /\ length (fst a) = length (fst b) /\ forall i, F i -> nth i (fst a) (XFin 0) = XFin (nth i (fst b) 0).

Lemma Forall2_map2 {A B C} (P : B -> C -> Prop) (f : A -> B) (g : A -> C) l : (forall a, P (f a) (g a)) -> Forall2 P (map f l) (map g l).
Proof. intros H. induction l; cbn; constructor; auto. Qed.

Lemma columns_rel (F : nat -> Prop) alts u v xs rs sv : vals_rel xs rs -> (forall i, F i -> finite (nth i xs (XFin 0))) ->
  Forall2 (col_rel F) (xcolumns_of alts u v xs sv) (columns_of alts u v rs sv).
Proof.
  intros (L & V) HF.
  assert (M : forall m lb, col_rel F (xmask_times m xs, lb) (mask_times m rs, lb)).
  { intros m lb. split; [reflexivity|]. split; [cbn [fst]; rewrite xmask_length, mask_times_length, L; reflexivity|].
    intros i Hi. apply xmask_nth; [exact L|]. apply V, HF, Hi. }
  destruct sv as [s|l|]; cbn [xcolumns_of columns_of].
  - destruct (String.eqb s "all_same").
    + constructor; [|constructor]. split; [reflexivity|]. split; [exact L|]. intros i Hi. apply V, HF, Hi.
    + destruct (String.eqb s "all_diff"); [|constructor]. apply Forall2_map2. intros alt. apply M.
  - apply Forall2_map2. intros [a| |items]; [apply M| |apply M]. split; [reflexivity|]. split; [reflexivity|]. intros i _. destruct i; reflexivity.
  - constructor.
Qed.

Lemma concat_rel {A B} (P : A -> B -> Prop) l m : Forall2 (Forall2 P) l m -> Forall2 P (concat l) (concat m).
Proof. intros H. induction H; cbn; [constructor|]. apply Forall2_app; assumption. Qed.

Lemma rdesign_inv f spec alt_col names xcols labels :
  rcreate_design_matrix f spec alt_col names = Ok (xcols, labels) ->
  exists alts parts, rint_col f alt_col = Ok alts /\ rhas_col f alt_col = true /\
    forallb (fun kv => rhas_col f (fst kv)) spec = true /\
    check_type_and_values_of_specification_dict spec (np_unique alts) = Ok tt /\
    (forall n, names = Some n -> check_keys_and_values_of_name_dictionary n spec (length (np_unique alts)) = Ok tt) /\
    mapM (fun kv => do vals <- rnum_col f (fst kv); Ok (xcolumns_of alts (np_unique alts) (fst kv) vals (snd kv))) spec = Ok parts /\
    concat parts <> [] /\ xcols = map fst (concat parts) /\
    labels = match names with Some n => names_in_order n | None => map snd (concat parts) end.
Proof.
  intros H. unfold rcreate_design_matrix, rensure_specification_cols in H.
  destruct (rhas_col f alt_col) eqn:Ea; cbn [negb] in H; [|discriminate].
  destruct (forallb _ spec) eqn:Es; cbn [bind] in H; [|discriminate].
  apply bind_ok in H. destruct H as (alts & Hal & H). apply bind_ok in H. destruct H as ([] & Hs & H).
  apply bind_ok in H. destruct H as ([] & Hn & H). apply bind_ok in H. destruct H as (parts & Hp & H).
  exists alts, parts. split; [exact Hal|]. split; [reflexivity|]. split; [reflexivity|]. split; [exact Hs|].
  split; [intros n ->; exact Hn|]. split; [exact Hp|]. destruct (concat parts); [discriminate|]. injection H as <- <-.
  split; [discriminate|]. auto.
Qed.

Lemma cell_nth f v i x : cell f v i = Some x -> exists xs, rnum_col f v = Ok xs /\ nth i xs (XFin 0) = x /\ (i < length xs)%nat.
Proof.
  unfold cell. destruct (rnum_col f v) as [xs|]; [|discriminate]. intros E. exists xs. split; [reflexivity|].
  split; [apply nth_error_nth; exact E|]. apply nth_error_Some. congruence.
Qed.

Lemma design_filled f g spec alt_col names xcols labels : fills f g ->
  rcreate_design_matrix f spec alt_col names = Ok (xcols, labels) ->
  exists cols, create_design_matrix g spec alt_col names = Ok (cols, labels) /\
    Forall2 (fun xc c => length xc = length c /\
      forall i, row_is_finite f spec i -> nth i xc (XFin 0) = XFin (nth i c 0)) xcols cols.
Proof.
  intros Hf H. destruct (rdesign_inv _ _ _ _ _ _ H) as (alts & parts & Hal & Ha & Hsp & Hs & Hn & Hp & Hne & -> & ->).
  assert (Q : forall u sp parts, (forall kv, In kv sp -> In kv spec) ->
    mapM (fun kv => do vals <- rnum_col f (fst kv); Ok (xcolumns_of alts u (fst kv) vals (snd kv))) sp = Ok parts ->
    exists rparts,
    mapM (fun kv => do vals <- num_col g (fst kv); Ok (columns_of alts u (fst kv) vals (snd kv))) sp = Ok rparts /\
    Forall2 (Forall2 (col_rel (row_is_finite f spec))) parts rparts).
  { clear - Hf. intros u. induction sp as [|kv sp IH]; intros parts Sub Hp; cbn [mapM] in Hp |- *.
    - injection Hp as <-. exists []. split; [reflexivity|constructor].
    - apply bind_ok in Hp. destruct Hp as (b & Hb & Hp). apply bind_ok in Hp. destruct Hp as (bs & Hbs & Hp). injection Hp as <-.
      apply bind_ok in Hb. destruct Hb as (xs & Hxs & Hb). injection Hb as <-.
      destruct (fills_num f g _ _ Hf Hxs) as (rs & Ers & V). rewrite Ers. cbn [bind].
      destruct (IH bs) as (rp & Erp & R); [intros kv' Hin; apply Sub; right; exact Hin|exact Hbs|]. rewrite Erp. cbn [bind].
      eexists. split; [reflexivity|]. constructor; [|exact R]. apply columns_rel; [exact V|].
      intros i Hi. destruct (Hi (fst kv)) as (r & Er); [apply in_map, Sub; left; reflexivity|].
      destruct (cell_nth _ _ _ _ Er) as (xs' & E' & N & _). rewrite Hxs in E'. injection E' as <-. exists r. exact N. }
  destruct (Q _ _ _ (fun kv h => h) Hp) as (rparts & Erp & R). apply concat_rel in R.
  exists (map fst (concat rparts)). split.
  - unfold create_design_matrix. rewrite <- (fills_has f g alt_col Hf), Ha. cbn [negb].
    assert (Es : forallb (fun kv => has_col g (fst kv)) spec = true).
    { rewrite <- Hsp. clear - Hf. induction spec as [|kv sp IH]; cbn; [reflexivity|]. rewrite (fills_has f g _ Hf), IH. reflexivity. }
    rewrite Es. cbn [negb]. rewrite (fills_int _ _ _ _ Hf Hal). cbn [bind]. rewrite Hs. cbn [bind].
    assert (En : match names with Some n => check_keys_and_values_of_name_dictionary n spec (length (np_unique alts)) | None => Ok tt end = Ok tt)
      by (destruct names as [n|]; [exact (Hn n eq_refl)|reflexivity]).
    rewrite En. cbn [bind]. rewrite Erp. cbn [bind].
    assert (Lb : map snd (concat parts) = map snd (concat rparts)) by (clear - R; induction R as [|x y l m (E & _) _ IH]; cbn; [reflexivity|rewrite E, IH; reflexivity]).
    destruct (concat rparts) as [|c0 cs] eqn:Ec.
    { inversion R as [E0|]. symmetry in E0. contradiction. }
    rewrite <- Ec in *. destruct names; rewrite ?Lb; reflexivity.
  - clear - R. induction R as [|x y l m (_ & L & V) _ IH]; cbn; constructor; auto.
Qed.

Lemma fills_intercept spec f g : fills f g -> fills (radd_intercept spec f) (add_intercept_to_dataframe spec g).
Proof.
  intros Hf. unfold radd_intercept, add_intercept_to_dataframe. destruct (assoc "intercept"%string spec); [|exact Hf].
  rewrite <- (fills_has f g _ Hf). destruct (rhas_col f "intercept") eqn:E; [exact Hf|].
  pose proof Hf as (Hr & H). split; [exact Hr|]. intros c. cbn [r_cols f_ints f_reals]. specialize (H c).
  assert (A : forall {A} (l r : list (string * A)), assoc c (l ++ r)%list = match assoc c l with Some x => Some x | None => assoc c r end).
  { clear. intros A l r. induction l as [|[k v] l IH]; cbn; [reflexivity|]. destruct (String.eqb c k); auto. }
  rewrite !A. cbn [assoc]. destruct (String.eqb_spec c "intercept") as [->|Hc].
  - unfold rhas_col in E. destruct (assoc "intercept"%string (r_cols f)) as [k|]; [discriminate|]. destruct H as (-> & ->). split; [reflexivity|].
    exists (repeat 1 (f_rows g)). split; [reflexivity|]. rewrite !repeat_length. split; [exact Hr|].
    intros i r Hi. rewrite <- Hr in Hi.
    assert (Hl : (i < f_rows g)%nat) by (rewrite <- (repeat_length (XFin 1) (f_rows g)); apply nth_error_Some; congruence).
    assert (Rep : forall {B} (b : B) n j, (j < n)%nat -> nth_error (repeat b n) j = Some b).
    { clear. intros B b n. induction n as [|n IH]; intros [|j] Hj; cbn; try lia; [reflexivity|apply IH; lia]. }
    rewrite Rep in Hi by exact Hl. injection Hi as <-. apply Rep. exact Hl.
  - destruct (assoc c (r_cols f)) as [[l|l|l|]|].
    + destruct H as (-> & ->). auto.
    + destruct H as (-> & rs & -> & H). eauto.
    + destruct H as (-> & ->). auto.
    + destruct H as (-> & rs & ->). eauto.
    + destruct H as (-> & ->). auto.
Qed.

Lemma rint_intercept spec f c l : rint_col f c = Ok l -> rint_col (radd_intercept spec f) c = Ok l.
Proof.
  intros H. unfold radd_intercept. destruct (assoc _ spec); [|exact H]. destruct (rhas_col f "intercept"); [exact H|].
  unfold rint_col in *. cbn [r_cols].
  assert (A : forall {A} (l r : list (string * A)), assoc c (l ++ r)%list = match assoc c l with Some x => Some x | None => assoc c r end).
  { clear. intros A l' r. induction l' as [|[k v] l' IH]; cbn; [reflexivity|]. destruct (String.eqb c k); auto. }
  rewrite A. destruct (assoc c (r_cols f)); [exact H|discriminate].
Qed.

(** The design matrix with which a model is made has finite numbers only, and is that of
    Frame.v's tables: the one every other theorem about estimation starts from. *)
Theorem C116_design_of_a_model_is_finite f g spec alt_col names xcols labels :
  rwell_formed f -> fills f g ->
  rdesign_of_model f spec alt_col names = Ok (xcols, labels) ->
  exists cols, create_design_matrix (add_intercept_to_dataframe spec g) spec alt_col names = Ok (cols, labels) /\
    xcols = map (map XFin) cols.
Proof.
  intros Hwf Hf H. unfold rdesign_of_model in H. pose proof (fills_intercept spec f g Hf) as Hf'.
  assert (Hwf' : rwell_formed (radd_intercept spec f)).
  { unfold radd_intercept. destruct (assoc _ spec); [|exact Hwf]. destruct (rhas_col f "intercept"); [exact Hwf|].
    intros c k Hk. cbn [r_cols r_rows] in *.
    assert (A : forall {A} (l r : list (string * A)), assoc c (l ++ r)%list = match assoc c l with Some x => Some x | None => assoc c r end).
    { clear. intros A l' r. induction l' as [|[k v] l' IH]; cbn; [reflexivity|]. destruct (String.eqb c k); auto. }
    rewrite A in Hk. destruct (assoc c (r_cols f)) eqn:Ec; [injection Hk as <-; exact (Hwf c _ Ec)|].
    cbn [assoc] in Hk. destruct (String.eqb c "intercept"); [|discriminate]. injection Hk as <-. apply repeat_length. }
  set (f' := radd_intercept spec f) in *. apply bind_ok in H. destruct H as ([] & _ & H).
  apply bind_ok in H. destruct H as ([] & Hv & H).
  destruct (design_filled _ _ _ _ _ _ _ Hf' H) as (cols & Ec & R). exists cols. split; [exact Ec|].
  pose proof (proj1 (C116_accepts_exactly_finite_numbers _ _) Hv) as Fin.
  assert (Row : forall i, (i < r_rows f')%nat -> row_is_finite f' spec i).
  { intros i Hi v Hin. destruct (Fin v Hin) as (c & Ac & Oc). unfold cell, rnum_col. rewrite Ac.
    pose proof (Hwf' v c Ac) as L. destruct c as [l|l|l|]; cbn [xcells only_finite_numbers] in *; try contradiction.
    - rewrite nth_error_map. destruct (nth_error l i) as [z|] eqn:E; [exists (IZR z); reflexivity|]. apply nth_error_None in E. lia.
    - destruct (nth_error l i) as [x|] eqn:E; [|apply nth_error_None in E; lia]. destruct (Oc x) as (r & ->); [eapply nth_error_In; exact E|]. eauto. }
  assert (Len : forall xc, In xc xcols -> (length xc <= r_rows f')%nat).
  { destruct (rdesign_inv _ _ _ _ _ _ H) as (alts & parts & Hal & _ & _ & _ & _ & Hp & _ & -> & _).
    intros xc Hxc. apply in_map_iff in Hxc. destruct Hxc as ([xc' lb] & <- & Hin). cbn [fst]. apply in_concat in Hin. destruct Hin as (part & Hpart & Hin).
    destruct (mapM_back _ _ _ _ Hp Hpart) as (kv & Hkv & E). apply bind_ok in E. destruct E as (xs & Hxs & E). injection E as <-.
    destruct (Fin (fst kv)) as (c & Ac & Oc); [apply in_map; exact Hkv|].
    assert (Lx : length xs = r_rows f').
    { unfold rnum_col in Hxs. rewrite Ac in Hxs. pose proof (Hwf' _ _ Ac) as L.
      destruct c; cbn [xcells only_finite_numbers] in *; try contradiction; injection Hxs as <-; rewrite ?map_length; exact L. }
    assert (Lm : forall m, (length (xmask_times m xs) <= r_rows f')%nat) by (intros m; rewrite xmask_length; lia).
    destruct (snd kv) as [s|l|]; cbn [xcolumns_of] in Hin.
    - destruct (String.eqb s "all_same"); [destruct Hin as [Hin|[]]; injection Hin as <- <-; lia|].
      destruct (String.eqb s "all_diff"); [|destruct Hin]. apply in_map_iff in Hin. destruct Hin as (a & Hin & _). injection Hin as <- <-. apply Lm.
    - apply in_map_iff in Hin. destruct Hin as (gr & Hin & _). destruct gr; injection Hin as <- <-; try apply Lm. cbn. lia.
    - destruct Hin. }
  clear - R Row Len. induction R as [|xc c l m (L & V) _ IH]; cbn; [reflexivity|]. f_equal; [|apply IH; intros xc' Hin; apply Len; right; exact Hin].
  assert (Lx : (length xc <= r_rows f')%nat) by (apply Len; left; reflexivity).
  apply (nth_ext _ _ (XFin 0) (XFin 0)); [rewrite map_length; exact L|]. intros i Hi.
  rewrite V by (apply Row; lia). change (XFin 0) with (XFin 0). rewrite (map_nth XFin). reflexivity.
Qed.

(** Such tables exist: for every table without repeated column names. *)
Definition fill_cell (x : xnum) : R := match x with XFin r => r | _ => 0 end.
Definition filled (f : rframe) : frame :=
  mkFrame (r_rows f)
    (flat_map (fun kc => match snd kc with CInt l => [(fst kc, l)] | _ => [] end) (r_cols f))
    (flat_map (fun kc => match snd kc with
                         | CInt _ => []
                         | CFloat l => [(fst kc, map fill_cell l)]
                         | CBool l => [(fst kc, map (fun b : bool => if b then 1 else 0) l)]
                         | COther => [(fst kc, repeat 0 (r_rows f))]
                         end) (r_cols f)).
Lemma filled_fills f : NoDup (map fst (r_cols f)) -> fills f (filled f).
Proof.
  intros Hn. split; [reflexivity|]. intros c. unfold filled. cbn [f_ints f_reals].
  set (I := fun kc : string * rcol => match snd kc with CInt l => [(fst kc, l)] | _ => [] end).
  set (Q := fun kc : string * rcol => match snd kc with
                         | CInt _ => []
                         | CFloat l => [(fst kc, map fill_cell l)]
                         | CBool l => [(fst kc, map (fun b : bool => if b then 1 else 0) l)]
                         | COther => [(fst kc, repeat 0 (r_rows f))]
                         end).
  assert (No : forall cols, ~ In c (map fst cols) -> assoc c (flat_map I cols) = None /\ assoc c (flat_map Q cols) = None).
  { induction cols as [|[k v] cols IH]; cbn [flat_map map fst]; intros H; [split; reflexivity|].
    destruct IH as (I1 & I2); [intros Hin; apply H; right; exact Hin|].
    assert (Hk : String.eqb c k = false) by (apply String.eqb_neq; intros ->; apply H; left; reflexivity).
    unfold I at 1, Q at 1. destruct v; cbn [snd fst app assoc]; rewrite ?Hk; auto. }
  revert Hn. generalize (r_cols f). induction l as [|[k v] cols IH]; cbn [map fst assoc flat_map]; intros Hn; [split; reflexivity|].
  inversion Hn as [|? ? Hk Hn']; subst. destruct (String.eqb_spec c k) as [->|Hne].
  - destruct (No cols Hk) as (N1 & N2). unfold I in N1. unfold Q in N2. unfold I, Q.
    destruct v as [z|xs|bs|]; cbn [snd fst app assoc]; rewrite ?String.eqb_refl.
    + auto.
    + split; [exact N1|]. exists (map fill_cell xs). split; [reflexivity|]. split; [apply map_length|].
      intros i r Hi. exact (map_nth_error fill_cell i xs Hi).
    + auto.
    + eauto.
  - assert (Hb : String.eqb c k = false) by (apply String.eqb_neq; exact Hne). specialize (IH Hn').
    assert (EI : assoc c (I (k, v) ++ flat_map I cols)%list = assoc c (flat_map I cols)) by (unfold I at 1; destruct v; cbn [snd fst app assoc]; rewrite ?Hb; reflexivity).
    assert (EQ : assoc c (Q (k, v) ++ flat_map Q cols)%list = assoc c (flat_map Q cols)) by (unfold Q at 1; destruct v; cbn [snd fst app assoc]; rewrite ?Hb; reflexivity).
    rewrite EI, EQ. exact IH.
Qed.

(** ** C117: gaps in a table for prediction *)
Lemma xsum_fin n f g : (forall k, (k < n)%nat -> f k = XFin (g k)) -> xsum n f = XFin (sumn n g).
Proof.
  induction n as [|n IH]; intros H; cbn [xsum sumn]; [reflexivity|]. rewrite IH by (intros; apply H; lia). rewrite H by lia. reflexivity.
Qed.
Lemma xadd_nan_r x : xadd x XNaN = XNaN. Proof. destruct x; reflexivity. Qed.
Lemma xsum_nan n f k : (k < n)%nat -> f k = XNaN -> xsum n f = XNaN.
Proof.
  induction n as [|n IH]; intros Hk E; [lia|]. cbn [xsum]. destruct (Nat.eq_dec k n) as [->|Hne]; [rewrite E; apply xadd_nan_r|].
  rewrite IH by (exact E || lia). reflexivity.
Qed.

Section Probs.
  Context (N nobs : nat) (M : mat) (own : nat -> nat).
  Hypothesis HM : indicator_of N nobs M own.

  (** a row of the mapping picks the value of its own observation, when that is finite *)
  Lemma xsparse_pick_fin (v : nat -> xnum) i r : (i < N)%nat -> v (own i) = XFin r -> xsparse nobs (fun o => M i o) v = XFin r.
  Proof.
    intros Hi E. destruct (HM i Hi) as (Ho & Hone). unfold xsparse.
    rewrite (xsum_fin nobs _ (fun o => if (own i =? o)%nat then r else 0)).
    - f_equal. rewrite (sumn_ext nobs _ (fun o => if (o =? own i)%nat then r else 0)); [apply (sumn_single nobs (own i) (fun _ => r)); exact Ho|].
      intros o _. rewrite Nat.eqb_sym. reflexivity.
    - intros o Hlt. rewrite (Hone o Hlt). destruct (Nat.eqb_spec (own i) o) as [<-|Hne].
      + destruct (Req_EM_T 1 0) as [H|_]; [lra|]. rewrite E. cbn. f_equal. ring.
      + destruct (Req_EM_T 0 0) as [_|H]; [reflexivity|lra].
  Qed.
  Lemma xsparse_pick_nan (v : nat -> xnum) i : (i < N)%nat -> v (own i) = XNaN -> xsparse nobs (fun o => M i o) v = XNaN.
  Proof.
    intros Hi E. destruct (HM i Hi) as (Ho & Hone). unfold xsparse. apply (xsum_nan _ _ (own i) Ho).
    rewrite (Hone _ Ho), Nat.eqb_refl. destruct (Req_EM_T 1 0) as [H|_]; [lra|]. rewrite E. reflexivity.
  Qed.
  Lemma xsparse_col_fin (e : nat -> xnum) (er : vec) o : (o < nobs)%nat ->
    (forall i, (i < N)%nat -> own i = o -> e i = XFin (er i)) -> xsparse N (fun i => M i o) e = XFin (osum N own o er).
  Proof.
    intros Ho H. unfold xsparse, osum. apply xsum_fin. intros i Hi. destruct (HM i Hi) as (_ & Hone). rewrite (Hone o Ho).
    destruct (Nat.eqb_spec (own i) o) as [E|Hne].
    - destruct (Req_EM_T 1 0) as [H'|_]; [lra|]. rewrite (H i Hi E). cbn. f_equal. ring.
    - destruct (Req_EM_T 0 0) as [_|H']; [reflexivity|lra].
  Qed.
  Lemma xsparse_col_nan (e : nat -> xnum) i : (i < N)%nat -> e i = XNaN -> xsparse N (fun r => M r (own i)) e = XNaN.
  Proof.
    intros Hi E. destruct (HM i Hi) as (Ho & Hone). unfold xsparse. apply (xsum_nan _ _ i Hi).
    rewrite (Hone _ Ho), Nat.eqb_refl. destruct (Req_EM_T 1 0) as [H|_]; [lra|]. rewrite E. reflexivity.
  Qed.

  Context (K : nat) (beta : arr).

  Lemma xprobs_fin (X : nat -> nat -> xnum) (D : Data) (shape icpt : option arr) i :
    d_N D = N -> d_obs D = nobs -> d_M D = M -> d_K D = K ->
    (i < N)%nat ->
    (forall j k, (j < N)%nat -> own j = own i -> (k < K)%nat -> X j k = XFin (d_X D j k)) ->
    xlong_probs N nobs K X M beta i = XFin (long_probs (model_of KMNL) D shape icpt beta i).
  Proof.
    intros EN Eo EM EK Hi HX. set (er := long_exponentials (model_of KMNL) D shape icpt beta).
    assert (He : forall j, (j < N)%nat -> own j = own i ->
      xclip_exp (xsum K (fun k => xscale (X j k) (aget beta k))) = XFin (er j)).
    { intros j Hj Hoj. rewrite (xsum_fin K _ (fun k => d_X D j k * aget beta k)).
      - cbn [xclip_exp]. unfold er, long_exponentials, sys_utilities, mvec. rewrite EK. reflexivity.
      - intros k Hk. rewrite (HX j k Hj Hoj Hk). reflexivity. }
    assert (HD : indicator_of (d_N D) (d_obs D) (d_M D) own) by (rewrite EN, Eo, EM; exact HM).
    unfold xlong_probs. rewrite (He i Hi eq_refl).
    rewrite (xsparse_pick_fin _ i (osum N own (own i) er) Hi).
    - assert (P : 0 < osum N own (own i) er).
      { apply osum_pos; [|exact Hi]. intros. apply exp_pos. }
      cbn [xdiv]. destruct (Req_EM_T (osum N own (own i) er) 0) as [H|_]; [lra|]. cbn [xguard].
      unfold long_probs. fold er. rewrite (ldenom_eq D own HD) by (rewrite EN; exact Hi). rewrite EN. reflexivity.
    - apply xsparse_col_fin; [apply HM; exact Hi|]. intros j Hj Hoj. apply He; assumption.
  Qed.

  Lemma xprobs_nan (X : nat -> nat -> xnum) i j k :
    (i < N)%nat -> (j < N)%nat -> own j = own i -> (k < K)%nat -> X i k = XNaN ->
    xlong_probs N nobs K X M beta j = XNaN.
  Proof.
    intros Hi Hj Hoj Hk E. unfold xlong_probs.
    assert (Hd : xsparse nobs (fun o => M j o) (fun o => xsparse N (fun r => M r o) (fun r => xclip_exp (xsum K (fun k0 => xscale (X r k0) (aget beta k0))))) = XNaN).
    { apply xsparse_pick_nan; [exact Hj|]. rewrite Hoj. apply xsparse_col_nan; [exact Hi|].
      rewrite (xsum_nan K _ k Hk); [reflexivity|]. rewrite E. reflexivity. }
    rewrite Hd. destruct (xclip_exp _); reflexivity.
  Qed.
End Probs.

(** A conditional logit with coefficients [beta] *)
Definition mnl_object (spec : specification) (alt_col obs_col : string) (names : option name_dict)
    (nm : model_names) (beta : arr) : fitted_model :=
  mkFitted (ClassLogit KMNL) alt_col obs_col None spec names nm beta None None None.

(** All rows of the observation of row [i] have finite values of the variables. *)
Definition observation_is_finite (f : rframe) (spec : specification) (obs : list Z) (i : nat) : Prop :=
  forall j, (j < length obs)%nat -> nth j obs 0%Z = nth i obs 0%Z -> row_is_finite (radd_intercept spec f) spec j.

(** (a) The observations without a gap get the probabilities that they would get from any
    filled table: gaps elsewhere do not matter. *)
Theorem C117_gaps_do_not_spread f g spec alt_col obs_col names nm beta px obs :
  fills f g ->
  rint_col (radd_intercept spec f) obs_col = Ok obs ->
  rpredict_mnl f spec alt_col obs_col names beta = Ok px ->
  exists p, (forall rvs, predict (mnl_object spec alt_col obs_col names nm beta) g None true None None rvs = Ok (LongProbs p)) /\
    forall i, (i < length obs)%nat -> observation_is_finite f spec obs i -> px i = XFin (p i).
Proof.
  intros Hf Hobs H. unfold rpredict_mnl in H. pose proof (fills_intercept spec f g Hf) as Hf'.
  unfold observation_is_finite. set (f' := radd_intercept spec f) in *.
  apply bind_ok in H. destruct H as ([] & Ha & H). apply bind_ok in H. destruct H as ([] & Ho & H).
  apply bind_ok in H. destruct H as ((xcols & labels) & Hd & H). apply bind_ok in H. destruct H as (obs' & Hobs' & H).
  rewrite Hobs in Hobs'. injection Hobs' as <-.
  apply bind_ok in H. destruct H as (alts & Hal & H). apply bind_ok in H. destruct H as (mp & Hmp & H).
  apply bind_ok in H. destruct H as ([] & HK & H). cbn [fst] in *. injection H as <-.
  destruct (design_filled _ _ _ _ _ _ _ Hf' Hd) as (cols & Ec & R).
  assert (LK : length xcols = length cols) by (clear - R; induction R; cbn; congruence).
  set (D := data_of (mkLong obs alts None None) mp (length cols) (design_mat cols) None None).
  exists (long_probs (model_of KMNL) D None None beta). split.
  - intros rvs. unfold predict, mnl_object. cbn [fm_spec fm_alt_col fm_obs_col fm_mix_col fm_class fm_name_spec fm_names].
    unfold ensure_columns_are_in_dataframe. cbn [forallb].
    rewrite <- !(fills_has _ _ _ Hf'). destruct (rhas_col f' alt_col); [|discriminate]. destruct (rhas_col f' obs_col); [|discriminate].
    cbn [andb bind check_param_list_validity option_map check_for_choice_col_based_on_return_long_probs given].
    rewrite Ec. cbn [bind fst]. unfold long_cols_of. rewrite (fills_int _ _ _ _ Hf' Hobs), (fills_int _ _ _ _ Hf' Hal). cbn [bind opt_int_col].
    cbn [class_nests]. rewrite Hmp. cbn [bind prediction_params fm_coefs fm_intercepts fm_shapes fm_nests].
    unfold predict_logit. cbn [pr_coefs pr_intercepts pr_shapes]. fold D.
    assert (EK : (alen beta =? d_K D)%nat = true).
    { change (d_K D) with (length cols). rewrite <- LK. destruct (alen beta =? length xcols)%nat; [reflexivity|discriminate]. }
    rewrite EK. cbn [bind place_intercepts check_shapes]. destruct (mappings_ok _ _ _ Hmp) as (_ & _ & E). cbn [choices] in E.
    rewrite E. reflexivity.
  - intros i Hi Hfin. rewrite LK.
    apply (xprobs_fin (length obs) (s_cols (rows_to_obs mp)) (smat_R (rows_to_obs mp)) (own_of obs)
      (data_obs_indicator _ _ _ (length cols) (design_mat cols) None None Hmp) (length cols) beta (xdesign xcols) D None None i
      eq_refl eq_refl eq_refl eq_refl Hi).
    intros j k Hj Hoj Hk. apply (own_of_eq obs j i Hj Hi) in Hoj. specialize (Hfin j Hj Hoj).
    unfold xdesign. change (d_X D j k) with (nth j (nth k cols []) 0).
    assert (Rk : length (nth k xcols []) = length (nth k cols []) /\
      forall i0, row_is_finite f' spec i0 -> nth i0 (nth k xcols []) (XFin 0) = XFin (nth i0 (nth k cols []) 0)).
    { clear - R Hk. revert k Hk. induction R as [|x y l m P _ IH]; intros k Hk; cbn in Hk; [lia|]. destruct k; [exact P|]. apply IH. lia. }
    apply (proj2 Rk). exact Hfin.
Qed.

Lemma xmask_false_nan x : x = XNaN \/ x = XPInf \/ x = XNInf -> xmask false x = XNaN.
Proof. intros [->|[->| ->]]; reflexivity. Qed.
Lemma xmask_at m xs i : (i < length m)%nat -> (i < length xs)%nat -> nth i (xmask_times m xs) (XFin 0) = xmask (nth i m false) (nth i xs (XFin 0)).
Proof.
  unfold xmask_times. revert m i. induction xs as [|x xs IH]; intros [|b m] i H1 H2; cbn in *; try lia. destruct i; [reflexivity|]. apply IH; lia.
Qed.

(** a column with NaN in row i *)
Lemma column_with_nan alts v xs sv i x :
  check_spec_value (np_unique alts) sv = Ok tt -> (i < length alts)%nat -> (i < length xs)%nat -> nth i xs (XFin 0) = x ->
  (x = XNaN /\ has_columns sv) \/ ((x = XPInf \/ x = XNInf) /\ leaves_out (np_unique alts) sv (nth i alts 0%Z)) ->
  exists xc lb, In (xc, lb) (xcolumns_of alts (np_unique alts) v xs sv) /\ nth i xc (XFin 0) = XNaN.
Proof.
  intros Hc Ha Hx Ex H.
  assert (MN : forall m, (i < length m)%nat -> x = XNaN -> nth i (xmask_times m xs) (XFin 0) = XNaN).
  { intros m Hm ->. rewrite xmask_at by assumption. rewrite Ex. destruct (nth i m false); reflexivity. }
  assert (MI : forall m, (i < length m)%nat -> (x = XPInf \/ x = XNInf) -> nth i m false = false -> nth i (xmask_times m xs) (XFin 0) = XNaN).
  { intros m Hm Hi E. rewrite xmask_at by assumption. rewrite Ex, E. apply xmask_false_nan. right. exact Hi. }
  assert (NM : forall (p : Z -> bool), nth i (map p alts) false = p (nth i alts 0%Z)).
  { intros p. rewrite (nth_indep _ false (p 0%Z)) by (rewrite map_length; exact Ha). apply map_nth. }
  destruct sv as [s|l|]; cbn [xcolumns_of check_spec_value has_columns leaves_out] in *.
  - destruct (String.eqb s "all_same") eqn:E1.
    + destruct H as [(H & _)|(_ & -> & _)]; [|discriminate]. exists xs, (LVar v). split; [left; reflexivity|]. congruence.
    + destruct (String.eqb s "all_diff") eqn:E2; [|discriminate]. destruct H as [(H & _)|(H & _ & b & Hb & Hne)].
      * eexists _, _. split; [apply in_map_iff; exists (nth i alts 0%Z); split; [reflexivity|apply np_unique_In, nth_In; exact Ha]|].
        apply MN; [rewrite map_length; exact Ha|exact H].
      * eexists _, _. split; [apply in_map_iff; exists b; split; [reflexivity|exact Hb]|].
        apply MI; [rewrite map_length; exact Ha|exact H|]. rewrite NM. apply Z.eqb_neq. congruence.
  - apply all_checks_ok in Hc. rewrite Forall_forall in Hc.
    assert (Q : exists g, In g l /\ ((x = XNaN) \/ ((x = XPInf \/ x = XNInf) /\ match g with One b => b <> nth i alts 0%Z | Group items => ~ In (GAlt (nth i alts 0%Z)) items | OneJunk => False end))).
    { destruct H as [(H & Hl)|(H & g & Hg & Hout)]; [|exists g; auto]. destruct l as [|g l]; [destruct Hl|]. exists g. split; [left; reflexivity|auto]. }
    destruct Q as (g & Hg & Q). assert (Hcg : check_group (np_unique alts) g = Ok tt) by (apply Hc, in_map; exact Hg).
    destruct g as [b| |items]; [|discriminate|].
    + eexists _, _. split; [apply in_map_iff; exists (One b); split; [reflexivity|exact Hg]|].
      destruct Q as [Q|(Q & Hne)]; [apply MN; [rewrite map_length; exact Ha|exact Q]|].
      apply MI; [rewrite map_length; exact Ha|exact Q|]. rewrite NM. apply Z.eqb_neq. congruence.
    + eexists _, _. split; [apply in_map_iff; exists (Group items); split; [reflexivity|exact Hg]|].
      destruct Q as [Q|(Q & Hne)]; [apply MN; [rewrite map_length; exact Ha|exact Q]|].
      apply MI; [rewrite map_length; exact Ha|exact Q|]. rewrite NM. destruct (existsb _ items) eqn:E; [|reflexivity].
      exfalso. apply Hne. apply existsb_exists in E. destruct E as (it & Hit & E). destruct it as [a| |]; cbn [item_is] in E; try discriminate.
      apply Z.eqb_eq in E. subst a. exact Hit.
  - discriminate.
Qed.

(** (b) A NaN in any row of an observation, in a variable of the specification, makes all
    of that observation's probabilities NaN, even when the variable does not enter the utility
    of the row's alternative; so does an infinite value in a row for whose alternative the
    variable is to be left out. *)
Theorem C117_gap_spoils_its_observation f spec alt_col obs_col names beta px obs alts v sv x i j :
  rwell_formed f ->
  rint_col f obs_col = Ok obs -> rint_col f alt_col = Ok alts ->
  rpredict_mnl f spec alt_col obs_col names beta = Ok px ->
  In (v, sv) spec -> (i < length obs)%nat -> cell f v i = Some x ->
  (x = XNaN /\ has_columns sv) \/ ((x = XPInf \/ x = XNInf) /\ leaves_out (np_unique alts) sv (nth i alts 0%Z)) ->
  (j < length obs)%nat -> nth j obs 0%Z = nth i obs 0%Z -> px j = XNaN.
Proof.
  intros Hwf Hobs Halts H Hv Hi Hx Hbad Hj Hij.
  assert (Hx' : cell (radd_intercept spec f) v i = Some x).
  { unfold radd_intercept. destruct (assoc _ spec); [|exact Hx]. destruct (rhas_col f "intercept"); [exact Hx|].
    unfold cell, rnum_col in *. cbn [r_cols].
    assert (A : forall {A} (l r : list (string * A)), assoc v (l ++ r)%list = match assoc v l with Some y => Some y | None => assoc v r end).
    { clear. intros A l' r. induction l' as [|[k w] l' IH]; cbn; [reflexivity|]. destruct (String.eqb v k); auto. }
    rewrite A. destruct (assoc v (r_cols f)); [exact Hx|discriminate]. }
  assert (Hla : length alts = length obs).
  { unfold rint_col in Hobs, Halts. destruct (assoc obs_col (r_cols f)) as [[lo| | |]|] eqn:E1; try discriminate. injection Hobs as ->.
    destruct (assoc alt_col (r_cols f)) as [[la| | |]|] eqn:E2; try discriminate. injection Halts as ->.
    rewrite (Hwf _ _ E1), (Hwf _ _ E2). reflexivity. }
  apply (rint_intercept spec) in Hobs. apply (rint_intercept spec) in Halts.
  unfold rpredict_mnl in H. set (f' := radd_intercept spec f) in *.
  apply bind_ok in H. destruct H as ([] & _ & H). apply bind_ok in H. destruct H as ([] & _ & H).
  apply bind_ok in H. destruct H as ((xcols & labels) & Hd & H). apply bind_ok in H. destruct H as (obs' & Hobs' & H).
  rewrite Hobs in Hobs'. injection Hobs' as <-.
  apply bind_ok in H. destruct H as (alts' & Hal & H). rewrite Halts in Hal. injection Hal as <-. apply bind_ok in H. destruct H as (mp & Hmp & H).
  apply bind_ok in H. destruct H as ([] & _ & H). cbn [fst] in *. injection H as <-.
  destruct (rdesign_inv _ _ _ _ _ _ Hd) as (alts' & parts & Hal & _ & _ & Hs & _ & Hp & _ & -> & _).
  rewrite Halts in Hal. injection Hal as <-.
  destruct (mapM_in _ _ _ _ Hp Hv) as (part & Hpart & Hin). cbn [fst snd] in Hpart. apply bind_ok in Hpart. destruct Hpart as (xs & Hxs & Hpart). injection Hpart as <-.
  destruct (cell_nth _ _ _ _ Hx') as (xs' & E' & Nx & Lx). rewrite Hxs in E'. injection E' as <-.
  assert (Hc : check_spec_value (np_unique alts) sv = Ok tt).
  { apply all_checks_ok in Hs. rewrite Forall_forall in Hs. apply Hs. apply in_map_iff. exists (v, sv). auto. }
  destruct (column_with_nan alts v xs sv i x Hc) as (xc & lb & Hcol & Hn); [lia|exact Lx|exact Nx|exact Hbad|].
  assert (Hin' : In xc (map fst (concat parts))).
  { apply in_map_iff. exists (xc, lb). split; [reflexivity|]. apply in_concat. eauto. }
  apply (In_nth _ _ []) in Hin'. destruct Hin' as (k & Hk & Ek).
  apply (xprobs_nan (length obs) (s_cols (rows_to_obs mp)) (smat_R (rows_to_obs mp)) (own_of obs)
      (data_obs_indicator _ _ _ O (design_mat []) None None Hmp) _ beta _ i j k Hi Hj); [apply own_of_eq; assumption|exact Hk|].
  unfold xdesign. rewrite Ek. exact Hn.
Qed.

(** What an infinite utility counts for *)
Definition counts_as (x : xnum) (u : R) : Prop :=
  match x with XFin v => u = v | XPInf => u = max_exponent_val | XNInf => u = min_exponent_val | XNaN => False end.
(** The systematic utility of row [i], with NaN and infinities *)
Definition row_utility (cols : list (list xnum)) (beta : arr) (i : nat) : xnum :=
  xsum (length cols) (fun k => xscale (xdesign cols i k) (aget beta k)).

(** (c) An observation whose utilities are finite or infinite but not NaN gets numbers: an
    infinite utility counts as one of 700 or -700, and the probabilities are the logit
    shares. *)
Theorem C117_infinite_utilities_are_clipped f spec alt_col obs_col names beta px obs xcols labels (U : nat -> R) i :
  rint_col (radd_intercept spec f) obs_col = Ok obs ->
  rpredict_mnl f spec alt_col obs_col names beta = Ok px ->
  rcreate_design_matrix (radd_intercept spec f) spec alt_col names = Ok (xcols, labels) ->
  (i < length obs)%nat ->
  (forall j, (j < length obs)%nat -> nth j obs 0%Z = nth i obs 0%Z -> counts_as (row_utility xcols beta j) (U j)) ->
  let e := fun j => exp (Rmax (-700) (Rmin 700 (U j))) in
  let share := e i / sumn (length obs) (fun j => if (nth j obs 0%Z =? nth i obs 0%Z)%Z then e j else 0) in
  0 < share /\ px i = XFin share.
Proof.
  intros Hobs H Hd0 Hi HU e share. unfold rpredict_mnl in H. set (f' := radd_intercept spec f) in *.
  apply bind_ok in H. destruct H as ([] & _ & H). apply bind_ok in H. destruct H as ([] & _ & H).
  apply bind_ok in H. destruct H as (dm & Hd & H). rewrite Hd0 in Hd. injection Hd as <-.
  apply bind_ok in H. destruct H as (obs' & Hobs' & H). rewrite Hobs in Hobs'. injection Hobs' as <-.
  apply bind_ok in H. destruct H as (alts & Hal & H). apply bind_ok in H. destruct H as (mp & Hmp & H).
  apply bind_ok in H. destruct H as ([] & _ & H). cbn [fst] in *. injection H as <-.
  pose proof (data_obs_indicator _ _ _ O (design_mat []) None None Hmp) as HM. cbn [obs_ids] in HM.
  set (M := smat_R (rows_to_obs mp)) in *. set (nobs := s_cols (rows_to_obs mp)) in *.
  assert (Hown : forall j, (j < length obs)%nat -> (own_of obs j =? own_of obs i)%nat = (nth j obs 0%Z =? nth i obs 0%Z)%Z).
  { intros j Hj. destruct (Z.eqb_spec (nth j obs 0%Z) (nth i obs 0%Z)) as [E|E].
    - apply Nat.eqb_eq. apply own_of_eq; assumption.
    - apply Nat.eqb_neq. intros C. apply E. apply own_of_eq in C; assumption. }
  assert (He : forall j, (j < length obs)%nat -> own_of obs j = own_of obs i -> xclip_exp (row_utility xcols beta j) = XFin (e j)).
  { intros j Hj Hoj. apply own_of_eq in Hoj; [|assumption|assumption]. specialize (HU j Hj Hoj). unfold counts_as in HU. unfold e.
    destruct (row_utility xcols beta j) as [v| | |]; cbn [xclip_exp].
    - rewrite HU. do 2 f_equal. unfold clip_exponent, max_exponent_val, min_exponent_val.
      destruct (Rlt_dec v (-700)); [rewrite Rmin_right, Rmax_left by lra; reflexivity|].
      destruct (Rlt_dec 700 v); [rewrite Rmin_left, Rmax_right by lra; reflexivity|]. rewrite Rmin_right, Rmax_right by lra. reflexivity.
    - destruct HU.
    - rewrite HU. unfold max_exponent_val. rewrite (Rmin_left 700 700) by lra. rewrite Rmax_right by lra. reflexivity.
    - rewrite HU. unfold min_exponent_val. rewrite (Rmin_right 700 (-700)) by lra. rewrite Rmax_left by lra. reflexivity. }
  assert (Hden : osum (length obs) (own_of obs) (own_of obs i) e = sumn (length obs) (fun j => if (nth j obs 0%Z =? nth i obs 0%Z)%Z then e j else 0)).
  { unfold osum. apply sumn_ext. intros j Hj. rewrite Hown by exact Hj. reflexivity. }
  assert (P : 0 < osum (length obs) (own_of obs) (own_of obs i) e).
  { apply osum_pos; [|exact Hi]. intros. apply exp_pos. }
  assert (S0 : 0 < share).
  { unfold share. rewrite <- Hden. apply Rdiv_lt_0_compat; [apply exp_pos|exact P]. }
  split; [exact S0|]. unfold xlong_probs.
  change (xsum (length xcols) (fun k => xscale (xdesign xcols i k) (aget beta k))) with (row_utility xcols beta i).
  rewrite (He i Hi eq_refl).
  rewrite (xsparse_pick_fin _ _ _ _ HM _ i (osum (length obs) (own_of obs) (own_of obs i) e) Hi).
  - cbn [xdiv]. destruct (Req_EM_T _ 0) as [C|_]; [lra|]. cbn [xguard]. unfold guard_zero.
    rewrite Hden. fold share. destruct (Req_EM_T share 0) as [C|_]; [lra|]. reflexivity.
  - apply (xsparse_col_fin _ _ _ _ HM); [apply HM; exact Hi|]. intros j Hj Hoj. apply He; assumption.
Qed.

(** ** Examples *)
Local Open Scope Z_scope.
(** Two people, two alternatives each; the price of person 1's second row is missing. *)
Definition gap_table : rframe :=
  mkRFrame 4 [("person"%string, CInt [1; 1; 2; 2]); ("mode"%string, CInt [1; 2; 1; 2]);
              ("price"%string, CFloat [XFin 3; XNaN; XFin 2; XFin 5])].
Definition gap_spec : specification := [("price"%string, SList [One 1])].
Definition gap_beta : arr := mkArr 1 (fun _ => (-1)%R).

(** An infinite price that enters every utility: the share of the row is that of a utility of
    -700. *)
Definition infinite_table : rframe :=
  mkRFrame 2 [("person"%string, CInt [1; 1]); ("mode"%string, CInt [1; 2]); ("price"%string, CFloat [XFin 0%R; XPInf])].
Example ex_infinite : exists px,
  rpredict_mnl infinite_table [("price"%string, SStr "all_same")] "mode" "person" None gap_beta = Ok px /\
  px 1%nat = XFin (exp (-700) / (exp 0 + exp (-700)))%R.
Proof.
  assert (R : exists px, rpredict_mnl infinite_table [("price"%string, SStr "all_same")] "mode" "person" None gap_beta = Ok px) by (eexists; reflexivity).
  destruct R as (px & R). exists px. split; [exact R|].
  destruct (C117_infinite_utilities_are_clipped infinite_table [("price"%string, SStr "all_same")] "mode" "person" None gap_beta px
    [1; 1] [[XFin 0%R; XPInf]] [LVar "price"] (fun j => if (j =? 0)%nat then 0%R else (-700)%R) 1 eq_refl R eq_refl) as (_ & E).
  - cbn. lia.
  - intros j Hj _. cbn in Hj. destruct j as [|[|j]]; [| |lia]; unfold row_utility, xdesign, gap_beta; cbn.
    + ring.
    + destruct (Rlt_dec 0 (-1)); [lra|]. destruct (Rlt_dec (-1) 0); [|lra]. reflexivity.
  - rewrite E. cbn. rewrite (Rmin_right 700 0), (Rmax_right (-700) 0), (Rmin_right 700 (-700)), (Rmax_left (-700) (-700)) by lra.
    f_equal. f_equal. ring.
Qed.

(** The price enters the utility of alternative 1 only, and is missing for alternative 2 only:
    construction refuses the table. *)
Example ex_gap_refused : rdesign_of_model gap_table gap_spec "mode" None = Err ValueError.
Proof. reflexivity. Qed.
(** Prediction does not: person 1 gets NaN everywhere, person 2 gets numbers. *)
Example ex_gap_runs : exists px, rpredict_mnl gap_table gap_spec "mode" "person" None gap_beta = Ok px /\
  px O = XNaN /\ px 1%nat = XNaN /\ (exists r, px 2%nat = XFin r) /\ (exists r, px 3%nat = XFin r).
Proof.
  assert (R : exists px, rpredict_mnl gap_table gap_spec "mode" "person" None gap_beta = Ok px) by (eexists; reflexivity).
  destruct R as (px & R). exists px. split; [exact R|].
  assert (W : rwell_formed gap_table).
  { intros c k. cbn [gap_table r_cols assoc]. destruct (String.eqb c "person"); [intros E; injection E as <-; reflexivity|].
    destruct (String.eqb c "mode"); [intros E; injection E as <-; reflexivity|]. destruct (String.eqb c "price"); [intros E; injection E as <-; reflexivity|discriminate]. }
  assert (B : forall j, (j < 4)%nat -> nth j [1; 1; 2; 2] 0 = 1 -> px j = XNaN).
  { intros j Hj Ej. apply (C117_gap_spoils_its_observation gap_table gap_spec "mode" "person" None gap_beta px [1;1;2;2] [1;2;1;2] "price" (SList [One 1]) XNaN 1 j);
      [exact W|reflexivity|reflexivity|exact R|left; reflexivity|cbn; lia|reflexivity|left; split; [reflexivity|exact I]|exact Hj|exact Ej]. }
  split; [apply B; [lia|reflexivity]|]. split; [apply B; [lia|reflexivity]|].
  destruct (C117_gaps_do_not_spread gap_table (filled gap_table) gap_spec "mode" "person" None (mkModelNames [] None None None) gap_beta px [1;1;2;2]) as (p & _ & F).
  - apply filled_fills. cbn. repeat constructor; cbn; intuition discriminate.
  - reflexivity.
  - exact R.
  - assert (Fin : forall i, (i < 4)%nat -> nth i [1;1;2;2] 0 = 2 -> observation_is_finite gap_table gap_spec [1;1;2;2] i).
    { intros i Hi Ei j Hj Ej v Hv. rewrite Ei in Ej. cbn in Hv. destruct Hv as [<-|[]]. cbn in Hj.
      destruct j as [|[|[|[|j]]]]; cbn in Ej; try discriminate; try lia; eexists; reflexivity. }
    split; [exists (p 2%nat)|exists (p 3%nat)]; apply F; try (cbn; lia); apply Fin; try lia; reflexivity.
Qed.
(** A table without gaps is accepted. *)
Example ex_no_gap : exists x, rdesign_of_model (mkRFrame 2 [("person"%string, CInt [1; 1]); ("mode"%string, CInt [1; 2]); ("price"%string, CFloat [XFin 3; XFin 4])]) gap_spec "mode" None = Ok x.
Proof. eexists. reflexivity. Qed.
(** Booleans are refused, although they are numbers for the design matrix. *)
Example ex_bool_refused : ensure_valid_nums_in_specification_cols [("flag"%string, SStr "all_same")]
  (mkRFrame 2 [("flag"%string, CBool [true; false])]) = Err ValueError.
Proof. reflexivity. Qed.

Print Assumptions C116_accepts_exactly_finite_numbers.
Print Assumptions C116_rejects_with_value_error.
Print Assumptions C116_design_of_a_model_is_finite.
Print Assumptions C117_gaps_do_not_spread.
Print Assumptions C117_gap_spoils_its_observation.
