(** What estimation leaves on a model object (properties C91-C93). *)
From Coq Require Import String ZArith List Reals Lia Arith Bool.
From Verif Require Import Res Vec Arr ChoiceCalcs ChoiceTools Frame BaseModel Estimation ObjectStore.
Import ListNotations.
Local Open Scope string_scope.

(** ** Specification *)

(** The attributes of an object after a fit whose results are [p] (N rows, n
    observations) and which BaseModel.store_fit_results turns into [out]; [hinv] is the
    inverse of the Hessian. *)
Definition fit_attributes (N n : nat) (rep : report) (p : post_results) (out : fit_output) (hinv : sqmat)
  : list (string * aval) :=
  let names := f_hessian_labels out in
  let i := f_inference out in
  let opt (o : option (series R)) := match o with Some s => VSeries s | None => VNone end in
  [ ("ind_var_names", VNames (f_ind_var_names out));
    ("log_likelihood", VNum (po_final_ll p));
    ("fitted_probs", VArray n (po_cols p) (po_chosen p));
    ("long_fitted_probs", VArray N (po_cols p) (po_long p));
    ("long_residuals", VArray N (po_cols p) (po_residuals p));
    ("ind_chi_squareds", VArray n (po_cols p) (po_chi_squares p));
    ("chi_square", VNum (sumn n (fun i => sumn (po_cols p) (fun c => po_chi_squares p i c))));
    ("estimation_success", VBool (rp_success rep));
    ("estimation_message", VText (rp_message rep));
    ("rho_squared", VNum (po_rho p));
    ("rho_bar_squared", VNum (po_rho_bar p));
    ("null_log_likelihood", VNum (po_null_ll p));
    ("intercepts", opt (f_intercepts out));
    ("shapes", opt (f_shapes out));
    ("nests", opt (f_nests out));
    ("coefs", VSeries (f_coefs out));
    ("gradient", VSeries (f_gradient out));
    ("hessian", VMatrix names (po_hessian p));
    ("cov", VMatrix names (f_cov out));
    ("params", VSeries (f_params out));
    ("standard_errors", VCells (i_standard_errors i));
    ("tvalues", VCells (i_tvalues i));
    ("pvalues", VCells (i_pvalues i));
    ("fisher_information", VMatrix names (po_fisher p));
    ("robust_cov", VMatrix names (mkSq (sqn (po_hessian p))
       (calc_asymptotic_covariance (sqn (po_hessian p)) (sqe hinv) (sqe (po_fisher p)))));
    ("robust_std_errs", VCells (i_robust_std_errs i));
    ("robust_t_stats", VCells (i_robust_t_stats i));
    ("robust_p_vals", VCells (i_robust_p_vals i));
    ("summary", VTable names
       [("parameters", map (fun kv => Fin (snd kv)) (f_params out));
        ("std_err", map snd (i_standard_errors i));
        ("t_stats", map snd (i_tvalues i));
        ("p_values", map snd (i_pvalues i));
        ("robust_std_err", map snd (i_robust_std_errs i));
        ("robust_t_stats", map snd (i_robust_t_stats i));
        ("robust_p_values", map snd (i_robust_p_vals i))]);
    ("nobs", VCount n);
    ("df_model", VCount (length names));
    ("df_resid", VInt (Z.of_nat n - Z.of_nat (length names)));
    ("llf", VNum (po_final_ll p));
    ("bse", VCells (i_standard_errors i));
    ("aic", VNum (f_aic out));
    ("bic", VNum (f_bic out));
    ("fit_summary", VSummary
       [("Number of Parameters", SCount (length names));
        ("Number of Observations", SCount n);
        ("Null Log-Likelihood", SNum (po_null_ll p));
        ("Fitted Log-Likelihood", SNum (po_final_ll p));
        ("Rho-Squared", SNum (po_rho p));
        ("Rho-Bar-Squared", SNum (po_rho_bar p));
        ("Estimation Message", SText (rp_message rep))]) ].

(** What an attribute holds after the assignments [l] have been made to [o]; a mixed
    logit's design_3d is kept, other models get None. *)
Definition updated (l : list (string * aval)) (o : attrs) (a : string) : option aval :=
  match assoc a l with
  | Some v => Some v
  | None => if String.eqb a "design_3d" then match o a with None => Some VNone | Some v => Some v end else o a
  end.

(** All the parameters of a fit, in the order of [params]: nests, shapes, intercepts and
    index coefficients. *)
Definition all_params (p : post_results) : list R :=
  let opt (o : option arr) := match o with Some a => alist a | None => [] end in
  let b := po_blocks p in
  (opt (bl_nests b) ++ opt (bl_shapes b) ++ opt (bl_intercepts b) ++ alist (bl_coefs b))%list.

(** [params], [cov] and [standard_errors] belong together: they have not been set, or they
    are the parameters, the negative inverse Hessian and the square roots of its diagonal
    (NaN for constrained positions) of one and the same fit among those of [past] (inverse routine
    and results). *)
Definition inference_in_step (past : numerics -> post_results -> Prop) (o : attrs) : Prop :=
  (o "params" = None /\ o "cov" = None /\ o "standard_errors" = None) \/
  exists nm p hinv names ses,
    past nm p /\ n_inv nm (po_hessian p) = Ok hinv /\
    length names = length (all_params p) /\ length names = sqn hinv /\
    o "params" = Some (VSeries (combine names (all_params p))) /\
    o "cov" = Some (VMatrix names (mkSq (sqn hinv) (fun i j => (-1 * sqe hinv i j)%R))) /\
    o "standard_errors" = Some (VCells ses) /\ map fst ses = names /\
    forall k, (k < length names)%nat ->
      nth k (map snd ses) NaN = fsqrt (-1 * sqe hinv k k)%R \/ nth k (map snd ses) NaN = NaN.

(** The attributes that are set before the Hessian is inverted. *)
Definition set_before_inversion : list string :=
  ["ind_var_names"; "log_likelihood"; "fitted_probs"; "long_fitted_probs"; "long_residuals"; "ind_chi_squareds";
   "chi_square"; "estimation_success"; "estimation_message"; "rho_squared"; "rho_bar_squared"; "null_log_likelihood";
   "intercepts"; "shapes"; "nests"; "coefs"; "gradient"; "hessian"].
Definition only (names : list string) (l : list (string * aval)) : list (string * aval) :=
  filter (fun kv => existsb (String.eqb (fst kv)) names) l.

(** ** Proof *)
Lemma compute_ok {A} (r : Res A) k o o' :
  compute r k o = (o', Ok tt) -> exists a, r = Ok a /\ k a o = (o', Ok tt).
Proof. unfold compute. destruct r; intros H; [eauto|discriminate]. Qed.
Lemma compute_run {A} (r : Res A) a k o : r = Ok a -> compute r k o = k a o.
Proof. intros ->. reflexivity. Qed.

(** One block of optional parameters agrees with BaseModel.store_block. *)
Lemma put_block_run attr params names prefix acc k o :
  put_block attr params names prefix acc k o =
  match store_block params names prefix acc with
  | Err e => (o, Err e)
  | Ok b => k (fst b) (setattr attr (match snd b with Some s => VSeries s | None => VNone end) o)
  end.
Proof.
  unfold put_block, store_block. destruct params as [p|].
  - unfold compute. destruct (store_optional_parameters p names prefix acc) as [r|e]; [|reflexivity].
    cbn [bind fst snd]. rewrite <- surjective_pairing. reflexivity.
  - cbn [fst snd]. rewrite <- surjective_pairing. reflexivity.
Qed.

Lemma blank_run attr names c : forall s k o,
  o attr = Some (VCells s) ->
  match blank_constrained names c s with
  | Ok s' => exists o'', (forall a, o'' a = if String.eqb a attr then Some (VCells s') else o a) /\
               blank_in_place attr names c s k o = k s' o''
  | Err e => exists o'' s'', (forall a, o'' a = if String.eqb a attr then Some (VCells s'') else o a) /\
               (exists c', s'' = fold_left (fun t j => loc_set (nth j names EmptyString) NaN t) c' s) /\
               blank_in_place attr names c s k o = (o'', Err e)
  end.
Proof.
  induction c as [|z r IH]; intros s k o Ho; cbn [blank_constrained blank_in_place].
  - exists o. split; [|reflexivity]. intros a. destruct (String.eqb_spec a attr); [subst; exact Ho|reflexivity].
  - destruct (py_pos (length names) z) as [j|] eqn:Ej.
    + set (s1 := loc_set (nth j names "") NaN s). unfold put.
      assert (Ho1 : setattr attr (VCells s1) o attr = Some (VCells s1)) by (unfold setattr; rewrite String.eqb_refl; reflexivity).
      specialize (IH s1 k (setattr attr (VCells s1) o) Ho1).
      destruct (blank_constrained names r s1) as [s'|e].
      * destruct IH as (o'' & Hp & Hr). exists o''. split; [|exact Hr]. intros a. rewrite Hp. unfold setattr.
        destruct (String.eqb a attr); reflexivity.
      * destruct IH as (o'' & s'' & Hp & (c' & Hc) & Hr). exists o'', s''. split; [|split; [|exact Hr]].
        { intros a. rewrite Hp. unfold setattr. destruct (String.eqb a attr); reflexivity. }
        exists (j :: c'). exact Hc.
    + exists o, s. split; [|split; [exists []; reflexivity|reflexivity]].
      intros a. destruct (String.eqb_spec a attr); [subst; exact Ho|reflexivity].
Qed.

Lemma mk_series_ok {A} names (l : list A) s : mk_series names l = Ok s -> s = combine names l /\ length names = length l.
Proof. unfold mk_series. destruct (Nat.eqb_spec (length names) (length l)); [intros E; injection E as <-; auto|discriminate]. Qed.
Lemma mk_square_ok names m s : mk_square names m = Ok s -> s = m /\ length names = sqn m.
Proof. unfold mk_square. destruct (Nat.eqb_spec (length names) (sqn m)); [intros E; injection E as <-; auto|discriminate]. Qed.
Lemma map_fst_combine {A B} (a : list A) (b : list B) : length a = length b -> map fst (combine a b) = a.
Proof. revert b. induction a; intros [|y b] H; cbn in *; try discriminate; [reflexivity|]. rewrite IHa by lia. reflexivity. Qed.

Ltac failed ER :=
  injection ER as <- <-; cbn [bind fst snd];
  repeat match goal with
         | |- context [bind ?r _] => destruct r; cbn [bind fst snd]
         end;
  eauto.

Lemma blank_constrained_fold names c : forall s s', blank_constrained names c s = Ok s' ->
  exists c', s' = fold_left (fun t j => loc_set (nth j names EmptyString) NaN t) c' s.
Proof.
  induction c as [|z r IH]; cbn [blank_constrained]; intros s s' H.
  - injection H as <-. exists []. reflexivity.
  - destruct (py_pos (length names) z) as [j|]; [|discriminate]. destruct (IH _ _ H) as (c' & ->).
    exists (j :: c'). reflexivity.
Qed.
Ltac unnamed a Ha :=
  repeat match goal with
         | |- context [String.eqb a ?x] =>
             destruct (String.eqb_spec a x) as [->|]; [exfalso; apply Ha; cbn; tauto|]
         end.

Lemma blank_all_run names c i k o :
  o "standard_errors" = Some (VCells (i_standard_errors i)) -> o "tvalues" = Some (VCells (i_tvalues i)) ->
  o "pvalues" = Some (VCells (i_pvalues i)) -> o "robust_std_errs" = Some (VCells (i_robust_std_errs i)) ->
  o "robust_t_stats" = Some (VCells (i_robust_t_stats i)) -> o "robust_p_vals" = Some (VCells (i_robust_p_vals i)) ->
  match adjust_inferential_results names c i with
  | Ok i' => exists o'', (forall a, o'' a =
        match assoc a [("standard_errors", i_standard_errors i'); ("tvalues", i_tvalues i'); ("pvalues", i_pvalues i');
                       ("robust_std_errs", i_robust_std_errs i'); ("robust_t_stats", i_robust_t_stats i');
                       ("robust_p_vals", i_robust_p_vals i')] with
        | Some s => Some (VCells s) | None => o a end) /\
        blank_all names c i k o = k i' o''
  | Err e => exists o'' blanked, blank_all names c i k o = (o'', Err e) /\
      o'' "standard_errors" = Some (VCells (fold_left (fun t j => loc_set (nth j names EmptyString) NaN t) blanked (i_standard_errors i))) /\
      forall a, ~ In a ["standard_errors"; "tvalues"; "pvalues"; "robust_std_errs"; "robust_t_stats"; "robust_p_vals"] -> o'' a = o a
  end.
Proof.
  intros H1 H2 H3 H4 H5 H6. unfold adjust_inferential_results, blank_all. destruct c as [c|].
  2:{ exists o. split; [|reflexivity]. intros a. cbn [assoc].
      destruct (String.eqb_spec a "standard_errors"); [subst; auto|]. destruct (String.eqb_spec a "tvalues"); [subst; auto|].
      destruct (String.eqb_spec a "pvalues"); [subst; auto|]. destruct (String.eqb_spec a "robust_std_errs"); [subst; auto|].
      destruct (String.eqb_spec a "robust_t_stats"); [subst; auto|]. destruct (String.eqb_spec a "robust_p_vals"); [subst; auto|].
      reflexivity. }
  match goal with |- context [blank_in_place "standard_errors" names c _ ?k0 o] =>
    pose proof (blank_run "standard_errors" names c _ k0 o H1) as B1 end.
  destruct (blank_constrained names c (i_standard_errors i)) as [a1|e1] eqn:B0; cbn [bind];
    [destruct B1 as (o1 & P1 & ->)|destruct B1 as (o1 & s'' & P1 & (c' & ->) & ->); exists o1, c'; split; [reflexivity|]; split;
      [rewrite P1; reflexivity|intros a Ha; rewrite P1; unnamed a Ha; reflexivity]].
  destruct (blank_constrained_fold _ _ _ _ B0) as (c1 & Ec1).
  match goal with |- context [blank_in_place "tvalues" names c _ ?k0 o1] =>
    pose proof (blank_run "tvalues" names c (i_tvalues i) k0 o1 ltac:(rewrite P1; exact H2)) as B2 end.
  destruct (blank_constrained names c (i_tvalues i)) as [a2|e2]; cbn [bind];
    [destruct B2 as (o2 & P2 & ->)|destruct B2 as (o2 & s'' & P2 & _ & ->); exists o2, c1; split; [reflexivity|]; split;
      [rewrite P2, P1; rewrite <- Ec1; reflexivity|intros a Ha; rewrite P2, P1; unnamed a Ha; reflexivity]].
  match goal with |- context [blank_in_place "pvalues" names c _ ?k0 o2] =>
    pose proof (blank_run "pvalues" names c (i_pvalues i) k0 o2 ltac:(rewrite P2; cbn; rewrite P1; exact H3)) as B3 end.
  destruct (blank_constrained names c (i_pvalues i)) as [a3|e3]; cbn [bind];
    [destruct B3 as (o3 & P3 & ->)|destruct B3 as (o3 & s'' & P3 & _ & ->); exists o3, c1; split; [reflexivity|]; split;
      [rewrite P3, P2, P1; rewrite <- Ec1; reflexivity|intros a Ha; rewrite P3, P2, P1; unnamed a Ha; reflexivity]].
  match goal with |- context [blank_in_place "robust_std_errs" names c _ ?k0 o3] =>
    pose proof (blank_run "robust_std_errs" names c (i_robust_std_errs i) k0 o3
      ltac:(rewrite P3; cbn; rewrite P2; cbn; rewrite P1; exact H4)) as B4 end.
  destruct (blank_constrained names c (i_robust_std_errs i)) as [a4|e4]; cbn [bind];
    [destruct B4 as (o4 & P4 & ->)|destruct B4 as (o4 & s'' & P4 & _ & ->); exists o4, c1; split; [reflexivity|]; split;
      [rewrite P4, P3, P2, P1; rewrite <- Ec1; reflexivity|intros a Ha; rewrite P4, P3, P2, P1; unnamed a Ha; reflexivity]].
  match goal with |- context [blank_in_place "robust_t_stats" names c _ ?k0 o4] =>
    pose proof (blank_run "robust_t_stats" names c (i_robust_t_stats i) k0 o4
      ltac:(rewrite P4; cbn; rewrite P3; cbn; rewrite P2; cbn; rewrite P1; exact H5)) as B5 end.
  destruct (blank_constrained names c (i_robust_t_stats i)) as [a5|e5]; cbn [bind];
    [destruct B5 as (o5 & P5 & ->)|destruct B5 as (o5 & s'' & P5 & _ & ->); exists o5, c1; split; [reflexivity|]; split;
      [rewrite P5, P4, P3, P2, P1; rewrite <- Ec1; reflexivity|intros a Ha; rewrite P5, P4, P3, P2, P1; unnamed a Ha; reflexivity]].
  match goal with |- context [blank_in_place "robust_p_vals" names c _ ?k0 o5] =>
    pose proof (blank_run "robust_p_vals" names c (i_robust_p_vals i) k0 o5
      ltac:(rewrite P5; cbn; rewrite P4; cbn; rewrite P3; cbn; rewrite P2; cbn; rewrite P1; exact H6)) as B6 end.
  destruct (blank_constrained names c (i_robust_p_vals i)) as [a6|e6]; cbn [bind];
    [destruct B6 as (o6 & P6 & ->)|destruct B6 as (o6 & s'' & P6 & _ & ->); exists o6, c1; split; [reflexivity|]; split;
      [rewrite P6, P5, P4, P3, P2, P1; rewrite <- Ec1; reflexivity|intros a Ha; rewrite P6, P5, P4, P3, P2, P1; unnamed a Ha; reflexivity]].
  exists o6. split; [|reflexivity]. intros a. cbn [assoc i_standard_errors i_tvalues i_pvalues i_robust_std_errs i_robust_t_stats i_robust_p_vals].
  rewrite P6, P5, P4, P3, P2, P1.
  destruct (String.eqb_spec a "standard_errors"); [subst; reflexivity|]. destruct (String.eqb_spec a "tvalues"); [subst; reflexivity|].
  destruct (String.eqb_spec a "pvalues"); [subst; reflexivity|]. destruct (String.eqb_spec a "robust_std_errs"); [subst; reflexivity|].
  destruct (String.eqb_spec a "robust_t_stats"); [subst; reflexivity|]. destruct (String.eqb_spec a "robust_p_vals"); reflexivity.
Qed.

(** The object on which store_fit has made its first assignments. *)
Definition after_basic (N n : nat) (rep : report) (p : post_results) (o : attrs) : attrs :=
  let o := setattr "log_likelihood" (VNum (po_final_ll p)) o in
  let o := setattr "fitted_probs" (VArray n (po_cols p) (po_chosen p)) o in
  let o := setattr "long_fitted_probs" (VArray N (po_cols p) (po_long p)) o in
  let o := setattr "long_residuals" (VArray N (po_cols p) (po_residuals p)) o in
  let o := setattr "ind_chi_squareds" (VArray n (po_cols p) (po_chi_squares p)) o in
  let o := setattr "chi_square" (VNum (sumn n (fun i => sumn (po_cols p) (fun c => po_chi_squares p i c)))) o in
  let o := setattr "estimation_success" (VBool (rp_success rep)) o in
  let o := setattr "estimation_message" (VText (rp_message rep)) o in
  let o := setattr "rho_squared" (VNum (po_rho p)) o in
  let o := setattr "rho_bar_squared" (VNum (po_rho_bar p)) o in
  let o := setattr "null_log_likelihood" (VNum (po_null_ll p)) o in
  match o "design_3d" with None => setattr "design_3d" VNone o | Some _ => o end.

Lemma after_basic_at N n rep p o a :
  after_basic N n rep p o a =
  updated [("log_likelihood", VNum (po_final_ll p));
           ("fitted_probs", VArray n (po_cols p) (po_chosen p));
           ("long_fitted_probs", VArray N (po_cols p) (po_long p));
           ("long_residuals", VArray N (po_cols p) (po_residuals p));
           ("ind_chi_squareds", VArray n (po_cols p) (po_chi_squares p));
           ("chi_square", VNum (sumn n (fun i => sumn (po_cols p) (fun c => po_chi_squares p i c))));
           ("estimation_success", VBool (rp_success rep));
           ("estimation_message", VText (rp_message rep));
           ("rho_squared", VNum (po_rho p));
           ("rho_bar_squared", VNum (po_rho_bar p));
           ("null_log_likelihood", VNum (po_null_ll p))] o a.
Proof.
  unfold after_basic, updated. cbn [assoc].
  assert (E : forall o1 : attrs, (match o1 "design_3d" with None => setattr "design_3d" VNone o1 | Some _ => o1 end) a =
              if String.eqb a "design_3d" then match o1 a with None => Some VNone | Some v => Some v end else o1 a).
  { intros o1. destruct (String.eqb_spec a "design_3d") as [->|Hn].
    - destruct (o1 "design_3d") eqn:Ed; [exact Ed|reflexivity].
    - destruct (o1 "design_3d"); [reflexivity|]. unfold setattr. apply String.eqb_neq in Hn. rewrite Hn. reflexivity. }
  rewrite E. clear E. unfold setattr.
  repeat match goal with
         | |- context [String.eqb a ?x] =>
             tryif constr_eq x "design_3d" then fail else
             (destruct (String.eqb_spec a x) as [->|]; [reflexivity|])
         end.
  destruct (String.eqb_spec a "design_3d"); reflexivity.
Qed.

Lemma store_fit_run nm m mixing N n rep p o l :
  o "ind_var_names" = Some (VNames l) ->
  store_fit nm m mixing N n rep p o =
  let index_names := add_mixing_variable_names l mixing in
  let r := results_of n p in
  put_block "intercepts" (r_intercept_params r) (mn_intercepts m) "Outside_ASC_" (index_names, r_utility_coefs r) (fun b1 =>
  put_block "shapes" (r_shape_params r) (mn_shapes m) "Shape_" b1 (fun b2 =>
  put_block "nests" (r_nest_params r) (mn_nests m) "Nest_Param_" b2 (fun b3 =>
  put_inference nm index_names (fst b3) (snd b3) r (fun inf =>
  blank_all (fst b3) (r_constrained_pos r) inf (fun inf' =>
  put "summary" (summary_table (combine (fst b3) (snd b3)) inf')
  (record_fit_values n (length (combine (fst b3) (snd b3))) (po_final_ll p) (i_standard_errors inf')
  (put "fit_summary" (fit_summary_of n (length (combine (fst b3) (snd b3))) rep p) done)))))))
  (setattr "ind_var_names" (VNames index_names) (after_basic N n rep p o)).
Proof.
  intros H.
  assert (E : after_basic N n rep p o "ind_var_names" = Some (VNames l)) by (rewrite after_basic_at; exact H).
  unfold store_fit, store_basic, put at 1 2 3 4 5 6 7 8 9 10 11, default_design_3d, extend_names.
  unfold after_basic in E |- *. cbv zeta in E |- *.
  match type of E with (match ?x with _ => _ end) _ = _ => destruct x end; rewrite E; reflexivity.
Qed.

(** store_fit and BaseModel.store_fit_results are the same function. *)
Lemma store_fit_agrees nm m mixing N n rep p o o' res l :
  o "ind_var_names" = Some (VNames l) ->
  add_mixing_variable_names l mixing = add_mixing_variable_names (mn_index m) mixing ->
  store_fit nm m mixing N n rep p o = (o', res) ->
  match store_fit_results nm m mixing (results_of n p) with
  | Ok out => res = Ok tt /\ exists hinv, n_inv nm (po_hessian p) = Ok hinv /\
      forall a, o' a = updated (fit_attributes N n rep p out hinv) o a
  | Err _ => exists e, res = Err e
  end.
Proof.
  intros Hn Hl ER. rewrite (store_fit_run nm m mixing N n rep p o _ Hn), Hl in ER. cbv zeta in ER.
  unfold store_fit_results. cbv zeta.
  set (r := results_of n p) in *. set (idx := add_mixing_variable_names (mn_index m) mixing) in *.
  set (o1 := setattr "ind_var_names" (VNames idx) (after_basic N n rep p o)) in *.
  rewrite put_block_run in ER.
  destruct (store_block (r_intercept_params r) (mn_intercepts m) "Outside_ASC_" (idx, r_utility_coefs r)) as [[nb1 s1]|e]; cbn [bind fst snd] in ER |- *; [|failed ER].
  rewrite put_block_run in ER.
  destruct (store_block (r_shape_params r) (mn_shapes m) "Shape_" nb1) as [[nb2 s2]|e]; cbn [bind fst snd] in ER |- *; [|failed ER].
  rewrite put_block_run in ER.
  destruct (store_block (r_nest_params r) (mn_nests m) "Nest_Param_" nb2) as [[[names params] s3]|e]; cbn [bind fst snd] in ER |- *; [|failed ER].
  unfold put_inference in ER. unfold generic_inference.
  unfold compute at 1 in ER. destruct (mk_series idx (r_utility_coefs r)) as [coefs|e] eqn:Ec; cbn [bind]; [|failed ER].
  unfold put at 1, compute at 1 in ER. destruct (mk_series names (r_gradient r)) as [g|e] eqn:Eg; cbn [bind]; [|failed ER].
  unfold put at 1, compute at 1 in ER. destruct (mk_square names (r_hessian r)) as [h|e] eqn:Eh; cbn [bind]; [|failed ER].
  unfold put at 1, compute at 1 in ER. destruct (n_inv nm h) as [hinv|e] eqn:Ei; cbn [bind]; [|failed ER].
  unfold compute at 1 in ER. destruct (mk_square names (neg_sq hinv)) as [cov|e] eqn:Ecov; cbn [bind]; [|failed ER].
  unfold put at 1, compute at 1 in ER. destruct (mk_series names params) as [pr|e] eqn:Ep; cbn [bind]; [|failed ER].
  unfold put at 1, compute at 1 in ER. destruct (mk_series names (map fsqrt (diag_list cov))) as [ses|e] eqn:Es; cbn [bind]; [|failed ER].
  unfold put at 1 2, compute at 1 in ER. fold (ratio params ses).
  destruct (mk_series names (map (fun kv => p_value nm (snd kv)) (ratio params ses))) as [pv|e] eqn:Epv; cbn [bind]; [|failed ER].
  unfold put at 1, compute at 1 in ER. destruct (mk_square names (r_fisher r)) as [fi|e] eqn:Ef; cbn [bind]; [|failed ER].
  unfold put at 1, compute at 1 in ER.
  destruct (mk_square names (mkSq (sqn h) (calc_asymptotic_covariance (sqn h) (sqe hinv) (sqe fi)))) as [rcov|e] eqn:Er; cbn [bind]; [|failed ER].
  unfold put at 1, compute at 1 in ER. destruct (mk_series names (map fsqrt (diag_list rcov))) as [rses|e] eqn:Ers; cbn [bind]; [|failed ER].
  unfold put at 1 2, compute at 1 in ER. fold (ratio params rses).
  destruct (mk_series names (map (fun kv => p_value nm (snd kv)) (ratio params rses))) as [rp|e] eqn:Erp; cbn [bind fst snd]; [|failed ER].
  unfold put at 1 in ER.
  apply mk_series_ok in Ep. destruct Ep as (-> & Lp). rewrite map_fst_combine by exact Lp.
  match type of ER with blank_all names ?c ?i ?k ?o2 = _ =>
    pose proof (blank_all_run names c i k o2 eq_refl eq_refl eq_refl eq_refl eq_refl eq_refl) as B end.
  destruct (adjust_inferential_results names (r_constrained_pos r)
    (mkInference ses (ratio params ses) pv rses (ratio params rses) rp)) as [i'|e] eqn:Ea; cbn [bind].
  2:{ destruct B as (o'' & blanked & B & _). rewrite B in ER. failed ER. }
  destruct B as (o'' & Po & B). rewrite B in ER. unfold record_fit_values, put, done in ER. injection ER as <- <-.
  split; [reflexivity|]. exists hinv.
  apply mk_square_ok in Eh. destruct Eh as (-> & Lh). split; [exact Ei|].
  intros a. unfold updated, fit_attributes. cbv zeta.
  cbn [f_hessian_labels f_inference f_ind_var_names f_intercepts f_shapes f_nests f_coefs f_gradient f_cov f_params f_aic f_bic f_hessian].
  apply mk_square_ok in Ecov. destruct Ecov as (-> & _). apply mk_square_ok in Ef. destruct Ef as (-> & _).
  apply mk_square_ok in Er. destruct Er as (-> & _).
  assert (Ln : length (combine names params) = length names) by (rewrite combine_length; lia).
  assert (Lc : length (r_chosen_probs r) = n) by (unfold r, results_of; cbn [r_chosen_probs]; rewrite map_length, seq_length; reflexivity).
  rewrite Lc, Ln. unfold summary_table, fit_summary_of. rewrite (map_fst_combine names params Lp).
  unfold setattr at 1 2 3 4 5 6 7 8 9. rewrite Po. unfold setattr at 1 2 3 4 5 6 7 8 9 10 11 12 13 14 15 16. unfold o1, setattr. rewrite after_basic_at.
  unfold updated. cbn [assoc].
  repeat match goal with
         | |- context [String.eqb a ?x] =>
             tryif constr_eq x "design_3d" then fail else
             (destruct (String.eqb_spec a x) as [->|]; [reflexivity|])
         end.
  destruct (String.eqb_spec a "design_3d"); reflexivity.
Qed.

Lemma fold_loc_keys {A} (names : list string) (v : A) c : forall s, map fst (fold_left (fun t j => loc_set (nth j names EmptyString) v t) c s) = map fst s.
Proof.
  induction c as [|j c IH]; intros s; cbn [fold_left]; [reflexivity|]. rewrite IH. unfold loc_set. rewrite map_map.
  apply map_ext. intros [k w]. cbn. destruct (String.eqb _ _); reflexivity.
Qed.
Lemma loc_set_cell name (s : series fcell) k :
  nth k (map snd (loc_set name NaN s)) NaN = nth k (map snd s) NaN \/ nth k (map snd (loc_set name NaN s)) NaN = NaN.
Proof.
  revert k. induction s as [|[a w] s IH]; intros [|k]; cbn; auto.
  destruct (String.eqb name a); cbn; auto.
Qed.
Lemma fold_loc_cell (names : list string) c k : forall s : series fcell,
  nth k (map snd (fold_left (fun t j => loc_set (nth j names EmptyString) NaN t) c s)) NaN = nth k (map snd s) NaN \/
  nth k (map snd (fold_left (fun t j => loc_set (nth j names EmptyString) NaN t) c s)) NaN = NaN.
Proof.
  induction c as [|j c IH]; intros s; cbn [fold_left]; [auto|].
  destruct (IH (loc_set (nth j names "") NaN s)) as [E|E]; rewrite E; [|auto]. apply loc_set_cell.
Qed.
Lemma map_snd_combine {A B} (a : list A) (b : list B) : length a = length b -> map snd (combine a b) = b.
Proof. revert b. induction a; intros [|y b] H; cbn in *; try discriminate; [reflexivity|]. rewrite IHa by lia. reflexivity. Qed.

Lemma store_block_params (o : option (list R)) names prefix acc b :
  store_block o names prefix acc = Ok b ->
  snd (fst b) = (match o with Some l => l | None => [] end ++ snd acc)%list /\
  (length (fst acc) = length (snd acc) -> length (fst (fst b)) = length (snd (fst b))).
Proof.
  unfold store_block, store_optional_parameters. destruct o as [l|].
  - unfold mk_series. match goal with |- context [mk_series ?a l] => idtac | |- context [(?a =? ?b)%nat] => destruct (Nat.eqb_spec a b) as [E|]; cbn [bind]; [|discriminate] end.
    intros H. injection H as <-. cbn [fst snd]. split; [reflexivity|]. rewrite !app_length. lia.
  - intros H. injection H as <-. auto.
Qed.

(** One call of store_fit_results, successful or not, leaves params, cov and
    standard_errors as they were or sets all three. *)
Lemma store_fit_in_step past nm m mixing N n rep p o o' res :
  inference_in_step past o ->
  store_fit nm m mixing N n rep p o = (o', res) ->
  inference_in_step (fun nm' p' => past nm' p' \/ (nm' = nm /\ p' = p)) o'.
Proof.
  intros Hs ER.
  assert (Keep : o' "params" = o "params" -> o' "cov" = o "cov" -> o' "standard_errors" = o "standard_errors" ->
                 inference_in_step (fun nm' p' => past nm' p' \/ (nm' = nm /\ p' = p)) o').
  { intros E1 E2 E3. unfold inference_in_step. rewrite E1, E2, E3.
    destruct Hs as [Hs|(nm0 & p0 & h0 & n0 & s0 & Hin & Hs)]; [left; exact Hs|right].
    exists nm0, p0, h0, n0, s0. split; [left; exact Hin|exact Hs]. }
  destruct (o "ind_var_names") as [v|] eqn:Hn.
  2:{ unfold store_fit, store_basic, put at 1 2 3 4 5 6 7 8 9 10 11, default_design_3d, extend_names in ER.
      assert (E : after_basic N n rep p o "ind_var_names" = None) by (rewrite after_basic_at; exact Hn).
      unfold after_basic in E. cbv zeta in E.
      assert (Eo : o' = after_basic N n rep p o).
      { unfold after_basic. match type of E with (match ?x with _ => _ end) _ = _ => destruct x end; rewrite E in ER; injection ER as <- <-; reflexivity. }
      subst o'. apply Keep; rewrite after_basic_at; reflexivity. }
  destruct (match v with VNames l => Some l | _ => None end) as [l|] eqn:Ev.
  2:{ unfold store_fit, store_basic, put at 1 2 3 4 5 6 7 8 9 10 11, default_design_3d, extend_names in ER.
      assert (E : after_basic N n rep p o "ind_var_names" = Some v) by (rewrite after_basic_at; exact Hn).
      unfold after_basic in E. cbv zeta in E.
      assert (Eo : o' = after_basic N n rep p o).
      { unfold after_basic. match type of E with (match ?x with _ => _ end) _ = _ => destruct x end; rewrite E in ER;
          destruct v; try discriminate; injection ER as <- <-; reflexivity. }
      subst o'. apply Keep; rewrite after_basic_at; reflexivity. }
  destruct v; try discriminate. injection Ev as ->.
  rewrite (store_fit_run nm m mixing N n rep p o _ Hn) in ER. cbv zeta in ER.
  set (r := results_of n p) in *. set (idx := add_mixing_variable_names l mixing) in *.
  set (o1 := setattr "ind_var_names" (VNames idx) (after_basic N n rep p o)) in *.
  assert (K1 : o1 "params" = o "params") by (unfold o1, setattr; cbn; rewrite after_basic_at; reflexivity).
  assert (K2 : o1 "cov" = o "cov") by (unfold o1, setattr; cbn; rewrite after_basic_at; reflexivity).
  assert (K3 : o1 "standard_errors" = o "standard_errors") by (unfold o1, setattr; cbn; rewrite after_basic_at; reflexivity).
  Ltac kept ER Keep K1 K2 K3 := injection ER as <- <-; apply Keep; unfold setattr; cbn [String.eqb Ascii.eqb Bool.eqb]; first [exact K1|exact K2|exact K3].
  rewrite put_block_run in ER.
  destruct (store_block (r_intercept_params r) (mn_intercepts m) "Outside_ASC_" (idx, r_utility_coefs r)) as [[nb1 s1]|e] eqn:B1; cbn [fst snd] in ER; [|kept ER Keep K1 K2 K3].
  rewrite put_block_run in ER.
  destruct (store_block (r_shape_params r) (mn_shapes m) "Shape_" nb1) as [[nb2 s2]|e] eqn:B2; cbn [fst snd] in ER; [|kept ER Keep K1 K2 K3].
  rewrite put_block_run in ER.
  destruct (store_block (r_nest_params r) (mn_nests m) "Nest_Param_" nb2) as [[[names params] s3]|e] eqn:B3; cbn [fst snd] in ER; [|kept ER Keep K1 K2 K3].
  apply store_block_params in B1. apply store_block_params in B2. apply store_block_params in B3. cbn [fst snd] in B1, B2, B3.
  destruct B1 as (P1 & L1), B2 as (P2 & L2), B3 as (P3 & L3).
  unfold put_inference in ER.
  unfold compute at 1 in ER. destruct (mk_series idx (r_utility_coefs r)) as [coefs|e] eqn:Ec; [|kept ER Keep K1 K2 K3].
  apply mk_series_ok in Ec. destruct Ec as (_ & Lc).
  assert (Lp : length names = length params) by auto. clear L1 L2 L3.
  unfold put at 1, compute at 1 in ER. destruct (mk_series names (r_gradient r)) as [g|e] eqn:Eg; [|kept ER Keep K1 K2 K3].
  unfold put at 1, compute at 1 in ER. destruct (mk_square names (r_hessian r)) as [h|e] eqn:Eh; [|kept ER Keep K1 K2 K3].
  apply mk_square_ok in Eh. destruct Eh as (-> & Lh).
  unfold put at 1, compute at 1 in ER. destruct (n_inv nm (r_hessian r)) as [hinv|e] eqn:Ei; [|kept ER Keep K1 K2 K3].
  unfold compute at 1 in ER. destruct (mk_square names (neg_sq hinv)) as [cov|e] eqn:Ecov; [|kept ER Keep K1 K2 K3].
  apply mk_square_ok in Ecov. destruct Ecov as (-> & Lcov).
  (* from here on all three are set *)
  assert (Pall : params = all_params p).
  { rewrite P3, P2, P1. unfold r, results_of, all_params. cbn [r_intercept_params r_shape_params r_nest_params r_utility_coefs].
    destruct (bl_nests (po_blocks p)), (bl_shapes (po_blocks p)), (bl_intercepts (po_blocks p)); reflexivity. }
  unfold put at 1, compute at 1 in ER. unfold mk_series at 1 in ER.
  replace (length names =? length params)%nat with true in ER by (symmetry; apply Nat.eqb_eq; exact Lp).
  assert (Ls : length names = length (map fsqrt (diag_list (neg_sq hinv)))).
  { unfold diag_list. rewrite !map_length, seq_length. exact Lcov. }
  unfold put at 1, compute at 1 in ER. unfold mk_series at 1 in ER.
  replace (length names =? length (map fsqrt (diag_list (neg_sq hinv))))%nat with true in ER by (symmetry; apply Nat.eqb_eq; exact Ls).
  set (ses := combine names (map fsqrt (diag_list (neg_sq hinv)))) in *.
  assert (Cells : forall k, (k < length names)%nat -> nth k (map snd ses) NaN = fsqrt (-1 * sqe hinv k k)%R).
  { intros k Hk. unfold ses. rewrite (map_snd_combine _ _ Ls). unfold diag_list. rewrite map_map. cbn [neg_sq sqe sqn] in *.
    rewrite (nth_indep _ NaN (fsqrt (-1 * sqe hinv (length names) (length names))%R)) by (rewrite map_length, seq_length; lia).
    rewrite (map_nth (fun x => fsqrt (-1 * sqe hinv x x)%R) _ (length names) k), seq_nth by lia. reflexivity. }
  assert (Done : forall (o2 : attrs) ses', o2 "params" = Some (VSeries (combine names params)) -> o2 "cov" = Some (VMatrix names (neg_sq hinv)) ->
     o2 "standard_errors" = Some (VCells ses') -> map fst ses' = names ->
     (forall k, (k < length names)%nat -> nth k (map snd ses') NaN = fsqrt (-1 * sqe hinv k k)%R \/ nth k (map snd ses') NaN = NaN) ->
     inference_in_step (fun nm' p' => past nm' p' \/ (nm' = nm /\ p' = p)) o2).
  { intros o2 ses' Q1 Q2 Q3 Q4 Q5. right. exists nm, p, hinv, names, ses'.
    rewrite <- Pall. split; [right; split; reflexivity|]. split; [exact Ei|]. split; [exact Lp|]. split; [exact Lcov|].
    split; [exact Q1|]. split; [exact Q2|]. split; [exact Q3|]. split; assumption. }
  assert (Fst : map fst ses = names) by (apply map_fst_combine; exact Ls).
  Ltac set_all ER Done Fst Cells := injection ER as <- <-; eapply Done; [reflexivity|reflexivity|reflexivity|exact Fst|intros; left; auto].
  unfold put at 1 2, compute at 1 in ER.
  destruct (mk_series names (map (fun kv => p_value nm (snd kv)) (ratio params ses))) as [pv|e] eqn:Epv; [|set_all ER Done Fst Cells].
  unfold put at 1, compute at 1 in ER. destruct (mk_square names (r_fisher r)) as [fi|e] eqn:Ef; [|set_all ER Done Fst Cells].
  unfold put at 1, compute at 1 in ER.
  destruct (mk_square names (mkSq (sqn (r_hessian r)) (calc_asymptotic_covariance (sqn (r_hessian r)) (sqe hinv) (sqe fi)))) as [rcov|e] eqn:Er; [|set_all ER Done Fst Cells].
  unfold put at 1, compute at 1 in ER. destruct (mk_series names (map fsqrt (diag_list rcov))) as [rses|e] eqn:Ers; [|set_all ER Done Fst Cells].
  unfold put at 1 2, compute at 1 in ER.
  destruct (mk_series names (map (fun kv => p_value nm (snd kv)) (ratio params rses))) as [rp|e] eqn:Erp; [|set_all ER Done Fst Cells].
  unfold put at 1 in ER.
  match type of ER with blank_all names ?c ?i ?k ?o2 = _ =>
    pose proof (blank_all_run names c i k o2 eq_refl eq_refl eq_refl eq_refl eq_refl eq_refl) as B end.
  destruct (adjust_inferential_results names (r_constrained_pos r)
    (mkInference ses (ratio params ses) pv rses (ratio params rses) rp)) as [i'|e] eqn:Ea.
  - destruct B as (o'' & Po & B). rewrite B in ER. unfold record_fit_values, put, done in ER. injection ER as <- <-.
    assert (Hi : exists c, i_standard_errors i' = fold_left (fun t j => loc_set (nth j names EmptyString) NaN t) c ses).
    { unfold adjust_inferential_results in Ea. destruct (r_constrained_pos r) as [c|]; [|injection Ea as <-; exists []; reflexivity].
      cbn [i_standard_errors] in Ea. destruct (blank_constrained names c ses) as [a1|] eqn:Ea1; cbn [bind] in Ea; [|discriminate].
      destruct (blank_constrained_fold _ _ _ _ Ea1) as (c1 & E1). exists c1. rewrite <- E1.
      repeat match type of Ea with context [bind ?x _] => destruct x; cbn [bind] in Ea; [|discriminate] end.
      injection Ea as <-. reflexivity. }
    destruct Hi as (c & Hi). eapply Done.
    + unfold setattr; cbn [String.eqb Ascii.eqb Bool.eqb]. rewrite Po. reflexivity.
    + unfold setattr; cbn [String.eqb Ascii.eqb Bool.eqb]. rewrite Po. reflexivity.
    + unfold setattr; cbn [String.eqb Ascii.eqb Bool.eqb]. rewrite Po. reflexivity.
    + rewrite Hi, fold_loc_keys. exact Fst.
    + intros k Hk. rewrite Hi. destruct (fold_loc_cell names c k ses) as [->| ->]; [left; auto|right; reflexivity].
  - destruct B as (o'' & c & B & Bs & Bo). rewrite B in ER. injection ER as <- <-. eapply Done.
    + rewrite Bo by (cbn; intuition discriminate). reflexivity.
    + rewrite Bo by (cbn; intuition discriminate). reflexivity.
    + exact Bs.
    + cbn [i_standard_errors]. rewrite fold_loc_keys. exact Fst.
    + intros k Hk. cbn [i_standard_errors]. destruct (fold_loc_cell names c k ses) as [->| ->]; [left; auto|right; reflexivity].
Qed.

Lemma store_fit_torn nm nm' m mixing N n rep p o out e l :
  o "ind_var_names" = Some (VNames l) ->
  add_mixing_variable_names l mixing = add_mixing_variable_names (mn_index m) mixing ->
  store_fit_results nm' m mixing (results_of n p) = Ok out ->
  n_inv nm (po_hessian p) = Err e ->
  exists o', store_fit nm m mixing N n rep p o = (o', Err e) /\
    forall hinv a, o' a = updated (only set_before_inversion (fit_attributes N n rep p out hinv)) o a.
Proof.
  intros Hn Hl HO Hi.
  unfold store_fit_results in HO. cbv zeta in HO.
  rewrite (store_fit_run nm m mixing N n rep p o _ Hn), Hl. cbv zeta.
  set (r := results_of n p) in *. set (idx := add_mixing_variable_names (mn_index m) mixing) in *.
  set (o1 := setattr "ind_var_names" (VNames idx) (after_basic N n rep p o)) in *.
  rewrite put_block_run.
  destruct (store_block (r_intercept_params r) (mn_intercepts m) "Outside_ASC_" (idx, r_utility_coefs r)) as [[nb1 s1]|e1]; cbn [bind fst snd] in HO |- *; [|discriminate].
  rewrite put_block_run.
  destruct (store_block (r_shape_params r) (mn_shapes m) "Shape_" nb1) as [[nb2 s2]|e2]; cbn [bind fst snd] in HO |- *; [|discriminate].
  rewrite put_block_run.
  destruct (store_block (r_nest_params r) (mn_nests m) "Nest_Param_" nb2) as [[[names params] s3]|e3]; cbn [bind fst snd] in HO |- *; [|discriminate].
  unfold put_inference. unfold generic_inference in HO.
  unfold compute at 1. destruct (mk_series idx (r_utility_coefs r)) as [coefs|e4]; cbn [bind] in HO; [|discriminate].
  unfold put at 1, compute at 1. destruct (mk_series names (r_gradient r)) as [g|e5]; cbn [bind] in HO; [|discriminate].
  destruct (mk_series names params) as [ps|e6]; cbn [bind] in HO; [|discriminate].
  unfold put at 1, compute at 1. destruct (mk_square names (r_hessian r)) as [h|e7] eqn:Eh; cbn [bind] in HO; [|discriminate].
  apply mk_square_ok in Eh. destruct Eh as (-> & Lh).
  unfold put at 1, compute at 1. change (r_hessian r) with (po_hessian p). rewrite Hi.
  eexists. split; [reflexivity|]. intros hinv a.
  repeat match type of HO with context [bind ?x _] => destruct x; cbn [bind fst snd] in HO; [|discriminate] end.
  injection HO as <-. unfold updated, fit_attributes, only. cbv zeta.
  cbn [f_hessian_labels f_inference f_ind_var_names f_intercepts f_shapes f_nests f_coefs f_gradient f_cov f_params f_aic f_bic f_hessian].
  cbn [filter existsb set_before_inversion fst String.eqb Ascii.eqb Bool.eqb orb].
  unfold o1, setattr. rewrite after_basic_at. unfold updated. cbn [assoc].
  repeat match goal with
         | |- context [String.eqb a ?x] =>
             tryif constr_eq x "design_3d" then fail else
             (destruct (String.eqb_spec a x) as [->|]; [reflexivity|])
         end.
  destruct (String.eqb_spec a "design_3d"); reflexivity.
Qed.

Lemma isinfix_sigma x : isinfix "Sigma " ("Sigma " ++ x) = true.
Proof. cbn. destruct x; reflexivity. Qed.
Lemma add_mixing_twice l mixing :
  add_mixing_variable_names (add_mixing_variable_names l mixing) mixing = add_mixing_variable_names l mixing.
Proof.
  unfold add_mixing_variable_names. destruct mixing as [ms|]; [|reflexivity].
  destruct (existsb (isinfix "Sigma ") l) eqn:E; [rewrite E; reflexivity|].
  destruct ms as [|x ms]; cbn [map]; [rewrite List.app_nil_r, E; rewrite List.app_nil_r; reflexivity|].
  rewrite existsb_app, E. cbn [existsb]. rewrite isinfix_sigma. reflexivity.
Qed.
