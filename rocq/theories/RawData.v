(** Tables whose numeric columns may hold missing or infinite values, and the code that
    meets them before estimation or prediction: ensure_valid_nums_in_specification_cols
    (base_multinomial_cm_v2.py:60-96), create_design_matrix (choice_tools.py:587-716) and the
    conditional logit's probabilities (choice_calcs.py:132-165) in floating point with NaN
    and infinities; finite numbers are exact reals, as everywhere in this model.  The other
    files work on tables of finite numbers (Frame.v); PropRawData.v shows what that leaves
    out. *)
From Coq Require Import String ZArith List Reals Lra Bool Arith.
From Verif Require Import Res Vec Arr Ids Mappings LongData Frame ChoiceTools ChoiceCalcs BaseModel Summaries.
Import ListNotations.
Local Open Scope R_scope.

(** ** Floating point numbers with exact finite values *)
Inductive xnum := XFin (r : R) | XNaN | XPInf | XNInf.

(** [1 * x] and [0 * x] *)
Definition xmask (b : bool) (x : xnum) : xnum :=
  if b then x else match x with XFin _ => XFin 0 | _ => XNaN end.
(** [x * r] for a finite r *)
Definition xscale (x : xnum) (r : R) : xnum :=
  match x with
  | XFin a => XFin (a * r)
  | XNaN => XNaN
  | XPInf => if Rlt_dec 0 r then XPInf else if Rlt_dec r 0 then XNInf else XNaN
  | XNInf => if Rlt_dec 0 r then XNInf else if Rlt_dec r 0 then XPInf else XNaN
  end.
Definition xadd (x y : xnum) : xnum :=
  match x, y with
  | XFin a, XFin b => XFin (a + b)
  | XNaN, _ | _, XNaN => XNaN
  | XPInf, XNInf | XNInf, XPInf => XNaN
  | XPInf, _ | _, XPInf => XPInf
  | XNInf, _ | _, XNInf => XNInf
  end.
Fixpoint xsum (n : nat) (f : nat -> xnum) : xnum :=
  match n with O => XFin 0 | S k => xadd (xsum k f) (f k) end.
(** [x / y] for a finite or NaN numerator *)
Definition xdiv (x y : xnum) : xnum :=
  match x, y with
  | XFin a, XFin b =>
      if Req_EM_T b 0 then if Rlt_dec 0 a then XPInf else if Rlt_dec a 0 then XNInf else XNaN else XFin (a / b)
  | XFin _, XPInf | XFin _, XNInf => XFin 0
  | _, _ => XNaN
  end.

(** ** Tables *)

(** A column by the kind of its dtype: integers ('i', 'u'), floats ('f'), booleans ('b')
    and everything else (strings, objects, dates, complex numbers), whose cells are not
    modelled. *)
Inductive rcol := CInt (l : list Z) | CFloat (l : list xnum) | CBool (l : list bool) | COther.
Record rframe := mkRFrame { r_rows : nat; r_cols : list (string * rcol) }.

Definition rhas_col (f : rframe) (c : string) : bool := match assoc c (r_cols f) with Some _ => true | None => false end.
(** Identifier columns are integers. *)
Definition rint_col (f : rframe) (c : string) : Res (list Z) :=
  match assoc c (r_cols f) with Some (CInt l) => Ok l | Some _ => Err TypeError | None => Err KeyError end.
Definition xcells (c : rcol) : Res (list xnum) :=
  match c with
  | CInt l => Ok (map (fun z => XFin (IZR z)) l)
  | CFloat l => Ok l
  | CBool l => Ok (map (fun b : bool => XFin (if b then 1 else 0)) l)
  | COther => Err TypeError
  end.
Definition rnum_col (f : rframe) (c : string) : Res (list xnum) :=
  match assoc c (r_cols f) with Some k => xcells k | None => Err KeyError end.

(** ** Where tables come from *)
Inductive data_arg := DPath (s : string) | DFrame (f : rframe) | DOther.
(** choice_tools.py:25-56; [read_csv] is pandas' reader *)
Definition get_dataframe_from_data (read_csv : string -> Res rframe) (d : data_arg) : Res rframe :=
  match d with
  | DPath s => if endswith s ".csv" then read_csv s else Err ValueError
  | DFrame f => Ok f
  | DOther => Err TypeError
  end.

(** ** Checks at construction *)

(** base_multinomial_cm_v2.py:77-87 for one column: is it a problem column? *)
Definition problem_col (c : rcol) : bool :=
  match c with
  | CInt _ => false                                     (* np.isinf, np.isnan of integers *)
  | CFloat l =>
      if existsb (fun x => match x with XPInf | XNInf => true | _ => false end) l then true
      else existsb (fun x => match x with XNaN => true | _ => false end) l
  | CBool _ | COther => true
  end.
(** base_multinomial_cm_v2.py:60-96 *)
Definition ensure_valid_nums_in_specification_cols (spec : specification) (f : rframe) : Res unit :=
  do l <- mapM (fun kv => match assoc (fst kv) (r_cols f) with
                          | Some c => Ok (problem_col c)
                          | None => Err KeyError
                          end) spec;
  if existsb (fun b => b) l then Err ValueError else Ok tt.

(** choice_tools.py:222-266 *)
Definition rensure_specification_cols (spec : specification) (f : rframe) : Res unit :=
  if forallb (fun kv => rhas_col f (fst kv)) spec then Ok tt else Err ValueError.

(** base_multinomial_cm_v2.py:364-383: a column of ones *)
Definition radd_intercept (spec : specification) (f : rframe) : rframe :=
  match assoc "intercept"%string spec with
  | Some _ => if rhas_col f "intercept" then f
              else mkRFrame (r_rows f) (r_cols f ++ [("intercept"%string, CFloat (repeat (XFin 1) (r_rows f)))])
  | None => f
  end.

(** ** The design matrix *)
Definition xmask_times (mask : list bool) (vals : list xnum) : list xnum :=
  map (fun mv => xmask (fst mv) (snd mv)) (combine mask vals).
(** choice_tools.py:674-701; as ChoiceTools.columns_of *)
Definition xcolumns_of (alts unique_alternatives : list Z) (variable : string) (vals : list xnum)
    (v : spec_value) : list (list xnum * label) :=
  match v with
  | SStr s =>
      if String.eqb s "all_same" then [(vals, LVar variable)]
      else if String.eqb s "all_diff" then
        map (fun alt => (xmask_times (map (fun a => (a =? alt)%Z) alts) vals, LVarAlt variable alt))
            unique_alternatives
      else []
  | SList l =>
      map (fun g => match g with
                    | One a => (xmask_times (map (fun b => (b =? a)%Z) alts) vals, LVarAlt variable a)
                    | Group items => (xmask_times (map (fun b => existsb (item_is b) items) alts) vals,
                                      LVarGroup variable items)
                    | OneJunk => ([], LVar variable)
                    end) l
  | SOther => []
  end.

(** choice_tools.py:587-716; as ChoiceTools.create_design_matrix *)
Definition rcreate_design_matrix (long_form : rframe) (spec : specification) (alt_id_col : string)
    (names : option name_dict) : Res (list (list xnum) * list label) :=
  if negb (rhas_col long_form alt_id_col) then Err ValueError else
  do _ <- rensure_specification_cols spec long_form;
  do alts <- rint_col long_form alt_id_col;
  let unique_alternatives := np_unique alts in
  do _ <- check_type_and_values_of_specification_dict spec unique_alternatives;
  do _ <- match names with
          | Some n => check_keys_and_values_of_name_dictionary n spec (length unique_alternatives)
          | None => Ok tt
          end;
  do cols <- mapM (fun kv => do vals <- rnum_col long_form (fst kv);
                             Ok (xcolumns_of alts unique_alternatives (fst kv) vals (snd kv))) spec;
  let cols := concat cols in
  match cols with
  | [] => Err ValueError
  | _ =>
      let var_names := match names with Some n => names_in_order n | None => map snd cols end in
      Ok (map fst cols, var_names)
  end.

(** base_multinomial_cm_v2.py:859-881: the design matrix with which a model is made *)
Definition rdesign_of_model (f : rframe) (spec : specification) (alt_id_col : string) (names : option name_dict)
    : Res (list (list xnum) * list label) :=
  let f := radd_intercept spec f in
  do _ <- rensure_specification_cols spec f;
  do _ <- ensure_valid_nums_in_specification_cols spec f;
  rcreate_design_matrix f spec alt_id_col names.

(** ** Probabilities of the conditional logit *)

(** choice_calcs.py:143-151: comparisons with NaN are False *)
Definition xclip_exp (x : xnum) : xnum :=
  match x with
  | XFin a => XFin (exp (clip_exponent a))
  | XNaN => XNaN
  | XPInf => XFin (exp max_exponent_val)
  | XNInf => XFin (exp min_exponent_val)
  end.
(** product of a sparse matrix row (or column) with a vector: absent entries do not count *)
Definition xsparse (n : nat) (m : nat -> R) (v : nat -> xnum) : xnum :=
  xsum n (fun i => if Req_EM_T (m i) 0 then XFin 0 else xscale (v i) (m i)).
(** choice_calcs.py:164-165: [NaN == 0] is False *)
Definition xguard (x : xnum) : xnum := match x with XFin p => XFin (guard_zero p) | _ => x end.

Definition xdesign (cols : list (list xnum)) (i k : nat) : xnum := nth i (nth k cols []) (XFin 0).
(** choice_calcs.py:133-165 *)
Definition xlong_probs (N nobs K : nat) (X : nat -> nat -> xnum) (M : mat) (beta : arr) : nat -> xnum :=
  let e := fun i => xclip_exp (xsum K (fun k => xscale (X i k) (aget beta k))) in
  let den := fun o => xsparse N (fun i => M i o) e in
  let long_den := fun i => xsparse nobs (fun o => M i o) den in
  fun i => xguard (xdiv (e i) (long_den i)).

(** base_multinomial_cm_v2.py:1851-1972 for a conditional logit, one vector of coefficients
    and return_long_probs=True: no check of the values of the table *)
Definition rpredict_mnl (f : rframe) (spec : specification) (alt_col obs_col : string) (names : option name_dict)
    (beta : arr) : Res (nat -> xnum) :=
  let f := radd_intercept spec f in
  do _ <- (if rhas_col f alt_col then Ok tt else Err ValueError);
  do _ <- (if rhas_col f obs_col then Ok tt else Err ValueError);
  do dm <- rcreate_design_matrix f spec alt_col names;
  do obs <- rint_col f obs_col;
  do alts <- rint_col f alt_col;
  do mp <- create_long_form_mappings (mkLong obs alts None None) None;
  do _ <- (if (alen beta =? length (fst dm))%nat then Ok tt else Err ValueError);
  Ok (xlong_probs (length obs) (s_cols (rows_to_obs mp)) (length (fst dm)) (xdesign (fst dm)) (smat_R (rows_to_obs mp)) beta).
