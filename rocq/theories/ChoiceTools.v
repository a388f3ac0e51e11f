(** Model of src/pylogit/choice_tools.py: validators and design matrices.
    Dictionaries are association lists in insertion order (Python 3.7+ / OrderedDict)
    without repeated keys. *)
From Coq Require Import String ZArith List Reals Bool.
From Verif Require Import Res Ids Frame.
Import ListNotations.

(** choice_tools.py:115-158 *)
Definition ensure_columns_are_in_dataframe (columns : list string) (f : frame) : Res unit :=
  if forallb (has_col f) columns then Ok tt else Err ValueError.

(** choice_tools.py:468-493.  [df.duplicated(subset=[obs, alt]).any()] *)
Fixpoint pair_mem (x : Z * Z) (l : list (Z * Z)) : bool :=
  match l with
  | [] => false
  | y :: r => ((fst x =? fst y)%Z && (snd x =? snd y)%Z) || pair_mem x r
  end.
Fixpoint has_duplicates (l : list (Z * Z)) : bool :=
  match l with [] => false | x :: r => pair_mem x r || has_duplicates r end.
Definition check_dataframe_for_duplicate_records (obs alts : list Z) : Res unit :=
  if has_duplicates (combine obs alts) then Err ValueError else Ok tt.

(** choice_tools.py:496-528 *)
Definition ensure_num_chosen_alts_equals_num_obs (obs choices : list Z) : Res unit :=
  let num_obs := Z.of_nat (length (np_unique obs)) in
  let num_choices := fold_right Z.add 0%Z choices in
  if (num_choices <? num_obs)%Z then Err ValueError
  else if (num_obs <? num_choices)%Z then Err ValueError
  else Ok tt.

(** choice_tools.py:1432-1462 *)
Definition ensure_contiguity_in_observation_rows (ids : list Z) : Res unit :=
  if forallb (fun p => (0 <=? snd p - fst p)%Z) (combine (removelast ids) (tl ids))
  then Ok tt else Err ValueError.

(** choice_tools.py:565-584; the argument kinds that are told apart *)
Inductive ridge_arg := RidgeNone | RidgeNumber (r : R) | RidgeOther.
Definition ensure_ridge_is_scalar_or_none (r : ridge_arg) : Res unit :=
  match r with RidgeOther => Err TypeError | _ => Ok tt end.

(** ** Specifications *)

(** A member of a group in a specification list. *)
Inductive group_item :=
| GAlt (a : Z)                 (* a number *)
| GJunk                        (* something equal to no alternative id, e.g. a string *)
| GList.                       (* a list: one nesting level too many *)
(** An element of a specification list. *)
Inductive spec_group :=
| One (a : Z)                  (* a number *)
| OneJunk                      (* neither a list nor equal to any alternative id *)
| Group (l : list group_item). (* a list *)
(** A specification value. *)
Inductive spec_value :=
| SStr (s : string)
| SList (l : list spec_group)
| SOther.                      (* neither str nor list *)

Definition specification := list (string * spec_value).

(** choice_tools.py:311-332 for one element of the list.  Tuples and ranges as
    groups (compared as arrays by numpy's [in]) are not modelled. *)
Definition check_group (unique_alternatives : list Z) (g : spec_group) : Res unit :=
  match g with
  | Group items =>
      all_checks (map (fun i => match i with
                                | GList => Err ValueError
                                | GAlt a => if zmem a unique_alternatives then Ok tt else Err ValueError
                                | GJunk => Err ValueError
                                end) items)
  | One a => if zmem a unique_alternatives then Ok tt else Err ValueError
  | OneJunk => Err ValueError
  end.

(** choice_tools.py:301-337 for one key *)
Definition check_spec_value (unique_alternatives : list Z) (v : spec_value) : Res unit :=
  match v with
  | SStr s => if (String.eqb s "all_same" || String.eqb s "all_diff")%bool then Ok tt else Err ValueError
  | SList l => all_checks (map (check_group unique_alternatives) l)
  | SOther => Err TypeError
  end.

(** choice_tools.py:269-339 *)
Definition check_type_and_values_of_specification_dict (spec : specification)
    (unique_alternatives : list Z) : Res unit :=
  all_checks (map (fun kv => check_spec_value unique_alternatives (snd kv)) spec).

(** ** Names *)
Inductive name_elem := NE (s : string) | NEOther.
Inductive name_value := NStr (s : string) | NList (l : list name_elem) | NOther.
Definition name_dict := list (string * name_value).

Definition is_str (e : name_elem) : bool := match e with NE _ => true | NEOther => false end.

(** choice_tools.py:389-417 for one key *)
Definition check_name (num_alts : nat) (spec : specification) (kn : string * name_value) : Res unit :=
  match assoc (fst kn) spec with
  | None => Err KeyError
  | Some (SList l) =>
      match snd kn with
      | NList ns => if ((length ns =? length l)%nat && forallb is_str ns)%bool then Ok tt else Err ValueError
      | _ => Err ValueError
      end
  | Some (SStr s) =>
      if String.eqb s "all_same" then
        match snd kn with NStr _ => Ok tt | _ => Err TypeError end
      else
        match snd kn with
        | NList ns => if (length ns =? num_alts)%nat then Ok tt else Err ValueError
        | _ => Err ValueError
        end
  | Some SOther =>
      match snd kn with
      | NList ns => if (length ns =? num_alts)%nat then Ok tt else Err ValueError
      | _ => Err ValueError
      end
  end.

(** [names.keys() != specification_dict.keys()], comparison of key views as sets *)
Definition same_keys {A B} (a : list (string * A)) (b : list (string * B)) : bool :=
  (forallb (fun kv => match assoc (fst kv) b with Some _ => true | None => false end) a &&
   forallb (fun kv => match assoc (fst kv) a with Some _ => true | None => false end) b)%bool.

(** choice_tools.py:342-419 *)
Definition check_keys_and_values_of_name_dictionary (names : name_dict) (spec : specification)
    (num_alts : nat) : Res unit :=
  if same_keys names spec then all_checks (map (check_name num_alts spec) names) else Err ValueError.

(** ** The design matrix *)

(** Column labels.  The default ones ["{}_{}".format(variable, alt)] are kept as
    the pair they are built from instead of the rendered string. *)
Inductive label :=
| LVar (v : string)
| LVarAlt (v : string) (alt : Z)
| LVarGroup (v : string) (g : list group_item)
| LUser (e : name_elem).

(** [mask * values], elementwise; True counts as 1 and False as 0. *)
Definition mask_times (mask : list bool) (vals : list R) : list R :=
  map (fun mv => (if fst mv : bool then 1 else 0) * snd mv)%R (combine mask vals).

Definition item_is (a : Z) (i : group_item) : bool := match i with GAlt b => (a =? b)%Z | _ => false end.

(** choice_tools.py:674-701: the columns and default names of one variable.
    [isinstance(group, Number)] holds exactly for [One]. *)
Definition columns_of (alts unique_alternatives : list Z) (variable : string) (vals : list R)
    (v : spec_value) : list (list R * label) :=
  match v with
  | SStr s =>
      if String.eqb s "all_same" then [(vals, LVar variable)]
      else if String.eqb s "all_diff" then
        map (fun alt => (mask_times (map (fun a => (a =? alt)%Z) alts) vals, LVarAlt variable alt))
            unique_alternatives
      else [] (* excluded by the validator *)
  | SList l =>
      map (fun g => match g with
                    | One a => (mask_times (map (fun b => (b =? a)%Z) alts) vals, LVarAlt variable a)
                    | Group items => (mask_times (map (fun b => existsb (item_is b) items) alts) vals,
                                      LVarGroup variable items)
                    | OneJunk => ([], LVar variable) (* excluded by the validator *)
                    end) l
  | SOther => [] (* excluded by the validator *)
  end.

(** choice_tools.py:707-714 *)
Definition names_in_order (names : name_dict) : list label :=
  flat_map (fun kn => match snd kn with
                      | NStr s => [LUser (NE s)]
                      | NList l => map LUser l
                      | NOther => [LUser NEOther]
                      end) names.

(** choice_tools.py:587-716.  Result: the columns of the design matrix and the
    variable names.  np.hstack raises on an empty tuple. *)
Definition create_design_matrix (long_form : frame) (spec : specification) (alt_id_col : string)
    (names : option name_dict) : Res (list (list R) * list label) :=
  if negb (has_col long_form alt_id_col) then Err ValueError else
  if negb (forallb (fun kv => has_col long_form (fst kv)) spec) then Err ValueError else
  do alts <- int_col long_form alt_id_col;
  let unique_alternatives := np_unique alts in
  do _ <- check_type_and_values_of_specification_dict spec unique_alternatives;
  do _ <- match names with
          | Some n => check_keys_and_values_of_name_dictionary n spec (length unique_alternatives)
          | None => Ok tt
          end;
  do cols <- mapM (fun kv => do vals <- num_col long_form (fst kv);
                             Ok (columns_of alts unique_alternatives (fst kv) vals (snd kv))) spec;
  let cols := concat cols in
  match cols with
  | [] => Err ValueError
  | _ =>
      let var_names := match names with Some n => names_in_order n | None => map snd cols end in
      Ok (map fst cols, var_names)
  end.

(** choice_tools.py:1744-1761; [list.index] raises ValueError when absent *)
Fixpoint str_index (x : string) (l : list string) : Res nat :=
  match l with
  | [] => Err ValueError
  | y :: r => if String.eqb x y then Ok 0%nat else do k <- str_index x r; Ok (S k)
  end.
Definition convert_mixing_names_to_positions (mixing_names ind_var_names : list string) : Res (list nat) :=
  mapM (fun n => str_index n ind_var_names) mixing_names.
