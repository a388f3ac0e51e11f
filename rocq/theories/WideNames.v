(** Model of the column names of the wide table built by convert_long_to_wide
    (src/pylogit/choice_tools.py:531-562 and 1086-1093, 1165-1241): WideLong.v
    keeps the columns under (variable, alternative) pairs, this file renders them
    and looks columns up by name. *)
From Coq Require Import String ZArith List Reals Bool.
From Verif Require Import Res Vec Ids Mappings Frame ChoiceTools WideLong Construct.
Import ListNotations.
Local Open Scope string_scope.

(** The alt_name_dict argument: None, a dictionary from alternative ids to names
    (rendered by [format]), or something else. *)
Inductive alt_names := NoNames | NameDict (d : list (Z * string)) | NamesOther.

(** choice_tools.py:531-562 *)
Definition check_type_and_values_of_alt_name_dict (names : alt_names) (alts : list Z) : Res unit :=
  match names with
  | NoNames => Ok tt             (* not called; line 1090 *)
  | NamesOther => Err TypeError
  | NameDict d => if forallb (fun k => zmem k alts) (map fst d) then Ok tt else Err ValueError
  end.

(** choice_tools.py:1166-1171 and 1204-1209: the text standing for an alternative,
    [int(x)] or [alt_name_dict[x]] *)
Definition alt_label (names : alt_names) (a : Z) : Res string :=
  match names with
  | NameDict d => match dict_get Z.eqb d a with Some s => Ok s | None => Err KeyError end
  | _ => Ok (z_string a)
  end.

(** A column of the wide table. *)
Inductive wcol := WInt (l : list Z) | WReal (l : list R) | WCell (l : list cell).

(** choice_tools.py:1165-1241: the columns in their final order, under their names.
    The names in obs_id_col, choice_col and ind_vars are assumed distinct: pandas
    would otherwise overwrite one of these columns (1151).  [pd.concat] keeps
    repeated names. *)
Definition wide_table (names : alt_names) (obs_id_col choice_col : string) (w : wide)
    : Res (list (string * wcol)) :=
  do availability_df <- mapM (fun p => do s <- alt_label names (fst p);
                                       Ok ("availability" ++ "_" ++ s, WInt (snd p))) (w_avail w);
  do alt_specific_df <- mapM (fun p => do s <- alt_label names (snd (fst p));
                                       Ok (fst (fst p) ++ "_" ++ s, WCell (snd p))) (w_alt w);
  Ok ((obs_id_col, WInt (w_obs w)) :: (choice_col, WInt (w_choice w)) :: availability_df
      ++ map (fun p => (fst p, WReal (snd p))) (w_ind w) ++ alt_specific_df).

(** choice_tools.py:979-1256 with its alt_name_dict argument.  The argument is
    checked (1090) after the other arguments and before anything is computed: the
    first lines below are the checks of convert_long_to_wide, which are then run
    again inside it.  When a name is missing and there is no alternative-specific
    variable at all, the code raises KeyError, the model ValueError. *)
Definition convert_long_to_wide_named (f : frame) (ind_vars alt_specific_vars : list string)
    (subset_specific_vars : list (string * list Z)) (obs_id_col alt_id_col choice_col : string)
    (names : alt_names) : Res (list (string * wcol)) :=
  do _ <- ensure_columns_are_in_dataframe ind_vars f;
  do _ <- ensure_columns_are_in_dataframe alt_specific_vars f;
  do _ <- ensure_columns_are_in_dataframe (map fst subset_specific_vars) f;
  do _ <- ensure_columns_are_in_dataframe [choice_col; obs_id_col; alt_id_col] f;
  do obs <- int_col f obs_id_col;
  do alts <- int_col f alt_id_col;
  do choice <- int_col f choice_col;
  do _ <- check_dataframe_for_duplicate_records obs alts;
  do _ <- ensure_num_chosen_alts_equals_num_obs obs choice;
  do _ <- check_type_and_values_of_alt_name_dict names alts;
  do w <- convert_long_to_wide f ind_vars alt_specific_vars subset_specific_vars
            obs_id_col alt_id_col choice_col;
  wide_table names obs_id_col choice_col w.
