(** Model of the wide/long conversions in src/pylogit/choice_tools.py
    (lines 979-1741). *)
From Coq Require Import String ZArith List Reals Bool.
From Verif Require Import Res Vec Ids Mappings Frame ChoiceTools.
Import ListNotations.

(** [array[mask]] *)
Definition select {A} (mask : list bool) (l : list A) : list A :=
  map snd (filter fst (combine mask l)).

(** [.ravel()] of the n x m array with entries [f i j]: row after row *)
Definition ravel {A} (n m : nat) (f : nat -> nat -> A) : list A :=
  flat_map (fun i => map (f i) (seq 0 m)) (seq 0 n).

(** ** Wide-format validators *)

(** alternative id -> name of its availability column, in insertion order *)
Definition avail_dict := list (Z * string).
(** new column -> (alternative id -> wide column) *)
Definition alt_spec_dict := list (string * list (Z * string)).

(** choice_tools.py:1284-1307 *)
Definition ensure_unique_obs_ids_in_wide_data (obs : list Z) (rows : nat) : Res unit :=
  if (length (np_unique obs) =? rows)%nat then Ok tt else Err ValueError.

(** choice_tools.py:1310-1343 *)
Definition ensure_chosen_alternatives_are_in_user_alt_ids (choice : list Z) (av : avail_dict) : Res unit :=
  if forallb (fun c => zmem c (map fst av)) choice then Ok tt else Err ValueError.

(** [availability_vars[alt]] followed by [wide_data[...]] *)
Definition avail_col (f : frame) (av : avail_dict) (a : Z) : Res (list Z) :=
  match dict_get Z.eqb av a with Some c => int_col f c | None => Err KeyError end.

(** choice_tools.py:1346-1398.  [avail_cols] are the availability columns in
    dictionary order.  Rows with some zero availability are checked. *)
Definition ensure_each_wide_obs_chose_an_available_alternative (f : frame) (choice : list Z)
    (av : avail_dict) (avail_cols : list (list Z)) : Res unit :=
  all_checks (map (fun i =>
    if existsb (fun col => (nth i col 0 =? 0)%Z) avail_cols then
      do col <- avail_col f av (nth i choice 0%Z);
      if (nth i col 0 =? 1)%Z then Ok tt else Err ValueError
    else Ok tt) (seq 0 (f_rows f))).

(** choice_tools.py:1401-1429 *)
Definition ensure_all_wide_alt_ids_are_chosen (choice : list Z) (asv : alt_spec_dict) (av : avail_dict) : Res unit :=
  let sorted_alt_ids := np_unique choice in
  if forallb (fun a => zmem a sorted_alt_ids) (map fst av) then
    if forallb (fun kv => forallb (fun a => zmem a sorted_alt_ids) (map fst (snd kv))) asv
    then Ok tt else Err ValueError
  else Err ValueError.

Fixpoint str_mem (s : string) (l : list string) : bool :=
  match l with [] => false | x :: r => (String.eqb s x || str_mem s r)%bool end.
Fixpoint has_dup_names (l : list string) : bool :=
  match l with [] => false | x :: r => (str_mem x r || has_dup_names r)%bool end.

(** choice_tools.py:1673-1689: one wide column per alternative, or zeros *)
Definition alt_spec_cols (f : frame) (sorted_alt_ids : list Z) (d : list (Z * string)) : Res (list (list R)) :=
  mapM (fun a => match dict_get Z.eqb d a with
                 | Some c => num_col f c
                 | None => Ok (repeat 0%R (f_rows f))
                 end) sorted_alt_ids.

(** choice_tools.py:1465-1741.  Availability, observation and choice columns are
    integer columns.  The unused-column warning (1538) and the shape warning
    (1730-1738) are omitted.  Null choices do not exist in the model (1575).
    Duplicate final column names make [np.rec.fromarrays] (1719) raise.  The guard
    on the number of availability columns is the broadcast at 1659; the
    validators exclude it. *)
Definition convert_wide_to_long (f : frame) (ind_vars : list string) (asv : alt_spec_dict)
    (av : avail_dict) (obs_id_col choice_col : string) (new_alt_id_name : option string) : Res frame :=
  do _ <- ensure_columns_are_in_dataframe ind_vars f;
  do _ <- ensure_columns_are_in_dataframe (map snd av) f;
  do _ <- all_checks (map (fun kv => all_checks (map (fun ac =>
             ensure_columns_are_in_dataframe [snd ac] f) (snd kv))) asv);
  do _ <- ensure_columns_are_in_dataframe [choice_col; obs_id_col] f;
  do obs <- int_col f obs_id_col;
  do choice <- int_col f choice_col;
  do _ <- ensure_unique_obs_ids_in_wide_data obs (f_rows f);
  do _ <- ensure_all_wide_alt_ids_are_chosen choice asv av;
  do _ <- ensure_chosen_alternatives_are_in_user_alt_ids choice av;
  do avail_cols <- mapM (int_col f) (map snd av);
  do _ <- ensure_each_wide_obs_chose_an_available_alternative f choice av avail_cols;
  let sorted_alt_ids := np_unique choice in
  let n := f_rows f in
  let m := length avail_cols in
  if negb (length sorted_alt_ids =? m)%nat then Err ValueError else
  (* wide_availability_values[i, j] *)
  let wide_availability := fun i j => nth i (nth j avail_cols []) 0%Z in
  let new_obs_id_col := ravel n m (fun i j => (wide_availability i j * nth i obs 0)%Z) in
  do ind_cols <- mapM (num_col f) ind_vars;
  let new_ind_var_cols :=
    map (fun col => ravel n m (fun i j => (IZR (wide_availability i j) * nth i col 0)%R)) ind_cols in
  let new_choice_col :=
    ravel n m (fun i j => if (nth i choice 0 =? nth j sorted_alt_ids 0)%Z then 1%Z else 0%Z) in
  let new_alt_id_col := ravel n m (fun i j => (wide_availability i j * nth j sorted_alt_ids 0)%Z) in
  do new_alt_specific <- mapM (fun kv => alt_spec_cols f sorted_alt_ids (snd kv)) asv;
  let new_alt_specific_cols :=
    map (fun cols => ravel n m (fun i j => nth i (nth j cols []) 0%R)) new_alt_specific in
  let availability_condition := ravel n m (fun i j => negb (wide_availability i j =? 0)%Z) in
  let alt_name := match new_alt_id_name with None => "alt_id"%string | Some s => s end in
  if has_dup_names ([obs_id_col; alt_name; choice_col] ++ ind_vars ++ map fst asv) then Err ValueError else
  Ok (mkFrame (length (select availability_condition new_obs_id_col))
        [(obs_id_col, select availability_condition new_obs_id_col);
         (alt_name, select availability_condition new_alt_id_col);
         (choice_col, select availability_condition new_choice_col)]
        (combine ind_vars (map (select availability_condition) new_ind_var_cols) ++
         combine (map fst asv) (map (select availability_condition) new_alt_specific_cols))).

(** ** Long to wide *)

(** A cell of an alternative-specific wide column: a value or [null_value]. *)
Inductive cell := Val (x : R) | NullValue.

(** The wide table.  Column names built with [format] from a variable and an
    alternative are kept as that pair; alt_name_dict only changes how they are
    rendered and is not modelled.  Columns are kept as lists; if their lengths
    differed [pd.concat] (1238) would pad with NaN. *)
Record wide := mkWide {
  w_obs : list Z;
  w_choice : list Z;
  w_avail : list (Z * list Z);
  w_ind : list (string * list R);
  w_alt : list ((string * Z) * list cell)
}.

(** [drop_duplicates()]: keeps the first of equal rows *)
Definition row_eq_dec (x y : Z * list R) : {x = y} + {x <> y}.
Proof. repeat decide equality; try apply Z.eq_dec; apply Req_EM_T. Defined.
Fixpoint drop_duplicates (l : list (Z * list R)) : list (Z * list R) :=
  match l with
  | [] => []
  | x :: r => x :: filter (fun y => if row_eq_dec y x then false else true) (drop_duplicates r)
  end.

(** (rows_to_obs.T.dot(rows_to_alts))[o, a]; choice_tools.py:1159 *)
Definition obs_to_alt_entry (mp : mappings) (n o a : nat) : Z :=
  fold_right Z.add 0%Z (map (fun i => sget (rows_to_obs mp) i o * sget (rows_to_alts mp) i a)%Z (seq 0 n)).

(** rows_to_obs.T.dot(rows_to_alts.multiply(vals))[o, a]; choice_tools.py:1187 *)
Definition obs_to_var_entry (mp : mappings) (vals : list R) (n o a : nat) : R :=
  sumn n (fun i => IZR (sget (rows_to_obs mp) i o) * (IZR (sget (rows_to_alts mp) i a) * nth i vals 0))%R.

(** choice_tools.py:979-1256; the unused-column and shape warnings (1054,
    1247-1253) are omitted. *)
Definition convert_long_to_wide (f : frame) (ind_vars alt_specific_vars : list string)
    (subset_specific_vars : list (string * list Z)) (obs_id_col alt_id_col choice_col : string) : Res wide :=
  do _ <- ensure_columns_are_in_dataframe ind_vars f;
  do _ <- ensure_columns_are_in_dataframe alt_specific_vars f;
  do _ <- ensure_columns_are_in_dataframe (map fst subset_specific_vars) f;
  do _ <- ensure_columns_are_in_dataframe [choice_col; obs_id_col; alt_id_col] f;
  do obs <- int_col f obs_id_col;
  do alts <- int_col f alt_id_col;
  do choice <- int_col f choice_col;
  do _ <- check_dataframe_for_duplicate_records obs alts;
  do _ <- ensure_num_chosen_alts_equals_num_obs obs choice;
  let n := f_rows f in
  do ind_cols <- mapM (num_col f) ind_vars;
  let new_df := drop_duplicates (map (fun i => (nth i obs 0%Z, map (fun c => nth i c 0%R) ind_cols)) (seq 0 n)) in
  let chosen := select (map (fun c => (c =? 1)%Z) choice) alts in
  if negb (length chosen =? length new_df)%nat then Err ValueError else
  do mp <- create_long_form_mappings (mkLong obs alts None None) None;
  let all_alternatives := np_unique alts in
  let num_obs := s_cols (rows_to_obs mp) in
  let availability_df :=
    map (fun a => (nth a all_alternatives 0%Z, map (fun o => obs_to_alt_entry mp n o a) (seq 0 num_obs)))
        (seq 0 (length all_alternatives)) in
  do dfs <- mapM (fun col =>
      do vals <- num_col f col;
      let var_col := fun a =>
        ((col, nth a all_alternatives 0%Z),
         map (fun o => if (obs_to_alt_entry mp n o a =? 0)%Z then NullValue
                       else Val (obs_to_var_entry mp vals n o a)) (seq 0 num_obs)) in
      let relevant_col_idx :=
        match assoc col subset_specific_vars with
        | Some ids => filter (fun a => zmem (nth a all_alternatives 0%Z) ids) (seq 0 (length all_alternatives))
        | None => seq 0 (length all_alternatives)
        end in
      Ok (map var_col relevant_col_idx)) (alt_specific_vars ++ map fst subset_specific_vars);
  match dfs with
  | [] => Err ValueError   (* pd.concat of an empty list *)
  | _ => Ok (mkWide (map fst new_df) chosen availability_df
               (combine ind_vars (map (fun j => map (fun row => nth j (snd row) 0%R) new_df)
                                      (seq 0 (length ind_vars))))
               (concat dfs))
  end.
