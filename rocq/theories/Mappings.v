(** Model of the mapping construction in src/pylogit/choice_tools.py
    (lines 719-976).  Identifiers are integers.  A scipy sparse matrix built by
    [csr_matrix((data, (rows, cols)), shape)] is its shape and the list of its
    coordinate entries; duplicate coordinates add up, as in scipy. *)
From Coq Require Import String ZArith List Lia Bool.
From Verif Require Import Res Ids.
Import ListNotations.

Record smat := mkSmat { s_rows : nat; s_cols : nat; s_entries : list (nat * nat * Z) }.

(** The entry at (i, j) of the matrix, as scipy's [.A[i, j]]. *)
Definition sget (m : smat) (i j : nat) : Z :=
  fold_right Z.add 0%Z
    (map (fun e => let '(r, c, v) := e in
                   if ((r =? i)%nat && (c =? j)%nat)%bool then v else 0%Z) (s_entries m)).

(** choice_tools.py:719-746 *)
Definition get_original_order_unique_ids (id_array : list Z) : list Z :=
  map (fun k => nth k id_array 0%Z) (nsort (np_unique_index id_array)).

(** choice_tools.py:749-774, dense version *)
Definition create_row_to_some_id_col_mapping (id_array : list Z) : list (list Z) :=
  let u := get_original_order_unique_ids id_array in
  map (fun x => map (fun y => if (x =? y)%Z then 1%Z else 0%Z) u) id_array.

(** choice_tools.py:777-833.  The four isinstance / ndim assertions are type
    constraints that hold by typing here. *)
Definition create_sparse_mapping (id_array : list Z) (unique_ids : option (list Z)) : smat :=
  let unique_ids := match unique_ids with
                    | None => get_original_order_unique_ids id_array
                    | Some u => u
                    end in
  let represented := map (fun x => zmem x unique_ids) id_array in
  let num_rows := length id_array in
  let num_cols := length unique_ids in
  (* np.arange(num_rows)[represented], paired with id_array[represented] *)
  let rows_and_ids := map fst (filter snd (combine (combine (seq 0 num_rows) id_array) represented)) in
  let unique_id_dict := dict_of Z.eqb (combine unique_ids (seq 0 num_cols)) in
  mkSmat num_rows num_cols
    (map (fun ri => (fst ri,
                     match dict_get Z.eqb unique_id_dict (snd ri) with
                     | Some c => c
                     | None => 0%nat (* KeyError; excluded by [represented] *)
                     end, 1%Z))
         rows_and_ids).

(** rows_to_obs.multiply(choices[:, None]); choice_tools.py:920-928 *)
Definition multiply_rows (m : smat) (c : list Z) : smat :=
  mkSmat (s_rows m) (s_cols m)
    (map (fun e => let '(r, k, v) := e in (r, k, (v * nth r c 0)%Z)) (s_entries m)).

(** The columns of the long-format table that the mappings read. *)
Record long_cols := mkLong {
  obs_ids : list Z;
  alt_ids : list Z;
  choices : option (list Z);       (* None when choice_col is None *)
  mix_ids : option (list Z)        (* None when mix_id_col is None *)
}.

(** A nest specification: nest name -> list of alternatives, in key order. *)
Definition nest_spec := list (string * list Z).

(** choice_tools.py:934-937: later nests overwrite earlier ones *)
Definition alt_id_to_nest_name (spec : nest_spec) : list (Z * string) :=
  dict_of Z.eqb (flat_map (fun kv => map (fun a => (a, fst kv)) (snd kv)) spec).

(** choice_tools.py:940-941 *)
Definition nest_name_to_nest_id (spec : nest_spec) : list (string * Z) :=
  dict_of String.eqb (combine (map fst spec) (map Z.of_nat (seq 1 (length spec)))).

(** choice_tools.py:944-945, a list comprehension that raises KeyError *)
Fixpoint nest_id_vec (spec : nest_spec) (alts : list Z) : Res (list Z) :=
  match alts with
  | [] => Ok []
  | a :: r =>
      match dict_get Z.eqb (alt_id_to_nest_name spec) a with
      | None => Err KeyError
      | Some name =>
          match dict_get String.eqb (nest_name_to_nest_id spec) name with
          | None => Err KeyError
          | Some id => do rest <- nest_id_vec spec r; Ok (id :: rest)
          end
      end
  end.

(** choice_tools.py:930-951 *)
Definition create_rows_to_nests (spec : nest_spec) (alts : list Z) : Res smat :=
  do ids <- nest_id_vec spec alts;
  Ok (create_sparse_mapping ids (Some (map Z.of_nat (seq 1 (length spec))))).

Record mappings := mkMappings {
  rows_to_obs : smat;
  rows_to_alts : smat;
  chosen_row_to_obs : option smat;
  rows_to_nests : option smat;
  rows_to_mixers : option smat
}.

(** choice_tools.py:841-976 *)
Definition create_long_form_mappings (d : long_cols) (spec : option nest_spec) : Res mappings :=
  let r2o := create_sparse_mapping (obs_ids d) None in
  let all_alternatives := np_unique (alt_ids d) in
  let r2a := create_sparse_mapping (alt_ids d) (Some all_alternatives) in
  let chosen := match choices d with
                | Some c => Some (multiply_rows r2o c)
                | None => None
                end in
  do r2n <- match spec with
            | Some s => do m <- create_rows_to_nests s (alt_ids d); Ok (Some m)
            | None => Ok None
            end;
  let r2m := match mix_ids d with
             | Some ids => Some (create_sparse_mapping ids None)
             | None => None
             end in
  Ok (mkMappings r2o r2a chosen r2n r2m).
