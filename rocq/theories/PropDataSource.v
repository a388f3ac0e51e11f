(** C139: what is accepted as the data of a model. *)
From Coq Require Import String ZArith List Reals.
From Verif Require Import Res Summaries RawData.
From Verif Require PropSummaries.
Import ListNotations.

(** A table is used as it is and nothing is read; a path that ends in ".csv" is read, and
    what the reader returns or raises is passed on; any other path raises ValueError without
    being read; anything else raises TypeError. *)
Theorem C139_data_source read_csv :
  (forall f, get_dataframe_from_data read_csv (DFrame f) = Ok f) /\
  (forall a, get_dataframe_from_data read_csv (DPath (a ++ ".csv")) = read_csv (a ++ ".csv")%string) /\
  (forall s, (forall a, s <> (a ++ ".csv")%string) -> get_dataframe_from_data read_csv (DPath s) = Err ValueError) /\
  get_dataframe_from_data read_csv DOther = Err TypeError.
Proof.
  split; [reflexivity|]. split; [|split; [|reflexivity]].
  - intros a. cbn [get_dataframe_from_data]. rewrite (proj2 (PropSummaries.endswith_spec (a ++ ".csv") ".csv")) by (exists a; reflexivity). reflexivity.
  - intros s H. cbn [get_dataframe_from_data]. destruct (endswith s ".csv") eqn:E; [|reflexivity].
    apply PropSummaries.endswith_spec in E. destruct E as (a & E). destruct (H a E).
Qed.

(** The data decide alone which files are read: two readers that agree on the path give the
    same table. *)
Theorem C139_only_the_named_file_is_read r r' d :
  (forall s, d = DPath s -> r s = r' s) -> get_dataframe_from_data r d = get_dataframe_from_data r' d.
Proof. intros H. destruct d as [s|f|]; cbn [get_dataframe_from_data]; [rewrite (H s eq_refl)|..]; reflexivity. Qed.

(** A model made from a path to a csv file is the model made from the table in it. *)
Theorem C139_path_and_table_give_the_same_design read_csv a f spec alt_id_col names :
  read_csv (a ++ ".csv")%string = Ok f ->
  (do t <- get_dataframe_from_data read_csv (DPath (a ++ ".csv")); rdesign_of_model t spec alt_id_col names) =
  (do t <- get_dataframe_from_data read_csv (DFrame f); rdesign_of_model t spec alt_id_col names).
Proof. intros H. rewrite (proj1 (proj2 (C139_data_source read_csv))), H. reflexivity. Qed.

Example C139_upper_case_extension read_csv : get_dataframe_from_data read_csv (DPath "data.CSV") = Err ValueError.
Proof. reflexivity. Qed.
Example C139_no_such_path : forall a, "data.CSV"%string <> (a ++ ".csv")%string.
Proof.
  intros a H. assert (E : endswith "data.CSV" ".csv" = true) by (apply PropSummaries.endswith_spec; exists a; exact H). discriminate E.
Qed.
Example C139_csv_file f : get_dataframe_from_data (fun _ => Ok f) (DPath "data/long.csv") = Ok f.
Proof. reflexivity. Qed.

Print Assumptions C139_data_source.
Print Assumptions C139_only_the_named_file_is_read.
Print Assumptions C139_path_and_table_give_the_same_design.
