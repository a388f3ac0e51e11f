(** Model of src/pylogit/bootstrap_sampler.py.
    Observation ids drawn into the float array ids_per_sample (line 146) are kept as
    integers.  np.random.choice is an oracle: [rng c i] is the index of the [i]-th
    element drawn by the [c]-th call; it is reduced modulo the number of candidates,
    so that [rng] ranges over every possible outcome of the generator. *)
From Coq Require Import String ZArith List Reals Bool Lia Arith.
From Verif Require Import Res Ids Frame ChoiceTools WideLong.
Import ListNotations.

(** bootstrap_sampler.py:16-58 *)
Definition relate_obs_ids_to_chosen_alts (obs alts choice : list Z) : list (Z * list Z) :=
  map (fun alt_id =>
         (alt_id,
          np_unique (select (map (fun ac => ((fst ac =? alt_id)%Z && (snd ac =? 1)%Z)%bool) (combine alts choice)) obs)))
      (np_unique alts).

(** bootstrap_sampler.py:61-95 *)
Definition get_num_obs_choosing_each_alternative (d : list (Z * list Z)) : list (Z * nat) * nat :=
  let num_obs_per_group := map (fun kv => (fst kv, length (snd kv))) d in
  (num_obs_per_group, fold_right Nat.add 0%nat (map snd num_obs_per_group)).

(** np.random.choice(ids, size=size, replace=True) *)
Definition np_random_choice (ids : list Z) (draw : nat -> nat) (size : nat) : Res (list Z) :=
  if ((length ids =? 0) && (0 <? size))%nat%bool then Err ValueError
  else Ok (map (fun i => nth (draw i mod length ids) ids 0%Z) (seq 0 size)).

Definition zarr := nat -> nat -> Z.

(** [a[:, c0:c1] = b] *)
Definition assign_cols (a : zarr) (c0 c1 : nat) (b : zarr) : zarr :=
  fun s j => if ((c0 <=? j) && (j <? c1))%nat%bool then b s (j - c0)%nat else a s j.

(** The [seed] argument: None, an int, anything else. *)
Inductive seed_arg := SeedNone | SeedInt | SeedOther.

(** bootstrap_sampler.py:157-177, the loop over the alternatives; [c] counts the
    calls of np.random.choice, [d] is chosen_alts_to_obs_ids *)
Fixpoint fill_samples (d : list (Z * list Z)) (num_samples : nat) (rng : nat -> nat -> nat)
    (groups : list (Z * nat)) (c col_idx : nat) (ids_per_sample : zarr) : Res zarr :=
  match groups with
  | [] => Ok ids_per_sample
  | (alt_id, resample_size) :: r =>
      match dict_get Z.eqb d alt_id with
      | None => Err KeyError
      | Some relevant_ids =>
          do drawn <- np_random_choice relevant_ids (rng c) (resample_size * num_samples);
          let current_ids : zarr := fun s j => nth (s * resample_size + j) drawn 0%Z in
          let end_col := (col_idx + resample_size)%nat in
          fill_samples d num_samples rng r (S c) (col_idx + resample_size)
            (assign_cols ids_per_sample col_idx end_col current_ids)
      end
  end.

(** bootstrap_sampler.py:98-180.  [empty] is the unspecified content of np.empty.
    The result is the number of columns and the entries. *)
Definition create_cross_sectional_bootstrap_samples (obs alts choice : list Z) (num_samples : nat)
    (seed : seed_arg) (rng : nat -> nat -> nat) (empty : zarr) : Res (nat * zarr) :=
  let d := relate_obs_ids_to_chosen_alts obs alts choice in
  let (num_obs_per_group, tot_num_obs) := get_num_obs_choosing_each_alternative d in
  do _ <- match seed with SeedOther => Err ValueError | _ => Ok tt end;
  do ids <- fill_samples d num_samples rng num_obs_per_group 0 0 empty;
  Ok (tot_num_obs, ids).

(** bootstrap_sampler.py:183-207, one row *)
Definition create_bootstrap_id_array (n_rows n_cols : nat) : list (list Z) :=
  repeat (map (fun k => Z.of_nat (k + 1)) (seq 0 n_cols)) n_rows.

(** [df.loc[mask]]: the rows where the mask holds *)
Definition filter_rows (mask : list bool) (f : frame) : frame :=
  mkFrame (length (filter (fun b : bool => b) mask)) (map (fun kv => (fst kv, select mask (snd kv))) (f_ints f))
    (map (fun kv => (fst kv, select mask (snd kv))) (f_reals f)).

(** bootstrap_sampler.py:210-245 *)
Definition create_deepcopied_groupby_dict (f : frame) (obs_id_col : string) : Res (list (Z * frame)) :=
  do obs <- int_col f obs_id_col;
  Ok (map (fun o => (o, filter_rows (map (fun x => (x =? o)%Z) obs) f)) (np_unique obs)).

(** bootstrap_sampler.py:248-276 *)
Definition check_column_existence (col : string) (f : frame) (presence : bool) : Res unit :=
  if presence then (if has_col f col then Ok tt else Err ValueError)
  else (if has_col f col then Err ValueError else Ok tt).

(** bootstrap_sampler.py:279-301 *)
Definition ensure_resampled_obs_ids_in_df (resampled orig : list Z) : Res unit :=
  if forallb (fun x => zmem x orig) resampled then Ok tt else Err ValueError.

(** [df[col] = number], for a column that does not exist yet *)
Definition add_constant_column (col : string) (v : Z) (f : frame) : frame :=
  mkFrame (f_rows f) (f_ints f ++ [(col, repeat v (f_rows f))]) (f_reals f).

(** pd.concat(frames, axis=0, ignore_index=True) of frames with the same columns *)
Definition column_or_empty {A} (c : string) (l : list (string * list A)) : list A :=
  match assoc c l with Some v => v | None => [] end.
Definition concat_frames (l : list frame) : Res frame :=
  match l with
  | [] => Err ValueError
  | f :: _ =>
      Ok (mkFrame (fold_right Nat.add 0%nat (map f_rows l))
            (map (fun kv => (fst kv, flat_map (fun g => column_or_empty (fst kv) (f_ints g)) l)) (f_ints f))
            (map (fun kv => (fst kv, flat_map (fun g => column_or_empty (fst kv) (f_reals g)) l)) (f_reals f)))
  end.

(** bootstrap_sampler.py:304-363 *)
Definition create_bootstrap_dataframe (f : frame) (obs_id_col : string) (resampled : list Z)
    (groupby_dict : list (Z * frame)) (boot_id_col : string) : Res frame :=
  do _ <- check_column_existence obs_id_col f true;
  do _ <- check_column_existence boot_id_col f false;
  do obs <- int_col f obs_id_col;
  do _ <- ensure_resampled_obs_ids_in_df resampled obs;
  do component_dfs <- mapM (fun bo =>
      match dict_get Z.eqb groupby_dict (snd bo) with
      | None => Err KeyError
      | Some extracted => Ok (add_constant_column boot_id_col (Z.of_nat (fst bo + 1)) extracted)
      end) (combine (seq 0 (length resampled)) resampled);
  concat_frames component_dfs.
