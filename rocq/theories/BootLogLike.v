(** Model of the diagnostics of the Boot class, src/pylogit/bootstrap.py:500-660:
    log-likelihoods and gradient norms of the replicates, evaluated on the original data.

    [np.log] is Coq's [ln]: the chosen probabilities are positive (no underflow; see
    ChoiceCalcs.v).  Storing the result on the object and progress bars are omitted. *)
From Coq Require Import String ZArith List Reals Lia Arith.
From Verif Require Import Res Vec Arr Nd Ids Mappings Frame ChoiceTools BaseModel ChoiceCalcs Transforms LongData
  NestedCalcs MixedCalcs Estimation Predict PredictNd.
Import ListNotations.
Local Open Scope R_scope.

(** The values of a table of replicates: one row per replicate, one column per parameter. *)
Record rep_table := mkReps { rp_rows : nat; rp_cols : nat; rp_get : mat }.
(** The table made of the lists of estimates of generate_*_replicates (BootMle.v); the
    columns are the parameters of the model. *)
Definition reps_of (num_params : nat) (l : list (list R)) : rep_table :=
  mkReps (length l) num_params (fun r j => nth j (nth r l []) 0).
Definition rep_row (t : rep_table) (r : nat) : arr := mkArr (rp_cols t) (rp_get t r).

(** bootstrap.py:126-137: [replicates[:, lo:lo+num].T], inserted in front of the list;
    numpy cuts the slice at the last column *)
Definition pl_step (t : rep_table) (st : nat * list (option nd)) (num : nat) : nat * list (option nd) :=
  let (lo, l) := st in
  if (num =? 0)%nat then (lo, None :: l)
  else ((lo + num)%nat,
        Some (A2 (Nat.min num (rp_cols t - lo)) (rp_rows t) (fun i r => rp_get t r (lo + i)%nat)) :: l).
(** bootstrap.py:81-138 *)
Definition get_param_list_for_prediction (m : model_names) (t : rep_table) : list (option nd) :=
  snd (fold_left (pl_step t)
         [num_names (mn_nests m); num_names (mn_shapes m); num_names (mn_intercepts m);
          length (mn_index m)] (0%nat, [])).

(** bootstrap.py:141-149 and the look-up of the table (lines 534, 647), None before the
    replicates have been generated *)
Definition replicates_named (which : string) (boots jacks : option rep_table) : Res rep_table :=
  do t <- (if String.eqb which "bootstrap" then Ok boots
           else if String.eqb which "jackknife" then Ok jacks
           else Err ValueError);
  match t with Some t => Ok t | None => Err AttributeError end.

(** [np.log(x).sum(axis=0)]; for a one-dimensional array the result is a scalar, here an
    array of length one *)
Definition log_sum0 (x : nd) : arr :=
  match x with
  | A1 n f => mkArr 1 (fun _ => sumn n (fun i => ln (f i)))
  | A2 n m f => mkArr m (fun j => sumn n (fun i => ln (f i j)))
  end.

(** [x.ravel()] of the single-replicate arrays, lines 568-569 *)
Definition one_replicate (m : model_names) (t : rep_table) (r : nat) : list (option arr) :=
  map (option_map (column 0)) (get_param_list_for_prediction m (mkReps 1 (rp_cols t) (fun _ => rp_get t r))).

(** bootstrap.py:500-592.  [m], [f] and [choice] are the model object, its table and its
    choice column; [rvs r] are the draws of the r-th call of predict, which are the same
    for all [r] when a seed is given. *)
Definition calc_log_likes_for_replicates (m : fitted_model) (f : frame) (choice : string)
    (boots jacks : option rep_table) (which : string) (num_draws : option nat) (rvs : nat -> nat -> mat) : Res arr :=
  do t <- replicates_named which boots jacks;
  match fm_class m with
  | ClassLogit k =>
      do p <- predict_nd k m f (Some (get_param_list_for_prediction (fm_names m) t)) false (Some choice);
      match p with
      | NChosen c => Ok (log_sum0 c)
      | _ => Err TypeError           (* not returned for return_long_probs=False *)
      end
  | _ =>
      do cols <- mapM (fun r =>
                   do p <- predict m f (Some (one_replicate (fm_names m) t r)) false (Some choice) num_draws (rvs r);
                   match p with
                   | ChosenProbs c => Ok c
                   | _ => Err TypeError
                   end) (seq 0 (rp_rows t));
      do _ <- (if (rp_rows t =? 0)%nat then Err ValueError else Ok tt);     (* np.concatenate([]) *)
      do ids <- int_col f (fm_obs_col m);
      Ok (log_sum0 (A2 (length (first_seen ids)) (rp_rows t) (fun i r => nth r cols (fun _ => 0) i)))
  end.

(** bootstrap.py:594-660.  [mle] is mle_params.values; the draws of a mixed logit are
    those of its design_3d. *)
Definition calc_gradient_norm_for_replicates (mo : model_obj) (num_draws : nat) (rvs : nat -> mat) (mle : arr)
    (boots jacks : option rep_table) (which : string) (ridge : ridge_arg) (constrained : option (list Z))
    (w : weights_arg) : Res (list R) :=
  do _ <- (if (String.eqb which "bootstrap" || String.eqb which "jackknife")%bool then Ok tt else Err ValueError);
  do e <- create_estimation_obj mo num_draws rvs mle ridge constrained w;
  do t <- replicates_named which boots jacks;
  mapM (fun r =>
    do g <- est_grad (e_core e) (rep_row t r);
    Ok (sqrt (sumn (alen g) (fun j => Rsqr (aget g j))))) (seq 0 (rp_rows t)).
