(** Model of the interval methods of the Boot class, src/pylogit/bootstrap.py:168-184 and
    666-882: what is stored on the object, under which labels, and what is left there when
    a call raises.

    [fmt] is the number formatting ['{:.3g}%'.format]; it only enters the column labels.
    Printing and flushing are omitted. *)
From Coq Require Import String ZArith List Reals Lia Arith.
From Verif Require Import Res Vec Arr Frame BootCalcs BootAbc BootLogLike.
Import ListNotations.
Local Open Scope R_scope.

(** A stored table of intervals: row labels (parameter names), the two column labels and
    the two columns, by row. *)
Record itable := mkIT { it_index : list string; it_cols : string * string; it_vals : list (R * R) }.
(** The combined table: row labels, two-level column labels, rows. *)
Record atable := mkAT { at_index : list string; at_cols : list (string * string); at_vals : list (list R) }.

(** The attributes of a Boot object that the methods below read or write
    (bootstrap.py:168-184); None before anything has been stored. *)
Record bstate := mkBS {
  bs_names : list string;                 (* mle_params.index *)
  bs_mle : list R;                        (* mle_params.values *)
  bs_boot : option rep_table;             (* bootstrap_replicates *)
  bs_jack : option rep_table;             (* jackknife_replicates *)
  bs_pi : option itable;                  (* percentile_interval *)
  bs_bca : option itable;                 (* bca_interval *)
  bs_abc : option itable;                 (* abc_interval *)
  bs_all : option atable }.               (* all_intervals *)

Definition set_pi (s : bstate) t := mkBS (bs_names s) (bs_mle s) (bs_boot s) (bs_jack s) (Some t) (bs_bca s) (bs_abc s) (bs_all s).
Definition set_bca (s : bstate) t := mkBS (bs_names s) (bs_mle s) (bs_boot s) (bs_jack s) (bs_pi s) (Some t) (bs_abc s) (bs_all s).
Definition set_abc (s : bstate) t := mkBS (bs_names s) (bs_mle s) (bs_boot s) (bs_jack s) (bs_pi s) (bs_bca s) (Some t) (bs_all s).
Definition set_all (s : bstate) t := mkBS (bs_names s) (bs_mle s) (bs_boot s) (bs_jack s) (bs_pi s) (bs_bca s) (bs_abc s) (Some t).
(** The assignments at the end of generate_bootstrap_replicates (bootstrap.py:355-359) and
    generate_jackknife_replicates (bootstrap.py:494-498). *)
Definition set_boot (s : bstate) r := mkBS (bs_names s) (bs_mle s) (Some r) (bs_jack s) (bs_pi s) (bs_bca s) (bs_abc s) (bs_all s).
Definition set_jack (s : bstate) r := mkBS (bs_names s) (bs_mle s) (bs_boot s) (Some r) (bs_pi s) (bs_bca s) (bs_abc s) (bs_all s).

(** A method call: the object afterwards, and the exception if one was raised.  What was
    stored before the exception stays stored. *)
Definition mrun := bstate -> bstate * Res unit.
Definition and_then (a b : mrun) : mrun :=
  fun s => let (s', r) := a s in match r with Ok _ => b s' | Err e => (s', Err e) end.
Definition stores {A} (r : Res A) (set : bstate -> A -> bstate) : mrun :=
  fun s => match r with Ok t => (set s t, Ok tt) | Err e => (s, Err e) end.

Section Methods.
  Variables (fmt : R -> string) (nd : normal_dist).

  (** bc.get_alpha_from_conf_percentage: [100.0 - conf_percentage] of something that is not
      a number raises TypeError *)
  Definition alpha_of (conf : conf_arg) : Res R :=
    match conf with ConfNumber c => Ok (get_alpha_from_conf_percentage c) | ConfOther => Err TypeError end.
  (** bootstrap.py:686-688, 726-728, 774-776 and 860-861 *)
  Definition endpoint_names (alpha : R) : string * string := (fmt (alpha / 2), fmt (100 - alpha / 2)).

  (** [replicates.values]: None has no such attribute *)
  Definition values (t : option rep_table) : Res rep_table :=
    match t with Some t => Ok t | None => Err AttributeError end.
  Definition samples (t : rep_table) : samples_arg := Samples2D (rp_rows t) (rp_cols t) (rp_get t).

  (** [pd.DataFrame(conf_intervals.T, index=..., columns=...)] *)
  Definition interval_frame (iv : intervals) (index : list string) (cols : string * string) : Res itable :=
    if (length iv =? length index)%nat then Ok (mkIT index cols iv) else Err ValueError.

  (** bootstrap.py:666-699 *)
  Definition percentile_table (conf : conf_arg) (s : bstate) : Res itable :=
    do alpha <- alpha_of conf;
    do b <- values (bs_boot s);
    do iv <- calc_percentile_interval (samples b) conf;
    interval_frame iv (bs_names s) (endpoint_names alpha).
  Definition boot_percentile_interval (conf : conf_arg) : mrun := fun s => stores (percentile_table conf s) set_pi s.

  (** bootstrap.py:701-738.  numpy cannot compare replicates with a different number of
      estimates, nor combine tables of different widths (ValueError). *)
  Definition bca_table (conf : conf_arg) (s : bstate) : Res itable :=
    do alpha <- alpha_of conf;
    do b <- values (bs_boot s);
    do j <- values (bs_jack s);
    if andb (rp_cols b =? length (bs_mle s))%nat (rp_cols j =? length (bs_mle s))%nat
    then do iv <- calc_bca_interval nd (samples b) (samples j) (fun k => nth k (bs_mle s) 0) conf;
         interval_frame iv (bs_names s) (endpoint_names alpha)
    else Err ValueError.
  Definition boot_bca_interval (conf : conf_arg) : mrun := fun s => stores (bca_table conf s) set_bca s.

  (** What calc_abc_interval needs besides the object: the number of observations and the
      mapping of the model's data, the weights among the fit keyword arguments, and the
      re-estimation [fit_mle(init_vals, weights=w, just_point=True, **fit_kwargs)['x']]. *)
  Record abc_env := mkAbc {
    ae_num_obs : nat; ae_rows_to_obs : mat; ae_orig : option vec;
    ae_fit : arr -> xvec -> Res vec }.

  (** bootstrap.py:740-791; [init_vals.shape] of None raises AttributeError, after the
      check of the confidence level (bootstrap_abc.py:1210) *)
  Definition abc_table (env : abc_env) (conf : conf_arg) (init_vals : option arr) (epsilon : R) (s : bstate) : Res itable :=
    do alpha <- alpha_of conf;
    do iv <- match init_vals with
             | None => do _c <- check_conf_percentage_validity conf; Err AttributeError
             | Some init => calc_abc_interval (ae_num_obs env) (ae_rows_to_obs env) (alen init) (ae_orig env)
                              (ae_fit env init) nd (fun k => nth k (bs_mle s) 0) conf epsilon
             end;
    interval_frame iv (bs_names s) (endpoint_names alpha).
  Definition boot_abc_interval (env : abc_env) (conf : conf_arg) (init_vals : option arr) (epsilon : R) : mrun :=
    fun s => stores (abc_table env conf init_vals epsilon s) set_abc s.

  (** bootstrap.py:856-858 and 862-864: [itertools.product] of the interval type names and
      the endpoint names *)
  Definition all_names (ends : string * string) : list (string * string) :=
    list_prod ["percentile_interval"%string; "BCa_interval"%string; "ABC_interval"%string] [fst ends; snd ends].
  (** bootstrap.py:866-870: [pd.concat(axis=1, ignore_index=True)] of three tables that have
      the same row labels (each was made with mle_params.index) puts their rows side by side *)
  Definition side_by_side (p b a : itable) : list (list R) :=
    map (fun r => [fst (fst (fst r)); snd (fst (fst r)); fst (snd (fst r)); snd (snd (fst r)); fst (snd r); snd (snd r)])
        (combine (combine (it_vals p) (it_vals b)) (it_vals a)).
  (** bootstrap.py:853-873; the three tables have been stored just before *)
  Definition all_table (conf : conf_arg) (s : bstate) : Res atable :=
    do alpha <- alpha_of conf;
    match bs_pi s, bs_bca s, bs_abc s with
    | Some p, Some b, Some a => Ok (mkAT (bs_names s) (all_names (endpoint_names alpha)) (side_by_side p b a))
    | _, _, _ => Err ValueError
    end.
  Definition boot_combine (conf : conf_arg) : mrun := fun s => stores (all_table conf s) set_all s.

  (** bootstrap.py:793-882 *)
  Definition calc_conf_intervals (env : abc_env) (conf : conf_arg) (interval_type : string)
      (init_vals : option arr) (epsilon : R) : mrun :=
    if String.eqb interval_type "pi" then boot_percentile_interval conf
    else if String.eqb interval_type "bca" then boot_bca_interval conf
    else if String.eqb interval_type "abc" then boot_abc_interval env conf init_vals epsilon
    else if String.eqb interval_type "all" then
      and_then (boot_percentile_interval conf)
        (and_then (boot_bca_interval conf)
           (and_then (boot_abc_interval env conf init_vals epsilon) (boot_combine conf)))
    else fun s => (s, Err ValueError).
End Methods.
