(** Model of what a model object shows of its estimation: print_summaries and
    get_statsmodels_summary (base_multinomial_cm_v2.py:1556-1572 and 1625-1706), and the
    file name used by to_pickle (1974-1998).  They read the attributes that fit_mle has set
    and change nothing. *)
From Coq Require Import String Ascii ZArith List Reals Lia Arith Bool.
From Verif Require Import Res ObjectStore Session.
Import ListNotations.
Local Open Scope string_scope.

(** [hasattr(self, n)] *)
Definition hasattr (o : attrs) (n : string) : bool := match o n with Some _ => true | None => false end.
(** [self.n] *)
Definition getattr (o : attrs) (n : string) : Res aval := match o n with Some v => Ok v | None => Err AttributeError end.
Fixpoint getattrs (o : attrs) (l : list string) : Res (list (string * aval)) :=
  match l with
  | [] => Ok []
  | n :: r => do v <- getattr o n; do t <- getattrs o r; Ok ((n, v) :: t)
  end.

(** base_multinomial_cm_v2.py:1556-1572: the two tables that are printed *)
Definition print_summaries (o : attrs) : Res (aval * aval) :=
  if (hasattr o "fit_summary" && hasattr o "summary")%bool then
    do f <- getattr o "fit_summary"; do t <- getattr o "summary"; Ok (f, t)
  else Err NotImplementedError.

Inductive report_shown :=
| Printed (fit_summary summary : aval)
| Report (cells : list (string * aval)).

(** base_multinomial_cm_v2.py:1672-1705, in the order in which they are read; the last six
    are those that statsmodels' add_table_params reads from the object it is given (params,
    bse, tvalues and pvalues, and params and standard_errors in conf_int, 1574-1623).  The
    layout of the report is statsmodels' and not modelled. *)
Definition reported : list string :=
  ["aic"; "bic"; "nobs"; "df_resid"; "df_model"; "rho_squared"; "rho_bar_squared"; "llf"; "null_log_likelihood";
   "params"; "bse"; "tvalues"; "pvalues"; "standard_errors"].

(** base_multinomial_cm_v2.py:1625-1706; [installed]: statsmodels can be imported *)
Definition get_statsmodels_summary (installed : bool) (o : attrs) : Res report_shown :=
  if installed then
    if hasattr o "estimation_success" then do c <- getattrs o reported; Ok (Report c)
    else Err NotImplementedError
  else do r <- print_summaries o; Ok (Printed (fst r) (snd r)).

(** The same calls on an object of a session. *)
Definition print_summaries_of (s : session) (i : nat) : Res (aval * aval) :=
  match nth_error (s_objs s) i with Some o => print_summaries (ob_attrs o) | None => Err NameError end.
Definition statsmodels_summary_of (installed : bool) (s : session) (i : nat) : Res report_shown :=
  match nth_error (s_objs s) i with Some o => get_statsmodels_summary installed (ob_attrs o) | None => Err NameError end.

(** [s.endswith(t)] *)
Definition endswith (s t : string) : bool :=
  if (String.length t <=? String.length s)%nat
  then String.eqb (substring (String.length s - String.length t) (String.length t) s) t
  else false.

(** base_multinomial_cm_v2.py:1989-1993: the file that to_pickle writes, for a string *)
Definition pickle_path (filepath : string) : string :=
  if endswith filepath ".pkl" then filepath else (filepath ++ ".pkl")%string.
