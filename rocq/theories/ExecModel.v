(** Model of [ExecWrapper] (src/teflow/utils.py:404-482). *)
From Verif Require Import Py PyDict.

Section Exec.
Context {K V R : Type} {HK : EqDec K}.

(** utils.py:424-429.  [None] is the private [UNSET] flag.  Simplification: callers
    never pass the private [UNSET] object themselves. *)
Record wrapper := { w_args : dict K (option V); w_opts : dict K (option V) }.

Definition unset_dict (names : list K) : dict K (option V) :=
  dupdate [] (map (fun k => (k, None)) names).

(** utils.py:426-429 *)
Definition init (args opts : list K) : wrapper :=
  {| w_args := unset_dict args; w_opts := unset_dict opts |}.

(** utils.py:441-445; [kwargs] is the keyword dictionary of the call. *)
Definition update1 (w : wrapper) (kv : K * V) : wrapper :=
  if dmem (w_args w) (fst kv)
  then {| w_args := dset (w_args w) (fst kv) (Some (snd kv)); w_opts := w_opts w |}
  else if dmem (w_opts w) (fst kv)
  then {| w_args := w_args w; w_opts := dset (w_opts w) (fst kv) (Some (snd kv)) |}
  else w.
Definition update (w : wrapper) (kwargs : dict K V) : wrapper := fold_left update1 kwargs w.

(** [(k, v) for k, v in d.items() if v is not UNSET] *)
Definition set_items (d : dict K (option V)) : list (K * V) :=
  flat_map (fun kv => match snd kv with Some v => [(fst kv, v)] | None => [] end) d.

(** utils.py:471-482.  [run] is the managed callable applied to the keyword
    arguments: [None] stands for "raises an [Exception]".
    The result pairs the keyword arguments the callable was called with
    (if it was called at all) with the returned/raised value. *)
Definition execute (run : dict K V -> option R) (w : wrapper) (kwargs : dict K V)
  : option (dict K V) * res R :=
  let args_tmp := filter (fun kv => dmem (w_args w) (fst kv)) kwargs in       (* 471 *)
  let arguments := dupdate (w_args w) (map (fun kv => (fst kv, Some (snd kv))) args_tmp) in  (* 472 *)
  if existsb (fun kv => match snd kv with None => true | Some _ => false end) arguments      (* 473-474 *)
  then (None, Err ValueError)                                                 (* 475-476 *)
  else
    let arguments := set_items arguments in        (* all are set here *)
    let arguments := dupdate arguments (set_items (w_opts w)) in              (* 477 *)
    let arguments := dupdate arguments (filter (fun kv => dmem (w_opts w) (fst kv)) kwargs) in (* 478 *)
    match run arguments with                                                  (* 479-482 *)
    | Some r => (Some arguments, Ok r)
    | None => (Some arguments, Err RuntimeError)
    end.

(** A history of calls on one wrapper. *)
Inductive op := Update (kwargs : dict K V) | Execute (kwargs : dict K V).

Definition step (w : wrapper) (o : op) : wrapper :=
  match o with Update kw => update w kw | Execute _ => w end.

Definition after (args opts : list K) (h : list op) : wrapper :=
  fold_left step h (init args opts).

End Exec.
Arguments wrapper : clear implicits.
Arguments op : clear implicits.
