(** Model of [get_root_logger] (src/teflow/utils.py:25-57). *)
From Coq Require Import String.
From Verif Require Import Py PyDict.

(** One call.  [c_pkg]: the resolved package name (utils.py:35); [c_stdout]; [c_file]: the
    file name if given, together with whether [logging.FileHandler(filename, mode)]
    succeeds (it raises when the file cannot be opened).  Levels and formatters do
    not influence which handlers are attached and are not modelled. *)
Record call := { c_pkg : string; c_stdout : bool; c_file : option (string * bool) }.

(** [next]: number of handlers requested so far; a handler object is identified
    by the number of the request that made it.
    [table]: the module-level [_handlers] (utils.py:25).
    [attached]: per package, [logger.handlers] restricted to the handlers made here. *)
Record st := { next : nat; table : dict (string * string) nat; attached : string -> list nat }.

Definition st0 : st := {| next := 0; table := []; attached := fun _ => [] |}.

Definition upd (f : string -> list nat) (p : string) (l : list nat) : string -> list nat :=
  fun q => if eqb q p then l else f q.

(** [logger.removeHandler(h)]: no effect when [h] is not attached. *)
Definition remove_handler (h : nat) (l : list nat) : list nat := filter (fun x => negb (x =? h)) l.

(** utils.py:38-45 and 47-54: remove the registered handler of the token, make a new one
    (which fails when [ok] is false, leaving the table as it was), attach and register it. *)
Definition request (s : st) (p token : string) (ok : bool) : st :=
  let l := match dget (table s) (p, token) with
           | Some h => remove_handler h (attached s p)
           | None => attached s p
           end in
  if ok
  then {| next := S (next s); table := dset (table s) (p, token) (next s);
          attached := upd (attached s) p (l ++ [next s]) |}
  else {| next := S (next s); table := table s; attached := upd (attached s) p l |}.

Definition get_root_logger (s : st) (c : call) : st :=
  let s1 := if c_stdout c then request s (c_pkg c) "console" true else s in     (* 37-45 *)
  match c_file c with                                                          (* 46-54 *)
  | Some (f, ok) => request s1 (c_pkg c) f ok
  | None => s1
  end.

Definition run (h : list call) : st := fold_left get_root_logger h st0.
