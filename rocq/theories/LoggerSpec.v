(** What the history of [get_root_logger] calls asks for, independently of the tables. *)
From Coq Require Import List String Sorted.
From Verif Require Import LoggerModel.
Import ListNotations.

Inductive dest := Console | File (name : string).

(** One event per requested destination: package, destination, success. *)
Definition events_of (c : call) : list (string * dest * bool) :=
  (if c_stdout c then [(c_pkg c, Console, true)] else [])
  ++ match c_file c with Some (f, ok) => [(c_pkg c, File f, ok)] | None => [] end.
Definition events (h : list call) : list (string * dest * bool) := flat_map events_of h.

(** Handler [i] (the one made by the [i]-th request) is the most recent request for a
    destination of package [p], where destinations are compared by [same]. *)
Definition most_recent (same : dest -> dest -> Prop) (h : list call) (p : string) (i : nat) : Prop :=
  exists d, nth_error (events h) i = Some (p, d, true)
    /\ forall j d' ok, i < j -> same d d' -> nth_error (events h) j <> Some (p, d', ok).

(** The name under which a destination is registered. *)
Definition token (d : dest) : string := match d with Console => "console"%string | File f => f end.
Definition same_token (d d' : dest) : Prop := token d = token d'.
