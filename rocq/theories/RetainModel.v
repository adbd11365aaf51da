(** Model of [AttrDict.retain] (src/teflow/utils.py:84-145). *)
From Verif Require Import Py PyDict.

Section Retain.
Context {K V : Type} {HK : EqDec K}.

(** The [keys] argument (utils.py:121, 127): what [isinstance] sees of it.
    [NotIterable]: any object that is not an [Iterable];
    [Iter l]: an iterable that is not a [Sequence] (set, generator, dict, ...)
    producing the elements [l];  [Seq l]: a [Sequence] with the elements [l]
    (a string is a sequence of one-character strings). *)
Inductive keys_arg := NotIterable | Iter (l : list K) | Seq (l : list K).

(** utils.py:124  [{key: self.pop(key) for key in set(self) - set(keys)}].
    A Python set has no specified iteration order, so the order [ord] in which
    the difference set is visited is an argument of the model. *)
Fixpoint pop_all (ord : list K) (d popped : dict K V) : res (dict K V * dict K V) :=
  match ord with
  | [] => Ok (d, popped)
  | k :: r => let! dv := dpop d k in pop_all r (fst dv) (dset popped k (snd dv))
  end.

(** utils.py:130  [{key: index for index, key in enumerate(keys)}]
    (a repeated key keeps its last index). *)
Fixpoint enumerate_from {A} (n : nat) (l : list A) : list (nat * A) :=
  match l with [] => [] | x :: r => (n, x) :: enumerate_from (S n) r end.
Definition indices_of (keys : list K) : dict K nat :=
  dupdate [] (map (fun ik => (snd ik, fst ik)) (enumerate_from 0 keys)).

(** utils.py:131  [[(indices[key], key) for key in self]] *)
Definition numbered (indices : dict K nat) (d : dict K V) : res (list (nat * K)) :=
  mapM (fun k => let! i := dgetitem indices k in Ok (i, k)) (dkeys d).

(** utils.py:133-140.  The loop state is ([num_ordered], [to_move]). *)
Fixpoint collect_moves (sorted_number : list (nat * K)) (number : list (nat * K))
    (num_ordered : nat) (to_move : list (nat * K)) : res (list (nat * K)) :=
  match number with
  | [] => Ok to_move
  | (num, key) :: r =>
      let! s := py_nth sorted_number num_ordered in
      if num =? fst s
      then collect_moves sorted_number r (S num_ordered) to_move
      else collect_moves sorted_number r num_ordered (to_move ++ [(num, key)])
  end.

(** utils.py:142-143 *)
Fixpoint move_all (ks : list K) (d : dict K V) : res (dict K V) :=
  match ks with
  | [] => Ok d
  | k :: r => let! d' := dmove_to_end d k in move_all r d'
  end.

(** utils.py:130-143, the [match_order] branch.  [sorted] on the tuples
    [(num, key)] is modelled as sorting by [num]: the indices of distinct keys
    are distinct, so Python never compares two keys. *)
Definition reorder (keys : list K) (d : dict K V) : res (dict K V) :=
  let! number := numbered (indices_of keys) d in
  let! to_move := collect_moves (sort_by fst number) number 0 [] in
  move_all (map snd (sort_by fst to_move)) d.

(** The whole method: the dictionary left behind, and the returned/raised value.
    [reorder] mutates [self] only through [move_all], whose failure is proved
    impossible; on such a failure the model leaves the popped-from dictionary. *)
Definition retain (ord : list K) (d : dict K V) (keys : keys_arg) (match_order : bool)
  : dict K V * res (dict K V) :=
  match keys with
  | NotIterable => (d, Err TypeError)                       (* utils.py:121-122 *)
  | Iter l | Seq l =>
    match pop_all ord d [] with                             (* utils.py:124 *)
    | Err e => (d, Err e)
    | Ok (d1, popped) =>
      if match_order then
        match keys with
        | Seq l =>
          match reorder l d1 with
          | Ok d2 => (d2, Ok popped)                        (* utils.py:130-145 *)
          | Err e => (d1, Err e)
          end
        | _ => (d1, Err TypeError)                          (* utils.py:127-129 *)
        end
      else (d1, Ok popped)
    end
  end.

Definition keys_list (k : keys_arg) : list K :=
  match k with NotIterable => [] | Iter l | Seq l => l end.

(** An admissible visiting order of [set(self) - set(keys)]: every key of the
    dictionary that is not listed, once. *)
Definition set_difference_order (ord : list K) (d : dict K V) (l : list K) : Prop :=
  NoDup ord /\ forall k, In k ord <-> In k (dkeys d) /\ ~ In k l.

End Retain.
Arguments keys_arg : clear implicits.
