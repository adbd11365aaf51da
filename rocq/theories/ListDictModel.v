(** Model of [ListDict] (src/teflow/utils.py:148-275). *)
From Verif Require Import Py PyDict.

Section LD.
Context {K V : Type} {HK : EqDec K}.

(** An argument that is a [dict] or not ([isinstance(obj, dict)]). *)
Inductive obj := Dict (d : dict K V) | NotDict.

(** utils.py:168-170, the loop [for key in self.keys(): self[key].append(obj[key])].
    [don] are the entries already visited.  A [KeyError] leaves the visited
    entries updated.  Simplification: the lists stored under different keys are
    different list objects (no aliasing). *)
Fixpoint append_loop (don todo : dict K (list V)) (o : dict K V)
  : dict K (list V) * res unit :=
  match todo with
  | [] => (don, Ok tt)
  | (k, l) :: r =>
      match dgetitem o k with
      | Ok v => append_loop (don ++ [(k, l ++ [v])]) r o
      | Err e => (don ++ todo, Err e)
      end
  end.

(** utils.py:154-172 *)
Definition append (d : dict K (list V)) (o : obj) : dict K (list V) * res unit :=
  match o with Dict o => append_loop [] d o | NotDict => (d, Err ValueError) end.

(** utils.py:227-228 and 270-271 *)
Fixpoint as_dicts (objs : list obj) : res (list (dict K V)) :=
  match objs with
  | [] => Ok []
  | Dict d :: r => let! ds := as_dicts r in Ok (d :: ds)
  | NotDict :: _ => Err ValueError
  end.

(** utils.py:229-230 and 272-273: [objs[0].keys()] when no keys are given *)
Definition sel_keys (keys : option (list K)) (ds : list (dict K V)) : res (list K) :=
  match keys with
  | Some ks => Ok ks
  | None => let! d := py_nth ds 0 in Ok (dkeys d)
  end.

(** utils.py:195-235, [merge] with [toarray=False] (with [toarray=True] the
    value lists are additionally wrapped by [np.array]; not modelled). *)
Definition merge (objs : list obj) (keys : option (list K)) : res (dict K (list V)) :=
  let! ds := as_dicts objs in
  let! ks := sel_keys keys ds in
  let! rst := mapM (fun k => let! vs := mapM (fun d => dgetitem d k) ds in Ok (k, vs)) ks in
  Ok (dupdate [] rst).

(** utils.py:238-275: [sum], for values with an addition [add]. *)
Definition sum (add : V -> V -> V) (objs : list obj) (start : V) (keys : option (list K))
  : res (dict K V) :=
  let! ds := as_dicts objs in
  let! ks := sel_keys keys ds in
  let! rst := mapM (fun k => let! vs := mapM (fun d => dgetitem d k) ds in
                             Ok (k, fold_left add vs start)) ks in
  Ok (dupdate [] rst).

End LD.
Arguments obj : clear implicits.

(** utils.py:174-192 [extend]: the stored values and the argument's values are lists;
    [list.extend] concatenates. *)
Section Ext.
Context {K A : Type} {HK : EqDec K}.
Fixpoint extend_loop (don todo : dict K (list A)) (o : dict K (list A))
  : dict K (list A) * res unit :=
  match todo with
  | [] => (don, Ok tt)
  | (k, l) :: r =>
      match dgetitem o k with
      | Ok v => extend_loop (don ++ [(k, l ++ v)]) r o
      | Err e => (don ++ todo, Err e)
      end
  end.
Definition extend (d : dict K (list A)) (o : obj K (list A)) : dict K (list A) * res unit :=
  match o with Dict o => extend_loop [] d o | NotDict => (d, Err ValueError) end.
End Ext.
