(** What a history of statements stores and assigns, as finite maps. *)
From Verif Require Import Py PyDict AttrModel.
Section Spec.
Context {K V : Type} {HK : EqDec K}.
Notation map := (K -> option V).
Definition put (m : map) (k : K) (x : option V) : map := fun j => if eqb j k then x else m j.
(** what is under [d[k]]: only [d[k] = v] and [del d[k]] matter *)
Fixpoint stored (m : map) (ops : list (op (K := K) (V := V))) : map :=
  match ops with
  | [] => m
  | SetItem k v :: r => stored (put m k (Some v)) r
  | DelItem k :: r => stored (put m k None) r
  | _ :: r => stored m r
  end.
(** what was assigned by [d.k = v] and not deleted by [del d.k] since *)
Fixpoint assigned (m : map) (ops : list (op (K := K) (V := V))) : map :=
  match ops with
  | [] => m
  | SetAttr k v :: r => assigned (put m k (Some v)) r
  | DelAttr k :: r => assigned (put m k None) r
  | _ :: r => assigned m r
  end.
Definition nothing : map := fun _ => None.
Definition or_keyerror (x : option V) : res V := match x with Some v => Ok v | None => Err KeyError end.
End Spec.
