(** Model of dot access on [AttrDict] (src/teflow/utils.py:60-82): its [__getattr__] together with Python's own attribute protocol
    ([object.__getattribute__], [__setattr__], [__delattr__], the built-in [hasattr] and [getattr] with a default) and item access of [OrderedDict].
    Simplifications: names are any type with decidable equality; a class attribute is a method (or another non-data descriptor) or a read-only property
    computed from the items, as in [Compound] and [Alloy] (loader.py:324, 430); writable data descriptors ([__dict__], [__class__]) are left out. *)
From Verif Require Import Py PyDict.
Section Attr.
Context {K V : Type} {HK : EqDec K}.
Inductive cattr := Method (m : V) | Property (get : dict K V -> res V).
(** what the class and its bases define under a name *)
Variable cls : K -> option cattr.
(** the items of the dictionary and the instance attributes *)
Record obj := { items : dict K V; inst : dict K V }.
Definition new (d : dict K V) : obj := {| items := d; inst := [] |}.
(** [d[k]] *)
Definition getitem (o : obj) (k : K) : res V := dgetitem (items o) k.
(** [__getattr__] (79-81) *)
Definition dunder_getattr (o : obj) (k : K) : res V := getitem o k.
(** [d.k]: properties, instance attributes, methods, and [__getattr__] after an AttributeError of these *)
Definition generic (o : obj) (k : K) : res V :=
  match cls k with
  | Some (Property g) => g (items o)
  | c => match dget (inst o) k with
         | Some v => Ok v
         | None => match c with Some (Method m) => Ok m | _ => Err AttributeError end
         end
  end.
Definition getattr (o : obj) (k : K) : res V :=
  match generic o k with Err AttributeError => dunder_getattr o k | r => r end.
(** [hasattr(d, k)] and [getattr(d, k, default)]: only AttributeError is caught *)
Definition hasattr (o : obj) (k : K) : res bool :=
  match getattr o k with Ok _ => Ok true | Err AttributeError => Ok false | Err e => Err e end.
Definition getattr_default (o : obj) (k : K) (default : V) : res V :=
  match getattr o k with Err AttributeError => Ok default | r => r end.
(** statements; an exception leaves the object as it was *)
Inductive op := SetItem (k : K) (v : V) | DelItem (k : K) | SetAttr (k : K) (v : V) | DelAttr (k : K).
Definition step (o : obj) (p : op) : res obj :=
  match p with
  | SetItem k v => Ok {| items := dset (items o) k v; inst := inst o |}
  | DelItem k => let! dv := dpop (items o) k in Ok {| items := fst dv; inst := inst o |}
  | SetAttr k v => match cls k with
                   | Some (Property _) => Err AttributeError
                   | _ => Ok {| items := items o; inst := dset (inst o) k v |}
                   end
  | DelAttr k => match cls k with
                 | Some (Property _) => Err AttributeError
                 | _ => if dmem (inst o) k then Ok {| items := items o; inst := dremove (inst o) k |} else Err AttributeError
                 end
  end.
Definition after (o : obj) (p : op) : obj := match step o p with Ok o' => o' | Err _ => o end.
(** the object after a history of statements *)
Definition run (o : obj) (ops : list op) : obj := fold_left after ops o.
End Attr.
