(** Specification vocabulary for [ExecWrapper]: the value a name has "according to
    the history", with no reference to the wrapper's internal dictionaries. *)
From Verif Require Import Py PyDict ExecModel.

Section S.
Context {K V : Type} {HK : EqDec K}.

(** The most recently updated value of [k] in the history (oldest call first). *)
Fixpoint latest (h : list (op K V)) (k : K) : option V :=
  match h with
  | [] => None
  | o :: r => match latest r k with
              | Some v => Some v
              | None => match o with Update kw => dget kw k | Execute _ => None end
              end
  end.

(** The value [k] should take in a call with keywords [kw] after history [h]. *)
Definition effective (h : list (op K V)) (kw : dict K V) (k : K) : option V :=
  match dget kw k with Some v => Some v | None => latest h k end.

Definition op_ok (o : op K V) : Prop := match o with Update kw | Execute kw => wf kw end.
End S.
