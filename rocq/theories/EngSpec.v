(** Specification vocabulary for the generator model. *)
From Coq Require Import Sorted.
From Verif Require Import Py RUtil ZtModel EngModel.
Local Open Scope R_scope.

(** sum of the trapezoids over consecutive points of a table *)
Fixpoint trapezoids (f : tp -> R) (d : list tp) : R :=
  match d with
  | a :: ((b :: _) as r) => (tT b - tT a) * (f a + f b) / 2 + trapezoids f r
  | _ => 0
  end.

(** [F] is an antiderivative of [f] *)
Definition antiderivative_of (F f : R -> R) : Prop := forall x, derivable_pt_lim F x (f x).

(** positive integrals *)
Definition pos_itgs (i : itgs) : Prop := 0 < iRho i /\ 0 < iK i.
