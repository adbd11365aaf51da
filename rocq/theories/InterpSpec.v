(** Specification vocabulary for interpolation. *)
From Coq Require Import Sorted.
From Verif Require Import Py RUtil.
Local Open Scope R_scope.

(** nodes (x_i, y_i) with strictly increasing x *)
Definition incr (l : list (R * R)) : Prop := StronglySorted (fun a b => fst a < fst b) l.

(** ordinate at [t] of the straight line through two points *)
Definition chord (p q : R * R) (t : R) : R :=
  (snd p * (fst q - t) + snd q * (t - fst p)) / (fst q - fst p).

(** every row of y has as many entries as x; no NaN or infinity ([None]) *)
Definition rows_ok (x : list (option R)) (y : list (list (option R))) := forall r, In r y -> length r = length x.
Definition all_finite (l : list (option R)) := forall o, In o l -> o <> None.
