(** Specification vocabulary for the sign of the Seebeck coefficient. *)
From Coq Require Import Reals.
From Verif Require Import RconvSpec.
Local Open Scope R_scope.
(** a transport distribution sigma(E, T) that is continuous, grows at most like a power, and is positive and does not fall above the band edge *)
Definition rising_transport (sigma : R -> R -> R) (T : R) : Prop :=
  continuous_up (fun E => sigma E T) /\ power_bounded (fun E => sigma E T) /\ (forall E, 0 < E -> 0 < sigma E T) /\ (forall E E', 0 < E -> E <= E' -> sigma E T <= sigma E' T).
(** the Seebeck coefficient, in units of k/e, of a constant distribution above the band edge, with x = EF/kT *)
Definition constant_seebeck (x : R) : R := (1 + exp (- x)) * ln (1 + exp x) - x.
