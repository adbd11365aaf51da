(** Specification vocabulary for the order of transport distributions. *)
From Coq Require Import Reals.
From Verif Require Import RconvSpec.
Local Open Scope R_scope.
(** a transport distribution sigma(E, T) that is continuous, grows at most like a power, and is positive above the band edge *)
Definition ordinary (sigma : R -> R -> R) (T : R) : Prop :=
  continuous_up (fun E => sigma E T) /\ power_bounded (fun E => sigma E T) /\ (forall E, 0 < E -> 0 < sigma E T).
(** the ratio tau/sigma does not fall with the energy *)
Definition grows_faster (tau sigma : R -> R -> R) (T : R) : Prop := forall E E', 0 < E -> E <= E' -> tau E T / sigma E T <= tau E' T / sigma E' T.
