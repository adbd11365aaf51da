(** Specification vocabulary for the convergence of the Fermi integrals. *)
From Coq Require Import Reals.
From Coquelicot Require Import Coquelicot.
From Verif Require Import Py FuncModel RombModel.
Local Open Scope R_scope.

(** f is continuous on [0, infinity) *)
Definition continuous_up (f : R -> R) : Prop :=
  forall E, 0 <= E -> forall eps, 0 < eps -> exists d, 0 < d /\ forall e, 0 <= e -> Rabs (e - E) < d -> Rabs (f e - f E) < eps.
(** f grows at most like a power *)
Definition power_bounded (f : R -> R) : Prop := exists (C : R) (p : nat), forall E, 0 <= E -> Rabs (f E) <= C * (1 + E) ^ p.
(** minus the derivative of the Fermi-Dirac distribution 1/(1+exp((E-EF)/(kB*T))) with respect to the energy *)
Definition fermi_window (EF T E : R) : R := let x := (E - EF) / (kB * T) in exp x / (1 + exp x) ^ 2 / (kB * T).
(** L is the integral over all energies above the band edge of f(E) ((E-EF)/(kB T))^k times that window *)
Definition fermi_integral (f : R -> R) (EF T : R) (k : nat) (L : R) : Prop :=
  is_lim (fun M => RInt (fun E => f E * ((E - EF) / (kB * T)) ^ k * fermi_window EF T E) 0 M) p_infty L.
