(** Specification vocabulary: Seebeck coefficient and Lorenz number that Boltzmann transport theory gives a transport distribution. *)
From Coq Require Import Reals.
From Coquelicot Require Import Coquelicot.
From Verif Require Import RombModel RconvSpec.
Local Open Scope R_scope.

(** K0, K1, K2: the integrals over all energies above the band edge of the distribution sigma(E, T) times 1, (E-EF)/kT and its square in the window -df/dE *)
Definition transport (sigma : R -> R -> R) (EF T K0 K1 K2 : R) : Prop :=
  fermi_integral (fun E => sigma E T) EF T 0 K0 /\ fermi_integral (fun E => sigma E T) EF T 1 K1 /\ fermi_integral (fun E => sigma E T) EF T 2 K2 /\ 0 < K0.
(** Seebeck coefficient and Lorenz number in units of k/e and (k/e)^2 *)
Definition reduced_seebeck (sigma : R -> R -> R) (EF T S : R) : Prop := exists K0 K1 K2, transport sigma EF T K0 K1 K2 /\ S = K1 / K0.
Definition reduced_lorenz (sigma : R -> R -> R) (EF T L : R) : Prop := exists K0 K1 K2, transport sigma EF T K0 K1 K2 /\ L = K2 / K0 - (K1 / K0) ^ 2.
