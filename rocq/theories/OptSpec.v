(** Specification vocabulary: the power factor that Boltzmann transport theory gives a transport distribution. *)
From Coq Require Import Reals.
From Coquelicot Require Import Coquelicot.
From Verif Require Import RombModel RconvSpec.
Local Open Scope R_scope.

(** P, in uW/(cm K^2), is the power factor of the transport distribution sigma(E, T) (in S/cm) at the Fermi level EF (in eV) and the
    temperature T (in K): the conductivity K0 times the square of the Seebeck coefficient 1e6 (k/e) K1/K0 (in uV/K), where K0 and K1 are
    the integrals over all energies above the band edge of the distribution, and of the distribution times (E-EF)/kT, in the window -df/dE *)
Definition power_factor (sigma : R -> R -> R) (EF T P : R) : Prop :=
  exists K0 K1, fermi_integral (fun E => sigma E T) EF T 0 K0 /\ fermi_integral (fun E => sigma E T) EF T 1 K1
    /\ 0 < K0 /\ P = 1e-6 * K0 * (1e6 * kB * (K1 / K0)) ^ 2.
