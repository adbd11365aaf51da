(** Specification vocabulary for the carriers of several bands as a function of the Fermi level. *)
From Coq Require Import Reals.
From Coquelicot Require Import Coquelicot.
From Verif Require Import Py RombModel BandModel RconvSpec NdosSpec.
Local Open Scope R_scope.
(** [idos] is the integral of a density of states that is positive above the band edge and does not fall with the energy; there is no end to the states *)
Definition rising_band (idos : R -> R) : Prop :=
  exists dos : R -> R, continuous_up dos /\ (forall E, 0 < E -> 0 < dos E) /\ (forall E E', 0 < E -> E <= E' -> dos E <= dos E')
    /\ continuous_up idos /\ power_bounded idos /\ antiderivative idos dos /\ is_lim idos p_infty p_infty.
(** uncompiled bands number 0, 1, ... with their [idos] and their sign (-1 conduction, 1 valence); the quadratures have [ndiv] refinements, the code's 6 *)
Definition bands_of (idos : nat -> R -> R) (sign : nat -> R) (ndiv : nat) : heap := fun i =>
  {| b_raw := {| r_N := fun EF T => romb_dfx (fun E _ => idos i E) EF T 0 ndiv; r_K := fun _ _ _ => 0; r_H := None |}; b_sign := sign i; b_cache := None |}.
(** the carriers [N(EF, T)] of the MultiBands of the listed bands (number, offset) approach [N EF] as the quadrature is refined *)
Definition carriers (idos : nat -> R -> R) (sign : nat -> R) (items : list (nat * R)) (T : R) (N : R -> R) : Prop :=
  forall EF, exists s : nat -> R, is_lim_seq s (N EF)
    /\ forall ndiv, method (self_multi (bands_of idos sign ndiv) {| m_items := items; m_cache := None |}) PN (Some EF) (Some T) = Ok (Some (s ndiv)).
