(** Specification vocabulary for the carrier concentration of a band without [idos]. *)
From Coq Require Import Reals.
From Coquelicot Require Import Coquelicot.
From Verif Require Import Py RconvSpec FuncModel RombModel NdosModel.
Local Open Scope R_scope.
(** an ideal integrator: the exact integral of a function continuous on [0, oo), over a finite interval and, when it converges, over an infinite one *)
Definition exact_quad (quad : (R -> R) -> R -> Rbar -> R) : Prop :=
  (forall h a b, 0 <= a <= b -> continuous_up h -> quad h a (Finite b) = RInt h a b)
  /\ (forall h a l, 0 <= a -> continuous_up h -> is_lim (fun M => RInt h a M) p_infty (Finite l) -> quad h a p_infty = l).
(** the Fermi-Dirac occupation of the energy E *)
Definition occupation (EF T E : R) : R := 1 / (1 + exp ((E - EF) / (kB * T))).
(** n is the number of states below infinite energy, weighted by their occupation *)
Definition occupied (dos : R -> R) (EF T n : R) : Prop := is_lim (fun M => RInt (fun E => dos E * occupation EF T E) 0 M) p_infty (Finite n).
(** [idos] is the integral of [dos] *)
Definition antiderivative (idos dos : R -> R) : Prop := idos 0 = 0 /\ forall E, 0 < E -> is_derive idos E (dos E).
