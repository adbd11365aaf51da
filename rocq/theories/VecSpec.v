(** Vocabulary for generator calculations on arrays; no reference to the formulas of the model (only to its record types). *)
From Coq Require Import ZArith Reals.
From Verif Require Import Py PyStr RUtil ArrModel ArrSpec VecModel.
Local Open Scope list_scope.

(** a single number counts as an array of one element *)
Definition dims {X} (A : nd X) : list nat := match shape A with [] => [1%nat] | s => s end.
Definition no_common (ts : list (list nat)) : Prop := forall s, ~ Forall (fun t => fits t s) ts.

(** entries of a result, in a fixed order *)
Definition itgs_entries {Y} (i : vitgs Y) : list Y := [vTc i; vTh i; vDT i; vSc i; vSh i; vRho i; vS i; vK i; vRhoT i; vST i].
Definition mdfs_entries {Y} (m : vmdfs Y) : list Y := [nRho m; nS m; nRhoW m; nSW m; nRhoT m; nST m; n0 m; n1 m; n2 m].
Definition wgts_entries {Y} (w : option (vwgts Y)) : list Y := match w with Some w => [wgJ w; wgT w; wg0 w; wg1 w; wg2 w] | None => [] end.
Definition entries {Y} (p : vprfs Y) : list Y :=
  [vpDT p; vpPFeng p; vpZeng p; vpZTeng p; vpZTp p; vpm p; vpVoc p; vpIsc p; vpQx p] ++ itgs_entries (vpitgs p) ++ mdfs_entries (vpmdfs p) ++ wgts_entries (vpwgts p).
Definition out_entries {Y} (o : vouts Y) : list Y := [voI o; voVout o; voPout o; voQhot o; voYita o].
(** entries that depend on one of the two temperatures only *)
Definition cold_entries {Y} (p : vprfs Y) : list Y := [vTc (vpitgs p); vSc (vpitgs p)].
Definition hot_entries {Y} (p : vprfs Y) : list Y := [vTh (vpitgs p); vSh (vpitgs p)].
(** entries of a pair that depend on the temperatures but not on the ratios *)
Definition temp_entries {Y} (p : vprfs Y) : list Y := [vpDT p; vpVoc p; vDT (vpitgs p); vS (vpitgs p); vST (vpitgs p); nS (vpmdfs p); nSW (vpmdfs p); nST (vpmdfs p); n0 (vpmdfs p)].
Definition main_entries {Y} (p : vprfs Y) : list Y :=
  [vpPFeng p; vpZeng p; vpZTeng p; vpZTp p; vpm p; vpIsc p; vpQx p; vRho (vpitgs p); vK (vpitgs p); vRhoT (vpitgs p); nRho (vpmdfs p); nRhoW (vpmdfs p); nRhoT (vpmdfs p); n1 (vpmdfs p); n2 (vpmdfs p)].
Definition of_shape {X} (s : list nat) (l : list (nd X)) : Prop := Forall (fun A => array A /\ shape A = s) l.
Definition within {X} (s : list nat) (l : list (nd X)) : Prop := Forall (fun A => array A /\ fits (shape A) s) l.
(** the entries show at index [i] the numbers of [l] *)
Definition show {X} (L : list (nd X)) (i : list nat) (l : list X) : Prop := Forall2 (fun A x => sees A i x) L l.
(** the area ratio asked for, at one index *)
Definition ratio_shape {X} (r : vratio (nd X)) : list (list nat) := match r with VNum A => [shape A] | _ => [] end.
Definition ratio_array {X} (r : vratio (nd X)) : Prop := match r with VNum A => array A | _ => True end.
Definition ratio_sees {X} (r : vratio (nd X)) (i : list nat) (x : vratio X) : Prop :=
  match r, x with VZ, VZ => True | VP, VP => True | VNum A, VNum a => sees A i a | _, _ => False end.
