(** Model of the carrier concentration of a band without [idos]: [_N] (src/teflow/bandlib.py:208-219), second branch, for one pair (EF, T), over exact reals.
    [quad h a b] stands for [vquad(h, a, b)[0]] at one element (scipy's [quad], external; on arrays it is ArrModel.vquad); [b] may be infinite. *)
From Coq Require Import Reals.
From Coquelicot Require Import Coquelicot.
From Verif Require Import Py RUtil FuncModel RombModel.
Local Open Scope R_scope.
Section Ndos.
Variable quad : (R -> R) -> R -> Rbar -> R.
(** the lambda of 213-214 *)
Definition kernel (dos : R -> R) (EF T E : R) : R := dos E * fermidirac ((E - EF) / (kB * T)).
(** [np.maximum(0, EF)] (215) and the two integrals (216-218) *)
Definition count_dos (dos : R -> R) (EF T : R) : R :=
  let sep := Rmax 0 EF in
  let left := quad (kernel dos EF T) 0 (Finite sep) in
  let right := quad (kernel dos EF T) sep p_infty in
  left + right.
(** 211-212: the attribute [use_idos] and whether the class has [idos] decide *)
Definition count (use_idos : bool) (idos : option (R -> R -> R)) (dos : R -> R) (EF T : R) : R :=
  match use_idos, idos with
  | true, Some f => romb_dfx f EF T 0 6
  | _, _ => count_dos dos EF T
  end.
End Ndos.
