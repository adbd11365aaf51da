(** Elementary functions of src/teflow/mathext.py, elementwise (arrays are maps of these). *)
From Verif Require Import Py RUtil.
Local Open Scope R_scope.

(** Results that may be infinite. *)
Inductive xR := Fin (r : R) | PInf | NInf.

(** scipy.special.expit and logit *)
Definition expit (x : R) : R := 1 / (1 + exp (- x)).
(** [None] = nan (argument outside [0,1]) *)
Definition logit (p : R) : option xR :=
  if Rlt_dec p 0 then None else if Rlt_dec 1 p then None
  else if Req_EM_T p 0 then Some NInf else if Req_EM_T p 1 then Some PInf
  else Some (Fin (ln (p / (1 - p)))).
Definition xneg (x : xR) : xR := match x with Fin r => Fin (- r) | PInf => NInf | NInf => PInf end.

(** [fermidirac] (mathext.py:331-354) *)
Definition fermidirac (x : R) : R := expit (- x).
Definition fermidirac_inv (y : R) : option xR := option_map xneg (logit (clip y 0 1)).

(** [smoothstep] (mathext.py:356-400).  [asin] of the standard library is total; arguments
    outside [-1,1] (numpy: nan) are excluded by the guard in the theorems. *)
Definition smoothstep (shift : bool) (x : R) : R :=
  if shift then let c := clip x (-1) 1 in (c - 1) * (c - 1) * (c + 2) / 4
  else let c := clip x 0 1 in c * c * (3 - 2 * c).
Definition smoothstep_inv (shift : bool) (y : R) : R :=
  if shift then 2 * sin (asin (1 - 2 * y) / 3)
  else 1 / 2 - sin (asin (1 - 2 * y) / 3).

(** Kernels (mathext.py:402-418), one entry of the matrix: [u] is the column (meshgrid's
    first) and [v] the row argument. *)
Definition kernel_rbf (gradient : bool) (u v s : R) : R :=
  let conv := exp (- (u - v) ^ 2 / 2 / s ^ 2) in
  if gradient then (v - u) / s ^ 2 * conv else conv.
Definition kernel_dfx (gradient : bool) (u v s : R) : R :=
  let t := tanh ((u - v) / (2 * s)) in
  let conv := 1 - t ^ 2 in
  if gradient then - t / s * conv else conv.
