(** Model of the kernel selection of the GPR interpolation and of the likelihood of [mapping]
    (src/teflow/mathext.py:271-329, 420-496, 574-575). *)
From Coq Require Import Reals String Ascii.
From Verif Require Import Py PyStr RUtil InterpModel FuncModel GprModel.
Local Open Scope list_scope.
Local Open Scope R_scope.

(** [str.lower] of an ASCII character *)
Definition lower (c : ascii) : ascii := let n := nat_of_ascii c in if ((65 <=? n) && (n <=? 90))%nat%bool then ascii_of_nat (n + 32) else c.
(** The kernel of a name (311-317, 422-428): one function for values and gradients. *)
Definition kernel_of (name : str) : res (bool -> kern) :=
  let m := List.map lower name in
  if eqb m (S_ "rbf") then Ok kernel_rbf
  else if eqb m (S_ "dfx") then Ok kernel_dfx
  else Err ValueError.

Section Solver.
Variable lsolve : nat -> mat -> nat -> mat -> res mat.
(** [np.linalg.slogdet(A)[1]] *)
Variable logdet : nat -> mat -> R.

(** [interp_gpr(x, y, xp, kernel=name, ...)] (434-496); the keyword defaults are 'rbf', scale 1, regular 0, gradient False *)
Definition interp_named (name : str) (x y xp : list R) (s : scale) (r : reg) (gradient : bool) : res (list R) :=
  let! d := diag_reg (List.length x) r in
  let! K := kernel_of name in
  interp_gpr_raw lsolve (K false) (K gradient) x y xp s d.
(** [vinterp(..., method='gpr', kernel=name, ...)] once its data are in order (574-575, 420-432) *)
Definition vect_named (name : str) (x y xp : list R) (s : scale) (r : reg) (gradient : bool) : res (list R) :=
  let! K := kernel_of name in
  gpr_vect lsolve (Some (K false, K gradient), s, r) x y xp.
(** [mapping] (271-329) with both its results; scalar scales *)
Definition mapping_named (name : str) (xs ys zs px py : list R) (sx sy : R) (r : reg) : res (list R * R) :=
  let! K := kernel_of name in
  let k := K false in
  let n := List.length xs in
  let! pz := mapping lsolve k xs ys zs px py sx sy r in
  let! A := add_reg n (fun i j => k (nth j xs 0) (nth i xs 0) sx * k (nth j ys 0) (nth i ys 0) sy) r in
  let! c := lsolve n A 1 (fun i _ => nth i zs 0) in
  Ok (pz, - (1 / 2) * sumn n (fun i => nth i zs 0 * c i 0%nat) - 1 / 2 * logdet n A - 1 / 2 * INR (List.length zs) * ln (2 * PI)).
End Solver.
