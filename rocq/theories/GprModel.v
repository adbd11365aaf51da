(** Model of the GPR interpolation (src/teflow/mathext.py:271-329, 420-496, 574-575).
    Matrices are functions of row and column index together with their dimensions. *)
From Verif Require Import Py RUtil InterpModel.
Local Open Scope R_scope.

Definition mat := nat -> nat -> R.

(** A kernel: one entry as a function of the column argument u, the row argument v and the
    scale.  Built-in kernels are [kernel_rbf], [kernel_dfx] of FuncModel; a callable may be
    anything elementwise. *)
Definition kern := R -> R -> R -> R.

(** [scale] argument: scalar or one-dimensional array. *)
Inductive scale := Sc (s : R) | SVec (l : list R).
(** [regular] argument: scalar, one-dimensional array, or matrix. *)
Inductive reg := RSc (r : R) | RVec (l : list R) | RMat (m : mat).

(** [kernel(u, v, scale)]: [np.meshgrid(u, v)] has len(v) rows and len(u) columns and the scale
    is broadcast against it along the last axis (402-418).  Result: number of columns, entries. *)
Definition kern_grid (K : kern) (u v : list R) (s : scale) : res (nat * mat) :=
  match s with
  | Sc s => Ok (length u, fun i j => K (nth j u 0) (nth i v 0) s)
  | SVec l =>
      if length l =? length u then Ok (length u, fun i j => K (nth j u 0) (nth i v 0) (nth j l 0))
      else if length l =? 1 then Ok (length u, fun i j => K (nth j u 0) (nth i v 0) (nth 0 l 0))
      else if length u =? 1 then Ok (length l, fun i j => K (nth 0 u 0) (nth i v 0) (nth j l 0))
      else Err ValueError
  end.

(** [A + regular] for an n x n matrix A (429). *)
Definition add_reg (n : nat) (A : mat) (r : reg) : res mat :=
  match r with
  | RSc r => Ok (fun i j => A i j + r)
  | RVec l => if (length l =? n)%nat then Ok (fun i j => A i j + nth j l 0)
              else if (length l =? 1)%nat then Ok (fun i j => A i j + nth 0 l 0) else Err ValueError
  | RMat m => Ok (fun i j => A i j + m i j)
  end.

(** [np.diag(np.asarray(regular) * np.ones(n))] (491) *)
Definition diag_reg (n : nat) (r : reg) : res reg :=
  let d := fun (f : nat -> R) => RMat (fun i j => if (i =? j)%nat then f i else 0) in
  match r with
  | RSc r => Ok (d (fun _ => r))
  | RVec l => if (length l =? n)%nat then Ok (d (fun i => nth i l 0))
              else if (length l =? 1)%nat then Ok (d (fun _ => nth 0 l 0)) else Err ValueError
  | RMat _ => Err ValueError          (* two-dimensional [regular]: not modelled *)
  end.

(** sum over indices below n *)
Definition sumn (n : nat) (f : nat -> R) : R := sumR (map f (seq 0 n)).

Section Solver.
(** [scipy.linalg.solve(A, B, assume_a='pos')]: size n, matrix, number of right-hand sides,
    right-hand sides; [Err] when the factorisation fails. *)
Variable lsolve : nat -> mat -> nat -> mat -> res mat.

(** [_interp_gpr] (420-432); [K] is the kernel used for the right-hand sides (its gradient when
    [gradient=True]), [K0] the plain kernel.  [xp] is the flattened query array. *)
Definition interp_gpr_raw (K0 K : kern) (x y xp : list R) (s : scale) (r : reg) : res (list R) :=
  let n := length x in
  let! (ca, A) := kern_grid K0 x x s in
  if negb (ca =? n)%nat then Err ValueError else
  let! A := add_reg n A r in
  let! (cb, B) := kern_grid K xp x s in
  let! W := lsolve n A cb B in
  let out := map (fun p => sumn n (fun i => nth i y 0 * W i p)) (seq 0 cb) in
  if (cb =? length xp)%nat then Ok out else Err ValueError.              (* np.reshape *)

(** [interp_gpr] (434-496) on one-dimensional x and y of equal length. *)
Definition interp_gpr (K0 K : kern) (x y xp : list R) (s : scale) (r : reg) : res (list R) :=
  let! d := diag_reg (length x) r in
  interp_gpr_raw K0 K x y xp s d.

(** [vinterp(x, y, xp, method='gpr', **kwargs)] (574-575, 646-648): the keyword arguments go to
    [_interp_gpr] unchanged, which has no default for [kernel]. *)
Definition gpr_kwargs : Type := option (kern * kern) * scale * reg.
Definition gpr_vect (kw : gpr_kwargs) (x y xp : list R) : res (list R) :=
  match kw with
  | (None, _, _) => Err TypeError
  | (Some (K0, K), s, r) => interp_gpr_raw K0 K x y xp s r
  end.
Definition vinterp_gpr (kw : gpr_kwargs) (x y xp : list (option R)) (reorder : bool) : res (list R) :=
  match vinterp (gpr_vect kw) x [y] xp reorder with
  | Ok [o] => o
  | Ok _ => Err ValueError
  | Err e => Err e
  end.

(** [mapping] (271-329), predicted values; scalar scales. *)
Definition mapping (K : kern) (xs ys zs px py : list R) (sx sy : R) (r : reg) : res (list R) :=
  let n := length xs in
  let! A := add_reg n (fun i j => K (nth j xs 0) (nth i xs 0) sx * K (nth j ys 0) (nth i ys 0) sy) r in
  let! W := lsolve n A (length px) (fun i p => K (nth p px 0) (nth i xs 0) sx * K (nth p py 0) (nth i ys 0) sy) in
  Ok (map (fun p => sumn n (fun i => nth i zs 0 * W i p)) (seq 0 (length px))).
End Solver.
