(** Specification vocabulary for tensors: ordinary linear algebra of 3x3 matrices, entry by entry. *)
From Coq Require Import Permutation.
From Verif Require Import Py PyStr RUtil AniModel.
Local Open Scope R_scope.

(** Entry (i,j) with indices 1..3. *)
Definition ent (m : M3) (i j : nat) : R :=
  match i, j with
  | 1, 1 => x11 m | 1, 2 => x12 m | 1, 3 => x13 m
  | 2, 1 => x21 m | 2, 2 => x22 m | 2, 3 => x23 m
  | 3, 1 => x31 m | 3, 2 => x32 m | 3, 3 => x33 m
  | _, _ => 0%R
  end%nat.
(** The symmetric matrix of a Voigt sequence, entry by entry. *)
Definition sym_ent (c : V6) (i j : nat) : R :=
  match Nat.min i j, Nat.max i j with
  | 1, 1 => v11 c | 2, 2 => v22 c | 3, 3 => v33 c
  | 1, 2 => v12 c | 1, 3 => v13 c | 2, 3 => v23 c
  | _, _ => 0%R
  end%nat.
Definition idx : list nat := [1; 2; 3]%nat.
Definition sum3 (f : nat -> R) : R := f 1%nat + f 2%nat + f 3%nat.
Definition delta (i j : nat) : R := if Nat.eqb i j then 1 else 0.

Definition symmetric (m : M3) : Prop := forall i j, ent m i j = ent m j i.
Definition orthogonal (m : M3) : Prop := forall i j, In i idx -> In j idx -> sum3 (fun k => ent m k i * ent m k j) = delta i j.
Definition det3 (f : nat -> nat -> R) : R :=
  f 1%nat 1%nat * (f 2%nat 2%nat * f 3%nat 3%nat - f 2%nat 3%nat * f 3%nat 2%nat)
  - f 1%nat 2%nat * (f 2%nat 1%nat * f 3%nat 3%nat - f 2%nat 3%nat * f 3%nat 1%nat)
  + f 1%nat 3%nat * (f 2%nat 1%nat * f 3%nat 2%nat - f 2%nat 2%nat * f 3%nat 1%nat).
Definition trace (c : V6) : R := v11 c + v22 c + v33 c.
(** sum of the principal 2x2 minors *)
Definition second_invariant (c : V6) : R :=
  v11 c * v22 c - v12 c * v12 c + (v11 c * v33 c - v13 c * v13 c) + (v22 c * v33 c - v23 c * v23 c).
Definition det_sym (c : V6) : R := det3 (sym_ent c).

Definition comp (v : vec) (i : nat) : R :=
  match v, i with (a, _, _), 1%nat => a | (_, b, _), 2%nat => b | (_, _, c), 3%nat => c | _, _ => 0 end.
Definition apply_mat (m : M3) (v : vec) (i : nat) : R := sum3 (fun j => ent m i j * comp v j).
Definition dot3 (u v : vec) : R := sum3 (fun i => comp u i * comp v i).
Definition norm3 (v : vec) : R := sqrt (dot3 v v).
Definition cross (u v : vec) : vec :=
  (comp u 2 * comp v 3 - comp u 3 * comp v 2, comp u 3 * comp v 1 - comp u 1 * comp v 3, comp u 1 * comp v 2 - comp u 2 * comp v 1).
(** quadratic form v^T C v *)
Definition quad (c : V6) (v : vec) : R := sum3 (fun i => sum3 (fun j => comp v i * sym_ent c i j * comp v j)).
Definition positive_definite (c : V6) : Prop := forall v, v <> (0, 0, 0) -> 0 < quad c v.
Definition positive_semidefinite (c : V6) : Prop := forall v, 0 <= quad c v.
Definition identity3 : M3 := mk3 1 0 0 0 1 0 0 0 1.
Definition transpose (m : M3) : M3 := mk3 (x11 m) (x21 m) (x31 m) (x12 m) (x22 m) (x32 m) (x13 m) (x23 m) (x33 m).

(** Rodrigues' rotation of v by the angle t about the unit vector u:
    v cos t + (u x v) sin t + u (u.v)(1 - cos t). *)
Definition rodrigues (u : vec) (t : R) (v : vec) (i : nat) : R :=
  comp v i * cos t + comp (cross u v) i * sin t + comp u i * dot3 u v * (1 - cos t).

(** Layers with positive conductivities and widths. *)
Definition good_layer (x : layer) : Prop := 0 < lC x /\ 0 < lK x /\ 0 < lw x.
Definition between (lo hi : R) (f : layer -> R) (l : list layer) : Prop := forall x, In x l -> lo <= f x <= hi.
