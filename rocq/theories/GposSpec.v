(** Specification vocabulary for positive definite matrices; no reference to the code's helpers. *)
From Coq Require Import Reals.
From Verif Require Import Py RUtil GprModel GprSpec.
Local Open Scope R_scope.

Definition symmetric (n : nat) (A : mat) : Prop := forall i j, (i < n)%nat -> (j < n)%nat -> A i j = A j i.
(** w^T A w *)
Definition form (n : nat) (A : mat) (w : nat -> R) : R := sumn n (fun i => sumn n (fun j => w i * A i j * w j)).
Definition positive_definite (n : nat) (A : mat) : Prop :=
  symmetric n A /\ forall w, (exists i, (i < n)%nat /\ w i <> 0) -> 0 < form n A w.
(** What [scipy.linalg.solve(assume_a='pos')] promises in exact arithmetic: what it returns is a solution, and it
    returns on every symmetric positive definite matrix. *)
Definition pos_solver (lsolve : nat -> mat -> nat -> mat -> res mat) : Prop :=
  exact_solver lsolve /\ forall n A c B, positive_definite n A -> exists W, lsolve n A c B = Ok W.
(** The two built-in kernels as documented. *)
Definition gaussian (u v s : R) : R := exp (- (1 / 2) * ((u - v) / s) ^ 2).
Definition fermi_window (u v s : R) : R := 4 * exp ((u - v) / s) / (1 + exp ((u - v) / s)) ^ 2.
(** Regularisation per data point, as documented: a number for all of them, or an array with one number for each. *)
Inductive per_point (n : nat) : reg -> (nat -> R) -> Prop :=
| pp_number v : per_point n (RSc v) (fun _ => v)
| pp_array l : length l = n -> per_point n (RVec l) (fun i => nth i l 0)
| pp_single v : per_point n (RVec [v]) (fun _ => v).
