(** Specification vocabulary for linear solves. *)
From Verif Require Import Py RUtil GprModel.
Local Open Scope R_scope.

(** [W] solves A W = B (n unknowns, c right-hand sides). *)
Definition solves (n : nat) (A : mat) (c : nat) (B W : mat) : Prop :=
  forall i p, (i < n)%nat -> (p < c)%nat -> sumn n (fun j => A i j * W j p) = B i p.

(** A is non-singular. *)
Definition regular_mat (n : nat) (A : mat) : Prop :=
  forall w : nat -> R, (forall i, (i < n)%nat -> sumn n (fun j => A i j * w j) = 0) ->
  forall j, (j < n)%nat -> w j = 0.

(** A linear solver that is exact whenever it returns. *)
Definition exact_solver (lsolve : nat -> mat -> nat -> mat -> res mat) : Prop :=
  forall n A c B W, lsolve n A c B = Ok W -> solves n A c B W.

(** A linear solver that, moreover, succeeds on every non-singular matrix. *)
Definition good_solver (lsolve : nat -> mat -> nat -> mat -> res mat) : Prop :=
  exact_solver lsolve /\ forall n A c B, regular_mat n A -> exists W, lsolve n A c B = Ok W.

Definition mat_eq (n c : nat) (A B : mat) : Prop := forall i j, (i < n)%nat -> (j < c)%nat -> A i j = B i j.
