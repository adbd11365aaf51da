(** Specification of monotone segmentation, in terms of the array only. *)
From Coq Require Import QArith List.
Import ListNotations.

Inductive dir := Up | Down.

(** Step [k] of [x] (from x[k] to x[k+1]) moves in direction [d] by more than [eps]. *)
Definition moves (x : list Q) (eps : Q) (d : dir) (k : nat) : Prop :=
  exists a b, nth_error x k = Some a /\ nth_error x (S k) = Some b /\
    match d with Up => (eps < b - a)%Q | Down => (b - a < - eps)%Q end.

Definition other (d : dir) := match d with Up => Down | Down => Up end.

(** Steps i..j-1 (points i..j) are a maximal interval of direction [d]: first and last step
    move in direction [d], none moves in the other direction, and any other step of direction
    [d] outside is separated from the interval by a step in the other direction. *)
Definition max_interval (x : list Q) (eps : Q) (d : dir) (i j : nat) : Prop :=
  (i < j)%nat
  /\ moves x eps d i /\ moves x eps d (j - 1)
  /\ (forall k, (i <= k < j)%nat -> ~ moves x eps (other d) k)
  /\ (forall k, (j <= k)%nat -> moves x eps d k -> exists m, (j <= m < k)%nat /\ moves x eps (other d) m)
  /\ (forall k, (k < i)%nat -> moves x eps d k -> exists m, (k < m < i)%nat /\ moves x eps (other d) m).

From Coq Require Import Ascii.
(** The [trend] argument by its first letter, in either case. *)
Definition first_letter (s : list ascii) (lo up : ascii) : Prop :=
  exists c r, s = c :: r /\ (c = lo \/ c = up).
Definition requested (trend : list ascii) (d : dir) : Prop :=
  first_letter trend "b" "B"
  \/ match d with Up => first_letter trend "a" "A" | Down => first_letter trend "d" "D" end.
Definition builtin (trend : list ascii) : Prop := exists d, requested trend d.

Definition dir_sign (d : dir) : Z := match d with Up => 1%Z | Down => (-1)%Z end.
