(** Vocabulary for interrupted commands (C135); no reference to the model. *)
From Coq Require Import String Ascii.
From Verif Require Import Py PyStr.
Local Open Scope list_scope.
Notation disk := (str -> option str).
(** the disk after the files [w] (names and texts) were written completely, one after the other *)
Fixpoint written (fs : disk) (w : list (str * str)) : disk :=
  match w with
  | [] => fs
  | (n, t) :: r => written (fun m => if eqb m n then Some t else fs m) r
  end.
Definition prefix_of (p t : str) : Prop := exists q, t = p ++ q.
(** what is left of the files [w]: the first ones complete, at most one in part, the others as they were; so are all other files *)
Definition left_behind (fs : disk) (w : list (str * str)) (d : disk) : Prop :=
  (forall m, ~ In m (map fst w) -> d m = fs m) /\
  exists before after, w = before ++ after /\ Forall (fun nt => d (fst nt) = Some (snd nt)) before /\
    match after with
    | [] => True
    | (n, t) :: rest => (d n = fs n \/ exists p, d n = Some p /\ prefix_of p t) /\ Forall (fun nt => d (fst nt) = fs (fst nt)) rest
    end.
(** a command that writes [w] and answers [r], which depend on the files [inputs] only *)
Definition plan {A} (c : disk -> disk * A) (inputs : list str) (fs : disk) (w : list (str * str)) (r : A) : Prop :=
  forall fs', (forall n, In n inputs -> fs' n = fs n) -> (forall m, fst (c fs') m = written fs' w m) /\ snd (c fs') = r.
(** a list in the order of another one *)
Inductive in_order {A} : list A -> list A -> Prop :=
| io_nil l : in_order [] l
| io_take x a l : in_order a l -> in_order (x :: a) (x :: l)
| io_skip x a l : in_order a l -> in_order a (x :: l).
