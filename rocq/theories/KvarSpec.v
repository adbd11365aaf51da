(** The written form of a variable in a fitting configuration:  initial ? scale < lower , upper >, every part but the question mark optional
    (both bounds' numbers too), with any amount of white space between the parts. *)
From Coq Require Import Reals.
From Verif Require Import Py PyStr.
Definition spaces (s : str) : Prop := Forall (fun c => is_space c = true) s.
Definition word_without (bad : str) (s : str) : Prop := Forall (fun c => is_space c = false /\ ~ In c bad) s.
Record vexpr := { x_initial : str; x_scale : str; x_bounds : option (str * str) }.
Definition render (ws : nat -> str) (e : vexpr) : str :=
  ws 0 ++ x_initial e ++ ws 1 ++ "?"%char :: ws 2 ++ x_scale e ++ ws 3 ++
  match x_bounds e with Some (l, u) => "<"%char :: ws 4 ++ l ++ ws 5 ++ ","%char :: ws 6 ++ u ++ ws 7 ++ [">"%char] | None => [] end.
Definition legible (ws : nat -> str) (e : vexpr) : Prop :=
  (forall i, spaces (ws i)) /\ word_without ["?"%char] (x_initial e) /\ word_without ["?"%char; "<"%char; "@"%char] (x_scale e) /\
  match x_bounds e with Some (l, u) => word_without ["?"%char; ","%char; ">"%char] l /\ word_without ["?"%char; ","%char; ">"%char] u | None => True end.
(** an empty part counts as absent *)
Definition given (s : str) : option str := match s with [] => None | _ => Some s end.
