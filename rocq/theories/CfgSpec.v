(** Specification vocabulary for the configuration parser; no reference to the model. *)
From Coq Require Import List Ascii.
From Verif Require Import PyStr.
Import ListNotations.

(** A section name that [pmatch] should consider for [section]. *)
Definition section_matches (name section : str) : Prop :=
  name = section \/ exists t, name = section ++ dot :: t.

(** [ty] is what follows the first dot of [name]. *)
Definition after_dot (name ty : str) : Prop := exists a, name = a ++ dot :: ty /\ ~ In dot a.

(** [text] consists of the words [ws] (non-empty, free of separators) with non-empty runs of
    separators between them, and possibly separators at both ends. *)
Inductive tokens (sep : ascii -> bool) : str -> list str -> Prop :=
| tok_none s : Forall (fun c => sep c = true) s -> tokens sep s []
| tok_word s w rest ws :
    Forall (fun c => sep c = true) s ->
    w <> [] -> Forall (fun c => sep c = false) w ->
    (rest = [] \/ exists c r, rest = c :: r /\ sep c = true) ->
    tokens sep rest ws -> tokens sep (s ++ w ++ rest) (w :: ws).

(** A numeric literal: non-empty, without blanks, commas or colons. *)
Definition word (w : str) : Prop :=
  w <> [] /\ Forall (fun c => is_space c = false /\ c <> comma /\ c <> colon) w.
Definition blanks (s : str) : Prop := Forall (fun c => is_space c = true) s.

(** No colon stands next to a blank or comma. *)
Definition no_loose_colon (t : str) : Prop :=
  forall l r x y, t = l ++ x :: y :: r ->
    ~ (x = colon /\ (is_space y = true \/ y = comma)) /\
    ~ ((is_space x = true \/ x = comma) /\ y = colon).

(** Python: [s.join(ws)] *)
Definition join (s : str) (ws : list str) : str :=
  match ws with [] => [] | w :: r => w ++ flat_map (fun x => s ++ x) r end.
