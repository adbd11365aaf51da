(** Vocabulary for the outputs of a conductivity fit. *)
From Coq Require Import Reals String Ascii.
From Verif Require Import Py PyStr RUtil.
Local Open Scope R_scope.
(** the same letter in either case *)
Definition letters := "abcdefghijklmnopqrstuvwxyz"%string.
Definition capitals := "ABCDEFGHIJKLMNOPQRSTUVWXYZ"%string.
Definition same_letter (c a : ascii) : Prop := c = a \/ In (c, a) (List.combine (S_ capitals) (S_ letters)).
(** the text begins with the word, in upper or lower case *)
Definition begins (s : str) (word : string) : Prop := exists u r, s = u ++ r /\ Forall2 same_letter u (S_ word).
(** area under a piecewise linear curve *)
Fixpoint area (l : list (R * R)) : R := match l with p :: ((q :: _) as r) => (fst q - fst p) * (snd p + snd q) / 2 + area r | _ => 0 end.
