(** Vocabulary for rewritten configuration files. *)
From Coq Require Import String Ascii.
From Verif Require Import Py PyStr KvarSpec.
Local Open Scope list_scope.
Definition nl : ascii := ascii_of_nat 10.
(** a header line: some text in brackets, after blanks *)
Definition is_header (l x : str) : Prop := exists ind rest, l = ind ++ "["%char :: x ++ "]"%char :: rest /\ spaces ind /\ x <> [] /\ ~ In "]"%char x.
Definition blanks (s : str) : Prop := Forall (fun c => c = " "%char) s.
Definition opens_variables (l : str) : Prop := exists b b', is_header l (b ++ S_ "variables" ++ b') /\ blanks b /\ blanks b'.
(** names of variables without special characters: not empty, no blank at either end *)
Definition name (t : str) : Prop := (exists c r, t = c :: r /\ is_space c = false) /\ (exists r c, t = r ++ [c] /\ is_space c = false) /\
  Forall (fun c => ~ In c (S_ "=#.^$*+?{}[]\|()")) t.
(** a line that gives a variable to be fitted: in front of, between and after its parts *)
Record parts := { p_indent : str; p_gap : str; p_before : str; p_after : str }.
Definition line_of (tag : str) (q : parts) : str := p_indent q ++ tag ++ p_gap q ++ "="%char :: p_before q ++ "?"%char :: p_after q.
Definition fits (q : parts) : Prop := spaces (p_indent q) /\ spaces (p_gap q) /\ Forall (fun c => c <> "?"%char /\ c <> nl) (p_before q).
Definition asks (tag l : str) : Prop := exists q, l = line_of tag q /\ fits q.
(** the line written instead *)
Definition answered (tag text : str) (q : parts) : str := p_indent q ++ tag ++ p_gap q ++ "="%char :: " "%char :: text ++ S_ " # ?" ++ p_after q.
