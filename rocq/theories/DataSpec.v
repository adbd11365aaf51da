(** Specification vocabulary for data sets and data files. *)
From Coq Require Import Sorted.
From Verif Require Import Py PyDict PyStr RUtil DataModel.
Local Open Scope R_scope.

(** Property identifiers: a capital letter, optionally followed by one of a-z, 0-9, underscore. *)
Definition capital (c : ascii) : Prop := In c (map ascii_of_nat (seq 65 26)).
Definition second (c : ascii) : Prop :=
  In c (map ascii_of_nat (seq 97 26)) \/ In c (map ascii_of_nat (seq 48 10)) \/ c = "_"%char.
Definition identifier (s : str) : Prop :=
  (exists c, s = [c] /\ capital c) \/ (exists c d, s = [c; d] /\ capital c /\ second d).
(** Text after identifier [s] that belongs to no identifier: no capitals, and not starting with a
    character that would extend [s]. *)
Definition gap_after (s g : str) : Prop :=
  Forall (fun c => ~ capital c) g /\ (length s = 1%nat -> forall c r, g = c :: r -> ~ second c).

(** Some rows of a table, by number. *)
Definition increasing_rows (rows : list nat) : Prop := StronglySorted lt rows.
Definition table_cell (table : list (list cell)) (i j : nat) : cell := nth j (nth i table []) None.

(** elementwise relation of two arrays of the same length, on finite elements *)
Definition pointwise (P : R -> R -> Prop) (a b : arr) : Prop :=
  length a = length b /\
  forall i x y, nth i a None = Some x -> nth i b None = Some y -> P x y.

(** Position of the last element satisfying P. *)
Definition last_position {A} (P : A -> Prop) (l : list A) (i : nat) : Prop :=
  (exists x, nth_error l i = Some x /\ P x) /\ forall j x, (i < j)%nat -> nth_error l j = Some x -> ~ P x.

(** A line of a data file: blanks, text, blanks, and possibly a comment. *)
Definition no_hash (s : str) : Prop := ~ In "#"%char s.
Definition blank_char : ascii := " "%char.
Definition comment_or_nothing (s : str) : Prop := s = [] \/ exists r, s = "#"%char :: r.
Definition trimmed (m : str) : Prop :=
  m <> [] /\ hd "x"%char m <> blank_char /\ last m "x"%char <> blank_char.
(** What a line of a data file contributes: [Some text] is a row with that text, [None] no row.
    The last case is a quirk of the implementation: an indented comment is a row holding one blank. *)
Inductive reads : str -> option str -> Prop :=
| reads_text a m w :                             (* blanks, text, white space (and the newline) *)
    m <> [] -> no_hash m -> hd "x"%char m <> blank_char -> is_space (last m "x"%char) = false ->
    Forall (fun c => is_space c = true) w -> reads (repeat blank_char a ++ m ++ w) (Some m)
| reads_text_comment a m b r :                   (* blanks, text, blanks, comment *)
    trimmed m -> no_hash m -> reads (repeat blank_char a ++ m ++ repeat blank_char b ++ "#"%char :: r) (Some m)
| reads_blank w : Forall (fun c => is_space c = true) w -> reads w None
| reads_comment r : reads ("#"%char :: r) None
| reads_indented_comment a r : reads (repeat blank_char (S a) ++ "#"%char :: r) (Some [blank_char]).
(** the first word and then pairs (separator, word), written out *)
Definition joined (w : str) (r : list (str * str)) : str := w ++ flat_map (fun p => fst p ++ snd p) r.
(** words separated by single blanks *)
Definition words_line (ws : list str) : str :=
  match ws with [] => [] | w :: r => w ++ flat_map (fun x => blank_char :: x) r end.
Definition plain_word (w : str) : Prop := w <> [] /\ Forall (fun c => is_space c = false /\ c <> "#"%char) w.

(** A data set made by [TEdataset(data, group)] or [TEdataset2(data, group)]. *)
Definition made (d : dataset) : Prop := (exists g data, d = init1 g data) \/ (exists g data, init2 g data = Ok d).
(** the data set holds column [k] *)
Definition holds (d : dataset) (k : str) : Prop := exists v, dget (ddata d) k = Some v.
(** columns [a] and [b] are present and belong to the same temperature column *)
Definition together (d : dataset) (a b : str) : Prop :=
  exists va vb i, dget (ddata d) a = Some va /\ dget (ddata d) b = Some vb /\ dget (dtidx d) a = Some i /\ dget (dtidx d) b = Some i.
Definition derivable (d : dataset) (k : str) : Prop :=
  (k = kC /\ (holds d kR \/ together d kN kU)) \/ (k = kR /\ (holds d kC \/ together d kN kU))
  \/ (k = kN /\ (together d kU kC \/ together d kU kR)) \/ (k = kU /\ (together d kN kC \/ together d kN kR)).
(** the electrical columns that are present have the same number of points *)
Definition same_lengths (d : dataset) : Prop :=
  forall a b va vb, In a [kC; kR; kN; kU] -> In b [kC; kR; kN; kU] ->
  dget (ddata d) a = Some va -> dget (ddata d) b = Some vb -> length va = length vb.

(** conductivity = charge * concentration * mobility, elementwise *)
Definition conduction (c n u : arr) : Prop :=
  length c = length n /\ length c = length u /\
  forall i x y z, nth i c None = Some x -> nth i n None = Some y -> nth i u None = Some z -> x = Q_CHARGE * y * z.

(** The two columns from which a missing electrical quantity is computed. *)
Definition source (d : dataset) (key a b : str) : Prop :=
  ((key = kC \/ key = kR) /\ ~ holds d kC /\ ~ holds d kR /\ together d kN kU /\ a = kN /\ b = kU)
  \/ (((key = kN /\ b = kU) \/ (key = kU /\ b = kN)) /\ ~ holds d key /\
      ((together d b kC /\ a = kC) \/ (~ together d b kC /\ together d b kR /\ a = kR))).
(** the law linking values [x], [y] of those columns with the value [z] of the quantity *)
Definition law (key a : str) (x y z : R) : Prop :=
  (key = kC -> z = Q_CHARGE * x * y) /\ (key = kR -> z * (Q_CHARGE * x * y) = 1e4) /\
  (a = kC -> x = Q_CHARGE * z * y) /\ (a = kR -> x * (Q_CHARGE * z * y) = 1e4).
(** a column of one element stands for a constant column *)
Definition stretched (l : arr) (i : nat) : cell := if Nat.eqb (length l) 1 then nth 0 l None else nth i l None.
