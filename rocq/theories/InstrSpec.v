(** Vocabulary for instrument files; no reference to the model. *)
From Coq Require Import Reals String Ascii.
From Verif Require Import Py PyStr CfgSpec KvarSpec.
Local Open Scope list_scope.
Notation num := (option R).    (* a number read from a text; None: not finite *)
Definition lf : ascii := ascii_of_nat 10.
Definition tab : ascii := ascii_of_nat 9.
Definition begins (p s : str) : Prop := exists r, s = p ++ r.
Definition contains (p s : str) : Prop := exists a r, s = a ++ p ++ r.
Definition contains_all (ps : list str) (s : str) : Prop := forall p, In p ps -> contains p s.
(** no blank at either end *)
Definition tight (s : str) : Prop := s = [] \/ (exists c r, s = c :: r /\ is_space c = false) /\ (exists r c, s = r ++ [c] /\ is_space c = false).
(** [t] is [s] without the blanks at both ends *)
Definition trimmed (s t : str) : Prop := tight t /\ exists a b, s = a ++ t ++ b /\ spaces a /\ spaces b.
(** the text consists of these lines *)
Definition has_lines (text : str) (lines : list str) : Prop := lines <> [] /\ Forall (fun l => ~ In lf l) lines /\ text = join [lf] lines.
(** the cells of a line: what is between separators after removing blanks around the line *)
Definition cells (sep : ascii) (line : str) (fs : list str) : Prop := fs <> [] /\ Forall (fun f => ~ In sep f) fs /\ trimmed line (join [sep] fs).
(** what an entry of the configuration stands for: itself, or the content of the file it names *)
Inductive source (content : str -> option str) (text : str) : str -> Prop :=
| src_text t : trimmed text t -> ~ begins (S_ "file:") t -> source content text t
| src_file p path t : trimmed text (S_ "file:" ++ p) -> trimmed p path -> content path = Some t -> source content text t.
(** [lines] up to the first one that satisfies [P], and those after it *)
Definition first_at (P : str -> Prop) (lines : list str) (rest : list str) : Prop :=
  exists pre h, lines = pre ++ h :: rest /\ P h /\ Forall (fun l => ~ P l) pre.

Section Rows.
Variable float : str -> option num.
(** a line of a table with at least five columns separated by tabs gives columns 1, 2 and 5, a shorter line nothing *)
Inductive line_gives : str -> list (num * num * num) -> Prop :=
| lg_short l fs : cells tab l fs -> (List.length fs < 5)%nat -> line_gives l []
| lg_row l f1 f2 f3 f4 f5 rest a b c : cells tab l (f1 :: f2 :: f3 :: f4 :: f5 :: rest) ->
    float f1 = Some a -> float f2 = Some b -> float f5 = Some c -> line_gives l [(a, b, c)].
Definition unreadable (l : str) : Prop := exists f1 f2 f3 f4 f5 rest, cells tab l (f1 :: f2 :: f3 :: f4 :: f5 :: rest) /\ (float f1 = None \/ float f2 = None \/ float f5 = None).
(** lines of mean values of a laser flash file: columns 2 and 3 of those that are not empty *)
Definition is_mean (l : str) : Prop := exists ind r, l = ind ++ S_ "#Mean" ++ r /\ spaces ind.
Definition filled (fs : list str) : list str := filter (fun f => negb (eqb f [])) fs.
Inductive mean_gives : str -> list (num * num) -> Prop :=
| mg_other l : ~ is_mean l -> mean_gives l []
| mg_short l fs : is_mean l -> cells comma l fs -> (List.length (filled fs) < 3)%nat -> mean_gives l []
| mg_row l fs g1 g2 g3 rest a b : is_mean l -> cells comma l fs -> filled fs = g1 :: g2 :: g3 :: rest -> float g2 = Some a -> float g3 = Some b -> mean_gives l [(a, b)].
Definition mean_unreadable (l : str) : Prop := is_mean l /\ exists fs g1 g2 g3 rest, cells comma l fs /\ filled fs = g1 :: g2 :: g3 :: rest /\ (float g2 = None \/ float g3 = None).
(** any line: columns 2 and 3 *)
Inductive any_gives : str -> list (num * num) -> Prop :=
| ag_short l fs : cells comma l fs -> (List.length fs < 3)%nat -> any_gives l []
| ag_row l f1 f2 f3 rest a b : cells comma l (f1 :: f2 :: f3 :: rest) -> float f2 = Some a -> float f3 = Some b -> any_gives l [(a, b)].
Definition any_unreadable (l : str) : Prop := exists f1 f2 f3 rest, cells comma l (f1 :: f2 :: f3 :: rest) /\ (float f2 = None \/ float f3 = None).
End Rows.
(** numbers: [x + k], [k x]; not finite stays not finite *)
Definition plus (k : R) (x : num) : num := match x with Some v => Some (v + k)%R | None => None end.
Definition times (k : R) (x : num) : num := match x with Some v => Some (k * v)%R | None => None end.
