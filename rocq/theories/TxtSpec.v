(** Vocabulary for text files handled by the command line; no reference to the model. *)
From Coq Require Import ZArith String Ascii.
From Verif Require Import Py PyStr CfgSpec KvarSpec InstrSpec.
Local Open Scope list_scope.
Local Open Scope nat_scope.
(** ** names *)
Definition proper (n : str) : Prop := n <> [] /\ n <> [dot] /\ ~ In "/"%char n.
(** [p] is the path of a file called [n] *)
Definition path_of (p n : str) : Prop := proper n /\ (p = n \/ exists d, p = d ++ "/"%char :: n).
(** a name, what is in front of its extension, and the extension with its dot *)
Inductive extension : str -> str -> str -> Prop :=
| ext_some st x : st <> [] -> x <> [] -> ~ In dot x -> extension (st ++ dot :: x) st (dot :: x)
| ext_none n : (forall st x, n = st ++ dot :: x -> st <> [] -> x <> [] -> In dot x) -> extension n n [].
(** ** data *)
(** the words of a line in front of a # *)
Definition line_words (l : str) (ws : list str) : Prop := exists a r, l = a ++ r /\ ~ In "#"%char a /\ (r = [] \/ exists r', r = "#"%char :: r') /\ tokens is_space a ws.
Definition filled_row (ws : list str) : bool := match ws with [] => false | _ => true end.
(** the rows of words of a text, blank and comment lines left out *)
Definition data_rows (text : str) (rows : list (list str)) : Prop :=
  exists lines wss, has_lines text lines /\ Forall2 line_words lines wss /\ rows = filter filled_row wss.
(** all lines of a text; a newline at its end does not begin another one *)
Definition all_lines (text : str) (lines : list str) : Prop := (text = [] /\ lines = []) \/ has_lines text lines /\ last lines [] <> [] \/ has_lines text (lines ++ [[]]).
(** lines of words written to a text *)
Definition text_of (lines : list str) : str := concat (map (fun l => l ++ [lf]) lines).
(** word number [i] of a row, negative numbers counting from the end *)
Inductive column_of (row : list str) : Z -> str -> Prop :=
| col_front k x : nth_error row k = Some x -> column_of row (Z.of_nat k) x
| col_back k x : (k < List.length row) -> nth_error row k = Some x -> column_of row (Z.of_nat k - Z.of_nat (List.length row)) x.
Definition min_len {A} (ls : list (list A)) : nat := match ls with [] => 0 | l :: r => fold_right Nat.min (List.length l) (map (@List.length A) r) end.
Definition max_len {A} (ls : list (list A)) : nat := fold_right Nat.max 0 (map (@List.length A) ls).
Definition same_except (fs gs : str -> option str) (n : str) : Prop := forall m, m <> n -> gs m = fs m.
