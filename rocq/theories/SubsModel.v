(** Model of the rewritten configuration file ([substituted], src/teflow/kappa.py 1585-1615 in [parse_KappaFit]) and of reading one of its lines with the settings of [CfgParser] (src/teflow/utils.py 278-338). *)
From Coq Require Import String Ascii.
From Verif Require Import Py PyStr Regex KvarModel.
Local Open Scope list_scope.
Local Open Scope nat_scope.

Fixpoint lstrip (s : str) : str := match s with c :: r => if is_space c then lstrip r else s | [] => [] end.
Definition rstrip (s : str) : str := rev (lstrip (rev s)).
(** [str.strip()] *)
Definition strip (s : str) : str := rstrip (lstrip s).
Definition newline : ascii := ascii_of_nat 10.
Definition eq_c : ascii := "="%char.
Definition hash_c : ascii := "#"%char.
Definition open_c : ascii := "["%char.
Definition close_c : ascii := "]"%char.
Definition sp_c : ascii := " "%char.
(** the dot of a regular expression *)
Definition any_c (c : ascii) : bool := negb (is_ch newline c).

(** [SECTCRE] (utils.py 334): brackets, optional blanks, a header without closing bracket *)
Definition sectcre : re := Sq (Cls (is_ch open_c)) (Sq (Many (is_ch sp_c)) (Sq (Cap (S_ "header") (LazyMany1 (fun c => negb (is_ch close_c c)))) (Sq (Many (is_ch sp_c)) (Cls (is_ch close_c))))).
Definition header (line : str) : option str := match re_match sectcre (strip line) with Some (c, _) => group c (S_ "header") | None => None end.
(** the range of section variables (kappa.py 1589-1599): the first line and the line after the last; [None] if there is no such header *)
Fixpoint sect_range (n : nat) (start : option nat) (lines : list str) : option nat * nat :=
  match lines with
  | [] => (start, n)
  | l :: r =>
      match header l with
      | Some h => match start with
                  | Some _ => (start, n)
                  | None => sect_range (S n) (if eqb h (S_ "variables") then Some n else None) r
                  end
      | None => sect_range (S n) start r
      end
  end.
(** the pattern of line 1607: the tag, blanks, an equals sign, and a question mark further on.  The tag is inserted in the pattern unescaped; only tags without
    characters that are special in regular expressions are modelled *)
Definition tagpat (tag : str) : re :=
  fold_right (fun c r => Sq (Cls (is_ch c)) r) (Sq (Many is_space) (Sq (Cls (is_ch eq_c)) (Sq (LazyMany any_c) (Cls (is_ch qmark))))) tag.
Definition hit (tag line : str) : bool := match re_match (tagpat tag) (strip line) with Some _ => true | None => false end.
(** [linepat.sub(' {value:.6g} # ?', line, 1)] (kappa.py 1602, 1610): the leftmost place after an equals sign from where a question mark is reached within the line;
    [text] is the formatted number *)
Definition to_qmark (s : str) : option str := match re_match (Sq (LazyMany any_c) (Cls (is_ch qmark))) s with Some (_, t) => Some t | None => None end.
Fixpoint sub_line (text : str) (prev : option ascii) (s : str) : str :=
  match (match prev with Some p => if is_ch eq_c p then to_qmark s else None | None => None end) with
  | Some rest => sp_c :: text ++ S_ " # ?" ++ rest
  | None => match s with c :: r => c :: sub_line text (Some c) r | [] => [] end
  end.
(** one variable (kappa.py 1606-1613): the first line of the section that matches *)
Fixpoint overwrite (tag text : str) (sect : list str) : option (list str) :=
  match sect with
  | [] => None
  | l :: r => if hit tag l then Some (sub_line text None l :: r) else match overwrite tag text r with Some r' => Some (l :: r') | None => None end
  end.
Fixpoint overwrite_all (fit : list (str * str)) (sect : list str) : res (list str) :=
  match fit with
  | [] => Ok sect
  | (tag, text) :: f => match overwrite tag text sect with Some s => overwrite_all f s | None => Err RuntimeError end
  end.
(** kappa.py 1585-1615: [fit] lists the fitted variables with their formatted values (value * scale) *)
Definition substituted (fit : list (str * str)) (lines : list str) : res (list str) :=
  match sect_range 0 None lines with
  | (Some a, b) => match overwrite_all fit (firstn (b - a) (skipn a lines)) with Ok s => Ok (firstn a lines ++ s ++ skipn b lines) | Err e => Err e end
  | (None, _) => match fit with [] => Ok lines | _ => Err TypeError end
  end.

(** ** reading a line (configparser's [RawConfigParser._read]): comments start at a # that begins the line or follows a blank, what remains is stripped and
    split at the first equals sign *)
Fixpoint cut_comment (prev_blank : bool) (s : str) : str :=
  match s with c :: r => if prev_blank && is_ch hash_c c then [] else c :: cut_comment (is_space c) r | [] => [] end.
Fixpoint split_eq (s : str) : option (str * str) :=
  match s with [] => None | c :: r => if is_ch eq_c c then Some ([], r) else match split_eq r with Some (a, b) => Some (c :: a, b) | None => None end end.
Definition read_option (line : str) : option (str * str) :=
  match split_eq (strip (cut_comment true line)) with Some (k, v) => Some (rstrip k, strip v) | None => None end.
