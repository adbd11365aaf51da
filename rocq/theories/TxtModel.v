(** Model of the parts of the command-line interface that handle texts and files (src/teflow/interface.py): [_suffixed] (172-183), [do_refine] (966-1016), [do_mixing] with --extend,
    --raw-extend, --padding and its weights (364-457).  A file is its text with newlines translated (universal newlines); writing never fails; paths are POSIX paths. *)
From Coq Require Import ZArith Reals String Ascii.
From Verif Require Import Py PyStr RUtil CfgModel DataModel SubsModel Regex MixModel.
Local Open Scope list_scope.
Local Open Scope nat_scope.

Fixpoint jn (sep : str) (l : list str) : str := match l with [] => [] | [w] => w | w :: r => w ++ sep ++ jn sep r end.
Definition nl : str := [newline].
Definition slash : ascii := "/"%char.
(** [s.split('#', 1)[0]] *)
Fixpoint before_hash (s : str) : str := match s with c :: r => if is_ch hash_c c then [] else c :: before_hash r | [] => [] end.
(** [s.split()] *)
Definition words (s : str) : list str := filter nonempty (split_class is_space [] false s).
(** [f.readlines()], without the newline characters, which [strip] and [split] drop anyway *)
Definition readlines (t : str) : list str := match rev (split_each (is_ch newline) [] t) with [] :: r => rev r | _ => split_each (is_ch newline) [] t end.

(** ** _suffixed *)
(** [PurePath(s).name]: the last component, empty ones and dots left out *)
Definition components (s : str) : list str := filter (fun c => (nonempty c && negb (eqb c [dot]))%bool) (split_each (is_ch slash) [] s).
Definition base_name (s : str) : str := last (components s) [].
(** [rfind('.')] as a pair: what is before the last dot, what is after it *)
Fixpoint last_dot (s : str) : option (str * str) :=
  match s with
  | [] => None
  | c :: r => match last_dot r with Some (a, b) => Some (c :: a, b) | None => if is_ch dot c then Some ([], r) else None end
  end.
(** [PurePath.stem] and [PurePath.suffix] *)
Definition stem_ext (name : str) : str * str :=
  match last_dot name with Some ((_ :: _) as a, (_ :: _) as b) => (a, dot :: b) | _ => (name, []) end.
Definition suffixed (output : option str) (input suffix : str) (ext : option str) : str :=
  match output with
  | Some ((_ :: _) as o) => o
  | _ => let (st, e) := stem_ext (base_name input) in
         match e with
         | [] => st ++ "_"%char :: suffix
         | _ => st ++ "_"%char :: suffix ++ match ext with Some ((_ :: _) as x) => x | _ => e end
         end
  end.
(** [do_kappa] (1151-1247): the names of the files it may write *)
Definition kappa_files (output : option str) (input suffix : str) : list str :=
  let o := suffixed output input suffix (Some (S_ ".txt")) in
  [o; suffixed None o (S_ "rate") None; suffixed None o (S_ "spec") None; suffixed None o (S_ "cumu") None; suffixed None o (S_ "subs") (Some (S_ ".cfg"))].

(** ** files *)
Notation files := (str -> option str).
Definition write (fs : files) (name text : str) : files := fun n => if eqb n name then Some text else fs n.
Definition to_text (lines : list str) : str := List.concat (List.map (fun l => l ++ nl) lines).

(** ** do_refine *)
Section Refine.
(** [int(text)]; the time and program of the header *)
Variable pyint : str -> option Z.
Variable stamp : str.
Definition index_of (n : nat) (i : Z) : option nat :=
  (if (0 <=? i) && (i <? Z.of_nat n) then Some (Z.to_nat i) else if (- Z.of_nat n <=? i) && (i <? 0) then Some (Z.to_nat (i + Z.of_nat n)) else None)%Z.
Definition item (l : list str) (i : Z) : res str := match index_of (List.length l) i with Some k => match nth_error l k with Some x => Ok x | None => Err IndexError end | None => Err IndexError end.
Definition pick (cols : option (list Z)) (items : list str) : res str :=
  match cols with None => Ok (jn [sp_c] items) | Some c => let! xs := mapM (item items) c in Ok (jn [sp_c] xs) end.
(** the lines written until the first failure, which ends the command *)
Fixpoint write_rows (cols : option (list Z)) (rows : list (list str)) : list str * res unit :=
  match rows with
  | [] => ([], Ok tt)
  | r :: rest => match pick cols r with Err e => ([], Err e) | Ok l => let (ls, x) := write_rows cols rest in (l :: ls, x) end
  end.
Definition rows_of (text : str) : list (list str) := filter (fun r => match r with [] => false | _ => true end) (List.map (fun l => words (strip (before_hash l))) (readlines text)).
Definition as_int (t : str) : res Z := match pyint t with Some z => Ok z | None => Err ValueError end.
Definition refine (fs : files) (input : str) (output : option str) (suffix : str) (bare : bool) (column : option str) : files * res unit :=
  match fs input with
  | None => (fs, Err FileNotFoundError)
  | Some text =>
      match (match column with Some ((_ :: _) as c) => let! l := mapM as_int (words c) in Ok (Some l) | _ => Ok None end) with
      | Err e => (fs, Err e)
      | Ok cols =>
          let (ls, r) := write_rows cols (rows_of text) in
          (write fs (suffixed output input suffix None) ((if bare then [] else S_ "# Refined data - " ++ stamp ++ nl) ++ to_text ls), r)
      end
  end.
End Refine.

(** ** do_mixing *)
(** [zip] of several sequences *)
Fixpoint heads (ls : list (list str)) : option (list str) :=
  match ls with [] => Some [] | l :: r => match l, heads r with x :: _, Some xs => Some (x :: xs) | _, _ => None end end.
Fixpoint zipn (fuel : nat) (ls : list (list str)) : list (list str) :=
  match fuel with
  | O => []
  | S k => match heads ls with
           | Some row => row :: zipn k (List.map (@tl str) ls)
           | None => []
           end
  end.
Definition zip_all (ls : list (list str)) : list (list str) := match ls with [] => [] | l :: _ => zipn (List.length l) ls end.
Record block := { b_lines : list str; b_cols : nat }.
Definition read_block (text : str) : block :=
  let rows := rows_of text in {| b_lines := List.map (jn [ascii_of_nat 9]) rows; b_cols := match rev rows with r :: _ => List.length r | [] => 0 end |}.
Definition extend_rows (raw : bool) (padding : option str) (texts : list str) : list str :=
  match padding with
  | None =>
      let clean t := if raw then List.map strip (readlines t) else filter nonempty (List.map (fun l => strip (before_hash l)) (readlines t)) in
      List.map (jn [sp_c]) (zip_all (List.map clean texts))
  | Some pad =>
      let bs := List.map read_block texts in
      let n := list_max (List.map (fun b => List.length (b_lines b)) bs) in
      List.map (jn [ascii_of_nat 9]) (zip_all (List.map (fun b => b_lines b ++ repeat (jn [ascii_of_nat 9] (repeat pad (b_cols b))) (n - List.length (b_lines b))) bs))
  end.
Definition read_all (fs : files) (names : list str) : res (list str) := mapM (fun n => match fs n with Some t => Ok t | None => Err FileNotFoundError end) names.
(** with an output file; there is at least one input ([nargs] of the parser), for none at all [max] would fail *)
Definition extend (stamp : str) (fs : files) (inputs : list str) (output : str) (bare raw : bool) (padding : option str) (labels : list str) : files * res unit :=
  match read_all fs inputs with
  | Err e => (fs, Err e)
  | Ok texts =>
      let head := if bare then [] else (S_ "# Extend datafiles - " ++ stamp) :: match labels with [] => [] | _ => [S_ "# " ++ jn [sp_c] labels] end in
      (write fs output (to_text (head ++ extend_rows raw padding texts)), Ok tt)
  end.
(** the weights given as a text (440-448); [str.isdecimal] for the characters of Latin-1 *)
Definition digit (c : ascii) : option nat := let n := nat_of_ascii c in if ((48 <=? n) && (n <=? 57))%bool then Some (n - 48) else None.
Definition isdecimal (s : str) : bool := (nonempty s && forallb (fun c => match digit c with Some _ => true | None => false end) s)%bool.
Definition parse_weight (pyfloat : str -> res R) (w : option str) : res (option (list R)) :=
  match w with
  | None => Ok None
  | Some t => if isdecimal t then Ok (Some (List.map (fun c => match digit c with Some n => INR n | None => 0%R end) t)) else let! l := mapM pyfloat (words t) in Ok (Some l)
  end.
(** [if abs(options.scale) < 1E-4] (450-455) *)
Definition parse_scale (s : R) : option R := if Rlt_dec (Rabs s) 1e-4 then None else Some s.
(** from the options to [mixing] (438-457), for arrays of numbers read from the files *)
Definition mix_command (pyfloat : str -> res R) (datas : list (list R)) (weight : option str) (scale : R) : res (list R) :=
  let! w := parse_weight pyfloat weight in mixing datas w (parse_scale scale).
