(** Model of the instrument files and of [parse_TEfile] (src/teflow/loader.py 839-1032). *)
From Coq Require Import Reals String Ascii.
From Verif Require Import Py PyStr PyDict RUtil CfgModel CompModel DataModel Regex KvarModel SubsModel.
Local Open Scope list_scope.
Local Open Scope R_scope.

Definition tab_c : ascii := ascii_of_nat 9.
Definition kS : str := S_ "S".
Definition kA : str := S_ "A".
Definition kK : str := S_ "K".
(** [text.split('\n')] *)
Definition lines_of (text : str) : list str := split_each (is_ch newline) [] text.
(** [sub in s] *)
Fixpoint occurs (sub s : str) : bool := (startswith s sub || match s with _ :: r => occurs sub r | [] => false end)%bool.
(** the lines after the first one with property [f] (loader.py 855-861, 894-902); [None]: the else clause of the loop *)
Fixpoint after (f : str -> bool) (l : list str) : option (list str) := match l with [] => None | x :: r => if f x then Some r else after f r end.
(** [a += x], [a *= x] on arrays of numbers *)
Definition shift (x : R) (a : arr) : arr := List.map (fun c => match c with Some v => Some (v + x) | None => None end) a.

Section Instr.
(** [float(item)]: [None] when it raises ValueError, [Some None] when it is not finite *)
Variable pyfloat : str -> option cell.
Definition fl (x : str) : res cell := match pyfloat x with Some c => Ok c | None => Err ValueError end.

(** ** CTA and ZEM (853-889) *)
Definition tab_cells (line : str) : list str := split_each (is_ch tab_c) [] (strip line).                (* 865 *)
Fixpoint table_rows (lines : list str) : res (list (cell * cell * cell)) :=
  match lines with
  | [] => Ok []
  | l :: r => let v := tab_cells l in
      if Nat.ltb (List.length v) 5 then table_rows r
      else let! a := fl (nth 0 v []) in let! b := fl (nth 1 v []) in let! c := fl (nth 4 v []) in
           let! rs := table_rows r in Ok ((a, b, c) :: rs)
  end.
Definition parse_CTA_ZEM (ids : list str) (text : str) : res (arr * arr * arr) :=
  match after (fun l => forallb (fun i => occurs i l) ids) (lines_of text) with
  | None => Err OSError
  | Some r => let! rows := table_rows r in
      Ok (List.map (fun p => fst (fst p)) rows, List.map (fun p => snd (fst p)) rows, List.map snd rows)
  end.
Definition cta_ids : list str := [S_ "Temperature"; S_ "Resistivity"; S_ "Seebeck coefficient"].          (* 876 *)
Definition zem_ids : list str := [S_ "Measurement temp"; S_ "Resistivity"; S_ "Seebeck coeff"].           (* 883 *)
Definition parseCTA (text : str) : res (arr * arr * arr) :=                                               (* 874-879 *)
  let! d := parse_CTA_ZEM cta_ids text in let '(t, r, s) := d in Ok (shift 273 t, r, s).
Definition parseZEM (text : str) : res (arr * arr * arr) :=                                               (* 881-888 *)
  let! d := parse_CTA_ZEM zem_ids text in let '(t, r, s) := d in Ok (shift 273 t, scal 1e6 r, scal 1e6 s).

(** ** LFA (890-930) *)
Definition comma_cells (line : str) : list str := split_each (is_ch comma) [] (strip line).
(** the lines #Mean (906-914): empty cells are left out *)
Fixpoint mean_rows (lines : list str) : res (list (cell * cell)) :=
  match lines with
  | [] => Ok []
  | l :: r =>
      if startswith (strip l) (S_ "#Mean") then
        let v := filter nonempty (comma_cells l) in
        if Nat.ltb (List.length v) 3 then mean_rows r
        else let! a := fl (nth 1 v []) in let! b := fl (nth 2 v []) in let! rs := mean_rows r in Ok ((a, b) :: rs)
      else mean_rows r
  end.
(** every line (920-928) *)
Fixpoint all_rows (lines : list str) : res (list (cell * cell)) :=
  match lines with
  | [] => Ok []
  | l :: r => let v := comma_cells l in
      if Nat.ltb (List.length v) 3 then all_rows r
      else let! a := fl (nth 1 v []) in let! b := fl (nth 2 v []) in let! rs := all_rows r in Ok ((a, b) :: rs)
  end.
Definition lfa_out (rows : list (cell * cell)) : arr * arr := (shift 273 (List.map fst rows), List.map snd rows).
Definition parseLFA (text : str) : res (arr * arr) :=
  match after (fun l => startswith l (S_ "##Results")) (lines_of text) with
  | None => Err OSError
  | Some body => let data := tl body in                                                                  (* the title line is skipped *)
      let! rows := mean_rows data in
      match rows with
      | _ :: _ => Ok (lfa_out rows)
      | [] => match all_rows data with Ok rows => Ok (lfa_out rows) | Err _ => Err OSError end
      end
  end.

(** ** the text of an instrument (841-851): with the prefix file: the content of that file *)
Variable content : str -> option str.
Definition wrapped {X} (parse : str -> res X) (text : str) : res X :=
  let t := strip text in
  if startswith t (S_ "file:") then match content (strip (skipn 5 t)) with Some s => parse s | None => Err FileNotFoundError end
  else parse t.

(** ** parse_CpT (932-942), applied to an array of temperatures *)
Definition DP : R := 3 * 8.31446261815324.
Definition parse_CpT (weight : R) (model : str) (T : arr) : res arr :=
  if (eqb model (S_ "Dulong-Petit") || eqb model (S_ "DP") || eqb model (S_ "3R"))%bool then
    if Req_EM_T weight 0 then Err ZeroDivisionError else Ok (List.map (fun _ => Some (DP / weight)) T)
  else if eqb model (S_ "Mg3Sb2") then Err NotImplementedError
  else Err ValueError.
(** [s.rsplit('@', maxsplit=1)]: [None] if there is no @ *)
Fixpoint rsplit_at (s : str) : option (str * str) :=
  match s with
  | [] => None
  | c :: r => match rsplit_at r with
              | Some (a, b) => Some (c :: a, b)
              | None => if is_ch "@"%char c then Some ([], r) else None
              end
  end.
(** [[float(x) for x in re.split(r'[\s,]+', t) if x]] (1007, 1013) *)
Definition floats (t : str) : res (list cell) := mapM fl (parse_list t).
(** heat capacities (1003-1016) *)
Definition heat (weight : R) (cp : option str) (T : arr) : res arr :=
  let cpx := strip (match cp with Some s => s | None => S_ "@Dulong-Petit" end) in
  match rsplit_at cpx with
  | Some (argx, model) => let! _ := floats argx in parse_CpT weight (strip model) T
  | None => let! v := floats (match cp with Some s => s | None => S_ "@Dulong-Petit" end) in
      if Nat.eqb (List.length v) (List.length T) then Ok v else Err ValueError
  end.

(** ** parse_TEfile (944-1032).  [atomic_weight] as in [CompModel]; [pyeval] is the evaluation of the density, a finite number or an exception; texts of messages are not
    modelled.  [config] is what was read from the file: sections with their options. *)
Variable atomic_weight : str -> option R.
Variable pyeval : str -> res R.
Definition prod3 (d : R) (A Cp : arr) : arr := List.map (fun p => cmul (cmul (fst p) (Some d)) (snd p)) (combine A Cp).   (* 1019 *)
Definition parse_TEfile (config : dict str (dict str str)) (specify : list (str * str)) : res dataset :=
  let! entry := dgetitem config (S_ "entry") in
  let e := dupdate entry specify in
  match dget e (S_ "sample") with
  | None => Err ValueError
  | Some s =>
      let! comp := comp_from_string s true false in
      let! weight := weight_ave atomic_weight comp in
      let! x := match dget e (S_ "ZEM"), dget e (S_ "CTA") with
                | None, None => Err ValueError
                | Some _, Some _ => Err ValueError
                | Some t, None => wrapped parseZEM t
                | None, Some t => wrapped parseCTA t
                end in
      let '(t1, r, s1) := x in
      match dget e (S_ "LFA") with
      | None => Err ValueError
      | Some t =>
          let! y := wrapped parseLFA t in
          let '(t2, a) := y in
          match dget e (S_ "density") with
          | None => Err ValueError
          | Some dtext =>
              let! d := pyeval dtext in
              let! cp := heat weight (dget e (S_ "Cp")) t2 in
              init2 [kT; kR; kS; kT; kA; kK] [t1; r; s1; t2; a; prod3 d a cp]
          end
      end
  end.
End Instr.
