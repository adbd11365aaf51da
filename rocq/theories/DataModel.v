(** Model of the data-set classes of src/teflow/loader.py (514-836).
    Arrays are one-dimensional; an element is [Some x] for a finite float and [None] for nan or an
    infinity (all of which [np.isfinite] rejects).  [CONDALIAS], [TEMP_SYMBOL], [IGNORED] and
    [PROP_PATTERN] are the class defaults. *)
From Coq Require Import ZArith.
From Verif Require Import Py PyDict PyStr RUtil CfgModel.
Local Open Scope R_scope.

Definition is_upper (c : ascii) : bool := let n := nat_of_ascii c in (Nat.leb 65 n && Nat.leb n 90)%bool.
Definition is_lower (c : ascii) : bool := let n := nat_of_ascii c in (Nat.leb 97 n && Nat.leb n 122)%bool.
Definition is_digit (c : ascii) : bool := let n := nat_of_ascii c in (Nat.leb 48 n && Nat.leb n 57)%bool.
(** [[a-z0-9_]] *)
Definition is_tail (c : ascii) : bool := (is_lower c || is_digit c || ch_eq c "_")%bool.

(** [re.findall(r'[A-Z][a-z0-9_]?', s)] (loader.py:637-647, PROP_PATTERN 519): leftmost matches,
    the optional character is taken when present. *)
Fixpoint parse_group (s : str) : list str :=
  match s with
  | [] => []
  | c :: r =>
      if is_upper c then
        match r with
        | d :: r' => if is_tail d then [c; d] :: parse_group r' else [c] :: parse_group r
        | [] => [[c]]
        end
      else parse_group r
  end.

Notation cell := (option R).
Notation arr := (list cell).

(** elementwise numpy arithmetic; a zero divisor gives a non-finite element *)
Definition cmul (a b : cell) : cell := match a, b with Some x, Some y => Some (x * y) | _, _ => None end.
Definition cdiv (a b : cell) : cell :=
  match a, b with Some x, Some y => if Req_EM_T y 0 then None else Some (x / y) | _, _ => None end.
(** numpy broadcasting of two rank-one arrays *)
Definition bcast (f : cell -> cell -> cell) (a b : arr) : res arr :=
  if Nat.eqb (length a) (length b) then Ok (map (fun p => f (fst p) (snd p)) (combine a b))
  else match a, b with
       | [x], _ => Ok (map (f x) b)
       | _, [y] => Ok (map (fun x => f x y) a)
       | _, _ => Err ValueError
       end.

(** The state of a data set (514-553): [_data], [_temp], [_tidx]; the temperature of a plain
    [TEdataset] is None and its index -1. *)
Record dataset := DS { ddata : dict str arr; dtemp : dict str (option arr); dtidx : dict str Z }.

Definition kC : str := ["C"%char]. Definition kR : str := ["R"%char].
Definition kN : str := ["N"%char]. Definition kU : str := ["U"%char].
Definition kT : str := ["T"%char]. Definition kX : str := ["X"%char].
Definition Q_CHARGE : R := 1.602176634.                                  (* 515 *)

(** [temp[k], v] *)
Definition with_temp (d : dataset) (k : str) (v : res arr) : res (option (option arr * arr)) :=
  let! v := v in let! t := dgetitem (dtemp d) k in Ok (Some (t, v)).
(** [(a in data) and (b in data) and (tidx[a] == tidx[b])] *)
Definition linked (d : dataset) (a b : str) : bool :=
  match dget (ddata d) a, dget (ddata d) b, dget (dtidx d) a, dget (dtidx d) b with
  | Some _, Some _, Some i, Some j => Z.eqb i j
  | _, _, _, _ => false
  end.
Definition col (d : dataset) (k : str) : arr := match dget (ddata d) k with Some v => v | None => [] end.
Definition scal (c : R) (a : arr) : arr := map (cmul (Some c)) a.        (* c * a *)
Definition over (c : R) (a : arr) : arr := map (cdiv (Some c)) a.        (* c / a *)

(** [_getC], [_getR], [_getN], [_getU] (580-634); [Ok None] is [(default, default)] *)
Definition getC (d : dataset) : res (option (option arr * arr)) :=
  if dmem (ddata d) kC then with_temp d kC (Ok (col d kC))
  else if dmem (ddata d) kR then with_temp d kR (Ok (over 1e4 (col d kR)))
  else if linked d kN kU then with_temp d kN (bcast cmul (scal Q_CHARGE (col d kN)) (col d kU))
  else Ok None.
Definition getR (d : dataset) : res (option (option arr * arr)) :=
  if dmem (ddata d) kR then with_temp d kR (Ok (col d kR))
  else if dmem (ddata d) kC then with_temp d kC (Ok (over 1e4 (col d kC)))
  else if linked d kN kU then with_temp d kN (let! v := bcast cmul (scal Q_CHARGE (col d kN)) (col d kU) in Ok (over 1e4 v))
  else Ok None.
Definition getN (d : dataset) : res (option (option arr * arr)) :=
  if dmem (ddata d) kN then with_temp d kN (Ok (col d kN))
  else if linked d kU kC then with_temp d kU (bcast cdiv (col d kC) (scal Q_CHARGE (col d kU)))
  else if linked d kU kR then with_temp d kU (bcast cdiv (over 1e4 (col d kR)) (scal Q_CHARGE (col d kU)))
  else Ok None.
Definition getU (d : dataset) : res (option (option arr * arr)) :=
  if dmem (ddata d) kU then with_temp d kU (Ok (col d kU))
  else if linked d kN kC then with_temp d kN (bcast cdiv (col d kC) (scal Q_CHARGE (col d kN)))
  else if linked d kN kR then with_temp d kN (bcast cdiv (over 1e4 (col d kR)) (scal Q_CHARGE (col d kN)))
  else Ok None.

(** [get] (755-764, 807-816); [dflt] tells whether a default is given, [Ok None] is that default.
    For [TEdataset] only the array is returned, the temperature component being None. *)
Definition get (d : dataset) (key : str) (dflt : bool) : res (option (option arr * arr)) :=
  let! v :=
    if dmem (ddata d) key then with_temp d key (Ok (col d key))
    else if eqb key kC then getC d
    else if eqb key kR then getR d
    else if eqb key kN then getN d
    else if eqb key kU then getU d
    else Ok None in
  match v with
  | None => if dflt then Ok None else Err ValueError
  | Some p => Ok (Some p)
  end.
(** [gget] (572-578) *)
Definition gget (d : dataset) (group : str) (dflt : bool) : res (list (option (option arr * arr))) :=
  mapM (fun g => get d g dflt) (parse_group group).
(** [d[key]] (752-753, 804-805) *)
Definition getitem (d : dataset) (key : str) : res (option arr * arr) :=
  let! t := dgetitem (dtemp d) key in let! v := dgetitem (ddata d) key in Ok (t, v).

(** [TEdataset._initialize_data] (741-745): dictionary comprehension over [zip(group, data)]. *)
Definition init1 (group : list str) (data : list arr) : dataset :=
  let kv := filter (fun p => negb (eqb (fst p) kX)) (combine group data) in
  let m := dupdate [] kv in
  DS m (map (fun p => (fst p, None)) m) (map (fun p => (fst p, (-1)%Z)) m).

(** [TEdataset2._initialize_data] (781-795); [all] is [data]. *)
Fixpoint init2_loop (all : list arr) (i idx : nat) (z : list (str * arr)) (acc : dataset) : res dataset :=
  match z with
  | [] => Ok acc
  | (g, d) :: r =>
      if eqb g kT then init2_loop all (S i) i r acc
      else if Nat.ltb idx i then
        init2_loop all (S i) idx r
          (if eqb g kX then acc
           else DS (dset (ddata acc) g d) (dset (dtemp acc) g (Some (nth idx all []))) (dset (dtidx acc) g (Z.of_nat idx)))
      else Err ValueError
  end.
Definition init2 (group : list str) (data : list arr) : res dataset :=
  init2_loop data 0 0 (combine group data) (DS [] [] []).

(** ** parse_datafile (650-672) *)
(** [s.rstrip()] *)
Fixpoint lstrip_by (f : ascii -> bool) (s : str) : str :=
  match s with c :: r => if f c then lstrip_by f r else s | [] => [] end.
Definition rstrip (s : str) : str := rev (lstrip_by is_space (rev s)).

Definition sp (c : ascii) : bool := ch_eq c " ".
Definition hash : ascii := "#"%char.
(** number of leading blanks *)
Fixpoint blanks (s : str) : nat := match s with c :: r => if sp c then S (blanks r) else 0%nat | [] => 0%nat end.
(** [(?=#|$)] at the beginning of [s] (the line has no newline) *)
Definition at_end (s : str) : bool := match s with [] => true | c :: _ => ch_eq c hash end.
(** [ *(?=#|$)]: does some number of blanks [<= n], tried from [n] downwards, lead to an end? *)
Fixpoint tail_ok (s : str) (n : nat) : bool :=
  (at_end (skipn n s) || match n with O => false | S m => tail_ok s m end)%bool.
(** [[^#]+?] followed by the tail: the shortest non-empty run, without '#', that can be completed.
    [pre] is the run so far, reversed. *)
Fixpoint lazy_run (pre : str) (s : str) : option str :=
  match s with
  | [] => None
  | c :: r => if ch_eq c hash then None
              else if tail_ok r (blanks r) then Some (rev (c :: pre)) else lazy_run (c :: pre) r
  end.
(** [^ *] greedy with backtracking: [n] blanks skipped, then n-1, ... *)
Fixpoint match_row_from (s : str) (n : nat) : option str :=
  match lazy_run [] (skipn n s) with
  | Some x => Some x
  | None => match n with O => None | S m => match_row_from s m end
  end.
Definition match_row (s : str) : option str := match_row_from s (blanks s).

(** Delimiters: None ([\s+]), or the class [[\t;,]] (one character, no repetition) of TEdataset2;
    other user-supplied regular expressions are not modelled. *)
Inductive delim := White | TabSemiComma.
Definition is_tsc (c : ascii) : bool := (ch_eq c (ascii_of_nat 9) || ch_eq c ";" || ch_eq c ",")%bool.
(** [re.split] at every single character of a class *)
Fixpoint split_each (sep : ascii -> bool) (cur : str) (t : str) : list str :=
  match t with
  | [] => [rev cur]
  | c :: r => if sep c then rev cur :: split_each sep [] r else split_each sep (c :: cur) r
  end.
Definition split_by (d : delim) (s : str) : list str :=
  match d with White => split_class is_space [] false s | TabSemiComma => split_each is_tsc [] s end.

Section File.
(** [float(item)]: [None] when it raises ValueError (the item becomes nan) or is not finite. *)
Variable pyfloat : str -> cell.

Fixpoint file_rows (dl : delim) (lines : list str) : list (list cell) :=
  match lines with
  | [] => []
  | l :: r => match match_row (rstrip l) with
              | None => file_rows dl r
              | Some s => map pyfloat (split_by dl s) :: file_rows dl r
              end
  end.
(** [zip_longest( *rows, fillvalue=nan)] *)
Definition width (rows : list (list cell)) : nat := fold_right Nat.max 0%nat (map (@length cell) rows).
Definition columns (rows : list (list cell)) : list arr :=
  map (fun j => map (fun row => nth j row None) rows) (seq 0 (width rows)).
Definition parse_datafile (dl : delim) (lines : list str) : list arr := columns (file_rows dl lines).

Definition finite (c : cell) : bool := match c with Some _ => true | None => false end.
(** [TEdataset.from_file] (767-771) *)
Definition from_file1 (dl : delim) (group : list str) (lines : list str) : dataset :=
  init1 group (map (filter finite) (parse_datafile dl lines)).

(** [x[:, np.all(np.isfinite(x), axis=0)]] for the rows [x] of a block *)
Definition row_ok (x : list arr) (i : nat) : bool := forallb (fun c => finite (nth i c None)) x.
Definition nan_filter (x : list arr) : list arr :=
  let n := match x with c :: _ => length c | [] => 0%nat end in
  let idx := filter (row_ok x) (seq 0 n) in
  map (fun c => map (fun i => nth i c None) idx) x.
(** [data[p:q] = nan_filter(np.vstack(data[p:q]))]: [vstack] of nothing raises ValueError *)
Definition filter_block (data : list arr) (p q : nat) : res (list arr) :=
  let blk := firstn (q - p) (skipn p data) in
  match blk with
  | [] => Err ValueError
  | _ => Ok (firstn p data ++ nan_filter blk ++ skipn q data)
  end.
Definition temp_positions (group : list str) : list nat :=
  map fst (filter (fun p => eqb (snd p) kT) (combine (seq 0 (length group)) group)).
Fixpoint filter_blocks (data : list arr) (pq : list (nat * nat)) : res (list arr) :=
  match pq with
  | [] => Ok data
  | (p, q) :: r => let! data := filter_block data p q in filter_blocks data r
  end.
(** [TEdataset2.from_file] (819-836) *)
Definition from_file2 (dl : delim) (group : list str) (lines : list str) : res dataset :=
  let data := parse_datafile dl lines in
  match temp_positions group with
  | [] => Err ValueError
  | [p] => let! data := filter_block data p (length data) in init2 group data
  | p :: ps => let! data := filter_blocks data (combine (p :: ps) (ps ++ [length group])) in init2 group data
  end.
End File.
