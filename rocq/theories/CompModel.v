(** Model of [Compound] and [Alloy] (src/teflow/loader.py:30-45, 324-512).
    A compound is an insertion-ordered dictionary from names to amounts; amounts are real numbers
    (int and float are not distinguished, floating-point rounding is not modelled).  Texts are ASCII. *)
From Coq Require Import ZArith String.
From Verif Require Import Py PyDict PyStr RUtil DataModel.
Local Open Scope list_scope.
Local Open Scope R_scope.

Notation compound := (list (str * R)).

(** [PeriodicTable._fields] (30-45) *)
Definition elements : list str := [
  S_ "XX"; S_ "H"; S_ "He"; S_ "Li"; S_ "Be"; S_ "B"; S_ "C"; S_ "N"; S_ "O"; S_ "F"; S_ "Ne";
  S_ "Na"; S_ "Mg"; S_ "Al"; S_ "Si"; S_ "P"; S_ "S"; S_ "Cl"; S_ "Ar"; S_ "K"; S_ "Ca"; S_ "Sc";
  S_ "Ti"; S_ "V"; S_ "Cr"; S_ "Mn"; S_ "Fe"; S_ "Co"; S_ "Ni"; S_ "Cu"; S_ "Zn"; S_ "Ga"; S_ "Ge";
  S_ "As"; S_ "Se"; S_ "Br"; S_ "Kr"; S_ "Rb"; S_ "Sr"; S_ "Y"; S_ "Zr"; S_ "Nb"; S_ "Mo"; S_ "Tc";
  S_ "Ru"; S_ "Rh"; S_ "Pd"; S_ "Ag"; S_ "Cd"; S_ "In"; S_ "Sn"; S_ "Sb"; S_ "Te"; S_ "I"; S_ "Xe";
  S_ "Cs"; S_ "Ba"; S_ "La"; S_ "Ce"; S_ "Pr"; S_ "Nd"; S_ "Pm"; S_ "Sm"; S_ "Eu"; S_ "Gd";
  S_ "Tb"; S_ "Dy"; S_ "Ho"; S_ "Er"; S_ "Tm"; S_ "Yb"; S_ "Lu"; S_ "Hf"; S_ "Ta"; S_ "W"; S_ "Re";
  S_ "Os"; S_ "Ir"; S_ "Pt"; S_ "Au"; S_ "Hg"; S_ "Tl"; S_ "Pb"; S_ "Bi"; S_ "Po"; S_ "At";
  S_ "Rn"; S_ "Fr"; S_ "Ra"; S_ "Ac"; S_ "Th"; S_ "Pa"; S_ "U"; S_ "Np"; S_ "Pu"; S_ "Am"; S_ "Cm";
  S_ "Bk"; S_ "Cf"; S_ "Es"; S_ "Fm"; S_ "Md"; S_ "No"; S_ "Lr"; S_ "Rf"; S_ "Db"; S_ "Sg";
  S_ "Bh"; S_ "Hs"; S_ "Mt"; S_ "Ds"; S_ "Rg"; S_ "Cn"; S_ "Nh"; S_ "Fl"; S_ "Mc"; S_ "Lv";
  S_ "Ts"; S_ "Og"].

(** [natom] (329-338): [round] returns a nearest integer; which of two equally near ones is
    irrelevant because the tolerance is below 1/2. *)
Definition total (c : compound) : R := sumR (map snd c).
Definition nearest (x : R) : R := IZR (Int_part (x + 1/2)).
Definition natom (c : compound) : R :=
  let n := total c in if Rlt_dec (Rabs (n - nearest n)) 1e-8 then nearest n else n.

Section Weights.
(** [getattr(AtomicWeight, key)]; [None] is the placeholder object of 'XX' (47-166) *)
Variable atomic_weight : str -> option R.
(** [weights] (340-351) *)
Definition weights (c : compound) : res (list (str * option R)) :=
  mapM (fun p => if memb (fst p) elements then Ok (fst p, atomic_weight (fst p)) else Err KeyError) c.
(** [weight_ave] (353-359): int*object raises TypeError, division by an amount of 0 raises. *)
Definition weight_ave (c : compound) : res R :=
  let! w := weights c in
  let! t := mapM (fun p => match snd (snd p) with Some x => Ok (snd (fst p) * x) | None => Err TypeError end) (combine c w) in
  if Req_EM_T (natom c) 0 then Err ZeroDivisionError else Ok (sumR t / natom c).
End Weights.

(** [replace] (361-380): [popitem] takes the last item. [rev c] is the stack. *)
Fixpoint pop_until (old new : str) (stack poped : compound) : res (compound * compound) :=
  match stack with
  | [] => Err KeyError
  | (k, v) :: r => if eqb k old then Ok (rev r, (new, v) :: poped) else pop_until old new r ((k, v) :: poped)
  end.
(** [poped] above is already in the order of [reversed(poped)] *)
Definition replace (c : compound) (old new : str) (match_order : bool) : res compound :=
  if negb (dmem c old) then Err KeyError
  else if dmem c new then Err KeyError
  else if match_order then
    let! p := pop_until old new (rev c) [] in let '(c', items) := p in Ok (dupdate c' items)
  else let! p := dpop c old in let '(c', v) := p in Ok (dset c' new v).

(** ** Text *)
(** characters between a name and its number: the class [[ _\-\(\\]] of line 418 *)
Definition is_fill (c : ascii) : bool :=
  (ch_eq c " " || ch_eq c "_" || ch_eq c "-" || ch_eq c "(" || ch_eq c "\")%bool.
Fixpoint span (f : ascii -> bool) (s : str) : str * str :=
  match s with c :: r => if f c then let '(a, b) := span f r in (c :: a, b) else ([], s) | [] => ([], []) end.
(** [\d*\.?\d*] *)
Definition take_num (s : str) : str * str :=
  let '(d1, r) := span is_digit s in
  match r with
  | c :: r' => if ch_eq c dot then let '(d2, r'') := span is_digit r' in (d1 ++ c :: d2, r'') else (d1, r)
  | [] => (d1, [])
  end.
(** all matches of line 418's pattern; every part is greedy and no backtracking can occur, because the
    number may be empty.  [n] bounds the number of scanned characters. *)
Fixpoint find_items (n : nat) (s : str) : list (str * str) :=
  match n with
  | O => []
  | S n =>
      match s with
      | [] => []
      | c :: r =>
          if is_upper c then
            let '(low, r1) := span is_lower r in
            let '(_, r2) := span is_fill r1 in
            let '(num, r3) := take_num r2 in
            (c :: low, num) :: find_items n r3
          else find_items n r
      end
  end.
(** decimal value: digits before and after the point *)
Definition digit_val (c : ascii) : Z := (Z.of_nat (nat_of_ascii c) - 48)%Z.
Definition int_val (s : str) : Z := fold_left (fun a c => (a * 10 + digit_val c)%Z) s 0%Z.
(** [float(num_) if '.' in num_ else int(num_)] (427), [num_ = m.group('num') or '1'] (426) *)
Definition num_val (s : str) : res R :=
  match s with
  | [] => Ok 1
  | _ => let '(d1, r) := span is_digit s in
         match r with
         | [] => Ok (IZR (int_val d1))
         | _ :: d2 => match d1, d2 with
                      | [], [] => Err ValueError                         (* float('.') *)
                      | _, _ => Ok (IZR (int_val (d1 ++ d2)) / 10 ^ length d2)
                      end
         end
  end.
(** the loop of [Compound.from_string] (412-428) *)
Fixpoint read_items (skip raise_ : bool) (l : list (str * str)) (acc : compound) : res compound :=
  match l with
  | [] => Ok acc
  | (name, num) :: r =>
      if negb (memb (firstn 2 name) elements) && raise_ then Err ValueError
      else if negb (memb (firstn 2 name) elements) && skip then read_items skip raise_ r acc
      else let! v := num_val num in read_items skip raise_ r (dset acc name v)
  end.
Definition comp_from_string (formula : str) (skip raise_ : bool) : res compound :=
  read_items skip raise_ (find_items (length formula) formula) [].

Inductive style := Join | Split | Origin.
Section Fmt.
(** [fmt % num] *)
Variable fmt : R -> str.
(** [to_string] (385-410) *)
Definition comp_token (st : style) (omit_one : bool) (p : str * R) : str :=
  let num_ := fmt (snd p) in
  if (omit_one && eqb num_ ["1"%char])%bool then fst p
  else match st with
       | Origin => fst p ++ S_ "\-(" ++ num_ ++ S_ ")"
       | _ => fst p ++ num_
       end.
Fixpoint join_with (sep : str) (l : list str) : str :=
  match l with [] => [] | [x] => x | x :: r => x ++ sep ++ join_with sep r end.
Definition comp_to_string (st : style) (omit_one : bool) (c : compound) : str :=
  join_with (match st with Split => S_ " " | _ => [] end) (map (comp_token st omit_one) c).
End Fmt.

(** ** Alloy *)
(** a site holds a Compound, another dictionary, or something else *)
Inductive site := SComp (c : compound) | SDict (c : compound) | SOther.
Notation alloy := (list (str * site)).
(** [Compound((key, val/natom) for ...)] (446) *)
Definition regularise (c : compound) : res compound :=
  if Req_EM_T (natom c) 1 then Ok c
  else if Req_EM_T (natom c) 0 then (match c with [] => Ok [] | _ => Err ZeroDivisionError end)
  else Ok (map (fun p => (fst p, snd p / natom c)) c).
(** [list(alloy.all_sites(regular))] (431-447): the results and the alloy afterwards.
    [comp] is the local variable of the generator: the composition last yielded, if any.
    Line 439 assigns [Compound(comp)] before [comp] is set for this site. *)
Fixpoint all_sites (regular : bool) (todo : list (str * site)) (comp : option compound) : res (list (str * compound * R) * alloy) :=
  match todo with
  | [] => Ok ([], [])
  | (name, s) :: r =>
      let! c := match s with
                | SComp c => Ok c
                | SDict _ => match comp with Some c => Ok c | None => Err UnboundLocalError end
                | SOther => Err TypeError
                end in
      let! c' := if regular then regularise c else Ok c in
      let! rest := all_sites regular r (Some c') in
      Ok ((name, c', natom c) :: fst rest, (name, SComp c) :: snd rest)
  end.
(** [from_compounds] (488-512); an item is a dictionary or not; [names]/[natoms] may be absent. *)
Definition auto_name (i : nat) : str := [ascii_of_nat (i + 65)].
Definition scale_to (c : compound) (n : option R) : res compound :=
  match n with
  | None => Ok c
  | Some n => if Req_EM_T (natom c) 0 then Err ZeroDivisionError
              else Ok (map (fun p => (fst p, snd p * (n / natom c))) c)
  end.
Fixpoint fill_alloy (l : list (option compound * (str * option R))) (acc : alloy) : res alloy :=
  match l with
  | [] => Ok acc
  | (oc, (name, n)) :: r =>
      match oc with
      | None => Err TypeError
      | Some c => let! c' := scale_to c n in fill_alloy r (dset acc name (SComp c'))
      end
  end.
Definition from_compounds (comps : list (option compound)) (names : option (list str)) (natoms : option (list R)) : res alloy :=
  let! names := match names with
                | Some l => Ok l
                | None => if Nat.leb (length comps) 26 then Ok (map auto_name (seq 0 (length comps))) else Err ValueError
                end in
  let natoms := match natoms with Some l => map Some l | None => repeat None (length comps) end in
  fill_alloy (combine comps (combine names natoms)) [].

(** ** Alloy.from_string (461-486) *)
(** leftmost [\((.+?)\)] : text before, content, text after.  [.] does not match a newline; the content
    is the shortest non-empty one, so a ')' directly after '(' belongs to the content. *)
Definition newline : ascii := ascii_of_nat 10.
(** content after '(' : at least one character, up to the first later ')' ; None if a newline intervenes *)
Fixpoint until_close (acc : str) (s : str) : option (str * str) :=
  match s with
  | [] => None
  | c :: r => if ch_eq c ")" then Some (rev acc, r) else if ch_eq c newline then None else until_close (c :: acc) r
  end.
Definition paren_at (s : str) : option (str * str) :=      (* s begins after '(' *)
  match s with
  | [] => None
  | c :: r => if ch_eq c newline then None else until_close [c] r
  end.
Fixpoint find_paren (s : str) : option (str * str * str) :=
  match s with
  | [] => None
  | c :: r =>
      match (if ch_eq c "(" then paren_at r else None) with
      | Some (x, t) => Some ([], x, t)
      | None => match find_paren r with Some (b, x, t) => Some (c :: b, x, t) | None => None end
      end
  end.
(** [re.sub(r'\-(\(.+?\))', r'_\1', formula)] (464): a hyphen in front of a parenthesised group becomes
    an underscore; scanning goes on after the group. *)
Fixpoint sub_hyphen (n : nat) (s : str) : str :=
  match n with
  | O => s
  | S n =>
      match s with
      | [] => []
      | c :: r =>
          match (if ch_eq c "-" then match r with d :: r' => if ch_eq d "(" then paren_at r' else None | [] => None end else None) with
          | Some (x, t) => "_"%char :: "("%char :: x ++ ")"%char :: sub_hyphen n t
          | None => c :: sub_hyphen n r
          end
      end
  end.
(** [sf.replace(old, new)], [old] not empty *)
Fixpoint replace_all (n : nat) (old new s : str) : str :=
  match n with
  | O => s
  | S n =>
      if startswith s old then new ++ replace_all n old new (skipn (length old) s)
      else match s with [] => [] | c :: r => c :: replace_all n old new r end
  end.
Definition placeholder (i : nat) : str := S_ "Jalloyed" ++ repeat "x"%char i.
(** the while loop (467-470); every step removes at least one '(' so [n = length s] steps suffice *)
Fixpoint extract (n : nat) (s : str) (i : nat) : str * list str :=
  match n with
  | O => (s, [])
  | S n =>
      match find_paren s with
      | None => (s, [])
      | Some (_, x, _) =>
          let s' := replace_all (length s) ("("%char :: x ++ [")"%char]) (placeholder i) s in
          let '(s'', l) := extract n s' (S i) in (s'', x :: l)
      end
  end.
(** [re.match(rf'{ALLOYSITE}(x* )', key)] (475): the index of the group *)
Definition group_index (key : str) : option nat :=
  if startswith key (S_ "Jalloyed") then Some (length (fst (span (fun c => ch_eq c "x") (skipn 8 key)))) else None.
(** "undetermined stoichiometry" (480) *)
Definition near_one (x : R) : bool := if Rlt_dec (Rabs (x - 1)) 1e-8 then true else false.
Definition undetermined (c : compound) : bool := (Nat.ltb 1 (length c) && forallb (fun p => near_one (snd p)) c)%bool.
Definition read_site (groups : list str) (skip raise_ : bool) (p : str * R) : res (compound * R) :=
  let! key := match group_index (fst p) with Some i => py_nth groups i | None => Ok (fst p) end in
  let! c := comp_from_string key skip raise_ in
  if undetermined c then Err ValueError else Ok (c, snd p * natom c).
Definition alloy_from_string (formula : str) (names : option (list str)) (skip raise_ : bool) : res alloy :=
  let sf := sub_hyphen (length formula) formula in
  let '(sf, groups) := extract (length sf) sf 0 in
  let! ps := comp_from_string sf false false in
  let! sites := mapM (read_site groups skip raise_) ps in
  from_compounds (map (fun p => Some (fst p)) sites) names (Some (map snd sites)).

(** ** Alloy.to_string (452-459); [__str__] (449-450) is this with the defaults.
    [all_sites] may replace a site's dictionary; the alloy afterwards is dropped here. *)
Section AlloyText.
Variable fmt : R -> str.
Definition site_key (st : style) (omit_one : bool) (c : compound) : str :=
  let key := comp_to_string fmt st omit_one c in
  if Nat.eqb (length c) 1 then key else S_ "(" ++ key ++ S_ ")".
Definition alloy_to_string (st : style) (omit_one : bool) (a : alloy) : res str :=
  let! p := all_sites true a None in
  Ok (comp_to_string fmt st omit_one (dupdate [] (map (fun t => (site_key st omit_one (snd (fst t)), snd t)) (fst p)))).
End AlloyText.
