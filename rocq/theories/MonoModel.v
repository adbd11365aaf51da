(** Model of [split_monotonic] (src/teflow/mathext.py:139-228). *)
From Coq Require Import QArith.
From Verif Require Import Py PyStr.
Local Open Scope nat_scope.

(** Classification of one step (line 217): A(scending), D(escending), S(teady). *)
Inductive sgn := SA | SD | SS.
Definition sgn_eqb (a b : sgn) : bool :=
  match a, b with SA, SA | SD, SD | SS, SS => true | _, _ => false end.

Definition classify (eps s : Q) : sgn :=
  if Qlt_le_dec eps s then SA else if Qlt_le_dec s (- eps) then SD else SS.

(** [np.diff] *)
Fixpoint diffs (x : list Q) : list Q :=
  match x with
  | a :: ((b :: _) as r) => (b - a)%Q :: diffs r
  | _ => []
  end.

(** The fragment of Python's [re] that the built-in patterns use, with backtracking
    semantics: [matches r s] lists the lengths of the matches at the beginning of [s]
    in the order in which the engine tries them. *)
Inductive re :=
| Chr (p : sgn -> bool)              (* a literal or a character class *)
| StarC (p : sgn -> bool)            (* greedy [class]* *)
| Seq (a b : re)
| Alt (a b : re)
| Opt (a : re).                      (* greedy (?:...)? *)

Fixpoint star_lens (p : sgn -> bool) (s : list sgn) : list nat :=
  match s with
  | c :: r => if p c then map S (star_lens p r) ++ [0] else [0]
  | [] => [0]
  end.

Fixpoint matches (r : re) (s : list sgn) : list nat :=
  match r with
  | Chr p => match s with c :: _ => if p c then [1] else [] | [] => [] end
  | StarC p => star_lens p s
  | Seq a b => flat_map (fun n => map (Nat.add n) (matches b (skipn n s))) (matches a s)
  | Alt a b => matches a s ++ matches b s
  | Opt a => matches a s ++ [0]
  end.

(** The patterns of lines 205-210. *)
Definition opp (g : sgn) : sgn := match g with SA => SD | SD => SA | SS => SS end.
Definition pat1 (g : sgn) : re :=
  Seq (Chr (sgn_eqb g)) (Opt (Seq (StarC (fun c => sgn_eqb c g || sgn_eqb c SS)) (Chr (sgn_eqb g)))).
Definition pat_A := pat1 SA.                         (* A(?:[AS]*A)? *)
Definition pat_D := pat1 SD.                         (* D(?:[DS]*D)? *)
Definition pat_B := Alt pat_A pat_D.

(** [re.finditer] for the three patterns, which have no empty matches: leftmost, non-overlapping matches as (start, end). *)
Fixpoint finditer (r : re) (pos skip : nat) (s : list sgn) : list (nat * nat) :=
  match s with
  | [] => []
  | _ :: t =>
      match skip with
      | S k => finditer r (S pos) k t
      | 0 => match matches r s with
             | S n :: _ => (pos, pos + S n) :: finditer r (S pos) n t
             | _ => finditer r (S pos) 0 t
             end
      end
  end.

(** [s.upper()] on one Latin-1 character, ASCII letters only (only ASCII letters are compared). *)
Definition upper (c : ascii) : ascii :=
  let n := nat_of_ascii c in
  if (97 <=? n) && (n <=? 122) then ascii_of_nat (n - 32) else c.

(** Lines 194-204: the offsets (left, right); an empty string raises IndexError. *)
Definition ends_offsets (ends : str) : res (nat * nat) :=
  match ends with
  | [] => Err IndexError
  | c :: _ =>
      let u := upper c in
      if ch_eq u "L" then Ok (0, 0) else if ch_eq u "R" then Ok (1, 1)
      else if ch_eq u "B" then Ok (0, 1) else if ch_eq u "N" then Ok (1, 0)
      else Err ValueError
  end.

Section Custom.
(** Spans found by [re.finditer] for a user pattern (trend = '#...'), or the exception of [re]. *)
Variable user_spans : str -> list sgn -> res (list (nat * nat)).

(** Lines 206-217 and 226. *)
Definition trend_spans (trend : str) (s : list sgn) : res (list (nat * nat)) :=
  match trend with
  | [] => Err IndexError
  | c :: r =>
      let u := upper c in
      if ch_eq u "B" then Ok (finditer pat_B 0 0 s)
      else if ch_eq u "A" then Ok (finditer pat_A 0 0 s)
      else if ch_eq u "D" then Ok (finditer pat_D 0 0 s)
      else if ch_eq u "#" then user_spans r s
      else Err ValueError
  end.

(** [xval[i:j]] *)
Definition slice {A} (l : list A) (i j : nat) : list A := skipn i (firstn j l).

Definition sign_num (g : option sgn) : Z :=
  match g with Some SA => 1%Z | Some SD => (-1)%Z | _ => 0%Z end.

Record mono := { m_vals : list Q; m_sign : Z; m_idx : nat * nat }.

(** One segment (lines 223-227); [m.group()[0]] is the step at [m.start()]. *)
Definition segment (x : list Q) (s : list sgn) (lr : nat * nat) (m : nat * nat) : mono :=
  let i := fst m + fst lr in let j := snd m + snd lr in
  {| m_vals := slice x i j; m_sign := sign_num (nth_error s (fst m)); m_idx := (i, j) |}.

(** The three returned lists are modelled as one list of records. *)
Definition split_monotonic (x : list Q) (trend ends : str) (eps : Q) : res (list mono) :=
  let! lr := ends_offsets ends in
  let s := map (classify eps) (diffs x) in
  let! spans := trend_spans trend s in
  if existsb (fun m => Nat.eqb (fst m) (snd m)) spans then Err IndexError     (* [m.group()[0]] of an empty match (225) *)
  else Ok (map (segment x s lr) spans).
End Custom.
