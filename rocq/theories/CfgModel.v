(** Model of the text-level parts of [CfgParser] (src/teflow/utils.py:278-401). *)
From Coq Require Import QArith Qround.
From Verif Require Import Py PyStr.
Local Open Scope nat_scope.

(** ** pmatch (utils.py:340-352) *)

(** [s.split('.', 1)[1]]: the text after the first dot; [None] when there is no dot
    (Python's unpacking would then fail with ValueError). *)
Fixpoint after_first_dot (s : str) : option str :=
  match s with
  | [] => None
  | c :: r => if ch_eq c dot then Some r else after_first_dot r
  end.

(** [items]: what [self.items()] yields, i.e. the DEFAULT section first, then the
    sections in file order, as (name, content). *)
Fixpoint pmatch {C} (items : list (str * C)) (section : str) : res (C * str) :=
  match items with
  | [] => Err NoSectionError                                        (* 351-352 *)
  | (sect, content) :: r =>
      if startswith sect (section ++ [dot])                         (* 346 *)
      then match after_first_dot sect with                          (* 347 *)
           | Some otype => Ok (content, otype)
           | None => Err ValueError
           end
      else if eqb sect section then Ok (content, sect)              (* 349-350 *)
      else pmatch r section
  end.

(** ** parse_list (utils.py:366-367) *)

(** [re.split(r'[...]+', text)] for a character class: matches are the maximal runs.
    [cur] is the current piece (reversed), [insep] whether we are inside a match. *)
Fixpoint split_class (sep : ascii -> bool) (cur : str) (insep : bool) (t : str) : list str :=
  match t with
  | [] => [rev cur]
  | c :: r =>
      if sep c then (if insep then split_class sep [] true r else rev cur :: split_class sep [] true r)
      else split_class sep (c :: cur) false r
  end.

Definition nonempty (s : str) : bool := match s with [] => false | _ => true end.

Definition sep_list (c : ascii) : bool := is_space c || ch_eq c comma.
Definition parse_list (t : str) : list str := filter nonempty (split_class sep_list [] false t).

(** ** parse_seq (utils.py:378-401) *)

(** Length of the longest prefix of separators ([[\s,]+]). *)
Fixpoint run_len (t : str) : nat :=
  match t with c :: r => if sep_list c then S (run_len r) else 0 | [] => 0 end.

(** Backtracking of the greedy [+] under the look-ahead [(?!:)]: the largest
    [k <= n], [k >= 1], such that character [k] is not a colon. *)
Fixpoint backtrack (t : str) (n : nat) : option nat :=
  match n with
  | 0 => None
  | S n' => match nth_error t n with
            | Some c => if ch_eq c colon then backtrack t n' else Some n
            | None => Some n
            end
  end.

(** A match of [(?<!:)[\s,]+(?!:)] at the current position; [prev] is the preceding character. *)
Definition match_sep (prev : option ascii) (t : str) : option nat :=
  match prev with
  | Some c => if ch_eq c colon then None else backtrack t (run_len t)
  | None => backtrack t (run_len t)
  end.

(** [re.split] with that pattern: [skip] counts the characters of the current match
    that are still to be consumed. *)
Fixpoint split_seq (prev : option ascii) (cur : str) (skip : nat) (t : str) : list str :=
  match t with
  | [] => [rev cur]
  | c :: r =>
      match skip with
      | S k => split_seq (Some c) cur k r
      | 0 => match match_sep prev t with
             | Some n => rev cur :: split_seq (Some c) [] (Nat.pred n) r
             | None => split_seq (Some c) (c :: cur) 0 r
             end
      end
  end.

(** [list(filter(None, re.split(r'[:\s]+', part)))] (utils.py:381) *)
Definition sep_inner (c : ascii) : bool := ch_eq c colon || is_space c.
Definition inner_parts (part : str) : list str := filter nonempty (split_class sep_inner [] false part).

Local Open Scope Q_scope.
Definition eps4 : Q := 1 # 10000.

(** utils.py:387-390 with the bound [e] = end + 1E-4; [None] = still running after
    [fuel] tests of the loop condition. *)
Fixpoint while_range (fuel : nat) (start e : Q) : option (list Q) :=
  match fuel with
  | O => None
  | S f => if Qlt_le_dec start e
           then match while_range f (start + 1) e with Some l => Some (start :: l) | None => None end
           else Some []
  end.

(** utils.py:396-398 *)
Fixpoint for_range (n : nat) (start step : Q) : list Q :=
  match n with O => [] | S m => start :: for_range m (start + step) step end.

(** utils.py:393-398; Python's [int] truncates, here the argument is >= 0. *)
Definition step_range (start step e : Q) : res (list Q) :=
  if Qeq_bool step 0 then Err ZeroDivisionError
  else let num := (e - start) / step in
       if Qlt_le_dec num 0 then Ok []
       else Ok (for_range (S (Z.to_nat (Qfloor (num + eps4)))) start step).

Section Seq.
(** Python's [float] on text (ValueError on malformed text); exact rational values stand for
    the floats (no rounding), [nan]/[inf] are not modelled. *)
Variable pyfloat : str -> res Q.
(** Fuel for the [while] loop; see [while_range]. *)
Variable fuel : nat.

(** One part (utils.py:381-400).  [None] = the while loop did not finish within [fuel]. *)
Definition parse_part (part : str) : option (res (list Q)) :=
  match inner_parts part with
  | [_] => Some (let! x := pyfloat part in Ok [x])
  | [a; b] =>
      match pyfloat a with
      | Err e => Some (Err e)
      | Ok start => match pyfloat b with
                    | Err e => Some (Err e)
                    | Ok stop => match while_range fuel start (stop + eps4) with
                                 | Some l => Some (Ok l) | None => None end
                    end
      end
  | [a; s; b] =>
      Some (let! start := pyfloat a in let! step := pyfloat s in let! stop := pyfloat b in
            step_range start step stop)
  | _ => Some (Err ValueError)
  end.

Fixpoint parse_parts (parts : list str) : option (res (list Q)) :=
  match parts with
  | [] => Some (Ok [])
  | p :: r => match parse_part p with
              | None => None
              | Some (Err e) => Some (Err e)
              | Some (Ok l) => match parse_parts r with
                               | None => None
                               | Some (Err e) => Some (Err e)
                               | Some (Ok l') => Some (Ok (l ++ l'))
                               end
              end
  end.

Definition seq_parts (t : str) : list str := filter nonempty (split_seq None [] 0%nat t).
Definition parse_seq (t : str) : option (res (list Q)) := parse_parts (seq_parts t).
End Seq.
