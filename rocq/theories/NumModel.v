(** Model of the numbers in the files the commands write: the formats '%.4f' (src/teflow/interface.py 186, 531, 626, 962), '%.6f' (1215, 1223, 1231, 1239) and '%.6E' (1101) that
    [np.savetxt] applies to every number, and the reading of such a text by [float] (np.loadtxt, utils.py 369-400, loader.py).
    Both are Python's and numpy's, transcribed here: CPython prints the exact value of the float rounded half to even.
    Simplifications: a float is its exact rational value, so the sign of a zero is not kept; reading gives the exact value of the text (no rounding to a float, no overflow); ASCII digits. *)
From Coq Require Import ZArith QArith String Ascii.
From Verif Require Import Py PyStr CfgModel DataModel CompModel SubsModel.
Local Open Scope list_scope.
Local Open Scope Z_scope.

Inductive fl := Fin (q : Q) | Inf (neg : bool) | NaN.

(** decimal digits of a natural number, at least one *)
Definition dchar (n : Z) : ascii := ascii_of_nat (48 + Z.to_nat n).
Fixpoint digits_acc (k : nat) (n : Z) (acc : str) : str :=
  match k with
  | O => acc
  | S k' => if n =? 0 then acc else digits_acc k' (n / 10) (dchar (n mod 10) :: acc)
  end.
Definition digits (n : Z) : str := match digits_acc (S (Z.to_nat (Z.log2 n))) n [] with [] => [dchar 0] | s => s end.
Definition pad (w : nat) (s : str) : str := repeat (dchar 0) (w - List.length s) ++ s.
(** a / b rounded to an integer, halves to the even one *)
Definition round_even (a b : Z) : Z :=
  let q := a / b in let r := a mod b in
  if 2 * r <? b then q else if b <? 2 * r then q + 1 else if Z.even q then q else q + 1.
(** |q| 10^p rounded *)
Definition scaled (q : Q) (p : Z) : Z :=
  if 0 <=? p then round_even (Z.abs (Qnum q) * 10 ^ p) (Zpos (Qden q)) else round_even (Z.abs (Qnum q)) (Zpos (Qden q) * 10 ^ (- p)).
Definition minus (q : Q) : str := if Qnum q <? 0 then S_ "-" else [].
(** '%.{d}f' *)
Definition fmt_f (d : nat) (x : fl) : str :=
  match x with
  | NaN => S_ "nan"
  | Inf neg => (if neg then S_ "-" else []) ++ S_ "inf"
  | Fin q =>
      let s := pad (S d) (digits (scaled q (Z.of_nat d))) in
      let n := (List.length s - d)%nat in
      minus q ++ firstn n s ++ match d with O => [] | S _ => dot :: skipn n s end
  end.
(** the decimal exponent: 10^e <= |q| < 10^(e+1) *)
Definition exponent (q : Q) : Z :=
  let a := Z.abs (Qnum q) in let b := Zpos (Qden q) in
  let e := Z.of_nat (List.length (digits a)) - Z.of_nat (List.length (digits b)) in
  if (if 0 <=? e then b * 10 ^ e <=? a else b <=? a * 10 ^ (- e)) then e else e - 1.
(** '%.{d}E' *)
Definition fmt_E (d : nat) (x : fl) : str :=
  match x with
  | NaN => S_ "NAN"
  | Inf neg => (if neg then S_ "-" else []) ++ S_ "INF"
  | Fin q =>
      let '(m, e) :=
        if Qnum q =? 0 then (0, 0)
        else let e := exponent q in let m := scaled q (Z.of_nat d - e) in if m =? 10 ^ (Z.of_nat d + 1) then (10 ^ Z.of_nat d, e + 1) else (m, e) in
      let s := pad (S d) (digits m) in
      minus q ++ firstn 1 s ++ (match d with O => [] | S _ => dot :: skipn 1 s end)
        ++ S_ "E" ++ (if e <? 0 then S_ "-" else S_ "+") ++ pad 2 (digits (Z.abs e))
  end.

(** ** float(text) *)
Definition dval (c : ascii) : Z := Z.of_nat (nat_of_ascii c) - 48.
Definition value (s : str) : Z := fold_left (fun v c => 10 * v + dval c) s 0.
(** underscores are allowed between digits only *)
Fixpoint plain_digits (before : bool) (s : str) : option str :=
  match s with
  | [] => Some []
  | c :: r =>
      if ch_eq c "_" then match r with n :: _ => if (before && is_digit n)%bool then plain_digits false r else None | [] => None end
      else match plain_digits (is_digit c) r with Some t => Some (c :: t) | None => None end
  end.
Definition low (c : ascii) : ascii := let n := nat_of_ascii c in if ((65 <=? n)%nat && (n <=? 90)%nat)%bool then ascii_of_nat (n + 32) else c.
Definition sign (s : str) : bool * str :=
  match s with c :: r => if ch_eq c "-" then (true, r) else if ch_eq c "+" then (false, r) else (false, s) | [] => (false, s) end.
Definition opp (neg : bool) (z : Z) : Z := if neg then - z else z.
Definition ten (e : Z) : Q := (if 0 <=? e then inject_Z (10 ^ e) else / inject_Z (10 ^ (- e)))%Q.
Definition decimal (neg : bool) (s : str) : res fl :=
  let (i, r) := span is_digit s in
  let (f, r) := match r with c :: r' => if ch_eq c dot then span is_digit r' else ([], r) | [] => ([], r) end in
  match i ++ f with
  | [] => Err ValueError
  | m => let! e := match r with
                   | [] => Ok 0
                   | c :: r' => if ch_eq (low c) "e" then
                                  let (eneg, t) := sign r' in let (ed, rest) := span is_digit t in
                                  match ed, rest with _ :: _, [] => Ok (opp eneg (value ed)) | _, _ => Err ValueError end
                                else Err ValueError
                   end in
         Ok (Fin (inject_Z (opp neg (value m)) * ten (e - Z.of_nat (List.length f)))%Q)
  end.
Definition py_float (s : str) : res fl :=
  match plain_digits false (strip s) with
  | None => Err ValueError
  | Some t =>
      let (neg, t) := sign t in
      let l := List.map low t in
      if (eqb l (S_ "inf") || eqb l (S_ "infinity"))%bool then Ok (Inf neg)
      else if eqb l (S_ "nan") then Ok NaN
      else decimal neg t
  end.
