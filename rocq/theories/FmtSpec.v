(** Vocabulary for tef-format; no reference to the model. *)
From Coq Require Import ZArith Reals String Ascii Permutation Sorted.
From Verif Require Import Py PyStr CfgSpec KvarSpec InstrSpec TxtSpec CliSpec.
Local Open Scope list_scope.
Local Open Scope R_scope.
(** [n] is the integer nearest to [x]; of two, the even one *)
Definition nearest (x : R) (n : Z) : Prop := Rabs (x - IZR n) <= 1 / 2 /\ (Rabs (x - IZR n) = 1 / 2 -> Z.even n = true).
(** where the automatic series starts (room temperature aside) *)
Definition series_start (tstep : R) : R := if Rlt_dec 23 tstep then 323 else 300.
(** the automatic series up to about [m]; [no_rt]: 300 K is left out of the series that starts at 323 K *)
Definition auto_series (tstep m : R) (no_rt : bool) (T : list R) : Prop :=
  exists n, nearest ((m - series_start tstep) / tstep) n /\
    T = (if Rlt_dec 23 tstep then (if no_rt then [] else [300]) else []) ++ progression (series_start tstep) tstep (Z.to_nat (n + 1)).
(** the highest temperature: the option (unless it is absent or zero), else that of the data *)
Definition highest (tmax : option R) (temps : list (list R)) (m : R) : Prop :=
  (tmax = Some m /\ m <> 0) \/ ((tmax = None \/ tmax = Some 0) /\ In m (List.concat temps) /\ forall t, In t (List.concat temps) -> t <= m).
(** ** methods *)
Definition capital (c : ascii) : ascii := let n := nat_of_ascii c in if ((97 <=? n) && (n <=? 122))%nat%bool then ascii_of_nat (n - 32) else c.
Definition capitals (w : str) : str := map capital w.
Definition poly_word (w : str) : Prop := exists r, capitals w = S_ "POLY" ++ r.
Inductive method_word (w : str) : str -> Prop :=
| m_poly a c : poly_word w -> capitals w = a ++ [c] -> method_word w (S_ "poly" ++ [c])
| m_linear r : capitals w = "L"%char :: r -> method_word w (S_ "linear")
| m_cubic r : capitals w = "C"%char :: r -> method_word w (S_ "cubic")
| m_akima r : capitals w = "A"%char :: r -> method_word w (S_ "Akima")
| m_pchip r : ~ poly_word w -> capitals w = "P"%char :: r -> method_word w (S_ "pchip")
| m_degree c r : In c ["1"; "2"; "3"; "4"; "5"; "6"; "7"; "8"; "9"]%char -> w = c :: r -> method_word w (S_ "poly" ++ [c]).
(** the methods for C, S, K of the option text *)
Inductive method_choice (text : str) : str -> str -> str -> Prop :=
| mc_one w m : tokens is_space text [w] -> method_word w m -> method_choice text m m m
| mc_three a b c rest ma mb mc : tokens is_space text (a :: b :: c :: rest) -> method_word a ma -> method_word b mb -> method_word c mc -> method_choice text ma mb mc.
(** ** data at the output temperatures *)
Definition pick (l : list R) (idx : list nat) : list R := map (fun i => nth i l 0) idx.
(** an order of the points by temperature that keeps sorted ones *)
Definition ordering_by_T (ordering : list R -> list nat) : Prop :=
  forall t, Permutation (ordering t) (seq 0 (length t)) /\ StronglySorted Rle (pick t (ordering t)) /\ ((forall i, (S i < length t)%nat -> nth i t 0 <= nth (S i) t 0) -> ordering t = seq 0 (length t)).
Section Resampled.
Variables (interpolate : str -> list R -> list R -> list R -> res (list R)) (ordering : list R -> list nat).
Definition resampled (m : str) (tp : list R * list R) (T v : list R) : Prop :=
  (2 <= length (fst tp))%nat /\ length (snd tp) = length (fst tp) /\ interpolate m (pick (fst tp) (ordering (fst tp))) (pick (snd tp) (ordering (fst tp))) T = Ok v.
Definition resampled_if (m : str) (o : option (list R * list R)) (T : list R) (v : option (list R)) : Prop :=
  match o, v with None, None => True | Some tp, Some x => resampled m tp T x | _, _ => False end.
End Resampled.
Definition named (n : str) (v : option (list R)) : list (str * list R) := match v with Some x => [(n, x)] | None => [] end.
(** ** calculated quantities *)
(** trapezoidal integral of the values [y] over the points [T] from the first up to the [i]-th *)
Fixpoint trapezoid (T y : list R) (i : nat) : R :=
  match i with 0%nat => 0 | S k => trapezoid T y k + (nth (S k) T 0 - nth k T 0) * (nth k y 0 + nth (S k) y 0) / 2 end.
Definition power_factor (C S : list R) (i : nat) : R := 1e-6 * nth i C 0 * nth i S 0 ^ 2.
Definition merit (C S K T : list R) (i : nat) : R := 1e-10 * nth i C 0 * nth i S 0 ^ 2 / nth i K 0 * nth i T 0.
Definition mean_merit (C S K T : list R) (i : nat) : R :=
  let k := trapezoid T K i in
  if Rlt_dec 1e-3 (Rabs k) then 1e-6 * trapezoid T S i ^ 2 * ((nth 0 T 0 + nth i T 0) / 2) / (trapezoid T (map (fun c => 1e4 / c) C) i * k) else merit C S K T i.
Definition compatibility (C S K T : list R) (i : nat) : R := 1e6 * (sqrt (1 + merit C S K T i) - 1) / (nth i S 0 * nth i T 0).
(** the list of length [n] with the given values *)
Definition valued (n : nat) (f : nat -> R) (l : list R) : Prop := length l = n /\ forall i, (i < n)%nat -> nth i l 0 = f i.
