(** Vocabulary for the numeric commands; no reference to the model. *)
From Coq Require Import ZArith Reals String Ascii.
From Verif Require Import Py PyStr CfgSpec KvarSpec InstrSpec TxtSpec.
Local Open Scope list_scope.
Local Open Scope R_scope.
(** equally spaced numbers *)
Definition progression (start step : R) (n : nat) : list R := map (fun i => start + INR i * step) (seq 0 n).
(** [n] equally spaced numbers from [a] to [b] *)
Definition evenly (a b : R) (n : nat) (l : list R) : Prop :=
  length l = n /\ (n <> 0%nat -> nth 0 l 0 = a) /\ ((2 <= n)%nat -> nth (n - 1) l 0 = b /\ forall i, (i < n)%nat -> nth i l 0 = a + INR i / INR (n - 1) * (b - a)).
(** the points of start:step:stop, with a margin of a thousandth of a step *)
Definition range_points (start step stop : R) (l : list R) : Prop :=
  step <> 0 /\ exists n, l = progression start step n /\ forall i, (i < n)%nat <-> INR i < (stop - start) / step + 0.001.
Section Sampling.
Variables (load : str -> res (list (list R))) (pyfloat : str -> res R).
Definition absent (o : option str) : Prop := o = None \/ o = Some [].
(** where the interpolation points come from: an existing output file, else the range, else equally spaced between the first and last x *)
Inductive sampling (fs : str -> option str) (out : str) (range : option str) (npoints : Z) (x : list R) : list R -> Prop :=
| by_output text p rest : fs out = Some text -> load text = Ok (p :: rest) -> sampling fs out range npoints x p
| by_range r a b c start step stop l : fs out = None -> range = Some r -> cells ":"%char r [a; b; c] -> pyfloat a = Ok start -> pyfloat b = Ok step -> pyfloat c = Ok stop -> range_points start step stop l -> sampling fs out range npoints x l
| by_number l : fs out = None -> absent range -> x <> [] -> (0 <= npoints)%Z -> evenly (hd 0 x) (last x 0) (Z.to_nat npoints) l -> sampling fs out range npoints x l.
(** the interpolation methods of the command, and the fill value outside the data *)
Definition allowed_methods : list str :=
  [S_ "linear"; S_ "line"; S_ "cubic"; S_ "pchip"; S_ "Akima"; S_ "poly1"; S_ "poly2"; S_ "poly3"; S_ "poly4"; S_ "poly5"; S_ "poly6"; S_ "poly7"; S_ "poly8"; S_ "poly9"].
Definition linear_method (m : str) : Prop := m = S_ "linear" \/ m = S_ "line".
Definition fill_value (m : str) (extrapolate : option str) (fill : option R) : Prop :=
  (~ linear_method m /\ fill = None) \/ (linear_method m /\ exists e v, extrapolate = Some e /\ e <> [] /\ pyfloat e = Ok v /\ fill = Some v).
End Sampling.
(** small letters for capital ones *)
Fixpoint exchanged (from to : str) (c : ascii) : ascii := match from, to with a :: f, b :: t => if ascii_dec c a then b else exchanged f t c | _, _ => c end.
Definition small : ascii -> ascii := exchanged (S_ "ABCDEFGHIJKLMNOPQRSTUVWXYZ") (S_ "abcdefghijklmnopqrstuvwxyz").
Definition folded (s : str) : str := map small s.
Definition fd_name (m : str) : Prop := folded m = S_ "fd" \/ folded m = S_ "fermi-dirac" \/ folded m = S_ "fermidirac".
Definition ss_name (m : str) : Prop := folded m = S_ "ss" \/ folded m = S_ "smoothstep".
