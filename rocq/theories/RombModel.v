(** Model of the Fermi-Dirac quadrature [romb_dfx] (src/teflow/bandlib.py:69-118) for one pair (EF, T)
    (arrays are maps of this), over exact reals.
    [romb] is scipy.integrate.romb, external to /repo: it is transcribed here from SciPy (unit spacing). *)
From Coq Require Import QArith Reals.
From Verif Require Import Py RUtil FuncModel.
Local Open Scope R_scope.

(** ** scipy.integrate.romb over any numbers *)
Section Romb.
Variable T : Type.
Variables (add sub mul div : T -> T -> T) (ofn : nat -> T).
(** indices of the Python slice [start:stop:step] *)
Definition slice_idx (start stop step : nat) : list nat :=
  map (fun j => (start + j * step)%nat) (seq 0 ((stop - start + (step - 1)) / step)).
Definition sum_at (y : nat -> T) (l : list nat) : T := fold_right (fun i a => add (y i) a) (ofn 0) l.
(** R(i,0), R(i,1), ... from R(i,0) and the previous row; [j] is the column *)
Fixpoint richardson (prev : T) (old : list T) (j : nat) : list T :=
  match old with
  | [] => [prev]
  | o :: old' => prev :: richardson (add prev (div (sub prev o) (ofn (4 ^ j - 1)))) old' (S j)
  end.
(** row [i] of the table for [n] intervals; step sizes are n/2^i *)
Fixpoint romb_row (y : nat -> T) (n i : nat) : list T :=
  match i with
  | O => [mul (div (add (y 0%nat) (y n)) (ofn 2)) (ofn n)]
  | S i' =>
      let old := romb_row y n i' in
      let h := div (ofn n) (ofn (2 ^ i')) in
      let s := sum_at y (slice_idx (n / 2 ^ i) n (n / 2 ^ i')) in
      richardson (div (add (hd (ofn 0) old) (mul h s)) (ofn 2)) old 1
  end.
(** [romb] on the samples y(0), ..., y(2^k) *)
Definition romb (y : nat -> T) (k : nat) : T := last (romb_row y (2 ^ k) k) (ofn 0).
End Romb.
Definition rombR := romb R Rplus Rminus Rmult Rdiv INR.

(** ** romb_dfx *)
(** [kB_eV] (63) *)
Definition kB : R := 8.617333262145179e-05.
Section Dfx.
Variable func : R -> R -> R.     (* E, T *)
Variables EF T : R.
Variable k : nat.
Variable ndiv : nat.             (* default 6 *)
Definition kT : R := kB * T.
Definition width : R := 1 / (1 + exp (- (EF / kT) / 3)).
Definition nbins : nat := (2 ^ ndiv)%nat.
(** np.linspace(0, width, nbins+1) *)
Definition tp (i : nat) : R := INR i * (width / INR nbins).
Definition eps : R := 1e-10.
Definition node_x (t : R) : R := 3 * ln (1 / t - 1).
Definition xp (i : nat) : R := if (Nat.eqb i 0 || Nat.eqb i nbins)%bool then - (EF / kT) + eps else node_x (tp i).
Definition weight0 (t : R) : R := 3 * (t * (1 - t)) ^ 2 / (t ^ 3 + (1 - t) ^ 3) ^ 2.
Definition energy (i : nat) : R := kT * xp i + EF.
Definition sample (i : nat) : R := func (energy i) T * (xp i ^ k * weight0 (tp i)).
Definition romb_dfx : R := rombR sample ndiv * (width / INR nbins).
End Dfx.
