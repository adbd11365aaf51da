(** Specification vocabulary for the Debye model. *)
From Coq Require Import Reals String.
From Coquelicot Require Import Coquelicot.
From Verif Require Import Py PyDict PyStr RUtil ScatModel EngModel DebyeModel.
Local Open Scope R_scope.

Definition scats (l : list comp) : list mech := flat_map (fun c => match c with Scat t f => [(t, f)] | _ => [] end) l.
Definition subs (l : list comp) : list subm := flat_map (fun c => match c with Sub t k => [(t, k)] | _ => [] end) l.
(** components that can be combined: known types, no tag twice *)
Definition fitting (l : list comp) : Prop := ~ In Other l /\ NoDup (map fst (scats l)) /\ NoDup (map fst (subs l)).

(** "A+B+C" *)
Fixpoint plus_join (l : list str) : str := match l with [] => [] | [x] => x | x :: r => x ++ S_ "+" ++ plus_join r end.

(** rates that the integral can handle: continuous and positive between the cut-offs *)
Definition regular (td T : R) (s : list mech) : Prop :=
  s <> [] /\ forall m w, In m s -> EPS <= w <= wd td -> continuity_pt (fun w => snd m w T) w /\ 0 < snd m w T.

(** the documented Debye heat-capacity factor of one mode: (hbar w/kB T)^2 e^x/(e^x-1)^2, in SI: w in rad/s, vs in m/s *)
Definition doc_factor (hbar kB vs w T : R) : R :=
  let x := hbar * w / (kB * T) in w ^ 2 / (2 * vs * PI ^ 2) * kB * x ^ 2 * (exp x / (exp x - 1) ^ 2).

(** cumulative conductivity over mean free paths: frequency bin i of n equal ones up to the Debye frequency [wD], its mean free path vs/rate at the two
    ends (the lower end of the first bin being 1e-6), and its share of the conductivity *)
Definition bin_left (wD : R) (n i : nat) : R := match i with O => / 10 ^ 6 | _ => INR i * (wD / INR n) end.
Definition bin_right (wD : R) (n i : nat) : R := INR (S i) * (wD / INR n).
Definition bin_share (spec : R -> R) (wD : R) (n i : nat) : R := wD / INR n * spec ((INR i + / 2) * (wD / INR n)).
Definition total_share (spec : R -> R) (wD : R) (n : nat) : R := sumR (map (bin_share spec wD n) (seq 0 n)).
(** all mean free paths of the bin's ends below l *)
Definition bin_below (vs : R) (rate : R -> R) (wD : R) (n : nat) (l : R) (i : nat) : bool :=
  if Rlt_dec (vs / rate (bin_left wD n i)) l then if Rlt_dec (vs / rate (bin_right wD n i)) l then true else false else false.
Definition share_below (vs : R) (rate spec : R -> R) (wD : R) (n : nat) (l : R) : R :=
  sumR (map (bin_share spec wD n) (filter (bin_below vs rate wD n l) (seq 0 n))).
