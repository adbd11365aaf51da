(** Specification vocabulary for ztdev. *)
From Coq Require Import Sorted.
From Verif Require Import Py RUtil ZtModel.
Local Open Scope R_scope.

(** strictly increasing temperatures, all positive; positive C, non-negative K *)
Definition increasing_T (d : list tp) : Prop := StronglySorted (fun a b => tT a < tT b) d.
Definition positive_data (d : list tp) : Prop := Forall (fun p => 0 < tT p /\ 0 < tC p /\ 0 <= tK p /\ 0 <= tS p) d.

(** Relative current density u along the leg: u_0 is given, and
    1/u_i = (1/u_{i-1})*sqrt(1 - u_{i-1}^2*(rho_i*k_i + rho_{i-1}*k_{i-1})*(T_i - T_{i-1})) - T_mean*(S_i - S_{i-1})
    (SI units; rho = 1/C). [forward u d us]: all square roots exist and every u_i is positive. *)
Inductive forward : R -> list tp -> list R -> Prop :=
| fwd_last u a : 0 < u -> forward u [a] [u]
| fwd_step u a b r u' us :
    0 < u ->
    let rk p := tK p / (tC p * 100) in
    0 <= 1 - u * u * (rk b + rk a) * (tT b - tT a) ->
    1 / u' = 1 / u * sqrt (1 - u * u * (rk b + rk a) * (tT b - tT a)) - (tT a + tT b) / 2 * ((tS b - tS a) / 1e6) ->
    0 < u' -> forward u' (b :: r) us -> forward u (a :: b :: r) (u :: us).

(** The same recurrence for either sign of u, without any positivity: square roots exist and no u_i
    vanishes. *)
Inductive currents : R -> list tp -> list R -> Prop :=
| cur_last u a : u <> 0 -> currents u [a] [u]
| cur_step u a b r u' us :
    u <> 0 ->
    let rk p := tK p / (tC p * 100) in
    0 <= 1 - u * u * (rk b + rk a) * (tT b - tT a) ->
    1 / u' = 1 / u * sqrt (1 - u * u * (rk b + rk a) * (tT b - tT a)) - (tT a + tT b) / 2 * ((tS b - tS a) / 1e6) ->
    u' <> 0 -> currents u' (b :: r) us -> currents u (a :: b :: r) (u :: us).
(** thermoelectric potential S*T + 1/u in volts *)
Definition potential (p : tp) (u : R) : R := tS p / 1e6 * tT p + 1 / u.

(** mirrored data: p-type <-> n-type *)
Definition mirror (d : list tp) : list tp := map (fun p => TP (tT p) (tC p) (- tS p) (tK p)) d.

(** Textbook maximal efficiency (percent) of constant-property material with figure of merit ZT. *)
Definition yita_textbook (ZT Tc Th : R) : R :=
  100 * ((Th - Tc) / Th) * ((sqrt (1 + ZT) - 1) / (sqrt (1 + ZT) + Tc / Th)).

(** What is assumed of [minimize_scalar(..., method='bounded')]: inverted bounds raise ValueError;
    otherwise it returns a point of the interval with the objective's value there. *)
Definition bounded_minimizer (m : (R -> option R) -> R -> R -> res opt_res) : Prop :=
  forall f lo hi,
  (hi < lo -> m f lo hi = Err ValueError) /\
  (lo <= hi -> exists r, m f lo hi = Ok r /\ lo <= ox r <= hi /\ ofun r = f (ox r)).
(** the value returned is not above the value at a point the minimiser has looked at *)
Definition not_above (m : (R -> option R) -> R -> R -> res opt_res) (f : R -> option R) (lo hi p : R) : Prop :=
  forall r, m f lo hi = Ok r -> osuccess r = true ->
  forall v w, ofun r = Some v -> f p = Some w -> v <= w.
