(** Vocabulary for files of numbers and the device commands; no reference to the model. *)
From Coq Require Import ZArith Reals String Ascii.
From Verif Require Import Py PyStr CfgSpec KvarSpec InstrSpec TxtSpec FmtSpec.
Local Open Scope list_scope.
Local Open Scope R_scope.
(** a number as it is written: not empty, no blanks, no # *)
Definition plain (w : str) : Prop := w <> [] /\ Forall (fun c => is_space c = false) w /\ ~ In "#"%char w.
(** a text without line breaks *)
Definition one_line (w : str) : Prop := ~ In lf w.
(** one line of a data file *)
Definition number_line {X} (num : X -> str) (r : list X) : str := join (S_ " ") (map num r).
(** title and time *)
Definition caption (title stamp : str) : str := match title with [] => stamp | _ => title ++ S_ " - " ++ stamp end.
(** the labels, two blanks apart *)
Definition label_line (labels : list str) : str := join (S_ "  ") labels.
(** ** device figure of merit *)
(** of the efficiency [y] (%) between [Tc] and [Th]; zero where its denominator vanishes *)
Definition ZT_device (y Tc Th : R) : R :=
  if Rlt_dec 1e-3 (Rabs (Th * (1 - y / 100) - Tc)) then ((Th - Tc * (1 - y / 100)) / (Th * (1 - y / 100) - Tc)) ^ 2 - 1 else 0.
(** ** generators *)
(** integrals, over the temperatures of the device, of resistivity (uOhm.m), Seebeck coefficient (uV/K), thermal conductivity (W/m/K), and of temperature times the first two *)
Record device := Device { d_rho : R; d_S : R; d_K : R; d_rhoT : R; d_ST : R }.
Definition times (a b : list R) : list R := map (fun j => nth j a 0 * nth j b 0) (seq 0 (length a)).
(** one leg between the first temperature and that of number [i]: trapezoidal integrals of its columns *)
Definition leg (T rho S K : list R) (i : nat) : device :=
  Device (trapezoid T rho i) (trapezoid T S i) (trapezoid T K i) (trapezoid T (times T rho) i) (trapezoid T (times T S) i).
(** a couple whose n-leg has [a] times the section of its p-leg, per total section *)
Definition couple (a : R) (p n : device) : device :=
  Device ((1 + a) * (d_rho p + d_rho n / a)) (d_S p - d_S n) ((d_K p + a * d_K n) / (1 + a)) ((1 + a) * (d_rhoT p + d_rhoT n / a)) (d_ST p - d_ST n).
(** engineering power factor and figure of merit, greatest power of 100 mm^2 (W) for the length [L] (mm) *)
Definition PF_eng (d : device) : R := 1e-6 * d_S d ^ 2 / d_rho d.
Definition Z_eng (d : device) : R := PF_eng d / d_K d.
Definition ZT_eng (dT : R) (d : device) : R := Z_eng d * dT.
Definition power (dT L : R) (d : device) : R := 1e-3 * PF_eng d * dT / L * 100 / 4.
(** mean temperatures of Thomson and Joule heat, from the cold side *)
Definition thomson (Tc : R) (d : device) : R := 2 * (d_ST d / d_S d) - Tc.
Definition joule (Tc : R) (d : device) : R := d_rhoT d / d_rho d - Tc.
(** efficiency (%) at the reduced current [r] *)
Definition efficiency (dT Tc : R) (d : device) (r : R) : R := 100 * dT * (r * (1 - r)) / (1 / Z_eng d + thomson Tc d * r - joule Tc d * r * r).
Definition best_current (Tc : R) (d : device) : R := 1 / (1 + sqrt (1 + Z_eng d * (thomson Tc d - joule Tc d))).
Definition best_efficiency (dT Tc : R) (d : device) : R := efficiency dT Tc d (best_current Tc d).
(** resistivities of a column of resistivities or of conductivities (S/cm) *)
Definition resistivities (given : bool) (c : list R) : list R := if given then c else map (fun x => 1e4 / x) c.
Definition average (l : list R) : R := fold_right Rplus 0 l / INR (length l).
(** the ratios of sections used for the figure of merit and for the power *)
Definition ratio_ZT (p n : device) : R := sqrt (d_rho p * d_K n / (d_rho n * d_K p)).
Definition ratio_PF (p n : device) : R := sqrt (d_rho p / d_rho n).
Definition strictly_increasing (T : list R) : Prop := forall i, (S i < length T)%nat -> nth i T 0 < nth (S i) T 0.
(** the numbers of one row of results *)
Definition leg_results (L Tc Th : R) (d : device) : list R := [Tc; Th; PF_eng d; ZT_eng (Th - Tc) d; power (Th - Tc) L d; best_efficiency (Th - Tc) Tc d].
Definition couple_results (L Tc Th : R) (p n : device) : list R :=
  let z := couple (ratio_ZT p n) p n in let q := couple (ratio_PF p n) p n in
  [Tc; Th; PF_eng q; ZT_eng (Th - Tc) z; power (Th - Tc) L q; best_efficiency (Th - Tc) Tc z].
