(** Model of the scattering mechanisms of src/teflow/kappa.py 590-1069 (in THz, at one frequency w in rad/ps and one temperature T; numpy's broadcasting
    applies them elementwise).  Parameters are the current numbers in the [paras] containers; [None] = not stored (reading it is a KeyError). *)
From Coq Require Import Reals.
From Verif Require Import Py.
Local Open Scope R_scope.

(** [ThreePhonon.__init__] (kappa.py 603-633): a None among the stored parameters is a ValueError *)
Inductive ph := PHfull (gm vs Va Ma A Theta : R) | PHcoef (coef Theta : R).
Definition ph_init (gm vs Va Ma A Theta coef : option R) : res ph :=
  match coef with
  | Some c => match Theta with Some th => Ok (PHcoef c th) | None => Err ValueError end
  | None => match gm, vs, Va, Ma, A, Theta with
            | Some g, Some v, Some a, Some m, Some x, Some th => Ok (PHfull g v a m x th)
            | _, _, _, _, _, _ => Err ValueError end
  end.
(** [ThreePhonon.coef] (kappa.py 641-650) *)
Definition ph_coef (p : ph) : R :=
  match p with
  | PHcoef c _ => c
  | PHfull gm vs Va Ma A _ => 1.380649 / 1.67492749804 * (/ 10 ^ 15) * A * Rpower Va (1 / 3) * gm ^ 2 / (Ma * vs ^ 3)
  end.
(** [ThreePhonon.__call__] (kappa.py 635-638) *)
Definition ph_theta (p : ph) : R := match p with PHcoef _ th => th | PHfull _ _ _ _ _ th => th end.
Definition ph_rate (p : ph) (w T : R) : R := 10 ^ 12 * ph_coef p * w ^ 2 * T * exp (- ph_theta p / (3 * T)).

(** [PointDefect] (kappa.py 653-700) *)
Inductive pd := PDfull (vs Va G : R) | PDcoef (coef : R).
Definition pd_init (vs Va G coef : option R) : res pd :=
  match coef with
  | Some c => Ok (PDcoef c)
  | None => match vs, Va, G with Some v, Some a, Some g => Ok (PDfull v a g) | _, _, _ => Err ValueError end
  end.
Definition pd_coef (p : pd) : R := match p with PDcoef c => c | PDfull vs Va G => / 10 ^ 39 * Va * G / (4 * PI * vs ^ 3) end.
Definition pd_rate (p : pd) (w T : R) : R := 10 ^ 36 * pd_coef p * w ^ 4.

(** [GrainBoundary.__call__] (kappa.py 724-726) *)
Definition gb_rate (vs L alpha w T : R) : R := / 10 ^ 3 * alpha * vs / L.

(** [Nanoparticles] (kappa.py 729-819) *)
Record np := { np_frac : bool; np_N1_or_phi : R; np_vs : R; np_R : R; np_D0 : R; np_D1 : R; np_Y0 : R; np_Y1 : R; np_alpha : R }.
Definition np_init (N1 vs Rr D0 D1 Y0 Y1 alpha phi : option R) : res np :=
  match (match phi with None => N1 | Some f => Some f end), vs, Rr, D0, D1, Y0, Y1, alpha with
  | Some n, Some v, Some r, Some d0, Some d1, Some y0, Some y1, Some a =>
      Ok {| np_frac := (match phi with None => false | Some _ => true end); np_N1_or_phi := n; np_vs := v; np_R := r; np_D0 := d0; np_D1 := d1;
            np_Y0 := y0; np_Y1 := y1; np_alpha := a |}
  | _, _, _, _, _, _, _, _ => Err ValueError
  end.
(** [phi] (kappa.py 812-819) and [__call__] (796-809) *)
Definition np_phi (p : np) : R := if np_frac p then np_N1_or_phi p else / 10 ^ 6 * np_N1_or_phi p * 4 / 3 * PI * np_R p ^ 3.
Definition np_ratio (p : np) (w : R) : R :=
  let Gm := 1 / 4 * np_alpha p ^ 2 * (1 - np_D1 p / np_D0 p) ^ 2 in
  let Gy := 3 * np_alpha p ^ 8 * (1 - np_Y1 p / np_Y0 p) ^ 2 in
  8 / 9 * (Gm + Gy) * (w * np_R p / np_vs p) ^ 4.
Definition np_geom (p : np) : R := 3 / 2 * np_vs p * np_phi p / np_R p.
Definition np_rate (p : np) (w T : R) : R := np_geom p * np_ratio p w / (1 + np_ratio p w).

(** [Dislocations.__call__] (kappa.py 892-897) *)
Definition dl_C : R := 0.9676996514698976.
Definition dl_core (vs Va w : R) : R := / 10 ^ 8 * Rpower Va (4 / 3) / vs * w ^ 3.
Definition dl_strain (Bd gm w : R) : R := / 10 ^ 6 * (Bd * gm) ^ 2 * w.
Definition dl_rate (Nd vs Va Bd gm F alpha w T : R) : R := alpha * Nd * (dl_core vs Va w + dl_C * F * dl_strain Bd gm w).

(** [StackingFaults.__call__] (kappa.py 932-936) *)
Definition sf_rate (Nsf vs Va gm alpha w T : R) : R := / 10 ^ 5 * alpha * Nsf * Rpower Va (2 / 3) / vs * (gm * w) ^ 2.

(** [CahillScattering.__call__] (kappa.py 1067-1069) *)
Definition cahill_rate (alpha w T : R) : R := alpha * w / PI.

(** [FreeElectrons.__init__] (kappa.py 962-1002): what is stored *)
Record ep := { e_vs : option R; e_md : option R; e_EF : option R; e_Ed : option R; e_D0 : option R; e_Rep : option R; e_coef : option R }.
Definition ep_init (vs md EF Ed D0 Rep coef : option R) : res ep :=
  match coef, Rep with
  | None, None => match vs, md, EF, Ed, D0 with
      | Some _, Some _, Some _, Some _, Some _ => Ok {| e_vs := vs; e_md := md; e_EF := EF; e_Ed := Ed; e_D0 := D0; e_Rep := None; e_coef := None |}
      | _, _, _, _, _ => Err ValueError end
  | None, Some _ => match vs, md, Ed, D0 with
      | Some _, Some _, Some _, Some _ => Ok {| e_vs := vs; e_md := md; e_EF := None; e_Ed := Ed; e_D0 := D0; e_Rep := Rep; e_coef := None |}
      | _, _, _, _ => Err ValueError end
  | Some _, None => match vs, md, EF with
      | Some _, Some _, Some _ => Ok {| e_vs := vs; e_md := md; e_EF := EF; e_Ed := None; e_D0 := None; e_Rep := None; e_coef := coef |}
      | _, _, _ => Err ValueError end
  | Some _, Some _ => Ok {| e_vs := None; e_md := None; e_EF := None; e_Ed := None; e_D0 := None; e_Rep := Rep; e_coef := coef |}
  end.
Definition need (o : option R) : res R := match o with Some x => Ok x | None => Err KeyError end.
(** [paras.get(k) or ...]: a stored 0 counts as absent *)
Definition or_else (o : option R) (f : res R) : res R := match o with Some x => if Req_EM_T x 0 then f else Ok x | None => f end.
(** [_cal_coef] (kappa.py 1013-1019) *)
Definition ep_cal_coef (p : ep) : res R :=
  let! Ed := need (e_Ed p) in let! md := need (e_md p) in let! D0 := need (e_D0 p) in let! vs := need (e_vs p) in
  Ok (2.89061617105021 * / 10 ^ 3 * (Ed * md) ^ 2 / (D0 * vs)).
(** [_cal_Rep] (kappa.py 1025-1048) *)
Definition hbar_kB : R := 7.638232577577646.
Definition ep_x (w T : R) : R := hbar_kB * w / T.
Definition ep_Tph (md vs w : R) : R :=
  let Tmv := 0.03298949878462954 * (md * vs ^ 2) in 3.6464123068230276 * w ^ 2 / Tmv + Tmv.
Definition ep_y (md vs EF w T : R) : R := (ep_Tph md vs w - EF / 8.617333262145179e-05) / T.
Definition rep_of (x p : R) : R := ln ((exp (x / 2) + p) / (exp (- x / 2) + p)) / x.
Definition ep_rep_num (md vs EF w T : R) : R :=
  let w := Rmax w (/ 10 ^ 6) in rep_of (ep_x w T) (exp (Rmin (ep_y md vs EF w T) 23)).
Definition ep_cal_Rep (p : ep) (w T : R) : res R :=
  let! md := need (e_md p) in let! vs := need (e_vs p) in let! EF := need (e_EF p) in Ok (ep_rep_num md vs EF w T).
(** [coef], [Rep], [__call__] (kappa.py 1004-1011, 1021-1023) *)
Definition ep_coef (p : ep) : res R := or_else (e_coef p) (ep_cal_coef p).
Definition ep_Rep (p : ep) (w T : R) : res R := or_else (e_Rep p) (ep_cal_Rep p w T).
Definition ep_rate (p : ep) (w T : R) : res R := let! c := ep_coef p in let! r := ep_Rep p w T in Ok (c * r * w).
