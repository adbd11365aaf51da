(** The documented expressions for alloy disorder (kappa.py 1264-1316). *)
From Coq Require Import Reals.
From Verif Require Import Py RUtil ScatSpec.
Local Open Scope R_scope.

(** one sublattice: occupations paired with a value (mass or radius) per species *)
Notation sub := (list (R * R)) (only parsing).
Definition wmean (s : list (R * R)) : R := sumR (map (fun p => fst p * snd p) s).
Definition occ_sum (s : list (R * R)) : R := sumR (map fst s).
Definition spread (s : list (R * R)) : R := sumR (map (fun p => fst p * ((snd p - wmean s) / wmean s) ^ 2) s).
(** Gamma over the sublattices i with weights c_i, mean masses M_i and spreads: sum c_i (M_i/M)^2 Gamma_i / sum c_i, M the weighted mean of the M_i *)
Definition doc_Gamma (l : list (R * R * R)) : R :=
  let C := sumR (map (fun t => fst (fst t)) l) in
  let M := sumR (map (fun t => fst (fst t) * snd (fst t)) l) / C in
  sumR (map (fun t => fst (fst t) * (snd (fst t) / M) ^ 2 * snd t) l) / C.
(** Klemens' u^2 in SI units *)
Definition doc_u2 (Kpure vs td G0 Va X : R) : R := PI * td * Va / (2 * c_hbar * vs ^ 2) * Kpure * G0 * (X * (1 - X)).
Definition doc_slack (A td gm Ma Va N T : R) : R := A * (Ma * Rpower Va (1 / 3) * td ^ 3 / (gm ^ 2 * Rpower N (2 / 3) * T)).
(** nearly normalised, as numpy's allclose has it *)
Definition nearly1 (x : R) : Prop := Rabs (x - 1) <= / 10 ^ 8 + / 10 ^ 5.
(** input of [fluctuation]: per sublattice its species, each with occupation, mass and radius *)
Notation species := (R * R * R)%type.
Definition s_occ (p : species) : R := fst (fst p).
Definition s_mass (p : species) : R := snd (fst p).
Definition s_rad (p : species) : R := snd p.
Definition occs (d : list (list species)) : list (list R) := map (map s_occ) d.
Definition massesl (d : list (list species)) : list (list R) := map (map s_mass) d.
Definition radiil (d : list (list species)) : list (list R) := map (map s_rad) d.
Definition with_mass (s : list species) : list (R * R) := map (fun p => (s_occ p, s_mass p)) s.
Definition with_rad (s : list species) : list (R * R) := map (fun p => (s_occ p, s_rad p)) s.
Definition occ_total (s : list species) : R := sumR (map s_occ s).
Definition normalise (d : list (list species)) : list (list species) :=
  map (fun s => map (fun p => (s_occ p / occ_total s, s_mass p, s_rad p)) s) d.
(** the documented configurational entropy in units of kB (kappa.py 1306-1309) *)
Definition doc_S (d : list (list species)) : R := sumR (map (fun s => sumR (map (fun p => s_occ p * ln (s_occ p)) s)) d).
(** the documented coefficients of Slack's model (kappa.py 1128-1133, 1140-1145) and expressions of the bipolar (1161-1165) and power-law (1191-1195) models *)
Definition doc_julian (g : R) : R := 2.43 * / 10 ^ 6 / (1 - 0.514 / g + 0.228 / g ^ 2).
Definition doc_qin (g : R) : R := 1 / (1 + 1 / g + 8.3 * 10 ^ 5 / Rpower g 2.4).
Definition c_e0 : R := 1.602176634 * / 10 ^ 19.
Definition doc_bipolar (Kbp Eg p T : R) : R := Kbp * Rpower (T / 300) p * exp (- (Eg * c_e0 / (2 * c_kB * T))).
