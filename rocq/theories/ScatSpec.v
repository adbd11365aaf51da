(** The documented scattering formulas, in SI units. *)
From Coq Require Import Reals.
Local Open Scope R_scope.
(** [ThreePhonon]: A kB Va^(1/3) gm^2/(M0 Ma vs^3) w^2 T exp(-Theta/3T), kB = 1.380649e-23 J/K, M0 the mass unit in kg *)
Definition doc_PH (M0 A gm vs Va Ma Theta w T : R) : R :=
  A * (1.380649 * / 10 ^ 23 * Rpower Va (1 / 3) * gm ^ 2 / (M0 * Ma * vs ^ 3)) * w ^ 2 * T * exp (- (Theta / (3 * T))).
Definition amu : R := 1.66053906660 * / 10 ^ 27.
Definition neutron_mass : R := 1.67492749804 * / 10 ^ 27.
Definition doc_PD (vs Va G w : R) : R := Va * G / (4 * PI * vs ^ 3) * w ^ 4.
Definition doc_GB (vs L alpha : R) : R := alpha * (vs / L).
(** [Nanoparticles]: vs (1/sg + 1/sR)^-1 N1 *)
Definition doc_sg (Rr : R) : R := 2 * PI * Rr ^ 2.
Definition doc_sR (alpha vs Rr D0 D1 Y0 Y1 w : R) : R :=
  16 / 9 * PI * Rr ^ 2 * (alpha ^ 2 / 4 * ((D1 - D0) / D0) ^ 2 + 3 * alpha ^ 8 * ((Y1 - Y0) / Y0) ^ 2) * (w * Rr / vs) ^ 4.
Definition doc_NP (N1 alpha vs Rr D0 D1 Y0 Y1 w : R) : R := vs * / (/ doc_sg Rr + / doc_sR alpha vs Rr D0 D1 Y0 Y1 w) * N1.
Definition doc_DC (alpha Nd vs Va w : R) : R := alpha * Nd * (Rpower Va (4 / 3) / vs ^ 2) * w ^ 3.
Definition doc_DS (c alpha F Nd Bd gm w : R) : R := c * alpha * F * Nd * Bd ^ 2 * gm ^ 2 * w.
Definition doc_SF (alpha Nsf vs Va gm w : R) : R := alpha * Nsf * (Rpower Va (2 / 3) / vs) * gm ^ 2 * w ^ 2.
(** [FreeElectrons]: Rep with x = hbar w/(kB T), y = (Tph - EF/kB)/T *)
Definition doc_Rep (x y : R) : R := 1 - 1 / x * ln ((1 + exp (y + x / 2)) / (1 + exp (y - x / 2))).
(** [FreeElectrons], CODATA values in the code's comments: hbar in J s, kB in J/K, electron mass in kg, elementary charge in C *)
Definition c_hbar : R := 1.054571817 * / 10 ^ 34.
Definition c_kB : R := 1.380649 * / 10 ^ 23.
Definition c_me : R := 9.1093837015 * / 10 ^ 31.
Definition c_q : R := 1.602176634 * / 10 ^ 19.
Definition doc_Ccoef (Ed md D0 vs : R) : R := (Ed * md) ^ 2 / (2 * PI * c_hbar ^ 3 * D0 * vs).
Definition doc_Eph (md vs w : R) : R := c_hbar ^ 2 * w ^ 2 / (8 * md * vs ^ 2).
Definition doc_Emv (md vs : R) : R := 1 / 2 * md * vs ^ 2.
