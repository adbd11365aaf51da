(** C136: the optimum of the acoustic-phonon parabolic band. *)
From Coq Require Import Reals Lra Lia.
From Coquelicot Require Import Coquelicot.
From Verif Require Import Py RUtil FuncModel RombModel BandModel SpbModel RconvSpec RconvProps OptSpec OptProofs OptNum OptFermi SpbProofs RspbProps.
Local Open Scope R_scope.

Lemma fermi_unique f EF T k A B : fermi_integral f EF T k A -> fermi_integral f EF T k B -> A = B.
Proof. intros HA HB. apply (f_equal real (x := Finite A) (y := Finite B)). rewrite <- (is_lim_unique _ _ _ HA). apply is_lim_unique. exact HB. Qed.
Lemma factor_iff s EF T P : 0 < s -> 0 < T -> (power_factor (spb_trs s) EF T P <-> P = 1e6 * kB ^ 2 * s * pf (EF / (kB * T))).
Proof.
  intros Hs HT. pose proof (K0_integral s EF T HT) as I0. pose proof (K1_integral s EF T HT) as I1. set (x := EF / (kB * T)) in *. pose proof (F0_pos x) as P0.
  assert (A : 1e-6 * (s * F0 x) * (1e6 * kB * (s * hh x / (s * F0 x))) ^ 2 = 1e6 * kB ^ 2 * s * pf x) by (unfold pf; field; lra).
  split.
  - intros (K0 & K1 & H0 & H1 & Pk & ->). rewrite (fermi_unique _ _ _ _ _ _ H0 I0), (fermi_unique _ _ _ _ _ _ H1 I1). exact A.
  - intros ->. exists (s * F0 x), (s * hh x). split; [exact I0|]. split; [exact I1|]. split; [apply Rmult_lt_0_compat; assumption|]. symmetry. exact A.
Qed.

(** C136: the conductivity in closed form, which the quadrature of the code approaches *)
Theorem C136_conductivity :
  forall sigma0 EF T : R, 0 < T ->
  fermi_integral (fun E => spb_trs sigma0 E T) EF T 0 (sigma0 * ln (1 + exp (EF / (kB * T))))
  /\ is_lim_seq (fun ndiv => romb_dfx (spb_trs sigma0) EF T 0 ndiv) (sigma0 * ln (1 + exp (EF / (kB * T)))).
Proof.
  intros s EF T HT. pose proof (K0_integral s EF T HT) as I. split; [exact I|].
  destruct (C130_bands 1 s 1 1 1 EF T 0 HT Rlt_0_1 (spb_trs s)) as (L & HL & HF); [right; left; reflexivity|]. cbv beta in HF. pose proof (fermi_unique _ _ _ _ _ _ HF I) as E. unfold F0 in E. rewrite <- E. exact HL.
Qed.

(** C136: the power factor of the code, with more and more points in its quadratures, approaches that of the theory *)
Theorem C136_power_factor :
  forall sigma0 EF T : R, 0 < sigma0 -> 0 < T ->
  exists P : R, power_factor (spb_trs sigma0) EF T P /\ (forall P', power_factor (spb_trs sigma0) EF T P' -> P' = P)
    /\ is_lim_seq (fun ndiv => let p k := romb_dfx (spb_trs sigma0) EF T k ndiv in 1e6 * kB * kB * (p 1%nat ^ 2 / p 0%nat)) P.
Proof.
  intros s EF T Hs HT. exists (1e6 * kB ^ 2 * s * pf (EF / (kB * T))). split; [apply factor_iff; auto|]. split; [intros P' H; apply (factor_iff s EF T P' Hs HT); exact H|].
  pose proof (K0_integral s EF T HT) as I0. pose proof (K1_integral s EF T HT) as I1.
  destruct (C130_bands 1 s 1 1 1 EF T 0 HT Rlt_0_1 (spb_trs s)) as (L0 & HL0 & HF0); [right; left; reflexivity|]. destruct (C130_bands 1 s 1 1 1 EF T 1 HT Rlt_0_1 (spb_trs s)) as (L1 & HL1 & HF1); [right; left; reflexivity|].
  cbv beta in HF0, HF1. rewrite (fermi_unique _ _ _ _ _ _ HF0 I0) in HL0. rewrite (fermi_unique _ _ _ _ _ _ HF1 I1) in HL1. clear - HL0 HL1 Hs HT. set (x := EF / (kB * T)) in *. pose proof (F0_pos x) as P0.
  assert (Q : 0 < s * F0 x) by (apply Rmult_lt_0_compat; assumption).
  replace (1e6 * kB ^ 2 * s * pf x) with (1e6 * kB * kB * ((s * hh x) ^ 2 / (s * F0 x))) by (unfold pf; field; lra).
  cbv zeta. apply (is_lim_seq_scal_l (fun n => romb_dfx (spb_trs s) EF T 1 n ^ 2 / romb_dfx (spb_trs s) EF T 0 n) (1e6 * kB * kB) (Finite ((s * hh x) ^ 2 / (s * F0 x)))). apply is_lim_seq_div'; [|exact HL0|lra]. apply (is_lim_seq_ext (fun n => romb_dfx (spb_trs s) EF T 1 n * (romb_dfx (spb_trs s) EF T 1 n * 1))); [reflexivity|].
  cbn [pow]. apply is_lim_seq_mult'; [exact HL1|]. apply is_lim_seq_mult'; [exact HL1|apply is_lim_seq_const].
Qed.

(** C136: [EFopt] and [PFmax] are the optimum *)
Theorem C136_optimum :
  forall sigma0 T : R, 0 < sigma0 -> 0 < T ->
  exists EFm Pm : R,
    power_factor (spb_trs sigma0) EFm T Pm
    /\ (forall EF P, power_factor (spb_trs sigma0) EF T P -> EF <> EFm -> P < Pm)
    /\ (forall EF EF' P P', power_factor (spb_trs sigma0) EF T P -> power_factor (spb_trs sigma0) EF' T P' -> EF < EF' -> (EF' <= EFm -> P < P') /\ (EFm <= EF -> P' < P))
    /\ Rabs (EFopt T - EFm) <= 1.1e-5 * (kB * T)
    /\ (forall P, power_factor (spb_trs sigma0) (EFopt T) T P -> 0.999999999 * Pm <= P <= Pm)
    /\ 0.9999967 * Pm <= PFmax sigma0 <= 0.9999976 * Pm.
Proof.
  intros s T Hs HT. pose proof kB_pos as PB. assert (PK : 0 < kB * T) by (apply Rmult_lt_0_compat; lra). destruct eta_m as (m & Hm & Em). pose proof eta_a_bounds as Ba. pose proof eta_b_bounds as Bb. pose proof (pf_max m Em Hm) as Bm.
  assert (Pc : 0 < 1e6 * kB ^ 2 * s) by (apply Rmult_lt_0_compat; [unfold kB; lra|exact Hs]). set (c := 1e6 * kB ^ 2 * s) in *.
  assert (Mm : m * (kB * T) / (kB * T) = m) by (field; lra). assert (Div : forall a b, a < b -> a / (kB * T) < b / (kB * T)) by (intros a b H; unfold Rdiv; apply Rmult_lt_compat_r; [apply Rinv_0_lt_compat; exact PK|exact H]).
  assert (Dle : forall a b, a <= b -> a / (kB * T) <= b / (kB * T)) by (intros a b [H| ->]; [left; apply Div; exact H|right; reflexivity]).
  assert (M0 : 0 <= m) by lra.
  exists (m * (kB * T)), (c * pf m). split; [apply factor_iff; [assumption|assumption|rewrite Mm; reflexivity]|].
  assert (Mono : forall EF EF' P P', power_factor (spb_trs s) EF T P -> power_factor (spb_trs s) EF' T P' -> EF < EF' -> (EF' <= m * (kB * T) -> P < P') /\ (m * (kB * T) <= EF -> P' < P)).
  { intros EF EF' P P' H H' L. apply (factor_iff s EF T P Hs HT) in H. apply (factor_iff s EF' T P' Hs HT) in H'. fold c in H, H'. subst P P'. pose proof (Div _ _ L) as L'. split; intros X; apply Dle in X; rewrite Mm in X; (apply Rmult_lt_compat_l; [exact Pc|]).
    - apply (pf_below m); auto. - apply (pf_above m); auto. }
  assert (Top : power_factor (spb_trs s) (m * (kB * T)) T (c * pf m)) by (apply factor_iff; [assumption|assumption|rewrite Mm; reflexivity]).
  split; [|split; [exact Mono|]].
  - intros EF P H N. destruct (Rtotal_order EF (m * (kB * T))) as [L|[E|L]]; [|contradiction|]; [apply (Mono EF (m * (kB * T)) P _ H Top L); lra|apply (Mono (m * (kB * T)) EF _ P Top H L); lra].
  - assert (Ey : EFopt T / (kB * T) = 0.66812) by (unfold EFopt, Yita_opt; field; split; lra). split; [|split].
    + unfold EFopt, Yita_opt. replace (0.66812 * kB * T - m * (kB * T)) with ((0.66812 - m) * (kB * T)) by ring. rewrite Rabs_mult, (Rabs_pos_eq (kB * T)) by lra. apply Rmult_le_compat_r; [lra|]. apply Rabs_le. lra.
    + intros P H. apply (factor_iff s _ T P Hs HT) in H. rewrite Ey in H. fold c in H. subst P. pose proof (pf_close m 0.66812 Em ltac:(lra) Hm) as C.
      assert (U : pf 0.66812 <= pf m). { destruct (Rtotal_order 0.66812 m) as [L|[E|L]]; [left; apply (pf_below m); auto; lra|rewrite E; lra|left; apply (pf_above m m); auto; lra]. }
      split; [|apply Rmult_le_compat_l; lra]. replace (0.999999999 * (c * pf m)) with (c * (0.999999999 * pf m)) by ring. apply Rmult_le_compat_l; lra.
    + unfold PFmax, sigma0_to_PFmax, c. replace (0.9999967 * (1e6 * kB ^ 2 * s * pf m)) with (s * (0.9999967 * 1e6 * kB ^ 2 * pf m)) by ring. replace (0.9999976 * (1e6 * kB ^ 2 * s * pf m)) with (s * (0.9999976 * 1e6 * kB ^ 2 * pf m)) by ring. unfold kB. split; apply Rmult_le_compat_l; lra.
Qed.

(** C136: the conversion to the weighted mobility is the formula given next to the number (bandlib.py:736-738) *)
Theorem C136_mobility :
  forall sigma0 : R,
  let unit := sqrt PI / 2 * qe * pow32 (2 * m_e * kB * qe * 300) / (2 * PI * PI * hbar ^ 3) * 1e-4 / 100 in
  Rabs (sigma0 - UWT sigma0 * unit) <= 1e-12 * Rabs sigma0
  /\ Rabs (sigma0_from_UWT sigma0 - sigma0 * unit) <= 1e-12 * Rabs (sigma0_from_UWT sigma0).
Proof.
  intros s unit. assert (B : Rabs (unit / UWT_to_sigma0 - 1) <= 1e-12).
  { unfold unit. pose proof PI_digits as [P1 P2]. set (a := 2 * m_e * kB * qe * 300). assert (Ba : 7.54611689885536e-51 <= a <= 7.54611689885537e-51) by (unfold a, m_e, kB, qe; lra).
    assert (Sa : 8.6868388374916e-26 <= sqrt a <= 8.6868388374918e-26).
    { split; [rewrite <- (sqrt_square 8.6868388374916e-26) by lra|rewrite <- (sqrt_square 8.6868388374918e-26) by lra]; apply sqrt_le_1_alt; lra. }
    assert (Sp : 1.7724538509054 <= sqrt PI <= 1.7724538509056).
    { split; [rewrite <- (sqrt_square 1.7724538509054) by lra|rewrite <- (sqrt_square 1.7724538509056) by lra]; apply sqrt_le_1_alt; lra. }
    unfold pow32. set (sa := sqrt a) in *. set (sp := sqrt PI) in *. clearbody sa sp a.
    assert (W : 7.54611689885536e-51 * 8.6868388374916e-26 <= a * sa <= 7.54611689885537e-51 * 8.6868388374918e-26) by (split; apply Rmult_le_compat; lra). set (w := a * sa) in *. clearbody w.
    assert (V : 1.7724538509054 * (7.54611689885536e-51 * 8.6868388374916e-26) <= sp * w <= 1.7724538509056 * (7.54611689885537e-51 * 8.6868388374918e-26)) by (split; apply Rmult_le_compat; lra).
    assert (PP : 3.1415926535897 * 3.1415926535897 <= PI * PI <= 3.1415926535898 * 3.1415926535898) by (split; apply Rmult_le_compat; lra).
    replace (sp / 2 * qe * w / (2 * PI * PI * hbar ^ 3) * 1e-4 / 100 / UWT_to_sigma0 - 1) with ((sp * w) * (qe * 1e-6 / (4 * hbar ^ 3 * UWT_to_sigma0)) * / (PI * PI) - 1) by (unfold hbar, UWT_to_sigma0; field; lra).
    set (v := sp * w) in *. set (q := PI * PI) in *. clearbody v q. pose proof (inv_bounds q (3.1415926535897 * 3.1415926535897) (3.1415926535898 * 3.1415926535898) ltac:(lra) PP) as I. set (i := / q) in *. clearbody i.
    set (k := qe * 1e-6 / (4 * hbar ^ 3 * UWT_to_sigma0)). assert (K0 : 0 < k) by (unfold k, qe, hbar, UWT_to_sigma0; lra).
    assert (X : (1.7724538509054 * (7.54611689885536e-51 * 8.6868388374916e-26)) * / (3.1415926535898 * 3.1415926535898) <= v * i <= (1.7724538509056 * (7.54611689885537e-51 * 8.6868388374918e-26)) * / (3.1415926535897 * 3.1415926535897)) by (split; apply Rmult_le_compat; lra).
    replace (v * k * i) with (v * i * k) by ring. set (y := v * i) in *. clearbody y. unfold k, qe, hbar, UWT_to_sigma0. apply Rabs_le. lra. }
  assert (U0 : 0 < UWT_to_sigma0) by (unfold UWT_to_sigma0; lra). split.
  - unfold UWT. replace (s - s / UWT_to_sigma0 * unit) with (- (s * (unit / UWT_to_sigma0 - 1))) by (field; lra). rewrite Rabs_Ropp, Rabs_mult, Rmult_comm. apply Rmult_le_compat_r; [apply Rabs_pos|exact B].
  - unfold sigma0_from_UWT. replace (UWT_to_sigma0 * s - s * unit) with (- (UWT_to_sigma0 * s * (unit / UWT_to_sigma0 - 1))) by (field; lra). rewrite Rabs_Ropp, Rabs_mult, Rmult_comm. apply Rmult_le_compat_r; [apply Rabs_pos|exact B].
Qed.

(** the case of sigma0 = 1000 S/cm at 300 K *)
Example C136_case : forall P, power_factor (spb_trs 1000) (EFopt 300) 300 P -> 30.1514 <= P <= 30.1515.
Proof.
  intros P H. destruct (C136_optimum 1000 300 ltac:(lra) ltac:(lra)) as (EFm & Pm & _ & _ & _ & _ & B & M). specialize (B P H). unfold PFmax, sigma0_to_PFmax in M. lra.
Qed.
Example C136_case_level : Rabs (EFopt 300 - 0.01727) <= 1e-5. Proof. unfold EFopt, Yita_opt, kB. apply Rabs_le. lra. Qed.
Print Assumptions C136_optimum.
Print Assumptions C136_power_factor.
Print Assumptions C136_conductivity.
Print Assumptions C136_mobility.
