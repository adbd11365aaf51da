(** C69-C72: parabolic, Kane and linear band models (src/teflow/bandlib.py:691-1269). *)
From Coq Require Import Reals Lra.
From Coquelicot Require Import Coquelicot.
From Verif Require Import Py RUtil FuncModel RombModel RombProofs RombProps BandModel BandSpec BandProofs BandProps SpbModel SpbProofs.
Local Open Scope R_scope.

(** ** C69: densities of states and transport functions *)
Theorem C69_spb_idos :
  forall m_d : R, 0 < m_d -> spb_idos m_d 0 = 0 /\ forall E, 0 < E -> is_derive (spb_idos m_d) E (spb_dos m_d E) /\ 0 < spb_dos m_d E.
Proof.
  intros m_d Hm. split.
  - rewrite spb_idos_eq by lra. unfold pow32. rewrite sqrt_0. ring.
  - intros E HE. assert (D : spb_dos m_d E = 1e-25 * (2 / 3 * g0 m_d) * (3 / 2 * sqrt E)).
    { unfold spb_dos. fold (g0 m_d). generalize 1e-25. intros c. field. }
    split.
    + rewrite D. apply (is_derive_ext_loc (fun x => 1e-25 * (2 / 3 * g0 m_d) * pow32 x)).
      * exists (mkposreal E HE). intros y Hy. symmetry. apply spb_idos_eq; [exact Hm|]. unfold ball in Hy; cbn in Hy; unfold AbsRing_ball, abs, minus, plus, opp in Hy; cbn in Hy. unfold Rabs in Hy. destruct (Rcase_abs _) in Hy; lra.
      * apply is_derive_scal. apply pow32_derive. exact HE.
    + rewrite D. pose proof (g0_pos m_d Hm). assert (0 < sqrt E) by (apply sqrt_lt_R0; exact HE). apply Rmult_lt_0_compat; [apply Rmult_lt_0_compat; lra|lra].
Qed.
Print Assumptions C69_spb_idos.
Lemma ball_pos E (HE : 0 < E) y : ball E (mkposreal E HE) y -> 0 <= y.
Proof. intros Hy. unfold ball in Hy; cbn in Hy; unfold AbsRing_ball, abs, minus, plus, opp in Hy; cbn in Hy. unfold Rabs in Hy. destruct (Rcase_abs _) in Hy; lra. Qed.
Theorem C69_skb_idos :
  forall m_d Eg : R, 0 < m_d -> 0 < Eg -> skb_idos m_d Eg 0 = 0 /\ forall E, 0 < E -> is_derive (skb_idos m_d Eg) E (skb_dos m_d Eg E) /\ 0 < skb_dos m_d Eg E.
Proof.
  intros m_d Eg Hm Hg. split.
  - rewrite skb_idos_eq by lra. unfold pow32. rewrite Rmult_0_l, sqrt_0. ring.
  - intros E HE. assert (Q : 0 < E / Eg) by (apply Rdiv_lt_0_compat; assumption).
    assert (U : 0 < E * (1 + E / Eg)) by (apply Rmult_lt_0_compat; lra).
    assert (D : skb_dos m_d Eg E = 1e-25 * (2 / 3 * g0 m_d) * ((1 + 2 * E / Eg) * (3 / 2 * sqrt (E * (1 + E / Eg))))).
    { unfold skb_dos. fold (g0 m_d). rewrite sqrt_mult by lra. generalize 1e-25 (sqrt E) (sqrt (1 + E / Eg)) (1 + 2 * E / Eg). intros. field. }
    split.
    + rewrite D. apply (is_derive_ext_loc (fun x => 1e-25 * (2 / 3 * g0 m_d) * pow32 (x * (1 + x / Eg)))).
      * exists (mkposreal E HE). intros y Hy. symmetry. apply skb_idos_eq; try assumption. apply (ball_pos E HE). exact Hy.
      * apply is_derive_scal. apply (is_derive_comp pow32 (fun x => x * (1 + x / Eg))); [apply pow32_derive; exact U|]. auto_derive; [lra|]. field. lra.
    + rewrite D. pose proof (g0_pos m_d Hm). assert (0 < sqrt (E * (1 + E / Eg))) by (apply sqrt_lt_R0; exact U).
      assert (0 < 1 + 2 * E / Eg) by (replace (2 * E / Eg) with (2 * (E / Eg)) by (field; lra); lra).
      apply Rmult_lt_0_compat; [apply Rmult_lt_0_compat; lra|]. apply Rmult_lt_0_compat; lra.
Qed.
Print Assumptions C69_skb_idos.
Theorem C69_linear_idos :
  forall vF : R, vF <> 0 -> lin_idos vF 0 = 0 /\ forall E, is_derive (lin_idos vF) E (lin_dos vF E) /\ (0 < E -> 0 < lin_dos vF E).
Proof.
  intros vF Hv. assert (V : 0 < Rabs vF) by (apply Rabs_pos_lt; exact Hv). pose proof hbar_pos. pose proof qe_pos. pose proof PI_RGT_0.
  split; [unfold lin_idos; replace (qe * 0 / (Rabs vF * hbar)) with 0 by (field; split; lra); unfold Rdiv; ring|]. intros E. split.
  - assert (D : lin_dos vF E = (3 * (qe / (Rabs vF * hbar)) * (qe * E / (Rabs vF * hbar)) ^ 2) / (3e40 * PI ^ 2)).
    { unfold lin_dos. set (v := Rabs vF) in *. set (b := hbar) in *. clearbody v b. set (w := qe) in *. clearbody w. set (p := PI) in *. clearbody p. field. repeat split; lra. }
    rewrite D. unfold lin_idos. set (v := Rabs vF) in *. set (b := hbar) in *. clearbody v b. set (w := qe) in *. clearbody w. set (p := PI) in *. clearbody p. clear D.
    auto_derive; [exact I|]. field. repeat split; lra.
  - intros HE. unfold lin_dos. assert (A : 0 < Rabs vF * 1e5 * hbar) by (apply Rmult_lt_0_compat; [apply Rmult_lt_0_compat; lra|assumption]).
    assert (0 < qe / (Rabs vF * 1e5 * hbar)) by (apply Rdiv_lt_0_compat; assumption).
    assert (0 < 1 / PI) by (apply Rdiv_lt_0_compat; lra).
    apply Rmult_lt_0_compat; [|apply pow_lt; exact HE]. apply Rmult_lt_0_compat; [lra|]. apply Rmult_lt_0_compat; apply pow_lt; assumption.
Qed.
Print Assumptions C69_linear_idos.

(** Kane against parabolic band: same sigma0 and m_d, any Eg > 0 *)
Lemma kane_bounds a : 0 <= a -> 0 < 3 * (1 + a) / ((1 + 2 * a) ^ 2 + 2) <= 1 /\ 1 - 3 * (1 + a) / ((1 + 2 * a) ^ 2 + 2) <= (a + 4 * a ^ 2) / 3.
Proof.
  intros Ha. assert (D : 3 <= (1 + 2 * a) ^ 2 + 2) by (pose proof (pow2_ge_0 a); lra).
  split; [split|].
  - apply Rdiv_lt_0_compat; lra.
  - apply (Rmult_le_reg_r ((1 + 2 * a) ^ 2 + 2)); [lra|]. unfold Rdiv. rewrite Rmult_assoc, Rinv_l by lra. pose proof (pow2_ge_0 a). lra.
  - replace (1 - 3 * (1 + a) / ((1 + 2 * a) ^ 2 + 2)) with ((a + 4 * a ^ 2) / ((1 + 2 * a) ^ 2 + 2)) by (field; lra).
    unfold Rdiv. apply Rmult_le_compat_l; [pose proof (pow2_ge_0 a); lra|]. apply Rinv_le_contravar; lra.
Qed.
Lemma twoE E Eg : 0 < Eg -> 1 + 2 * E / Eg = 1 + 2 * (E / Eg). Proof. intros. field. lra. Qed.
Theorem C69_kane_vs_parabolic :
  forall m_d sigma0 Eg E T : R, 0 < m_d -> 0 < sigma0 -> 0 < Eg -> 0 < T -> 0 < E ->
  0 < skb_trs sigma0 Eg E T <= spb_trs sigma0 E T
  /\ spb_dos m_d E <= skb_dos m_d Eg E
  /\ spb_trs sigma0 E T - skb_trs sigma0 Eg E T <= spb_trs sigma0 E T * ((E / Eg + 4 * (E / Eg) ^ 2) / 3).
Proof.
  intros m_d sigma0 Eg E T Hm Hs Hg HT HE. assert (Q : 0 < E / Eg) by (apply Rdiv_lt_0_compat; assumption).
  assert (P : 0 < sigma0 * E / (kB * T)) by (apply Rdiv_lt_0_compat; apply Rmult_lt_0_compat; try assumption; apply kB_pos).
  unfold skb_trs, spb_trs. rewrite twoE by exact Hg. set (a := E / Eg) in *. clearbody a. set (t := sigma0 * E / (kB * T)) in *. clearbody t.
  destruct (kane_bounds a ltac:(lra)) as ((K1 & K2) & K3). set (k := 3 * (1 + a) / ((1 + 2 * a) ^ 2 + 2)) in *. clearbody k.
  split; [split|split].
  - apply Rmult_lt_0_compat; assumption.
  - rewrite <- (Rmult_1_r t) at 2. apply Rmult_le_compat_l; lra.
  - unfold skb_dos, spb_dos. fold (g0 m_d). rewrite twoE by exact Hg. set (d := 1e-25 * g0 m_d * sqrt E). assert (Hd : 0 <= d).
    { unfold d. pose proof (g0_pos m_d Hm). pose proof (sqrt_pos E). apply Rmult_le_pos; [apply Rmult_le_pos; lra|assumption]. }
    assert (Q2 : 0 < E / Eg) by (apply Rdiv_lt_0_compat; assumption). rewrite <- (Rmult_1_r d) at 1. apply Rmult_le_compat_l; [exact Hd|].
    assert (1 <= sqrt (1 + E / Eg)) by (rewrite <- sqrt_1 at 1; apply sqrt_le_1_alt; lra). rewrite <- (Rmult_1_r 1) at 1. apply Rmult_le_compat; lra.
  - replace (t - t * k) with (t * (1 - k)) by ring. apply Rmult_le_compat_l; lra.
Qed.
Print Assumptions C69_kane_vs_parabolic.
Theorem C69_Eg :
  forall m_d sigma0 Eg Kmass : R, (Eg <= 0 -> skb m_d sigma0 Eg Kmass = Err ValueError) /\ (0 < Eg -> exists w, skb m_d sigma0 Eg Kmass = Ok w).
Proof. intros. unfold skb. destruct (Rlt_dec 0 Eg); split; intros; try lra; try reflexivity. eexists. reflexivity. Qed.
Print Assumptions C69_Eg.

(** ** C70: Hall function and band parameters *)
Lemma cancel_hall (K s n q e : R) : n <> 0 -> q <> 0 -> K * (s ^ 2 / (2 / 3 * 1e-6 * n * q)) * e * q * (1e19 * (1e-25 * (2 / 3 * n))) = K * s ^ 2 * e.
Proof. intros Hn Hq. field. split; assumption. Qed.
(** sigma_H(E) * q * n(E) = K* * sigma(E)^2 at every energy, n(E) the states below E *)
Theorem C70_hall_consistent :
  forall m_d sigma0 Kmass E T : R, 0 < m_d -> 0 < T -> 0 < E ->
  spb_hall m_d sigma0 Kmass E T * qe * (1e19 * spb_idos m_d E) = Kstar Kmass * (spb_trs sigma0 E T) ^ 2
  /\ forall Eg, 0 < Eg -> skb_hall m_d sigma0 Eg Kmass E T * qe * (1e19 * skb_idos m_d Eg E) = Kstar Kmass * (skb_trs sigma0 Eg E T) ^ 2.
Proof.
  intros m_d sigma0 Kmass E T Hm HT HE. assert (KT : 0 < kB * T) by (apply Rmult_lt_0_compat; [apply kB_pos|exact HT]).
  pose proof (g0_pos m_d Hm) as G. pose proof qe_pos as Q.
  set (x := E / (kB * T)). assert (X : 0 < x) by (apply Rdiv_lt_0_compat; assumption).
  assert (EX : E = kB * T * x) by (unfold x; set (c := kB * T) in *; field; lra).
  assert (P : 0 < pow32 (kB * T)) by (apply pow32_pos; exact KT).
  assert (TR : spb_trs sigma0 E T = sigma0 * x) by (unfold spb_trs, x; set (c := kB * T) in *; field; lra).
  split.
  - rewrite TR. unfold spb_hall, hall_factor. fold x. rewrite spb_idos_eq by lra. rewrite hall_N0_eq by assumption.
    replace (pow32 E) with (pow32 (kB * T) * pow32 x) by (rewrite <- pow32_mult by lra; f_equal; symmetry; exact EX).
    set (n := g0 m_d * pow32 (kB * T)). assert (N : n <> 0) by (apply Rgt_not_eq, Rmult_lt_0_compat; assumption).
    replace (1e-25 * (2 / 3 * g0 m_d) * (pow32 (kB * T) * pow32 x)) with ((1e-25 * (2 / 3 * n)) * pow32 x) by (unfold n; generalize 1e-25; intros; ring).
    assert (SX : sqrt x * pow32 x = x ^ 2). { unfold pow32. replace (sqrt x * (x * sqrt x)) with (x * (sqrt x * sqrt x)) by ring. rewrite sqrt_sqrt by lra. ring. }
    transitivity (Kstar Kmass * (sigma0 ^ 2 / (2 / 3 * 1e-6 * n * qe)) * (sqrt x * pow32 x) * qe * (1e19 * (1e-25 * (2 / 3 * n)))); [generalize 1e19 1e-25 1e-6; intros; ring|].
    rewrite SX, cancel_hall by lra. ring.
  - intros Eg Hg. assert (A : 0 < E / Eg) by (apply Rdiv_lt_0_compat; assumption).
    unfold skb_trs. change (sigma0 * E / (kB * T)) with (spb_trs sigma0 E T). rewrite TR. unfold skb_hall, hall_factor. fold x. rewrite skb_idos_eq by lra. rewrite hall_N0_eq by assumption.
    rewrite twoE by exact Hg. set (a := E / Eg) in *. assert (D : 0 < (1 + 2 * a) ^ 2 + 2) by (pose proof (pow2_ge_0 (1 + 2 * a)); lra).
    replace (pow32 (E * (1 + a))) with (pow32 (kB * T) * (pow32 x * pow32 (1 + a))).
    2:{ rewrite <- (pow32_mult x) by lra. assert (XA : 0 <= x * (1 + a)) by (apply Rmult_le_pos; lra). rewrite <- pow32_mult by lra. f_equal. rewrite <- Rmult_assoc. f_equal. symmetry. exact EX. }
    set (n := g0 m_d * pow32 (kB * T)). assert (N : n <> 0) by (apply Rgt_not_eq, Rmult_lt_0_compat; assumption).
    assert (SX : sqrt x * pow32 x = x ^ 2). { unfold pow32. replace (sqrt x * (x * sqrt x)) with (x * (sqrt x * sqrt x)) by ring. rewrite sqrt_sqrt by lra. ring. }
    assert (SA : sqrt (1 + a) * pow32 (1 + a) = (1 + a) ^ 2). { unfold pow32. replace (sqrt (1 + a) * ((1 + a) * sqrt (1 + a))) with ((1 + a) * (sqrt (1 + a) * sqrt (1 + a))) by ring. rewrite sqrt_sqrt by lra. ring. }
    transitivity (Kstar Kmass * (sigma0 ^ 2 / (2 / 3 * 1e-6 * n * qe)) * ((sqrt x * pow32 x) * (9 * (sqrt (1 + a) * pow32 (1 + a)) / ((1 + 2 * a) ^ 2 + 2) ^ 2)) * qe * (1e19 * (1e-25 * (2 / 3 * n)))).
    { unfold n. generalize 1e19 1e-25 1e-6. intros. unfold Rdiv. ring. }
    rewrite SX, SA, cancel_hall by lra. set (d := (1 + 2 * a) ^ 2 + 2) in *. field. lra.
Qed.
Print Assumptions C70_hall_consistent.
Theorem C70_Kstar :
  forall Kmass : R, 0 < Kmass -> 0 < Kstar Kmass <= 1 /\ (Kstar Kmass = 1 <-> Kmass = 1).
Proof.
  intros K HK. assert (D : 0 < (2 * K + 1) ^ 2) by (apply pow_lt; lra). unfold Kstar.
  assert (E : 1 - 3 * K * (K + 2) / (2 * K + 1) ^ 2 = (K - 1) ^ 2 / (2 * K + 1) ^ 2) by (field; lra).
  assert (N : 0 <= (K - 1) ^ 2 / (2 * K + 1) ^ 2) by (apply div_nonneg; [apply pow2_ge_0|exact D]).
  assert (P : 0 < 3 * K * (K + 2)) by (apply Rmult_lt_0_compat; lra).
  split; [split; [apply Rdiv_lt_0_compat; assumption|lra]|]. split.
  - intros H. assert (Z : (K - 1) ^ 2 / (2 * K + 1) ^ 2 = 0) by lra. apply (Rmult_eq_compat_r ((2 * K + 1) ^ 2)) in Z. unfold Rdiv in Z. rewrite Rmult_assoc, Rinv_l, Rmult_0_l, Rmult_1_r in Z by lra.
    assert (K - 1 = 0); [|lra]. destruct (Req_dec (K - 1) 0) as [|Hne]; [assumption|]. exfalso. apply (pow_nonzero _ 2) in Hne. contradiction.
  - intros ->. lra.
Qed.
Print Assumptions C70_Kstar.
Theorem C70_parameters :
  (forall u, UWT (sigma0_from_UWT u) = u)
  /\ forall m1 m2 Nv Cii Ed : R, 0 < m1 -> 0 < m2 -> 0 < Nv -> Ed <> 0 ->
     let '(m_d, sigma0, Kmass) := from_DP m1 (Some m2) Nv Cii Ed in
     m_d ^ 3 = Nv ^ 2 * m1 * m2 ^ 2 /\ Kmass * m2 = m1
     /\ sigma0 * Ed ^ 2 = 245.66655370009886 * Nv * Cii * ((1 / m1 + 1 / m2 + 1 / m2) / 3)
     /\ from_DP m1 None Nv Cii Ed = from_DP m1 (Some m1) Nv Cii Ed
     /\ from_DP m1 (Some 0) Nv Cii Ed = from_DP m1 (Some m1) Nv Cii Ed.
Proof.
  split.
  - intros u. unfold UWT, sigma0_from_UWT. assert (0 < UWT_to_sigma0) by (unfold UWT_to_sigma0; lra). set (k := UWT_to_sigma0) in *. field. lra.
  - intros m1 m2 Nv Cii Ed H1 H2 HN HE. unfold from_DP. destruct (Req_EM_T m2 0) as [|_]; [lra|]. destruct (Req_EM_T m1 0) as [|_]; [lra|]. destruct (Req_EM_T 0 0) as [_|]; [|lra].
    split; [|split; [field; lra|split; [|split; reflexivity]]].
    + unfold cbrt. assert (P : 0 < Nv * Nv * m1 * m2 * m2) by (repeat apply Rmult_lt_0_compat; assumption).
      rewrite <- Rpower_pow by apply exp_pos. rewrite Rpower_mult. replace (1 / 3 * INR 3) with 1 by (simpl; field). rewrite Rpower_1 by exact P. ring.
    + set (f := 245.66655370009886). clearbody f. assert (1 / m1 + 2 / m2 <> 0).
      { apply Rgt_not_eq. assert (0 < 1 / m1) by (apply Rdiv_lt_0_compat; lra). assert (0 < 2 / m2) by (apply Rdiv_lt_0_compat; lra). lra. }
      field. repeat split; try lra.
Qed.
Print Assumptions C70_parameters.

(** ** C71: scaling laws *)
Lemma dfx_scal f g a EF T k : 0 < T -> (forall E, 0 < E -> f E T = a * g E T) -> romb_dfx f EF T k 6 = a * romb_dfx g EF T k 6.
Proof.
  intros HT H. destruct (C58_positive_sum EF T HT) as (l & Hl & _ & E). rewrite !E. rewrite <- sumR_scal. apply sumR_ext. intros n Hn.
  rewrite Forall_forall in Hl. rewrite H by (apply (Hl n Hn)). ring.
Qed.
(** a family of bands with parameters m_d and sigma0 that scales like APSSPB and APSSKB *)
Definition scales (F : R -> R -> raw) (w : raw) (T : R) : Prop :=
  forall m_d sigma0 EF, 0 < m_d ->
  (forall n, r_K (F m_d sigma0) n EF T = sigma0 * r_K w n EF T)
  /\ r_N (F m_d sigma0) EF T = pow32 m_d * r_N w EF T
  /\ exists hw hf, r_H w = Some hw /\ r_H (F m_d sigma0) = Some hf /\ hf EF T = sigma0 ^ 2 / pow32 m_d * hw EF T.
Lemma hall_factor_scale m_d sigma0 T : 0 < m_d -> 0 < T -> hall_factor m_d sigma0 T = sigma0 ^ 2 / pow32 m_d * hall_factor 1 1 T.
Proof.
  intros Hm HT. unfold hall_factor. rewrite !hall_N0_eq by lra. rewrite (g0_scale m_d Hm). assert (KT : 0 < kB * T) by (apply Rmult_lt_0_compat; [apply kB_pos|exact HT]).
  pose proof (pow32_pos m_d Hm). pose proof (pow32_pos _ KT) as P. pose proof (g0_pos 1 ltac:(lra)) as G. pose proof qe_pos as Q.
  set (a := pow32 m_d) in *. set (b := pow32 (kB * T)) in *. set (g := g0 1) in *. set (u := qe) in *. clearbody a b g u. field. repeat split; lra.
Qed.
Lemma spb_scales Kmass T : 0 < T -> scales (fun m s => spb m s Kmass) (spb 1 1 Kmass) T.
Proof.
  intros HT m_d sigma0 EF Hm. cbn [spb spectral r_K r_N r_H]. split; [|split].
  - intros n. apply dfx_scal; [exact HT|]. intros E HE. unfold spb_trs, Rdiv. ring.
  - apply dfx_scal; [exact HT|]. intros E HE. rewrite !spb_idos_eq by lra. rewrite (g0_scale m_d Hm). ring.
  - do 2 eexists. split; [reflexivity|]. split; [reflexivity|]. apply dfx_scal; [exact HT|]. intros E HE. unfold spb_hall. rewrite (hall_factor_scale m_d sigma0 T Hm HT). ring.
Qed.
Lemma skb_scales Eg Kmass T w : 0 < T -> 0 < Eg -> skb 1 1 Eg Kmass = Ok w ->
  exists F, scales F w T /\ forall m s, skb m s Eg Kmass = Ok (F m s).
Proof.
  intros HT Hg Hw. unfold skb in *. destruct (Rlt_dec 0 Eg) as [_|]; [|contradiction].
  injection Hw as <-.
  exists (fun m_d sigma0 => spectral (fun E _ => skb_idos m_d Eg E) (skb_trs sigma0 Eg) (skb_hall m_d sigma0 Eg Kmass)). split; [|reflexivity].
  intros m_d sigma0 EF Hm. cbn [spectral r_K r_N r_H]. split; [|split].
  - intros n. apply dfx_scal; [exact HT|]. intros E HE. unfold skb_trs, Rdiv. ring.
  - apply dfx_scal; [exact HT|]. intros E HE. rewrite !skb_idos_eq by lra. rewrite (g0_scale m_d Hm). ring.
  - do 2 eexists. split; [reflexivity|]. split; [reflexivity|]. apply dfx_scal; [exact HT|]. intros E HE. unfold skb_hall. rewrite (hall_factor_scale m_d sigma0 T Hm HT). ring.
Qed.
Definition val (w : raw) (p : prop) (EF T x : R) : Prop := value (method (plain w) p (Some EF) (Some T)) x.
(** values of the uncompiled band *)
Lemma val_inv w EF T : (forall x, val w PN EF T x <-> x = r_N w EF T) /\ (forall x, val w PC EF T x <-> x = r_K w 0 EF T)
  /\ (forall x, val w PS EF T x <-> x = S0 * r_K w 1 EF T / r_K w 0 EF T)
  /\ (forall x, val w PL EF T x <-> x = L0 * (r_K w 2 EF T / r_K w 0 EF T - (r_K w 1 EF T / r_K w 0 EF T) ^ 2))
  /\ (forall h, r_H w = Some h -> forall x, val w PNH EF T x <-> x = 1e-19 * r_K w 0 EF T ^ 2 / h EF T / qe).
Proof.
  unfold val, value, plain. cbn [method]. unfold fetch_N, fetch_K, fetch_H. cbn [self_band o_cache o_N o_K o_H o_sign b_cache b_raw b_sign both rbind].
  repeat split; intros; try congruence.
  - injection H as <-. rewrite Rmult_1_l. reflexivity.
  - subst x. rewrite Rmult_1_l. reflexivity.
  - rewrite H in *. cbn [both rbind num] in *. assert (X : forall a b : R, Ok (Some a) = Ok (Some b) -> b = a) by congruence. apply X in H0. rewrite !Rmult_1_l in H0. exact H0.
  - rewrite H in *. cbn [both rbind num] in *. subst x. rewrite !Rmult_1_l. reflexivity.
Qed.
Lemma scale_S s a b : s <> 0 -> b <> 0 -> s * a / (s * b) = a / b. Proof. intros. field. split; assumption. Qed.
(** sigma0 scales C and nothing else; m_d scales N and NH with its 3/2 power; S and L depend on neither *)
Theorem C71_parameters :
  forall (Kmass m_d sigma0 EF T : R), 0 < T -> 0 < m_d -> 0 < sigma0 -> 0 < Kmass ->
  forall w b : raw, (b = spb m_d sigma0 Kmass /\ w = spb 1 1 Kmass) \/ (exists Eg, skb m_d sigma0 Eg Kmass = Ok b /\ skb 1 1 Eg Kmass = Ok w) ->
  (forall x, val w PC EF T x -> val b PC EF T (sigma0 * x))
  /\ (forall x, val w PN EF T x -> val b PN EF T (pow32 m_d * x))
  /\ (forall x, val w PS EF T x <-> val b PS EF T x)
  /\ (forall x, val w PL EF T x <-> val b PL EF T x)
  /\ (forall x, val w PNH EF T x -> val b PNH EF T (pow32 m_d * x)).
Proof.
  intros Kmass m_d sigma0 EF T HT Hm Hs HK w b Hw.
  assert (SC : exists F, scales F w T /\ b = F m_d sigma0).
  { destruct Hw as [(-> & ->)|(Eg & Hb & Hw)].
    - exists (fun m s => spb m s Kmass). split; [apply spb_scales; exact HT|reflexivity].
    - assert (Hg : 0 < Eg) by (unfold skb in Hw; destruct (Rlt_dec 0 Eg); [assumption|discriminate]).
      destruct (skb_scales Eg Kmass T w HT Hg Hw) as (F & S & E). exists F. split; [exact S|]. specialize (E m_d sigma0). congruence. }
  assert (Pos : 0 < r_K w 0 EF T /\ forall h, r_H w = Some h -> 0 < h EF T).
  { assert (KT : 0 < kB * T) by (apply Rmult_lt_0_compat; [apply kB_pos|exact HT]).
    assert (HF : 0 < hall_factor 1 1 T). { unfold hall_factor. apply Rdiv_lt_0_compat; [lra|]. rewrite hall_N0_eq by lra. pose proof (g0_pos 1 ltac:(lra)). pose proof (pow32_pos _ KT). pose proof qe_pos.
      apply Rmult_lt_0_compat; [|assumption]. apply Rmult_lt_0_compat; [lra|]. apply Rmult_lt_0_compat; assumption. }
    destruct (C70_Kstar Kmass HK) as ((KS & _) & _).
    destruct Hw as [(_ & ->)|(Eg & _ & Hw)].
    - cbn [spb spectral r_K r_H]. split.
      + apply C58_positive; [exact HT|]. intros E HE. unfold spb_trs. apply Rdiv_lt_0_compat; lra.
      + intros h [= <-]. apply C58_positive; [exact HT|]. intros E HE. unfold spb_hall. apply Rmult_lt_0_compat; [apply Rmult_lt_0_compat; assumption|]. apply sqrt_lt_R0. apply Rdiv_lt_0_compat; assumption.
    - unfold skb in Hw. destruct (Rlt_dec 0 Eg) as [Hg|]; [|discriminate]. injection Hw as <-. cbn [spectral r_K r_H]. split.
      + apply C58_positive; [exact HT|]. intros E HE. apply (C69_kane_vs_parabolic 1 1 Eg E T); lra.
      + intros h [= <-]. apply C58_positive; [exact HT|]. intros E HE. unfold skb_hall. assert (0 < E / Eg) by (apply Rdiv_lt_0_compat; assumption).
        apply Rmult_lt_0_compat; [apply Rmult_lt_0_compat; [apply Rmult_lt_0_compat; assumption|]|].
        * apply sqrt_lt_R0. apply Rdiv_lt_0_compat; assumption.
        * apply Rdiv_lt_0_compat; [apply Rmult_lt_0_compat; [lra|apply sqrt_lt_R0; lra]|]. apply pow_lt. pose proof (pow2_ge_0 (1 + 2 * E / Eg)). lra. }
  destruct SC as (F & SC & ->). destruct Pos as (P0 & PH).
  destruct (SC m_d sigma0 EF Hm) as (EK & EN & hw & hf & Hhw & Hhf & EH). specialize (PH hw Hhw). pose proof (pow32_pos m_d Hm) as PM.
  destruct (val_inv w EF T) as (VN & VC & VS & VL & VH). destruct (val_inv (F m_d sigma0) EF T) as (WN & WC & WS & WL & WH).
  specialize (VH hw Hhw). specialize (WH hf Hhf).
  assert (Ss : S0 * r_K w 1 EF T / r_K w 0 EF T = S0 * r_K (F m_d sigma0) 1 EF T / r_K (F m_d sigma0) 0 EF T) by (rewrite !EK; generalize S0; intros; field; split; lra).
  assert (Ls : L0 * (r_K w 2 EF T / r_K w 0 EF T - (r_K w 1 EF T / r_K w 0 EF T) ^ 2) = L0 * (r_K (F m_d sigma0) 2 EF T / r_K (F m_d sigma0) 0 EF T - (r_K (F m_d sigma0) 1 EF T / r_K (F m_d sigma0) 0 EF T) ^ 2))
    by (rewrite !EK; rewrite !scale_S by lra; reflexivity).
  split; [|split; [|split; [|split]]].
  - intros x Hx. apply VC in Hx. apply WC. rewrite EK, Hx. reflexivity.
  - intros x Hx. apply VN in Hx. apply WN. rewrite EN, Hx. reflexivity.
  - intros x. rewrite VS, WS, Ss. reflexivity.
  - intros x. rewrite VL, WL, Ls. reflexivity.
  - intros x Hx. apply VH in Hx. apply WH. rewrite Hx, EK, EH. pose proof qe_pos as Q. set (u := qe) in *. set (k0 := r_K w 0 EF T) in *. set (a := pow32 m_d) in *. set (y := hw EF T) in *. clearbody u k0 a y.
    generalize 1e-19. intros c. field. repeat split; lra.
Qed.
Print Assumptions C71_parameters.
(** in the parabolic model S and L depend on EF and T only through EF/(kB*T), and so do C, and N up to T^(3/2) *)
Lemma reduced_width EF T EF' T' : EF / (kB * T) = EF' / (kB * T') -> width EF T = width EF' T'.
Proof. intros H. unfold width, kT. rewrite H. reflexivity. Qed.
Lemma reduced_xp EF T EF' T' i : EF / (kB * T) = EF' / (kB * T') -> tp EF T 6 i = tp EF' T' 6 i /\ xp EF T 6 i = xp EF' T' 6 i.
Proof.
  intros H. assert (A : tp EF T 6 i = tp EF' T' 6 i) by (unfold tp; rewrite (reduced_width _ _ _ _ H); reflexivity). split; [exact A|].
  unfold xp, kT. rewrite H, A. reflexivity.
Qed.
Lemma pull_scal (a x c f : R) : a * (x * (c * f)) = c * (a * (x * f)). Proof. ring. Qed.
Lemma reduced_dfx f f' c EF T EF' T' k : 0 < T -> 0 < T' -> EF / (kB * T) = EF' / (kB * T') ->
  (forall x, 0 < x -> f (kB * T * x) T = c * f' (kB * T' * x) T') -> romb_dfx f EF T k 6 = c * romb_dfx f' EF' T' k 6.
Proof.
  intros HT HT' H Hf. rewrite !dfx_sum by assumption. rewrite <- sumR_scal. apply sumR_ext. intros i Hi. apply in_seq in Hi.
  rewrite !energy_x by assumption. destruct (reduced_xp EF T EF' T' i H) as (A & B). rewrite A, B, (reduced_width _ _ _ _ H).
  assert (K : 0 < kB * T) by (apply Rmult_lt_0_compat; [apply kB_pos|assumption]). assert (K' : 0 < kB * T') by (apply Rmult_lt_0_compat; [apply kB_pos|assumption]).
  assert (Ee : forall E T, 0 < kB * T -> energy E T 6 i = kB * T * (xp E T 6 i + E / (kB * T))) by (intros E t Ht; unfold energy, kT; set (u := kB * t) in *; field; lra).
  pose proof (energy_pos EF T i HT ltac:(lia)) as P. rewrite (Ee EF T K) in P. rewrite (Ee EF T K), (Ee EF' T' K'), B, H. rewrite B, H in P.
  rewrite Hf; [apply pull_scal|]. apply (Rmult_lt_reg_l (kB * T)); [exact K|]. rewrite Rmult_0_r. exact P.
Qed.
Theorem C71_reduced_level :
  forall (m_d sigma0 Kmass EF T EF' T' : R), 0 < m_d -> 0 < T -> 0 < T' -> EF / (kB * T) = EF' / (kB * T') ->
  (forall p x, In p [PC; PS; PL; PPF] -> val (spb m_d sigma0 Kmass) p EF T x <-> val (spb m_d sigma0 Kmass) p EF' T' x)
  /\ (forall x x', val (spb m_d sigma0 Kmass) PN EF T x -> val (spb m_d sigma0 Kmass) PN EF' T' x' -> x * pow32 T' = x' * pow32 T).
Proof.
  intros m_d sigma0 Kmass EF T EF' T' Hm HT HT' H.
  assert (KT : 0 < kB * T) by (apply Rmult_lt_0_compat; [apply kB_pos|assumption]). assert (KT' : 0 < kB * T') by (apply Rmult_lt_0_compat; [apply kB_pos|assumption]).
  assert (EK : forall n, r_K (spb m_d sigma0 Kmass) n EF T = r_K (spb m_d sigma0 Kmass) n EF' T').
  { intros n. cbn [spb spectral r_K]. rewrite <- (Rmult_1_l (romb_dfx _ EF' T' n 6)). apply reduced_dfx; try assumption.
    intros x Hx. unfold spb_trs. set (u := kB * T) in *. set (v := kB * T') in *. field. split; lra. }
  split.
  - intros p x Hp. assert (M : method (plain (spb m_d sigma0 Kmass)) p (Some EF) (Some T) = method (plain (spb m_d sigma0 Kmass)) p (Some EF') (Some T')).
    { cbn [In] in Hp. destruct Hp as [<-|[<-|[<-|[<-|[]]]]]; cbn [method]; unfold fetch_K, plain; cbn [self_band o_cache o_K b_cache b_raw both rbind]; rewrite !EK; reflexivity. }
    unfold val. rewrite M. reflexivity.
  - intros x x' Hx Hx'. apply (proj1 (val_inv _ _ _)) in Hx. apply (proj1 (val_inv _ _ _)) in Hx'. subst x x'. cbn [spb spectral r_N].
    pose proof (pow32_pos T HT) as A. pose proof (pow32_pos T' HT') as B.
    rewrite (reduced_dfx (fun E _ => spb_idos m_d E) (fun E _ => spb_idos m_d E) (pow32 T / pow32 T') EF T EF' T' 0 HT HT' H); [field; lra|].
    intros y Hy. pose proof kB_pos as KB. assert (0 < kB * T * y) by (apply Rmult_lt_0_compat; assumption). assert (0 < kB * T' * y) by (apply Rmult_lt_0_compat; assumption). rewrite !spb_idos_eq by lra.
    replace (kB * T * y) with (kB * y * T) by ring. replace (kB * T' * y) with (kB * y * T') by ring.
    assert (0 < kB * y) by (apply Rmult_lt_0_compat; assumption). rewrite !(pow32_mult (kB * y)) by lra.
    set (g := g0 m_d). set (k := pow32 (kB * y)). set (a := pow32 T) in *. set (b := pow32 T') in *. clearbody g k a b. generalize 1e-25. intros c. field. lra.
Qed.
Print Assumptions C71_reduced_level.

(** ** C72: valuate, from measured data to the band that reproduces them *)
Lemma get_val w p EF T x : val w p EF T x -> get w p EF T = x.
Proof. unfold val, value, get. intros ->. reflexivity. Qed.
Lemma val_fun w p EF T x y : val w p EF T x -> val w p EF T y -> x = y.
Proof. intros H1 H2. apply get_val in H1. apply get_val in H2. congruence. Qed.
(** the two band models: [B] is the family of bands the class builds, [v] what its valuate returned *)
Definition built (root : (R -> res R) -> res (R * bool)) (Kmass dataS T : R) (dataC dataN dataK : option R) (hall : bool)
    (B : R -> R -> raw) (v : valuation) (opt : bool) : Prop :=
  (opt = true /\ (forall m s, B m s = spb m s Kmass) /\ valuate_spb root Kmass dataS (Some T) dataC dataN dataK hall = Ok v)
  \/ (opt = false /\ exists Eg, (forall m s, skb m s Eg Kmass = Ok (B m s)) /\ valuate_skb root Eg Kmass dataS T dataC dataN dataK hall = Ok v).
Lemma positive_w w Kmass EF T : 0 < T -> 0 < Kmass -> w = spb 1 1 Kmass \/ (exists Eg, skb 1 1 Eg Kmass = Ok w) ->
  0 < r_K w 0 EF T /\ 0 < r_N w EF T /\ exists h, r_H w = Some h /\ 0 < h EF T.
Proof.
  intros HT HK Hw. assert (KT : 0 < kB * T) by (apply Rmult_lt_0_compat; [apply kB_pos|exact HT]).
  assert (HF : 0 < hall_factor 1 1 T). { unfold hall_factor. apply Rdiv_lt_0_compat; [lra|]. rewrite hall_N0_eq by lra. pose proof (g0_pos 1 ltac:(lra)). pose proof (pow32_pos _ KT). pose proof qe_pos.
    apply Rmult_lt_0_compat; [|assumption]. apply Rmult_lt_0_compat; [lra|]. apply Rmult_lt_0_compat; assumption. }
  destruct (C70_Kstar Kmass HK) as ((KS & _) & _). pose proof (g0_pos 1 ltac:(lra)) as G.
  destruct Hw as [->|(Eg & Hw)].
  - cbn [spb spectral r_K r_N r_H]. split; [|split; [|eexists; split; [reflexivity|]]].
    + apply C58_positive; [exact HT|]. intros E HE. unfold spb_trs. apply Rdiv_lt_0_compat; lra.
    + apply C58_positive; [exact HT|]. intros E HE. rewrite spb_idos_eq by lra. apply Rmult_lt_0_compat; [lra|apply pow32_pos; exact HE].
    + apply C58_positive; [exact HT|]. intros E HE. unfold spb_hall. apply Rmult_lt_0_compat; [apply Rmult_lt_0_compat; assumption|]. apply sqrt_lt_R0. apply Rdiv_lt_0_compat; assumption.
  - unfold skb in Hw. destruct (Rlt_dec 0 Eg) as [Hg|]; [|discriminate]. injection Hw as <-. cbn [spectral r_K r_N r_H]. split; [|split; [|eexists; split; [reflexivity|]]].
    + apply C58_positive; [exact HT|]. intros E HE. apply (C69_kane_vs_parabolic 1 1 Eg E T); lra.
    + apply C58_positive; [exact HT|]. intros E HE. rewrite skb_idos_eq by lra. assert (0 < E / Eg) by (apply Rdiv_lt_0_compat; assumption). apply Rmult_lt_0_compat; [lra|apply pow32_pos, Rmult_lt_0_compat; lra].
    + apply C58_positive; [exact HT|]. intros E HE. unfold skb_hall. assert (0 < E / Eg) by (apply Rdiv_lt_0_compat; assumption).
      apply Rmult_lt_0_compat; [apply Rmult_lt_0_compat; [apply Rmult_lt_0_compat; assumption|]|].
      * apply sqrt_lt_R0. apply Rdiv_lt_0_compat; assumption.
      * apply Rdiv_lt_0_compat; [apply Rmult_lt_0_compat; [lra|apply sqrt_lt_R0; lra]|]. apply pow_lt. pose proof (pow2_ge_0 (1 + 2 * E / Eg)). lra.
Qed.
Lemma val_exists w Kmass EF T p : 0 < T -> 0 < Kmass -> w = spb 1 1 Kmass \/ (exists Eg, skb 1 1 Eg Kmass = Ok w) -> In p [PC; PN; PNH] ->
  exists x, 0 < x /\ val w p EF T x.
Proof.
  intros HT HK Hw Hp. destruct (positive_w w Kmass EF T HT HK Hw) as (P0 & PN' & h & Hh & PH). destruct (val_inv w EF T) as (VN & VC & VS & VL & VH). specialize (VH h Hh).
  cbn [In] in Hp. destruct Hp as [<-|[<-|[<-|[]]]].
  - exists (r_K w 0 EF T). split; [exact P0|apply VC; reflexivity].
  - exists (r_N w EF T). split; [exact PN'|apply VN; reflexivity].
  - eexists. split; [|apply VH; reflexivity]. apply Rdiv_lt_0_compat; [|apply qe_pos]. apply Rdiv_lt_0_compat; [|exact PH]. apply Rmult_lt_0_compat; [lra|apply pow_lt; exact P0].
Qed.
(** every given datum is reproduced by the band with the returned parameters at one common Fermi level *)
Theorem C72_reproduces :
  forall (root : (R -> res R) -> res (R * bool)) (good : R -> Prop),
  (forall f x, root f = Ok (x, true) -> exists y, f x = Ok y /\ good y) ->
  forall (Kmass dataS T : R) (dataC dataN dataK : option R) (hall : bool) (B : R -> R -> raw) (r : report) (opt : bool),
  0 < T -> 0 < Kmass -> (forall c, dataC = Some c -> 0 < c) -> (forall n, dataN = Some n -> 0 < n) ->
  built root Kmass dataS T dataC dataN dataK hall B (VRep r) opt ->
  exists EF, forall m s, 0 < m -> 0 < s -> (dataC <> None -> v_sigma0 r = Some s) -> (dataN <> None -> v_md r = Some m) ->
    (exists S, val (B m s) PS EF T S /\ good (S - dataS))
    /\ val (B m s) PL EF T (v_L r)
    /\ (forall c, dataC = Some c -> val (B m s) PC EF T c /\ v_Ke r = Some (1e-6 * v_L r * c * T)
          /\ v_UWT r = Some (UWT s) /\ v_PFmax r = (if opt then Some (PFmax s) else None))
    /\ (forall n, dataN = Some n -> val (B m s) (if hall then PNH else PN) EF T n
          /\ (opt = true -> exists n', v_Nopt r = Some n' /\ val (B m s) (if hall then PNH else PN) (EFopt T) T n')).
Proof.
  intros root good Hr Kmass dataS T dataC dataN dataK hall B r opt HT HK HC HN HB.
  assert (W : exists w, (w = spb 1 1 Kmass \/ exists Eg, skb 1 1 Eg Kmass = Ok w) /\ valuate_gen root w opt dataS T dataC dataN dataK hall = Ok (VRep r)
    /\ forall m s, (B m s = spb m s Kmass /\ w = spb 1 1 Kmass) \/ (exists Eg, skb m s Eg Kmass = Ok (B m s) /\ skb 1 1 Eg Kmass = Ok w)).
  { destruct HB as [(-> & HB & Hv)|(-> & Eg & HB & Hv)].
    - exists (spb 1 1 Kmass). split; [left; reflexivity|]. split; [exact Hv|]. intros m s. left. split; [apply HB|reflexivity].
    - unfold valuate_skb in Hv. destruct (skb 1 1 Eg Kmass) as [w|e] eqn:E; cbn [rbind] in Hv; [|discriminate]. exists w. split; [right; exists Eg; exact E|]. split; [exact Hv|].
      intros m s. right. exists Eg. split; [apply HB|exact E]. }
  clear HB. destruct W as (w & Hw & Hv & HB). unfold valuate_gen in Hv.
  destruct (solve_EF root (plain w) PS dataS T) as [[EF|]|e] eqn:ES; cbn [rbind] in Hv; [|discriminate|discriminate].
  assert (X : forall a b : report, Ok (VRep a) = Ok (VRep b) -> b = a) by congruence. apply X in Hv. clear X.
  exists EF. intros m s Hm Hs Es Em. destruct (C61_solve root good (plain w) PS dataS T Hr) as (SS & _). destruct (SS EF ES) as (S & VS & GS).
  destruct (C71_parameters Kmass m s EF T HT Hm Hs HK w (B m s) (HB m s)) as (QC & QN & QS & QL & QH).
  assert (LL : val w PL EF T (get w PL EF T)) by (destruct (val_inv w EF T) as (_ & _ & _ & VL & _); unfold get; pose proof (proj2 (VL _) eq_refl) as Z; unfold val, value in Z |- *; rewrite Z; reflexivity).
  split; [exists S; split; [apply QS; exact VS|exact GS]|]. split; [subst r; cbn [v_L]; apply QL; exact LL|].
  set (P := if hall then PNH else PN) in *.
  assert (HP : In P [PC; PN; PNH]) by (unfold P; destruct hall; cbn [In]; auto).
  assert (QP : forall E x, val w P E T x -> val (B m s) P E T (pow32 m * x)).
  { intros E. destruct (C71_parameters Kmass m s E T HT Hm Hs HK w (B m s) (HB m s)) as (_ & AN & _ & _ & AH). unfold P. destruct hall; assumption. }
  split.
  - intros c ->. destruct (val_exists w Kmass EF T PC HT HK Hw) as (c0 & Pc & Vc); [cbn [In]; auto|]. specialize (Es ltac:(discriminate)).
    subst r. cbn [v_sigma0 v_Ke v_UWT v_PFmax v_L opt_map] in *. rewrite (get_val w PC EF T c0 Vc) in *. assert (E1 : c / c0 = s) by congruence. split.
    + replace c with (s * c0) by (rewrite <- E1; field; lra). apply QC. exact Vc.
    + split; [rewrite <- (Rmult_assoc _ c T); reflexivity|]. rewrite E1. split; [reflexivity|]. destruct opt; reflexivity.
  - intros n ->. destruct (val_exists w Kmass EF T P HT HK Hw HP) as (n0 & Pn & Vn). destruct (val_exists w Kmass (EFopt T) T P HT HK Hw HP) as (n1 & Pn1 & Vn1). specialize (Em ltac:(discriminate)). specialize (HN n eq_refl).
    subst r. cbn [v_md v_Nopt opt_map] in *. rewrite (get_val w P EF T n0 Vn), (get_val w P (EFopt T) T n1 Vn1) in *. assert (E1 : m = Rpower (n / n0) (2 / 3)) by congruence.
    assert (Q : 0 < n / n0) by (apply Rdiv_lt_0_compat; assumption).
    assert (E2 : pow32 m = n / n0) by (rewrite E1; apply pow32_Rpower; exact Q). split.
    + replace n with (pow32 m * n0) by (rewrite E2; field; lra). apply QP. exact Vn.
    + intros ->. eexists. split; [reflexivity|]. rewrite <- E2. apply QP. exact Vn1.
Qed.
Print Assumptions C72_reproduces.
(** which keys are reported, and that the returned parameters are positive *)
Theorem C72_keys :
  forall (root : (R -> res R) -> res (R * bool)) (Kmass dataS T : R) (dataC dataN dataK : option R) (hall : bool) (B : R -> R -> raw) (r : report) (opt : bool),
  0 < T -> 0 < Kmass -> (forall c, dataC = Some c -> 0 < c) -> (forall n, dataN = Some n -> 0 < n) ->
  built root Kmass dataS T dataC dataN dataK hall B (VRep r) opt ->
  (dataC = None -> v_Ke r = None /\ v_Kp r = None /\ v_sigma0 r = None /\ v_UWT r = None /\ v_PFmax r = None)
  /\ (dataC <> None -> exists s, v_sigma0 r = Some s /\ 0 < s)
  /\ (dataN = None -> v_md r = None /\ v_Nopt r = None)
  /\ (dataN <> None -> exists m, v_md r = Some m /\ 0 < m)
  /\ (dataK = None -> v_Kp r = None)
  /\ (forall c k, dataC = Some c -> dataK = Some k -> exists ke kp, v_Ke r = Some ke /\ v_Kp r = Some kp /\ ke + kp = k)
  /\ (opt = false -> v_PFmax r = None /\ v_Nopt r = None).
Proof.
  intros root Kmass dataS T dataC dataN dataK hall B r opt HT HK HC HN HB.
  assert (W : exists w, (w = spb 1 1 Kmass \/ exists Eg, skb 1 1 Eg Kmass = Ok w) /\ valuate_gen root w opt dataS T dataC dataN dataK hall = Ok (VRep r)).
  { destruct HB as [(-> & HB & Hv)|(-> & Eg & HB & Hv)].
    - exists (spb 1 1 Kmass). split; [left; reflexivity|]. exact Hv.
    - unfold valuate_skb in Hv. destruct (skb 1 1 Eg Kmass) as [w|e] eqn:E; cbn [rbind] in Hv; [|discriminate]. exists w. split; [right; exists Eg; exact E|]. exact Hv. }
  destruct W as (w & Hw & Hv). unfold valuate_gen in Hv.
  destruct (solve_EF root (plain w) PS dataS T) as [[EF|]|e] eqn:ES; cbn [rbind] in Hv; [|discriminate|discriminate].
  assert (X : forall a b : report, Ok (VRep a) = Ok (VRep b) -> b = a) by congruence. apply X in Hv. clear X. subst r. cbn [v_Ke v_Kp v_sigma0 v_UWT v_PFmax v_md v_Nopt].
  split; [intros ->; destruct opt; repeat split; reflexivity|]. split; [|split; [|split; [|split; [|split]]]].
  - destruct dataC as [c|]; [intros _|congruence]. cbn [opt_map]. eexists. split; [reflexivity|]. destruct (val_exists w Kmass EF T PC HT HK Hw) as (c0 & Pc & Vc); [cbn [In]; auto|].
    rewrite (get_val w PC EF T c0 Vc). apply Rdiv_lt_0_compat; [apply HC; reflexivity|exact Pc].
  - intros ->. destruct opt; split; reflexivity.
  - destruct dataN as [n|]; [intros _|congruence]. cbn [opt_map]. eexists. split; [reflexivity|]. apply exp_pos.
  - intros ->. destruct dataC; reflexivity.
  - intros c k -> ->. cbn [opt_map]. do 2 eexists. split; [reflexivity|]. split; [reflexivity|]. apply Rplus_minus.
  - intros ->. split; reflexivity.
Qed.
Print Assumptions C72_keys.
(** without temperature: only L, and it belongs to a reduced Fermi level whose Seebeck coefficient is right at every temperature *)
Theorem C72_no_temperature :
  forall (root : (R -> res R) -> res (R * bool)) (good : R -> Prop),
  (forall f x, root f = Ok (x, true) -> exists y, f x = Ok y /\ good y) ->
  forall (Kmass dataS : R) (dataC dataN dataK : option R) (hall : bool) (r : report), 0 < Kmass ->
  valuate_spb root Kmass dataS None dataC dataN dataK hall = Ok (VRep r) ->
  (v_Ke r = None /\ v_Kp r = None /\ v_sigma0 r = None /\ v_UWT r = None /\ v_PFmax r = None /\ v_md r = None /\ v_Nopt r = None)
  /\ exists eta, forall T m s, 0 < T -> 0 < m -> 0 < s ->
     val (spb m s Kmass) PL (eta * kB * T) T (v_L r) /\ exists S, val (spb m s Kmass) PS (eta * kB * T) T S /\ good (S - dataS).
Proof.
  intros root good Hr Kmass dataS dataC dataN dataK hall r HK Hv. cbn [valuate_spb] in Hv. set (w := spb 1 1 Kmass) in *. set (T0 := 1 / kB) in *.
  assert (HT0 : 0 < T0) by (unfold T0; apply Rdiv_lt_0_compat; [lra|apply kB_pos]).
  unfold valuate_gen in Hv. destruct (solve_EF root (plain w) PS dataS T0) as [[EF|]|e] eqn:ES; cbn [rbind] in Hv; [|discriminate|discriminate].
  assert (X : forall a b : report, Ok (VRep a) = Ok (VRep b) -> b = a) by congruence. apply X in Hv. clear X. subst r. cbn [v_Ke v_Kp v_sigma0 v_UWT v_PFmax v_md v_Nopt v_L opt_map].
  split; [repeat split|]. destruct (C61_solve root good (plain w) PS dataS T0 Hr) as (SS & _). destruct (SS EF ES) as (S & VS & GS). exists EF. intros T m s HT Hm Hs.
  assert (RL : EF / (kB * T0) = EF * kB * T / (kB * T)).
  { pose proof kB_pos as KB. unfold T0. set (k := kB) in *. clearbody k. field. split; lra. }
  destruct (C71_reduced_level 1 1 Kmass EF T0 (EF * kB * T) T ltac:(lra) HT0 HT RL) as (Q & _). fold w in Q.
  destruct (C71_parameters Kmass m s (EF * kB * T) T HT Hm Hs HK w (spb m s Kmass)) as (_ & _ & QS & QL & _); [left; split; reflexivity|].
  assert (LL : val w PL EF T0 (get w PL EF T0)) by (destruct (val_inv w EF T0) as (_ & _ & _ & VL & _); unfold get; pose proof (proj2 (VL _) eq_refl) as Z; unfold val, value in Z |- *; rewrite Z; reflexivity).
  split.
  - apply QL. apply (Q PL); [cbn [In]; auto|exact LL].
  - exists S. split; [|exact GS]. apply QS. apply (Q PS); [cbn [In]; auto|exact VS].
Qed.
Print Assumptions C72_no_temperature.
(** an unconverged search gives nan everywhere; errors propagate *)
Theorem C72_unconverged :
  forall (root : (R -> res R) -> res (R * bool)) (w : raw) (opt : bool) (dataS T : R) (dataC dataN dataK : option R) (hall : bool),
  (forall x, root (residual (plain w) PS dataS T) = Ok (x, false) -> valuate_gen root w opt dataS T dataC dataN dataK hall = Ok VNan)
  /\ (forall e, root (residual (plain w) PS dataS T) = Err e -> valuate_gen root w opt dataS T dataC dataN dataK hall = Err e).
Proof. intros. unfold valuate_gen, solve_EF. split; intros ? ->; reflexivity. Qed.
Print Assumptions C72_unconverged.

(** ** the hypotheses are met *)
Example C69_case : (0 < skb_trs 500 0.3 0.1 300 <= spb_trs 500 0.1 300) /\ spb_dos 0.5 0.1 <= skb_dos 0.5 0.3 0.1.
Proof. destruct (C69_kane_vs_parabolic 0.5 500 0.3 0.1 300 ltac:(lra) ltac:(lra) ltac:(lra) ltac:(lra) ltac:(lra)) as (H1 & H2 & _). split; assumption. Qed.
Example C70_case : Kstar 4 = 8 / 9 /\ exists m_d sigma0 Kmass, from_DP 0.8 (Some 0.2) 4 50 10 = (m_d, sigma0, Kmass) /\ m_d ^ 3 = 4 ^ 2 * 0.8 * 0.2 ^ 2 /\ Kmass = 4.
Proof.
  split; [unfold Kstar; lra|]. destruct C70_parameters as (_ & H). specialize (H 0.8 0.2 4 50 10 ltac:(lra) ltac:(lra) ltac:(lra) ltac:(lra)).
  destruct (from_DP 0.8 (Some 0.2) 4 50 10) as ((a, b), k). exists a, b, k. split; [reflexivity|]. destruct H as (H1 & H2 & _). split; [exact H1|lra].
Qed.
Example C71_case : exists x, val (spb 2 500 1) PC 0.05 300 (500 * x) /\ val (spb 1 1 1) PC 0.05 300 x.
Proof.
  destruct (val_exists (spb 1 1 1) 1 0.05 300 PC) as (x & _ & Hx); [lra|lra|left; reflexivity|cbn [In]; auto|]. exists x. split; [|exact Hx].
  destruct (C71_parameters 1 2 500 0.05 300 ltac:(lra) ltac:(lra) ltac:(lra) ltac:(lra) (spb 1 1 1) (spb 2 500 1)) as (H & _); [left; split; reflexivity|]. apply H. exact Hx.
Qed.
Example C71_case_2 : 0.03 / (kB * 300) = 0.06 / (kB * 600) /\ exists x, val (spb 1 1 1) PC 0.03 300 x /\ val (spb 1 1 1) PC 0.06 600 x.
Proof.
  assert (E : 0.03 / (kB * 300) = 0.06 / (kB * 600)) by (pose proof kB_pos as KB; set (k := kB) in *; clearbody k; replace 0.06 with (2 * 0.03) by lra; replace 600 with (2 * 300) by lra; generalize 0.03; intros; field; lra). split; [exact E|].
  destruct (val_exists (spb 1 1 1) 1 0.03 300 PC) as (x & _ & Hx); [lra|lra|left; reflexivity|cbn [In]; auto|]. exists x. split; [exact Hx|].
  destruct (C71_reduced_level 1 1 1 0.03 300 0.06 600 ltac:(lra) ltac:(lra) ltac:(lra) E) as (H & _). apply (H PC); [cbn [In]; auto|exact Hx].
Qed.
(** a solver that only tries the point 0 meets the contract, and converges when the data come from a band with EF = 0 *)
Definition root0 (f : R -> res R) : res (R * bool) :=
  match f 0 with Ok y => if Req_EM_T y 0 then Ok (0, true) else Ok (0, false) | Err e => Err e end.
Lemma root0_ok : forall f x, root0 f = Ok (x, true) -> exists y, f x = Ok y /\ y = 0.
Proof. intros f x. unfold root0. destruct (f 0) as [y|] eqn:E; [|discriminate]. destruct (Req_EM_T y 0); [|discriminate]. intros [= <-]. exists y. split; assumption. Qed.
Example C72_case : exists S r B, built root0 1 S 300 (Some 1000) (Some 3) (Some 2) true B (VRep r) true /\ (exists s, v_sigma0 r = Some s) /\ exists m, v_md r = Some m.
Proof.
  set (w := spb 1 1 1). exists (get w PS (0 * kB * 300) 300).
  assert (V : val w PS (0 * kB * 300) 300 (get w PS (0 * kB * 300) 300)).
  { destruct (val_inv w (0 * kB * 300) 300) as (_ & _ & VS & _). unfold get. pose proof (proj2 (VS _) eq_refl) as Z; unfold val, value in Z |- *; rewrite Z; reflexivity. }
  set (S := get w PS (0 * kB * 300) 300) in *. clearbody S.
  assert (E : solve_EF root0 (plain w) PS S 300 = Ok (Some (0 * kB * 300))).
  { unfold solve_EF, root0, residual. unfold val, value in V. rewrite V. cbn [rbind num]. destruct (Req_EM_T (S - S) 0); [reflexivity|lra]. }
  eexists. exists (fun m s => spb m s 1). split; [|split].
  - left. split; [reflexivity|]. split; [reflexivity|]. cbn [valuate_spb]. unfold valuate_gen. fold w. rewrite E. cbn [rbind]. reflexivity.
  - eexists. reflexivity.
  - eexists. reflexivity.
Qed.
