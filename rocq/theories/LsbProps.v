(** C141: the sign of the Seebeck coefficient, and the linear band. *)
From Coq Require Import Reals Lra Lia.
From Coquelicot Require Import Coquelicot.
From Verif Require Import Py RUtil FuncModel RombModel BandModel SpbModel RconvSpec RombProps RconvBands RconvProps LvlProofs OptProps SbkSpec SbkProps LsbSpec LsbProofs.
Local Open Scope R_scope.

Lemma unique_seebeck sigma EF T S S' : reduced_seebeck sigma EF T S -> reduced_seebeck sigma EF T S' -> S' = S.
Proof.
  intros (a & b & c & (A & B & _ & _) & ->) (a' & b' & c' & (A' & B' & _ & _) & ->). rewrite (fermi_unique _ _ _ _ _ _ A A'), (fermi_unique _ _ _ _ _ _ B B'). reflexivity.
Qed.

(** C141: a distribution that is positive and does not fall with the energy gives a Seebeck coefficient of at least that of a constant one, a positive number; [S] approaches it with the sign of the carriers *)
Theorem C141_sign :
  forall (trs : R -> R -> R) (EF T sign : R), 0 < T -> rising_transport trs T ->
  exists S : R, reduced_seebeck trs EF T S /\ (forall S', reduced_seebeck trs EF T S' -> S' = S)
    /\ 0 < constant_seebeck (EF / (kB * T)) <= S
    /\ exists s : nat -> R, (forall n, method (refined n trs sign) PS (Some EF) (Some T) = Ok (Some (s n)))
          /\ (forall idos hall, method (self_band {| b_raw := spectral idos trs hall; b_sign := sign; b_cache := None |}) PS (Some EF) (Some T) = Ok (Some (s 6%nat)))
          /\ is_lim_seq s (sign * 86.17333262145179 * S).
Proof.
  intros trs EF T sg HT (Hc & Hp & Pf & Mf). set (f := fun E => trs E T) in *.
  destruct (C130_converges trs EF T 0 HT Hc Hp) as (k0 & Q0 & I0). destruct (C130_converges trs EF T 1 HT Hc Hp) as (k1 & Q1 & I1). destruct (C130_converges trs EF T 2 HT Hc Hp) as (k2 & _ & I2).
  pose proof (K0_pos f EF T HT Hc Hp Pf Mf k0 I0) as P0. pose proof (cheb f EF T HT Hc Hp Mf k0 k1 I0 I1) as Ch. pose proof (ls_pos (EF / (kB * T))) as L.
  exists (k1 / k0). assert (Rs : reduced_seebeck trs EF T (k1 / k0)) by (exists k0, k1, k2; split; [split; [exact I0|split; [exact I1|split; [exact I2|exact P0]]]|reflexivity]).
  split; [exact Rs|]. split; [intros S' H; apply (unique_seebeck trs EF T (k1 / k0) S' Rs H)|]. split; [split; [exact L|]; apply (proj1 (Rle_div_r (ls (EF / (kB * T))) k1 k0 P0)); unfold constant_seebeck, ls in *; lra|].
  set (p := fun k n => romb_dfx trs EF T k n) in *. exists (fun n => sg * S0 * p 1%nat n / p 0%nat n). split; [reflexivity|]. split; [intros; reflexivity|].
  apply (is_lim_seq_ext (fun n => sg * 86.17333262145179 * (p 1%nat n / p 0%nat n))); [intros n; unfold S0, Rdiv; ring|]. apply (is_lim_seq_scal_l _ _ (Finite (k1 / k0))). apply is_lim_seq_div'; [exact Q1|exact Q0|lra].
Qed.

(** C141: the three band classes qualify *)
Theorem C141_classes :
  forall sigma0 Eg T : R, 0 < sigma0 -> 0 < Eg -> 0 < T ->
  rising_transport (spb_trs sigma0) T /\ rising_transport (skb_trs sigma0 Eg) T /\ rising_transport (lin_trs sigma0) T.
Proof.
  intros s Eg T Hs He HT. pose proof kB_pos as PB. assert (PK : 0 < kB * T) by (apply Rmult_lt_0_compat; lra).
  assert (Q : forall E, s * E / (kB * T) = s / (kB * T) * E) by (intros; field; lra). assert (C : 0 < s / (kB * T)) by (apply Rdiv_lt_0_compat; assumption).
  split; [|split].
  - destruct (good_spb_trs s T) as (G1 & G2). split; [exact G1|]. split; [exact G2|]. unfold spb_trs. split; intros E; rewrite ?Q; [intros HE; apply Rmult_lt_0_compat; assumption|]. intros E' HE L. rewrite !Q. apply Rmult_le_compat_l; lra.
  - destruct (good_skb_trs s Eg T) as (G1 & G2). split; [exact G1|]. split; [exact G2|].
    (* in u = y (1 + y), y = E/Eg, the distribution is 3 u / (4 u + 3) up to a constant *)
    assert (F : forall E, 0 < E -> let u := E / Eg * (1 + E / Eg) in skb_trs s Eg E T = s / (kB * T) * Eg * (3 * u / (4 * u + 3)) /\ 0 < u).
    { intros E HE u. assert (Y : 0 < E / Eg) by (apply Rdiv_lt_0_compat; assumption). assert (U : 0 < u) by (unfold u; apply Rmult_lt_0_compat; lra). split; [|exact U].
      unfold skb_trs. replace ((1 + 2 * E / Eg) ^ 2 + 2) with (4 * u + 3) by (unfold u, Rdiv; ring). replace (s * E / (kB * T)) with (s / (kB * T) * Eg * (E / Eg)) by (field; repeat split; lra). unfold u at 2. generalize (4 * u + 3). intros d. unfold Rdiv. ring. }
    assert (C2 : 0 < s / (kB * T) * Eg) by (apply Rmult_lt_0_compat; assumption). split.
    + intros E HE. destruct (F E HE) as (-> & U). apply Rmult_lt_0_compat; [exact C2|]. apply Rdiv_lt_0_compat; lra.
    + intros E E' HE L. destruct (F E HE) as (-> & U). destruct (F E' ltac:(lra)) as (-> & U'). set (u := E / Eg * (1 + E / Eg)) in *. set (u' := E' / Eg * (1 + E' / Eg)) in *.
      assert (UL : u <= u'). { assert (Y : 0 < E / Eg) by (apply Rdiv_lt_0_compat; assumption). assert (YL : E / Eg <= E' / Eg) by (unfold Rdiv; apply Rmult_le_compat_r; [left; apply Rinv_0_lt_compat; exact He|exact L]). unfold u, u'. apply Rmult_le_compat; lra. }
      apply Rmult_le_compat_l; [lra|]. apply (proj2 (Rle_div_l (3 * u) (3 * u' / (4 * u' + 3)) (4 * u + 3) ltac:(lra))). replace (3 * u' / (4 * u' + 3) * (4 * u + 3)) with (3 * u' * (4 * u + 3) / (4 * u' + 3)) by (field; lra). apply (proj1 (Rle_div_r (3 * u) (3 * u' * (4 * u + 3)) (4 * u' + 3) ltac:(lra))). lra.
  - destruct (good_lin_trs s T) as (G1 & G2). split; [exact G1|]. split; [exact G2|]. unfold lin_trs. split; intros; lra.
Qed.

(** C141: the linear band attains the bound, so its Seebeck coefficient has a closed form *)
Theorem C141_linear :
  forall sigma0 EF T S : R, 0 < sigma0 -> 0 < T -> (reduced_seebeck (lin_trs sigma0) EF T S <-> S = constant_seebeck (EF / (kB * T))).
Proof.
  intros s EF T S Hs HT. set (x := EF / (kB * T)). destruct (const_ints s EF T Hs HT) as (I0 & I1). fold x in I0, I1. assert (P0 : 0 < - W0 (- x)) by (unfold W0; rewrite Ropp_involutive; apply Rinv_0_lt_compat, e1).
  assert (E : s * - G1 (- x) / (s * - W0 (- x)) = ls x). { pose proof (ls_balance x) as B. assert (D : - G1 (- x) = ls x * - W0 (- x)) by lra. rewrite D. field. lra. }
  destruct (C130_converges (lin_trs s) EF T 2 HT) as (k2 & _ & I2); [apply good_lin_trs|apply good_lin_trs|].
  assert (Rs : reduced_seebeck (lin_trs s) EF T (ls x)).
  { exists (s * - W0 (- x)), (s * - G1 (- x)), k2. split; [|symmetry; exact E]. split; [exact I0|]. split; [exact I1|]. split; [exact I2|]. apply Rmult_lt_0_compat; assumption. }
  split; [intros H; apply (unique_seebeck _ _ _ _ _ Rs H)|intros ->; exact Rs].
Qed.

(** C141: for the linear band it falls strictly with the Fermi level and takes each positive value at exactly one *)
Theorem C141_linear_level :
  forall sigma0 T : R, 0 < sigma0 -> 0 < T ->
  (forall EF EF' S S', EF < EF' -> reduced_seebeck (lin_trs sigma0) EF T S -> reduced_seebeck (lin_trs sigma0) EF' T S' -> S' < S)
  /\ (forall S, 0 < S -> exists! EF, reduced_seebeck (lin_trs sigma0) EF T S).
Proof.
  intros s T Hs HT. pose proof kB_pos as PB. assert (PK : 0 < kB * T) by (apply Rmult_lt_0_compat; lra).
  assert (M : forall EF EF' S S', EF < EF' -> reduced_seebeck (lin_trs s) EF T S -> reduced_seebeck (lin_trs s) EF' T S' -> S' < S).
  { intros EF EF' S S' L H H'. apply (C141_linear s EF T S Hs HT) in H. apply (C141_linear s EF' T S' Hs HT) in H'. subst. apply ls_decr. unfold Rdiv. apply Rmult_lt_compat_r; [apply Rinv_0_lt_compat; exact PK|exact L]. }
  split; [exact M|]. intros S HS. destruct (ls_onto S HS) as (x & Ex). exists (x * (kB * T)). assert (E : x * (kB * T) / (kB * T) = x) by (field; lra).
  assert (H : reduced_seebeck (lin_trs s) (x * (kB * T)) T S) by (apply C141_linear; [exact Hs|exact HT|rewrite E; symmetry; exact Ex]). split; [exact H|].
  intros EF' H'. destruct (Rtotal_order (x * (kB * T)) EF') as [L|[Q|L]]; [|exact Q|]; [pose proof (M _ _ _ _ L H H')|pose proof (M _ _ _ _ L H' H)]; lra.
Qed.

(** at the band edge the linear band has 2 ln 2 in units of k/e, 119.5 uV/K, and the Kane band at least as much *)
Example C141_case : reduced_seebeck (lin_trs 1000) 0 300 (2 * ln 2) /\ exists S, reduced_seebeck (skb_trs 1000 (1/5)) 0 300 S /\ 2 * ln 2 <= S.
Proof.
  assert (V : constant_seebeck (0 / (kB * 300)) = 2 * ln 2). { unfold constant_seebeck. replace (0 / (kB * 300)) with 0 by (unfold Rdiv; ring). rewrite Ropp_0, exp_0. replace (1 + 1) with 2 by ring. ring. }
  split; [apply C141_linear; [lra|lra|symmetry; exact V]|]. destruct (C141_classes 1000 (1/5) 300 ltac:(lra) ltac:(lra) ltac:(lra)) as (_ & K & _).
  destruct (C141_sign (skb_trs 1000 (1/5)) 0 300 (-1) ltac:(lra) K) as (S & H & _ & (_ & B) & _). exists S. split; [exact H|]. rewrite V in B. exact B.
Qed.
Print Assumptions C141_sign.
Print Assumptions C141_classes.
Print Assumptions C141_linear.
Print Assumptions C141_linear_level.
