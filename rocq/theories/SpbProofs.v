From Coq Require Import Reals Lra.
From Coquelicot Require Import Coquelicot.
From Verif Require Import Py RUtil RombModel RombProps BandModel BandSpec BandProofs SpbModel.
Local Open Scope R_scope.

Lemma qe_pos : 0 < qe. Proof. unfold qe. lra. Qed.
Lemma me_pos : 0 < m_e. Proof. unfold m_e. lra. Qed.
Lemma hbar_pos : 0 < hbar. Proof. unfold hbar. lra. Qed.
Lemma pow32_mult a b : 0 <= a -> 0 <= b -> pow32 (a * b) = pow32 a * pow32 b.
Proof. intros Ha Hb. unfold pow32. rewrite sqrt_mult by assumption. ring. Qed.
Lemma pow32_pos a : 0 < a -> 0 < pow32 a.
Proof. intros H. unfold pow32. apply Rmult_lt_0_compat; [exact H|apply sqrt_lt_R0; exact H]. Qed.
Lemma pow32_sqr a : 0 <= a -> pow32 a ^ 2 = a ^ 3.
Proof. intros H. unfold pow32. replace ((a * sqrt a) ^ 2) with (a ^ 2 * (sqrt a * sqrt a)) by ring. rewrite sqrt_sqrt by exact H. ring. Qed.
Lemma pow32_1 : pow32 1 = 1. Proof. unfold pow32. rewrite sqrt_1. ring. Qed.
Lemma pow32_Rpower a : 0 < a -> pow32 (Rpower a (2 / 3)) = a.
Proof.
  intros H. unfold pow32. rewrite <- Rpower_sqrt by apply exp_pos. rewrite Rpower_mult, <- Rpower_plus.
  replace (2 / 3 + 2 / 3 * / 2) with 1 by field. apply Rpower_1. exact H.
Qed.
Lemma pow32_derive u : 0 < u -> is_derive pow32 u (3 / 2 * sqrt u).
Proof.
  intros H. unfold pow32. auto_derive; [lra|]. assert (S : 0 < sqrt u) by (apply sqrt_lt_R0; exact H).
  assert (E : u = sqrt u * sqrt u) by (rewrite sqrt_sqrt; lra). set (s := sqrt u) in *. rewrite E. field. lra.
Qed.
(** the common prefactor of the densities of states *)
Definition g0 (m_d : R) : R := pow32 (2 * m_d * m_e * qe) / (2 * PI * PI * hbar ^ 3).
Lemma A_pos m_d : 0 < m_d -> 0 < 2 * m_d * m_e * qe.
Proof. intros. pose proof me_pos. pose proof qe_pos. apply Rmult_lt_0_compat; [apply Rmult_lt_0_compat; [lra|assumption]|assumption]. Qed.
Lemma den_pos : 0 < PI * PI * hbar ^ 3.
Proof. pose proof PI_RGT_0. pose proof hbar_pos. apply Rmult_lt_0_compat; [apply Rmult_lt_0_compat; lra|apply pow_lt; lra]. Qed.
Lemma g0_pos m_d : 0 < m_d -> 0 < g0 m_d.
Proof.
  intros H. unfold g0. pose proof den_pos as D. apply Rdiv_lt_0_compat; [apply pow32_pos, A_pos; exact H|].
  replace (2 * PI * PI * hbar ^ 3) with (2 * (PI * PI * hbar ^ 3)) by ring. lra.
Qed.
Lemma two_thirds a d : d <> 0 -> a / (3 * d) = 2 / 3 * (a / (2 * d)).
Proof. intros. field. assumption. Qed.
Lemma g0_third m_d : pow32 (2 * m_d * m_e * qe) / (3 * PI * PI * hbar ^ 3) = 2 / 3 * g0 m_d.
Proof. unfold g0. pose proof den_pos as D. replace (3 * PI * PI * hbar ^ 3) with (3 * (PI * PI * hbar ^ 3)) by ring. replace (2 * PI * PI * hbar ^ 3) with (2 * (PI * PI * hbar ^ 3)) by ring. apply two_thirds. lra. Qed.
Lemma r1 (c a b d : R) : c * (a * b / d) = c * (a / d) * b. Proof. unfold Rdiv. ring. Qed.
Lemma r2 (c a b d : R) : c * (a * b) / d = c * (a / d) * b. Proof. unfold Rdiv. ring. Qed.
Lemma spb_idos_eq m_d E : 0 < m_d -> 0 <= E -> spb_idos m_d E = 1e-25 * (2 / 3 * g0 m_d) * pow32 E.
Proof.
  intros Hm HE. unfold spb_idos. rewrite pow32_mult by (try apply Rlt_le, A_pos; assumption). rewrite <- g0_third. apply r1.
Qed.
Lemma skb_idos_eq m_d Eg E : 0 < m_d -> 0 < Eg -> 0 <= E -> skb_idos m_d Eg E = 1e-25 * (2 / 3 * g0 m_d) * pow32 (E * (1 + E / Eg)).
Proof.
  intros Hm Hg HE. unfold skb_idos. rewrite (Rmult_assoc _ E). assert (0 <= E * (1 + E / Eg)).
  { assert (0 <= E / Eg) by (apply div_nonneg; assumption). apply Rmult_le_pos; lra. }
  rewrite pow32_mult by (try apply Rlt_le, A_pos; assumption). rewrite <- g0_third. apply r2.
Qed.
Lemma hall_N0_eq m_d T : 0 < m_d -> 0 < T -> hall_N0 m_d T = g0 m_d * pow32 (kB * T).
Proof.
  intros Hm HT. unfold hall_N0, g0. pose proof kB_pos. replace (2 * m_d * m_e * kB * qe * T) with (2 * m_d * m_e * qe * (kB * T)) by ring.
  rewrite pow32_mult; [unfold Rdiv; ring|apply Rlt_le, A_pos; exact Hm|]. apply Rlt_le, Rmult_lt_0_compat; assumption.
Qed.
Lemma g0_scale m_d : 0 < m_d -> g0 m_d = pow32 m_d * g0 1.
Proof.
  intros Hm. unfold g0. replace (2 * m_d * m_e * qe) with (m_d * (2 * 1 * m_e * qe)) by ring.
  rewrite pow32_mult; [unfold Rdiv; ring|lra|apply Rlt_le, A_pos; lra].
Qed.
