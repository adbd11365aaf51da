(** C142: which of two band models has the larger Seebeck coefficient. *)
From Coq Require Import Reals Lra Lia.
From Coquelicot Require Import Coquelicot.
From Verif Require Import Py RUtil FuncModel RombModel BandModel SpbModel RconvSpec RombProps RconvBands RconvProps LvlProofs OptProps SbkSpec SbkProps LsbSpec LsbProofs LsbProps OrdSpec OrdProofs.
Local Open Scope R_scope.

(** C142: if the ratio of two distributions does not fall with the energy, the first has at least the Seebeck coefficient of the second, at every Fermi level and temperature *)
Theorem C142_order :
  forall (tau sigma : R -> R -> R) (EF T S S' : R), 0 < T -> ordinary sigma T -> ordinary tau T -> grows_faster tau sigma T ->
  reduced_seebeck sigma EF T S -> reduced_seebeck tau EF T S' -> S <= S'.
Proof.
  intros tau sigma EF T S S' HT (C1 & B1 & P1) (C2 & B2 & P2) G (a0 & a1 & a2 & (A0 & A1 & _ & PA) & ->) (b0 & b1 & b2 & (D0 & D1 & _ & PB) & ->).
  assert (Q : 0 <= b1 - a1 / a0 * b0).
  { apply (cheb2 (fun E => sigma E T) (fun E => tau E T) EF T HT C1 B1 P1 C2 B2 (fun E H => Rlt_le _ _ (P2 E H))) with (a0 := a0) (a1 := a1); [|exact A0|exact A1|exact D0|exact D1|field; lra].
    intros E E' HE L. pose proof (G E E' HE L) as R1. pose proof (P1 E HE) as X. pose proof (P1 E' ltac:(lra)) as X'. apply (proj1 (Rle_div_r _ _ _ X')) in R1 || apply (proj2 (Rle_div_r _ _ _ X')) in R1.
    replace (tau E T / sigma E T * sigma E' T) with (tau E T * sigma E' T / sigma E T) in R1 by (field; lra). apply (proj1 (Rle_div_l _ _ _ X)) in R1. exact R1. }
  apply (proj1 (Rle_div_r (a1 / a0) b1 b0 PB)). lra.
Qed.

Lemma rising_ordinary sigma T : rising_transport sigma T -> ordinary sigma T.
Proof. intros (A & B & C & _). split; [exact A|]. split; assumption. Qed.
Lemma skb_form s Eg E T : 0 < Eg -> 0 < T -> 0 < E -> skb_trs s Eg E T = s / (kB * T) * E * (3 * (1 + E / Eg) / (4 * (E / Eg) ^ 2 + 4 * (E / Eg) + 3)).
Proof.
  intros He HT HE. pose proof kB_pos. unfold skb_trs. replace ((1 + 2 * E / Eg) ^ 2 + 2) with (4 * (E / Eg) ^ 2 + 4 * (E / Eg) + 3) by (unfold Rdiv; ring). replace (s * E / (kB * T)) with (s / (kB * T) * E) by (field; lra). reflexivity.
Qed.
Lemma den_pos y : 0 < y -> 0 < 4 * y ^ 2 + 4 * y + 3. Proof. intros H. pose proof (pow2_ge_0 y). lra. Qed.
(** the ratio of two Kane factors, cross-multiplied *)
Lemma kane_cross p q r s : 0 < p -> 0 < q -> 0 < r -> 0 < s -> p * q = r * s -> r + s <= p + q ->
  (1 + p) * (1 + q) * ((4 * r ^ 2 + 4 * r + 3) * (4 * s ^ 2 + 4 * s + 3)) <= (1 + r) * (1 + s) * ((4 * p ^ 2 + 4 * p + 3) * (4 * q ^ 2 + 4 * q + 3)).
Proof.
  intros Hp Hq Hr Hs E L. set (t := p * q). assert (T0 : 0 < t) by (apply Rmult_lt_0_compat; assumption). set (u := p + q) in *. set (v := r + s) in *. assert (V : 0 < v) by (unfold v; lra).
  assert (D : forall x y, (4 * x ^ 2 + 4 * x + 3) * (4 * y ^ 2 + 4 * y + 3) = 16 * (x * y) ^ 2 - 8 * (x * y) + 9 + (16 * (x * y) + 12) * (x + y) + 12 * (x + y) ^ 2) by (intros; ring).
  assert (P : forall x y, (1 + x) * (1 + y) = 1 + x * y + (x + y)) by (intros; ring).
  rewrite !D, !P, <- E. fold t u v. apply Rminus_le.
  replace ((1 + t + u) * (16 * t ^ 2 - 8 * t + 9 + (16 * t + 12) * v + 12 * v ^ 2) - (1 + t + v) * (16 * t ^ 2 - 8 * t + 9 + (16 * t + 12) * u + 12 * u ^ 2))
    with (- ((u - v) * (36 * t + 3 + (1 + t) * (12 * (u + v)) + 12 * (u * v)))) by ring.
  assert (0 <= (u - v) * (36 * t + 3 + (1 + t) * (12 * (u + v)) + 12 * (u * v))); [|lra]. apply Rmult_le_pos; [lra|].
  assert (0 <= (1 + t) * (12 * (u + v))) by (apply Rmult_le_pos; lra). assert (0 <= u * v) by (apply Rmult_le_pos; lra). lra.
Qed.

(** C142: at equal Fermi level and temperature the linear band has the smallest and the parabolic band the largest Seebeck coefficient; between them that of the Kane band does not fall as its gap widens *)
Theorem C142_bands :
  forall s1 s2 s3 s4 Eg Eg' EF T : R, 0 < s1 -> 0 < s2 -> 0 < s3 -> 0 < s4 -> 0 < Eg -> Eg <= Eg' -> 0 < T ->
  exists L K K' P : R, reduced_seebeck (lin_trs s1) EF T L /\ reduced_seebeck (skb_trs s2 Eg) EF T K /\ reduced_seebeck (skb_trs s3 Eg') EF T K' /\ reduced_seebeck (spb_trs s4) EF T P
    /\ 0 < L <= K /\ K <= K' <= P.
Proof.
  intros s1 s2 s3 s4 Eg Eg' EF T H1 H2 H3 H4 He Hle HT. pose proof kB_pos as PB. assert (PK : 0 < kB * T) by (apply Rmult_lt_0_compat; lra).
  destruct (C141_classes s1 Eg T H1 He HT) as (_ & _ & Rl). destruct (C141_classes s2 Eg T H2 He HT) as (_ & Rk & _). destruct (C141_classes s3 Eg' T H3 ltac:(lra) HT) as (_ & Rk' & _). destruct (C141_classes s4 Eg T H4 He HT) as (Rp & _).
  destruct (C141_sign _ EF T 1 HT Rl) as (L & SL & _). destruct (C141_sign _ EF T 1 HT Rk) as (K & SK & _ & (_ & BK) & _). destruct (C141_sign _ EF T 1 HT Rk') as (K' & SK' & _). destruct (C141_sign _ EF T 1 HT Rp) as (P & SP & _).
  exists L, K, K', P. split; [exact SL|]. split; [exact SK|]. split; [exact SK'|]. split; [exact SP|]. split.
  - apply (C141_linear s1 EF T L H1 HT) in SL. subst L. split; [apply ls_pos|exact BK].
  - split.
    + apply (C142_order (skb_trs s3 Eg') (skb_trs s2 Eg) EF T K K' HT (rising_ordinary _ _ Rk) (rising_ordinary _ _ Rk')); [|exact SK|exact SK'].
      intros E E' HE LE. rewrite !skb_form by lra. set (a := E / Eg). set (a' := E' / Eg). set (b := E / Eg'). set (b' := E' / Eg').
      assert (A : 0 < a) by (apply Rdiv_lt_0_compat; lra). assert (A' : 0 < a') by (apply Rdiv_lt_0_compat; lra). assert (B : 0 < b) by (apply Rdiv_lt_0_compat; lra). assert (B' : 0 < b') by (apply Rdiv_lt_0_compat; lra).
      pose proof (den_pos a A) as Da. pose proof (den_pos a' A') as Da'. pose proof (den_pos b B) as Db. pose proof (den_pos b' B') as Db'.
      assert (X : b * a' = b' * a) by (unfold a, a', b, b'; field; lra).
      assert (Y : b' + a <= b + a'). { assert (I : / Eg' <= / Eg) by (apply Rinv_le_contravar; lra). unfold a, a', b, b', Rdiv. assert (0 <= (E' - E) * (/ Eg - / Eg')) by (apply Rmult_le_pos; lra). lra. }
      pose proof (kane_cross b a' b' a B A' B' A X Y) as C. set (da := 4 * a ^ 2 + 4 * a + 3) in *. set (da' := 4 * a' ^ 2 + 4 * a' + 3) in *. set (db := 4 * b ^ 2 + 4 * b + 3) in *. set (db' := 4 * b' ^ 2 + 4 * b' + 3) in *. clearbody a a' b b' da da' db db'.
      assert (Q : forall e x y dx dy, 0 < e -> 0 < x -> 0 < y -> 0 < dx -> 0 < dy -> s3 / (kB * T) * e * (3 * (1 + y) / dy) / (s2 / (kB * T) * e * (3 * (1 + x) / dx)) = s3 / s2 * ((1 + y) * dx / ((1 + x) * dy))) by (intros; field; repeat split; lra).
      rewrite !Q by lra. apply Rmult_le_compat_l; [left; apply Rdiv_lt_0_compat; lra|].
      assert (M1 : 0 < (1 + a) * db) by (apply Rmult_lt_0_compat; lra). assert (M2 : 0 < (1 + a') * db') by (apply Rmult_lt_0_compat; lra).
      apply (proj2 (Rle_div_l ((1 + b) * da) ((1 + b') * da' / ((1 + a') * db')) ((1 + a) * db) M1)). replace ((1 + b') * da' / ((1 + a') * db') * ((1 + a) * db)) with ((1 + b') * (1 + a) * (db * da') / ((1 + a') * db')) by (field; repeat split; lra).
      apply (proj1 (Rle_div_r ((1 + b) * da) ((1 + b') * (1 + a) * (db * da')) ((1 + a') * db') M2)). replace ((1 + b) * da * ((1 + a') * db')) with ((1 + b) * (1 + a') * (db' * da)) by ring. exact C.
    + apply (C142_order (spb_trs s4) (skb_trs s3 Eg') EF T K' P HT (rising_ordinary _ _ Rk') (rising_ordinary _ _ Rp)); [|exact SK'|exact SP].
      intros E E' HE LE. rewrite !skb_form by lra. unfold spb_trs. set (y := E / Eg'). set (y' := E' / Eg'). assert (Y : 0 < y) by (apply Rdiv_lt_0_compat; lra). assert (YL : y <= y') by (unfold y, y', Rdiv; apply Rmult_le_compat_r; [left; apply Rinv_0_lt_compat; lra|exact LE]).
      pose proof (den_pos y Y) as D. pose proof (den_pos y' ltac:(lra)) as D'. clearbody y y'.
      assert (Q : forall e x, 0 < e -> 0 < x -> 0 < 4 * x ^ 2 + 4 * x + 3 -> s4 * e / (kB * T) / (s3 / (kB * T) * e * (3 * (1 + x) / (4 * x ^ 2 + 4 * x + 3))) = s4 / (3 * s3) * (4 * x + 3 / (1 + x))) by (intros; field; repeat split; lra).
      rewrite !Q by lra. apply Rmult_le_compat_l; [left; apply Rdiv_lt_0_compat; lra|]. apply Rminus_le. replace (4 * y + 3 / (1 + y) - (4 * y' + 3 / (1 + y'))) with (- ((y' - y) * (4 - 3 / ((1 + y) * (1 + y'))))) by (field; lra).
      assert (Z : 3 / ((1 + y) * (1 + y')) <= 4) by (apply (proj2 (Rle_div_l 3 4 ((1 + y) * (1 + y')) ltac:(nra))); nra). assert (0 <= (y' - y) * (4 - 3 / ((1 + y) * (1 + y')))) by (apply Rmult_le_pos; lra). lra.
Qed.

(** at the band edge, with the linear band's 2 ln 2 k/e as the floor *)
Example C142_case : exists K K' : R, reduced_seebeck (skb_trs 1000 (1/10)) 0 300 K /\ reduced_seebeck (skb_trs 500 1) 0 300 K' /\ 2 * ln 2 <= K <= K'.
Proof.
  destruct (C142_bands 1 1000 500 1 (1/10) 1 0 300 ltac:(lra) ltac:(lra) ltac:(lra) ltac:(lra) ltac:(lra) ltac:(lra) ltac:(lra)) as (L & K & K' & P & SL & SK & SK' & _ & (_ & B) & (B' & _)).
  exists K, K'. split; [exact SK|]. split; [exact SK'|]. apply (C141_linear 1 0 300 L ltac:(lra) ltac:(lra)) in SL. unfold constant_seebeck in SL. replace (0 / (kB * 300)) with 0 in SL by (unfold Rdiv; ring). rewrite Ropp_0, exp_0 in SL. replace (1 + 1) with 2 in SL by ring. lra.
Qed.
Print Assumptions C142_order.
Print Assumptions C142_bands.
