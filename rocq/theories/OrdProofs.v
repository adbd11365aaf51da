(** Lemmas for OrdProps: the distribution that grows relatively faster with the energy has the larger Seebeck coefficient. *)
From Coq Require Import Reals Lra Lia.
From Coquelicot Require Import Coquelicot.
From Verif Require Import Py RUtil FuncModel RombModel RombProps RconvSpec RconvProofs RconvFermi RconvBands RconvProps OptProps LvlProofs LsbProofs.
Local Open Scope R_scope.
Section Two.
Variables f1 f2 : R -> R.
Variables EF T : R.
Hypothesis HT : 0 < T.
Hypothesis Hc1 : continuous_up f1.
Hypothesis Hp1 : power_bounded f1.
Hypothesis P1 : forall E, 0 < E -> 0 < f1 E.
Hypothesis Hc2 : continuous_up f2.
Hypothesis Hp2 : power_bounded f2.
Hypothesis P2 : forall E, 0 < E -> 0 <= f2 E.
Hypothesis R12 : forall E E', 0 < E -> E <= E' -> f2 E * f1 E' <= f2 E' * f1 E.
Let eta := EF / (kB * T).
Lemma cheb2 a0 a1 b0 b1 m : fermi_integral f1 EF T 0 a0 -> fermi_integral f1 EF T 1 a1 -> fermi_integral f2 EF T 0 b0 -> fermi_integral f2 EF T 1 b1 ->
  a1 = m * a0 -> 0 <= b1 - m * b0.
Proof.
  intros A0 A1 B0 B1 Em. pose proof (ktp T HT) as KT0.
  apply (red_lim f1 EF T HT Hc1 Hp1) in A0. apply (red_lim f1 EF T HT Hc1 Hp1) in A1. apply (red_lim f2 EF T HT Hc2 Hp2) in B0. apply (red_lim f2 EF T HT Hc2 Hp2) in B1. fold eta in A0, A1, B0, B1.
  set (Es := kB * T * m + EF). set (c := if Rle_dec Es 0 then 0 else f2 Es / f1 Es).
  assert (Q : Rbar_le 0 (b1 - m * b0 - c * (a1 - m * a0))); [|rewrite Em in Q; cbn in Q; lra].
  assert (Cd : forall (p q : R -> R) (l : R), (forall x, continuous p x) -> (forall x, continuous q x) -> forall x, continuous (fun x => p x - l * q x) x) by (intros p q l Cp Cq x; apply (continuous_minus p (fun x => l * q x)); [apply Cp|apply (continuous_mult (fun _ => l) q); [apply continuous_const|apply Cq]]).
  assert (S : forall (p q : R -> R) (l X : R), (forall x, continuous p x) -> (forall x, continuous q x) -> RInt p (- eta) X - l * RInt q (- eta) X = RInt (fun x => p x - l * q x) (- eta) X).
  { intros p q l X Cp Cq. assert (A : RInt (fun x => l * q x) (- eta) X = l * RInt q (- eta) X) by (apply (RInt_scal (V := R_CompleteNormedModule) q); apply ri, Cq). rewrite <- A. symmetry. apply (RInt_minus (V := R_CompleteNormedModule) p (fun x => l * q x)); apply ri; [exact Cp|]. intros x. apply (continuous_mult (fun _ => l) q); [apply continuous_const|apply Cq]. }
  assert (Lm : forall (p q : R -> R) (l u v : R), is_lim p p_infty u -> is_lim q p_infty v -> is_lim (fun X => p X - l * q X) p_infty (u - l * v)).
  { intros p q l u v Hu Hv. apply (is_lim_minus' p (fun X => l * q X) p_infty u (l * v)); [exact Hu|]. apply (is_lim_scal_l q l p_infty v). exact Hv. }
  pose proof (g_cont f1 EF T Hc1) as C1'. pose proof (g_cont f2 EF T Hc2) as C2'.
  apply (is_lim_le_loc (fun _ => 0) (fun X => RInt (g f2 EF T 1) (- eta) X - m * RInt (g f2 EF T 0) (- eta) X - c * (RInt (g f1 EF T 1) (- eta) X - m * RInt (g f1 EF T 0) (- eta) X)) p_infty).
  - exists (- eta). intros X HX.
    rewrite (S (g f2 EF T 1) (g f2 EF T 0) m X (C2' 1%nat) (C2' 0%nat)), (S (g f1 EF T 1) (g f1 EF T 0) m X (C1' 1%nat) (C1' 0%nat)).
    rewrite (S (fun x => g f2 EF T 1 x - m * g f2 EF T 0 x) (fun x => g f1 EF T 1 x - m * g f1 EF T 0 x) c X (Cd _ _ m (C2' 1%nat) (C2' 0%nat)) (Cd _ _ m (C1' 1%nat) (C1' 0%nat))).
    apply RInt_ge_0; [lra|apply ri, (Cd _ _ c (Cd _ _ m (C2' 1%nat) (C2' 0%nat)) (Cd _ _ m (C1' 1%nat) (C1' 0%nat)))|].
    intros x Hx. unfold g. assert (Ex : 0 < kB * T * x + EF) by (apply (energy_up EF T HT); exact (proj1 Hx)). unfold fp. rewrite Rmax_left by lra. cbn [pow]. pose proof (window_pos x) as Pw. set (E := kB * T * x + EF) in *.
    assert (D : E - Es = kB * T * (x - m)) by (unfold E, Es; ring).
    assert (I : 0 <= (f2 E - c * f1 E) * (x - m)).
    { unfold c. destruct (Rle_dec Es 0) as [L|L].
      - assert (0 <= x - m) by (apply Rnot_lt_le; intros N; assert (kB * T * (x - m) < kB * T * 0) by (apply Rmult_lt_compat_l; lra); lra). pose proof (P2 E Ex). nra.
      - apply Rnot_le_lt in L. pose proof (P1 Es L) as PE. pose proof (P1 E Ex) as PX.
        replace (f2 E - f2 Es / f1 Es * f1 E) with ((f2 E * f1 Es - f2 Es * f1 E) / f1 Es) by (field; lra).
        assert (J : 0 <= (f2 E * f1 Es - f2 Es * f1 E) * (x - m)).
        { destruct (Rle_lt_dec x m) as [O|O].
          - assert (EE : E <= Es) by (unfold E, Es; apply Rplus_le_compat_r, Rmult_le_compat_l; lra). pose proof (R12 E Es Ex EE). nra.
          - assert (EE : Es <= E) by (unfold E, Es; apply Rplus_le_compat_r, Rmult_le_compat_l; lra). pose proof (R12 Es E L EE). nra. }
        replace ((f2 E * f1 Es - f2 Es * f1 E) / f1 Es * (x - m)) with ((f2 E * f1 Es - f2 Es * f1 E) * (x - m) / f1 Es) by (field; lra). apply Rdiv_le_0_compat; assumption. }
    assert (0 <= (f2 E - c * f1 E) * (x - m) * window x) by (apply Rmult_le_pos; lra). lra.
  - apply is_lim_const.
  - apply (Lm (fun X => RInt (g f2 EF T 1) (- eta) X - m * RInt (g f2 EF T 0) (- eta) X) (fun X => RInt (g f1 EF T 1) (- eta) X - m * RInt (g f1 EF T 0) (- eta) X)).
    + apply (Lm (fun X => RInt (g f2 EF T 1) (- eta) X) (fun X => RInt (g f2 EF T 0) (- eta) X)); assumption.
    + apply (Lm (fun X => RInt (g f1 EF T 1) (- eta) X) (fun X => RInt (g f1 EF T 0) (- eta) X)); assumption.
Qed.
End Two.
