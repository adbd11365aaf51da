(** Lemmas for LsbProps: the Seebeck coefficient of a transport distribution that does not fall with the energy is at least that of a constant one. *)
From Coq Require Import Reals Lra Lia Ranalysis5.
From Coquelicot Require Import Coquelicot.
From Verif Require Import Py RUtil FuncModel RombModel RombProps RconvSpec RconvProofs RconvFermi RconvBands RconvProps OptProps LvlProofs.
Local Open Scope R_scope.

(** the Seebeck coefficient of a constant distribution as a function of EF/kT *)
Definition ls (x : R) : R := (1 + exp (- x)) * ln (1 + exp x) - x.
Definition W0 (x : R) : R := - / (1 + exp x).
Definition G1 (x : R) : R := x * exp x / (1 + exp x) - ln (1 + exp x).
Lemma e1 x : 0 < 1 + exp x. Proof. pose proof (exp_pos x). lra. Qed.
Lemma W0_derive x : is_derive W0 x (window x).
Proof. pose proof (e1 x) as P. unfold W0, window. auto_derive; [lra|]. field. lra. Qed.
Lemma G1_derive x : is_derive G1 x (x * window x).
Proof. pose proof (e1 x) as P. unfold G1, window. auto_derive; [split; lra|]. field. lra. Qed.
Lemma ln_up x : ln (1 + exp x) = x + ln (1 + exp (- x)).
Proof. pose proof (e1 (- x)). pose proof (exp_pos x). rewrite <- (ln_exp x) at 2. rewrite <- ln_mult by assumption. f_equal. rewrite Rmult_plus_distr_l, Rmult_1_r, <- exp_plus, Rplus_opp_r, exp_0. ring. Qed.
Lemma ln1p x : 0 < ln (1 + exp x). Proof. rewrite <- ln_1. apply ln_increasing; pose proof (exp_pos x); lra. Qed.
Lemma ln1p_le x : ln (1 + exp x) <= exp x.
Proof. pose proof (exp_pos x). rewrite <- (ln_exp (exp x)) at 2. apply Rcomplements.ln_le; [lra|]. apply exp_ineq1_le. Qed.
Lemma exp_half x : 0 < x -> (1 + x) * exp (- x) <= 4 / x.
Proof.
  intros Hx. pose proof (exp_ineq1_le (x / 2)) as B. pose proof (exp_pos (x / 2)) as P. replace (- x) with (- (x / 2) + - (x / 2)) by field. rewrite exp_plus, exp_Ropp.
  set (q := exp (x / 2)) in *. assert (I : / q * q = 1) by (apply Rinv_l; lra). assert (I0 : 0 < / q) by (apply Rinv_0_lt_compat; exact P). set (i := / q) in *.
  assert (A : (1 + x) * i <= 2). { apply Rle_trans with (2 * q * i); [apply Rmult_le_compat_r; lra|]. replace (2 * q * i) with (2 * (i * q)) by ring. lra. }
  assert (C : i <= 2 / x). { apply (proj1 (Rle_div_r i 2 x Hx)). assert (i * x <= 2 * (i * q)) by nra. lra. }
  replace (4 / x) with (2 * (2 / x)) by (field; lra). replace ((1 + x) * (i * i)) with ((1 + x) * i * i) by ring. apply Rmult_le_compat; nra.
Qed.
Lemma ls_low x : x < 0 -> - x < ls x.
Proof. intros H. unfold ls. pose proof (ln1p x). pose proof (exp_pos (- x)). nra. Qed.
Lemma ls_pos x : 0 < ls x.
Proof. unfold ls. pose proof (ln1p x) as L. pose proof (exp_pos (- x)) as P. rewrite ln_up in L |- *. pose proof (ln1p (- x)). nra. Qed.
Lemma ls_high x : 0 < x -> ls x <= 2 * (4 / x).
Proof.
  intros H. eapply Rle_trans; [|apply Rmult_le_compat_l; [lra|apply (exp_half x H)]]. unfold ls. rewrite ln_up. pose proof (ln1p_le (- x)) as L. pose proof (exp_pos (- x)) as P.
  assert (exp (- x) <= 1) by (rewrite <- exp_0; left; apply exp_increasing; lra). nra.
Qed.
Lemma ls_derive x : is_derive ls x (- (exp (- x) * ln (1 + exp x))).
Proof. pose proof (e1 x) as P. unfold ls. auto_derive; [lra|]. assert (E : exp (- x) * exp x = 1) by (rewrite <- exp_plus, Rplus_opp_l; apply exp_0). set (a := exp (- x)) in *. set (b := exp x) in *. replace ((1 + a) * (1 * b * / (1 + b))) with ((b + a * b) * / (1 + b)) by ring. rewrite E. field. lra. Qed.
Lemma ls_decr x y : x < y -> ls y < ls x.
Proof.
  intros H. destruct (MVT_gen ls x y (fun c => - (exp (- c) * ln (1 + exp c)))) as (c & _ & E).
  - intros c _. apply ls_derive.
  - intros c _. apply continuity_pt_filterlim. apply (ex_derive_continuous ls). eexists. apply ls_derive.
  - pose proof (ln1p c). pose proof (exp_pos (- c)). assert (0 < exp (- c) * ln (1 + exp c)) by (apply Rmult_lt_0_compat; assumption). nra.
Qed.
Lemma ls_onto v : 0 < v -> exists x, ls x = v.
Proof.
  intros Hv. assert (B : 0 < 16 / v) by (apply Rdiv_lt_0_compat; lra). pose proof (ls_high (16 / v) B) as H. replace (2 * (4 / (16 / v))) with (v / 2) in H by (field; lra). pose proof (ls_low (- v) ltac:(lra)) as L.
  destruct (IVT_interv (fun x => v - ls x) (- v) (16 / v)) as (z & _ & E); [|lra|lra|lra|exists z; lra].
  intros x _. apply continuity_pt_minus; [apply continuity_pt_const; intros a b; reflexivity|]. apply continuity_pt_filterlim. apply (ex_derive_continuous ls). eexists. apply ls_derive.
Qed.
Lemma W0_lim : is_lim W0 p_infty 0.
Proof.
  apply is_lim_spec. intros eps. exists (/ eps). intros x Hx. pose proof (cond_pos eps) as P. pose proof (Rinv_0_lt_compat _ P). pose proof (exp_ineq1_le x). unfold W0. rewrite Rminus_0_r, Rabs_Ropp, Rabs_pos_eq by (left; apply Rinv_0_lt_compat, e1).
  rewrite <- (Rinv_inv eps). apply Rinv_lt_contravar; [apply Rmult_lt_0_compat; [assumption|apply e1]|lra].
Qed.
Lemma G1_lim : is_lim G1 p_infty 0.
Proof.
  apply is_lim_spec. intros eps. exists (4 / eps). intros x Hx. pose proof (cond_pos eps) as P. assert (Q : 0 < 4 / eps) by (apply Rdiv_lt_0_compat; lra). assert (X : 0 < x) by lra.
  pose proof (exp_half x X) as B. assert (C : 4 / x < eps). { apply (proj2 (Rlt_div_l 4 eps x X)). apply (proj1 (Rlt_div_l 4 x eps P)) in Hx. lra. }
  assert (E : G1 x = - (x / (1 + exp x) + ln (1 + exp (- x)))). { unfold G1. rewrite ln_up. pose proof (e1 x). field. lra. }
  pose proof (ln1p (- x)) as L1. pose proof (ln1p_le (- x)) as L2. assert (D : 0 <= x / (1 + exp x) <= x * exp (- x)).
  { split; [apply Rdiv_le_0_compat; [lra|apply e1]|]. unfold Rdiv. apply Rmult_le_compat_l; [lra|]. rewrite exp_Ropp. apply Rinv_le_contravar; [apply exp_pos|lra]. }
  rewrite E, Rminus_0_r, Rabs_Ropp, Rabs_pos_eq by lra. lra.
Qed.
Lemma rint_W0 a b : RInt window a b = W0 b - W0 a.
Proof. apply is_RInt_unique. apply (is_RInt_derive W0); [intros; apply W0_derive|intros; apply window_cont]. Qed.
Lemma xw_cont x : continuous (fun x => x * window x) x. Proof. apply (continuous_mult (fun x => x) window); [apply continuous_id|apply window_cont]. Qed.
Lemma rint_G1 a b : RInt (fun x => x * window x) a b = G1 b - G1 a.
Proof. apply is_RInt_unique. apply (is_RInt_derive G1); [intros; apply G1_derive|intros; apply xw_cont]. Qed.
Lemma window_pos x : 0 < window x. Proof. unfold window. apply Rdiv_lt_0_compat; [apply exp_pos|apply pow_lt, e1]. Qed.
Lemma ls_balance x : - G1 (- x) - ls x * - W0 (- x) = 0.
Proof.
  unfold G1, W0, ls. pose proof (e1 (- x)) as P. rewrite (ln_up x). set (l := ln (1 + exp (- x))). field. lra.
Qed.

Section Rise.
Variable f : R -> R.
Variables EF T : R.
Hypothesis HT : 0 < T.
Hypothesis Hc : continuous_up f.
Hypothesis Hp : power_bounded f.
Hypothesis Pf : forall E, 0 < E -> 0 < f E.
Hypothesis Mf : forall E E', 0 < E -> E <= E' -> f E <= f E'.
Let eta := EF / (kB * T).
Let KT0 : 0 < kB * T := ktp T HT.
Lemma red_lim k v : fermi_integral f EF T k v -> is_lim (fun X => RInt (g f EF T k) (- eta) X) p_infty v.
Proof.
  intros H. pose proof (energy_lim f EF T k HT Hc Hp) as L. rewrite (fermi_unique _ _ _ _ _ _ H L). apply (int_lim f EF T k HT Hc Hp).
Qed.
Lemma g_cont k x : continuous (g f EF T k) x.
Proof.
  apply (continuous_mult (fp f EF T) (fun x => x ^ k * window x)); [apply (fp_cont f EF T Hc)|]. apply (continuous_mult (fun x => x ^ k) window); [|apply window_cont].
  apply (ex_derive_continuous (fun x => x ^ k)). auto_derive. exact I.
Qed.
Lemma energy_up x : - eta < x -> 0 < kB * T * x + EF.
Proof. intros H. apply (Rmult_lt_compat_l (kB * T)) in H; [|exact KT0]. replace (kB * T * - eta) with (- EF) in H by (unfold eta; fld). lra. Qed.
Lemma fp_up x : - eta < x -> fp f EF T x = f (kB * T * x + EF).
Proof. intros H. unfold fp. rewrite Rmax_left; [reflexivity|]. pose proof (energy_up x H). lra. Qed.
Lemma K0_pos v : fermi_integral f EF T 0 v -> 0 < v.
Proof.
  intros H. apply red_lim in H. set (a := - eta + 1). set (c := f (kB * T * a + EF)). assert (C0 : 0 < c) by (apply Pf, energy_up; unfold a; lra).
  assert (Q : Rbar_le (c * - W0 a) v).
  - apply (is_lim_le_loc (fun X => c * (W0 X - W0 a)) (fun X => RInt (g f EF T 0) (- eta) X) p_infty); [| |exact H].
    + exists a. intros X HX. assert (Ch : RInt (g f EF T 0) (- eta) X = RInt (g f EF T 0) (- eta) a + RInt (g f EF T 0) a X) by (symmetry; apply (RInt_Chasles (g f EF T 0)); apply ri, g_cont). rewrite Ch.
      assert (A1 : 0 <= RInt (g f EF T 0) (- eta) a). { apply RInt_ge_0; [unfold a; lra|apply ri, g_cont|]. intros x Hx. unfold g. rewrite fp_up by lra. cbn [pow]. pose proof (Pf _ (energy_up x ltac:(lra))). pose proof (window_pos x). assert (0 < f (kB * T * x + EF) * window x) by (apply Rmult_lt_0_compat; assumption). lra. }
      assert (A2 : c * (W0 X - W0 a) <= RInt (g f EF T 0) a X).
      { assert (S : c * (W0 X - W0 a) = RInt (fun x => c * window x) a X) by (rewrite <- rint_W0; symmetry; apply (RInt_scal (V := R_CompleteNormedModule) window); apply ri, window_cont). rewrite S.
        apply RInt_le; [lra|apply ri; intros; apply (continuous_mult (fun _ => c) window); [apply continuous_const|apply window_cont]|apply ri, g_cont|]. intros x Hx. unfold g. rewrite fp_up by (unfold a in Hx; lra). cbn [pow]. rewrite Rmult_1_l. apply Rmult_le_compat_r; [left; apply window_pos|]. unfold c. apply Mf; [apply energy_up; unfold a; lra|]. apply Rplus_le_compat_r, Rmult_le_compat_l; lra. }
      lra.
    + apply (is_lim_scal_l (fun X => W0 X - W0 a) c p_infty (- W0 a)). replace (Finite (- W0 a)) with (Finite (0 - W0 a)) by (f_equal; ring). apply is_lim_minus'; [apply W0_lim|apply is_lim_const].
  - cbn in Q. assert (0 < c * - W0 a); [|lra]. apply Rmult_lt_0_compat; [exact C0|]. unfold W0. rewrite Ropp_involutive. apply Rinv_0_lt_compat, e1.
Qed.
Lemma cheb K0 K1 : fermi_integral f EF T 0 K0 -> fermi_integral f EF T 1 K1 -> 0 <= K1 - ls eta * K0.
Proof.
  intros H0 H1. apply red_lim in H0. apply red_lim in H1. set (m := ls eta) in *.
  assert (M : - eta < m). { unfold m, ls. pose proof (ln1p eta). pose proof (exp_pos (- eta)). nra. }
  set (c := f (kB * T * m + EF)).
  assert (Q : Rbar_le (c * (- G1 (- eta) - m * - W0 (- eta))) (K1 - m * K0)); [|unfold m in Q; rewrite ls_balance, Rmult_0_r in Q; exact Q].
  apply (is_lim_le_loc (fun X => c * ((G1 X - G1 (- eta)) - m * (W0 X - W0 (- eta)))) (fun X => RInt (g f EF T 1) (- eta) X - m * RInt (g f EF T 0) (- eta) X) p_infty).
  - exists (- eta). intros X HX. rewrite <- rint_G1, <- rint_W0.
    assert (S : forall (p q : R -> R), (forall x, continuous p x) -> (forall x, continuous q x) -> RInt p (- eta) X - m * RInt q (- eta) X = RInt (fun x => p x - m * q x) (- eta) X).
    { intros p q Cp Cq. assert (A : RInt (fun x => m * q x) (- eta) X = m * RInt q (- eta) X) by (apply (RInt_scal (V := R_CompleteNormedModule) q); apply ri, Cq). rewrite <- A. symmetry. apply (RInt_minus (V := R_CompleteNormedModule) p (fun x => m * q x)); apply ri; [exact Cp|]. intros x. apply (continuous_mult (fun _ => m) q); [apply continuous_const|apply Cq]. }
    rewrite (S (fun x => x * window x) window xw_cont window_cont), (S (g f EF T 1) (g f EF T 0) (g_cont 1) (g_cont 0)).
    assert (D : forall (p q : R -> R), (forall x, continuous p x) -> (forall x, continuous q x) -> forall x, continuous (fun x => p x - m * q x) x) by (intros p q Cp Cq x; apply (continuous_minus p (fun x => m * q x)); [apply Cp|apply (continuous_mult (fun _ => m) q); [apply continuous_const|apply Cq]]).
    assert (A : c * RInt (fun x => x * window x - m * window x) (- eta) X = RInt (fun x => c * (x * window x - m * window x)) (- eta) X) by (symmetry; apply (RInt_scal (V := R_CompleteNormedModule) (fun x => x * window x - m * window x)); apply ri, (D _ _ xw_cont window_cont)). rewrite A.
    apply RInt_le; [lra| |apply ri, (D _ _ (g_cont 1) (g_cont 0))|].
    + apply ri. intros x. apply (continuous_mult (fun _ => c) (fun x => x * window x - m * window x)); [apply continuous_const|apply (D _ _ xw_cont window_cont)].
    + intros x Hx. unfold g. rewrite fp_up by lra. cbn [pow]. pose proof (window_pos x) as Pw. pose proof (energy_up x ltac:(lra)) as Ex. pose proof (energy_up m M) as Em.
      assert (I : 0 <= (f (kB * T * x + EF) - c) * (x - m)).
      { destruct (Rle_lt_dec x m) as [L|L].
        - assert (f (kB * T * x + EF) <= c) by (apply Mf; [exact Ex|apply Rplus_le_compat_r, Rmult_le_compat_l; lra]). nra.
        - assert (c <= f (kB * T * x + EF)) by (apply Mf; [exact Em|apply Rplus_le_compat_r, Rmult_le_compat_l; lra]). nra. }
      assert (0 <= (f (kB * T * x + EF) - c) * (x - m) * window x) by (apply Rmult_le_pos; lra). lra.
  - apply (is_lim_scal_l (fun X => (G1 X - G1 (- eta)) - m * (W0 X - W0 (- eta))) c p_infty (- G1 (- eta) - m * - W0 (- eta))).
    replace (Finite (- G1 (- eta) - m * - W0 (- eta))) with (Finite ((0 - G1 (- eta)) - m * (0 - W0 (- eta)))) by (f_equal; ring). apply is_lim_minus'; [apply is_lim_minus'; [apply G1_lim|apply is_lim_const]|].
    apply (is_lim_scal_l (fun X => W0 X - W0 (- eta)) m p_infty (0 - W0 (- eta))). apply is_lim_minus'; [apply W0_lim|apply is_lim_const].
  - apply is_lim_minus'; [exact H1|]. apply (is_lim_scal_l (fun X => RInt (g f EF T 0) (- eta) X) m p_infty K0). exact H0.
Qed.
End Rise.

(** the constant distribution *)
Lemma const_ints c EF T : 0 < c -> 0 < T -> let x := EF / (kB * T) in
  fermi_integral (fun _ => c) EF T 0 (c * - W0 (- x)) /\ fermi_integral (fun _ => c) EF T 1 (c * - G1 (- x)).
Proof.
  intros Hc HT x. assert (C : continuous_up (fun _ => c)) by (apply cont_up; intros; apply c_const). assert (P : power_bounded (fun _ => c)) by apply pb_const.
  assert (G : forall k (A : R -> R), is_lim A p_infty 0 -> (forall X, RInt (fun y => y ^ k * window y) (- x) X = A X - A (- x)) -> fermi_integral (fun _ => c) EF T k (c * - A (- x))).
  { intros k A L E. destruct (C130_converges (fun _ _ => c) EF T k HT C P) as (v & _ & I). cbv beta in I. replace (c * - A (- x)) with v; [exact I|]. pose proof (red_lim (fun _ => c) EF T HT C P k v I) as R1. fold x in R1.
    apply (f_equal real (x := Finite v) (y := Finite (c * - A (- x)))). rewrite <- (is_lim_unique _ _ _ R1). apply is_lim_unique. apply (is_lim_ext (fun X => c * (A X - A (- x)))).
    - intros X. rewrite <- E. rewrite (RInt_ext (g (fun _ => c) EF T k) (fun y => c * (y ^ k * window y))) by (intros y _; reflexivity). symmetry. apply (RInt_scal (V := R_CompleteNormedModule) (fun y => y ^ k * window y)). apply ri. intros y. apply (continuous_mult (fun y => y ^ k) window); [|apply window_cont]. apply (ex_derive_continuous (fun y => y ^ k)). auto_derive; trivial.
    - apply (is_lim_scal_l (fun X => A X - A (- x)) c p_infty (- A (- x))). replace (Finite (- A (- x))) with (Finite (0 - A (- x))) by (f_equal; ring). apply is_lim_minus'; [exact L|apply is_lim_const]. }
  split; apply G.
  - apply W0_lim.
  - intros X. rewrite <- rint_W0. apply RInt_ext. intros y _. cbn [pow]. apply Rmult_1_l.
  - apply G1_lim.
  - intros X. rewrite <- rint_G1. apply RInt_ext. intros y _. cbn [pow]. rewrite Rmult_1_r. reflexivity.
Qed.
