(** The substituted integrand of the Fermi integrals is continuous up to both ends. *)
From Coq Require Import Reals Lra Lia.
From Coquelicot Require Import Coquelicot.
From Verif Require Import Py RUtil FuncModel RombModel RombProofs RombProps RconvSpec RconvProofs.
Local Open Scope R_scope.

Lemma lipschitz_continuous (f : R -> R) : (forall x y, Rabs (f x - f y) <= Rabs (x - y)) -> forall x, continuous f x.
Proof.
  intros H x. apply continuity_pt_filterlim. intros eps He. exists eps. split; [exact He|]. intros y (_ & Hy). unfold dist in *; cbn in *. unfold R_dist in *.
  eapply Rle_lt_trans; [apply H|exact Hy].
Qed.
Lemma rmin_lip w x y : Rabs (Rmin x w - Rmin y w) <= Rabs (x - y).
Proof. unfold Rmin. destruct (Rle_dec x w), (Rle_dec y w); unfold Rabs; repeat destruct (Rcase_abs _); lra. Qed.
Lemma rmax_lip w x y : Rabs (Rmax x w - Rmax y w) <= Rabs (x - y).
Proof. unfold Rmax. destruct (Rle_dec x w), (Rle_dec y w); unfold Rabs; repeat destruct (Rcase_abs _); lra. Qed.
Lemma up_continuous (f : R -> R) : continuous_up f -> forall x, continuous (fun e => f (Rmax e 0)) x.
Proof.
  intros H x. apply continuity_pt_filterlim. intros eps He. destruct (H (Rmax x 0) (Rmax_r _ _) eps He) as (d & Hd & B). exists d. split; [exact Hd|].
  intros y (_ & Hy). unfold dist in *; cbn in *. unfold R_dist in *. apply B; [apply Rmax_r|]. eapply Rle_lt_trans; [apply rmax_lip|exact Hy].
Qed.
Lemma exp_times n a : exp a ^ n = exp (INR n * a).
Proof. induction n as [|n IH]; [cbn; rewrite Rmult_0_l, exp_0; reflexivity|]. cbn [pow]. rewrite IH, S_INR, <- exp_plus. f_equal. ring. Qed.
Lemma exp_dominates m : exists K, 0 < K /\ forall u, 0 <= u -> u ^ m <= K * exp u.
Proof.
  destruct m as [|m]; [exists 1; split; [lra|]; intros u Hu; cbn; pose proof (exp_ineq1_le u); lra|].
  exists (INR (S m) ^ S m). assert (P : 0 < INR (S m)) by (apply lt_0_INR; lia). split; [apply pow_lt; exact P|]. intros u Hu.
  replace (u ^ S m) with (INR (S m) ^ S m * (u / INR (S m)) ^ S m) by (rewrite <- Rpow_mult_distr; f_equal; field; lra).
  apply Rmult_le_compat_l; [apply Rlt_le, pow_lt; exact P|]. replace (exp u) with (exp (u / INR (S m)) ^ S m) by (rewrite exp_times; f_equal; field; lra).
  apply pow_incr. split; [apply Rdiv_le_0_compat; lra|]. pose proof (exp_ineq1_le (u / INR (S m))). lra.
Qed.
Lemma weight_small t : 0 < t <= 1 / 2 -> 0 <= weight0 t <= 48 * t ^ 2.
Proof.
  intros H. unfold weight0. assert (D : 1 / 4 <= t ^ 3 + (1 - t) ^ 3).
  { replace (t ^ 3 + (1 - t) ^ 3) with (1 / 4 + 3 * (t - 1 / 2) ^ 2) by field. pose proof (pow2_ge_0 (t - 1 / 2)). lra. }
  set (d := t ^ 3 + (1 - t) ^ 3) in *. assert (D2 : 1 / 16 <= d ^ 2) by (cbn [pow]; nra). split.
  - apply Rdiv_le_0_compat; [|lra]. pose proof (pow2_ge_0 (t * (1 - t))). lra.
  - apply Rle_div_l; [lra|]. assert (Q : (t * (1 - t)) ^ 2 <= t ^ 2) by (apply pow_incr; split; [apply Rmult_le_pos; lra|]; pose proof (pow2_ge_0 t); cbn [pow] in *; nra).
    pose proof (pow2_ge_0 t) as P2. assert (48 * t ^ 2 * (1 / 16) <= 48 * t ^ 2 * d ^ 2) by (apply Rmult_le_compat_l; lra). lra.
Qed.
Lemma weight_cont t : 0 < t < 1 -> continuous weight0 t.
Proof.
  intros H. apply (ex_derive_continuous weight0 t). unfold weight0. pose proof (cubes_pos t ltac:(lra)) as C. auto_derive. apply Rgt_not_eq. revert C. cbn [pow]. intros C. nra.
Qed.

Section Fermi.
Variable f : R -> R.
Variables EF T : R.
Variable k : nat.
Hypothesis HT : 0 < T.
Hypothesis Hc : continuous_up f.
Hypothesis Hp : power_bounded f.
Notation KT := (kB * T).
Notation eta := (EF / (kB * T)).
Notation w := (width EF T).
Lemma KT_pos : 0 < KT. Proof. apply Rmult_lt_0_compat; [apply kB_pos|exact HT]. Qed.
Definition fp (x : R) : R := f (Rmax (KT * x + EF) 0).
Definition J (t : R) : R := fp (node_x t) * (node_x t ^ k * weight0 t).
Definition F (t : R) : R := if Rle_dec t 0 then 0 else J (Rmin t w).

Lemma fp_cont x : continuous fp x.
Proof.
  unfold fp. apply (continuous_comp (fun x => KT * x + EF) (fun e => f (Rmax e 0)) x); [|apply up_continuous; exact Hc].
  apply (ex_derive_continuous (fun x => KT * x + EF)). auto_derive. exact I.
Qed.
Lemma J_cont t : 0 < t < 1 -> continuous J t.
Proof.
  intros H. assert (N : continuous node_x t) by (apply (ex_derive_continuous node_x); eexists; apply node_derive; exact H).
  unfold J. apply (continuous_mult (fun t => fp (node_x t)) (fun t => node_x t ^ k * weight0 t)).
  - apply (continuous_comp node_x fp); [exact N|apply fp_cont].
  - apply (continuous_mult (fun t => node_x t ^ k) weight0); [|apply weight_cont; exact H].
    apply (continuous_comp node_x (fun x => x ^ k)); [exact N|]. apply (ex_derive_continuous (fun x => x ^ k)). auto_derive. exact I.
Qed.
Lemma small_J : exists K t1, 0 < K /\ 0 < t1 /\ t1 <= w /\ forall t, 0 < t <= t1 -> Rabs (J t) <= K * t.
Proof.
  destruct Hp as (C & p & B). pose proof KT_pos as PK. pose proof (width_range EF T) as (W0 & W1).
  assert (C0 : 0 <= C) by (pose proof (B 0 ltac:(lra)) as B0; pose proof (Rabs_pos (f 0)); rewrite Rplus_0_r, pow1 in B0; lra).
  destruct (exp_dominates (p + k)) as (Km & PKm & HKm). set (c := 1 + Rabs EF + 3 * KT). assert (Pc : 1 <= c) by (unfold c; pose proof (Rabs_pos EF); lra).
  set (A := C * c ^ p * (3 ^ k * 48) * (Km * exp 1)).
  assert (A0 : 0 <= A) by (unfold A; apply Rmult_le_pos; [apply Rmult_le_pos; [apply Rmult_le_pos; [exact C0|apply pow_le; lra]|apply Rmult_le_pos; [apply pow_le|]; lra]|apply Rmult_le_pos; [lra|apply Rlt_le, exp_pos]]).
  exists (A + 1), (Rmin w (1 / 2)). split; [lra|]. split; [apply Rmin_pos; lra|]. split; [apply Rmin_l|]. intros t Ht.
  pose proof (Rmin_l w (1 / 2)) as M1. pose proof (Rmin_r w (1 / 2)) as M2. assert (Tw : t <= w) by lra. assert (T2 : t <= 1 / 2) by lra.
  set (L := - ln t). assert (Et : t = exp (- L)) by (unfold L; rewrite Ropp_involutive, exp_ln; lra).
  assert (L0 : 0 <= L) by (unfold L; pose proof (ln_le t 1 ltac:(lra) ltac:(lra)) as Q; rewrite ln_1 in Q; lra).
  assert (X : 0 <= node_x t <= 3 * L).
  { unfold node_x. assert (Q : 1 <= 1 / t - 1) by (assert (2 <= 1 / t) by (apply Rle_div_r; lra); lra). split.
    - pose proof (ln_le 1 (1 / t - 1) ltac:(lra) Q) as Q1. rewrite ln_1 in Q1. lra.
    - pose proof (ln_le (1 / t - 1) (1 / t) ltac:(lra) ltac:(lra)) as Q1. unfold L. replace (1 / t) with (/ t) in Q1 at 2 by (unfold Rdiv; ring). rewrite ln_Rinv in Q1 by lra. lra. }
  assert (E0 : 0 <= KT * node_x t + EF).
  { destruct (C59_range EF T t HT ltac:(lra)) as (R1 & R2 & _). destruct (Rle_lt_or_eq_dec t w Tw) as [Lt|Eq]; [apply R1 in Lt; lra|]. rewrite Eq, R2. lra. }
  unfold J, fp. rewrite (Rmax_left _ 0 E0). rewrite !Rabs_mult. pose proof (weight_small t ltac:(lra)) as (Wt0 & Wt). rewrite (Rabs_pos_eq (weight0 t)) by exact Wt0.
  rewrite (Rabs_pos_eq (node_x t ^ k)) by (apply pow_le; lra).
  assert (B1 : Rabs (f (KT * node_x t + EF)) <= C * (c * (1 + L)) ^ p).
  { eapply Rle_trans; [apply B; exact E0|]. apply Rmult_le_compat_l; [exact C0|]. apply pow_incr. split; [lra|]. unfold c. pose proof (RRle_abs EF) as Q. pose proof (Rabs_pos EF).
    assert (KT * node_x t <= KT * (3 * L)) by (apply Rmult_le_compat_l; lra). assert (0 <= Rabs EF * L) by (apply Rmult_le_pos; lra). nra. }
  assert (B2 : node_x t ^ k <= (3 * (1 + L)) ^ k) by (apply pow_incr; lra).
  assert (B3 : weight0 t <= 48 * t ^ 2) by exact Wt.
  apply Rle_trans with (C * (c * (1 + L)) ^ p * ((3 * (1 + L)) ^ k * (48 * t ^ 2))).
  { apply Rmult_le_compat; [apply Rabs_pos|apply Rmult_le_pos; [apply pow_le; lra|exact Wt0]|exact B1|]. apply Rmult_le_compat; [apply pow_le; lra|exact Wt0|exact B2|exact B3]. }
  rewrite !Rpow_mult_distr. replace (C * (c ^ p * (1 + L) ^ p) * (3 ^ k * (1 + L) ^ k * (48 * t ^ 2))) with (C * c ^ p * (3 ^ k * 48) * ((1 + L) ^ (p + k) * t) * t) by (rewrite pow_add; ring).
  assert (B4 : (1 + L) ^ (p + k) * t <= Km * exp 1).
  { pose proof (HKm (1 + L) ltac:(lra)) as Q. apply (Rmult_le_compat_r t) in Q; [|lra]. rewrite exp_plus in Q. eapply Rle_trans; [exact Q|]. rewrite Et at 1.
    replace (Km * (exp 1 * exp L) * exp (- L)) with (Km * exp 1 * (exp L * exp (- L))) by ring. rewrite <- exp_plus, Rplus_opp_r, exp_0. lra. }
  apply Rmult_le_compat_r; [lra|]. apply Rle_trans with A; [|lra]. unfold A. apply Rmult_le_compat_l; [|exact B4].
  apply Rmult_le_pos; [apply Rmult_le_pos; [exact C0|apply pow_le; lra]|apply Rmult_le_pos; [apply pow_le|]; lra].
Qed.
Lemma F_small : exists K t1, 0 < K /\ 0 < t1 /\ t1 <= w /\ forall t, t <= t1 -> Rabs (F t) <= K * Rabs t.
Proof.
  destruct small_J as (K & t1 & PK & P1 & L1 & H). exists K, t1. split; [exact PK|]. split; [exact P1|]. split; [exact L1|]. intros t Ht. unfold F. destruct (Rle_dec t 0) as [Z|Z].
  - rewrite Rabs_R0. apply Rmult_le_pos; [lra|apply Rabs_pos].
  - rewrite Rmin_left by lra. rewrite (Rabs_pos_eq t) by lra. apply H. lra.
Qed.
Lemma F_cont t : continuous F t.
Proof.
  pose proof (width_range EF T) as W. destruct (Rtotal_order t 0) as [L|[E|G]].
  - apply (continuous_ext_loc F (fun _ => 0) t); [|apply continuous_const]. assert (P : 0 < - t) by lra. exists (mkposreal _ P). intros y Hy. unfold F. unfold ball in Hy; cbn in Hy. unfold AbsRing_ball, abs, minus, plus, opp in Hy; cbn in Hy.
    apply Rabs_def2 in Hy. destruct (Rle_dec y 0); [reflexivity|lra].
  - subst t. destruct F_small as (K & t1 & PK & P1 & _ & H). apply continuity_pt_filterlim. intros eps He. exists (Rmin t1 (eps / K)). assert (Pe : 0 < eps / K) by (apply Rdiv_lt_0_compat; lra).
    split; [apply Rmin_pos; assumption|]. intros y (_ & Hy). unfold dist in *; cbn in *. unfold R_dist in *.
    assert (F0 : F 0 = 0) by (unfold F; destruct (Rle_dec 0 0); [reflexivity|lra]). rewrite F0, Rminus_0_r in *. pose proof (Rmin_l t1 (eps / K)). pose proof (Rmin_r t1 (eps / K)).
    eapply Rle_lt_trans; [apply H; pose proof (RRle_abs y); lra|]. assert (Q : Rabs y < eps / K) by lra. apply (Rmult_lt_compat_l K) in Q; [|exact PK]. replace (K * (eps / K)) with eps in Q by (field; lra). exact Q.
  - apply (continuous_ext_loc F (fun s => J (Rmin s w)) t).
    + exists (mkposreal _ G). intros y Hy. unfold F. unfold ball in Hy; cbn in Hy. unfold AbsRing_ball, abs, minus, plus, opp in Hy; cbn in Hy. apply Rabs_def2 in Hy. destruct (Rle_dec y 0); [lra|reflexivity].
    + apply (continuous_comp (fun s => Rmin s w) J); [apply lipschitz_continuous; apply rmin_lip|]. apply J_cont. split; [apply Rmin_pos; lra|]. pose proof (Rmin_r t w). lra.
Qed.
(** the integrand in the reduced variable *)
Definition g (x : R) : R := fp x * (x ^ k * window x).
Lemma node_inv X : 0 < 1 / (1 + exp (X / 3)) < 1 /\ node_x (1 / (1 + exp (X / 3))) = X.
Proof.
  pose proof (exp_pos (X / 3)) as P. split.
  - split; [apply Rdiv_lt_0_compat; lra|]. apply Rlt_div_l; lra.
  - unfold node_x. replace (1 / (1 / (1 + exp (X / 3))) - 1) with (exp (X / 3)) by (field; lra). rewrite ln_exp. field.
Qed.
Lemma int_F X : - eta < X -> RInt F (1 / (1 + exp (X / 3))) w = RInt g (- eta) X.
Proof.
  intros HX. destruct (node_inv X) as (P & E). set (a := 1 / (1 + exp (X / 3))) in *. pose proof (width_range EF T) as W. pose proof (node_width EF T) as NW. unfold kT in NW.
  assert (La : a < w). { destruct (Rlt_le_dec a w) as [|L]; [assumption|exfalso]. destruct (Rle_lt_or_eq_dec _ _ L) as [L'|E']; [pose proof (node_decreasing w a ltac:(lra) L' ltac:(lra)); lra|]. rewrite <- E' in E. lra. }
  pose proof (C59_substitution fp k a w ltac:(lra) La ltac:(lra) fp_cont) as S. rewrite E, NW in S. unfold g. rewrite <- S. apply RInt_ext. intros t Ht. rewrite Rmin_left, Rmax_right in Ht by lra.
  unfold F. destruct (Rle_dec t 0); [lra|]. rewrite Rmin_left by lra. reflexivity.
Qed.
Lemma int_lim : is_lim (fun X => RInt g (- eta) X) p_infty (RInt F 0 w).
Proof.
  pose proof (width_range EF T) as W. apply is_lim_spec. intros eps. destruct F_small as (K & t1 & PK & P1 & L1 & H).
  assert (EXF : forall a b, ex_RInt F a b) by (intros a b; apply (ex_RInt_continuous (V := R_CompleteNormedModule)); intros; apply F_cont).
  set (d := Rmin t1 (eps / (K * t1))). assert (Pd : 0 < d) by (apply Rmin_pos; [exact P1|]; apply Rdiv_lt_0_compat; [apply cond_pos|apply Rmult_lt_0_compat; lra]).
  exists (Rmax (- eta) (3 * ln (1 / d))). intros X HX. pose proof (Rmax_l (- eta) (3 * ln (1 / d))). pose proof (Rmax_r (- eta) (3 * ln (1 / d))).
  rewrite <- int_F by lra. destruct (node_inv X) as (P & _). set (a := 1 / (1 + exp (X / 3))) in *.
  assert (Ed : exp (ln (1 / d)) = 1 / d) by (apply exp_ln; apply Rdiv_lt_0_compat; lra).
  assert (Ix : 1 / d < exp (X / 3)) by (rewrite <- Ed; apply exp_increasing; lra).
  assert (Ad : a < d).
  { unfold a. assert (Pd' : 0 < 1 / d) by (apply Rdiv_lt_0_compat; lra). apply Rlt_div_l; [lra|]. apply (Rmult_lt_compat_l d) in Ix; [|exact Pd]. replace (d * (1 / d)) with 1 in Ix by (field; lra). lra. }
  pose proof (Rmin_l t1 (eps / (K * t1))) as D1. pose proof (Rmin_r t1 (eps / (K * t1))) as D2. fold d in D1, D2.
  pose proof (RInt_Chasles F 0 a w (EXF _ _) (EXF _ _)) as CH. change (RInt F 0 a + RInt F a w = RInt F 0 w) in CH. replace (RInt F a w - RInt F 0 w) with (- RInt F 0 a) by lra. rewrite Rabs_Ropp.
  eapply Rle_lt_trans; [apply (abs_RInt_le_const F 0 a (K * t1)); [lra|apply EXF|]|].
  - intros t Ht. eapply Rle_trans; [apply H; lra|]. apply Rmult_le_compat_l; [lra|]. rewrite Rabs_pos_eq; lra.
  - rewrite Rminus_0_r. assert (Q : a < eps / (K * t1)) by lra. assert (PP : 0 < K * t1) by (apply Rmult_lt_0_compat; lra). apply (Rmult_lt_compat_r (K * t1)) in Q; [|exact PP].
    replace (eps / (K * t1) * (K * t1)) with (pos eps) in Q by (field; split; lra). exact Q.
Qed.
(** in the energy variable *)
Lemma int_energy M : 0 <= M -> RInt (fun E => f E * ((E - EF) / KT) ^ k * fermi_window EF T E) 0 M = RInt g (- eta) (M / KT - eta).
Proof.
  intros HM. pose proof KT_pos as PK. assert (Cg : forall x, continuous g x).
  { intros x. unfold g. apply (continuous_mult fp (fun x => x ^ k * window x)); [apply fp_cont|]. apply (continuous_mult (fun x => x ^ k) window); [|apply window_cont].
    apply (ex_derive_continuous (fun x => x ^ k)). auto_derive. exact I. }
  pose proof (RInt_comp_lin g (/ KT) (- eta) 0 M) as S. rewrite Rmult_0_r, Rplus_0_l in S. replace (/ KT * M + - eta) with (M / KT - eta) in S by (unfold Rdiv; ring).
  rewrite <- S by (apply (ex_RInt_continuous (V := R_CompleteNormedModule)); intros; apply Cg). apply RInt_ext. intros E HE. rewrite Rmin_left, Rmax_right in HE by exact HM.
  assert (Ex : / KT * E + - eta = (E - EF) / KT) by (unfold Rdiv; ring). rewrite Ex. unfold g, fp, fermi_window, window, scal; cbn; unfold mult; cbn.
  assert (EE : KT * ((E - EF) / KT) + EF = E) by (clear - PK; revert PK; generalize (kB * T); intros c Pc; field; lra). rewrite EE. rewrite Rmax_left by lra. set (x := (E - EF) / KT). set (o := exp x / ((1 + exp x) * ((1 + exp x) * 1))). unfold Rdiv. ring.
Qed.
Lemma energy_lim : fermi_integral f EF T k (RInt F 0 w).
Proof.
  unfold fermi_integral. pose proof KT_pos as PK. apply (is_lim_ext_loc (fun M => RInt g (- eta) (M / KT - eta))).
  - exists 0. intros M HM. symmetry. apply int_energy. lra.
  - apply (is_lim_comp (fun X => RInt g (- eta) X) (fun M => M / KT - eta) p_infty (RInt F 0 w) p_infty); [exact int_lim| |].
    + apply is_lim_spec. intros Y. exists (KT * (Y + eta)). intros M HM. assert (Q : Y + eta < M / KT) by (apply Rlt_div_r; lra). lra.
    + exists 0. intros; discriminate.
Qed.
End Fermi.
