(** Lemmas for OptProps: numerical bounds around the optimum, by polynomials with remainder. *)
From Coq Require Import Reals Lra Lia.
From Coquelicot Require Import Coquelicot.
From Verif Require Import Py RUtil FuncModel RombModel RconvSpec OptProofs.
Local Open Scope R_scope.
(** numbers *)
Ltac tayx := cbn [tay tm Z.of_nat Pos.of_succ_nat Pos.succ].
Definition pu (w : R) : R := 1 + w / 2 + w ^ 2 / 12 - w ^ 4 / 720 + w ^ 6 / 30240.
Definition pl (w : R) : R := pu w - w ^ 8 / 1209600.
Definition gu (v : R) : R := v + v ^ 2 / 4 + v ^ 3 / 36 - v ^ 5 / 3600 + v ^ 7 / 211680.
Definition gl (v : R) : R := gu v - v ^ 9 / 10886400.
Lemma pows w n : 0 <= w <= 1.1 -> 0 <= w ^ S n <= 1.1 * w ^ n.
Proof. intros H. pose proof (pow_le w n ltac:(lra)). cbn [pow]. split; [apply Rmult_le_pos; lra|]. apply Rmult_le_compat_r; lra. Qed.
Lemma phi_up w : 0 < w <= 1.1 -> phi w <= pu w.
Proof.
  intros H. unfold phi. destruct (Rle_dec w 0); [lra|]. pose proof (one_minus w ltac:(lra)) as O. apply (proj2 (Rle_div_l _ _ _ O)).
  assert (Q : pu w <= (pu w - w) * tay 12 w).
  { pose proof (pows w 8 ltac:(lra)). pose proof (pows w 9 ltac:(lra)). pose proof (pows w 10 ltac:(lra)). pose proof (pows w 11 ltac:(lra)). pose proof (pows w 12 ltac:(lra)). pose proof (pows w 13 ltac:(lra)). pose proof (pows w 14 ltac:(lra)). pose proof (pows w 15 ltac:(lra)). pose proof (pows w 16 ltac:(lra)). pose proof (pows w 17 ltac:(lra)).
    unfold pu. tayx. lra. }
  assert (Qp : 0 < pu w - w).
  { unfold pu. pose proof (pows w 3 ltac:(lra)). pose proof (pows w 4 ltac:(lra)). pose proof (pows w 5 ltac:(lra)). pose proof (pows w 1 ltac:(lra)). pose proof (pows w 2 ltac:(lra)). lra. }
  pose proof (exp_low 12 w ltac:(lra)) as T. assert (E : exp (- w) * exp w = 1) by (rewrite <- exp_plus, <- exp_0; f_equal; ring). pose proof (exp_pos (- w)) as P.
  assert (X : pu w <= (pu w - w) * exp w) by nra. assert (Y : exp (- w) * pu w <= exp (- w) * ((pu w - w) * exp w)) by (apply Rmult_le_compat_l; lra).
  replace (exp (- w) * ((pu w - w) * exp w)) with ((pu w - w) * (exp (- w) * exp w)) in Y by ring. rewrite E in Y. lra.
Qed.
Lemma phi_lo w : 0 < w <= 1.1 -> pl w <= phi w.
Proof.
  intros H. unfold phi. destruct (Rle_dec w 0); [lra|]. pose proof (one_minus w ltac:(lra)) as O. apply (proj1 (Rle_div_r _ _ _ O)).
  assert (Q : (pl w - w) * (tay 12 w + 9 * tm 13 w) <= pl w).
  { pose proof (pows w 10 ltac:(lra)). pose proof (pows w 11 ltac:(lra)). pose proof (pows w 12 ltac:(lra)). pose proof (pows w 13 ltac:(lra)). pose proof (pows w 14 ltac:(lra)). pose proof (pows w 15 ltac:(lra)). pose proof (pows w 16 ltac:(lra)). pose proof (pows w 17 ltac:(lra)). pose proof (pows w 18 ltac:(lra)). pose proof (pows w 19 ltac:(lra)). pose proof (pows w 20 ltac:(lra)).
    unfold pl, pu. tayx. lra. }
  assert (Qp : 0 < pl w - w).
  { unfold pl, pu. pose proof (pows w 3 ltac:(lra)). pose proof (pows w 4 ltac:(lra)). pose proof (pows w 5 ltac:(lra)). pose proof (pows w 6 ltac:(lra)). pose proof (pows w 7 ltac:(lra)). pose proof (pows w 1 ltac:(lra)). pose proof (pows w 2 ltac:(lra)). lra. }
  pose proof (exp_high 12 w ltac:(lra)) as T. assert (E : exp (- w) * exp w = 1) by (rewrite <- exp_plus, <- exp_0; f_equal; ring). pose proof (exp_pos (- w)) as P.
  assert (X : (pl w - w) * exp w <= pl w) by nra. assert (Y : exp (- w) * ((pl w - w) * exp w) <= exp (- w) * pl w) by (apply Rmult_le_compat_l; lra).
  replace (exp (- w) * ((pl w - w) * exp w)) with ((pl w - w) * (exp (- w) * exp w)) in Y by ring. rewrite E in Y. lra.
Qed.
Lemma gu_derive w : is_derive gu w (pu w). Proof. unfold gu, pu. auto_derive; [exact I|field]. Qed.
Lemma gl_derive w : is_derive gl w (pl w). Proof. unfold gl, gu, pl, pu. auto_derive; [exact I|field]. Qed.
Lemma Gd_up v : 0 <= v <= 1.1 -> Gd v <= gu v.
Proof.
  intros H. assert (A : (fun x => gu x - Gd x) 0 <= (fun x => gu x - Gd x) v).
  { apply (incr_weak (fun x => gu x - Gd x) (fun x => pu x - phi x)); [lra|intros c _; apply (subd gu Gd); [apply gu_derive|apply Gd_derive]|]. intros c Hc. pose proof (phi_up c ltac:(lra)). lra. }
  cbv beta in A. rewrite Gd_0 in A. unfold gu at 1 in A. lra.
Qed.
Lemma Gd_lo v : 0 <= v <= 1.1 -> gl v <= Gd v.
Proof.
  intros H. assert (A : (fun x => Gd x - gl x) 0 <= (fun x => Gd x - gl x) v).
  { apply (incr_weak (fun x => Gd x - gl x) (fun x => phi x - pl x)); [lra|intros c _; apply (subd Gd gl); [apply Gd_derive|apply gl_derive]|]. intros c Hc. pose proof (phi_lo c ltac:(lra)). lra. }
  cbv beta in A. rewrite Gd_0 in A. unfold gl at 1, gu at 1 in A. lra.
Qed.
Definition va : R := 1.081993.
Definition vb : R := 1.082004.
Lemma exp_va : 2.9505541490 <= exp va <= 2.9505541500.
Proof.
  unfold va. split; [eapply Rle_trans; [|apply (exp_low 13); lra]; tayx; lra|]. eapply Rle_trans; [apply (exp_high 13); lra|]. tayx. lra.
Qed.
Lemma exp_vb : 2.9505866050 <= exp vb <= 2.9505866070.
Proof.
  unfold vb. split; [eapply Rle_trans; [|apply (exp_low 13); lra]; tayx; lra|]. eapply Rle_trans; [apply (exp_high 13); lra|]. tayx. lra.
Qed.
Definition eta_a : R := ln (exp va - 1).
Definition eta_b : R := ln (exp vb - 1).
Lemma F0_ln v : 0 < v -> F0 (ln (exp v - 1)) = v.
Proof. intros H. unfold F0. assert (1 < exp v) by (rewrite <- exp_0; apply exp_increasing; exact H). rewrite exp_ln by lra. replace (1 + (exp v - 1)) with (exp v) by ring. apply ln_exp. Qed.
Lemma occ_ln v : 0 < v -> occ (ln (exp v - 1)) = (exp v - 1) / exp v.
Proof. intros H. unfold occ. assert (1 < exp v) by (rewrite <- exp_0; apply exp_increasing; exact H). rewrite exp_ln by lra. f_equal. ring. Qed.
Lemma eta_a_bounds : 0.6681135 <= eta_a <= 0.6681136.
Proof.
  unfold eta_a. pose proof exp_va as B. split; [apply ln_from_exp_low|apply ln_from_exp_high]; try lra.
  - eapply Rle_trans; [apply (exp_high 12); lra|]. tayx. lra.
  - eapply Rle_trans; [|apply (exp_low 12); lra]. tayx. lra.
Qed.
Lemma eta_b_bounds : 0.66813 <= eta_b <= 0.6681302.
Proof.
  unfold eta_b. pose proof exp_vb as B. split; [apply ln_from_exp_low|apply ln_from_exp_high]; try lra.
  - eapply Rle_trans; [apply (exp_high 12); lra|]. tayx. lra.
  - eapply Rle_trans; [|apply (exp_low 12); lra]. tayx. lra.
Qed.
Lemma inv_bounds x l u : 0 < l -> l <= x <= u -> / u <= / x <= / l.
Proof. intros P H. split; apply Rinv_le_contravar; lra. Qed.
Lemma De_at v : 0 < v -> De (ln (exp v - 1)) = 2 * v ^ 2 * (1 + / (exp v - 1)) - ln (exp v - 1) * v - 2 * Gd v.
Proof. intros H. unfold De, F1. rewrite (F0_ln v H), (occ_ln v H). assert (1 < exp v) by (rewrite <- exp_0; apply exp_increasing; exact H). field. lra. Qed.
Lemma De_a : 0 < De eta_a <= 1e-5.
Proof.
  pose proof exp_va as B. pose proof eta_a_bounds as Ea. pose proof (Gd_up va ltac:(unfold va; lra)) as U. pose proof (Gd_lo va ltac:(unfold va; lra)) as L. pose proof (inv_bounds (exp va - 1) (2.9505541490 - 1) (2.9505541500 - 1) ltac:(lra) ltac:(lra)) as V.
  unfold eta_a in *. rewrite (De_at va) by (unfold va; lra). unfold gl, gu in *. unfold va in *. lra.
Qed.
Lemma De_b : - 1e-5 <= De eta_b < 0.
Proof.
  pose proof exp_vb as B. pose proof eta_b_bounds as Ea. pose proof (Gd_up vb ltac:(unfold vb; lra)) as U. pose proof (Gd_lo vb ltac:(unfold vb; lra)) as L. pose proof (inv_bounds (exp vb - 1) (2.9505866050 - 1) (2.9505866070 - 1) ltac:(lra) ltac:(lra)) as V.
  unfold eta_b in *. rewrite (De_at vb) by (unfold vb; lra). unfold gl, gu in *. unfold vb in *. lra.
Qed.
Lemma pf_a : 4.0603403 <= pf eta_a <= 4.0603433.
Proof.
  pose proof eta_a_bounds as Ea. pose proof (Gd_up va ltac:(unfold va; lra)) as U. pose proof (Gd_lo va ltac:(unfold va; lra)) as L.
  unfold pf, hh, F1, eta_a in *. rewrite (F0_ln va) by (unfold va; lra). set (h := 2 * Gd va - _).
  assert (Hh : 2.0960105 <= h <= 2.0960111) by (unfold h, gl, gu in *; unfold va in *; lra). assert (P : 0 < va) by (unfold va; lra). split; [apply (proj1 (Rle_div_r _ _ _ P))|apply (proj2 (Rle_div_l _ _ _ P))]; unfold va; nra.
Qed.
Lemma De_cont x : continuity_pt De x.
Proof. apply derivable_continuous_pt. eexists. apply is_derive_Reals. apply De_derive. Qed.
Lemma eta_m : {x | eta_a < x < eta_b /\ De x = 0}.
Proof.
  pose proof eta_a_bounds. pose proof eta_b_bounds. pose proof De_a. pose proof De_b.
  destruct (IVT (fun x => - De x) eta_a eta_b) as (x & Hx & E); [intros y; apply (continuity_pt_opp De y), De_cont|lra|lra|lra|].
  exists x. assert (D : De x = 0) by lra. split; [|exact D]. destruct Hx as [[A|A] [B|B]]; [split; assumption|rewrite <- B in *; lra|rewrite A in *; lra|rewrite A in *; lra].
Qed.
Lemma De_pos x y : De y = 0 -> 0 <= y -> x < y -> 0 < De x.
Proof. intros E P H. destruct (Rlt_le_dec x 0) as [L|L]; [apply De_low; exact L|]. pose proof (De_decr x y L H). lra. Qed.
Lemma pf_factor x : 0 < hh x * occ x / F0 x ^ 2.
Proof. apply Rdiv_lt_0_compat; [apply Rmult_lt_0_compat; [apply hh_pos|apply occ_range]|apply pow_lt, F0_pos]. Qed.
Lemma pf_below m x y : De m = 0 -> 0 <= m -> x < y -> y <= m -> pf x < pf y.
Proof.
  intros E P H L. apply (incr_from pf (fun x => hh x * occ x / F0 x ^ 2 * De x)); [exact H|intros; apply pf_derive|]. intros c Hc. apply Rmult_lt_0_compat; [apply pf_factor|apply (De_pos c m E P)]. lra.
Qed.
Lemma pf_above m x y : De m = 0 -> 0 <= m -> m <= x -> x < y -> pf y < pf x.
Proof.
  intros E P H L. assert (A : (fun z => - pf z) x < (fun z => - pf z) y); [|cbv beta in A; lra].
  apply (incr_from (fun z => - pf z) (fun x => - (hh x * occ x / F0 x ^ 2 * De x))); [exact L|intros c _; apply (is_derive_opp pf c); apply pf_derive|]. intros c Hc. pose proof (pf_factor c). pose proof (De_decr m c P ltac:(lra)). nra.
Qed.
Lemma near_factor c : eta_a <= c <= eta_b -> hh c * occ c / F0 c ^ 2 <= 3.
Proof.
  intros Hc. pose proof eta_a_bounds as Ea. pose proof eta_b_bounds as Eb. pose proof (Gd_up vb ltac:(unfold vb; lra)) as U.
  assert (H : hh c <= hh eta_b) by (destruct Hc as [_ [Hc| ->]]; [left; apply hh_incr; exact Hc|lra]).
  assert (Hb : hh eta_b <= 2.1) by (unfold hh, F1, eta_b in *; rewrite (F0_ln vb) by (unfold vb; lra); unfold gu in *; unfold vb in *; lra).
  assert (F : 1 <= F0 c). { apply Rle_trans with (F0 eta_a); [unfold eta_a; rewrite F0_ln by (unfold va; lra); unfold va; lra|]. unfold F0. apply ln_le; [apply expp|]. apply Rplus_le_compat_l. destruct Hc as [[Hc| <-] _]; [left; apply exp_increasing; exact Hc|lra]. }
  pose proof (hh_pos c). pose proof (occ_range c). apply (proj2 (Rle_div_l _ _ _ (pow_lt _ 2 (F0_pos c)))). nra.
Qed.
Lemma pf_close m x : De m = 0 -> eta_a <= x <= eta_b -> eta_a < m < eta_b -> pf m - 1e-9 <= pf x.
Proof.
  intros E Hx Hm. pose proof eta_a_bounds as Ea. pose proof eta_b_bounds as Eb. pose proof De_a as Da. pose proof De_b as Db.
  assert (W : eta_b - eta_a <= 2e-5) by lra.
  assert (B : forall c, eta_a < c < eta_b -> - (3e-5) <= hh c * occ c / F0 c ^ 2 * De c <= 3e-5).
  { intros c Hc. pose proof (near_factor c ltac:(lra)) as N. pose proof (pf_factor c) as P. pose proof (De_decr eta_a c ltac:(lra) ltac:(lra)). pose proof (De_decr c eta_b ltac:(lra) ltac:(lra)). nra. }
  destruct (Rle_lt_dec x m) as [L|L].
  - assert (A : (fun z => 3e-5 * z - pf z) x <= (fun z => 3e-5 * z - pf z) m).
    { apply (incr_weak (fun z => 3e-5 * z - pf z) (fun c => 3e-5 * 1 - hh c * occ c / F0 c ^ 2 * De c)); [exact L|intros c _; apply (subd (fun z => 3e-5 * z) pf); [apply (scald (fun z => z)); apply (is_derive_id c)|apply pf_derive]|].
      intros c Hc. specialize (B c ltac:(lra)). lra. }
    cbv beta in A. lra.
  - assert (A : (fun z => 3e-5 * z + pf z) m <= (fun z => 3e-5 * z + pf z) x).
    { apply (incr_weak (fun z => 3e-5 * z + pf z) (fun c => 3e-5 * 1 + hh c * occ c / F0 c ^ 2 * De c)); [lra|intros c _; apply (addd (fun z => 3e-5 * z) pf); [apply (scald (fun z => z)); apply (is_derive_id c)|apply pf_derive]|].
      intros c Hc. specialize (B c ltac:(lra)). lra. }
    cbv beta in A. lra.
Qed.
Lemma pf_max m : De m = 0 -> eta_a < m < eta_b -> 4.0603403 <= pf m <= 4.0603434.
Proof.
  intros E Hm. pose proof eta_a_bounds as Ea. pose proof pf_a as Pa. pose proof (pf_below m eta_a m E ltac:(lra) ltac:(lra) ltac:(lra)). pose proof (pf_close m eta_a E ltac:(lra) Hm). lra.
Qed.
