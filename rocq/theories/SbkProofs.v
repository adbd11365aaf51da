(** Lemmas for SbkProps: the second transport integral of the parabolic band and the slope of its Seebeck coefficient. *)
From Coq Require Import Reals Lra Lia Ranalysis5.
From Coquelicot Require Import Coquelicot.
From Verif Require Import Py RUtil FuncModel RombModel RconvSpec RconvFermi SpbModel OptProofs OptNum OptFermi.
Local Open Scope R_scope.
(** G(w)/w *)
Definition Hd (w : R) : R := if Rle_dec w 0 then 1 else Gd w / w.
Lemma Hd_bounds w : 1 <= Hd w <= 1 + Rabs w / 2.
Proof.
  unfold Hd. destruct (Rle_dec w 0); [pose proof (Rabs_pos w); lra|]. assert (P : 0 < w) by lra. pose proof (Gd_bounds w ltac:(lra)). rewrite Rabs_pos_eq by lra.
  split; [apply (proj1 (Rle_div_r _ _ _ P))|apply (proj2 (Rle_div_l _ _ _ P))]; nra.
Qed.
Lemma Hd_cont w : continuous Hd w.
Proof.
  destruct (Rtotal_order w 0) as [L|[->|G]].
  - apply (continuous_ext_loc Hd (fun _ => 1) w); [|apply continuous_const]. assert (P : 0 < - w) by lra. exists (mkposreal _ P). intros y Hy. unfold ball in Hy; cbn in Hy. unfold AbsRing_ball, abs, minus, plus, opp in Hy; cbn in Hy.
    apply Rabs_def2 in Hy. unfold Hd. destruct (Rle_dec y 0); [reflexivity|lra].
  - apply continuity_pt_filterlim. intros eps He. exists eps. split; [exact He|]. intros y (_ & Hy). unfold dist in *; cbn in *. unfold R_dist in *. rewrite Rminus_0_r in Hy. pose proof (Hd_bounds y) as B.
    unfold Hd at 2. destruct (Rle_dec 0 0); [|lra]. rewrite Rabs_pos_eq by lra. lra.
  - apply (continuous_ext_loc Hd (fun w => Gd w / w) w).
    + exists (mkposreal _ G). intros y Hy. unfold ball in Hy; cbn in Hy. unfold AbsRing_ball, abs, minus, plus, opp in Hy; cbn in Hy. apply Rabs_def2 in Hy. unfold Hd. destruct (Rle_dec y 0); [lra|reflexivity].
    + apply (ex_derive_continuous (fun w => Gd w / w)). auto_derive. split; [eexists; apply Gd_derive|split; [lra|exact I]].
Qed.
Definition G2 (v : R) : R := RInt (fun w => Hd w * phi w) 0 v.
Lemma G2_derive v : is_derive G2 v (Hd v * phi v).
Proof.
  assert (C : forall w, continuous (fun w => Hd w * phi w) w) by (intros w; apply (continuous_mult Hd phi); [apply Hd_cont|apply phi_cont]).
  apply (is_derive_RInt (fun w => Hd w * phi w) G2 0 v); [|apply C]. apply filter_forall. intros y. apply (RInt_correct (V := R_CompleteNormedModule)). apply (ex_RInt_continuous (V := R_CompleteNormedModule)). intros; apply C.
Qed.
Lemma G2_0 : G2 0 = 0. Proof. unfold G2. rewrite RInt_point. reflexivity. Qed.
Lemma G2_bounds v : 0 <= v -> v <= G2 v <= v + 3 * v ^ 2 / 4 + v ^ 3 / 6.
Proof.
  intros H. split.
  - assert (A : (fun x => G2 x - x) 0 <= (fun x => G2 x - x) v); [|cbv beta in A; rewrite G2_0 in A; lra].
    apply (incr_weak (fun x => G2 x - x) (fun x => Hd x * phi x - 1)); [exact H|intros c _; apply (subd G2 (fun x => x)); [apply G2_derive|apply (is_derive_id c)]|]. intros c Hc. pose proof (phi_bounds c). pose proof (Hd_bounds c). nra.
  - assert (A : (fun x => (x + 3 * x ^ 2 / 4 + x ^ 3 / 6) - G2 x) 0 <= (fun x => (x + 3 * x ^ 2 / 4 + x ^ 3 / 6) - G2 x) v); [|cbv beta in A; rewrite G2_0 in A; lra].
    apply (incr_weak (fun x => (x + 3 * x ^ 2 / 4 + x ^ 3 / 6) - G2 x) (fun x => (1 + 3 * x / 2 + x ^ 2 / 2) - Hd x * phi x)); [exact H|intros c _; apply (subd (fun x => x + 3 * x ^ 2 / 4 + x ^ 3 / 6) G2); [auto_derive; [exact I|field]|apply G2_derive]|].
    intros c Hc. pose proof (phi_bounds c) as B1. pose proof (Hd_bounds c) as B2. rewrite Rabs_pos_eq in B1, B2 by lra. assert (Hd c * phi c <= (1 + c / 2) * (1 + c)) by (apply Rmult_le_compat; lra). nra.
Qed.
Definition F2 (x : R) : R := G2 (F0 x).
Lemma F2_derive x : is_derive F2 x (F1 x).
Proof.
  pose proof (is_derive_comp G2 F0 x (Hd (F0 x) * phi (F0 x)) (occ x) (G2_derive _) (F0_derive x)) as D. unfold scal in D; cbn in D. unfold mult in D; cbn in D. rewrite phi_F0 in D. pose proof (F0_pos x) as P.
  replace (occ x * (Hd (F0 x) * (F0 x / occ x))) with (F1 x) in D; [exact D|]. unfold Hd, F1. destruct (Rle_dec (F0 x) 0); [lra|]. field. pose proof (occ_range x). lra.
Qed.
Definition k2 (x : R) : R := 6 * F2 x - 4 * x * F1 x + x ^ 2 * F0 x.
Definition A2 (eta u : R) : R := - (u + eta) * u ^ 2 * occ (- u) - (3 * u ^ 2 + 2 * eta * u) * F0 (- u) - (6 * u + 2 * eta) * F1 (- u) - 6 * F2 (- u).
Lemma A2_derive eta u : is_derive (A2 eta) u ((u + eta) * u ^ 2 * win u).
Proof.
  unfold A2. replace ((u + eta) * u ^ 2 * win u) with
    (((((- (3 * u ^ 2 + 2 * eta * u)) * occ (- u) + (- (u + eta) * u ^ 2) * (- (occ (- u) * (1 - occ (- u))))) - ((6 * u + 2 * eta) * F0 (- u) + (3 * u ^ 2 + 2 * eta * u) * (- occ (- u)))) - (6 * F1 (- u) + (6 * u + 2 * eta) * (- F0 (- u)))) - 6 * (- F1 (- u))) by (rewrite win_occ; ring).
  apply (subd (fun u => - (u + eta) * u ^ 2 * occ (- u) - (3 * u ^ 2 + 2 * eta * u) * F0 (- u) - (6 * u + 2 * eta) * F1 (- u)) (fun u => 6 * F2 (- u))); [|apply scald, negd, F2_derive].
  apply (subd (fun u => - (u + eta) * u ^ 2 * occ (- u) - (3 * u ^ 2 + 2 * eta * u) * F0 (- u)) (fun u => (6 * u + 2 * eta) * F1 (- u))).
  - apply (subd (fun u => - (u + eta) * u ^ 2 * occ (- u)) (fun u => (3 * u ^ 2 + 2 * eta * u) * F0 (- u))).
    + apply (muld (fun u => - (u + eta) * u ^ 2) (fun u => occ (- u))); [auto_derive; [exact I|ring]|apply negd, occ_derive].
    + apply (muld (fun u => 3 * u ^ 2 + 2 * eta * u) (fun u => F0 (- u))); [auto_derive; [exact I|ring]|apply negd, F0_derive].
  - apply (muld (fun u => 6 * u + 2 * eta) (fun u => F1 (- u))); [auto_derive; [exact I|ring]|apply negd, F1_derive].
Qed.
Lemma decay3 : exists K, 0 < K /\ forall u, 0 <= u -> (1 + u) ^ 3 * exp (- u) <= K / (1 + u).
Proof.
  destruct (exp_dominates 4) as (K & PK & H). exists (K * exp 1). split; [apply Rmult_lt_0_compat; [exact PK|apply exp_pos]|]. intros u Hu. specialize (H (1 + u) ltac:(lra)). rewrite exp_plus in H.
  assert (P1 : 0 < 1 + u) by lra. apply (proj1 (Rle_div_r _ _ _ P1)). replace ((1 + u) ^ 3 * exp (- u) * (1 + u)) with ((1 + u) ^ 4 * exp (- u)) by ring.
  assert (E : exp u * exp (- u) = 1) by (rewrite <- exp_plus, <- exp_0; f_equal; ring). replace (K * exp 1) with (K * (exp 1 * exp u) * exp (- u)) by (rewrite !Rmult_assoc, E; ring).
  apply Rmult_le_compat_r; [left; apply exp_pos|exact H].
Qed.
Lemma small_2 u : 0 <= u -> 0 < F2 (- u) <= 2 * exp (- u).
Proof.
  intros H. destruct (small_n u H) as (_ & Fn & _). assert (E1 : exp (- u) <= 1) by (rewrite <- exp_0; destruct H as [H|<-]; [left; apply exp_increasing; lra|rewrite Ropp_0; lra]).
  unfold F2. pose proof (G2_bounds (F0 (- u)) ltac:(lra)) as B. set (v := F0 (- u)) in *. assert (v ^ 2 <= v) by nra. assert (v ^ 3 <= v) by nra. lra.
Qed.
Lemma A2_small eta : exists B, forall u, 0 <= u -> Rabs (A2 eta u) <= B / (1 + u).
Proof.
  destruct decay3 as (K & PK & D). exists ((29 + 7 * Rabs eta) * K). intros u Hu. destruct (small_n u Hu) as (On & Fn & Gn). pose proof (small_2 u Hu) as G2n. specialize (D u Hu). pose proof (exp_pos (- u)) as Pe. pose proof (Rabs_pos eta) as Pt. pose proof (Rle_abs eta) as M1. pose proof (Rle_abs (- eta)) as M2. rewrite Rabs_Ropp in M2. set (t := Rabs eta) in *. set (e := exp (- u)) in *.
  apply Rle_trans with ((29 + 7 * t) * ((1 + u) ^ 3 * e)); [|unfold Rdiv; rewrite Rmult_assoc; apply Rmult_le_compat_l; [lra|exact D]].
  assert (U2 : 0 <= u ^ 2) by apply pow2_ge_0. assert (U3 : 0 <= u ^ 3) by (apply pow_le; exact Hu). assert (Tu : 0 <= t * u) by (apply Rmult_le_pos; assumption). assert (Tu2 : 0 <= t * u ^ 2) by (apply Rmult_le_pos; assumption). assert (Tu3 : 0 <= t * u ^ 3) by (apply Rmult_le_pos; assumption).
  assert (T1 : Rabs ((u + eta) * u ^ 2 * occ (- u)) <= (u + t) * u ^ 2 * e). { rewrite !Rabs_mult, (Rabs_pos_eq (u ^ 2)), (Rabs_pos_eq (occ _)) by lra. apply Rmult_le_compat; [apply Rmult_le_pos; [apply Rabs_pos|exact U2]|lra| |lra]. apply Rmult_le_compat_r; [exact U2|apply Rabs_le; lra]. }
  assert (T2 : Rabs ((3 * u ^ 2 + 2 * eta * u) * F0 (- u)) <= (3 * u ^ 2 + 2 * t * u) * e). { rewrite Rabs_mult, (Rabs_pos_eq (F0 _)) by lra. apply Rmult_le_compat; [apply Rabs_pos|lra| |lra]. apply Rabs_le. split; nra. }
  assert (T3 : Rabs ((6 * u + 2 * eta) * F1 (- u)) <= (6 * u + 2 * t) * (2 * e)). { rewrite Rabs_mult, (Rabs_pos_eq (F1 _)) by lra. apply Rmult_le_compat; [apply Rabs_pos|lra| |lra]. apply Rabs_le. split; lra. }
  apply Rabs_le_between in T1. apply Rabs_le_between in T2. apply Rabs_le_between in T3.
  assert (Tot : Rabs (A2 eta u) <= (u + t) * u ^ 2 * e + (3 * u ^ 2 + 2 * t * u) * e + (6 * u + 2 * t) * (2 * e) + 12 * e) by (unfold A2; apply Rabs_le; split; lra).
  eapply Rle_trans; [exact Tot|]. assert (Q : (u + t) * u ^ 2 + (3 * u ^ 2 + 2 * t * u) + (6 * u + 2 * t) * 2 + 12 <= (29 + 7 * t) * (1 + u) ^ 3) by (replace ((1 + u) ^ 3) with (1 + 3 * u + 3 * u ^ 2 + u ^ 3) by ring; nra).
  apply (Rmult_le_compat_r e) in Q; [|lra]. lra.
Qed.
Lemma K2_integral s EF T : 0 < T -> fermi_integral (fun E => spb_trs s E T) EF T 2 (s * k2 (EF / (kB * T))).
Proof.
  intros HT. pose proof kB_pos as PB. assert (PK : 0 < kB * T) by (apply Rmult_lt_0_compat; lra). set (eta := EF / (kB * T)).
  destruct (A2_small eta) as (B & HB). replace (s * k2 eta) with (- (fun u => s * A2 eta u) (- eta)) by (unfold A2, k2; rewrite Ropp_involutive; ring).
  apply (by_primitive _ (fun u => s * A2 eta u) (fun u => s * ((u + eta) * u ^ 2 * win u)) EF T 2 (Rabs s * B) HT).
  - intros u. apply scald, A2_derive.
  - intros u. apply (continuous_mult (fun _ => s) (fun u => (u + eta) * u ^ 2 * win u)); [apply continuous_const|]. apply (continuous_mult (fun u => (u + eta) * u ^ 2) win); [|apply win_cont]. apply (ex_derive_continuous (fun u => (u + eta) * u ^ 2)). auto_derive. exact I.
  - intros E. unfold spb_trs, fermi_window, win, eta. cbn [pow]. pose proof (exp_pos ((E - EF) / (kB * T))). field. split; lra.
  - intros u Hu. rewrite Rabs_mult. unfold Rdiv. rewrite Rmult_assoc. apply Rmult_le_compat_l; [apply Rabs_pos|]. apply HB, Hu.
Qed.
(** the slope of the Seebeck coefficient *)
Definition sb (x : R) : R := hh x / F0 x.
Lemma phi_over a b : 0 < a -> a < b -> phi b / b < phi a / a.
Proof.
  intros Ha H. assert (E : forall w, 0 < w -> phi w / w = / (1 - exp (- w))) by (intros w Hw; pose proof (one_minus w Hw); unfold phi; destruct (Rle_dec w 0); [lra|]; field; lra). rewrite (E a Ha), (E b ltac:(lra)).
  pose proof (one_minus a Ha). pose proof (one_minus b ltac:(lra)). assert (exp (- b) < exp (- a)) by (apply exp_increasing; lra). apply Rinv_lt_contravar; [apply Rmult_lt_0_compat; assumption|lra].
Qed.
(* v phi(v) < 2 G(v) *)
Lemma phi_G v : 0 < v -> v * phi v < 2 * Gd v.
Proof.
  intros H. assert (A : (fun x => 2 * Gd x - phi v / v * x ^ 2) 0 < (fun x => 2 * Gd x - phi v / v * x ^ 2) v).
  { apply (incr_from (fun x => 2 * Gd x - phi v / v * x ^ 2) (fun x => 2 * phi x - phi v / v * (2 * x))); [exact H|intros c _; apply (subd (fun x => 2 * Gd x) (fun x => phi v / v * x ^ 2)); [apply scald, Gd_derive|apply (scald (fun x => x ^ 2)); auto_derive; [exact I|ring]]|].
    intros c Hc. pose proof (phi_over c v ltac:(lra) ltac:(lra)) as O. assert (X : phi c = phi c / c * c) by (field; lra). rewrite X. nra. }
  cbv beta in A. rewrite Gd_0 in A. replace (phi v / v * v ^ 2) with (v * phi v) in A by (field; lra). lra.
Qed.
Lemma sb_derive x : is_derive sb x (1 - 2 * F1 x * occ x / F0 x ^ 2).
Proof.
  unfold sb. pose proof (F0_pos x) as P. pose proof (is_derive_div hh F0 x _ _ (hh_derive x) (F0_derive x) ltac:(lra)) as D. unfold minus, plus, opp, scal, mult in D; cbn in D. unfold mult in D; cbn in D.
  replace (1 - 2 * F1 x * occ x / F0 x ^ 2) with (((F0 x - x * occ x) * F0 x - hh x * occ x) / F0 x ^ 2); [|unfold hh; field; lra]. eapply is_derive_ext_loc; [|exact D]. apply filter_forall. reflexivity.
Qed.
Lemma sb_slope x : 1 - 2 * F1 x * occ x / F0 x ^ 2 < 0.
Proof.
  pose proof (F0_pos x) as P. pose proof (occ_range x) as O. pose proof (phi_G (F0 x) P) as Q. rewrite phi_F0 in Q. fold (F1 x) in Q. assert (P2 : 0 < F0 x ^ 2) by nra.
  assert (Q2 : F0 x ^ 2 < 2 * F1 x * occ x). { apply (Rmult_lt_compat_r (occ x)) in Q; [|lra]. replace (F0 x * (F0 x / occ x) * occ x) with (F0 x ^ 2) in Q by (field; lra). exact Q. }
  assert (1 < 2 * F1 x * occ x / F0 x ^ 2); [|lra]. apply (Rmult_lt_reg_r (F0 x ^ 2)); [exact P2|]. unfold Rdiv. rewrite Rmult_assoc, Rinv_l by lra. lra.
Qed.
Lemma sb_decr x y : x < y -> sb y < sb x.
Proof.
  intros H. assert (A : (fun x => - sb x) x < (fun x => - sb x) y); [|cbv beta in A; lra].
  apply (incr_from (fun x => - sb x) (fun x => - (1 - 2 * F1 x * occ x / F0 x ^ 2))); [exact H|intros c _; apply (is_derive_opp sb c (1 - 2 * F1 c * occ c / F0 c ^ 2)), sb_derive|]. intros c _. pose proof (sb_slope c). lra.
Qed.
Lemma sb_pos x : 0 < sb x. Proof. unfold sb. apply Rdiv_lt_0_compat; [apply hh_pos|apply F0_pos]. Qed.
Lemma sb_form x : sb x = 2 * (F1 x / F0 x) - x. Proof. unfold sb, hh. pose proof (F0_pos x). field. lra. Qed.
Lemma F1_ratio x : 1 <= F1 x / F0 x <= 1 + F0 x / 2.
Proof. pose proof (F0_pos x) as P. pose proof (F1_bounds x). split; [apply (proj1 (Rle_div_r _ _ _ P))|apply (proj2 (Rle_div_l _ _ _ P))]; nra. Qed.
Lemma F2_ratio x : 1 <= F2 x / F0 x <= 1 + 3 * F0 x / 4 + F0 x ^ 2 / 6.
Proof. pose proof (F0_pos x) as P. pose proof (G2_bounds (F0 x) ltac:(lra)) as B. fold (F2 x) in B. split; [apply (proj1 (Rle_div_r _ _ _ P))|apply (proj2 (Rle_div_l _ _ _ P))]; lra. Qed.
Lemma sb_nondeg x : 0 <= sb x - (2 - x) <= exp x.
Proof. rewrite sb_form. pose proof (F1_ratio x). pose proof (F0_le x). lra. Qed.
Lemma Gd_deg v : 0 <= v -> Gd v <= v ^ 2 / 2 + 4.
Proof.
  intros H. assert (A : (fun x => (x ^ 2 / 2 + (4 - 4 / (1 + x / 4))) - Gd x) 0 <= (fun x => (x ^ 2 / 2 + (4 - 4 / (1 + x / 4))) - Gd x) v).
  { apply (incr_weak (fun x => (x ^ 2 / 2 + (4 - 4 / (1 + x / 4))) - Gd x) (fun x => (x + / (1 + x / 4) ^ 2) - phi x)); [exact H|intros c Hc; apply (subd (fun x => x ^ 2 / 2 + (4 - 4 / (1 + x / 4))) Gd); [auto_derive; [lra|field; lra]|apply Gd_derive]|].
    intros c Hc. pose proof (one_minus c ltac:(lra)) as O. assert (E : phi c = c + c / (exp c - 1)).
    { unfold phi. destruct (Rle_dec c 0); [lra|]. rewrite exp_Ropp in *. pose proof (exp_pos c). assert (1 < exp c) by (rewrite <- exp_0; apply exp_increasing; lra). field. split; [|lra]. lra. }
    rewrite E. pose proof (exp_low 3 c ltac:(lra)) as T. cbn [tay tm] in T. assert (T' : 1 + c + c ^ 2 / 2 + c ^ 3 / 6 <= exp c) by (eapply Rle_trans; [|exact T]; right; cbn; field). clear T.
    assert (B : c * (1 + c / 4) ^ 2 <= exp c - 1) by nra. assert (P1 : 0 < (1 + c / 4) ^ 2) by nra. assert (P2 : 0 < exp c - 1) by nra.
    assert (X : c / (exp c - 1) <= / (1 + c / 4) ^ 2). { apply (proj2 (Rle_div_l _ _ _ P2)). replace (/ (1 + c / 4) ^ 2 * (exp c - 1)) with ((exp c - 1) / (1 + c / 4) ^ 2) by (field; lra). apply (proj1 (Rle_div_r _ _ _ P1)). exact B. }
    lra. }
  cbv beta in A. rewrite Gd_0 in A. assert (0 < 4 / (1 + v / 4)) by (apply Rdiv_lt_0_compat; lra). lra.
Qed.
Lemma F0_flip x : F0 x = x + F0 (- x).
Proof.
  unfold F0. pose proof (exp_pos x). pose proof (exp_pos (- x)). rewrite <- (ln_exp x) at 2. rewrite <- ln_mult by lra. f_equal. rewrite Rmult_plus_distr_l, <- exp_plus. replace (x + - x) with 0 by ring. rewrite exp_0. ring.
Qed.
Lemma sb_deg x : 0 < x -> sb x <= 9 / x.
Proof.
  intros H. rewrite sb_form. pose proof (F0_pos x) as P. pose proof (F0_gt x) as G. pose proof (Gd_deg (F0 x) ltac:(lra)) as D. fold (F1 x) in D. pose proof (F0_flip x) as E. pose proof (F0_le (- x)) as L.
  assert (R1 : F1 x / F0 x <= F0 x / 2 + 4 / F0 x). { apply (proj2 (Rle_div_l _ _ _ P)). replace ((F0 x / 2 + 4 / F0 x) * F0 x) with (F0 x ^ 2 / 2 + 4) by (field; lra). exact D. }
  assert (R2 : 4 / F0 x <= 4 / x). { unfold Rdiv. apply Rmult_le_compat_l; [lra|]. apply Rinv_le_contravar; lra. }
  assert (R3 : exp (- x) <= 1 / x). { rewrite exp_Ropp. unfold Rdiv. rewrite Rmult_1_l. apply Rinv_le_contravar; [exact H|]. pose proof (exp_ge x). lra. }
  replace (9 / x) with (2 * (4 / x) + 1 / x) by (field; lra). lra.
Qed.
Lemma sb_cont x : continuity_pt sb x.
Proof. apply derivable_continuous_pt. exists (1 - 2 * F1 x * occ x / F0 x ^ 2). apply is_derive_Reals, sb_derive. Qed.
Lemma sb_onto S : 0 < S -> exists x, sb x = S.
Proof.
  intros H. set (a := 1 - S). assert (P9 : 0 < 9 / S) by (apply Rdiv_lt_0_compat; lra). set (b := Rmax (9 / S) (2 - S) + 1).
  assert (Hb : 9 / S < b /\ 2 - S < b) by (unfold b; pose proof (Rmax_l (9 / S) (2 - S)); pose proof (Rmax_r (9 / S) (2 - S)); lra). destruct Hb as (Hb & Hb2).
  assert (La : 0 < sb a - S) by (pose proof (sb_nondeg a); unfold a in *; lra).
  assert (Lb : sb b - S < 0). { pose proof (sb_deg b ltac:(lra)) as D. assert (9 / b < S); [|lra]. apply (Rmult_lt_reg_r b); [lra|]. unfold Rdiv at 1. rewrite Rmult_assoc, Rinv_l by lra. apply (Rmult_lt_compat_l S) in Hb; [|exact H]. replace (S * (9 / S)) with 9 in Hb by (field; lra). lra. }
  destruct (IVT_interv (fun x => S - sb x) a b) as (z & _ & Ez).
  - intros c _. apply continuity_pt_minus; [apply continuity_pt_const; intros u w; reflexivity|apply sb_cont].
  - unfold a. lra.
  - lra.
  - lra.
  - exists z. lra.
Qed.
(** Lorenz number *)
Definition lz (x : R) : R := k2 x / F0 x - sb x ^ 2.
Lemma lz_form x : lz x = 6 * (F2 x / F0 x) - 4 * (F1 x / F0 x) ^ 2.
Proof. unfold lz, k2. rewrite sb_form. pose proof (F0_pos x). field. lra. Qed.
Lemma lz_nondeg x : - (4 * exp x + exp x ^ 2) <= lz x - 2 <= 9 / 2 * exp x + exp x ^ 2.
Proof.
  rewrite lz_form. pose proof (F1_ratio x) as A. pose proof (F2_ratio x) as B. pose proof (F0_le x) as L. pose proof (F0_pos x) as P. set (r := F1 x / F0 x) in *. set (q := F2 x / F0 x) in *. set (v := F0 x) in *. set (e := exp x) in *. assert (V : v ^ 2 <= e ^ 2) by nra.
  assert (1 <= r ^ 2 <= 1 + v + v ^ 2 / 4) by nra. lra.
Qed.
