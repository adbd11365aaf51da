(** Lemmas for OptProps: the optimum of the power factor of the parabolic band. *)
From Coq Require Import Reals Lra Lia.
From Coquelicot Require Import Coquelicot.
From Verif Require Import Py RUtil FuncModel RombModel RconvSpec.
Local Open Scope R_scope.
Lemma incr_from (f f' : R -> R) a b : a < b -> (forall c, a <= c <= b -> is_derive f c (f' c)) -> (forall c, a < c < b -> 0 < f' c) -> f a < f b.
Proof.
  intros H D P. destruct (MVT_cor2 f f' a b H) as (c & E & Hc); [intros c Hc; apply is_derive_Reals, D, Hc|]. pose proof (P c Hc). nra.
Qed.
Lemma incr_weak (f f' : R -> R) a b : a <= b -> (forall c, a <= c <= b -> is_derive f c (f' c)) -> (forall c, a < c < b -> 0 <= f' c) -> f a <= f b.
Proof.
  intros [H| ->] D P; [|lra]. destruct (MVT_cor2 f f' a b H) as (c & E & Hc); [intros c Hc; apply is_derive_Reals, D, Hc|]. pose proof (P c Hc). nra.
Qed.
Lemma exp_ge x : 1 + x <= exp x. Proof. apply exp_ineq1_le. Qed.
(** w / (1 - e^-w) *)
Definition phi (w : R) : R := if Rle_dec w 0 then 1 else w / (1 - exp (- w)).
Lemma one_minus w : 0 < w -> 0 < 1 - exp (- w).
Proof. intros H. assert (exp (- w) < exp 0) by (apply exp_increasing; lra). rewrite exp_0 in *. lra. Qed.
Lemma phi_bounds w : 1 <= phi w <= 1 + Rabs w.
Proof.
  unfold phi. destruct (Rle_dec w 0) as [L|L]; [pose proof (Rabs_pos w); lra|]. assert (P : 0 < w) by lra. pose proof (one_minus w P) as O. rewrite (Rabs_pos_eq w) by lra. split.
  - apply Rle_div_r; [exact O|]. pose proof (exp_ge (- w)). lra.
  - apply Rle_div_l; [exact O|]. pose proof (exp_ge w) as X. assert (E : exp (- w) * exp w = 1) by (rewrite <- exp_plus, <- exp_0; f_equal; ring). pose proof (exp_pos (- w)). nra.
Qed.
Lemma phi_cont w : continuous phi w.
Proof.
  destruct (Rtotal_order w 0) as [L|[->|G]].
  - apply (continuous_ext_loc phi (fun _ => 1) w); [|apply continuous_const]. assert (P : 0 < - w) by lra. exists (mkposreal _ P). intros y Hy. unfold ball in Hy; cbn in Hy. unfold AbsRing_ball, abs, minus, plus, opp in Hy; cbn in Hy.
    apply Rabs_def2 in Hy. unfold phi. destruct (Rle_dec y 0); [reflexivity|lra].
  - apply continuity_pt_filterlim. intros eps He. exists eps. split; [exact He|]. intros y (_ & Hy). unfold dist in *; cbn in *. unfold R_dist in *. rewrite Rminus_0_r in Hy. pose proof (phi_bounds y) as B.
    unfold phi at 2. destruct (Rle_dec 0 0); [|lra]. rewrite Rabs_pos_eq by lra. lra.
  - apply (continuous_ext_loc phi (fun w => w / (1 - exp (- w))) w).
    + exists (mkposreal _ G). intros y Hy. unfold ball in Hy; cbn in Hy. unfold AbsRing_ball, abs, minus, plus, opp in Hy; cbn in Hy. apply Rabs_def2 in Hy. unfold phi. destruct (Rle_dec y 0); [lra|reflexivity].
    + apply (ex_derive_continuous (fun w => w / (1 - exp (- w)))). pose proof (one_minus w G). auto_derive. lra.
Qed.
Definition Gd (v : R) : R := RInt phi 0 v.
Lemma Gd_derive v : is_derive Gd v (phi v).
Proof.
  apply (is_derive_RInt phi Gd 0 v); [|apply phi_cont]. apply filter_forall. intros y. apply (RInt_correct (V := R_CompleteNormedModule)). apply (ex_RInt_continuous (V := R_CompleteNormedModule)). intros; apply phi_cont.
Qed.
Lemma Gd_D c : Derive (fun x => Gd x) c = phi c. Proof. apply is_derive_unique. apply Gd_derive. Qed.
Lemma Gd_0 : Gd 0 = 0. Proof. unfold Gd. rewrite RInt_point. reflexivity. Qed.
Lemma Gd_bounds v : 0 <= v -> v <= Gd v <= v + v ^ 2 / 2.
Proof.
  intros H. split.
  - assert (A : (fun x => Gd x - x) 0 <= (fun x => Gd x - x) v).
    { apply (incr_weak (fun x => Gd x - x) (fun x => phi x - 1)); [exact H| |].
      - intros c _. auto_derive; [repeat split; eexists; apply Gd_derive|]; rewrite Gd_D; field.
      - intros c _. pose proof (phi_bounds c). lra. }
    cbv beta in A. rewrite Gd_0 in A. lra.
  - assert (A : (fun x => x + x ^ 2 / 2 - Gd x) 0 <= (fun x => x + x ^ 2 / 2 - Gd x) v).
    { apply (incr_weak (fun x => x + x ^ 2 / 2 - Gd x) (fun x => 1 + x - phi x)); [exact H| |].
      - intros c _. auto_derive; [repeat split; eexists; apply Gd_derive|]; rewrite Gd_D; field.
      - intros c Hc. pose proof (phi_bounds c) as B. rewrite Rabs_pos_eq in B by lra. lra. }
    cbv beta in A. rewrite Gd_0 in A. lra.
Qed.
(** functions of the reduced Fermi level *)
Definition occ (x : R) : R := exp x / (1 + exp x).
Definition F0 (x : R) : R := ln (1 + exp x).
Definition F1 (x : R) : R := Gd (F0 x).
Lemma expp x : 0 < 1 + exp x. Proof. pose proof (exp_pos x). lra. Qed.
Lemma occ_range x : 0 < occ x < 1.
Proof. unfold occ. pose proof (exp_pos x). split; [apply Rdiv_lt_0_compat; lra|]. apply Rlt_div_l; lra. Qed.
Lemma F0_pos x : 0 < F0 x. Proof. unfold F0. rewrite <- ln_1. apply ln_increasing; [lra|]. pose proof (exp_pos x). lra. Qed.
Lemma F0_le x : F0 x <= exp x.
Proof. unfold F0. apply Rle_trans with (ln (exp (exp x))); [apply ln_le; [apply expp|pose proof (exp_ge (exp x)); lra]|]. rewrite ln_exp. lra. Qed.
Lemma F0_derive x : is_derive F0 x (occ x).
Proof. unfold F0, occ. auto_derive; [apply expp|]. field. apply Rgt_not_eq, expp. Qed.
Lemma occ_derive x : is_derive occ x (occ x * (1 - occ x)).
Proof. unfold occ. pose proof (expp x). auto_derive; [lra|]. field. lra. Qed.
Lemma exp_F0 x : 1 - exp (- F0 x) = occ x.
Proof. unfold F0, occ. rewrite exp_Ropp, exp_ln by apply expp. field. apply Rgt_not_eq, expp. Qed.
Lemma phi_F0 x : phi (F0 x) = F0 x / occ x.
Proof. unfold phi. pose proof (F0_pos x). destruct (Rle_dec (F0 x) 0); [lra|]. rewrite exp_F0. reflexivity. Qed.
Lemma F1_derive x : is_derive F1 x (F0 x).
Proof.
  pose proof (is_derive_comp Gd F0 x (phi (F0 x)) (occ x) (Gd_derive _) (F0_derive x)) as D. unfold scal in D; cbn in D. unfold mult in D; cbn in D. rewrite phi_F0 in D.
  replace (occ x * (F0 x / occ x)) with (F0 x) in D by (field; pose proof (occ_range x); lra). exact D.
Qed.
Lemma F1_bounds x : F0 x <= F1 x <= F0 x + F0 x ^ 2 / 2. Proof. apply Gd_bounds. left. apply F0_pos. Qed.
Lemma F0_gt x : x < F0 x. Proof. unfold F0. rewrite <- (ln_exp x) at 1. apply ln_increasing; [apply exp_pos|lra]. Qed.
(** the power factor, up to factors *)
Definition hh (x : R) : R := 2 * F1 x - x * F0 x.
Definition pf (x : R) : R := hh x ^ 2 / F0 x.
Definition De (x : R) : R := 2 * F0 x ^ 2 / occ x - x * F0 x - 2 * F1 x.
Lemma F0_D x : Derive (fun x => F0 x) x = occ x. Proof. apply is_derive_unique, F0_derive. Qed.
Lemma F1_D x : Derive (fun x => F1 x) x = F0 x. Proof. apply is_derive_unique, F1_derive. Qed.
Lemma occ_D x : Derive (fun x => occ x) x = occ x * (1 - occ x). Proof. apply is_derive_unique, occ_derive. Qed.
Lemma F0_ex x : ex_derive F0 x. Proof. eexists. apply F0_derive. Qed.
Lemma F1_ex x : ex_derive F1 x. Proof. eexists. apply F1_derive. Qed.
Lemma occ_ex x : ex_derive occ x. Proof. eexists. apply occ_derive. Qed.
Lemma hh_derive x : is_derive hh x (F0 x - x * occ x).
Proof.
  unfold hh. auto_derive; [split; [apply F1_ex|split; [apply F0_ex|exact I]]|]. rewrite F1_D, F0_D. ring.
Qed.
Lemma hh_D x : Derive (fun x => hh x) x = F0 x - x * occ x. Proof. apply is_derive_unique, hh_derive. Qed.
Lemma hh_incr x y : x < y -> hh x < hh y.
Proof.
  intros H. apply (incr_from hh (fun x => F0 x - x * occ x)); [exact H|intros; apply hh_derive|]. intros c _. pose proof (F0_pos c). pose proof (F0_gt c). pose proof (occ_range c). destruct (Rle_lt_dec c 0); nra.
Qed.
Lemma hh_pos x : 0 < hh x.
Proof.
  assert (N : forall y, y <= 0 -> 0 < hh y) by (intros y Hy; unfold hh; pose proof (F0_pos y); pose proof (F1_bounds y); nra).
  destruct (Rle_lt_dec x 0) as [L|L]; [exact (N x L)|]. pose proof (hh_incr 0 x L). pose proof (N 0 ltac:(lra)). lra.
Qed.
Lemma pf_derive x : is_derive pf x (hh x * occ x / F0 x ^ 2 * De x).
Proof.
  unfold pf. pose proof (F0_pos x). pose proof (occ_range x). auto_derive; [split; [eexists; apply hh_derive|split; [apply F0_ex|split; [lra|exact I]]]|].
  rewrite hh_D, F0_D. unfold De, hh. field. lra.
Qed.
Lemma De_derive x : is_derive De x (F0 x - x * occ x - 2 * F0 x ^ 2 * (1 - occ x) / occ x).
Proof.
  unfold De. pose proof (occ_range x). auto_derive; [repeat split; try apply F0_ex; try apply F1_ex; try apply occ_ex; lra|].
  rewrite F1_D, F0_D, occ_D. field. lra.
Qed.
(** below 0 *)
Lemma phi_incr a b : 0 < a -> a <= b -> phi a <= phi b.
Proof.
  intros Ha [H| ->]; [|lra]. unfold phi. destruct (Rle_dec a 0), (Rle_dec b 0); try lra.
  apply (incr_weak (fun w => w / (1 - exp (- w))) (fun w => (1 - exp (- w) - w * exp (- w)) / (1 - exp (- w)) ^ 2)); [lra| |].
  - intros c Hc. pose proof (one_minus c ltac:(lra)). auto_derive; [lra|]. field. lra.
  - intros c Hc. pose proof (one_minus c ltac:(lra)) as O. apply Rdiv_le_0_compat; [|apply pow_lt; exact O]. pose proof (exp_ge c) as X. assert (E : exp (- c) * exp c = 1) by (rewrite <- exp_plus, <- exp_0; f_equal; ring). pose proof (exp_pos (- c)). nra.
Qed.
Lemma Gd_phi v : 0 < v -> Gd v <= v * phi v.
Proof.
  intros H. assert (A : (fun x => x * phi v - Gd x) 0 <= (fun x => x * phi v - Gd x) v).
  { apply (incr_weak (fun x => x * phi v - Gd x) (fun x => phi v - phi x)); [lra| |].
    - intros c _. auto_derive; [repeat split; eexists; apply Gd_derive|]; rewrite Gd_D; field.
    - intros c Hc. pose proof (phi_incr c v ltac:(lra) ltac:(lra)). lra. }
  cbv beta in A. rewrite Gd_0 in A. lra.
Qed.
Lemma De_low x : x < 0 -> 0 < De x.
Proof.
  intros H. unfold De. pose proof (F0_pos x). pose proof (Gd_phi (F0 x) (F0_pos x)) as B. rewrite phi_F0 in B. fold (F1 x) in B. replace (2 * F0 x ^ 2 / occ x) with (2 * (F0 x * (F0 x / occ x))) by (field; pose proof (occ_range x); lra). nra.
Qed.
(** bounds of the exponential function *)
Fixpoint tm (n : nat) (x : R) : R := match n with O => 1 | S k => tm k x * x / IZR (Z.of_nat (S k)) end.
Fixpoint tay (n : nat) (x : R) : R := match n with O => 1 | S k => tay k x + tm (S k) x end.
Lemma tm_S n x : tm (S n) x = tm n x * x / IZR (Z.of_nat (S n)). Proof. reflexivity. Qed.
Lemma tm_1 (t : R) : t = tm 1 t. Proof. rewrite tm_S. cbn. field. Qed.
Lemma tm_alg (t x a : R) : 0 < a -> (t * x + t * x / a * 1) * / (a + 1) = t * x / a.
Proof. intros P. field. split; apply Rgt_not_eq; lra. Qed.
Lemma mulx (f : R -> R) x l a : is_derive f x l -> is_derive (fun x : R => f x * x / a) x ((l * x + f x * 1) * / a).
Proof.
  intros D. apply is_derive_Reals. apply is_derive_Reals in D. pose proof (derivable_pt_lim_mult f id x l 1 D (derivable_pt_lim_id x)) as M.
  pose proof (derivable_pt_lim_scal (f * id)%F (/ a) x _ M) as Q. unfold mult_real_fct, mult_fct, id in Q. rewrite (Rmult_comm _ (/ a)).
  apply is_derive_Reals. apply is_derive_Reals in Q. apply (is_derive_ext (fun x0 : R => / a * (f x0 * x0))); [|exact Q]. intros t. exact (Rmult_comm (/ a) (f t * t)).
Qed.
Lemma addd (f g : R -> R) x a b : is_derive f x a -> is_derive g x b -> is_derive (fun x : R => f x + g x) x (a + b).
Proof.
  intros A B. apply is_derive_Reals in A. apply is_derive_Reals in B. apply is_derive_Reals. exact (derivable_pt_lim_plus f g x a b A B).
Qed.
Lemma subd (f g : R -> R) x a b : is_derive f x a -> is_derive g x b -> is_derive (fun x : R => f x - g x) x (a - b).
Proof.
  intros A B. apply is_derive_Reals in A. apply is_derive_Reals in B. apply is_derive_Reals. exact (derivable_pt_lim_minus f g x a b A B).
Qed.
Lemma scald (f : R -> R) x c a : is_derive f x a -> is_derive (fun x : R => c * f x) x (c * a).
Proof.
  intros A. apply is_derive_Reals in A. apply is_derive_Reals. exact (derivable_pt_lim_scal f c x a A).
Qed.
Lemma expd x : is_derive exp x (exp x). Proof. apply is_derive_Reals, derivable_pt_lim_exp. Qed.
Lemma tm_derive n : forall x, is_derive (tm (S n)) x (tm n x).
Proof.
  induction n as [|n IH]; intros x.
  - apply (is_derive_ext (fun x : R => x)); [exact tm_1|]. auto_derive; [exact I|reflexivity].
  - apply (is_derive_ext (fun x : R => tm (S n) x * x / IZR (Z.of_nat (S (S n))))); [intros t; rewrite (tm_S (S n)); reflexivity|].
    pose proof (IH x) as D. assert (E : Derive (fun x => tm (S n) x) x = tm n x) by (apply is_derive_unique, D).
    assert (P : 0 < IZR (Z.of_nat (S n))) by (apply IZR_lt; lia). rewrite (Nat2Z.inj_succ (S n)), succ_IZR.
    replace (tm (S n) x) with ((tm n x * x + tm (S n) x * 1) * / (IZR (Z.of_nat (S n)) + 1)) by exact (tm_alg (tm n x) x _ P). apply mulx. exact D.
Qed.
Lemma tay_S n x : tay (S n) x = tay n x + tm (S n) x. Proof. reflexivity. Qed.
Lemma tay_derive n : forall x, is_derive (tay (S n)) x (tay n x).
Proof.
  induction n as [|n IH]; intros x.
  - apply (is_derive_ext (fun x : R => 1 + x)); [intros t; rewrite (tm_1 t) at 1; reflexivity|]. auto_derive; [exact I|reflexivity].
  - rewrite tay_S. apply (is_derive_ext (fun x : R => tay (S n) x + tm (S (S n)) x)); [intros t; rewrite (tay_S (S n)); reflexivity|]. apply addd; [apply IH|apply tm_derive].
Qed.
Lemma tay_0 n : tay n 0 = 1.
Proof. induction n as [|n IH]; [reflexivity|]. cbn [tay tm]. rewrite IH. unfold Rdiv. rewrite Rmult_0_r, Rmult_0_l. ring. Qed.
Lemma tm_0 n : tm (S n) 0 = 0. Proof. cbn [tm]. unfold Rdiv. rewrite Rmult_0_r, Rmult_0_l. reflexivity. Qed.
Lemma exp_low n : forall x, 0 <= x -> tay n x <= exp x.
Proof.
  induction n as [|n IH]; intros x Hx; [cbn; pose proof (exp_ge x); lra|].
  assert (A : (fun x => exp x - tay (S n) x) 0 <= (fun x => exp x - tay (S n) x) x).
  { apply (incr_weak (fun x => exp x - tay (S n) x) (fun x => exp x - tay n x)); [exact Hx| |].
    - intros c _. apply (subd exp (tay (S n))); [apply expd|apply tay_derive].
    - intros c Hc. specialize (IH c ltac:(lra)). lra. }
  cbv beta in A. rewrite tay_0, exp_0 in A. lra.
Qed.
Lemma exp_high n : forall x, 0 <= x <= 2 -> exp x <= tay n x + 9 * tm (S n) x.
Proof.
  assert (E2 : exp 2 <= 9). { replace 2 with (1 + 1) by ring. rewrite exp_plus. pose proof exp_le_3. pose proof (exp_pos 1). nra. }
  induction n as [|n IH]; intros x Hx.
  - assert (A : (fun x => 1 + 9 * x - exp x) 0 <= (fun x => 1 + 9 * x - exp x) x).
    { apply (incr_weak (fun x => 1 + 9 * x - exp x) (fun x => 9 - exp x)); [lra| |].
      - intros c _. auto_derive; [exact I|ring].
      - intros c Hc. assert (exp c < exp 2) by (apply exp_increasing; lra). lra. }
    cbv beta in A. rewrite exp_0 in A. cbn. lra.
  - assert (A : (fun x => tay (S n) x + 9 * tm (S (S n)) x - exp x) 0 <= (fun x => tay (S n) x + 9 * tm (S (S n)) x - exp x) x).
    { apply (incr_weak (fun x => tay (S n) x + 9 * tm (S (S n)) x - exp x) (fun x => tay n x + 9 * tm (S n) x - exp x)); [lra| |].
      - intros c _. apply (subd (fun x => tay (S n) x + 9 * tm (S (S n)) x) exp); [|apply expd]. apply (addd (tay (S n)) (fun x => 9 * tm (S (S n)) x)); [apply tay_derive|]. apply scald, tm_derive.
      - intros c Hc. specialize (IH c ltac:(lra)). lra. }
    cbv beta in A. rewrite tay_0, tm_0, exp_0 in A. lra.
Qed.
Lemma ln_from_exp_low y c : 0 < y -> exp c <= y -> c <= ln y. Proof. intros P H. rewrite <- (ln_exp c). apply ln_le; [apply exp_pos|exact H]. Qed.
Lemma ln_from_exp_high y c : 0 < y -> y <= exp c -> ln y <= c. Proof. intros P H. rewrite <- (ln_exp c). apply ln_le; assumption. Qed.
Lemma ln2_low : 0.69 <= ln 2.
Proof. apply ln_from_exp_low; [lra|]. eapply Rle_trans; [apply (exp_high 7); lra|]. cbn [tay tm Z.of_nat Pos.of_succ_nat Pos.succ]. lra. Qed.
Lemma ln_cubic u : 0 <= u -> ln (1 + u) <= u - u ^ 2 / 2 + u ^ 3 / 3.
Proof.
  intros H. assert (A : (fun u => u - u ^ 2 / 2 + u ^ 3 / 3 - ln (1 + u)) 0 <= (fun u => u - u ^ 2 / 2 + u ^ 3 / 3 - ln (1 + u)) u).
  { apply (incr_weak (fun u => u - u ^ 2 / 2 + u ^ 3 / 3 - ln (1 + u)) (fun u => u ^ 3 / (1 + u))); [exact H| |].
    - intros c Hc. auto_derive; [lra|]. field. lra.
    - intros c Hc. apply Rdiv_le_0_compat; [apply pow_le|]; lra. }
  cbv beta in A. rewrite Rplus_0_r, ln_1 in A. lra.
Qed.
Lemma occ_half c : 0 < c -> 1 / 2 <= occ c.
Proof.
  intros Hc. unfold occ. assert (H : 1 < exp c) by (rewrite <- exp_0; apply exp_increasing; lra). apply (proj1 (Rle_div_r (1 / 2) (exp c) (1 + exp c) ltac:(lra))). lra.
Qed.
(** above 0 the slope is negative *)
Lemma slope_neg x : 0 <= x -> F0 x - x * occ x - 2 * F0 x ^ 2 * (1 - occ x) / occ x < 0.
Proof.
  intros Hx. set (u := exp (- x)). assert (Pu : 0 < u) by apply exp_pos. assert (Ee : exp x = / u) by (unfold u; rewrite exp_Ropp, Rinv_inv; reflexivity).
  assert (U1 : u <= 1) by (unfold u; rewrite <- exp_0; destruct Hx as [Hx|<-]; [left; apply exp_increasing; lra|rewrite Ropp_0; lra]).
  assert (Eo : occ x = 1 / (1 + u)) by (unfold occ; rewrite Ee; field; lra).
  assert (EF : F0 x = x + ln (1 + u)). { unfold F0. rewrite Ee. replace (1 + / u) with (/ u * (1 + u)) by (field; lra). rewrite ln_mult by (try apply Rinv_0_lt_compat; lra). rewrite <- Ee, ln_exp. reflexivity. }
  assert (Low : 0.69 + x / 2 <= F0 x).
  { assert (A : (fun y => F0 y - y / 2) 0 <= (fun y => F0 y - y / 2) x).
    { apply (incr_weak (fun y => F0 y - y / 2) (fun y => occ y - 1 / 2)); [exact Hx| |].
      - intros c _. apply (subd F0 (fun y => y / 2)); [apply F0_derive|]. auto_derive; [exact I|field].
      - intros c Hc. pose proof (occ_half c ltac:(lra)). lra. }
    cbv beta in A. replace (F0 0) with (ln 2) in A by (unfold F0; rewrite exp_0; f_equal; ring). pose proof ln2_low. lra. }
  assert (Er : (1 - occ x) / occ x = u) by (rewrite Eo; field; lra).
  replace (2 * F0 x ^ 2 * (1 - occ x) / occ x) with (2 * F0 x ^ 2 * ((1 - occ x) / occ x)) by (unfold Rdiv; ring). rewrite Er.
  pose proof (ln_cubic u ltac:(lra)) as Lc. assert (X : F0 x - x * occ x = ln (1 + u) + x * (u / (1 + u))) by (rewrite EF, Eo; field; lra). rewrite X.
  assert (Y : x * (u / (1 + u)) <= x * u). { apply Rmult_le_compat_l; [exact Hx|]. apply Rle_div_l; nra. }
  assert (Sq : 2 * (0.69 + x / 2) ^ 2 <= 2 * F0 x ^ 2) by nra.
  assert (Z : 1 - u / 2 + u ^ 2 / 3 + x < 2 * (0.69 + x / 2) ^ 2).
  { destruct (Rle_lt_dec u (1 / 2)) as [L|L].
    - assert (0.69 <= x). { apply Rle_trans with (ln 2); [apply ln2_low|]. apply ln_from_exp_high; [lra|]. rewrite Ee. apply (Rmult_le_reg_r u); [lra|]. rewrite Rinv_l by lra. lra. } nra.
    - nra. }
  assert (u * (1 - u / 2 + u ^ 2 / 3 + x) < u * (2 * F0 x ^ 2)) by (apply Rmult_lt_compat_l; lra). nra.
Qed.
Lemma De_decr x y : 0 <= x -> x < y -> De y < De x.
Proof.
  intros Hx H. assert (A : (fun z => - De z) x < (fun z => - De z) y); [|cbv beta in A; lra].
  apply (incr_from (fun z => - De z) (fun z => - (F0 z - z * occ z - 2 * F0 z ^ 2 * (1 - occ z) / occ z))); [exact H| |].
  - intros c _. apply (is_derive_opp De c). apply De_derive.
  - intros c Hc. pose proof (slope_neg c ltac:(lra)). lra.
Qed.
