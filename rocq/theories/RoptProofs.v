(** Lemmas for RoptProps: the extrema of the power factor of the restructured parabolic band. *)
From Coq Require Import Reals Ranalysis5 Lra Lia.
From Coquelicot Require Import Coquelicot.
From Verif Require Import Py RUtil SpbModel RspbModel OptProofs OptNum OptFermi.
Local Open Scope R_scope.
Definition c2 : R := exp 2.
Lemma c2_bounds : 7.38905609 <= c2 <= 7.38905610.
Proof.
  unfold c2. split; [eapply Rle_trans; [|apply (exp_low 18); lra]; tayx; lra|]. eapply Rle_trans; [apply (exp_high 18); lra|]. tayx. lra.
Qed.
Section Shape.
Variable a : R.
Hypothesis Ha : 1 <= a <= 1.2.
Definition LL (N : R) : R := ln (a + c2 / N).
Definition BB (N : R) : R := 3 * c2 * (N + 2) / ((N + 3) * (a * N + c2)).
Definition psi (N : R) : R := LL N - BB N.
Definition cube (N : R) : R := 2 * a * N ^ 3 + (6 * a - c2) * N ^ 2 + (9 * a - 9 * c2) * N - 9 * c2.
Lemma arg_gt N : 0 < N -> 1 < a + c2 / N.
Proof. intros H. pose proof c2_bounds. assert (0 < c2 / N) by (apply Rdiv_lt_0_compat; lra). lra. Qed.
Lemma LL_pos N : 0 < N -> 0 < LL N.
Proof. intros H. unfold LL. rewrite <- ln_1. apply ln_increasing; [lra|]. apply arg_gt, H. Qed.
Lemma LL_derive N : 0 < N -> is_derive LL N (- c2 / (N * (a * N + c2))).
Proof.
  intros H. unfold LL. pose proof (arg_gt N H). pose proof c2_bounds. assert (0 < a * N) by nra. auto_derive; [split; [lra|split; [lra|exact I]]|]. field. repeat split; lra.
Qed.
Lemma psi_derive N : 0 < N -> is_derive psi N (c2 * cube N / (N * ((N + 3) * (a * N + c2)) ^ 2)).
Proof.
  intros H. pose proof c2_bounds. assert (Q : 0 < a * N) by nra. assert (W : 0 < (N + 3) * (a * N + c2)) by nra.
  assert (D : is_derive BB N (3 * c2 * ((N + 3) * (a * N + c2) - (N + 2) * ((a * N + c2) + (N + 3) * a)) / ((N + 3) * (a * N + c2)) ^ 2)).
  { unfold BB. auto_derive; [lra|]. field. split; lra. }
  unfold psi. replace (c2 * cube N / (N * ((N + 3) * (a * N + c2)) ^ 2)) with (- c2 / (N * (a * N + c2)) - 3 * c2 * ((N + 3) * (a * N + c2) - (N + 2) * ((a * N + c2) + (N + 3) * a)) / ((N + 3) * (a * N + c2)) ^ 2).
  - apply (subd LL BB); [apply LL_derive; exact H|exact D].
  - unfold cube. field. repeat split; lra.
Qed.
Lemma cube_incr x y : 0 < x -> x < y -> cube x / x ^ 3 < cube y / y ^ 3.
Proof.
  intros Hx H. pose proof c2_bounds. assert (E : forall z, 0 < z -> cube z / z ^ 3 = 2 * a + (6 * a - c2) * / z + (9 * a - 9 * c2) * (/ z) ^ 2 - 9 * c2 * (/ z) ^ 3) by (intros z Hz; unfold cube; field; lra).
  rewrite (E x Hx), (E y) by lra. assert (Pi : 0 < / y) by (apply Rinv_0_lt_compat; lra). assert (Li : / y < / x) by (apply Rinv_lt_contravar; nra). revert Pi Li. generalize (/ x) (/ y). intros p q Hq L.
  assert (q ^ 2 < p ^ 2) by nra. assert (q ^ 3 < p ^ 3) by nra. nra.
Qed.
Lemma cube_root : exists r, 2 < r < 100 /\ cube r = 0.
Proof.
  pose proof c2_bounds. destruct (IVT cube 2 100) as (r & Hr & E).
  - intros x. apply derivable_continuous_pt. unfold cube. reg.
  - lra. - unfold cube. lra. - unfold cube. lra.
  - exists r. split; [|exact E]. destruct Hr as [[A|A] [B|B]]; [lra|rewrite B in *|rewrite <- A in *|rewrite <- A in *]; exfalso; revert E; unfold cube; lra.
Qed.
Lemma cube_sign r N : cube r = 0 -> 0 < r -> 0 < N -> (N < r -> cube N < 0) /\ (r < N -> 0 < cube N).
Proof.
  intros E Hr HN. assert (Q : 0 < N ^ 3) by (apply pow_lt, HN). assert (X : cube N = cube N / N ^ 3 * N ^ 3) by (field; lra). assert (Z : 0 / r ^ 3 = 0) by (unfold Rdiv; ring). split; intros H.
  - pose proof (cube_incr N r HN H) as I. rewrite E, Z in I. rewrite X. nra.
  - pose proof (cube_incr r N Hr H) as I. rewrite E, Z in I. rewrite X. apply Rmult_lt_0_compat; assumption.
Qed.
Lemma psi_decr r x y : cube r = 0 -> 0 < r -> 0 < x -> x < y -> y <= r -> psi y < psi x.
Proof.
  intros E Hr Hx H Hy. assert (A : (fun z => - psi z) x < (fun z => - psi z) y); [|cbv beta in A; lra].
  apply (incr_from (fun z => - psi z) (fun N => - (c2 * cube N / (N * ((N + 3) * (a * N + c2)) ^ 2)))); [exact H|intros c Hc; apply (is_derive_opp psi c), psi_derive; lra|].
  intros c Hc. pose proof (proj1 (cube_sign r c E Hr ltac:(lra)) ltac:(lra)) as S1. pose proof c2_bounds. assert (0 < a * c) by nra. assert (W : 0 < c * ((c + 3) * (a * c + c2)) ^ 2) by (apply Rmult_lt_0_compat; [lra|apply pow_lt; nra]).
  replace (- (c2 * cube c / (c * ((c + 3) * (a * c + c2)) ^ 2))) with (c2 * - cube c / (c * ((c + 3) * (a * c + c2)) ^ 2)) by (unfold Rdiv; ring). apply Rdiv_lt_0_compat; nra.
Qed.
Lemma psi_incr r x y : cube r = 0 -> 0 < r -> r <= x -> x < y -> psi x < psi y.
Proof.
  intros E Hr Hx H. apply (incr_from psi (fun N => c2 * cube N / (N * ((N + 3) * (a * N + c2)) ^ 2))); [exact H|intros c Hc; apply psi_derive; lra|].
  intros c Hc. pose proof (proj2 (cube_sign r c E Hr ltac:(lra)) ltac:(lra)) as S1. pose proof c2_bounds. assert (0 < a * c) by nra. apply Rdiv_lt_0_compat; [nra|apply Rmult_lt_0_compat; [lra|apply pow_lt; nra]].
Qed.
Lemma psi_cont N : 0 < N -> continuity_pt psi N.
Proof. intros H. apply derivable_continuous_pt. eexists. apply is_derive_Reals. apply psi_derive, H. Qed.
(** the zeros of psi *)
Lemma psi_zero x y : 0 < x < y -> psi x * psi y < 0 -> exists z, x < z < y /\ psi z = 0.
Proof.
  intros H S. assert (G : forall f : R -> R, (forall u, x <= u <= y -> continuity_pt f u) -> f x < 0 -> 0 < f y -> exists z, x < z < y /\ f z = 0).
  { intros f C F1 F2. destruct (IVT_interv f x y C ltac:(lra) F1 F2) as (z & Hz & E). exists z. split; [|exact E]. assert (z <> x) by (intros ->; lra). assert (z <> y) by (intros ->; lra). lra. }
  destruct (Rlt_le_dec (psi x) 0) as [L|L].
  - apply G; [intros u Hu; apply psi_cont; lra|exact L|nra].
  - assert (Q1 : psi x <> 0) by (intros Z; rewrite Z in S; lra). assert (Q2 : psi y < 0) by (apply Rnot_le_lt; intros Z; assert (0 <= psi x * psi y) by (apply Rmult_le_pos; lra); lra).
    destruct (G (fun u => - psi u)) as (z & Hz & E); [intros u Hu; apply (continuity_pt_opp psi u), psi_cont; lra|lra|lra|]. exists z. split; [exact Hz|lra].
Qed.
Lemma zeros x y : 0 < x < y -> y <= 2 -> 0 < psi x -> psi y < 0 ->
  exists m r, x < m < y /\ psi m = 0 /\ 2 < r < 100 /\ (forall N, 0 < N < m -> 0 < psi N) /\ (forall N, m < N <= r -> psi N < 0) /\ (forall N M, r <= N < M -> psi N < psi M)
    /\ (forall N M, 0 < N < M -> M <= m -> psi M < psi N).
Proof.
  intros H Hy Px Py. destruct cube_root as (r & Hr & Er). destruct (psi_zero x y H ltac:(nra)) as (m & Hm & Em). exists m, r. split; [exact Hm|]. split; [exact Em|]. split; [exact Hr|]. split; [|split; [|split]].
  - intros N HN. rewrite <- Em. apply (psi_decr r); auto; lra.
  - intros N HN. rewrite <- Em. apply (psi_decr r); auto; lra.
  - intros N M HN. apply (psi_incr r); auto; lra.
  - intros N M HN HM. apply (psi_decr r); auto; lra.
Qed.
(** the power factor *)
Definition uu (N : R) : R := Rpower (1 + N / 2) (- (1 / 3)).
Definition gg (N : R) : R := N * uu N * LL N ^ 2.
Definition ff (N : R) : R := gg N * (2 * (N + 3) / (3 * (N + 2))) / (N * LL N).
Lemma uu_pos N : 0 < uu N. Proof. apply exp_pos. Qed.
Lemma uu_cube N : 0 < N -> uu N ^ 3 * (1 + N / 2) = 1.
Proof.
  intros H. unfold uu. rewrite <- Rpower_pow by apply exp_pos. rewrite Rpower_mult. replace (- (1 / 3) * INR 3) with (- (1)) by (cbn; field). rewrite Rpower_Ropp, Rpower_1 by lra. field. lra.
Qed.
Lemma uu_derive N : 0 < N -> is_derive uu N (- uu N / (3 * (N + 2))).
Proof.
  intros H. unfold uu, Rpower. auto_derive; [lra|]. change (N * / 2) with (N / 2). generalize (exp (- (1 / 3) * ln (1 + N / 2))). intros e. field. lra.
Qed.
Lemma gg_pos N : 0 < N -> 0 < gg N.
Proof. intros H. unfold gg. apply Rmult_lt_0_compat; [apply Rmult_lt_0_compat; [exact H|apply uu_pos]|apply pow_lt, LL_pos, H]. Qed.
Lemma ff_pos N : 0 < N -> 0 < ff N.
Proof. intros H. unfold ff. apply Rdiv_lt_0_compat; [apply Rmult_lt_0_compat; [apply gg_pos, H|apply Rdiv_lt_0_compat; lra]|apply Rmult_lt_0_compat; [exact H|apply LL_pos, H]]. Qed.
Lemma gg_sq (t : R) : (t * uu t) * (LL t * LL t) = gg t. Proof. unfold gg. ring. Qed.
Lemma gg_derive N : 0 < N -> is_derive gg N (ff N * psi N).
Proof.
  intros H. pose proof (LL_pos N H) as PL. pose proof c2_bounds. assert (0 < a * N) by nra. assert (W : 0 < a * N + c2) by lra.
  assert (E : ff N * psi N = (1 * uu N + N * (- uu N / (3 * (N + 2)))) * (LL N * LL N) + (N * uu N) * (- c2 / (N * (a * N + c2)) * LL N + LL N * (- c2 / (N * (a * N + c2))))).
  { unfold ff, psi, gg, BB. field. repeat split; lra. }
  rewrite E. apply (is_derive_ext (fun N : R => (N * uu N) * (LL N * LL N))); [exact gg_sq|].
  apply (muld (fun N => N * uu N) (fun N => LL N * LL N)).
  - apply (muld (fun N => N) uu); [apply (is_derive_id N)|apply uu_derive, H].
  - apply (muld LL LL); apply LL_derive, H.
Qed.
Lemma gg_up x y : 0 < x -> x < y -> (forall N, x < N < y -> 0 < psi N) -> gg x < gg y.
Proof.
  intros Hx H P. apply (incr_from gg (fun N => ff N * psi N)); [exact H|intros c Hc; apply gg_derive; lra|]. intros c Hc. apply Rmult_lt_0_compat; [apply ff_pos; lra|apply P, Hc].
Qed.
Lemma gg_down x y : 0 < x -> x < y -> (forall N, x < N < y -> psi N < 0) -> gg y < gg x.
Proof.
  intros Hx H P. assert (A : (fun z => - gg z) x < (fun z => - gg z) y); [|cbv beta in A; lra].
  apply (incr_from (fun z => - gg z) (fun N => - (ff N * psi N))); [exact H|intros c Hc; apply (is_derive_opp gg c), gg_derive; lra|]. intros c Hc. pose proof (ff_pos c ltac:(lra)). specialize (P c Hc). nra.
Qed.
Lemma gg_slow x y K : 0 < x -> x <= y -> (forall N, x < N < y -> ff N * psi N <= K) -> gg y <= gg x + K * (y - x).
Proof.
  intros Hx H P. assert (A : (fun z => K * z - gg z) x <= (fun z => K * z - gg z) y); [|cbv beta in A; lra].
  apply (incr_weak (fun z => K * z - gg z) (fun N => K * 1 - ff N * psi N)); [exact H|intros c Hc; apply (subd (fun z => K * z) gg); [apply (scald (fun z => z)); apply (is_derive_id c)|apply gg_derive; lra]|]. intros c Hc. specialize (P c Hc). lra.
Qed.
Lemma LL_decr x y : 0 < x -> x < y -> LL y < LL x.
Proof. intros Hx H. unfold LL. pose proof (arg_gt y ltac:(lra)). pose proof c2_bounds. apply ln_increasing; [lra|]. apply Rplus_lt_compat_l. unfold Rdiv. apply Rmult_lt_compat_l; [lra|]. apply Rinv_lt_contravar; nra. Qed.
(** unbounded *)
Lemma nu_large N M : 2 <= N -> 1 <= M -> M ^ 2 <= N -> M <= N * uu N.
Proof.
  intros HN HM H. pose proof (uu_cube N ltac:(lra)) as E. pose proof (uu_pos N) as P. apply Rnot_lt_le. intros L.
  assert (C : (N * uu N) ^ 3 < M ^ 3). { pose proof (Rmult_lt_0_compat N (uu N) ltac:(lra) P) as P1. revert L P1. generalize (N * uu N). intros z L P1. assert (z ^ 2 < M ^ 2) by nra. assert (z ^ 2 * z < M ^ 2 * M) by nra. lra. }
  assert (D : (N * uu N) ^ 3 * (1 + N / 2) = N ^ 3) by (replace ((N * uu N) ^ 3 * (1 + N / 2)) with (N ^ 3 * (uu N ^ 3 * (1 + N / 2))) by ring; rewrite E; ring).
  assert (M3 : 0 < M ^ 3) by (apply pow_lt; lra). assert (F : N ^ 3 < M ^ 3 * N).
  { apply Rlt_le_trans with (M ^ 3 * (1 + N / 2)); [rewrite <- D; apply Rmult_lt_compat_r; lra|apply Rmult_le_compat_l; lra]. }
  assert (G1 : M ^ 2 * M ^ 2 <= N * N) by (apply Rmult_le_compat; nra). assert (G : M ^ 3 <= N ^ 2) by nra.
  assert (Z : M ^ 3 * N <= N ^ 2 * N) by (apply Rmult_le_compat_r; lra). lra.
Qed.
End Shape.
