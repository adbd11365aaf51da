(** C137: the optimum of the restructured parabolic band. *)
From Coq Require Import Reals Lra Lia.
From Coquelicot Require Import Coquelicot.
From Verif Require Import Py RUtil BandModel SpbModel RspbModel RspbProps OptProofs OptNum RoptProofs.
Local Open Scope R_scope.

Lemma PFr_eq N f U delta : 0 < N -> 0 <= delta <= 0.2 -> PFr N f U delta = Some (f * U * gg (1 + delta) N).
Proof.
  intros HN Hd. pose proof (arg_gt (1 + delta) ltac:(lra) N HN) as Ag. unfold PFr, Cr, Ur, Sr, npow, ndiv, nlog. destruct (Rlt_dec 0 (1 + N / 2)); [|lra]. cbn [obind]. destruct (Req_EM_T N 0); [lra|]. cbn [obind]. fold c2. destruct (Rlt_dec 0 (1 + delta + c2 / N)); [|lra]. cbn [obind].
  f_equal. unfold gg, LL, uu. ring.
Qed.
Lemma uu_between N l h : 0 < N -> 0 < l -> 0 < h -> l ^ 3 * (1 + N / 2) <= 1 <= h ^ 3 * (1 + N / 2) -> l <= uu N <= h.
Proof.
  intros HN Hl Hh H. pose proof (uu_cube N HN) as E. pose proof (uu_pos N) as P. assert (M : forall x y, 0 < x -> x < y -> x ^ 3 < y ^ 3) by (intros x y Hx L; assert (x ^ 2 < y ^ 2) by nra; assert (x ^ 2 * x < y ^ 2 * y) by nra; lra).
  split; apply Rnot_lt_le; intros L; [pose proof (M _ _ P L) as C|pose proof (M _ _ Hh L) as C]; nra.
Qed.
Lemma gg_between a N l h u v : 0 < N -> 0 < l -> 0 < u -> l <= uu N <= h -> u <= LL a N <= v -> N * l * u ^ 2 <= gg a N <= N * h * v ^ 2.
Proof.
  intros HN Hl Hu U L. unfold gg. split; apply Rmult_le_compat; try (apply Rmult_le_compat_l; lra); try (apply Rmult_le_pos; lra); try apply pow2_ge_0; apply pow_incr; lra.
Qed.
Lemma a_ok : 1 <= 1 + 0.075 <= 1.2. Proof. lra. Qed.
Lemma c_div N l h : 0 < N -> l * N <= 7.38905609 -> 7.38905610 <= h * N -> l <= c2 / N <= h.
Proof. intros HN A B. pose proof c2_bounds. split; [apply (proj1 (Rle_div_r _ _ _ HN))|apply (proj2 (Rle_div_l _ _ _ HN))]; lra. Qed.
Lemma LL_between a N l h x y : 0 < N -> 0 < a + l -> l <= c2 / N <= h -> exp x <= a + l -> a + h <= exp y -> x <= LL a N <= y.
Proof.
  intros HN P B X Y. unfold LL. split; [apply ln_from_exp_low; lra|apply ln_from_exp_high; lra].
Qed.
Ltac exps n := first [eapply Rle_trans; [apply (exp_high n); lra|]; tayx; lra | eapply Rle_trans; [|apply (exp_low n); lra]; tayx; lra].
Lemma LL_a1 : 1.940633864 <= LL (1 + 0.075) 1.2549 <= 1.940633867.
Proof.
  apply (LL_between _ _ 5.888163271 5.888163280); [lra|lra|apply c_div; lra|exps 20%nat|exps 20%nat].
Qed.
Lemma LL_a2 : LL (1 + 0.075) 1.25495 <= 1.940600175.
Proof.
  apply (LL_between _ _ 5.887928674 5.887928683 0 1.940600175); [lra|lra|apply c_div; lra|rewrite exp_0; lra|exps 20%nat].
Qed.
Lemma LL_a3 : 1.940566481 <= LL (1 + 0.075) 1.255.
Proof.
  apply (LL_between _ _ 5.887694095 5.887694104 1.940566481 2); [lra|lra|apply c_div; lra|exps 20%nat|exps 20%nat].
Qed.
Lemma LL_a4 : LL (1 + 0.075) 179.8 <= 0.1098369 /\ 0.1097959 <= LL (1 + 0.075) 180.
Proof.
  split; [apply (LL_between _ _ 0.0410959738 0.0410959739 0 0.1098369)|apply (LL_between _ _ 0.0410503116 0.0410503117 0.1097959 1)]; try lra; try (apply c_div; lra); try (rewrite exp_0; lra); exps 8%nat.
Qed.
Lemma LL_a5 : LL (1 + 0.075) 14000 <= 0.0728116 /\ 0.0727787 <= LL (1 + 0.075) 15000.
Proof.
  split; [apply (LL_between _ _ 0.00052778972 0.00052778973 0 0.0728116)|apply (LL_between _ _ 0.0004926037 0.0004926038 0.0727787 1)]; try lra; try (apply c_div; lra); try (rewrite exp_0; lra); exps 8%nat.
Qed.
Lemma LL_z : 1.96616261 <= LL (1 + 0) 1.2028 /\ LL (1 + 0) 1.2029 <= 1.96609113.
Proof.
  split; [apply (LL_between _ _ 6.143212578 6.143212588 1.96616261 2)|apply (LL_between _ _ 6.142701878 6.1427018872 0 1.96609113)]; try lra; try (apply c_div; lra); try (rewrite exp_0; lra); exps 20%nat.
Qed.
Lemma BB_le a N k : 0 < N -> 1 <= a -> 3 * c2 * (N + 2) <= k * ((N + 3) * (a * N + c2)) -> BB a N <= k.
Proof. intros HN Ha H. pose proof c2_bounds. assert (0 < a * N) by nra. unfold BB. apply (proj2 (Rle_div_l _ _ ((N + 3) * (a * N + c2)) ltac:(nra))). exact H. Qed.
Lemma BB_ge a N k : 0 < N -> 1 <= a -> k * ((N + 3) * (a * N + c2)) <= 3 * c2 * (N + 2) -> k <= BB a N.
Proof. intros HN Ha H. pose proof c2_bounds. assert (0 < a * N) by nra. unfold BB. apply (proj1 (Rle_div_r _ _ ((N + 3) * (a * N + c2)) ltac:(nra))). exact H. Qed.
Lemma psi_a : 0 < psi (1 + 0.075) 1.2549 <= 4e-6 /\ psi (1 + 0.075) 1.25495 < 0 /\ psi (1 + 0.075) 179.8 < 0 /\ 0 < psi (1 + 0.075) 180.
Proof.
  pose proof LL_a1. pose proof LL_a2. pose proof LL_a4. pose proof c2_bounds. unfold psi.
  pose proof (BB_le (1 + 0.075) 1.2549 1.9406304 ltac:(lra) ltac:(lra) ltac:(lra)). pose proof (BB_ge (1 + 0.075) 1.2549 1.9406302 ltac:(lra) ltac:(lra) ltac:(lra)). pose proof (BB_ge (1 + 0.075) 1.25495 1.9406252 ltac:(lra) ltac:(lra) ltac:(lra)).
  pose proof (BB_ge (1 + 0.075) 179.8 0.1098592 ltac:(lra) ltac:(lra) ltac:(lra)). pose proof (BB_le (1 + 0.075) 180 0.1097424 ltac:(lra) ltac:(lra) ltac:(lra)). lra.
Qed.
Lemma psi_z : 0 < psi (1 + 0) 1.2028 /\ psi (1 + 0) 1.2029 < 0.
Proof.
  pose proof LL_z. pose proof c2_bounds. unfold psi. pose proof (BB_le (1 + 0) 1.2028 1.9661395 ltac:(lra) ltac:(lra) ltac:(lra)). pose proof (BB_ge (1 + 0) 1.2029 1.9661311 ltac:(lra) ltac:(lra) ltac:(lra)). lra.
Qed.
Lemma gg_a : 4.0178505 <= gg (1 + 0.075) 1.2549 <= 4.0178506 /\ 4.0178505 <= gg (1 + 0.075) 1.255 /\ gg (1 + 0.075) 14000 <= 3.88 /\ 4.05 <= gg (1 + 0.075) 15000.
Proof.
  pose proof LL_a1 as A1. pose proof LL_a3 as A3. pose proof LL_a5 as (A5 & A6). pose proof (LL_pos (1 + 0.075) a_ok 14000 ltac:(lra)) as P14.
  pose proof (uu_between 1.2549 0.8501536983 0.8501536984 ltac:(lra) ltac:(lra) ltac:(lra) ltac:(lra)) as U1. pose proof (uu_between 1.255 0.8501449921 0.8501449922 ltac:(lra) ltac:(lra) ltac:(lra) ltac:(lra)) as U3.
  pose proof (uu_between 14000 0.0522 0.0522734 ltac:(lra) ltac:(lra) ltac:(lra) ltac:(lra)) as U4. pose proof (uu_between 15000 0.051085 0.0511 ltac:(lra) ltac:(lra) ltac:(lra) ltac:(lra)) as U5.
  pose proof (gg_between (1 + 0.075) 1.2549 0.8501536983 0.8501536984 1.940633864 1.940633867 ltac:(lra) ltac:(lra) ltac:(lra) U1 A1) as G1. pose proof (gg_between (1 + 0.075) 1.255 0.8501449921 0.8501449922 1.940566481 (LL (1 + 0.075) 1.255) ltac:(lra) ltac:(lra) ltac:(lra) U3 (conj A3 (Rle_refl _))) as G3.
  pose proof (gg_between (1 + 0.075) 14000 0.0522 0.0522734 (LL (1 + 0.075) 14000) 0.0728116 ltac:(lra) ltac:(lra) P14 U4 (conj (Rle_refl _) A5)) as G4. pose proof (gg_between (1 + 0.075) 15000 0.051085 0.0511 0.0727787 (LL (1 + 0.075) 15000) ltac:(lra) ltac:(lra) ltac:(lra) U5 (conj A6 (Rle_refl _))) as G5. lra.
Qed.

(** the shape of the power factor with the default delta *)
Lemma shape : exists m l, 1.2549 < m < 1.25495 /\ 179.8 < l < 180 /\ (forall N, 0 < N < m -> 0 < psi (1 + 0.075) N) /\ (forall N, m < N < l -> psi (1 + 0.075) N < 0) /\ (forall N, l < N -> 0 < psi (1 + 0.075) N)
  /\ (forall N, 1.2549 < N < m -> psi (1 + 0.075) N <= 4e-6).
Proof.
  destruct psi_a as (A1 & A2 & A3 & A4). destruct (zeros (1 + 0.075) a_ok 1.2549 1.25495 ltac:(lra) ltac:(lra) ltac:(lra) A2) as (m & r & Hm & Em & Hr & Z1 & Z2 & Z3 & Z4).
  destruct (psi_zero (1 + 0.075) a_ok 179.8 180 ltac:(lra) ltac:(nra)) as (l & Hl & El). exists m, l. split; [exact Hm|]. split; [exact Hl|]. split; [exact Z1|]. split; [|split].
  - intros N HN. destruct (Rle_lt_dec N r) as [L|L]; [apply Z2; lra|]. rewrite <- El. apply Z3. lra.
  - intros N HN. rewrite <- El. apply Z3. lra.
  - intros N HN. pose proof (Z4 1.2549 N ltac:(lra) ltac:(lra)). lra.
Qed.

Lemma top_value m : 1.2549 < m < 1.25495 -> (forall N, 0 < N < m -> 0 < psi (1 + 0.075) N) -> (forall N, 1.2549 < N < m -> psi (1 + 0.075) N <= 4e-6) -> 4.0178505 <= gg (1 + 0.075) m <= 4.0178507.
Proof.
  intros Hm S1 S4. destruct gg_a as (A1 & A2 & A3 & A4).
  assert (Low : forall N N', 0 < N < N' -> N' <= m -> gg (1 + 0.075) N < gg (1 + 0.075) N') by (intros N N' H L; apply (gg_up _ a_ok); [lra|lra|intros c Hc; apply S1; lra]).
  pose proof (Low 1.2549 m ltac:(lra) ltac:(lra)) as Lo. split; [lra|].
    pose proof (gg_slow _ a_ok 1.2549 m 1e-4 ltac:(lra) ltac:(lra)) as Sl. assert (Q : forall N, 1.2549 < N < m -> ff (1 + 0.075) N * psi (1 + 0.075) N <= 1e-4); [|specialize (Sl Q); lra].
    intros N HN. pose proof (S4 N HN) as P4. pose proof (S1 N ltac:(lra)) as P1. pose proof (ff_pos _ a_ok N ltac:(lra)) as Pf.
    assert (F5 : ff (1 + 0.075) N <= 5).
    { unfold ff, gg. pose proof (LL_pos _ a_ok N ltac:(lra)) as PL. pose proof (LL_decr _ a_ok 1.2549 N ltac:(lra) ltac:(lra)) as DL. pose proof LL_a1 as B1. pose proof (uu_pos N) as Pu. pose proof (uu_cube N ltac:(lra)) as Cu.
      assert (U1 : uu N <= 1) by (apply Rnot_lt_le; intros L; assert (1 < uu N ^ 2) by nra; assert (1 < uu N ^ 2 * uu N) by nra; nra).
      replace (N * uu N * LL (1 + 0.075) N ^ 2 * (2 * (N + 3) / (3 * (N + 2))) / (N * LL (1 + 0.075) N)) with (uu N * LL (1 + 0.075) N * (2 * (N + 3) / (3 * (N + 2)))) by (field; lra).
      assert (R1 : 0 < 2 * (N + 3) / (3 * (N + 2)) <= 1) by (split; [apply Rdiv_lt_0_compat; lra|apply (proj2 (Rle_div_l _ _ (3 * (N + 2)) ltac:(lra))); lra]).
      assert (R2 : 0 < uu N * LL (1 + 0.075) N <= 2) by nra. nra. }
    nra.
Qed.
(** C137: with the default delta, the power factor has a highest point near [_Nr_opt], then a lowest one, and then grows without bound *)
Theorem C137_shape :
  forall factor UWT : R, 0 < factor -> 0 < UWT ->
  exists Nm Nl Pm : R, 0 < Nm < Nl /\ PFr Nm factor UWT 0.075 = Some Pm /\ 0 < Pm
    /\ (forall N N' P P', 0 < N < N' -> PFr N factor UWT 0.075 = Some P -> PFr N' factor UWT 0.075 = Some P' ->
          (N' <= Nm -> P < P') /\ (Nm <= N -> N' <= Nl -> P' < P) /\ (Nl <= N -> P < P'))
    /\ Rabs (Nr_opt - Nm) <= 1e-4 /\ 179.8 < Nl < 180 /\ 4.0178505 * (factor * UWT) <= Pm <= 4.0178507 * (factor * UWT)
    /\ (forall N P, 0 < N -> PFr N factor UWT 0.075 = Some P -> (N <= 14000 -> N <> Nm -> P < Pm) /\ (15000 <= N -> Pm < P))
    /\ (forall B, exists N0, forall N P, N0 <= N -> PFr N factor UWT 0.075 = Some P -> B < P).
Proof.
  intros f U Hf HU. assert (Pc : 0 < f * U) by (apply Rmult_lt_0_compat; assumption). destruct shape as (m & l & Hm & Hl & S1 & S2 & S3 & S4). destruct gg_a as (A1 & A2 & A3 & A4).
  assert (Ev : forall N P, 0 < N -> PFr N f U 0.075 = Some P -> P = f * U * gg (1 + 0.075) N) by (intros N P HN H; rewrite PFr_eq in H by lra; congruence).
  assert (Low : forall N N', 0 < N < N' -> N' <= m -> gg (1 + 0.075) N < gg (1 + 0.075) N') by (intros N N' H L; apply (gg_up _ a_ok); [lra|lra|intros c Hc; apply S1; lra]).
  assert (Mid : forall N N', m <= N < N' -> N' <= l -> gg (1 + 0.075) N' < gg (1 + 0.075) N) by (intros N N' H L; apply (gg_down _ a_ok); [lra|lra|intros c Hc; apply S2; lra]).
  assert (Top : forall N N', l <= N < N' -> gg (1 + 0.075) N < gg (1 + 0.075) N') by (intros N N' H; apply (gg_up _ a_ok); [lra|lra|intros c Hc; apply S3; lra]).
  assert (Gm : 4.0178505 <= gg (1 + 0.075) m <= 4.0178507) by (apply top_value; auto).
  exists m, l, (f * U * gg (1 + 0.075) m). split; [lra|]. split; [apply PFr_eq; lra|]. split; [apply Rmult_lt_0_compat; [exact Pc|apply (gg_pos _ a_ok); lra]|]. split; [|split; [|split; [exact Hl|split; [|split]]]].
  - intros N N' P P' H E E'. apply Ev in E; [|lra]. apply Ev in E'; [|lra]. subst P P'. split; [|split]; intros; (apply Rmult_lt_compat_l; [exact Pc|]); [apply Low; lra|apply Mid; lra|apply Top; lra].
  - unfold Nr_opt. apply Rabs_le. lra.
  - rewrite (Rmult_comm 4.0178505), (Rmult_comm 4.0178507). split; apply Rmult_le_compat_l; lra.
  - intros N P HN E. apply Ev in E; [|exact HN]. subst P. split.
    + intros H D. apply Rmult_lt_compat_l; [exact Pc|]. destruct (Rtotal_order N m) as [L|[L|L]]; [apply Low; lra|contradiction|]. destruct (Rle_lt_dec N l) as [L2|L2]; [apply Mid; lra|]. destruct H as [H| ->]; [pose proof (Top N 14000 ltac:(lra)); lra|lra].
    + intros H. apply Rmult_lt_compat_l; [exact Pc|]. destruct H as [H| <-]; [pose proof (Top 15000 N ltac:(lra)); lra|lra].
  - intros B. set (q := ln (1 + 0.075)). assert (Pq : 0 < q) by (unfold q; rewrite <- ln_1; apply ln_increasing; lra). set (M := 1 + Rmax 0 (B / (f * U * q ^ 2))). assert (M1 : 1 <= M) by (unfold M; pose proof (Rmax_l 0 (B / (f * U * q ^ 2))); lra).
    exists (2 + M ^ 2). intros N P HN E. assert (N2 : 2 <= N) by (pose proof (pow2_ge_0 M); lra). apply Ev in E; [|lra]. subst P. pose proof (nu_large _ a_ok N M N2 M1 ltac:(lra)) as Q.
    assert (Lq : q < LL (1 + 0.075) N). { unfold q, LL. apply ln_increasing; [lra|]. pose proof c2_bounds. assert (0 < c2 / N) by (apply Rdiv_lt_0_compat; lra). lra. }
    assert (G : M * q ^ 2 <= gg (1 + 0.075) N) by (unfold gg; apply Rmult_le_compat; [lra|apply pow2_ge_0|exact Q|apply pow_incr; lra]).
    assert (Pk : 0 < f * U * q ^ 2) by (apply Rmult_lt_0_compat; [exact Pc|apply pow_lt, Pq]). assert (BM : B / (f * U * q ^ 2) < M) by (unfold M; pose proof (Rmax_r 0 (B / (f * U * q ^ 2))); lra).
    apply (Rmult_lt_compat_r _ _ _ Pk) in BM. replace (B / (f * U * q ^ 2) * (f * U * q ^ 2)) with B in BM by (field; split; [apply Rgt_not_eq, Pq|split; lra]). apply Rlt_le_trans with (1 := BM). replace (M * (f * U * q ^ 2)) with (f * U * (M * q ^ 2)) by ring. apply Rmult_le_compat_l; lra.
Qed.

(** C137: [_Nr_opt], [_PFr_max] and the [PFmax] of [valuate] *)
Theorem C137_optimum :
  forall factor UWT Nm Pm : R, 0 < factor -> 0 < UWT -> 0 < Nm <= 14000 -> PFr Nm factor UWT 0.075 = Some Pm ->
  (forall N P, 0 < N <= 14000 -> PFr N factor UWT 0.075 = Some P -> P <= Pm) ->
  Rabs (Nr_opt - Nm) <= 1e-4
  /\ (exists P, PFr Nr_opt factor UWT 0.075 = Some P /\ 0.9999999 * Pm <= P <= Pm)
  /\ Rabs (factor * UWT * PFr_max - Pm) <= 1e-7 * Pm
  /\ (factor = PF0 -> Rabs (UWT * UWT_to_PFmax - Pm) <= 1.1e-7 * Pm).
Proof.
  intros f U n Pm Hf HU Hn E Max. assert (Pc : 0 < f * U) by (apply Rmult_lt_0_compat; assumption). destruct (C137_shape f U Hf HU) as (m & l & P & Hm & Em & PP & _ & Bm & Bl & Bp & Sup & _). unfold Nr_opt in Bm. apply Rabs_le_between in Bm.
  assert (X : n = m). { destruct (Req_EM_T n m) as [X|X]; [exact X|]. pose proof (proj1 (Sup n Pm ltac:(lra) E) ltac:(lra) X). pose proof (Max m P ltac:(lra) Em). lra. }
  subst n. assert (P = Pm) by congruence. subst P. destruct gg_a as (A1 & A2 & _ & _). unfold Nr_opt. set (fU := f * U) in *.
  assert (V : 4.0178505 * fU <= fU * gg (1 + 0.075) 1.255) by (rewrite Rmult_comm; apply Rmult_le_compat_l; lra).
  assert (E2 : PFr 1.255 f U 0.075 = Some (fU * gg (1 + 0.075) 1.255)) by (apply PFr_eq; lra).
  split; [apply Rabs_le; lra|]. split; [|split].
  - eexists. split; [exact E2|]. split; [lra|]. apply (Max 1.255); [lra|exact E2].
  - fold fU. unfold PFr_max. apply Rabs_le. lra.
  - intros ->. unfold fU, PF0, UWT_to_PFmax in *. apply Rabs_le. lra.
Qed.


(** C137: with delta = 0 there is one highest point, and the power factor falls for ever after it *)
Theorem C137_no_offset :
  forall factor UWT : R, 0 < factor -> 0 < UWT ->
  exists Nm : R, 1.2028 < Nm < 1.2029
    /\ forall N N' P P', 0 < N < N' -> PFr N factor UWT 0 = Some P -> PFr N' factor UWT 0 = Some P' -> (N' <= Nm -> P < P') /\ (Nm <= N -> P' < P).
Proof.
  intros f U Hf HU. assert (Pc : 0 < f * U) by (apply Rmult_lt_0_compat; assumption). assert (ok : 1 <= 1 + 0 <= 1.2) by lra. destruct psi_z as (A1 & A2).
  destruct (zeros (1 + 0) ok 1.2028 1.2029 ltac:(lra) ltac:(lra) A1 A2) as (m & r & Hm & Em & Hr & Z1 & Z2 & Z3 & Z4). exists m. split; [exact Hm|].
  assert (Neg : forall N, m < N -> psi (1 + 0) N < 0).
  { intros N HN. destruct (Rle_lt_dec N r) as [L|L]; [apply Z2; lra|]. apply Rlt_le_trans with (psi (1 + 0) (N + 1)); [apply Z3; lra|]. apply Rnot_lt_le. intros P.
    set (e := psi (1 + 0) (N + 1)) in *. pose proof c2_bounds as Bc. set (M := N + 2 + c2 / e). assert (Q0 : 0 < c2 / e) by (apply Rdiv_lt_0_compat; lra). pose proof (Z3 (N + 1) M ltac:(unfold M; lra)) as I. fold e in I.
    assert (PM : 0 < M) by (unfold M; lra). assert (B0 : 0 < BB (1 + 0) M) by (unfold BB; apply Rdiv_lt_0_compat; nra).
    assert (L1 : LL (1 + 0) M <= c2 / M). { unfold LL. apply ln_from_exp_high; [pose proof (arg_gt (1 + 0) ok M PM); lra|]. pose proof (exp_ge (c2 / M)). lra. }
    assert (L2 : c2 / M <= e). { apply (proj2 (Rle_div_l _ _ M PM)). unfold M. assert (X : c2 / e * e = c2) by (field; lra). nra. }
    unfold psi in I. lra. }
  intros N N' P P' H E E'. rewrite PFr_eq in E, E' by lra. assert (V : P = f * U * gg (1 + 0) N) by congruence. assert (V' : P' = f * U * gg (1 + 0) N') by congruence. subst P P'.
  split; intros L; (apply Rmult_lt_compat_l; [exact Pc|]); [apply (gg_up _ ok)|apply (gg_down _ ok)]; try lra; intros c Hc; [apply Z1|apply Neg]; lra.
Qed.
(** a case: the optimum for a weighted mobility of 250 cm^2/(V s) *)
Example C137_case : exists P, PFr Nr_opt PF0 250 0.075 = Some P /\ 29.98 <= P <= 29.99 /\ Rabs (250 * UWT_to_PFmax - P) <= 1e-5.
Proof.
  assert (HP : 0 < PF0) by (unfold PF0; lra). destruct (C137_shape PF0 250 HP ltac:(lra)) as (m & l & Pm & Hm & Em & PP & _ & Bm & Bl & Bp & Sup & _). unfold Nr_opt in Bm. apply Rabs_le_between in Bm.
  destruct (C137_optimum PF0 250 m Pm HP ltac:(lra) ltac:(lra) Em) as (_ & (P & E & B) & _ & M).
  - intros N P HN E. destruct (Req_EM_T N m) as [->|X]; [assert (P = Pm) by congruence; lra|left; apply (Sup N P); auto; lra].
  - exists P. split; [exact E|]. specialize (M eq_refl). unfold PF0, UWT_to_PFmax in *. apply Rabs_le_between in M. split; [lra|]. apply Rabs_le. lra.
Qed.
Print Assumptions C137_shape.
Print Assumptions C137_optimum.
Print Assumptions C137_no_offset.
