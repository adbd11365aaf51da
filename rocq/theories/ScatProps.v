(** Properties of the scattering mechanisms (C81-C84). *)
From Coq Require Import Reals Machin Lra Lia.
From Verif Require Import Py ScatModel ScatSpec.
Local Open Scope R_scope.

Lemma div_nn a b : 0 <= a -> 0 < b -> 0 <= a / b.
Proof. intros Ha Hb. apply Rmult_le_pos; [exact Ha|left; apply Rinv_0_lt_compat, Hb]. Qed.
Lemma div_pp a b : 0 < a -> 0 < b -> 0 < a / b.
Proof. intros Ha Hb. apply Rdiv_lt_0_compat; assumption. Qed.
Lemma p10 n : 0 < 10 ^ n. Proof. apply pow_lt; lra. Qed.
Lemma ip10 n : 0 < / 10 ^ n. Proof. apply Rinv_0_lt_compat, p10. Qed.
Lemma rpow_pos x y : 0 < Rpower x y. Proof. apply exp_pos. Qed.
Lemma pow_le_mono a b n : 0 <= a -> a <= b -> a ^ n <= b ^ n. Proof. intros; apply pow_incr; lra. Qed.
Lemma rpower_scale x a y : 0 < x -> 0 < a -> Rpower (x * a) y = Rpower x y * Rpower a y.
Proof. intros; symmetry; apply Rpower_mult_distr; assumption. Qed.
Lemma rpower_e30 n m : (30 * n = 3 * m)%nat -> Rpower (/ 10 ^ 30) (INR n / 3) = / 10 ^ m.
Proof.
  intros E.
  assert (H : / 10 ^ 30 = Rpower 10 (- INR 30)) by (rewrite Rpower_Ropp; f_equal; rewrite Rpower_pow by lra; reflexivity).
  assert (E30 : INR 30 = 30) by (cbn; lra).
  rewrite H, Rpower_mult. replace (- INR 30 * (INR n / 3)) with (- INR m).
  - rewrite Rpower_Ropp. f_equal. apply Rpower_pow. lra.
  - apply (f_equal INR) in E. rewrite !mult_INR, E30 in E. replace (INR 3) with 3 in E by (cbn; lra). rewrite E30. lra.
Qed.

(** ** C81: sign, growth with frequency and temperature, frequency laws *)
Theorem C81_three_phonon : forall p w1 w2 T1 T2, 0 <= ph_coef p -> 0 <= ph_theta p -> 0 <= w1 <= w2 -> 0 < T1 <= T2 ->
  0 <= ph_rate p w1 T1 <= ph_rate p w2 T2 /\ (forall k, ph_rate p (k * w1) T1 = k ^ 2 * ph_rate p w1 T1).
Proof.
  intros p w1 w2 T1 T2 Hc Ht Hw HT. unfold ph_rate. assert (P := p10 12). set (c := ph_coef p) in *. set (th := ph_theta p) in *.
  assert (E : exp (- th / (3 * T1)) <= exp (- th / (3 * T2))).
  { destruct (Rle_lt_or_eq_dec (- th / (3 * T1)) (- th / (3 * T2))) as [H|H].
    - unfold Rdiv. apply Rmult_le_compat_neg_l; [lra|]. apply Rinv_le_contravar; lra.
    - left. apply exp_increasing, H.
    - rewrite H. right. reflexivity. }
  assert (E1 := exp_pos (- th / (3 * T1))). assert (W := pow_le_mono w1 w2 2 ltac:(lra) ltac:(lra)). assert (W1 : 0 <= w1 ^ 2) by (apply pow_le; lra).
  assert (Pc : 0 <= 10 ^ 12 * c) by (apply Rmult_le_pos; lra).
  assert (A1 : 0 <= 10 ^ 12 * c * w1 ^ 2) by (apply Rmult_le_pos; assumption).
  split; [split|].
  - apply Rmult_le_pos; [apply Rmult_le_pos|]; lra.
  - apply Rmult_le_compat; [apply Rmult_le_pos; lra|lra| |exact E]. apply Rmult_le_compat; [exact A1|lra| |lra]. apply Rmult_le_compat_l; assumption.
  - intros k. rewrite Rpow_mult_distr. generalize (10 ^ 12) (exp (- th / (3 * T1))). intros; ring.
Qed.
Theorem C81_coefficients_positive : forall gm vs Va Ma A Theta G, 0 < gm -> 0 < vs -> 0 < Va -> 0 < Ma -> 0 < A -> 0 < G ->
  0 < ph_coef (PHfull gm vs Va Ma A Theta) /\ 0 < pd_coef (PDfull vs Va G).
Proof.
  intros gm vs Va Ma A Theta G H1 H2 H3 H4 H5 H6. split; cbn [ph_coef pd_coef].
  - apply div_pp; [|apply Rmult_lt_0_compat; [assumption|apply pow_lt; assumption]].
    apply Rmult_lt_0_compat; [|apply pow_lt; assumption]. apply Rmult_lt_0_compat; [|apply rpow_pos]. apply Rmult_lt_0_compat; [|assumption].
    apply Rmult_lt_0_compat; [lra|apply ip10].
  - assert (P := PI_RGT_0). apply div_pp.
    + apply Rmult_lt_0_compat; [|assumption]. apply Rmult_lt_0_compat; [apply ip10|assumption].
    + apply Rmult_lt_0_compat; [lra|apply pow_lt; assumption].
Qed.
Theorem C81_point_defect : forall p w1 w2 T1 T2, 0 <= pd_coef p -> 0 <= w1 <= w2 ->
  0 <= pd_rate p w1 T1 <= pd_rate p w2 T2 /\ (forall k, pd_rate p (k * w1) T1 = k ^ 4 * pd_rate p w1 T2).
Proof.
  intros p w1 w2 T1 T2 Hc Hw. unfold pd_rate. assert (P := p10 36). assert (Pc : 0 <= 10 ^ 36 * pd_coef p) by (apply Rmult_le_pos; lra).
  assert (W := pow_le_mono w1 w2 4 ltac:(lra) ltac:(lra)). assert (W1 : 0 <= w1 ^ 4) by (apply pow_le; lra). split; [split|].
  - apply Rmult_le_pos; assumption.
  - apply Rmult_le_compat_l; assumption.
  - intros k. rewrite Rpow_mult_distr. generalize (10 ^ 36). intros; ring.
Qed.
Theorem C81_grain_boundary : forall vs L alpha w1 w2 T1 T2, 0 <= vs -> 0 < L -> 0 <= alpha ->
  0 <= gb_rate vs L alpha w1 T1 /\ gb_rate vs L alpha w1 T1 = gb_rate vs L alpha w2 T2 /\ (forall L', L <= L' -> gb_rate vs L' alpha w1 T1 <= gb_rate vs L alpha w1 T1).
Proof.
  intros vs L alpha w1 w2 T1 T2 Hv HL Ha. unfold gb_rate. assert (P := ip10 3). assert (A : 0 <= / 10 ^ 3 * alpha * vs) by (apply Rmult_le_pos; [apply Rmult_le_pos; lra|lra]).
  split; [apply div_nn; assumption|]. split; [reflexivity|]. intros L' H. apply Rmult_le_compat_l; [exact A|]. apply Rinv_le_contravar; lra.
Qed.
Lemma frac_mono a b : 0 <= a -> a <= b -> a / (1 + a) <= b / (1 + b).
Proof.
  intros Ha Hb. replace (a / (1 + a)) with (1 - / (1 + a)) by (field; lra). replace (b / (1 + b)) with (1 - / (1 + b)) by (field; lra).
  assert (/ (1 + b) <= / (1 + a)) by (apply Rinv_le_contravar; lra). lra.
Qed.
Lemma np_ratio_nn p w : 0 <= np_ratio p w.
Proof.
  unfold np_ratio. apply Rmult_le_pos; [apply Rmult_le_pos; [lra|]|].
  - assert (A := pow2_ge_0 (np_alpha p)). assert (B := pow2_ge_0 (1 - np_D1 p / np_D0 p)). assert (D := pow2_ge_0 (1 - np_Y1 p / np_Y0 p)).
    assert (E : 0 <= np_alpha p ^ 8) by (replace (np_alpha p ^ 8) with ((np_alpha p ^ 4) ^ 2) by ring; apply pow2_ge_0).
    apply Rplus_le_le_0_compat; apply Rmult_le_pos; try assumption; apply Rmult_le_pos; lra.
  - replace ((w * np_R p / np_vs p) ^ 4) with (((w * np_R p / np_vs p) ^ 2) ^ 2) by ring. apply pow2_ge_0.
Qed.
Lemma np_ratio_mono p w1 w2 : 0 < np_R p -> 0 < np_vs p -> 0 <= w1 <= w2 -> np_ratio p w1 <= np_ratio p w2.
Proof.
  intros HR Hv Hw. unfold np_ratio.
  assert (A := pow2_ge_0 (np_alpha p)). assert (B := pow2_ge_0 (1 - np_D1 p / np_D0 p)). assert (D := pow2_ge_0 (1 - np_Y1 p / np_Y0 p)).
  assert (E : 0 <= np_alpha p ^ 8) by (replace (np_alpha p ^ 8) with ((np_alpha p ^ 4) ^ 2) by ring; apply pow2_ge_0).
  apply Rmult_le_compat_l; [apply Rmult_le_pos; [lra|]; apply Rplus_le_le_0_compat; apply Rmult_le_pos; try assumption; apply Rmult_le_pos; lra|].
  apply pow_le_mono; unfold Rdiv.
  - apply Rmult_le_pos; [apply Rmult_le_pos; lra|left; apply Rinv_0_lt_compat, Hv].
  - apply Rmult_le_compat_r; [left; apply Rinv_0_lt_compat, Hv|]. apply Rmult_le_compat_r; lra.
Qed.
(** between 0 and the geometrical limit, whatever the contrast *)
Theorem C81_nanoparticles : forall p w1 w2 T1 T2, 0 < np_R p -> 0 < np_vs p -> 0 <= np_N1_or_phi p -> 0 <= w1 <= w2 ->
  0 <= np_rate p w1 T1 <= np_rate p w2 T2 /\ (0 < np_N1_or_phi p -> np_rate p w2 T2 < np_geom p) /\ np_rate p w1 T1 <= np_geom p * np_ratio p w1 /\
  (np_D1 p = np_D0 p -> np_Y1 p = np_Y0 p -> np_D0 p <> 0 -> np_Y0 p <> 0 -> np_rate p w1 T1 = 0).
Proof.
  intros p w1 w2 T1 T2 HR Hv HN Hw. assert (P := PI_RGT_0).
  assert (R3 : 0 < np_R p ^ 3) by (apply pow_lt; assumption). assert (I6 := ip10 6).
  assert (F : 0 <= np_phi p).
  { unfold np_phi. destruct (np_frac p); [exact HN|]. apply Rmult_le_pos; [|lra]. apply Rmult_le_pos; [|lra]. apply div_nn; [|lra]. apply Rmult_le_pos; [|lra]. apply Rmult_le_pos; lra. }
  assert (G : 0 <= np_geom p) by (unfold np_geom; apply div_nn; [apply Rmult_le_pos; [apply Rmult_le_pos; lra|exact F]|exact HR]).
  assert (N1 := np_ratio_nn p w1). assert (N2 := np_ratio_nn p w2). assert (M := np_ratio_mono p w1 w2 HR Hv Hw).
  assert (E : forall w T, np_rate p w T = np_geom p * (np_ratio p w / (1 + np_ratio p w))) by (intros; unfold np_rate, Rdiv; ring).
  rewrite !E. split; [split|split; [|split]].
  - apply Rmult_le_pos; [exact G|]. apply div_nn; lra.
  - apply Rmult_le_compat_l; [exact G|]. apply frac_mono; assumption.
  - intros HN'. assert (F' : 0 < np_phi p).
    { unfold np_phi. destruct (np_frac p); [exact HN'|]. apply Rmult_lt_0_compat; [|lra]. apply Rmult_lt_0_compat; [|lra]. apply div_pp; [|lra]. apply Rmult_lt_0_compat; [|lra]. apply Rmult_lt_0_compat; lra. }
    assert (G' : 0 < np_geom p) by (unfold np_geom; apply div_pp; [apply Rmult_lt_0_compat; [lra|exact F']|exact HR]).
    rewrite <- (Rmult_1_r (np_geom p)) at 2. apply Rmult_lt_compat_l; [exact G'|]. apply (Rmult_lt_reg_r (1 + np_ratio p w2)); [lra|].
    unfold Rdiv. rewrite Rmult_assoc, Rinv_l by lra. lra.
  - apply Rmult_le_compat_l; [exact G|]. apply (Rmult_le_reg_r (1 + np_ratio p w1)); [lra|]. unfold Rdiv. rewrite Rmult_assoc, Rinv_l by lra. nra.
  - intros ED EY HD HY. assert (Z : np_ratio p w1 = 0).
    { unfold np_ratio. rewrite ED, EY. replace (np_D0 p / np_D0 p) with 1 by (field; exact HD). replace (np_Y0 p / np_Y0 p) with 1 by (field; exact HY). ring. }
    rewrite Z. unfold Rdiv. ring.
Qed.
Theorem C81_dislocations : forall Nd vs Va Bd gm F alpha w1 w2 T1 T2, 0 <= Nd -> 0 < vs -> 0 < Va -> 0 <= F -> 0 <= alpha -> 0 <= w1 <= w2 ->
  0 <= dl_rate Nd vs Va Bd gm F alpha w1 T1 <= dl_rate Nd vs Va Bd gm F alpha w2 T2 /\
  exists a b, forall w T, dl_rate Nd vs Va Bd gm F alpha w T = a * w ^ 3 + b * w.
Proof.
  intros Nd vs Va Bd gm F alpha w1 w2 T1 T2 HN Hv HV HF Ha Hw. unfold dl_rate, dl_core, dl_strain.
  assert (A : 0 <= / 10 ^ 8 * Rpower Va (4 / 3) / vs) by (left; apply div_pp; [apply Rmult_lt_0_compat; [apply ip10|apply rpow_pos]|exact Hv]).
  assert (B : 0 <= / 10 ^ 6 * (Bd * gm) ^ 2) by (apply Rmult_le_pos; [left; apply ip10|apply pow2_ge_0]).
  assert (D : 0 <= dl_C * F) by (apply Rmult_le_pos; [unfold dl_C; lra|exact HF]). assert (N : 0 <= alpha * Nd) by (apply Rmult_le_pos; assumption).
  assert (W := pow_le_mono w1 w2 3 ltac:(lra) ltac:(lra)). assert (W1 : 0 <= w1 ^ 3) by (apply pow_le; lra).
  revert A B D. generalize (/ 10 ^ 8 * Rpower Va (4 / 3) / vs) (/ 10 ^ 6 * (Bd * gm) ^ 2) (dl_C * F). intros a b c A B D.
  split; [split|].
  - apply Rmult_le_pos; [exact N|]. apply Rplus_le_le_0_compat; apply Rmult_le_pos; try assumption. apply Rmult_le_pos; lra.
  - apply Rmult_le_compat_l; [exact N|]. apply Rplus_le_compat; apply Rmult_le_compat_l; try assumption. apply Rmult_le_compat_l; [assumption|lra].
  - exists (alpha * Nd * a), (alpha * Nd * c * b). intros; ring.
Qed.
Theorem C81_stacking_faults_and_cahill : forall Nsf vs Va gm alpha w1 w2 T1 T2, 0 <= Nsf -> 0 < vs -> 0 < Va -> 0 <= alpha -> 0 <= w1 <= w2 ->
  0 <= sf_rate Nsf vs Va gm alpha w1 T1 <= sf_rate Nsf vs Va gm alpha w2 T2 /\
  (forall k, sf_rate Nsf vs Va gm alpha (k * w1) T1 = k ^ 2 * sf_rate Nsf vs Va gm alpha w1 T2) /\
  0 <= cahill_rate alpha w1 T1 <= cahill_rate alpha w2 T2 /\ (forall k, cahill_rate alpha (k * w1) T1 = k * cahill_rate alpha w1 T2).
Proof.
  intros Nsf vs Va gm alpha w1 w2 T1 T2 HN Hv HV Ha Hw. unfold sf_rate, cahill_rate. assert (P := PI_RGT_0).
  assert (A : 0 <= / 10 ^ 5 * alpha * Nsf * Rpower Va (2 / 3) / vs).
  { apply div_nn; [|exact Hv]. apply Rmult_le_pos; [|left; apply rpow_pos]. apply Rmult_le_pos; [|exact HN]. apply Rmult_le_pos; [left; apply ip10|exact Ha]. }
  revert A. generalize (/ 10 ^ 5 * alpha * Nsf * Rpower Va (2 / 3) / vs). intros c A. split; [split|split; [|split; [split|]]].
  - apply Rmult_le_pos; [exact A|apply pow2_ge_0].
  - apply Rmult_le_compat_l; [exact A|]. rewrite !Rpow_mult_distr. apply Rmult_le_compat_l; [apply pow2_ge_0|]. apply pow_le_mono; lra.
  - intros k. ring.
  - apply div_nn; [apply Rmult_le_pos; lra|exact P].
  - unfold Rdiv. apply Rmult_le_compat_r; [left; apply Rinv_0_lt_compat, P|]. apply Rmult_le_compat_l; lra.
  - intros k. unfold Rdiv. ring.
Qed.

(** ** C82: units; rates are in 1/ps = 1e12/s *)
Lemma third : 1 / 3 = INR 1 / 3. Proof. cbn; lra. Qed.
Lemma two_thirds : 2 / 3 = INR 2 / 3. Proof. cbn; lra. Qed.
Lemma four_thirds : 4 / 3 = INR 4 / 3. Proof. cbn; lra. Qed.
Lemma rp_third Va : 0 < Va -> Rpower (Va * / 10 ^ 30) (1 / 3) = Rpower Va (1 / 3) * / 10 ^ 10.
Proof. intros H. rewrite rpower_scale by (try exact H; apply ip10). f_equal. rewrite third. apply rpower_e30. reflexivity. Qed.
Lemma rp_two Va : 0 < Va -> Rpower (Va * / 10 ^ 30) (2 / 3) = Rpower Va (2 / 3) * / 10 ^ 20.
Proof. intros H. rewrite rpower_scale by (try exact H; apply ip10). f_equal. rewrite two_thirds. apply rpower_e30. reflexivity. Qed.
Lemma rp_four Va : 0 < Va -> Rpower (Va * / 10 ^ 30) (4 / 3) = Rpower Va (4 / 3) * / 10 ^ 40.
Proof. intros H. rewrite rpower_scale by (try exact H; apply ip10). f_equal. rewrite four_thirds. apply rpower_e30. reflexivity. Qed.
Lemma unit_ph t k m A r g Ma v w T e : t <> 0 -> m <> 0 -> Ma <> 0 -> v <> 0 ->
  t ^ 12 * (t ^ 12 * (k / m * / t ^ 15 * A * r * g / (Ma * v ^ 3)) * w ^ 2 * T * e) =
  A * (k * / t ^ 23 * (r * / t ^ 10) * g / (m * / t ^ 27 * Ma * (v * t ^ 3) ^ 3)) * (w * t ^ 12) ^ 2 * T * e.
Proof. intros; field; auto. Qed.
(** the documented formula, with the neutron mass in the place of the atomic mass unit *)
Theorem C82_three_phonon : forall gm vs Va Ma A Theta w T, 0 < vs -> 0 < Va -> 0 < Ma ->
  10 ^ 12 * ph_rate (PHfull gm vs Va Ma A Theta) w T = doc_PH neutron_mass A gm (vs * 10 ^ 3) (Va * / 10 ^ 30) Ma Theta (w * 10 ^ 12) T /\
  10 ^ 12 * ph_rate (PHfull gm vs Va Ma A Theta) w T = (1.66053906660 / 1.67492749804) * doc_PH amu A gm (vs * 10 ^ 3) (Va * / 10 ^ 30) Ma Theta (w * 10 ^ 12) T /\
  0.9914 < 1.66053906660 / 1.67492749804 < 0.9915.
Proof.
  intros gm vs Va Ma A Theta w T Hv HV HM. assert (E : 10 ^ 12 * ph_rate (PHfull gm vs Va Ma A Theta) w T = doc_PH neutron_mass A gm (vs * 10 ^ 3) (Va * / 10 ^ 30) Ma Theta (w * 10 ^ 12) T).
  { unfold ph_rate, doc_PH, neutron_mass. cbn [ph_coef ph_theta]. rewrite rp_third by exact HV.
    replace (- Theta / (3 * T)) with (- (Theta / (3 * T))) by (unfold Rdiv; ring). apply unit_ph; lra. }
  split; [exact E|]. split; [|lra]. rewrite E. unfold doc_PH, neutron_mass, amu. generalize (1.380649 * / 10 ^ 23 * Rpower (Va * / 10 ^ 30) (1 / 3) * gm ^ 2) (exp (- (Theta / (3 * T)))) (/ 10 ^ 27) (ip10 27).
  intros a e u Hu. assert (H3 : (vs * 10 ^ 3) ^ 3 <> 0) by (apply pow_nonzero; apply Rmult_integral_contrapositive; split; [lra|apply pow_nonzero; lra]).
  revert H3. generalize ((vs * 10 ^ 3) ^ 3) ((w * 10 ^ 12) ^ 2). intros v3 w2 H3.
  assert (Q : forall n m, n <> 0 -> m <> 0 -> A * (a / (n * u * Ma * v3)) * w2 * T * e = m / n * (A * (a / (m * u * Ma * v3)) * w2 * T * e)) by (intros n m Hn Hm; field; repeat split; try lra; assumption).
  apply Q; lra.
Qed.
Lemma unit_pd t Va G p v w : t <> 0 -> p <> 0 -> v <> 0 ->
  t ^ 12 * (t ^ 36 * (/ t ^ 39 * Va * G / (4 * p * v ^ 3)) * w ^ 4) = Va * / t ^ 30 * G / (4 * p * (v * t ^ 3) ^ 3) * (w * t ^ 12) ^ 4.
Proof. intros; field; auto. Qed.
Lemma unit_gb t a v L : t <> 0 -> L <> 0 -> t ^ 12 * (/ t ^ 3 * a * v / L) = a * (v * t ^ 3 / (L * / t ^ 6)).
Proof. intros; field; auto. Qed.
Lemma unit_sf t a N r v g w : t <> 0 -> v <> 0 -> t ^ 12 * (/ t ^ 5 * a * N * r / v * (g * w) ^ 2) = a * (N * t ^ 6) * (r * / t ^ 20 / (v * t ^ 3)) * g ^ 2 * (w * t ^ 12) ^ 2.
Proof. intros; field; auto. Qed.
Lemma unit_dc t a N r v w : t <> 0 -> v <> 0 -> t ^ 12 * (a * N * (/ t ^ 8 * r / v * w ^ 3)) = v * (a * (N * t ^ 14) * (r * / t ^ 40 / (v * t ^ 3) ^ 2) * (w * t ^ 12) ^ 3).
Proof. intros; field; auto. Qed.
Lemma unit_ds t a N c F B g w : t <> 0 -> t ^ 12 * (a * N * (c * F * (/ t ^ 6 * (B * g) ^ 2 * w))) = c * a * F * (N * t ^ 14) * (B * / t ^ 10) ^ 2 * g ^ 2 * (w * t ^ 12).
Proof. intros; field; auto. Qed.
Theorem C82_point_defect_boundary_fault : forall vs Va G L alpha Nsf gm w T, 0 < vs -> 0 < Va -> 0 < L ->
  10 ^ 12 * pd_rate (PDfull vs Va G) w T = doc_PD (vs * 10 ^ 3) (Va * / 10 ^ 30) G (w * 10 ^ 12) /\
  10 ^ 12 * gb_rate vs L alpha w T = doc_GB (vs * 10 ^ 3) (L * / 10 ^ 6) alpha /\
  10 ^ 12 * sf_rate Nsf vs Va gm alpha w T = doc_SF alpha (Nsf * 10 ^ 6) (vs * 10 ^ 3) (Va * / 10 ^ 30) gm (w * 10 ^ 12) /\
  10 ^ 12 * cahill_rate alpha w T = alpha * ((w * 10 ^ 12) / PI).
Proof.
  intros vs Va G L alpha Nsf gm w T Hv HV HL. assert (P := PI_RGT_0). split; [|split; [|split]].
  - unfold pd_rate, doc_PD. cbn [pd_coef]. apply unit_pd; lra.
  - apply unit_gb; lra.
  - unfold sf_rate, doc_SF. rewrite rp_two by exact HV. apply unit_sf; lra.
  - unfold cahill_rate, Rdiv. ring.
Qed.
(** the core term is [vs] (in km/s) times the documented one: right only for vs = 1 km/s; the strain term is right *)
Theorem C82_dislocations : forall Nd vs Va Bd gm F alpha w T, 0 < vs -> 0 < Va ->
  10 ^ 12 * dl_rate Nd vs Va Bd gm F alpha w T =
    vs * doc_DC alpha (Nd * 10 ^ 14) (vs * 10 ^ 3) (Va * / 10 ^ 30) (w * 10 ^ 12) + doc_DS dl_C alpha F (Nd * 10 ^ 14) (Bd * / 10 ^ 10) gm (w * 10 ^ 12) /\
  Rabs (dl_C ^ 2 - 2 ^ 11 / 3 ^ 7) < / 10 ^ 15.
Proof.
  intros Nd vs Va Bd gm F alpha w T Hv HV. split.
  - unfold dl_rate, doc_DC, doc_DS, dl_core, dl_strain. rewrite rp_four by exact HV. rewrite <- unit_dc by lra. rewrite <- unit_ds by lra. ring.
  - unfold dl_C. apply Rabs_def1; lra.
Qed.
(** with some contrast and N1 in 1e15/cm^3 = 1e21/m^3: the documented harmonic mean of the geometrical and Rayleigh cross-sections *)
Theorem C82_nanoparticles : forall p w T, np_frac p = false -> 0 < np_vs p -> 0 < np_R p -> np_D0 p <> 0 -> np_Y0 p <> 0 -> 0 < w -> np_ratio p w <> 0 ->
  10 ^ 12 * np_rate p w T =
    doc_NP (np_N1_or_phi p * 10 ^ 21) (np_alpha p) (np_vs p * 10 ^ 3) (np_R p * / 10 ^ 9) (np_D0 p * 10 ^ 3) (np_D1 p * 10 ^ 3) (np_Y0 p * 10 ^ 9) (np_Y1 p * 10 ^ 9) (w * 10 ^ 12).
Proof.
  intros p w T Hf Hv HR HD HY Hw Hr. assert (P := PI_RGT_0).
  set (sg := doc_sg (np_R p * / 10 ^ 9)).
  assert (Sg : sg <> 0). { unfold sg, doc_sg. apply Rmult_integral_contrapositive. split; [lra|]. apply pow_nonzero. apply Rmult_integral_contrapositive. split; [lra|]. apply Rinv_neq_0_compat, pow_nonzero. lra. }
  assert (Ra : doc_sR (np_alpha p) (np_vs p * 10 ^ 3) (np_R p * / 10 ^ 9) (np_D0 p * 10 ^ 3) (np_D1 p * 10 ^ 3) (np_Y0 p * 10 ^ 9) (np_Y1 p * 10 ^ 9) (w * 10 ^ 12) = sg * np_ratio p w).
  { unfold doc_sR, sg, doc_sg, np_ratio.
    assert (Q : forall a d0 d1 y0 y1 r v t, t <> 0 -> d0 <> 0 -> y0 <> 0 -> v <> 0 ->
      16 / 9 * PI * (r * / t ^ 9) ^ 2 * (a ^ 2 / 4 * ((d1 * t ^ 3 - d0 * t ^ 3) / (d0 * t ^ 3)) ^ 2 + 3 * a ^ 8 * ((y1 * t ^ 9 - y0 * t ^ 9) / (y0 * t ^ 9)) ^ 2) * (w * t ^ 12 * (r * / t ^ 9) / (v * t ^ 3)) ^ 4
      = 2 * PI * (r * / t ^ 9) ^ 2 * (8 / 9 * (1 / 4 * a ^ 2 * (1 - d1 / d0) ^ 2 + 3 * a ^ 8 * (1 - y1 / y0) ^ 2) * (w * r / v) ^ 4)) by (intros; field; auto).
    apply Q; try assumption; lra. }
  unfold doc_NP. rewrite Ra. fold sg. assert (Nn := np_ratio_nn p w). set (r := np_ratio p w) in *.
  replace (/ (/ sg + / (sg * r))) with (sg * (r / (1 + r))).
  2:{ assert (1 + r <> 0) by lra. assert (r + 1 <> 0) by lra. field. repeat split; assumption. }
  unfold np_rate, np_geom, np_phi. rewrite Hf. fold r. unfold sg, doc_sg.
  assert (Q : forall t v n R0 q, t <> 0 -> R0 <> 0 -> q <> 0 ->
     t ^ 12 * (3 / 2 * v * (/ t ^ 6 * n * 4 / 3 * PI * R0 ^ 3) / R0 * r / q) = v * t ^ 3 * (2 * PI * (R0 * / t ^ 9) ^ 2 * (r / q)) * (n * t ^ 21)) by (intros; field; auto).
  apply Q; lra.
Qed.

(** ** C83: scattering by free electrons *)
Lemma div_lt_r a b c : 0 < c -> a < b * c -> a / c < b.
Proof. intros Hc H. apply (Rmult_lt_reg_r c); [exact Hc|]. unfold Rdiv. rewrite Rmult_assoc, Rinv_l by lra. lra. Qed.
Lemma lt_div_r a b c : 0 < c -> b * c < a -> b < a / c.
Proof. intros Hc H. apply (Rmult_lt_reg_r c); [exact Hc|]. unfold Rdiv. rewrite Rmult_assoc, Rinv_l by lra. lra. Qed.
Lemma rep_core x p : 0 < x -> 0 < p -> 0 < rep_of x p < 1.
Proof.
  intros Hx Hp. unfold rep_of.
  assert (E : exp (- x / 2) < exp (x / 2)) by (apply exp_increasing; lra). assert (E0 := exp_pos (- x / 2)).
  assert (G : 1 < (exp (x / 2) + p) / (exp (- x / 2) + p)) by (apply lt_div_r; lra).
  assert (Ex : exp (x / 2) = exp x * exp (- x / 2)) by (rewrite <- exp_plus; f_equal; lra).
  assert (X1 : 1 < exp x) by (rewrite <- exp_0; apply exp_increasing; lra).
  assert (L : (exp (x / 2) + p) / (exp (- x / 2) + p) < exp x).
  { apply div_lt_r; [lra|]. rewrite Ex. nra. }
  split.
  - apply div_pp; [|exact Hx]. rewrite <- ln_1. apply ln_increasing; lra.
  - apply div_lt_r; [exact Hx|]. rewrite Rmult_1_l. rewrite <- (ln_exp x) at 3. apply ln_increasing; lra.
Qed.
Lemma rep_doc x y : 0 < x -> rep_of x (exp y) = doc_Rep x y.
Proof.
  intros Hx. unfold rep_of, doc_Rep. assert (A := exp_pos (x / 2)). assert (B := exp_pos (- x / 2)). assert (Y := exp_pos y).
  assert (E : (exp (x / 2) + exp y) / (exp (- x / 2) + exp y) = exp x / ((1 + exp (y + x / 2)) / (1 + exp (y - x / 2)))).
  { replace (y - x / 2) with (y + - x / 2) by lra. rewrite !exp_plus. assert (Ex : exp x = exp (x / 2) * exp (x / 2)) by (rewrite <- exp_plus; f_equal; lra).
    assert (I : exp (x / 2) * exp (- x / 2) = 1) by (rewrite <- exp_plus, <- exp_0; f_equal; lra).
    rewrite Ex. set (a := exp (x / 2)) in *. set (b := exp (- x / 2)) in *. set (z := exp y) in *.
    apply (Rmult_eq_reg_r ((b + z) * (1 + z * a))); [|apply Rmult_integral_contrapositive; split; nra].
    transitivity ((a + z) * (1 + z * a)); [field; nra|].
    transitivity (a * a * (1 + z * b) * (b + z)); [|field; split; nra].
    replace (a * a * (1 + z * b)) with (a * (a + z * (a * b))) by ring. rewrite I. replace (a * (a + z * 1) * (b + z)) with ((a + z) * (a * b + z * a)) by ring. rewrite I. reflexivity. }
  rewrite E. assert (D : 0 < (1 + exp (y + x / 2)) / (1 + exp (y - x / 2))) by (assert (H1 := exp_pos (y + x / 2)); assert (H2 := exp_pos (y - x / 2)); apply div_pp; lra).
  unfold Rdiv at 2. rewrite ln_mult; [|apply exp_pos|apply Rinv_0_lt_compat, D]. rewrite ln_exp, ln_Rinv by exact D. field. lra.
Qed.
Lemma rep_anti x p q : 0 < x -> 0 < p -> p <= q -> rep_of x q <= rep_of x p /\ (p < q -> rep_of x q < rep_of x p).
Proof.
  intros Hx Hp Hq. unfold rep_of. assert (E : exp (- x / 2) < exp (x / 2)) by (apply exp_increasing; lra). assert (E0 := exp_pos (- x / 2)).
  assert (G : (exp (x / 2) + q) / (exp (- x / 2) + q) = 1 + (exp (x / 2) - exp (- x / 2)) / (exp (- x / 2) + q)) by (field; lra).
  assert (G' : (exp (x / 2) + p) / (exp (- x / 2) + p) = 1 + (exp (x / 2) - exp (- x / 2)) / (exp (- x / 2) + p)) by (field; lra).
  rewrite G, G'. set (a := exp (x / 2) - exp (- x / 2)) in *. assert (Ha : 0 < a) by (unfold a; lra).
  assert (Pq : 0 < a / (exp (- x / 2) + q)) by (apply div_pp; lra). split.
  - assert (K : forall u v, u <= v -> u / x <= v / x) by (intros u v Huv; apply Rmult_le_compat_r; [left; apply Rinv_0_lt_compat, Hx|exact Huv]). apply K.
    assert (Le : a / (exp (- x / 2) + q) <= a / (exp (- x / 2) + p)) by (apply Rmult_le_compat_l; [lra|]; apply Rinv_le_contravar; lra).
    destruct Le as [Lt|Eq]; [left; apply ln_increasing; lra|rewrite Eq; right; reflexivity].
  - assert (K : forall u v, u < v -> u / x < v / x) by (intros u v Huv; apply Rmult_lt_compat_r; [apply Rinv_0_lt_compat, Hx|exact Huv]).
    intros Hl. apply K. apply ln_increasing; [lra|]. apply Rplus_lt_compat_l.
    apply Rmult_lt_compat_l; [exact Ha|]. apply Rinv_lt_contravar; [apply Rmult_lt_0_compat; lra|lra].
Qed.
Lemma wmax_pos w : 0 < Rmax w (/ 10 ^ 6).
Proof. eapply Rlt_le_trans; [apply (ip10 6)|apply Rmax_r]. Qed.
Lemma epx_pos w T : 0 < w -> 0 < T -> 0 < ep_x w T.
Proof. intros Hw HT. unfold ep_x. apply div_pp; [apply Rmult_lt_0_compat; [unfold hbar_kB; lra|exact Hw]|exact HT]. Qed.
(** the reduction factor computed from EF lies in (0,1), never falls with EF, and is the documented one as long as its exponent is at most 23
    (otherwise it is larger); frequencies below 1e-6 use the value at 1e-6 *)
Theorem C83_reduction_factor : forall md vs EF w T, 0 < T ->
  let r := ep_rep_num md vs EF w T in let w' := Rmax w (/ 10 ^ 6) in let y := ep_y md vs EF w' T in
  0 < r < 1 /\ (y <= 23 -> r = doc_Rep (ep_x w' T) y) /\ (23 < y -> doc_Rep (ep_x w' T) y < r) /\
  (forall EF', EF <= EF' -> r <= ep_rep_num md vs EF' w T) /\ (forall EF', EF < EF' -> y <= 23 -> r < ep_rep_num md vs EF' w T).
Proof.
  intros md vs EF w T HT r w' y. assert (Hw := wmax_pos w). fold w' in Hw. assert (Hx := epx_pos w' T Hw HT).
  assert (R0 : forall E, ep_rep_num md vs E w T = rep_of (ep_x w' T) (exp (Rmin (ep_y md vs E w' T) 23))) by reflexivity.
  assert (Ymono : forall a b, a <= b -> ep_y md vs b w' T <= ep_y md vs a w' T).
  { intros a b H. unfold ep_y. unfold Rdiv. apply Rmult_le_compat_r; [left; apply Rinv_0_lt_compat, HT|]. apply Rplus_le_compat_l, Ropp_le_contravar. apply Rmult_le_compat_r; [|exact H].
    left. apply Rinv_0_lt_compat. lra. }
  assert (Ystrict : forall a b, a < b -> ep_y md vs b w' T < ep_y md vs a w' T).
  { intros a b H. unfold ep_y. unfold Rdiv. apply Rmult_lt_compat_r; [apply Rinv_0_lt_compat, HT|]. apply Rplus_lt_compat_l, Ropp_lt_contravar. apply Rmult_lt_compat_r; [|exact H].
    apply Rinv_0_lt_compat. lra. }
  assert (Emono : forall a b, a <= b -> exp a <= exp b) by (intros a b [H|H]; [left; apply exp_increasing, H|rewrite H; right; reflexivity]).
  unfold r. split; [apply rep_core; [exact Hx|apply exp_pos]|]. split; [|split; [|split]].
  - intros H. rewrite R0. fold y. rewrite Rmin_left by exact H. apply rep_doc, Hx.
  - intros H. rewrite R0. fold y. rewrite Rmin_right by lra. rewrite <- rep_doc by exact Hx. apply rep_anti; [exact Hx|apply exp_pos|left; apply exp_increasing, H|apply exp_increasing, H].
  - intros EF' H. rewrite !R0. apply rep_anti; [exact Hx|apply exp_pos|]. apply Emono. specialize (Ymono _ _ H). apply Rle_min_compat_r, Ymono.
  - intros EF' H Hy. rewrite !R0. apply rep_anti; [exact Hx|apply exp_pos| |].
    + apply Emono. apply Rle_min_compat_r, Ymono. lra.
    + apply exp_increasing. fold y. specialize (Ystrict _ _ H). fold y in Ystrict. rewrite (Rmin_left y) by exact Hy. eapply Rle_lt_trans; [apply Rmin_l|exact Ystrict].
Qed.
(** the whole rate is below C' w *)
Theorem C83_rate_below_limit : forall vs md EF Ed D0 w T p, ep_init (Some vs) (Some md) (Some EF) (Some Ed) (Some D0) None None = Ok p ->
  0 < T -> 0 < w -> 0 < D0 -> 0 < vs -> Ed * md <> 0 ->
  exists r c, ep_rate p w T = Ok r /\ ep_coef p = Ok c /\ 0 < c /\ 0 < r < c * w.
Proof.
  intros vs md EF Ed D0 w T p E HT Hw HD Hv HE. cbn in E. injection E as <-. unfold ep_rate, ep_coef, ep_Rep, ep_cal_coef, ep_cal_Rep. cbn.
  assert (P2 : 0 < (Ed * md) ^ 2) by (assert (Q := pow2_ge_0 (Ed * md)); assert (N := pow_nonzero (Ed * md) 2 HE); lra).
  assert (C0 : 0 < 2.89061617105021 * / 10 ^ 3 * (Ed * md) ^ 2 / (D0 * vs)).
  { apply div_pp; [|apply Rmult_lt_0_compat; assumption]. apply Rmult_lt_0_compat; [|exact P2]. apply Rmult_lt_0_compat; [lra|apply ip10]. }
  destruct (C83_reduction_factor md vs EF w T HT) as [[r1 r2] _]. eexists. eexists. split; [reflexivity|]. split; [reflexivity|]. split; [exact C0|].
  revert C0 r1 r2. cbn [pow]. generalize (2.89061617105021 * / (10 * (10 * (10 * 1))) * (Ed * md * (Ed * md * 1)) / (D0 * vs)) (ep_rep_num md vs EF w T). intros c r C0 r1 r2.
  split; [apply Rmult_lt_0_compat; [apply Rmult_lt_0_compat; lra|exact Hw]|]. apply Rmult_lt_compat_r; [exact Hw|]. nra.
Qed.
Lemma Rdiv_1 x : x / 1 = x. Proof. field. Qed.
Lemma pi_digits : 3.1415926 < PI < 3.1415927.
Proof.
  assert (H := PI_2_3_7_ineq 4). revert H. unfold tg_alt, PI_2_3_7_tg, Ratan_seq. cbn -[pow INR Rdiv]. intros [H1 H2].
  rewrite !INR_IZR_INZ in H1; rewrite !INR_IZR_INZ in H2. cbn [Z.of_nat Pos.of_succ_nat Pos.succ] in H1, H2. split; lra.
Qed.
(** in SI units the coefficient is the documented one to 1e-7, and x, y are the documented ratios to 1e-14 in every term *)
Theorem C83_coefficient_si : forall vs md EF Ed D0 p, ep_init (Some vs) (Some md) (Some EF) (Some Ed) (Some D0) None None = Ok p ->
  0 < vs -> 0 < D0 ->
  exists c e, ep_coef p = Ok c /\ Rabs (e - 1) < / 10 ^ 7 /\ c = e * doc_Ccoef (Ed * c_q) (md * c_me) (D0 * 10 ^ 3) (vs * 10 ^ 3).
Proof.
  intros vs md EF Ed D0 p E Hv HD. cbn in E. injection E as <-. unfold ep_coef, ep_cal_coef. cbn [or_else e_coef e_Ed e_md e_D0 e_vs need].
  exists (2.89061617105021 * / 10 ^ 3 * (Ed * md) ^ 2 / (D0 * vs)), (2.89061617105021 * (2 * PI) * 1.054571817 ^ 3 * / 10 ^ 5 * 10 ^ 6 / (1.602176634 * 9.1093837015) ^ 2).
  split; [reflexivity|]. assert (P := pi_digits). split; [apply Rabs_def1; lra|]. unfold doc_Ccoef, c_q, c_me, c_hbar.
  assert (Q : forall t a b h m k, t <> 0 -> PI <> 0 -> a <> 0 -> b <> 0 -> h <> 0 ->
    k * / t ^ 3 * (Ed * md) ^ 2 / (D0 * vs) = k * (2 * PI) * h ^ 3 * / t ^ 5 * t ^ 6 / (a * b) ^ 2 *
     ((Ed * (a * / t ^ 19) * (md * (b * / t ^ 31))) ^ 2 / (2 * PI * (h * / t ^ 34) ^ 3 * (D0 * t ^ 3) * (vs * t ^ 3))) * m / m \/ m = 0) .
  { intros t a b h m k Ht HP Ha Hb Hh. destruct (Req_EM_T m 0); [auto|left]. field. repeat split; lra. }
  destruct (Q 10 1.602176634 9.1093837015 1.054571817 1 2.89061617105021) as [H|H]; lra.
Qed.
Theorem C83_exponents_si : forall md vs EF w T, 0 < md -> 0 < vs -> 0 < w -> 0 < T ->
  exists a b c d, Rabs (a - 1) < / 10 ^ 14 /\ Rabs (b - 1) < / 10 ^ 14 /\ Rabs (c - 1) < / 10 ^ 14 /\ Rabs (d - 1) < / 10 ^ 14 /\
    ep_x w T = a * (c_hbar * (w * 10 ^ 12) / (c_kB * T)) /\
    ep_y md vs EF w T = (b * doc_Eph (md * c_me) (vs * 10 ^ 3) (w * 10 ^ 12) + c * doc_Emv (md * c_me) (vs * 10 ^ 3) - d * (EF * c_q)) / (c_kB * T).
Proof.
  intros md vs EF w T Hm Hv Hw HT.
  exists (hbar_kB * 1.380649 / 10.54571817), (3.6464123068230276 / 0.03298949878462954 * (8 * 1.380649 * 9.1093837015 * / 10 ^ 4) / 1.054571817 ^ 2),
    (0.03298949878462954 * 1.380649 * 200 / 9.1093837015), (1.380649 * / 10 ^ 4 / (8.617333262145179e-05 * 1.602176634)).
  split; [unfold hbar_kB; apply Rabs_def1; lra|]. split; [apply Rabs_def1; lra|]. split; [apply Rabs_def1; lra|]. split; [apply Rabs_def1; lra|].
  unfold ep_x, ep_y, ep_Tph, doc_Eph, doc_Emv, c_hbar, c_kB, c_me, c_q. split.
  - generalize hbar_kB. intros h. assert (Q : forall t k, t <> 0 -> k <> 0 -> h * w / T = h * k / (t * 1.054571817) * ((1.054571817 * / t ^ 34) * (w * t ^ 12) / (k * / t ^ 23 * T))).
    { intros t k Ht Hk. generalize 1.054571817 (ltac:(lra) : 1.054571817 <> 0). intros b Hb. field. repeat split; lra. }
    rewrite (Q 10 1.380649) by lra. replace (10 * 1.054571817) with 10.54571817 by lra. reflexivity.
  - assert (Q : forall t k h m q a e z, t <> 0 -> k <> 0 -> h <> 0 -> m <> 0 -> q <> 0 -> a <> 0 -> e <> 0 ->
      (z * w ^ 2 / (a * (md * vs ^ 2)) + a * (md * vs ^ 2) - EF / e) / T =
      (z / a * (8 * k * m * / t ^ 4) / h ^ 2 * ((h * / t ^ 34) ^ 2 * (w * t ^ 12) ^ 2 / (8 * (md * (m * / t ^ 31)) * (vs * t ^ 3) ^ 2)) +
       a * k * (2 * t ^ 2) / m * (1 / 2 * (md * (m * / t ^ 31)) * (vs * t ^ 3) ^ 2) -
       k * / t ^ 4 / (e * q) * (EF * (q * / t ^ 19))) / (k * / t ^ 23 * T)).
    { intros. field. repeat split; lra. }
    rewrite (Q 10 1.380649 1.054571817 9.1093837015 1.602176634 0.03298949878462954 8.617333262145179e-05 3.6464123068230276) by lra.
    replace (2 * 10 ^ 2) with 200 by lra. reflexivity.
Qed.

(** ** C84: construction *)
Theorem C84_required : forall gm vs Va Ma G Theta,
  (ph_init gm vs Va Ma (Some 1) (Some Theta) None = Err ValueError <-> gm = None \/ vs = None \/ Va = None \/ Ma = None) /\
  (pd_init vs Va G None = Err ValueError <-> vs = None \/ Va = None \/ G = None) /\
  (forall c, ph_init gm vs Va Ma (Some 1) (Some Theta) (Some c) = Ok (PHcoef c Theta) /\ pd_init vs Va G (Some c) = Ok (PDcoef c)).
Proof.
  intros gm vs Va Ma G Theta. split; [|split; [|auto]].
  - destruct gm, vs, Va, Ma; cbn; split; intros; try discriminate; auto; intuition discriminate.
  - destruct vs, Va, G; cbn; split; intros; try discriminate; auto; intuition discriminate.
Qed.
Theorem C84_nanoparticles : forall N1 vs Rr D0 D1 Y0 Y1 alpha phi,
  (np_init N1 vs Rr D0 D1 (Some Y0) (Some Y1) (Some alpha) phi = Err ValueError <-> (N1 = None /\ phi = None) \/ vs = None \/ Rr = None \/ D0 = None \/ D1 = None) /\
  (forall p, np_init N1 vs Rr D0 D1 (Some Y0) (Some Y1) (Some alpha) phi = Ok p ->
     match phi with Some f => np_phi p = f | None => exists n r, N1 = Some n /\ Rr = Some r /\ np_phi p = (n * 10 ^ 21) * (4 / 3 * PI * (r * / 10 ^ 9) ^ 3) end /\
     Some (np_vs p) = vs /\ Some (np_R p) = Rr /\ Some (np_D0 p) = D0 /\ Some (np_D1 p) = D1 /\ np_Y0 p = Y0 /\ np_Y1 p = Y1 /\ np_alpha p = alpha).
Proof.
  intros N1 vs Rr D0 D1 Y0 Y1 alpha phi. split.
  - destruct N1, vs, Rr, D0, D1, phi; cbn; split; intros H; try discriminate; auto; intuition discriminate.
  - intros p H. destruct phi as [f|].
    + destruct vs, Rr, D0, D1; try discriminate. cbn in H. injection H as <-. cbn. auto 10.
    + destruct N1 as [n|], vs, Rr as [r0|], D0, D1; try discriminate. cbn [np_init] in H. injection H as <-. split; [|cbn; auto 10].
      exists n, r0. split; [reflexivity|]. split; [reflexivity|]. unfold np_phi. cbn [np_frac np_N1_or_phi np_R].
      assert (Q : forall t, t <> 0 -> / t ^ 6 * n * 4 / 3 * PI * r0 ^ 3 = n * t ^ 21 * (4 / 3 * PI * (r0 * / t ^ 9) ^ 3)) by (intros; field; assumption).
      apply Q. lra.
Qed.
Theorem C84_free_electrons : forall vs md EF Ed D0 Rep coef,
  (exists p, ep_init vs md EF Ed D0 Rep coef = Ok p) <->
  match coef, Rep with
  | None, None => vs <> None /\ md <> None /\ EF <> None /\ Ed <> None /\ D0 <> None
  | None, Some _ => vs <> None /\ md <> None /\ Ed <> None /\ D0 <> None
  | Some _, None => vs <> None /\ md <> None /\ EF <> None
  | Some _, Some _ => True
  end.
Proof.
  intros vs md EF Ed D0 Rep coef. destruct coef, Rep, vs, md, EF, Ed, D0; cbn; split; intros H; try destruct H as [p H]; try discriminate; try (eexists; reflexivity); intuition congruence.
Qed.
(** what was stored is what is used, except that a stored 0 is taken as absent: then the rate is a KeyError *)
Theorem C84_zero_is_absent : forall vs md EF Ed D0 Rep coef p w T, ep_init vs md EF Ed D0 Rep coef = Ok p ->
  (forall c r, coef = Some c -> Rep = Some r -> c <> 0 -> r <> 0 -> ep_rate p w T = Ok (c * r * w)) /\
  (Rep = Some 0 -> coef <> Some 0 -> ep_rate p w T = Err KeyError) /\
  (coef = Some 0 -> ep_rate p w T = Err KeyError) /\
  (forall c, coef = Some c -> c <> 0 -> Rep = None -> exists m v e, md = Some m /\ vs = Some v /\ EF = Some e /\ ep_rate p w T = Ok (c * ep_rep_num m v e w T * w)).
Proof.
  intros vs md EF Ed D0 Rep coef p w T E. split; [|split; [|split]].
  - intros c r -> -> Hc Hr. cbn in E. injection E as <-. unfold ep_rate, ep_coef, ep_Rep, or_else. cbn. destruct (Req_EM_T c 0); [contradiction|]. cbn. destruct (Req_EM_T r 0); [contradiction|]. reflexivity.
  - intros -> Hc. cbn in E. unfold ep_rate, ep_coef, ep_Rep, or_else.
    destruct coef as [c|].
    + injection E as <-. cbn. destruct (Req_EM_T c 0) as [->|]; [congruence|]. cbn. destruct (Req_EM_T 0 0); [reflexivity|congruence].
    + destruct vs, md, Ed, D0; try discriminate. injection E as <-. cbn. destruct (Req_EM_T 0 0); [reflexivity|congruence].
  - intros ->. cbn in E. unfold ep_rate, ep_coef, or_else. destruct Rep; [injection E as <-|destruct vs, md, EF; try discriminate; injection E as <-]; cbn; (destruct (Req_EM_T 0 0); [reflexivity|congruence]).
  - intros c -> Hc ->. cbn in E. destruct vs as [v|], md as [m|], EF as [e|]; try discriminate. injection E as <-. exists m, v, e. repeat split. unfold ep_rate, ep_coef, ep_Rep, or_else. cbn. destruct (Req_EM_T c 0); [contradiction|]. reflexivity.
Qed.
Example C81_case : 0 <= ph_coef (PHfull 2 3 20 50 1 100) /\ 0 <= pd_coef (PDfull 3 20 (1 / 10)).
Proof. destruct (C81_coefficients_positive 2 3 20 50 1 100 (1 / 10)) as [a b]; try lra. Qed.
Example C82_case : let p := {| np_frac := false; np_N1_or_phi := 1; np_vs := 3; np_R := 2; np_D0 := 8; np_D1 := 6; np_Y0 := 1; np_Y1 := 1; np_alpha := 1 |} in np_ratio p 1 <> 0.
Proof. cbn zeta. unfold np_ratio. cbn [np_alpha np_D1 np_D0 np_Y1 np_Y0 np_R np_vs]. intros H. lra. Qed.
Example C83_case : exists md vs EF w T, 0 < T /\ ep_y md vs EF (Rmax w (/ 10 ^ 6)) T <= 23.
Proof.
  exists 1, 1, 1, 0, 300. split; [lra|]. unfold ep_y, ep_Tph. rewrite Rmax_right by (left; apply ip10). cbn [pow]. lra.
Qed.
Example C84_case : exists p, ep_init (Some 1) (Some 1) (Some 0) (Some 1) (Some 1) None None = Ok p.
Proof. eexists. reflexivity. Qed.
Print Assumptions C82_nanoparticles.
Print Assumptions C83_reduction_factor.
Print Assumptions C84_zero_is_absent.
Print Assumptions C83_coefficient_si.
