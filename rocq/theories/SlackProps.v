(** C93: the models of Slack, the bipolar contribution and the power law. *)
From Coq Require Import Reals Lra Lia String Ascii.
From Verif Require Import Py PyStr RUtil ScatSpec KlemModel KlemSpec KlemProofs DebyeProofs.
Local Open Scope R_scope.

Lemma slack_eq c td gm Ma Va N T : gm <> 0 -> T <> 0 -> c * Ma * Rpower Va (1 / 3) * td ^ 3 / gm ^ 2 / Rpower N (2 / 3) / T = doc_slack c td gm Ma Va N T.
Proof. intros. unfold doc_slack. assert (Rpower N (2 / 3) <> 0) by (apply Rgt_not_eq; apply exp_pos). field. repeat split; assumption. Qed.
(** the documented expression, for a number A and for the two named models *)
Theorem C93_slack_documented : forall td gm Ma Va N T, gm <> 0 -> T <> 0 ->
  (forall A, slack (ANum A) td gm Ma Va N T = Ok (doc_slack A td gm Ma Va N T)) /\
  slack (AName (S_ "Julian")) td gm Ma Va N T = Ok (doc_slack (doc_julian gm) td gm Ma Va N T) /\
  slack (AName (S_ "Qin")) td gm Ma Va N T = Ok (doc_slack (doc_qin gm) td gm Ma Va N T).
Proof.
  intros td gm Ma Va N T Hg HT. split; [|split].
  - intros A. unfold slack, slack_coef. cbv beta iota delta [rbind]. rewrite slack_eq by assumption. reflexivity.
  - unfold slack. cbn [slack_coef eqb]. change (eqb (S_ "Julian") (S_ "Julian")) with true. cbv beta iota delta [rbind]. rewrite slack_eq by assumption.
    replace (julian gm) with (doc_julian gm); [reflexivity|]. unfold julian, doc_julian. do 2 f_equal. field. exact Hg.
  - unfold slack. cbn [slack_coef]. change (eqb (S_ "Qin") (S_ "Julian")) with false. change (eqb (S_ "Qin") (S_ "Qin")) with true. cbv beta iota delta [rbind]. rewrite slack_eq by assumption. reflexivity.
Qed.
Print Assumptions C93_slack_documented.
(** any other name is only noticed on evaluation *)
Theorem C93_slack_names : forall s td gm Ma Va N T,
  slack (AName (S_ "Constant")) td gm Ma Va N T = Err KeyError /\
  (s <> S_ "Julian" -> s <> S_ "Qin" -> s <> S_ "Constant" -> slack (AName s) td gm Ma Va N T = Err AttributeError).
Proof.
  intros s td gm Ma Va N T. split; [reflexivity|]. intros H1 H2 H3. unfold slack, slack_coef.
  destruct (eqb s (S_ "Julian")) eqn:E; [apply eqb_eq in E; contradiction|]. clear E. destruct (eqb s (S_ "Qin")) eqn:E; [apply eqb_eq in E; contradiction|]. clear E.
  destruct (eqb s (S_ "Constant")) eqn:E; [apply eqb_eq in E; contradiction|]. reflexivity.
Qed.
Print Assumptions C93_slack_names.
(** the two coefficients: Julian's denominator has no root, Qin's is between 0 and 1 and rises *)
Theorem C93_coefficients : forall g, 
  (g <> 0 -> 0 < doc_julian g < 3.43 * / 10 ^ 6) /\ (0 < g -> 0 < doc_qin g < 1) /\ (forall g', 0 < g < g' -> doc_qin g < doc_qin g').
Proof.
  intros g. split; [|split].
  - intros Hg. unfold doc_julian. assert (P := ip10 6). set (e := / 10 ^ 6) in *. clearbody e.
    assert (D : 71 / 100 <= 1 - 0.514 / g + 0.228 / g ^ 2). { replace (1 - 0.514 / g + 0.228 / g ^ 2) with (1 - 0.514 * / g + 0.228 * (/ g) ^ 2) by (field; exact Hg). set (y := / g). assert (Y := pow2_ge_0 (y - 1.127)). nra. }
    set (D0 := 1 - 0.514 / g + 0.228 / g ^ 2) in *. clearbody D0. split; [apply div_pp; lra|]. apply Rmult_lt_reg_r with D0; [lra|]. replace (2.43 * e / D0 * D0) with (2.43 * e) by (field; lra). nra.
  - intros Hg. unfold doc_qin. assert (A : 0 < 1 / g) by (apply div_pp; lra). assert (B : 0 < 8.3 * 10 ^ 5 / Rpower g 2.4) by (apply div_pp; [lra|apply exp_pos]). set (D := 1 + _ + _). assert (1 < D) by (unfold D; lra). split; [apply div_pp; lra|].
    apply Rmult_lt_reg_r with D; [lra|]. replace (1 / D * D) with 1 by (field; lra). lra.
  - intros g' H. unfold doc_qin. assert (A : 1 / g' < 1 / g) by (unfold Rdiv; rewrite !Rmult_1_l; apply Rinv_lt_contravar; nra).
    assert (Q : Rpower g 2.4 < Rpower g' 2.4) by (unfold Rpower; apply exp_increasing, Rmult_lt_compat_l; [lra|apply ln_increasing; lra]).
    assert (Q0 : 0 < Rpower g 2.4) by apply exp_pos. set (a := Rpower g 2.4) in *. set (b := Rpower g' 2.4) in *. clearbody a b.
    assert (B : 8.3 * 10 ^ 5 / b < 8.3 * 10 ^ 5 / a) by (apply Rmult_lt_compat_l; [lra|apply Rinv_lt_contravar; nra]).
    assert (B0 : 0 < 8.3 * 10 ^ 5 / b) by (apply div_pp; lra). assert (A0 : 0 < 1 / g') by (apply div_pp; lra).
    apply Rmult_lt_compat_l; [lra|]. apply Rinv_lt_contravar; [apply Rmult_lt_0_compat; lra|lra].
Qed.
Print Assumptions C93_coefficients.
(** inversely proportional to temperature; in terms of the acoustic Debye temperature (td^3 = N*ta^3) it grows with N^(1/3) *)
Theorem C93_slack_laws : forall A td gm Ma Va N T c ta, gm <> 0 -> T <> 0 -> c <> 0 -> 0 < N -> td ^ 3 = N * ta ^ 3 ->
  doc_slack A td gm Ma Va N (c * T) = doc_slack A td gm Ma Va N T / c /\
  doc_slack A td gm Ma Va N T = A * Ma * Rpower Va (1 / 3) * Rpower N (1 / 3) * ta ^ 3 / (gm ^ 2 * T).
Proof.
  intros A td gm Ma Va N T c ta Hg HT Hc HN E. unfold doc_slack. assert (P : Rpower N (2 / 3) <> 0) by (apply Rgt_not_eq; apply exp_pos). split; [field; repeat split; assumption|].
  rewrite E. assert (X : N = Rpower N (1 / 3) * Rpower N (2 / 3)) by (rewrite <- Rpower_plus; replace (1 / 3 + 2 / 3) with 1 by lra; rewrite Rpower_1; [reflexivity|exact HN]).
  set (a := Rpower N (1 / 3)) in *. set (b := Rpower N (2 / 3)) in *. clearbody a b. rewrite X. field. repeat split; assumption.
Qed.
Print Assumptions C93_slack_laws.

(** bipolar contribution: positive and below Kbp*(T/300)^p, falls with the gap; rises with temperature for p, Eg >= 0 not both zero *)
Lemma kBeV_pos : 0 < kB_eV. Proof. unfold kB_eV. lra. Qed.
Theorem C93_bipolar : forall Kbp Eg p T, 0 < Kbp -> 0 < T ->
  0 < bipolar Kbp Eg p T /\ (0 < Eg -> bipolar Kbp Eg p T < Kbp * Rpower (T / 300) p) /\
  (forall Eg', Eg < Eg' -> bipolar Kbp Eg' p T < bipolar Kbp Eg p T) /\
  (forall T', T < T' -> 0 <= p -> 0 <= Eg -> 0 < p \/ 0 < Eg -> bipolar Kbp Eg p T < bipolar Kbp Eg p T').
Proof.
  intros K Eg p T HK HT. assert (kp := kBeV_pos). unfold bipolar. set (k := kB_eV) in *. clearbody k.
  assert (D : 0 < 2 * k * T) by (apply Rmult_lt_0_compat; lra).
  assert (P : forall e t, 0 < K * Rpower (t / 300) p * exp e) by (intros; apply Rmult_lt_0_compat; [apply Rmult_lt_0_compat; [exact HK|apply exp_pos]|apply exp_pos]).
  assert (Q : 0 < K * Rpower (T / 300) p) by (apply Rmult_lt_0_compat; [exact HK|apply exp_pos]).
  split; [apply P|]. split; [|split].
  - intros HE. rewrite <- (Rmult_1_r (K * Rpower (T / 300) p)) at 2. apply Rmult_lt_compat_l; [exact Q|]. rewrite <- exp_0. apply exp_increasing.
    replace (- Eg / (2 * k * T)) with (- (Eg / (2 * k * T))) by (field; lra). assert (0 < Eg / (2 * k * T)) by (apply div_pp; assumption). lra.
  - intros Eg' L. apply Rmult_lt_compat_l; [exact Q|]. apply exp_increasing. apply Rmult_lt_compat_r; [apply Rinv_0_lt_compat; exact D|lra].
  - intros T' L Hp HE Hor. rewrite !Rmult_assoc. apply Rmult_lt_compat_l; [exact HK|]. unfold Rpower. rewrite <- !exp_plus. apply exp_increasing.
    assert (L1 : ln (T / 300) < ln (T' / 300)) by (apply ln_increasing; lra).
    assert (L2 : / (2 * (k * T')) < / (2 * (k * T))) by (apply Rinv_lt_contravar; [repeat apply Rmult_lt_0_compat; lra|nra]).
    unfold Rdiv at 2 4. set (a := ln (T / 300)) in *. set (b := ln (T' / 300)) in *. set (u := / (2 * (k * T'))) in *. set (v := / (2 * (k * T))) in *. destruct Hor; nra.
Qed.
Print Assumptions C93_bipolar.
(** ... and is the documented expression with kB/e0 right to 1e-15 *)
Theorem C93_bipolar_documented : forall Kbp Eg p T, 0 < T -> exists k, Rabs (k - 1) < / 10 ^ 15 /\ bipolar Kbp Eg p T = doc_bipolar Kbp (k * Eg) p T.
Proof.
  intros K Eg p T HT. exists (c_kB / c_e0 / kB_eV). assert (G : forall t, 0 < t -> 1.380649 * / t ^ 23 / (1.602176634 * / t ^ 19) = 1.380649 / 1.602176634 * / t ^ 4) by (intros t Ht; field; lra).
  split.
  - unfold c_kB, c_e0. rewrite G by lra. unfold kB_eV.
    assert (B : 1 - / 10 ^ 15 < 1.380649 / 1.602176634 * / 10 ^ 4 / 8.617333262145179e-05 < 1 + / 10 ^ 15) by lra. apply Rabs_def1; lra.
  - unfold bipolar, doc_bipolar. f_equal. f_equal. assert (kp := kBeV_pos). assert (A : 0 < c_kB) by (unfold c_kB; assert (P := ip10 23); lra). assert (B : 0 < c_e0) by (unfold c_e0; assert (P := ip10 19); lra). field. lra.
Qed.
Print Assumptions C93_bipolar_documented.
(** power law: Kamb + K0 at 300 K; with n < 0 it falls towards K0, with n > 0 it rises *)
Theorem C93_power_law : forall Kamb n K0,
  powerlaw Kamb n K0 300 = Kamb + K0 /\
  (forall T T', 0 < Kamb -> 0 < T < T' -> n < 0 -> K0 < powerlaw Kamb n K0 T' < powerlaw Kamb n K0 T) /\
  (forall T T', 0 < Kamb -> 0 < T < T' -> 0 < n -> K0 < powerlaw Kamb n K0 T < powerlaw Kamb n K0 T') /\
  (forall T, 0 < T -> powerlaw Kamb (-1) K0 T = Kamb * 300 / T + K0).
Proof.
  intros K n K0. unfold powerlaw. split; [|split; [|split]].
  - replace (300 / 300) with 1 by lra. unfold Rpower. rewrite ln_1, Rmult_0_r, exp_0. ring.
  - intros T T' HK HT Hn. assert (L : ln (T / 300) < ln (T' / 300)) by (apply ln_increasing; lra). assert (A : Rpower (T' / 300) n < Rpower (T / 300) n) by (unfold Rpower; apply exp_increasing; nra).
    assert (B : 0 < Rpower (T' / 300) n) by apply exp_pos. nra.
  - intros T T' HK HT Hn. assert (L : ln (T / 300) < ln (T' / 300)) by (apply ln_increasing; lra). assert (A : Rpower (T / 300) n < Rpower (T' / 300) n) by (unfold Rpower; apply exp_increasing; nra).
    assert (B : 0 < Rpower (T / 300) n) by apply exp_pos. nra.
  - intros T HT. replace (-1) with (- (1)) by lra. rewrite Rpower_Ropp, Rpower_1 by lra. field. lra.
Qed.
Print Assumptions C93_power_law.
Example C93_case : 300 ^ 3 = 8 * 150 ^ 3 /\ S_ "julian" <> S_ "Julian" /\ S_ "julian" <> S_ "Qin" /\ S_ "julian" <> S_ "Constant".
Proof. split; [lra|]. repeat split; discriminate. Qed.
