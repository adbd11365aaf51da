(** C73-C76: RSPB, bandline, dosline and the spectral functions of MultiBands (src/teflow/bandlib.py:529-555, 1272-1518). *)
From Coq Require Import Reals Lra Lia Machin Ratan.
From Coquelicot Require Import Coquelicot.
From Verif Require Import Py RUtil RombModel BandModel BandSpec BandProofs SpbModel SpbProofs RspbModel.
Local Open Scope R_scope.

Lemma npow_pos x y : 0 < x -> npow x y = Some (Rpower x y).
Proof. intros. unfold npow. destruct (Rlt_dec 0 x); [reflexivity|contradiction]. Qed.
Lemma npow_neg x y : x <= 0 -> npow x y = None.
Proof. intros. unfold npow. destruct (Rlt_dec 0 x); [lra|reflexivity]. Qed.
Lemma ndiv_ok x y : y <> 0 -> ndiv x y = Some (x / y).
Proof. intros. unfold ndiv. destruct (Req_EM_T y 0); [contradiction|reflexivity]. Qed.
Lemma nlog_pos x : 0 < x -> nlog x = Some (ln x).
Proof. intros. unfold nlog. destruct (Rlt_dec 0 x); [reflexivity|contradiction]. Qed.
Lemma exp2_pos : 0 < exp 2. Proof. apply exp_pos. Qed.
Lemma exp2_4 : 4 < exp 2.
Proof. replace 2 with (1 + 1) by ring. rewrite exp_plus. pose proof (exp_ineq1 1 ltac:(lra)) as H. replace 4 with (2 * 2) by ring. apply Rmult_gt_0_lt_compat; lra. Qed.
Lemma cpi_pos : 0 < PI * PI / 3 - 2.
Proof. pose proof PI2_3_2 as H. assert (3 < PI) by lra. assert (3 * 3 < PI * PI) by (apply Rmult_gt_0_lt_compat; lra). lra. Qed.
Lemma Rpower_inv_l x a b : 0 < x -> a * b = 1 -> Rpower (Rpower x a) b = x.
Proof. intros H E. rewrite Rpower_mult, E, Rpower_1; [reflexivity|exact H]. Qed.
Lemma Rpower_pos x a : 0 < Rpower x a. Proof. apply exp_pos. Qed.

(** ** C73: reduced properties and their inverses *)
Lemma Sr_val N f delta : N <> 0 -> 0 < 1 + delta + exp 2 / N -> Sr N f delta = Some (f * ln (1 + delta + exp 2 / N)).
Proof. intros HN H. unfold Sr. rewrite ndiv_ok by exact HN. cbn [obind]. rewrite nlog_pos by exact H. reflexivity. Qed.
Theorem C73_seebeck :
  forall factor delta : R, factor <> 0 -> -1 < delta ->
  (forall N x, 0 < N -> Sr N factor delta = Some x -> iSr x factor delta = Some N)
  /\ (forall N, 0 < N -> exists x, Sr N factor delta = Some x)
  /\ (forall x N, iSr x factor delta = Some N -> Sr N factor delta = Some x)
  /\ (forall x, (exists N, iSr x factor delta = Some N) <-> x / factor <> ln (1 + delta))
  /\ (forall x N, iSr x factor delta = Some N -> (0 < N <-> ln (1 + delta) < x / factor))
  /\ (forall N N' x x', 0 < factor -> 0 < N < N' -> Sr N factor delta = Some x -> Sr N' factor delta = Some x' -> factor * ln (1 + delta) < x' < x).
Proof.
  intros f d Hf Hd. pose proof exp2_pos as E2.
  assert (P : forall N, 0 < N -> 0 < 1 + d + exp 2 / N) by (intros N HN; assert (0 < exp 2 / N) by (apply Rdiv_lt_0_compat; assumption); lra).
  assert (IS : forall x, iSr x f d = ndiv (exp 2) (exp (x / f) - 1 - d)) by (intros x; unfold iSr; rewrite ndiv_ok by exact Hf; reflexivity).
  assert (Ez : forall x, exp (x / f) - 1 - d = 0 <-> x / f = ln (1 + d)).
  { intros x. split; intros H. - replace (1 + d) with (exp (x / f)) by lra. rewrite ln_exp. reflexivity. - rewrite H, exp_ln by lra. lra. }
  assert (INV : forall x N, iSr x f d = Some N -> exp (x / f) - 1 - d <> 0 /\ N = exp 2 / (exp (x / f) - 1 - d)).
  { intros x N H. rewrite IS in H. unfold ndiv in H. destruct (Req_EM_T _ 0); [discriminate|]. split; [assumption|]. congruence. }
  split; [|split; [|split; [|split; [|split]]]].
  - intros N x HN H. rewrite Sr_val in H by (try apply P; lra). assert (X : x = f * ln (1 + d + exp 2 / N)) by congruence. subst x.
    rewrite IS. replace (f * ln (1 + d + exp 2 / N) / f) with (ln (1 + d + exp 2 / N)) by (field; exact Hf). rewrite exp_ln by (apply P; exact HN).
    assert (Q : 0 < exp 2 / N) by (apply Rdiv_lt_0_compat; assumption). rewrite ndiv_ok by lra. f_equal. set (e := exp 2) in *. replace (1 + d + e / N - 1 - d) with (e / N) by ring. field. split; lra.
  - intros N HN. eexists. apply Sr_val; [lra|apply P; exact HN].
  - intros x N H. destruct (INV x N H) as (Hz & ->). set (e := exp 2) in *. set (y := exp (x / f)) in *. assert (Y : 0 < y) by apply exp_pos.
    assert (Q : e / (e / (y - 1 - d)) = y - 1 - d) by (field; split; lra).
    rewrite Sr_val; fold e; rewrite ?Q.
    + f_equal. replace (1 + d + (y - 1 - d)) with y by ring. unfold y. rewrite ln_exp. field. exact Hf.
    + apply Rmult_integral_contrapositive_currified; [lra|]. apply Rinv_neq_0_compat. exact Hz.
    + lra.
  - intros x. rewrite IS. split.
    + intros (N & H) E. apply Ez in E. unfold ndiv in H. destruct (Req_EM_T _ 0); [discriminate|contradiction].
    + intros H. eexists. apply ndiv_ok. intros E. apply H. apply Ez. exact E.
  - intros x N H. destruct (INV x N H) as (Hz & ->). assert (G : ln (1 + d) < x / f <-> 0 < exp (x / f) - 1 - d).
    { split; intros G. - apply exp_increasing in G. rewrite exp_ln in G by lra. lra. - apply exp_lt_inv. rewrite exp_ln by lra. lra. }
    rewrite G. split; intros Q.
    + destruct (Rtotal_order (exp (x / f) - 1 - d) 0) as [L|[L|L]]; [|contradiction|exact L]. exfalso.
      assert (0 < exp 2 / - (exp (x / f) - 1 - d)) by (apply Rdiv_lt_0_compat; lra). assert (E : exp 2 / - (exp (x / f) - 1 - d) = - (exp 2 / (exp (x / f) - 1 - d))) by (field; lra). lra.
    + apply Rdiv_lt_0_compat; lra.
  - intros N N' x x' Hp (HN & HN') H H'. rewrite Sr_val in H, H' by (try apply P; lra).
    assert (X : x = f * ln (1 + d + exp 2 / N)) by congruence. assert (X' : x' = f * ln (1 + d + exp 2 / N')) by congruence. rewrite X, X'.
    assert (A : exp 2 / N' < exp 2 / N) by (unfold Rdiv; apply Rmult_lt_compat_l; [exact E2|]; apply Rinv_lt_contravar; [apply Rmult_lt_0_compat; lra|lra]).
    assert (B : 0 < exp 2 / N') by (apply Rdiv_lt_0_compat; lra).
    split; apply Rmult_lt_compat_l; try exact Hp; apply ln_increasing; lra.
Qed.
Print Assumptions C73_seebeck.
Theorem C73_mobility :
  forall factor : R, 0 < factor ->
  (forall N x, -2 < N -> Ur N factor = Some x -> iUr x factor = Some N)
  /\ (forall N, -2 < N -> exists x, Ur N factor = Some x)
  /\ (forall x, 0 < x -> exists N, iUr x factor = Some N /\ Ur N factor = Some x /\ -2 < N /\ (0 <= N <-> x <= factor))
  /\ (forall N N' x x', 0 < N < N' -> Ur N factor = Some x -> Ur N' factor = Some x' -> 0 < x' < x /\ x < factor).
Proof.
  intros f Hf.
  assert (UV : forall N, -2 < N -> Ur N f = Some (f * Rpower (1 + N / 2) (- (1 / 3)))) by (intros N HN; unfold Ur; rewrite npow_pos by lra; reflexivity).
  assert (CU : forall y, 0 < y -> Rpower y (1 / 3) ^ 3 = y).
  { intros y Hy. rewrite <- Rpower_pow by apply Rpower_pos. apply Rpower_inv_l; [exact Hy|]. simpl. field. }
  split; [|split; [|split]].
  - intros N x HN H. rewrite UV in H by exact HN. assert (X : x = f * Rpower (1 + N / 2) (- (1 / 3))) by congruence. subst x.
    assert (Q : 0 < Rpower (1 + N / 2) (- (1 / 3))) by apply Rpower_pos. unfold iUr. rewrite ndiv_ok by (apply Rgt_not_eq, Rmult_lt_0_compat; assumption). cbn [obind]. f_equal.
    replace (f / (f * Rpower (1 + N / 2) (- (1 / 3)))) with (Rpower (1 + N / 2) (1 / 3)).
    + rewrite CU by lra. field.
    + rewrite Rpower_Ropp. pose proof (Rpower_pos (1 + N / 2) (1 / 3)). field. split; lra.
  - intros N HN. eexists. apply UV. exact HN.
  - intros x Hx. assert (Q : 0 < f / x) by (apply Rdiv_lt_0_compat; assumption). assert (Q3 : 0 < (f / x) ^ 3) by (apply pow_lt; exact Q).
    exists (2 * ((f / x) ^ 3 - 1)). split; [unfold iUr; rewrite ndiv_ok by lra; reflexivity|]. split; [|split; [lra|]].
    + rewrite UV by lra. f_equal. replace (1 + 2 * ((f / x) ^ 3 - 1) / 2) with ((f / x) ^ 3) by (generalize ((f / x) ^ 3); intros; field).
      rewrite Rpower_Ropp. rewrite <- Rpower_pow by exact Q. rewrite Rpower_inv_l; [field; lra|exact Q|simpl; field].
    + assert (M : 1 <= (f / x) ^ 3 <-> 1 <= f / x).
      { split; intros M. - destruct (Rle_dec 1 (f / x)) as [|n]; [assumption|]. exfalso. assert (0 < f / x < 1) by lra. assert ((f / x) ^ 3 < 1); [|lra]. simpl. rewrite Rmult_1_r.
          assert (f / x * (f / x) < 1). { rewrite <- (Rmult_1_r 1). apply Rmult_gt_0_lt_compat; lra. } rewrite <- (Rmult_1_r 1). apply Rmult_gt_0_lt_compat; try lra. apply Rmult_lt_0_compat; lra.
        - apply pow_R1_Rle. exact M. }
      assert (K : 1 <= f / x <-> x <= f).
      { split; intros M1. - apply (Rmult_le_compat_r x) in M1; [|lra]. unfold Rdiv in M1. rewrite Rmult_assoc, Rinv_l in M1 by lra. lra.
        - apply (Rmult_le_reg_r x); [exact Hx|]. unfold Rdiv. rewrite Rmult_assoc, Rinv_l by lra. lra. }
      rewrite <- K, <- M. split; lra.
  - intros N N' x x' (HN & HN') H H'. rewrite UV in H, H' by lra. assert (X : x = f * Rpower (1 + N / 2) (- (1 / 3))) by congruence. assert (X' : x' = f * Rpower (1 + N' / 2) (- (1 / 3))) by congruence.
    assert (D : forall a b, 0 < a < b -> Rpower b (- (1 / 3)) < Rpower a (- (1 / 3))).
    { intros a b (Ha & Hb). unfold Rpower. apply exp_increasing. assert (ln a < ln b) by (apply ln_increasing; assumption). lra. }
    assert (A : Rpower (1 + N' / 2) (- (1 / 3)) < Rpower (1 + N / 2) (- (1 / 3))) by (apply D; lra).
    assert (B : Rpower (1 + N / 2) (- (1 / 3)) < 1).
    { assert (O : Rpower 1 (- (1 / 3)) = 1) by (unfold Rpower; rewrite ln_1, Rmult_0_r, exp_0; reflexivity). apply (Rlt_le_trans _ (Rpower 1 (- (1 / 3)))); [apply D|]; lra. }
    pose proof (Rpower_pos (1 + N' / 2) (- (1 / 3))). rewrite X, X'. split; [split|].
    + apply Rmult_lt_0_compat; assumption.
    + apply Rmult_lt_compat_l; assumption.
    + rewrite <- (Rmult_1_r f) at 2. apply Rmult_lt_compat_l; assumption.
Qed.
Print Assumptions C73_mobility.
(** the Lorenz number: between 2 and pi^2/3 *)
Definition lor (N : R) : R := 2 + (PI * PI / 3 - 2) / Rpower (1 + Rpower (N / PI / 2) (- (3 / 2))) (2 / 3).
Lemma lor_pos N : 0 < N -> 0 < N / PI / 2.
Proof. intros H. pose proof PI_RGT_0. assert (0 < N / PI) by (apply Rdiv_lt_0_compat; assumption). lra. Qed.
Lemma Lr_val N f : 0 < N -> Lr N f = Some (f * lor N).
Proof.
  intros H. unfold Lr. rewrite npow_pos by (apply lor_pos; exact H). cbn [obind]. pose proof (Rpower_pos (N / PI / 2) (- (3 / 2))). rewrite npow_pos by lra. cbn [obind].
  rewrite ndiv_ok by apply Rgt_not_eq, Rpower_pos. reflexivity.
Qed.
Lemma Lr_neg N f : N <= 0 -> Lr N f = None.
Proof.
  intros H. unfold Lr. rewrite npow_neg; [reflexivity|]. pose proof PI_RGT_0. assert (G : 0 <= - N / PI) by (apply div_nonneg; lra). replace (- N / PI) with (- (N / PI)) in G by (field; lra). lra.
Qed.
Lemma Rpower_dec a b c : 0 < c -> 0 < a < b -> Rpower b (- c) < Rpower a (- c).
Proof. intros Hc (Ha & Hb). unfold Rpower. apply exp_increasing. assert (ln a < ln b) by (apply ln_increasing; assumption). assert (c * ln a < c * ln b) by (apply Rmult_lt_compat_l; assumption). lra. Qed.
Lemma lor_range N : 0 < N -> 2 < lor N < PI * PI / 3.
Proof.
  intros H. unfold lor. pose proof cpi_pos as C. pose proof (Rpower_pos (N / PI / 2) (- (3 / 2))) as P. set (a := Rpower (N / PI / 2) (- (3 / 2))) in *. clearbody a.
  assert (S : 1 < Rpower (1 + a) (2 / 3)).
  { replace 1 with (Rpower (1 + a) 0) at 1 by (apply Rpower_O; lra). apply Rpower_lt; lra. }
  set (s := Rpower (1 + a) (2 / 3)) in *. clearbody s. set (c := PI * PI / 3 - 2) in *. assert (Q : 0 < c / s) by (apply Rdiv_lt_0_compat; lra). assert (Q1 : c / s < c).
  { apply (Rmult_lt_reg_r s); [lra|]. unfold Rdiv. rewrite Rmult_assoc, Rinv_l by lra. rewrite Rmult_1_r. rewrite <- (Rmult_1_r c) at 1. apply Rmult_lt_compat_l; assumption. }
  unfold c in Q1 at 2. lra.
Qed.
Lemma lor_mono N N' : 0 < N < N' -> lor N < lor N'.
Proof.
  intros (H & H'). unfold lor. pose proof cpi_pos as C. pose proof PI_RGT_0 as HP. apply Rplus_lt_compat_l.
  assert (A : Rpower (N' / PI / 2) (- (3 / 2)) < Rpower (N / PI / 2) (- (3 / 2))).
  { apply Rpower_dec; [lra|]. split; [apply lor_pos; exact H|]. unfold Rdiv. apply Rmult_lt_compat_r; [lra|]. apply Rmult_lt_compat_r; [apply Rinv_0_lt_compat; exact HP|exact H']. }
  pose proof (Rpower_pos (N' / PI / 2) (- (3 / 2))) as P. set (a := Rpower (N / PI / 2) (- (3 / 2))) in *. set (b := Rpower (N' / PI / 2) (- (3 / 2))) in *. clearbody a b.
  apply Rmult_lt_compat_l; [exact C|]. apply Rinv_lt_contravar; [apply Rmult_lt_0_compat; apply Rpower_pos|]. unfold Rpower. apply exp_increasing. assert (ln (1 + b) < ln (1 + a)) by (apply ln_increasing; lra). lra.
Qed.
Lemma lor_inv N f : 0 < N -> f <> 0 -> iLr (f * lor N) f = Some N.
Proof.
  intros H Hf. pose proof (lor_range N H) as (R1 & R2). unfold iLr. rewrite ndiv_ok by exact Hf. cbn [obind].
  replace (f * lor N / f) with (lor N) by (field; exact Hf). rewrite ndiv_ok by lra. cbn [obind]. pose proof cpi_pos as C.
  pose proof (Rpower_pos (N / PI / 2) (- (3 / 2))) as P. pose proof (lor_pos N H) as HP.
  assert (E : (PI * PI / 3 - 2) / (lor N - 2) = Rpower (1 + Rpower (N / PI / 2) (- (3 / 2))) (2 / 3)).
  { unfold lor. pose proof (Rpower_pos (1 + Rpower (N / PI / 2) (- (3 / 2))) (2 / 3)) as Q. set (c := PI * PI / 3 - 2) in *. set (s := Rpower (1 + _) (2 / 3)) in *. clearbody s c.
    replace (2 + c / s - 2) with (c / s) by ring. field. split; lra. }
  rewrite E. rewrite npow_pos by apply Rpower_pos. cbn [obind]. rewrite Rpower_inv_l by (try field; lra). replace (1 + Rpower (N / PI / 2) (- (3 / 2)) - 1) with (Rpower (N / PI / 2) (- (3 / 2))) by ring.
  rewrite npow_pos by exact P. cbn [obind]. f_equal. rewrite Rpower_inv_l by (try field; lra). pose proof PI_RGT_0. field. lra.
Qed.
Theorem C73_lorenz :
  forall factor : R, 0 < factor ->
  (forall N, 0 < N -> exists x, Lr N factor = Some x /\ iLr x factor = Some N /\ 2 * factor < x < PI * PI / 3 * factor)
  /\ (forall N N' x x', 0 < N < N' -> Lr N factor = Some x -> Lr N' factor = Some x' -> x < x')
  /\ (forall x, (2 * factor < x < PI * PI / 3 * factor -> exists N, iLr x factor = Some N /\ 0 < N /\ Lr N factor = Some x)
                /\ (x < 2 * factor \/ PI * PI / 3 * factor < x -> iLr x factor = None))
  /\ (forall N, N < 0 -> Lr N factor = None).
Proof.
  intros f Hf. split; [|split; [|split]].
  - intros N HN. exists (f * lor N). split; [apply Lr_val; exact HN|]. split; [apply lor_inv; [exact HN|lra]|]. destruct (lor_range N HN) as (A & B).
    rewrite (Rmult_comm 2), (Rmult_comm (PI * PI / 3)). split; apply Rmult_lt_compat_l; assumption.
  - intros N N' x x' HN H H'. rewrite Lr_val in H, H' by lra. assert (X : x = f * lor N) by congruence. assert (X' : x' = f * lor N') by congruence. rewrite X, X'. apply Rmult_lt_compat_l; [exact Hf|apply lor_mono; exact HN].
  - intros x. pose proof cpi_pos as C. pose proof PI_RGT_0 as HP. assert (EX : x = f * (x / f)) by (field; lra). set (l := x / f) in *.
    assert (ND : ndiv x f = Some l) by (apply ndiv_ok; lra). split.
    + intros (A & B). assert (L1 : 2 < l) by (apply (Rmult_lt_reg_l f); lra). assert (L2 : l < PI * PI / 3) by (apply (Rmult_lt_reg_l f); lra).
      set (c := PI * PI / 3 - 2) in *. assert (S : 1 < c / (l - 2)).
      { apply (Rmult_lt_reg_r (l - 2)); [lra|]. unfold Rdiv. rewrite Rmult_assoc, Rinv_l by lra. unfold c. lra. }
      assert (S32 : 1 < Rpower (c / (l - 2)) (3 / 2)).
      { replace 1 with (Rpower (c / (l - 2)) 0) at 1 by (apply Rpower_O; lra). apply Rpower_lt; lra. }
      set (N := 2 * PI * Rpower (Rpower (c / (l - 2)) (3 / 2) - 1) (- (2 / 3))).
      assert (HN : 0 < N) by (unfold N; apply Rmult_lt_0_compat; [lra|apply Rpower_pos]).
      exists N. split; [|split; [exact HN|]].
      * unfold iLr. rewrite ND. cbn [obind]. fold c. rewrite ndiv_ok by lra. cbn [obind]. rewrite npow_pos by lra. cbn [obind]. rewrite npow_pos by lra. reflexivity.
      * rewrite Lr_val by exact HN. f_equal. rewrite EX. f_equal. unfold lor. fold c.
        replace (N / PI / 2) with (Rpower (Rpower (c / (l - 2)) (3 / 2) - 1) (- (2 / 3))) by (unfold N; field; lra).
        rewrite Rpower_inv_l by (try field; lra). replace (1 + (Rpower (c / (l - 2)) (3 / 2) - 1)) with (Rpower (c / (l - 2)) (3 / 2)) by ring.
        rewrite Rpower_inv_l by (try field; lra). field. lra.
    + intros H. unfold iLr. rewrite ND. cbn [obind]. destruct H as [H|H].
      * assert (L1 : l <= 2) by (apply (Rmult_le_reg_l f); lra). destruct (Req_EM_T (l - 2) 0) as [Z|Z].
        { unfold ndiv. destruct (Req_EM_T (l - 2) 0); [reflexivity|contradiction]. }
        rewrite ndiv_ok by exact Z. cbn [obind]. rewrite npow_neg; [reflexivity|]. apply Rlt_le. replace ((PI * PI / 3 - 2) / (l - 2)) with (- ((PI * PI / 3 - 2) / (2 - l))) by (field; lra). assert (0 < (PI * PI / 3 - 2) / (2 - l)) by (apply Rdiv_lt_0_compat; lra). lra.
      * assert (L2 : PI * PI / 3 <= l) by (apply (Rmult_le_reg_l f); lra). rewrite ndiv_ok by lra. cbn [obind]. set (c := PI * PI / 3 - 2) in *. assert (0 < c / (l - 2)) by (apply Rdiv_lt_0_compat; unfold c in *; lra). rewrite npow_pos by assumption. cbn [obind].
        rewrite npow_neg; [reflexivity|]. assert (c / (l - 2) <= 1). { apply (Rmult_le_reg_r (l - 2)); [unfold c in *; lra|]. unfold Rdiv. rewrite Rmult_assoc, Rinv_l by (unfold c in *; lra). unfold c. lra. }
        assert (Rpower (c / (l - 2)) (3 / 2) <= 1); [|lra]. replace 1 with (Rpower 1 (3 / 2)) by (unfold Rpower; rewrite ln_1, Rmult_0_r, exp_0; reflexivity). apply Rle_Rpower_l; lra.
  - intros N HN. apply Lr_neg. lra.
Qed.
Print Assumptions C73_lorenz.
(** Lorenz number straight from the Seebeck coefficient *)
Theorem C73_lorenz_from_seebeck :
  forall S_factor L_factor delta N x : R, S_factor <> 0 -> -1 < delta -> 0 < N -> Sr N S_factor delta = Some x ->
  LxS x S_factor L_factor None delta = Lr N L_factor.
Proof.
  intros sf lf d N x Hs Hd HN H. assert (P : 0 < 1 + d + exp 2 / N) by (assert (0 < exp 2 / N) by (apply Rdiv_lt_0_compat; [apply exp2_pos|exact HN]); lra).
  rewrite Sr_val in H by (try exact P; lra). assert (X : x = sf * ln (1 + d + exp 2 / N)) by congruence. subst x.
  unfold LxS. rewrite ndiv_ok by exact Hs. cbn [obind]. replace (sf * ln (1 + d + exp 2 / N) / sf) with (ln (1 + d + exp 2 / N)) by (field; exact Hs).
  destruct (C73_seebeck 1 d ltac:(lra) Hd) as (I & _). rewrite (I N (ln (1 + d + exp 2 / N)) HN).
  - cbn [obind]. rewrite !Lr_val by exact HN. cbn [obind]. f_equal. ring.
  - rewrite Sr_val by (try exact P; lra). rewrite Rmult_1_l. reflexivity.
Qed.
Print Assumptions C73_lorenz_from_seebeck.
Lemma kane_den q s : -2 < q < 2 -> 0 < 1 + q * s + s ^ 2.
Proof.
  intros (A & B). replace (1 + q * s + s ^ 2) with ((s + q / 2) ^ 2 + (2 - q) * (2 + q) / 4) by field.
  pose proof (pow2_ge_0 (s + q / 2)). assert (0 < (2 - q) * (2 + q)) by (apply Rmult_lt_0_compat; lra). lra.
Qed.
(** the Kane fit is defined for every S, starts at pi^2/3 and tends to 2-2k+k^2, k = 1/(2/3 dt + 1) *)
Theorem C73_kane_fit :
  forall S_factor L_factor dt delta : R, 0 < S_factor -> 0 <= dt ->
  (forall x, exists l, LxS x S_factor L_factor (Some dt) delta = Some l)
  /\ LxS 0 S_factor L_factor (Some dt) delta = Some (PI * PI / 3 * L_factor)
  /\ exists C, let k := 1 / (2 / 3 * dt + 1) in
     forall x l, S_factor <= x -> LxS x S_factor L_factor (Some dt) delta = Some l ->
     Rabs (l - (2 - 2 * k + k ^ 2) * L_factor) <= C / x.
Proof.
  intros sf lf dt d Hs Hd. assert (D : 0 < 2 / 3 * dt + 1) by lra. set (k := 1 / (2 / 3 * dt + 1)). assert (K : 0 < k <= 1).
  { unfold k. split; [apply Rdiv_lt_0_compat; lra|]. apply (Rmult_le_reg_r (2 / 3 * dt + 1)); [exact D|]. unfold Rdiv. rewrite Rmult_assoc, Rinv_l by lra. lra. }
  set (p := - 0.33 + 6.90 * k - 7.78 * k ^ 2 + 2.75 * k ^ 3). set (q := - 0.14 + 4.08 * k - 2.13 * k ^ 2). set (l0 := 2 - 2 * k + k ^ 2).
  assert (Q : -0.14 < q < 2). { unfold q. assert (0 < k * (4.08 - 2.13 * k)) by (apply Rmult_lt_0_compat; lra). pose proof (pow2_ge_0 (k - 4.08 / 4.26)). split; lra. }
  assert (V : forall x, LxS x sf lf (Some dt) d = Some ((PI * PI / 3 + p * (x / sf) + l0 * (x / sf) ^ 2) / (1 + q * (x / sf) + (x / sf) ^ 2) * lf)).
  { intros x. unfold LxS. rewrite ndiv_ok by lra. cbn [obind]. rewrite (ndiv_ok 1) by lra. cbn [obind]. fold k. fold p q l0. rewrite ndiv_ok by (apply Rgt_not_eq, kane_den; lra). reflexivity. }
  split; [intros x; eexists; apply V|]. split.
  - rewrite V. f_equal. replace (0 / sf) with 0 by (field; lra). clearbody p q l0. field.
  - exists (sf * (Rabs lf * ((Rabs (PI * PI / 3 - l0) + Rabs (p - l0 * q)) / 0.86))). intros k' x l Hx H. change k' with k. clear k'. fold l0. rewrite V in H. set (s := x / sf) in *.
    assert (S : 1 <= s) by (unfold s; apply (Rmult_le_reg_r sf); [exact Hs|]; unfold Rdiv; rewrite Rmult_assoc, Rinv_l by lra; lra).
    assert (EX : x = sf * s) by (unfold s; field; lra). assert (Dn : 0 < 1 + q * s + s ^ 2) by (apply kane_den; lra).
    assert (Dl : 0.86 * s ^ 2 <= 1 + q * s + s ^ 2). { assert (-0.14 * s <= q * s) by (apply Rmult_le_compat_r; lra). assert (s <= s ^ 2) by (simpl; rewrite Rmult_1_r; rewrite <- (Rmult_1_r s) at 1; apply Rmult_le_compat_l; lra). lra. }
    assert (L : l = (PI * PI / 3 + p * s + l0 * s ^ 2) / (1 + q * s + s ^ 2) * lf) by congruence.
    set (den := 1 + q * s + s ^ 2) in *. set (A := PI * PI / 3 - l0). set (B := p - l0 * q).
    assert (E : l - l0 * lf = (A + B * s) / den * lf) by (rewrite L; unfold A, B, den in *; field; lra).
    rewrite E, Rabs_mult. unfold Rdiv at 1. rewrite Rabs_mult, (Rabs_pos_eq (/ den)) by (apply Rlt_le, Rinv_0_lt_compat; exact Dn).
    assert (N : Rabs (A + B * s) <= (Rabs A + Rabs B) * s).
    { apply Rle_trans with (Rabs A + Rabs (B * s)); [apply Rabs_triang|]. rewrite Rabs_mult, (Rabs_pos_eq s) by lra. assert (Rabs A * 1 <= Rabs A * s) by (apply Rmult_le_compat_l; [apply Rabs_pos|lra]). lra. }
    assert (I : / den <= / (0.86 * s ^ 2)) by (apply Rinv_le_contravar; [assert (0 < s ^ 2) by (apply pow_lt; lra); lra|exact Dl]).
    set (AB := Rabs A + Rabs B) in *. assert (Hab : 0 <= AB) by (unfold AB; pose proof (Rabs_pos A); pose proof (Rabs_pos B); lra).
    apply Rle_trans with (AB * s * / (0.86 * s ^ 2) * Rabs lf).
    + apply Rmult_le_compat_r; [apply Rabs_pos|]. apply Rmult_le_compat; [apply Rabs_pos|apply Rlt_le, Rinv_0_lt_compat; exact Dn|exact N|exact I].
    + apply Req_le. rewrite EX. generalize (Rabs lf). intros y. clearbody AB s. field. lra.
Qed.
Print Assumptions C73_kane_fit.
(** power factor and the consistency of the class constants *)
Theorem C73_power_factor :
  forall fC fS UWT delta N : R, 0 < N -> -1 < delta ->
  exists c s, Cr N fC UWT = Some c /\ Sr N fS delta = Some s /\ PFr N (fC * fS ^ 2) UWT delta = Some (c * s ^ 2).
Proof.
  intros fC fS u d N HN Hd. assert (P : 0 < 1 + d + exp 2 / N) by (assert (0 < exp 2 / N) by (apply Rdiv_lt_0_compat; [apply exp2_pos|exact HN]); lra).
  unfold PFr, Cr, Ur. rewrite npow_pos by lra. cbn [obind]. rewrite !Sr_val by (try exact P; lra). cbn [obind]. do 2 eexists. split; [reflexivity|]. split; [reflexivity|]. f_equal. ring.
Qed.
Print Assumptions C73_power_factor.
Theorem C73_constants :
  Rabs (1e-6 * C0 * S0 ^ 2 - PF0) <= 1e-16 * PF0 /\ Rabs (PF0 * PFr_max - UWT_to_PFmax) <= 1e-15 * UWT_to_PFmax
  /\ Rabs (N0 * 1e19 * qe - C0) <= 1e-15 * C0.
Proof. unfold C0, UWT_to_sigma0, S0, PF0, PFr_max, UWT_to_PFmax, N0, qe. split; [|split]; apply Rabs_le; split; lra. Qed.
Print Assumptions C73_constants.

(** ** C74: RSPB.valuate *)
Lemma S0_pos : 0 < S0. Proof. unfold S0. lra. Qed.
Lemma C0_pos : 0 < C0. Proof. unfold C0, UWT_to_sigma0. lra. Qed.
Lemma Ur_val N f : -2 < N -> Ur N f = Some (f * Rpower (1 + N / 2) (- (1 / 3))).
Proof. intros. unfold Ur. rewrite npow_pos by lra. reflexivity. Qed.
(** S above the threshold S0*ln(1+delta) *)
Theorem C74_number :
  forall (dataS delta : R) (dataC dataT dataN dataK : option R), -1 < delta -> S0 * ln (1 + delta) < dataS ->
  (forall c, dataC = Some c -> 0 < c) -> (forall t, dataT = Some t -> 0 < t) -> (forall n, dataN = Some n -> 0 < n) ->
  let r := rspb_valuate dataS dataC dataT dataN dataK delta in
  exists Nr, 0 < Nr /\ Sr Nr S0 delta = Some dataS /\ q_L r = Lr Nr L0
    /\ (forall c, dataC = Some c -> exists u, 0 < u /\ q_UWT r = Some (Some u) /\ Cr Nr C0 u = Some c
          /\ q_PFmax r = Some (Some (u * UWT_to_PFmax)) /\ q_sigma0 r = Some (Some (u * UWT_to_sigma0)))
    /\ (forall c t n, dataC = Some c -> dataT = Some t -> dataN = Some n ->
          exists l m x, q_L r = Some l /\ q_Ke r = Some (Some (1e-6 * l * c * t))
          /\ (forall k, dataK = Some k -> exists ke kp, q_Ke r = Some (Some ke) /\ q_Kp r = Some (Some kp) /\ ke + kp = k)
          /\ q_meff r = Some (Some m) /\ q_Nopt r = Some (Some x)
          (** the concentration in 1E19 cm^-3 of a band of that mass at Nr and at the optimum is too large by N0 *)
          /\ Nmr Nr N0 m t = Some (N0 * n)
          /\ forall m', Nmr Nr N0 m' t = Some n -> exists y, Nmr Nr_opt N0 m' t = Some y /\ x = N0 * y).
Proof.
  intros dataS d dataC dataT dataN dataK Hd HS HC HT HN r. pose proof S0_pos as HS0. pose proof exp2_pos as E2.
  destruct (C73_seebeck S0 d ltac:(lra) Hd) as (_ & _ & I2 & I3 & I4 & _).
  assert (TH : ln (1 + d) < dataS / S0) by (apply (Rmult_lt_reg_l S0); [exact HS0|]; replace (S0 * (dataS / S0)) with dataS by (set (z := S0) in *; field; lra); exact HS).
  destruct (proj2 (I3 dataS)) as (Nr & HNr); [lra|]. assert (PN : 0 < Nr) by (apply (I4 _ _ HNr); exact TH).
  exists Nr. split; [exact PN|]. split; [apply I2; exact HNr|].
  assert (EL : q_L r = Lr Nr L0) by (unfold r, rspb_valuate; cbn [q_L]; rewrite HNr; reflexivity). split; [exact EL|].
  assert (U1 : Cr Nr C0 1 = Some (C0 * 1 * Nr * (1 * Rpower (1 + Nr / 2) (- (1 / 3))))) by (unfold Cr; rewrite Ur_val by lra; reflexivity).
  pose proof (Rpower_pos (1 + Nr / 2) (- (1 / 3))) as PU. pose proof C0_pos as PC0.
  assert (PD : 0 < C0 * 1 * Nr * (1 * Rpower (1 + Nr / 2) (- (1 / 3)))).
  { apply Rmult_lt_0_compat; [|lra]. apply Rmult_lt_0_compat; lra. }
  split.
  - intros c Hc. specialize (HC c Hc). exists (c / (C0 * 1 * Nr * (1 * Rpower (1 + Nr / 2) (- (1 / 3))))). split; [apply Rdiv_lt_0_compat; assumption|].
    unfold r, rspb_valuate. cbn [q_UWT q_PFmax q_sigma0]. rewrite HNr, Hc. cbn [opt_map obind]. rewrite U1. cbn [obind]. rewrite ndiv_ok by lra. cbn [obind].
    split; [reflexivity|]. split; [|split; reflexivity]. unfold Cr. rewrite Ur_val by lra. cbn [obind]. f_equal. set (v := Rpower _ _) in *. set (z := C0) in *. clearbody v z. field. repeat split; lra.
  - intros c t n Hc Ht Hn. specialize (HC c Hc). specialize (HT t Ht). specialize (HN n Hn).
    assert (Q : 0 < n / Nr) by (apply Rdiv_lt_0_compat; assumption).
    exists (L0 * lor Nr), (Rpower (n / Nr) (2 / 3) * 300 / t), (Nr_opt * N0 * n / Nr).
    split; [rewrite EL; apply Lr_val; exact PN|]. unfold r, rspb_valuate. cbn [q_Ke q_Kp q_meff q_Nopt]. rewrite HNr, Hc, Ht, Hn. cbn [opt_map obind]. rewrite Lr_val by exact PN. cbn [obind].
    split; [reflexivity|]. split; [intros k ->; do 2 eexists; split; [reflexivity|]; split; [reflexivity|]; apply Rplus_minus|].
    rewrite (ndiv_ok n) by lra. cbn [obind]. rewrite npow_pos by exact Q. cbn [obind]. rewrite ndiv_ok by lra. split; [reflexivity|]. rewrite ndiv_ok by lra. split; [reflexivity|].
    assert (EM : Rpower (n / Nr) (2 / 3) * 300 / t * t / 300 = Rpower (n / Nr) (2 / 3)) by (field; lra).
    split.
    + unfold Nmr. rewrite EM. rewrite npow_pos by apply Rpower_pos. cbn [obind]. f_equal. rewrite Rpower_inv_l by (try field; exact Q). generalize N0. intros z. field. lra.
    + intros m' H. unfold Nmr in *. destruct (npow (m' * t / 300) (3 / 2)) as [w|]; cbn [obind] in *; [|discriminate]. eexists. split; [reflexivity|].
      assert (X : n = N0 * w * Nr) by congruence. rewrite X. generalize N0 Nr_opt. intros z y. field. lra.
Qed.
Print Assumptions C74_number.
(** S below the threshold (any n-type value in particular): nothing but a negative optimum concentration *)
Theorem C74_below :
  forall (dataS delta : R) (dataC dataT dataN dataK : option R), -1 < delta <= 1 -> dataS < S0 * ln (1 + delta) ->
  (forall n, dataN = Some n -> 0 < n) ->
  let r := rspb_valuate dataS dataC dataT dataN dataK delta in
  q_L r = None /\ (forall x, q_UWT r = Some x \/ q_PFmax r = Some x \/ q_sigma0 r = Some x \/ q_Ke r = Some x \/ q_Kp r = Some x \/ q_meff r = Some x -> x = None)
  /\ forall x, q_Nopt r = Some x -> exists y, x = Some y /\ y < 0.
Proof.
  intros dataS d dataC dataT dataN dataK (Hd & Hd1) HS HN r. pose proof S0_pos as HS0. pose proof exp2_4 as E4.
  destruct (C73_seebeck S0 d ltac:(lra) Hd) as (_ & _ & I2 & I3 & I4 & _).
  assert (TH : dataS / S0 < ln (1 + d)) by (apply (Rmult_lt_reg_l S0); [exact HS0|]; replace (S0 * (dataS / S0)) with dataS by (set (z := S0) in *; field; lra); exact HS).
  destruct (proj2 (I3 dataS)) as (Nr & HNr); [lra|].
  assert (V : Nr = - (exp 2 / (1 + d - exp (dataS / S0)))).
  { unfold iSr in HNr. rewrite ndiv_ok in HNr by lra. cbn [obind] in HNr. unfold ndiv in HNr. destruct (Req_EM_T _ 0); [discriminate|]. assert (X : Nr = exp 2 / (exp (dataS / S0) - 1 - d)) by congruence. rewrite X. field. split; lra. }
  apply exp_increasing in TH. rewrite exp_ln in TH by lra. pose proof (exp_pos (dataS / S0)) as PE. set (y := exp (dataS / S0)) in *.
  assert (G : 2 < exp 2 / (1 + d - y)).
  { apply (Rmult_lt_reg_r (1 + d - y)); [lra|]. unfold Rdiv. rewrite Rmult_assoc, Rinv_l by lra. lra. }
  assert (NN : Nr < -2) by lra.
  assert (LN : Lr Nr L0 = None) by (apply Lr_neg; lra). assert (CN : Cr Nr C0 1 = None) by (unfold Cr, Ur; rewrite npow_neg by lra; reflexivity).
  unfold r, rspb_valuate. cbn [q_L q_UWT q_PFmax q_sigma0 q_Ke q_Kp q_meff q_Nopt]. rewrite HNr. cbn [obind]. rewrite LN, CN. cbn [obind]. split; [reflexivity|].
  split.
  - intros x H. destruct dataC as [c|]; cbn [opt_map] in H; [|intuition discriminate]. destruct dataT as [t|]; [destruct dataN as [n|]|]; cbn [opt_map] in H.
    + specialize (HN n eq_refl). assert (ME : npow (n / Nr) (2 / 3) = None).
      { apply npow_neg. assert (0 < n / - Nr) by (apply Rdiv_lt_0_compat; lra). replace (n / Nr) with (- (n / - Nr)) by (field; lra). lra. }
      rewrite ndiv_ok in H by lra. cbn [obind] in H. rewrite ME in H. cbn [obind] in H. destruct dataK; intuition congruence.
    + intuition congruence.
    + intuition congruence.
  - intros x H. destruct dataC as [c|]; [|discriminate]. destruct dataT as [t|]; [|discriminate]. destruct dataN as [n|]; [|discriminate]. cbn [opt_map] in H. rewrite ndiv_ok in H by lra. specialize (HN n eq_refl).
    exists (Nr_opt * N0 * n / Nr). split; [congruence|]. assert (0 < Nr_opt * N0 * n) by (apply Rmult_lt_0_compat; [unfold Nr_opt, N0; lra|exact HN]).
    assert (0 < Nr_opt * N0 * n / - Nr) by (apply Rdiv_lt_0_compat; lra). replace (Nr_opt * N0 * n / Nr) with (- (Nr_opt * N0 * n / - Nr)); [lra|]. generalize (Nr_opt * N0 * n). intros z. field. lra.
Qed.
Print Assumptions C74_below.
(** which keys there are: Ke, Kp, m_eff and Nopt need dataC, dataT and dataN, all three *)
Theorem C74_keys :
  forall (dataS delta : R) (dataC dataT dataN dataK : option R), let r := rspb_valuate dataS dataC dataT dataN dataK delta in
  (q_UWT r = None <-> dataC = None) /\ (q_PFmax r = None <-> dataC = None) /\ (q_sigma0 r = None <-> dataC = None)
  /\ (forall k, In k [q_Ke r; q_meff r; q_Nopt r] -> (k = None <-> dataC = None \/ dataT = None \/ dataN = None))
  /\ (q_Kp r = None <-> dataC = None \/ dataT = None \/ dataN = None \/ dataK = None).
Proof.
  intros. unfold r, rspb_valuate. cbn [q_UWT q_PFmax q_sigma0 q_Ke q_Kp q_meff q_Nopt].
  split; [destruct dataC; cbn [opt_map]; intuition congruence|]. split; [destruct dataC; cbn [opt_map]; intuition congruence|]. split; [destruct dataC; cbn [opt_map]; intuition congruence|]. split.
  - intros k Hk. cbn [In] in Hk. destruct Hk as [<-|[<-|[<-|[]]]]; destruct dataC, dataT, dataN; cbn [opt_map]; intuition congruence.
  - destruct dataC, dataT, dataN, dataK; cbn [opt_map]; intuition congruence.
Qed.
Print Assumptions C74_keys.

(** ** C75: bandline and dosline *)
Lemma coef_pos : 0 < COEF_BAND. Proof. unfold COEF_BAND. lra. Qed.
Lemma diff_sq (g s h : R) : g <> 0 -> s + h <> 0 -> g * (s * s - h * h) / (s + h) / g = s - h.
Proof. intros. field. split; assumption. Qed.
Lemma kane_solve p g e : 0 < g -> e = p / (sqrt (0.25 + Rabs p / g) + 0.5) -> e * (1 + Rabs e / g) = p /\ Rabs e <= Rabs p.
Proof.
  intros Hg He. set (s := sqrt (0.25 + Rabs p / g)) in *. assert (P : 0 <= Rabs p / g) by (apply div_nonneg; [apply Rabs_pos|exact Hg]).
  assert (S1 : 0.5 <= s). { unfold s. replace 0.5 with (sqrt (0.5 * 0.5)) at 1 by (rewrite sqrt_square; lra). apply sqrt_le_1_alt. lra. }
  assert (SS : s * s = 0.25 + Rabs p / g) by (unfold s; apply sqrt_sqrt; lra).
  assert (AE : Rabs e = Rabs p / (s + 0.5)). { rewrite He. unfold Rdiv. rewrite Rabs_mult, (Rabs_pos_eq (/ (s + 0.5))); [reflexivity|]. apply Rlt_le, Rinv_0_lt_compat. lra. }
  assert (AP : Rabs p = g * (s * s - 0.25)) by (rewrite SS; field; lra). split.
  - rewrite AE, AP, He. replace (g * (s * s - 0.25) / (s + 0.5) / g) with (s - 0.5); [|replace 0.25 with (0.5 * 0.5) by lra; symmetry; apply diff_sq; lra].
    replace (1 + (s - 0.5)) with (s + 0.5) by lra. unfold Rdiv. rewrite Rmult_assoc, Rinv_l by lra. lra.
  - rewrite AE. rewrite <- (Rmult_1_r (Rabs p)) at 2. unfold Rdiv. apply Rmult_le_compat_l; [apply Rabs_pos|]. rewrite <- Rinv_1. apply Rinv_le_contravar; lra.
Qed.
Theorem C75_kane_line :
  forall k m_b k0 E0 Eg : R, m_b <> 0 -> 0 < Eg ->
  let e := bandline k m_b k0 E0 (Some Eg) - E0 in
  e * (1 + Rabs e / Eg) = bandline k m_b k0 0 None /\ Rabs e <= Rabs (bandline k m_b k0 0 None).
Proof.
  intros k m k0 E0 g Hm Hg e. assert (P : bandline k m k0 0 None = parabolic k m k0) by (unfold bandline; ring). rewrite !P. apply kane_solve; [exact Hg|]. unfold e, bandline. ring.
Qed.
Print Assumptions C75_kane_line.
Theorem C75_symmetry :
  forall k m_b k0 E0 : R, forall Eg : option R, m_b <> 0 ->
  bandline (k0 + k) m_b k0 E0 Eg = bandline (k0 - k) m_b k0 E0 Eg
  /\ bandline k (- m_b) k0 E0 Eg - E0 = - (bandline k m_b k0 E0 Eg - E0)
  /\ bandline k0 m_b k0 E0 Eg = E0
  /\ bandline k m_b k0 E0 None - E0 = hbar ^ 2 * (1e10 * (k - k0)) ^ 2 / (2 * m_b * m_e) / qe * (COEF_BAND * (m_e * qe) / (hbar ^ 2 * 1e20))
  /\ Rabs (COEF_BAND * (m_e * qe) - hbar ^ 2 * 1e20) <= 1e-16 * (hbar ^ 2 * 1e20).
Proof.
  intros k m k0 E0 Eg Hm. assert (A : parabolic (k0 + k) m k0 = parabolic (k0 - k) m k0) by (unfold parabolic; replace (k0 + k - k0) with k by ring; replace ((k0 - k - k0) ^ 2) with (k ^ 2) by ring; reflexivity).
  assert (B : parabolic k (- m) k0 = - parabolic k m k0) by (unfold parabolic; generalize COEF_BAND; intros c; field; exact Hm).
  assert (Z : parabolic k0 m k0 = 0) by (unfold parabolic; replace (k0 - k0) with 0 by ring; generalize COEF_BAND; intros c; field; exact Hm).
  split; [unfold bandline; rewrite A; reflexivity|]. split; [|split; [|split]].
  - unfold bandline. rewrite B. destruct Eg as [g|]; [|ring]. rewrite Rabs_Ropp. unfold Rdiv. ring.
  - unfold bandline. rewrite Z. destruct Eg as [g|]; [|ring]. unfold Rdiv. ring.
  - unfold bandline, parabolic. pose proof me_pos. pose proof qe_pos. pose proof hbar_pos. set (a := m_e) in *. set (b := qe) in *. set (h := hbar) in *. generalize COEF_BAND. intros c. clearbody a b h. field. repeat split; lra.
  - unfold COEF_BAND, m_e, qe, hbar. apply Rabs_le. lra.
Qed.
Print Assumptions C75_symmetry.
(** the parabolic density: zero on the wrong side of the edge, V |m|^1.5 sqrt(distance) on the right side *)
Theorem C75_parabolic_dos :
  forall E m_d E0 Vcell : R, m_d <> 0 ->
  (forall x, 0 <= x -> dosline (E0 + sgn m_d * x) m_d E0 Vcell None = Some (Vcell / COEF_DOS * pow32 (Rabs m_d) * sqrt x))
  /\ (sgn m_d * (E - E0) <= 0 -> dosline E m_d E0 Vcell None = Some 0).
Proof.
  intros E m E0 V Hm. split.
  - intros x Hx. unfold dosline. replace (sgn m * (E0 + sgn m * x - E0)) with x.
    + rewrite Rmax_left by exact Hx. unfold nsqrt. destruct (Rlt_dec x 0); [lra|reflexivity].
    + unfold sgn. destruct (Rlt_dec 0 m); [ring|]. destruct (Rlt_dec m 0); [ring|lra].
  - intros H. unfold dosline. rewrite Rmax_right by exact H. unfold nsqrt. destruct (Rlt_dec 0 0); [lra|]. cbn [obind]. rewrite sqrt_0. f_equal. ring.
Qed.
Print Assumptions C75_parabolic_dos.
(** with a gap the offset and the sign of the mass are ignored; the values below E = 0 are nan or negative *)
Theorem C75_kane_dos_ignores :
  forall E m_d E0 E0' Vcell Eg : R, 0 < Eg -> 0 < Vcell -> m_d <> 0 ->
  dosline E m_d E0 Vcell (Some Eg) = dosline E (Rabs m_d) E0' Vcell (Some Eg)
  /\ (- Eg < E < 0 -> dosline E m_d E0 Vcell (Some Eg) = None)
  /\ (E < - Eg -> exists d, dosline E m_d E0 Vcell (Some Eg) = Some d /\ d < 0)
  /\ (0 < E -> exists d, dosline E m_d E0 Vcell (Some Eg) = Some d /\ 0 < d).
Proof.
  intros E m E0 E0' V g Hg HV Hm. assert (PM : 0 < pow32 (Rabs m)) by (apply pow32_pos, Rabs_pos_lt; exact Hm). assert (CD : 0 < COEF_DOS) by (unfold COEF_DOS; lra).
  assert (PC : 0 < V / COEF_DOS * pow32 (Rabs m)) by (apply Rmult_lt_0_compat; [apply Rdiv_lt_0_compat; assumption|exact PM]).
  assert (GE : E / g * g = E) by (field; lra).
  split; [unfold dosline; rewrite Rabs_Rabsolu; reflexivity|]. split; [|split].
  - intros (A & B). unfold dosline, nsqrt. assert (0 < 1 + E / g). { apply (Rmult_lt_reg_r g); [exact Hg|]. rewrite Rmult_plus_distr_r, GE. lra. }
    destruct (Rlt_dec (E * (1 + E / g)) 0) as [|n]; [reflexivity|]. exfalso. apply n. assert (0 < - E * (1 + E / g)) by (apply Rmult_lt_0_compat; lra). lra.
  - intros A. unfold dosline, nsqrt. assert (1 + E / g < 0). { apply (Rmult_lt_reg_r g); [exact Hg|]. rewrite Rmult_plus_distr_r, GE. lra. }
    assert (0 < - E * - (1 + E / g)) by (apply Rmult_lt_0_compat; lra). destruct (Rlt_dec (E * (1 + E / g)) 0) as [|n]; [lra|]. cbn [obind]. eexists. split; [reflexivity|].
    assert (S : 0 < sqrt (E * (1 + E / g))) by (apply sqrt_lt_R0; lra). assert (1 + 2 * E / g < 0) by (replace (2 * E / g) with (2 * (E / g)) by (field; lra); lra).
    set (c := V / COEF_DOS * pow32 (Rabs m)) in *. assert (0 < c * sqrt (E * (1 + E / g)) * - (1 + 2 * E / g)) by (apply Rmult_lt_0_compat; [apply Rmult_lt_0_compat; assumption|lra]). lra.
  - intros A. unfold dosline, nsqrt. assert (0 < E / g) by (apply Rdiv_lt_0_compat; assumption). assert (0 < E * (1 + E / g)) by (apply Rmult_lt_0_compat; lra). destruct (Rlt_dec (E * (1 + E / g)) 0) as [|n]; [lra|]. cbn [obind]. eexists. split; [reflexivity|].
    apply Rmult_lt_0_compat; [apply Rmult_lt_0_compat; [exact PC|apply sqrt_lt_R0; assumption]|]. replace (2 * E / g) with (2 * (E / g)) by (field; lra). lra.
Qed.
Print Assumptions C75_kane_dos_ignores.
(** for a band at E0 = 0 with positive mass the two lines agree: dosline is, up to one constant, the derivative of the volume k^3 *)
Theorem C75_dos_is_derivative :
  forall m_d Vcell Eg : R, 0 < m_d -> 0 < Vcell -> 0 < Eg ->
  forall kE : R -> R, (forall e, 0 <= e -> 0 <= kE e /\ bandline (kE e) m_d 0 0 (Some Eg) = e) ->
  forall e d, 0 < e -> dosline e m_d 0 Vcell (Some Eg) = Some d ->
  is_derive (fun x => kE x ^ 3) e (3 / 2 * pow32 (2 / COEF_BAND) * COEF_DOS / Vcell * d).
Proof.
  intros m V g Hm HV Hg kE HK e d He Hd. pose proof coef_pos as CB.
  assert (K2 : forall x, 0 <= x -> kE x ^ 3 = pow32 (2 / COEF_BAND) * pow32 m * pow32 (x * (1 + x / g))).
  { intros x Hx. destruct (HK x Hx) as (P & E). destruct (C75_kane_line (kE x) m 0 0 g ltac:(lra) Hg) as (Q & _). rewrite E in Q. rewrite Rminus_0_r in Q. rewrite (Rabs_pos_eq x Hx) in Q.
    unfold bandline, parabolic in Q. rewrite Rminus_0_r in Q. assert (Y : 0 <= x / g) by (apply div_nonneg; assumption). assert (Z : 0 <= x * (1 + x / g)) by (apply Rmult_le_pos; lra).
    assert (EQ : (kE x) ^ 2 = 2 / COEF_BAND * m * (x * (1 + x / g))) by (rewrite Q; set (c := COEF_BAND) in *; clearbody c; field; split; lra).
    assert (M2 : 0 <= 2 / COEF_BAND) by (apply div_nonneg; lra).
    assert (M3 : 0 <= 2 / COEF_BAND * m) by (apply Rmult_le_pos; lra). rewrite <- !pow32_mult by (assumption || lra).
    rewrite <- EQ. unfold pow32. replace (sqrt (kE x ^ 2)) with (kE x); [ring|]. rewrite <- Rsqr_pow2. rewrite sqrt_Rsqr by exact P. reflexivity. }
  assert (Y : 0 < e / g) by (apply Rdiv_lt_0_compat; assumption). assert (U : 0 < e * (1 + e / g)) by (apply Rmult_lt_0_compat; lra).
  assert (D : 3 / 2 * pow32 (2 / COEF_BAND) * COEF_DOS / V * d = pow32 (2 / COEF_BAND) * pow32 m * ((1 + 2 * e / g) * (3 / 2 * sqrt (e * (1 + e / g))))).
  { unfold dosline, nsqrt in Hd. destruct (Rlt_dec (e * (1 + e / g)) 0); [lra|]. cbn [obind] in Hd. rewrite (Rabs_pos_eq m) in Hd by lra.
    assert (X : d = V / COEF_DOS * pow32 m * sqrt (e * (1 + e / g)) * (1 + 2 * e / g)) by congruence. rewrite X. assert (CD : 0 < COEF_DOS) by (unfold COEF_DOS; lra).
    set (a := pow32 (2 / COEF_BAND)). set (b := pow32 m). set (s := sqrt _). set (c := COEF_DOS) in *. clearbody a b s c. field. repeat split; lra. }
  rewrite D. apply (is_derive_ext_loc (fun x => pow32 (2 / COEF_BAND) * pow32 m * pow32 (x * (1 + x / g)))).
  - exists (mkposreal e He). intros y Hy. symmetry. apply K2. unfold ball in Hy; cbn in Hy; unfold AbsRing_ball, abs, minus, plus, opp in Hy; cbn in Hy. unfold Rabs in Hy. destruct (Rcase_abs _) in Hy; lra.
  - apply is_derive_scal. apply (is_derive_comp pow32 (fun x => x * (1 + x / g))); [apply pow32_derive; exact U|]. auto_derive; [lra|]. field. lra.
Qed.
Print Assumptions C75_dos_is_derivative.
(** the constant: the states are those of the wave vectors, two spins each, (2 pi)^3 / Vcell apart *)
Lemma PI_digits : 3.1415926535897 <= PI <= 3.1415926535898.
Proof.
  destruct (Machin.PI_2_3_7_ineq 7) as [A B]. unfold tg_alt, Machin.PI_2_3_7_tg, Ratan.Ratan_seq in A, B. cbn [sum_f_R0 Nat.mul Nat.add pow INR] in A, B. split; lra.
Qed.
Lemma states_ratio_one : Rabs (pow32 (2 / COEF_BAND) * COEF_DOS / (2 * PI ^ 2) - 1) <= 1e-12.
Proof.
  pose proof PI_digits as [P1 P2]. unfold pow32. set (x := 2 / COEF_BAND). assert (Bx : 0.26246842392915645 <= x <= 0.26246842392915647) by (unfold x, COEF_BAND; lra).
  pose proof (sqrt_sqrt x ltac:(lra)) as Q. pose proof (sqrt_pos x) as S0. set (s := sqrt x) in *.
  assert (B : 0.512316722281399 <= s <= 0.512316722281400) by (split; apply Rnot_lt_le; intros H; nra). clearbody s. clear Q S0.
  set (p := PI ^ 2). assert (Bp : 3.1415926535897 ^ 2 <= p <= 3.1415926535898 ^ 2) by (unfold p; split; nra). clearbody p x. clear P1 P2.
  assert (U : 0.26246842392915645 * 0.512316722281399 <= x * s <= 0.26246842392915647 * 0.512316722281400) by nra. set (u := x * s) in *. clearbody u.
  replace (u * COEF_DOS / (2 * p) - 1) with ((u * COEF_DOS - 2 * p) / (2 * p)) by (field; lra). unfold COEF_DOS. rewrite Rabs_div by lra. rewrite (Rabs_pos_eq (2 * p)) by lra.
  apply (Rmult_le_reg_r (2 * p)); [lra|]. unfold Rdiv at 1. rewrite Rmult_assoc, Rinv_l by lra. rewrite Rmult_1_r. apply Rabs_le. lra.
Qed.
(** the number of states of one cell with wave vectors up to [k] *)
Definition states (Vcell k : R) : R := 2 * (4 / 3 * PI * k ^ 3) / ((2 * PI) ^ 3 / Vcell).
Lemma states_derive V (kE : R -> R) e c d : 0 < V -> is_derive (fun x => kE x ^ 3) e (3 / 2 * c / V * d) -> is_derive (fun x => states V (kE x)) e (c / (2 * PI ^ 2) * d).
Proof.
  intros HV H. pose proof PI_RGT_0 as P. assert (E : forall x : R, V / (3 * PI ^ 2) * kE x ^ 3 = states V (kE x)) by (intros x; unfold states; field; split; lra). apply (is_derive_ext (fun x => V / (3 * PI ^ 2) * kE x ^ 3)); [exact E|].
  replace (c / (2 * PI ^ 2) * d) with (V / (3 * PI ^ 2) * (3 / 2 * c / V * d)) by (field; split; lra). apply is_derive_scal. exact H.
Qed.
Theorem C75_dos_counts_states :
  exists ratio, Rabs (ratio - 1) <= 1e-12 /\
  forall (m_d Vcell : R) (gap : option R), 0 < m_d -> 0 < Vcell -> (forall Eg, gap = Some Eg -> 0 < Eg) ->
  forall kE : R -> R, (forall e, 0 <= e -> 0 <= kE e /\ bandline (kE e) m_d 0 0 gap = e) ->
  forall e, 0 < e -> exists d, dosline e m_d 0 Vcell gap = Some d /\ is_derive (fun x => states Vcell (kE x)) e (ratio * d).
Proof.
  exists (pow32 (2 / COEF_BAND) * COEF_DOS / (2 * PI ^ 2)). split; [exact states_ratio_one|]. intros m V gap Hm HV Hg kE HK e He. destruct gap as [g|].
  - specialize (Hg g eq_refl). destruct (C75_kane_dos_ignores e m 0 0 V g Hg HV ltac:(lra)) as (_ & _ & _ & D). destruct (D He) as (d & Hd & _). exists d. split; [exact Hd|].
    apply states_derive; [exact HV|]. pose proof (C75_dos_is_derivative m V g Hm HV Hg kE HK e d He Hd) as H. replace (3 / 2 * (pow32 (2 / COEF_BAND) * COEF_DOS) / V * d) with (3 / 2 * pow32 (2 / COEF_BAND) * COEF_DOS / V * d) by (field; lra). exact H.
  - destruct (C75_parabolic_dos e m 0 V ltac:(lra)) as (D & _). specialize (D e ltac:(lra)). assert (Sg : sgn m = 1) by (unfold sgn; destruct (Rlt_dec 0 m); [reflexivity|lra]). rewrite Sg in D. replace (0 + 1 * e) with e in D by ring.
    rewrite (Rabs_pos_eq m) in D by lra. eexists. split; [exact D|]. apply states_derive; [exact HV|]. pose proof coef_pos as CB. assert (M2 : 0 <= 2 / COEF_BAND) by (apply div_nonneg; lra).
    assert (K2 : forall x, 0 <= x -> kE x ^ 3 = pow32 (2 / COEF_BAND) * pow32 m * pow32 x).
    { intros x Hx. destruct (HK x Hx) as (P & E). unfold bandline, parabolic in E. rewrite Rminus_0_r, Rplus_0_r in E. assert (M3 : 0 <= 2 / COEF_BAND * m) by (apply Rmult_le_pos; lra). rewrite <- !pow32_mult by (assumption || lra).
      replace (2 / COEF_BAND * m * x) with (kE x ^ 2) by (generalize dependent (kE x); intros y _ E; rewrite <- E; set (c := COEF_BAND) in *; clearbody c; field; lra). unfold pow32. replace (sqrt (kE x ^ 2)) with (kE x); [ring|]. rewrite <- Rsqr_pow2. rewrite sqrt_Rsqr by exact P. reflexivity. }
    assert (CD : 0 < COEF_DOS) by (unfold COEF_DOS; lra).
    replace (3 / 2 * (pow32 (2 / COEF_BAND) * COEF_DOS) / V * (V / COEF_DOS * pow32 m * sqrt e)) with (pow32 (2 / COEF_BAND) * pow32 m * (3 / 2 * sqrt e)).
    2:{ set (a := pow32 (2 / COEF_BAND)). set (b := pow32 m). set (s := sqrt e). set (c := COEF_DOS) in *. clearbody a b s c. field. split; lra. }
    apply (is_derive_ext_loc (fun x => pow32 (2 / COEF_BAND) * pow32 m * pow32 x)).
    + exists (mkposreal e He). intros y Hy. symmetry. apply K2. unfold ball in Hy; cbn in Hy; unfold AbsRing_ball, abs, minus, plus, opp in Hy; cbn in Hy. unfold Rabs in Hy. destruct (Rcase_abs _) in Hy; lra.
    + apply is_derive_scal. apply pow32_derive. exact He.
Qed.
Print Assumptions C75_dos_counts_states.

(** ** C76: spectral functions of several bands *)
(** dos, trs and hall of a band entry contribute only where the energy lies inside the band, if they vanish at the edge *)
Definition inside (h : heap) (E : R) (i : nat) (d : R) : Prop := if Rlt_dec (b_sign (h i)) 0 then d < E else E < d.
Theorem C76_outside :
  forall (h : heap) (f : nat -> R -> R) (m : multi) (E : R), signs_ok h ->
  multi_spectral h f m E = sumR (map (fun id => f (fst id) (Rmax (if Rlt_dec (b_sign (h (fst id))) 0 then E - snd id else snd id - E) 0)) (m_items m))
  /\ ((forall i d, In (i, d) (m_items m) -> f i 0 = 0 /\ ~ inside h E i d) -> multi_spectral h f m E = 0)
  /\ (forall s, (forall i x, f i x = s) -> multi_spectral h f m E = INR (List.length (m_items m)) * s).
Proof.
  intros h f m E Hs. assert (SG : forall i d, -1 * b_sign (h i) * (E - d) = if Rlt_dec (b_sign (h i)) 0 then E - d else d - E).
  { intros i d. destruct (Hs i) as [->| ->]; destruct (Rlt_dec _ 0); lra. }
  assert (EQ : multi_spectral h f m E = sumR (map (fun id => f (fst id) (Rmax (if Rlt_dec (b_sign (h (fst id))) 0 then E - snd id else snd id - E) 0)) (m_items m))).
  { unfold multi_spectral. f_equal. apply map_ext. intros (i, d). cbn [fst snd]. rewrite SG. reflexivity. }
  split; [exact EQ|]. rewrite EQ. split.
  - clear EQ. destruct m as [l c]. cbn [m_items]. induction l as [|(i, d) l IH]; intros H; [reflexivity|]. cbn [map sumR fst snd]. rewrite IH by (intros j e Hj; apply H; right; exact Hj).
    destruct (H i d (or_introl eq_refl)) as (Z & NI). unfold inside in NI. rewrite Rmax_right; [rewrite Z; ring|]. destruct (Rlt_dec (b_sign (h i)) 0); lra.
  - intros s Hf. clear EQ. destruct m as [l c]. cbn [m_items]. induction l as [|(i, d) l IH]; [cbn; ring|]. cbn [map sumR List.length]. rewrite IH, Hf, S_INR. ring.
Qed.
Print Assumptions C76_outside.
Theorem C76_models :
  (forall m_d sigma0 Kmass T, spb_dos m_d 0 = 0 /\ spb_trs sigma0 0 T = 0 /\ spb_hall m_d sigma0 Kmass 0 T = 0)
  /\ (forall m_d sigma0 Eg Kmass T, skb_dos m_d Eg 0 = 0 /\ skb_trs sigma0 Eg 0 T = 0 /\ skb_hall m_d sigma0 Eg Kmass 0 T = 0)
  /\ (forall vF sigma0 T, lin_dos vF 0 = 0 /\ lin_trs sigma0 0 T = sigma0).
Proof.
  assert (Z : forall x, sqrt (0 / x) = 0) by (intros x; unfold Rdiv; rewrite Rmult_0_l; apply sqrt_0).
  split; [|split]; intros.
  - unfold spb_dos, spb_trs, spb_hall. rewrite Z, sqrt_0. unfold Rdiv. repeat split; ring.
  - unfold skb_dos, skb_trs, skb_hall. rewrite Z, sqrt_0. unfold Rdiv. repeat split; ring.
  - unfold lin_dos, lin_trs. split; [simpl; ring|reflexivity].
Qed.
Print Assumptions C76_models.
(** a linear band contributes its whole sigma0 to the total transport function at every energy in the gap *)
Theorem C76_linear_in_gap :
  forall (h : heap) (i : nat) (delta vF sigma0 E T : R), signs_ok h -> ~ inside h E i delta ->
  let m := {| m_items := [(i, delta)]; m_cache := None |} in
  multi_spectral h (fun _ e => lin_dos vF e) m E = 0 /\ multi_spectral h (fun _ e => lin_trs sigma0 e T) m E = sigma0.
Proof.
  intros h i d vF s E T Hs NI m. destruct (C76_outside h (fun _ e => lin_dos vF e) m E Hs) as (_ & Z & _). destruct (C76_outside h (fun _ e => lin_trs s e T) m E Hs) as (_ & _ & W). split.
  - apply Z. intros j e [[= <- <-]|[]]. split; [apply (proj2 (proj2 C76_models) vF 0 0)|exact NI].
  - transitivity (INR (List.length (m_items m)) * s); [apply W; reflexivity|]. cbn. ring.
Qed.
Print Assumptions C76_linear_in_gap.

(** ** the hypotheses are met *)
Example C73_case : exists x, Sr 2 S0 0.075 = Some x /\ iSr x S0 0.075 = Some 2 /\ LxS x S0 L0 None 0.075 = Lr 2 L0.
Proof.
  pose proof S0_pos as P. destruct (C73_seebeck S0 0.075 ltac:(lra) ltac:(lra)) as (I1 & I2 & _). destruct (I2 2 ltac:(lra)) as (x & Hx). exists x. split; [exact Hx|]. split; [apply I1; [lra|exact Hx]|].
  apply C73_lorenz_from_seebeck; try assumption; lra.
Qed.
Example C73_case_2 : (exists l, LxS 100 S0 L0 (Some 3) 0.075 = Some l) /\ exists N, iLr 2.5 1 = Some N /\ 0 < N.
Proof.
  pose proof S0_pos as P. split; [apply C73_kane_fit; [exact P|lra]|]. destruct (C73_lorenz 1 ltac:(lra)) as (_ & _ & H & _). destruct (H 2.5) as (H1 & _). destruct H1 as (N & A & B & _).
  - pose proof PI2_3_2 as Q. assert (3 < PI) by lra. assert (3 * 3 < PI * PI) by (apply Rmult_gt_0_lt_compat; lra). lra.
  - exists N. split; assumption.
Qed.
Example C74_case : S0 * ln (1 + 0.075) < 200 /\ -50 < S0 * ln (1 + 0.075).
Proof.
  assert (A : 0 < ln (1 + 0.075)) by (rewrite <- ln_1; apply ln_increasing; lra). assert (B : ln (1 + 0.075) < 1).
  { apply exp_lt_inv. rewrite exp_ln by lra. pose proof (exp_ineq1 1 ltac:(lra)). lra. }
  pose proof S0_pos as P. assert (S0 * ln (1 + 0.075) < S0 * 1) by (apply Rmult_lt_compat_l; assumption). assert (0 < S0 * ln (1 + 0.075)) by (apply Rmult_lt_0_compat; assumption).
  assert (S0 < 200) by (unfold S0; lra). lra.
Qed.
Example C75_case : forall m Eg, 0 < m -> 0 < Eg -> exists kE : R -> R, forall e, 0 <= e -> 0 <= kE e /\ bandline (kE e) m 0 0 (Some Eg) = e.
Proof.
  intros m g Hm Hg. pose proof coef_pos as CB. exists (fun e => sqrt (2 * m / COEF_BAND * (e * (1 + e / g)))). intros e He. split; [apply sqrt_pos|].
  assert (Y : 0 <= e / g) by (apply div_nonneg; assumption). assert (A : 0 <= 2 * m / COEF_BAND) by (apply div_nonneg; lra). assert (B : 0 <= e * (1 + e / g)) by (apply Rmult_le_pos; lra).
  assert (P : parabolic (sqrt (2 * m / COEF_BAND * (e * (1 + e / g)))) m 0 = e * (1 + e / g)).
  { unfold parabolic. rewrite Rminus_0_r. rewrite <- Rsqr_pow2, Rsqr_sqrt by (apply Rmult_le_pos; assumption). set (c := COEF_BAND) in *. clearbody c. field. repeat split; lra. }
  unfold bandline. rewrite P, Rabs_pos_eq by exact B. replace (0.25 + e * (1 + e / g) / g) with ((e / g + 0.5) ^ 2) by (replace 0.25 with (1 / 4) by lra; replace 0.5 with (1 / 2) by lra; field; lra).
  rewrite <- Rsqr_pow2, sqrt_Rsqr by lra. replace (e / g + 0.5 + 0.5) with (1 + e / g) by lra. field. split; [lra|]. lra.
Qed.
