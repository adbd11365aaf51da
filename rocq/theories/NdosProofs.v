(** Integration by parts against the Fermi window. *)
From Coq Require Import Reals Lra Lia.
From Coquelicot Require Import Coquelicot.
From Verif Require Import Py RUtil FuncModel RombModel RombProofs RombProps RconvSpec RconvProofs RconvFermi NdosModel NdosSpec.
Local Open Scope R_scope.
Section Parts.
Variables (dos idos : R -> R) (EF T : R).
Hypothesis HT : 0 < T.
Hypothesis Hd : continuous_up dos.
Hypothesis Hi : continuous_up idos.
Hypothesis Hp : power_bounded idos.
Hypothesis Ha : antiderivative idos dos.
Lemma kt_pos : 0 < kB * T. Proof. apply Rmult_lt_0_compat; [apply kB_pos|exact HT]. Qed.
Lemma occ_derive E : is_derive (occupation EF T) E (- fermi_window EF T E).
Proof.
  unfold occupation, fermi_window. pose proof kt_pos as P. revert P. generalize (kB * T). intros c Pc. pose proof (exp_pos ((E - EF) / c)) as Q. auto_derive; [apply Rgt_not_eq; unfold Rdiv, Rminus in Q; lra|]. unfold Rdiv, Rminus in *. field. split; apply Rgt_not_eq; lra.
Qed.
Lemma occ_cont E : continuous (occupation EF T) E.
Proof. apply (ex_derive_continuous (occupation EF T)). eexists. apply occ_derive. Qed.
Lemma win_cont E : continuous (fermi_window EF T) E.
Proof.
  apply (ex_derive_continuous (fermi_window EF T)). unfold fermi_window. pose proof kt_pos as P. revert P. generalize (kB * T). intros c Pc. pose proof (exp_pos ((E - EF) / c)) as Q. auto_derive.
  unfold Rdiv, Rminus in Q. repeat split; try (apply Rgt_not_eq; lra). apply Rgt_not_eq. nra.
Qed.
Notation up h := (fun e => h (Rmax e 0)).
Definition h1 (E : R) : R := dos (Rmax E 0) * occupation EF T E.
Definition h2 (E : R) : R := idos (Rmax E 0) * fermi_window EF T E.
Lemma h1_cont E : continuous h1 E.
Proof. unfold h1. apply (continuous_mult (up dos) (occupation EF T)); [apply up_continuous; exact Hd|apply occ_cont]. Qed.
Lemma h2_cont E : continuous h2 E.
Proof. unfold h2. apply (continuous_mult (up idos) (fermi_window EF T)); [apply up_continuous; exact Hi|apply win_cont]. Qed.
Definition bt (E : R) : R := idos (Rmax E 0) * occupation EF T E.
Lemma bt_cont E : continuous bt E.
Proof. unfold bt. apply (continuous_mult (up idos) (occupation EF T)); [apply up_continuous; exact Hi|apply occ_cont]. Qed.
Lemma bt_derive E : 0 < E -> is_derive bt E (h1 E - h2 E).
Proof.
  intros HE. assert (D : is_derive (up idos) E (dos E)).
  { apply (is_derive_ext_loc idos); [|apply (proj2 Ha); exact HE]. exists (mkposreal _ HE). intros y Hy. unfold ball in Hy; cbn in Hy. unfold AbsRing_ball, abs, minus, plus, opp in Hy; cbn in Hy.
    apply Rabs_def2 in Hy. rewrite Rmax_left by lra. reflexivity. }
  pose proof (is_derive_mult (up idos) (occupation EF T) E _ _ D (occ_derive E) Rmult_comm) as M. unfold plus, mult in M; cbn in M. rewrite Rmax_left in M by lra.
  unfold bt, h1, h2. rewrite !Rmax_left by lra. replace (dos E * occupation EF T E - idos E * fermi_window EF T E) with (dos E * occupation EF T E + idos E * - fermi_window EF T E) by ring. exact M.
Qed.
Lemma rint_derive (h : R -> R) : (forall x, continuous h x) -> forall x, is_derive (fun M => RInt h 0 M) x (h x).
Proof.
  intros C x. apply (is_derive_RInt h (fun M => RInt h 0 M) 0 x); [|apply C]. exists (mkposreal 1 Rlt_0_1). intros y _. apply (RInt_correct (V := R_CompleteNormedModule)). apply (ex_RInt_continuous (V := R_CompleteNormedModule)). intros; apply C.
Qed.
Lemma by_parts M : 0 <= M -> RInt h1 0 M = bt M + RInt h2 0 M.
Proof.
  intros HM. set (P := fun x => RInt h1 0 x - RInt h2 0 x - bt x).
  assert (Cr : forall h : R -> R, (forall x, continuous h x) -> forall x, continuous (fun M => RInt h 0 M) x) by (intros h C x; apply (ex_derive_continuous (fun M => RInt h 0 M)); eexists; apply rint_derive; exact C).
  destruct (MVT_gen P 0 M (fun _ => 0)) as (c & _ & E).
  - rewrite Rmin_left, Rmax_right by exact HM. intros x Hx. 
    assert (D : is_derive P x (h1 x - h2 x - (h1 x - h2 x))); [unfold P|rewrite Rminus_eq_0 in D; exact D].
    apply (is_derive_minus (fun x => RInt h1 0 x - RInt h2 0 x) bt); [|apply bt_derive; lra].
    apply (is_derive_minus (fun x => RInt h1 0 x) (fun x => RInt h2 0 x)); apply rint_derive; [apply h1_cont|apply h2_cont].
  - intros x _. apply continuity_pt_filterlim. unfold P. apply (continuous_minus (fun x => RInt h1 0 x - RInt h2 0 x) bt); [|apply bt_cont].
    apply (continuous_minus (fun x => RInt h1 0 x) (fun x => RInt h2 0 x)); apply Cr; [apply h1_cont|apply h2_cont].
  - unfold P in E. rewrite Rmult_0_l in E. rewrite !RInt_point in E. change (zero : R) with 0 in E.
    assert (B0 : bt 0 = 0) by (unfold bt; rewrite Rmax_left by lra; rewrite (proj1 Ha); ring). rewrite B0 in E. lra.
Qed.
Lemma bt_lim : is_lim bt p_infty 0.
Proof.
  destruct Hp as (C & p & B). pose proof kt_pos as Pc. set (c := kB * T) in *.
  assert (C0 : 0 <= C) by (pose proof (B 0 ltac:(lra)) as B0; pose proof (Rabs_pos (idos 0)); rewrite Rplus_0_r, pow1 in B0; lra).
  destruct (exp_dominates (S p)) as (K & PK & HK). set (A := C * (K * c ^ S p * exp ((1 + EF) / c))).
  assert (A0 : 0 <= A) by (unfold A; apply Rmult_le_pos; [exact C0|]; apply Rmult_le_pos; [apply Rmult_le_pos; [lra|apply pow_le; lra]|apply Rlt_le, exp_pos]).
  assert (Bd : forall M, 0 <= M -> Rabs (bt M) * (1 + M) <= A).
  { intros M HM. unfold bt. rewrite Rmax_left by lra. rewrite Rabs_mult. unfold occupation. fold c. pose proof (exp_pos ((M - EF) / c)) as Q.
    rewrite (Rabs_pos_eq (1 / _)) by (apply Rdiv_le_0_compat; lra).
    assert (O : 1 / (1 + exp ((M - EF) / c)) <= exp (- ((M - EF) / c))).
    { apply Rle_div_l; [lra|]. rewrite Rmult_plus_distr_l, <- exp_plus, Rplus_opp_l, exp_0. pose proof (exp_pos (- ((M - EF) / c))). lra. }
    apply Rle_trans with (C * (1 + M) ^ p * exp (- ((M - EF) / c)) * (1 + M)).
    { apply Rmult_le_compat_r; [lra|]. apply Rmult_le_compat; [apply Rabs_pos|apply Rdiv_le_0_compat; lra|apply B; exact HM|exact O]. }
    pose proof (HK ((1 + M) / c) ltac:(apply Rdiv_le_0_compat; lra)) as H. replace (C * (1 + M) ^ p * exp (- ((M - EF) / c)) * (1 + M)) with (C * ((1 + M) ^ S p * exp (- ((M - EF) / c)))) by (cbn [pow]; ring).
    unfold A. apply Rmult_le_compat_l; [exact C0|]. replace ((1 + M) ^ S p) with (c ^ S p * ((1 + M) / c) ^ S p) by (rewrite <- Rpow_mult_distr; f_equal; field; lra).
    apply Rle_trans with (c ^ S p * (K * exp ((1 + M) / c)) * exp (- ((M - EF) / c))).
    - apply Rmult_le_compat_r; [apply Rlt_le, exp_pos|]. apply Rmult_le_compat_l; [apply pow_le; lra|exact H].
    - replace (c ^ S p * (K * exp ((1 + M) / c)) * exp (- ((M - EF) / c))) with (K * c ^ S p * (exp ((1 + M) / c) * exp (- ((M - EF) / c)))) by ring. rewrite <- exp_plus.
      replace ((1 + M) / c + - ((M - EF) / c)) with ((1 + EF) / c) by (field; lra). lra. }
  apply is_lim_spec. intros e. exists (A / e). intros M HM. pose proof (cond_pos e) as Pe. assert (Q : 0 <= A / e) by (apply Rdiv_le_0_compat; lra). rewrite Rminus_0_r.
  specialize (Bd M ltac:(lra)). apply (Rmult_lt_reg_r (1 + M)); [lra|]. eapply Rle_lt_trans; [exact Bd|]. apply (Rmult_lt_compat_l e) in HM; [|exact Pe]. replace (e * (A / e)) with A in HM by (field; lra). lra.
Qed.
Lemma count_lim L : fermi_integral idos EF T 0 L -> occupied dos EF T L.
Proof.
  unfold fermi_integral, occupied. intros H. apply (is_lim_ext_loc (fun M => bt M + RInt h2 0 M)).
  - exists 0. intros M HM. rewrite <- by_parts by lra. apply RInt_ext. intros E HE. rewrite Rmin_left, Rmax_right in HE by lra. unfold h1. rewrite Rmax_left by lra. reflexivity.
  - rewrite <- (Rplus_0_l L). apply is_lim_plus'; [exact bt_lim|]. revert H. apply is_lim_ext_loc. exists 0. intros M HM. apply RInt_ext. intros E HE. rewrite Rmin_left, Rmax_right in HE by lra.
    unfold h2. rewrite Rmax_left by lra. cbn [pow]. rewrite Rmult_1_r. reflexivity.
Qed.
Lemma kernel_up : continuous_up (kernel dos EF T).
Proof.
  intros E HE. intros e He. pose proof (h1_cont E) as C. apply continuity_pt_filterlim in C. destruct (C e He) as (d & Pd & B). exists d. split; [exact Pd|]. intros y Hy D.
  destruct (Req_dec y E) as [->|N]; [rewrite Rminus_eq_0, Rabs_R0; exact He|].
  assert (K : forall z, 0 <= z -> kernel dos EF T z = h1 z). { intros z Hz. unfold kernel, h1. rewrite Rmax_left by lra. f_equal. unfold fermidirac, expit, occupation. rewrite Ropp_involutive. reflexivity. }
  rewrite !K by assumption. apply (B y). split; [split; [exact I|congruence]|exact D].
Qed.
Lemma exact_count quad n : exact_quad quad -> occupied dos EF T n -> count_dos quad dos EF T = n.
Proof.
  intros (Q1 & Q2) H. unfold count_dos. cbv zeta. pose proof (Rmax_l 0 EF) as S0. set (s := Rmax 0 EF) in *. rewrite (Q1 _ 0 s) by (try exact kernel_up; lra).
  assert (K : forall z, 0 <= z -> kernel dos EF T z = h1 z). { intros z Hz. unfold kernel, h1. rewrite Rmax_left by lra. f_equal. unfold fermidirac, expit, occupation. rewrite Ropp_involutive. reflexivity. }
  assert (EX : forall a b, ex_RInt h1 a b) by (intros a b; apply (ex_RInt_continuous (V := R_CompleteNormedModule)); intros; apply h1_cont).
  assert (KR : forall a b, 0 <= a -> a <= b -> RInt (kernel dos EF T) a b = RInt h1 a b) by (intros a b A B; apply RInt_ext; intros E HE; rewrite Rmin_left, Rmax_right in HE by lra; apply K; lra).
  rewrite (Q2 _ s (n - RInt (kernel dos EF T) 0 s)); [ring|lra|exact kernel_up|].
  unfold occupied in H. rewrite (KR 0 s) by lra. apply (is_lim_ext_loc (fun M => RInt (fun E => dos E * occupation EF T E) 0 M - RInt h1 0 s)).
  - exists s. intros M HM. rewrite (KR s M) by lra. assert (E1 : RInt (fun E => dos E * occupation EF T E) 0 M = RInt h1 0 M).
    { apply RInt_ext. intros E HE. rewrite Rmin_left, Rmax_right in HE by lra. unfold h1. rewrite Rmax_left by lra. reflexivity. }
    rewrite E1. pose proof (RInt_Chasles h1 0 s M (EX _ _) (EX _ _)) as CH. change (RInt h1 0 s + RInt h1 s M = RInt h1 0 M) in CH. lra.
  - apply is_lim_minus'; [exact H|apply is_lim_const].
Qed.
End Parts.
