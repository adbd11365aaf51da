(** Lemmas for LvlProps: the number of occupied states as a function of the Fermi level. *)
From Coq Require Import Reals Lra Lia Ranalysis5.
From Coquelicot Require Import Coquelicot.
From Verif Require Import Py RUtil FuncModel RombModel RombProps RconvSpec RconvProofs RconvFermi RconvBands NdosModel NdosSpec NdosProofs OptProofs.
Local Open Scope R_scope.
Ltac fld := pose proof kB_pos; field; repeat split; lra.
Section Lvl.
Variables dos idos : R -> R.
Variable T : R.
Hypothesis HT : 0 < T.
Hypothesis Hd : continuous_up dos.
Hypothesis Pd : forall E, 0 < E -> 0 < dos E.
Hypothesis Hi : continuous_up idos.
Hypothesis Ha : antiderivative idos dos.
Variable N : R -> R.
Hypothesis HN : forall EF, occupied dos EF T (N EF).
Notation kt := (kB * T).
Notation occf := (fun EF E => occupation EF T E).
Lemma ktp : 0 < kt. Proof. apply Rmult_lt_0_compat; [apply kB_pos|exact HT]. Qed.
Lemma ktdiv a b : a < b -> a / kt < b / kt. Proof. intros H. pose proof ktp. unfold Rdiv. apply Rmult_lt_compat_r; [apply Rinv_0_lt_compat; assumption|exact H]. Qed.
Lemma occp EF E : 0 < occupation EF T E < 1.
Proof. unfold occupation. pose proof (exp_pos ((E - EF) / kt)) as P. split; [apply Rdiv_lt_0_compat; lra|]. apply (proj2 (Rlt_div_l 1 1 (1 + exp ((E - EF) / kt)) ltac:(lra))). lra. Qed.
Lemma occ_mono a b E : a < b -> occupation a T E < occupation b T E.
Proof.
  intros H. unfold occupation, Rdiv. rewrite !Rmult_1_l. pose proof (exp_pos ((E - b) / kt)) as P. pose proof (exp_pos ((E - a) / kt)) as P'.
  assert (exp ((E - b) / kt) < exp ((E - a) / kt)) by (apply exp_increasing, ktdiv; lra). apply Rinv_lt_contravar; [apply Rmult_lt_0_compat; lra|]. unfold Rdiv in *. lra.
Qed.
Lemma occ_energy a x y : x <= y -> occupation a T y <= occupation a T x.
Proof.
  intros [H| ->]; [|lra]. unfold occupation, Rdiv. rewrite !Rmult_1_l. pose proof (exp_pos ((x - a) / kt)) as P. assert (exp ((x - a) / kt) < exp ((y - a) / kt)) by (apply exp_increasing, ktdiv; lra). apply Rinv_le_contravar; unfold Rdiv in *; lra.
Qed.
Lemma occ_ratio a b E : a <= b -> occupation b T E <= exp ((b - a) / kt) * occupation a T E.
Proof.
  intros H. pose proof ktp as K. unfold occupation. set (p := exp ((b - a) / kt)). assert (P1 : 1 <= p). { unfold p. rewrite <- exp_0. destruct H as [H| ->]; [left; apply exp_increasing; apply Rdiv_lt_0_compat; lra|]. replace ((b - b) / kt) with 0 by (unfold Rdiv; ring). lra. }
  set (q := exp ((E - b) / kt)). pose proof (exp_pos ((E - b) / kt)) as Q. fold q in Q. replace (exp ((E - a) / kt)) with (p * q) by (unfold p, q; rewrite <- exp_plus; apply (f_equal exp); fld).
  assert (D : 0 < 1 + p * q) by nra. replace (p * (1 / (1 + p * q))) with (p / (1 + p * q)) by (fld). apply (proj2 (Rle_div_l _ _ _ (ltac:(lra) : 0 < 1 + q))). replace (p / (1 + p * q) * (1 + q)) with (p * (1 + q) / (1 + p * q)) by (fld). apply (proj1 (Rle_div_r _ _ _ D)). nra.
Qed.
Lemma occ_low a E : 0 <= E -> occupation a T E <= 2 * exp (a / kt) * occupation 0 T E.
Proof.
  intros H. pose proof ktp as K. unfold occupation. set (q := exp (E / kt)). assert (Q : 1 <= q). { unfold q. rewrite <- exp_0. destruct H as [H|<-]; [left; apply exp_increasing; apply Rdiv_lt_0_compat; lra|]. replace (0 / kt) with 0 by (unfold Rdiv; ring). lra. }
  set (p := exp (a / kt)). pose proof (exp_pos (a / kt)) as P. fold p in P. replace (E - 0) with E by ring. fold q. replace (exp ((E - a) / kt)) with (q / p) by (unfold q, p, Rdiv; rewrite <- exp_Ropp, <- exp_plus; apply (f_equal exp); fld).
  assert (QP : 0 < q / p) by (apply Rdiv_lt_0_compat; lra). apply (proj2 (Rle_div_l _ _ _ (ltac:(lra) : 0 < 1 + q / p))). replace (2 * p * (1 / (1 + q)) * (1 + q / p)) with (2 * (p + q) / (1 + q)) by (fld). apply (proj1 (Rle_div_r 1 (2 * (p + q)) (1 + q) ltac:(lra))). lra.
Qed.
(* the integrand, extended below the band edge *)
Definition dz (E : R) : R := dos (Rmax E 0).
Definition gz (EF E : R) : R := dz E * occupation EF T E.
Definition Gz (EF M : R) : R := RInt (gz EF) 0 M.
Lemma dz_cont x : continuous dz x. Proof. apply (up_continuous dos Hd). Qed.
Lemma gz_cont EF x : continuous (gz EF) x. Proof. apply (continuous_mult dz (occupation EF T)); [apply dz_cont|apply (occ_cont EF T HT)]. Qed.
Lemma dz_nonneg x : 0 <= x -> 0 <= dz x.
Proof.
  intros H. unfold dz. rewrite Rmax_left by exact H. destruct H as [H|<-]; [left; apply Pd, H|]. apply Rnot_lt_le. intros L.
  destruct (Hd 0 (Rle_refl 0) (- dos 0) ltac:(lra)) as (d & D & B). assert (D2 : Rabs (d / 2 - 0) < d) by (rewrite Rminus_0_r, Rabs_pos_eq; lra). specialize (B (d / 2) ltac:(lra) D2). pose proof (Pd (d / 2) ltac:(lra)). apply Rabs_def2 in B. lra.
Qed.
Lemma dz_pos x : 0 < x -> 0 < dz x. Proof. intros H. unfold dz. rewrite Rmax_left by lra. apply Pd, H. Qed.
Lemma ri (h : R -> R) a b : (forall x, continuous h x) -> ex_RInt h a b.
Proof. intros C. apply (ex_RInt_continuous (V := R_CompleteNormedModule)). intros; apply C. Qed.
Lemma Gz_lim EF : is_lim (Gz EF) p_infty (N EF).
Proof.
  pose proof (HN EF) as H. unfold occupied in H. revert H. apply is_lim_ext_loc. exists 0. intros M HM. unfold Gz. apply RInt_ext. intros x Hx. rewrite Rmin_left, Rmax_right in Hx by lra. unfold gz, dz. rewrite Rmax_left by lra. reflexivity.
Qed.
Lemma Gz_grows EF A B : 0 <= A -> A <= B -> Gz EF A <= Gz EF B.
Proof.
  intros HA HB. unfold Gz. assert (E : RInt (gz EF) 0 B = RInt (gz EF) 0 A + RInt (gz EF) A B) by (symmetry; apply (RInt_Chasles (gz EF) 0 A B); apply ri, gz_cont). assert (0 <= RInt (gz EF) A B); [|lra]. apply RInt_ge_0; [exact HB|apply ri, gz_cont|]. intros x Hx. unfold gz. apply Rmult_le_pos; [apply dz_nonneg; lra|pose proof (occp EF x); lra].
Qed.
Lemma Gz_below EF M : 0 <= M -> Gz EF M <= N EF.
Proof.
  intros H. assert (Q : Rbar_le (Gz EF M) (N EF)); [|exact Q]. apply (is_lim_le_loc (fun _ => Gz EF M) (Gz EF) p_infty); [|apply is_lim_const|apply Gz_lim]. exists M. intros x Hx. apply Gz_grows; lra.
Qed.
Lemma idos_int M : 0 <= M -> RInt dz 0 M = idos M.
Proof.
  intros HM. destruct Ha as (Z & D). set (P := fun x => RInt dz 0 x - idos (Rmax x 0)).
  destruct (MVT_gen P 0 M (fun _ => 0)) as (c & _ & E).
  - rewrite Rmin_left, Rmax_right by exact HM. intros x Hx. assert (Dd : is_derive P x (dz x - dz x)); [|rewrite Rminus_eq_0 in Dd; exact Dd]. unfold P.
    apply (is_derive_minus (fun x => RInt dz 0 x) (fun x => idos (Rmax x 0))); [apply rint_derive, dz_cont|]. apply (is_derive_ext_loc idos).
    + assert (X0 : 0 < x) by lra. exists (mkposreal x X0). intros y Hy. unfold ball in Hy; cbn in Hy. unfold AbsRing_ball, abs, minus, plus, opp in Hy; cbn in Hy. apply Rabs_def2 in Hy. rewrite Rmax_left by lra. reflexivity.
    + unfold dz. rewrite Rmax_left by lra. apply D. lra.
  - intros x _. apply continuity_pt_filterlim. unfold P. apply (continuous_minus (fun x => RInt dz 0 x) (fun x => idos (Rmax x 0))); [|apply (up_continuous idos Hi)]. apply (ex_derive_continuous (fun M => RInt dz 0 M)). eexists. apply rint_derive, dz_cont.
  - unfold P in E. rewrite Rmult_0_l in E. rewrite RInt_point in E. change (zero : R) with 0 in E. rewrite !Rmax_left, Z in E by lra. lra.
Qed.
Lemma lower EF M : 0 <= M -> occupation EF T M * idos M <= N EF.
Proof.
  intros H. eapply Rle_trans; [|apply (Gz_below EF M H)]. rewrite <- (idos_int M H). unfold Gz.
  assert (E : occupation EF T M * RInt dz 0 M = RInt (fun x => occupation EF T M * dz x) 0 M) by (symmetry; apply (RInt_scal (V := R_CompleteNormedModule) dz 0 M (occupation EF T M)), ri, dz_cont). rewrite E.
  apply RInt_le; [exact H|apply ri; intros x; apply (continuous_mult (fun _ => occupation EF T M) dz); [apply continuous_const|apply dz_cont]|apply ri, gz_cont|]. intros x Hx. unfold gz. rewrite Rmult_comm. apply Rmult_le_compat_l; [apply dz_nonneg; lra|apply occ_energy; lra].
Qed.
Lemma N_pos EF : 0 < N EF.
Proof.
  assert (0 < Gz EF 1); [|pose proof (Gz_below EF 1 ltac:(lra)); lra]. unfold Gz. apply RInt_gt_0; [lra| |intros x _; apply gz_cont]. intros x Hx. unfold gz. apply Rmult_lt_0_compat; [apply dz_pos; lra|apply occp].
Qed.
(* a pointwise gap between 0 and 1 remains in the limit *)
Lemma gap (f g : R -> R) (a b : R) : (forall x, continuous f x) -> (forall x, continuous g x) -> (forall x, 0 <= x -> f x <= g x) -> (forall x, 0 < x -> f x < g x) ->
  is_lim (fun M => RInt f 0 M) p_infty a -> is_lim (fun M => RInt g 0 M) p_infty b -> a < b.
Proof.
  intros Cf Cg Le Lt La Lb. assert (Ch : forall x, continuous (fun x => g x - f x) x) by (intros x; apply (continuous_minus g f); auto).
  assert (P1 : 0 < RInt (fun x => g x - f x) 0 1) by (apply RInt_gt_0; [lra|intros x Hx; specialize (Lt x ltac:(lra)); lra|intros x _; apply Ch]). set (d := RInt (fun x => g x - f x) 0 1) in *.
  assert (Q : Rbar_le (a + d) b); [|change (a + d <= b) in Q; clear - P1 Q; clearbody d; lra].
  apply (is_lim_le_loc (fun M => RInt f 0 M + d) (fun M => RInt g 0 M) p_infty); [|apply (is_lim_plus' (fun M => RInt f 0 M) (fun _ => d) p_infty a d); [exact La|apply is_lim_const]|exact Lb].
  exists 1. intros M HM. assert (E : RInt (fun x => g x - f x) 0 M = RInt g 0 M - RInt f 0 M) by (apply (RInt_minus (V := R_CompleteNormedModule) g f 0 M); apply ri; assumption).
  assert (E2 : RInt (fun x => g x - f x) 0 M = d + RInt (fun x => g x - f x) 1 M) by (symmetry; apply (RInt_Chasles (fun x => g x - f x) 0 1 M); apply ri, Ch).
  assert (0 <= RInt (fun x => g x - f x) 1 M); [|lra]. apply RInt_ge_0; [lra|apply ri, Ch|]. intros x Hx. specialize (Le x ltac:(lra)). lra.
Qed.
Lemma N_mono a b : a < b -> N a < N b.
Proof.
  intros H. apply (gap (gz a) (gz b)); [apply gz_cont|apply gz_cont| | |apply Gz_lim|apply Gz_lim]; intros x Hx; unfold gz; pose proof (occ_mono a b x H).
  - apply Rmult_le_compat_l; [apply dz_nonneg; exact Hx|lra]. - apply Rmult_lt_compat_l; [apply dz_pos; exact Hx|assumption].
Qed.
Lemma N_scaled c a b : (forall x, 0 <= x -> occupation b T x <= c * occupation a T x) -> N b <= c * N a.
Proof.
  intros H. assert (Q : Rbar_le (N b) (c * N a)); [|exact Q]. apply (is_lim_le_loc (Gz b) (fun M => c * Gz a M) p_infty); [|apply Gz_lim|apply (is_lim_scal_l (Gz a) c p_infty (N a)), Gz_lim].
  exists 0. intros M HM. unfold Gz. assert (E : c * RInt (gz a) 0 M = RInt (fun x => c * gz a x) 0 M) by (symmetry; apply (RInt_scal (V := R_CompleteNormedModule) (gz a) 0 M c), ri, gz_cont). rewrite E.
  apply RInt_le; [lra|apply ri, gz_cont|apply ri; intros x; apply (continuous_mult (fun _ => c) (gz a)); [apply continuous_const|apply gz_cont]|]. intros x Hx. unfold gz. replace (c * (dz x * occupation a T x)) with (dz x * (c * occupation a T x)) by ring. apply Rmult_le_compat_l; [apply dz_nonneg; lra|apply H; lra].
Qed.
Lemma N_ratio a b : a <= b -> N b <= exp ((b - a) / kt) * N a.
Proof. intros H. apply N_scaled. intros x _. apply occ_ratio, H. Qed.
Lemma N_low a : N a <= 2 * exp (a / kt) * N 0.
Proof. apply N_scaled. intros x Hx. apply occ_low, Hx. Qed.
Lemma N_ceiling EF (c : R) : is_lim idos p_infty c -> N EF < c.
Proof.
  intros H. apply (gap (gz EF) dz); [apply gz_cont|apply dz_cont| | |apply Gz_lim|].
  - intros x Hx. unfold gz. rewrite <- (Rmult_1_r (dz x)) at 2. apply Rmult_le_compat_l; [apply dz_nonneg; exact Hx|pose proof (occp EF x); lra].
  - intros x Hx. unfold gz. rewrite <- (Rmult_1_r (dz x)) at 2. apply Rmult_lt_compat_l; [apply dz_pos; exact Hx|pose proof (occp EF x); lra].
  - revert H. apply is_lim_ext_loc. exists 0. intros M HM. symmetry. apply idos_int. lra.
Qed.
Lemma lnN_lip a b : Rabs (kt * ln (N a) - kt * ln (N b)) <= Rabs (a - b).
Proof.
  pose proof ktp as K. assert (W : forall a b, a <= b -> 0 <= kt * ln (N b) - kt * ln (N a) <= b - a).
  { clear a b. intros a b H. pose proof (N_pos a) as A. pose proof (N_pos b) as B. split.
    - assert (ln (N a) <= ln (N b)); [|nra]. apply ln_le; [exact A|]. destruct H as [H| ->]; [left; apply N_mono, H|lra].
    - pose proof (N_ratio a b H) as Rr. assert (L : ln (N b) <= (b - a) / kt + ln (N a)). { rewrite <- (ln_exp ((b - a) / kt)), <- ln_mult by (try exact A; apply exp_pos). apply ln_le; assumption. }
      apply (Rmult_le_compat_l kt) in L; [|lra]. replace (kt * ((b - a) / kt + ln (N a))) with (b - a + kt * ln (N a)) in L by (fld). lra. }
  destruct (Rle_lt_dec a b) as [H|H].
  - specialize (W a b H). rewrite (Rabs_left1 (a - b)) by lra. apply Rabs_le. lra.
  - specialize (W b a ltac:(lra)). rewrite (Rabs_pos_eq (a - b)) by lra. apply Rabs_le. lra.
Qed.
Lemma N_onto v (c : Rbar) : is_lim idos p_infty c -> 0 < v -> Rbar_lt v c -> exists EF, N EF = v.
Proof.
  intros Hc Hv Lt. pose proof ktp as K. pose proof (N_pos 0) as N0.
  assert (Lo : exists a, N a < v).
  { exists (kt * ln (v / (4 * N 0))). eapply Rle_lt_trans; [apply N_low|]. replace (kt * ln (v / (4 * N 0)) / kt) with (ln (v / (4 * N 0))) by (fld). rewrite exp_ln by (apply Rdiv_lt_0_compat; lra). replace (2 * (v / (4 * N 0)) * N 0) with (v / 2) by (fld). lra. }
  assert (Hi' : exists b, v < N b).
  { assert (X : exists M, 0 < M /\ v < idos M).
    { assert (Y : Rbar_locally' p_infty (fun M => v < idos M)). { apply (Hc (fun y => v < y)). destruct c as [c| |]; cbn in *; [|exists v; auto|contradiction]. assert (D : 0 < c - v) by lra. exists (mkposreal _ D). intros y Hy. unfold ball in Hy; cbn in Hy. unfold AbsRing_ball, abs, minus, plus, opp in Hy; cbn in Hy. apply Rabs_def2 in Hy. lra. }
      destruct Y as (M0 & Y). exists (Rmax M0 0 + 1). pose proof (Rmax_l M0 0). pose proof (Rmax_r M0 0). split; [lra|apply Y; lra]. }
    destruct X as (M & PM & HM). set (r := idos M / v - 1). assert (Pr : 0 < r). { unfold r. assert (1 < idos M / v); [|lra]. apply (proj1 (Rlt_div_r 1 (idos M) v Hv)). lra. }
    exists (M - kt * ln (r / 2)). eapply Rlt_le_trans; [|apply (lower _ M); lra]. unfold occupation. replace ((M - (M - kt * ln (r / 2))) / kt) with (ln (r / 2)) by (fld). rewrite exp_ln by lra.
    assert (Pd2 : 0 < 1 + r / 2) by lra. replace (1 / (1 + r / 2) * idos M) with (idos M / (1 + r / 2)) by (fld). apply (proj1 (Rlt_div_r v (idos M) (1 + r / 2) Pd2)). replace (v * (1 + r / 2)) with ((v + idos M) / 2) by (unfold r; fld). lra. }
  destruct Lo as (a & A). destruct Hi' as (b & B). assert (AB : a < b). { apply Rnot_le_lt. intros [L| ->]; [apply N_mono in L; lra|lra]. }
  pose proof (N_pos a) as Pa. pose proof (N_pos b) as Pb.
  destruct (IVT_interv (fun x => kt * ln (N x) - kt * ln v) a b) as (z & _ & Ez).
  - intros x _. apply continuity_pt_minus; [|apply continuity_pt_const; intros u w; reflexivity]. apply continuity_pt_filterlim. apply (lipschitz_continuous (fun x => kt * ln (N x))). apply lnN_lip.
  - exact AB.
  - apply ln_increasing in A; [|exact Pa]. nra.
  - apply ln_increasing in B; [|exact Hv]. nra.
  - exists z. apply ln_inv; [apply N_pos|exact Hv|]. apply (Rmult_eq_reg_l kt); lra.
Qed.
End Lvl.
