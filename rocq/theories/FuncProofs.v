From Verif Require Import Py RUtil FuncModel.
Local Open Scope R_scope.

(** ** Fermi-Dirac *)
Lemma fd_eq x : fermidirac x = 1 / (1 + exp x).
Proof. unfold fermidirac, expit. rewrite Ropp_involutive; reflexivity. Qed.

Lemma fd_range x : 0 < fermidirac x < 1.
Proof.
  rewrite fd_eq. pose proof (exp_pos x). split; [apply Rdiv_lt_0_compat; lra|].
  apply Rmult_lt_reg_r with (1 + exp x); [lra|]. field_simplify; lra.
Qed.

Lemma fd_decr x y : x < y -> fermidirac y < fermidirac x.
Proof.
  intros H. rewrite !fd_eq. pose proof (exp_pos x). pose proof (exp_increasing _ _ H).
  apply Rmult_lt_compat_l; [lra|]. apply Rinv_lt_contravar; [apply Rmult_lt_0_compat; lra|lra].
Qed.

Lemma fd_sym x : fermidirac (- x) = 1 - fermidirac x.
Proof.
  rewrite !fd_eq, exp_Ropp. pose proof (exp_pos x). field. lra.
Qed.

Lemma fd_inv_fin y : 0 < y < 1 -> fermidirac_inv y = Some (Fin (ln (1 / y - 1))).
Proof.
  intros H. unfold fermidirac_inv, logit. rewrite clip_id by lra.
  destruct (Rlt_dec y 0); [lra|]. destruct (Rlt_dec 1 y); [lra|].
  destruct (Req_EM_T y 0); [lra|]. destruct (Req_EM_T y 1); [lra|]. cbn. do 2 f_equal.
  rewrite <- ln_Rinv by (apply Rdiv_lt_0_compat; lra). f_equal. field. lra.
Qed.

Lemma fd_inv_lo y : y <= 0 -> fermidirac_inv y = Some PInf.
Proof.
  intros H. unfold fermidirac_inv, logit. rewrite clip_lo by lra.
  destruct (Rlt_dec 0 0); [lra|]. destruct (Rlt_dec 1 0); [lra|]. destruct (Req_EM_T 0 0); [reflexivity|lra].
Qed.
Lemma fd_inv_hi y : 1 <= y -> fermidirac_inv y = Some NInf.
Proof.
  intros H. unfold fermidirac_inv, logit. rewrite clip_hi by lra.
  destruct (Rlt_dec 1 0); [lra|]. destruct (Rlt_dec 1 1); [lra|]. destruct (Req_EM_T 1 0); [lra|].
  destruct (Req_EM_T 1 1); [reflexivity|lra].
Qed.

Lemma fd_left_inv x : fermidirac_inv (fermidirac x) = Some (Fin x).
Proof.
  rewrite fd_inv_fin by apply fd_range. do 2 f_equal. rewrite fd_eq. pose proof (exp_pos x).
  replace (1 / (1 / (1 + exp x)) - 1) with (exp x) by (field; lra). apply ln_exp.
Qed.
Lemma fd_right_inv y : 0 < y < 1 -> fermidirac (ln (1 / y - 1)) = y.
Proof.
  intros H. rewrite fd_eq. assert (Hp : 0 < 1 / y - 1).
  { assert (1 < 1 / y); [|lra]. apply Rmult_lt_reg_r with y; [lra|]. field_simplify; lra. }
  rewrite exp_ln by exact Hp. field. lra.
Qed.

(** ** smoothstep *)
Lemma ss_shift x : smoothstep true x = smoothstep false ((1 - x) / 2).
Proof.
  unfold smoothstep. destruct (Rle_dec x (-1)) as [H|H].
  - rewrite clip_lo by lra. rewrite (clip_hi ((1 - x) / 2)) by lra. field.
  - destruct (Rle_dec 1 x) as [H1|H1].
    + rewrite clip_hi by lra. rewrite (clip_lo ((1 - x) / 2)) by lra. field.
    + rewrite clip_id by lra. rewrite clip_id by lra. field.
Qed.

Lemma poly_mono a b : 0 <= a <= b -> b <= 1 -> a * a * (3 - 2 * a) <= b * b * (3 - 2 * b).
Proof.
  intros H1 H2. assert (0 <= (b - a) * (3 * (a + b) - 2 * (a * a + a * b + b * b))); [|nra].
  apply Rmult_le_pos; nra.
Qed.

Lemma ss_mono x y : x <= y -> smoothstep false x <= smoothstep false y.
Proof.
  intros H. unfold smoothstep. pose proof (clip_range x 0 1 ltac:(lra)). pose proof (clip_range y 0 1 ltac:(lra)).
  pose proof (clip_mono x y 0 1 H). apply poly_mono; lra.
Qed.

Lemma ss_values x :
  (x <= 0 -> smoothstep false x = 0) /\ (1 <= x -> smoothstep false x = 1)
  /\ (0 <= x <= 1 -> smoothstep false x = 3 * x ^ 2 - 2 * x ^ 3).
Proof.
  unfold smoothstep. repeat split; intros H.
  - rewrite clip_lo by lra; lra.
  - rewrite clip_hi by lra; lra.
  - rewrite clip_id by lra; ring.
Qed.

Lemma ss_range x : 0 <= smoothstep false x <= 1.
Proof.
  unfold smoothstep. pose proof (clip_range x 0 1 ltac:(lra)) as H. set (c := clip x 0 1) in *.
  split; [apply Rmult_le_pos; nra|].
  pose proof (poly_mono c 1 ltac:(lra) ltac:(lra)). lra.
Qed.

Lemma sin3 t : sin (3 * t) = 3 * sin t - 4 * sin t ^ 3.
Proof.
  replace (3 * t) with (2 * t + t) by ring. rewrite sin_plus, sin_2a, cos_2a_sin.
  replace (2 * sin t * cos t * cos t) with (2 * sin t * (cos t * cos t)) by ring.
  replace (cos t * cos t) with (1 - sin t * sin t); [ring|].
  pose proof (sin2_cos2 t) as H. unfold Rsqr in H. lra.
Qed.

Lemma sin_third_bound t : - PI / 2 <= t <= PI / 2 -> - (1 / 2) <= sin (t / 3) <= 1 / 2.
Proof.
  intros H. pose proof PI_RGT_0. rewrite <- sin_PI6. rewrite <- sin_neg. split; apply sin_incr_1; lra.
Qed.

Lemma ss_right_inv y b : 0 <= y <= 1 -> smoothstep b (smoothstep_inv b y) = y.
Proof.
  intros Hy. assert (Hs : forall s, s = sin (asin (1 - 2 * y) / 3) -> smoothstep false (1 / 2 - s) = y).
  { intros s ->. pose proof (asin_bound (1 - 2 * y)) as Hb.
    pose proof (sin_third_bound (asin (1 - 2 * y)) ltac:(lra)) as Ht.
    pose proof (sin3 (asin (1 - 2 * y) / 3)) as H3.
    replace (3 * (asin (1 - 2 * y) / 3)) with (asin (1 - 2 * y)) in H3 by field.
    rewrite sin_asin in H3 by lra.
    unfold smoothstep. rewrite clip_id by lra. set (s := sin _) in *.
    replace ((1 / 2 - s) * (1 / 2 - s) * (3 - 2 * (1 / 2 - s))) with (1 / 2 - (3 * s - 4 * s ^ 3) / 2) by field.
    rewrite <- H3. field. }
  destruct b; unfold smoothstep_inv.
  - rewrite ss_shift. set (s := sin _). replace ((1 - 2 * s) / 2) with (1 / 2 - s) by field. apply Hs; reflexivity.
  - apply Hs; reflexivity.
Qed.

Lemma asin_third s : - (1 / 2) <= s <= 1 / 2 -> sin (asin (3 * s - 4 * s ^ 3) / 3) = s.
Proof.
  intros H. assert (E : 3 * s - 4 * s ^ 3 = sin (3 * asin s)) by (rewrite sin3, sin_asin by lra; reflexivity).
  rewrite E. pose proof PI_RGT_0.
  assert (Hb : - (PI / 6) <= asin s <= PI / 6).
  { assert (B := asin_bound s). split.
    - destruct (Rle_dec (- (PI / 6)) (asin s)) as [|C]; [assumption|exfalso].
      assert (sin (asin s) < sin (- (PI / 6))) by (apply sin_increasing_1; lra).
      rewrite sin_asin in H1 by lra. rewrite sin_neg, sin_PI6 in H1. lra.
    - destruct (Rle_dec (asin s) (PI / 6)) as [|C]; [assumption|exfalso].
      assert (sin (PI / 6) < sin (asin s)) by (apply sin_increasing_1; lra).
      rewrite sin_asin in H1 by lra. rewrite sin_PI6 in H1. lra. }
  rewrite asin_sin by lra. replace (3 * asin s / 3) with (asin s) by field. apply sin_asin. lra.
Qed.

Lemma ss_left_inv_false x : 0 <= x <= 1 -> smoothstep_inv false (smoothstep false x) = x.
Proof.
  intros H. unfold smoothstep, smoothstep_inv. rewrite clip_id by lra.
  replace (1 - 2 * (x * x * (3 - 2 * x))) with (3 * (1 / 2 - x) - 4 * (1 / 2 - x) ^ 3) by field.
  rewrite asin_third by lra. field.
Qed.
Lemma ss_left_inv_true x : -1 <= x <= 1 -> smoothstep_inv true (smoothstep true x) = x.
Proof.
  intros H. rewrite ss_shift. pose proof (ss_left_inv_false ((1 - x) / 2) ltac:(lra)) as E.
  unfold smoothstep_inv in *. set (s := sin _) in *. lra.
Qed.

(** ** kernels *)
Lemma dfx_eq u v s : s <> 0 ->
  let t := (u - v) / s in kernel_dfx false u v s = 4 * exp t / (1 + exp t) ^ 2.
Proof.
  intros Hs t. unfold kernel_dfx, tanh, sinh, cosh.
  replace ((u - v) / (2 * s)) with (t / 2) by (unfold t; field; exact Hs).
  assert (E : exp t = exp (t / 2) * exp (t / 2)) by (rewrite <- exp_plus; f_equal; field).
  rewrite E, exp_Ropp. pose proof (exp_pos (t / 2)) as Hp. set (e := exp (t / 2)) in *.
  field. repeat split; nra.
Qed.

Lemma dfx_range u v s : s <> 0 -> 0 < kernel_dfx false u v s <= 1.
Proof.
  intros Hs. rewrite dfx_eq by exact Hs. pose proof (exp_pos ((u - v) / s)) as Hp. set (e := exp _) in *. split.
  - apply Rdiv_lt_0_compat; nra.
  - apply Rmult_le_reg_r with ((1 + e) ^ 2); [nra|]. unfold Rdiv. rewrite Rmult_assoc, Rinv_l by nra.
    pose proof (pow2_ge_0 (1 - e)). nra.
Qed.

Lemma rbf_range u v s : s <> 0 -> 0 < kernel_rbf false u v s <= 1.
Proof.
  intros Hs. unfold kernel_rbf. split; [apply exp_pos|]. rewrite <- exp_0.
  assert (Ha : - (u - v) ^ 2 / 2 / s ^ 2 <= 0).
  { assert (0 < s ^ 2) by nra. unfold Rdiv. assert (0 < / s ^ 2) by (apply Rinv_0_lt_compat; assumption).
    pose proof (pow2_ge_0 (u - v)). set (q := (u - v) ^ 2) in *. nra. }
  destruct Ha as [Ha|Ha]; [left; apply exp_increasing; exact Ha|right; f_equal; exact Ha].
Qed.

Lemma rbf_diag u s : kernel_rbf false u u s = 1.
Proof. unfold kernel_rbf. replace (- (u - u) ^ 2 / 2 / s ^ 2) with 0 by (unfold Rdiv; ring). apply exp_0. Qed.
Lemma dfx_diag u s : kernel_dfx false u u s = 1.
Proof.
  unfold kernel_dfx. replace ((u - u) / (2 * s)) with 0 by (unfold Rdiv; ring).
  unfold tanh. rewrite sinh_0. unfold Rdiv. ring.
Qed.
Lemma rbf_sym u v s : kernel_rbf false u v s = kernel_rbf false v u s.
Proof. unfold kernel_rbf. f_equal. unfold Rdiv. ring. Qed.
Lemma dfx_sym u v s : kernel_dfx false u v s = kernel_dfx false v u s.
Proof.
  unfold kernel_dfx. replace ((v - u) / (2 * s)) with (- ((u - v) / (2 * s))) by (unfold Rdiv; ring).
  assert (E : forall t, tanh (- t) = - tanh t); [|rewrite E; ring].
  intros t. unfold tanh, sinh, cosh. rewrite Ropp_involutive. pose proof (exp_pos t). pose proof (exp_pos (- t)).
  field. lra.
Qed.

Lemma tanh_deriv t : derivable_pt_lim tanh t (1 - tanh t ^ 2).
Proof.
  assert (Hc : cosh t <> 0) by (unfold cosh; pose proof (exp_pos t); pose proof (exp_pos (- t)); lra).
  replace (1 - tanh t ^ 2) with ((cosh t * cosh t - sinh t * sinh t) / (cosh t)²).
  - apply (derivable_pt_lim_div sinh cosh t (cosh t) (sinh t) (derivable_pt_lim_sinh t) (derivable_pt_lim_cosh t) Hc).
  - unfold tanh, Rsqr. field. exact Hc.
Qed.

Lemma deriv_ext f g x l : (forall y, f y = g y) -> derivable_pt_lim f x l -> derivable_pt_lim g x l.
Proof.
  intros E H eps Heps. destruct (H eps Heps) as (d & Hd). exists d. intros h Hh Hhd. rewrite <- !E. apply Hd; assumption.
Qed.

Lemma affine_deriv a b x : derivable_pt_lim (fun u => a * u + b) x a.
Proof.
  assert (H := derivable_pt_lim_plus _ _ _ _ _ (derivable_pt_lim_scal id a x 1 (derivable_pt_lim_id x)) (derivable_pt_lim_const b x)).
  replace (a * 1 + 0) with a in H by ring.
  eapply deriv_ext; [|exact H]. intros u. unfold plus_fct, mult_real_fct, fct_cte, id. reflexivity.
Qed.

Lemma dfx_grad u v s : s <> 0 -> derivable_pt_lim (fun w => kernel_dfx false w v s) u (kernel_dfx true u v s).
Proof.
  intros Hs.
  set (h := fun w => / (2 * s) * w + - v / (2 * s)).
  assert (Hh : forall w, h w = (w - v) / (2 * s)) by (intros w; unfold h; field; exact Hs).
  assert (D1 : derivable_pt_lim (fun w => tanh (h w)) u ((1 - tanh (h u) ^ 2) * / (2 * s))).
  { apply (derivable_pt_lim_comp h tanh); [apply affine_deriv|apply tanh_deriv]. }
  assert (D2 := derivable_pt_lim_mult _ _ _ _ _ D1 D1).
  assert (D3 := derivable_pt_lim_minus _ _ _ _ _ (derivable_pt_lim_const 1 u) D2).
  unfold kernel_dfx. rewrite <- Hh.
  replace (- tanh (h u) / s * (1 - tanh (h u) ^ 2)) with
   (0 - ((1 - tanh (h u) ^ 2) * / (2 * s) * tanh (h u) + tanh (h u) * ((1 - tanh (h u) ^ 2) * / (2 * s)))) by (field; exact Hs).
  eapply deriv_ext; [|exact D3]. intros w. unfold minus_fct, fct_cte, mult_fct. rewrite Hh. ring.
Qed.

Lemma rbf_grad u v s : s <> 0 -> derivable_pt_lim (fun w => kernel_rbf false w v s) u (kernel_rbf true u v s).
Proof.
  intros Hs.
  set (h := fun w => / s * w + - v / s).
  assert (Hh : forall w, h w = (w - v) / s) by (intros w; unfold h; field; exact Hs).
  assert (D1 : derivable_pt_lim h u (/ s)) by apply affine_deriv.
  assert (D2 := derivable_pt_lim_mult _ _ _ _ _ D1 D1).
  assert (D3 := derivable_pt_lim_scal _ (- (1 / 2)) _ _ D2).
  assert (D4 := derivable_pt_lim_comp _ exp _ _ _ D3 (derivable_pt_lim_exp _)).
  unfold kernel_rbf.
  assert (E : forall w, mult_real_fct (- (1 / 2)) (h * h)%F w = - (w - v) ^ 2 / 2 / s ^ 2).
  { intros w. unfold mult_real_fct, mult_fct. rewrite Hh. field. exact Hs. }
  rewrite E in D4.
  replace ((v - u) / s ^ 2 * exp (- (u - v) ^ 2 / 2 / s ^ 2)) with
    (exp (- (u - v) ^ 2 / 2 / s ^ 2) * (- (1 / 2) * (/ s * h u + h u * / s))) by (rewrite Hh; field; exact Hs).
  eapply deriv_ext; [|exact D4]. intros w. unfold comp. rewrite E. reflexivity.
Qed.
