(** C14, C15, C16: [fermidirac], [smoothstep] and the GPR kernels
    (src/teflow/mathext.py:341-431). *)
From Verif Require Import Py RUtil FuncModel FuncProofs.
Local Open Scope R_scope.

Theorem C14_fermidirac :
  (forall x, fermidirac x = 1 / (1 + exp x))
  /\ (forall x, 0 < fermidirac x < 1)
  /\ (forall x y, x < y -> fermidirac y < fermidirac x)
  /\ (forall x, fermidirac (- x) = 1 - fermidirac x).
Proof. exact (conj fd_eq (conj fd_range (conj fd_decr fd_sym))). Qed.
Print Assumptions C14_fermidirac.

Theorem C14_inverse :
  (forall y, 0 < y < 1 -> fermidirac_inv y = Some (Fin (ln (1 / y - 1))))
  /\ (forall y, 0 < y < 1 -> fermidirac (ln (1 / y - 1)) = y)
  /\ (forall x, fermidirac_inv (fermidirac x) = Some (Fin x))
  /\ (forall y, y <= 0 -> fermidirac_inv y = Some PInf)
  /\ (forall y, 1 <= y -> fermidirac_inv y = Some NInf).
Proof. exact (conj fd_inv_fin (conj fd_right_inv (conj fd_left_inv (conj fd_inv_lo fd_inv_hi)))). Qed.
Print Assumptions C14_inverse.

Theorem C15_smoothstep_values :
  forall x : R,
  (x <= 0 -> smoothstep false x = 0) /\ (1 <= x -> smoothstep false x = 1)
  /\ (0 <= x <= 1 -> smoothstep false x = 3 * x ^ 2 - 2 * x ^ 3)
  /\ 0 <= smoothstep false x <= 1
  /\ (forall y, x <= y -> smoothstep false x <= smoothstep false y)
  /\ smoothstep true x = smoothstep false ((1 - x) / 2).
Proof.
  intros x. destruct (ss_values x) as (H1 & H2 & H3).
  exact (conj H1 (conj H2 (conj H3 (conj (ss_range x) (conj (ss_mono x) (ss_shift x)))))).
Qed.
Print Assumptions C15_smoothstep_values.

Theorem C15_smoothstep_inverse :
  (forall (b : bool) (y : R), 0 <= y <= 1 -> smoothstep b (smoothstep_inv b y) = y)
  /\ (forall x, 0 <= x <= 1 -> smoothstep_inv false (smoothstep false x) = x)
  /\ (forall x, -1 <= x <= 1 -> smoothstep_inv true (smoothstep true x) = x).
Proof. exact (conj (fun b y => ss_right_inv y b) (conj ss_left_inv_false ss_left_inv_true)). Qed.
Print Assumptions C15_smoothstep_inverse.

Example C15_case : smoothstep true (1 / 2) = 5 / 32.
Proof. unfold smoothstep. rewrite clip_id by lra. lra. Qed.

Theorem C16_kernels :
  forall u v s : R, s <> 0 ->
  (kernel_rbf false u u s = 1 /\ kernel_dfx false u u s = 1)
  /\ (kernel_rbf false u v s = kernel_rbf false v u s /\ kernel_dfx false u v s = kernel_dfx false v u s)
  /\ (0 < kernel_rbf false u v s <= 1 /\ 0 < kernel_dfx false u v s <= 1)
  /\ kernel_rbf false u v s = exp (- (1 / 2) * ((u - v) / s) ^ 2)
  /\ kernel_dfx false u v s = 4 * exp ((u - v) / s) / (1 + exp ((u - v) / s)) ^ 2.
Proof.
  intros u v s Hs. split; [split; [apply rbf_diag|apply dfx_diag]|].
  split; [split; [apply rbf_sym|apply dfx_sym]|].
  split; [split; [apply rbf_range|apply dfx_range]; exact Hs|].
  split; [|apply dfx_eq; exact Hs].
  unfold kernel_rbf. f_equal. field. exact Hs.
Qed.
Print Assumptions C16_kernels.

Theorem C16_gradients :
  forall u v s : R, s <> 0 ->
  derivable_pt_lim (fun w => kernel_rbf false w v s) u (kernel_rbf true u v s)
  /\ derivable_pt_lim (fun w => kernel_dfx false w v s) u (kernel_dfx true u v s).
Proof. intros u v s Hs. split; [apply rbf_grad|apply dfx_grad]; exact Hs. Qed.
Print Assumptions C16_gradients.
