(** The spectral functions of the band models are continuous and bounded by powers. *)
From Coq Require Import Reals Lra Lia.
From Coquelicot Require Import Coquelicot.
From Verif Require Import Py RUtil FuncModel RombModel RombProps BandModel SpbModel RconvSpec RconvFermi.
Local Open Scope R_scope.
Lemma cont_up (f : R -> R) : (forall E, 0 <= E -> continuous f E) -> continuous_up f.
Proof.
  intros H E HE e He. specialize (H E HE). apply continuity_pt_filterlim in H. destruct (H e He) as (d & Pd & B). exists d. split; [exact Pd|]. intros y Hy D.
  destruct (Req_dec y E) as [->|N]; [rewrite Rminus_eq_0, Rabs_R0; exact He|]. apply (B y). split; [split; [exact I|congruence]|exact D].
Qed.
Lemma c_mult (f g : R -> R) x : continuous f x -> continuous g x -> continuous (fun e => f e * g e) x.
Proof. intros. apply (continuous_mult f g); assumption. Qed.
Lemma c_plus (f g : R -> R) x : continuous f x -> continuous g x -> continuous (fun e => f e + g e) x.
Proof. intros. apply (continuous_plus f g); assumption. Qed.
Lemma c_const (c x : R) : continuous (fun _ => c) x. Proof. apply continuous_const. Qed.
Lemma c_id (x : R) : continuous (fun e => e) x. Proof. apply continuous_id. Qed.
Lemma c_div (f g : R -> R) x : continuous f x -> continuous g x -> g x <> 0 -> continuous (fun e => f e / g e) x.
Proof. intros. apply (continuous_mult f (fun e => / g e)); [assumption|]. apply continuous_Rinv_comp; assumption. Qed.
Lemma c_sqrt (f : R -> R) x : continuous f x -> continuous (fun e => sqrt (f e)) x.
Proof. intros. apply (continuous_comp f sqrt); [assumption|apply continuous_sqrt]. Qed.
Lemma c_pow (f : R -> R) n x : continuous f x -> continuous (fun e => f e ^ n) x.
Proof. intros H. induction n as [|n IH]; [exact (c_const 1 x)|]. cbn [pow]. apply c_mult; assumption. Qed.
Lemma c_pow32 (f : R -> R) x : continuous f x -> continuous (fun e => pow32 (f e)) x.
Proof. intros. unfold pow32. apply c_mult; [assumption|apply c_sqrt; assumption]. Qed.
Lemma c_cdiv (f : R -> R) c x : continuous f x -> continuous (fun e => f e / c) x.
Proof. intros. unfold Rdiv. apply c_mult; [assumption|apply c_const]. Qed.

Lemma pow_ge1 E n : 0 <= E -> 1 <= (1 + E) ^ n. Proof. intros. apply pow_R1_Rle. lra. Qed.
Lemma pb_norm (f : R -> R) : power_bounded f -> exists C p, 0 <= C /\ forall E, 0 <= E -> Rabs (f E) <= C * (1 + E) ^ p.
Proof. intros (C & p & B). exists C, p. split; [|exact B]. pose proof (B 0 ltac:(lra)) as B0. rewrite Rplus_0_r, pow1 in B0. pose proof (Rabs_pos (f 0)). lra. Qed.
Lemma pb_const c : power_bounded (fun _ => c). Proof. exists (Rabs c), O. intros. cbn. lra. Qed.
Lemma pb_id : power_bounded (fun e => e). Proof. exists 1, 1%nat. intros. rewrite Rabs_pos_eq by assumption. cbn. lra. Qed.
Lemma pb_mult (f g : R -> R) : power_bounded f -> power_bounded g -> power_bounded (fun e => f e * g e).
Proof.
  intros F G. apply pb_norm in F as (C & p & C0 & F). apply pb_norm in G as (D & q & D0 & G). exists (C * D), (p + q)%nat. intros E HE. rewrite Rabs_mult, pow_add.
  replace (C * D * ((1 + E) ^ p * (1 + E) ^ q)) with (C * (1 + E) ^ p * (D * (1 + E) ^ q)) by ring. apply Rmult_le_compat; [apply Rabs_pos|apply Rabs_pos|apply F|apply G]; exact HE.
Qed.
Lemma pb_plus (f g : R -> R) : power_bounded f -> power_bounded g -> power_bounded (fun e => f e + g e).
Proof.
  intros F G. apply pb_norm in F as (C & p & C0 & F). apply pb_norm in G as (D & q & D0 & G). exists (C + D), (p + q)%nat. intros E HE. eapply Rle_trans; [apply Rabs_triang|]. rewrite Rmult_plus_distr_r, pow_add.
  pose proof (pow_ge1 E p HE). pose proof (pow_ge1 E q HE). apply Rplus_le_compat; [eapply Rle_trans; [apply F; exact HE|]|eapply Rle_trans; [apply G; exact HE|]].
  - apply Rmult_le_compat_l; [exact C0|]. rewrite <- (Rmult_1_r ((1 + E) ^ p)) at 1. apply Rmult_le_compat_l; lra.
  - apply Rmult_le_compat_l; [exact D0|]. rewrite <- (Rmult_1_l ((1 + E) ^ q)) at 1. apply Rmult_le_compat_r; lra.
Qed.
Lemma sqrt_le1 x : Rabs (sqrt x) <= 1 + Rabs x.
Proof.
  rewrite Rabs_pos_eq by apply sqrt_pos. destruct (Rle_lt_dec x 0) as [H|H]; [rewrite sqrt_neg_0 by exact H; pose proof (Rabs_pos x); lra|].
  rewrite (Rabs_pos_eq x) by lra. apply Rsqr_incr_0_var; [|lra]. rewrite Rsqr_sqrt by lra. unfold Rsqr. nra.
Qed.
Lemma pb_sqrt (f : R -> R) : power_bounded f -> power_bounded (fun e => sqrt (f e)).
Proof.
  intros F. apply pb_norm in F as (C & p & C0 & F). exists (1 + C), p. intros E HE. eapply Rle_trans; [apply sqrt_le1|]. specialize (F E HE). pose proof (pow_ge1 E p HE). lra.
Qed.
Lemma pb_cdiv (f : R -> R) c : power_bounded f -> power_bounded (fun e => f e / c).
Proof. intros. unfold Rdiv. apply pb_mult; [assumption|apply pb_const]. Qed.
Lemma pb_pow (f : R -> R) n : power_bounded f -> power_bounded (fun e => f e ^ n).
Proof. intros H. induction n as [|n IH]; [exact (pb_const 1)|]. cbn [pow]. apply pb_mult; assumption. Qed.
Lemma pb_pow32 (f : R -> R) : power_bounded f -> power_bounded (fun e => pow32 (f e)).
Proof. intros. unfold pow32. apply pb_mult; [assumption|apply pb_sqrt; assumption]. Qed.
Lemma pb_div (f g : R -> R) : power_bounded f -> (forall E, 0 <= E -> 1 <= g E) -> power_bounded (fun e => f e / g e).
Proof.
  intros F G. destruct F as (C & p & F). exists C, p. intros E HE. specialize (G E HE). unfold Rdiv. rewrite Rabs_mult. eapply Rle_trans; [|apply F; exact HE]. rewrite <- (Rmult_1_r (Rabs (f E))) at 2.
  apply Rmult_le_compat_l; [apply Rabs_pos|]. rewrite Rabs_pos_eq by (apply Rlt_le, Rinv_0_lt_compat; lra). rewrite <- Rinv_1. apply Rinv_le_contravar; lra.
Qed.
Ltac cc := repeat first [assumption | apply c_const | apply c_id | apply (c_mult (fun e => _) (fun e => _)) | apply (c_plus (fun e => _) (fun e => _)) | apply (c_cdiv (fun e => _)) | apply (c_sqrt (fun e => _)) | apply (c_pow (fun e => _)) | apply (c_pow32 (fun e => _))].
Ltac pb := repeat first [apply pb_const | apply pb_id | apply (pb_mult (fun e => _) (fun e => _)) | apply (pb_plus (fun e => _) (fun e => _)) | apply (pb_cdiv (fun e => _)) | apply (pb_sqrt (fun e => _)) | apply (pb_pow (fun e => _)) | apply (pb_pow32 (fun e => _))].
Definition good (f : R -> R) : Prop := continuous_up f /\ power_bounded f.
Section Good.
Variables m_d sigma0 Kmass Eg vF T : R.
Hypothesis HE : 0 < Eg.
Lemma den_ge E : 0 <= E -> 1 <= (1 + 2 * E / Eg) ^ 2 + 2. Proof. intros _. pose proof (pow2_ge_0 (1 + 2 * E / Eg)). lra. Qed.
Lemma good_spb_idos : good (spb_idos m_d). Proof. split; [apply cont_up; intros; unfold spb_idos; cc|unfold spb_idos; pb]. Qed.
Lemma good_spb_dos : good (spb_dos m_d). Proof. split; [apply cont_up; intros; unfold spb_dos; cc|unfold spb_dos; pb]. Qed.
Lemma good_spb_trs : good (fun E => spb_trs sigma0 E T). Proof. split; [apply cont_up; intros; unfold spb_trs; cc|unfold spb_trs; pb]. Qed.
Lemma good_spb_hall : good (fun E => spb_hall m_d sigma0 Kmass E T). Proof. split; [apply cont_up; intros; unfold spb_hall; cc|unfold spb_hall; pb]. Qed.
Lemma good_skb_idos : good (skb_idos m_d Eg). Proof. split; [apply cont_up; intros; unfold skb_idos; cc|unfold skb_idos; pb]. Qed.
Lemma good_skb_dos : good (skb_dos m_d Eg). Proof. split; [apply cont_up; intros; unfold skb_dos; cc|unfold skb_dos; pb]. Qed.
Lemma good_skb_trs : good (fun E => skb_trs sigma0 Eg E T).
Proof.
  split.
  - apply cont_up. intros E H. unfold skb_trs. apply (c_mult (fun E => sigma0 * E / (kB * T))); [cc|]. apply (c_div (fun E => 3 * (1 + E / Eg)) (fun E => (1 + 2 * E / Eg) ^ 2 + 2)); [cc|cc|]. pose proof (den_ge E H). apply Rgt_not_eq. lra.
  - unfold skb_trs. apply (pb_mult (fun E => sigma0 * E / (kB * T))); [pb|]. apply (pb_div (fun E => 3 * (1 + E / Eg)) (fun E => (1 + 2 * E / Eg) ^ 2 + 2)); [pb|]. exact den_ge.
Qed.
Lemma good_skb_hall : good (fun E => skb_hall m_d sigma0 Eg Kmass E T).
Proof.
  assert (D : forall E, 0 <= E -> 1 <= ((1 + 2 * E / Eg) ^ 2 + 2) ^ 2) by (intros E H; apply pow_R1_Rle; apply den_ge; exact H). split.
  - apply cont_up. intros E H. unfold skb_hall. apply (c_mult (fun E => Kstar Kmass * hall_factor m_d sigma0 T * sqrt (E / (kB * T)))); [cc|].
    apply (c_div (fun E => 9 * sqrt (1 + E / Eg)) (fun E => ((1 + 2 * E / Eg) ^ 2 + 2) ^ 2)); [cc|cc|]. specialize (D E H). apply Rgt_not_eq. lra.
  - unfold skb_hall. apply (pb_mult (fun E => Kstar Kmass * hall_factor m_d sigma0 T * sqrt (E / (kB * T)))); [pb|].
    apply (pb_div (fun E => 9 * sqrt (1 + E / Eg)) (fun E => ((1 + 2 * E / Eg) ^ 2 + 2) ^ 2)); [pb|exact D].
Qed.
Lemma good_lin_idos : good (lin_idos vF). Proof. split; [apply cont_up; intros; unfold lin_idos; cc|unfold lin_idos; pb]. Qed.
Lemma good_lin_dos : good (lin_dos vF). Proof. split; [apply cont_up; intros; unfold lin_dos; cc|unfold lin_dos; pb]. Qed.
Lemma good_lin_trs : good (fun E => lin_trs sigma0 E T). Proof. split; [apply cont_up; intros; unfold lin_trs; cc|unfold lin_trs; pb]. Qed.
End Good.
