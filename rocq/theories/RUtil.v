(** Finite sums over lists of reals. *)
From Coq Require Export Reals Lra.
From Verif Require Export Py.
Local Open Scope R_scope.

(** [np.sum] of a one-dimensional array *)
Fixpoint sumR (l : list R) : R := match l with [] => 0 | x :: r => x + sumR r end.

Lemma sumR_app a b : sumR (a ++ b) = sumR a + sumR b.
Proof. induction a as [|x a IH]; cbn; [lra|rewrite IH; lra]. Qed.
Lemma sumR_scal {A} c (f : A -> R) l : sumR (map (fun x => c * f x) l) = c * sumR (map f l).
Proof. induction l as [|x l IH]; cbn; [lra|rewrite IH; lra]. Qed.
Lemma sumR_plus {A} (f g : A -> R) l : sumR (map (fun x => f x + g x) l) = sumR (map f l) + sumR (map g l).
Proof. induction l as [|x l IH]; cbn; [lra|rewrite IH; lra]. Qed.
Lemma sumR_ext {A} (f g : A -> R) l : (forall x, In x l -> f x = g x) -> sumR (map f l) = sumR (map g l).
Proof. intros H; f_equal; apply map_ext_in; exact H. Qed.
Lemma sumR_nonneg l : Forall (fun x => 0 <= x) l -> 0 <= sumR l.
Proof. induction 1; cbn; lra. Qed.
Lemma sumR_zero l : Forall (fun x => 0 <= x) l -> sumR l = 0 -> Forall (fun x => x = 0) l.
Proof.
  induction 1 as [|x l Hx Hl IH]; cbn; intros E; [constructor|].
  pose proof (sumR_nonneg l Hl). constructor; [lra|apply IH; lra].
Qed.
Lemma sumR_le {A} (f g : A -> R) l : (forall x, In x l -> f x <= g x) -> sumR (map f l) <= sumR (map g l).
Proof.
  induction l as [|x l IH]; intros H; cbn; [lra|].
  pose proof (H x (or_introl eq_refl)). assert (sumR (map f l) <= sumR (map g l)) by (apply IH; intros; apply H; right; assumption). lra.
Qed.
Lemma sumR_lt {A} (f g : A -> R) l : (forall x, In x l -> f x <= g x) -> (exists x, In x l /\ f x < g x) ->
  sumR (map f l) < sumR (map g l).
Proof.
  induction l as [|x l IH]; intros H (z & Hz & Hlt); [destruct Hz|]; cbn.
  pose proof (H x (or_introl eq_refl)).
  assert (Hle : sumR (map f l) <= sumR (map g l)) by (apply sumR_le; intros; apply H; right; assumption).
  destruct Hz as [->|Hz]; [lra|].
  assert (sumR (map f l) < sumR (map g l)) by (apply IH; [intros; apply H; right; assumption|eauto]). lra.
Qed.
Lemma sumR_const {A} c (l : list A) : sumR (map (fun _ => c) l) = INR (length l) * c.
Proof. induction l as [|x l IH]; [cbn; lra|]. cbn [map sumR length]. rewrite IH, S_INR; lra. Qed.
Lemma sumR_repeat c n : sumR (repeat c n) = INR n * c.
Proof. induction n as [|n IH]; [cbn; lra|]. cbn [repeat sumR]. rewrite IH, S_INR; lra. Qed.

(** Cauchy-Schwarz *)
Lemma cauchy_schwarz {A} (f g : A -> R) l :
  (sumR (map (fun x => f x * g x) l))² <= sumR (map (fun x => (f x)²) l) * sumR (map (fun x => (g x)²) l).
Proof.
  set (a := sumR (map (fun x => (f x)²) l)). set (b := sumR (map (fun x => f x * g x) l)).
  set (c := sumR (map (fun x => (g x)²) l)).
  assert (Hq : forall t, 0 <= a * t² - 2 * b * t + c).
  { intros t. replace (a * t² - 2 * b * t + c) with (sumR (map (fun x => (f x * t - g x)²) l)).
    - apply sumR_nonneg. apply Forall_map. apply Forall_forall; intros x _. apply Rle_0_sqr.
    - unfold a, b, c. clear. induction l as [|x l IH]; cbn; [lra|]. rewrite IH. unfold Rsqr; lra. }
  assert (Ha : 0 <= a).
  { unfold a. apply sumR_nonneg. apply Forall_map. apply Forall_forall; intros x _. apply Rle_0_sqr. }
  destruct (Req_dec a 0) as [Ha0|Ha0].
  - assert (Hb0 : b = 0).
    { destruct (Req_dec b 0) as [|Hb]; [assumption|exfalso].
      specialize (Hq ((c + 1) / (2 * b))). rewrite Ha0 in Hq.
      replace (0 * ((c + 1) / (2 * b))² - 2 * b * ((c + 1) / (2 * b)) + c) with (-1) in Hq by (field; exact Hb). lra. }
    rewrite Hb0, Ha0. unfold Rsqr; lra.
  - specialize (Hq (b / a)). assert (H : 0 <= a * (a * (b / a)² - 2 * b * (b / a) + c)) by (apply Rmult_le_pos; lra).
    replace (a * (a * (b / a)² - 2 * b * (b / a) + c)) with (a * c - b²) in H by (unfold Rsqr; field; exact Ha0). lra.
Qed.

(** [np.clip] *)
Definition clip (x lo hi : R) : R := Rmin (Rmax x lo) hi.
Lemma clip_id x lo hi : lo <= x <= hi -> clip x lo hi = x.
Proof. intros H. unfold clip. rewrite Rmax_left by lra. apply Rmin_left; lra. Qed.
Lemma clip_lo x lo hi : lo <= hi -> x <= lo -> clip x lo hi = lo.
Proof. intros H Hx. unfold clip. rewrite Rmax_right by lra. apply Rmin_left; lra. Qed.
Lemma clip_hi x lo hi : lo <= hi -> hi <= x -> clip x lo hi = hi.
Proof. intros H Hx. unfold clip. rewrite Rmax_left by lra. apply Rmin_right; lra. Qed.
Lemma clip_range x lo hi : lo <= hi -> lo <= clip x lo hi <= hi.
Proof.
  intros H. unfold clip. split; [|apply Rmin_r]. apply Rmin_glb; [apply Rmax_r|exact H].
Qed.
Lemma clip_mono x y lo hi : x <= y -> clip x lo hi <= clip y lo hi.
Proof.
  intros H. unfold clip. apply Rle_min_compat_r. apply Rle_max_compat_r. exact H.
Qed.
