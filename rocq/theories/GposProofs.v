From Coq Require Import Reals Lra.
From Verif Require Import Py RUtil FuncModel GprModel GprSpec GprProofs GposSpec.
Local Open Scope R_scope.

(** *** finite sums *)
Lemma sumn_0 f : sumn 0 f = 0. Proof. reflexivity. Qed.
Lemma sumn_plus n f g : sumn n (fun i => f i + g i) = sumn n f + sumn n g.
Proof. induction n as [|n IH]; [unfold sumn; cbn; lra|]. rewrite !sumn_S, IH. lra. Qed.
Lemma sumn_scal n c f : sumn n (fun i => c * f i) = c * sumn n f.
Proof. induction n as [|n IH]; [unfold sumn; cbn; lra|]. rewrite !sumn_S, IH. lra. Qed.
Lemma sumn_scalr n c f : sumn n (fun i => f i * c) = sumn n f * c.
Proof. induction n as [|n IH]; [unfold sumn; cbn; lra|]. rewrite !sumn_S, IH. lra. Qed.
Lemma sumn_zero n f : (forall i, (i < n)%nat -> f i = 0) -> sumn n f = 0.
Proof. intros H. rewrite (sumn_ext n f (fun _ => 0 * 0)) by (intros i Hi; rewrite (H i Hi); ring). rewrite sumn_scal. ring. Qed.
Lemma sumn_swap n m (f : nat -> nat -> R) : sumn n (fun i => sumn m (fun j => f i j)) = sumn m (fun j => sumn n (fun i => f i j)).
Proof.
  induction n as [|n IH]; [rewrite sumn_0; symmetry; apply sumn_zero; intros; apply sumn_0|]. rewrite sumn_S, IH, <- sumn_plus.
  apply sumn_ext. intros j _. rewrite sumn_S. reflexivity.
Qed.
Lemma sumn_le n f g : (forall i, (i < n)%nat -> f i <= g i) -> sumn n f <= sumn n g.
Proof. induction n as [|n IH]; intros H; [rewrite !sumn_0; lra|]. rewrite !sumn_S. assert (f n <= g n) by (apply H; lia). assert (sumn n f <= sumn n g) by (apply IH; intros; apply H; lia). lra. Qed.
Lemma sumn_pos n f : (forall i, (i < n)%nat -> 0 <= f i) -> 0 <= sumn n f.
Proof. intros H. rewrite <- (sumn_zero n (fun _ => 0)) by reflexivity. apply sumn_le. exact H. Qed.
Lemma sumn_one n f k : (forall i, (i < n)%nat -> 0 <= f i) -> (k < n)%nat -> f k <= sumn n f.
Proof.
  induction n as [|n IH]; intros H Hk; [lia|]. rewrite sumn_S. destruct (Nat.eq_dec k n) as [->|N].
  - assert (0 <= sumn n f) by (apply sumn_pos; intros; apply H; lia). lra.
  - assert (f k <= sumn n f) by (apply IH; [intros; apply H; lia|lia]). assert (0 <= f n) by (apply H; lia). lra.
Qed.
Lemma sumn_single n f k : (k < n)%nat -> (forall i, (i < n)%nat -> i <> k -> f i = 0) -> sumn n f = f k.
Proof.
  intros Hk H. rewrite <- (sumn_delta n f k Hk). apply sumn_ext. intros i Hi. destruct (Nat.eqb_spec i k) as [->|N]; [ring|]. rewrite (H i Hi N). ring.
Qed.
Lemma sumn_prod n m f g : sumn n f * sumn m g = sumn n (fun i => sumn m (fun j => f i * g j)).
Proof. rewrite <- sumn_scalr. apply sumn_ext. intros i _. rewrite sumn_scal. reflexivity. Qed.
Lemma sumn_cv n (f : nat -> nat -> R) (l : nat -> R) : (forall i, (i < n)%nat -> Un_cv (fun N => f N i) (l i)) -> Un_cv (fun N => sumn n (f N)) (sumn n l).
Proof.
  induction n as [|n IH]; intros H.
  - intros e He. exists 0%nat. intros N _. rewrite !sumn_0. unfold R_dist. rewrite Rminus_0_r, Rabs_R0. exact He.
  - assert (A := CV_plus _ _ _ _ (IH (fun i Hi => H i (Nat.lt_lt_succ_r _ _ Hi))) (H n (Nat.lt_succ_diag_r n))).
    intros e He. destruct (A e He) as (N0 & HN). exists N0. intros N HN'. rewrite !sumn_S. apply HN, HN'.
Qed.
Lemma cv_const c : Un_cv (fun _ => c) c.
Proof. intros e He. exists 0%nat. intros. unfold R_dist. rewrite Rminus_diag_eq by reflexivity. rewrite Rabs_R0. exact He. Qed.
Lemma cv_ext u v l : (forall n, u n = v n) -> Un_cv u l -> Un_cv v l.
Proof. intros E H e He. destruct (H e He) as (N & HN). exists N. intros n Hn. rewrite <- E. apply HN, Hn. Qed.
(** a limit of a sequence that is eventually at least c *)
Lemma cv_ge u l c N0 : (forall n, (N0 <= n)%nat -> c <= u n) -> Un_cv u l -> c <= l.
Proof.
  intros H Hc. apply Rnot_lt_le. intros L. destruct (Hc (c - l) ltac:(lra)) as (N & HN). specialize (HN (Nat.max N N0) (Nat.le_max_l _ _)).
  specialize (H (Nat.max N N0) (Nat.le_max_r _ _)). unfold R_dist in HN. apply Rabs_def2 in HN. lra.
Qed.

(** *** power series *)
Lemma exp_series z : Un_cv (fun N => sumn N (fun k => / INR (fact k) * z ^ k)) (exp z).
Proof.
  unfold exp. destruct (exist_exp z) as (l & Hl). cbn [proj1_sig]. unfold exp_in, infinite_sum in Hl.
  assert (E : forall n, sum_f_R0 (fun i => / INR (fact i) * z ^ i) n = sumn (S n) (fun k => / INR (fact k) * z ^ k)).
  { induction n as [|n IH]; [rewrite sumn_S, sumn_0; cbn [sum_f_R0]; ring|]. cbn [sum_f_R0]. rewrite IH, sumn_S with (n := S n). reflexivity. }
  intros e He. destruct (Hl e He) as (N & HN). exists (S N). intros n Hn. destruct n as [|n]; [lia|]. rewrite <- E. apply HN. lia.
Qed.
Lemma pow_cv0 z : Rabs z < 1 -> Un_cv (fun n => z ^ n) 0.
Proof. intros H e He. destruct (pow_lt_1_zero z H e He) as (N & HN). exists N. intros n Hn. unfold R_dist. rewrite Rminus_0_r. apply HN, Hn. Qed.
Lemma bernoulli h n : 0 <= h -> 1 + INR n * h <= (1 + h) ^ n.
Proof.
  intros H. induction n as [|n IH]; [cbn; lra|]. rewrite S_INR. cbn [pow]. assert (0 <= INR n) by apply pos_INR. assert (0 <= INR n * h) by (apply Rmult_le_pos; assumption).
  assert (0 <= INR n * h * h) by (apply Rmult_le_pos; assumption). apply Rle_trans with ((1 + h) * (1 + INR n * h)); [lra|]. apply Rmult_le_compat_l; lra.
Qed.
Lemma npow_cv0 z : Rabs z < 1 -> Un_cv (fun n => INR n * z ^ n) 0.
Proof.
  intros H. destruct (Req_EM_T z 0) as [->|Nz].
  { intros e He. exists 1%nat. intros n Hn. unfold R_dist. rewrite pow_i by lia. rewrite Rmult_0_r, Rminus_0_r, Rabs_R0. exact He. }
  assert (Ha : 0 < Rabs z) by (apply Rabs_pos_lt; exact Nz). set (r := sqrt (Rabs z)).
  assert (Hr : r * r = Rabs z) by (apply sqrt_def; lra). assert (Hr0 : 0 < r) by (apply sqrt_lt_R0; exact Ha).
  assert (Hr1 : r < 1). { apply Rnot_le_lt. intros L. assert (1 * 1 <= r * r) by (apply Rmult_le_compat; lra). lra. }
  set (h := / r - 1). assert (Hh : 0 < h). { unfold h. assert (1 < / r) by (rewrite <- Rinv_1; apply Rinv_lt_contravar; lra). lra. }
  assert (B : forall n, INR n * r ^ n <= / h).
  { intros n. assert (P : 0 < r ^ n) by (apply pow_lt; exact Hr0). assert (Q := bernoulli h n (Rlt_le _ _ Hh)). assert (E : (1 + h) ^ n = / r ^ n) by (unfold h; replace (1 + (/ r - 1)) with (/ r) by ring; apply pow_inv).
    rewrite E in Q. apply Rmult_le_reg_r with h; [exact Hh|]. rewrite Rinv_l by lra.
    assert (INR n * h <= / r ^ n) by lra. apply Rle_trans with (/ r ^ n * r ^ n); [|rewrite Rinv_l by lra; lra].
    replace (INR n * r ^ n * h) with (INR n * h * r ^ n) by ring. apply Rmult_le_compat_r; lra. }
  assert (C := pow_cv0 r). rewrite Rabs_pos_eq in C by lra. specialize (C Hr1).
  intros e He. destruct (C (e * h)) as (N & HN); [apply Rmult_lt_0_compat; assumption|]. exists N. intros n Hn. specialize (HN n Hn). unfold R_dist in *. rewrite Rminus_0_r in *.
  assert (P : 0 < r ^ n) by (apply pow_lt; exact Hr0). rewrite Rabs_pos_eq in HN by lra. rewrite Rabs_mult, (Rabs_pos_eq (INR n)) by apply pos_INR. rewrite <- RPow_abs, <- Hr, Rpow_mult_distr.
  apply Rle_lt_trans with (/ h * r ^ n).
  - rewrite <- Rmult_assoc. apply Rmult_le_compat_r; [lra|apply B].
  - apply Rmult_lt_reg_l with h; [exact Hh|]. rewrite <- Rmult_assoc, Rinv_r by lra. lra.
Qed.
Lemma square_series z : Rabs z < 1 -> Un_cv (fun N => sumn N (fun k => INR (S k) * z ^ k)) (/ (1 - z) ^ 2).
Proof.
  intros H. assert (Hz : 1 - z <> 0) by (apply Rabs_def2 in H; lra).
  assert (E : forall N, (1 - (INR N + 1) * z ^ N + INR N * z ^ N * z) * / (1 - z) ^ 2 = sumn N (fun k => INR (S k) * z ^ k)).
  { induction N as [|N IH]; [rewrite sumn_0; cbn; field; exact Hz|]. rewrite sumn_S, <- IH, S_INR. cbn [pow]. field. exact Hz. }
  apply (cv_ext _ _ _ E).
  assert (A := npow_cv0 z H). assert (B := pow_cv0 z H).
  assert (C1 := CV_plus _ _ _ _ A B). assert (C2 := CV_mult _ _ _ _ A (cv_const z)).
  assert (C3 := CV_plus _ _ _ _ (CV_minus _ _ _ _ (cv_const 1) C1) C2). assert (C4 := CV_mult _ _ _ _ C3 (cv_const (/ (1 - z) ^ 2))).
  replace ((1 - (0 + 0) + 0 * z) * / (1 - z) ^ 2) with (/ (1 - z) ^ 2) in C4 by ring.
  apply (cv_ext _ _ _ (fun n => eq_refl)). intros e He. destruct (C4 e He) as (N & HN). exists N. intros n Hn. specialize (HN n Hn).
  replace ((1 - (INR n + 1) * z ^ n + INR n * z ^ n * z)) with (1 - (INR n * z ^ n + z ^ n) + INR n * z ^ n * z) by ring. exact HN.
Qed.

(** *** mixed moments determine the weights of distinct points of the plane *)
Definition moment (n : nat) (a b u : nat -> R) (k l : nat) : R := sumn n (fun i => u i * (a i ^ k * b i ^ l)).
Lemma moments_zero n a b u : (forall k l, moment n a b u k l = 0) ->
  (forall i j, (i < n)%nat -> (j < n)%nat -> i <> j -> a i <> a j \/ b i <> b j) -> forall m, (m < n)%nat -> u m = 0.
Proof.
  intros H D m Hm.
  set (phi := fun i j => if Req_EM_T (a i) (a m) then b j - b i else a j - a i).
  assert (G : forall L, (forall i, In i L -> (i < n)%nat /\ i <> m) -> exists v, (forall k l, moment n a b v k l = 0) /\ (forall j, u j = 0 -> v j = 0) /\ (forall j, In j L -> v j = 0) /\ (v m = 0 -> u m = 0)).
  { induction L as [|i L IH]; intros HL; [exists u; repeat split; auto; intros j []|].
    destruct IH as (v & V1 & V2 & V3 & V4); [intros; apply HL; right; assumption|]. destruct (HL i (or_introl eq_refl)) as (Hi & Nim).
    exists (fun j => v j * phi i j). split; [|split; [|split]].
    - intros k l. unfold moment, phi. destruct (Req_EM_T (a i) (a m)) as [E|E].
      + rewrite (sumn_ext n _ (fun j => v j * (a j ^ k * b j ^ S l) - b i * (v j * (a j ^ k * b j ^ l)))) by (intros j _; cbn [pow]; ring).
        rewrite sumn_minus, sumn_scal. assert (X := V1 k (S l)). assert (Y := V1 k l). unfold moment in X, Y. rewrite X, Y. ring.
      + rewrite (sumn_ext n _ (fun j => v j * (a j ^ S k * b j ^ l) - a i * (v j * (a j ^ k * b j ^ l)))) by (intros j _; cbn [pow]; ring).
        rewrite sumn_minus, sumn_scal. assert (X := V1 (S k) l). assert (Y := V1 k l). unfold moment in X, Y. rewrite X, Y. ring.
    - intros j Hj. rewrite (V2 j Hj). ring.
    - intros j [<-|Hj]; [unfold phi; destruct (Req_EM_T (a i) (a m)); ring|]. rewrite (V3 j Hj). ring.
    - intros E. apply Rmult_integral in E. destruct E as [E|E]; [apply V4, E|]. exfalso. unfold phi in E. destruct (D i m Hi Hm Nim) as [Q|Q]; destruct (Req_EM_T (a i) (a m)) as [Ea|Ea]; try contradiction; try (apply Q; lra); apply Ea; lra. }
  destruct (G (filter (fun i => negb (i =? m)%nat) (seq 0 n))) as (v & V1 & _ & V3 & V4).
  { intros i Hi. apply filter_In in Hi. destruct Hi as (Hi & E). apply in_seq in Hi. split; [lia|]. intros ->. rewrite Nat.eqb_refl in E. discriminate. }
  apply V4. assert (X := V1 0%nat 0%nat). unfold moment in X. rewrite (sumn_single n _ m Hm) in X; [cbn [pow] in X; lra|].
  intros i Hi N. rewrite V3; [ring|]. apply filter_In. split; [apply in_seq; lia|]. destruct (Nat.eqb_spec i m); [contradiction|reflexivity].
Qed.

(** *** a matrix given by power series with positive coefficients *)
Lemma series_form n (a b u : nat -> R) (f g : R -> R) (c e : nat -> R) :
  (forall k, 0 < c k) -> (forall k, 0 < e k) ->
  (forall i j, (i < n)%nat -> (j < n)%nat -> Un_cv (fun N => sumn N (fun k => c k * (a i * a j) ^ k)) (f (a i * a j))) ->
  (forall i j, (i < n)%nat -> (j < n)%nat -> Un_cv (fun N => sumn N (fun k => e k * (b i * b j) ^ k)) (g (b i * b j))) ->
  forall k l, c k * (e l * (moment n a b u k l * moment n a b u k l)) <= sumn n (fun i => sumn n (fun j => u i * (f (a i * a j) * g (b i * b j)) * u j)).
Proof.
  intros Hc He Cf Cg k0 l0.
  set (q := fun N => sumn n (fun i => sumn n (fun j => u i * (sumn N (fun k => c k * (a i * a j) ^ k) * sumn N (fun l => e l * (b i * b j) ^ l)) * u j))).
  assert (E : forall N, q N = sumn N (fun k => sumn N (fun l => c k * (e l * (moment n a b u k l * moment n a b u k l))))).
  { intros N. unfold q.
    rewrite (sumn_ext n _ (fun i => sumn N (fun k => sumn N (fun l => sumn n (fun j => c k * (e l * (u i * (a i ^ k * b i ^ l) * (u j * (a j ^ k * b j ^ l))))))))).
    - rewrite sumn_swap. apply sumn_ext. intros k _. rewrite sumn_swap. apply sumn_ext. intros l _. unfold moment. rewrite sumn_prod, <- !sumn_scal. apply sumn_ext. intros i _.
      rewrite <- !sumn_scal. reflexivity.
    - intros i _. rewrite (sumn_ext n _ (fun j => sumn N (fun k => sumn N (fun l => c k * (e l * (u i * (a i ^ k * b i ^ l) * (u j * (a j ^ k * b j ^ l)))))))).
      + rewrite sumn_swap. apply sumn_ext. intros k _. rewrite sumn_swap. reflexivity.
      + intros j _. rewrite sumn_prod, <- sumn_scal, <- sumn_scalr. apply sumn_ext. intros k _. rewrite <- sumn_scal, <- sumn_scalr. apply sumn_ext. intros l _. rewrite !Rpow_mult_distr. ring. }
  assert (P : forall k l, 0 <= c k * (e l * (moment n a b u k l * moment n a b u k l))).
  { intros k l. apply Rmult_le_pos; [apply Rlt_le, Hc|]. apply Rmult_le_pos; [apply Rlt_le, He|]. apply Rle_0_sqr. }
  apply (cv_ge q _ _ (S (Nat.max k0 l0))).
  - intros N HN. rewrite E. apply Rle_trans with (sumn N (fun l => c k0 * (e l * (moment n a b u k0 l * moment n a b u k0 l)))).
    + apply (sumn_one N (fun l => c k0 * (e l * (moment n a b u k0 l * moment n a b u k0 l)))); [intros; apply P|lia].
    + apply (sumn_one N (fun k => sumn N (fun l => c k * (e l * (moment n a b u k l * moment n a b u k l))))); [intros; apply sumn_pos; intros; apply P|lia].
  - unfold q. apply (sumn_cv n (fun N i => sumn n (fun j => u i * (sumn N (fun k => c k * (a i * a j) ^ k) * sumn N (fun l => e l * (b i * b j) ^ l)) * u j))). intros i Hi.
    apply (sumn_cv n (fun N j => u i * (sumn N (fun k => c k * (a i * a j) ^ k) * sumn N (fun l => e l * (b i * b j) ^ l)) * u j)). intros j Hj.
    apply (CV_mult (fun N => u i * (sumn N (fun k => c k * (a i * a j) ^ k) * sumn N (fun l => e l * (b i * b j) ^ l))) (fun _ => u j)); [|apply cv_const].
    apply (CV_mult (fun _ => u i)); [apply cv_const|]. apply CV_mult; [apply Cf|apply Cg]; assumption.
Qed.
Lemma series_pd n (a b d : nat -> R) (f g : R -> R) (c e : nat -> R) (A : mat) :
  (forall k, 0 < c k) -> (forall k, 0 < e k) -> (forall i, (i < n)%nat -> d i <> 0) ->
  (forall i j, (i < n)%nat -> (j < n)%nat -> Un_cv (fun N => sumn N (fun k => c k * (a i * a j) ^ k)) (f (a i * a j))) ->
  (forall i j, (i < n)%nat -> (j < n)%nat -> Un_cv (fun N => sumn N (fun k => e k * (b i * b j) ^ k)) (g (b i * b j))) ->
  (forall i j, (i < n)%nat -> (j < n)%nat -> i <> j -> a i <> a j \/ b i <> b j) ->
  (forall i j, (i < n)%nat -> (j < n)%nat -> A i j = d i * d j * (f (a i * a j) * g (b i * b j))) ->
  positive_definite n A.
Proof.
  intros Hc He Hd Cf Cg D EA. split.
  - intros i j Hi Hj. rewrite !EA by assumption. rewrite (Rmult_comm (a j)), (Rmult_comm (b j)). ring.
  - intros w (m & Hm & Nw). set (u := fun i => w i * d i).
    assert (EF : form n A w = sumn n (fun i => sumn n (fun j => u i * (f (a i * a j) * g (b i * b j)) * u j))).
    { unfold form. apply sumn_ext. intros i Hi. apply sumn_ext. intros j Hj. rewrite EA by assumption. unfold u. ring. }
    rewrite EF. apply Rnot_le_lt. intros L.
    assert (Z : forall k l, moment n a b u k l = 0).
    { intros k l. assert (Q := series_form n a b u f g c e Hc He Cf Cg k l). assert (Q' : c k * (e l * (moment n a b u k l * moment n a b u k l)) <= 0) by lra.
      destruct (Req_EM_T (moment n a b u k l) 0) as [E|E]; [exact E|]. exfalso. assert (0 < moment n a b u k l * moment n a b u k l) by (apply Rsqr_pos_lt; exact E).
      assert (0 < c k * (e l * (moment n a b u k l * moment n a b u k l))); [|lra]. apply Rmult_lt_0_compat; [apply Hc|]. apply Rmult_lt_0_compat; [apply He|assumption]. }
    assert (U := moments_zero n a b u Z D m Hm). unfold u in U. apply Rmult_integral in U. destruct U as [U|U]; [contradiction|]. apply (Hd m Hm U).
Qed.

(** *** the built-in kernels *)
Lemma factor_gauss u v s : s <> 0 -> gaussian u v s = exp (- (1 / 2) * (u / s) ^ 2) * exp (- (1 / 2) * (v / s) ^ 2) * exp (u / s * (v / s)).
Proof. intros H. unfold gaussian. rewrite <- !exp_plus. f_equal. field. exact H. Qed.
Definition tanhalf (x s : R) : R := (exp (x / s) - 1) / (exp (x / s) + 1).
Lemma tanhalf_range x s : Rabs (tanhalf x s) < 1.
Proof.
  unfold tanhalf. assert (P := exp_pos (x / s)). set (p := exp (x / s)) in *. apply Rabs_def1.
  - apply Rmult_lt_reg_r with (p + 1); [lra|]. unfold Rdiv. rewrite Rmult_assoc, Rinv_l by lra. lra.
  - apply Rmult_lt_reg_r with (p + 1); [lra|]. unfold Rdiv. rewrite Rmult_assoc, Rinv_l by lra. lra.
Qed.
Lemma tanhalf_inj x y s : s <> 0 -> tanhalf x s = tanhalf y s -> x = y.
Proof.
  intros Hs. unfold tanhalf. assert (P := exp_pos (x / s)). assert (Q := exp_pos (y / s)). intros E.
  assert (E' : exp (x / s) = exp (y / s)).
  { set (p := exp (x / s)) in *. set (q := exp (y / s)) in *. assert (X : (p - 1) * (q + 1) = (q - 1) * (p + 1)).
    { replace ((p - 1) * (q + 1)) with ((p - 1) / (p + 1) * (p + 1) * (q + 1)) by (field; lra). rewrite E. field. lra. } lra. }
  apply exp_inv in E'. replace x with (x / s * s) by (field; exact Hs). rewrite E'. field. exact Hs.
Qed.
Lemma factor_window u v s : s <> 0 ->
  fermi_window u v s = (1 - tanhalf u s ^ 2) * (1 - tanhalf v s ^ 2) * / (1 - tanhalf u s * tanhalf v s) ^ 2.
Proof.
  intros H. unfold fermi_window, tanhalf. replace ((u - v) / s) with (u / s + - (v / s)) by (field; exact H). rewrite exp_plus, exp_Ropp.
  assert (P := exp_pos (u / s)). assert (Q := exp_pos (v / s)). set (p := exp (u / s)) in *. set (q := exp (v / s)) in *.
  assert (N : 1 - (p - 1) / (p + 1) * ((q - 1) / (q + 1)) = 2 * (p + q) / ((p + 1) * (q + 1))) by (field; lra).
  rewrite N. field. repeat split; try lra.
Qed.
Lemma window_weight u s : 1 - tanhalf u s ^ 2 <> 0.
Proof. assert (H := tanhalf_range u s). apply Rabs_def2 in H. intros E. assert ((1 - tanhalf u s) * (1 + tanhalf u s) = 0) by (rewrite <- E; ring). apply Rmult_integral in H0. destruct H0; lra. Qed.
Lemma abs_prod a b : Rabs a < 1 -> Rabs b < 1 -> Rabs (a * b) < 1.
Proof. intros Ha Hb. rewrite Rabs_mult. assert (0 <= Rabs a) by apply Rabs_pos. assert (0 <= Rabs b) by apply Rabs_pos. apply Rle_lt_trans with (Rabs a * 1); [apply Rmult_le_compat_l; lra|lra]. Qed.

Section Plane.
Variables (n : nat) (x y : nat -> R) (sx sy : R).
Hypothesis Hsx : sx <> 0.
Hypothesis Hsy : sy <> 0.
Hypothesis D : forall i j, (i < n)%nat -> (j < n)%nat -> i <> j -> x i <> x j \/ y i <> y j.
Lemma gauss_pd : positive_definite n (fun i j => gaussian (x j) (x i) sx * gaussian (y j) (y i) sy).
Proof.
  apply (series_pd n (fun i => x i / sx) (fun i => y i / sy) (fun i => exp (- (1 / 2) * (x i / sx) ^ 2) * exp (- (1 / 2) * (y i / sy) ^ 2)) exp exp (fun k => / INR (fact k)) (fun k => / INR (fact k))).
  - intros k. apply Rinv_0_lt_compat, INR_fact_lt_0.
  - intros k. apply Rinv_0_lt_compat, INR_fact_lt_0.
  - intros i _. apply Rgt_not_eq, Rmult_lt_0_compat; apply exp_pos.
  - intros i j _ _. apply exp_series.
  - intros i j _ _. apply exp_series.
  - intros i j Hi Hj N. destruct (D i j Hi Hj N) as [Q|Q]; [left|right]; intros E; apply Q.
    + replace (x i) with (x i / sx * sx) by (field; exact Hsx). rewrite E. field. exact Hsx.
    + replace (y i) with (y i / sy * sy) by (field; exact Hsy). rewrite E. field. exact Hsy.
  - intros i j _ _. rewrite !factor_gauss by assumption. rewrite (Rmult_comm (x j / sx)), (Rmult_comm (y j / sy)). ring.
Qed.
Lemma window_pd : positive_definite n (fun i j => fermi_window (x j) (x i) sx * fermi_window (y j) (y i) sy).
Proof.
  apply (series_pd n (fun i => tanhalf (x i) sx) (fun i => tanhalf (y i) sy) (fun i => (1 - tanhalf (x i) sx ^ 2) * (1 - tanhalf (y i) sy ^ 2)) (fun z => / (1 - z) ^ 2) (fun z => / (1 - z) ^ 2) (fun k => INR (S k)) (fun k => INR (S k))).
  - intros k. apply lt_0_INR. lia.
  - intros k. apply lt_0_INR. lia.
  - intros i _ E. apply Rmult_integral in E. destruct E as [E|E]; revert E; apply window_weight.
  - intros i j _ _. apply square_series, abs_prod; apply tanhalf_range.
  - intros i j _ _. apply square_series, abs_prod; apply tanhalf_range.
  - intros i j Hi Hj N. destruct (D i j Hi Hj N) as [Q|Q]; [left|right]; intros E; apply Q; [apply (tanhalf_inj _ _ sx Hsx E)|apply (tanhalf_inj _ _ sy Hsy E)].
  - intros i j _ _. rewrite !factor_window by assumption. rewrite (Rmult_comm (tanhalf (x j) sx)), (Rmult_comm (tanhalf (y j) sy)). ring.
Qed.
End Plane.

(** *** consequences of positive definiteness *)
Lemma pd_ext n A B : mat_eq n n A B -> positive_definite n A -> positive_definite n B.
Proof.
  intros E (S & P). split; [intros i j Hi Hj; rewrite <- !E by assumption; apply S; assumption|]. intros w Hw. specialize (P w Hw). unfold form in *.
  erewrite sumn_ext; [exact P|]. intros i Hi. apply sumn_ext. intros j Hj. rewrite E by assumption. reflexivity.
Qed.
Lemma pd_regular n A : positive_definite n A -> regular_mat n A.
Proof.
  intros (_ & P) w Hw j Hj. destruct (Req_EM_T (w j) 0) as [E|E]; [exact E|]. exfalso. specialize (P w (ex_intro _ j (conj Hj E))). unfold form in P.
  rewrite sumn_zero in P; [lra|]. intros i Hi. rewrite (sumn_ext n _ (fun k => w i * (A i k * w k))) by (intros; ring). rewrite sumn_scal, (Hw i Hi). ring.
Qed.
Lemma form_plus n A B w : form n (fun i j => A i j + B i j) w = form n A w + form n B w.
Proof. unfold form. rewrite <- sumn_plus. apply sumn_ext. intros i _. rewrite <- sumn_plus. apply sumn_ext. intros j _. ring. Qed.
Lemma pd_plus n A B : positive_definite n A -> symmetric n B -> (forall w, 0 <= form n B w) -> positive_definite n (fun i j => A i j + B i j).
Proof. intros (S & P) SB PB. split; [intros i j Hi Hj; rewrite S, SB by assumption; reflexivity|]. intros w Hw. rewrite form_plus. specialize (P w Hw). specialize (PB w). lra. Qed.
Lemma form_diag n f w : form n (fun i j => if (i =? j)%nat then f i else 0) w = sumn n (fun i => f i * (w i * w i)).
Proof.
  unfold form. apply sumn_ext. intros i Hi. rewrite (sumn_single n _ i Hi); [rewrite Nat.eqb_refl; ring|]. intros j _ N. destruct (Nat.eqb_spec i j); [congruence|ring].
Qed.
Lemma diag_sym n f : symmetric n (fun i j => if (i =? j)%nat then f i else 0).
Proof. intros i j _ _. destruct (Nat.eqb_spec i j) as [->|N]; [rewrite Nat.eqb_refl; reflexivity|]. destruct (Nat.eqb_spec j i); [congruence|reflexivity]. Qed.
Lemma form_const n r w : form n (fun _ _ => r) w = r * (sumn n w * sumn n w).
Proof.
  unfold form. rewrite sumn_prod, <- sumn_scal. apply sumn_ext. intros i _. rewrite <- sumn_scal. apply sumn_ext. intros j _. ring.
Qed.
(** the prediction as a combination of kernels *)
Lemma dual n (A : mat) c (B W : mat) (y g : nat -> R) p : symmetric n A -> solves n A c B W -> (p < c)%nat ->
  (forall i, (i < n)%nat -> sumn n (fun j => A i j * g j) = y i) ->
  sumn n (fun i => y i * W i p) = sumn n (fun i => g i * B i p).
Proof.
  intros S H Hp Hg. rewrite (sumn_ext n _ (fun i => sumn n (fun j => A i j * g j * W i p))).
  - rewrite sumn_swap. apply sumn_ext. intros j Hj. rewrite <- (H j p Hj Hp), <- sumn_scal. apply sumn_ext. intros i Hi. rewrite (S i j) by assumption. ring.
  - intros i Hi. rewrite <- (Hg i Hi), <- sumn_scalr. reflexivity.
Qed.
Lemma series_psd n (a b d : nat -> R) (f g : R -> R) (c e : nat -> R) (A : mat) w :
  (forall k, 0 < c k) -> (forall k, 0 < e k) ->
  (forall i j, (i < n)%nat -> (j < n)%nat -> Un_cv (fun N => sumn N (fun k => c k * (a i * a j) ^ k)) (f (a i * a j))) ->
  (forall i j, (i < n)%nat -> (j < n)%nat -> Un_cv (fun N => sumn N (fun k => e k * (b i * b j) ^ k)) (g (b i * b j))) ->
  (forall i j, (i < n)%nat -> (j < n)%nat -> A i j = d i * d j * (f (a i * a j) * g (b i * b j))) -> 0 <= form n A w.
Proof.
  intros Hc He Cf Cg EA. assert (Q := series_form n a b (fun i => w i * d i) f g c e Hc He Cf Cg 0 0). assert (P : 0 <= c 0%nat * (e 0%nat * (moment n a b (fun i => w i * d i) 0 0 * moment n a b (fun i => w i * d i) 0 0))) by (apply Rmult_le_pos; [apply Rlt_le, Hc|]; apply Rmult_le_pos; [apply Rlt_le, He|apply Rle_0_sqr]).
  apply Rle_trans with (1 := P). apply Rle_trans with (1 := Q). apply Req_le. unfold form. apply sumn_ext. intros i Hi. apply sumn_ext. intros j Hj. rewrite EA by assumption. ring.
Qed.
Lemma gauss_psd n (x : nat -> R) s w : s <> 0 -> 0 <= form n (fun i j => gaussian (x j) (x i) s) w.
Proof.
  intros Hs. apply (series_psd n (fun i => x i / s) (fun _ => 0) (fun i => exp (- (1 / 2) * (x i / s) ^ 2)) exp exp (fun k => / INR (fact k)) (fun k => / INR (fact k))).
  - intros k. apply Rinv_0_lt_compat, INR_fact_lt_0.
  - intros k. apply Rinv_0_lt_compat, INR_fact_lt_0.
  - intros i j _ _. apply exp_series.
  - intros i j _ _. apply exp_series.
  - intros i j _ _. rewrite factor_gauss by assumption. rewrite Rmult_0_l, exp_0, (Rmult_comm (x j / s)). ring.
Qed.
Lemma window_psd n (x : nat -> R) s w : s <> 0 -> 0 <= form n (fun i j => fermi_window (x j) (x i) s) w.
Proof.
  intros Hs. apply (series_psd n (fun i => tanhalf (x i) s) (fun _ => 0) (fun i => 1 - tanhalf (x i) s ^ 2) (fun z => / (1 - z) ^ 2) exp (fun k => INR (S k)) (fun k => / INR (fact k))).
  - intros k. apply lt_0_INR. lia.
  - intros k. apply Rinv_0_lt_compat, INR_fact_lt_0.
  - intros i j _ _. apply square_series, abs_prod; apply tanhalf_range.
  - intros i j _ _. apply exp_series.
  - intros i j _ _. rewrite factor_window by assumption. rewrite Rmult_0_l, exp_0, (Rmult_comm (tanhalf (x j) s)). ring.
Qed.
Lemma gauss_self u s : s <> 0 -> gaussian u u s = 1.
Proof. intros H. unfold gaussian. replace (- (1 / 2) * ((u - u) / s) ^ 2) with 0 by (field; exact H). apply exp_0. Qed.
Lemma window_self u s : s <> 0 -> fermi_window u u s = 1.
Proof. intros H. unfold fermi_window. replace ((u - u) / s) with 0 by (field; exact H). rewrite exp_0. field. Qed.

(** *** a solver as promised exists: elimination from the last unknown *)
Fixpoint eliminate (n : nat) (A : mat) (c : nat) (B : mat) : res mat :=
  match n with
  | O => Ok (fun _ _ => 0)
  | S m =>
      let p := A m m in
      if Req_EM_T p 0 then Err ValueError else
      match eliminate m (fun i j => A i j - A i m * A m j / p) c (fun i q => B i q - A i m * B m q / p) with
      | Err e => Err e
      | Ok W => Ok (fun i q => if (i <? m)%nat then W i q else (B m q - sumn m (fun j => A m j * W j q)) / p)
      end
  end.
Lemma eliminate_exact : exact_solver eliminate.
Proof.
  intros n. induction n as [|m IH]; intros A c B W H i q Hi Hq; [lia|]. cbn [eliminate] in H. destruct (Req_EM_T (A m m) 0) as [E|Np]; [discriminate|].
  destruct (eliminate m _ c _) as [V|] eqn:EV; [|discriminate]. injection H as <-. assert (HV := IH _ _ _ _ EV).
  rewrite sumn_S, Nat.ltb_irrefl. rewrite (sumn_ext m _ (fun j => A i j * V j q)) by (intros j Hj; destruct (Nat.ltb_spec j m); [reflexivity|lia]).
  destruct (Nat.eq_dec i m) as [->|N]; [field; exact Np|]. assert (Hm : (i < m)%nat) by lia. specialize (HV i q Hm Hq). cbv beta in HV.
  rewrite (sumn_ext m _ (fun j => A i j * V j q - A i m / A m m * (A m j * V j q))) in HV by (intros; field; exact Np). rewrite sumn_minus, sumn_scal in HV.
  assert (HV' : sumn m (fun j => A i j * V j q) = B i q - A i m * B m q / A m m + A i m / A m m * sumn m (fun j => A m j * V j q)) by lra. rewrite HV'. field. exact Np.
Qed.
Lemma eliminate_pd : forall n A c B, positive_definite n A -> exists W, eliminate n A c B = Ok W.
Proof.
  induction n as [|m IH]; intros A c B (Sy & P); [eexists; reflexivity|]. cbn [eliminate].
  assert (Hp : 0 < A m m).
  { specialize (P (fun i => if (i =? m)%nat then 1 else 0)). unfold form in P. rewrite (sumn_single (S m) _ m) in P; [|lia|].
    - rewrite (sumn_single (S m) _ m) in P; [|lia|]; [rewrite Nat.eqb_refl in P; assert (Q := P ltac:(exists m; split; [lia|rewrite Nat.eqb_refl; lra])); lra|].
      intros j _ N. destruct (Nat.eqb_spec j m); [contradiction|ring].
    - intros i _ N. apply sumn_zero. intros j _. destruct (Nat.eqb_spec i m); [contradiction|ring]. }
  destruct (Req_EM_T (A m m) 0) as [E|Np]; [lra|]. set (p := A m m) in *.
  destruct (IH (fun i j => A i j - A i m * A m j / p) c (fun i q => B i q - A i m * B m q / p)) as (W & EW); [|rewrite EW; eexists; reflexivity]. split.
  - intros i j Hi Hj. cbv beta. rewrite (Sy i j), (Sy i m), (Sy m j) by lia. unfold Rdiv. ring.
  - intros w (i0 & Hi0 & N0). set (g := sumn m (fun j => A m j * w j)). set (v := fun i => if (i <? m)%nat then w i else - g / p).
    assert (Q : 0 < form (S m) A v) by (apply P; exists i0; split; [lia|]; unfold v; destruct (Nat.ltb_spec i0 m); [exact N0|lia]).
    assert (Vm : v m = - g / p) by (unfold v; rewrite Nat.ltb_irrefl; reflexivity). assert (Vi : forall i, (i < m)%nat -> v i = w i) by (intros i Hi; unfold v; destruct (Nat.ltb_spec i m); [reflexivity|lia]).
    assert (g' : forall i, (i < m)%nat -> sumn (S m) (fun j => v i * A i j * v j) = sumn m (fun j => w i * A i j * w j) + w i * A i m * (- g / p)).
    { intros i Hi. rewrite sumn_S, Vm, (Vi i Hi). f_equal. apply sumn_ext. intros j Hj. rewrite (Vi j Hj). reflexivity. }
    unfold form in Q. rewrite sumn_S in Q. rewrite (sumn_ext m _ (fun i => sumn m (fun j => w i * A i j * w j) + - g / p * (A m i * w i))) in Q by (intros i Hi; rewrite (g' i Hi), (Sy i m) by lia; ring).
    rewrite sumn_plus, sumn_scal in Q. fold g in Q. rewrite sumn_S, Vm in Q. rewrite (sumn_ext m (fun i => - g / p * A m i * v i) (fun i => - g / p * (A m i * w i))) in Q by (intros i Hi; rewrite (Vi i Hi); ring). rewrite sumn_scal in Q. fold g p in Q.
    assert (E : form m (fun i j => A i j - A i m * A m j / p) w = sumn m (fun i => sumn m (fun j => w i * A i j * w j)) - g * g / p).
    { unfold form. rewrite (sumn_ext m _ (fun i => sumn m (fun j => w i * A i j * w j) - / p * (A m i * w i) * g)).
      - rewrite sumn_minus. f_equal. rewrite sumn_scalr, sumn_scal. fold g. field. exact Np.
      - intros i Hi. unfold g. rewrite <- sumn_scal, <- sumn_minus. apply sumn_ext. intros j _. rewrite (Sy i m) by lia. field. exact Np. }
    rewrite E. clear E. revert Q. generalize (sumn m (fun i => sumn m (fun j => w i * A i j * w j))). intros z Q. match type of Q with 0 < ?e => replace e with (z - g * g / p) in Q by (field; exact Np) end. exact Q.
Qed.
Lemma eliminate_solver : pos_solver eliminate.
Proof. split; [exact eliminate_exact|exact eliminate_pd]. Qed.
