From Verif Require Import Py PyStr RUtil MonoModel MetricModel.
Local Open Scope R_scope.

Notation idx y := (seq 0 (length y)).
Notation "l .[ i ]" := (nth i l 0) (at level 2, format "l .[ i ]").

Lemma zip_idx f y2 y : length y2 = length y -> zip_with f y2 y = map (fun i => f y2.[i] y.[i]) (idx y).
Proof.
  unfold zip_with. revert y; induction y2 as [|b y2 IH]; intros [|a y] H; cbn in *; try lia; [reflexivity|].
  f_equal. rewrite IH by lia. rewrite <- seq_shift, map_map. reflexivity.
Qed.

Lemma mean_idx f (y : list R) : mean (map f (idx y)) = sumR (map f (idx y)) / INR (length y).
Proof. unfold mean. rewrite map_length, seq_length. reflexivity. Qed.

Lemma MSE_idx y y2 : length y2 = length y -> MSE y y2 = sumR (map (fun i => (y2.[i] - y.[i])²) (idx y)) / INR (length y).
Proof. intros H. unfold MSE. rewrite zip_idx, map_map by exact H. apply mean_idx. Qed.
Lemma RMSE_idx y y2 : length y2 = length y -> RMSE y y2 = sqrt (sumR (map (fun i => (y2.[i] - y.[i])²) (idx y)) / INR (length y)).
Proof. intros H. unfold RMSE. rewrite zip_idx, map_map by exact H. f_equal. apply mean_idx. Qed.
Lemma MAE_idx y y2 : length y2 = length y -> MAE y y2 = sumR (map (fun i => Rabs (y2.[i] - y.[i])) (idx y)) / INR (length y).
Proof. intros H. unfold MAE. rewrite zip_idx, map_map by exact H. apply mean_idx. Qed.
Lemma MAPE_idx y y2 : length y2 = length y -> MAPE y y2 = sumR (map (fun i => Rabs (y2.[i] / y.[i] - 1)) (idx y)) / INR (length y).
Proof. intros H. unfold MAPE. rewrite zip_idx, map_map by exact H. apply mean_idx. Qed.
Lemma SMAPE_idx y y2 : length y2 = length y ->
  SMAPE y y2 = 2 * (sumR (map (fun i => Rabs (y2.[i] - y.[i]) / (Rabs y2.[i] + Rabs y.[i])) (idx y)) / INR (length y)).
Proof. intros H. unfold SMAPE. rewrite zip_idx by exact H. f_equal. apply mean_idx. Qed.

Section Laws.
Variables (y y2 : list R).
Hypothesis Hl : length y2 = length y.
Hypothesis Hne : y <> [].

Lemma n_pos : 0 < INR (length y).
Proof. apply lt_0_INR. destruct y; [congruence|cbn; lia]. Qed.

Lemma sq_nonneg (f : nat -> R) l : 0 <= sumR (map (fun i => (f i)²) l).
Proof. apply sumR_nonneg, Forall_map, Forall_forall. intros i _; apply Rle_0_sqr. Qed.

Lemma MSE_nonneg : 0 <= MSE y y2.
Proof. rewrite MSE_idx by exact Hl. apply Rmult_le_pos; [apply (sq_nonneg (fun i => y2.[i] - y.[i]))|left; apply Rinv_0_lt_compat, n_pos]. Qed.

Lemma MSE_zero : MSE y y2 = 0 <-> y = y2.
Proof.
  rewrite MSE_idx by exact Hl. pose proof n_pos as Hn. split.
  - intros E. assert (S0 : sumR (map (fun i => (y2.[i] - y.[i])²) (idx y)) = 0).
    { apply Rmult_eq_reg_r with (/ INR (length y)); [|apply Rinv_neq_0_compat; lra]. unfold Rdiv in E. lra. }
    apply sumR_zero in S0; [|apply Forall_map, Forall_forall; intros i _; apply Rle_0_sqr].
    rewrite Forall_map, Forall_forall in S0.
    apply (nth_ext y y2 0 0 (eq_sym Hl)). intros i Hi. assert (Hin : In i (idx y)) by (apply in_seq; lia).
    specialize (S0 i Hin). apply Rsqr_0_uniq in S0. lra.
  - intros <-. replace (sumR _) with 0; [lra|]. symmetry. clear. induction (idx y) as [|i l IH]; cbn; [reflexivity|].
    rewrite IH. unfold Rsqr. lra.
Qed.

Lemma MSE_sym : MSE y y2 = MSE y2 y.
Proof. rewrite !MSE_idx by congruence. rewrite Hl. f_equal. apply sumR_ext. intros; unfold Rsqr; ring. Qed.
Lemma MAE_sym : MAE y y2 = MAE y2 y.
Proof. rewrite !MAE_idx by congruence. rewrite Hl. f_equal. apply sumR_ext. intros; apply Rabs_minus_sym. Qed.

Lemma RMSE_sqrt : RMSE y y2 = sqrt (MSE y y2).
Proof. reflexivity. Qed.

Lemma MAE_le_RMSE : MAE y y2 <= RMSE y y2.
Proof.
  rewrite MAE_idx, RMSE_idx by exact Hl. pose proof n_pos as Hn. set (n := INR (length y)) in *.
  set (d := fun i => y2.[i] - y.[i]).
  pose proof (cauchy_schwarz (fun i => Rabs (d i)) (fun _ => 1) (idx y)) as CS. cbv beta in CS.
  rewrite (sumR_ext (fun i => Rabs (d i) * 1) (fun i => Rabs (d i))) in CS by (intros; ring).
  rewrite (sumR_ext (fun i => (Rabs (d i))²) (fun i => (d i)²)) in CS by (intros; symmetry; apply Rsqr_abs).
  rewrite (sumR_const (1²) (idx y)), seq_length in CS. fold n in CS.
  set (a := sumR (map (fun i => Rabs (d i)) (idx y))) in *. set (b := sumR (map (fun i => (d i)²) (idx y))) in *.
  assert (Ha : 0 <= a) by (apply sumR_nonneg, Forall_map, Forall_forall; intros; apply Rabs_pos).
  assert (Hb : 0 <= b) by apply sq_nonneg.
  change (a / n <= sqrt (b / n)).
  rewrite <- (sqrt_Rsqr (a / n)) by (apply Rmult_le_pos; [exact Ha|left; apply Rinv_0_lt_compat; exact Hn]).
  apply sqrt_le_1_alt. apply Rmult_le_reg_r with (n * n); [nra|].
  replace ((a / n)² * (n * n)) with (a²) by (unfold Rsqr; field; lra).
  replace (b / n * (n * n)) with (b * n) by (field; lra). unfold Rsqr in *. nra.
Qed.

Lemma SMAPE_sym : SMAPE y y2 = SMAPE y2 y.
Proof.
  rewrite !SMAPE_idx by congruence. rewrite Hl. do 2 f_equal. apply sumR_ext. intros i _. rewrite Rabs_minus_sym. f_equal. lra.
Qed.
Lemma SMAPE_range : (forall i, (i < length y)%nat -> y.[i] <> 0 \/ y2.[i] <> 0) -> 0 <= SMAPE y y2 <= 2.
Proof.
  intros Hz. rewrite SMAPE_idx by exact Hl. pose proof n_pos as Hn.
  assert (Ht : forall i, In i (idx y) -> 0 <= Rabs (y2.[i] - y.[i]) / (Rabs y2.[i] + Rabs y.[i]) <= 1).
  { intros i Hi. apply in_seq in Hi. assert (Hs : 0 < Rabs y2.[i] + Rabs y.[i]).
    { destruct (Hz i ltac:(lia)) as [H|H]; apply Rabs_pos_lt in H; [pose proof (Rabs_pos y2.[i])|pose proof (Rabs_pos y.[i])]; lra. }
    pose proof (Rabs_pos (y2.[i] - y.[i])). pose proof (Rabs_triang y2.[i] (- y.[i])) as Htr. rewrite Rabs_Ropp in Htr.
    fold (y2.[i] - y.[i]) in Htr.
    split; [apply Rmult_le_pos; [assumption|left; apply Rinv_0_lt_compat; exact Hs]|].
    apply Rmult_le_reg_r with (Rabs y2.[i] + Rabs y.[i]); [exact Hs|]. unfold Rdiv. rewrite Rmult_assoc, Rinv_l by lra. lra. }
  set (S := sumR _). assert (H0 : 0 <= S).
  { apply sumR_nonneg, Forall_map, Forall_forall. intros i Hi; apply Ht; exact Hi. }
  assert (H1 : S <= INR (length y)).
  { replace (INR (length y)) with (sumR (map (fun _ => 1) (idx y))) by (rewrite sumR_const, seq_length; ring).
    apply sumR_le. intros i Hi; apply Ht; exact Hi. }
  split; [apply Rmult_le_pos; [lra|]; apply Rmult_le_pos; [exact H0|left; apply Rinv_0_lt_compat; exact Hn]|].
  apply Rmult_le_reg_r with (INR (length y)); [exact Hn|].
  replace (2 * (S / INR (length y)) * INR (length y)) with (2 * S) by (field; lra). lra.
Qed.
End Laws.

Lemma MAE_triangle x y z : length y = length x -> length z = length x -> x <> [] -> MAE x z <= MAE x y + MAE y z.
Proof.
  intros H1 H2 Hne. rewrite !MAE_idx by congruence. rewrite H1.
  assert (Hn : 0 < INR (length x)) by (apply lt_0_INR; destruct x; [congruence|cbn; lia]).
  apply Rmult_le_reg_r with (INR (length x)); [exact Hn|]. rewrite Rmult_plus_distr_r. unfold Rdiv. rewrite !Rmult_assoc, !Rinv_l, !Rmult_1_r by lra.
  rewrite <- sumR_plus. apply sumR_le. intros i _.
  replace (z.[i] - x.[i]) with ((y.[i] - x.[i]) + (z.[i] - y.[i])) by ring. apply Rabs_triang.
Qed.

Lemma RMSE_triangle x y z : length y = length x -> length z = length x -> x <> [] -> RMSE x z <= RMSE x y + RMSE y z.
Proof.
  intros H1 H2 Hne. rewrite !RMSE_idx by congruence. rewrite H1.
  assert (Hn : 0 < INR (length x)) by (apply lt_0_INR; destruct x; [congruence|cbn; lia]).
  set (n := INR (length x)) in *. set (f := fun i => y.[i] - x.[i]). set (g := fun i => z.[i] - y.[i]).
  pose proof (cauchy_schwarz f g (idx x)) as CS.
  rewrite (sumR_ext (fun i => (z.[i] - x.[i])²) (fun i => (f i)² + (2 * (f i * g i) + (g i)²))) by (intros; unfold f, g, Rsqr; ring).
  rewrite sumR_plus, sumR_plus, sumR_scal.
  change (fun i => (y.[i] - x.[i])²) with (fun i => (f i)²). change (fun i => (z.[i] - y.[i])²) with (fun i => (g i)²).
  set (a := sumR (map (fun i => (f i)²) (idx x))) in *. set (b := sumR (map (fun i => f i * g i) (idx x))) in *.
  set (c := sumR (map (fun i => (g i)²) (idx x))) in *.
  assert (Ha : 0 <= a) by apply sq_nonneg. assert (Hc : 0 <= c) by apply sq_nonneg.
  assert (Hin : 0 < / n) by (apply Rinv_0_lt_compat; exact Hn).
  pose proof (sqrt_pos (a / n)) as Sa. pose proof (sqrt_pos (c / n)) as Sc.
  rewrite <- (sqrt_Rsqr (sqrt (a / n) + sqrt (c / n))) by lra.
  apply sqrt_le_1_alt. rewrite Rsqr_plus, !Rsqr_sqrt by (apply Rmult_le_pos; lra).
  assert (Hb : b / n <= sqrt (a / n) * sqrt (c / n)).
  { rewrite <- sqrt_mult by (apply Rmult_le_pos; lra).
    eapply Rle_trans; [apply Rle_abs|]. rewrite <- sqrt_Rsqr_abs. apply sqrt_le_1_alt.
    unfold Rdiv, Rsqr in *. replace (b * / n * (b * / n)) with (b * b * (/ n * / n)) by ring.
    replace (a * / n * (c * / n)) with (a * c * (/ n * / n)) by ring.
    apply Rmult_le_compat_r; [nra|exact CS]. }
  unfold Rdiv in *. nra.
Qed.

Definition upper_str (s : str) : str := List.map upper s.

Lemma metric_kind_ok s k : metric_kind s = Ok k <-> In (upper_str s, k) kind_names.
Proof.
  unfold metric_kind, upper_str. split.
  - destruct (find _ _) as [[n k']|] eqn:E; [|discriminate].
    apply find_some in E as (Hin & Heq). cbn [fst snd] in *. apply eqb_eq in Heq as ->. intros [= <-]; exact Hin.
  - intros Hin. destruct (find _ _) as [[n k']|] eqn:E.
    + apply find_some in E as (Hin' & Heq). cbn [fst snd] in *. apply eqb_eq in Heq; subst n. f_equal.
      cbn [kind_names In] in *.
      destruct Hin as [Hin|[Hin|[Hin|[Hin|[Hin|[]]]]]]; destruct Hin' as [Hin'|[Hin'|[Hin'|[Hin'|[Hin'|[]]]]]];
      apply pair_equal_spec in Hin as (E1 & E2); apply pair_equal_spec in Hin' as (E3 & E4); subst k k'; try reflexivity;
      exfalso; rewrite <- E1 in E3; discriminate E3.
    + apply find_none with (x := (List.map upper s, k)) in E; [|exact Hin].
      cbn [fst] in E. rewrite eqb_refl in E. discriminate.
Qed.
Lemma metric_kind_err s e : metric_kind s = Err e -> e = ValueError /\ forall k, ~ In (upper_str s, k) kind_names.
Proof.
  intros H. split; [unfold metric_kind in H; destruct (find _ _); congruence|].
  intros k Hin. apply metric_kind_ok in Hin. congruence.
Qed.
