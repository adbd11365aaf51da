(** C19: [Metric] (src/teflow/mathext.py:32-136). *)
From Coq Require Import String.
From Verif Require Import Py PyStr RUtil MonoModel MetricModel MetricProofs.
Local Open Scope R_scope.

(** Values, written with explicit index sums ([sumR (map f (seq 0 n))] = sum_{i<n} f i;
    [l.[i]] is the i-th element). *)
Theorem C19_values :
  forall y y2 : list R, length y2 = length y ->
  let n := length y in let avg f := sumR (map f (seq 0 n)) / INR n in
  MSE y y2 = avg (fun i => (y2.[i] - y.[i]) * (y2.[i] - y.[i]))
  /\ RMSE y y2 = sqrt (MSE y y2)
  /\ MAE y y2 = avg (fun i => Rabs (y2.[i] - y.[i]))
  /\ MAPE y y2 = avg (fun i => Rabs (y2.[i] / y.[i] - 1))
  /\ SMAPE y y2 = 2 * avg (fun i => Rabs (y2.[i] - y.[i]) / (Rabs y2.[i] + Rabs y.[i])).
Proof.
  intros y y2 H n avg. repeat split;
    [apply MSE_idx|apply MAE_idx|apply MAPE_idx|apply SMAPE_idx]; exact H.
Qed.
Print Assumptions C19_values.

Theorem C19_laws :
  forall y y2 : list R, length y2 = length y -> y <> [] ->
  0 <= MSE y y2 /\ (MSE y y2 = 0 <-> y = y2) /\ MSE y y2 = MSE y2 y
  /\ MAE y y2 <= RMSE y y2 /\ SMAPE y y2 = SMAPE y2 y
  /\ ((forall i, (i < length y)%nat -> y.[i] <> 0 \/ y2.[i] <> 0) -> 0 <= SMAPE y y2 <= 2).
Proof.
  intros y y2 H Hne. split; [apply MSE_nonneg; assumption|]. split; [apply MSE_zero; assumption|].
  split; [apply MSE_sym; assumption|]. split; [apply MAE_le_RMSE; assumption|].
  split; [apply SMAPE_sym; assumption|apply SMAPE_range; assumption].
Qed.
Print Assumptions C19_laws.

Theorem C19_triangle :
  forall x y z : list R, length y = length x -> length z = length x -> x <> [] ->
  MAE x z <= MAE x y + MAE y z /\ RMSE x z <= RMSE x y + RMSE y z.
Proof. intros; split; [apply MAE_triangle|apply RMSE_triangle]; assumption. Qed.
Print Assumptions C19_triangle.

(** [upper_str s] is [s.upper()]. *)
Theorem C19_kinds :
  forall (s : str) (y y2 : list R),
  (upper_str s = S_ "MSE"   -> metric s y y2 = Ok (MSE y y2)) /\
  (upper_str s = S_ "RMSE"  -> metric s y y2 = Ok (RMSE y y2)) /\
  (upper_str s = S_ "MAE"   -> metric s y y2 = Ok (MAE y y2)) /\
  (upper_str s = S_ "MAPE"  -> metric s y y2 = Ok (MAPE y y2)) /\
  (upper_str s = S_ "SMAPE" -> metric s y y2 = Ok (SMAPE y y2)) /\
  (~ In (upper_str s) [S_ "MSE"; S_ "RMSE"; S_ "MAE"; S_ "MAPE"; S_ "SMAPE"] -> metric s y y2 = Err ValueError).
Proof.
  intros s y y2. unfold metric.
  assert (K : forall k, In (upper_str s, k) kind_names -> metric_kind s = Ok k) by (intros; apply metric_kind_ok; assumption).
  do 5 (split; [intros E; erewrite K by (rewrite E; cbn [In kind_names]; tauto); reflexivity|]).
  intros Hn. destruct (metric_kind s) as [k|e] eqn:E.
  - apply metric_kind_ok in E. exfalso; apply Hn. cbn [kind_names In] in *.
    destruct E as [E|[E|[E|[E|[E|[]]]]]]; apply pair_equal_spec in E as (E & _); rewrite <- E; tauto.
  - apply metric_kind_err in E as (-> & _). reflexivity.
Qed.
Print Assumptions C19_kinds.

Example C19_case : MSE [1; 2; 3] [2; 4; 5] = 3 /\ metric (S_ "mSe") [1; 2; 3] [2; 4; 5] = Ok (MSE [1; 2; 3] [2; 4; 5])
  /\ metric (S_ "R2") [1] [1] = Err ValueError.
Proof.
  split; [unfold MSE, mean, zip_with; cbn; lra|].
  split; [apply C19_kinds; reflexivity|]. apply C19_kinds.
  cbn. intuition discriminate.
Qed.
