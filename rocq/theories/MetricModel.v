(** Model of [Metric] (src/teflow/mathext.py:32-136) on one-dimensional arrays. *)
From Coq Require Import String.
From Verif Require Import Py PyStr RUtil MonoModel.
Local Open Scope R_scope.

(** [np.mean] *)
Definition mean (l : list R) : R := sumR l / INR (length l).

(** elementwise [f(y2_i, y_i)] *)
Definition zip_with (f : R -> R -> R) (y2 y : list R) : list R := map (fun p => f (fst p) (snd p)) (combine y2 y).

Definition MSE (y y2 : list R) : R := mean (map (fun d => d * d) (zip_with Rminus y2 y)).          (* 69-79 *)
Definition RMSE (y y2 : list R) : R := sqrt (mean (map (fun d => d * d) (zip_with Rminus y2 y))).   (* 82-92 *)
Definition MAE (y y2 : list R) : R := mean (map Rabs (zip_with Rminus y2 y)).                       (* 95-105 *)
Definition MAPE (y y2 : list R) : R := mean (map Rabs (zip_with (fun b a => b / a - 1) y2 y)).      (* 108-119 *)
Definition SMAPE (y y2 : list R) : R :=                                                             (* 122-136 *)
  2 * mean (zip_with (fun b a => Rabs (b - a) / (Rabs b + Rabs a)) y2 y).

Inductive kind := kMSE | kRMSE | kMAE | kMAPE | kSMAPE.
Definition kind_names : list (str * kind) :=
  [(S_ "MSE", kMSE); (S_ "RMSE", kRMSE); (S_ "MAE", kMAE); (S_ "MAPE", kMAPE); (S_ "SMAPE", kSMAPE)].

(** [Metric.__init__] (51-63): [kind.upper()] looked up among the five names. *)
Definition metric_kind (s : str) : res kind :=
  match find (fun p => eqb (fst p) (List.map upper s)) kind_names with
  | Some p => Ok (snd p)
  | None => Err ValueError
  end.
Definition metric_fun (k : kind) : list R -> list R -> R :=
  match k with kMSE => MSE | kRMSE => RMSE | kMAE => MAE | kMAPE => MAPE | kSMAPE => SMAPE end.
(** [Metric(kind)(y, y2)] *)
Definition metric (s : str) (y y2 : list R) : res R :=
  let! k := metric_kind s in Ok (metric_fun k y y2).
