(** Specification vocabulary for [mixing]. *)
From Verif Require Import Py RUtil.
Local Open Scope R_scope.

(** weighted sum of the [j]-th elements *)
Definition wsum (datas : list (list R)) (ws : list R) (j : nat) : R :=
  sumR (map (fun dw => snd dw * nth j (fst dw) 0) (combine datas ws)).

(** the weights in use: those given, or ones *)
Definition weights (datas : list (list R)) (weight : option (list R)) : list R :=
  match weight with None => repeat 1 (length datas) | Some ws => ws end.
