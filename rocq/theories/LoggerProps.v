(** C10: [get_root_logger] over any history (src/teflow/utils.py:25-57). *)
From Coq Require Import String Sorted.
From Verif Require Import Py PyDict LoggerModel LoggerSpec LoggerProofs.

(** Exactly the most recent (successful) handler per registered name, each once,
    in the order of the requests; other packages are irrelevant by construction of
    [most_recent]. *)
Theorem C10_one_handler_per_name :
  forall (h : list call) (p : string),
  StronglySorted lt (attached (run h) p)
  /\ forall i, In i (attached (run h) p) <-> most_recent same_token h p i.
Proof. exact logger_tokens. Qed.
Print Assumptions C10_one_handler_per_name.

(** Per destination, provided no log file is called "console". *)
Theorem C10_one_handler_per_destination :
  forall (h : list call) (p : string),
  (forall c ok, In c h -> c_file c <> Some ("console"%string, ok)) ->
  forall i, In i (attached (run h) p) <-> most_recent eq h p i.
Proof. exact logger_dests. Qed.
Print Assumptions C10_one_handler_per_destination.

(** A log file called "console" takes the stdout handler away. *)
Definition c_out : call := {| c_pkg := "teflow"; c_stdout := true; c_file := None |}.
Definition c_con : call := {| c_pkg := "teflow"; c_stdout := false; c_file := Some ("console"%string, true) |}.
Theorem C10_console_collision_refuted :
  exists (h : list call) (p : string) (i : nat),
    most_recent eq h p i /\ ~ In i (attached (run h) p).
Proof.
  exists [c_out; c_con], "teflow"%string, 0; split; [|cbn; intuition discriminate].
  exists Console; split; [reflexivity|].
  intros [|[|j]] d' ok Hj <-; cbn; [lia|discriminate|destruct j; discriminate].
Qed.
Print Assumptions C10_console_collision_refuted.

(** Non-vacuity: re-requesting stdout and a file, and a failing file. *)
Definition c_fil (ok : bool) : call :=
  {| c_pkg := "teflow"; c_stdout := true; c_file := Some ("a.log"%string, ok) |}.
Example handlers_after :
  attached (run [c_out; c_fil true; c_fil true]) "teflow" = [3; 4]
  /\ attached (run [c_out; c_fil true; c_fil false]) "teflow" = [3].
Proof. split; reflexivity. Qed.
