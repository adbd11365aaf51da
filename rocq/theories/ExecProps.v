(** C05: [ExecWrapper] over any history of calls (src/teflow/utils.py:404-482). *)
From Verif Require Import Py PyDict ExecModel ExecSpec ExecProofs.

(** All required names have a value: the callable is called with exactly the
    effective values of the declared names, its exceptions become RuntimeError. *)
Theorem C05_execute :
  forall (K V R : Type) (HK : EqDec K) (run : dict K V -> option R)
         (args opts : list K) (h : list (op K V)) (kw : dict K V),
  Forall op_ok h -> wf kw ->
  (forall k, In k args -> effective h kw k <> None) ->
  exists D, wf D
    /\ (forall k, dget D k = if memb k (args ++ opts) then effective h kw k else None)
    /\ execute run (after args opts h) kw
       = (Some D, match run D with Some r => Ok r | None => Err RuntimeError end).
Proof. exact (fun K V R HK => @execute_spec K V R HK). Qed.
Print Assumptions C05_execute.

(** Some required name has no value: ValueError and the callable is not called. *)
Theorem C05_execute_missing :
  forall (K V R : Type) (HK : EqDec K) (run : dict K V -> option R)
         (args opts : list K) (h : list (op K V)) (kw : dict K V),
  Forall op_ok h -> wf kw ->
  (exists k, In k args /\ effective h kw k = None) ->
  execute run (after args opts h) kw = (None, Err ValueError).
Proof. exact (fun K V R HK => @execute_missing K V R HK). Qed.
Print Assumptions C05_execute_missing.

(** Non-vacuity: a history with an override, an unknown name and an optional name. *)
Definition run0 (d : dict nat nat) : option nat := if dmem d 9 then None else Some (length d).
Example history :
  let h := [Update [(1, 10); (7, 70)]; Execute [(1, 99); (2, 20)]; Update [(3, 30)]] in
  execute run0 (after [1; 2] [3; 4] h) [(2, 22); (8, 88)]
    = (Some [(1, 10); (2, 22); (3, 30)], Ok 3)
  /\ execute run0 (after [1; 2] [3; 4] h) [(1, 11)] = (None, Err ValueError)
  /\ Forall op_ok h.
Proof.
  cbn. repeat split; try reflexivity.
  repeat constructor; cbn; unfold wf; cbn; repeat constructor; cbn; intuition discriminate.
Qed.
