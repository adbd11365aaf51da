(** Specification vocabulary for the fitting variables: histories, true values of constrained variables, dependency order. *)
From Coq Require Import Reals.
From Verif Require Import Py PyDict PyStr VarModel.
Local Open Scope R_scope.

Definition start : world := {| w_vars := fun _ => None; w_pars := fun _ => []; w_next := 0 |}.

(** the worlds produced from [w0] by any history of: creating variables (well or badly), creating Parameters containers from numbers and usable
    variables, assigning and syncing usable variables and, if [pokes], writing directly into containers other than the private ones *)
Inductive after (pokes : bool) (w0 : world) : world -> Prop :=
| r_start : after pokes w0 w0
| r_new w t initial lower upper scale c ds : after pokes w0 w -> args_ok w ds ->
    after pokes w0 (fst (new_var w t initial lower upper scale c ds))
| r_params w l : after pokes w0 w -> NoDup (map fst l) -> args_ok w (map snd l) -> after pokes w0 (fst (new_params w l))
| r_set w t x : after pokes w0 w -> ready w t <> None -> after pokes w0 (fst (set_value w t x))
| r_sync w t : after pokes w0 w -> ready w t <> None -> after pokes w0 (fst (sync w t))
| r_poke w p k x : after pokes w0 w -> pokes = true -> (forall t v, ready w t = Some v -> v_deps v <> p) -> (p < w_next w)%nat ->
    after pokes w0 (poke w p k x).
Definition reach (pokes : bool) : world -> Prop := after pokes start.

(** what a container holds under a key *)
Definition holds (w : world) (p : nat) (k : key) (x : R) : Prop := dget (w_pars w p) k = Some x.

(** the value a variable should have: its own, or the constraint applied to the scaled values of what it was declared to depend on *)
Inductive true_value (w : world) : str -> R -> Prop :=
| tv_free t v : ready w t = Some v -> v_compute v = None -> true_value w t (v_value v)
| tv_con t v f xs : ready w t = Some v -> v_compute v = Some f -> true_args w (v_args v) xs -> true_value w t (f xs)
with true_args (w : world) : list arg -> list R -> Prop :=
| ta_nil : true_args w [] []
| ta_num x l xs : true_args w l xs -> true_args w (Num x :: l) (x :: xs)
| ta_ref t v x l xs : ready w t = Some v -> true_value w t x -> true_args w l xs -> true_args w (Ref t :: l) (x * v_scale v :: xs).

(** every constrained variable that a listed variable depends on is listed before it *)
Definition in_order (w : world) (ders : list str) : Prop :=
  forall pre d post v u, ders = pre ++ d :: post -> ready w d = Some v -> In (Ref u) (v_args v) -> constrained w u = true -> In u pre.
