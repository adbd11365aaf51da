(** Model of the fitting variables of src/teflow/kappa.py: [Variable] (30-186), [Parameters] (189-203) and the variable handling of
    [BaseKappaModel] ([_cal] 244-264, [fit] 266-292).  Objects live in a world: the class registry of variables by tag and a heap of
    Parameters containers.  Numbers are reals; constraint functions are total. *)
From Coq Require Import Reals.
From Verif Require Import Py PyDict PyStr.
Local Open Scope R_scope.

(** [Parameters] keys, kappa.py 84, 189-203: keys of a Parameters: given by name, or the i-th of [__{tag}_{i}] (kappa.py 84), distinct for distinct i *)
Inductive key := KName (s : str) | KDep (i : nat).
#[global] Instance key_eq : EqDec key.
Proof. intros x y. decide equality; [apply (list_eq_dec Ascii.ascii_dec)|apply Nat.eq_dec]. Defined.
(** kappa.py 43-68, 198-203: an entry given to Parameters or in [depends]: a number or a variable *)
Inductive arg := Num (x : R) | Ref (tag : str).
(** kappa.py 70-84: the attributes of an initialised variable; [v_args] repeats [depends] and is not read by the program *)
Record var := { v_value : R; v_lower : R; v_upper : R; v_scale : R; v_subs : list (nat * key);
                v_compute : option (list R -> R); v_deps : nat; v_args : list arg }.
(** [Variable.__instances], kappa.py 36-41, 68-84, registry entry: created but not initialised; initialised up to the bad constraint, without [_compute] and [_depends]; ready *)
Inductive inst := Empty | Broken | Ready (v : var).
Record world := { w_vars : str -> option inst; w_pars : nat -> list (key * R); w_next : nat }.
(** updates of the world; bounds and scale are not reassigned after creation *)
Definition upd_var (w : world) (t : str) (i : inst) : world :=
  {| w_vars := fun u => if eqb u t then Some i else w_vars w u; w_pars := w_pars w; w_next := w_next w |}.
Definition upd_par (w : world) (p : nat) (d : list (key * R)) : world :=
  {| w_vars := w_vars w; w_pars := fun q => if Nat.eqb q p then d else w_pars w q; w_next := w_next w |}.
(** kappa.py 70-84, 92-96: a variable with all its attributes *)
Definition ready (w : world) (t : str) : option var := match w_vars w t with Some (Ready v) => Some v | _ => None end.

(** [value] (kappa.py 106-157): a constrained variable computes from its own container; without [_compute] AttributeError *)
Definition val_of (w : world) (v : var) : R :=
  match v_compute v with Some f => f (map snd (w_pars w (v_deps v))) | None => v_value v end.
Definition get_value (w : world) (t : str) : res R :=
  match ready w t with Some v => Ok (val_of w v) | None => Err AttributeError end.
(** [sync] (kappa.py 181-186): the value is read anew for every subscriber.  A variable refused for its initial value has no [_subscribers]; one refused
    for its constraint has none registered (the attempt to put it into a Parameters fails and is not modelled) *)
Definition write (w : world) (pk : nat * key) (x : R) : world := upd_par w (fst pk) (dset (w_pars w (fst pk)) (snd pk) x).
Definition sync_var (w : world) (v : var) : world :=
  fold_left (fun w pk => write w pk (val_of w v * v_scale v)) (v_subs v) w.
Definition sync (w : world) (t : str) : world * option exn :=
  match ready w t with Some v => (sync_var w v, None) | None => (w, match w_vars w t with Some Broken => None | _ => Some AttributeError end) end.
(** value setter (kappa.py 160-166) *)
Definition in_bounds (v : var) (x : R) : bool := if Rle_dec (v_lower v) x then if Rle_dec x (v_upper v) then true else false else false.
Definition with_value (v : var) (x : R) : var :=
  {| v_value := x; v_lower := v_lower v; v_upper := v_upper v; v_scale := v_scale v; v_subs := v_subs v;
     v_compute := v_compute v; v_deps := v_deps v; v_args := v_args v |}.
Definition set_value (w : world) (t : str) (x : R) : world * option exn :=
  match ready w t with
  | None => (w, Some AttributeError)   (* not reached through a usable variable *)
  | Some v => if in_bounds v x then let v' := with_value v x in (sync_var (upd_var w t (Ready v')) v', None)
              else (w, Some ValueError)
  end.
(** [register] (kappa.py 168-179) *)
Definition with_sub (v : var) (pk : nat * key) : var :=
  {| v_value := v_value v; v_lower := v_lower v; v_upper := v_upper v; v_scale := v_scale v; v_subs := v_subs v ++ [pk];
     v_compute := v_compute v; v_deps := v_deps v; v_args := v_args v |}.
Definition register (w : world) (t : str) (pk : nat * key) : world :=
  match ready w t with Some v => upd_var w t (Ready (with_sub v pk)) | None => w end.
(** [Parameters.__init__] (kappa.py 198-203): a new container [w_next]; variables that are not ready are excluded (see [args_ok]) *)
Fixpoint enter (w : world) (p : nat) (l : list (key * arg)) : world * list (key * R) :=
  match l with
  | [] => (w, [])
  | (k, Num x) :: r => let '(w', d) := enter w p r in (w', (k, x) :: d)
  | (k, Ref t) :: r =>
      let w1 := register w t (p, k) in
      let x := match ready w1 t with Some v => val_of w1 v * v_scale v | None => 0 end in
      let '(w', d) := enter w1 p r in (w', (k, x) :: d)
  end.
Definition new_params (w : world) (l : list (key * arg)) : world * nat :=
  let p := w_next w in
  let '(w1, d) := enter {| w_vars := w_vars w; w_pars := w_pars w; w_next := S p |} p l in (upd_par w1 p d, p).
Definition args_ok (w : world) (l : list arg) : Prop := forall t, In (Ref t) l -> ready w t <> None.
(** [__new__] (kappa.py 37-41) and [__init__] (kappa.py 43-84); [constraint]: absent, not callable, or a function *)
Inductive cons := CNone | CBad | CFun (f : list R -> R).
Definition new_var (w : world) (t : str) (initial lower upper scale : R) (c : cons) (depends : list arg) : world * option exn :=
  match w_vars w t with
  | Some (Ready _) | Some Broken => (w, None)
  | _ =>
      if Rle_dec lower initial then if Rle_dec initial upper then
        match c with
        | CBad => (upd_var w t Broken, Some ValueError)
        | _ =>
            let '(w1, p) := new_params w (combine (map KDep (seq 0 (List.length depends))) depends) in
            (upd_var w1 t (Ready {| v_value := initial; v_lower := lower; v_upper := upper; v_scale := scale; v_subs := [];
               v_compute := match c with CFun f => Some f | _ => None end; v_deps := p; v_args := depends |}), None)
        end
      else (upd_var w t Empty, Some ValueError) else (upd_var w t Empty, Some ValueError)
  end.
(** kappa.py 189-197, direct assignment [paras[key] = x] *)
Definition poke (w : world) (p : nat) (k : key) (x : R) : world := write w (p, k) x.

(** [BaseKappaModel._cal] (kappa.py 244-264) up to the evaluation of the model itself *)
Fixpoint set_all (w : world) (l : list (str * R)) : world * option exn :=
  match l with
  | [] => (w, None)
  | (t, x) :: r => match set_value w t x with (w', None) => set_all w' r | (w', Some e) => (w', Some e) end
  end.
Fixpoint sync_all (w : world) (l : list str) : world * option exn :=
  match l with
  | [] => (w, None)
  | t :: r => match sync w t with (w', None) => sync_all w' r | (w', Some e) => (w', Some e) end
  end.
Definition cal (w : world) (vars ders : list str) (args : list R) : world * option exn :=
  if negb (List.length args =? List.length vars)%nat then (w, Some ValueError)
  else match set_all w (combine vars args) with (w', None) => sync_all w' ders | (w', Some e) => (w', Some e) end.
(** [fit] (kappa.py 266-292): scipy's curve_fit calls [_cal] with a sequence of argument lists of its choice ([calls]) and an exception stops it;
    its return value is not modelled *)
Fixpoint calls_run (w : world) (vars ders : list str) (calls : list (list R)) : world * option exn :=
  match calls with
  | [] => (w, None)
  | a :: r => match cal w vars ders a with (w', None) => calls_run w' vars ders r | (w', Some e) => (w', Some e) end
  end.
(** [constrained], kappa.py 92-96 *)
Definition constrained (w : world) (t : str) : bool := match ready w t with Some v => if v_compute v then true else false | None => false end.
Definition fit (w : world) (variables : list str) (kwargs_p0_or_bounds : bool) (calls : list (list R)) : world * option exn :=
  let vars := filter (fun t => negb (constrained w t)) variables in
  let ders := filter (constrained w) variables in
  match vars with
  | [] => (w, None)
  | _ => if kwargs_p0_or_bounds then (w, Some ValueError) else calls_run w vars ders calls
  end.
