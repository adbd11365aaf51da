(** C132: dot access on AttrDict. *)
From Coq Require Import String Ascii.
From Verif Require Import Py PyDict AttrModel AttrSpec.
Section Props.
Context {K V : Type} {HK : EqDec K}.
Variable cls : K -> option (cattr (K := K) (V := V)).
Notation run := (run cls). Notation step := (step cls). Notation getattr := (getattr cls). Notation hasattr := (hasattr cls). Notation getattr_default := (getattr_default cls).
Definition property (k : K) : Prop := exists g, cls k = Some (Property g).

Lemma dget_dremove (d : dict K V) k j : dget (dremove d k) j = if eqb j k then None else dget d j.
Proof.
  induction d as [|[a v] d IH]; cbn; [destruct (eqb j k); reflexivity|]. destruct (eqb k a) eqn:E; cbn; fold (dremove d k).
  - rewrite IH. apply Py.eqb_eq in E as <-. destruct (eqb j k); reflexivity.
  - rewrite IH. destruct (eqb j a) eqn:F; [|reflexivity]. apply Py.eqb_eq in F as ->. destruct (eqb a k) eqn:G; [|reflexivity]. apply Py.eqb_eq in G as ->. rewrite Py.eqb_refl in E. discriminate.
Qed.
Lemma stored_ext ops : forall m n : K -> option V, (forall k, m k = n k) -> forall k, stored m ops k = stored n ops k.
Proof. induction ops as [|[] r IH]; intros m n H j; cbn; try (apply IH; intros; unfold put; destruct (eqb _ _); auto); auto. Qed.
Lemma assigned_ext ops : forall (m n : K -> option V) k, m k = n k -> assigned m ops k = assigned n ops k.
Proof. induction ops as [|[] r IH]; intros m n j H; cbn; try (apply IH; unfold put; destruct (eqb _ _); auto); auto. Qed.
Lemma items_run ops : forall o k, dget (items (run o ops)) k = stored (dget (items o)) ops k.
Proof.
  induction ops as [|p r IH]; intros o k; [reflexivity|]. cbn [AttrModel.run fold_left]. change (fold_left (after cls) r (after cls o p)) with (run (after cls o p) r). rewrite IH.
  destruct p as [a v|a|a v|a]; cbn [stored]; apply stored_ext; intros j; unfold after, AttrModel.step, put.
  - apply dget_dset.
  - unfold dpop. destruct (dget (items o) a) eqn:E; cbv beta iota delta [rbind]; cbn [items fst]; [apply dget_dremove|]. destruct (eqb j a) eqn:F; [apply Py.eqb_eq in F as ->; exact E|reflexivity].
  - destruct (cls a) as [[]|]; reflexivity.
  - destruct (cls a) as [[]|]; try reflexivity; destruct (dmem (inst o) a); reflexivity.
Qed.
Lemma inst_run ops k : ~ property k -> forall o, dget (inst (run o ops)) k = assigned (dget (inst o)) ops k.
Proof.
  intros NP. induction ops as [|p r IH]; intros o; [reflexivity|]. cbn [AttrModel.run fold_left]. change (fold_left (after cls) r (after cls o p)) with (run (after cls o p) r). rewrite IH.
  assert (G : forall a, (eqb k a = true -> match cls a with Some (Property _) => False | _ => True end)).
  { intros a E. apply Py.eqb_eq in E as ->. destruct (cls a) as [[m|g]|] eqn:Q; try exact Logic.I. apply NP. exists g. exact Q. }
  destruct p as [a v|a|a v|a]; cbn [assigned]; apply assigned_ext; unfold after, AttrModel.step, put.
  - reflexivity.
  - unfold dpop. destruct (dget (items o) a); reflexivity.
  - specialize (G a). destruct (eqb k a) eqn:E; [specialize (G eq_refl)|]; destruct (cls a) as [[m|g]|]; try contradiction; cbn [inst]; rewrite ?dget_dset, ?E; reflexivity.
  - specialize (G a). assert (N : dmem (inst o) a = false -> dget (inst o) a = None) by (intros M; apply dget_None; intros Hin; apply dmem_spec in Hin; congruence).
    destruct (eqb k a) eqn:E; [specialize (G eq_refl); apply Py.eqb_eq in E as ->|]; destruct (cls a) as [[m|g]|]; try contradiction; try reflexivity; destruct (dmem (inst o) a) eqn:M; cbn [inst]; rewrite ?dget_dremove, ?eqb_refl, ?E; auto.
Qed.
Lemma new_inst (d : dict K V) k : dget (inst (new d)) k = nothing k. Proof. reflexivity. Qed.
Lemma inst_new d ops k : ~ property k -> dget (inst (run (new d) ops)) k = assigned nothing ops k.
Proof. intros H. rewrite inst_run by exact H. apply assigned_ext. reflexivity. Qed.

(** Brackets: only item statements count, whatever was done with dots. *)
Theorem C132_items :
  forall d ops k, getitem (run (new d) ops) k = or_keyerror (stored (dget d) ops k).
Proof. intros. unfold getitem, dgetitem. rewrite items_run. reflexivity. Qed.

(** Dots, for a name the class does not define: the value last assigned with a dot, else the item, else KeyError. *)
Theorem C132_dot :
  forall d ops k, cls k = None ->
  getattr (run (new d) ops) k = match assigned nothing ops k with Some v => Ok v | None => getitem (run (new d) ops) k end.
Proof.
  intros d ops k H. unfold AttrModel.getattr, generic, dunder_getattr. rewrite H, inst_new by (intros (g & E); congruence). destruct (assigned nothing ops k); reflexivity.
Qed.
(** In particular dots and brackets agree as long as nothing is assigned with a dot. *)
Theorem C132_same :
  forall d ops k, cls k = None -> (forall v, ~ In (SetAttr k v) ops) -> getattr (run (new d) ops) k = getitem (run (new d) ops) k.
Proof.
  intros d ops k H N. rewrite C132_dot by exact H. enough (E : assigned nothing ops k = None) by (rewrite E; reflexivity).
  assert (G : forall m : K -> option V, m k = None -> assigned m ops k = None).
  { induction ops as [|[a v|a|a v|a] r IH]; intros m Hm; cbn [assigned]; try (apply IH; [intros v' Hv; apply (N v'); right; exact Hv|]); try exact Hm; unfold put; destruct (eqb k a) eqn:E; try exact Hm; try reflexivity.
    apply Py.eqb_eq in E as ->. exfalso. apply (N v). left. reflexivity. }
  apply G. reflexivity.
Qed.
(** A missing name is a KeyError, which neither hasattr nor a default of getattr turns into an answer. *)
Theorem C132_missing :
  forall d ops k default, cls k = None -> let o := run (new d) ops in
  (assigned nothing ops k = None -> stored (dget d) ops k = None ->
     getattr o k = Err KeyError /\ hasattr o k = Err KeyError /\ getattr_default o k default = Err KeyError)
  /\ hasattr o k <> Ok false
  /\ getattr_default o k default = getattr o k.
Proof.
  intros d ops k default H o. assert (A : getattr o k = Err KeyError \/ exists v, getattr o k = Ok v).
  { unfold o. rewrite C132_dot by exact H. destruct (assigned nothing ops k); [right; eexists; reflexivity|]. rewrite C132_items. destruct (stored (dget d) ops k); [right; eexists; reflexivity|left; reflexivity]. }
  unfold AttrModel.hasattr, AttrModel.getattr_default. split; [|destruct A as [->|(v & ->)]; split; congruence].
  intros E1 E2. assert (E : getattr o k = Err KeyError) by (unfold o; rewrite C132_dot, E1, C132_items, E2 by exact H; reflexivity). rewrite E. repeat split.
Qed.
(** Deleting with a dot undoes only an assignment with a dot. *)
Theorem C132_delete :
  forall d ops k, cls k = None -> let o := run (new d) ops in
  match assigned nothing ops k with
  | None => step o (DelAttr k) = Err AttributeError
  | Some _ => exists o', step o (DelAttr k) = Ok o' /\ items o' = items o /\ getattr o' k = getitem o k
  end.
Proof.
  intros d ops k H o. assert (NP : ~ property k) by (intros (g & E); congruence). pose proof (inst_new d ops k NP) as I. fold o in I. unfold AttrModel.step. rewrite H.
  destruct (assigned nothing ops k) as [v|].
  - assert (M : dmem (inst o) k = true) by (apply dmem_spec, dget_Some_In; exists v; exact I). rewrite M. eexists. split; [reflexivity|]. split; [reflexivity|].
    unfold AttrModel.getattr, generic. rewrite H. cbn [inst]. rewrite dget_dremove, eqb_refl. reflexivity.
  - assert (M : dmem (inst o) k = false). { destruct (dmem (inst o) k) eqn:M; [|reflexivity]. apply dmem_spec, dget_Some_In in M as (v & E). congruence. } rewrite M. reflexivity.
Qed.
(** A key named like a method is hidden behind it (until something is assigned with a dot); brackets still find it. *)
Theorem C132_method :
  forall d ops k m, cls k = Some (Method m) ->
  getattr (run (new d) ops) k = match assigned nothing ops k with Some v => Ok v | None => Ok m end.
Proof.
  intros d ops k m H. unfold AttrModel.getattr, generic. rewrite H, inst_new by (intros (g & E); congruence). destruct (assigned nothing ops k); reflexivity.
Qed.
(** A property is computed from the current items and cannot be assigned or deleted; an AttributeError inside it is replaced by the item of that name or by KeyError. *)
Theorem C132_property :
  forall d ops k g, cls k = Some (Property g) -> let o := run (new d) ops in
  (g (items o) <> Err AttributeError -> getattr o k = g (items o))
  /\ (g (items o) = Err AttributeError -> getattr o k = getitem o k)
  /\ (forall v, step o (SetAttr k v) = Err AttributeError) /\ step o (DelAttr k) = Err AttributeError.
Proof.
  intros d ops k g H o. unfold AttrModel.getattr, generic, AttrModel.step. rewrite H. repeat split; try reflexivity.
  - intros N. destruct (g (items o)) as [|[]]; try reflexivity. contradiction.
  - intros ->. reflexivity.
Qed.
(** Finding: no history makes dot access raise AttributeError. *)
Theorem C132_never_attribute_error :
  forall d ops k, getattr (run (new d) ops) k <> Err AttributeError.
Proof.
  intros d ops k. unfold AttrModel.getattr, dunder_getattr. set (o := run (new d) ops). assert (G : getitem o k <> Err AttributeError) by (unfold getitem, dgetitem; destruct (dget (items o) k); discriminate).
  destruct (generic cls o k) as [|[]]; try discriminate. exact G.
Qed.
End Props.

(** an object with key "x", a method "keys" and a property "total" *)
Definition ex_cls (k : string) : option (cattr (K := string) (V := nat)) :=
  if String.eqb k "keys" then Some (Method 7) else if String.eqb k "total" then Some (Property (fun d => Ok (List.length d))) else None.
#[local] Instance string_eq : EqDec string := string_dec.
Example C132_case :
  let o := run ex_cls (new [("x"%string, 1); ("keys"%string, 2)]) [SetAttr "x"%string 5; SetItem "x"%string 3; SetAttr "y"%string 4] in
  getattr ex_cls o "x"%string = Ok 5 /\ getitem o "x"%string = Ok 3 /\ getattr ex_cls o "keys"%string = Ok 7 /\ getitem o "keys"%string = Ok 2
  /\ getattr ex_cls o "y"%string = Ok 4 /\ getitem o "y"%string = Err KeyError /\ hasattr ex_cls o "z"%string = Err KeyError
  /\ getattr ex_cls o "total"%string = Ok 2 /\ step ex_cls o (SetAttr "total"%string 1) = Err AttributeError
  /\ getattr ex_cls (run ex_cls o [DelAttr "x"%string]) "x"%string = Ok 3.
Proof. repeat split. Qed.
Print Assumptions C132_items. Print Assumptions C132_dot. Print Assumptions C132_same. Print Assumptions C132_missing. Print Assumptions C132_delete.
Print Assumptions C132_method. Print Assumptions C132_property. Print Assumptions C132_never_attribute_error.
