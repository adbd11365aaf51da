From Coq Require Import Reals Lra Lia.
From Verif Require Import Py PyDict PyStr VarModel VarSpec.
Local Open Scope R_scope.

Lemma ready_upd w t i u : ready (upd_var w t i) u = if eqb u t then match i with Ready v => Some v | _ => None end else ready w u.
Proof. unfold ready, upd_var; cbn. destruct (eqb u t); reflexivity. Qed.
Lemma ready_pars w w' : w_vars w = w_vars w' -> forall u, ready w u = ready w' u.
Proof. unfold ready; intros ->; reflexivity. Qed.

Record Inv (w : world) : Prop := {
  i_deps : forall t v, ready w t = Some v -> (v_deps v < w_next w)%nat /\ dkeys (w_pars w (v_deps v)) = map KDep (seq 0 (List.length (v_args v)));
  i_subs : forall t v p k, ready w t = Some v -> In (p, k) (v_subs v) -> (p < w_next w)%nat /\ In k (dkeys (w_pars w p));
  i_nodup : forall t v, ready w t = Some v -> NoDup (v_subs v);
  i_disj : forall t u v v' pk, ready w t = Some v -> ready w u = Some v' -> In pk (v_subs v) -> In pk (v_subs v') -> t = u;
  i_own : forall t v u v' i, ready w t = Some v -> ready w u = Some v' -> In (v_deps v, KDep i) (v_subs v') -> nth_error (v_args v) i = Some (Ref u);
  i_ref : forall t v i u, ready w t = Some v -> nth_error (v_args v) i = Some (Ref u) ->
            exists v', ready w u = Some v' /\ In (v_deps v, KDep i) (v_subs v') /\ (v_deps v' < v_deps v)%nat;
  i_num : forall t v i x, ready w t = Some v -> nth_error (v_args v) i = Some (Num x) -> dget (w_pars w (v_deps v)) (KDep i) = Some x;
  i_wf : forall p, wf (w_pars w p);
  i_inj : forall t u v v', ready w t = Some v -> ready w u = Some v' -> v_deps v = v_deps v' -> t = u
}.
(** slots of unconstrained variables *)
Definition Slots (w : world) : Prop := forall t v p k, ready w t = Some v -> v_compute v = None -> In (p, k) (v_subs v) ->
  dget (w_pars w p) k = Some (v_value v * v_scale v).

(** *** writing *)
Lemma write_vars w pk x : w_vars (write w pk x) = w_vars w. Proof. reflexivity. Qed.
Lemma write_get w p k x q l : dget (w_pars (write w (p, k) x) q) l = if (Nat.eqb q p && eqb l k)%bool then Some x else dget (w_pars w q) l.
Proof.
  unfold write, upd_par; cbn. destruct (Nat.eqb q p) eqn:E; [|reflexivity]. apply Nat.eqb_eq in E; subst q. rewrite dget_dset. reflexivity.
Qed.
Lemma write_keys w p k x q : In k (dkeys (w_pars w p)) -> dkeys (w_pars (write w (p, k) x) q) = dkeys (w_pars w q).
Proof.
  intros H. unfold write, upd_par; cbn. destruct (Nat.eqb q p) eqn:E; [|reflexivity]. apply Nat.eqb_eq in E; subst q. apply dset_keys_in, H.
Qed.

Lemma snd_ext (d d' : list (key * R)) : wf d -> dkeys d = dkeys d' -> (forall k, dget d k = dget d' k) -> d = d'.
Proof.
  revert d'. induction d as [|[k x] d IH]; intros [|[k' x'] d'] W K G; try discriminate; [reflexivity|].
  cbn in K. injection K as <- K. assert (E := G k). cbn in E. rewrite (proj2 (eqb_eq k k) eq_refl) in E. injection E as <-.
  inversion W as [|? ? Hn W']; subst. f_equal. apply IH; [exact W'|exact K|].
  intros l. assert (E := G l). cbn in E. destruct (eqb l k) eqn:El; [|exact E].
  apply eqb_eq in El; subst l. rewrite (proj2 (dget_None d k) Hn). symmetry. apply dget_None. unfold dkeys in *. rewrite <- K. exact Hn.
Qed.

Definition slot_dec (x y : nat * key) : {x = y} + {x <> y}.
Proof. decide equality; [apply key_eq|apply Nat.eq_dec]. Defined.
Lemma slot_dec_in p k v : {In (p, k) (v_subs v)} + {~ In (p, k) (v_subs v)}.
Proof. apply in_dec, slot_dec. Qed.
(** *** sync *)
Section Sync.
Variables (w : world) (t : str) (v : var).
Hypothesis I : Inv w.
Hypothesis Rt : ready w t = Some v.
Lemma own_not k : ~ In (v_deps v, k) (v_subs v).
Proof.
  intros H. destruct (i_deps w I _ _ Rt) as [_ K]. destruct (i_subs w I _ _ _ _ Rt H) as [_ Hk]. rewrite K in Hk.
  apply in_map_iff in Hk. destruct Hk as (i & <- & _). assert (N := i_own w I _ _ _ _ _ Rt Rt H).
  destruct (i_ref w I _ _ _ _ Rt N) as (v' & R' & _ & L). rewrite Rt in R'. injection R' as <-. lia.
Qed.
Lemma sync_loop l w' : (forall pk, In pk l -> In pk (v_subs v)) -> NoDup l -> w_vars w' = w_vars w -> w_next w' = w_next w ->
  (forall q, dkeys (w_pars w' q) = dkeys (w_pars w q)) -> w_pars w' (v_deps v) = w_pars w (v_deps v) ->
  let w2 := fold_left (fun w pk => write w pk (val_of w v * v_scale v)) l w' in
  w_vars w2 = w_vars w /\ w_next w2 = w_next w /\ (forall q, dkeys (w_pars w2 q) = dkeys (w_pars w q)) /\
  (forall q k, In (q, k) l -> dget (w_pars w2 q) k = Some (val_of w v * v_scale v)) /\
  (forall q k, ~ In (q, k) l -> dget (w_pars w2 q) k = dget (w_pars w' q) k).
Proof.
  revert w'. induction l as [|[p k] l IH]; intros w' Hs Hn V N K D w2.
  { subst w2. cbn. repeat split; try assumption; [intros q k []]. }
  assert (Hp : In (p, k) (v_subs v)) by (apply Hs; left; reflexivity).
  assert (Kp : In k (dkeys (w_pars w' p))) by (rewrite K; apply (i_subs w I _ _ _ _ Rt Hp)).
  set (w1 := write w' (p, k) (val_of w' v * v_scale v)) in *.
  assert (Ev : val_of w' v = val_of w v) by (unfold val_of; rewrite D; reflexivity).
  inversion Hn as [|? ? Hni Hn']; subst.
  assert (D1 : w_pars w1 (v_deps v) = w_pars w (v_deps v)).
  { unfold w1, write, upd_par; cbn. destruct (Nat.eqb (v_deps v) p) eqn:E; [|exact D]. apply Nat.eqb_eq in E. exfalso. apply (own_not k). rewrite E. exact Hp. }
  destruct (IH w1) as (a & b & c & d & e); [intros pk H; apply Hs; right; exact H|exact Hn'|exact V|exact N| |exact D1|].
  { intros q. unfold w1. rewrite write_keys by exact Kp. apply K. }
  change (fold_left (fun w pk => write w pk (val_of w v * v_scale v)) l w1) with w2 in *.
  split; [exact a|]. split; [exact b|]. split; [exact c|]. split.
  - intros q j [H|H]; [|apply d, H]. injection H as <- <-. rewrite e by exact Hni. unfold w1. rewrite write_get, Ev.
    rewrite Nat.eqb_refl. rewrite (proj2 (eqb_eq k k) eq_refl). reflexivity.
  - intros q j H. rewrite e by (intros H'; apply H; right; exact H'). unfold w1. rewrite write_get.
    destruct (Nat.eqb q p) eqn:E; [|reflexivity]. destruct (eqb j k) eqn:E2; [|reflexivity].
    exfalso. apply H. left. apply Nat.eqb_eq in E. apply eqb_eq in E2. congruence.
Qed.
Lemma sync_spec : let w2 := sync_var w v in
  w_vars w2 = w_vars w /\ w_next w2 = w_next w /\ (forall q, dkeys (w_pars w2 q) = dkeys (w_pars w q)) /\
  (forall q k, In (q, k) (v_subs v) -> dget (w_pars w2 q) k = Some (val_of w v * v_scale v)) /\
  (forall q k, ~ In (q, k) (v_subs v) -> dget (w_pars w2 q) k = dget (w_pars w q) k).
Proof. apply sync_loop; auto. apply (i_nodup w I _ _ Rt). Qed.
End Sync.

(** worlds that differ only by writes into subscribed slots keep the invariant *)
Lemma inv_pars w w2 : Inv w -> w_vars w2 = w_vars w -> w_next w2 = w_next w -> (forall q, dkeys (w_pars w2 q) = dkeys (w_pars w q)) ->
  (forall t v i x, ready w t = Some v -> nth_error (v_args v) i = Some (Num x) -> dget (w_pars w2 (v_deps v)) (KDep i) = dget (w_pars w (v_deps v)) (KDep i)) ->
  Inv w2.
Proof.
  intros I V N K D. assert (Rd := ready_pars _ _ V).
  constructor; intros.
  - rewrite Rd in H. destruct (i_deps w I _ _ H). rewrite N, K. auto.
  - rewrite Rd in H. rewrite N, K. apply (i_subs w I _ _ _ _ H H0).
  - rewrite Rd in H. apply (i_nodup w I _ _ H).
  - rewrite Rd in H, H0. apply (i_disj w I _ _ _ _ _ H H0 H1 H2).
  - rewrite Rd in H, H0. apply (i_own w I _ _ _ _ _ H H0 H1).
  - rewrite Rd in H. destruct (i_ref w I _ _ _ _ H H0) as (v' & a & b). exists v'. rewrite Rd. auto.
  - rewrite Rd in H. rewrite (D _ _ _ _ H H0). apply (i_num w I _ _ _ _ H H0).
  - unfold wf. rewrite K. apply (i_wf w I).
  - rewrite Rd in H, H0. apply (i_inj w I _ _ _ _ H H0 H1).
Qed.
Lemma num_not_sub w t v i x u v' : Inv w -> ready w t = Some v -> nth_error (v_args v) i = Some (Num x) -> ready w u = Some v' ->
  ~ In (v_deps v, KDep i) (v_subs v').
Proof. intros I H H0 Hu Hi. assert (E := i_own w I _ _ _ _ _ H Hu Hi). congruence. Qed.
Lemma inv_sync w t v : Inv w -> ready w t = Some v -> Inv (sync_var w v).
Proof.
  intros I Rt. destruct (sync_spec w t v I Rt) as (a & b & c & d & e). apply (inv_pars w); auto.
  intros u vu i x H H0. apply e. apply (num_not_sub _ _ _ _ _ _ _ I H H0 Rt).
Qed.
Lemma slots_sync w t v : Inv w -> ready w t = Some v -> Slots w -> Slots (sync_var w v).
Proof.
  intros I Rt S u vu p k Ru C Hi. destruct (sync_spec w t v I Rt) as (a & b & c & d & e). rewrite (ready_pars _ _ a) in Ru.
  destruct (in_dec slot_dec (p, k) (v_subs v)) as [Hv|Hv].
  - assert (E := i_disj w I _ _ _ _ _ Rt Ru Hv Hi). subst u. rewrite Rt in Ru. injection Ru as <-. rewrite (d _ _ Hv). unfold val_of. rewrite C. reflexivity.
  - rewrite (e _ _ Hv). apply (S _ _ _ _ Ru C Hi).
Qed.

(** *** changing fields that the invariant does not read *)
Definition same_shape (v v' : var) : Prop := v_subs v' = v_subs v /\ v_deps v' = v_deps v /\ v_args v' = v_args v.
Lemma inv_upd w t v v' : Inv w -> ready w t = Some v -> same_shape v v' -> Inv (upd_var w t (Ready v')).
Proof.
  intros I Rt (S1 & S2 & S3).
  assert (B : forall u x, ready (upd_var w t (Ready v')) u = Some x -> exists y, ready w u = Some y /\ v_subs x = v_subs y /\ v_deps x = v_deps y /\ v_args x = v_args y).
  { intros u x. rewrite ready_upd. destruct (eqb u t) eqn:E; [|intros H; exists x; auto]. apply eqb_eq in E; subst u. intros [= <-]. exists v. auto. }
  constructor; intros.
  - destruct (B _ _ H) as (y & Ry & e1 & e2 & e3). rewrite e2, e3. apply (i_deps w I _ _ Ry).
  - destruct (B _ _ H) as (y & Ry & e1 & e2 & e3). rewrite e1 in H0. apply (i_subs w I _ _ _ _ Ry H0).
  - destruct (B _ _ H) as (y & Ry & e1 & e2 & e3). rewrite e1. apply (i_nodup w I _ _ Ry).
  - destruct (B _ _ H) as (y & Ry & e1 & e2 & e3). destruct (B _ _ H0) as (y' & Ry' & f1 & f2 & f3). rewrite e1 in H1. rewrite f1 in H2. apply (i_disj w I _ _ _ _ _ Ry Ry' H1 H2).
  - destruct (B _ _ H) as (y & Ry & e1 & e2 & e3). destruct (B _ _ H0) as (y' & Ry' & f1 & f2 & f3). rewrite e3. rewrite e2, f1 in H1. apply (i_own w I _ _ _ _ _ Ry Ry' H1).
  - destruct (B _ _ H) as (y & Ry & e1 & e2 & e3). rewrite e3 in H0. destruct (i_ref w I _ _ _ _ Ry H0) as (x & Rx & Hx & L).
    rewrite e2. rewrite ready_upd. destruct (eqb u t) eqn:E; [|exists x; auto]. apply eqb_eq in E; subst u. exists v'. rewrite Rt in Rx. injection Rx as <-. rewrite S1, S2. auto.
  - destruct (B _ _ H) as (y & Ry & e1 & e2 & e3). rewrite e3 in H0. rewrite e2. apply (i_num w I _ _ _ _ Ry H0).
  - apply (i_wf w I).
  - destruct (B _ _ H) as (y & Ry & e1 & e2 & e3). destruct (B _ _ H0) as (y' & Ry' & f1 & f2 & f3). apply (i_inj w I _ _ _ _ Ry Ry'). congruence.
Qed.
Lemma shape_value v x : same_shape v (with_value v x). Proof. repeat split. Qed.

(** *** assignment *)
Lemma set_ok w t v x : ready w t = Some v -> in_bounds v x = true ->
  set_value w t x = (sync_var (upd_var w t (Ready (with_value v x))) (with_value v x), None).
Proof. intros Rt B. unfold set_value. rewrite Rt, B. reflexivity. Qed.
Lemma set_bad w t v x : ready w t = Some v -> in_bounds v x = false -> set_value w t x = (w, Some ValueError).
Proof. intros Rt B. unfold set_value. rewrite Rt, B. reflexivity. Qed.
Lemma ready_same w t i : ready (upd_var w t (Ready i)) t = Some i.
Proof. rewrite ready_upd, (proj2 (eqb_eq t t) eq_refl). reflexivity. Qed.
Lemma inv_set w t x : Inv w -> ready w t <> None -> Inv (fst (set_value w t x)).
Proof.
  intros I H. destruct (ready w t) as [v|] eqn:Rt; [|congruence]. destruct (in_bounds v x) eqn:B.
  - rewrite (set_ok _ _ _ _ Rt B). cbn [fst]. apply (inv_sync _ t); [|apply ready_same]. apply (inv_upd w t v); auto. apply shape_value.
  - rewrite (set_bad _ _ _ _ Rt B). exact I.
Qed.
Lemma slots_set w t x : Inv w -> Slots w -> ready w t <> None -> Slots (fst (set_value w t x)).
Proof.
  intros I S H. destruct (ready w t) as [v|] eqn:Rt; [|congruence]. destruct (in_bounds v x) eqn:B; [|rewrite (set_bad _ _ _ _ Rt B); exact S].
  rewrite (set_ok _ _ _ _ Rt B). cbn [fst]. set (v' := with_value v x). set (w1 := upd_var w t (Ready v')).
  assert (I1 : Inv w1) by (apply (inv_upd w t v); auto; apply shape_value).
  assert (R1 : ready w1 t = Some v') by apply ready_same.
  intros u vu p k Ru C Hi. destruct (sync_spec w1 t v' I1 R1) as (a & b & c & d & e). rewrite (ready_pars _ _ a) in Ru.
  destruct (in_dec slot_dec (p, k) (v_subs v')) as [Hv|Hv].
  - assert (E := i_disj w1 I1 _ _ _ _ _ R1 Ru Hv Hi). subst u. rewrite R1 in Ru. injection Ru as <-. rewrite (d _ _ Hv). unfold val_of. rewrite C. reflexivity.
  - rewrite (e _ _ Hv). assert (u <> t). { intros ->. rewrite R1 in Ru. injection Ru as <-. exact (Hv Hi). }
    unfold w1 in Ru. rewrite ready_upd in Ru. destruct (eqb u t) eqn:E; [apply eqb_eq in E; congruence|]. apply (S _ _ _ _ Ru C Hi).
Qed.

(** *** entering a container *)
Definition keys_of (u : str) (l : list (key * arg)) : list key :=
  flat_map (fun ka => match snd ka with Ref t => if eqb t u then [fst ka] else [] | _ => [] end) l.
Definition add_subs (v : var) (s : list (nat * key)) : var :=
  {| v_value := v_value v; v_lower := v_lower v; v_upper := v_upper v; v_scale := v_scale v; v_subs := v_subs v ++ s;
     v_compute := v_compute v; v_deps := v_deps v; v_args := v_args v |}.
Definition arg_val (w : world) (a : arg) : R :=
  match a with Num x => x | Ref t => match ready w t with Some v => val_of w v * v_scale v | None => 0 end end.
Lemma add_subs_nil v : add_subs v [] = v. Proof. destruct v; unfold add_subs; cbn. rewrite app_nil_r. reflexivity. Qed.
Lemma add_subs_app v a b : add_subs (add_subs v a) b = add_subs v (a ++ b).
Proof. unfold add_subs; cbn. rewrite app_assoc. reflexivity. Qed.
Lemma in_keys_of u l k : In k (keys_of u l) <-> In (k, Ref u) l.
Proof.
  unfold keys_of. rewrite in_flat_map. split.
  - intros ([k' [x|t]] & H & Hk); cbn in Hk; [contradiction|]. destruct (eqb t u) eqn:E; [|contradiction]. apply eqb_eq in E; subst t. destruct Hk as [->|[]]. exact H.
  - intros H. exists (k, Ref u). split; [exact H|]. cbn. rewrite (proj2 (eqb_eq u u) eq_refl). left; reflexivity.
Qed.
Lemma nodup_keys_of u l : NoDup (map fst l) -> NoDup (keys_of u l).
Proof.
  induction l as [|[k a] l IH]; cbn; intros H; [constructor|]. inversion H as [|? ? Hn H']; subst. specialize (IH H').
  destruct a as [x|t]; cbn; [exact IH|]. destruct (eqb t u); cbn; [|exact IH]. constructor; [|exact IH].
  intros Hk. apply Hn. apply in_keys_of in Hk. apply (in_map fst) in Hk. exact Hk.
Qed.
Lemma ready_register w t pk u : ready (register w t pk) u = if eqb t u then option_map (fun v => add_subs v [pk]) (ready w u) else ready w u.
Proof.
  unfold register. destruct (ready w t) as [v|] eqn:Rt.
  - rewrite ready_upd. destruct (eqb u t) eqn:E.
    + apply eqb_eq in E; subst u. rewrite (proj2 (eqb_eq t t) eq_refl), Rt. reflexivity.
    + destruct (eqb t u) eqn:E2; [apply eqb_eq in E2; apply eqb_neq in E; congruence|reflexivity].
  - destruct (eqb t u) eqn:E; [|reflexivity]. apply eqb_eq in E; subst u. rewrite Rt. reflexivity.
Qed.
Lemma val_register w t pk u v : val_of (register w t pk) (add_subs u v) = val_of w u.
Proof. unfold val_of, register; cbn. destruct (ready w t); reflexivity. Qed.
Lemma arg_register w t pk a : arg_val (register w t pk) a = arg_val w a.
Proof.
  destruct a as [x|u]; [reflexivity|]. unfold arg_val. rewrite ready_register. destruct (eqb t u); destruct (ready w u) as [v|]; cbn; try reflexivity.
  - rewrite val_register. reflexivity.
  - rewrite <- (add_subs_nil v) at 1. rewrite val_register. reflexivity.
Qed.
Lemma register_pars w t pk : w_pars (register w t pk) = w_pars w /\ w_next (register w t pk) = w_next w.
Proof. unfold register. destruct (ready w t); auto. Qed.
Lemma enter_spec p l : forall w w' d, enter w p l = (w', d) ->
  w_pars w' = w_pars w /\ w_next w' = w_next w /\ d = map (fun ka => (fst ka, arg_val w (snd ka))) l /\
  (forall u, ready w' u = option_map (fun v => add_subs v (map (pair p) (keys_of u l))) (ready w u)) /\
  (forall u, ready w u = None -> w_vars w' u = w_vars w u).
Proof.
  induction l as [|[k [x|t]] l IH]; intros w w' d; cbn [enter].
  - intros [= <- <-]. repeat split. intros u. destruct (ready w u) as [v|]; cbn; [rewrite add_subs_nil|]; reflexivity.
  - destruct (enter w p l) as [w1 d1] eqn:E. intros [= <- <-]. destruct (IH _ _ _ E) as (a & b & c & e & f). repeat split; auto. cbn. rewrite c. reflexivity.
  - set (w0 := register w t (p, k)). destruct (enter w0 p l) as [w1 d1] eqn:E. intros [= <- <-]. destruct (IH _ _ _ E) as (a & b & c & e & f).
    destruct (register_pars w t (p, k)) as [g h]. repeat split.
    + rewrite a. exact g.
    + rewrite b. exact h.
    + cbn [map fst snd]. f_equal.
      * f_equal. assert (T := arg_register w t (p, k) (Ref t)). fold w0 in T. cbn [arg_val] in T |- *. exact T.
      * rewrite c. apply map_ext. intros [k' a']. cbn. f_equal. apply arg_register.
    + intros u. rewrite e. unfold w0. rewrite ready_register. cbn [keys_of flat_map snd fst]. fold (keys_of u l).
      destruct (eqb t u); destruct (ready w u) as [v|]; cbn; try reflexivity. rewrite add_subs_app. reflexivity.
    + intros u Hu. rewrite f.
      * unfold w0, register. destruct (ready w t) as [v|] eqn:Rt; [|reflexivity]. unfold upd_var; cbn.
        destruct (eqb u t) eqn:E2; [apply eqb_eq in E2; congruence|reflexivity].
      * unfold w0. rewrite ready_register, Hu. destruct (eqb t u); reflexivity.
Qed.

Definition bump (w : world) : world := {| w_vars := w_vars w; w_pars := w_pars w; w_next := S (w_next w) |}.
Lemma new_params_spec w l w' p : new_params w l = (w', p) ->
  p = w_next w /\ w_next w' = S (w_next w) /\ w_pars w' p = map (fun ka => (fst ka, arg_val w (snd ka))) l /\
  (forall q, q <> p -> w_pars w' q = w_pars w q) /\
  (forall u, ready w' u = option_map (fun v => add_subs v (map (pair p) (keys_of u l))) (ready w u)) /\
  (forall u, ready w u = None -> w_vars w' u = w_vars w u).
Proof.
  unfold new_params. destruct (enter _ _ _) as [w1 d] eqn:E. intros [= <- <-].
  destruct (enter_spec _ _ _ _ _ E) as (a & b & c & e & f). cbn in a, b. repeat split.
  - exact b.
  - cbn. rewrite Nat.eqb_refl. exact c.
  - intros q Hq. cbn. destruct (Nat.eqb q (w_next w)) eqn:Eq; [apply Nat.eqb_eq in Eq; congruence|]. rewrite a. reflexivity.
  - exact e.
  - exact f.
Qed.

Lemma dget_map l (g : arg -> R) k a : NoDup (map fst l) -> In (k, a) l -> dget (map (fun ka : key * arg => (fst ka, g (snd ka))) l) k = Some (g a).
Proof.
  intros H Hi. apply dget_In.
  - unfold wf, dkeys. rewrite map_map. cbn. exact H.
  - apply in_map_iff. exists (k, a). auto.
Qed.
Lemma keys_map l (g : arg -> R) : dkeys (map (fun ka : key * arg => (fst ka, g (snd ka))) l) = map fst l.
Proof. unfold dkeys. rewrite map_map. reflexivity. Qed.
Lemma in_pair (p : nat) u l (q : nat) k : In (q, k) (map (pair p) (keys_of u l)) <-> q = p /\ In (k, Ref u) l.
Proof.
  rewrite in_map_iff. split.
  - intros (k' & [= <- <-] & H). split; [reflexivity|]. apply in_keys_of, H.
  - intros (-> & H). exists k. split; [reflexivity|]. apply in_keys_of, H.
Qed.

Lemma nodup_app {A} (a b : list A) : NoDup a -> NoDup b -> (forall x, In x a -> ~ In x b) -> NoDup (a ++ b).
Proof.
  induction a as [|x a IH]; cbn; intros Ha Hb D; [exact Hb|]. inversion Ha as [|? ? Hn Ha']; subst. constructor.
  - rewrite in_app_iff. intros [H|H]; [exact (Hn H)|]. apply (D x); [left; reflexivity|exact H].
  - apply IH; auto.
Qed.
(** the world after entering a container, with everything needed below *)
Lemma inv_params w l w' p : Inv w -> NoDup (map fst l) -> new_params w l = (w', p) -> Inv w'.
Proof.
  intros I ND E. destruct (new_params_spec _ _ _ _ E) as (Ep & En & Epp & Eq & Er & Ev). subst p. set (p := w_next w) in *.
  assert (B : forall u x, ready w' u = Some x -> exists y, ready w u = Some y /\ x = add_subs y (map (pair p) (keys_of u l))).
  { intros u x. rewrite Er. destruct (ready w u) as [y|]; cbn; [intros [= <-]; exists y; auto|discriminate]. }
  assert (Old : forall u y, ready w u = Some y -> v_deps y <> p) by (intros u y Ru; destruct (i_deps w I _ _ Ru); unfold p; lia).
  assert (OldS : forall u y k, ready w u = Some y -> ~ In (p, k) (v_subs y)) by (intros u y k Ru Hi; destruct (i_subs w I _ _ _ _ Ru Hi); unfold p in *; lia).
  constructor; intros.
  - destruct (B _ _ H) as (y & Ry & ->). cbn. rewrite Eq by (apply (Old _ _ Ry)). destruct (i_deps w I _ _ Ry). split; [lia|assumption].
  - destruct (B _ _ H) as (y & Ry & ->). cbn in H0. apply in_app_iff in H0. destruct H0 as [H0|H0].
    + destruct (i_subs w I _ _ _ _ Ry H0). split; [lia|]. rewrite Eq by (unfold p; lia). assumption.
    + apply in_pair in H0. destruct H0 as [-> H0]. split; [unfold p; lia|]. rewrite Epp, keys_map. apply (in_map fst) in H0. exact H0.
  - destruct (B _ _ H) as (y & Ry & ->). cbn. apply nodup_app; [apply (i_nodup w I _ _ Ry)| |].
    + apply FinFun.Injective_map_NoDup; [intros a b [= ->]; reflexivity|apply nodup_keys_of, ND].
    + intros [q k] H1 H2. apply in_pair in H2. destruct H2 as [-> _]. exact (OldS _ _ _ Ry H1).
  - destruct (B _ _ H) as (y & Ry & ->). destruct (B _ _ H0) as (y' & Ry' & ->). destruct pk as [q k]. cbn in H1, H2. apply in_app_iff in H1, H2.
    destruct H1 as [H1|H1], H2 as [H2|H2].
    + apply (i_disj w I _ _ _ _ _ Ry Ry' H1 H2).
    + apply in_pair in H2. destruct H2 as [-> _]. destruct (OldS _ _ _ Ry H1).
    + apply in_pair in H1. destruct H1 as [-> _]. destruct (OldS _ _ _ Ry' H2).
    + apply in_pair in H1, H2. destruct H1 as [_ H1], H2 as [_ H2].
      assert (F := dget_map l (fun a => match a with Num _ => 0 | _ => 1 end)). clear F.
      assert (Ref t = Ref u); [|congruence].
      assert (U : forall a b, In (k, a) l -> In (k, b) l -> a = b).
      { clear -ND. induction l as [|[k0 a0] l' IH]; [intros ? ? []|]. inversion ND as [|? ? Hn ND']; subst. intros a b [Ha|Ha] [Hb|Hb].
        - congruence.
        - exfalso. apply Hn. apply (in_map fst) in Hb. cbn in Hb. congruence.
        - exfalso. apply Hn. apply (in_map fst) in Ha. cbn in Ha. congruence.
        - apply IH; assumption. }
      exact (U _ _ H1 H2).
  - destruct (B _ _ H) as (y & Ry & ->). destruct (B _ _ H0) as (y' & Ry' & ->). cbn in *. apply in_app_iff in H1. destruct H1 as [H1|H1].
    + apply (i_own w I _ _ _ _ _ Ry Ry' H1).
    + apply in_pair in H1. destruct H1 as [H1 _]. destruct (Old _ _ Ry H1).
  - destruct (B _ _ H) as (y & Ry & ->). cbn in *. destruct (i_ref w I _ _ _ _ Ry H0) as (v' & Rv & Hi & L).
    exists (add_subs v' (map (pair p) (keys_of u l))). rewrite Er, Rv. cbn. split; [reflexivity|]. split; [apply in_app_iff; left; exact Hi|exact L].
  - destruct (B _ _ H) as (y & Ry & ->). cbn in *. rewrite Eq by (apply (Old _ _ Ry)). apply (i_num w I _ _ _ _ Ry H0).
  - destruct (Nat.eq_dec p0 p) as [->|n]; [|rewrite Eq by exact n; apply (i_wf w I)]. unfold wf. rewrite Epp, keys_map. exact ND.
  - destruct (B _ _ H) as (y & Ry & ->). destruct (B _ _ H0) as (y' & Ry' & ->). apply (i_inj w I _ _ _ _ Ry Ry' H1).
Qed.
Lemma slots_params w l w' p : Inv w -> Slots w -> NoDup (map fst l) -> new_params w l = (w', p) -> Slots w'.
Proof.
  intros I S ND E. destruct (new_params_spec _ _ _ _ E) as (Ep & En & Epp & Eq & Er & Ev). subst p. set (p := w_next w) in *.
  intros u x q k Ru C Hi. rewrite Er in Ru. destruct (ready w u) as [y|] eqn:Ry; [|discriminate]. cbn in Ru. injection Ru as <-. cbn in C, Hi |- *.
  apply in_app_iff in Hi. destruct Hi as [Hi|Hi].
  - destruct (i_subs w I _ _ _ _ Ry Hi). rewrite Eq by (unfold p; lia). apply (S _ _ _ _ Ry C Hi).
  - apply in_pair in Hi. destruct Hi as [-> Hi]. rewrite Epp. rewrite (dget_map _ _ _ _ ND Hi). unfold arg_val. rewrite Ry. unfold val_of. rewrite C. reflexivity.
Qed.

(** *** creating a variable *)
Lemma in_deps (ds : list arg) : forall s i a, In (KDep i, a) (combine (map KDep (seq s (List.length ds))) ds) <-> exists j, i = (s + j)%nat /\ nth_error ds j = Some a.
Proof.
  induction ds as [|d ds IH]; intros s i a; cbn.
  - split; [intros []|intros ([|j] & _ & H); discriminate].
  - split.
    + intros [H|H].
      * injection H as <- <-. exists 0%nat. split; [lia|reflexivity].
      * apply IH in H. destruct H as (j & -> & H). exists (S j). split; [lia|exact H].
    + intros ([|j] & -> & H); cbn in H.
      * injection H as <-. left. rewrite Nat.add_0_r. reflexivity.
      * right. apply IH. exists j. split; [lia|exact H].
Qed.
Lemma in_deps0 (ds : list arg) i a : In (KDep i, a) (combine (map KDep (seq 0 (List.length ds))) ds) <-> nth_error ds i = Some a.
Proof. rewrite in_deps. cbn. split; [intros (j & -> & H); exact H|intros H; exists i; auto]. Qed.
Lemma fst_deps {A} (ds : list A) s : map fst (combine (map KDep (seq s (List.length ds))) ds) = map KDep (seq s (List.length ds)).
Proof. revert s. induction ds as [|d ds IH]; intros s; cbn; [reflexivity|]. f_equal. apply IH. Qed.
Lemma nodup_deps n : NoDup (map KDep (seq 0 n)).
Proof. apply FinFun.Injective_map_NoDup; [intros a b [= ->]; reflexivity|apply seq_NoDup]. Qed.

Definition dep_list (ds : list arg) : list (key * arg) := combine (map KDep (seq 0 (List.length ds))) ds.
Lemma inv_new_ready w ds w1 p t nv : Inv w -> args_ok w ds -> ready w t = None -> new_params w (dep_list ds) = (w1, p) ->
  v_subs nv = [] -> v_deps nv = p -> v_args nv = ds -> Inv (upd_var w1 t (Ready nv)).
Proof.
  intros I Ao Rt E S0 S1 S2. assert (ND : NoDup (map fst (dep_list ds))) by (unfold dep_list; rewrite fst_deps; apply nodup_deps).
  assert (I1 := inv_params _ _ _ _ I ND E). destruct (new_params_spec _ _ _ _ E) as (Ep & En & Epp & Eq & Er & Ev). rewrite Ep in *; clear p Ep.
  assert (R1 : ready w1 t = None) by (rewrite Er, Rt; reflexivity).
  assert (B : forall u x, ready (upd_var w1 t (Ready nv)) u = Some x -> (u = t /\ x = nv) \/ (u <> t /\ ready w1 u = Some x)).
  { intros u x. rewrite ready_upd. destruct (eqb u t) eqn:Eu.
    - apply eqb_eq in Eu. intros [= <-]. auto.
    - apply eqb_neq in Eu. auto. }
  assert (G : forall u x, ready w1 u = Some x -> ready (upd_var w1 t (Ready nv)) u = Some x).
  { intros u x H. rewrite ready_upd. destruct (eqb u t) eqn:Eu; [apply eqb_eq in Eu; congruence|exact H]. }
  assert (Lt : forall u x, ready w1 u = Some x -> (v_deps x < w_next w)%nat).
  { intros u x. rewrite Er. destruct (ready w u) as [y|] eqn:Ry; [|discriminate]. cbn. intros [= <-]. cbn. apply (i_deps w I _ _ Ry). }
  constructor.
  - intros u x H. destruct (B _ _ H) as [[-> ->]|[_ H1]]; [|apply (i_deps w1 I1 _ _ H1)].
    rewrite S1, S2. split; [cbn; lia|]. change (w_pars (upd_var w1 t (Ready nv))) with (w_pars w1). rewrite Epp, keys_map. unfold dep_list. rewrite fst_deps. reflexivity.
  - intros u x q k H Hi. destruct (B _ _ H) as [[-> ->]|[_ H1]]; [rewrite S0 in Hi; destruct Hi|apply (i_subs w1 I1 _ _ _ _ H1 Hi)].
  - intros u x H. destruct (B _ _ H) as [[-> ->]|[_ H1]]; [rewrite S0; constructor|apply (i_nodup w1 I1 _ _ H1)].
  - intros u u' x x' pk H H' Hi Hi'. destruct (B _ _ H) as [[-> ->]|[_ H1]]; [rewrite S0 in Hi; destruct Hi|].
    destruct (B _ _ H') as [[-> ->]|[_ H1']]; [rewrite S0 in Hi'; destruct Hi'|]. apply (i_disj w1 I1 _ _ _ _ _ H1 H1' Hi Hi').
  - intros u x u' x' i H H' Hi. destruct (B _ _ H') as [[-> ->]|[_ H1']]; [rewrite S0 in Hi; destruct Hi|].
    destruct (B _ _ H) as [[-> ->]|[_ H1]]; [|apply (i_own w1 I1 _ _ _ _ _ H1 H1' Hi)].
    rewrite S1 in Hi. rewrite S2. rewrite Er in H1'. destruct (ready w u') as [y|] eqn:Ry; [|discriminate]. cbn in H1'. injection H1' as <-. cbn in Hi.
    apply in_app_iff in Hi. destruct Hi as [Hi|Hi]; [destruct (i_subs w I _ _ _ _ Ry Hi); lia|]. apply in_pair in Hi. apply in_deps0. apply Hi.
  - intros u x i u' H Hn. destruct (B _ _ H) as [[-> ->]|[_ H1]].
    + rewrite S2 in Hn. rewrite S1. destruct (ready w u') as [y|] eqn:Ry.
      * assert (R' : ready w1 u' = Some (add_subs y (map (pair (w_next w)) (keys_of u' (dep_list ds))))) by (rewrite Er, Ry; reflexivity).
        eexists. split; [apply G, R'|]. split; [|apply (Lt _ _ R')]. cbn. apply in_app_iff. right. apply in_pair. split; [reflexivity|]. apply in_deps0, Hn.
      * exfalso. apply (Ao u'); [apply (nth_error_In _ _ Hn)|exact Ry].
    + destruct (i_ref w1 I1 _ _ _ _ H1 Hn) as (v' & R' & Hv). exists v'. split; [apply G, R'|exact Hv].
  - intros u x i y H Hn. destruct (B _ _ H) as [[-> ->]|[_ H1]]; [|apply (i_num w1 I1 _ _ _ _ H1 Hn)].
    rewrite S1. rewrite S2 in Hn. change (w_pars (upd_var w1 t (Ready nv))) with (w_pars w1). rewrite Epp.
    rewrite (dget_map (dep_list ds) (arg_val w) (KDep i) (Num y) ND); [reflexivity|]. apply in_deps0, Hn.
  - apply (i_wf w1 I1).
  - intros u u' x x' H H' He. destruct (B _ _ H) as [[-> ->]|[_ H1]], (B _ _ H') as [[-> ->]|[_ H1']].
    + reflexivity.
    + apply Lt in H1'. lia.
    + apply Lt in H1. lia.
    + apply (i_inj w1 I1 _ _ _ _ H1 H1' He).
Qed.
(** adding a registry entry that is not usable *)
Lemma inv_entry w t i : Inv w -> ready w t = None -> (forall v, i <> Ready v) -> Inv (upd_var w t i).
Proof.
  intros I Rt Hi. assert (Rd : forall u, ready (upd_var w t i) u = ready w u).
  { intros u. rewrite ready_upd. destruct (eqb u t) eqn:E; [|reflexivity]. apply eqb_eq in E; subst u. rewrite Rt. destruct i as [| |v]; try reflexivity. destruct (Hi v eq_refl). }
  constructor; intros; repeat match goal with H : ready (upd_var w t i) _ = _ |- _ => rewrite Rd in H end.
  - apply (i_deps w I _ _ H).
  - apply (i_subs w I _ _ _ _ H H0).
  - apply (i_nodup w I _ _ H).
  - apply (i_disj w I _ _ _ _ _ H H0 H1 H2).
  - apply (i_own w I _ _ _ _ _ H H0 H1).
  - destruct (i_ref w I _ _ _ _ H H0) as (v' & a & b). exists v'. rewrite Rd. auto.
  - apply (i_num w I _ _ _ _ H H0).
  - apply (i_wf w I).
  - apply (i_inj w I _ _ _ _ H H0 H1).
Qed.
Lemma slots_entry w t i : Slots w -> ready w t = None -> (forall v, i <> Ready v) -> Slots (upd_var w t i).
Proof.
  intros S Rt Hi u v p k Ru C Hk. rewrite ready_upd in Ru. destruct (eqb u t) eqn:E.
  - destruct i as [| |v']; try discriminate. destruct (Hi v' eq_refl).
  - apply (S _ _ _ _ Ru C Hk).
Qed.
(** the outcomes of creation *)
Lemma new_cases w t i lo up sc c ds (P : world * option exn -> Prop) :
  (w_vars w t = Some Broken \/ (exists v, w_vars w t = Some (Ready v)) -> P (w, None)) ->
  (ready w t = None -> P (upd_var w t Broken, Some ValueError)) ->
  (ready w t = None -> P (upd_var w t Empty, Some ValueError)) ->
  (forall w1 p, ready w t = None -> lo <= i <= up -> new_params w (dep_list ds) = (w1, p) ->
     P (upd_var w1 t (Ready {| v_value := i; v_lower := lo; v_upper := up; v_scale := sc; v_subs := [];
               v_compute := match c with CFun f => Some f | _ => None end; v_deps := p; v_args := ds |}), None)) ->
  P (new_var w t i lo up sc c ds).
Proof.
  intros P1 P2 P3 P4. unfold new_var. fold (dep_list ds).
  assert (N : forall x, w_vars w t = x -> match x with Some (Ready _) => False | _ => True end -> ready w t = None).
  { intros x E. unfold ready. rewrite E. destruct x as [[| |]|]; auto; intros []. }
  destruct (w_vars w t) as [[| |v]|] eqn:E; try (apply P1; eauto); specialize (N _ eq_refl I);
  (destruct (Rle_dec lo i); [|apply P3, N]; destruct (Rle_dec i up); [|apply P3, N]; destruct c; try (apply P2, N);
   destruct (new_params w (dep_list ds)) as [w1 p] eqn:E1; apply P4; auto).
Qed.
Lemma inv_new w t i lo up sc c ds : Inv w -> args_ok w ds -> Inv (fst (new_var w t i lo up sc c ds)).
Proof.
  intros I Ao. apply new_cases; intros; cbn [fst].
  - exact I.
  - apply inv_entry; auto; discriminate.
  - apply inv_entry; auto; discriminate.
  - eapply inv_new_ready; eauto.
Qed.
Lemma slots_new w t i lo up sc c ds : Inv w -> Slots w -> Slots (fst (new_var w t i lo up sc c ds)).
Proof.
  intros I S. apply new_cases; intros; cbn [fst].
  - exact S.
  - apply slots_entry; auto; discriminate.
  - apply slots_entry; auto; discriminate.
  - assert (S1 : Slots w1). { apply (slots_params w (dep_list ds) w1 p I S); [|assumption]. unfold dep_list. rewrite fst_deps. apply nodup_deps. }
    intros u v q k Ru C Hk. rewrite ready_upd in Ru. destruct (eqb u t); [|apply (S1 _ _ _ _ Ru C Hk)]. injection Ru as <-. destruct Hk.
Qed.
Lemma inv_poke w p k x : Inv w -> (forall t v, ready w t = Some v -> v_deps v <> p) -> Inv (poke w p k x).
Proof.
  intros I Hp. unfold poke.
  assert (O : forall t v, ready w t = Some v -> w_pars (write w (p, k) x) (v_deps v) = w_pars w (v_deps v)).
  { intros t v Rt. unfold write, upd_par; cbn. destruct (Nat.eqb (v_deps v) p) eqn:E; [|reflexivity]. apply Nat.eqb_eq in E. destruct (Hp _ _ Rt E). }
  assert (K : forall q j, In j (dkeys (w_pars w q)) -> In j (dkeys (w_pars (write w (p, k) x) q))).
  { intros q j H. unfold write, upd_par; cbn. destruct (Nat.eqb q p) eqn:E; [|exact H]. apply Nat.eqb_eq in E; subst q. apply dset_keys_iff. auto. }
  constructor; intros; repeat match goal with H : ready (write w _ _) _ = _ |- _ => rewrite (ready_pars _ w eq_refl) in H end.
  - rewrite (O _ _ H). apply (i_deps w I _ _ H).
  - destruct (i_subs w I _ _ _ _ H H0). split; [assumption|]. apply K. assumption.
  - apply (i_nodup w I _ _ H).
  - apply (i_disj w I _ _ _ _ _ H H0 H1 H2).
  - apply (i_own w I _ _ _ _ _ H H0 H1).
  - apply (i_ref w I _ _ _ _ H H0).
  - rewrite (O _ _ H). apply (i_num w I _ _ _ _ H H0).
  - unfold write, upd_par; cbn. destruct (Nat.eqb p0 p); [apply dset_wf|]; apply (i_wf w I).
  - apply (i_inj w I _ _ _ _ H H0 H1).
Qed.
Lemma inv_start : Inv start.
Proof. constructor; try discriminate. intros p. constructor. Qed.
Lemma reach_inv b w : reach b w -> Inv w.
Proof.
  induction 1 as [| w t i lo up sc c ds H IH Ao|w l H IH Hn Ao|w t x H IH Hr|w t H IH Hr|w p k x H IH Hb Hp Hl].
  - apply inv_start.
  - apply inv_new; assumption.
  - destruct (new_params w l) as [w' p] eqn:E. apply (inv_params w l w' p); assumption.
  - apply inv_set; assumption.
  - unfold sync. destruct (ready w t) as [v|] eqn:Rt; [|congruence]. apply (inv_sync w t); assumption.
  - apply inv_poke; assumption.
Qed.
Lemma reach_slots w : reach false w -> Slots w.
Proof.
  remember false as b eqn:Eb. induction 1 as [| w t i lo up sc c ds H IH Ao|w l H IH Hn Ao|w t x H IH Hr|w t H IH Hr|w p k x H IH Hb Hp Hl].
  - intros t v p k Ht. discriminate.
  - apply slots_new; [apply (reach_inv b), H|exact IH].
  - destruct (new_params w l) as [w' p] eqn:E. apply (slots_params w l w' p); auto. apply (reach_inv b), H.
  - apply slots_set; auto. apply (reach_inv b), H.
  - unfold sync. destruct (ready w t) as [v|] eqn:Rt; [|congruence]. apply (slots_sync w t); auto. apply (reach_inv b), H.
  - congruence.
Qed.

(** *** bounds *)
Definition Bounds (w : world) : Prop := forall t v, ready w t = Some v -> v_lower v <= v_value v <= v_upper v.
Lemma in_bounds_iff v x : in_bounds v x = true <-> v_lower v <= x <= v_upper v.
Proof. unfold in_bounds. destruct (Rle_dec (v_lower v) x), (Rle_dec x (v_upper v)); split; intros; try discriminate; tauto. Qed.
Lemma sync_vars w v : w_vars (sync_var w v) = w_vars w.
Proof. unfold sync_var. generalize (v_subs v). intros l. revert w. induction l as [|pk l IH]; intros w; cbn; [reflexivity|]. rewrite IH. reflexivity. Qed.
Lemma sync_next w v : w_next (sync_var w v) = w_next w.
Proof. unfold sync_var. generalize (v_subs v). intros l. revert w. induction l as [|pk l IH]; intros w; cbn; [reflexivity|]. rewrite IH. reflexivity. Qed.
Lemma reach_bounds b w : reach b w -> Bounds w.
Proof.
  induction 1 as [| w t i lo up sc c ds H IH Ao|w l H IH Hn Ao|w t x H IH Hr|w t H IH Hr|w p k x H IH Hb Hp Hl].
  - intros t v Ht. discriminate.
  - apply new_cases; intros; cbn [fst]; [exact IH| | |].
    + intros u v Hu. rewrite ready_upd in Hu. destruct (eqb u t); [discriminate|]. apply (IH _ _ Hu).
    + intros u v Hu. rewrite ready_upd in Hu. destruct (eqb u t); [discriminate|]. apply (IH _ _ Hu).
    + intros u v Hu. rewrite ready_upd in Hu. destruct (eqb u t); [injection Hu as <-; cbn; assumption|].
      destruct (new_params_spec _ _ _ _ H2) as (_ & _ & _ & _ & Er & _). rewrite Er in Hu. destruct (ready w u) as [y|] eqn:Ry; [|discriminate]. cbn in Hu. injection Hu as <-. cbn. apply (IH _ _ Ry).
  - destruct (new_params w l) as [w' p] eqn:E. cbn [fst]. intros u v Hu. destruct (new_params_spec _ _ _ _ E) as (_ & _ & _ & _ & Er & _).
    rewrite Er in Hu. destruct (ready w u) as [y|] eqn:Ry; [|discriminate]. cbn in Hu. injection Hu as <-. cbn. apply (IH _ _ Ry).
  - destruct (ready w t) as [v|] eqn:Rt; [|congruence]. destruct (in_bounds v x) eqn:B; [|rewrite (set_bad _ _ _ _ Rt B); exact IH].
    rewrite (set_ok _ _ _ _ Rt B). cbn [fst]. intros u y Hu. rewrite (ready_pars _ _ (sync_vars _ _)), ready_upd in Hu.
    destruct (eqb u t); [|apply (IH _ _ Hu)]. injection Hu as <-. cbn. apply in_bounds_iff, B.
  - unfold sync. destruct (ready w t) as [v|] eqn:Rt; [|congruence]. cbn [fst]. intros u y Hu. rewrite (ready_pars _ _ (sync_vars _ _)) in Hu. apply (IH _ _ Hu).
  - intros u y Hu. apply (IH u y Hu).
Qed.

(** *** true values *)
Scheme tv_mut := Minimality for true_value Sort Prop with ta_mut := Minimality for true_args Sort Prop.
Combined Scheme tv_ta from tv_mut, ta_mut.
Lemma true_det w : (forall t x, true_value w t x -> forall y, true_value w t y -> x = y) /\ (forall l xs, true_args w l xs -> forall ys, true_args w l ys -> xs = ys).
Proof.
  apply (tv_ta w (fun t x => forall y, true_value w t y -> x = y) (fun l xs => forall ys, true_args w l ys -> xs = ys)).
  - intros t v Rt C y Hy. inversion Hy; subst; congruence.
  - intros t v f xs Rt C Hx IH y Hy. inversion Hy as [t' v' Rt' C' E1 E2|t' v' f' xs' Rt' C' Hx' E1 E2]; subst; [congruence|].
    assert (v' = v) by congruence. subst v'. assert (f' = f) by congruence. subst f'. f_equal. apply IH, Hx'.
  - intros ys Hy. inversion Hy. reflexivity.
  - intros x l xs Hx IH ys Hy. inversion Hy; subst. f_equal. apply IH. assumption.
  - intros t v x l xs Rt Hx IHx Hl IHl ys Hy. inversion Hy as [| |t' v' x' l' xs' Rt' Hx' Hl' E1 E2]; subst.
    assert (v' = v) by congruence. subst v'. f_equal; [f_equal; apply IHx, Hx'|apply IHl, Hl'].
Qed.
(** the true values only depend on the declared data *)
Lemma true_vars w w2 : w_vars w2 = w_vars w -> (forall t x, true_value w t x -> true_value w2 t x) /\ (forall l xs, true_args w l xs -> true_args w2 l xs).
Proof.
  intros V. assert (Rd := ready_pars _ _ V). apply (tv_ta w (true_value w2) (true_args w2)).
  - intros t v Rt C. apply tv_free; [rewrite Rd; exact Rt|exact C].
  - intros t v f xs Rt C _ H. eapply tv_con; [rewrite Rd; exact Rt|exact C|exact H].
  - constructor.
  - intros x l xs _ H. constructor. exact H.
  - intros t v x l xs Rt _ Hx _ Hl. apply ta_ref; [rewrite Rd; exact Rt|exact Hx|exact Hl].
Qed.
Lemma true_ex_args w l : (forall u, In (Ref u) l -> exists v x, ready w u = Some v /\ true_value w u x) -> exists xs, true_args w l xs.
Proof.
  induction l as [|[x|t] l IH]; intros H.
  - exists []. constructor.
  - destruct IH as [xs Hx]; [intros u Hu; apply H; right; exact Hu|]. exists (x :: xs). constructor. exact Hx.
  - destruct IH as [xs Hx]; [intros u Hu; apply H; right; exact Hu|]. destruct (H t) as (v & x & Rt & T); [left; reflexivity|].
    exists (x * v_scale v :: xs). constructor; assumption.
Qed.
Lemma true_ex w : Inv w -> forall n t v, ready w t = Some v -> (v_deps v < n)%nat -> exists x, true_value w t x.
Proof.
  intros I. induction n as [|n IH]; intros t v Rt L; [lia|]. destruct (v_compute v) as [f|] eqn:C.
  - destruct (true_ex_args w (v_args v)) as [xs Hx].
    + intros u Hu. apply In_nth_error in Hu. destruct Hu as [i Hi]. destruct (i_ref w I _ _ _ _ Rt Hi) as (v' & R' & _ & L'). destruct (IH u v' R') as [x T]; [lia|]. exists v', x. auto.
    + exists (f xs). eapply tv_con; eauto.
  - exists (v_value v). apply tv_free; assumption.
Qed.

(** *** reading a constrained variable *)
Lemma snd_seq (xs : list R) : forall a d, dkeys d = map KDep (seq a (List.length xs)) ->
  (forall i x, nth_error xs i = Some x -> dget d (KDep (a + i)) = Some x) -> map snd d = xs.
Proof.
  induction xs as [|x xs IH]; intros a d K G.
  - cbn in K. destruct d; [reflexivity|discriminate].
  - destruct d as [|[k y] d]; [discriminate|]. cbn in K. injection K as -> K. cbn.
    assert (E := G 0%nat x eq_refl). rewrite Nat.add_0_r in E. cbn in E. rewrite (proj2 (eqb_eq (KDep a) (KDep a)) eq_refl) in E. injection E as ->. f_equal.
    apply (IH (S a)); [exact K|]. intros i z H. assert (E := G (S i) z H). cbn in E. replace (S a + i)%nat with (a + S i)%nat by lia.
    destruct (eqb (KDep (a + S i)) (KDep a)) eqn:E2; [apply eqb_eq in E2; injection E2 as E2; lia|exact E].
Qed.
Lemma true_args_nth w l xs : true_args w l xs -> List.length xs = List.length l /\
  forall i x, nth_error xs i = Some x -> nth_error l i = Some (Num x) \/
    (exists u v y, nth_error l i = Some (Ref u) /\ ready w u = Some v /\ true_value w u y /\ x = y * v_scale v).
Proof.
  induction 1 as [|x l xs H [L IH]|t v x l xs Rt T H [L IH]]; cbn.
  - split; [reflexivity|]. intros [|i] x; discriminate.
  - split; [congruence|]. intros [|i] y E; cbn in *; [injection E as <-; auto|apply IH, E].
  - split; [congruence|]. intros [|i] y E; cbn in *; [injection E as <-; right; exists t, v, x; auto|apply IH, E].
Qed.
(** slots of [u] are up to date *)
Definition settled (w : world) (u : str) : Prop := forall v x p k, ready w u = Some v -> true_value w u x -> In (p, k) (v_subs v) -> dget (w_pars w p) k = Some (x * v_scale v).
Lemma val_true w t v x : Inv w -> ready w t = Some v -> (forall u, In (Ref u) (v_args v) -> settled w u) -> true_value w t x -> val_of w v = x.
Proof.
  intros I Rt S T. unfold val_of. inversion T as [t' v' R' C' E1 E2|t' v' f xs R' C' Hx E1 E2]; subst; assert (v' = v) by congruence; subst v'; rewrite C'; [reflexivity|].
  f_equal. destruct (true_args_nth _ _ _ Hx) as [L N]. destruct (i_deps w I _ _ Rt) as [_ K].
  apply (snd_seq xs 0); [rewrite L; exact K|]. cbn. intros i y Hi. destruct (N _ _ Hi) as [Hn|(u & v' & z & Hn & Ru & Tu & ->)].
  - apply (i_num w I _ _ _ _ Rt Hn).
  - destruct (i_ref w I _ _ _ _ Rt Hn) as (v2 & R2 & H2 & _). assert (v2 = v') by congruence. subst v2. apply (S u (nth_error_In _ _ Hn) v' z); assumption.
Qed.
Lemma settled_free w t v : Slots w -> ready w t = Some v -> v_compute v = None -> settled w t.
Proof.
  intros S Rt C v' x p k R' T Hi. assert (v' = v) by congruence. subst v'. inversion T; subst; [|congruence]. assert (v0 = v) by congruence. subst v0. apply (S _ _ _ _ Rt C Hi).
Qed.
Lemma settled_keep w t v u : Inv w -> ready w t = Some v -> (forall x, true_value w t x -> val_of w v = x) -> settled w u -> settled (sync_var w v) u.
Proof.
  intros I Rt Hv S v' x p k R' T Hi. destruct (sync_spec w t v I Rt) as (a & b & c & d & e). rewrite (ready_pars _ _ a) in R'.
  assert (T' := proj1 (true_vars _ _ (eq_sym a)) _ _ T).
  destruct (slot_dec_in p k v) as [H|H].
  - assert (t = u) by (apply (i_disj w I _ _ _ _ _ Rt R' H Hi)). subst u. assert (v' = v) by congruence. subst v'. rewrite (d _ _ H). rewrite (Hv _ T'). reflexivity.
  - rewrite (e _ _ H). apply (S v' x p k R' T' Hi).
Qed.
Lemma settled_sync w t v : Inv w -> ready w t = Some v -> (forall x, true_value w t x -> val_of w v = x) -> settled (sync_var w v) t.
Proof.
  intros I Rt Hv v' x p k R' T Hi. destruct (sync_spec w t v I Rt) as (a & b & c & d & e). rewrite (ready_pars _ _ a) in R'.
  assert (v' = v) by congruence. subst v'. rewrite (d _ _ Hi). rewrite (Hv _ (proj1 (true_vars _ _ (eq_sym a)) _ _ T)). reflexivity.
Qed.
Lemma sync_all_ok l : forall w done, Inv w -> Slots w ->
  (forall t, In t done -> settled w t) ->
  (forall pre d post v u, l = pre ++ d :: post -> ready w d = Some v -> In (Ref u) (v_args v) -> constrained w u = true -> In u (done ++ pre)) ->
  (forall t, In t l -> ready w t <> None) ->
  exists w', sync_all w l = (w', None) /\ Inv w' /\ Slots w' /\ w_vars w' = w_vars w /\ w_next w' = w_next w /\ (forall t, In t (done ++ l) -> settled w' t).
Proof.
  induction l as [|d l IH]; intros w done I S D O Rl.
  - exists w. split; [reflexivity|]. split; [exact I|]. split; [exact S|]. split; [reflexivity|]. split; [reflexivity|]. rewrite app_nil_r. exact D.
  - cbn [sync_all]. unfold sync. destruct (ready w d) as [v|] eqn:Rd; [|destruct (Rl d (or_introl eq_refl) Rd)].
    assert (Hv : forall x, true_value w d x -> val_of w v = x).
    { intros x. apply (val_true w d); auto. intros u Hu. destruct (constrained w u) eqn:Cu.
      - apply D. assert (H := O [] d l v u eq_refl Rd Hu Cu). rewrite app_nil_r in H. exact H.
      - apply In_nth_error in Hu. destruct Hu as [i Hi]. destruct (i_ref w I _ _ _ _ Rd Hi) as (v' & R' & _). unfold constrained in Cu. rewrite R' in Cu.
        destruct (v_compute v') eqn:C'; [discriminate|]. apply (settled_free w u v'); assumption. }
    set (w1 := sync_var w v). assert (V1 : w_vars w1 = w_vars w) by apply sync_vars.
    destruct (IH w1 (done ++ [d])) as (w' & E & I' & S' & V' & N' & D').
    + apply (inv_sync w d); assumption.
    + apply (slots_sync w d); assumption.
    + intros t Ht. apply in_app_iff in Ht. destruct Ht as [Ht|[<-|[]]].
      * apply (settled_keep w d); auto.
      * apply settled_sync; assumption.
    + intros pre e post y u El Ry Hu Cu. rewrite (ready_pars _ _ V1) in Ry. unfold constrained in Cu. rewrite (ready_pars _ _ V1) in Cu. fold (constrained w u) in Cu.
      assert (H := O (d :: pre) e post y u ltac:(cbn; rewrite El; reflexivity) Ry Hu Cu). rewrite <- app_assoc. exact H.
    + intros t Ht. rewrite (ready_pars _ _ V1). apply Rl. right. exact Ht.
    + exists w'. split; [exact E|]. split; [exact I'|]. split; [exact S'|]. split; [congruence|]. split; [rewrite N'; apply sync_next|].
      intros t Ht. apply D'. rewrite <- app_assoc. exact Ht.
Qed.

(** *** a calculation step *)
Lemma set_vars w t x w' : set_value w t x = (w', None) -> exists v, ready w t = Some v /\ in_bounds v x = true /\ w_next w' = w_next w /\
  (forall u, ready w' u = if eqb u t then Some (with_value v x) else ready w u) /\ (forall u, u <> t -> w_vars w' u = w_vars w u).
Proof.
  unfold set_value. destruct (ready w t) as [v|] eqn:Rt; [|discriminate]. destruct (in_bounds v x) eqn:B; [|discriminate]. intros [= <-].
  exists v. split; [reflexivity|]. split; [exact B|]. split; [rewrite sync_next; reflexivity|]. split.
  - intros u. rewrite (ready_pars _ _ (sync_vars _ _)), ready_upd. reflexivity.
  - intros u Hu. rewrite sync_vars. unfold upd_var; cbn. destruct (eqb u t) eqn:E; [apply eqb_eq in E; congruence|reflexivity].
Qed.
Lemma set_all_reach b l : forall w w' e, reach b w -> (forall t x, In (t, x) l -> ready w t <> None) -> set_all w l = (w', e) -> reach b w' /\ (forall u, ready w u <> None -> ready w' u <> None).
Proof.
  induction l as [|[t x] l IH]; intros w w' e H Rl; cbn [set_all].
  - intros [= <- <-]. auto.
  - assert (Rt := Rl t x (or_introl eq_refl)). destruct (set_value w t x) as [w1 [e1|]] eqn:E.
    + intros [= <- <-]. assert (X : reach b (fst (set_value w t x))) by (apply r_set; assumption). rewrite E in X. split; [exact X|].
      unfold set_value in E. destruct (ready w t) as [v|]; [|congruence]. destruct (in_bounds v x); [discriminate|]. injection E as <- _. auto.
    + assert (X : reach b (fst (set_value w t x))) by (apply r_set; assumption). rewrite E in X. cbn in X.
      destruct (set_vars _ _ _ _ E) as (v & Rv & _ & _ & Rd & _).
      assert (K : forall u, ready w u <> None -> ready w1 u <> None) by (intros u Hu; rewrite Rd; destruct (eqb u t); [discriminate|exact Hu]).
      intros Hs. destruct (IH w1 w' e X) as [Y Z]; [intros u y Hu; apply K, (Rl u y); right; exact Hu|exact Hs|]. auto.
Qed.
Lemma sync_all_reach b l : forall w w' e, reach b w -> (forall t, In t l -> ready w t <> None) -> sync_all w l = (w', e) -> reach b w' /\ w_vars w' = w_vars w /\ e = None.
Proof.
  induction l as [|t l IH]; intros w w' e H Rl; cbn [sync_all].
  - intros [= <- <-]. auto.
  - assert (Rt := Rl t (or_introl eq_refl)). unfold sync. destruct (ready w t) as [v|] eqn:Rv; [|congruence].
    assert (X : reach b (fst (sync w t))) by (apply r_sync; [exact H|congruence]). unfold sync in X. rewrite Rv in X. cbn in X.
    intros Hs. destruct (IH (sync_var w v) w' e X) as (Y & Z & W).
    + intros u Hu. rewrite (ready_pars _ _ (sync_vars _ _)). apply Rl. right. exact Hu.
    + exact Hs.
    + rewrite sync_vars in Z. auto.
Qed.
(** the values after a list of assignments *)
Lemma set_all_vals l : forall w w', NoDup (map fst l) -> set_all w l = (w', None) ->
  (forall t x, In (t, x) l -> exists v, ready w t = Some v /\ v_lower v <= x <= v_upper v /\ ready w' t = Some (with_value v x)) /\
  (forall t, ~ In t (map fst l) -> w_vars w' t = w_vars w t).
Proof.
  induction l as [|[t x] l IH]; intros w w' ND; cbn [set_all].
  - intros [= <-]. split; [intros t x []|reflexivity].
  - destruct (set_value w t x) as [w1 [e1|]] eqn:E; [discriminate|]. intros Hs. cbn in ND. inversion ND as [|? ? Hn ND']; subst.
    destruct (set_vars _ _ _ _ E) as (v & Rv & B & _ & Rd & Vd). destruct (IH _ _ ND' Hs) as [P1 P2]. split.
    + intros u y [Hu|Hu].
      * injection Hu as <- <-. exists v. split; [exact Rv|]. split; [apply in_bounds_iff, B|]. unfold ready. rewrite (P2 t Hn). fold (ready w1 t). rewrite Rd, (proj2 (eqb_eq t t) eq_refl). reflexivity.
      * destruct (P1 _ _ Hu) as (y' & Ry & By & Ry'). assert (u <> t) by (intros ->; apply Hn; apply (in_map fst) in Hu; exact Hu).
        rewrite Rd in Ry. destruct (eqb u t) eqn:Eu; [apply eqb_eq in Eu; congruence|]. exists y'. auto.
    + intros u Hu. cbn in Hu. rewrite P2 by tauto. apply Vd. intros ->; apply Hu; auto.
Qed.
Lemma set_all_fail l : forall w w' e, NoDup (map fst l) -> (forall t x, In (t, x) l -> ready w t <> None) -> set_all w l = (w', Some e) ->
  e = ValueError /\ exists pre t x post v, l = pre ++ (t, x) :: post /\ ready w t = Some v /\ ~ (v_lower v <= x <= v_upper v) /\ set_all w pre = (w', None).
Proof.
  induction l as [|[t x] l IH]; intros w w' e ND Rl; cbn [set_all]; [discriminate|].
  destruct (set_value w t x) as [w1 [e1|]] eqn:E.
  - intros [= <- <-]. unfold set_value in E. destruct (ready w t) as [v|] eqn:Rv; [|destruct (Rl t x (or_introl eq_refl) Rv)].
    destruct (in_bounds v x) eqn:B; [discriminate|]. injection E as <- <-. split; [reflexivity|]. exists [], t, x, l, v. repeat split; auto.
    intros H. apply in_bounds_iff in H. congruence.
  - cbn in ND. inversion ND as [|? ? Hn ND']; subst. destruct (set_vars _ _ _ _ E) as (v & Rv & B & _ & Rd & Vd). intros Hs.
    destruct (IH w1 w' e ND') as (-> & pre & u & y & post & v' & -> & Ru & Bu & Hp).
    + intros u y Hu. rewrite Rd. destruct (eqb u t); [discriminate|]. apply (Rl u y). right. exact Hu.
    + exact Hs.
    + split; [reflexivity|]. exists ((t, x) :: pre), u, y, post, v'. split; [reflexivity|].
      assert (u <> t). { intros ->. apply Hn. rewrite map_app, in_app_iff. right. left. reflexivity. }
      rewrite Rd in Ru. destruct (eqb u t) eqn:Eu; [apply eqb_eq in Eu; congruence|]. repeat split; auto. cbn [set_all]. rewrite E. exact Hp.
Qed.
Definition alike (v v' : var) : Prop := v_args v' = v_args v /\ v_compute v' = v_compute v /\ v_subs v' = v_subs v /\ v_scale v' = v_scale v /\ v_deps v' = v_deps v
  /\ v_lower v' = v_lower v /\ v_upper v' = v_upper v.
Lemma alike_refl v : alike v v. Proof. repeat split. Qed.
Lemma set_all_alike l : forall w w' e, set_all w l = (w', e) -> forall u, match ready w u, ready w' u with Some v, Some v' => alike v v' | None, None => True | _, _ => False end.
Proof.
  induction l as [|[t x] l IH]; intros w w' e; cbn [set_all].
  - intros [= <- <-] u. destruct (ready w u); [apply alike_refl|exact Logic.I].
  - destruct (set_value w t x) as [w1 [e1|]] eqn:E.
    + intros [= <- <-] u. unfold set_value in E. destruct (ready w t) as [v|]; [destruct (in_bounds v x); [discriminate|]|]; injection E as <- _; (destruct (ready w u); [apply alike_refl|exact Logic.I]).
    + intros Hs u. assert (H := IH _ _ _ Hs u). destruct (set_vars _ _ _ _ E) as (v & Rv & _ & _ & Rd & _). rewrite Rd in H. destruct (eqb u t) eqn:Eu; [|exact H].
      apply eqb_eq in Eu; subst u. rewrite Rv. destruct (ready w' t) as [v'|]; [|exact H]. destruct H as (a & b & c & d & f & g & h). cbn in *. repeat split; assumption.
Qed.
Lemma set_all_some l w w' e : set_all w l = (w', e) -> forall u v', ready w' u = Some v' -> exists v, ready w u = Some v /\ alike v v'.
Proof. intros H u v' R'. assert (A := set_all_alike _ _ _ _ H u). rewrite R' in A. destruct (ready w u) as [v|]; [exists v; auto|destruct A]. Qed.
Lemma constrained_alike w w' : (forall u, match ready w u, ready w' u with Some v, Some v' => alike v v' | None, None => True | _, _ => False end) ->
  forall u, constrained w' u = constrained w u.
Proof.
  intros A u. specialize (A u). unfold constrained. destruct (ready w u) as [v|], (ready w' u) as [v'|]; try destruct A; [|reflexivity]. destruct H0 as (-> & _). reflexivity.
Qed.
Lemma set_all_succeeds l : forall w, NoDup (map fst l) -> (forall t x, In (t, x) l -> exists v, ready w t = Some v /\ v_lower v <= x <= v_upper v) -> exists w', set_all w l = (w', None).
Proof.
  induction l as [|[t x] l IH]; intros w ND H; cbn [set_all]; [exists w; reflexivity|].
  destruct (H t x (or_introl eq_refl)) as (v & Rv & B). apply in_bounds_iff in B. inversion ND as [|? ? Hn ND']; subst.
  destruct (set_value w t x) as [w1 e] eqn:E. assert (e = None) as -> by (unfold set_value in E; rewrite Rv, B in E; congruence).
  destruct (set_vars _ _ _ _ E) as (v2 & _ & _ & _ & Rd & _). apply IH; [exact ND'|]. intros u y Hu.
  assert (u <> t) by (intros ->; apply Hn; apply (in_map fst) in Hu; exact Hu).
  rewrite Rd. destruct (eqb u t) eqn:Eu; [apply eqb_eq in Eu; congruence|]. apply H. right. exact Hu.
Qed.
Lemma map_fst_combine {A B} (a : list A) (b : list B) : List.length b = List.length a -> map fst (combine a b) = a.
Proof. revert b. induction a as [|x a IH]; intros [|y b] H; cbn in *; try discriminate; [reflexivity|]. f_equal. apply IH. lia. Qed.

(** what holds after a calculation step *)
Definition done (w : world) (vars ders : list str) (args : list R) (w' : world) : Prop :=
  (forall t x, In (t, x) (combine vars args) -> get_value w' t = Ok x /\
     forall v p k, ready w' t = Some v -> In (p, k) (v_subs v) -> holds w' p k (x * v_scale v)) /\
  (forall d, In d ders -> exists x, true_value w' d x /\ get_value w' d = Ok x /\
     forall v p k, ready w' d = Some v -> In (p, k) (v_subs v) -> holds w' p k (x * v_scale v)) /\
  (forall u, ~ In u vars -> w_vars w' u = w_vars w u).
Lemma cal_ok w vars ders args : reach false w -> NoDup vars -> List.length args = List.length vars ->
  (forall t, In t vars -> constrained w t = false) ->
  (forall t x, In (t, x) (combine vars args) -> exists v, ready w t = Some v /\ v_lower v <= x <= v_upper v) ->
  (forall d, In d ders -> ready w d <> None) -> in_order w ders ->
  exists w', cal w vars ders args = (w', None) /\ reach false w' /\ done w vars ders args w'.
Proof.
  intros H ND L C B Rd O. unfold cal. rewrite L, Nat.eqb_refl. cbn [negb].
  assert (F : map fst (combine vars args) = vars) by (apply map_fst_combine, L).
  destruct (set_all_succeeds (combine vars args) w) as [w1 E1]; [rewrite F; exact ND|exact B|]. rewrite E1.
  assert (A := set_all_alike _ _ _ _ E1).
  destruct (set_all_reach false (combine vars args) w w1 None H) as [H1 K1]; [intros t x Ht; destruct (B _ _ Ht) as (v & -> & _); discriminate|exact E1|].
  destruct (set_all_vals _ w w1 ltac:(rewrite F; exact ND) E1) as [V1 V2].
  destruct (sync_all_ok ders w1 []) as (w' & E & I' & S' & Vv & Nn & D).
  - apply (reach_inv false), H1.
  - apply reach_slots, H1.
  - intros t [].
  - intros pre d post v u El Rv Hu Cu. destruct (set_all_some _ _ _ _ E1 _ _ Rv) as (y & Ry & Ay). destruct Ay as (a1 & _). rewrite a1 in Hu.
    rewrite (constrained_alike _ _ A) in Cu. apply (O pre d post y u El Ry Hu Cu).
  - intros t Ht. apply K1, Rd, Ht.
  - exists w'. split; [exact E|]. destruct (sync_all_reach false ders w1 w' None H1) as [H' _]; [intros t Ht; apply K1, Rd, Ht|exact E|].
    assert (Rv := ready_pars _ _ Vv). split; [exact H'|]. split; [|split].
    + intros t x Ht. destruct (V1 _ _ Ht) as (v & Rt & Bt & Rt'). assert (Ct := C t ltac:(rewrite <- F; apply (in_map fst) in Ht; exact Ht)).
      unfold constrained in Ct. rewrite Rt in Ct. destruct (v_compute v) eqn:Cv; [discriminate|].
      split; [unfold get_value; rewrite Rv, Rt'; unfold val_of; cbn; rewrite Cv; reflexivity|].
      intros y p k Ry Hi. rewrite Rv, Rt' in Ry. injection Ry as <-. rewrite <- Rv in Rt'. exact (S' _ _ _ _ Rt' Cv Hi).
    + intros d Hd. assert (Rn : ready w' d <> None) by (rewrite Rv; apply K1, Rd, Hd). destruct (ready w' d) as [v|] eqn:Rw; [|congruence].
      destruct (true_ex w' I' (S (v_deps v)) d v Rw ltac:(lia)) as [x T]. exists x. split; [exact T|]. split.
      * unfold get_value. rewrite Rw. f_equal. apply (val_true w' d v x I' Rw); [|exact T].
        intros u Hu. destruct (constrained w u) eqn:Cu.
        { apply in_split in Hd. destruct Hd as (pre & post & Ed). apply D. cbn [app]. rewrite Ed. apply in_app_iff. left.
          rewrite Rv in Rw. destruct (set_all_some _ _ _ _ E1 _ _ Rw) as (y & Ry & Ay). destruct Ay as (a1 & _). rewrite a1 in Hu. apply (O pre d post y u Ed Ry Hu Cu). }
        { apply In_nth_error in Hu. destruct Hu as [i Hi]. destruct (i_ref w' I' _ _ _ _ Rw Hi) as (v' & R' & _). apply (settled_free w' u v' S' R').
          assert (Cu' : constrained w' u = false). { unfold constrained. rewrite Rv. fold (constrained w1 u). rewrite (constrained_alike _ _ A). exact Cu. }
          unfold constrained in Cu'. rewrite R' in Cu'. destruct (v_compute v'); [discriminate|reflexivity]. }
      * intros y p k Ry Hi. assert (y = v) by congruence. subst y. apply (D d ltac:(cbn [app]; exact Hd) v x p k); [exact Rw|exact T|exact Hi].
    + intros u Hu. rewrite Vv. apply V2. rewrite F. exact Hu.
Qed.

(** *** what persists *)
Definition grown (v v' : var) : Prop := v_args v' = v_args v /\ v_compute v' = v_compute v /\ v_scale v' = v_scale v /\ v_deps v' = v_deps v
  /\ v_lower v' = v_lower v /\ v_upper v' = v_upper v /\ incl (v_subs v) (v_subs v').
Lemma grown_refl v : grown v v. Proof. repeat split; auto. apply incl_refl. Qed.
Lemma grown_trans a b c : grown a b -> grown b c -> grown a c.
Proof. intros (a1 & a2 & a3 & a4 & a5 & a6 & a7) (b1 & b2 & b3 & b4 & b5 & b6 & b7). repeat split; try congruence. eapply incl_tran; eauto. Qed.
Lemma after_ind_inv b w0 (P : world -> Prop) : Inv w0 -> P w0 ->
  (forall w t i lo up sc c ds, Inv w -> P w -> args_ok w ds -> P (fst (new_var w t i lo up sc c ds))) ->
  (forall w l, Inv w -> P w -> NoDup (map fst l) -> args_ok w (map snd l) -> P (fst (new_params w l))) ->
  (forall w t v x, Inv w -> P w -> ready w t = Some v -> in_bounds v x = true -> P (sync_var (upd_var w t (Ready (with_value v x))) (with_value v x))) ->
  (forall w t v, Inv w -> P w -> ready w t = Some v -> P (sync_var w v)) ->
  (forall w p k x, b = true -> Inv w -> P w -> (forall t v, ready w t = Some v -> v_deps v <> p) -> (p < w_next w)%nat -> P (poke w p k x)) ->
  forall w, after b w0 w -> Inv w /\ P w.
Proof.
  intros I0 P0 H1 H2 H3 H4 H5 w. induction 1 as [| w t i lo up sc c ds H [I IH] Ao|w l H [I IH] Hn Ao|w t x H [I IH] Hr|w t H [I IH] Hr|w p k x H [I IH] Hb Hp Hl].
  - auto.
  - split; [apply inv_new; assumption|apply H1; assumption].
  - split; [|apply H2; assumption]. destruct (new_params w l) as [w' p] eqn:E. apply (inv_params w l w' p); assumption.
  - split; [apply inv_set; assumption|]. destruct (ready w t) as [v|] eqn:Rt; [|congruence]. destruct (in_bounds v x) eqn:B.
    + rewrite (set_ok _ _ _ _ Rt B). apply (H3 w t); assumption.
    + rewrite (set_bad _ _ _ _ Rt B). exact IH.
  - unfold sync. destruct (ready w t) as [v|] eqn:Rt; [|congruence]. split; [apply (inv_sync w t); assumption|]. apply (H4 w t); assumption.
  - split; [apply inv_poke; assumption|apply H5; assumption].
Qed.
Lemma after_grown b w0 w t v : Inv w0 -> after b w0 w -> ready w0 t = Some v -> exists v', ready w t = Some v' /\ grown v v'.
Proof.
  intros I0 H Rt. refine (proj2 (after_ind_inv b w0 (fun w => exists v', ready w t = Some v' /\ grown v v') I0 _ _ _ _ _ _ w H)).
  - exists v. split; [exact Rt|apply grown_refl].
  - intros w1 u i lo up sc c ds I1 (y & Ry & Gy) Ao. apply new_cases; intros; cbn [fst].
    + exists y; auto.
    + rewrite ready_upd. destruct (eqb t u) eqn:E; [apply eqb_eq in E; congruence|]. exists y; auto.
    + rewrite ready_upd. destruct (eqb t u) eqn:E; [apply eqb_eq in E; congruence|]. exists y; auto.
    + rewrite ready_upd. destruct (eqb t u) eqn:E; [apply eqb_eq in E; congruence|]. destruct (new_params_spec _ _ _ _ H2) as (_ & _ & _ & _ & Er & _).
      rewrite Er, Ry. cbn. eexists. split; [reflexivity|]. eapply grown_trans; [exact Gy|]. repeat split; cbn; auto. apply incl_appl, incl_refl.
  - intros w1 l I1 (y & Ry & Gy) Hn Ao. destruct (new_params w1 l) as [w' p] eqn:E. cbn [fst]. destruct (new_params_spec _ _ _ _ E) as (_ & _ & _ & _ & Er & _).
    rewrite Er, Ry. cbn. eexists. split; [reflexivity|]. eapply grown_trans; [exact Gy|]. repeat split; cbn; auto. apply incl_appl, incl_refl.
  - intros w1 u y x I1 (z & Rz & Gz) Ru B. rewrite (ready_pars _ _ (sync_vars _ _)), ready_upd. destruct (eqb t u) eqn:E; [|exists z; auto].
    apply eqb_eq in E; subst u. assert (z = y) by congruence. subst z. eexists. split; [reflexivity|]. eapply grown_trans; [exact Gz|]. repeat split; cbn; auto. apply incl_refl.
  - intros w1 u y I1 (z & Rz & Gz) Ru. rewrite (ready_pars _ _ (sync_vars _ _)). exists z; auto.
  - intros w1 p k x _ I1 Hz _ _. exact Hz.
Qed.
Lemma after_num w0 w p k x : Inv w0 -> after false w0 w -> (p < w_next w0)%nat -> dget (w_pars w0 p) k = Some x -> (forall t v, ready w0 t = Some v -> ~ In (p, k) (v_subs v)) ->
  dget (w_pars w p) k = Some x.
Proof.
  intros I0 H Lp D0 N0.
  assert (Q : Inv w /\ ((p < w_next w)%nat /\ dget (w_pars w p) k = Some x /\ (forall t v, ready w t = Some v -> ~ In (p, k) (v_subs v)))).
  { apply (after_ind_inv false w0 (fun w => (p < w_next w)%nat /\ dget (w_pars w p) k = Some x /\ (forall t v, ready w t = Some v -> ~ In (p, k) (v_subs v)))); auto; clear w H.
    - intros w1 u i lo up sc c ds I1 (L & D & N) Ao. apply new_cases; intros; cbn [fst].
      + auto.
      + split; [exact L|]. split; [exact D|]. intros t v. rewrite ready_upd. destruct (eqb t u); [discriminate|apply N].
      + split; [exact L|]. split; [exact D|]. intros t v. rewrite ready_upd. destruct (eqb t u); [discriminate|apply N].
      + destruct (new_params_spec _ _ _ _ H1) as (Ep & En & Epp & Eq & Er & _). cbn. split; [lia|]. split; [rewrite Eq by lia; exact D|].
        intros t v. rewrite ready_upd. destruct (eqb t u); [intros [= <-] []|]. rewrite Er. destruct (ready w1 t) as [y|] eqn:Ry; [|discriminate]. cbn. intros [= <-]. cbn.
        rewrite in_app_iff. intros [Hi|Hi]; [exact (N _ _ Ry Hi)|]. apply in_pair in Hi. lia.
    - intros w1 l I1 (L & D & N) Hn Ao. destruct (new_params w1 l) as [w' q] eqn:E. cbn [fst]. destruct (new_params_spec _ _ _ _ E) as (Ep & En & Epp & Eq & Er & _).
      split; [lia|]. split; [rewrite Eq by lia; exact D|]. intros t v. rewrite Er. destruct (ready w1 t) as [y|] eqn:Ry; [|discriminate]. cbn. intros [= <-]. cbn.
      rewrite in_app_iff. intros [Hi|Hi]; [exact (N _ _ Ry Hi)|]. apply in_pair in Hi. lia.
    - intros w1 u y z I1 (L & D & N) Ru B.
      assert (I2 : Inv (upd_var w1 u (Ready (with_value y z)))) by (apply (inv_upd w1 u y); auto; apply shape_value).
      destruct (sync_spec _ u (with_value y z) I2 (ready_same _ _ _)) as (a & b & c & d & e). rewrite b. split; [exact L|]. split.
      + rewrite e; [exact D|]. exact (N _ _ Ru).
      + intros t v. rewrite (ready_pars _ _ a), ready_upd. destruct (eqb t u); [intros [= <-]; exact (N _ _ Ru)|apply N].
    - intros w1 u y I1 (L & D & N) Ru. destruct (sync_spec _ u y I1 Ru) as (a & b & c & d & e). rewrite b. split; [exact L|]. split.
      + rewrite e; [exact D|]. exact (N _ _ Ru).
      + intros t v. rewrite (ready_pars _ _ a). apply N.
    - discriminate. }
  apply Q.
Qed.
Lemma after_broken b w0 w t : Inv w0 -> after b w0 w -> w_vars w0 t = Some Broken -> w_vars w t = Some Broken.
Proof.
  intros I0 H B0. refine (proj2 (after_ind_inv b w0 (fun w => w_vars w t = Some Broken) I0 B0 _ _ _ _ _ w H)); clear w H.
  - intros w u i lo up sc c ds I1 B Ao. destruct (eqb t u) eqn:Nt.
    { apply eqb_eq in Nt; subst u. unfold new_var. rewrite B. exact B. }
    apply new_cases; intros; cbn [fst]; [exact B|cbn; rewrite Nt; exact B|cbn; rewrite Nt; exact B|].
    cbn. rewrite Nt. destruct (new_params_spec _ _ _ _ H1) as (_ & _ & _ & _ & _ & Ev). rewrite Ev; [exact B|unfold ready; rewrite B; reflexivity].
  - intros w l I1 B Hn Ao. destruct (new_params w l) as [w1 p] eqn:E1. destruct (new_params_spec _ _ _ _ E1) as (_ & _ & _ & _ & _ & Ev). cbn [fst]. rewrite Ev; [exact B|unfold ready; rewrite B; reflexivity].
  - intros w u y x I1 B Ru Bx. rewrite sync_vars. cbn. destruct (eqb t u) eqn:E; [|exact B]. apply eqb_eq in E; subst u. unfold ready in Ru. rewrite B in Ru. discriminate.
  - intros w u y I1 B Ru. rewrite sync_vars. exact B.
  - intros w p k x _ I1 B _ _. exact B.
Qed.

(** *** a whole fit *)
Lemma alike_trans a b c : alike a b -> alike b c -> alike a c.
Proof. intros (a1 & a2 & a3 & a4 & a5 & a6 & a7) (b1 & b2 & b3 & b4 & b5 & b6 & b7). repeat split; congruence. Qed.
Definition alikew (w w' : world) := forall u, match ready w u, ready w' u with Some v, Some v' => alike v v' | None, None => True | _, _ => False end.
Lemma cal_alike w vars ders args w' e : reach false w -> (forall t, In t vars -> ready w t <> None) -> (forall d, In d ders -> ready w d <> None) -> cal w vars ders args = (w', e) -> alikew w w'.
Proof.
  intros H Rv Rd. unfold cal. destruct (negb _).
  { intros [= <- <-] u. destruct (ready w u); [apply alike_refl|exact Logic.I]. }
  destruct (set_all w (combine vars args)) as [w1 [e1|]] eqn:E; [intros [= <- <-]; exact (set_all_alike _ _ _ _ E)|].
  destruct (set_all_reach false (combine vars args) w w1 None H) as [H1 K1]; [intros t x Ht; apply Rv; apply in_combine_l in Ht; exact Ht|exact E|].
  intros Hs. destruct (sync_all_reach false ders w1 w' e H1) as (_ & V & _); [intros t Ht; apply K1, Rd, Ht|exact Hs|].
  intros u. rewrite (ready_pars _ _ V). apply (set_all_alike _ _ _ _ E).
Qed.
Lemma alikew_trans a b c : alikew a b -> alikew b c -> alikew a c.
Proof.
  intros H1 H2 u. specialize (H1 u). specialize (H2 u). destruct (ready a u), (ready b u), (ready c u); try contradiction; try exact Logic.I. eapply alike_trans; eauto.
Qed.
Lemma alikew_some w w' u v : alikew w w' -> ready w u = Some v -> exists v', ready w' u = Some v' /\ alike v v'.
Proof. intros A Ru. specialize (A u). rewrite Ru in A. destruct (ready w' u) as [v'|]; [exists v'; auto|destruct A]. Qed.
Lemma alikew_back w w' u v' : alikew w w' -> ready w' u = Some v' -> exists v, ready w u = Some v /\ alike v v'.
Proof. intros A Ru. specialize (A u). rewrite Ru in A. destruct (ready w u) as [v|]; [exists v; auto|destruct A]. Qed.

Definition good_call (w : world) (vars : list str) (args : list R) : Prop :=
  List.length args = List.length vars /\ forall t x, In (t, x) (combine vars args) -> exists v, ready w t = Some v /\ v_lower v <= x <= v_upper v.
Lemma calls_ok vars ders calls : forall w last, reach false w -> NoDup vars -> (forall t, In t vars -> constrained w t = false) ->
  (forall a, In a (calls ++ [last]) -> good_call w vars a) -> (forall t, In t vars -> ready w t <> None) -> (forall d, In d ders -> ready w d <> None) -> in_order w ders ->
  exists w', calls_run w vars ders (calls ++ [last]) = (w', None) /\ reach false w' /\ done w vars ders last w'.
Proof.
  induction calls as [|a calls IH]; intros w last H ND C G Rv Rd O.
  - destruct (G last) as [L B]; [left; reflexivity|]. destruct (cal_ok w vars ders last H ND L C B Rd O) as (w' & E & H' & D).
    exists w'. cbn. rewrite E. auto.
  - destruct (G a) as [L B]; [left; reflexivity|]. destruct (cal_ok w vars ders a H ND L C B Rd O) as (w1 & E & H1 & D1).
    assert (A := cal_alike _ _ _ _ _ _ H Rv Rd E).
    assert (K : forall u, ready w u <> None -> ready w1 u <> None).
    { intros u Hu. destruct (ready w u) as [v|] eqn:Ru; [|congruence]. destruct (alikew_some _ _ _ _ A Ru) as (v' & -> & _). discriminate. }
    destruct (IH w1 last H1 ND) as (w' & E' & H' & D').
    + intros t Ht. rewrite (constrained_alike w w1 A). apply C, Ht.
    + intros b Hb. destruct (G b) as [Lb Bb]; [right; exact Hb|]. split; [exact Lb|]. intros t x Ht. destruct (Bb _ _ Ht) as (v & Ru & Bu).
      destruct (alikew_some _ _ _ _ A Ru) as (v' & R' & (_ & _ & _ & _ & _ & a6 & a7)). exists v'. rewrite a6, a7. auto.
    + intros t Ht. apply K, Rv, Ht.
    + intros t Ht. apply K, Rd, Ht.
    + intros pre d post v u El Ru Hu Cu. destruct (alikew_back _ _ _ _ A Ru) as (y & Ry & Ay). destruct Ay as (a1 & _). rewrite a1 in Hu. rewrite (constrained_alike w w1 A) in Cu. apply (O pre d post y u El Ry Hu Cu).
    + exists w'. cbn [app calls_run]. rewrite E. split; [exact E'|]. split; [exact H'|]. destruct D' as (d1 & d2 & d3). split; [exact d1|]. split; [exact d2|].
      intros u Hu. rewrite (d3 u Hu). apply D1, Hu.
Qed.
