(** Properties of fitting variables and of fits (C77-C80). *)
From Coq Require Import Reals Lra Lia String.
From Verif Require Import Py PyDict PyStr VarModel VarSpec VarProofs.
Local Open Scope R_scope.

(** ** C77: bounds and creation *)
Theorem C77_within_bounds : forall b w t v, reach b w -> ready w t = Some v -> v_lower v <= v_value v <= v_upper v.
Proof. intros b w t v H. apply (reach_bounds b w H). Qed.
(** an assignment outside the bounds is refused and changes nothing; inside, a free variable takes the value and a constrained one reads as before *)
Theorem C77_assignment : forall b w t v x, reach b w -> ready w t = Some v ->
  (~ (v_lower v <= x <= v_upper v) -> set_value w t x = (w, Some ValueError)) /\
  (v_lower v <= x <= v_upper v -> exists w', set_value w t x = (w', None) /\
     (v_compute v = None -> get_value w' t = Ok x) /\ (v_compute v <> None -> get_value w' t = get_value w t)).
Proof.
  intros b w t v x H Rt. split.
  - intros N. apply (set_bad w t v x Rt). destruct (in_bounds v x) eqn:B; [|reflexivity]. apply in_bounds_iff in B. contradiction.
  - intros B. apply in_bounds_iff in B. rewrite (set_ok _ _ _ _ Rt B). eexists. split; [reflexivity|].
    assert (I := reach_inv b w H). set (v' := with_value v x). assert (I1 : Inv (upd_var w t (Ready v'))) by (apply (inv_upd w t v); auto; apply shape_value).
    unfold get_value. rewrite (ready_pars _ _ (sync_vars _ _)), ready_same, Rt. split; intros C.
    + unfold val_of. cbn. rewrite C. reflexivity.
    + f_equal. unfold val_of. cbn [v_compute with_value v' v_deps]. destruct (v_compute v) as [f|]; [|congruence]. f_equal. f_equal.
      destruct (sync_spec _ t v' I1 (ready_same _ _ _)) as (a & b' & c & d & e).
      apply snd_ext; [unfold wf; rewrite c; apply (i_wf w I)|apply c|]. intros k. apply e. apply (own_not _ t v' I1 (ready_same _ _ _)).
Qed.
(** creating a tag that exists does nothing at all, whatever the arguments *)
Theorem C77_existing_tag : forall w t v i lo up sc c ds, ready w t = Some v -> new_var w t i lo up sc c ds = (w, None).
Proof. intros w t v i lo up sc c ds. unfold ready, new_var. destruct (w_vars w t) as [[| |y]|]; try discriminate. reflexivity. Qed.
(** a refused initial value leaves an unusable tag, which a later creation completes as if it were new *)
Theorem C77_bad_initial : forall b w t i lo up sc c ds, reach b w -> w_vars w t = None -> ~ (lo <= i <= up) ->
  exists w1, new_var w t i lo up sc c ds = (w1, Some ValueError) /\ get_value w1 t = Err AttributeError /\ w_pars w1 = w_pars w /\
  forall i' lo' up' sc', lo' <= i' <= up' -> exists w2, new_var w1 t i' lo' up' sc' CNone [] = (w2, None) /\
    exists v, ready w2 t = Some v /\ v_value v = i' /\ v_lower v = lo' /\ v_upper v = up' /\ v_scale v = sc' /\ get_value w2 t = Ok i'.
Proof.
  intros b w t i lo up sc c ds H N B. exists (upd_var w t Empty).
  assert (T : w_vars (upd_var w t Empty) t = Some Empty) by (cbn; rewrite (proj2 (eqb_eq t t) eq_refl); reflexivity).
  split; [unfold new_var; rewrite N; destruct (Rle_dec lo i); [destruct (Rle_dec i up); [tauto|]|]; reflexivity|].
  split; [unfold get_value, ready; rewrite T; reflexivity|]. split; [reflexivity|].
  intros i' lo' up' sc' B'. unfold new_var. rewrite T. destruct (Rle_dec lo' i'); [|tauto]. destruct (Rle_dec i' up'); [|tauto].
  destruct (new_params _ _) as [w1 p] eqn:E. eexists. split; [reflexivity|]. eexists. split; [apply ready_same|].
  repeat split. unfold get_value. rewrite ready_same. reflexivity.
Qed.
(** ** a variable refused for its initial value cannot be synced or assigned either *)
Theorem C77_unfinished : forall b w t i lo up sc c ds, reach b w -> w_vars w t = None -> ~ (lo <= i <= up) ->
  exists w1, new_var w t i lo up sc c ds = (w1, Some ValueError) /\ sync w1 t = (w1, Some AttributeError) /\ forall x, set_value w1 t x = (w1, Some AttributeError).
Proof.
  intros b w t i lo up sc c ds _ N B. exists (upd_var w t Empty).
  assert (E : new_var w t i lo up sc c ds = (upd_var w t Empty, Some ValueError)) by (unfold new_var; rewrite N; destruct (Rle_dec lo i); [destruct (Rle_dec i up); [tauto|reflexivity]|reflexivity]).
  assert (W : w_vars (upd_var w t Empty) t = Some Empty) by (cbn; rewrite (proj2 (eqb_eq t t) eq_refl); reflexivity).
  split; [exact E|]. unfold sync, set_value, ready. rewrite W. split; reflexivity.
Qed.
(** a constraint that is not callable is refused, but the tag stays taken: every later creation succeeds silently and the value can never be read *)
Theorem C77_bad_constraint : forall b w t i lo up sc ds, reach b w -> ready w t = None -> w_vars w t <> Some Broken -> lo <= i <= up ->
  exists w1, new_var w t i lo up sc CBad ds = (w1, Some ValueError) /\
  forall b' w2, after b' w1 w2 -> get_value w2 t = Err AttributeError /\ forall i' lo' up' sc' c' ds', new_var w2 t i' lo' up' sc' c' ds' = (w2, None).
Proof.
  intros b w t i lo up sc ds H N NB B. exists (upd_var w t Broken).
  assert (I := reach_inv b w H). assert (I1 : Inv (upd_var w t Broken)) by (apply inv_entry; auto; discriminate).
  split.
  - unfold new_var. unfold ready in N. destruct (w_vars w t) as [[| |y]|]; try discriminate; try congruence;
    (destruct (Rle_dec lo i); [|tauto]; destruct (Rle_dec i up); [reflexivity|tauto]).
  - intros b' w2 H2. assert (T := after_broken b' _ _ t I1 H2 ltac:(cbn; rewrite (proj2 (eqb_eq t t) eq_refl); reflexivity)).
    split; [unfold get_value, ready; rewrite T; reflexivity|]. intros. unfold new_var. rewrite T. reflexivity.
Qed.

(** ** C78: containers follow their variables *)
(** in every later world (no direct writes): a free variable's entries hold value * scale, a number stays *)
Theorem C78_container_follows : forall w l w1 p, reach false w -> NoDup (map fst l) -> args_ok w (map snd l) -> new_params w l = (w1, p) ->
  forall w2, after false w1 w2 ->
    (forall k x, In (k, Num x) l -> holds w2 p k x) /\
    (forall k t, In (k, Ref t) l -> exists v, ready w2 t = Some v /\ (v_compute v = None -> holds w2 p k (v_value v * v_scale v))).
Proof.
  intros w l w1 p H ND Ao E w2 H2. assert (I := reach_inv false w H). assert (H1 : reach false w1) by (assert (X := r_params false start w l H ND Ao); rewrite E in X; exact X).
  assert (I1 := reach_inv false w1 H1). destruct (new_params_spec _ _ _ _ E) as (Ep & En & Epp & Eq & Er & _). split.
  - intros k x Hk. apply (after_num w1 w2 p k x I1 H2); [lia|rewrite Epp; rewrite (dget_map l (arg_val w) k (Num x) ND Hk); reflexivity|].
    intros t v Rt Hi. rewrite Er in Rt. destruct (ready w t) as [y|] eqn:Ry; [|discriminate]. cbn in Rt. injection Rt as <-. cbn in Hi. apply in_app_iff in Hi. destruct Hi as [Hi|Hi].
    + destruct (i_subs w I _ _ _ _ Ry Hi). lia.
    + apply in_pair in Hi. destruct Hi as [_ Hi]. clear - ND Hk Hi. induction l as [|[k0 a0] l IH]; [destruct Hk|]. inversion ND as [|? ? Hn ND']; subst. destruct Hk as [Hk|Hk], Hi as [Hi|Hi].
      * congruence.
      * apply Hn. apply (in_map fst) in Hi. cbn in Hi. congruence.
      * apply Hn. apply (in_map fst) in Hk. cbn in Hk. congruence.
      * apply IH; assumption.
  - intros k t Hk. destruct (ready w t) as [y|] eqn:Ry; [|destruct (Ao t); [apply in_map_iff; exists (k, Ref t); auto|exact Ry]].
    assert (R1 : ready w1 t = Some (add_subs y (map (pair p) (keys_of t l)))) by (rewrite Er, Ry; reflexivity).
    destruct (after_grown false w1 w2 t _ I1 H2 R1) as (v & Rv & G). exists v. split; [exact Rv|]. intros C.
    assert (H3 : reach false w2). { clear - H1 H2. induction H2; [exact H1|constructor; assumption|constructor; assumption|constructor; assumption|constructor; assumption|discriminate]. }
    apply (reach_slots w2 H3 t v p k Rv C). apply G. cbn. apply in_app_iff. right. apply in_pair. auto.
Qed.
(** an assignment rewrites exactly the entries of the assigned variable; no other variable changes *)
Theorem C78_assignment_is_shallow : forall b w t v x w', reach b w -> ready w t = Some v -> set_value w t x = (w', None) ->
  (forall p k, ~ In (p, k) (v_subs v) -> dget (w_pars w' p) k = dget (w_pars w p) k) /\
  (forall p k, In (p, k) (v_subs v) -> exists y, get_value w' t = Ok y /\ holds w' p k (y * v_scale v)) /\
  (forall u, u <> t -> w_vars w' u = w_vars w u).
Proof.
  intros b w t v x w' H Rt E. destruct (set_vars _ _ _ _ E) as (v0 & R0 & B & _ & Rd & Vd). assert (v0 = v) by congruence. subst v0.
  rewrite (set_ok _ _ _ _ Rt B) in E. injection E as <-. assert (I := reach_inv b w H).
  set (v' := with_value v x) in *. assert (I1 : Inv (upd_var w t (Ready v'))) by (apply (inv_upd w t v); auto; apply shape_value).
  destruct (sync_spec _ t v' I1 (ready_same _ _ _)) as (a & b' & c & d & e). split; [|split].
  - intros p k N. apply e, N.
  - intros p k Hi. exists (val_of (upd_var w t (Ready v')) v'). split; [|apply d, Hi]. unfold get_value. rewrite (ready_pars _ _ a), ready_same. f_equal.
    unfold val_of. destruct (v_compute v') as [f|]; [|reflexivity]. f_equal. f_equal.
    apply snd_ext; [unfold wf; rewrite c; apply (i_wf w I)|apply c|]. intros j. apply e. apply (own_not _ t v' I1 (ready_same _ _ _)).
  - exact Vd.
Qed.
(** a direct write changes that entry only, no variable, and lasts until the variable is next synced or assigned *)
Theorem C78_direct_write : forall b w p k x, reach b w ->
  (w_vars (poke w p k x) = w_vars w /\ holds (poke w p k x) p k x /\
   forall q j, (q, j) <> (p, k) -> dget (w_pars (poke w p k x) q) j = dget (w_pars w q) j) /\
  (forall t v, ready w t = Some v -> v_compute v = None -> In (p, k) (v_subs v) -> (forall u y, ready w u = Some y -> v_deps y <> p) ->
     (p < w_next w)%nat -> holds (fst (sync (poke w p k x) t)) p k (v_value v * v_scale v)).
Proof.
  intros b w p k x H. split; [split; [reflexivity|split]|].
  - unfold holds, poke. rewrite write_get, Nat.eqb_refl, (proj2 (eqb_eq k k) eq_refl). reflexivity.
  - intros q j N. unfold poke. rewrite write_get. destruct (Nat.eqb q p) eqn:E; [|reflexivity]. destruct (eqb j k) eqn:E2; [|reflexivity].
    apply Nat.eqb_eq in E. apply eqb_eq in E2. congruence.
  - intros t v Rt C Hi Np Lp. assert (I1 : Inv (poke w p k x)) by (apply inv_poke; [apply (reach_inv b), H|exact Np]).
    unfold sync. change (ready (poke w p k x) t) with (ready w t). rewrite Rt. cbn [fst]. destruct (sync_spec (poke w p k x) t v I1 Rt) as (a & b' & c & d & e).
    unfold holds. rewrite (d _ _ Hi). unfold val_of. rewrite C. reflexivity.
Qed.

(** ** C79: constrained variables *)
(** the declared dependencies always determine exactly one value *)
Theorem C79_well_founded : forall b w t v, reach b w -> ready w t = Some v -> exists! x, true_value w t x.
Proof.
  intros b w t v H Rt. destruct (true_ex w (reach_inv b w H) (S (v_deps v)) t v Rt ltac:(lia)) as [x T]. exists x. split; [exact T|]. intros y Ty. apply (proj1 (true_det w) _ _ T _ Ty).
Qed.
(** depending on free variables only: every read gives it, nothing needs syncing *)
Theorem C79_direct : forall w t v, reach false w -> ready w t = Some v -> (forall u, In (Ref u) (v_args v) -> constrained w u = false) ->
  exists x, get_value w t = Ok x /\ true_value w t x.
Proof.
  intros w t v H Rt N. assert (I := reach_inv false w H). destruct (true_ex w I (S (v_deps v)) t v Rt ltac:(lia)) as [x T]. exists x. split; [|exact T].
  unfold get_value. rewrite Rt. f_equal. apply (val_true w t v x I Rt); [|exact T]. intros u Hu. assert (Cu := N u Hu).
  apply In_nth_error in Hu. destruct Hu as [i Hi]. destruct (i_ref w I _ _ _ _ Rt Hi) as (v' & R' & _). apply (settled_free w u v' (reach_slots w H) R').
  unfold constrained in Cu. rewrite R' in Cu. destruct (v_compute v'); [discriminate|reflexivity].
Qed.
(** a calculation step whose constrained variables are listed after those they depend on sets everything right: [done] *)
Theorem C79_ordered_step : forall w vars ders args, reach false w -> NoDup vars -> List.length args = List.length vars ->
  (forall t, In t vars -> constrained w t = false) ->
  (forall t x, In (t, x) (combine vars args) -> exists v, ready w t = Some v /\ v_lower v <= x <= v_upper v) ->
  (forall d, In d ders -> ready w d <> None) -> in_order w ders ->
  exists w', cal w vars ders args = (w', None) /\
  (forall t x, In (t, x) (combine vars args) -> get_value w' t = Ok x /\
     forall v p k, ready w' t = Some v -> In (p, k) (v_subs v) -> holds w' p k (x * v_scale v)) /\
  (forall d, In d ders -> exists x, true_value w' d x /\ get_value w' d = Ok x /\
     forall v p k, ready w' d = Some v -> In (p, k) (v_subs v) -> holds w' p k (x * v_scale v)) /\
  (forall u, ~ In u vars -> w_vars w' u = w_vars w u).
Proof.
  intros w vars ders args H ND L C B Rd O. destruct (cal_ok w vars ders args H ND L C B Rd O) as (w' & E & _ & D). exists w'. split; [exact E|exact D].
Qed.
(** the class documentation's example, A = 10, B = 2 A, C = A + B, plus a container with C: after A := 20, C reads 40 although it should be 60, until
    B is synced; a step that lists C before B leaves the container at 40, one that lists B first sets it to 60 *)
Definition A_ := S_ "A". Definition B_ := S_ "B". Definition C_ := S_ "C".
Definition doc_world : world :=
  let w1 := fst (new_var start A_ 10 0 1000 1 CNone []) in
  let w2 := fst (new_var w1 B_ 1 0 1000 1 (CFun (fun l => match l with [x] => x * 2 | _ => 0 end)) [Ref A_]) in
  let w3 := fst (new_var w2 C_ 1 0 1000 1 (CFun (fun l => match l with [x; y] => x + y | _ => 0 end)) [Ref A_; Ref B_]) in
  fst (new_params w3 [(KName (S_ "C"), Ref C_)]).
(* the same worlds without the bound tests *)
Definition created (w : world) (t : str) (i lo up sc : R) (f : option (list R -> R)) (ds : list arg) : world :=
  let '(w1, p) := new_params w (dep_list ds) in
  upd_var w1 t (Ready {| v_value := i; v_lower := lo; v_upper := up; v_scale := sc; v_subs := []; v_compute := f; v_deps := p; v_args := ds |}).
Lemma new_created w t i lo up sc c f ds : w_vars w t = None -> lo <= i <= up -> match c with CBad => False | CNone => f = None | CFun g => f = Some g end ->
  new_var w t i lo up sc c ds = (created w t i lo up sc f ds, None).
Proof.
  intros N B C. unfold new_var, created. fold (dep_list ds). rewrite N. destruct (Rle_dec lo i); [|tauto]. destruct (Rle_dec i up); [|tauto].
  destruct c; [| destruct C |]; subst f; destruct (new_params w (dep_list ds)); reflexivity.
Qed.
Definition fB (l : list R) : R := match l with [x] => x * 2 | _ => 0 end.
Definition fC (l : list R) : R := match l with [x; y] => x + y | _ => 0 end.
Definition wa := created start A_ 10 0 1000 1 None [].
Definition wb := created wa B_ 1 0 1000 1 (Some fB) [Ref A_].
Definition wc := created wb C_ 1 0 1000 1 (Some fC) [Ref A_; Ref B_].
Definition wd := fst (new_params wc [(KName (S_ "C"), Ref C_)]).
Lemma ea : new_var start A_ 10 0 1000 1 CNone [] = (wa, None). Proof. apply new_created; [reflexivity|lra|reflexivity]. Qed.
Lemma eb : new_var wa B_ 1 0 1000 1 (CFun fB) [Ref A_] = (wb, None). Proof. apply new_created; [reflexivity|lra|reflexivity]. Qed.
Lemma ec : new_var wb C_ 1 0 1000 1 (CFun fC) [Ref A_; Ref B_] = (wc, None). Proof. apply new_created; [reflexivity|lra|reflexivity]. Qed.
Lemma doc_wd : doc_world = wd.
Proof. unfold doc_world. fold fB. fold fC. rewrite ea. cbn [fst]. rewrite eb. cbn [fst]. rewrite ec. reflexivity. Qed.
Lemma doc_reach : reach false doc_world.
Proof.
  assert (Ha : reach false wa) by (assert (X := r_new false start start A_ 10 0 1000 1 CNone [] (r_start _ _) ltac:(intros t [])); rewrite ea in X; exact X).
  assert (Hb : reach false wb). { assert (X := r_new false start wa B_ 1 0 1000 1 (CFun fB) [Ref A_] Ha ltac:(intros t [[= <-]|[]]; discriminate)). rewrite eb in X. exact X. }
  assert (Hc : reach false wc). { assert (X := r_new false start wb C_ 1 0 1000 1 (CFun fC) [Ref A_; Ref B_] Hb ltac:(intros t [[= <-]|[[= <-]|[]]]; discriminate)). rewrite ec in X. exact X. }
  rewrite doc_wd. unfold wd. apply r_params; [exact Hc| |].
  - constructor; [intros []|constructor].
  - intros t [[= <-]|[]]. discriminate.
Qed.
Lemma va : ready wd A_ = Some {| v_value := 10; v_lower := 0; v_upper := 1000; v_scale := 1; v_subs := [(1%nat, KDep 0); (2%nat, KDep 0)]; v_compute := None; v_deps := 0; v_args := [] |}.
Proof. reflexivity. Qed.
Definition nv20 := {| v_value := 20; v_lower := 0; v_upper := 1000; v_scale := 1; v_subs := [(1%nat, KDep 0); (2%nat, KDep 0)]; v_compute := None; v_deps := 0; v_args := [] |}.
Definition we := sync_var (upd_var wd A_ (Ready nv20)) nv20.
Lemma ee : set_value doc_world A_ 20 = (we, None).
Proof. rewrite doc_wd. rewrite (set_ok wd A_ _ 20 va); [reflexivity|]. apply in_bounds_iff. cbn. lra. Qed.
Theorem C79_unordered_is_stale :
  reach false doc_world /\ get_value doc_world C_ = Ok (10 + 10 * 2) /\
  (exists w', set_value doc_world A_ 20 = (w', None) /\ get_value w' B_ = Ok 40 /\ get_value w' C_ = Ok 40 /\ true_value w' C_ 60 /\
     get_value (fst (sync w' B_)) C_ = Ok 60) /\
  (exists w', cal doc_world [A_] [C_; B_] [20] = (w', None) /\ holds w' 3 (KName (S_ "C")) 40 /\ true_value w' C_ 60) /\
  (exists w', cal doc_world [A_] [B_; C_] [20] = (w', None) /\ holds w' 3 (KName (S_ "C")) 60).
Proof.
  split; [exact doc_reach|]. split; [rewrite doc_wd; cbv -[IZR Rmult Rplus]; f_equal; lra|].
  assert (T : forall w', w_vars w' = w_vars we -> true_value w' C_ 60).
  { intros w' V. apply (true_vars _ _ V). replace 60 with (fC [20 * 1; fB [20 * 1] * 1]) by (cbn; lra).
    assert (TA : true_value we A_ 20) by (apply (tv_free we A_ nv20); reflexivity).
    pose (vB := match ready we B_ with Some v => v | None => nv20 end). pose (vC := match ready we C_ with Some v => v | None => nv20 end).
    assert (TB : true_value we B_ (fB [20 * 1])).
    { apply (tv_con we B_ vB fB); [reflexivity|reflexivity|]. change (v_args vB) with [Ref A_]. apply (ta_ref we A_ nv20 20); [reflexivity|exact TA|constructor]. }
    apply (tv_con we C_ vC fC); [reflexivity|reflexivity|]. change (v_args vC) with [Ref A_; Ref B_].
    apply (ta_ref we A_ nv20 20); [reflexivity|exact TA|]. apply (ta_ref we B_ vB (fB [20 * 1])); [reflexivity|exact TB|constructor]. }
  split; [|split].
  - exists we. split; [exact ee|]. split; [cbv -[IZR Rmult Rplus]; f_equal; lra|]. split; [cbv -[IZR Rmult Rplus]; f_equal; lra|].
    split; [apply T; reflexivity|]. cbv -[IZR Rmult Rplus]; f_equal; lra.
  - exists (fst (sync_all we [C_; B_])). split; [unfold cal; cbn [List.length Nat.eqb negb combine set_all]; rewrite ee; reflexivity|].
    split; [unfold holds; cbv -[IZR Rmult Rplus]; f_equal; lra|]. apply T. reflexivity.
  - exists (fst (sync_all we [B_; C_])). split; [unfold cal; cbn [List.length Nat.eqb negb combine set_all]; rewrite ee; reflexivity|].
    unfold holds; cbv -[IZR Rmult Rplus]; f_equal; lra.
Qed.
(** C79_ordered_step's hypotheses on that world *)
Example C79_case : in_order doc_world [B_; C_] /\ constrained doc_world A_ = false /\ constrained doc_world B_ = true /\ constrained doc_world C_ = true.
Proof.
  rewrite doc_wd. repeat split.
  assert (RB : ready wd B_ = Some (match ready wd B_ with Some v => v | None => nv20 end)) by reflexivity.
  assert (RC : ready wd C_ = Some (match ready wd C_ with Some v => v | None => nv20 end)) by reflexivity.
  intros [|a [|b [|c r]]] d post v u El Rv Hu Cu; cbn [app] in El.
  - assert (d = B_) by congruence. subst d. rewrite RB in Rv. injection Rv as <-. destruct Hu as [Hu|[]]. injection Hu as <-. discriminate Cu.
  - assert (a = B_) by congruence. assert (d = C_) by congruence. subst a d. rewrite RC in Rv. injection Rv as <-. destruct Hu as [Hu|[Hu|[]]]; injection Hu as <-; [discriminate Cu|left; reflexivity].
  - discriminate.
  - destruct r; discriminate.
Qed.

(** ** C80: fitting *)
(** curve_fit may evaluate the model as often as it likes, each time within the bounds: afterwards the free variables hold the arguments of its last
    evaluation, the constrained ones (listed in dependency order) follow, nothing else has changed; what curve_fit returns plays no part *)
Theorem C80_last_evaluation_stays : forall w variables calls last, reach false w -> NoDup variables -> (forall t, In t variables -> ready w t <> None) ->
  let vars := filter (fun t => negb (constrained w t)) variables in let ders := filter (constrained w) variables in
  vars <> [] -> in_order w ders ->
  (forall a, In a (calls ++ [last]) -> List.length a = List.length vars /\ forall t x, In (t, x) (combine vars a) -> exists v, ready w t = Some v /\ v_lower v <= x <= v_upper v) ->
  exists w', fit w variables false (calls ++ [last]) = (w', None) /\
  (forall t x, In (t, x) (combine vars last) -> get_value w' t = Ok x /\
     forall v p k, ready w' t = Some v -> In (p, k) (v_subs v) -> holds w' p k (x * v_scale v)) /\
  (forall d, In d ders -> exists x, true_value w' d x /\ get_value w' d = Ok x /\
     forall v p k, ready w' d = Some v -> In (p, k) (v_subs v) -> holds w' p k (x * v_scale v)) /\
  (forall u, ~ In u vars -> w_vars w' u = w_vars w u).
Proof.
  intros w variables calls last H ND Rv vars ders Nv O G.
  assert (Sv : forall t, In t vars -> ready w t <> None) by (intros t Ht; apply filter_In in Ht; apply Rv, Ht).
  assert (Sd : forall t, In t ders -> ready w t <> None) by (intros t Ht; apply filter_In in Ht; apply Rv, Ht).
  destruct (calls_ok vars ders calls w last H) as (w' & E & _ & D).
  - apply NoDup_filter, ND.
  - intros t Ht. apply filter_In in Ht. destruct Ht as [_ Ht]. destruct (constrained w t); [discriminate|reflexivity].
  - exact G.
  - exact Sv.
  - exact Sd.
  - exact O.
  - exists w'. split; [|exact D]. unfold fit. fold vars. fold ders. destruct vars; [congruence|exact E].
Qed.
(** no free variable among those listed: nothing is fitted or changed; p0 or bounds given: refused *)
Theorem C80_refused_or_empty : forall w variables kw calls,
  ((forall t, In t variables -> constrained w t = true) -> fit w variables kw calls = (w, None)) /\
  ((exists t, In t variables /\ constrained w t = false) -> fit w variables true calls = (w, Some ValueError)).
Proof.
  intros w variables kw calls. split.
  - intros H. unfold fit. assert (E : filter (fun t => negb (constrained w t)) variables = []).
    { induction variables as [|t l IH]; [reflexivity|]. cbn. rewrite (H t (or_introl eq_refl)). cbn. apply IH. intros u Hu. apply H. right. exact Hu. }
    rewrite E. reflexivity.
  - intros (t & Ht & C). unfold fit. assert (X : In t (filter (fun t => negb (constrained w t)) variables)) by (apply filter_In; rewrite C; auto).
    destruct (filter (fun t => negb (constrained w t)) variables); [destruct X|reflexivity].
Qed.
(** a step with the wrong number of arguments changes nothing; one with an argument out of bounds raises ValueError after the earlier arguments have
    been assigned, and the later ones, the constrained variables and the rest are left alone *)
Theorem C80_bad_step : forall w vars ders args, reach false w -> NoDup vars -> (forall t, In t vars -> exists v, ready w t = Some v /\ v_compute v = None) ->
  (List.length args <> List.length vars -> cal w vars ders args = (w, Some ValueError)) /\
  (List.length args = List.length vars -> forall pre t x post v, combine vars args = pre ++ (t, x) :: post ->
     ready w t = Some v -> ~ (v_lower v <= x <= v_upper v) ->
     (forall u y, In (u, y) pre -> exists z, ready w u = Some z /\ v_lower z <= y <= v_upper z) ->
     exists w', cal w vars ders args = (w', Some ValueError) /\
       (forall u y, In (u, y) pre -> get_value w' u = Ok y) /\ (forall u, ~ In u (map fst pre) -> w_vars w' u = w_vars w u)).
Proof.
  intros w vars ders args H ND Rv. split.
  - intros L. unfold cal. apply Nat.eqb_neq in L. rewrite L. reflexivity.
  - intros L pre t x post v El Rt B Hp. assert (F := map_fst_combine vars args L). rewrite El, map_app in F.
    assert (NDp : NoDup (map fst pre)) by (rewrite <- F in ND; clear - ND; induction (map fst pre) as [|a l IH]; [constructor|]; cbn in ND; inversion ND; subst; constructor; [rewrite in_app_iff in *; tauto|apply IH; assumption]).
    destruct (set_all_succeeds pre w NDp Hp) as [w' E]. exists w'. split; [|split].
    + unfold cal. rewrite L, Nat.eqb_refl. cbn [negb]. rewrite El.
      assert (Rt' : ready w' t = Some v).
      { unfold ready. rewrite (proj2 (set_all_vals _ _ _ NDp E) t); [exact Rt|]. rewrite <- F in ND. cbn in ND. apply NoDup_remove_2 in ND. intros Hi. apply ND, in_app_iff. auto. }
      assert (X : forall w0, set_all w0 pre = (w', None) -> set_all w0 (pre ++ (t, x) :: post) = (w', Some ValueError)).
      { clear - Rt' B. induction pre as [|[u y] pre IH]; intros w0; cbn [set_all app].
        - intros [= ->]. rewrite (set_bad w' t v x Rt'); [reflexivity|]. destruct (in_bounds v x) eqn:Bx; [|reflexivity]. apply in_bounds_iff in Bx. contradiction.
        - destruct (set_value w0 u y) as [w1 [e|]]; [discriminate|]. apply IH. }
      rewrite (X w E). reflexivity.
    + intros u y Hu. destruct (proj1 (set_all_vals _ _ _ NDp E) u y Hu) as (z & Rz & _ & Rz'). unfold get_value. rewrite Rz'. f_equal. unfold val_of. cbn.
      destruct (Rv u) as (z' & Rz2 & Cz); [rewrite <- F; apply in_app_iff; left; apply (in_map fst) in Hu; exact Hu|]. assert (z' = z) by congruence. subst z'. rewrite Cz. reflexivity.
    + apply (set_all_vals _ _ _ NDp E).
Qed.
Example C80_case : reach false doc_world /\ NoDup [A_; B_; C_] /\ filter (fun t => negb (constrained doc_world t)) [A_; B_; C_] = [A_] /\
  filter (constrained doc_world) [A_; B_; C_] = [B_; C_] /\ (forall t, In t [A_; B_; C_] -> ready doc_world t <> None).
Proof.
  split; [exact doc_reach|]. rewrite doc_wd. split; [|split; [reflexivity|split; [reflexivity|]]].
  - constructor; [intros [H|[H|[]]]; discriminate|]. constructor; [intros [H|[]]; discriminate|]. constructor; [intros []|constructor].
  - intros t [<-|[<-|[<-|[]]]]; discriminate.
Qed.
Example C77_case : exists b w t v, reach b w /\ ready w t = Some v /\ v_compute v <> None /\ v_lower v < v_value v.
Proof. exists false, wd, C_. eexists. rewrite <- doc_wd at 1. split; [exact doc_reach|]. split; [reflexivity|]. cbn. split; [discriminate|lra]. Qed.
Example C78_case : exists w l w1 p, reach false w /\ NoDup (map fst l) /\ args_ok w (map snd l) /\ new_params w l = (w1, p) /\ In (KName (S_ "x"), Ref A_) l /\ In (KName (S_ "y"), Num 3) l.
Proof.
  exists doc_world, [(KName (S_ "x"), Ref A_); (KName (S_ "y"), Num 3)]. destruct (new_params doc_world _) as [w1 p] eqn:E. exists w1, p. split; [exact doc_reach|].
  split; [constructor; [intros [H|[]]; discriminate|constructor; [intros []|constructor]]|]. split; [intros t [[= <-]|[H|[]]]; [rewrite doc_wd; discriminate|discriminate]|].
  split; [reflexivity|]. cbn. auto.
Qed.
Print Assumptions C77_bad_constraint.
Print Assumptions C77_unfinished.
Print Assumptions C78_container_follows.
Print Assumptions C79_ordered_step.
Print Assumptions C80_last_evaluation_stays.
