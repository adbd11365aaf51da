(** C94: the variables of a fitting configuration. *)
From Coq Require Import Reals Lra String Ascii.
From Verif Require Import Py PyStr PyDict Regex VarModel KvarModel KvarSpec KvarProofs.
Local Open Scope R_scope.

(** the written form is read as meant *)
Theorem C94_reads : forall ws e, legible ws e ->
  varb (render ws e) = Some {| t_initial := given (x_initial e); t_scale := given (x_scale e);
    t_lower := match x_bounds e with Some (l, _) => given l | None => None end; t_upper := match x_bounds e with Some (_, u) => given u | None => None end |}.
Proof.
  intros ws [a s b] (Hw & Ha & Hs & Hb). unfold render. cbn [x_initial x_scale x_bounds] in *. unfold varb.
  assert (NT : ~ In qmark (ws 2%nat ++ s ++ ws 3%nat ++ match b with Some (l, u) => "<"%char :: ws 4%nat ++ l ++ ws 5%nat ++ ","%char :: ws 6%nat ++ u ++ ws 7%nat ++ [">"%char] | None => [] end)).
  { assert (W : forall i, ~ In qmark (ws i)) by (intros i; apply not_in_space; [reflexivity|apply Hw]). rewrite !in_app_iff. intros [H|[H|[H|H]]]; [exact (W _ H)|revert H; apply (ww _ _ Hs); left; reflexivity|exact (W _ H)|].
    destruct b as [[l u]|]; [|exact H]. destruct Hb as (Hl & Hu). destruct H as [H|H]; [discriminate|]. rewrite !in_app_iff in H. destruct H as [H|[H|[H|[H|H]]]]; [exact (W _ H)|revert H; apply (ww _ _ Hl); left; reflexivity|exact (W _ H)|discriminate|].
    rewrite !in_app_iff in H. destruct H as [H|[H|[H|[H|[]]]]]; [exact (W _ H)|revert H; apply (ww _ _ Hu); left; reflexivity|exact (W _ H)|discriminate]. }
  destruct b as [[l u]|].
  - destruct Hb as (Hl & Hu). assert (E := bounds_ok (ws 4%nat) l (ws 5%nat) (ws 6%nat) u (ws 7%nat) (addc (S_ "scale") s (addc (S_ "initial") a [])) (Hw _) (Hw _) (Hw _) (Hw _) Hl Hu).
    rewrite (head_ok (ws 0%nat) a (ws 1%nat) _ (addc (S_ "upper") u (addc (S_ "lower") l (addc (S_ "scale") s (addc (S_ "initial") a []))), [])); [f_equal; apply g4_add|apply Hw|apply Hw|exact Ha|exact NT|].
    rewrite scale_ok; [exact E|apply Hw|apply Hw|exact Hs|]. split; [reflexivity|left; reflexivity].
  - rewrite (head_ok (ws 0%nat) a (ws 1%nat) _ (addc (S_ "scale") s (addc (S_ "initial") a []), [])); [f_equal; apply (g4_add a s [] [])|apply Hw|apply Hw|exact Ha|exact NT|].
    rewrite scale_ok; [|apply Hw|apply Hw|exact Hs|exact I]. reflexivity.
Qed.
Print Assumptions C94_reads.
(** whatever follows the scale but is not of the form <..,..> is ignored: so bounds without comma or closing bracket have no effect *)
Theorem C94_tail_ignored : forall w0 a w1 w2 s w3 tail, spaces w0 -> spaces w1 -> spaces w2 -> spaces w3 ->
  word_without ["?"%char] a -> word_without ["?"%char; "<"%char; "@"%char] s -> ~ In "?"%char tail ->
  (exists r, tail = "<"%char :: r) \/ (exists r, tail = "@"%char :: r) \/ (s <> [] /\ w3 <> [] /\ exists c r, tail = c :: r /\ is_space c = false) ->
  (forall x y z, tail <> "<"%char :: x ++ ","%char :: y ++ ">"%char :: z) ->
  varb (w0 ++ a ++ w1 ++ "?"%char :: w2 ++ s ++ w3 ++ tail) = Some {| t_initial := given a; t_scale := given s; t_lower := None; t_upper := None |}.
Proof.
  intros w0 a w1 w2 s w3 tail H0 H1 H2 H3 Ha Hs NT Hd HB. unfold varb.
  rewrite (head_ok w0 a w1 _ (addc (S_ "scale") s (addc (S_ "initial") a []), tail)); [f_equal; apply (g4_add a s [] [])|exact H0|exact H1|exact Ha| |].
  - rewrite !in_app_iff. intros [H|[H|[H|H]]]; [revert H; apply not_in_space; [reflexivity|exact H2]|revert H; apply (ww _ _ Hs); left; reflexivity|revert H; apply not_in_space; [reflexivity|exact H3]|contradiction].
  - rewrite scale_ok; [apply bounds_none; exact HB|exact H2|exact H3|exact Hs|]. destruct Hd as [(r & ->)|[(r & ->)|(N1 & N2 & c & r & -> & Hc)]]; [split; [reflexivity|left; reflexivity]|split; [reflexivity|left; reflexivity]|split; [exact Hc|right; split; assumption]].
Qed.
Print Assumptions C94_tail_ignored.
(** exactly the texts with a question mark preceded by at most one word are variables *)
Theorem C94_variable_iff : forall v, varb v <> None <-> exists w0 a w1 r, v = w0 ++ a ++ w1 ++ "?"%char :: r /\ spaces w0 /\ spaces w1 /\ Forall (fun x => is_space x = false) a.
Proof. intros v. rewrite <- (matches_iff v). unfold varb. destruct (re_match varbpat v) as [[c t]|]; split; congruence. Qed.
Print Assumptions C94_variable_iff.

Section Read.
Variable pyfloat : str -> res R.
Definition number (o : option str) (dflt x : R) : Prop := match o with Some t => pyfloat t = Ok x | None => x = dflt end.
(** ** reading one entry: defaults 1 ? 1 <0, 1000>; an initial value (even the default one) out of bounds is refused;
    a tag already in use in the process keeps its old settings *)
Theorem C94_variable : forall w tag ws e i sc l u, legible ws e ->
  number (given (x_initial e)) 1 i -> number (given (x_scale e)) 1 sc ->
  number (match x_bounds e with Some (l, _) => given l | None => None end) 0 l -> number (match x_bounds e with Some (_, u) => given u | None => None end) 1000 u ->
  (w_vars w tag = None -> l <= i <= u -> exists w' v, read_var pyfloat w tag (render ws e) = (w', Ok (Ref tag)) /\
     w_vars w' tag = Some (Ready v) /\ v_value v = i /\ v_lower v = l /\ v_upper v = u /\ v_scale v = sc /\ v_compute v = None /\ (forall t, t <> tag -> w_vars w' t = w_vars w t)) /\
  (w_vars w tag = None -> ~ (l <= i <= u) -> snd (read_var pyfloat w tag (render ws e)) = Err ValueError) /\
  (forall v, w_vars w tag = Some (Ready v) -> read_var pyfloat w tag (render ws e) = (w, Ok (Ref tag))).
Proof.
  intros w tag ws e i sc l u He Hi Hsc Hl Hu. unfold read_var. rewrite C94_reads by exact He. cbn [t_initial t_scale t_lower t_upper].
  assert (N : forall s d x, number (given s) d x -> num pyfloat (given s) d = Ok x) by (intros [|c s] d x H; cbn in *; [congruence|exact H]).
  assert (N' : forall (o : option str) d x, (forall t, o = Some t -> t <> []) -> number o d x -> num pyfloat o d = Ok x) by (intros [[|c s]|] d x G H; cbn in *; [exfalso; apply (G []); reflexivity|exact H|congruence]).
  assert (G : forall s t, given s = Some t -> t <> []) by (intros [|c s] t H; cbn in H; congruence).
  assert (GL : forall t, match x_bounds e with Some (l, _) => given l | None => None end = Some t -> t <> []) by (destruct (x_bounds e) as [[a b]|]; [apply G|intros t H; discriminate]).
  assert (GU : forall t, match x_bounds e with Some (_, u) => given u | None => None end = Some t -> t <> []) by (destruct (x_bounds e) as [[a b]|]; [apply G|intros t H; discriminate]).
  rewrite (N _ _ _ Hi), (N _ _ _ Hsc). cbv beta iota delta [rbind]. rewrite (N' _ _ _ GL Hl), (N' _ _ _ GU Hu).
  split; [|split].
  - intros Hw Hb. unfold new_var. rewrite Hw. destruct (Rle_dec l i); [|lra]. destruct (Rle_dec i u); [|lra]. cbn [combine map seq List.length new_params enter].
    eexists _, _. split; [reflexivity|]. cbn [w_vars upd_var upd_par]. rewrite eqb_refl. split; [reflexivity|]. cbn [v_value v_lower v_upper v_scale v_compute]. repeat (split; [reflexivity|]). intros t Ht. destruct (eqb t tag) eqn:E; [apply eqb_eq in E; contradiction|reflexivity].
  - intros Hw Hb. unfold new_var. rewrite Hw. destruct (Rle_dec l i); [destruct (Rle_dec i u); [exfalso; apply Hb; lra|]|]; reflexivity.
  - intros v Hv. unfold new_var. rewrite Hv. reflexivity.
Qed.
(** ** an entry that is no variable is a number or refused *)
Theorem C94_constant : forall w tag val, varb val = None ->
  read_var pyfloat w tag val = (w, match pyfloat val with Ok x => Ok (Num x) | Err _ => Err ValueError end).
Proof. intros w tag val H. unfold read_var. rewrite H. destruct (pyfloat val); reflexivity. Qed.
(** ** the whole section: every entry under its own tag and in order, the variables to be fitted being those with a question mark;
    otherwise the first entry that cannot be read decides *)
Theorem C94_section : forall items w w' d, read_vars pyfloat w items = (w', Ok d) ->
  map fst d = map fst items /\ fitting d = map fst (filter (fun tv => if varb (snd tv) then true else false) items) /\
  (forall tag x, In (tag, Num x) d -> exists val, In (tag, val) items /\ varb val = None /\ pyfloat val = Ok x).
Proof.
  induction items as [|[tag val] items IH]; intros w w' d H.
  - cbn in H. assert (d = []) by congruence. subst d. split; [reflexivity|]. split; [reflexivity|intros ? ? []].
  - cbn [read_vars] in H. destruct (read_var pyfloat w tag val) as [w1 [a|e]] eqn:E; [|congruence]. destruct (read_vars pyfloat w1 items) as [w2 [d'|e]] eqn:E2; [|congruence].
    assert (d = (tag, a) :: d') by congruence. subst d. destruct (IH w1 w2 d' E2) as (A & B & F). cbn [map fst]. rewrite A. split; [reflexivity|].
    assert (Q : (varb val <> None /\ a = Ref tag) \/ (varb val = None /\ exists x, pyfloat val = Ok x /\ a = Num x)).
    { unfold read_var in E. destruct (varb val) as [s|].
      - left. split; [discriminate|]. destruct (let! i := num pyfloat (t_initial s) 1 in let! sc := num pyfloat (t_scale s) 1 in let! l := num pyfloat (t_lower s) 0 in let! u := num pyfloat (t_upper s) 1000 in Ok (i, sc, l, u)) as [[[[i sc] l] u]|e']; [|congruence].
        destruct (new_var w tag i l u sc CNone []) as [w3 [e'|]]; congruence.
      - right. split; [reflexivity|]. destruct (pyfloat val) as [x|e']; [|congruence]. exists x. split; [reflexivity|congruence]. }
    unfold fitting. cbn [flat_map snd filter]. fold (fitting d'). rewrite B. destruct Q as [(Q & ->)|(Q & x & Hx & ->)].
    + destruct (varb val) eqn:V; [|congruence]. split; [reflexivity|]. intros t y [K|K]; [congruence|]. destruct (F t y K) as (v & Hv & R0). exists v. split; [right; exact Hv|exact R0].
    + rewrite Q. split; [reflexivity|]. intros t y [K|K]; [exists val; split; [left; congruence|split; [exact Q|congruence]]|]. destruct (F t y K) as (v & Hv & R0). exists v. split; [right; exact Hv|exact R0].
Qed.
Theorem C94_section_fails : forall items w w' e, read_vars pyfloat w items = (w', Err e) <->
  exists pre tag val post d w1, items = pre ++ (tag, val) :: post /\ read_vars pyfloat w pre = (w1, Ok d) /\ read_var pyfloat w1 tag val = (w', Err e).
Proof.
  induction items as [|[tag val] items IH]; intros w w' e.
  - split; [cbn; congruence|]. intros (pre & t & v & post & d & w1 & E & _). destruct pre; discriminate.
  - cbn [read_vars]. destruct (read_var pyfloat w tag val) as [w1 [a|e1]] eqn:E.
    + split.
      * intros H. destruct (read_vars pyfloat w1 items) as [w2 [d'|e']] eqn:E2; [congruence|]. assert (X : read_vars pyfloat w1 items = (w', Err e)) by congruence. apply IH in X. destruct X as (pre & t & v & post & d & w3 & -> & P & Q).
        exists ((tag, val) :: pre), t, v, post, ((tag, a) :: d), w3. split; [reflexivity|]. split; [cbn [read_vars]; rewrite E, P; reflexivity|exact Q].
      * intros (pre & t & v & post & d & w3 & Ei & P & Q). destruct pre as [|[t0 v0] pre].
        -- cbn in Ei, P. assert (t = tag) by congruence. assert (v = val) by congruence. assert (w3 = w) by congruence. subst. congruence.
        -- cbn [app] in Ei. assert (t0 = tag) by congruence. assert (v0 = val) by congruence. assert (items = pre ++ (t, v) :: post) by congruence. subst t0 v0. cbn [read_vars] in P. rewrite E in P. destruct (read_vars pyfloat w1 pre) as [w4 [d4|e4]] eqn:E4; [|congruence].
           assert (w4 = w3) by congruence. subst w4. assert (X : read_vars pyfloat w1 items = (w', Err e)) by (apply IH; exists pre, t, v, post, d4, w3; split; [assumption|split; assumption]). rewrite X. reflexivity.
    + split.
      * intros H. exists [], tag, val, items, [], w. split; [reflexivity|]. split; [reflexivity|]. congruence.
      * intros (pre & t & v & post & d & w3 & Ei & P & Q). destruct pre as [|[t0 v0] pre].
        -- cbn in Ei, P. assert (t = tag) by congruence. assert (v = val) by congruence. assert (w3 = w) by congruence. subst. congruence.
        -- cbn [app] in Ei. assert (t0 = tag) by congruence. assert (v0 = val) by congruence. subst t0 v0. cbn [read_vars] in P. rewrite E in P. congruence.
Qed.
End Read.
Print Assumptions C94_variable.
Print Assumptions C94_constant.
Print Assumptions C94_section.
Print Assumptions C94_section_fails.
Example C94_case : varb (S_ "2.5 ? 10 <0.1, 20>") = Some {| t_initial := Some (S_ "2.5"); t_scale := Some (S_ "10"); t_lower := Some (S_ "0.1"); t_upper := Some (S_ "20") |} /\
  varb (S_ "?<2,>") = Some {| t_initial := None; t_scale := None; t_lower := Some (S_ "2"); t_upper := None |} /\ varb (S_ "1?<2 5>") = Some {| t_initial := Some (S_ "1"); t_scale := None; t_lower := None; t_upper := None |} /\
  varb (S_ "3.5") = None /\ varb (S_ "1 2 ?") = None.
Proof. repeat split; reflexivity. Qed.
Example C94_case_legible : legible (fun i => if (i =? 2)%nat then S_ " " else []) {| x_initial := S_ "2"; x_scale := []; x_bounds := Some (S_ "1", S_ "9") |}.
Proof. unfold legible, word_without, spaces. cbn [x_initial x_scale x_bounds]. split; [|repeat split; repeat (constructor; [split; [reflexivity|intros H; repeat destruct H as [H|H]; try discriminate; exact H]|]); constructor]. intros i. destruct (i =? 2)%nat; repeat constructor. Qed.
