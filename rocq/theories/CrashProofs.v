(** Lemmas for CrashProps. *)
From Coq Require Import ZArith Reals Lia String Ascii.
From Verif Require Import Py PyStr PyDict RetainModel ExecModel CliModel ZtModel EngModel RUtil CfgSpec CfgModel CfgProofs KvarSpec KvarModel KvarProofs DataModel SubsModel SubsProofs Regex InstrSpec InstrModel InstrProofs MonoModel InterpSpec InterpModel TxtSpec TxtModel TxtProofs TxtProps FmtSpec CmdSpec CmdModel CmdProofs RunModel CrashSpec CrashModel.
Local Open Scope list_scope.

(** ** the machine *)
Lemma written_other w : forall fs m, ~ In m (map fst w) -> written fs w m = fs m.
Proof.
  induction w as [|[n t] w IH]; intros fs m H; [reflexivity|]. cbn [written]. rewrite IH by (intros X; apply H; right; exact X). destruct (eqb m n) eqn:E; [apply eqb_eq in E; exfalso; apply H; left; symmetry; exact E|reflexivity].
Qed.
Lemma written_app a : forall fs b, written fs (a ++ b) = written (written fs a) b.
Proof. induction a as [|[n t] a IH]; intros fs b; [reflexivity|]. cbn [app written]. apply IH. Qed.
Lemma written_at w : forall fs n t, NoDup (map fst w) -> In (n, t) w -> written fs w n = Some t.
Proof.
  induction w as [|[k x] w IH]; intros fs n t N H; [destruct H|]. cbn [map fst] in N. inversion N as [|? ? N1 N2]; subst. destruct H as [[= -> ->]|H]; cbn [written].
  - rewrite written_other by exact N1. rewrite (proj2 (eqb_eq n n) eq_refl). reflexivity.
  - apply IH; assumption.
Qed.
(** two disks that agree outside the files of [w] *)
Lemma written_agree w : forall fs gs, (forall m, ~ In m (map fst w) -> gs m = fs m) -> forall m, written gs w m = written fs w m.
Proof.
  induction w as [|[n t] w IH]; intros fs gs H m; [apply H; intros []|]. cbn [written]. apply IH. intros k Hk. destruct (eqb k n) eqn:E; [reflexivity|]. apply H. intros [X|X]; [cbn in X; subst; rewrite (proj2 (eqb_eq k k) eq_refl) in E; discriminate|exact (Hk X)].
Qed.
Definition pw (a b : files) : Prop := forall m, a m = b m.
(** what a process may look like *)
Definition inv (fs : files) (w : list (str * str)) (s : proc) : Prop :=
  exists before, match p_open s with
    | None => w = before ++ p_todo s /\ pw (p_disk s) (written fs before)
    | Some (n, rest) => exists p, w = before ++ (n, p ++ rest) :: p_todo s /\ pw (p_disk s) (written fs (before ++ [(n, p)]))
    end.
Lemma write_written fs n t : pw (write fs n t) (written fs [(n, t)]).
Proof. intros m. unfold write. cbn [written]. destruct (eqb m n) eqn:E; reflexivity. Qed.
Lemma inv_step fs w a b : inv fs w a -> step a b -> inv fs w b.
Proof.
  intros (before & H) St. destruct St as [d n t r|d n x y r|d n r]; cbn [p_open p_todo p_disk] in H.
  - destruct H as (E & D). exists before. cbn [p_open p_todo p_disk]. exists []. split; [exact E|]. intros m. rewrite written_app. cbn [written]. unfold write. destruct (eqb m n); [reflexivity|apply D].
  - destruct H as (p & E & D). exists before. cbn [p_open p_todo p_disk]. exists (p ++ x). split; [rewrite <- app_assoc; exact E|]. intros m. rewrite written_app. cbn [written]. unfold append_to, write.
    assert (Dn : d n = Some p) by (rewrite D, written_app; cbn [written]; rewrite (proj2 (eqb_eq n n) eq_refl); reflexivity).
    destruct (eqb m n) eqn:Em; [rewrite Dn; reflexivity|]. rewrite D, written_app. cbn [written]. rewrite Em. reflexivity.
  - destruct H as (p & E & D). rewrite app_nil_r in E. exists (before ++ [(n, p)]). cbn [p_open p_todo p_disk]. split; [rewrite <- app_assoc; exact E|exact D].
Qed.
Lemma inv_steps fs w s : steps (Proc fs None w) s -> inv fs w s.
Proof.
  intros H. remember (Proc fs None w) as s0 eqn:E0. induction H as [s|a b c H IH St]; [subst; exists []; split; [reflexivity|intros m; reflexivity]|]. exact (inv_step _ _ _ _ (IH E0) St).
Qed.
Lemma steps_trans a b c : steps a b -> steps b c -> steps a c.
Proof. intros H1 H2. revert H1. induction H2 as [s|x y z H IH St]; intros H1; [exact H1|]. exact (steps_snoc _ _ _ (IH H1) St). Qed.
Lemma steps1 a b : step a b -> steps a b. Proof. intros H. exact (steps_snoc _ _ _ (steps_refl a) H). Qed.
(** writing the first files completely *)
Lemma run_before before : forall fs after, exists d, steps (Proc fs None (before ++ after)) (Proc d None after) /\ pw d (written fs before).
Proof.
  induction before as [|[n t] before IH]; intros fs after; [exists fs; split; [apply steps_refl|intros m; reflexivity]|].
  set (d1 := write fs n []). set (d2 := append_to d1 n t). destruct (IH d2 after) as (d & S1 & E1). exists d. split.
  - cbn [app]. eapply steps_trans; [|exact S1]. eapply steps_trans; [apply steps1; apply s_open|]. fold d1. eapply steps_trans; [apply steps1; pose proof (s_flush d1 n t [] (before ++ after)) as X; rewrite app_nil_r in X; exact X|]. fold d2. apply steps1. apply s_close.
  - intros m. rewrite E1. cbn [written]. revert m. apply written_agree. intros m _. unfold d2, append_to, d1, write. rewrite (proj2 (eqb_eq n n) eq_refl). destruct (eqb m n); reflexivity.
Qed.
Lemma killed_iff fs w d : killed fs w d -> exists before, (exists after, w = before ++ after /\ pw d (written fs before)) \/ exists n p q after, w = before ++ (n, p ++ q) :: after /\ pw d (written fs (before ++ [(n, p)])).
Proof.
  intros (h & r & H). destruct (inv_steps _ _ _ H) as (before & I). cbn [p_open p_todo p_disk] in I. exists before. destruct h as [[n rest]|].
  - right. destruct I as (p & E & D). exists n, p, rest, r. split; assumption.
  - left. exists r. exact I.
Qed.
Lemma killed_other fs w d m : killed fs w d -> ~ In m (map fst w) -> d m = fs m.
Proof.
  intros H Hm. destruct (killed_iff _ _ _ H) as (before & [(after & -> & D)|(n & p & q & after & -> & D)]); rewrite D; apply written_other; intros X; apply Hm.
  - rewrite map_app. apply in_or_app. left. exact X.
  - rewrite map_app in X |- *. apply in_app_or in X as [X|[X|[]]]; apply in_or_app; [left; exact X|right; left; exact X].
Qed.
Lemma attempts_other w fs d m : attempts w fs d -> ~ In m (map fst w) -> d m = fs m.
Proof. intros H Hm. induction H as [|d d' H IH K]; [reflexivity|]. rewrite (killed_other _ _ _ _ K Hm). exact IH. Qed.

(** ** cut texts *)
Lemma lines_of_cut lines q : Forall (fun l => ~ In lf l) lines -> ~ In lf q -> lines_of (text_of lines ++ q) = lines ++ [q].
Proof.
  intros H Hq. apply has_lines_iff. split; [destruct lines; discriminate|]. split; [apply Forall_app; split; [exact H|repeat constructor; exact Hq]|].
  clear H Hq. unfold text_of. induction lines as [|l lines IH]; [cbn; symmetry; apply app_nil_r|]. cbn [map List.concat app]. rewrite <- app_assoc, IH. destruct (lines ++ [q]) as [|x r] eqn:E; [destruct lines; discriminate|]. rewrite join_cons, <- app_assoc. reflexivity.
Qed.
(** a prefix of lines: complete lines and a piece of the next one *)
Lemma cut_lines lines : forall p q, text_of lines = p ++ q -> exists k piece, (k <= length lines)%nat /\ p = text_of (firstn k lines) ++ piece /\
  (piece = [] \/ exists l rest, nth_error lines k = Some l /\ l = piece ++ rest).
Proof.
  induction lines as [|l lines IH]; intros p q E.
  - destruct p; [|discriminate]. exists 0%nat, []. split; [cbn; lia|]. split; [reflexivity|left; reflexivity].
  - change (text_of (l :: lines)) with ((l ++ [lf]) ++ text_of lines) in E.
    destruct (le_lt_dec (length (l ++ [lf])) (length p)) as [L|L].
    + assert (X : exists p', p = (l ++ [lf]) ++ p').
      { exists (skipn (length (l ++ [lf])) p). assert (F : firstn (length (l ++ [lf])) (p ++ q) = l ++ [lf]) by (rewrite <- E, firstn_app, firstn_all, Nat.sub_diag; cbn; apply app_nil_r).
        rewrite firstn_app in F. replace (length (l ++ [lf]) - length p)%nat with 0%nat in F by lia. cbn in F. rewrite app_nil_r in F. rewrite <- F at 1. symmetry. apply firstn_skipn. }
      destruct X as (p' & ->). rewrite <- (app_assoc (l ++ [lf]) p' q) in E. apply app_inv_head in E. destruct (IH _ _ E) as (k & piece & K & Ep & Hp). exists (S k), piece. split; [cbn; lia|]. split; [rewrite Ep; cbn [firstn]; change (text_of (l :: firstn k lines)) with ((l ++ [lf]) ++ text_of (firstn k lines)); rewrite !app_assoc; reflexivity|exact Hp].
    + exists 0%nat, p. split; [lia|]. split; [reflexivity|]. destruct p as [|c p]; [left; reflexivity|right]. exists l.
      assert (X : exists rest, l = (c :: p) ++ rest).
      { exists (skipn (length (c :: p)) l). rewrite app_length in L. cbn [length] in L. assert (F : firstn (length (c :: p)) ((l ++ [lf]) ++ text_of lines) = c :: p) by (rewrite E, firstn_app, firstn_all, Nat.sub_diag; cbn; rewrite app_nil_r; reflexivity).
        rewrite <- app_assoc, firstn_app in F. replace (length (c :: p) - length l)%nat with 0%nat in F by (cbn [length] in *; lia). change (firstn 0 ([lf] ++ text_of lines)) with (@nil ascii) in F. rewrite app_nil_r in F. rewrite <- F at 1. symmetry. apply firstn_skipn. }
      destruct X as (rest & X). exists rest. split; [reflexivity|exact X].
Qed.
Lemma prefix_split {A} (a b p q : list A) : a ++ b = p ++ q -> (exists x, p = a ++ x /\ b = x ++ q) \/ exists x, a = p ++ x /\ q = x ++ b.
Proof.
  revert p. induction a as [|y a IH]; intros p H; [left; exists p; split; [reflexivity|exact H]|]. destruct p as [|z p]; [right; exists (y :: a); split; [reflexivity|symmetry; exact H]|].
  cbn in H. injection H as <- H. destruct (IH p H) as [(x & -> & E)|(x & -> & E)]; [left; exists x; split; [reflexivity|exact E]|right; exists x; split; [reflexivity|exact E]].
Qed.
Lemma cut_words ws : forall piece rest, Forall plain ws -> jn [sp_c] ws = piece ++ rest ->
  words piece = [] \/ exists j u w r, nth_error ws j = Some w /\ w = u ++ r /\ u <> [] /\ words piece = firstn j ws ++ [u].
Proof.
  assert (One : forall w piece x, plain w -> w = piece ++ x -> words piece = [] \/ (piece <> [] /\ words piece = [piece])).
  { intros w piece x (_ & Hs & _) ->. destruct piece as [|c piece]; [left; reflexivity|right]. split; [discriminate|]. apply words_one; [discriminate|]. apply Forall_app in Hs. apply Hs. }
  induction ws as [|w [|v ws] IH]; intros piece rest H E.
  - cbn in E. destruct piece; [|discriminate]. left. reflexivity.
  - cbn in E. inversion H as [|? ? Hw _]; subst. destruct (One _ piece rest Hw eq_refl) as [W|(N & W)]; [left; exact W|]. right. exists 0%nat, piece, (piece ++ rest), rest. split; [reflexivity|]. split; [reflexivity|]. split; [exact N|exact W].
  - change (jn [sp_c] (w :: v :: ws)) with (w ++ sp_c :: jn [sp_c] (v :: ws)) in E. inversion H as [|? ? Hw Hr]; subst. destruct (prefix_split _ _ _ _ E) as [(x & -> & E2)|(x & Ew & _)].
    + pose proof Hw as (Nw & Sw & _). assert (F0 : words w = [w]) by exact (words_one w Nw Sw). destruct x as [|c x].
      * rewrite app_nil_r. right. exists 0%nat, w, w, []. split; [reflexivity|]. split; [symmetry; apply app_nil_r|]. split; [exact Nw|exact F0].
      * cbn in E2. injection E2 as <- E2. destruct (IH x rest Hr E2) as [W|(j & u & w' & r & A & B & C & W)]; (assert (Ws : words (w ++ sp_c :: x) = w :: words x) by (rewrite (words_app w sp_c x) by reflexivity; rewrite F0; reflexivity)).
        -- right. exists 0%nat, w, w, []. split; [reflexivity|]. split; [symmetry; apply app_nil_r|]. split; [exact Nw|]. exact (eq_trans Ws (f_equal (cons w) W)).
        -- right. exists (S j), u, w', r. split; [exact A|]. split; [exact B|]. split; [exact C|]. exact (eq_trans Ws (f_equal (cons w) W)).
    + destruct (One _ piece x Hw Ew) as [W|(N & W)]; [left; exact W|]. right. exists 0%nat, piece, w, x. split; [reflexivity|]. split; [exact Ew|]. split; [exact N|exact W].
Qed.
Section Cut.
Context {X : Type}.
Variable num : X -> str.
Hypothesis Hnum : forall x, plain (num x).
Lemma cut_number_line r piece rest : number_line num r = piece ++ rest ->
  words (strip (before_hash piece)) = [] \/ exists j u x v, nth_error r j = Some x /\ num x = u ++ v /\ u <> [] /\ words (strip (before_hash piece)) = map num (firstn j r) ++ [u].
Proof.
  intros E. unfold number_line in E. rewrite <- jn_join in E. assert (P : Forall plain (map num r)) by (apply Forall_forall; intros w Hw; apply in_map_iff in Hw as (x & <- & _); apply Hnum).
  assert (NH : ~ In "#"%char piece). { intros Hi. assert (Hi2 : In "#"%char (jn (S_ " ") (map num r))) by (rewrite E; apply in_or_app; left; exact Hi). apply jn_in in Hi2 as [[Hi2|[]]|(w & Hw & Hi2)]; [discriminate|]. rewrite Forall_forall in P. destruct (P w Hw) as (_ & _ & Nh). exact (Nh Hi2). }
  rewrite (before_hash_none _ NH), words_strip. destruct (cut_words (map num r) piece rest P E) as [W|(j & u & w & v & A & B & C & W)]; [left; exact W|].
  right. destruct (nth_error r j) as [x|] eqn:Ej; [|exfalso; apply nth_error_None in Ej; assert (Hl : (j < length (map num r))%nat) by (apply nth_error_Some; congruence); rewrite map_length in Hl; lia].
  rewrite (map_nth_error num j r Ej) in A. injection A as A. exists j, u, x, v. split; [exact Ej|]. split; [congruence|]. split; [exact C|]. rewrite W, firstn_map. reflexivity.
Qed.
Lemma cut_text hs rows p q : Forall (fun h => ~ In lf h) hs -> Forall (fun r => r <> []) rows -> text_of (map (cons "#"%char) hs ++ map (number_line num) rows) = p ++ q ->
  exists k, (k <= length rows)%nat /\ (rows_of p = map (map num) (firstn k rows) \/
    exists r j x u v, nth_error rows k = Some r /\ nth_error r j = Some x /\ num x = u ++ v /\ u <> [] /\ rows_of p = map (map num) (firstn k rows) ++ [map num (firstn j r) ++ [u]]).
Proof.
  intros Hh Hr E. set (hl := map (cons "#"%char) hs) in *. set (nls := map (number_line num) rows) in *.
  assert (Fh : Forall (fun l => ~ In lf l) hl). { apply Forall_forall. intros l Hl. apply in_map_iff in Hl as (h & <- & Hl). rewrite Forall_forall in Hh. intros [Q|Q]; [discriminate|exact (Hh h Hl Q)]. }
  assert (Fn : Forall (fun l => ~ In lf l) nls). { apply Forall_forall. intros l Hl. apply in_map_iff in Hl as (r & <- & _). apply number_line_lf. exact Hnum. }
  set (wd := fun l => words (strip (before_hash l))).
  assert (Wh : forall hl', incl hl' hl -> filter filled_row (map wd hl') = []). { clear - hl. induction hl' as [|l hl' IH]; intros I; [reflexivity|]. cbn [map filter]. assert (Il : In l hl) by (apply I; left; reflexivity). apply in_map_iff in Il as (h & <- & _). unfold wd at 1. rewrite comment_words. cbn [filled_row]. apply IH. intros z Hz. apply I. right. exact Hz. }
  assert (Wn : forall rs, Forall (fun r : list X => r <> []) rs -> filter filled_row (map wd (map (number_line num) rs)) = map (map num) rs).
  { intros rs. induction 1 as [|r rs Nr _ IH]; [reflexivity|]. cbn [map filter]. assert (Ww : wd (number_line num r) = map num r) by (unfold wd; apply (number_line_words num Hnum)). rewrite Ww. destruct r as [|x r]; [congruence|]. exact (f_equal (cons (map num (x :: r))) IH). }
  destruct (cut_lines _ _ _ E) as (k & piece & K & -> & Hp).
  assert (Fk : Forall (fun l => ~ In lf l) (firstn k (hl ++ nls))). { apply Forall_forall. intros l Hl. assert (F : Forall (fun l => ~ In lf l) (hl ++ nls)) by (apply Forall_app; split; assumption). rewrite Forall_forall in F. apply F. rewrite <- (firstn_skipn k). apply in_or_app. left. exact Hl. }
  assert (Fp : ~ In lf piece). { destruct Hp as [-> |(l & rest & Hl & ->)]; [intros []|]. assert (F : Forall (fun l => ~ In lf l) (hl ++ nls)) by (apply Forall_app; split; assumption). rewrite Forall_forall in F. specialize (F _ (nth_error_In _ _ Hl)). intros Hi. apply F, in_or_app. left. exact Hi. }
  assert (RO : forall tl, filter filled_row (map wd [piece]) = tl -> forall hd, filter filled_row (map wd (firstn k (hl ++ nls))) = hd -> rows_of (text_of (firstn k (hl ++ nls)) ++ piece) = hd ++ tl).
  { intros tl Et hd Eh. etransitivity; [apply rows_of_lines|]. etransitivity; [exact (f_equal (fun z => filter filled_row (map wd z)) (lines_of_cut _ _ Fk Fp))|]. rewrite map_app, filter_app. exact (f_equal2 (@app (list str)) Eh Et). }
  destruct (le_lt_dec (length hl) k) as [L|L].
  - set (i := (k - length hl)%nat). assert (Ek : firstn k (hl ++ nls) = hl ++ map (number_line num) (firstn i rows)). { etransitivity; [apply firstn_app|]. rewrite (firstn_all2 hl L). fold i. unfold nls. rewrite firstn_map. reflexivity. }
    assert (Nf : Forall (fun r : list X => r <> []) (firstn i rows)). { apply Forall_forall. intros r H1. rewrite Forall_forall in Hr. apply Hr. rewrite <- (firstn_skipn i). apply in_or_app. left. exact H1. }
    assert (FK : filter filled_row (map wd (firstn k (hl ++ nls))) = map (map num) (firstn i rows)). { etransitivity; [exact (f_equal (fun z => filter filled_row (map wd z)) Ek)|]. rewrite map_app, filter_app. exact (f_equal2 (@app (list str)) (Wh hl (incl_refl _)) (Wn _ Nf)). }
    exists i. split. { rewrite app_length in K. unfold nls in K. rewrite map_length in K. lia. }
    destruct Hp as [-> |(l & rest & Hl & El)]; [left; etransitivity; [apply (RO []); [reflexivity|exact FK]|apply app_nil_r]|].
    assert (Hn : nth_error nls i = Some l) by (etransitivity; [symmetry; apply (nth_error_app2 hl nls L)|exact Hl]). unfold nls in Hn. destruct (nth_error rows i) as [r|] eqn:Er; [|exfalso; apply nth_error_None in Er; assert (Hq : (i < length (map (number_line num) rows))%nat) by (apply nth_error_Some; congruence); rewrite map_length in Hq; lia].
    rewrite (map_nth_error (number_line num) i rows Er) in Hn. injection Hn as Hn. rewrite <- Hn in El.
    destruct (cut_number_line r piece rest El) as [W|(j & u & x & v & A & B & C & W)].
    + left. etransitivity; [apply (RO []); [|exact FK]|apply app_nil_r]. exact (f_equal (fun z => filter filled_row [z]) W).
    + right. exists r, j, x, u, v. split; [reflexivity|]. split; [exact A|]. split; [exact B|]. split; [exact C|]. apply RO; [|exact FK]. etransitivity; [exact (f_equal (fun z => filter filled_row [z]) W)|]. destruct (map num (firstn j r)); reflexivity.
  - exists 0%nat. split; [lia|]. left.
    assert (T1 : filter filled_row (map wd [piece]) = []).
    { destruct Hp as [-> |(l & rest & Hl & El)]; [reflexivity|]. assert (Hn : nth_error hl k = Some l) by (etransitivity; [symmetry; apply (nth_error_app1 hl nls L)|exact Hl]). apply nth_error_In in Hn. apply in_map_iff in Hn as (h & Eh & _). destruct piece as [|c piece]; [reflexivity|]. rewrite El in Eh. cbn in Eh. injection Eh as <- _. reflexivity. }
    assert (T2 : filter filled_row (map wd (firstn k (hl ++ nls))) = []).
    { etransitivity; [|apply (Wh (firstn k hl)); intros z Hz; rewrite <- (firstn_skipn k); apply in_or_app; left; exact Hz]. apply f_equal, f_equal. etransitivity; [apply firstn_app|]. replace (k - length hl)%nat with 0%nat by lia. cbn [firstn]. apply app_nil_r. }
    exact (RO [] T1 [] T2).
Qed.
End Cut.
