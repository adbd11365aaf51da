(** Lemmas for TxtProps. *)
From Coq Require Import ZArith Reals String Ascii.
From Verif Require Import Py PyStr RUtil CfgSpec CfgModel CfgProofs KvarSpec KvarModel KvarProofs DataModel SubsModel SubsProofs Regex InstrSpec InstrModel InstrProofs TxtSpec TxtModel.
Local Open Scope list_scope.
Local Open Scope nat_scope.

Lemma jn_join sep l : jn sep l = join sep l.
Proof.
  induction l as [|w [|x r] IH]; [reflexivity|cbn; symmetry; apply app_nil_r|]. change (w ++ sep ++ jn sep (x :: r) = join sep (w :: x :: r)). rewrite IH. symmetry. apply join_cons.
Qed.
Lemma words_iff t ws : words t = ws <-> tokens is_space t ws.
Proof. apply (split_class_iff is_space). Qed.
Lemma tokens_seps_r sep t ws b : tokens sep t ws -> Forall (fun c => sep c = true) b -> tokens sep (t ++ b) ws.
Proof.
  intros H Hb. induction H as [s Hs|s w rest ws Hs Hw Hn Hr _ IH]; [constructor; apply Forall_app; auto|]. rewrite <- !app_assoc. constructor; [assumption..| |exact IH].
  destruct Hr as [->|(c & r & -> & Hc)]; [|right; exists c, (r ++ b); auto]. destruct Hb as [|c b Hc Hb]; [left; reflexivity|right; exists c, b; auto].
Qed.
Lemma tokens_seps_l sep t ws a : tokens sep t ws -> Forall (fun c => sep c = true) a -> tokens sep (a ++ t) ws.
Proof. intros H Ha. induction Ha as [|c a Hc _ IH]; [exact H|]. cbn. apply tokens_cons_sep; assumption. Qed.
Lemma words_strip s : words (strip s) = words s.
Proof.
  destruct (strip_split s) as (a & b & E & Ha & Hb). symmetry. apply words_iff. rewrite E at 1. apply tokens_seps_l; [|exact Ha]. apply tokens_seps_r; [|exact Hb]. apply words_iff. reflexivity.
Qed.
Lemma tokens_app sep t ws c u vs : tokens sep t ws -> sep c = true -> tokens sep u vs -> tokens sep (t ++ c :: u) (ws ++ vs).
Proof.
  intros H Hc Hu. induction H as [s Hs|s w rest ws Hs Hw Hn Hr _ IH].
  - apply tokens_seps_l; [|exact Hs]. apply tokens_cons_sep; assumption.
  - rewrite <- !app_assoc. cbn [app]. constructor; [assumption..| |exact IH]. destruct Hr as [->|(d & r & -> & Hd)]; right; [exists c, u; auto|exists d, (r ++ c :: u); auto].
Qed.
Lemma words_app t c u : is_space c = true -> words (t ++ c :: u) = words t ++ words u.
Proof. intros Hc. apply words_iff. apply tokens_app; [apply words_iff; reflexivity|exact Hc|apply words_iff; reflexivity]. Qed.
Lemma words_jn c ts : is_space c = true -> words (jn [c] ts) = concat (map words ts).
Proof.
  intros Hc. induction ts as [|t [|u r] IH]; [reflexivity|cbn; rewrite app_nil_r; reflexivity|]. change (jn [c] (t :: u :: r)) with (t ++ c :: jn [c] (u :: r)). rewrite words_app by exact Hc. rewrite IH. reflexivity.
Qed.
Definition sound (w : str) : Prop := w <> [] /\ Forall (fun c => is_space c = false) w /\ ~ In "#"%char w.
Lemma words_one w : w <> [] -> Forall (fun c => is_space c = false) w -> words w = [w].
Proof. intros H1 H2. apply words_iff. pose proof (tok_word is_space [] w [] [] (Forall_nil _) H1 H2 (or_introl eq_refl) (tok_none _ [] (Forall_nil _))) as X. rewrite app_nil_r in X. exact X. Qed.
Lemma words_of_sound c ws : is_space c = true -> Forall sound ws -> words (jn [c] ws) = ws.
Proof. intros Hc H. rewrite words_jn by exact Hc. induction H as [|w ws (H1 & H2 & _) _ IH]; [reflexivity|]. cbn [map concat]. rewrite words_one, IH by assumption. reflexivity. Qed.
Lemma tokens_sub sep t ws w : tokens sep t ws -> In w ws -> w <> [] /\ Forall (fun c => sep c = false) w /\ forall c, In c w -> In c t.
Proof.
  intros H. induction H as [|s w0 rest ws Hs Hw Hn Hr _ IH]; [intros []|]. intros [->|Hin]; [split; [exact Hw|split; [exact Hn|]]; intros c Hc; apply in_or_app; right; apply in_or_app; left; exact Hc|].
  destruct (IH Hin) as (A & B & C). split; [exact A|]. split; [exact B|]. intros c Hc. apply in_or_app. right. apply in_or_app. right. exact (C c Hc).
Qed.
(** lines *)
Lemma before_hash_spec l : exists r, l = before_hash l ++ r /\ ~ In "#"%char (before_hash l) /\ (r = [] \/ exists r', r = "#"%char :: r').
Proof.
  induction l as [|c l IH]; [exists []; cbn; auto|]. cbn. destruct (is_ch hash_c c) eqn:E.
  - apply is_ch_eq in E. subst. exists (hash_c :: l). cbn. split; [reflexivity|]. split; [tauto|]. right. exists l. reflexivity.
  - destruct IH as (r & E1 & N & Hr). exists r. split; [cbn; congruence|]. split; [|exact Hr]. intros [X|X]; [subst c; discriminate|exact (N X)].
Qed.
Lemma before_hash_eq a r : ~ In "#"%char a -> (r = [] \/ exists r', r = "#"%char :: r') -> before_hash (a ++ r) = a.
Proof.
  intros N Hr. induction a as [|c a IH]; cbn.
  - destruct Hr as [->|(r' & ->)]; [reflexivity|]. reflexivity.
  - destruct (is_ch hash_c c) eqn:E; [exfalso; apply N; left; apply is_ch_eq in E; exact E|]. f_equal. apply IH. intros X. apply N. right. exact X.
Qed.
Lemma before_hash_none a : ~ In "#"%char a -> before_hash a = a.
Proof. intros N. rewrite <- (app_nil_r a) at 1. apply before_hash_eq; auto. Qed.
Lemma line_words_iff l ws : words (strip (before_hash l)) = ws <-> line_words l ws.
Proof.
  rewrite words_strip. split.
  - intros H. destruct (before_hash_spec l) as (r & E & N & Hr). exists (before_hash l), r. split; [exact E|]. split; [exact N|]. split; [exact Hr|]. apply words_iff, H.
  - intros (a & r & -> & N & Hr & T). rewrite before_hash_eq by assumption. apply words_iff, T.
Qed.
Lemma line_words_sound l ws : line_words l ws -> Forall sound ws.
Proof. intros (a & r & -> & N & _ & T). apply Forall_forall. intros w Hw. destruct (tokens_sub _ _ _ _ T Hw) as (A & B & C). split; [exact A|]. split; [exact B|]. intros X. apply N, C, X. Qed.
Lemma comment_words t : words (strip (before_hash ("#"%char :: t))) = [].
Proof. reflexivity. Qed.
Definition rowf (r : list str) : bool := match r with [] => false | _ => true end.
Lemma rows_of_lines text : rows_of text = filter filled_row (map (fun l => words (strip (before_hash l))) (lines_of text)).
Proof.
  unfold rows_of. change (fun r : list str => match r with [] => false | _ :: _ => true end) with filled_row. unfold readlines, lines_of. set (ls := split_each (is_ch newline) [] text). destruct (rev ls) as [|x r] eqn:E; [reflexivity|].
  destruct x as [|c x]; [|reflexivity]. assert (E2 : ls = rev r ++ [[]]) by (rewrite <- (rev_involutive ls), E; reflexivity). rewrite E2, map_app, filter_app. cbn. rewrite app_nil_r. reflexivity.
Qed.
Lemma rows_iff text rows : rows_of text = rows <-> data_rows text rows.
Proof.
  rewrite rows_of_lines. split.
  - intros <-. exists (lines_of text), (map (fun l => words (strip (before_hash l))) (lines_of text)). split; [apply has_lines_iff; reflexivity|]. split; [|reflexivity].
    induction (lines_of text) as [|l r IH]; constructor; [apply line_words_iff; reflexivity|exact IH].
  - intros (lines & wss & HL & F & ->). apply has_lines_iff in HL. rewrite HL. f_equal. clear HL. induction F as [|l ws lines wss H _ IH]; [reflexivity|]. cbn. apply line_words_iff in H. rewrite H, IH. reflexivity.
Qed.
Lemma data_rows_sound text rows : data_rows text rows -> Forall (fun r => r <> [] /\ Forall sound r) rows.
Proof.
  intros (lines & wss & _ & F & ->). induction F as [|l ws lines wss H _ IH]; [constructor|]. cbn. destruct ws as [|w ws]; cbn; [exact IH|]. constructor; [|exact IH]. split; [discriminate|]. exact (line_words_sound _ _ H).
Qed.
Lemma to_text_eq lines : to_text lines = text_of lines.
Proof. reflexivity. Qed.
Lemma text_of_join lines : text_of lines = join [lf] (lines ++ [[]]).
Proof. unfold text_of. induction lines as [|l lines IH]; [reflexivity|]. cbn [map concat]. rewrite IH. cbn [app]. destruct (lines ++ [[]]) as [|x r] eqn:E; [destruct lines; discriminate|]. rewrite join_cons, <- app_assoc. reflexivity. Qed.
Lemma lines_of_text lines : Forall (fun l => ~ In lf l) lines -> lines_of (text_of lines) = lines ++ [[]].
Proof. intros H. apply has_lines_iff. split; [destruct lines; discriminate|]. split; [apply Forall_app; split; [exact H|repeat constructor; intros []]|apply text_of_join]. Qed.
Lemma rows_of_text lines : Forall (fun l => ~ In lf l) lines -> rows_of (text_of lines) = filter filled_row (map (fun l => words (strip (before_hash l))) lines).
Proof. intros H. rewrite rows_of_lines, lines_of_text by exact H. rewrite map_app, filter_app. cbn. apply app_nil_r. Qed.
Lemma sound_no c w : sound w -> is_space c = true -> ~ In c w.
Proof. intros (_ & H & _) Hc X. rewrite Forall_forall in H. specialize (H c X). congruence. Qed.
Lemma jn_in c sep ws : In c (jn sep ws) -> In c sep \/ exists w, In w ws /\ In c w.
Proof.
  induction ws as [|w [|x r] IH]; [intros []|cbn; intros H; right; exists w; auto|]. intros H. change (In c (w ++ sep ++ jn sep (x :: r))) in H. apply in_app_or in H as [H|H]; [right; exists w; split; [left; reflexivity|exact H]|]. apply in_app_or in H as [H|H]; [left; exact H|]. destruct (IH H) as [A|(v & Hv & A)]; [left; exact A|right; exists v; split; [right; exact Hv|exact A]].
Qed.
(** zip *)
Lemma zipn_spec f : forall ls, zipn f ls = map (fun i => map (fun l => nth i l []) ls) (seq 0 (fold_right Nat.min f (map (@List.length str) ls))).
Proof.
  assert (H0 : forall g ls, (exists l, In l ls /\ l = []) -> fold_right Nat.min g (map (@List.length str) ls) = 0 /\ heads ls = None).
  { induction ls as [|l ls IH]; intros (x & Hx & ->); [destruct Hx|]. cbn. destruct Hx as [->|Hx]; [split; reflexivity|]. destruct IH as (E1 & E2); [eauto|]. rewrite E1, E2. split; [lia|]. destruct l; reflexivity. }
  assert (H1 : forall ls, (forall l, In l ls -> l <> []) -> heads ls = Some (map (fun l => nth 0 l []) ls)).
  { induction ls as [|l ls IH]; intros H; [reflexivity|]. cbn. rewrite IH by (intros x Hx; apply H; right; exact Hx). destruct l; [exfalso; apply (H []); [left; reflexivity|reflexivity]|reflexivity]. }
  assert (H2 : forall k ls, (forall l, In l ls -> l <> []) -> fold_right Nat.min (S k) (map (@List.length str) ls) = S (fold_right Nat.min k (map (@List.length str) (map (@tl str) ls)))).
  { induction ls as [|l ls IH]; intros H; [reflexivity|]. cbn [map fold_right]. rewrite IH by (intros x Hx; apply H; right; exact Hx). destruct l; [exfalso; apply (H []); [left; reflexivity|reflexivity]|]. reflexivity. }
  induction f as [|k IH]; intros ls.
  - cbn. assert (E : fold_right Nat.min 0 (map (@List.length str) ls) = 0) by (induction ls as [|l ls IH]; [reflexivity|]; cbn; rewrite IH; lia). rewrite E. reflexivity.
  - cbn [zipn]. assert (D : (exists l, In l ls /\ l = []) \/ forall l, In l ls -> l <> []).
    { clear. induction ls as [|l ls [(x & Hx & E)|H]]; [right; intros l []|left; exists x; split; [right; exact Hx|exact E]|]. destruct l; [left; exists []; split; [left; reflexivity|reflexivity]|]. right. intros x [<-|Hx]; [discriminate|exact (H x Hx)]. }
    destruct D as [D|D]; [destruct (H0 (S k) ls D) as (E1 & E2); rewrite E1, E2; reflexivity|]. rewrite (H1 ls D), (H2 k ls D), IH. cbn [seq map]. f_equal. rewrite <- seq_shift. rewrite (map_map S). apply map_ext. intros i. rewrite map_map. apply map_ext_in. intros l Hl. specialize (D l Hl). destruct l; [exfalso; apply D; reflexivity|reflexivity].
Qed.
Lemma fold_min_le g l : fold_right Nat.min g l <= g.
Proof. induction l as [|x l IH]; cbn; lia. Qed.
Lemma zip_all_spec ls : zip_all ls = map (fun i => map (fun l => nth i l []) ls) (seq 0 (min_len ls)).
Proof. unfold zip_all, min_len. destruct ls as [|l r]; [reflexivity|]. rewrite zipn_spec. do 2 f_equal. cbn [map fold_right]. pose proof (fold_min_le (List.length l) (map (@List.length str) r)). lia. Qed.
Lemma min_len_const {A} (ls : list (list A)) n : ls <> [] -> Forall (fun l => List.length l = n) ls -> min_len ls = n.
Proof. intros Hn H. destruct H as [|l r E H]; [congruence|]. cbn. rewrite E. clear Hn E. induction H as [|x r E _ IH]; [reflexivity|]. cbn. rewrite IH, E. lia. Qed.
Lemma min_len_le {A} (ls : list (list A)) l : In l ls -> min_len ls <= List.length l.
Proof.
  unfold min_len. destruct ls as [|h r]; [intros []|]. intros [->|Hin]; [apply fold_min_le|]. induction r as [|x r IH]; [destruct Hin|]. cbn. destruct Hin as [->|Hin]; [lia|]. specialize (IH Hin). lia.
Qed.
Lemma max_len_ge {A} (ls : list (list A)) l : In l ls -> List.length l <= max_len ls.
Proof. unfold max_len. induction ls as [|x r IH]; [intros []|]. cbn. intros [->|H]; [lia|]. specialize (IH H). lia. Qed.
Lemma max_len_attained {A} (ls : list (list A)) : max_len ls = 0 \/ exists l, In l ls /\ List.length l = max_len ls.
Proof.
  unfold max_len. induction ls as [|x r IH]; [left; reflexivity|]. cbn. destruct (Nat.max_spec (List.length x) (fold_right Nat.max 0 (map (@List.length A) r))) as [(L & E)|(L & E)]; rewrite E.
  - destruct IH as [Z|(l & Hl & El)]; [lia|]. right. exists l. auto.
  - right. exists x. auto.
Qed.
