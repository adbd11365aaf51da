From Coq Require Import Reals String Ascii.
From Verif Require Import Py PyStr PyDict RUtil CfgSpec CfgModel CfgProofs CompModel DataModel Regex KvarModel KvarSpec KvarProofs SubsModel SubsProofs InstrModel InstrSpec.
Local Open Scope list_scope.
Local Open Scope nat_scope.

(** ** stripping *)
Lemma strip_trimmed s : trimmed s (strip s).
Proof.
  destruct (strip_split s) as (a & b & E & Fa & Fb). split; [|exists a, b; auto].
  unfold strip, rstrip. destruct (lstrip s) as [|c r] eqn:L; [left; reflexivity|]. right.
  assert (P : is_space c = false). { clear - L. induction s as [|x s IH]; [discriminate|]. cbn in L. destruct (is_space x) eqn:X; [auto|congruence]. }
  destruct (lstrip (rev (c :: r))) as [|d q] eqn:K.
  { exfalso. assert (In c (rev (c :: r))) by (apply -> in_rev; left; reflexivity). destruct (lstrip_split (rev (c :: r))) as (w & Ew & Fw). rewrite K, app_nil_r in Ew. rewrite Ew in H. unfold spaces in Fw. rewrite Forall_forall in Fw. rewrite (Fw c H) in P. discriminate. }
  assert (Q : is_space d = false). { clear - K. induction (rev (c :: r)) as [|x s IH]; [discriminate|]. cbn in K. destruct (is_space x) eqn:X; [auto|congruence]. }
  split; [|exists (rev q), d; split; [reflexivity|exact Q]].
  destruct (lstrip_split (rev (c :: r))) as (w & Ew & Fw). rewrite K in Ew. assert (E2 := f_equal (@rev ascii) Ew). rewrite rev_involutive, rev_app_distr in E2. destruct (rev (d :: q)) as [|x y] eqn:Z; [apply (f_equal (@List.length ascii)) in Z; rewrite rev_length in Z; discriminate|].
  exists x, y. split; [reflexivity|]. cbn in E2. congruence.
Qed.
Lemma spaces_prefix a c r b d q : spaces a -> spaces b -> is_space c = false -> is_space d = false -> a ++ c :: r = b ++ d :: q -> a = b /\ c :: r = d :: q.
Proof.
  intros Fa Fb P Q. revert b Fb. induction Fa as [|x a X Fa IH]; intros b Fb E.
  - destruct Fb as [|y b Y Fb]; [split; [reflexivity|exact E]|]. cbn in E. exfalso. assert (c = y) by congruence. congruence.
  - destruct Fb as [|y b Y Fb]; [cbn in E; exfalso; assert (x = d) by congruence; congruence|]. cbn in E. assert (x = y) by congruence. subst y. assert (E' : a ++ c :: r = b ++ d :: q) by congruence. destruct (IH b Fb E') as (-> & E2). split; [reflexivity|exact E2].
Qed.
Lemma strip_tight a t b : spaces a -> spaces b -> tight t -> strip (a ++ t ++ b) = t.
Proof.
  intros Fa Fb [->|[(c & r & -> & P) (q & d & E & Q)]].
  - unfold strip. rewrite lstrip_all; [reflexivity|]. apply Forall_app. split; assumption.
  - unfold strip. cbn [app]. rewrite lstrip_hit; [|exact Fa|exact P]. change (c :: r ++ b) with ((c :: r) ++ b). rewrite E, <- app_assoc. cbn [app]. rewrite rstrip_last; [reflexivity|exact Q|exact Fb].
Qed.
Lemma strip_iff s t : strip s = t <-> trimmed s t.
Proof.
  split; [intros <-; apply strip_trimmed|]. intros (H & a & b & -> & Fa & Fb). apply strip_tight; assumption.
Qed.

(** ** splitting *)
Lemma split_each_none sep w : forall cur, ~ In sep w -> split_each (is_ch sep) cur w = [rev cur ++ w].
Proof.
  induction w as [|c w IH]; intros cur H; cbn; [rewrite app_nil_r; reflexivity|]. rewrite is_ch_neq by (intros ->; apply H; left; reflexivity). rewrite IH by (intros X; apply H; right; exact X). cbn. rewrite <- app_assoc. reflexivity.
Qed.
Lemma split_each_hit sep w r : forall cur, ~ In sep w -> split_each (is_ch sep) cur (w ++ sep :: r) = (rev cur ++ w) :: split_each (is_ch sep) [] r.
Proof.
  induction w as [|c w IH]; intros cur H; cbn; [rewrite is_ch_refl, app_nil_r; reflexivity|]. rewrite is_ch_neq by (intros ->; apply H; left; reflexivity). rewrite IH by (intros X; apply H; right; exact X). cbn. rewrite <- app_assoc. reflexivity.
Qed.
Lemma join_cons s w x r : join s (w :: x :: r) = w ++ s ++ join s (x :: r).
Proof. cbn. rewrite <- app_assoc. reflexivity. Qed.
Lemma split_each_join sep fs : fs <> [] -> Forall (fun f => ~ In sep f) fs -> split_each (is_ch sep) [] (join [sep] fs) = fs.
Proof.
  intros H F. induction F as [|f fs Hf F IH]; [congruence|]. destruct fs as [|g fs].
  - cbn [join flat_map]. rewrite app_nil_r. rewrite split_each_none by exact Hf. reflexivity.
  - rewrite join_cons. change ([sep] ++ join [sep] (g :: fs)) with (sep :: join [sep] (g :: fs)). rewrite split_each_hit by exact Hf. assert (E := IH ltac:(discriminate)). exact (f_equal (cons f) E).
Qed.
Lemma split_each_spec sep t : forall cur, ~ In sep cur -> let fs := split_each (is_ch sep) cur t in fs <> [] /\ Forall (fun f => ~ In sep f) fs /\ rev cur ++ t = join [sep] fs.
Proof.
  induction t as [|c t IH]; intros cur H; cbn [split_each].
  - split; [discriminate|]. split; [constructor; [rewrite <- in_rev; exact H|constructor]|]. cbn. reflexivity.
  - destruct (is_ch sep c) eqn:P.
    + apply is_ch_eq in P. subst c. destruct (IH [] (fun x => x)) as (N & F & E). cbn in E. split; [discriminate|]. split; [constructor; [rewrite <- in_rev; exact H|exact F]|].
      destruct (split_each (is_ch sep) [] t) as [|g fs]; [congruence|]. rewrite join_cons, <- E. reflexivity.
    + assert (Nc : c <> sep) by (intros ->; rewrite is_ch_refl in P; discriminate). destruct (IH (c :: cur)) as (N & F & E); [intros [X|X]; [congruence|contradiction]|]. split; [exact N|]. split; [exact F|]. rewrite <- E. cbn. rewrite <- app_assoc. reflexivity.
Qed.
Lemma cells_iff sep l fs : split_each (is_ch sep) [] (strip l) = fs <-> cells sep l fs.
Proof.
  split.
  - intros <-. destruct (split_each_spec sep (strip l) [] (fun x => x)) as (N & F & E). split; [exact N|]. split; [exact F|]. rewrite <- E. cbn [rev app]. apply strip_trimmed.
  - intros (N & F & T). apply strip_iff in T. rewrite T. apply split_each_join; assumption.
Qed.
Lemma has_lines_iff text lines : lines_of text = lines <-> has_lines text lines.
Proof.
  split.
  - intros <-. destruct (split_each_spec newline text [] (fun x => x)) as (N & F & E). split; [exact N|]. split; [exact F|exact E].
  - intros (N & F & ->). apply split_each_join; assumption.
Qed.
Lemma occurs_iff p s : occurs p s = true <-> contains p s.
Proof.
  induction s as [|c s IH]; cbn [occurs].
  - rewrite orb_false_r, startswith_spec. split; [intros (t & E); exists [], t; exact E|]. intros (a & r & E). destruct a as [|x a]; [exists r; exact E|discriminate].
  - rewrite orb_true_iff, startswith_spec, IH. split.
    + intros [(t & E)|(a & r & E)]; [exists [], t; exact E|exists (c :: a), r; cbn; f_equal; exact E].
    + intros (a & r & E). destruct a as [|x a]; [left; exists r; exact E|right; exists a, r; cbn in E; congruence].
Qed.
Lemma contains_all_iff ids l : forallb (fun i => occurs i l) ids = true <-> contains_all ids l.
Proof. rewrite forallb_forall. unfold contains_all. split; intros H p Hp; apply occurs_iff, H, Hp. Qed.
Lemma after_some f lines rest : after f lines = Some rest <-> exists pre h, lines = pre ++ h :: rest /\ f h = true /\ Forall (fun l => f l = false) pre.
Proof.
  induction lines as [|l lines IH]; cbn.
  - split; [discriminate|]. intros (pre & h & E & _). destruct pre; discriminate.
  - destruct (f l) eqn:E.
    + split; [intros [= ->]; exists [], l; repeat split; [exact E|constructor]|]. intros (pre & h & E2 & Hh & Hp). destruct pre as [|x pre]; cbn in E2; [congruence|]. inversion Hp; subst. assert (x = l) by congruence. congruence.
    + rewrite IH. split; intros (pre & h & E2 & Hh & Hp).
      * subst. exists (l :: pre), h. repeat split; [exact Hh|constructor; assumption].
      * destruct pre as [|x pre]; cbn in E2; [congruence|]. exists pre, h. inversion Hp; subst. repeat split; [congruence|exact Hh|assumption].
Qed.
Lemma after_none f lines : after f lines = None <-> Forall (fun l => f l = false) lines.
Proof.
  induction lines as [|l lines IH]; cbn; [split; [constructor|reflexivity]|]. destruct (f l) eqn:E; [split; [discriminate|inversion 1; congruence]|]. rewrite IH. split; [intros; constructor; assumption|inversion 1; assumption].
Qed.
Lemma first_at_iff (f : str -> bool) (P : str -> Prop) lines rest : (forall l, f l = true <-> P l) -> (after f lines = Some rest <-> first_at P lines rest).
Proof.
  intros H. rewrite after_some. unfold first_at. split; intros (pre & h & E & Hh & F); exists pre, h; (split; [exact E|]); (split; [apply H, Hh|]); (eapply Forall_impl; [|exact F]); intros l Hl.
  - intros X. apply H in X. congruence.
  - destruct (f l) eqn:El; [|reflexivity]. exfalso. apply Hl, H, El.
Qed.
Lemma after_none_iff (f : str -> bool) (P : str -> Prop) lines : (forall l, f l = true <-> P l) -> (after f lines = None <-> forall l, In l lines -> ~ P l).
Proof.
  intros H. rewrite after_none, Forall_forall. split; intros F l Hl.
  - intros X. apply H in X. rewrite (F l Hl) in X. discriminate.
  - destruct (f l) eqn:E; [|reflexivity]. exfalso. apply (F l Hl), H, E.
Qed.

(** ** rows *)
Lemma five (v : list str) : Nat.ltb (List.length v) 5 = false -> exists a b c d e r, v = a :: b :: c :: d :: e :: r.
Proof. intros H. apply Nat.ltb_ge in H. destruct v as [|a [|b [|c [|d [|e r]]]]]; cbn in H; try lia. repeat eexists. Qed.
Lemma three (v : list str) : Nat.ltb (List.length v) 3 = false -> exists a b c r, v = a :: b :: c :: r.
Proof. intros H. apply Nat.ltb_ge in H. destruct v as [|a [|b [|c r]]]; cbn in H; try lia. repeat eexists. Qed.
Section Rows.
Variable pyfloat : str -> option cell.
Lemma cells_fun sep l fs gs : cells sep l fs -> cells sep l gs -> fs = gs.
Proof. intros H1 H2. apply cells_iff in H1, H2. congruence. Qed.
Lemma line_total l : (exists r, line_gives pyfloat l r) \/ unreadable pyfloat l.
Proof.
  assert (C := proj1 (cells_iff tab l _) eq_refl). set (v := split_each (is_ch tab) [] (strip l)) in *. destruct (Nat.ltb (List.length v) 5) eqn:L.
  - left. exists []. apply (lg_short pyfloat l v C). apply Nat.ltb_lt, L.
  - destruct (five v L) as (f1 & f2 & f3 & f4 & f5 & r & E). rewrite E in C. destruct (pyfloat f1) eqn:A1; [|right; do 6 eexists; split; [exact C|auto]]. destruct (pyfloat f2) eqn:A2; [|right; do 6 eexists; split; [exact C|auto]]. destruct (pyfloat f5) eqn:A5; [|right; do 6 eexists; split; [exact C|auto]]. left. eexists. eapply lg_row; eassumption.
Qed.
Lemma table_ok data rows : Forall2 (line_gives pyfloat) data rows -> table_rows pyfloat data = Ok (concat rows).
Proof.
  induction 1 as [|l r data rows H _ IH]; [reflexivity|]. cbn [table_rows concat]. destruct H as [l fs H Hl|l f1 f2 f3 f4 f5 rest a b c H A1 A2 A5]; apply cells_iff in H; unfold tab_cells; change tab_c with tab; rewrite H.
  - apply Nat.ltb_lt in Hl. rewrite Hl. exact IH.
  - cbn [List.length Nat.ltb Nat.leb nth]. unfold fl. rewrite A1, A2, A5. cbn [rbind]. rewrite IH. reflexivity.
Qed.
Lemma table_err data : (exists l, In l data /\ unreadable pyfloat l) -> table_rows pyfloat data = Err ValueError.
Proof.
  induction data as [|l data IH]; intros (x & Hx & Hu); [destruct Hx|]. cbn [table_rows].
  assert (G : (exists y, In y data /\ unreadable pyfloat y) -> forall v : list str, (let! a := fl pyfloat (nth 0 v []) in let! b := fl pyfloat (nth 1 v []) in let! c := fl pyfloat (nth 4 v []) in let! rs := table_rows pyfloat data in Ok ((a, b, c) :: rs)) = Err ValueError).
  { intros Hy v. rewrite (IH Hy). unfold fl. destruct (pyfloat (nth 0 v [])); cbn [rbind]; [|reflexivity]. destruct (pyfloat (nth 1 v [])); cbn [rbind]; [|reflexivity]. destruct (pyfloat (nth 4 v [])); reflexivity. }
  destruct Hx as [<-|Hx].
  - destruct Hu as (f1 & f2 & f3 & f4 & f5 & rest & C & Hf). apply cells_iff in C. unfold tab_cells. change tab_c with tab. rewrite C. cbn [List.length Nat.ltb Nat.leb nth]. unfold fl. destruct Hf as [A|[A|A]]; rewrite ?A; [reflexivity| |]; destruct (pyfloat f1); cbn [rbind]; try reflexivity; destruct (pyfloat f2); cbn [rbind]; try reflexivity; discriminate.
  - assert (Hy : exists y, In y data /\ unreadable pyfloat y) by eauto. destruct (Nat.ltb _ 5); [exact (IH Hy)|apply G, Hy].
Qed.

Lemma is_mean_iff l : startswith (strip l) (S_ "#Mean") = true <-> is_mean l.
Proof.
  rewrite startswith_spec. split.
  - intros (t & E). destruct (strip_split l) as (a & b & El & Fa & Fb). exists a, (t ++ b). split; [|exact Fa]. rewrite El at 1. rewrite E, <- app_assoc. reflexivity.
  - intros (ind & r & -> & F). unfold strip. cbn [S_ String.list_ascii_of_string app]. rewrite lstrip_hit; [|exact F|reflexivity]. change ("#"%char :: "M"%char :: "e"%char :: "a"%char :: "n"%char :: r) with ((S_ "#Mea") ++ "n"%char :: r). rewrite rstrip_keep; [|reflexivity]. eexists. reflexivity.
Qed.
Lemma filled_eq fs : filter nonempty fs = filled fs.
Proof. unfold filled. apply filter_ext. intros [|c f]; [rewrite eqb_refl; reflexivity|]. assert (E : eqb (c :: f) [] = false) by (apply eqb_neq; discriminate). rewrite E. reflexivity. Qed.
Lemma mean_total l : (exists r, mean_gives pyfloat l r) \/ mean_unreadable pyfloat l.
Proof.
  destruct (startswith (strip l) (S_ "#Mean")) eqn:M.
  2:{ left. exists []. apply mg_other. intros X. apply is_mean_iff in X. congruence. }
  apply is_mean_iff in M. assert (C := proj1 (cells_iff comma l _) eq_refl). set (v := split_each (is_ch comma) [] (strip l)) in *. destruct (Nat.ltb (List.length (filled v)) 3) eqn:L.
  - left. exists []. apply (mg_short pyfloat l v M C). apply Nat.ltb_lt, L.
  - destruct (three _ L) as (g1 & g2 & g3 & r & E). destruct (pyfloat g2) eqn:A2; [|right; split; [exact M|]; do 5 eexists; split; [exact C|split; [exact E|auto]]]. destruct (pyfloat g3) eqn:A3; [|right; split; [exact M|]; do 5 eexists; split; [exact C|split; [exact E|auto]]]. left. eexists. eapply mg_row; eassumption.
Qed.
Lemma mean_ok data rows : Forall2 (mean_gives pyfloat) data rows -> mean_rows pyfloat data = Ok (concat rows).
Proof.
  induction 1 as [|l r data rows H _ IH]; [reflexivity|]. cbn [mean_rows concat]. destruct H as [l H|l fs M H Hl|l fs g1 g2 g3 rest a b M H E A2 A3].
  - assert (X : startswith (strip l) (S_ "#Mean") = false) by (destruct (startswith (strip l) (S_ "#Mean")) eqn:X; [exfalso; apply H, is_mean_iff, X|reflexivity]). rewrite X. exact IH.
  - apply is_mean_iff in M. rewrite M. apply cells_iff in H. unfold comma_cells. rewrite H, filled_eq. apply Nat.ltb_lt in Hl. rewrite Hl. exact IH.
  - apply is_mean_iff in M. rewrite M. apply cells_iff in H. unfold comma_cells. rewrite H, filled_eq, E. cbn [List.length Nat.ltb Nat.leb nth]. unfold fl. rewrite A2, A3. cbn [rbind]. rewrite IH. reflexivity.
Qed.
Lemma mean_err data : (exists l, In l data /\ mean_unreadable pyfloat l) -> mean_rows pyfloat data = Err ValueError.
Proof.
  induction data as [|l data IH]; intros (x & Hx & Hu); [destruct Hx|]. cbn [mean_rows].
  destruct Hx as [<-|Hx].
  - destruct Hu as (M & fs & g1 & g2 & g3 & rest & C & E & Hf). apply is_mean_iff in M. rewrite M. apply cells_iff in C. unfold comma_cells. rewrite C, filled_eq, E. cbn [List.length Nat.ltb Nat.leb nth]. unfold fl. destruct Hf as [A|A]; rewrite ?A; [reflexivity|]. destruct (pyfloat g2); reflexivity.
  - assert (Hy : exists y, In y data /\ mean_unreadable pyfloat y) by eauto. rewrite (IH Hy). destruct (startswith _ _); [|reflexivity]. destruct (Nat.ltb _ 3); [reflexivity|]. unfold fl. destruct (pyfloat _); cbn [rbind]; [|reflexivity]. destruct (pyfloat _); reflexivity.
Qed.
Lemma any_total l : (exists r, any_gives pyfloat l r) \/ any_unreadable pyfloat l.
Proof.
  assert (C := proj1 (cells_iff comma l _) eq_refl). set (v := split_each (is_ch comma) [] (strip l)) in *. destruct (Nat.ltb (List.length v) 3) eqn:L.
  - left. exists []. apply (ag_short pyfloat l v C). apply Nat.ltb_lt, L.
  - destruct (three _ L) as (g1 & g2 & g3 & r & E). rewrite E in C. destruct (pyfloat g2) eqn:A2; [|right; do 4 eexists; split; [exact C|auto]]. destruct (pyfloat g3) eqn:A3; [|right; do 4 eexists; split; [exact C|auto]]. left. eexists. eapply ag_row; eassumption.
Qed.
Lemma any_ok data rows : Forall2 (any_gives pyfloat) data rows -> all_rows pyfloat data = Ok (concat rows).
Proof.
  induction 1 as [|l r data rows H _ IH]; [reflexivity|]. cbn [all_rows concat]. destruct H as [l fs H Hl|l g1 g2 g3 rest a b H A2 A3]; apply cells_iff in H; unfold comma_cells; rewrite H.
  - apply Nat.ltb_lt in Hl. rewrite Hl. exact IH.
  - cbn [List.length Nat.ltb Nat.leb nth]. unfold fl. rewrite A2, A3. cbn [rbind]. rewrite IH. reflexivity.
Qed.
Lemma any_err data : (exists l, In l data /\ any_unreadable pyfloat l) -> all_rows pyfloat data = Err ValueError.
Proof.
  induction data as [|l data IH]; intros (x & Hx & Hu); [destruct Hx|]. cbn [all_rows].
  destruct Hx as [<-|Hx].
  - destruct Hu as (g1 & g2 & g3 & rest & C & Hf). apply cells_iff in C. unfold comma_cells. rewrite C. cbn [List.length Nat.ltb Nat.leb nth]. unfold fl. destruct Hf as [A|A]; rewrite ?A; [reflexivity|]. destruct (pyfloat g2); reflexivity.
  - assert (Hy : exists y, In y data /\ any_unreadable pyfloat y) by eauto. rewrite (IH Hy). destruct (Nat.ltb _ 3); [reflexivity|]. unfold fl. destruct (pyfloat _); cbn [rbind]; [|reflexivity]. destruct (pyfloat _); reflexivity.
Qed.
End Rows.

(** ** the text of an entry *)
Lemma begins_iff p s : startswith s p = true <-> begins p s.
Proof. apply startswith_spec. Qed.
Lemma wrapped_source {X} content (parse : str -> res X) text t : source content text t -> wrapped content parse text = parse t.
Proof.
  intros [t' T N|p path t' T P C]; unfold wrapped; apply strip_iff in T; rewrite T.
  - destruct (startswith t' (S_ "file:")) eqn:E; [exfalso; apply N, begins_iff, E|reflexivity].
  - assert (E : startswith (S_ "file:" ++ p) (S_ "file:") = true) by (apply begins_iff; eexists; reflexivity). rewrite E. cbn [S_ String.list_ascii_of_string app skipn]. apply strip_iff in P. rewrite P, C. reflexivity.
Qed.

(** ** comments of a configuration *)
(** every # follows a character that is not blank *)
Definition glued (s : str) : Prop := forall a b, s = a ++ hash_c :: b -> exists a' c, a = a' ++ [c] /\ is_space c = false.
Lemma cut_glued s : forall p a b, cut_comment p s = a ++ hash_c :: b -> (a = [] /\ p = false) \/ exists a' c, a = a' ++ [c] /\ is_space c = false.
Proof.
  induction s as [|c s IH]; intros p a b; cbn; [destruct a; discriminate|]. destruct (p && is_ch hash_c c)%bool eqn:P; [destruct a; discriminate|]. intros E. destruct a as [|x a]; cbn in E.
  - left. split; [reflexivity|]. assert (c = hash_c) by congruence. subst c. rewrite is_ch_refl, andb_true_r in P. exact P.
  - right. assert (E' : cut_comment (is_space c) s = a ++ hash_c :: b) by congruence. assert (c = x) by congruence. subst x. destruct (IH _ _ _ E') as [(-> & Q)|(a' & d & -> & Q)]; [exists [], c; split; [reflexivity|exact Q]|exists (c :: a'), d; split; [reflexivity|exact Q]].
Qed.
Lemma glued_suffix w s : spaces w -> glued (w ++ s) -> glued s.
Proof.
  intros F G a b E. destruct (G (w ++ a) b) as (a' & c & E2 & P); [rewrite E, app_assoc; reflexivity|]. destruct a as [|x a] using rev_ind.
  - rewrite app_nil_r in E2. subst w. exfalso. apply Forall_app in F. destruct F as (_ & F). inversion F. congruence.
  - rewrite app_assoc in E2. apply app_inj_tail in E2. destruct E2 as (_ & ->). exists a, c. split; [reflexivity|exact P].
Qed.
Lemma glued_prefix s w : glued (s ++ w) -> glued s.
Proof. intros G a b E. apply (G a (b ++ w)). rewrite E, <- app_assoc. reflexivity. Qed.
Lemma glued_strip s : glued s -> glued (strip s).
Proof. intros G. destruct (strip_split s) as (a & b & E & Fa & _). rewrite E in G. apply glued_prefix with b, glued_suffix with a; assumption. Qed.
Lemma glued_cut l : glued (cut_comment true l).
Proof. intros a b E. destruct (cut_glued _ _ _ _ E) as [(_ & X)|H]; [discriminate|exact H]. Qed.
Lemma glued_head s : glued s -> ~ begins [hash_c] s.
Proof. intros G (r & E). destruct (G [] r E) as (a & c & X & _). destruct a; discriminate. Qed.
Lemma app_split {A} (a b c d : list A) : a ++ b = c ++ d -> (exists e, a = c ++ e /\ d = e ++ b) \/ (exists e, c = a ++ e /\ b = e ++ d).
Proof.
  revert c. induction a as [|x a IH]; intros c E; [right; exists c; split; [reflexivity|exact E]|]. destruct c as [|y c]; [left; exists (x :: a); split; [reflexivity|symmetry; exact E]|]. cbn in E. assert (x = y) by congruence. subst y. assert (E' : a ++ b = c ++ d) by congruence.
  destruct (IH c E') as [(e & -> & E2)|(e & -> & E2)]; [left; exists e; split; [reflexivity|exact E2]|right; exists e; split; [reflexivity|exact E2]].
Qed.
Lemma glued_join f r : glued f -> Forall glued r -> glued (join [lf] (f :: r)).
Proof.
  intros G F. revert f G. induction F as [|g r Hg F IH]; intros f G; [cbn; rewrite app_nil_r; exact G|]. rewrite join_cons. assert (IHg := IH g Hg). set (J := join [lf] (g :: r)) in *. clearbody J. intros a b E. cbn [app] in E. destruct (app_split _ _ _ _ E) as [(e & -> & E2)|(e & -> & E2)].
  - destruct e as [|x e]; cbn in E2; [discriminate|]. assert (x = hash_c) by congruence. subst x. apply (G a e). reflexivity.
  - destruct e as [|x e]; cbn in E2; [discriminate|]. assert (E3 : J = e ++ hash_c :: b) by congruence. destruct (IHg _ _ E3) as (a' & c & -> & P). exists (f ++ x :: a'), c. split; [rewrite <- app_assoc; reflexivity|exact P].
Qed.
Lemma split_eq_eq s k v : split_eq s = Some (k, v) -> s = k ++ eq_c :: v.
Proof.
  revert k. induction s as [|c s IH]; intros k; cbn; [discriminate|]. destruct (is_ch eq_c c) eqn:P; [apply is_ch_eq in P; intros [= <- <-]; subst; reflexivity|]. destruct (split_eq s) as [[a b]|]; [|discriminate]. intros [= <- <-]. cbn. f_equal. apply IH. reflexivity.
Qed.
Lemma glued_option line k v : read_option line = Some (k, v) -> ~ begins [hash_c] v -> glued v.
Proof.
  unfold read_option. destruct (split_eq (strip (cut_comment true line))) as [[k0 v0]|] eqn:E; [|discriminate]. intros [= <- <-] N. apply split_eq_eq in E. assert (G := glued_strip _ (glued_cut line)). rewrite E in G. destruct (strip_split v0) as (x & y & E0 & Fx & Fy). set (t := strip v0) in *. clearbody t. subst v0.
  intros a b Et. destruct a as [|c0 a] using rev_ind; [exfalso; apply N; exists b; exact Et|]. exists a, c0. split; [reflexivity|]. destruct (G (k0 ++ eq_c :: x ++ a ++ [c0]) (b ++ y)) as (a' & c & E2 & P). { rewrite Et. repeat (rewrite <- !app_assoc; cbn [app]). reflexivity. }
  assert (E3 : (k0 ++ eq_c :: x ++ a) ++ [c0] = a' ++ [c]) by (rewrite <- E2; repeat (rewrite <- !app_assoc; cbn [app]); reflexivity). apply app_inj_tail in E3. destruct E3 as (_ & ->). exact P.
Qed.
Lemma glued_line s lines l : glued s -> has_lines s lines -> In l lines -> ~ begins [hash_c] l.
Proof.
  intros G (_ & _ & ->) H (r & ->). apply in_split in H. destruct H as (l1 & l2 & ->). destruct l1 as [|x l1].
  - cbn [app] in G. destruct (G [] (r ++ flat_map (fun x => [lf] ++ x) l2)) as (a & c & X & _); [reflexivity|destruct a; discriminate].
  - cbn [app] in G. assert (E : join [lf] (x :: l1 ++ (hash_c :: r) :: l2) = (x ++ flat_map (fun y => [lf] ++ y) l1 ++ [lf]) ++ hash_c :: r ++ flat_map (fun y => [lf] ++ y) l2).
    { unfold join. rewrite flat_map_app. cbn [flat_map app]. rewrite <- !app_assoc. cbn. reflexivity. }
    destruct (G _ _ E) as (a & c & X & P). rewrite app_assoc in X. apply app_inj_tail in X. destruct X as (_ & <-). discriminate.
Qed.
