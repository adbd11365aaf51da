From Coq Require Import String Ascii.
From Verif Require Import Py PyStr Regex KvarModel KvarSpec KvarProofs SubsModel SubsSpec.
Local Open Scope list_scope.
Local Open Scope nat_scope.

(** ** what an expression accepts; soundness and completeness of the matcher *)
Fixpoint lang (r : re) (u : str) : Prop :=
  match r with
  | Cls p => exists c, u = [c] /\ p c = true
  | Many p | LazyMany p => Forall (fun c => p c = true) u
  | Sq a b => exists u1 u2, u = u1 ++ u2 /\ lang a u1 /\ lang b u2
  | Opt a => u = [] \/ lang a u
  | Cap _ a => lang a u
  end.
Section L.
Context {X : Type}.
Lemma lazy_inv p (k : str -> option X) v : forall s, lazy p s k = Some v -> exists u t, s = u ++ t /\ Forall (fun c => p c = true) u /\ k t = Some v.
Proof.
  induction s as [|ch t IH]; cbn; intros Q; [exists [], []; split; [reflexivity|split; [constructor|exact Q]]|]. destruct (p ch) eqn:P; [|exists [], (ch :: t); split; [reflexivity|split; [constructor|exact Q]]].
  unfold orelse in Q. destruct (k (ch :: t)) eqn:E; [exists [], (ch :: t); split; [reflexivity|split; [constructor|congruence]]|]. destruct (IH Q) as (u & t' & -> & F & K). exists (ch :: u), t'. split; [reflexivity|]. split; [constructor; assumption|exact K].
Qed.
Lemma rmatch_sound r : forall s c (k : str -> caps -> option X) v, rmatch r s c k = Some v -> exists u t c', s = u ++ t /\ lang r u /\ k t c' = Some v.
Proof.
  induction r as [p|p|p|a IHa b IHb|a IHa|n a IHa]; cbn; intros s c k v H.
  - destruct s as [|ch t]; [discriminate|]. destruct (p ch) eqn:P; [|discriminate]. exists [ch], t, c. split; [reflexivity|]. split; [eauto|exact H].
  - destruct (many_inv _ _ _ _ H) as (u & t & E & F & K). exists u, t, c. split; [exact E|]. split; [exact F|exact K].
  - destruct (lazy_inv _ _ _ _ H) as (u & t & E & F & K). exists u, t, c. split; [exact E|]. split; [exact F|exact K].
  - apply IHa in H. destruct H as (u & t & c' & -> & La & H). apply IHb in H. destruct H as (u' & t' & c'' & -> & Lb & H). exists (u ++ u'), t', c''. split; [apply app_assoc|]. split; [eauto|exact H].
  - unfold orelse in H. destruct (rmatch a s c k) eqn:E; [injection H as ->; apply IHa in E; destruct E as (u & t & c' & Es & La & K); exists u, t, c'; split; [exact Es|split; [right; exact La|exact K]]|]. exists [], s, c. split; [reflexivity|]. split; [left; reflexivity|exact H].
  - apply IHa in H. destruct H as (u & t & c' & E & La & K). exists u, t, ((n, firstn (Datatypes.length s - Datatypes.length t) s) :: c'). auto.
Qed.
Lemma rmatch_complete r : forall u t c (k : str -> caps -> option X), lang r u -> (forall c', k t c' <> None) -> rmatch r (u ++ t) c k <> None.
Proof.
  induction r as [p|p|p|a IHa b IHb|a IHa|n a IHa]; cbn [lang rmatch]; intros u t c k L K.
  - destruct L as (ch & -> & P). cbn. rewrite P. apply K.
  - induction L as [|x u P L IH]; cbn.
    + destruct t as [|x t]; [apply K|]. cbn. destruct (p x); [|apply K]. unfold orelse. destruct (many p t _); [discriminate|apply K].
    + rewrite P. unfold orelse. destruct (many p (u ++ t) (fun t0 => k t0 c)); [discriminate|contradiction].
  - induction L as [|x u P L IH]; cbn.
    + destruct t as [|x t]; [apply K|]. cbn. destruct (p x); [|apply K]. unfold orelse. destruct (k (x :: t) c) eqn:E; [discriminate|]. exfalso. apply (K c E).
    + rewrite P. unfold orelse. destruct (k (x :: u ++ t) c); [discriminate|exact IH].
  - destruct L as (u1 & u2 & -> & La & Lb). rewrite <- app_assoc. apply IHa; [exact La|]. intros c'. apply IHb; [exact Lb|exact K].
  - unfold orelse. destruct (rmatch a (u ++ t) c k) eqn:E; [discriminate|]. destruct L as [->|L]; [apply K|]. exfalso. apply (IHa u t c k L K E).
  - apply IHa; [exact L|]. intros c'. apply K.
Qed.
End L.
Lemma re_match_iff r s : re_match r s <> None <-> exists u t, s = u ++ t /\ lang r u.
Proof.
  unfold re_match. split.
  - intros H. destruct (rmatch r s [] _) eqn:E; [|congruence]. apply rmatch_sound in E. destruct E as (u & t & c' & -> & L & _). eauto.
  - intros (u & t & -> & L). apply rmatch_complete; [exact L|discriminate].
Qed.

(** ** stripping *)
Lemma lstrip_split s : exists w, s = w ++ lstrip s /\ spaces w.
Proof. induction s as [|c s (w & E & F)]; cbn; [exists []; split; [reflexivity|constructor]|]. destruct (is_space c) eqn:P; [|exists []; split; [reflexivity|constructor]]. exists (c :: w). split; [cbn; f_equal; exact E|constructor; assumption]. Qed.
Lemma lstrip_hit w c r : spaces w -> is_space c = false -> lstrip (w ++ c :: r) = c :: r.
Proof. intros F P. induction F as [|x w Q F IH]; cbn; [rewrite P; reflexivity|rewrite Q; exact IH]. Qed.
Lemma lstrip_all w : spaces w -> lstrip w = [].
Proof. intros F. induction F as [|x w Q F IH]; cbn; [reflexivity|rewrite Q; exact IH]. Qed.
Lemma spaces_rev w : spaces w -> spaces (rev w).
Proof. apply Forall_rev. Qed.
Lemma rstrip_split s : exists w, s = rstrip s ++ w /\ spaces w.
Proof. unfold rstrip. destruct (lstrip_split (rev s)) as (w & E & F). exists (rev w). split; [rewrite <- rev_app_distr, <- E, rev_involutive; reflexivity|apply spaces_rev, F]. Qed.
Lemma lstrip_keep a c r : is_space c = false -> lstrip (a ++ c :: r) = lstrip (a ++ [c]) ++ r.
Proof. intros P. induction a as [|x a IH]; cbn; [rewrite P; reflexivity|]. destruct (is_space x); [exact IH|]. cbn. f_equal. rewrite <- app_assoc. reflexivity. Qed.
Lemma rstrip_keep u c y : is_space c = false -> rstrip (u ++ c :: y) = u ++ c :: rstrip y.
Proof.
  intros P. unfold rstrip. rewrite rev_app_distr. cbn [rev]. rewrite <- app_assoc. cbn [app]. rewrite lstrip_keep; [|exact P]. rewrite rev_app_distr, rev_involutive. f_equal.
  set (z := rev y). clearbody z. induction z as [|x z IH]; cbn; [rewrite P; reflexivity|]. destruct (is_space x); [exact IH|]. cbn [rev]. rewrite rev_app_distr. reflexivity.
Qed.
Lemma rstrip_all w : spaces w -> rstrip w = [].
Proof. intros F. unfold rstrip. rewrite lstrip_all; [reflexivity|apply spaces_rev, F]. Qed.
Lemma rstrip_last u c w : is_space c = false -> spaces w -> rstrip (u ++ c :: w) = u ++ [c].
Proof. intros P F. rewrite rstrip_keep; [|exact P]. rewrite rstrip_all; [reflexivity|exact F]. Qed.
Lemma strip_split s : exists ind w, s = ind ++ strip s ++ w /\ spaces ind /\ spaces w.
Proof. destruct (lstrip_split s) as (i & E & F). destruct (rstrip_split (lstrip s)) as (w & E' & F'). exists i, w. split; [unfold strip; rewrite <- E'; exact E|]. split; assumption. Qed.
Lemma strip_keep ind c u d y : spaces ind -> is_space c = false -> is_space d = false -> strip (ind ++ c :: u ++ d :: y) = c :: u ++ d :: rstrip y.
Proof. intros F P Q. unfold strip. rewrite lstrip_hit; [|exact F|exact P]. change (c :: u ++ d :: y) with ((c :: u) ++ d :: y). rewrite rstrip_keep; [reflexivity|exact Q]. Qed.

(** ** headers *)
Lemma header_some_iff l : header l <> None <-> exists x, is_header l x.
Proof.
  assert (G : header l <> None <-> re_match sectcre (strip l) <> None).
  { unfold header. destruct (re_match sectcre (strip l)) as [[c t]|] eqn:E; [|tauto]. split; [discriminate|]. intros _ H. unfold re_match, sectcre in E. cbn [rmatch LazyMany1] in E. destruct (strip l) as [|a s]; [discriminate|]. destruct (is_ch open_c a); [|discriminate].
    destruct (many_inv _ _ _ _ E) as (u & t1 & _ & _ & E1). cbn beta in E1. destruct t1 as [|b t1]; [discriminate|]. destruct (negb (is_ch close_c b)); [|discriminate]. destruct (lazy_inv _ _ _ _ E1) as (u2 & t2 & _ & _ & E2). cbn beta in E2.
    destruct (many_inv _ _ _ _ E2) as (u3 & t3 & _ & _ & E3). cbn beta in E3. destruct t3 as [|d t3]; [discriminate|]. destruct (is_ch close_c d); [|discriminate]. assert (Ec := f_equal (fun o => match o with Some (c, _) => c | None => [] end) E3). cbn beta iota in Ec. subst c. cbn [group] in H. rewrite eqb_refl in H. discriminate. }
  rewrite G, re_match_iff. clear G. split.
  - intros (u & t & Es & L). unfold sectcre in L. cbn [lang LazyMany1] in L. destruct L as (u1 & r1 & -> & (c1 & -> & P1) & u2 & r2 & -> & F2 & u3 & r3 & -> & (v1 & v2 & -> & (c3 & -> & P3) & F3) & u4 & r4 & -> & F4 & c5 & -> & P5).
    apply is_ch_eq in P1, P5. subst c1 c5. destruct (strip_split l) as (ind & w & El & Fi & Fw). exists (u2 ++ (c3 :: v2) ++ u4), ind, (t ++ w). split.
    + rewrite El, Es. rewrite <- !app_assoc. reflexivity.
    + split; [exact Fi|]. split; [destruct u2; discriminate|]. rewrite !in_app_iff. intros [H|[[H|H]|H]].
      * rewrite Forall_forall in F2. apply F2, is_ch_eq in H. discriminate.
      * subst c3. discriminate.
      * rewrite Forall_forall in F3. apply F3 in H. rewrite is_ch_refl in H. discriminate.
      * rewrite Forall_forall in F4. apply F4, is_ch_eq in H. discriminate.
  - intros (x & ind & rest & El & Fi & Nx & Ni). destruct x as [|c x]; [congruence|]. exists (open_c :: (c :: x) ++ [close_c]), (rstrip rest). split.
    + rewrite El. rewrite strip_keep; [|exact Fi|reflexivity|reflexivity]. cbn. rewrite <- app_assoc. reflexivity.
    + unfold sectcre. cbn [lang LazyMany1]. exists [open_c], ((c :: x) ++ [close_c]). split; [reflexivity|]. split; [exists open_c; split; reflexivity|]. exists [], ((c :: x) ++ [close_c]). split; [reflexivity|]. split; [constructor|]. exists (c :: x), [close_c]. split; [reflexivity|].
      split; [|exists [], [close_c]; split; [reflexivity|]; split; [constructor|exists close_c; split; reflexivity]]. exists [c], x. split; [reflexivity|]. split; [exists c; split; [reflexivity|]|].
      * rewrite is_ch_neq; [reflexivity|]. intros ->. apply Ni. left. reflexivity.
      * rewrite Forall_forall. intros y Hy. rewrite is_ch_neq; [reflexivity|]. intros ->. apply Ni. right. exact Hy.
Qed.
Lemma header_none l : (forall x, ~ is_header l x) -> header l = None.
Proof. intros H. destruct (header l) eqn:E; [|reflexivity]. exfalso. assert (X : header l <> None) by congruence. apply header_some_iff in X. destruct X as (x & Hx). exact (H x Hx). Qed.
Lemma header_variables l : header l = Some (S_ "variables") <-> opens_variables l.
Proof.
  split.
  - intros H. unfold header in H. destruct (re_match sectcre (strip l)) as [[c t]|] eqn:E; [|discriminate]. unfold re_match, sectcre in E. cbn [rmatch LazyMany1] in E. destruct (strip l) as [|a s] eqn:Es; [discriminate|]. destruct (is_ch open_c a) eqn:P1; [|discriminate]. apply is_ch_eq in P1. subst a.
    destruct (many_inv _ _ _ _ E) as (u & t1 & -> & F1 & E1). cbn beta in E1. destruct t1 as [|b t1]; [discriminate|]. destruct (negb (is_ch close_c b)); [|discriminate]. destruct (lazy_inv _ _ _ _ E1) as (u2 & t2 & -> & F2 & E2). cbn beta in E2.
    destruct (many_inv _ _ _ _ E2) as (u3 & t3 & -> & F3 & E3). cbn beta in E3. destruct t3 as [|d t3]; [discriminate|]. destruct (is_ch close_c d) eqn:P5; [|discriminate]. apply is_ch_eq in P5. subst d.
    assert (Ec := f_equal (fun o => match o with Some (c, _) => c | None => [] end) E3). cbn beta iota in Ec. subst c. cbn [group] in H. rewrite eqb_refl in H.
    assert (V : b :: u2 = S_ "variables"). { change (b :: u2 ++ u3 ++ close_c :: t3) with ((b :: u2) ++ (u3 ++ close_c :: t3)) in H. rewrite firstn_diff in H. congruence. }
    destruct (strip_split l) as (ind & w & El & Fi & Fw). exists u, u3. assert (B : forall z, Forall (fun c => is_ch sp_c c = true) z -> blanks z) by (intros z; apply Forall_impl; intros x Hx; apply is_ch_eq in Hx; exact Hx).
    split; [|split; apply B; assumption]. exists ind, (t3 ++ w). split.
    + rewrite El, Es, <- V. cbn [app]. rewrite <- !app_assoc. cbn [app]. rewrite <- !app_assoc. cbn [app]. reflexivity.
    + split; [exact Fi|]. split; [destruct u; discriminate|]. rewrite !in_app_iff. intros [X|[X|X]].
      * rewrite Forall_forall in F1. apply F1, is_ch_eq in X. discriminate.
      * cbn in X. repeat destruct X as [X|X]; try discriminate X; exact X.
      * rewrite Forall_forall in F3. apply F3, is_ch_eq in X. discriminate.
  - intros (b & b' & (ind & rest & El & Fi & _) & Hb & Hb'). unfold header. rewrite El, strip_keep; [|exact Fi|reflexivity|reflexivity].
    assert (B : forall z, blanks z -> Forall (fun c => is_ch sp_c c = true) z) by (intros z; apply Forall_impl; intros x ->; reflexivity).
    rewrite <- !app_assoc. set (T := b' ++ "]"%char :: rstrip rest).
    assert (ET : forall (h : str), many (is_ch sp_c) T (fun t => match t with ch :: t' => if is_ch close_c ch then Some ([(S_ "header", h)], t') else None | [] => None end) = Some ([(S_ "header", h)], rstrip rest)).
    { intros h. unfold T. rewrite many_back; [reflexivity|apply B, Hb'| |left; eexists; reflexivity]. intros w1 w2 Ew Nw Fw. destruct w1 as [|x w1]; [congruence|]. cbn in Ew. assert (x = "]"%char) by congruence. subst x. inversion Fw. discriminate. }
    assert (EC : rmatch (Sq (Cap (S_ "header") (LazyMany1 (fun c => negb (is_ch close_c c)))) (Sq (Many (is_ch sp_c)) (Cls (is_ch close_c)))) (S_ "variables" ++ T) [] (fun t c => Some (c, t)) = Some ([(S_ "header", S_ "variables")], rstrip rest)).
    { cbn [rmatch LazyMany1]. change (S_ "variables" ++ T) with ("v"%char :: "a"%char :: "r"%char :: "i"%char :: "a"%char :: "b"%char :: "l"%char :: "e"%char :: "s"%char :: T). cbv iota. change (negb (is_ch close_c "v")) with true. cbv iota.
      match goal with |- lazy ?p ?s ?k = _ => set (f := k) end.
      assert (Z : forall c r, is_ch sp_c c = false -> is_ch close_c c = false -> lazy (fun c => negb (is_ch close_c c)) (c :: r) f = lazy (fun c => negb (is_ch close_c c)) r f).
      { intros c r S1 S2. cbn [lazy]. rewrite S2. cbn [negb]. assert (Ef : f (c :: r) = None) by (unfold f; cbn [many]; rewrite S1, S2; reflexivity). rewrite Ef. reflexivity. }
      do 8 (rewrite Z; [|reflexivity|reflexivity]). assert (Ef : f T = Some ([(S_ "header", S_ "variables")], rstrip rest)).
      { unfold f. match goal with |- many _ _ (fun t => match t with [] => None | ch :: t0 => if _ then Some ((_, ?h) :: _, _) else None end) = _ => assert (Eh : h = S_ "variables") end.
        { change ("v"%char :: "a"%char :: "r"%char :: "i"%char :: "a"%char :: "b"%char :: "l"%char :: "e"%char :: "s"%char :: T) with (S_ "variables" ++ T). apply firstn_diff. }
        rewrite Eh. apply ET. }
      unfold T at 1. unfold T in Ef. clearbody f. clear - Ef. destruct b' as [|x b']; cbn [app lazy] in *; [exact Ef|]. rewrite Ef. destruct (negb (is_ch close_c x)); reflexivity. }
    unfold re_match, sectcre. change (rmatch (Sq (Cls (is_ch open_c)) (Sq (Many (is_ch sp_c)) (Sq (Cap (S_ "header") (LazyMany1 (fun c => negb (is_ch close_c c)))) (Sq (Many (is_ch sp_c)) (Cls (is_ch close_c)))))) ("["%char :: b ++ S_ "variables" ++ T) [] (fun t c => Some (c, t)))
      with (many (is_ch sp_c) (b ++ S_ "variables" ++ T) (fun t => rmatch (Sq (Cap (S_ "header") (LazyMany1 (fun c => negb (is_ch close_c c)))) (Sq (Many (is_ch sp_c)) (Cls (is_ch close_c)))) t [] (fun t c => Some (c, t)))).
    rewrite many_back; [rewrite EC; reflexivity|apply B, Hb| |left; eexists; exact EC]. intros w1 w2 Ew Nw Fw. destruct w1 as [|x w1]; [congruence|]. cbn in Ew. assert (x = "v"%char) by congruence. subst x. inversion Fw. discriminate.
Qed.

(** ** lines of fitted variables *)
Lemma first_q x : Forall (fun c => any_c c = true) x -> forall y, exists x1 y1, x ++ "?"%char :: y = x1 ++ "?"%char :: y1 /\ Forall (fun c => c <> "?"%char /\ c <> nl) x1.
Proof.
  intros F y. induction F as [|c x P F (x1 & y1 & E & F1)]; [exists [], y; split; [reflexivity|constructor]|]. destruct (ascii_dec c "?"%char) as [->|N].
  - exists [], (x ++ "?"%char :: y). split; [reflexivity|constructor].
  - exists (c :: x1), y1. split; [cbn; rewrite E; reflexivity|]. constructor; [|exact F1]. split; [exact N|]. intros ->. discriminate.
Qed.
Lemma lang_tag tag u : lang (tagpat tag) u <-> exists sp x, u = tag ++ sp ++ "="%char :: x ++ ["?"%char] /\ spaces sp /\ Forall (fun c => any_c c = true) x.
Proof.
  revert u. induction tag as [|a tag IH]; intros u.
  - cbn [tagpat fold_right lang]. split.
    + intros (sp & r & -> & F & u2 & r2 & -> & (c & -> & Pc) & x & r3 & -> & Fx & d & -> & Pd). apply is_ch_eq in Pc, Pd. subst c d. exists sp, x. split; [reflexivity|]. split; assumption.
    + intros (sp & x & -> & F & Fx). exists sp, ("="%char :: x ++ ["?"%char]). split; [reflexivity|]. split; [exact F|]. exists ["="%char], (x ++ ["?"%char]). split; [reflexivity|]. split; [exists "="%char; split; reflexivity|]. exists x, ["?"%char]. split; [reflexivity|]. split; [exact Fx|]. exists "?"%char. split; reflexivity.
  - cbn [tagpat fold_right lang]. split.
    + intros (u1 & u2 & -> & (c & -> & Pc) & L). apply is_ch_eq in Pc. subst c. apply IH in L. destruct L as (sp & x & -> & H). exists sp, x. split; [reflexivity|exact H].
    + intros (sp & x & -> & H). exists [a], (tag ++ sp ++ "="%char :: x ++ ["?"%char]). split; [reflexivity|]. split; [exists a; split; [reflexivity|apply is_ch_refl]|]. apply IH. eauto.
Qed.
Lemma name_head t : name t -> exists c r, t = c :: r /\ is_space c = false /\ c <> "["%char.
Proof. intros ((c & r & -> & P) & _ & F). exists c, r. split; [reflexivity|]. split; [exact P|]. inversion F. intros ->. apply H1. cbn. tauto. Qed.
Lemma name_eq t : name t -> ~ In "="%char t.
Proof. intros (_ & _ & F) H. rewrite Forall_forall in F. apply (F _ H). cbn. tauto. Qed.
Lemma name_hash t : name t -> ~ In "#"%char t.
Proof. intros (_ & _ & F) H. rewrite Forall_forall in F. apply (F _ H). cbn. tauto. Qed.
Lemma hit_iff t l : name t -> hit t l = true <-> asks t l.
Proof.
  intros N. assert (G : hit t l = true <-> re_match (tagpat t) (strip l) <> None) by (unfold hit; destruct (re_match (tagpat t) (strip l)); split; congruence). rewrite G, re_match_iff. clear G.
  destruct (name_head _ N) as (c & r & Et & Pc & _). split.
  - intros (u & y & Es & L). apply lang_tag in L. destruct L as (sp & x & -> & Fs & Fx). destruct (strip_split l) as (ind & w & El & Fi & Fw). destruct (first_q x Fx (y ++ w)) as (x1 & y1 & Ex & Fx1).
    exists {| p_indent := ind; p_gap := sp; p_before := x1; p_after := y1 |}. split; [|split; [exact Fi|split; [exact Fs|exact Fx1]]]. unfold line_of. cbn [p_indent p_gap p_before p_after]. rewrite El, Es, <- Ex. rewrite <- !app_assoc. cbn [app]. rewrite <- !app_assoc. reflexivity.
  - intros (q & -> & Fi & Fs & Fx). exists (t ++ p_gap q ++ "="%char :: p_before q ++ ["?"%char]), (rstrip (p_after q)). split.
    + unfold line_of. rewrite Et. cbn [app]. replace (r ++ p_gap q ++ "="%char :: p_before q ++ "?"%char :: p_after q) with ((r ++ p_gap q ++ "="%char :: p_before q) ++ "?"%char :: p_after q) by (rewrite <- !app_assoc; reflexivity).
      rewrite strip_keep; [|exact Fi|exact Pc|reflexivity]. rewrite <- !app_assoc. cbn [app]. rewrite <- !app_assoc. reflexivity.
    + apply lang_tag. exists (p_gap q), (p_before q). split; [reflexivity|]. split; [exact Fs|]. eapply Forall_impl; [|exact Fx]. intros z (_ & Z). cbn beta. unfold any_c. rewrite is_ch_neq; [reflexivity|exact Z].
Qed.
Lemma lazy_q x y : Forall (fun c => c <> "?"%char /\ c <> nl) x -> lazy any_c (x ++ "?"%char :: y) (fun t => match t with ch :: t' => if is_ch qmark ch then Some (@nil (str * str), t') else None | [] => None end) = Some ([], y).
Proof.
  intros F. induction F as [|c x (P & Q) F IH]; cbn; [reflexivity|]. unfold any_c at 1. rewrite (is_ch_neq newline c Q). cbn [negb]. rewrite (is_ch_neq qmark c P). cbn [orelse]. exact IH.
Qed.
Lemma to_qmark_hit x y : Forall (fun c => c <> "?"%char /\ c <> nl) x -> to_qmark (x ++ "?"%char :: y) = Some y.
Proof. intros F. exact (f_equal (fun o => match o with Some (_, t) => Some t | None => None end) (lazy_q x y F)). Qed.
Lemma sub_skip text u : forall prev s, (match prev with Some p => p <> "="%char | None => True end) -> ~ In "="%char u -> sub_line text prev (u ++ "="%char :: s) = u ++ "="%char :: sub_line text (Some "="%char) s.
Proof.
  induction u as [|c u IH]; intros prev s P N.
  - cbn [app sub_line]. replace (match prev with Some p => if is_ch eq_c p then to_qmark ("="%char :: s) else None | None => None end) with (@None str); [reflexivity|]. destruct prev as [p|]; [|reflexivity]. rewrite is_ch_neq; [reflexivity|exact P].
  - cbn [app sub_line]. replace (match prev with Some p => if is_ch eq_c p then to_qmark (c :: u ++ "="%char :: s) else None | None => None end) with (@None str); [|destruct prev as [p|]; [rewrite is_ch_neq; [reflexivity|exact P]|reflexivity]].
    rewrite IH; [reflexivity| |intros H; apply N; right; exact H]. intros ->. apply N. left. reflexivity.
Qed.
Lemma spaces_eq w : spaces w -> ~ In "="%char w. Proof. apply not_in_space. reflexivity. Qed.
Lemma sub_answered t text q : name t -> fits q -> sub_line text None (line_of t q) = answered t text q.
Proof.
  intros N (Fi & Fs & Fx). unfold line_of, answered. replace (p_indent q ++ t ++ p_gap q ++ "="%char :: p_before q ++ "?"%char :: p_after q) with ((p_indent q ++ t ++ p_gap q) ++ "="%char :: p_before q ++ "?"%char :: p_after q) by (rewrite <- !app_assoc; reflexivity).
  rewrite sub_skip; [|exact I|rewrite !in_app_iff; intros [H|[H|H]]; [revert H; apply spaces_eq, Fi|revert H; apply name_eq, N|revert H; apply spaces_eq, Fs]].
  rewrite <- !app_assoc. f_equal. f_equal. f_equal. f_equal. destruct (p_before q ++ "?"%char :: p_after q) as [|a z] eqn:E; [destruct (p_before q); discriminate|]. cbn [sub_line]. change (is_ch eq_c "=") with true. cbv iota. rewrite <- E, to_qmark_hit; [reflexivity|exact Fx].
Qed.
Definition dull (text : str) : Prop := Forall (fun c => c <> "?"%char /\ c <> nl) text.
Lemma answered_asks t text q : dull text -> fits q -> asks t (answered t text q).
Proof.
  intros D (Fi & Fs & Fx). exists {| p_indent := p_indent q; p_gap := p_gap q; p_before := " "%char :: text ++ S_ " # "; p_after := p_after q |}. split; [unfold answered, line_of; cbn [p_indent p_gap p_before p_after]; cbn [app]; rewrite <- !app_assoc; reflexivity|].
  split; [exact Fi|]. split; [exact Fs|]. cbn [p_before]. constructor; [split; discriminate|]. apply Forall_app. split; [exact D|]. repeat (constructor; [split; discriminate|]). constructor.
Qed.
Lemma split_eq_hit u s : ~ In "="%char u -> split_eq (u ++ "="%char :: s) = Some (u, s).
Proof. induction u as [|c u IH]; intros N; [reflexivity|]. cbn [app split_eq]. rewrite is_ch_neq; [|intros ->; apply N; left; reflexivity]. rewrite IH; [reflexivity|]. intros H. apply N. right. exact H. Qed.
Lemma asks_same t t' l : name t -> name t' -> asks t l -> asks t' l -> t = t'.
Proof.
  intros N N' (q & E & Fi & Fs & _) (q' & E' & Fi' & Fs' & _).
  assert (A : forall z p, name z -> spaces (p_indent p) -> spaces (p_gap p) -> exists s, split_eq (lstrip (line_of z p)) = Some (z ++ p_gap p, s)).
  { intros z p Nz Fz Fg. destruct (name_head _ Nz) as (c & r & -> & Pc & _). unfold line_of. cbn [app]. rewrite lstrip_hit; [|exact Fz|exact Pc]. exists (p_before p ++ "?"%char :: p_after p).
    change (c :: r ++ p_gap p ++ "="%char :: p_before p ++ "?"%char :: p_after p) with ((c :: r) ++ p_gap p ++ "="%char :: p_before p ++ "?"%char :: p_after p). rewrite app_assoc, split_eq_hit; [reflexivity|].
    rewrite in_app_iff. intros [H|H]; [revert H; apply (name_eq _ Nz)|revert H; apply spaces_eq, Fg]. }
  destruct (A t q N Fi Fs) as (s & As). destruct (A t' q' N' Fi' Fs') as (s' & As'). rewrite <- E in As. rewrite <- E' in As'. rewrite As in As'. assert (G : t ++ p_gap q = t' ++ p_gap q') by congruence.
  assert (B : forall z w, name z -> spaces w -> rstrip (z ++ w) = z). { intros z w (_ & (r & c & -> & Pc) & _) Fw. rewrite <- app_assoc. cbn [app]. apply rstrip_last; assumption. }
  rewrite <- (B t (p_gap q) N Fs), G, B; [reflexivity|exact N'|exact Fs'].
Qed.
Lemma overwrite_spec t text B : name t -> (forall l, In l B -> ~ asks t l) /\ overwrite t text B = None \/
  exists B1 q B2, B = B1 ++ line_of t q :: B2 /\ fits q /\ (forall l, In l B1 -> ~ asks t l) /\ overwrite t text B = Some (B1 ++ answered t text q :: B2).
Proof.
  intros N. induction B as [|l B IH]; [left; split; [intros l []|reflexivity]|]. cbn [overwrite]. destruct (hit t l) eqn:Hh.
  - right. apply (hit_iff t l N) in Hh. destruct Hh as (q & -> & F). exists [], q, B. split; [reflexivity|]. split; [exact F|]. split; [intros ? []|]. rewrite (sub_answered t text q N F). reflexivity.
  - assert (Nl : ~ asks t l) by (intros A; apply (hit_iff t l N) in A; congruence). destruct IH as [(A & ->)|(B1 & q & B2 & -> & F & A & ->)].
    + left. split; [|reflexivity]. intros z [<-|Hz]; [exact Nl|apply A, Hz].
    + right. exists (l :: B1), q, B2. split; [reflexivity|]. split; [exact F|]. split; [|reflexivity]. intros z [<-|Hz]; [exact Nl|apply A, Hz].
Qed.
Definition asks_at (t : str) (B : list str) (j : nat) : Prop := exists l, nth_error B j = Some l /\ asks t l.
Lemma nth_mid {A} (B1 : list A) x y B2 j : j <> List.length B1 -> nth_error (B1 ++ x :: B2) j = nth_error (B1 ++ y :: B2) j.
Proof. intros H. revert j H. induction B1 as [|b B1 IH]; intros j H; destruct j; cbn in *; [congruence|reflexivity|reflexivity|apply IH; congruence]. Qed.
Lemma nth_at {A} (B1 : list A) x B2 : nth_error (B1 ++ x :: B2) (List.length B1) = Some x.
Proof. induction B1; [reflexivity|exact IHB1]. Qed.
Lemma asks_at_inv t t0 x0 q0 B1 B2 j : name t -> name t0 -> t <> t0 -> dull x0 -> fits q0 -> asks_at t (B1 ++ answered t0 x0 q0 :: B2) j <-> asks_at t (B1 ++ line_of t0 q0 :: B2) j.
Proof.
  intros N N0 D Dl F. destruct (Nat.eq_dec j (List.length B1)) as [->|J].
  - unfold asks_at. rewrite !nth_at. split; intros (l & E & A); exfalso; apply D.
    + assert (l = answered t0 x0 q0) by congruence. subst l. apply (asks_same t t0 _ N N0 A). apply answered_asks; assumption.
    + assert (l = line_of t0 q0) by congruence. subst l. apply (asks_same t t0 _ N N0 A). exists q0. split; [reflexivity|exact F].
  - unfold asks_at. rewrite (nth_mid B1 _ (line_of t0 q0) B2 j J). reflexivity.
Qed.
Lemma over_all : forall fit B, Forall (fun tt => name (fst tt) /\ dull (snd tt)) fit -> NoDup (map fst fit) ->
  ((forall t, In t (map fst fit) -> exists l, In l B /\ asks t l) -> exists B', overwrite_all fit B = Ok B' /\ List.length B' = List.length B /\
     forall j l, nth_error B j = Some l ->
       (forall t text q, In (t, text) fit -> l = line_of t q -> fits q -> (forall i, i < j -> ~ asks_at t B i) -> nth_error B' j = Some (answered t text q)) /\
       ((forall t, In t (map fst fit) -> asks t l -> exists i, i < j /\ asks_at t B i) -> nth_error B' j = Some l)) /\
  ((exists t, In t (map fst fit) /\ forall l, In l B -> ~ asks t l) -> overwrite_all fit B = Err RuntimeError).
Proof.
  induction fit as [|[t0 x0] fit IH]; intros B F ND.
  - split; [|intros (t & [] & _)]. intros _. exists B. split; [reflexivity|]. split; [reflexivity|]. intros j l E. split; [intros t x q []|intros _; exact E].
  - inversion F as [|? ? [N0 D0] F']; subst. cbn [fst snd] in N0, D0. cbn [map fst] in ND. inversion ND as [|? ? Ni ND']; subst. cbn [overwrite_all].
    assert (Names : forall t, In t (map fst fit) -> name t). { intros t Ht. apply in_map_iff in Ht. destruct Ht as ([t' x'] & <- & Ht). rewrite Forall_forall in F'. apply (F' _ Ht). }
    destruct (overwrite_spec t0 x0 B N0) as [(A & E)|(B1 & q0 & B2 & EB & Fq & A & E)]; rewrite E.
    + split; [|reflexivity]. intros H. destruct (H t0 (or_introl eq_refl)) as (l & Hl & Al). exfalso. apply (A l Hl Al).
    + set (Bs := B1 ++ answered t0 x0 q0 :: B2) in *. destruct (IH Bs F' ND') as (I1 & I2).
      assert (Inv : forall t j, In t (map fst fit) -> asks_at t Bs j <-> asks_at t B j) by (intros t j Ht; rewrite EB; apply asks_at_inv; [apply Names, Ht|exact N0|intros ->; contradiction|exact D0|exact Fq]).
      assert (Lift : forall t, In t (map fst fit) -> (exists l, In l Bs /\ asks t l) <-> (exists l, In l B /\ asks t l)).
      { intros t Ht. split; intros (l & Hl & Al); apply In_nth_error in Hl; destruct Hl as (j & Hj).
        - assert (Q : asks_at t B j) by (apply Inv; [exact Ht|exists l; split; assumption]). destruct Q as (l' & Hl' & Al'). exists l'. split; [apply nth_error_In with j; exact Hl'|exact Al'].
        - assert (Q : asks_at t Bs j) by (apply Inv; [exact Ht|exists l; split; assumption]). destruct Q as (l' & Hl' & Al'). exists l'. split; [apply nth_error_In with j; exact Hl'|exact Al']. }
      split.
      * intros H. destruct I1 as (B' & E' & L & P); [intros t Ht; apply Lift; [exact Ht|apply H; right; exact Ht]|]. exists B'. split; [exact E'|]. split; [rewrite L, EB; unfold Bs; rewrite !app_length; reflexivity|].
        intros j l Hj. assert (First : forall i, i < List.length B1 -> ~ asks_at t0 B i).
        { intros i Hi (l' & Hl' & Al'). rewrite EB, nth_error_app1 in Hl' by exact Hi. apply (A l'); [apply nth_error_In with i; exact Hl'|exact Al']. }
        assert (At0 : asks_at t0 B (List.length B1)) by (exists (line_of t0 q0); split; [rewrite EB; apply nth_at|exists q0; split; [reflexivity|exact Fq]]).
        split.
        -- intros t text q Hin -> Fq' Hf. destruct Hin as [Hin|Hin].
           ++ assert (t = t0) by congruence. assert (text = x0) by congruence. subst t text. assert (J : j = List.length B1).
              { destruct (Nat.lt_trichotomy j (List.length B1)) as [J|[J|J]]; [exfalso; apply (First j J); exists (line_of t0 q); split; [exact Hj|exists q; split; [reflexivity|exact Fq']]|exact J|exfalso; apply (Hf _ J At0)]. }
              subst j. assert (El : line_of t0 q = line_of t0 q0) by (rewrite EB, nth_at in Hj; congruence). destruct (P (List.length B1) (answered t0 x0 q0) (nth_at _ _ _)) as (_ & P2). rewrite P2.
              ** f_equal. rewrite <- (sub_answered t0 x0 q0 N0 Fq), <- El. apply sub_answered; assumption.
              ** intros t Ht At. exfalso. assert (t = t0); [|subst; contradiction]. apply (asks_same t t0 _ (Names t Ht) N0 At). apply answered_asks; assumption.
           ++ assert (Ht : In t (map fst fit)) by (apply (in_map fst) in Hin; exact Hin). assert (J : j <> List.length B1).
              { intros ->. rewrite EB, nth_at in Hj. assert (t = t0); [|subst; contradiction]. apply (asks_same t t0 (line_of t q) (Names t Ht) N0); [exists q; split; [reflexivity|exact Fq']|]. exists q0. split; [congruence|exact Fq]. }
              assert (Hj' : nth_error Bs j = Some (line_of t q)) by (unfold Bs; rewrite (nth_mid B1 _ (line_of t0 q0) B2 j J), <- EB; exact Hj). destruct (P j _ Hj') as (P1 & _). apply (P1 t text q Hin eq_refl Fq'). intros i Hi Q. apply (Hf i Hi). apply Inv; assumption.
        -- intros Hl. assert (J : j <> List.length B1).
           { intros ->. rewrite EB, nth_at in Hj. assert (l = line_of t0 q0) by congruence. subst l. destruct (Hl t0 (or_introl eq_refl)) as (i & Hi & Q); [exists q0; split; [reflexivity|exact Fq]|]. apply (First i Hi Q). }
           assert (Hj' : nth_error Bs j = Some l) by (unfold Bs; rewrite (nth_mid B1 _ (line_of t0 q0) B2 j J), <- EB; exact Hj). destruct (P j _ Hj') as (_ & P2). apply P2. intros t Ht At. destruct (Hl t (or_intror Ht) At) as (i & Hi & Q). exists i. split; [exact Hi|]. apply Inv; assumption.
      * intros (t & Ht & H). apply I2. destruct Ht as [<-|Ht].
        -- exfalso. apply (H (line_of t0 q0)); [rewrite EB; apply in_or_app; right; left; reflexivity|exists q0; split; [reflexivity|exact Fq]].
        -- exists t. split; [exact Ht|]. intros l Hl Al. assert (Q : exists l, In l B /\ asks t l) by (apply Lift; [exact Ht|eauto]). destruct Q as (l' & Hl' & Al'). apply (H l' Hl' Al').
Qed.
(** ** the range of the section *)
Lemma range_in body post : forall n a, (forall l x, In l body -> ~ is_header l x) -> (post = [] \/ exists l r x, post = l :: r /\ is_header l x) ->
  sect_range n (Some a) (body ++ post) = (Some a, n + List.length body).
Proof.
  induction body as [|l body IH]; intros n a Hb Hp.
  - cbn. rewrite Nat.add_0_r. destruct Hp as [->|(l & r & x & -> & Hx)]; [reflexivity|]. cbn [sect_range]. destruct (header l) eqn:E; [reflexivity|]. exfalso. assert (X : header l <> None) by (apply header_some_iff; eauto). congruence.
  - cbn [app sect_range]. rewrite header_none; [|intros x; apply Hb; left; reflexivity]. rewrite IH; [f_equal; cbn; lia| |exact Hp]. intros z x Hz. apply Hb. right. exact Hz.
Qed.
Lemma range_all pre hdr body post : (forall l, In l pre -> ~ opens_variables l) -> opens_variables hdr -> (forall l x, In l body -> ~ is_header l x) -> (post = [] \/ exists l r x, post = l :: r /\ is_header l x) ->
  forall n, sect_range n None (pre ++ hdr :: body ++ post) = (Some (n + List.length pre), n + List.length pre + 1 + List.length body).
Proof.
  intros Hp Hh Hb Hq. induction pre as [|l pre IH]; intros n.
  - cbn [app sect_range]. apply header_variables in Hh. rewrite Hh, eqb_refl, range_in; [|exact Hb|exact Hq]. cbn [List.length]. f_equal; [f_equal|]; lia.
  - cbn [app sect_range]. assert (Q : sect_range (S n) None (pre ++ hdr :: body ++ post) = (Some (n + List.length (l :: pre)), n + List.length (l :: pre) + 1 + List.length body)) by (rewrite IH; [cbn [List.length]; f_equal; [f_equal|]; lia|intros z Hz; apply Hp; right; exact Hz]).
    destruct (header l) as [h|] eqn:E; [|exact Q]. destruct (eqb h (S_ "variables")) eqn:Eh; [|exact Q]. apply eqb_eq in Eh. subst h. exfalso. apply (Hp l (or_introl eq_refl)). apply header_variables, E.
Qed.
Lemma header_not_ask t l x : name t -> is_header l x -> ~ asks t l.
Proof.
  intros N (ind & rest & El & Fi & _) (q & Eq & Fi' & _). destruct (name_head _ N) as (c & r & -> & Pc & Nc). unfold line_of in Eq. cbn [app] in Eq. assert (A : lstrip l = "["%char :: x ++ "]"%char :: rest) by (rewrite El; apply lstrip_hit; [exact Fi|reflexivity]).
  rewrite Eq, lstrip_hit in A by assumption. congruence.
Qed.
