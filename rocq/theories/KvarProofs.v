From Coq Require Import Reals String Ascii.
From Verif Require Import Py PyStr PyDict Regex VarModel KvarModel KvarSpec.
Local Open Scope nat_scope.

Lemma is_ch_eq a c : is_ch a c = true <-> c = a.
Proof. unfold is_ch, ch_eq. apply Ascii.eqb_eq. Qed.
Lemma is_ch_refl a : is_ch a a = true. Proof. apply is_ch_eq. reflexivity. Qed.
Lemma is_ch_neq a c : c <> a -> is_ch a c = false.
Proof. intros H. destruct (is_ch a c) eqn:E; [apply is_ch_eq in E; contradiction|reflexivity]. Qed.
Lemma app_cases {A} (u v : list A) : forall a b, u ++ v = a ++ b -> (exists m, a = u ++ m /\ v = m ++ b) \/ (exists x m, u = a ++ x :: m /\ b = x :: m ++ v).
Proof.
  induction u as [|x u IH]; intros a b E; [left; exists a; split; [reflexivity|exact E]|].
  destruct a as [|y a]; [right; exists x, u; split; [reflexivity|symmetry; exact E]|]. cbn in E. injection E as -> E.
  destruct (IH a b E) as [(m & -> & ->)|(z & m & -> & ->)]; [left; exists m; split; reflexivity|right; exists z, m; split; reflexivity].
Qed.
(** the first piece of [w ++ d :: T] that holds only non-blanks begins with [d] *)
Lemma nonblank_prefix (w T w1 w2 : str) d : spaces w -> w ++ d :: T = w1 ++ w2 -> w1 <> [] -> Forall (fun c => non_space c = true) w1 -> exists m, w = [] /\ w1 = d :: m /\ T = m ++ w2.
Proof.
  intros Hw E N F. destruct w as [|x w].
  - destruct w1 as [|y w1]; [congruence|]. cbn in E. injection E as <- E. exists w1. split; [reflexivity|]. split; [reflexivity|exact E].
  - destruct w1 as [|y w1]; [congruence|]. cbn in E. injection E as <- E. inversion Hw. inversion F. subst. unfold non_space in *. rewrite H1 in H5. discriminate.
Qed.
Section Stage.
Context {X : Type}.
Lemma blank_then d (t : str) c (k : str -> caps -> option X) : ~ In d t -> rmatch (Sq (Many is_space) (Cls (is_ch d))) t c k = None.
Proof.
  intros H. cbn. apply many_none. intros u t' -> _. cbn beta. destruct t' as [|x t']; [reflexivity|]. rewrite is_ch_neq; [reflexivity|]. intros ->. apply H. apply in_or_app. right. left. reflexivity.
Qed.
Lemma blank_hit d w T c (k : str -> caps -> option X) v : is_space d = false -> spaces w -> k T c = Some v -> rmatch (Sq (Many is_space) (Cls (is_ch d))) (w ++ d :: T) c k = Some v.
Proof.
  intros Hd Hw Hk. cbn. rewrite many_back; [cbn beta iota; rewrite is_ch_refl; exact Hk|exact Hw| |left; exists v; cbn beta iota; rewrite is_ch_refl; exact Hk].
  intros w1 w2 E N F. destruct w1 as [|x w1]; [congruence|]. injection E as <- _. inversion F. subst. congruence.
Qed.
(** blanks, an optional word, blanks and a delimiter *)
Definition stage (n : str) (d : ascii) : re := Sq (Many is_space) (Sq (Opt (Cap n (Many1 non_space))) (Sq (Many is_space) (Cls (is_ch d)))).
Lemma stage_ok n d w l w' T c (k : str -> caps -> option X) v :
  is_space d = false -> spaces w -> spaces w' -> Forall (fun x => is_space x = false) l -> ~ In d l -> ~ In d T ->
  k T (match l with [] => c | _ => (n, l) :: c end) = Some v ->
  rmatch (stage n d) (w ++ l ++ w' ++ d :: T) c k = Some v.
Proof.
  intros Hd Hw Hw' Hl Nl NT Hk. unfold stage.
  set (k1 := fun t c => rmatch (Sq (Many is_space) (Cls (is_ch d))) t c k).
  change (many is_space (w ++ l ++ w' ++ d :: T) (fun t => orelse (rmatch (Cap n (Many1 non_space)) t c k1) (k1 t c)) = Some v).
  assert (Z : forall m t x, T = m ++ t -> k1 t x = None) by (intros m t x E; apply blank_then; intros H; apply NT; rewrite E; apply in_or_app; right; exact H).
  destruct l as [|y l].
  - cbn [app]. rewrite app_assoc. assert (V : orelse (rmatch (Cap n (Many1 non_space)) (d :: T) c k1) (k1 (d :: T) c) = Some v).
    { rewrite cap_many1_none; [cbn [orelse]; apply (blank_hit d [] T c k v Hd (Forall_nil _) Hk)|]. intros u t x E N F. destruct u as [|z u]; [congruence|]. injection E as -> E. apply (Z u t _ E). }
    rewrite many_back; [exact V|apply Forall_app; split; assumption| |left; exists v; exact V].
    intros w1 w2 E N F. destruct w1 as [|z w1]; [congruence|]. injection E as -> E. inversion F. subst. congruence.
  - assert (V : orelse (rmatch (Cap n (Many1 non_space)) ((y :: l) ++ w' ++ d :: T) c k1) (k1 ((y :: l) ++ w' ++ d :: T) c) = Some v).
    { assert (K : k1 (w' ++ d :: T) ((n, y :: l) :: c) = Some v) by (apply blank_hit; assumption).
      rewrite cap_many1; [rewrite K; reflexivity|discriminate|eapply Forall_impl; [|exact Hl]; intros a Ha; cbn beta in Ha; unfold non_space; rewrite Ha; reflexivity| |eauto].
      intros w1 w2 x E N F. destruct (nonblank_prefix w' T w1 w2 d Hw' E N F) as (m & _ & _ & ET). apply (Z m w2 _ ET). }
    rewrite many_back; [exact V|exact Hw| |left; exists v; exact V].
    intros w1 w2 E N F. destruct w1 as [|z w1]; [congruence|]. injection E as -> E. inversion F. inversion Hl. subst. congruence.
Qed.
End Stage.
Definition fin : str -> caps -> option (caps * str) := fun t c => Some (c, t).
Definition inner : re := Sq (Cls (is_ch lt_c)) (Sq (stage (S_ "lower") comma) (stage (S_ "upper") gt_c)).
Lemma pat_bounds_eq s c : rmatch pat_bounds s c fin = orelse (rmatch inner s c fin) (Some (c, s)).
Proof. reflexivity. Qed.
Definition addc (n l : str) (c : caps) : caps := match l with [] => c | _ => (n, l) :: c end.
Lemma ww bad l : word_without bad l -> Forall (fun x => is_space x = false) l /\ forall d, In d bad -> ~ In d l.
Proof. intros H. split; [eapply Forall_impl; [|exact H]; intros a Ha; apply Ha|]. intros d Hd Hl. unfold word_without in H. rewrite Forall_forall in H. destruct (H d Hl) as [_ N]. contradiction. Qed.
Lemma not_in_space d w : is_space d = false -> spaces w -> ~ In d w.
Proof. intros Hd Hw H. unfold spaces in Hw. rewrite Forall_forall in Hw. rewrite (Hw d H) in Hd. discriminate. Qed.
Lemma bounds_ok w4 l w5 w6 u w7 c : spaces w4 -> spaces w5 -> spaces w6 -> spaces w7 ->
  word_without ["?"%char; ","%char; ">"%char] l -> word_without ["?"%char; ","%char; ">"%char] u ->
  rmatch pat_bounds (lt_c :: w4 ++ l ++ w5 ++ comma :: w6 ++ u ++ w7 ++ [gt_c]) c fin = Some (addc (S_ "upper") u (addc (S_ "lower") l c), []).
Proof.
  intros H4 H5 H6 H7 Hl Hu. destruct (ww _ _ Hl) as (Fl & Nl). destruct (ww _ _ Hu) as (Fu & Nu). rewrite pat_bounds_eq.
  assert (E : rmatch inner (lt_c :: w4 ++ l ++ w5 ++ comma :: w6 ++ u ++ w7 ++ [gt_c]) c fin = Some (addc (S_ "upper") u (addc (S_ "lower") l c), [])); [|rewrite E; reflexivity].
  unfold inner. change (rmatch (stage (S_ "lower") comma) (w4 ++ l ++ w5 ++ comma :: w6 ++ u ++ w7 ++ [gt_c]) c (fun t c => rmatch (stage (S_ "upper") gt_c) t c fin) = Some (addc (S_ "upper") u (addc (S_ "lower") l c), [])).
  apply stage_ok; try assumption; [reflexivity|apply Nl; right; left; reflexivity| |].
  - intros H. rewrite !in_app_iff in H. destruct H as [H|[H|[H|H]]]; [revert H; apply not_in_space; [reflexivity|assumption]|revert H; apply Nu; right; left; reflexivity|revert H; apply not_in_space; [reflexivity|assumption]|destruct H as [H|[]]; discriminate].
  - apply stage_ok; try assumption; [reflexivity|apply Nu; right; right; left; reflexivity|intros []|]. reflexivity.
Qed.
Lemma bounds_none t c : (forall x y z, t <> lt_c :: x ++ comma :: y ++ gt_c :: z) -> rmatch pat_bounds t c fin = Some (c, t).
Proof.
  intros H. rewrite pat_bounds_eq. destruct (rmatch inner t c fin) eqn:E; [exfalso|reflexivity]. unfold inner in E.
  cbn [rmatch] in E. destruct t as [|a t]; [discriminate|]. destruct (is_ch lt_c a) eqn:A; [apply is_ch_eq in A; subst a|discriminate].
  change (rmatch (Sq (Sq (Many is_space) (Sq (Opt (Cap (S_ "lower") (Many1 non_space))) (Many is_space))) (Cls (is_ch comma))) t c
            (fun t c => rmatch (Sq (Sq (Many is_space) (Sq (Opt (Cap (S_ "upper") (Many1 non_space))) (Many is_space))) (Cls (is_ch gt_c))) t c fin) = Some p) in E.
  remember (Sq (Many is_space) (Sq (Opt (Cap (S_ "lower") (Many1 non_space))) (Many is_space))) as R1. remember (Sq (Many is_space) (Sq (Opt (Cap (S_ "upper") (Many1 non_space))) (Many is_space))) as R2. clear HeqR1 HeqR2.
  cbn [rmatch] in E. apply rmatch_inv in E. destruct E as (x & t1 & c1 & -> & E). destruct t1 as [|a t1]; [discriminate|]. destruct (is_ch comma a) eqn:A; [apply is_ch_eq in A; subst a|discriminate].
  apply rmatch_inv in E. destruct E as (y & t2 & c2 & -> & E). destruct t2 as [|a t2]; [discriminate|]. destruct (is_ch gt_c a) eqn:A; [apply is_ch_eq in A; subst a|discriminate].
  apply (H x y t2). reflexivity.
Qed.
Lemma bounds_some t c : exists v, rmatch pat_bounds t c fin = Some v.
Proof. rewrite pat_bounds_eq. unfold orelse. destruct (rmatch inner t c fin); eauto. Qed.
Lemma scale_ok w2 s w3 B c : spaces w2 -> spaces w3 -> word_without ["?"%char; "<"%char; "@"%char] s ->
  match B with [] => True | b :: _ => is_space b = false /\ (scale_char b = false \/ (s <> [] /\ w3 <> [])) end ->
  rmatch pat_scale (w2 ++ s ++ w3 ++ B) c fin = rmatch pat_bounds B (addc (S_ "scale") s c) fin.
Proof.
  intros H2 H3 Hs HB. destruct (ww _ _ Hs) as (Fs & Ns). unfold pat_scale.
  set (k1 := fun t c => rmatch (Sq (Many is_space) pat_bounds) t c fin).
  change (many is_space (w2 ++ s ++ w3 ++ B) (fun t => orelse (rmatch (Cap (S_ "scale") (Many1 scale_char)) t c k1) (k1 t c)) = rmatch pat_bounds B (addc (S_ "scale") s c) fin).
  assert (KB : forall c', k1 (w3 ++ B) c' = rmatch pat_bounds B c' fin).
  { intros c'. unfold k1. cbn [rmatch]. destruct (bounds_some B c') as (v & E). rewrite many_back; [reflexivity|exact H3| |left; exists v; exact E].
    intros w1 w2' Eq N F. destruct B as [|b B]; [apply eq_sym, app_eq_nil in Eq; destruct Eq; contradiction|]. destruct w1 as [|z w1]; [congruence|]. injection Eq as -> _. inversion F. subst. destruct HB. congruence. }
  assert (KB0 : forall c', k1 B c' = rmatch pat_bounds B c' fin).
  { intros c'. unfold k1. cbn [rmatch]. destruct (bounds_some B c') as (v & E). apply (many_back is_space (fun t => rmatch pat_bounds t c' fin) [] B); [constructor| |right; reflexivity].
    intros w1 w2' Eq N F. destruct B as [|b B]; [apply eq_sym, app_eq_nil in Eq; destruct Eq; contradiction|]. destruct w1 as [|z w1]; [congruence|]. injection Eq as -> _. inversion F. subst. destruct HB. congruence. }
  assert (SP : forall x, is_space x = true -> scale_char x = false) by (intros x Hx; unfold scale_char, non_space; rewrite Hx; reflexivity).
  destruct s as [|y s].
  - cbn [app addc]. rewrite app_assoc. destruct (bounds_some B c) as (v & E).
    assert (V : orelse (rmatch (Cap (S_ "scale") (Many1 scale_char)) B c k1) (k1 B c) = rmatch pat_bounds B c fin).
    { rewrite KB0. destruct B as [|b B]; [cbn; reflexivity|]. cbn [rmatch Many1]. destruct HB as (Hb & [Hb'|[Hb' _]]); [|congruence]. rewrite Hb'. reflexivity. }
    rewrite many_back; [exact V|apply Forall_app; split; assumption| |left; exists v; congruence].
    intros w1 w2' Eq N F. destruct B as [|b B]; [apply eq_sym, app_eq_nil in Eq; destruct Eq; contradiction|]. destruct w1 as [|z w1]; [congruence|]. injection Eq as -> _. inversion F. subst. destruct HB. congruence.
  - set (s0 := y :: s) in *. assert (N0 : s0 <> []) by discriminate. destruct (bounds_some B (addc (S_ "scale") s0 c)) as (v & E).
    assert (Sc : Forall (fun c => scale_char c = true) s0).
    { apply Forall_forall. intros a Ha. rewrite Forall_forall in Fs. unfold scale_char, non_space. rewrite (Fs a Ha). cbn [negb andb].
      rewrite !is_ch_neq; [reflexivity|intros ->; apply (Ns at_c); [right; right; left; reflexivity|exact Ha]|intros ->; apply (Ns lt_c); [right; left; reflexivity|exact Ha]]. }
    assert (V : orelse (rmatch (Cap (S_ "scale") (Many1 scale_char)) (s0 ++ w3 ++ B) c k1) (k1 (s0 ++ w3 ++ B) c) = rmatch pat_bounds B (addc (S_ "scale") s0 c) fin).
    { rewrite cap_many1; [rewrite KB; change ((S_ "scale", s0) :: c) with (addc (S_ "scale") s0 c); rewrite E; reflexivity|exact N0|exact Sc| |exists v; rewrite KB; exact E].
      intros u t x Eq N F. destruct w3 as [|z w3].
      - cbn [app] in Eq. destruct B as [|b B]; [apply eq_sym, app_eq_nil in Eq; destruct Eq; contradiction|]. destruct u as [|q u]; [congruence|]. injection Eq as -> _. inversion F. subst. destruct HB as (_ & [Hb|[_ Hb]]); congruence.
      - destruct u as [|q u]; [congruence|]. cbn [app] in Eq. injection Eq as -> _. inversion F. inversion H3. subst. rewrite SP in H1 by assumption. discriminate. }
    rewrite many_back; [exact V|exact H2| |left; exists v; congruence].
    intros w1 w2' Eq N F. destruct w1 as [|z w1]; [congruence|]. cbn [app] in Eq. unfold s0 in Eq. injection Eq as -> _. inversion F. inversion Fs. subst. congruence.
Qed.
Definition base : re := stage (S_ "initial") qmark.
Lemma varbpat_eq s : re_match varbpat s = rmatch base s [] (fun t c => rmatch pat_scale t c fin).
Proof. reflexivity. Qed.
Lemma head_ok w0 a w1 T v : spaces w0 -> spaces w1 -> word_without ["?"%char] a -> ~ In qmark T ->
  rmatch pat_scale T (addc (S_ "initial") a []) fin = Some v -> re_match varbpat (w0 ++ a ++ w1 ++ qmark :: T) = Some v.
Proof.
  intros H0 H1 Ha NT E. destruct (ww _ _ Ha) as (Fa & Na). rewrite varbpat_eq. apply stage_ok; try assumption; [reflexivity|apply Na; left; reflexivity].
Qed.
Definition g4 (c : caps) : setting := {| t_initial := group c (S_ "initial"); t_scale := group c (S_ "scale"); t_lower := group c (S_ "lower"); t_upper := group c (S_ "upper") |}.
Lemma g4_add a s l u : g4 (addc (S_ "upper") u (addc (S_ "lower") l (addc (S_ "scale") s (addc (S_ "initial") a [])))) =
  {| t_initial := given a; t_scale := given s; t_lower := given l; t_upper := given u |}.
Proof. destruct a, s, l, u; reflexivity. Qed.
Lemma qmark_space : is_space qmark = false. Proof. reflexivity. Qed.
(** a match, exactly *)
Lemma many_some {X} p (k : str -> option X) u t v : Forall (fun c => p c = true) u -> k t = Some v -> exists v', many p (u ++ t) k = Some v'.
Proof.
  intros F K. induction F as [|x u P F IH]; cbn [app many].
  - destruct t as [|ch t]; [eauto|]. cbn. destruct (p ch); [|eauto]. unfold orelse. destruct (many p t k); eauto.
  - rewrite P. destruct IH as (v' & ->). cbn. eauto.
Qed.
Lemma pat_scale_some t c : exists v, rmatch pat_scale t c fin = Some v.
Proof.
  unfold pat_scale. set (k1 := fun t c => rmatch (Sq (Many is_space) pat_bounds) t c fin).
  change (exists v, many is_space t (fun t => orelse (rmatch (Cap (S_ "scale") (Many1 scale_char)) t c k1) (k1 t c)) = Some v).
  assert (K : forall t c, exists v, k1 t c = Some v).
  { intros t' c'. unfold k1. cbn [rmatch]. destruct (bounds_some t' c') as (v & E). apply (many_some is_space (fun t => rmatch pat_bounds t c' fin) [] t' v); [constructor|exact E]. }
  destruct (K t c) as (v & E). assert (exists v, orelse (rmatch (Cap (S_ "scale") (Many1 scale_char)) t c k1) (k1 t c) = Some v) as (v' & E') by (unfold orelse; destruct (rmatch _ t c k1); eauto).
  apply (many_some is_space _ [] t v'); [constructor|exact E'].
Qed.
Lemma matches_iff v : re_match varbpat v <> None <-> exists w0 a w1 r, v = w0 ++ a ++ w1 ++ qmark :: r /\ spaces w0 /\ spaces w1 /\ Forall (fun x => is_space x = false) a.
Proof.
  rewrite varbpat_eq. set (k2 := fun t c => rmatch pat_scale t c fin). set (k1 := fun t c => rmatch (Sq (Many is_space) (Cls (is_ch qmark))) t c k2).
  change (rmatch base v [] k2) with (many is_space v (fun t => orelse (rmatch (Cap (S_ "initial") (Many1 non_space)) t [] k1) (k1 t []))).
  assert (K1 : forall t c x, k1 t c = Some x -> exists w r, t = w ++ qmark :: r /\ spaces w).
  { intros t c x E. unfold k1 in E. cbn [rmatch] in E. destruct (many_inv _ _ _ _ E) as (u & t' & -> & F & E'). destruct t' as [|ch t']; [discriminate|]. destruct (is_ch qmark ch) eqn:A; [apply is_ch_eq in A; subst ch|discriminate]. exists u, t'. split; [reflexivity|exact F]. }
  split.
  - intros H. match type of H with ?m <> None => destruct m as [x|] eqn:E; [|congruence] end. clear H. destruct (many_inv _ _ _ _ E) as (w0 & t & -> & F0 & E0). unfold orelse in E0.
    destruct (rmatch (Cap (S_ "initial") (Many1 non_space)) t [] k1) eqn:E1.
    + cbn [rmatch Many1] in E1. destruct t as [|ch t]; [discriminate|]. destruct (non_space ch) eqn:A; [|discriminate]. destruct (many_inv _ _ _ _ E1) as (u & t' & -> & F & E2). cbn beta in E2. apply K1 in E2. destruct E2 as (w & r & -> & Fw).
      exists w0, (ch :: u), w, r. split; [reflexivity|]. split; [exact F0|]. split; [exact Fw|]. constructor; [unfold non_space in A; destruct (is_space ch); [discriminate|reflexivity]|]. eapply Forall_impl; [|exact F]. intros b Hb. cbn beta in Hb. unfold non_space in Hb. destruct (is_space b); [discriminate|reflexivity].
    + apply K1 in E0. destruct E0 as (w & r & -> & Fw). exists w0, [], w, r. split; [reflexivity|]. split; [exact F0|]. split; [exact Fw|constructor].
  - intros (w0 & a & w1 & r & -> & F0 & F1 & Fa).
    assert (K : forall c, exists x, k1 (w1 ++ qmark :: r) c = Some x).
    { intros c. unfold k1. cbn [rmatch]. destruct (pat_scale_some r c) as (x & E). apply (many_some is_space _ w1 (qmark :: r) x F1). cbn beta iota. rewrite is_ch_refl. exact E. }
    assert (exists x, orelse (rmatch (Cap (S_ "initial") (Many1 non_space)) (a ++ w1 ++ qmark :: r) [] k1) (k1 (a ++ w1 ++ qmark :: r) []) = Some x) as (x & E).
    { destruct a as [|ch a].
      - cbn [app]. destruct (K []) as (x & E). unfold orelse. destruct (rmatch _ _ [] k1); eauto.
      - inversion Fa. subst. cbn [rmatch Many1 app]. unfold non_space at 1. rewrite H1. cbn [negb].
        destruct (K ((S_ "initial", firstn (length (ch :: a ++ w1 ++ qmark :: r) - length (w1 ++ qmark :: r)) (ch :: a ++ w1 ++ qmark :: r)) :: [])) as (x & E).
        destruct (many_some non_space (fun t => k1 t [(S_ "initial", firstn (length (ch :: a ++ w1 ++ qmark :: r) - length t) (ch :: a ++ w1 ++ qmark :: r))]) a (w1 ++ qmark :: r) x) as (x' & E').
        + eapply Forall_impl; [|exact H2]. intros b Hb. cbn beta in Hb. unfold non_space. rewrite Hb. reflexivity.
        + exact E.
        + match type of E' with ?l = _ => match goal with |- exists v, orelse ?m _ = _ => change m with l end end. rewrite E'. cbn [orelse]. eauto. }
    destruct (many_some is_space (fun t => orelse (rmatch (Cap (S_ "initial") (Many1 non_space)) t [] k1) (k1 t [])) w0 _ x F0 E) as (x' & E'). rewrite E'. discriminate.
Qed.
