(** C96: the configuration file written back with the fitted values. *)
From Coq Require Import String Ascii.
From Verif Require Import Py PyStr Regex KvarModel KvarSpec KvarProofs SubsModel SubsSpec SubsProofs.
Local Open Scope list_scope.
Local Open Scope nat_scope.

(** a file with a section of variables: lines before it, its header, its body, and what follows from the next header on *)
Definition file_with (pre : list str) (hdr : str) (body post : list str) : Prop :=
  (forall l, In l pre -> ~ opens_variables l) /\ opens_variables hdr /\ (forall l x, In l body -> ~ is_header l x) /\ (post = [] \/ exists l r x, post = l :: r /\ is_header l x).
(** [fit] lists the names of the fitted variables and the texts of their values *)
Definition proper (fit : list (str * str)) : Prop :=
  Forall (fun tt => name (fst tt) /\ Forall (fun c => c <> "?"%char /\ c <> nl) (snd tt)) fit /\ NoDup (map fst fit).
(** line j of the section is the first that gives variable t to be fitted *)
Definition earlier (t : str) (body : list str) (j : nat) : Prop := exists i l, i < j /\ nth_error body i = Some l /\ asks t l.

Lemma substituted_in fit pre hdr body post : file_with pre hdr body post -> 
  substituted fit (pre ++ hdr :: body ++ post) = match overwrite_all fit (hdr :: body) with Ok s => Ok (pre ++ s ++ post) | Err e => Err e end.
Proof.
  intros (H1 & H2 & H3 & H4). unfold substituted. rewrite (range_all pre hdr body post H1 H2 H3 H4 0). cbn [plus].
  replace (List.length pre + 1 + List.length body - List.length pre) with (List.length (hdr :: body)) by (cbn [List.length]; lia).
  assert (E1 : skipn (List.length pre) (pre ++ hdr :: body ++ post) = (hdr :: body) ++ post) by (rewrite skipn_app, skipn_all, Nat.sub_diag; reflexivity).
  assert (E2 : skipn (List.length pre + 1 + List.length body) (pre ++ hdr :: body ++ post) = post).
  { change (pre ++ hdr :: body ++ post) with (pre ++ (hdr :: body) ++ post). rewrite app_assoc. replace (List.length pre + 1 + List.length body) with (List.length (pre ++ hdr :: body)) by (rewrite app_length; cbn [List.length]; lia). rewrite skipn_app, skipn_all, Nat.sub_diag. reflexivity. }
  assert (E3 : firstn (List.length pre) (pre ++ hdr :: body ++ post) = pre) by (rewrite firstn_app, firstn_all, Nat.sub_diag; cbn; apply app_nil_r).
  rewrite E1, E2, E3. rewrite firstn_app, firstn_all, Nat.sub_diag. cbn [firstn]. rewrite app_nil_r. reflexivity.
Qed.

(** ** every fitted variable is written over its line, and nothing else changes *)
Theorem C96_rewritten : forall fit pre hdr body post, file_with pre hdr body post -> proper fit ->
  (forall t, In t (map fst fit) -> exists l, In l body /\ asks t l) ->
  exists body', substituted fit (pre ++ hdr :: body ++ post) = Ok (pre ++ hdr :: body' ++ post) /\ List.length body' = List.length body /\
  forall j l, nth_error body j = Some l ->
    (forall t text q, In (t, text) fit -> l = line_of t q -> fits q -> ~ earlier t body j -> nth_error body' j = Some (answered t text q)) /\
    ((forall t, In t (map fst fit) -> asks t l -> earlier t body j) -> nth_error body' j = Some l).
Proof.
  intros fit pre hdr body post Hf (Fp & ND) H. rewrite (substituted_in fit pre hdr body post Hf). destruct Hf as (_ & Hh & _). assert (Hx : exists x, is_header hdr x) by (destruct Hh as (b & b' & Hh & _); eauto). destruct Hx as (x & Hx).
  assert (Nh : forall t, In t (map fst fit) -> ~ asks t hdr). { intros t Ht. apply in_map_iff in Ht. destruct Ht as ([t' x'] & <- & Ht). rewrite Forall_forall in Fp. apply (header_not_ask _ _ x); [apply (Fp _ Ht)|exact Hx]. }
  destruct (over_all fit (hdr :: body) Fp ND) as (P & _). destruct P as (B' & E & L & P); [intros t Ht; destruct (H t Ht) as (l & Hl & Al); exists l; split; [right; exact Hl|exact Al]|]. rewrite E.
  destruct (P 0 hdr eq_refl) as (_ & P0). assert (Z : nth_error B' 0 = Some hdr) by (apply P0; intros t Ht At; exfalso; apply (Nh t Ht At)). destruct B' as [|h body']; [discriminate|]. assert (h = hdr) by (cbn in Z; congruence). subst h. exists body'. split; [reflexivity|]. split; [cbn in L; lia|].
  intros j l Hj. destruct (P (S j) l Hj) as (P1 & P2). split.
  - intros t text q Hin El Fq Ne. apply (P1 t text q Hin El Fq). intros i Hi (l' & Hl' & Al'). destruct i as [|i]; [cbn in Hl'; assert (l' = hdr) by congruence; subst l'; apply (Nh t); [apply (in_map fst) in Hin; exact Hin|exact Al']|]. apply Ne. exists i, l'. split; [lia|]. split; assumption.
  - intros Hl. apply P2. intros t Ht At. destruct (Hl t Ht At) as (i & l' & Hi & Hl' & Al'). exists (S i). split; [lia|]. exists l'. split; assumption.
Qed.
Print Assumptions C96_rewritten.
(** a variable that no line of the section gives with a question mark (its value being inherited or interpolated) makes the run fail *)
Theorem C96_missing : forall fit pre hdr body post t, file_with pre hdr body post -> proper fit -> In t (map fst fit) -> (forall l, In l body -> ~ asks t l) ->
  substituted fit (pre ++ hdr :: body ++ post) = Err RuntimeError.
Proof.
  intros fit pre hdr body post t Hf (Fp & ND) Ht H. rewrite (substituted_in fit pre hdr body post Hf). destruct Hf as (_ & Hh & _). assert (Hx : exists x, is_header hdr x) by (destruct Hh as (b & b' & Hh & _); eauto). destruct Hx as (x & Hx).
  destruct (over_all fit (hdr :: body) Fp ND) as (_ & P). rewrite P; [reflexivity|]. exists t. split; [exact Ht|]. intros l [<-|Hl]; [|apply H, Hl]. apply in_map_iff in Ht. destruct Ht as ([t' x'] & <- & Ht). rewrite Forall_forall in Fp. apply (header_not_ask _ _ x); [apply (Fp _ Ht)|exact Hx].
Qed.
Print Assumptions C96_missing.
(** ** read back, the line gives the same name with the written number, and no variable any more *)
Lemma cut_keep u : forall b s, ~ In "#"%char u -> cut_comment b (u ++ s) = u ++ cut_comment (match u with [] => b | _ => is_space (last u " "%char) end) s.
Proof.
  induction u as [|c u IH]; intros b s N; [reflexivity|]. cbn [app cut_comment]. rewrite is_ch_neq; [|intros ->; apply N; left; reflexivity]. rewrite andb_false_r. rewrite IH; [|intros H; apply N; right; exact H]. destruct u; reflexivity.
Qed.
Lemma space_hash w : spaces w -> ~ In "#"%char w. Proof. apply not_in_space. reflexivity. Qed.
Theorem C96_read_back : forall t text q, name t -> fits q -> text <> [] -> Forall (fun c => is_space c = false /\ c <> "#"%char /\ c <> "?"%char) text ->
  read_option (answered t text q) = Some (t, text) /\ varb text = None /\ exists v, read_option (line_of t q) = Some (t, v).
Proof.
  intros t text q N (Fi & Fs & Fx) Nt Ft.
  assert (Nh : ~ In "#"%char (p_indent q ++ t ++ p_gap q ++ ["="%char])).
  { rewrite !in_app_iff. intros [H|[H|[H|[H|[]]]]]; [revert H; apply space_hash, Fi|revert H; apply name_hash, N|revert H; apply space_hash, Fs|discriminate]. }
  assert (G : forall z, exists v, cut_comment true (p_indent q ++ t ++ p_gap q ++ "="%char :: z) = p_indent q ++ t ++ p_gap q ++ "="%char :: v /\ v = cut_comment false z).
  { intros z. replace (p_indent q ++ t ++ p_gap q ++ "="%char :: z) with ((p_indent q ++ t ++ p_gap q ++ ["="%char]) ++ z) by (rewrite <- !app_assoc; reflexivity). rewrite cut_keep; [|exact Nh]. eexists. split; [rewrite <- !app_assoc; reflexivity|]. rewrite !app_assoc. rewrite last_last. destruct (((p_indent q ++ t) ++ p_gap q) ++ ["="%char]) eqn:E; [destruct ((p_indent q ++ t) ++ p_gap q); discriminate|reflexivity]. }
  assert (Sp : forall z, strip (p_indent q ++ t ++ p_gap q ++ "="%char :: z) = t ++ p_gap q ++ "="%char :: rstrip z).
  { intros z. destruct (name_head _ N) as (c & r & Et & Pc & _). rewrite Et. cbn [app]. replace (r ++ p_gap q ++ "="%char :: z) with ((r ++ p_gap q) ++ "="%char :: z) by (rewrite <- app_assoc; reflexivity). rewrite strip_keep; [|exact Fi|exact Pc|reflexivity]. rewrite <- app_assoc. reflexivity. }
  assert (Key : forall z, split_eq (t ++ p_gap q ++ "="%char :: z) = Some (t ++ p_gap q, z)).
  { intros z. rewrite app_assoc. apply split_eq_hit. rewrite in_app_iff. intros [H|H]; [revert H; apply name_eq, N|revert H; apply spaces_eq, Fs]. }
  assert (Rk : rstrip (t ++ p_gap q) = t). { destruct N as (_ & (r & c & -> & Pc) & _). rewrite <- app_assoc. cbn [app]. apply rstrip_last; assumption. }
  assert (Rd : forall z v, v = cut_comment false z -> read_option (p_indent q ++ t ++ p_gap q ++ "="%char :: z) = Some (t, strip (rstrip v))).
  { intros z v Ev. unfold read_option. destruct (G z) as (v' & Gz & Ev'). rewrite Gz, Sp, Key, Rk, Ev', <- Ev. reflexivity. }
  split; [|split].
  - unfold answered. assert (Ec : cut_comment false (" "%char :: text ++ S_ " # ?" ++ p_after q) = " "%char :: text ++ [" "%char]).
    { change (" "%char :: text ++ S_ " # ?" ++ p_after q) with ((" "%char :: text) ++ " "%char :: "#"%char :: " "%char :: "?"%char :: p_after q). rewrite cut_keep.
      - cbn [cut_comment]. rewrite !andb_false_r. change (is_space " ") with true. cbn [andb]. rewrite is_ch_refl. reflexivity.
      - intros [H|H]; [discriminate|]. rewrite Forall_forall in Ft. apply Ft in H. tauto. }
    rewrite (Rd _ _ (eq_sym Ec)). f_equal. f_equal. destruct text as [|c text]; [congruence|].
    assert (Ls : exists r d, c :: text = r ++ [d] /\ is_space d = false). { destruct (exists_last Nt) as (r & d & E). exists r, d. split; [exact E|]. rewrite Forall_forall in Ft. apply Ft. rewrite E. apply in_or_app. right. left. reflexivity. } destruct Ls as (r & d & Er & Pd).
    change (" "%char :: (c :: text) ++ [" "%char]) with ([" "%char] ++ (c :: text) ++ [" "%char]). rewrite Er. rewrite <- app_assoc. change ([d] ++ [" "%char]) with (d :: [" "%char]). rewrite app_assoc. rewrite rstrip_last; [|exact Pd|repeat constructor].
    unfold strip. rewrite <- app_assoc, <- Er. cbn [app]. inversion Ft as [|? ? (Pc & _) _]; subst. change (lstrip (" "%char :: c :: text)) with (lstrip (c :: text)). cbn [lstrip]. rewrite Pc. rewrite Er. rewrite (rstrip_last r d [] Pd (Forall_nil _)). reflexivity.
  - destruct (varb text) eqn:E; [|reflexivity]. exfalso. unfold varb in E. assert (X : re_match varbpat text <> None) by (destruct (re_match varbpat text); congruence). apply matches_iff in X. destruct X as (w0 & a & w1 & r & El & _). rewrite Forall_forall in Ft. assert (Hq : In "?"%char text) by (rewrite El, !in_app_iff; right; right; right; left; reflexivity). apply Ft in Hq. tauto.
  - unfold line_of. eexists. apply Rd. reflexivity.
Qed.
Print Assumptions C96_read_back.
(** a file with two variables, one fixed value and a comment *)
Definition ln (s : String.string) : str := S_ s ++ [nl].
Definition case_pre := [ln "[entry]"; ln "model = M"].
Definition case_body := [ln "# a = 9 ?"; ln "  a = 1.5 ? 10 <0, 5>"; ln "b= 2"; ln "c =?"].
Definition case_post := [ln "[M.PHX]"; ln "coef = @a"].
Example C96_case : substituted [(S_ "a", S_ "24.5"); (S_ "c", S_ "1e-05")] (case_pre ++ ln "[ variables ]" :: case_body ++ case_post) =
  Ok (case_pre ++ ln "[ variables ]" :: [ln "# a = 9 ?"; ln "  a = 24.5 # ? 10 <0, 5>"; ln "b= 2"; ln "c = 1e-05 # ?"] ++ case_post) /\
  substituted [(S_ "b", S_ "2")] (case_pre ++ ln "[ variables ]" :: case_body ++ case_post) = Err RuntimeError /\
  read_option (ln "  a = 24.5 # ? 10 <0, 5>") = Some (S_ "a", S_ "24.5").
Proof. repeat split; vm_compute; reflexivity. Qed.
Example C96_case_file : file_with case_pre (ln "[ variables ]") case_body case_post /\ proper [(S_ "a", S_ "24.5"); (S_ "c", S_ "1e-05")] /\
  (forall t, In t (map fst [(S_ "a", S_ "24.5"); (S_ "c", S_ "1e-05")]) -> exists l, In l case_body /\ asks t l).
Proof.
  assert (No : forall l, header l = None -> forall x, ~ is_header l x). { intros l H x Hx. assert (X : header l <> None) by (apply header_some_iff; eauto). congruence. }
  split; [split; [|split; [|split]]|split; [split|]].
  - intros l Hl H. apply header_variables in H. destruct Hl as [<-|[<-|[]]]; discriminate H.
  - apply header_variables. vm_compute. reflexivity.
  - intros l x Hl. apply No. repeat destruct Hl as [<-|Hl]; try (vm_compute; reflexivity). destruct Hl.
  - right. assert (X : header (ln "[M.PHX]") <> None) by discriminate. apply header_some_iff in X. destruct X as (x & Hx). exists (ln "[M.PHX]"), [ln "coef = @a"], x. split; [reflexivity|exact Hx].
  - assert (One : forall c : ascii, is_space c = false -> ~ In c (S_ "=#.^$*+?{}[]\|()") -> name [c]).
    { intros c H1 H2. split; [exists c, []; split; [reflexivity|exact H1]|]. split; [exists [], c; split; [reflexivity|exact H1]|]. constructor; [exact H2|constructor]. }
    constructor; [split; [apply One; [reflexivity|intros H; repeat destruct H as [H|H]; try discriminate H; exact H]|repeat (constructor; [split; discriminate|]); constructor]|].
    constructor; [split; [apply One; [reflexivity|intros H; repeat destruct H as [H|H]; try discriminate H; exact H]|repeat (constructor; [split; discriminate|]); constructor]|]. constructor.
  - constructor; [intros [H|[]]; discriminate H|]. constructor; [intros []|constructor].
  - intros t [<-|[<-|[]]].
    + exists (ln "  a = 1.5 ? 10 <0, 5>"). split; [right; left; reflexivity|]. exists {| p_indent := S_ "  "; p_gap := S_ " "; p_before := S_ " 1.5 "; p_after := S_ " 10 <0, 5>" ++ [nl] |}. split; [reflexivity|]. split; [repeat constructor|]. split; [repeat constructor|]. repeat (constructor; [split; discriminate|]). constructor.
    + exists (ln "c =?"). split; [right; right; right; left; reflexivity|]. exists {| p_indent := []; p_gap := S_ " "; p_before := []; p_after := [nl] |}. split; [reflexivity|]. split; [repeat constructor|]. split; repeat constructor.
Qed.
