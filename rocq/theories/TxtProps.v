(** C104-C107: file names, refining, extending and weighting data files on the command line (src/teflow/interface.py). *)
From Coq Require Import ZArith Reals Lra String Ascii.
From Verif Require Import Py PyStr RUtil CfgSpec CfgModel CfgProofs KvarSpec KvarModel KvarProofs DataModel SubsModel SubsProofs Regex InstrSpec InstrModel InstrProofs MixModel MixSpec MixProofs TxtSpec TxtModel TxtProofs.
Local Open Scope list_scope.
Local Open Scope nat_scope.

(** ** C104: names of output files *)
Lemma split_last sep n d : ~ In sep n -> forall cur, exists X, split_each (is_ch sep) cur (d ++ sep :: n) = X ++ [n].
Proof.
  intros N. induction d as [|c d IH]; intros cur.
  - exists [rev cur]. pose proof (split_each_hit sep [] n cur (fun x => x)) as H. cbn [app] in H |- *. rewrite H, app_nil_r. rewrite (split_each_none sep n [] N). reflexivity.
  - cbn [app split_each]. destruct (is_ch sep c); [destruct (IH []) as (X & E); exists (rev cur :: X); rewrite E; reflexivity|]. destruct (IH (c :: cur)) as (X & E). exists X. exact E.
Qed.
Lemma base_name_path p n : path_of p n -> base_name p = n.
Proof.
  intros ((H1 & H2 & H3) & Hp). unfold base_name, components.
  assert (E : exists X, split_each (is_ch slash) [] p = X ++ [n]). { destruct Hp as [->|(d & ->)]; [exists []; apply (split_each_none slash n [] H3)|apply split_last; exact H3]. }
  destruct E as (X & E). rewrite E, filter_app. cbn [filter]. assert (F : (nonempty n && negb (eqb n [dot]))%bool = true). { destruct n; [congruence|]. cbn [nonempty andb]. apply negb_true_iff, eqb_neq. exact H2. }
  rewrite F. apply last_last.
Qed.
Lemma last_dot_none s : last_dot s = None <-> ~ In dot s.
Proof.
  induction s as [|c s IH]; cbn; [tauto|]. destruct (last_dot s) as [[a b]|].
  - split; [discriminate|]. intros H. exfalso. assert (X : Some (a, b) = None) by (apply IH; tauto). discriminate.
  - destruct (is_ch dot c) eqn:P; [apply is_ch_eq in P; subst; split; [discriminate|tauto]|]. split; [|reflexivity]. intros _ [X|X]; [subst; rewrite is_ch_refl in P; discriminate|revert X; apply IH; reflexivity].
Qed.
Lemma last_dot_hit a b : ~ In dot b -> last_dot (a ++ dot :: b) = Some (a, b).
Proof. intros H. induction a as [|c a IH]; cbn; [apply last_dot_none in H; rewrite H; reflexivity|]. rewrite IH. reflexivity. Qed.
Lemma last_dot_inv s : forall a b, last_dot s = Some (a, b) -> s = a ++ dot :: b /\ ~ In dot b.
Proof.
  induction s as [|c s IH]; intros a b H; [discriminate|]. cbn in H. destruct (last_dot s) as [[a0 b0]|] eqn:E.
  - assert (A : a = c :: a0) by congruence. assert (B : b = b0) by congruence. subst. destruct (IH a0 b0 eq_refl) as (-> & N). auto.
  - destruct (is_ch dot c) eqn:P; [|discriminate]. apply is_ch_eq in P. assert (A : a = []) by congruence. assert (B : b = s) by congruence. subst. split; [reflexivity|]. apply last_dot_none, E.
Qed.
Lemma stem_ext_iff n st e : stem_ext n = (st, e) <-> extension n st e.
Proof.
  unfold stem_ext. split.
  - destruct (last_dot n) as [[a b]|] eqn:E.
    + apply last_dot_inv in E as (-> & N). destruct a as [|c a]; [|destruct b as [|d b]].
      * intros H. assert (X : st = [] ++ dot :: b) by congruence. assert (Y : e = []) by congruence. subst. apply ext_none. intros st x E Hs Hx. destruct st as [|c st]; [congruence|]. assert (E2 : b = st ++ dot :: x) by (cbn in E; congruence). exfalso. apply N. rewrite E2. apply in_or_app. right. left. reflexivity.
      * intros H. assert (X : st = (c :: a) ++ [dot]) by congruence. assert (Y : e = []) by congruence. subst. apply ext_none. intros st x E Hs Hx. destruct (exists_last Hx) as (x' & z & ->). assert (E2 : (c :: a) ++ [dot] = (st ++ dot :: x') ++ [z]) by (rewrite E, <- app_assoc; reflexivity). apply app_inj_tail in E2 as (_ & <-). apply in_or_app. right. left. reflexivity.
      * intros H. assert (X : st = c :: a) by congruence. assert (Y : e = dot :: d :: b) by congruence. subst. apply ext_some; [discriminate..|exact N].
    + intros H. assert (X : st = n) by congruence. assert (Y : e = []) by congruence. subst. apply ext_none. intros st x E0 _ _. exfalso. apply last_dot_none in E. apply E. rewrite E0. apply in_or_app. right. left. reflexivity.
  - intros [st' x H1 H2 H3|n' H].
    + rewrite (last_dot_hit _ _ H3). destruct st' as [|c st']; [congruence|]. destruct x as [|d x]; [congruence|]. reflexivity.
    + destruct (last_dot n') as [[a b]|] eqn:E; [|reflexivity]. apply last_dot_inv in E as (E & N). destruct a as [|c a]; [reflexivity|]. destruct b as [|d b]; [reflexivity|]. exfalso. apply N, (H _ _ E); discriminate.
Qed.
Definition option_ext (e : str) (ext : option str) : str := match e with [] => [] | _ => match ext with Some [] | None => e | Some x => x end end.
Theorem C104_given : forall output input suffix ext, output <> [] -> suffixed (Some output) input suffix ext = output.
Proof. intros [|c o] input suffix ext H; [congruence|reflexivity]. Qed.
Print Assumptions C104_given.
Theorem C104_name : forall output p n st e suffix ext, output = None \/ output = Some [] -> path_of p n -> extension n st e ->
  suffixed output p suffix ext = st ++ S_ "_" ++ suffix ++ option_ext e ext.
Proof.
  intros output p n st e suffix ext Ho Hp He. assert (X : suffixed output p suffix ext = suffixed None p suffix ext) by (destruct Ho; subst; reflexivity). rewrite X. unfold suffixed. rewrite (base_name_path _ _ Hp). apply stem_ext_iff in He. rewrite He.
  unfold option_ext. destruct e as [|c e]; [rewrite app_nil_r; reflexivity|]. destruct ext as [[|d x]|]; reflexivity.
Qed.
Print Assumptions C104_name.
Theorem C104_every_name : forall n, exists st e, extension n st e /\ n = st ++ e.
Proof. intros n. destruct (stem_ext n) as [st e] eqn:E. exists st, e. apply stem_ext_iff in E. split; [exact E|]. destruct E; [reflexivity|rewrite app_nil_r; reflexivity]. Qed.
Print Assumptions C104_every_name.
Lemma not_base p n suffix ext : path_of p n -> suffixed None p suffix ext <> n.
Proof.
  intros Hp E. destruct (C104_every_name n) as (st & e & He & En). assert (Y := eq_trans (eq_sym (C104_name None p n st e suffix ext (or_introl eq_refl) Hp He)) E). rewrite En in Y at 1. clear E. assert (Z : S_ "_" ++ suffix ++ option_ext e ext = e) by (apply (app_inv_head st); exact Y). destruct He; cbn in Z; discriminate.
Qed.
Lemma suffixed_flat output p n suffix ext : output = None \/ output = Some [] -> path_of p n -> ~ In "/"%char suffix -> (forall x, ext = Some x -> ~ In "/"%char x) -> ~ In "/"%char (suffixed output p suffix ext).
Proof.
  intros Ho Hp Hs Hx H. destruct (C104_every_name n) as (st & e & He & En). assert (Y := C104_name output p n st e suffix ext Ho Hp He). assert (H' : In "/"%char (st ++ S_ "_" ++ suffix ++ option_ext e ext)) by (rewrite <- Y; exact H). clear H. rename H' into H. destruct Hp as ((_ & _ & Hn) & _). rewrite En in Hn.
  apply in_app_or in H as [H|H]; [apply Hn, in_or_app; auto|]. cbn in H. destruct H as [H|H]; [discriminate|]. apply in_app_or in H as [H|H]; [exact (Hs H)|].
  unfold option_ext in H. destruct e as [|c e]; [exact H|]. destruct ext as [[|d x]|]; [apply Hn, in_or_app; auto|exact (Hx _ eq_refl H)|apply Hn, in_or_app; auto].
Qed.
(** the generated name has no directory and is never that of the input file *)
Theorem C104_never_the_input : forall output p n suffix ext, output = None \/ output = Some [] -> path_of p n -> ~ In "/"%char suffix -> (forall x, ext = Some x -> ~ In "/"%char x) ->
  ~ In "/"%char (suffixed output p suffix ext) /\ suffixed output p suffix ext <> n /\ suffixed output p suffix ext <> p.
Proof.
  intros output p n suffix ext Ho Hp Hs Hx. assert (X : suffixed output p suffix ext = suffixed None p suffix ext) by (destruct Ho; subst; reflexivity).
  assert (A := suffixed_flat output p n suffix ext Ho Hp Hs Hx). assert (B := not_base p n suffix ext Hp). rewrite X in *. split; [exact A|]. split; [exact B|]. destruct Hp as (_ & [->|(d & ->)]); [exact B|]. intros E. apply A. rewrite E. apply in_or_app. right. left. reflexivity.
Qed.
Print Assumptions C104_never_the_input.
(** files of the same name in different directories, and with another extension where it is replaced, get the same output *)
Theorem C104_collisions : forall n st x y suffix ext d1 d2, proper n -> n = st ++ dot :: x -> st <> [] -> x <> [] -> y <> [] -> ~ In dot x -> ~ In dot y -> ~ In "/"%char y ->
  suffixed None (d1 ++ "/"%char :: n) suffix ext = suffixed None (d2 ++ "/"%char :: n) suffix ext /\
  (forall z, ext = Some z -> z <> [] -> suffixed None (st ++ dot :: x) suffix ext = suffixed None (st ++ dot :: y) suffix ext).
Proof.
  intros n st x y suffix ext d1 d2 Hn En Hst Hx Hy Nx Ny Sy. split.
  - unfold suffixed. rewrite (base_name_path _ n) by (split; [exact Hn|right; exists d1; reflexivity]). rewrite (base_name_path _ n) by (split; [exact Hn|right; exists d2; reflexivity]). reflexivity.
  - intros z -> Hz. assert (P2 : proper (st ++ dot :: y)). { destruct Hn as (A & B & C'). split; [destruct st; discriminate|]. split; [destruct st as [|c [|? ?]]; [congruence|discriminate..]|]. subst n. intros H. apply in_app_or in H as [H|[H|H]]; [apply C', in_or_app; auto|discriminate|exact (Sy H)]. }
    subst n. assert (A := C104_name None _ _ _ _ suffix (Some z) (or_introl eq_refl) (conj Hn (or_introl eq_refl)) (ext_some st x Hst Hx Nx)). assert (B := C104_name None _ _ _ _ suffix (Some z) (or_introl eq_refl) (conj P2 (or_introl eq_refl)) (ext_some st y Hst Hy Ny)).
    assert (M : option_ext (dot :: x) (Some z) = option_ext (dot :: y) (Some z)) by (destruct z; [congruence|reflexivity]). rewrite M in A. exact (eq_trans A (eq_sym B)).
Qed.
Print Assumptions C104_collisions.
(** the files of one tef-kappa run never overwrite each other *)
Theorem C104_kappa : forall output input suffix n, path_of (suffixed output input suffix (Some (S_ ".txt"))) n -> NoDup (kappa_files output input suffix).
Proof.
  intros output input suffix n Hp. unfold kappa_files. set (o := suffixed output input suffix (Some (S_ ".txt"))) in *. clearbody o.
  destruct (C104_every_name n) as (st & e & He & En).
  assert (Q : forall s x, suffixed None o s x = st ++ S_ "_" ++ s ++ option_ext e x) by (intros; apply (C104_name None o n st e); auto).
  assert (F : forall s x, ~ In "/"%char s -> (forall z, x = Some z -> ~ In "/"%char z) -> o <> suffixed None o s x). { intros s x Hs Hx E. destruct (C104_never_the_input None o n s x (or_introl eq_refl) Hp Hs Hx) as (_ & _ & H). exact (H (eq_sym E)). }
  assert (F1 := F (S_ "rate") None ltac:(cbn; intuition discriminate) ltac:(discriminate)). assert (F2 := F (S_ "spec") None ltac:(cbn; intuition discriminate) ltac:(discriminate)). assert (F3 := F (S_ "cumu") None ltac:(cbn; intuition discriminate) ltac:(discriminate)).
  assert (F4 := F (S_ "subs") (Some (S_ ".cfg")) ltac:(cbn; intuition discriminate) ltac:(intros z [= <-]; cbn; intuition discriminate)). rewrite !Q in *.
  assert (D : forall s t (x y : str), firstn 4 (s ++ x) <> firstn 4 (t ++ y) -> st ++ S_ "_" ++ s ++ x <> st ++ S_ "_" ++ t ++ y). { intros s t x y H E. apply app_inv_head, app_inv_head in E. congruence. }
  repeat constructor; cbn [In]; intros H; repeat destruct H as [H|H]; try contradiction; try (symmetry in H; contradiction); try (symmetry in H; revert H; apply D; cbn; discriminate); congruence.
Qed.
Print Assumptions C104_kappa.
Example C104_case : suffixed None (S_ "../data/run.3.dat") (S_ "interp") None = S_ "run.3_interp.dat" /\ suffixed None (S_ "conf") (S_ "format") (Some (S_ ".txt")) = S_ "conf_format" /\
  suffixed (Some []) (S_ "a.cfg") (S_ "band") (Some (S_ ".txt")) = S_ "a_band.txt" /\ path_of (S_ "../data/run.3.dat") (S_ "run.3.dat") /\ extension (S_ "run.3.dat") (S_ "run.3") (S_ ".dat").
Proof.
  split; [reflexivity|]. split; [reflexivity|]. split; [reflexivity|]. split; [|apply stem_ext_iff; reflexivity]. split; [|right; exists (S_ "../data"); reflexivity]. split; [discriminate|]. split; [discriminate|]. cbn. intuition discriminate.
Qed.

(** ** C105: refining a file *)
Lemma mapM_forall2 {A B} (f : A -> res B) l ys : Forall2 (fun x y => f x = Ok y) l ys -> mapM f l = Ok ys.
Proof. induction 1 as [|x y l ys E _ IH]; [reflexivity|]. cbn. rewrite E. cbn [rbind]. rewrite IH. reflexivity. Qed.
Lemma forall2_mono {A B} (P Q : A -> B -> Prop) l m : (forall x y, P x y -> Q x y) -> Forall2 P l m -> Forall2 Q l m.
Proof. intros H. induction 1; constructor; auto. Qed.
Lemma item_iff row z x : item row z = Ok x <-> column_of row z x.
Proof.
  unfold item, index_of. split.
  - destruct ((0 <=? z) && (z <? Z.of_nat (List.length row)))%Z eqn:A; [|destruct ((- Z.of_nat (List.length row) <=? z) && (z <? 0))%Z eqn:B; [|discriminate]].
    + apply andb_true_iff in A as (A1 & A2). apply Z.leb_le in A1. apply Z.ltb_lt in A2. destruct (nth_error row (Z.to_nat z)) as [y|] eqn:E; [|discriminate]. intros [= ->]. rewrite <- (Z2Nat.id z) by exact A1. apply col_front. exact E.
    + apply andb_true_iff in B as (B1 & B2). apply Z.leb_le in B1. apply Z.ltb_lt in B2. destruct (nth_error row (Z.to_nat (z + Z.of_nat (List.length row)))) as [y|] eqn:E; [|discriminate]. intros [= ->].
      replace z with (Z.of_nat (Z.to_nat (z + Z.of_nat (List.length row))) - Z.of_nat (List.length row))%Z by lia. apply col_back; [lia|exact E].
  - intros [k y E|k y L E].
    + assert (L : k < List.length row) by (apply nth_error_Some; congruence). assert (A : ((0 <=? Z.of_nat k) && (Z.of_nat k <? Z.of_nat (List.length row)))%Z = true) by (apply andb_true_iff; split; [apply Z.leb_le|apply Z.ltb_lt]; lia). rewrite A, Nat2Z.id, E. reflexivity.
    + assert (A : ((0 <=? Z.of_nat k - Z.of_nat (List.length row)) && (Z.of_nat k - Z.of_nat (List.length row) <? Z.of_nat (List.length row)))%Z = false) by (apply andb_false_iff; left; apply Z.leb_gt; lia).
      assert (B : ((- Z.of_nat (List.length row) <=? Z.of_nat k - Z.of_nat (List.length row)) && (Z.of_nat k - Z.of_nat (List.length row) <? 0))%Z = true) by (apply andb_true_iff; split; [apply Z.leb_le|apply Z.ltb_lt]; lia).
      rewrite A, B. replace (Z.to_nat (Z.of_nat k - Z.of_nat (List.length row) + Z.of_nat (List.length row))) with k by lia. rewrite E. reflexivity.
Qed.
Lemma item_err row z e : item row z = Err e -> e = IndexError.
Proof. unfold item. destruct (index_of _ z) as [k|]; [destruct (nth_error row k)|]; congruence. Qed.
Lemma pick_ok zs row p : Forall2 (column_of row) zs p -> pick (Some zs) row = Ok (join [sp_c] p).
Proof. intros H. unfold pick. rewrite (mapM_forall2 (item row) zs p) by (eapply forall2_mono; [|exact H]; intros; apply item_iff; assumption). cbn [rbind]. rewrite jn_join. reflexivity. Qed.
Lemma pick_err zs row : (exists z, In z zs /\ forall x, ~ column_of row z x) -> pick (Some zs) row = Err IndexError.
Proof.
  intros (z & Hz & Hn). unfold pick. assert (E : mapM (item row) zs = Err IndexError); [|rewrite E; reflexivity].
  induction zs as [|a zs IH]; [destruct Hz|]. cbn [mapM]. destruct (item row a) as [y|e] eqn:E; [|rewrite (item_err _ _ _ E); reflexivity]. destruct Hz as [->|Hz]; [exfalso; apply (Hn y), item_iff, E|]. cbn [rbind]. rewrite (IH Hz). reflexivity.
Qed.
Lemma write_rows_all rows : write_rows None rows = (map (jn [sp_c]) rows, Ok tt).
Proof. induction rows as [|r rows IH]; [reflexivity|]. cbn [write_rows pick]. rewrite IH. reflexivity. Qed.
Lemma write_rows_cols zs rows ps : Forall2 (fun r p => Forall2 (column_of r) zs p) rows ps -> write_rows (Some zs) rows = (map (join [sp_c]) ps, Ok tt).
Proof. induction 1 as [|r p rows ps H _ IH]; [reflexivity|]. cbn [write_rows]. rewrite (pick_ok _ _ _ H), IH. reflexivity. Qed.
Lemma write_rows_crash zs r1 bad r2 ps : Forall2 (fun r p => Forall2 (column_of r) zs p) r1 ps -> (exists z, In z zs /\ forall x, ~ column_of bad z x) -> write_rows (Some zs) (r1 ++ bad :: r2) = (map (join [sp_c]) ps, Err IndexError).
Proof. intros H Hb. induction H as [|r p rows ps H _ IH]; cbn [app write_rows]; [rewrite (pick_err _ _ Hb); reflexivity|]. rewrite (pick_ok _ _ _ H), IH. reflexivity. Qed.
Lemma write_same fs n t : write fs n t n = Some t. Proof. unfold write. rewrite eqb_refl. reflexivity. Qed.
Lemma write_other fs n t : same_except fs (write fs n t) n. Proof. intros m H. unfold write. apply eqb_neq in H. rewrite H. reflexivity. Qed.
Section Refine.
Variable pyint : str -> option Z.
Variable stamp : str.
Hypothesis one_line : ~ In lf stamp.
Definition head (bare : bool) : str := if bare then [] else S_ "# Refined data - " ++ stamp ++ [lf].
Definition head_lines (bare : bool) : list str := if bare then [] else [S_ "# Refined data - " ++ stamp].
Lemma head_text bare ls : head bare ++ text_of ls = text_of (head_lines bare ++ ls).
Proof. unfold head, head_lines, text_of. destruct bare; [reflexivity|]. cbn [app map concat]. rewrite <- !app_assoc. reflexivity. Qed.
Lemma sp_lf : is_space lf = true. Proof. reflexivity. Qed.
Lemma join_sp_clean c r : is_space c = true -> c <> lf -> Forall sound r -> ~ In lf (jn [c] r) /\ ~ In "#"%char (jn [c] r).
Proof.
  intros Hc Nc H. split; intros X; apply jn_in in X as [X|(w & Hw & X)].
  - destruct X as [X|[]]. congruence.
  - rewrite Forall_forall in H. exact (sound_no lf w (H w Hw) sp_lf X).
  - destruct X as [X|[]]. subst. discriminate.
  - rewrite Forall_forall in H. destruct (H w Hw) as (_ & _ & N). exact (N X).
Qed.
Lemma sp_c_lf : sp_c <> lf. Proof. discriminate. Qed.
Lemma line_back c r : is_space c = true -> Forall sound r -> words (strip (before_hash (jn [c] r))) = r.
Proof.
  intros Hc H. assert (N : ~ In "#"%char (jn [c] r)). { intros X. apply jn_in in X as [[X|[]]|(w & Hw & X)]; [subst; discriminate|]. rewrite Forall_forall in H. destruct (H w Hw) as (_ & _ & N). exact (N X). }
  rewrite (before_hash_none _ N), words_strip. apply words_of_sound; assumption.
Qed.
Lemma rows_back bare rows : Forall (fun r => r <> [] /\ Forall sound r) rows -> rows_of (head bare ++ text_of (map (jn [sp_c]) rows)) = rows.
Proof.
  intros H. rewrite head_text, rows_of_text.
  - rewrite map_app, filter_app, map_map. assert (E : filter filled_row (map (fun l => words (strip (before_hash l))) (head_lines bare)) = []). { unfold head_lines. destruct bare; [reflexivity|]. cbn [map]. change (S_ "# Refined data - " ++ stamp) with ("#"%char :: (S_ " Refined data - " ++ stamp)). rewrite comment_words. reflexivity. }
    rewrite E. cbn [app]. induction H as [|r rows (H1 & H2) _ IH]; [reflexivity|]. cbn [map filter]. rewrite (line_back sp_c r eq_refl H2), IH. destruct r; [congruence|reflexivity].
  - apply Forall_app. split.
    + unfold head_lines. destruct bare; constructor; [|constructor]. intros X. apply in_app_or in X as [X|X]; [cbn in X; intuition discriminate|exact (one_line X)].
    + apply Forall_forall. intros l Hl. apply in_map_iff in Hl as (r & <- & Hr). rewrite Forall_forall in H. destruct (H r Hr) as (_ & Hs). apply (join_sp_clean sp_c r eq_refl sp_c_lf Hs).
Qed.
Definition no_columns (column : option str) : Prop := column = None \/ column = Some [].
(** without columns the rows of the input are kept, one line each, words separated by one blank *)
Theorem C105_all : forall fs input output suffix bare column text rows, fs input = Some text -> data_rows text rows -> no_columns column ->
  let out := suffixed output input suffix None in let written := head bare ++ text_of (map (join [" "%char]) rows) in
  exists fs', refine pyint stamp fs input output suffix bare column = (fs', Ok tt) /\ fs' out = Some written /\ same_except fs fs' out /\ data_rows written rows.
Proof.
  intros fs input output suffix bare column text rows Hf Hr Hc out written. unfold refine. rewrite Hf. assert (C : (match column with Some ((_ :: _) as c) => let! l := mapM (as_int pyint) (words c) in Ok (Some l) | _ => Ok None end) = Ok None) by (destruct Hc; subst; reflexivity). rewrite C.
  assert (Hs := data_rows_sound _ _ Hr). apply rows_iff in Hr. rewrite Hr, write_rows_all. eexists. split; [reflexivity|]. assert (W : written = head bare ++ text_of (map (jn [sp_c]) rows)). { unfold written. do 2 f_equal. apply map_ext. intros r. symmetry. apply jn_join. }
  split; [rewrite W; apply write_same|]. split; [apply write_other|]. apply rows_iff. rewrite W. apply rows_back. exact Hs.
Qed.
(** refining a refined file changes nothing *)
Theorem C105_idempotent : forall fs input output suffix bare column text rows fs' output' suffix', fs input = Some text -> data_rows text rows -> no_columns column ->
  refine pyint stamp fs input output suffix bare column = (fs', Ok tt) ->
  let out := suffixed output input suffix None in let out' := suffixed output' out suffix' None in
  exists fs'', refine pyint stamp fs' out output' suffix' bare column = (fs'', Ok tt) /\ fs'' out' = fs' out.
Proof.
  intros fs input output suffix bare column text rows fs' output' suffix' Hf Hr Hc E out out'. destruct (C105_all fs input output suffix bare column text rows Hf Hr Hc) as (f1 & E1 & W1 & _ & R1). assert (f1 = fs') by congruence. subst f1.
  destruct (C105_all fs' out output' suffix' bare column _ rows W1 R1 Hc) as (f2 & E2 & W2 & _). exists f2. split; [exact E2|]. fold out in W1. rewrite W1. exact W2.
Qed.
Definition read_columns (column : str) (zs : list Z) : Prop := exists ws, tokens is_space column ws /\ Forall2 (fun w z => pyint w = Some z) ws zs.
Lemma columns_eq column zs : column <> [] -> read_columns column zs -> (match Some column with Some ((_ :: _) as c) => let! l := mapM (as_int pyint) (words c) in Ok (Some l) | _ => Ok None end) = Ok (Some zs).
Proof.
  intros Hc (ws & T & F). destruct column as [|c column]; [congruence|]. apply words_iff in T. rewrite T. rewrite (mapM_forall2 (as_int pyint) ws zs); [reflexivity|]. eapply forall2_mono; [|exact F]. intros w z H. unfold as_int. rewrite H. reflexivity.
Qed.
Theorem C105_columns : forall fs input output suffix bare column text rows zs ps, fs input = Some text -> data_rows text rows -> column <> [] -> read_columns column zs ->
  let out := suffixed output input suffix None in
  Forall2 (fun r p => Forall2 (column_of r) zs p) rows ps ->
  exists fs', refine pyint stamp fs input output suffix bare (Some column) = (fs', Ok tt) /\ fs' out = Some (head bare ++ text_of (map (join [" "%char]) ps)) /\ same_except fs fs' out.
Proof.
  intros fs input output suffix bare column text rows zs ps Hf Hr Hc Hz out Hp. unfold refine. rewrite Hf, (columns_eq _ _ Hc Hz). apply rows_iff in Hr. rewrite Hr, (write_rows_cols _ _ _ Hp). eexists. split; [reflexivity|]. split; [apply write_same|apply write_other].
Qed.
(** a row without the column ends the command; the rows in front of it are written already *)
Theorem C105_short_row : forall fs input output suffix bare column text r1 bad r2 zs ps, fs input = Some text -> data_rows text (r1 ++ bad :: r2) -> column <> [] -> read_columns column zs ->
  let out := suffixed output input suffix None in
  Forall2 (fun r p => Forall2 (column_of r) zs p) r1 ps -> (exists z, In z zs /\ forall x, ~ column_of bad z x) ->
  exists fs', refine pyint stamp fs input output suffix bare (Some column) = (fs', Err IndexError) /\ fs' out = Some (head bare ++ text_of (map (join [" "%char]) ps)) /\ same_except fs fs' out.
Proof.
  intros fs input output suffix bare column text r1 bad r2 zs ps Hf Hr Hc Hz out Hp Hb. unfold refine. rewrite Hf, (columns_eq _ _ Hc Hz). apply rows_iff in Hr. rewrite Hr, (write_rows_crash _ _ _ _ _ Hp Hb). eexists. split; [reflexivity|]. split; [apply write_same|apply write_other].
Qed.
Theorem C105_nothing_written : forall fs input output suffix bare column,
  (fs input = None -> refine pyint stamp fs input output suffix bare column = (fs, Err FileNotFoundError)) /\
  (forall text c ws w, fs input = Some text -> column = Some c -> c <> [] -> tokens is_space c ws -> In w ws -> pyint w = None -> refine pyint stamp fs input output suffix bare column = (fs, Err ValueError)).
Proof.
  intros fs input output suffix bare column. unfold refine. split; [intros ->; reflexivity|]. intros text c ws w -> -> Hc T Hin Hw. destruct c as [|a c]; [congruence|]. apply words_iff in T. rewrite T.
  assert (E : mapM (as_int pyint) ws = Err ValueError); [|rewrite E; reflexivity]. clear T. induction ws as [|v ws IH]; [destruct Hin|]. cbn [mapM]. unfold as_int at 1. destruct (pyint v) as [z|] eqn:E; [|reflexivity]. destruct Hin as [->|Hin]; [congruence|]. cbn [rbind]. rewrite (IH Hin). reflexivity.
Qed.
End Refine.
Print Assumptions C105_all.
Print Assumptions C105_idempotent.
Print Assumptions C105_columns.
Print Assumptions C105_short_row.
Print Assumptions C105_nothing_written.
Example C105_case : forall pyint, pyint (S_ "1") = Some 1%Z -> pyint (S_ "-1") = Some (-1)%Z ->
  let fs := fun n => if eqb n (S_ "a.dat") then Some (S_ "# T S" ++ [lf] ++ S_ "300 1.5  7 # ok" ++ [lf] ++ [lf] ++ S_ "400  2.5 8") else None in
  snd (refine pyint (S_ "now") fs (S_ "a.dat") None (S_ "refine") true (Some (S_ "-1 1"))) = Ok tt /\
  fst (refine pyint (S_ "now") fs (S_ "a.dat") None (S_ "refine") true (Some (S_ "-1 1"))) (S_ "a_refine.dat") = Some (S_ "7 1.5" ++ [lf] ++ S_ "8 2.5" ++ [lf]).
Proof.
  intros pyint E1 E2 fs. assert (X : refine pyint (S_ "now") fs (S_ "a.dat") None (S_ "refine") true (Some (S_ "-1 1")) = (write fs (S_ "a_refine.dat") (S_ "7 1.5" ++ [lf] ++ S_ "8 2.5" ++ [lf]), Ok tt)).
  { unfold refine. change (fs (S_ "a.dat")) with (Some (S_ "# T S" ++ [lf] ++ S_ "300 1.5  7 # ok" ++ [lf] ++ [lf] ++ S_ "400  2.5 8")). cbv beta iota.
    change (words (S_ "-1 1")) with [S_ "-1"; S_ "1"]. assert (M : mapM (as_int pyint) [S_ "-1"; S_ "1"] = Ok [(-1)%Z; 1%Z]) by (unfold mapM, as_int; rewrite E2, E1; reflexivity). change (S_ "-1 1") with ("-"%char :: S_ "1 1") at 1. cbv iota. rewrite M. reflexivity. }
  rewrite X. split; [reflexivity|]. apply write_same.
Qed.

(** ** C106: extending files side by side *)
Definition side_by_side (rss : list (list (list str))) : list (list str) := map (fun i => concat (map (fun rs => nth i rs []) rss)) (seq 0 (min_len rss)).
(** with rows of [pad] below the shorter ones, as wide as their last row *)
Definition padded_row (pad : str) (i : nat) (rs : list (list str)) : list str := if i <? List.length rs then nth i rs [] else repeat pad (List.length (last rs [])).
Definition padded (pad : str) (rss : list (list (list str))) : list (list str) := map (fun i => concat (map (padded_row pad i) rss)) (seq 0 (max_len rss)).
Definition clean (t : str) : list str := filter nonempty (map (fun l => strip (before_hash l)) (readlines t)).
Lemma strip_blank x : words x = [] -> strip x = [].
Proof.
  intros H. apply words_iff in H. apply strip_iff. split; [left; reflexivity|]. exists x, []. split; [rewrite app_nil_r; reflexivity|]. split; [|constructor]. inversion H as [s Hs E1 E2|]; subst. exact Hs.
Qed.
Lemma clean_words t : map words (clean t) = rows_of t.
Proof.
  unfold clean, rows_of. induction (readlines t) as [|l ls IH]; [reflexivity|]. cbn [map filter]. destruct (words (strip (before_hash l))) as [|w ws] eqn:E.
  - assert (E2 : strip (before_hash l) = []) by (apply strip_blank; rewrite <- words_strip; exact E). rewrite E2. exact IH.
  - destruct (strip (before_hash l)) as [|c r] eqn:E2; [discriminate|]. cbn [nonempty map]. rewrite E, IH. reflexivity.
Qed.
Lemma readlines_iff t lines : readlines t = lines <-> all_lines t lines.
Proof.
  unfold readlines, all_lines. change (split_each (is_ch newline) [] t) with (lines_of t). split.
  - assert (Hl := eq_refl (lines_of t)). set (ls := lines_of t) in *. destruct (rev ls) as [|x r] eqn:E.
    + intros <-. right; left. apply has_lines_iff in Hl. destruct Hl as (N & _). exfalso. apply N. rewrite <- (rev_involutive ls), E. reflexivity.
    + assert (E2 : ls = rev r ++ [x]) by (rewrite <- (rev_involutive ls), E; reflexivity). destruct x as [|c x]; intros <-.
      * right; right. apply has_lines_iff. exact E2.
      * right; left. split; [apply has_lines_iff; reflexivity|]. rewrite E2, last_last. discriminate.
  - intros [(-> & ->)|[(H & N)|H]].
    + reflexivity.
    + apply has_lines_iff in H. rewrite H. destruct (rev lines) as [|x r] eqn:E; [reflexivity|]. destruct x as [|c x]; [|reflexivity]. exfalso. apply N. rewrite <- (rev_involutive lines), E. cbn. apply last_last.
    + apply has_lines_iff in H. rewrite H, rev_app_distr. cbn [rev app]. apply rev_involutive.
Qed.
Lemma readlines_clean t l : In l (readlines t) -> ~ In lf l.
Proof.
  intros Hl. assert (F : Forall (fun f => ~ In lf f) (lines_of t)) by (destruct (proj1 (has_lines_iff t _) eq_refl) as (_ & F & _); exact F). rewrite Forall_forall in F. apply F. unfold readlines in Hl. change (split_each (is_ch newline) [] t) with (lines_of t) in Hl.
  destruct (rev (lines_of t)) as [|x r] eqn:E; [exact Hl|]. destruct x as [|c x]; [|exact Hl]. rewrite <- (rev_involutive (lines_of t)), E. cbn. apply in_or_app. left. exact Hl.
Qed.
Lemma strip_in c x : In c (strip x) -> In c x.
Proof. intros H. destruct (strip_split x) as (a & b & E & _). rewrite E. apply in_or_app. right. apply in_or_app. left. exact H. Qed.
Lemma before_in c x : In c (before_hash x) -> In c x.
Proof. intros H. destruct (before_hash_spec x) as (r & E & _). rewrite E. apply in_or_app. left. exact H. Qed.
Lemma clean_line t l : In l (clean t) -> ~ In lf l /\ ~ In "#"%char l.
Proof.
  intros H. apply filter_In in H as (H & _). apply in_map_iff in H as (l0 & <- & H). split; intros X; apply strip_in in X.
  - apply before_in in X. exact (readlines_clean _ _ H X).
  - destruct (before_hash_spec l0) as (r & _ & N & _). exact (N X).
Qed.
Lemma data_rows_text hs lines rows : Forall (fun h => ~ In lf h /\ exists t, h = "#"%char :: t) hs -> Forall (fun l => ~ In lf l) lines -> map (fun l => words (strip (before_hash l))) lines = rows -> Forall (fun r => r <> []) rows -> data_rows (text_of (hs ++ lines)) rows.
Proof.
  intros Hh Hl E Hr. apply rows_iff. rewrite rows_of_text by (apply Forall_app; split; [eapply Forall_impl; [|exact Hh]; intros a (X & _); exact X|exact Hl]). rewrite map_app, filter_app. subst rows.
  assert (A : filter filled_row (map (fun l => words (strip (before_hash l))) hs) = []). { clear -Hh. induction Hh as [|h hs (_ & t & ->) _ IH]; [reflexivity|]. cbn [map]. rewrite comment_words. exact IH. }
  refine (eq_trans (f_equal2 (@app (list str)) A eq_refl) _). cbn [app]. clear -Hr. set (rows := map (fun l => words (strip (before_hash l))) lines) in *. change (filter filled_row rows = rows). clearbody rows. induction Hr as [|r rows H _ IH]; [reflexivity|]. cbn [filter]. destruct r; [congruence|]. cbn [filled_row]. rewrite IH. reflexivity.
Qed.
Lemma min_len_map {A B} (f : list A -> list B) ls : (forall l, In l ls -> List.length (f l) = List.length l) -> min_len (map f ls) = min_len ls.
Proof.
  intros H. destruct ls as [|l r]; [reflexivity|]. cbn [map min_len]. rewrite (H l) by (left; reflexivity). f_equal. rewrite map_map. apply map_ext_in. intros x Hx. apply H. right. exact Hx.
Qed.
Lemma nth_lt_in {A} i (l : list A) d : i < List.length l -> In (nth i l d) l. Proof. apply nth_In. Qed.
Section Extend.
Variable stamp : str.
Hypothesis one_line : ~ In lf stamp.
Definition heading (bare : bool) (labels : list str) : list str :=
  if bare then [] else (S_ "# Extend datafiles - " ++ stamp) :: match labels with [] => [] | _ => [S_ "# " ++ join [" "%char] labels] end.
Lemma heading_ok bare labels : Forall (fun l => ~ In lf l) labels -> Forall (fun h => ~ In lf h /\ exists t, h = "#"%char :: t) (heading bare labels).
Proof.
  intros H. unfold heading. destruct bare; [constructor|]. constructor.
  - split; [intros X; apply in_app_or in X as [X|X]; [cbn in X; intuition discriminate|exact (one_line X)]|eexists; reflexivity].
  - destruct labels as [|l r]; [constructor|]. constructor; [|constructor]. split; [|eexists; reflexivity]. intros X. apply in_app_or in X as [X|X]; [cbn in X; intuition discriminate|]. rewrite <- jn_join in X. apply jn_in in X as [X|(w & Hw & X)]; [cbn in X; intuition discriminate|]. rewrite Forall_forall in H. exact (H w Hw X).
Qed.
Lemma extend_eq fs inputs output bare raw padding labels texts : Forall2 (fun n t => fs n = Some t) inputs texts ->
  extend stamp fs inputs output bare raw padding labels = (write fs output (text_of (heading bare labels ++ extend_rows raw padding texts)), Ok tt).
Proof.
  intros H. unfold extend, read_all. rewrite (mapM_forall2 _ inputs texts) by (eapply forall2_mono; [|exact H]; intros n t E; cbv beta; rewrite E; reflexivity). unfold heading. destruct labels as [|l r]; [reflexivity|]. rewrite <- (jn_join [" "%char] (l :: r)). reflexivity.
Qed.
Theorem C106_missing : forall fs inputs output bare raw padding labels n, In n inputs -> fs n = None -> extend stamp fs inputs output bare raw padding labels = (fs, Err FileNotFoundError).
Proof.
  intros fs inputs output bare raw padding labels n Hn E. unfold extend. assert (X : read_all fs inputs = Err FileNotFoundError); [|rewrite X; reflexivity]. unfold read_all. induction inputs as [|a r IH]; [destruct Hn|]. cbn [mapM]. destruct (fs a) as [t|] eqn:Ea; [|reflexivity]. destruct Hn as [->|Hn]; [congruence|]. cbn [rbind]. rewrite (IH Hn). reflexivity.
Qed.
Lemma forall2_map_eq {A B} (P : A -> B -> Prop) (f : A -> B) l m : (forall x y, P x y -> f x = y) -> Forall2 P l m -> map f l = m.
Proof. intros H. induction 1 as [|x y l m E _ IH]; [reflexivity|]. cbn. rewrite (H _ _ E), IH. reflexivity. Qed.
Lemma map_nth_in {A B} (f : A -> B) l i a b : i < List.length l -> nth i (map f l) b = f (nth i l a).
Proof. intros H. rewrite (nth_indep _ b (f a)) by (rewrite map_length; exact H). apply map_nth. Qed.
(** the rows of the files next to each other, up to the end of the shortest one *)
Theorem C106_extend : forall fs inputs output bare labels texts rss, Forall2 (fun n t => fs n = Some t) inputs texts -> Forall2 data_rows texts rss -> Forall (fun l => ~ In lf l) labels ->
  exists fs' written, extend stamp fs inputs output bare false None labels = (fs', Ok tt) /\ fs' output = Some written /\ same_except fs fs' output /\ data_rows written (side_by_side rss).
Proof.
  intros fs inputs output bare labels texts rss Hf Hr Hl. do 2 eexists. split; [apply (extend_eq _ _ _ _ _ _ _ _ Hf)|]. split; [apply write_same|]. split; [apply write_other|].
  assert (E : map rows_of texts = rss) by (eapply forall2_map_eq; [|exact Hr]; intros; apply rows_iff; assumption).
  assert (Em : min_len rss = min_len (map clean texts)). { rewrite <- E. destruct texts as [|t r]; [reflexivity|]. unfold min_len. cbn [map]. rewrite <- (clean_words t), map_length, !map_map. f_equal. apply map_ext. intros x. rewrite <- clean_words, map_length. reflexivity. }
  assert (Sd : Forall (fun r => r <> [] /\ Forall sound r) (concat rss)). { clear -Hr. induction Hr as [|t rs texts rss H _ IH]; [constructor|]. cbn. apply Forall_app. split; [exact (data_rows_sound _ _ H)|exact IH]. }
  apply data_rows_text; [apply heading_ok; exact Hl| | |].
  - unfold extend_rows. fold clean. rewrite zip_all_spec. apply Forall_forall. intros x Hx. apply in_map_iff in Hx as (row & <- & Hx). apply in_map_iff in Hx as (i & <- & Hi). intros X. apply jn_in in X as [X|(w & Hw & X)]; [cbn in X; intuition discriminate|].
    apply in_map_iff in Hw as (l & <- & Hw). apply in_map_iff in Hw as (t & <- & Ht). apply in_seq in Hi. assert (L : i < List.length (clean t)). { pose proof (min_len_le (map clean texts) (clean t) (in_map _ _ _ Ht)). change (min_len (map clean texts)) with (min_len (map (fun t => clean t) texts)) in *. unfold clean in *. lia. }
    exact (proj1 (clean_line t _ (nth_In _ _ L)) X).
  - unfold extend_rows, side_by_side. fold clean. change (fun t : str => clean t) with clean. rewrite zip_all_spec, !map_map, Em. apply map_ext_in. intros i Hi. apply in_seq in Hi.
    assert (Li : forall t, In t texts -> i < List.length (clean t)). { intros t Ht. pose proof (min_len_le (map clean texts) (clean t) (in_map _ _ _ Ht)). lia. }
    rewrite before_hash_none.
    + rewrite words_strip, words_jn by reflexivity. f_equal. rewrite <- E, !map_map. apply map_ext_in. intros t Ht. assert (Z := map_nth_in words (clean t) i [] [] (Li t Ht)). rewrite clean_words in Z. exact (eq_sym Z).
    + intros X. apply jn_in in X as [X|(w & Hw & X)]; [cbn in X; intuition discriminate|]. apply in_map_iff in Hw as (l & <- & Hw). apply in_map_iff in Hw as (t & <- & Ht). exact (proj2 (clean_line t _ (nth_In _ _ (Li t Ht))) X).
  - unfold side_by_side. apply Forall_forall. intros row Hrow. apply in_map_iff in Hrow as (i & <- & Hi). apply in_seq in Hi. destruct rss as [|rs rest]; [cbn in Hi; lia|]. cbn [map concat]. pose proof (min_len_le (rs :: rest) rs (or_introl eq_refl)) as L. assert (In_ : In (nth i rs []) rs) by (apply nth_In; lia).
    cbn in Sd. apply Forall_app in Sd as (Sd & _). rewrite Forall_forall in Sd. destruct (Sd _ In_) as (N & _). destruct (nth i rs []); [congruence|discriminate].
Qed.
(** --raw-extend: the lines as they are, blanks around them removed *)
Theorem C106_raw : forall fs inputs output bare labels texts lss tss, Forall2 (fun n t => fs n = Some t) inputs texts -> Forall2 all_lines texts lss -> Forall2 (Forall2 trimmed) lss tss ->
  exists fs', extend stamp fs inputs output bare true None labels = (fs', Ok tt) /\ same_except fs fs' output /\
    fs' output = Some (text_of (heading bare labels ++ map (fun i => join [" "%char] (map (fun ts => nth i ts []) tss)) (seq 0 (min_len tss)))).
Proof.
  intros fs inputs output bare labels texts lss tss Hf Hl Ht. eexists. split; [apply (extend_eq _ _ _ _ _ _ _ _ Hf)|]. split; [apply write_other|]. rewrite write_same. do 3 f_equal.
  assert (E : map (fun t => map strip (readlines t)) texts = tss). { clear Hf. revert tss Ht. induction Hl as [|t ls texts lss H _ IH]; intros tss Ht; inversion Ht as [|? ts ? tss' H1 H2]; subst; [reflexivity|]. cbn [map]. rewrite (IH _ H2). f_equal. apply readlines_iff in H. rewrite H. eapply forall2_map_eq; [|exact H1]. intros; apply strip_iff; assumption. }
  unfold extend_rows. rewrite E, zip_all_spec, map_map. apply map_ext. intros i. apply jn_join.
Qed.
Lemma read_block_eq t rs : data_rows t rs -> read_block t = {| b_lines := map (jn [ascii_of_nat 9]) rs; b_cols := List.length (last rs []) |}.
Proof.
  intros H. apply rows_iff in H. unfold read_block. rewrite H. f_equal. destruct rs as [|r rs] using rev_ind; [reflexivity|]. rewrite rev_app_distr, last_last. reflexivity.
Qed.
Lemma list_max_eq l : list_max l = fold_right Nat.max 0 l. Proof. reflexivity. Qed.
(** --padding: up to the end of the longest file; with or without --raw-extend *)
Theorem C106_padding : forall fs inputs output bare raw pad labels texts rss, Forall2 (fun n t => fs n = Some t) inputs texts -> Forall2 data_rows texts rss -> Forall (fun l => ~ In lf l) labels -> sound pad ->
  exists fs' written, extend stamp fs inputs output bare raw (Some pad) labels = (fs', Ok tt) /\ fs' output = Some written /\ same_except fs fs' output /\ data_rows written (padded pad rss).
Proof.
  intros fs inputs output bare raw pad labels texts rss Hf Hr Hl Hp. do 2 eexists. split; [apply (extend_eq _ _ _ _ _ _ _ _ Hf)|]. split; [apply write_same|]. split; [apply write_other|].
  assert (Sd : Forall (Forall (fun r => r <> [] /\ Forall sound r)) rss). { clear -Hr. induction Hr as [|t rs texts rss H _ IH]; constructor; [exact (data_rows_sound _ _ H)|exact IH]. }
  set (tab := ascii_of_nat 9). assert (Ht : is_space tab = true) by reflexivity. assert (Nt : tab <> lf) by discriminate.
  assert (E : extend_rows raw (Some pad) texts = map (fun i => jn [tab] (map (fun rs => jn [tab] (padded_row pad i rs)) rss)) (seq 0 (max_len rss))).
  { unfold extend_rows. assert (Eb : map read_block texts = map (fun rs => {| b_lines := map (jn [tab]) rs; b_cols := List.length (last rs []) |}) rss).
    { clear -Hr. induction Hr as [|t rs texts rss H _ IH]; [reflexivity|]. cbn [map]. rewrite (read_block_eq _ _ H), IH. reflexivity. }
    rewrite Eb, !map_map. cbn [b_lines b_cols]. assert (En : list_max (map (fun rs : list (list str) => List.length (map (jn [tab]) rs)) rss) = max_len rss). { unfold max_len. rewrite list_max_eq. f_equal. apply map_ext. intros; apply map_length. }
    rewrite En. set (n := max_len rss). rewrite zip_all_spec. fold tab.
    assert (El : min_len (map (fun rs : list (list str) => map (jn [tab]) rs ++ repeat (jn [tab] (repeat pad (List.length (last rs [])))) (n - List.length (map (jn [tab]) rs))) rss) = n).
    { destruct rss as [|r0 rest] eqn:Er; [reflexivity|]. apply min_len_const; [discriminate|]. apply Forall_forall. intros x Hx. apply in_map_iff in Hx as (rs & <- & Hx). rewrite app_length, repeat_length, map_length. pose proof (max_len_ge _ _ Hx). unfold n. lia. }
    rewrite El, map_map. apply map_ext_in. intros i Hi. apply in_seq in Hi. f_equal. rewrite map_map. apply map_ext_in. intros rs Hrs. unfold padded_row. destruct (i <? List.length rs) eqn:L.
    - apply Nat.ltb_lt in L. rewrite app_nth1 by (rewrite map_length; exact L). apply (map_nth_in (jn [tab]) rs i [] [] L).
    - apply Nat.ltb_ge in L. rewrite app_nth2 by (rewrite map_length; exact L). rewrite map_length. rewrite (nth_indep _ [] (jn [tab] (repeat pad (List.length (last rs []))))) by (rewrite repeat_length; lia). apply nth_repeat. }
  assert (Sp : forall i rs, In rs rss -> Forall sound (padded_row pad i rs)).
  { intros i rs Hrs. unfold padded_row. rewrite Forall_forall in Sd. specialize (Sd rs Hrs). rewrite Forall_forall in Sd. destruct (i <? List.length rs) eqn:L; [apply Nat.ltb_lt in L; apply Sd, nth_In, L|]. apply Forall_forall. intros x Hx. apply repeat_spec in Hx. subst. exact Hp. }
  apply data_rows_text; [apply heading_ok; exact Hl| | |].
  - rewrite E. apply Forall_forall. intros x Hx. apply in_map_iff in Hx as (i & <- & Hi). intros X. apply jn_in in X as [X|(w & Hw & X)]; [destruct X as [X|[]]; congruence|]. apply in_map_iff in Hw as (rs & <- & Hrs). exact (proj1 (join_sp_clean tab _ Ht Nt (Sp i rs Hrs)) X).
  - rewrite E, map_map. apply map_ext_in. intros i Hi. rewrite before_hash_none.
    + rewrite words_strip, words_jn by exact Ht. f_equal. rewrite map_map. apply map_ext_in. intros rs Hrs. apply words_of_sound; [exact Ht|]. apply Sp, Hrs.
    + intros X. apply jn_in in X as [X|(w & Hw & X)]; [destruct X as [X|[]]; discriminate|]. apply in_map_iff in Hw as (rs & <- & Hrs). exact (proj2 (join_sp_clean tab _ Ht Nt (Sp i rs Hrs)) X).
  - apply Forall_forall. intros row Hrow. apply in_map_iff in Hrow as (i & <- & Hi). apply in_seq in Hi. destruct (max_len_attained rss) as [Z|(rs & Hrs & El)]; [lia|]. intros Z. assert (Y : padded_row pad i rs = []). { destruct (padded_row pad i rs) as [|w ws] eqn:Q; [reflexivity|]. exfalso. assert (X : In w (concat (map (padded_row pad i) rss))) by (apply in_concat; exists (padded_row pad i rs); split; [apply in_map; exact Hrs|rewrite Q; left; reflexivity]). rewrite Z in X. destruct X. }
    unfold padded_row in Y. assert (L : i < List.length rs) by lia. assert (L2 := L). apply Nat.ltb_lt in L. rewrite L in Y. rewrite Forall_forall in Sd. specialize (Sd rs Hrs). rewrite Forall_forall in Sd. destruct (Sd _ (nth_In rs [] L2)) as (N & _). exact (N Y).
Qed.
End Extend.
(** with rectangular files the padded file is rectangular *)
Theorem C106_rectangular : forall stamp fs inputs output bare raw pad labels texts rss cs, ~ In lf stamp -> Forall2 (fun n t => fs n = Some t) inputs texts -> Forall2 data_rows texts rss -> Forall (fun l => ~ In lf l) labels -> sound pad ->
  Forall2 (fun rs c => Forall (fun r => List.length r = c) rs /\ (rs = [] -> c = 0)) rss cs ->
  exists fs' written rows, extend stamp fs inputs output bare raw (Some pad) labels = (fs', Ok tt) /\ fs' output = Some written /\ data_rows written rows /\ List.length rows = max_len rss /\ Forall (fun r => List.length r = list_sum cs) rows.
Proof.
  intros stamp fs inputs output bare raw pad labels texts rss cs Hs Hf Hr Hl Hp Hc. destruct (C106_padding stamp Hs fs inputs output bare raw pad labels texts rss Hf Hr Hl Hp) as (fs' & written & E & W & _ & D). exists fs', written, (padded pad rss). split; [exact E|]. split; [exact W|]. split; [exact D|]. unfold padded. split; [rewrite map_length; apply seq_length|].
  apply Forall_forall. intros r Hin. apply in_map_iff in Hin as (i & <- & Hi). clear - Hc. induction Hc as [|rs c rss cs (H & Hz) _ IH]; [reflexivity|]. cbn [map concat]. rewrite app_length, IH. change (list_sum (c :: cs)) with (c + list_sum cs). f_equal. unfold padded_row. rewrite Forall_forall in H. destruct (i <? List.length rs) eqn:L.
  - apply Nat.ltb_lt in L. apply H, nth_In, L.
  - rewrite repeat_length. destruct rs as [|r0 rs] using rev_ind; [symmetry; apply Hz; reflexivity|]. rewrite last_last. apply H. apply in_or_app. right. left. reflexivity.
Qed.
Print Assumptions C106_missing.
Print Assumptions C106_extend.
Print Assumptions C106_raw.
Print Assumptions C106_padding.
Print Assumptions C106_rectangular.
Definition two_files (n : str) : option str := if eqb n (S_ "a") then Some (S_ "#x" ++ [lf] ++ S_ "1 2" ++ [lf] ++ S_ "3 4" ++ [lf]) else if eqb n (S_ "b") then Some (S_ "5 # y") else None.
Example C106_case :
  fst (extend (S_ "now") two_files [S_ "a"; S_ "b"] (S_ "c") true false None []) (S_ "c") = Some (S_ "1 2 5" ++ [lf]) /\
  fst (extend (S_ "now") two_files [S_ "a"; S_ "b"] (S_ "c") true true None []) (S_ "c") = Some (S_ "#x 5 # y" ++ [lf]) /\
  data_rows (match fst (extend (S_ "now") two_files [S_ "a"; S_ "b"] (S_ "c") true true (Some (S_ "nan")) []) (S_ "c") with Some t => t | None => [] end) [[S_ "1"; S_ "2"; S_ "5"]; [S_ "3"; S_ "4"; S_ "nan"]].
Proof. split; [reflexivity|]. split; [reflexivity|]. apply rows_iff. reflexivity. Qed.

(** ** C107: weights and scale of a mixture *)
Definition digit_char (n : nat) : ascii := ascii_of_nat (48 + n).
(** the text of --weight and the numbers it stands for *)
Inductive weight_text (pyfloat : str -> res R) : str -> list R -> Prop :=
| weight_digits ds : ds <> [] -> Forall (fun n => n <= 9) ds -> weight_text pyfloat (map digit_char ds) (map INR ds)
| weight_words t ws xs : (t = [] \/ exists c, In c t /\ forall n, n <= 9 -> c <> digit_char n) -> tokens is_space t ws -> Forall2 (fun w x => pyfloat w = Ok x) ws xs -> weight_text pyfloat t xs.
Lemma digit_iff c n : digit c = Some n <-> n <= 9 /\ c = digit_char n.
Proof.
  unfold digit, digit_char. split.
  - destruct ((48 <=? nat_of_ascii c) && (nat_of_ascii c <=? 57))%bool eqn:E; [|discriminate]. apply andb_true_iff in E as (A & B). apply Nat.leb_le in A, B. intros [= <-]. split; [lia|]. replace (48 + (nat_of_ascii c - 48)) with (nat_of_ascii c) by lia. symmetry. apply ascii_nat_embedding.
  - intros (L & ->). rewrite nat_ascii_embedding by lia. assert (E : ((48 <=? 48 + n) && (48 + n <=? 57))%bool = true) by (apply andb_true_iff; split; apply Nat.leb_le; lia). rewrite E. f_equal. lia.
Qed.
Lemma isdecimal_digits ds : ds <> [] -> Forall (fun n => n <= 9) ds -> isdecimal (map digit_char ds) = true /\ map (fun c => match digit c with Some n => INR n | None => 0%R end) (map digit_char ds) = map INR ds.
Proof.
  intros N H. split.
  - unfold isdecimal. apply andb_true_iff. split; [destruct ds; [congruence|reflexivity]|]. apply forallb_forall. intros c Hc. apply in_map_iff in Hc as (n & <- & Hn). rewrite Forall_forall in H. rewrite (proj2 (digit_iff (digit_char n) n) (conj (H n Hn) eq_refl)). reflexivity.
  - rewrite map_map. apply map_ext_in. intros n Hn. rewrite Forall_forall in H. rewrite (proj2 (digit_iff (digit_char n) n) (conj (H n Hn) eq_refl)). reflexivity.
Qed.
Lemma isdecimal_inv t : isdecimal t = true -> exists ds, ds <> [] /\ Forall (fun n => n <= 9) ds /\ t = map digit_char ds.
Proof.
  unfold isdecimal. intros H. apply andb_true_iff in H as (N & F). assert (X : exists ds, Forall (fun n => n <= 9) ds /\ t = map digit_char ds).
  { clear N. induction t as [|c t IH]; [exists []; split; [constructor|reflexivity]|]. cbn [forallb] in F. apply andb_true_iff in F as (A & B). destruct (IH B) as (ds & F2 & ->). destruct (digit c) as [n|] eqn:D; [|discriminate]. apply digit_iff in D as (L & ->). exists (n :: ds). split; [constructor; assumption|reflexivity]. }
  destruct X as (ds & F2 & ->). exists ds. split; [destruct ds; [discriminate|discriminate]|]. auto.
Qed.
Lemma isdecimal_false t : (t = [] \/ exists c, In c t /\ forall n, n <= 9 -> c <> digit_char n) -> isdecimal t = false.
Proof.
  intros [->|(c & Hc & Hn)]; [reflexivity|]. destruct (isdecimal t) eqn:E; [|reflexivity]. exfalso. apply isdecimal_inv in E as (ds & _ & F & ->). apply in_map_iff in Hc as (n & <- & Hin). rewrite Forall_forall in F. exact (Hn n (F n Hin) eq_refl).
Qed.
Lemma isdecimal_false_inv t : isdecimal t = false -> t = [] \/ exists c, In c t /\ forall n, n <= 9 -> c <> digit_char n.
Proof.
  unfold isdecimal. destruct t as [|c t]; [left; reflexivity|]. cbn [nonempty andb]. set (u := c :: t). clearbody u. intros H. right. induction u as [|d u IH]; [discriminate|]. cbn [forallb] in H. destruct (digit d) as [n|] eqn:D.
  - destruct (IH H) as (x & Hx & Hn). exists x. split; [right; exact Hx|exact Hn].
  - exists d. split; [left; reflexivity|]. intros n L ->. assert (X := proj2 (digit_iff (digit_char n) n) (conj L eq_refl)). congruence.
Qed.
Lemma mapM_inv {A B} (f : A -> res B) l : forall ys, mapM f l = Ok ys -> Forall2 (fun x y => f x = Ok y) l ys.
Proof. induction l as [|x l IH]; intros ys H; cbn [mapM] in H; [inversion H; constructor|]. destruct (f x) as [y|] eqn:E; [|discriminate]. cbn [rbind] in H. destruct (mapM f l) as [zs|] eqn:E2; [|discriminate]. cbn [rbind] in H. inversion H. constructor; [exact E|apply IH; reflexivity]. Qed.
Theorem C107_weights : forall pyfloat t xs, parse_weight pyfloat (Some t) = Ok (Some xs) <-> weight_text pyfloat t xs.
Proof.
  intros pyfloat t xs. unfold parse_weight. split.
  - destruct (isdecimal t) eqn:E.
    + apply isdecimal_inv in E as (ds & N & F & ->). intros [= <-]. rewrite (proj2 (isdecimal_digits ds N F)). constructor; assumption.
    + destruct (mapM pyfloat (words t)) as [l|] eqn:M; [|discriminate]. cbn [rbind]. intros [= <-]. apply (weight_words _ t (words t)); [apply isdecimal_false_inv, E|apply words_iff; reflexivity|apply mapM_inv, M].
  - intros [ds N F|t' ws xs' H T F].
    + rewrite (proj1 (isdecimal_digits ds N F)), (proj2 (isdecimal_digits ds N F)). reflexivity.
    + rewrite (isdecimal_false _ H). apply words_iff in T. rewrite T. rewrite (mapM_forall2 _ _ _ F). reflexivity.
Qed.
Print Assumptions C107_weights.
(** a word that is not a number *)
Theorem C107_unreadable : forall pyfloat datas t ws w scale, (forall v e, pyfloat v = Err e -> e = ValueError) -> (exists c, In c t /\ forall n, n <= 9 -> c <> digit_char n) -> tokens is_space t ws -> In w ws -> (forall x, pyfloat w <> Ok x) ->
  mix_command pyfloat datas (Some t) scale = Err ValueError.
Proof.
  intros pyfloat datas t ws w scale Hv Hc T Hin Hw. unfold mix_command, parse_weight. rewrite (isdecimal_false _ (or_intror Hc)). apply words_iff in T. rewrite T.
  assert (E : mapM pyfloat ws = Err ValueError); [|rewrite E; reflexivity]. clear T. induction ws as [|v ws IH]; [destruct Hin|]. cbn [mapM]. destruct (pyfloat v) as [z|e] eqn:E; [|rewrite (Hv _ _ E); reflexivity]. destruct Hin as [->|Hin]; [exfalso; exact (Hw z E)|]. cbn [rbind]. rewrite (IH Hin). reflexivity.
Qed.
Print Assumptions C107_unreadable.
Local Open Scope R_scope.
Definition given_weights (pyfloat : str -> res R) (weight : option str) (n : nat) (ws : list R) : Prop :=
  match weight with None => ws = repeat 1 n | Some t => weight_text pyfloat t ws end.
Lemma mix_command_eq pyfloat datas weight scale ws : given_weights pyfloat weight (List.length datas) ws -> List.length ws = List.length datas ->
  exists w, mix_command pyfloat datas weight scale = mixing datas w (parse_scale scale) /\ MixSpec.weights datas w = ws.
Proof.
  unfold given_weights, mix_command. destruct weight as [t|].
  - intros H L. apply C107_weights in H. rewrite H. exists (Some ws). split; reflexivity.
  - intros -> _. exists None. split; reflexivity.
Qed.
(** the mixture: the weighted mean, or the sum of the weighted data times the scale *)
Theorem C107_mixture : forall pyfloat datas weight scale ws, datas <> [] -> (forall d, In d datas -> List.length d = List.length (hd [] datas)) -> given_weights pyfloat weight (List.length datas) ws -> List.length ws = List.length datas ->
  exists r, mix_command pyfloat datas weight scale = Ok r /\ List.length r = List.length (hd [] datas) /\ forall j,
    (Rabs scale < 1e-4 -> sumR ws <> 0 -> nth j r 0 = wsum datas ws j / sumR ws) /\
    (1e-4 <= Rabs scale -> nth j r 0 = scale * wsum datas ws j).
Proof.
  intros pyfloat datas weight scale ws Hne Hd Hw L. destruct (mix_command_eq pyfloat datas weight scale ws Hw L) as (w & E & Ew). rewrite E. destruct (mixing_ok datas w (parse_scale scale) Hne) as (r & Hr & Hlen & Hn); [rewrite Ew; exact L|exact Hd|]. exists r. split; [exact Hr|]. split; [exact Hlen|]. intros j. rewrite Hn. rewrite Ew. unfold parse_scale. destruct (Rlt_dec (Rabs scale) 1e-4) as [A|A].
  - split; [intros _ Hs; field; exact Hs|]. intros B. lra.
  - split; [intros B; lra|]. intros _. ring.
Qed.
Print Assumptions C107_mixture.
(** without weights: the mean *)
Theorem C107_mean : forall pyfloat datas, datas <> [] -> (forall d, In d datas -> List.length d = List.length (hd [] datas)) ->
  exists r, mix_command pyfloat datas None 0 = Ok r /\ List.length r = List.length (hd [] datas) /\ forall j, nth j r 0 = sumR (map (fun d => nth j d 0) datas) / INR (List.length datas).
Proof.
  intros pyfloat datas Hne Hd. destruct (C107_mixture pyfloat datas None 0 (repeat 1 (List.length datas)) Hne Hd eq_refl (repeat_length _ _)) as (r & Hr & Hl & Hn). exists r. split; [exact Hr|]. split; [exact Hl|]. intros j. destruct (Hn j) as (H & _).
  assert (Es : forall n, sumR (repeat 1 n) = INR n). { induction n as [|n IH]; [reflexivity|]. cbn [repeat sumR]. rewrite S_INR, IH. ring. }
  rewrite Es in H. rewrite H.
  - f_equal. unfold wsum. clear. induction datas as [|d datas IH]; [reflexivity|]. cbn [List.length repeat combine map sumR fst snd]. rewrite IH. ring.
  - rewrite Rabs_R0. lra.
  - apply not_0_INR. destruct datas; [congruence|discriminate].
Qed.
Print Assumptions C107_mean.
(** one digit, one weight: a run of digits is never read as one number of several digits *)
Theorem C107_digits : forall pyfloat datas ds scale, ds <> [] -> Forall (fun n => (n <= 9)%nat) ds ->
  (List.length ds <> List.length datas -> datas <> [] -> mix_command pyfloat datas (Some (map digit_char ds)) scale = Err ValueError) /\
  (List.length ds = List.length datas -> datas <> [] -> (forall d, In d datas -> List.length d = List.length (hd [] datas)) -> Rabs scale < 1e-4 -> sumR (map INR ds) <> 0 ->
     exists r, mix_command pyfloat datas (Some (map digit_char ds)) scale = Ok r /\ forall j, nth j r 0 = wsum datas (map INR ds) j / sumR (map INR ds)).
Proof.
  intros pyfloat datas ds scale N F. split.
  - intros L Hne. unfold mix_command. assert (E := proj2 (C107_weights pyfloat (map digit_char ds) (map INR ds)) (weight_digits _ ds N F)). refine (eq_trans (f_equal (fun z => rbind z (fun w => mixing datas w (parse_scale scale))) E) _). cbn [rbind]. apply mixing_err; [exact Hne|]. left. cbn. rewrite map_length. exact L.
  - intros L Hne Hd Hs Hz. destruct (C107_mixture pyfloat datas (Some (map digit_char ds)) scale (map INR ds) Hne Hd (weight_digits _ ds N F)) as (r & Hr & _ & Hn); [rewrite map_length; exact L|]. exists r. split; [exact Hr|]. intros j. apply (Hn j); assumption.
Qed.
Print Assumptions C107_digits.
Example C107_case : forall pyfloat, weight_text pyfloat (S_ "10") [1; 0] /\ (forall d, mix_command pyfloat [d] (Some (S_ "10")) 0 = Err ValueError) /\
  (exists r, mix_command pyfloat [[1; 2]; [3; 6]] (Some (S_ "13")) 0 = Ok r /\ nth 1 r 0 = 5) /\
  (pyfloat (S_ "1") = Ok 1 -> pyfloat (S_ "0.5") = Ok 0.5 -> weight_text pyfloat (S_ "1 0.5") [1; 0.5]).
Proof.
  intros pyfloat. assert (D : forall a b, (a <= 9)%nat -> (b <= 9)%nat -> weight_text pyfloat (map digit_char [a; b]) (map INR [a; b])) by (intros a b A B; apply (weight_digits pyfloat [a; b]); [discriminate|apply Forall_cons; [exact A|apply Forall_cons; [exact B|apply Forall_nil]]]).
  split; [apply (D 1%nat 0%nat); lia|]. split; [|split].
  - intros d. apply (C107_digits pyfloat [d] [1%nat; 0%nat] 0); [discriminate|repeat constructor; lia|discriminate|discriminate].
  - destruct (C107_digits pyfloat [[1; 2]; [3; 6]] [1%nat; 3%nat] 0) as (_ & H); [discriminate|repeat constructor; lia|]. destruct H as (r & Hr & Hn); [reflexivity|discriminate|intros d [<-|[<-|[]]]; reflexivity|rewrite Rabs_R0; lra|cbn; lra|]. exists r. split; [exact Hr|]. rewrite Hn. unfold wsum. cbn. lra.
  - intros E1 E2. apply C107_weights. unfold parse_weight. change (isdecimal (S_ "1 0.5")) with false. cbv iota. change (words (S_ "1 0.5")) with [S_ "1"; S_ "0.5"]. cbn [mapM]. rewrite E1. cbn [rbind]. rewrite E2. reflexivity.
Qed.
