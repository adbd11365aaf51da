(** C113-C115: number files; the device commands ztdev and engout. *)
From Coq Require Import ZArith Reals Lra String Ascii Sorted.
From Verif Require Import Py PyStr RUtil CfgSpec CfgModel CfgProofs KvarSpec KvarModel KvarProofs DataModel SubsModel SubsProofs Regex InstrSpec InstrModel InstrProofs MonoModel InterpSpec InterpModel ZtSpec ZtModel ZtProofs ZtProps EngSpec EngModel EngProofs EngProps TxtSpec TxtModel TxtProofs TxtProps FmtSpec CmdSpec CmdModel CmdProofs.
Local Open Scope list_scope.
Local Open Scope R_scope.

(** ** C113 *)
Lemma label_clean labels : Forall one_line labels -> one_line (label_line labels).
Proof.
  intros H Hi. unfold label_line in Hi. rewrite <- jn_join in Hi. apply jn_in in Hi as [Hi|(w & Hw & Hi)].
  - destruct Hi as [Hi|[Hi|[]]]; discriminate.
  - rewrite Forall_forall in H. exact (H w Hw Hi).
Qed.
Lemma caption_clean title stamp : one_line title -> one_line stamp -> one_line (caption title stamp).
Proof.
  intros A B. unfold caption. destruct title; [exact B|]. intros H. apply in_app_or in H as [H|H]; [exact (A H)|]. apply in_app_or in H as [H|H]; [|exact (B H)]. destruct H as [H|[H|[H|[]]]]; discriminate.
Qed.
Lemma caption_filled title stamp : stamp <> [] -> caption title stamp <> [].
Proof. intros H. unfold caption. destruct title; [exact H|discriminate]. Qed.
Lemma lines1 h : one_line h -> has_lines h [h].
Proof. intros H. split; [discriminate|]. split; [exact (Forall_cons _ H (Forall_nil _))|exact (eq_sym (app_nil_r h))]. Qed.
Lemma lines2 h l : one_line h -> one_line l -> has_lines (h ++ lf :: l) [h; l].
Proof. intros H K. split; [discriminate|]. split; [exact (Forall_cons _ H (Forall_cons _ K (Forall_nil _)))|exact (f_equal (fun z => h ++ lf :: z) (eq_sym (app_nil_r l)))]. Qed.

Theorem C113_default : forall (X : Type) (num : X -> str) stamp title labels rows, stamp <> [] -> one_line stamp -> one_line title -> Forall one_line labels ->
  to_file num stamp false false title labels rows
  = text_of (("#"%char :: caption title stamp) :: (match label_line labels with [] => [] | l => ["#"%char :: l] end) ++ map (number_line num) rows).
Proof.
  intros X num stamp title labels rows N Hs Ht Hl. unfold to_file. pose proof (caption_clean _ _ Ht Hs) as Hc. pose proof (caption_filled title _ N) as Nc. fold (caption title stamp). rewrite jn_join. change (CfgSpec.join (S_ "  ") labels) with (label_line labels). pose proof (label_clean _ Hl) as Hk. destruct (label_line labels) as [|c k].
  - rewrite (savetxt_text num (S_ "#") _ [caption title stamp] rows Nc (lines1 _ Hc)). reflexivity.
  - assert (N2 : caption title stamp ++ newline :: c :: k <> []) by (destruct (caption title stamp); discriminate).
    rewrite (savetxt_text num (S_ "#") _ [caption title stamp; c :: k] rows N2 (lines2 _ _ Hc Hk)). reflexivity.
Qed.
Print Assumptions C113_default.
Theorem C113_bare : forall (X : Type) (num : X -> str) stamp title labels headers rows,
  to_file num stamp true headers title labels rows = text_of (map (number_line num) rows).
Proof. intros. apply savetxt_bare. Qed.
Print Assumptions C113_bare.
Theorem C113_headers : forall (X : Type) (num : X -> str) stamp title labels rows, stamp <> [] -> one_line stamp -> one_line title -> Forall one_line labels ->
  to_file num stamp false true title labels rows
  = text_of ((match label_line labels with [] => caption title stamp | l => l end) :: map (number_line num) rows).
Proof.
  intros X num stamp title labels rows N Hs Ht Hl. unfold to_file. pose proof (caption_clean _ _ Ht Hs) as Hc. pose proof (caption_filled title _ N) as Nc. fold (caption title stamp). rewrite jn_join. change (CfgSpec.join (S_ "  ") labels) with (label_line labels). pose proof (label_clean _ Hl) as Hk. destruct (label_line labels) as [|c k].
  - rewrite (savetxt_text num [] _ [caption title stamp] rows Nc (lines1 _ Hc)). reflexivity.
  - rewrite (savetxt_text num [] (c :: k) [c :: k] rows ltac:(discriminate) (lines1 _ Hk)). reflexivity.
Qed.
Print Assumptions C113_headers.

Section Reload.
Context {X Y : Type}.
Variables (num : X -> str) (pyfloat : str -> res Y) (value : X -> Y).
Hypothesis Hnum : forall x, plain (num x).
Hypothesis Hval : forall x, pyfloat (num x) = Ok (value x).
Lemma read_back rows : mapM (mapM pyfloat) (map (map num) rows) = Ok (map (map value) rows).
Proof.
  apply mapM_forall2. induction rows as [|r rows IH]; [constructor|]. cbn [map]. constructor; [|exact IH]. apply mapM_forall2. clear IH. induction r as [|x r IH]; [constructor|]. cbn [map]. constructor; [apply Hval|exact IH].
Qed.
Lemma loadtxt_rows text rows w : rows_of text = map (map num) rows -> Forall (fun r => List.length r = w) rows -> loadtxt pyfloat text = Ok (map (map value) rows).
Proof.
  intros H Hw. unfold loadtxt. rewrite H, read_back. cbv beta iota delta [rbind]. destruct Hw as [|r rest Hr Hw]; [reflexivity|]. cbn [map].
  assert (E : forallb (fun q => Nat.eqb (List.length q) (List.length (map value r))) (map (map value) rest) = true). { apply forallb_forall. intros q Hq. apply in_map_iff in Hq as (z & <- & Hz). rewrite Forall_forall in Hw. apply Nat.eqb_eq. rewrite !map_length, Hr. apply Hw, Hz. }
  rewrite E. reflexivity.
Qed.
End Reload.
Theorem C113_reload : forall (X Y : Type) (num : X -> str) (pyfloat : str -> res Y) (value : X -> Y) stamp title labels headers bare rows w,
  (forall x, plain (num x)) -> (forall x, pyfloat (num x) = Ok (value x)) -> stamp <> [] -> one_line stamp -> one_line title -> Forall one_line labels ->
  Forall (fun r => r <> [] /\ List.length r = w) rows -> bare = true \/ headers = false ->
  let text := to_file num stamp bare headers title labels rows in
  data_rows text (map (map num) rows) /\ loadtxt pyfloat text = Ok (map (map value) rows).
Proof.
  intros X Y num pyfloat value stamp title labels headers bare rows w Hn Hv N Hs Ht Hl Hr Hb text.
  assert (R1 : Forall (fun r => r <> []) rows) by (eapply Forall_impl; [|exact Hr]; intros r (A & _); exact A).
  assert (R2 : Forall (fun r => List.length r = w) rows) by (eapply Forall_impl; [|exact Hr]; intros r (_ & A); exact A).
  assert (E : rows_of text = map (map num) rows).
  { unfold text. destruct bare.
    - rewrite C113_bare. exact (rows_commented num Hn [] rows (Forall_nil _) R1).
    - destruct Hb as [Hb| ->]; [discriminate|]. rewrite C113_default by assumption.
      pose proof (label_clean _ Hl) as Hk. pose proof (caption_clean _ _ Ht Hs) as Hc. destruct (label_line labels) as [|c k].
      + exact (rows_commented num Hn [caption title stamp] rows (Forall_cons _ Hc (Forall_nil _)) R1).
      + exact (rows_commented num Hn [caption title stamp; c :: k] rows (Forall_cons _ Hc (Forall_cons _ Hk (Forall_nil _))) R1). }
  split; [apply rows_iff, E|]. exact (loadtxt_rows num pyfloat value Hv text rows w E R2).
Qed.
Print Assumptions C113_reload.
Lemma label_words labels : Forall plain labels -> words (strip (before_hash (label_line labels))) = labels.
Proof.
  intros H. assert (NH : ~ In "#"%char (label_line labels)). { unfold label_line. intros Hi. rewrite <- jn_join in Hi. apply jn_in in Hi as [Hi|(w & Hw & Hi)]; [destruct Hi as [Hi|[Hi|[]]]; discriminate|]. rewrite Forall_forall in H. exact (proj2 (proj2 (H w Hw)) Hi). }
  rewrite (before_hash_none _ NH), words_strip. unfold label_line. clear NH. induction H as [|a l Ha Hl IH]; [reflexivity|]. destruct l as [|b l].
  - assert (Q : words a = [a]) by (apply words_one; apply Ha). exact (eq_trans (f_equal words (app_nil_r a)) Q).
  - change (CfgSpec.join (S_ "  ") (a :: b :: l)) with (a ++ " "%char :: ([] ++ " "%char :: CfgSpec.join (S_ "  ") (b :: l))). rewrite words_app by reflexivity. rewrite words_app by reflexivity. rewrite IH, (words_one a) by apply Ha. reflexivity.
Qed.
(** with -H the labels are a row of the file, which cannot be loaded any more *)
Theorem C113_headers_row : forall (X : Type) (num : X -> str) stamp title labels rows, (forall x, plain (num x)) -> stamp <> [] -> one_line stamp -> one_line title ->
  labels <> [] -> Forall plain labels -> Forall (fun r => r <> []) rows ->
  data_rows (to_file num stamp false true title labels rows) (labels :: map (map num) rows)
  /\ forall (Y : Type) (pyfloat : str -> res Y) w, (forall t e, pyfloat t = Err e -> e = ValueError) -> In w labels -> pyfloat w = Err ValueError -> loadtxt pyfloat (to_file num stamp false true title labels rows) = Err ValueError.
Proof.
  intros X num stamp title labels rows Hn N Hs Ht Nl Hl Hr.
  assert (Hc : Forall one_line labels). { eapply Forall_impl; [|exact Hl]. intros w (_ & Hw & _) Hi. rewrite Forall_forall in Hw. specialize (Hw lf Hi). discriminate. }
  assert (E : rows_of (to_file num stamp false true title labels rows) = labels :: map (map num) rows).
  { rewrite C113_headers by assumption. pose proof (label_words labels Hl) as Hw. pose proof (label_clean _ Hc) as Hk. destruct (label_line labels) as [|c k] eqn:El; [exfalso; apply Nl; rewrite <- Hw; reflexivity|].
    assert (Q := rows_after num Hn [c :: k] rows (Forall_cons _ Hk (Forall_nil _)) Hr). cbn [map] in Q. assert (F : filter filled_row [words (strip (before_hash (c :: k)))] = [labels]) by (rewrite Hw; destruct labels; [congruence|reflexivity]). exact (eq_trans Q (f_equal (fun z => z ++ map (map num) rows) F)). }
  split; [apply rows_iff, E|]. intros Y pyfloat w He Hw Hf. unfold loadtxt. rewrite E. cbn [mapM].
  assert (M : mapM pyfloat labels = Err ValueError).
  { clear - He Hw Hf. induction labels as [|a l IH]; [destruct Hw|]. cbn [mapM]. destruct (pyfloat a) as [y|e] eqn:Ea; cbv beta iota delta [rbind].
    - destruct Hw as [->|Hw]; [congruence|]. rewrite (IH Hw). reflexivity.
    - rewrite (He a e Ea). reflexivity. }
  rewrite M. reflexivity.
Qed.
Print Assumptions C113_headers_row.
(** rows of different lengths cannot be loaded *)
Theorem C113_ragged : forall (Y : Type) (pyfloat : str -> res Y) text rows a b, (forall t e, pyfloat t = Err e -> e = ValueError) -> data_rows text rows -> In a rows -> In b rows -> List.length a <> List.length b -> loadtxt pyfloat text = Err ValueError.
Proof.
  intros Y pyfloat text rows a b He Hr Ha Hb Hn. apply rows_iff in Hr. unfold loadtxt. rewrite Hr.
  assert (E1 : forall l e, mapM pyfloat l = Err e -> e = ValueError). { induction l as [|x l IH]; [discriminate|]. intros e. cbn [mapM]. destruct (pyfloat x) as [y|u] eqn:Ex; cbv beta iota delta [rbind]; [|intros [= <-]; exact (He _ _ Ex)]. destruct (mapM pyfloat l) as [ys|u]; [discriminate|]. intros [= <-]. apply IH. reflexivity. }
  destruct (mapM (mapM pyfloat) rows) as [vs|e] eqn:E; cbv beta iota delta [rbind].
  - assert (L : map (@List.length Y) vs = map (@List.length str) rows).
    { clear Hr Ha Hb. revert vs E. induction rows as [|r rest IH]; intros vs E; [injection E as <-; reflexivity|]. cbn [mapM] in E. destruct (mapM pyfloat r) as [v|] eqn:Ev; cbv beta iota delta [rbind] in E; [|discriminate]. destruct (mapM (mapM pyfloat) rest) as [ws|]; [|discriminate]. injection E as <-. cbn [map]. rewrite (IH ws eq_refl). f_equal.
      clear -Ev. revert v Ev. induction r as [|x r IH]; intros v Ev; [injection Ev as <-; reflexivity|]. cbn [mapM] in Ev. destruct (pyfloat x) as [y|]; cbv beta iota delta [rbind] in Ev; [|discriminate]. destruct (mapM pyfloat r) as [ys|]; [|discriminate]. injection Ev as <-. cbn. rewrite (IH ys eq_refl). reflexivity. }
    destruct vs as [|v vs]; [destruct rows; [destruct Ha|discriminate L]|]. destruct (forallb _ vs) eqn:F; [|reflexivity]. exfalso. rewrite forallb_forall in F.
    assert (G : forall n, In n (map (@List.length Y) (v :: vs)) -> n = List.length v). { intros n Hi. apply in_map_iff in Hi as (z & <- & [<-|Hz]); [reflexivity|]. apply Nat.eqb_eq, F, Hz. }
    apply Hn. rewrite (G (List.length a)), (G (List.length b)); [reflexivity| |]; rewrite L; apply in_map; assumption.
  - f_equal. clear Hr Ha Hb. revert e E. induction rows as [|r rest IH]; intros e E; [discriminate|]. cbn [mapM] in E. destruct (mapM pyfloat r) as [v|u] eqn:Ev; cbv beta iota delta [rbind] in E; [|injection E as <-; exact (E1 _ _ Ev)]. destruct (mapM (mapM pyfloat) rest) as [ws|u]; [discriminate|]. apply IH. exact E.
Qed.
Print Assumptions C113_ragged.
Example C113_case : let num (b : bool) := if b then S_ "1.0" else S_ "2.5" in
  (forall x, plain (num x)) /\ to_file num (S_ "now") false false (S_ "Mixed") [S_ "T"; S_ "C"] [[true; false]; [false; false]]
  = text_of [S_ "#Mixed - now"; S_ "#T  C"; S_ "1.0 2.5"; S_ "2.5 2.5"]
  /\ to_file num (S_ "now") false true (S_ "Mixed") [S_ "T"; S_ "C"] [[true; false]] = text_of [S_ "T  C"; S_ "1.0 2.5"].
Proof.
  cbn zeta. split; [|split; reflexivity]. intros [|]; (split; [discriminate|split; [repeat constructor|]]); intros [H|[H|[H|[]]]]; discriminate.
Qed.

(** ** C114 *)
Definition data_points (T C S K : list R) : list tp := map (fun i => TP (nth i T 0) (nth i C 0) (nth i S 0) (nth i K 0)) (seq 0 (List.length T)).
Lemma zt_device y Tc Th : cal_ZTdev y Tc Th = ZT_device y Tc Th.
Proof. unfold cal_ZTdev, ZT_device. destruct (Rlt_dec 1e-3 (Rabs (Th * (1 - y / 100) - Tc))); [reflexivity|]. lra. Qed.
Section Ztdev.
Variables (load : str -> res (list (list R))) (num : option R -> str) (stamp : str) (minimize : (R -> option R) -> R -> R -> res opt_res).
Theorem C114_temperatures : forall fs input output suffix bare text T C S K rest, fs input = Some text -> load text = Ok (T :: C :: S :: K :: rest) ->
  T <> [] -> List.length C = List.length T -> List.length S = List.length T -> List.length K = List.length T ->
  match optim_Yita minimize (data_points T C S K) with
  | Ok ys =>
      List.length ys = List.length T /\ nth 0 ys None = Some 0 /\
      exists rows, List.length rows = List.length T
      /\ (forall i, (i < List.length T)%nat -> nth i rows [] = [Some (nth 0 T 0); Some (nth i T 0); nth i ys None; match nth i ys None with Some y => Some (ZT_device y (nth 0 T 0) (nth i T 0)) | None => None end])
      /\ ztdev load num stamp minimize fs input output suffix bare false = (write fs (suffixed output input suffix None) (savetxt num (S_ "# ") (if bare then [] else ztdev_head stamp) rows), Ok tt)
  | Err e => ztdev load num stamp minimize fs input output suffix bare false = (fs, Err e)
  end.
Proof.
  intros fs input output suffix bare text T C S K rest Hf Hl HT HC HS HK. unfold ztdev. rewrite Hf.
  assert (Z : ztdev_rows load minimize false text = let! r := valuate minimize (points4 T C S K) true in Ok (List.map (fun q => match q with ((tc, th, z), y) => [Some tc; Some th; y; z] end) (combine (snd r) (fst r)))).
  { unfold ztdev_rows. rewrite Hl. cbv beta iota delta [rbind]. cbn [firstn]. destruct T; reflexivity. }
  rewrite Z. clear Z. cbv beta iota delta [rbind]. rewrite (points4_seq T C S K HC HS HK). fold (data_points T C S K).
  assert (Len : List.length (data_points T C S K) = List.length T) by (unfold data_points; rewrite map_length, seq_length; reflexivity).
  assert (Nth : forall i x, (i < List.length T)%nat -> tT (nth i (data_points T C S K) x) = nth i T 0). { intros i x Hi. unfold data_points. rewrite map_seq_nth by exact Hi. reflexivity. }
  destruct (data_points T C S K) as [|a d]; [destruct T; [congruence|discriminate]|]. destruct (optim_Yita minimize (a :: d)) as [ys|e] eqn:E; [|rewrite (C40_raises _ _ true _ E); reflexivity].
  destruct (valuate minimize (a :: d) true) as [[ys' rows]|e] eqn:V; [|cbn [valuate] in V; unfold rbind in V; remember (a :: d) as dd; rewrite E in V; discriminate].
  destruct (C40_rows _ _ _ _ _ V) as (E1 & L1 & (_ & Y0) & N1). rewrite E in E1. injection E1 as ->.
  assert (L2 : List.length ys' = List.length T).
  { rewrite <- Len. assert (E' := E). unfold optim_Yita in E'. destruct (optim_u minimize (a :: d)) as [[(x & o)|]|]; try discriminate. cbv beta iota delta [rbind] in E'. destruct (C21_profile x (a :: d) ltac:(discriminate)) as (l & Hy & Hlen & _). rewrite Hy in E'. injection E' as <-. exact Hlen. }
  split; [exact L2|]. split; [exact Y0|]. eexists. split; [|split; [|reflexivity]].
  - cbn [snd fst]. rewrite map_length, combine_length, L1, L2, Len. apply Nat.min_id.
  - intros i Hi. cbn [fst snd]. set (g := fun q : R * R * option R * option R => _). rewrite (nth_indep _ [] (g (0, 0, None, None))) by (rewrite map_length, combine_length, L1, L2, Len; lia). rewrite map_nth, combine_nth by (rewrite L1, L2; exact Len). rewrite N1 by lia. unfold g. rewrite Nth by exact Hi. rewrite <- (Nth 0%nat a) by lia. cbn [nth]. destruct (nth i ys' None); [rewrite zt_device|]; reflexivity.
Qed.
Lemma rows3_seq a b y : List.length a = List.length y -> List.length b = List.length y -> rows3 a b y = map (fun i => (nth i a 0, nth i b 0, nth i y 0)) (seq 0 (List.length y)).
Proof. revert a b. induction y as [|v y IH]; intros [|p a] [|q b] H1 H2; try discriminate; [reflexivity|]. cbn [rows3 List.length seq map nth]. f_equal. rewrite IH by (cbn [List.length] in *; lia). rewrite <- seq_shift, map_map. reflexivity. Qed.
Theorem C114_given_efficiency : forall fs input output suffix bare text Tc Th y rest, fs input = Some text -> load text = Ok (Tc :: Th :: y :: rest) -> y <> [] -> List.length Tc = List.length y -> List.length Th = List.length y ->
  exists rows, List.length rows = List.length y
  /\ (forall i, (i < List.length y)%nat -> nth i rows [] = [Some (nth i Tc 0); Some (nth i Th 0); Some (nth i y 0); Some (ZT_device (nth i y 0) (nth i Tc 0) (nth i Th 0))])
  /\ ztdev load num stamp minimize fs input output suffix bare true = (write fs (suffixed output input suffix None) (savetxt num (S_ "# ") (if bare then [] else ztdev_head stamp) rows), Ok tt).
Proof.
  clear. intros fs input output suffix bare text Tc Th y rest Hf Hl Hy H1 H2. unfold ztdev. rewrite Hf. unfold ztdev_rows. rewrite Hl. cbv beta iota delta [rbind]. rewrite rows3_seq by assumption. destruct y as [|v y']; [congruence|]. remember (v :: y') as y eqn:E. clear E Hy v y'. eexists. split; [|split; [|reflexivity]].
  - rewrite !map_length, seq_length. reflexivity.
  - intros i Hi. rewrite map_map. rewrite map_seq_nth by exact Hi. rewrite zt_device. reflexivity.
Qed.
Theorem C114_failures : forall fs input output suffix bare yita,
  (fs input = None -> ztdev load num stamp minimize fs input output suffix bare yita = (fs, Err FileNotFoundError))
  /\ (forall text cols, fs input = Some text -> load text = Ok cols -> (exists c r, cols = c :: r /\ c <> []) -> (List.length cols < if yita then 3 else 4)%nat -> ztdev load num stamp minimize fs input output suffix bare yita = (fs, Err ValueError))
  /\ (forall fs' r, ztdev load num stamp minimize fs input output suffix bare yita = (fs', r) -> (exists e, r = Err e) -> fs' = fs)
  /\ (forall fs' r, ztdev load num stamp minimize fs input output suffix bare yita = (fs', r) -> same_except fs fs' (suffixed output input suffix None)).
Proof.
  intros fs input output suffix bare yita. repeat split.
  - intros H. unfold ztdev. rewrite H. reflexivity.
  - intros text cols Hf Hl (c & r & -> & Hc) Hn. unfold ztdev. rewrite Hf. unfold ztdev_rows. rewrite Hl. cbv beta iota delta [rbind]. destruct yita.
    + destruct r as [|b [|y r]]; cbn [List.length] in Hn; try lia; reflexivity.
    + destruct c as [|x c]; [congruence|]. destruct r as [|b [|y [|k r]]]; cbn [List.length] in Hn; try lia; reflexivity.
  - intros fs' r H (e & ->). unfold ztdev in H. destruct (fs input); [|congruence]. destruct (ztdev_rows load minimize yita s); congruence.
  - intros fs' r H. unfold ztdev in H. destruct (fs input); [|injection H as <- <-; intros m _; reflexivity]. destruct (ztdev_rows load minimize yita s); injection H as <- <-; [apply write_other|intros m _; reflexivity].
Qed.
End Ztdev.
Print Assumptions C114_temperatures.
Print Assumptions C114_given_efficiency.
Print Assumptions C114_failures.
(** the text of the file: caption and column names behind #, then one line per temperature *)
Theorem C114_file : forall num stamp (bare : bool) rows, one_line stamp ->
  savetxt num (S_ "# ") (if bare then [] else ztdev_head stamp) rows
  = text_of ((if bare then [] else [S_ "# Calculate ZTdev - " ++ stamp; S_ "# Tc     Th       Yita   ZTdev"]) ++ map (@number_line (option R) num) rows).
Proof.
  intros num stamp bare rows Hs. destruct bare; [apply savetxt_bare|]. unfold ztdev_head.
  rewrite (savetxt_text num (S_ "# ") _ [S_ "Calculate ZTdev - " ++ stamp; S_ "Tc     Th       Yita   ZTdev"] rows); [reflexivity|discriminate|].
  assert (Q := lines2 (S_ "Calculate ZTdev - " ++ stamp) (S_ "Tc     Th       Yita   ZTdev")). rewrite <- app_assoc in Q. apply Q.
  - intros H. apply in_app_or in H as [H|H]; [|exact (Hs H)]. cbv in H. repeat (destruct H as [H|H]; [discriminate|]). exact H.
  - intros H. cbv in H. repeat (destruct H as [H|H]; [discriminate|]). exact H.
Qed.
Print Assumptions C114_file.
Example C114_case : let load (_ : str) := Ok [[300; 300]; [300; 400]; [0; 10]] in
  exists rows, List.length rows = 2%nat /\ nth 0 rows [] = [Some 300; Some 300; Some 0; Some (ZT_device 0 300 300)] /\ ZT_device 0 300 300 = 0
  /\ nth 1 rows [] = [Some 300; Some 400; Some 10; Some (ZT_device 10 300 400)] /\ 3.6944 < ZT_device 10 300 400 < 3.6945.
Proof.
  cbn zeta. destruct (C114_given_efficiency (fun _ => Ok [[300; 300]; [300; 400]; [0; 10]]) (fun _ => []) [] mid_minimizer (fun _ => Some []) [] None [] true [] [300; 300] [300; 400] [0; 10] [] eq_refl eq_refl ltac:(discriminate) eq_refl eq_refl) as (rows & Hl & Hn & _).
  exists rows. split; [exact Hl|]. split; [exact (Hn 0%nat ltac:(cbn; lia))|]. split; [|split; [exact (Hn 1%nat ltac:(cbn; lia))|]].
  - unfold ZT_device. destruct (Rlt_dec _ _) as [H|H]; [|reflexivity]. exfalso. replace (300 * (1 - 0 / 100) - 300) with 0 in H by lra. rewrite Rabs_R0 in H. lra.
  - unfold ZT_device. destruct (Rlt_dec _ _) as [H|H]; [lra|]. exfalso. apply H. rewrite Rabs_right; lra.
Qed.

(** ** C115 *)
Section Engout.
Variables (load : str -> res (list (list R))).
Lemma temps_rows row (res_row : nat -> list R) T : (2 <= List.length T)%nat -> (forall i, (1 <= i < List.length T)%nat -> row (nth 0 T 0) (nth i T 0) = Ok (res_row i)) ->
  over_temps row T = Ok (map res_row (seq 1 (List.length T - 1))).
Proof.
  intros H2 H. destruct T as [|t0 T]; [cbn [List.length] in H2; lia|]. destruct T as [|t1 T]; [cbn [List.length] in H2; lia|]. remember (t1 :: T) as U eqn:EU. assert (O : over_temps row (t0 :: U) = mapM (row t0) U) by (rewrite EU; reflexivity). rewrite O. clear O EU t1 T H2. cbn [nth List.length] in H. cbn [List.length]. replace (S (List.length U) - 1)%nat with (List.length U) by lia.
  apply mapM_forall2. assert (G : forall k, (forall i, (i < List.length U)%nat -> row t0 (nth i U 0) = Ok (res_row (k + i)%nat)) -> Forall2 (fun x y => row t0 x = Ok y) U (map res_row (seq k (List.length U)))).
  { clear H. induction U as [|u U IH]; intros k Hk; [constructor|]. cbn [List.length seq map]. constructor.
    - specialize (Hk 0%nat ltac:(cbn [List.length]; lia)). rewrite Nat.add_0_r in Hk. exact Hk.
    - apply IH. intros i Hi. specialize (Hk (S i) ltac:(cbn [List.length]; lia)). rewrite Nat.add_succ_r in Hk. exact Hk. }
  apply G. intros i Hi. exact (H (S i) ltac:(lia)).
Qed.
Lemma incr_span T i : strictly_increasing T -> (1 <= i < List.length T)%nat -> nth 0 T 0 < nth i T 0.
Proof. intros H. induction i as [|[|i] IH]; intros Hi; [lia|apply (H 0%nat); lia|]. apply Rlt_trans with (nth (S i) T 0); [apply IH; lia|apply H; lia]. Qed.
Lemma cond_rho (res : bool) c j : (j < List.length c)%nat -> (res = true -> forall x, In x c -> x <> 0) ->
  1e4 / nth j (if res then invert c else c) 0 = nth j (resistivities res c) 0.
Proof.
  intros Hj Hz. unfold resistivities, invert. destruct res.
  - rewrite (nth_indep _ 0 (1e4 / 0)) by (rewrite map_length; exact Hj). rewrite (map_nth (fun x => 1e4 / x)). specialize (Hz eq_refl _ (nth_In c 0 Hj)). set (x := nth j c 0) in *. assert (G : forall u, u <> 0 -> u / (u / x) = x) by (intros u Hu; field; auto). apply G. lra.
  - rewrite (nth_indep (map _ c) 0 (1e4 / 0)) by (rewrite map_length; exact Hj). rewrite (map_nth (fun x => 1e4 / x)). reflexivity.
Qed.
Lemma cond_len (res : bool) c : List.length (if res then invert c else c) = List.length c.
Proof. destruct res; [apply map_length|reflexivity]. Qed.

Theorem C115_leg : forall text T c Sb K res L, load text = Ok [T; c; Sb; K] ->
  (2 <= List.length T)%nat -> List.length c = List.length T -> List.length Sb = List.length T -> List.length K = List.length T ->
  strictly_increasing T -> 0 < L -> (res = true -> forall x, In x c -> x <> 0) ->
  let dev := leg T (resistivities res c) Sb K in
  (forall i, (1 <= i < List.length T)%nat -> d_rho (dev i) <> 0 /\ d_S (dev i) <> 0) ->
  engout_rows load false res L text = Ok (map (fun i => leg_results L (nth 0 T 0) (nth i T 0) (dev i)) (seq 1 (List.length T - 1))).
Proof.
  intros text T c Sb K res L Hl H2 Hc HS HK HT HL Hz dev Hd. unfold engout_rows. rewrite Hl. cbv beta iota delta [rbind]. cbn [andb List.length Nat.ltb Nat.leb nth]. destruct (Rle_dec L 0) as [X|_]; [lra|].
  set (C := if res then invert c else c). assert (HC : List.length C = List.length T) by (unfold C; rewrite cond_len; exact Hc).
  assert (W : forall (Z : Type) (p q : Z), match T with [] => p | _ => q end = q) by (intros; destruct T; [cbn [List.length] in H2; lia|reflexivity]). rewrite W. clear W.
  apply temps_rows; [exact H2|]. intros i Hi. unfold leg_row, leg_build.
  destruct (leg_itgs T C Sb K HC HS HK HT (resistivities res c) i) as (E1 & E2 & E3 & E4 & E5 & E6 & E7 & E8); [intros j Hj; apply (cond_rho res c j); [lia|exact Hz]|lia|]. fold dev in E4, E5, E6, E7, E8.
  set (g := itgs_tab (points4 T C Sb K) (nth 0 T 0) (nth i T 0)) in *. pose proof (incr_span T i HT Hi) as Sp. destruct (Hd i Hi) as (D1 & D2).
  destruct (built L false g (nth 0 T 0) (nth i T 0 - nth 0 T 0) (dev i) E1 E3 E4 E5 E6 E7 E8 ltac:(lra) ltac:(lra) D1 D2) as (P1 & P2 & (o1 & P3 & P4) & (o2 & P5 & P6)).
  rewrite P3. cbv beta iota delta [rbind]. rewrite P5. rewrite P1, P2, P4, P6. reflexivity.
Qed.

Lemma merged a p n P N Tc Th : iTc p = Tc -> iTc n = Tc -> iDT p = Th - Tc -> iDT n = Th - Tc -> 
  iRho p = d_rho P -> iS p = d_S P -> iK p = d_K P -> iRhoT p = d_rhoT P -> iST p = d_ST P ->
  iRho n = d_rho N -> iS n = d_S N -> iK n = d_K N -> iRhoT n = d_rhoT N -> iST n = d_ST N -> 0 < a ->
  let g := merge 1 a p n in let v := couple a P N in
  iTc g = Tc /\ iDT g = Th - Tc /\ iRho g = d_rho v /\ iS g = d_S v /\ iK g = d_K v /\ iRhoT g = d_rhoT v /\ iST g = d_ST v.
Proof.
  intros A1 A2 A3 A4 B1 B2 B3 B4 B5 D1 D2 D3 D4 D5 Ha. cbn [merge couple iTc iDT iRho iS iK iRhoT iST d_rho d_S d_K d_rhoT d_ST]. rewrite A1, A2, A3, A4, B1, B2, B3, B4, B5, D1, D2, D3, D4, D5. repeat split; field; lra.
Qed.
Lemma pair_row_eq L T Cp Sp Kp Cn Sn Kn rp rn i : List.length Cp = List.length T -> List.length Sp = List.length T -> List.length Kp = List.length T -> List.length Cn = List.length T -> List.length Sn = List.length T -> List.length Kn = List.length T ->
  strictly_increasing T -> 0 < L -> (forall j, (j < List.length T)%nat -> 1e4 / nth j Cp 0 = nth j rp 0) -> (forall j, (j < List.length T)%nat -> 1e4 / nth j Cn 0 = nth j rn 0) -> (1 <= i < List.length T)%nat ->
  let P := leg T rp Sp Kp i in let N := leg T rn Sn Kn i in
  0 < d_rho P -> 0 < d_K P -> 0 < d_rho N -> 0 < d_K N -> d_S P <> d_S N ->
  pair_row L (points4 T Cp Sp Kp) (points4 T Cn Sn Kn) (nth 0 T 0) (nth i T 0) = Ok (couple_results L (nth 0 T 0) (nth i T 0) P N).
Proof.
  intros P1 P2 P3 N1 N2 N3 HT HL Hrp Hrn Hi P N X1 X2 X3 X4 X5. unfold pair_row.
  destruct (leg_itgs T Cp Sp Kp P1 P2 P3 HT rp i Hrp ltac:(lia)) as (E1 & E2 & E3 & E4 & E5 & E6 & E7 & E8). fold P in E4, E5, E6, E7, E8.
  destruct (leg_itgs T Cn Sn Kn N1 N2 N3 HT rn i Hrn ltac:(lia)) as (F1 & F2 & F3 & F4 & F5 & F6 & F7 & F8). fold N in F4, F5, F6, F7, F8.
  set (ip := itgs_tab (points4 T Cp Sp Kp) (nth 0 T 0) (nth i T 0)) in *. set (jn := itgs_tab (points4 T Cn Sn Kn) (nth 0 T 0) (nth i T 0)) in *. pose proof (incr_span T i HT Hi) as Sn'.
  clearbody ip jn. clear Hrp Hrn P1 P2 P3 N1 N2 N3. clearbody P N.
  assert (Rz : pair_build L 100 ip jn 1 (RStr (S_ "ZTengMax")) false = Ok (ratio_ZT P N, build L 100 true (merge 1 (ratio_ZT P N) ip jn))).
  { unfold pair_build, ratio_area. cbn [first_lower]. replace (first_lower (S_ "ZTengMax") "z") with true by reflexivity. cbn [rbind]. unfold ratio_ZT. rewrite <- E4, <- E6, <- F4, <- F6. replace (1 * sqrt (iRho ip / iRho jn * iK jn / iK ip)) with (sqrt (iRho ip * iK jn / (iRho jn * iK ip))); [reflexivity|]. rewrite Rmult_1_l. f_equal. field. rewrite E6, F4. split; lra. }
  assert (Rp : pair_build L 100 ip jn 1 (RStr (S_ "PFengMax")) false = Ok (ratio_PF P N, build L 100 true (merge 1 (ratio_PF P N) ip jn))).
  { unfold pair_build, ratio_area. replace (first_lower (S_ "PFengMax") "z") with false by reflexivity. replace (first_lower (S_ "PFengMax") "p") with true by reflexivity. cbn [rbind]. unfold ratio_PF. rewrite <- E4, <- F4. rewrite Rmult_1_l. reflexivity. }
  assert (Az : 0 < ratio_ZT P N) by (apply sqrt_lt_R0, Rdiv_lt_0_compat; apply Rmult_lt_0_compat; assumption). assert (Ap : 0 < ratio_PF P N) by (apply sqrt_lt_R0, Rdiv_lt_0_compat; assumption).
  assert (Cr : forall a, 0 < a -> d_rho (couple a P N) <> 0 /\ d_S (couple a P N) <> 0).
  { intros a Ha. cbn [couple d_rho d_S]. split; [|lra]. apply Rgt_not_eq. apply Rmult_lt_0_compat; [lra|]. assert (0 < d_rho N / a) by (apply Rdiv_lt_0_compat; assumption). lra. }
  destruct (merged (ratio_ZT P N) ip jn P N _ (nth i T 0) E1 F1 E3 F3 E4 E5 E6 E7 E8 F4 F5 F6 F7 F8 Az) as (Z1 & Z2 & Z3 & Z4 & Z5 & Z6 & Z7).
  destruct (merged (ratio_PF P N) ip jn P N _ (nth i T 0) E1 F1 E3 F3 E4 E5 E6 E7 E8 F4 F5 F6 F7 F8 Ap) as (Y1 & Y2 & Y3 & Y4 & Y5 & Y6 & Y7).
  destruct (Cr _ Az) as (C1' & C2'). destruct (Cr _ Ap) as (C3' & C4').
  destruct (built L true _ _ _ _ Z1 Z2 Z3 Z4 Z5 Z6 Z7 ltac:(lra) ltac:(lra) C1' C2') as (Q1 & Q2 & _ & (o2 & Q5 & Q6)).
  destruct (built L true _ _ _ _ Y1 Y2 Y3 Y4 Y5 Y6 Y7 ltac:(lra) ltac:(lra) C3' C4') as (V1 & V2 & (o1 & V3 & V4) & _).
  rewrite Rz. cbv beta iota delta [rbind snd]. rewrite Q5, Rp. cbv beta iota delta [rbind snd]. rewrite V3. unfold couple_results. rewrite V1, Q2, V4, Q6. reflexivity.
Qed.

Theorem C115_couple : forall text T ca Sa Ka cb Sb Kb rest res L, load text = Ok (T :: ca :: Sa :: Ka :: cb :: Sb :: Kb :: rest) ->
  (2 <= List.length T)%nat -> List.length ca = List.length T -> List.length Sa = List.length T -> List.length Ka = List.length T -> List.length cb = List.length T -> List.length Sb = List.length T -> List.length Kb = List.length T ->
  strictly_increasing T -> 0 < L -> (res = true -> forall x, In x ca \/ In x cb -> x <> 0) ->
  let a := leg T (resistivities res ca) Sa Ka in let b := leg T (resistivities res cb) Sb Kb in
  (forall i, (1 <= i < List.length T)%nat -> 0 < d_rho (a i) /\ 0 < d_K (a i) /\ 0 < d_rho (b i) /\ 0 < d_K (b i) /\ d_S (a i) <> d_S (b i)) ->
  engout_rows load true res L text
  = Ok (map (fun i => if Rlt_dec (average Sa) (average Sb) then couple_results L (nth 0 T 0) (nth i T 0) (b i) (a i) else couple_results L (nth 0 T 0) (nth i T 0) (a i) (b i)) (seq 1 (List.length T - 1))).
Proof.
  intros text T ca Sa Ka cb Sb Kb rest res L Hl H2 A1 A2 A3 B1 B2 B3 HT HL Hz a b Hd. unfold engout_rows. rewrite Hl. cbv beta iota delta [rbind]. cbn [andb List.length Nat.ltb Nat.leb nth]. destruct (Rle_dec L 0) as [X|_]; [lra|].
  change (mean Sa) with (average Sa). change (mean Sb) with (average Sb).
  assert (HCa : List.length (if res then invert ca else ca) = List.length T) by (rewrite cond_len; exact A1). assert (HCb : List.length (if res then invert cb else cb) = List.length T) by (rewrite cond_len; exact B1).
  assert (Ra : forall j, (j < List.length T)%nat -> 1e4 / nth j (if res then invert ca else ca) 0 = nth j (resistivities res ca) 0) by (intros j Hj; apply (cond_rho res ca j); [lia|intros E x Hx; exact (Hz E x (or_introl Hx))]).
  assert (Rb : forall j, (j < List.length T)%nat -> 1e4 / nth j (if res then invert cb else cb) 0 = nth j (resistivities res cb) 0) by (intros j Hj; apply (cond_rho res cb j); [lia|intros E x Hx; exact (Hz E x (or_intror Hx))]).
  destruct (Rlt_dec (average Sa) (average Sb)); (apply temps_rows; [exact H2|]); intros i Hi; destruct (Hd i Hi) as (D1 & D2 & D3 & D4 & D5); apply pair_row_eq; try assumption; intros Q; apply D5; symmetry; exact Q.
Qed.
(** the order of the two legs in the file does not matter unless their averages agree *)
Theorem C115_order : forall t1 t2 T ca Sa Ka cb Sb Kb rest rest' res L, load t1 = Ok (T :: ca :: Sa :: Ka :: cb :: Sb :: Kb :: rest) -> load t2 = Ok (T :: cb :: Sb :: Kb :: ca :: Sa :: Ka :: rest') ->
  average Sa <> average Sb -> engout_rows load true res L t1 = engout_rows load true res L t2.
Proof.
  intros t1 t2 T ca Sa Ka cb Sb Kb rest rest' res L H1 H2 Hne. unfold engout_rows. rewrite H1, H2. cbv beta iota delta [rbind]. cbn [andb List.length Nat.ltb Nat.leb nth]. destruct (Rle_dec L 0); [reflexivity|]. change (mean Sa) with (average Sa). change (mean Sb) with (average Sb).
  destruct (Rlt_dec (average Sa) (average Sb)), (Rlt_dec (average Sb) (average Sa)); try reflexivity; exfalso; lra.
Qed.
Theorem C115_rejected : forall text cols res L, load text = Ok cols ->
  ((List.length cols < 4)%nat -> engout_rows load false res L text = Err ValueError)
  /\ ((List.length cols < 7)%nat -> engout_rows load true res L text = Err ValueError)
  /\ (forall pair : bool, L <= 0 -> engout_rows load pair res L text = Err ValueError)
  /\ ((4 < List.length cols)%nat -> nth 0 cols [] <> [] -> engout_rows load false res L text = Err ValueError)
  /\ (forall pair : bool, ((if pair then 7 else 4) <= List.length cols)%nat -> (pair = false -> List.length cols = 4%nat) -> 0 < L -> (List.length (nth 0 cols []) <= 1)%nat -> engout_rows load pair res L text = Err IndexError).
Proof.
  intros text cols res L Hl. unfold engout_rows. rewrite Hl. cbv beta iota delta [rbind]. repeat split.
  - intros H. cbn [andb]. apply Nat.ltb_lt in H. rewrite H. reflexivity.
  - intros H. cbn [andb]. apply Nat.ltb_lt in H. rewrite H. reflexivity.
  - intros pair HL. destruct (pair && (List.length cols <? 7)%nat)%bool; [reflexivity|]. destruct (List.length cols <? 4)%nat; [reflexivity|]. destruct (Rle_dec L 0); [reflexivity|lra].
  - intros H HT. cbn [andb]. replace (List.length cols <? 4)%nat with false by (symmetry; apply Nat.ltb_ge; lia). destruct (Rle_dec L 0); [reflexivity|]. apply Nat.ltb_lt in H. rewrite H. destruct (nth 0 cols []); [congruence|reflexivity].
  - intros pair Hn Hp HL HT. replace (pair && (List.length cols <? 7)%nat)%bool with false by (symmetry; destruct pair; [apply Nat.ltb_ge; lia|reflexivity]). replace (List.length cols <? 4)%nat with false by (symmetry; apply Nat.ltb_ge; destruct pair; lia). destruct (Rle_dec L 0); [lra|]. destruct (nth 0 cols []) as [|t [|u T]]; cbn [List.length] in HT; [| |lia].
    + destruct pair; [|reflexivity]. destruct (Rlt_dec _ _); reflexivity.
    + destruct pair; [destruct (Rlt_dec _ _); reflexivity|]. rewrite (Hp eq_refl). reflexivity.
Qed.
Theorem C115_command : forall num stamp ltext fs input output suffix bare pair res L,
  (fs input = None -> engout load num stamp ltext fs input output suffix bare pair res L = (fs, Err FileNotFoundError))
  /\ forall text, fs input = Some text ->
     match engout_rows load pair res L text with
     | Err e => engout load num stamp ltext fs input output suffix bare pair res L = (fs, Err e)
     | Ok rows => exists fs', engout load num stamp ltext fs input output suffix bare pair res L = (fs', Ok tt) /\ same_except fs fs' (suffixed output input suffix None)
         /\ (one_line stamp -> one_line ltext -> fs' (suffixed output input suffix None)
             = Some (text_of ((if bare then [] else [S_ "# Engineering performance (L=" ++ ltext ++ S_ "mm, A=100mm^2) - " ++ stamp; S_ "# Tc     Th       PFeng  ZTeng  Pout   Yita"])
                      ++ map (number_line (fun x => num (Some x))) rows)))
     end.
Proof.
  intros num stamp ltext fs input output suffix bare pair res L. split; [intros H; unfold engout; rewrite H; reflexivity|]. intros text H. unfold engout. rewrite H. destruct (engout_rows load pair res L text) as [rows|e]; [|reflexivity]. eexists. split; [reflexivity|]. split; [apply write_other|]. intros Hs Ht. rewrite write_same. f_equal. destruct bare; [apply savetxt_bare|]. unfold engout_head.
  rewrite (savetxt_text _ (S_ "# ") _ [S_ "Engineering performance (L=" ++ ltext ++ S_ "mm, A=100mm^2) - " ++ stamp; S_ "Tc     Th       PFeng  ZTeng  Pout   Yita"] rows); [reflexivity|discriminate|].
  assert (Q := lines2 (S_ "Engineering performance (L=" ++ ltext ++ S_ "mm, A=100mm^2) - " ++ stamp) (S_ "Tc     Th       PFeng  ZTeng  Pout   Yita")). rewrite <- !app_assoc in Q. apply Q.
  - intros Hi. apply in_app_or in Hi as [Hi|Hi]; [cbv in Hi; repeat (destruct Hi as [Hi|Hi]; [discriminate|]); exact Hi|]. apply in_app_or in Hi as [Hi|Hi]; [exact (Ht Hi)|]. apply in_app_or in Hi as [Hi|Hi]; [|exact (Hs Hi)]. cbv in Hi; repeat (destruct Hi as [Hi|Hi]; [discriminate|]); exact Hi.
  - intros Hi. cbv in Hi. repeat (destruct Hi as [Hi|Hi]; [discriminate|]). exact Hi.
Qed.
End Engout.
Print Assumptions C115_leg.
Print Assumptions C115_couple.
Print Assumptions C115_order.
Print Assumptions C115_rejected.
Print Assumptions C115_command.
(** constant properties: 300 to 400 K, 10 uOhm.m, 200 uV/K, 2 W/m/K, so Z = 2e-3 / K and ZT_eng = 0.2; the efficiency is that of the textbook at the mean ZT of 0.7 *)
Example C115_case : let load (_ : str) := Ok [[300; 400]; [10; 10]; [200; 200]; [2; 2]] in
  exists row, engout_rows load false true 2 [] = Ok [row] /\ nth 2 row 0 = 0.4 /\ nth 3 row 0 = 0.2 /\ nth 4 row 0 = 0.5 /\ nth 5 row 0 = best_efficiency 100 300 (Device 1000 20000 200 350000 7000000).
Proof.
  cbn zeta. set (load := fun _ : str => Ok [[300; 400]; [10; 10]; [200; 200]; [2; 2]]).
  assert (D : leg [300; 400] (resistivities true [10; 10]) [200; 200] [2; 2] 1 = Device 1000 20000 200 350000 7000000). { unfold leg, resistivities, times. cbn [trapezoid nth map seq List.length]. f_equal; lra. }
  rewrite (C115_leg load [] [300; 400] [10; 10] [200; 200] [2; 2] true 2 eq_refl ltac:(cbn; lia) eq_refl eq_refl eq_refl); [|intros [|i] Hi; cbn [List.length nth] in *; [lra|lia]|lra|intros _ x [<-|[<-|[]]]; lra|].
  - cbn [List.length Nat.sub seq map]. rewrite D. eexists. split; [reflexivity|]. unfold leg_results. cbn [nth]. unfold power, ZT_eng, Z_eng, PF_eng. cbn [d_rho d_S d_K]. repeat split; try lra. f_equal. lra.
  - intros i Hi. cbn [List.length] in Hi. assert (i = 1%nat) as -> by lia. rewrite D. cbn [d_rho d_S]. split; lra.
Qed.
