(** Lemmas for CmdProps. *)
From Coq Require Import ZArith Reals Lra String Ascii Sorted.
From Verif Require Import Py PyStr RUtil CfgSpec CfgModel CfgProofs KvarSpec KvarModel KvarProofs DataModel SubsModel SubsProofs Regex InstrSpec InstrModel InstrProofs MonoModel InterpSpec InterpModel ZtSpec ZtModel ZtProofs EngSpec EngModel EngProofs TxtSpec TxtModel TxtProofs TxtProps FmtSpec CmdSpec CmdModel.
Local Open Scope list_scope.
Local Open Scope R_scope.
Lemma to_text_of l : to_text l = text_of l. Proof. reflexivity. Qed.
Lemma text_of_app a b : text_of (a ++ b) = text_of a ++ text_of b.
Proof. unfold text_of. rewrite map_app. apply concat_app. Qed.
Lemma prefixed comments ls : ls <> [] -> (comments ++ jn (newline :: comments) ls) ++ nl = text_of (map (app comments) ls).
Proof.
  intros N. induction ls as [|a [|b ls] IH]; [congruence| |].
  - unfold text_of. cbn [map jn List.concat]. rewrite app_nil_r. reflexivity.
  - specialize (IH ltac:(discriminate)). change (jn (newline :: comments) (a :: b :: ls)) with (a ++ (newline :: comments) ++ jn (newline :: comments) (b :: ls)). change (text_of (map (app comments) (a :: b :: ls))) with (((comments ++ a) ++ [lf]) ++ text_of (map (app comments) (b :: ls))). rewrite <- IH. rewrite <- !app_assoc. reflexivity.
Qed.
Section Texts.
Context {X : Type}.
Variable num : X -> str.
Lemma savetxt_text comments h ls rows : h <> [] -> has_lines h ls -> savetxt num comments h rows = text_of (map (app comments) ls ++ map (number_line num) rows).
Proof.
  intros N H. unfold savetxt. assert (L : split_each (is_ch newline) [] h = ls) by (apply has_lines_iff, H). destruct h as [|c h']; [congruence|]. rewrite L, text_of_app. f_equal.
  - rewrite <- prefixed by apply H. unfold to_text. cbn [map List.concat]. apply app_nil_r.
  - unfold to_text, text_of. f_equal. rewrite !map_map. apply map_ext. intros r. unfold number_line. rewrite jn_join. reflexivity.
Qed.
Lemma savetxt_bare comments rows : savetxt num comments [] rows = text_of (map (number_line num) rows).
Proof. unfold savetxt. cbn [app]. unfold to_text, text_of. f_equal. rewrite !map_map. apply map_ext. intros r. unfold number_line. rewrite jn_join. reflexivity. Qed.
Hypothesis Hnum : forall x, plain (num x).
Lemma number_line_words r : words (strip (before_hash (number_line num r))) = map num r.
Proof. unfold number_line. rewrite <- jn_join. apply line_back; [reflexivity|]. apply Forall_forall. intros w Hw. apply in_map_iff in Hw as (x & <- & _). apply Hnum. Qed.
Lemma number_line_lf r : ~ In lf (number_line num r).
Proof. unfold number_line. rewrite <- jn_join. apply (join_sp_clean sp_c); [reflexivity|discriminate|]. apply Forall_forall. intros w Hw. apply in_map_iff in Hw as (x & <- & _). apply Hnum. Qed.
Lemma rows_after hs rows : Forall (fun h => ~ In lf h) hs -> Forall (fun r => r <> []) rows -> rows_of (text_of (hs ++ map (number_line num) rows)) = filter filled_row (map (fun l => words (strip (before_hash l))) hs) ++ map (map num) rows.
Proof.
  intros Hh Hr. rewrite rows_of_text by (apply Forall_app; split; [exact Hh|apply Forall_forall; intros l Hl; apply in_map_iff in Hl as (r & <- & _); apply number_line_lf]). rewrite map_app, filter_app. f_equal. rewrite map_map. rewrite (map_ext _ _ number_line_words). clear Hh. induction Hr as [|r rows H _ IH]; [reflexivity|]. cbn [map filter]. destruct r; [congruence|]. cbn [map filled_row]. rewrite IH. reflexivity.
Qed.
Lemma rows_commented hs rows : Forall (fun h => ~ In lf h) hs -> Forall (fun r => r <> []) rows -> rows_of (text_of (map (cons "#"%char) hs ++ map (number_line num) rows)) = map (map num) rows.
Proof.
  intros Hh Hr. rewrite rows_after; [|apply Forall_forall; intros l Hl; apply in_map_iff in Hl as (h & <- & Hl); rewrite Forall_forall in Hh; intros [Q|Q]; [discriminate|exact (Hh h Hl Q)]|exact Hr].
  rewrite map_map. rewrite (map_ext _ (fun _ => []) (fun t => comment_words t)). assert (Z : filter filled_row (map (fun _ : str => []) hs) = []) by (clear; induction hs as [|h hs IH]; [reflexivity|exact IH]). exact (f_equal2 (@app (list str)) Z eq_refl).
Qed.
End Texts.
(** ** devices *)
Lemma firstn_snoc {A} (l : list A) i x : (i < List.length l)%nat -> firstn (S i) l = firstn i l ++ [nth i l x].
Proof. revert i; induction l as [|a l IH]; intros [|i] H; cbn [List.length] in *; try lia; [reflexivity|]. cbn [nth]. change (firstn (S (S i)) (a :: l)) with (a :: firstn (S i) l). rewrite (IH i) by lia. reflexivity. Qed.
Lemma firstn_snoc2 {A} (l : list A) i x : (S i < List.length l)%nat -> firstn (S (S i)) l = firstn i l ++ nth i l x :: [nth (S i) l x].
Proof. intros H. rewrite (firstn_snoc l (S i) x) by lia. rewrite (firstn_snoc l i x) by lia. rewrite <- app_assoc. reflexivity. Qed.
Lemma trapezoids_firstn f (d : list tp) (x : tp) : forall i, (i < List.length d)%nat -> trapezoids f (firstn (S i) d) = trapezoid (map tT d) (map f d) i.
Proof.
  induction i as [|i IH]; intros H.
  - destruct d; reflexivity.
  - rewrite (firstn_snoc2 d i x) by exact H. rewrite trapezoids_app, <- (firstn_snoc d i x) by lia. rewrite IH by lia. cbn [trapezoids trapezoid].
    assert (N : forall g j, (j < List.length d)%nat -> nth j (map g d) 0 = g (nth j d x)) by (intros g j Hj; rewrite (nth_indep _ 0 (g x)) by (rewrite map_length; exact Hj); apply map_nth). rewrite !N by lia. lra.
Qed.
Lemma tab_int_trapezoid f a r i : increasing_T (a :: r) -> (i < List.length (a :: r))%nat -> tab_int f (a :: r) (tT a) (tT (nth i (a :: r) a)) = trapezoid (map tT (a :: r)) (map f (a :: r)) i.
Proof.
  intros H Hi. destruct i as [|j].
  - cbn [nth trapezoid]. unfold tab_int. lra.
  - rewrite <- (trapezoids_firstn f (a :: r) a) by exact Hi. cbn [List.length] in Hi. change (nth (S j) (a :: r) a) with (nth j r a).
    rewrite (firstn_cons (S j) a r), (firstn_snoc r j a) by lia.
    assert (E : r = firstn j r ++ nth j r a :: skipn (S j) r). { rewrite <- (firstn_skipn (S j) r) at 1. rewrite (firstn_snoc r j a) by lia. rewrite <- app_assoc. reflexivity. }
    rewrite E in H. rewrite E at 1. exact (tab_int_nodes f [] a (firstn j r) (nth j r a) (skipn (S j) r) H).
Qed.
Lemma points4_seq T C S K : List.length C = List.length T -> List.length S = List.length T -> List.length K = List.length T ->
  points4 T C S K = map (fun i => TP (nth i T 0) (nth i C 0) (nth i S 0) (nth i K 0)) (seq 0 (List.length T)).
Proof.
  revert C S K. induction T as [|t T IH]; intros [|c C] [|s S] [|k K] H1 H2 H3; try discriminate; [reflexivity|]. cbn [points4 List.length seq map nth]. f_equal. rewrite IH by (cbn [List.length] in *; lia). rewrite <- seq_shift, map_map. reflexivity.
Qed.
Lemma map_seq_nth {A} (f : nat -> A) n i d : (i < n)%nat -> nth i (map f (seq 0 n)) d = f i.
Proof. intros H. rewrite (nth_indep _ d (f 0%nat)) by (rewrite map_length, seq_length; exact H). rewrite map_nth, seq_nth by exact H. reflexivity. Qed.
Lemma map_nth_seq (l : list R) : map (fun i => nth i l 0) (seq 0 (List.length l)) = l.
Proof. apply (nth_ext _ _ 0 0); rewrite map_length, seq_length; [reflexivity|]. intros n H. exact (map_seq_nth (fun i => nth i l 0) _ n 0 H). Qed.
Lemma trapezoid_ext T T' y y' i : (forall j, (j <= i)%nat -> nth j T 0 = nth j T' 0 /\ nth j y 0 = nth j y' 0) -> trapezoid T y i = trapezoid T' y' i.
Proof.
  induction i as [|i IH]; intros H; [reflexivity|]. cbn [trapezoid]. rewrite IH by (intros j Hj; apply H; lia). destruct (H (S i) ltac:(lia)) as (A1 & A2). destruct (H i ltac:(lia)) as (B1 & B2). rewrite A1, A2, B1, B2. reflexivity.
Qed.
(** columns of equal length with increasing temperatures *)
Section Columns.
Variables (T C Sb K : list R).
Hypotheses (HC : List.length C = List.length T) (HS : List.length Sb = List.length T) (HK : List.length K = List.length T).
Hypothesis HT : forall i, (S i < List.length T)%nat -> nth i T 0 < nth (S i) T 0.
Let d := points4 T C Sb K.
Lemma points_nth i x : (i < List.length T)%nat -> nth i d x = TP (nth i T 0) (nth i C 0) (nth i Sb 0) (nth i K 0).
Proof. intros H. unfold d. rewrite points4_seq by assumption. exact (map_seq_nth (fun i => TP (nth i T 0) (nth i C 0) (nth i Sb 0) (nth i K 0)) _ i x H). Qed.
Lemma points_len : List.length d = List.length T.
Proof. unfold d. rewrite points4_seq by assumption. rewrite map_length, seq_length. reflexivity. Qed.
Lemma points_T : map tT d = T.
Proof. unfold d. rewrite points4_seq by assumption. rewrite map_map. cbn [tT]. apply map_nth_seq. Qed.
Lemma points_map (f : tp -> R) (l : list R) i : (forall j, (j < List.length T)%nat -> f (TP (nth j T 0) (nth j C 0) (nth j Sb 0) (nth j K 0)) = nth j l 0) -> (i < List.length T)%nat -> trapezoid (map tT d) (map f d) i = trapezoid T l i.
Proof.
  intros Hf Hi. apply trapezoid_ext. intros j Hj. rewrite points_T. split; [reflexivity|].
  rewrite (nth_indep _ 0 (f (TP 0 0 0 0))) by (rewrite map_length, points_len; lia). rewrite map_nth, points_nth by lia. apply Hf. lia.
Qed.
Lemma increasing_nth (e : list tp) : (forall i, (S i < List.length e)%nat -> tT (nth i e (TP 0 0 0 0)) < tT (nth (S i) e (TP 0 0 0 0))) -> increasing_T e.
Proof.
  clear. intros H. apply Sorted_StronglySorted; [intros x y z A1 A2; lra|]. induction e as [|a e IH]; [constructor|]. constructor.
  - apply IH. intros i Hi. apply (H (S i)). cbn [List.length]. lia.
  - destruct e as [|b e]; constructor. apply (H 0%nat). cbn [List.length]. lia.
Qed.
Lemma points_incr : increasing_T d.
Proof. apply increasing_nth. rewrite points_len. intros i Hi. rewrite !points_nth by lia. cbn [tT]. apply HT, Hi. Qed.
Lemma leg_int (f : tp -> R) (l : list R) i : (forall j, (j < List.length T)%nat -> f (TP (nth j T 0) (nth j C 0) (nth j Sb 0) (nth j K 0)) = nth j l 0) -> (i < List.length T)%nat ->
  tab_int f d (nth 0 T 0) (nth i T 0) = trapezoid T l i.
Proof.
  intros Hf Hi. rewrite <- (points_map f l i Hf Hi). pose proof points_incr as Hd. pose proof points_len as Hl. pose proof points_nth as Hn.
  assert (E0 : nth 0 T 0 = tT (nth 0 d (TP 0 0 0 0))) by (rewrite Hn by lia; reflexivity). assert (Ei : nth i T 0 = tT (nth i d (TP 0 0 0 0))) by (rewrite Hn by lia; reflexivity).
  rewrite E0, Ei. clear Hn E0 Ei Hf. clearbody d. destruct d as [|a r]; [cbn [List.length] in Hl; lia|]. rewrite (@nth_indep _ (a :: r) i (TP 0 0 0 0) a) by lia. apply tab_int_trapezoid; [exact Hd|lia].
Qed.
Lemma leg_itgs rho i : (forall j, (j < List.length T)%nat -> 1e4 / nth j C 0 = nth j rho 0) -> (i < List.length T)%nat ->
  let g := itgs_tab d (nth 0 T 0) (nth i T 0) in let v := leg T rho Sb K i in
  iTc g = nth 0 T 0 /\ iTh g = nth i T 0 /\ iDT g = nth i T 0 - nth 0 T 0 /\ iRho g = d_rho v /\ iS g = d_S v /\ iK g = d_K v /\ iRhoT g = d_rhoT v /\ iST g = d_ST v.
Proof.
  intros Hr Hi. cbn [itgs_tab iTc iTh iDT iRho iS iK iRhoT iST leg d_rho d_S d_K d_rhoT d_ST]. repeat split.
  - apply leg_int; [|exact Hi]. intros j Hj. unfold rho_of. cbn [tC]. apply Hr, Hj.
  - apply leg_int; [reflexivity|exact Hi].
  - apply leg_int; [reflexivity|exact Hi].
  - apply leg_int; [|exact Hi]. intros j Hj. unfold rho_of, times. cbn [tC tT]. rewrite map_seq_nth by exact Hj. rewrite Hr by exact Hj. reflexivity.
  - apply leg_int; [|exact Hi]. intros j Hj. unfold times. cbn [tS tT]. rewrite map_seq_nth by exact Hj. reflexivity.
Qed.
End Columns.
(** what the outputs of a built device are *)
Lemma built L w g Tc dT v : iTc g = Tc -> iDT g = dT -> iRho g = d_rho v -> iS g = d_S v -> iK g = d_K v -> iRhoT g = d_rhoT v -> iST g = d_ST v ->
  L <> 0 -> dT <> 0 -> d_rho v <> 0 -> d_S v <> 0 ->
  let p := build L 100 w g in
  pPFeng p = PF_eng v /\ pZTeng p = ZT_eng dT v /\ (exists o, one p (S_ "PowerMax") = Ok o /\ oPout o = power dT L v) /\ (exists o, one p (S_ "YitaMax") = Ok o /\ oYita o = best_efficiency dT Tc v).
Proof.
  intros E1 E2 E3 E4 E5 E6 E7 HL HT Hr Hs p.
  assert (P : pPFeng p = PF_eng v). { unfold p, build. unfold PF_eng; replace (d_S v ^ 2) with (d_S v * d_S v) by ring; rewrite <- Rmult_assoc, <- E3, <- E4; destruct w; reflexivity. }
  assert (Z : pZeng p = Z_eng v). { unfold Z_eng. rewrite <- P, <- E5. unfold p, build. destruct w; reflexivity. }
  assert (DT : pDT p = dT) by (rewrite <- E2; unfold p, build; destruct w; reflexivity).
  assert (Q : pQx p = 1e-3 * PF_eng v * dT / L * 100) by (rewrite <- P, <- E2; unfold p, build; destruct w; reflexivity).
  assert (Q0 : pQx p <> 0). { rewrite Q. unfold PF_eng. intros X. assert (Y : 1e-3 * (1e-6 * d_S v ^ 2 / d_rho v) * dT / L * 100 * (d_rho v * L) = 1e-3 * 1e-6 * 100 * (d_S v ^ 2 * dT)) by (field; auto). rewrite X, Rmult_0_l in Y. assert (Y' : d_S v ^ 2 * dT = 0) by lra. apply Rmult_integral in Y' as [Y'|Y']; [|contradiction]. apply (pow_nonzero _ 2) in Hs. contradiction. }
  assert (MS : mST (pmdfs p) = thomson Tc v) by (unfold thomson; rewrite <- E1, <- E4, <- E7; unfold p, build; destruct w; reflexivity).
  assert (MR : mRhoT (pmdfs p) = joule Tc v) by (unfold joule; rewrite <- E1, <- E3, <- E6; unfold p, build; destruct w; reflexivity).
  assert (MO : pm_opt p = sqrt (1 + Z_eng v * (thomson Tc v - joule Tc v))) by (rewrite <- Z, <- MS, <- MR; unfold p, build; destruct w; reflexivity).
  split; [exact P|]. split; [|split].
  - unfold ZT_eng. rewrite <- Z, <- E2. unfold p, build. destruct w; reflexivity.
  - exists (outputs p (1 / 2)). split; [reflexivity|]. cbn [outputs oPout]. rewrite Q. unfold power, Rdiv. lra.
  - exists (outputs p (1 / (1 + pm_opt p))). split; [reflexivity|]. cbn [outputs oYita]. rewrite MS, MR, Z, DT, MO. fold (best_current Tc v). set (r := best_current Tc v). unfold best_efficiency, efficiency. fold r. set (D := 1 / Z_eng v + thomson Tc v * r - joule Tc v * r * r).
    destruct (Req_EM_T D 0) as [D0|D0].
    + rewrite D0. unfold Rdiv. rewrite !Rmult_0_r, !Rmult_0_l, Rinv_0, !Rmult_0_r. reflexivity.
    + field. auto.
Qed.
