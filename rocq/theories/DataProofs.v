From Coq Require Import Sorted ZArith.
From Verif Require Import Py PyDict PyStr RUtil CfgModel DataModel DataSpec.
Local Open Scope nat_scope.

(** ** characters *)
Lemma nat_ascii_lt c : nat_of_ascii c < 256. Proof. apply nat_ascii_bounded. Qed.
Lemma range_spec a n c : a + n <= 256 -> In c (map ascii_of_nat (seq a n)) <-> a <= nat_of_ascii c < a + n.
Proof.
  intros H. rewrite in_map_iff. split.
  - intros (x & <- & Hx). apply in_seq in Hx. rewrite nat_ascii_embedding by lia. lia.
  - intros Hc. exists (nat_of_ascii c). split; [apply ascii_nat_embedding|]. apply in_seq. lia.
Qed.
Lemma is_upper_spec c : is_upper c = true <-> capital c.
Proof.
  unfold is_upper, capital. rewrite range_spec by lia. rewrite andb_true_iff, !Nat.leb_le. lia.
Qed.
Lemma is_tail_spec c : is_tail c = true <-> second c.
Proof.
  unfold is_tail, second, is_lower, is_digit. rewrite !orb_true_iff, !range_spec by lia.
  rewrite !andb_true_iff, !Nat.leb_le. unfold ch_eq. rewrite Ascii.eqb_eq. intuition lia.
Qed.
Lemma second_not_capital c : second c -> ~ capital c.
Proof.
  unfold second, capital. rewrite !range_spec by lia. intros [H|[H| ->]] Hc; [lia|lia|cbn in Hc; lia].
Qed.

(** ** parse_group *)
Lemma group_gap g t : Forall (fun c => ~ capital c) g -> parse_group (g ++ t) = parse_group t.
Proof.
  induction 1 as [|c g Hc Hg IH]; [reflexivity|]. cbn [app parse_group].
  destruct (is_upper c) eqn:E; [apply is_upper_spec in E; contradiction|exact IH].
Qed.
Lemma group_text g0 items :
  Forall (fun c => ~ capital c) g0 ->
  Forall (fun p => identifier (fst p) /\ gap_after (fst p) (snd p)) items ->
  parse_group (g0 ++ flat_map (fun p => fst p ++ snd p) items) = map fst items.
Proof.
  intros H0 H. rewrite group_gap by exact H0. clear H0. induction H as [|[s g] items (Hs & Hg & Hx) Hr IH]; [reflexivity|].
  cbn [flat_map map fst snd] in *. rewrite <- app_assoc.
  destruct Hs as [(c & -> & Hc)|(c & d & -> & Hc & Hd)]; cbn [app].
  - cbn [parse_group]. rewrite (proj2 (is_upper_spec c) Hc).
    destruct (g ++ flat_map (fun p => fst p ++ snd p) items) as [|x r] eqn:E.
    + apply app_eq_nil in E as (_ & E). rewrite E in IH. cbn in IH. rewrite <- IH. reflexivity.
    + assert (Hx' : is_tail x = false).
      { destruct (is_tail x) eqn:Et; [|reflexivity]. apply is_tail_spec in Et. exfalso. destruct g as [|y g].
        - cbn [app] in E. destruct items as [|[s' g'] items]; [discriminate|]. cbn [flat_map fst snd] in E.
          inversion Hr as [|? ? (Hs' & _) _]; subst. cbn [fst] in Hs'.
          assert (capital x) by (destruct Hs' as [(c' & -> & Hc')|(c' & d' & -> & Hc' & _)]; cbn in E; injection E as -> _; exact Hc').
          exact (second_not_capital x Et H).
        - cbn [app] in E. injection E as -> _. exact (Hx eq_refl x g eq_refl Et). }
      rewrite Hx', <- E. f_equal. rewrite group_gap by exact Hg. exact IH.
  - cbn [parse_group]. rewrite (proj2 (is_upper_spec c) Hc), (proj2 (is_tail_spec d) Hd). f_equal.
    rewrite group_gap by exact Hg. exact IH.
Qed.
(** every text is of the above form *)
Lemma group_decompose t : exists g0 items, t = g0 ++ flat_map (fun p => fst p ++ snd p) items
  /\ Forall (fun c => ~ capital c) g0 /\ Forall (fun p => identifier (fst p) /\ gap_after (fst p) (snd p)) items.
Proof.
  remember (length t) as n eqn:En. revert t En. induction n as [n IH] using lt_wf_ind. intros t ->.
  destruct t as [|c r]; [exists [], []; repeat split; constructor|].
  destruct (IH (length r) ltac:(cbn; lia) r eq_refl) as (g0 & items & Er & H0 & Hi).
  destruct (is_upper c) eqn:Ec.
  - apply is_upper_spec in Ec. destruct g0 as [|d g0].
    + exists [], (([c], []) :: items). repeat split; [cbn; rewrite Er; reflexivity|constructor|].
      constructor; [|exact Hi]. cbn. split; [left; exists c; auto|]. split; [constructor|intros _ x y; discriminate].
    + destruct (is_tail d) eqn:Ed.
      * apply is_tail_spec in Ed. exists [], (([c; d], g0) :: items). inversion H0 as [|? ? Hd0 Hg0]; subst.
        repeat split; [constructor|]. constructor; [|exact Hi].
        cbn. split; [right; exists c, d; auto|]. split; [exact Hg0|intros; discriminate].
      * exists [], (([c], d :: g0) :: items). repeat split; [cbn; rewrite Er; reflexivity|constructor|].
        constructor; [|exact Hi]. cbn. split; [left; exists c; auto|]. split; [exact H0|].
        intros _ x y [= <- _] Hs. apply is_tail_spec in Hs. congruence.
  - exists (c :: g0), items. split; [cbn; rewrite Er; reflexivity|]. split; [|exact Hi]. constructor; [|exact H0].
    intros Hc. apply is_upper_spec in Hc. congruence.
Qed.

(** ** rows of a data file *)
Lemma blanks_repeat a s : (s = [] \/ hd "x"%char s <> blank_char) -> blanks (repeat blank_char a ++ s) = a.
Proof.
  intros H. induction a as [|a IH]; cbn; [|rewrite IH; reflexivity].
  destruct s as [|c s]; [reflexivity|]. cbn. unfold sp, ch_eq. destruct (Ascii.eqb_spec c " "); [|reflexivity].
  destruct H as [H|H]; [discriminate|]. cbn in H. unfold blank_char in H. contradiction.
Qed.
Lemma skipn_repeat a s : skipn a (repeat blank_char a ++ s) = s.
Proof. induction a as [|a IH]; cbn; [reflexivity|exact IH]. Qed.
Lemma tail_ok_yes b rest : comment_or_nothing rest -> tail_ok (repeat blank_char b ++ rest) (blanks (repeat blank_char b ++ rest)) = true.
Proof.
  intros H. assert (Hb : blanks (repeat blank_char b ++ rest) = b).
  { apply blanks_repeat. destruct H as [->|(r & ->)]; [left; reflexivity|right; cbn; discriminate]. }
  rewrite Hb. destruct b as [|b]; cbn [tail_ok]; rewrite skipn_repeat;
    (replace (at_end rest) with true; [reflexivity|]); destruct H as [->|(r & ->)]; reflexivity.
Qed.
Lemma at_end_blank s n : n < blanks s -> at_end (skipn n s) = false.
Proof.
  revert s; induction n as [|n IH]; intros [|c s] H; cbn [blanks] in H; try lia; unfold sp, ch_eq in H; destruct (Ascii.eqb_spec c " ") as [->|]; try lia.
  - reflexivity.
  - cbn [skipn]. apply IH. unfold sp, ch_eq in *. lia.
Qed.
Lemma tail_ok_low s n : n < blanks s -> tail_ok s n = false.
Proof.
  induction n as [|n IH]; intros H; cbn [tail_ok]; rewrite at_end_blank by exact H; [reflexivity|]. apply IH. lia.
Qed.
Lemma tail_ok_blanks s : tail_ok s (blanks s) = at_end (skipn (blanks s) s).
Proof.
  destruct (blanks s) as [|n] eqn:E; cbn [tail_ok]; [apply orb_false_r|]. rewrite tail_ok_low by lia. apply orb_false_r.
Qed.
Lemma skipn_blanks_nonblank c s : c <> blank_char -> forall k, k = blanks s -> at_end (skipn k (s ++ [c])) = true -> False \/ c = hash \/ exists r, skipn k s = hash :: r.
Proof.
  intros Hc k ->. induction s as [|d s IH]; cbn.
  - unfold ch_eq. destruct (Ascii.eqb_spec c hash); [auto|discriminate].
  - unfold sp, ch_eq. destruct (Ascii.eqb_spec d " "); [exact IH|]. cbn. unfold ch_eq. destruct (Ascii.eqb_spec d hash) as [->|]; [eauto|discriminate].
Qed.
(** the tail does not match before a non-blank, non-hash character *)
Lemma tail_ok_no u c t : c <> blank_char -> c <> hash -> ~ In hash u -> tail_ok (u ++ c :: t) (blanks (u ++ c :: t)) = false.
Proof.
  intros Hc Hh Hu. rewrite tail_ok_blanks. induction u as [|d u IH]; cbn.
  - unfold sp, ch_eq. destruct (Ascii.eqb_spec c " "); [contradiction|]. cbn. unfold ch_eq. destruct (Ascii.eqb_spec c hash); [contradiction|reflexivity].
  - unfold sp, ch_eq. destruct (Ascii.eqb_spec d " ") as [->|Hd].
    + apply IH. intros H. apply Hu. right; exact H.
    + cbn. unfold ch_eq. destruct (Ascii.eqb_spec d hash) as [->|]; [|reflexivity]. exfalso. apply Hu. left; reflexivity.
Qed.
Lemma lazy_run_text m : forall pre b rest, no_hash m -> m <> [] -> last m "x"%char <> blank_char -> comment_or_nothing rest ->
  lazy_run pre (m ++ repeat blank_char b ++ rest) = Some (rev pre ++ m).
Proof.
  induction m as [|c m IH]; intros pre b rest Hh Hne Hl Hr; [congruence|]. cbn [app lazy_run].
  assert (Hc : ch_eq c hash = false). { unfold ch_eq. destruct (Ascii.eqb_spec c hash) as [->|]; [|reflexivity]. exfalso; apply Hh; left; reflexivity. }
  rewrite Hc. destruct m as [|d m].
  - cbn [app]. rewrite tail_ok_yes by exact Hr. cbn [rev]. reflexivity.
  - assert (Hsnoc : exists u z, d :: m = u ++ [z] /\ z <> blank_char).
    { exists (removelast (d :: m)), (last (d :: m) "x"%char). split; [apply app_removelast_last; discriminate|].
      exact Hl. }
    destruct Hsnoc as (u & z & E & Hz). rewrite E, <- app_assoc. cbn [app].
    assert (Hin : forall x, In x (u ++ [z]) -> x <> hash).
    { intros x Hx ->. rewrite <- E in Hx. apply Hh. right. exact Hx. }
    rewrite tail_ok_no; [|exact Hz|apply Hin; apply in_or_app; right; left; reflexivity|intros Hx; apply (Hin hash); [apply in_or_app; left; exact Hx|reflexivity]].
    change (z :: repeat blank_char b ++ rest) with ([z] ++ repeat blank_char b ++ rest). rewrite app_assoc, <- E. 
    rewrite IH; [|intros H; apply Hh; right; exact H|discriminate|exact Hl|exact Hr]. cbn [rev]. rewrite <- app_assoc. reflexivity.
Qed.
Lemma match_row_text a m b rest : no_hash m -> trimmed m -> comment_or_nothing rest ->
  match_row (repeat blank_char a ++ m ++ repeat blank_char b ++ rest) = Some m.
Proof.
  intros Hh (Hne & Hf & Hl) Hr. unfold match_row. rewrite blanks_repeat by (right; destruct m; [congruence|exact Hf]).
  destruct a as [|a]; cbn [match_row_from]; rewrite skipn_repeat; rewrite (lazy_run_text m [] b rest Hh Hne Hl Hr); reflexivity.
Qed.
Lemma match_row_none rest : comment_or_nothing rest -> match_row rest = None.
Proof. intros [->|(r & ->)]; reflexivity. Qed.
Lemma match_row_blank a rest : comment_or_nothing rest -> match_row (repeat blank_char (S a) ++ rest) = Some [blank_char].
Proof.
  intros Hr. unfold match_row. rewrite blanks_repeat by (destruct Hr as [->|(r & ->)]; [left; reflexivity|right; cbn; discriminate]).
  cbn [match_row_from]. rewrite skipn_repeat.
  assert (E0 : lazy_run [] rest = None) by (destruct Hr as [->|(r & ->)]; reflexivity). rewrite E0.
  assert (E1 : skipn a (repeat blank_char (S a) ++ rest) = blank_char :: rest).
  { clear. induction a as [|a IH]; [reflexivity|]. cbn in *. exact IH. }
  assert (E2 : lazy_run [] (blank_char :: rest) = Some [blank_char]).
  { cbn [lazy_run]. change (ch_eq blank_char hash) with false. cbv iota. pose proof (tail_ok_yes 0 rest Hr) as Et. cbn [repeat app] in Et. rewrite Et. reflexivity. }
  destruct a as [|a]; cbn [match_row_from]; rewrite E1, E2; reflexivity.
Qed.
Lemma rstrip_id s : (s = [] \/ is_space (last s "x"%char) = false) -> rstrip s = s.
Proof.
  intros [->|H]; [reflexivity|]. unfold rstrip. destruct s as [|c s] using rev_ind; [reflexivity|].
  rewrite last_last in H. rewrite rev_app_distr. cbn. rewrite H. cbn. rewrite rev_involutive. reflexivity.
Qed.
Lemma lstrip_spaces w s : Forall (fun c => is_space c = true) w -> lstrip_by is_space (w ++ s) = lstrip_by is_space s.
Proof. induction 1 as [|c w Hc _ IH]; [reflexivity|]. cbn. rewrite Hc. exact IH. Qed.
Lemma rstrip_app s w : Forall (fun c => is_space c = true) w -> rstrip (s ++ w) = rstrip s.
Proof.
  intros H. unfold rstrip. rewrite rev_app_distr, lstrip_spaces; [reflexivity|]. apply Forall_rev. exact H.
Qed.

(** words separated by single blanks *)
Lemma split_word_then w : forall cur t b, Forall (fun c => is_space c = false) w -> w <> [] ->
  split_class is_space cur b (w ++ t) = split_class is_space (rev w ++ cur) false t.
Proof.
  induction w as [|c w IH]; intros cur t b H Hne; [congruence|]. inversion H as [|? ? Hc Hw]; subst. cbn. rewrite Hc.
  destruct w as [|d w]; [reflexivity|]. rewrite IH by (exact Hw || discriminate). rewrite <- app_assoc. reflexivity.
Qed.
Lemma split_words ws : ws <> [] -> Forall plain_word ws -> split_class is_space [] false (words_line ws) = ws.
Proof.
  intros Hne H. destruct H as [|w ws Hw Hws]; [congruence|]. clear Hne. revert w Hw.
  induction Hws as [|v ws Hv Hws IH]; intros w (Hn & Hf).
  - cbn. rewrite (split_word_then w [] [] false); [|eapply Forall_impl; [|exact Hf]; cbn; tauto|exact Hn].
    cbn. rewrite app_nil_r, rev_involutive. reflexivity.
  - cbn [words_line flat_map] in *. rewrite (split_word_then w); [|eapply Forall_impl; [|exact Hf]; cbn; tauto|exact Hn].
    cbn [app split_class]. change (is_space blank_char) with true. cbv iota. rewrite app_nil_r, rev_involutive. f_equal.
    specialize (IH v Hv). destruct Hv as (Hn' & Hf').
    rewrite (split_word_then v) in IH |- * by (solve [exact Hn'|eapply Forall_impl; [|exact Hf']; cbn; tauto]). exact IH.
Qed.
Lemma is_space_blank c : is_space c = false -> c <> blank_char.
Proof. intros H ->. discriminate. Qed.
Lemma words_trimmed ws : ws <> [] -> Forall plain_word ws -> trimmed (words_line ws) /\ no_hash (words_line ws) /\ is_space (last (words_line ws) "x"%char) = false.
Proof.
  intros Hne H. destruct H as [|w ws (Hn & Hf) Hws]; [congruence|].
  assert (L : forall ws w, w <> [] -> Forall (fun c => is_space c = false /\ c <> "#"%char) w -> Forall plain_word ws ->
     is_space (last (w ++ flat_map (fun x => blank_char :: x) ws) "x"%char) = false).
  { clear. intros ws w Hn Hf Hws. revert w Hn Hf. induction Hws as [|v ws (Hv & Hvf) Hws IH]; intros w Hn Hf.
    - cbn. rewrite app_nil_r. destruct w as [|c w] using rev_ind; [congruence|]. rewrite last_last.
      rewrite Forall_app in Hf. destruct Hf as (_ & Hf). inversion Hf; tauto.
    - cbn [flat_map]. replace (w ++ (blank_char :: v) ++ flat_map (fun x => blank_char :: x) ws) with ((w ++ [blank_char]) ++ (v ++ flat_map (fun x => blank_char :: x) ws)) by (rewrite <- !app_assoc; reflexivity).
      specialize (IH v Hv Hvf). destruct (v ++ flat_map (fun x => blank_char :: x) ws) as [|y z] eqn:E; [destruct v; [congruence|discriminate]|].
      etransitivity; [|exact IH]. f_equal. clear. induction (w ++ [blank_char]) as [|a l IH]; [reflexivity|]. cbn [app]. cbn [last].
      destruct (l ++ y :: z) eqn:E; [destruct l; discriminate|exact IH]. }
  pose proof (L ws w Hn Hf Hws) as HL. split; [|split; [|exact HL]].
  - split; [destruct w; [congruence|discriminate]|]. split.
    + destruct w as [|c w]; [congruence|]. cbn. inversion Hf as [|? ? (Hc & _) _]; subst. apply is_space_blank; exact Hc.
    + apply is_space_blank. exact HL.
  - intros Hin. cbn in Hin. apply in_app_or in Hin as [Hin|Hin].
    + rewrite Forall_forall in Hf. destruct (Hf _ Hin) as (_ & Hx). congruence.
    + apply in_flat_map in Hin as (v & Hv & [Hin|Hin]); [discriminate|]. rewrite Forall_forall in Hws. destruct (Hws _ Hv) as (_ & Hvf).
      rewrite Forall_forall in Hvf. destruct (Hvf _ Hin) as (_ & Hx). congruence.
Qed.

(** ** construction of data sets *)
Definition coherent (d : dataset) : Prop :=
  wf (ddata d) /\ dkeys (dtemp d) = dkeys (ddata d) /\ dkeys (dtidx d) = dkeys (ddata d).
Lemma init1_coherent g data : coherent (init1 g data).
Proof.
  unfold init1, coherent. cbn. split; [apply dupdate_wf; constructor|]. unfold dkeys. rewrite !map_map. split; reflexivity.
Qed.
Lemma dset_keys_eq {V W} (a : dict str V) (b : dict str W) k v w : dkeys a = dkeys b -> dkeys (dset a k v) = dkeys (dset b k w).
Proof.
  intros H. destruct (in_dec eq_dec k (dkeys a)) as [Hi|Hi].
  - rewrite !dset_keys_in; [exact H|rewrite <- H; exact Hi|exact Hi].
  - rewrite !dset_keys_notin; [|rewrite <- H; exact Hi|exact Hi]. unfold dkeys in *. rewrite !map_app, H. reflexivity.
Qed.
Lemma init2_loop_coherent all z : forall i idx acc d, coherent acc -> init2_loop all i idx z acc = Ok d -> coherent d.
Proof.
  induction z as [|[g c] z IH]; intros i idx acc d Hc; cbn [init2_loop]; [congruence|].
  destruct (eqb g kT); [apply IH; exact Hc|]. destruct (idx <? i); [|discriminate].
  apply IH. destruct (eqb g kX); [exact Hc|]. destruct Hc as (W & E1 & E2). split; cbn.
  - apply dset_wf; exact W.
  - split; apply dset_keys_eq; assumption.
Qed.
Lemma init2_coherent g data d : init2 g data = Ok d -> coherent d.
Proof. apply init2_loop_coherent. repeat split; constructor. Qed.

(** same-index columns share the temperature array *)
Definition temp_of_idx (f : Z -> option arr) (d : dataset) : Prop :=
  forall k i, dget (dtidx d) k = Some i -> dget (dtemp d) k = Some (f i).
Lemma init1_temp g data : temp_of_idx (fun _ => None) (init1 g data).
Proof.
  intros k i. unfold init1; cbn. set (m := dupdate _ _). clearbody m. induction m as [|[a b] m IH]; cbn; [discriminate|].
  destruct (eqb k a); [reflexivity|exact IH].
Qed.
Lemma init2_loop_temp all z : forall i idx acc d, temp_of_idx (fun j => Some (nth (Z.to_nat j) all [])) acc ->
  init2_loop all i idx z acc = Ok d -> temp_of_idx (fun j => Some (nth (Z.to_nat j) all [])) d.
Proof.
  induction z as [|[g c] z IH]; intros i idx acc d Hc; cbn [init2_loop]; [intros [= <-]; exact Hc|].
  destruct (eqb g kT); [apply IH; exact Hc|]. destruct (idx <? i); [|discriminate].
  apply IH. destruct (eqb g kX); [exact Hc|]. intros k j. cbn [dtidx dtemp]. rewrite !dget_dset.
  destruct (eqb k g); [|apply Hc]. intros [= <-]. rewrite Nat2Z.id. reflexivity.
Qed.
Lemma init2_temp g data d : init2 g data = Ok d -> temp_of_idx (fun j => Some (nth (Z.to_nat j) data [])) d.
Proof. apply init2_loop_temp. intros k i H; discriminate. Qed.

(** what [init2] stores *)
Definition stored (all : list arr) (pre : list (str * arr)) (acc : dataset) : Prop :=
  forall key,
    (~ In key (map fst pre) \/ key = kT \/ key = kX ->
       dget (ddata acc) key = None /\ dget (dtemp acc) key = None /\ dget (dtidx acc) key = None)
    /\ (key <> kT -> key <> kX -> forall i, last_position (fun p => fst p = key) pre i ->
        exists j, j < i /\ nth_error (map fst pre) j = Some kT /\ (forall k, j < k < i -> nth_error (map fst pre) k <> Some kT)
          /\ dget (ddata acc) key = option_map snd (nth_error pre i) /\ dget (dtemp acc) key = Some (Some (nth j all []))
          /\ dget (dtidx acc) key = Some (Z.of_nat j)).
Definition last_T (pre : list (str * arr)) (idx : nat) : Prop :=
  pre = [] /\ idx = 0 \/
  nth_error (map fst pre) idx = Some kT /\ (forall k, idx < k -> nth_error (map fst pre) k <> Some kT).
Lemma last_position_snoc {A} (P : A -> Prop) l x i : last_position P (l ++ [x]) i ->
  (i = length l /\ P x) \/ (i < length l /\ ~ P x /\ last_position P l i).
Proof.
  intros ((y & Hy & HP) & Hl). assert (Hi : i < length (l ++ [x])) by (apply nth_error_Some; congruence).
  rewrite app_length in Hi; cbn in Hi.
  destruct (Nat.eq_dec i (length l)) as [->|Hne].
  - left. split; [reflexivity|]. rewrite nth_error_app2 in Hy by lia. rewrite Nat.sub_diag in Hy. cbn in Hy. congruence.
  - right. split; [lia|]. split.
    + apply (Hl (length l)); [lia|]. rewrite nth_error_app2 by lia. rewrite Nat.sub_diag. reflexivity.
    + split; [exists y; split; [rewrite nth_error_app1 in Hy by lia; exact Hy|exact HP]|].
      intros j z Hj Hz. apply (Hl j z Hj). rewrite nth_error_app1; [exact Hz|]. apply nth_error_Some. congruence.
Qed.
Lemma kT_kX : kT <> kX. Proof. discriminate. Qed.
Lemma init2_loop_stored all z : forall pre idx acc d, (pre = [] -> z = [] \/ exists c r, z = (kT, c) :: r) ->
  stored all pre acc -> last_T pre idx -> init2_loop all (length pre) idx z acc = Ok d -> stored all (pre ++ z) d.
Proof.
  induction z as [|[g c] z IH]; intros pre idx acc d H0 Hs HT; cbn [init2_loop].
  - intros [= <-]. rewrite app_nil_r. exact Hs.
  - assert (Happ : pre ++ (g, c) :: z = (pre ++ [(g, c)]) ++ z) by (rewrite <- app_assoc; reflexivity).
    assert (Hlen : S (length pre) = length (pre ++ [(g, c)])) by (rewrite app_length; cbn; lia).
    assert (Hn0 : pre ++ [(g, c)] = [] -> z = [] \/ exists c0 r, z = (kT, c0) :: r) by (intros E; destruct pre; discriminate).
    destruct (eqb g kT) eqn:Eg.
    + apply eqb_eq in Eg; subst g. rewrite Happ, Hlen. apply IH; [exact Hn0| |].
      * intros key. destruct (Hs key) as (A & B). split.
        -- intros H. apply A. destruct H as [H|H]; [|right; exact H]. rewrite map_app, in_app_iff in H. left. tauto.
        -- intros Hk1 Hk2 i Hi. apply last_position_snoc in Hi as [(-> & E)|(Hi & _ & Hl)]; [cbn in E; congruence|].
           destruct (B Hk1 Hk2 i Hl) as (j & Hj & J1 & J2 & J3 & J4 & J5). exists j.
           split; [exact Hj|]. rewrite map_app. split; [rewrite nth_error_app1 by (rewrite map_length; lia); exact J1|].
           split; [intros k Hk; rewrite nth_error_app1 by (rewrite map_length; lia); apply J2; lia|].
           rewrite nth_error_app1 by lia. auto.
      * right. rewrite map_app. split.
        -- rewrite nth_error_app2 by (rewrite map_length; lia). rewrite map_length, Nat.sub_diag. reflexivity.
        -- intros k Hk. rewrite (proj2 (nth_error_None _ _)); [discriminate|]. rewrite app_length, map_length. cbn. lia.
    + apply eqb_neq in Eg. destruct (idx <? length pre) eqn:Ei; [|discriminate]. apply Nat.ltb_lt in Ei.
      destruct HT as [(-> & ->)|(T1 & T2)]; [cbn in Ei; lia|].
      intros Hd. rewrite Happ. revert Hd. rewrite Hlen. apply IH; [exact Hn0| |].
      * intros key. destruct (Hs key) as (A & B). destruct (eqb g kX) eqn:Ex.
        -- apply eqb_eq in Ex; subst g. split.
           ++ intros H. apply A. destruct H as [H|H]; [|right; exact H]. rewrite map_app, in_app_iff in H. left. tauto.
           ++ intros Hk1 Hk2 i Hi. apply last_position_snoc in Hi as [(-> & E)|(Hi & _ & Hl)]; [cbn in E; congruence|].
              destruct (B Hk1 Hk2 i Hl) as (j & Hj & J1 & J2 & J3 & J4 & J5). exists j.
              split; [exact Hj|]. rewrite map_app. split; [rewrite nth_error_app1 by (rewrite map_length; lia); exact J1|].
              split; [intros k Hk; rewrite nth_error_app1 by (rewrite map_length; lia); apply J2; lia|].
              rewrite nth_error_app1 by lia. auto.
        -- apply eqb_neq in Ex. cbn [ddata dtemp dtidx]. rewrite !dget_dset. destruct (eqb key g) eqn:Ek.
           ++ apply eqb_eq in Ek; subst key. split.
              ** intros [H|[H|H]]; [|congruence|congruence]. exfalso. apply H. rewrite map_app, in_app_iff. right; left; reflexivity.
              ** intros _ _ i Hi. apply last_position_snoc in Hi as [(-> & _)|(_ & E & _)]; [|cbn in E; congruence].
                 exists idx. split; [exact Ei|]. rewrite map_app. split; [rewrite nth_error_app1 by (rewrite map_length; lia); exact T1|].
                 split; [intros k Hk; rewrite nth_error_app1 by (rewrite map_length; lia); apply T2; lia|].
                 rewrite nth_error_app2 by lia. rewrite Nat.sub_diag. cbn. auto.
           ++ apply eqb_neq in Ek. split.
              ** intros H. apply A. destruct H as [H|H]; [|right; exact H]. rewrite map_app, in_app_iff in H. left. tauto.
              ** intros Hk1 Hk2 i Hi. apply last_position_snoc in Hi as [(-> & E)|(Hi & _ & Hl)]; [cbn in E; congruence|].
                 destruct (B Hk1 Hk2 i Hl) as (j & Hj & J1 & J2 & J3 & J4 & J5). exists j.
                 split; [exact Hj|]. rewrite map_app. split; [rewrite nth_error_app1 by (rewrite map_length; lia); exact J1|].
                 split; [intros k Hk; rewrite nth_error_app1 by (rewrite map_length; lia); apply J2; lia|].
                 rewrite nth_error_app1 by lia. auto.
      * right. rewrite map_app. split; [rewrite nth_error_app1 by (rewrite map_length; lia); exact T1|].
        intros k Hk. destruct (Nat.eq_dec k (length pre)) as [->|Hne].
        -- rewrite nth_error_app2 by (rewrite map_length; lia). rewrite map_length, Nat.sub_diag. cbn. congruence.
        -- destruct (Nat.lt_ge_cases k (length pre)).
           ++ rewrite nth_error_app1 by (rewrite map_length; lia). apply T2; exact Hk.
           ++ rewrite (proj2 (nth_error_None _ _)); [discriminate|]. rewrite app_length, map_length. cbn. lia.
Qed.
Lemma init2_loop_total all z : forall i idx acc, idx < i -> exists d, init2_loop all i idx z acc = Ok d.
Proof.
  induction z as [|[g c] z IH]; intros i idx acc H; cbn [init2_loop]; [eauto|].
  destruct (eqb g kT); [apply IH; lia|]. rewrite (proj2 (Nat.ltb_lt _ _) H). apply IH. lia.
Qed.
Lemma init2_total g data : (exists d, init2 g data = Ok d) <-> (combine g data = [] \/ exists c r, combine g data = (kT, c) :: r).
Proof.
  unfold init2. destruct (combine g data) as [|[h c] z].
  - split; [auto|]. intros _. cbn. eauto.
  - cbn [init2_loop]. destruct (eqb h kT) eqn:E.
    + apply eqb_eq in E; subst h. split; [eauto|]. intros _. destruct z as [|[h' c'] z]; [cbn; eauto|]. 
      apply init2_loop_total. lia.
    + apply eqb_neq in E. change (0 <? 0) with false. cbv iota. split; [intros (d & H); discriminate|].
      intros [H|(c' & r & H)]; [discriminate|]. congruence.
Qed.
Lemma init2_stored g data d : init2 g data = Ok d -> stored data (combine g data) d.
Proof.
  intros H. assert (Ht : combine g data = [] \/ exists c r, combine g data = (kT, c) :: r) by (apply init2_total; eauto).
  change (combine g data) with ([] ++ combine g data). apply (init2_loop_stored data (combine g data) [] 0 (DS [] [] []) d); [intros _; exact Ht| | |exact H].
  - intros key. split; [intros _; repeat split|]. intros _ _ i ((x & Hx & _) & _). destruct i; discriminate.
  - left; auto.
Qed.

(** ** filtering of rows *)
Lemma nth_map_seq {A} (f : nat -> A) n k d : k < n -> nth k (map f (seq 0 n)) d = f k.
Proof.
  intros H. rewrite nth_indep with (d' := f 0) by (rewrite map_length, seq_length; exact H). rewrite map_nth, seq_nth by exact H. reflexivity.
Qed.
Lemma columns_length rows : length (columns rows) = width rows.
Proof. unfold columns. rewrite map_length, seq_length. reflexivity. Qed.
Lemma columns_cell rows i j : nth i (nth j (columns rows) []) None = table_cell rows i j.
Proof.
  unfold table_cell. destruct (Nat.lt_ge_cases j (width rows)) as [H|H].
  - unfold columns. rewrite nth_map_seq by exact H. destruct (Nat.lt_ge_cases i (length rows)) as [Hi|Hi].
    + rewrite nth_indep with (d' := nth j [] None) by (rewrite map_length; exact Hi). 
      rewrite (map_nth (fun row => nth j row None)). reflexivity.
    + rewrite !nth_overflow; [reflexivity|rewrite nth_overflow by lia; cbn; lia|rewrite map_length; lia].
  - rewrite (nth_overflow (columns rows)) by (rewrite columns_length; exact H).
    assert (Hw : length (nth i rows []) <= width rows).
    { clear. unfold width. revert i. induction rows as [|r rows IH]; intros [|i]; cbn; try lia. specialize (IH i). lia. }
    rewrite (nth_overflow (nth i rows [])) by lia. destruct i; reflexivity.
Qed.
Lemma columns_len_each rows c : In c (columns rows) -> length c = length rows.
Proof. unfold columns. rewrite in_map_iff. intros (j & <- & _). apply map_length. Qed.

Definition blk_rows (data : list arr) (p q n : nat) : list nat := filter (row_ok (firstn (q - p) (skipn p data))) (seq 0 n).
Lemma filter_block_spec data n p q data' : (forall c, In c (firstn (q - p) (skipn p data)) -> length c = n) ->
  filter_block data p q = Ok data' -> p <= q ->
  length data' = length data /\ p < length data /\
  forall k, nth k data' [] = if (p <=? k) && (k <? q) && (k <? length data)
                             then map (fun i => nth i (nth k data []) None) (blk_rows data p q n) else nth k data [].
Proof.
  intros Hlen H Hpq. unfold filter_block in H. set (blk := firstn (q - p) (skipn p data)) in *.
  assert (Hne : blk <> []) by (intros E; rewrite E in H; discriminate).
  assert (Hp : p < length data).
  { destruct (Nat.lt_ge_cases p (length data)); [assumption|]. exfalso; apply Hne. unfold blk. rewrite skipn_all2 by lia. apply firstn_nil. }
  assert (Hd : data' = firstn p data ++ nan_filter blk ++ skipn q data) by (destruct blk; [congruence|injection H as <-; reflexivity]). clear H.
  assert (Hbl : length blk = Nat.min (q - p) (length data - p)) by (unfold blk; rewrite firstn_length, skipn_length; reflexivity).
  assert (Hnl : length (nan_filter blk) = length blk) by (unfold nan_filter; apply map_length).
  split.
  { rewrite Hd, !app_length, Hnl, Hbl, firstn_length, skipn_length. lia. }
  split; [exact Hp|]. intros k. rewrite Hd.
  destruct (Nat.leb_spec p k) as [H1|H1]; cbn [andb].
  - rewrite app_nth2 by (rewrite firstn_length; lia). rewrite firstn_length_le by lia.
    destruct (Nat.ltb_spec k q) as [H2|H2]; cbn [andb].
    + destruct (Nat.ltb_spec k (length data)) as [H3|H3].
      * rewrite app_nth1 by lia. unfold nan_filter, blk_rows. fold blk.
        assert (En : match blk with [] => 0 | c :: _ => length c end = n).
        { destruct blk as [|c b]; [congruence|]. apply Hlen. left; reflexivity. }
        rewrite En. set (idx := filter (row_ok blk) (seq 0 n)).
        rewrite nth_indep with (d' := map (fun i => nth i [] None) idx) by (rewrite map_length; lia).
        rewrite (map_nth (fun c => map (fun i => nth i c None) idx)).
        replace (nth (k - p) blk []) with (nth k data []); [reflexivity|].
        unfold blk. rewrite <- (firstn_skipn p data) at 1. rewrite app_nth2 by (rewrite firstn_length; lia). rewrite firstn_length_le by lia.
        set (s := skipn p data). rewrite <- (firstn_skipn (q - p) s) at 1.
        rewrite app_nth1; [reflexivity|]. rewrite firstn_length. unfold s. rewrite skipn_length. lia.
      * rewrite app_nth2 by lia. rewrite (nth_overflow data) by lia. apply nth_overflow. rewrite skipn_length. lia.
    + rewrite app_nth2 by lia. rewrite Hnl, Hbl.
      destruct (Nat.lt_ge_cases k (length data)) as [H3|H3].
      * rewrite Nat.min_l by lia. rewrite <- (firstn_skipn q data) at 2. rewrite app_nth2 by (rewrite firstn_length; lia).
        rewrite firstn_length_le by lia. f_equal. lia.
      * rewrite (nth_overflow data) by lia. apply nth_overflow. rewrite skipn_length. lia.
  - rewrite app_nth1 by (rewrite firstn_length; lia). rewrite <- (firstn_skipn p data) at 2.
    rewrite app_nth1 by (rewrite firstn_length; lia). reflexivity.
Qed.
Lemma firstn_skipn_ext {A} (dflt : A) (a b : list A) p n : length a = length b -> (forall k, p <= k -> nth k a dflt = nth k b dflt) ->
  firstn n (skipn p a) = firstn n (skipn p b).
Proof.
  intros Hl H. f_equal. apply (nth_ext _ _ dflt dflt).
  - rewrite !skipn_length, Hl. reflexivity.
  - intros k _. assert (E : forall l, nth k (skipn p l) dflt = nth (p + k) l dflt).
    { intros l. revert l. clear. induction p as [|p IH]; intros l; [reflexivity|]. destruct l; [cbn; destruct k; reflexivity|apply IH]. }
    rewrite !E. apply H. lia.
Qed.
(** consecutive blocks starting at [p] *)
Fixpoint chained (p : nat) (pqs : list (nat * nat)) : Prop :=
  match pqs with [] => True | (a, b) :: r => p <= a /\ a < b /\ chained b r end.
Lemma chained_weaken p q l : p <= q -> chained q l -> chained p l.
Proof. destruct l as [|[a b] l]; cbn; intuition lia. Qed.
Lemma filter_blocks_spec n pqs : forall data data' lo, chained lo pqs -> (forall k, lo <= k < length data -> length (nth k data []) = n) ->
  filter_blocks data pqs = Ok data' ->
  length data' = length data /\
  (forall k, k < lo -> nth k data' [] = nth k data []) /\
  (forall p q, In (p, q) pqs -> forall k, p <= k < q -> k < length data ->
     nth k data' [] = map (fun i => nth i (nth k data []) None) (blk_rows data p q n)).
Proof.
  induction pqs as [|[a b] r IH]; intros data data' lo Hc Hn H; cbn [filter_blocks] in H.
  - injection H as <-. repeat split. intros p q [].
  - destruct Hc as (Ha & Hab & Hr). destruct (filter_block data a b) as [d1|e] eqn:E; [|discriminate]. cbn [rbind] in H.
    assert (Hin : forall c, In c (firstn (b - a) (skipn a data)) -> length c = n).
    { intros c Hc. apply (In_nth _ _ []) in Hc as (k & Hk & <-). 
      rewrite firstn_length, skipn_length in Hk. 
      assert (Ek : nth k (firstn (b - a) (skipn a data)) [] = nth (a + k) data []).
      { rewrite <- (firstn_skipn a data) at 2. rewrite app_nth2 by (rewrite firstn_length; lia). rewrite firstn_length_le by lia.
        replace (a + k - a) with k by lia. rewrite <- (firstn_skipn (b - a) (skipn a data)) at 2.
        rewrite app_nth1 by (rewrite firstn_length, skipn_length; lia). reflexivity. }
      rewrite Ek. apply Hn. lia. }
    destruct (filter_block_spec data n a b d1 Hin E ltac:(lia)) as (L1 & La & N1).
    assert (Hn1 : forall k, b <= k < length d1 -> length (nth k d1 []) = n).
    { intros k Hk. rewrite N1. destruct (Nat.ltb_spec k b); [lia|]. rewrite andb_false_r. cbn. apply Hn. lia. }
    destruct (IH d1 data' b Hr Hn1 H) as (L2 & P2 & Q2).
    split; [lia|]. split.
    + intros k Hk. rewrite P2 by lia. rewrite N1. destruct (Nat.leb_spec a k); [lia|]. reflexivity.
    + intros p q [[= <- <-]|Hpq] k Hk Hkl.
      * rewrite P2 by lia. rewrite N1. rewrite (proj2 (Nat.leb_le _ _)) by lia. rewrite !(proj2 (Nat.ltb_lt _ _)) by lia. reflexivity.
      * assert (Hbp : b <= p).
        { clear -Hr Hpq. revert b Hr. induction r as [|[x y] r IH]; intros b Hr; [destruct Hpq|]. destruct Hr as (H1 & H2 & H3).
          destruct Hpq as [[= <- <-]|Hpq]; [exact H1|]. specialize (IH Hpq y H3). lia. }
        rewrite (Q2 p q Hpq k Hk ltac:(lia)). unfold blk_rows.
        assert (Eb : forall k, b <= k -> nth k d1 [] = nth k data []).
        { intros k' Hk'. rewrite N1. destruct (Nat.ltb_spec k' b); [lia|]. rewrite andb_false_r. reflexivity. }
        rewrite (firstn_skipn_ext [] d1 data p (q - p) L1) by (intros; apply Eb; lia). rewrite Eb by lia. reflexivity.
Qed.

(** positions of T *)
Lemma temp_positions_spec_gen g : forall o, map fst (filter (fun p => eqb (snd p) kT) (combine (seq o (length g)) g))
  = filter (fun i => match nth_error g (i - o) with Some s => eqb s kT | None => false end) (seq o (length g)).
Proof.
  induction g as [|s g IH]; intros o; [reflexivity|]. cbn [length seq combine filter map]. cbn [snd]. rewrite Nat.sub_diag. cbn [nth_error].
  assert (E : filter (fun i => match nth_error (s :: g) (i - o) with Some s0 => eqb s0 kT | None => false end) (seq (S o) (length g))
            = filter (fun i => match nth_error g (i - S o) with Some s0 => eqb s0 kT | None => false end) (seq (S o) (length g))).
  { apply filter_ext_in. intros i Hi. apply in_seq in Hi. replace (i - o) with (S (i - S o)) by lia. reflexivity. }
  rewrite E, <- IH. destruct (eqb s kT); reflexivity.
Qed.
Lemma temp_positions_spec g i : In i (temp_positions g) <-> nth_error g i = Some kT.
Proof.
  unfold temp_positions. rewrite temp_positions_spec_gen, filter_In, in_seq, Nat.sub_0_r. split.
  - intros (_ & H). destruct (nth_error g i) as [s|]; [|discriminate]. apply eqb_eq in H; congruence.
  - intros H. assert (i < length g) by (apply nth_error_Some; congruence). split; [lia|]. rewrite H. apply eqb_refl.
Qed.
Lemma filter_sorted (f : nat -> bool) n : forall o, StronglySorted lt (filter f (seq o n)).
Proof.
  induction n as [|n IH]; intros o; cbn; [constructor|]. destruct (f o); [|apply IH]. constructor; [apply IH|].
  apply Forall_forall. intros x Hx. apply filter_In in Hx as (Hx & _). apply in_seq in Hx. lia.
Qed.
Lemma temp_positions_sorted g : StronglySorted lt (temp_positions g).
Proof. unfold temp_positions. rewrite temp_positions_spec_gen. apply filter_sorted. Qed.
(** blocks between consecutive positions *)
Lemma chained_positions ps : forall N lo, StronglySorted lt ps -> (forall p, In p ps -> lo <= p < N) ->
  chained lo (combine ps (tl ps ++ [N])).
Proof.
  induction ps as [|p ps IH]; intros N lo Hs Hb; [exact I|]. inversion Hs as [|? ? Hs' Hf]; subst.
  destruct ps as [|p2 ps].
  - cbn. specialize (Hb p (or_introl eq_refl)). lia.
  - cbn [tl app combine chained]. rewrite Forall_forall in Hf. split; [apply Hb; left; reflexivity|]. split; [apply Hf; left; reflexivity|].
    apply (IH N p2 Hs'). intros x Hx. split; [|apply Hb; right; exact Hx].
    destruct Hx as [->|Hx]; [lia|]. inversion Hs' as [|? ? _ Hf2]; subst. rewrite Forall_forall in Hf2. specialize (Hf2 x Hx). lia.
Qed.
(** the block of the last T at or before column k *)
Lemma block_of ps : forall N j, StronglySorted lt ps -> In j ps -> exists q, In (j, q) (combine ps (tl ps ++ [N])) /\
  ((In q ps /\ j < q /\ (forall p, In p ps -> p <= j \/ q <= p)) \/ (q = N /\ forall p, In p ps -> p <= j)).
Proof.
  induction ps as [|p ps IH]; intros N j Hs Hj; [destruct Hj|]. inversion Hs as [|? ? Hs' Hf]; subst. rewrite Forall_forall in Hf.
  destruct ps as [|p2 ps].
  - destruct Hj as [<-|[]]. exists N. split; [left; reflexivity|]. right. split; [reflexivity|]. intros x [<-|[]]; lia.
  - cbn [tl app combine]. destruct Hj as [<-|Hj].
    + exists p2. split; [left; reflexivity|]. left. split; [right; left; reflexivity|]. split; [apply Hf; left; reflexivity|].
      intros x [<-|[<-|Hx]]; [lia|lia|]. inversion Hs' as [|? ? _ Hf2]; subst. rewrite Forall_forall in Hf2. specialize (Hf2 x Hx). lia.
    + destruct (IH N j Hs' Hj) as (q & Hq & Hc). exists q. split; [right; exact Hq|].
      assert (Hpj : p < j) by (apply Hf; exact Hj).
      destruct Hc as [(H1 & H2 & H3)|(H1 & H2)]; [left|right].
      * split; [right; exact H1|]. split; [exact H2|]. intros x [<-|Hx]; [lia|apply H3; exact Hx].
      * split; [exact H1|]. intros x [<-|Hx]; [lia|apply H2; exact Hx].
Qed.
Lemma row_ok_spec blk i : row_ok blk i = true <-> forall c, In c blk -> nth i c None <> None.
Proof.
  unfold row_ok. rewrite forallb_forall. split; intros H c Hc; specialize (H c Hc); destruct (nth i c None); cbn in *; congruence.
Qed.

(** ** C48 proofs *)
Lemma comment_rstrip u r : exists r', rstrip (u ++ "#"%char :: r) = u ++ "#"%char :: r'.
Proof.
  unfold rstrip. rewrite rev_app_distr. cbn [rev]. rewrite <- app_assoc.
  assert (H : forall q z, exists q', lstrip_by is_space (q ++ "#"%char :: z) = q' ++ "#"%char :: z).
  { clear. induction q as [|c q IH]; intros z; [exists []; reflexivity|]. cbn. destruct (is_space c); [apply IH|]. exists (c :: q). reflexivity. }
  destruct (H (rev r) (rev u)) as (q' & E). cbn [app]. rewrite E. exists (rev q'). rewrite rev_app_distr. cbn [rev].
  rewrite rev_involutive, <- app_assoc. reflexivity.
Qed.
Lemma reads_match l o : reads l o -> match_row (rstrip l) = o.
Proof.
  intros [a m w Hne Hh Hf Hl Hw | a m b r Ht Hh | w Hw | r | a r].
  - rewrite app_assoc. rewrite rstrip_app by exact Hw. 
    assert (El : last (repeat blank_char a ++ m) "x"%char = last m "x"%char).
    { destruct m as [|c m] using rev_ind; [congruence|]. rewrite app_assoc, !last_last. reflexivity. }
    rewrite rstrip_id by (right; rewrite El; exact Hl).
    pose proof (match_row_text a m 0 [] Hh) as E. cbn [repeat app] in E. rewrite app_nil_r in E. apply E; [|left; reflexivity].
    split; [exact Hne|]. split; [exact Hf|apply is_space_blank; exact Hl].
  - rewrite (app_assoc m), app_assoc. destruct (comment_rstrip (repeat blank_char a ++ m ++ repeat blank_char b) r) as (r' & E). rewrite E, <- !app_assoc.
    apply match_row_text; [exact Hh|exact Ht|right; eauto].
  - pose proof (rstrip_app [] w Hw) as E. cbn [app] in E. rewrite E. reflexivity.
  - destruct (comment_rstrip [] r) as (r' & E). cbn [app] in E. rewrite E. reflexivity.
  - destruct (comment_rstrip (repeat blank_char (S a)) r) as (r' & E). rewrite E. apply match_row_blank. right; eauto.
Qed.
Lemma leading_blanks s : exists a t, s = repeat blank_char a ++ t /\ hd "x"%char t <> blank_char.
Proof.
  induction s as [|c s (a & t & -> & H)]; [exists 0, []; split; [reflexivity|cbn; discriminate]|].
  destruct (Ascii.eqb_spec c blank_char) as [->|Hc]; [exists (S a), t; auto|]. exists 0, (c :: repeat blank_char a ++ t). auto.
Qed.
Lemma trailing (P : ascii -> bool) s : exists u w, s = u ++ w /\ Forall (fun c => P c = true) w /\ (u = [] \/ P (last u "x"%char) = false).
Proof.
  induction s as [|c s (u & w & E & Hw & Hu)] using rev_ind; [exists [], []; auto|].
  destruct (P c) eqn:Ec; [|exists (s ++ [c]), []; rewrite app_nil_r, last_last; auto].
  exists u, (w ++ [c]). rewrite E, <- app_assoc. split; [reflexivity|]. split; [|exact Hu]. apply Forall_app; auto.
Qed.
Lemma split_hash s : no_hash s \/ exists u r, s = u ++ "#"%char :: r /\ no_hash u.
Proof.
  induction s as [|c s [H|(u & r & E & H)]]; [left; intros []|..]; destruct (Ascii.eqb_spec c "#"%char) as [->|Hc].
  - right. exists [], s. split; [reflexivity|intros []].
  - left. intros [->|Hi]; [congruence|exact (H Hi)].
  - right. exists [], s. split; [reflexivity|intros []].
  - right. exists (c :: u), r. rewrite E. split; [reflexivity|]. intros [->|Hi]; [congruence|exact (H Hi)].
Qed.
Lemma blanks_all w : Forall (fun c => Ascii.eqb c blank_char = true) w -> w = repeat blank_char (length w).
Proof. induction 1 as [|c w H _ IH]; [reflexivity|]. cbn. apply Ascii.eqb_eq in H. subst. f_equal. exact IH. Qed.
Lemma hd_app_ne (u w : str) : u <> [] -> hd "x"%char (u ++ w) = hd "x"%char u.
Proof. destruct u; [congruence|reflexivity]. Qed.
Lemma reads_total l : exists o, reads l o.
Proof.
  destruct (split_hash l) as [H|(u & r & -> & H)].
  - destruct (trailing is_space l) as (u & w & -> & Hw & Hu).
    destruct (leading_blanks u) as (a & m & -> & Hm). destruct m as [|c m].
    + exists None. apply reads_blank. apply Forall_app. split; [|exact Hw]. rewrite app_nil_r. apply Forall_forall. intros c Hc. apply repeat_spec in Hc. subst. reflexivity.
    + exists (Some (c :: m)). rewrite <- app_assoc. apply reads_text; [discriminate| |exact Hm| |exact Hw].
      * intros Hi. apply H. apply in_or_app. left. apply in_or_app. right. exact Hi.
      * destruct Hu as [Hu|Hu]; [destruct a; discriminate|].
        assert (E : c :: m = removelast (c :: m) ++ [last (c :: m) "x"%char]) by (apply app_removelast_last; discriminate).
        rewrite E in Hu. rewrite app_assoc, last_last in Hu. exact Hu.
  - destruct (trailing (fun c => Ascii.eqb c blank_char) u) as (v & w & -> & Hw & Hv).
    rewrite (blanks_all w Hw) in *. clear Hw. set (b := length w) in *. clearbody b. clear w.
    destruct (leading_blanks v) as (a & m & -> & Hm). destruct m as [|c m].
    + rewrite app_nil_r, <- repeat_app in *. destruct (a + b) as [|n] eqn:E.
      * exists None. apply reads_comment.
      * exists (Some [blank_char]). apply reads_indented_comment.
    + exists (Some (c :: m)). rewrite <- !app_assoc. apply reads_text_comment; [split; [discriminate|]; split; [exact Hm|]|].
      * destruct Hv as [Hv|Hv]; [destruct a; discriminate|].
        assert (E : c :: m = removelast (c :: m) ++ [last (c :: m) "x"%char]) by (apply app_removelast_last; discriminate).
        rewrite E in Hv. rewrite app_assoc, last_last in Hv. intros Hc. rewrite Hc in Hv. discriminate.
      * intros Hi. apply H. apply in_or_app. left. apply in_or_app. right. exact Hi.
Qed.
(** splitting *)
Lemma split_class_sep sep s : forall t, Forall (fun c => sep c = true) s -> split_class sep [] true (s ++ t) = split_class sep [] true t.
Proof. induction s as [|c s IH]; intros t H; [reflexivity|]. inversion H as [|? ? Hc Hs]; subst. cbn. rewrite Hc. apply IH; exact Hs. Qed.
Lemma split_white w r : Forall (fun c => is_space c = false) w -> w <> [] ->
  Forall (fun p => fst p <> [] /\ Forall (fun c => is_space c = true) (fst p) /\ snd p <> [] /\ Forall (fun c => is_space c = false) (snd p)) r ->
  forall b, split_class is_space [] b (joined w r) = w :: map snd r.
Proof.
  intros Hw Hn Hr. revert w Hw Hn. induction Hr as [|[s v] r (Hs & Hsf & Hv & Hvf) Hr IH]; intros w Hw Hn b; unfold joined; cbn [flat_map fst snd map] in *.
  - rewrite app_nil_r. rewrite <- (app_nil_r w) at 1. rewrite split_word_then by assumption. cbn. rewrite app_nil_r, rev_involutive. reflexivity.
  - rewrite split_word_then by assumption. rewrite app_nil_r. destruct s as [|c s]; [congruence|]. inversion Hsf as [|? ? Hc Hsf']; subst.
    cbn [app split_class]. rewrite Hc, rev_involutive. f_equal. rewrite <- app_assoc, split_class_sep by exact Hsf'. apply (IH v Hvf Hv).
Qed.
Lemma split_each_word sep w : forall cur t, Forall (fun c => sep c = false) w -> split_each sep cur (w ++ t) = split_each sep (rev w ++ cur) t.
Proof. induction w as [|c w IH]; intros cur t H; [reflexivity|]. inversion H as [|? ? Hc Hw]; subst. cbn. rewrite Hc, IH by exact Hw. rewrite <- app_assoc. reflexivity. Qed.
Lemma split_each_fields sep w r : Forall (fun c => sep c = false) w ->
  Forall (fun p => (exists c, fst p = [c] /\ sep c = true) /\ Forall (fun c => sep c = false) (snd p)) r ->
  split_each sep [] (joined w r) = w :: map snd r.
Proof.
  intros Hw Hr. revert w Hw. induction Hr as [|[s v] r ((c & Hs & Hc) & Hv) Hr IH]; intros w Hw; unfold joined; cbn [flat_map fst snd map] in *.
  - rewrite app_nil_r. rewrite <- (app_nil_r w) at 1. rewrite split_each_word by assumption. cbn. rewrite app_nil_r, rev_involutive. reflexivity.
  - rewrite split_each_word by assumption. subst s. cbn [app split_each]. rewrite Hc, app_nil_r, rev_involutive. f_equal. apply IH. exact Hv.
Qed.
