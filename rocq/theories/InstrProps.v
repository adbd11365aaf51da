(** C98, C99: instrument files; C100: data sets assembled from them. *)
From Coq Require Import Reals Lra String Ascii.
From Verif Require Import Py PyStr PyDict RUtil CfgSpec CfgModel CfgProofs CompModel CompProps DataModel DataProofs Regex KvarModel KvarSpec KvarProofs SubsModel SubsProofs InstrModel InstrSpec InstrProofs.
Local Open Scope list_scope.
Local Open Scope R_scope.

Definition CTA_titles : list str := [S_ "Temperature"; S_ "Resistivity"; S_ "Seebeck coefficient"].
Definition ZEM_titles : list str := [S_ "Measurement temp"; S_ "Resistivity"; S_ "Seebeck coeff"].
Definition t_of (p : num * num * num) : num := fst (fst p).
Definition r_of (p : num * num * num) : num := snd (fst p).
Definition s_of (p : num * num * num) : num := snd p.

Lemma generic_table float ids text lines : has_lines text lines ->
  ((forall l, In l lines -> ~ contains_all ids l) -> parse_CTA_ZEM float ids text = Err OSError) /\
  (forall data, first_at (contains_all ids) lines data ->
     (forall rows, Forall2 (line_gives float) data rows -> parse_CTA_ZEM float ids text = Ok (map t_of (concat rows), map r_of (concat rows), map s_of (concat rows))) /\
     ((exists l, In l data /\ unreadable float l) -> parse_CTA_ZEM float ids text = Err ValueError)).
Proof.
  intros H. apply has_lines_iff in H. unfold parse_CTA_ZEM. rewrite H. split.
  - intros N. rewrite (proj2 (after_none_iff _ _ lines (contains_all_iff ids)) N). reflexivity.
  - intros data F. rewrite (proj2 (first_at_iff _ _ lines data (contains_all_iff ids)) F). split.
    + intros rows R2. rewrite (table_ok _ _ _ R2). reflexivity.
    + intros E. rewrite (table_err _ _ E). reflexivity.
Qed.
Lemma shift_plus k a : shift k a = map (plus k) a.
Proof. reflexivity. Qed.
Lemma scal_times k a : scal k a = map (times k) a.
Proof. unfold scal. apply map_ext. intros [x|]; reflexivity. Qed.

(** C98: CTA: the title line is the first with the three titles; then every line with at least five columns gives a row: temperature + 273, resistivity, Seebeck coefficient *)
Theorem C98_cta : forall float content text t lines, source content text t -> has_lines t lines ->
  ((forall l, In l lines -> ~ contains_all CTA_titles l) -> wrapped content (parseCTA float) text = Err OSError) /\
  (forall data, first_at (contains_all CTA_titles) lines data ->
     (forall rows, Forall2 (line_gives float) data rows ->
        wrapped content (parseCTA float) text = Ok (map (fun p => plus 273 (t_of p)) (concat rows), map r_of (concat rows), map s_of (concat rows))) /\
     ((exists l, In l data /\ unreadable float l) -> wrapped content (parseCTA float) text = Err ValueError)).
Proof.
  intros float content text t lines Hs Hl. rewrite (wrapped_source _ _ _ _ Hs). destruct (generic_table float CTA_titles t lines Hl) as (G1 & G2). unfold parseCTA. change cta_ids with CTA_titles. split.
  - intros N. rewrite (G1 N). reflexivity.
  - intros data F. destruct (G2 data F) as (G3 & G4). split.
    + intros rows R2. rewrite (G3 rows R2). cbv beta iota delta [rbind]. rewrite shift_plus, map_map. reflexivity.
    + intros E. rewrite (G4 E). reflexivity.
Qed.
Print Assumptions C98_cta.
(** ZEM: the same with its titles; resistivity and Seebeck coefficient times 10^6 *)
Theorem C98_zem : forall float content text t lines, source content text t -> has_lines t lines ->
  ((forall l, In l lines -> ~ contains_all ZEM_titles l) -> wrapped content (parseZEM float) text = Err OSError) /\
  (forall data, first_at (contains_all ZEM_titles) lines data ->
     (forall rows, Forall2 (line_gives float) data rows ->
        wrapped content (parseZEM float) text = Ok (map (fun p => plus 273 (t_of p)) (concat rows), map (fun p => times 1000000 (r_of p)) (concat rows), map (fun p => times 1000000 (s_of p)) (concat rows))) /\
     ((exists l, In l data /\ unreadable float l) -> wrapped content (parseZEM float) text = Err ValueError)).
Proof.
  intros float content text t lines Hs Hl. rewrite (wrapped_source _ _ _ _ Hs). destruct (generic_table float ZEM_titles t lines Hl) as (G1 & G2). unfold parseZEM. change zem_ids with ZEM_titles. split.
  - intros N. rewrite (G1 N). reflexivity.
  - intros data F. destruct (G2 data F) as (G3 & G4). split.
    + intros rows R2. rewrite (G3 rows R2). cbv beta iota delta [rbind]. rewrite shift_plus, !scal_times, !map_map. assert (E : 1e6 = 1000000) by lra. rewrite E. reflexivity.
    + intros E. rewrite (G4 E). reflexivity.
Qed.
Print Assumptions C98_zem.
(** these cases are all there are: a text has lines, one of them has the titles or none has, a line gives something or is unreadable, an entry has a source or names a missing file *)
Theorem C98_exhaustive : forall content text,
  (exists t lines, source content text t /\ has_lines t lines) \/
  (forall X (parse : str -> res X), wrapped content parse text = Err FileNotFoundError) /\ exists p path, trimmed text (S_ "file:" ++ p) /\ trimmed p path /\ content path = None.
Proof.
  intros content text. destruct (startswith (strip text) (S_ "file:")) eqn:E.
  - assert (E' := E). apply begins_iff in E'. destruct E' as (p & Ep). assert (T : trimmed text (S_ "file:" ++ p)) by (rewrite <- Ep; apply strip_trimmed). destruct (content (strip p)) as [t|] eqn:C.
    + left. exists t, (lines_of t). split; [apply (src_file content text p (strip p) t T (strip_trimmed p) C)|apply has_lines_iff; reflexivity].
    + right. split; [|exists p, (strip p); split; [exact T|split; [apply strip_trimmed|exact C]]]. intros X parse. unfold wrapped. rewrite E. assert (Ek : skipn 5 (strip text) = p) by (rewrite Ep; reflexivity). rewrite Ek, C. reflexivity.
  - left. exists (strip text), (lines_of (strip text)). split; [|apply has_lines_iff; reflexivity]. apply src_text; [apply strip_trimmed|]. intros B. apply begins_iff in B. congruence.
Qed.
Print Assumptions C98_exhaustive.
Theorem C98_lines_exhaustive : forall float ids lines,
  ((forall l, In l lines -> ~ contains_all ids l) \/ exists data, first_at (contains_all ids) lines data) /\
  (forall data, (exists rows, Forall2 (line_gives float) data rows) \/ exists l, In l data /\ unreadable float l).
Proof.
  intros float ids lines. split.
  - destruct (after (fun l => forallb (fun i => occurs i l) ids) lines) as [r|] eqn:E.
    + right. exists r. apply (first_at_iff _ _ lines r (contains_all_iff ids)). exact E.
    + left. apply (after_none_iff _ _ lines (contains_all_iff ids)). exact E.
  - induction data as [|l data IH]; [left; exists []; constructor|]. destruct (line_total float l) as [(r & H)|H]; [|right; exists l; split; [left; reflexivity|exact H]]. destruct IH as [(rows & F)|(x & Hx & Hu)]; [left; exists (r :: rows); constructor; assumption|right; exists x; split; [right; exact Hx|exact Hu]].
Qed.
Print Assumptions C98_lines_exhaustive.
(** blanks at the beginning of a line, tabs included, do not count: a row whose first cells are empty is read from its first cell that is not *)
Theorem C98_leading_tabs : forall float ind l row, spaces ind -> (line_gives float (ind ++ l) row <-> line_gives float l row).
Proof.
  assert (G : forall sep ind l fs, spaces ind -> (cells sep (ind ++ l) fs <-> cells sep l fs)).
  { intros sep ind l fs F. rewrite <- !cells_iff. assert (E : strip (ind ++ l) = strip l); [|rewrite E; reflexivity]. unfold strip. f_equal. induction F as [|c ind P F IH]; cbn; [reflexivity|rewrite P; exact IH]. }
  intros float ind l row F. split; intros H; (inversion H as [l0 fs Hc L E1 E2|l0 f1 f2 f3 f4 f5 rest a b c Hc Fa Fb Fc E1 E2]; subst; [eapply lg_short; [|exact L]|eapply lg_row; [|eassumption|eassumption|eassumption]]).
  1, 2: exact (proj1 (G _ _ _ _ F) Hc). all: exact (proj2 (G _ _ _ _ F) Hc).
Qed.
Print Assumptions C98_leading_tabs.

Section Cases.
Local Definition f1 (s : str) : option num := match s with ["7"%char] => Some (Some 7) | ["8"%char] => Some (Some 8) | ["9"%char] => Some None | _ => None end.
Local Definition nl1 : str := [lf]. Local Definition tb : str := [tab].
Local Definition cta_text : str := S_ "  CTA" ++ nl1 ++ S_ "Temperature, Resistivity, Seebeck coefficient" ++ nl1 ++ S_ "7" ++ tb ++ S_ "8" ++ tb ++ S_ "x" ++ tb ++ S_ "x" ++ tb ++ S_ "7" ++ nl1 ++ S_ "end" ++ nl1 ++ tb ++ S_ "8" ++ tb ++ S_ "7" ++ tb ++ S_ "x" ++ tb ++ S_ "x" ++ tb ++ S_ "9" ++ tb ++ S_ "7".
Example C98_case : wrapped (fun _ => None) (parseCTA f1) cta_text = Ok ([Some (7 + 273); Some (8 + 273)], [Some 8; Some 7], [Some 7; None]).
Proof. reflexivity. Qed.
Example C98_case_file : wrapped (fun p => if eqb p (S_ "a.txt") then Some cta_text else None) (parseCTA f1) (S_ " file: a.txt ") = Ok ([Some (7 + 273); Some (8 + 273)], [Some 8; Some 7], [Some 7; None]).
Proof. reflexivity. Qed.
Example C98_case_errors : wrapped (fun _ => None) (parseZEM f1) cta_text = Err OSError /\
  wrapped (fun _ => None) (parseCTA f1) (cta_text ++ nl1 ++ S_ "7" ++ tb ++ tb ++ tb ++ tb ++ S_ "7") = Err ValueError.
Proof. split; reflexivity. Qed.

(** ** C99 *)
Lemma results_iff l : startswith l (S_ "##Results") = true <-> begins (S_ "##Results") l.
Proof. apply begins_iff. Qed.
Theorem C99_lfa : forall float content text t lines, source content text t -> has_lines t lines ->
  ((forall l, In l lines -> ~ begins (S_ "##Results") l) -> wrapped content (parseLFA float) text = Err OSError) /\
  (first_at (begins (S_ "##Results")) lines [] -> wrapped content (parseLFA float) text = Ok ([], [])) /\
  (forall title data, first_at (begins (S_ "##Results")) lines (title :: data) ->
     (forall rows, Forall2 (mean_gives float) data rows ->
        (concat rows <> [] -> wrapped content (parseLFA float) text = Ok (map (fun p => plus 273 (fst p)) (concat rows), map snd (concat rows))) /\
        (concat rows = [] ->
           (forall rows', Forall2 (any_gives float) data rows' -> wrapped content (parseLFA float) text = Ok (map (fun p => plus 273 (fst p)) (concat rows'), map snd (concat rows'))) /\
           ((exists l, In l data /\ any_unreadable float l) -> wrapped content (parseLFA float) text = Err OSError))) /\
     ((exists l, In l data /\ mean_unreadable float l) -> wrapped content (parseLFA float) text = Err ValueError)).
Proof.
  intros float content text t lines Hs Hl. rewrite (wrapped_source _ _ _ _ Hs). apply has_lines_iff in Hl. unfold parseLFA. rewrite Hl. assert (O : forall rows : list (num * num), lfa_out rows = (map (fun p => plus 273 (fst p)) rows, map snd rows)) by (intros rows; unfold lfa_out; rewrite shift_plus, map_map; reflexivity). split; [|split].
  - intros N. rewrite (proj2 (after_none_iff _ _ lines results_iff) N). reflexivity.
  - intros F. rewrite (proj2 (first_at_iff _ _ lines [] results_iff) F). reflexivity.
  - intros title data F. rewrite (proj2 (first_at_iff _ _ lines _ results_iff) F). cbn [tl]. split.
    + intros rows R2. rewrite (mean_ok _ _ _ R2). cbv beta iota delta [rbind]. split.
      * intros N. destruct (concat rows) as [|p r]; [congruence|]. rewrite O. reflexivity.
      * intros N. rewrite N. split; [intros rows' R3; rewrite (any_ok _ _ _ R3), O; reflexivity|]. intros E. rewrite (any_err _ _ E). reflexivity.
    + intros E. rewrite (mean_err _ _ E). reflexivity.
Qed.
Print Assumptions C99_lfa.
Theorem C99_exhaustive : forall float lines,
  ((forall l, In l lines -> ~ begins (S_ "##Results") l) \/ exists rest, first_at (begins (S_ "##Results")) lines rest) /\
  (forall data, (exists rows, Forall2 (mean_gives float) data rows) \/ exists l, In l data /\ mean_unreadable float l) /\
  (forall data, (exists rows, Forall2 (any_gives float) data rows) \/ exists l, In l data /\ any_unreadable float l).
Proof.
  intros float lines. split; [|split].
  - destruct (after (fun l => startswith l (S_ "##Results")) lines) as [r|] eqn:E.
    + right. exists r. apply (first_at_iff _ _ lines r results_iff). exact E.
    + left. apply (after_none_iff _ _ lines results_iff). exact E.
  - induction data as [|l data IH]; [left; exists []; constructor|]. destruct (mean_total float l) as [(r & H)|H]; [|right; exists l; split; [left; reflexivity|exact H]]. destruct IH as [(rows & F)|(x & Hx & Hu)]; [left; exists (r :: rows); constructor; assumption|right; exists x; split; [right; exact Hx|exact Hu]].
  - induction data as [|l data IH]; [left; exists []; constructor|]. destruct (any_total float l) as [(r & H)|H]; [|right; exists l; split; [left; reflexivity|exact H]]. destruct IH as [(rows & F)|(x & Hx & Hu)]; [left; exists (r :: rows); constructor; assumption|right; exists x; split; [right; exact Hx|exact Hu]].
Qed.
Print Assumptions C99_exhaustive.
(** In a configuration the lines of a value that start with # are comments: laser flash data cannot be given in place (unless the first # stands directly behind the
    equals sign): the lines of the value, as the configuration reader makes them, never have the line ##Results. *)
Theorem C99_not_inline : forall float content line more key v, read_option line = Some (key, v) -> ~ begins (S_ "#") v ->
  let text := join [lf] (v :: map (fun l => strip (cut_comment true l)) more) in
  ~ begins (S_ "file:") (strip text) -> wrapped content (parseLFA float) text = Err OSError.
Proof.
  intros float content line more key v R0 N text NF.
  assert (G : glued text). { apply glued_join; [apply (glued_option line key v R0 N)|]. apply Forall_forall. intros x Hx. apply in_map_iff in Hx. destruct Hx as (y & <- & _). apply glued_strip, glued_cut. }
  apply glued_strip in G. assert (Hs : source content text (strip text)) by (apply src_text; [apply strip_trimmed|exact NF]).
  assert (Hl : has_lines (strip text) (lines_of (strip text))) by (apply has_lines_iff; reflexivity).
  apply (proj1 (C99_lfa float content text _ _ Hs Hl)). intros l Hin (r & ->). apply (glued_line _ _ _ G Hl Hin). exists (S_ "#Results" ++ r). reflexivity.
Qed.
Print Assumptions C99_not_inline.
Local Definition lfa_text (m : str) : str := S_ "head" ++ nl1 ++ S_ "##Results" ++ nl1 ++ S_ "#Mean,title,x" ++ nl1 ++ S_ "#1,7,8" ++ nl1 ++ m ++ nl1 ++ S_ "#2,8,9".
Example C99_case : wrapped (fun _ => None) (parseLFA f1) (lfa_text (S_ " #Mean,,8,7")) = Ok ([Some (8 + 273)], [Some 7]) /\
  wrapped (fun _ => None) (parseLFA f1) (lfa_text (S_ "7")) = Ok ([Some (7 + 273); Some (8 + 273)], [Some 8; None]) /\
  wrapped (fun _ => None) (parseLFA f1) (lfa_text (S_ "#Mean,8,x")) = Err ValueError /\
  wrapped (fun _ => None) (parseLFA f1) (lfa_text (S_ "#3,8,x")) = Err OSError.
Proof. repeat split. Qed.
Example C99_case_inline : read_option (S_ "LFA = here") = Some (S_ "LFA", S_ "here") /\
  wrapped (fun _ => None) (parseLFA f1) (join [lf] (S_ "here" :: map (fun l => strip (cut_comment true l)) [S_ "  ##Results"; S_ "  title"; S_ "  #Mean,7,8"])) = Err OSError.
Proof. split; reflexivity. Qed.
End Cases.

(** ** C100 *)
Lemma rsplit_some s a m : rsplit_at s = Some (a, m) <-> s = a ++ "@"%char :: m /\ ~ In "@"%char m.
Proof.
  assert (N : forall s, rsplit_at s = None <-> ~ In "@"%char s).
  { clear. induction s as [|c s IH]; cbn; [tauto|]. destruct (rsplit_at s) as [[a b]|].
    - split; [discriminate|]. intros H. exfalso. assert (X : Some (a, b) = None) by (apply IH; intros Y; apply H; right; exact Y). discriminate.
    - destruct (is_ch "@" c) eqn:P; [apply is_ch_eq in P; subst; split; [discriminate|tauto]|]. split; [|reflexivity]. intros _ [X|X]; [subst; rewrite is_ch_refl in P; discriminate|revert X; apply IH; reflexivity]. }
  revert a. induction s as [|c s IH]; intros a; cbn.
  - split; [discriminate|]. intros (E & _). destruct a; discriminate.
  - destruct (rsplit_at s) as [[x y]|] eqn:E.
    + split.
      * intros [= <- <-]. destruct (proj1 (IH x) eq_refl) as (-> & Hn). split; [reflexivity|exact Hn].
      * intros (E2 & Hn). destruct a as [|z a]; cbn in E2.
        { exfalso. assert (s = m) by congruence. subst s. apply N in Hn. congruence. }
        assert (E3 : s = a ++ "@"%char :: m) by congruence. assert (E4 := proj2 (IH a) (conj E3 Hn)). injection E4 as -> ->. assert (Ez : c = z) by congruence. rewrite Ez. reflexivity.
    + apply N in E. destruct (is_ch "@" c) eqn:P.
      * apply is_ch_eq in P. subst c. split; [intros [= <- <-]; split; [reflexivity|exact E]|]. intros (E2 & Hn). destruct a as [|z a]; cbn in E2; [assert (Em : s = m) by congruence; rewrite Em; reflexivity|]. exfalso. apply E. assert (E3 : s = a ++ "@"%char :: m) by congruence. rewrite E3. apply in_or_app. right. left. reflexivity.
      * split; [discriminate|]. intros (E2 & Hn). destruct a as [|z a]; cbn in E2; [assert (c = "@"%char) by congruence; subst; rewrite is_ch_refl in P; discriminate|]. exfalso. apply E. assert (E3 : s = a ++ "@"%char :: m) by congruence. rewrite E3. apply in_or_app. right. left. reflexivity.
Qed.
Lemma rsplit_none s : ~ In "@"%char s -> rsplit_at s = None.
Proof. intros H. destruct (rsplit_at s) as [[a m]|] eqn:E; [|reflexivity]. exfalso. apply rsplit_some in E. destruct E as (-> & _). apply H. apply in_or_app. right. left. reflexivity. Qed.
Definition blank_or_comma (c : ascii) : bool := (is_space c || Ascii.eqb c comma)%bool.
(** the numbers written in a text, separated by blanks and commas *)
Definition numbers (float : str -> option num) (t : str) (vs : list num) : Prop := exists ws, tokens blank_or_comma t ws /\ Forall2 (fun w v => float w = Some v) ws vs.
Definition not_numbers (float : str -> option num) (t : str) : Prop := exists ws w, tokens blank_or_comma t ws /\ In w ws /\ float w = None.
Lemma floats_ok float t vs : numbers float t vs -> floats float t = Ok vs.
Proof.
  intros (ws & T & F). apply (split_class_iff blank_or_comma) in T. unfold floats. assert (E : parse_list t = ws) by exact T. rewrite E. clear - F. induction F as [|w v ws vs H F IH]; [reflexivity|]. cbn. unfold fl at 1. rewrite H. cbn [rbind]. rewrite IH. reflexivity.
Qed.
Lemma floats_err float t : not_numbers float t -> floats float t = Err ValueError.
Proof.
  intros (ws & w & T & Hw & F). apply (split_class_iff blank_or_comma) in T. unfold floats. assert (E : parse_list t = ws) by exact T. rewrite E. clear - F Hw. induction ws as [|x ws IH]; [destruct Hw|]. cbn. destruct Hw as [->|Hw]; [unfold fl at 1; rewrite F; reflexivity|]. rewrite (IH Hw). unfold fl. destruct (float x); reflexivity.
Qed.
Definition R_gas : R := 8.31446261815324.
Definition dulong_petit (m : str) : Prop := m = S_ "Dulong-Petit" \/ m = S_ "DP" \/ m = S_ "3R".
(** C100: heat capacities for the temperatures [T] *)
Theorem C100_heat_default : forall float w T, w <> 0 -> heat float w None T = Ok (map (fun _ => Some (3 * R_gas / w)) T).
Proof. intros float w T H. unfold heat. change (rsplit_at (strip (S_ "@Dulong-Petit"))) with (Some ([] : str, S_ "Dulong-Petit")). cbv iota. change (floats float []) with (Ok ([] : list cell)). cbv beta iota delta [rbind]. change (strip (S_ "Dulong-Petit")) with (S_ "Dulong-Petit"). unfold parse_CpT. rewrite eqb_refl. cbn [orb]. destruct (Req_EM_T w 0); [contradiction|reflexivity]. Qed.
Print Assumptions C100_heat_default.
Theorem C100_heat_model : forall float w T cp before after name, w <> 0 -> trimmed cp (before ++ "@"%char :: after) -> ~ In "@"%char after -> trimmed after name ->
  (not_numbers float before -> heat float w (Some cp) T = Err ValueError) /\
  (forall vs, numbers float before vs ->
     (dulong_petit name -> heat float w (Some cp) T = Ok (map (fun _ => Some (3 * R_gas / w)) T)) /\
     (name = S_ "Mg3Sb2" -> heat float w (Some cp) T = Err NotImplementedError) /\
     (~ dulong_petit name -> name <> S_ "Mg3Sb2" -> heat float w (Some cp) T = Err ValueError)).
Proof.
  intros float w T cp before after name Hw Hc Ha Hn. unfold heat. apply strip_iff in Hc. rewrite Hc. rewrite (proj2 (rsplit_some _ before after) (conj eq_refl Ha)). apply strip_iff in Hn. split.
  - intros H. rewrite (floats_err _ _ H). reflexivity.
  - intros vs H. rewrite (floats_ok _ _ _ H). cbv beta iota delta [rbind]. rewrite Hn. unfold parse_CpT. assert (B : forall x y : str, eqb x y = true <-> x = y) by (intros; apply eqb_eq).
    split; [|split].
    + intros D. assert (E : (eqb name (S_ "Dulong-Petit") || eqb name (S_ "DP") || eqb name (S_ "3R"))%bool = true) by (rewrite !orb_true_iff, !B; unfold dulong_petit in D; tauto). rewrite E. destruct (Req_EM_T w 0); [contradiction|reflexivity].
    + intros ->. reflexivity.
    + intros D N. assert (E : (eqb name (S_ "Dulong-Petit") || eqb name (S_ "DP") || eqb name (S_ "3R"))%bool = false) by (apply not_true_iff_false; rewrite !orb_true_iff, !B; unfold dulong_petit in D; tauto). rewrite E. assert (E2 : eqb name (S_ "Mg3Sb2") = false) by (apply eqb_neq; exact N). rewrite E2. reflexivity.
Qed.
Print Assumptions C100_heat_model.
Theorem C100_heat_list : forall float w T cp, ~ In "@"%char cp ->
  (not_numbers float cp -> heat float w (Some cp) T = Err ValueError) /\
  (forall vs, numbers float cp vs -> (List.length vs = List.length T -> heat float w (Some cp) T = Ok vs) /\ (List.length vs <> List.length T -> heat float w (Some cp) T = Err ValueError)).
Proof.
  intros float w T cp H. unfold heat. assert (N : ~ In "@"%char (strip cp)). { intros X. apply H. destruct (strip_split cp) as (a & b & E & _). rewrite E. apply in_or_app. right. apply in_or_app. left. exact X. }
  rewrite (rsplit_none _ N). split.
  - intros E. rewrite (floats_err _ _ E). reflexivity.
  - intros vs E. rewrite (floats_ok _ _ _ E). cbv beta iota delta [rbind]. split; intros L.
    + apply Nat.eqb_eq in L. rewrite L. reflexivity.
    + apply Nat.eqb_neq in L. rewrite L. reflexivity.
Qed.
Print Assumptions C100_heat_list.

(** the setting of [key]: an override, the last one counting, or the entry of the file *)
Definition setting (entry : dict str str) (specify : list (str * str)) (key : str) : option str := match last_val specify key with Some v => Some v | None => dget entry key end.
Lemma setting_eq entry specify key : dget (dupdate entry specify) key = setting entry specify key.
Proof. unfold setting. apply dget_dupdate. Qed.
Section TE.
Variable float : str -> option num.
Variable content : str -> option str.
Variable atomic_weight : str -> option R.
Variable pyeval : str -> res R.
Notation TEfile := (parse_TEfile float content atomic_weight pyeval).
Definition instrument (entry : dict str str) (specify : list (str * str)) (x : arr * arr * arr) : Prop :=
  (exists t, setting entry specify (S_ "ZEM") = Some t /\ setting entry specify (S_ "CTA") = None /\ wrapped content (parseZEM float) t = Ok x) \/
  (exists t, setting entry specify (S_ "CTA") = Some t /\ setting entry specify (S_ "ZEM") = None /\ wrapped content (parseCTA float) t = Ok x).
Theorem C100_dataset : forall config entry specify s c w T1 R1 S1 tl T2 A2 dt d Cp,
  dget config (S_ "entry") = Some entry -> setting entry specify (S_ "sample") = Some s -> comp_from_string s true false = Ok c -> weight_ave atomic_weight c = Ok w ->
  instrument entry specify (T1, R1, S1) ->
  setting entry specify (S_ "LFA") = Some tl -> wrapped content (parseLFA float) tl = Ok (T2, A2) ->
  setting entry specify (S_ "density") = Some dt -> pyeval dt = Ok d ->
  heat float w (setting entry specify (S_ "Cp")) T2 = Ok Cp ->
  exists ds, TEfile config specify = Ok ds /\ dkeys (ddata ds) = [S_ "R"; S_ "S"; S_ "A"; S_ "K"] /\
    getitem ds (S_ "R") = Ok (Some T1, R1) /\ getitem ds (S_ "S") = Ok (Some T1, S1) /\ getitem ds (S_ "A") = Ok (Some T2, A2) /\
    exists K, getitem ds (S_ "K") = Ok (Some T2, K) /\ List.length K = Nat.min (List.length A2) (List.length Cp) /\
      forall i a x, nth_error A2 i = Some a -> nth_error Cp i = Some x -> nth_error K i = Some (match a, x with Some a, Some x => Some (a * d * x) | _, _ => None end).
Proof.
  intros config entry specify s c w T1 R1 S1 tl T2 A2 dt d Cp He Hs Hc Hw Hi Hl Hp Hd Hv Hh. unfold parse_TEfile, dgetitem. rewrite He. cbv beta iota delta [rbind]. rewrite !setting_eq, Hs, Hc, Hw.
  assert (E : (match setting entry specify (S_ "ZEM"), setting entry specify (S_ "CTA") with None, None => Err ValueError | Some _, Some _ => Err ValueError | Some t, None => wrapped content (parseZEM float) t | None, Some t => wrapped content (parseCTA float) t end) = Ok (T1, R1, S1)) by (destruct Hi as [(t & Z & C & P)|(t & C & Z & P)]; rewrite Z, C; exact P).
  rewrite E, Hl, Hp, Hd, Hv, Hh. eexists. split; [reflexivity|]. split; [reflexivity|]. split; [reflexivity|]. split; [reflexivity|]. split; [reflexivity|]. eexists. split; [reflexivity|]. split; [unfold prod3; rewrite map_length, combine_length; reflexivity|].
  intros i a x Ha Hx. unfold prod3. rewrite nth_error_map. assert (G : nth_error (combine A2 Cp) i = Some (a, x)); [|rewrite G; destruct a, x; reflexivity].
  clear - Ha Hx. revert A2 Cp Ha Hx. induction i as [|i IH]; intros [|a0 A2] [|x0 Cp] Ha Hx; try discriminate; cbn in *; [congruence|]. apply IH; assumption.
Qed.
Print Assumptions C100_dataset.
Theorem C100_missing : forall config specify,
  (dget config (S_ "entry") = None -> TEfile config specify = Err KeyError) /\
  (forall entry, dget config (S_ "entry") = Some entry ->
     (setting entry specify (S_ "sample") = None -> TEfile config specify = Err ValueError) /\
     (forall s c w, setting entry specify (S_ "sample") = Some s -> comp_from_string s true false = Ok c -> weight_ave atomic_weight c = Ok w ->
        (setting entry specify (S_ "ZEM") = None -> setting entry specify (S_ "CTA") = None -> TEfile config specify = Err ValueError) /\
        (setting entry specify (S_ "ZEM") <> None -> setting entry specify (S_ "CTA") <> None -> TEfile config specify = Err ValueError) /\
        (forall x, instrument entry specify x ->
           (setting entry specify (S_ "LFA") = None -> TEfile config specify = Err ValueError) /\
           (forall t y, setting entry specify (S_ "LFA") = Some t -> wrapped content (parseLFA float) t = Ok y -> setting entry specify (S_ "density") = None -> TEfile config specify = Err ValueError)))).
Proof.
  intros config specify. unfold parse_TEfile, dgetitem. split; [intros H; rewrite H; reflexivity|]. intros entry He. rewrite He. cbv beta iota delta [rbind]. rewrite !setting_eq. split; [intros H; rewrite H; reflexivity|].
  intros s c w Hs Hc Hw. rewrite Hs, Hc, Hw. split; [|split].
  - intros -> ->. reflexivity.
  - intros H1 H2. destruct (setting entry specify (S_ "ZEM")); [|congruence]. destruct (setting entry specify (S_ "CTA")); [reflexivity|congruence].
  - intros [[t1 r] s1] Hi.
    assert (E : (match setting entry specify (S_ "ZEM"), setting entry specify (S_ "CTA") with None, None => Err ValueError | Some _, Some _ => Err ValueError | Some t, None => wrapped content (parseZEM float) t | None, Some t => wrapped content (parseCTA float) t end) = Ok (t1, r, s1)) by (destruct Hi as [(t & Z & C & P)|(t & C & Z & P)]; rewrite Z, C; exact P).
    rewrite E. split; [intros H; rewrite H; reflexivity|]. intros t [t2 a] Hl Hp Hd. rewrite Hl, Hp, Hd. reflexivity.
Qed.
Print Assumptions C100_missing.
End TE.
Example C100_case : exists ds, parse_TEfile f1 (fun p => if eqb p (S_ "cta") then Some cta_text else if eqb p (S_ "lfa") then Some (lfa_text (S_ "#Mean,7,8")) else None) (fun _ => Some 209) (fun _ => Ok 2)
    [(S_ "entry", [(S_ "sample", S_ "Bi"); (S_ "CTA", S_ "file:cta"); (S_ "LFA", S_ "file:lfa"); (S_ "density", S_ "5")])] [(S_ "Cp", S_ "7"); (S_ "density", S_ "2")] = Ok ds /\
  getitem ds (S_ "R") = Ok (Some [Some (7 + 273); Some (8 + 273)], [Some 8; Some 7]) /\ exists K, getitem ds (S_ "K") = Ok (Some [Some (7 + 273)], K) /\ nth_error K 0 = Some (Some (8 * 2 * 7)).
Proof.
  assert (W : exists w, weight_ave (fun _ => Some 209) [(S_ "Bi", 1)] = Ok w).
  { apply (C52_weight_ave (fun _ => Some 209) (fun _ => 209) [(S_ "Bi", 1)]); [constructor; [split; [unfold elements; cbn; tauto|reflexivity]|constructor]|]. unfold total. cbn. rewrite Rabs_right; lra. }
  destruct W as (w & W). set (content := fun p : str => if eqb p (S_ "cta") then Some cta_text else if eqb p (S_ "lfa") then Some (lfa_text (S_ "#Mean,7,8")) else None).
  set (entry := [(S_ "sample", S_ "Bi"); (S_ "CTA", S_ "file:cta"); (S_ "LFA", S_ "file:lfa"); (S_ "density", S_ "5")]). set (spec := [(S_ "Cp", S_ "7"); (S_ "density", S_ "2")]).
  destruct (C100_dataset f1 content (fun _ => Some 209) (fun _ => Ok 2) [(S_ "entry", entry)] entry spec (S_ "Bi") [(S_ "Bi", 1)] w [Some (7 + 273); Some (8 + 273)] [Some 8; Some 7] [Some 7; None] (S_ "file:lfa") [Some (7 + 273)] [Some 8] (S_ "2") 2 [Some 7])
    as (ds & E & _ & ER & _ & _ & K & EK & _ & HK); try reflexivity; [exact W|right; exists (S_ "file:cta"); split; [reflexivity|split; reflexivity]|].
  exists ds. split; [exact E|]. split; [exact ER|]. exists K. split; [exact EK|]. apply (HK 0%nat (Some 8) (Some 7)); reflexivity.
Qed.
