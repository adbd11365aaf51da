From Coq Require Import QArith Qround Lqa.
From Verif Require Import Py PyStr CfgModel CfgSpec.
Local Open Scope nat_scope.

(** ** pmatch *)
Lemma after_first_dot_spec s ty : after_first_dot s = Some ty <-> after_dot s ty.
Proof.
  unfold after_dot; induction s as [|c s IH]; cbn.
  - split; [discriminate|]. intros (a & H & _); destruct a; discriminate.
  - unfold ch_eq; destruct (Ascii.eqb_spec c dot) as [->|Hc].
    + split.
      * intros [= <-]; exists []; split; [reflexivity|intros []].
      * intros (a & H & Hn). destruct a as [|x a]; cbn [app] in H; [inversion H; reflexivity|].
        inversion H; subst; exfalso; apply Hn; left; reflexivity.
    + rewrite IH; split; intros (a & H & Hn).
      * exists (c :: a); split; [cbn; congruence|]. intros [E|E]; [congruence|contradiction].
      * destruct a as [|x a]; cbn in H; [congruence|]. inversion H; subst.
        exists a; split; [reflexivity|]. intros E; apply Hn; right; exact E.
Qed.

Lemma after_first_dot_exists s : In dot s -> exists ty, after_first_dot s = Some ty.
Proof.
  induction s as [|c s IH]; cbn; [intros []|].
  unfold ch_eq; destruct (Ascii.eqb_spec c dot); [eauto|]. intros [|]; [contradiction|auto].
Qed.

Lemma after_dot_inj s t1 t2 : after_dot s t1 -> after_dot s t2 -> t1 = t2.
Proof. rewrite <- !after_first_dot_spec; congruence. Qed.

Theorem pmatch_ok {C} (items : list (str * C)) section c ty :
  pmatch items section = Ok (c, ty) <->
  exists pre name post,
    items = pre ++ (name, c) :: post
    /\ (forall m, In m (map fst pre) -> ~ section_matches m section)
    /\ ((name = section /\ ty = name)
        \/ ((exists t, name = section ++ dot :: t) /\ after_dot name ty)).
Proof.
  induction items as [|[n c0] items IH]; cbn [pmatch].
  - split; [discriminate|]. intros (pre & ? & ? & H & _); destruct pre; discriminate.
  - destruct (startswith n (section ++ [dot])) eqn:E1.
    + apply startswith_spec in E1; destruct E1 as (t & Ht). rewrite <- app_assoc in Ht; cbn in Ht.
      destruct (after_first_dot_exists n) as (ty0 & Hty).
      { rewrite Ht, in_app_iff; right; left; reflexivity. }
      rewrite Hty. apply after_first_dot_spec in Hty. split.
      * intros [= <- <-]. exists [], n, items; split; [reflexivity|]; split; [intros ? []|].
        right; split; [exists t; exact Ht|exact Hty].
      * intros (pre & name & post & H & Hpre & Hm). destruct pre as [|p pre]; cbn in H.
        -- injection H as E1' E2' E3'; rewrite <- E1' in Hm. destruct Hm as [(Hn & _)|(_ & Had)].
           ++ exfalso. rewrite Hn in Ht. apply (f_equal (@length _)) in Ht. rewrite app_length in Ht; cbn in Ht; lia.
           ++ rewrite (after_dot_inj _ _ _ Hty Had), E2'; reflexivity.
        -- exfalso. inversion H; subst p. apply (Hpre n); [left; reflexivity|]. right; exists t; exact Ht.
    + assert (Hnot : ~ exists t, n = section ++ dot :: t).
      { intros (t & Ht). assert (startswith n (section ++ [dot]) = true); [|congruence].
        apply startswith_spec; exists t; rewrite <- app_assoc; exact Ht. }
      destruct (eqb n section) eqn:E2.
      * apply eqb_eq in E2. split.
        -- intros [= <- <-]. exists [], n, items; split; [reflexivity|]; split; [intros ? []|]. left; auto.
        -- intros (pre & name & post & H & Hpre & Hm). destruct pre as [|p pre]; cbn in H.
           ++ inversion H; subst name c0 post. destruct Hm as [(_ & ->)|(Hx & _)]; [reflexivity|contradiction].
           ++ exfalso. inversion H; subst p. apply (Hpre n); [left; reflexivity|left; exact E2].
      * apply eqb_neq in E2. rewrite IH. split.
        -- intros (pre & name & post & H & Hpre & Hm). exists ((n, c0) :: pre), name, post.
           split; [cbn; congruence|]. split; [|exact Hm].
           intros m [<-|Hin]; [|auto]. cbn; intros [H1|H1]; contradiction.
        -- intros (pre & name & post & H & Hpre & Hm). destruct pre as [|p pre]; cbn in H.
           ++ inversion H; subst name c0 post. destruct Hm as [(H1 & _)|(H1 & _)]; contradiction.
           ++ inversion H; subst p. exists pre, name, post. split; [reflexivity|]. split; [|exact Hm].
              intros m Hin; apply Hpre; right; exact Hin.
Qed.

Theorem pmatch_err {C} (items : list (str * C)) section e :
  pmatch items section = Err e <->
  e = NoSectionError /\ forall m, In m (map fst items) -> ~ section_matches m section.
Proof.
  induction items as [|[n c0] items IH]; cbn [pmatch].
  - split; [intros [= <-]; split; [reflexivity|intros ? []]|intros (-> & _); reflexivity].
  - destruct (startswith n (section ++ [dot])) eqn:E1.
    + apply startswith_spec in E1; destruct E1 as (t & Ht). rewrite <- app_assoc in Ht; cbn in Ht.
      destruct (after_first_dot_exists n) as (ty0 & Hty).
      { rewrite Ht, in_app_iff; right; left; reflexivity. }
      rewrite Hty. split; [discriminate|]. intros (_ & H). exfalso; apply (H n); [left; reflexivity|].
      right; exists t; exact Ht.
    + assert (Hnot : ~ exists t, n = section ++ dot :: t).
      { intros (t & Ht). assert (startswith n (section ++ [dot]) = true); [|congruence].
        apply startswith_spec; exists t; rewrite <- app_assoc; exact Ht. }
      destruct (eqb n section) eqn:E2.
      * apply eqb_eq in E2. split; [discriminate|]. intros (_ & H). exfalso; apply (H n); [left; reflexivity|left; exact E2].
      * apply eqb_neq in E2. rewrite IH. split.
        -- intros (-> & H); split; [reflexivity|]. intros m [<-|Hin]; [|auto]. intros [H1|H1]; contradiction.
        -- intros (-> & H); split; [reflexivity|]. intros m Hin; apply H; right; exact Hin.
Qed.

Lemma after_dot_nodot section t : ~ In dot section -> after_dot (section ++ dot :: t) t.
Proof. intros H; exists section; auto. Qed.

Theorem type_correct_iff section t ty :
  after_dot (section ++ dot :: t) ty -> (ty = t <-> ~ In dot section).
Proof.
  intros Had; split.
  - intros -> Hin.
    destruct (after_first_dot_exists section Hin) as (b & Hb).
    apply after_first_dot_spec in Hb. destruct Hb as (a & Hs & Ha).
    assert (Had' : after_dot (section ++ dot :: t) (b ++ dot :: t)).
    { exists a; split; [|exact Ha]. rewrite Hs, <- app_assoc; reflexivity. }
    pose proof (after_dot_inj _ _ _ Had Had') as E.
    apply (f_equal (@length _)) in E; rewrite app_length in E; cbn in E; lia.
  - intros Hn. exact (after_dot_inj _ _ _ Had (after_dot_nodot _ _ Hn)).
Qed.

(** ** splitting on a character class *)
Section Split.
Variable sep : ascii -> bool.

Lemma tokens_cons_sep c t ws : sep c = true -> tokens sep t ws -> tokens sep (c :: t) ws.
Proof.
  intros Hc H; inversion H as [s Hs|s w rest ws' Hs Hw Hwn Hr Hrest]; subst.
  - constructor; constructor; assumption.
  - rewrite app_comm_cons. constructor; try assumption. constructor; assumption.
Qed.

Lemma split_class_tokens t :
  (forall cur, Forall (fun c => sep c = false) cur ->
     tokens sep (rev cur ++ t) (filter nonempty (split_class sep cur false t)))
  /\ tokens sep t (filter nonempty (split_class sep [] true t)).
Proof.
  induction t as [|c t (IH1 & IH2)].
  - split; cbn [split_class].
    + intros cur Hcur; rewrite app_nil_r. cbn [filter].
      destruct (rev cur) as [|x l] eqn:E; cbn [nonempty]; [constructor; constructor|].
      assert (Hw : Forall (fun c => sep c = false) (x :: l)) by (rewrite <- E; apply Forall_rev; exact Hcur).
      pose proof (tok_word sep [] (x :: l) [] []) as T. cbn [app] in T. rewrite app_nil_r in T.
      apply T; [constructor|discriminate|exact Hw|left; reflexivity|constructor; constructor].
    + cbn. constructor; constructor.
  - split; cbn [split_class].
    + intros cur Hcur. destruct (sep c) eqn:Ec.
      * cbn [filter]. destruct (rev cur) as [|x l] eqn:E; cbn [nonempty app].
        -- apply tokens_cons_sep; assumption.
        -- change (x :: l ++ c :: t) with ([] ++ (x :: l) ++ c :: t). constructor.
           ++ constructor.
           ++ discriminate.
           ++ rewrite <- E; apply Forall_rev; exact Hcur.
           ++ right; exists c, t; auto.
           ++ apply tokens_cons_sep; assumption.
      * replace (rev cur ++ c :: t) with (rev (c :: cur) ++ t) by (cbn; rewrite <- app_assoc; reflexivity).
        apply IH1; constructor; assumption.
    + destruct (sep c) eqn:Ec; [apply tokens_cons_sep; assumption|].
      apply (IH1 [c]); constructor; [exact Ec|constructor].
Qed.

Lemma split_flag t b b' : filter nonempty (split_class sep [] b t) = filter nonempty (split_class sep [] b' t).
Proof.
  destruct t as [|c t]; cbn; [reflexivity|]. destruct (sep c); [|reflexivity].
  destruct b, b'; reflexivity.
Qed.

Lemma split_seps s t b : Forall (fun c => sep c = true) s ->
  filter nonempty (split_class sep [] b (s ++ t)) = filter nonempty (split_class sep [] true t).
Proof.
  intros H; revert b; induction H as [|c s Hc Hs IH]; intros b; cbn; [apply split_flag|].
  rewrite Hc; destruct b; cbn; apply IH.
Qed.

Lemma split_word w t cur b : w <> [] -> Forall (fun c => sep c = false) w ->
  split_class sep cur b (w ++ t) = split_class sep (rev w ++ cur) false t.
Proof.
  intros Hne H; revert cur b; induction H as [|c w Hc Hw IH]; intros cur b; [congruence|].
  cbn; rewrite Hc. destruct w as [|x w]; [reflexivity|].
  rewrite IH by discriminate. cbn; rewrite <- !app_assoc; reflexivity.
Qed.

Lemma split_end cur t : rev cur <> [] -> (t = [] \/ exists c r, t = c :: r /\ sep c = true) ->
  filter nonempty (split_class sep cur false t) = rev cur :: filter nonempty (split_class sep [] true t).
Proof.
  intros Hc [->|(c & r & -> & Hs)]; cbn [split_class].
  - cbn [filter]; destruct (rev cur); [congruence|reflexivity].
  - rewrite Hs; cbn [filter]; destruct (rev cur); [congruence|reflexivity].
Qed.

Lemma tokens_split t ws : tokens sep t ws -> forall b, filter nonempty (split_class sep [] b t) = ws.
Proof.
  induction 1 as [s Hs|s w rest ws Hs Hw Hwn Hr Hrest IH]; intros b.
  - rewrite <- (app_nil_r s), split_seps by exact Hs. reflexivity.
  - rewrite split_seps by exact Hs. rewrite split_word by assumption. rewrite app_nil_r.
    rewrite split_end; [|rewrite rev_involutive; exact Hw|exact Hr].
    rewrite rev_involutive; f_equal. apply IH.
Qed.

Theorem split_class_iff t ws :
  filter nonempty (split_class sep [] false t) = ws <-> tokens sep t ws.
Proof.
  split; [|intros H; apply tokens_split; exact H].
  intros <-. apply (proj1 (split_class_tokens t) []); constructor.
Qed.
End Split.


Lemma split_join sep s ws :
  s <> [] -> Forall (fun c => sep c = true) s ->
  Forall (fun w => w <> [] /\ Forall (fun c => sep c = false) w) ws ->
  filter nonempty (split_class sep [] false (join s ws)) = ws.
Proof.
  intros Hs Hsep Hws. apply split_class_iff. destruct ws as [|w ws]; [constructor; constructor|].
  inversion Hws as [|? ? (Hw & Hwn) Hws']; subst. cbn.
  rewrite <- (app_nil_l (w ++ _)). constructor; [constructor|exact Hw|exact Hwn| |].
  - destruct ws as [|w' ws]; cbn; [left; reflexivity|right].
    destruct s as [|c s]; [congruence|]. inversion Hsep; subst. cbn; eauto.
  - clear w Hw Hwn Hws. induction Hws' as [|w ws (Hw & Hwn) Hws IH]; cbn; [constructor; constructor|].
    rewrite <- app_assoc. constructor; try assumption.
    destruct ws as [|w' ws]; cbn; [left; reflexivity|right].
    destruct s as [|c s]; [congruence|]. inversion Hsep; subst. cbn; eauto.
Qed.

Theorem parse_list_join s ws :
  s <> [] -> Forall (fun c => sep_list c = true) s ->
  Forall (fun w => w <> [] /\ Forall (fun c => sep_list c = false) w) ws ->
  parse_list (join s ws) = ws.
Proof. apply split_join. Qed.

(** ** the look-around split of parse_seq *)
Lemma sep_list_spec c : sep_list c = true <-> is_space c = true \/ c = comma.
Proof. unfold sep_list, ch_eq. rewrite orb_true_iff, Ascii.eqb_eq; tauto. Qed.

Lemma sep_colon : sep_list colon = false. Proof. reflexivity. Qed.

Definition last_char (prev : option ascii) (u : str) : option ascii :=
  match rev u with c :: _ => Some c | [] => prev end.

Lemma last_char_cons prev c u : last_char (Some c) u = last_char prev (c :: u).
Proof. unfold last_char; cbn. destruct (rev u); reflexivity. Qed.

Lemma match_sep_nonsep prev c t : sep_list c = false -> match_sep prev (c :: t) = None.
Proof. intros H; unfold match_sep; cbn; rewrite H; destruct prev as [x|]; [destruct (ch_eq x colon)|]; reflexivity. Qed.

Lemma split_seq_nonsep u : forall prev cur t, Forall (fun c => sep_list c = false) u ->
  split_seq prev cur 0 (u ++ t) = split_seq (last_char prev u) (rev u ++ cur) 0 t.
Proof.
  induction u as [|c u IH]; intros prev cur t H; [reflexivity|].
  inversion H as [|? ? Hc Hu]; subst. cbn [app]. cbn [split_seq].
  rewrite match_sep_nonsep by exact Hc. rewrite IH by exact Hu.
  rewrite (last_char_cons prev). cbn [rev]. rewrite <- app_assoc; reflexivity.
Qed.

Lemma split_seq_skip s : forall prev cur t,
  split_seq prev cur (length s) (s ++ t) = split_seq (last_char prev s) cur 0 t.
Proof.
  induction s as [|c s IH]; intros prev cur t; [reflexivity|].
  cbn [app length split_seq]. rewrite IH, (last_char_cons prev); reflexivity.
Qed.

Lemma run_len_app s t : Forall (fun c => sep_list c = true) s -> run_len (s ++ t) = length s + run_len t.
Proof. induction 1 as [|c s Hc Hs IH]; cbn; [reflexivity|]; rewrite Hc, IH; reflexivity. Qed.

Lemma run_len_head t : (t = [] \/ exists c r, t = c :: r /\ sep_list c = false) -> run_len t = 0.
Proof. intros [->|(c & r & -> & H)]; cbn; [reflexivity|rewrite H; reflexivity]. Qed.

(** a run not followed by a colon, not preceded by one: matched entirely *)
Lemma split_seq_run prev cur s t :
  prev <> Some colon -> s <> [] -> Forall (fun c => sep_list c = true) s ->
  (t = [] \/ exists c r, t = c :: r /\ sep_list c = false /\ c <> colon) ->
  split_seq prev cur 0 (s ++ t) = rev cur :: split_seq (last_char prev s) [] 0 t.
Proof.
  intros Hp Hs Hsep Ht. destruct s as [|c s]; [congruence|].
  assert (Hm : match_sep prev ((c :: s) ++ t) = Some (length (c :: s))).
  { assert (Hb : backtrack ((c :: s) ++ t) (run_len ((c :: s) ++ t)) = Some (length (c :: s))).
    { rewrite run_len_app by exact Hsep.
      rewrite run_len_head by (destruct Ht as [->|(x & r & -> & H & _)]; eauto).
      rewrite Nat.add_0_r. cbn [length backtrack].
      assert (Hn : nth_error ((c :: s) ++ t) (S (length s)) = match t with [] => None | x :: _ => Some x end).
      { rewrite nth_error_app2 by (cbn; lia). cbn [length]. rewrite Nat.sub_diag. destruct t; reflexivity. }
      rewrite Hn. destruct Ht as [->|(x & r & -> & _ & Hx)]; [reflexivity|].
      unfold ch_eq; destruct (Ascii.eqb_spec x colon); [contradiction|reflexivity]. }
    unfold match_sep; destruct prev as [x|]; [|exact Hb].
    unfold ch_eq; destruct (Ascii.eqb_spec x colon) as [->|]; [congruence|exact Hb]. }
  cbn [app]. cbn [split_seq]. change (c :: s ++ t) with ((c :: s) ++ t). rewrite Hm.
  cbn [length Nat.pred]. rewrite split_seq_skip, (last_char_cons prev). reflexivity.
Qed.

(** a run of at least two followed by a colon: all but the last character are matched *)
Lemma split_seq_run_colon prev cur s w t :
  prev <> Some colon -> s <> [] -> Forall (fun c => sep_list c = true) s -> sep_list w = true ->
  split_seq prev cur 0 (s ++ w :: colon :: t) = rev cur :: split_seq (Some w) [w] 0 (colon :: t).
Proof.
  intros Hp Hs Hsep Hw. destruct s as [|c s]; [congruence|].
  assert (Hwc : w <> colon) by (intros ->; discriminate).
  assert (Hb : backtrack ((c :: s) ++ w :: colon :: t) (run_len ((c :: s) ++ w :: colon :: t)) = Some (length (c :: s))).
  { rewrite run_len_app by exact Hsep. cbn [run_len]. rewrite Hw, sep_colon.
    rewrite Nat.add_1_r. cbn [backtrack].
    assert (Hn : nth_error ((c :: s) ++ w :: colon :: t) (S (length (c :: s))) = Some colon).
    { rewrite nth_error_app2 by lia. replace (S (length (c :: s)) - length (c :: s)) with 1 by lia. reflexivity. }
    rewrite Hn. unfold ch_eq at 1; rewrite Ascii.eqb_refl.
    cbn [length backtrack].
    assert (Hn2 : nth_error ((c :: s) ++ w :: colon :: t) (S (length s)) = Some w).
    { rewrite nth_error_app2 by (cbn; lia). cbn [length]. rewrite Nat.sub_diag. reflexivity. }
    rewrite Hn2. unfold ch_eq; destruct (Ascii.eqb_spec w colon); [contradiction|reflexivity]. }
  assert (Hm : match_sep prev ((c :: s) ++ w :: colon :: t) = Some (length (c :: s))).
  { unfold match_sep; destruct prev as [x|]; [|exact Hb].
    unfold ch_eq; destruct (Ascii.eqb_spec x colon) as [->|]; [congruence|exact Hb]. }
  cbn [app]. cbn [split_seq]. change (c :: s ++ w :: colon :: t) with ((c :: s) ++ w :: colon :: t).
  rewrite Hm. cbn [length Nat.pred]. f_equal. rewrite split_seq_skip.
  assert (Hl : exists x, last_char (Some c) s = Some x) by (unfold last_char; destruct (rev s); eauto).
  destruct Hl as (x & ->). cbn [split_seq].
  assert (Hm2 : match_sep (Some x) (w :: colon :: t) = None).
  { unfold match_sep. destruct (ch_eq x colon); [reflexivity|].
    cbn [run_len]; rewrite Hw, sep_colon. reflexivity. }
  rewrite Hm2. reflexivity.
Qed.

(** one blank before a colon is kept *)
Lemma split_seq_one_colon prev cur w t :
  split_seq prev cur 0 (w :: colon :: t) = split_seq (Some w) (w :: cur) 0 (colon :: t).
Proof.
  cbn [split_seq]. assert (Hm : match_sep prev (w :: colon :: t) = None); [|rewrite Hm; reflexivity].
  unfold match_sep. assert (Hb : backtrack (w :: colon :: t) (run_len (w :: colon :: t)) = None).
  { cbn [run_len]. destruct (sep_list w); reflexivity. }
  destruct prev as [x|]; [destruct (ch_eq x colon)|]; auto.
Qed.

(** the first blank after a colon is kept *)
Lemma split_seq_after_colon cur w t :
  split_seq (Some colon) cur 0 (w :: t) = split_seq (Some w) (w :: cur) 0 t.
Proof. reflexivity. Qed.

Lemma word_nonsep w : word w -> Forall (fun c => sep_list c = false) w.
Proof.
  intros (_ & H); eapply Forall_impl; [|exact H]; cbn; intros c (H1 & H2 & _).
  apply not_true_is_false; rewrite sep_list_spec; intros [E|E]; congruence.
Qed.
Lemma word_inner w : word w -> Forall (fun c => sep_inner c = false) w.
Proof.
  intros (_ & H); eapply Forall_impl; [|exact H]; cbn; intros c (H1 & H2 & H3).
  unfold sep_inner, ch_eq; rewrite H1. destruct (Ascii.eqb_spec c colon); [contradiction|reflexivity].
Qed.
Lemma blanks_sep s : blanks s -> Forall (fun c => sep_list c = true) s.
Proof. intros H; eapply Forall_impl; [|exact H]; cbn; intros c Hc; unfold sep_list; rewrite Hc; reflexivity. Qed.
Lemma blanks_inner s : blanks s -> Forall (fun c => sep_inner c = true) s.
Proof. intros H; eapply Forall_impl; [|exact H]; cbn; intros c Hc; unfold sep_inner; rewrite Hc; apply orb_true_r. Qed.

Lemma word_last w prev : word w -> last_char prev w <> Some colon.
Proof.
  intros (Hne & H); unfold last_char. destruct (rev w) as [|c l] eqn:E.
  - apply (f_equal (@rev _)) in E; rewrite rev_involutive in E; contradiction.
  - intros [= ->]. apply Forall_rev in H; rewrite E in H; inversion H; subst; tauto.
Qed.

Definition seq_text (a ws1 ws2 b : str) : str := a ++ ws1 ++ colon :: ws2 ++ b.

(** What the split does with "a<blanks>:<blanks>b". *)
Lemma split_tail cur0 prev ws2 b :
  blanks ws2 -> word b ->
  filter nonempty (split_seq prev cur0 0 (colon :: ws2 ++ b)) =
  match ws2 with
  | [] => [rev cur0 ++ colon :: b]
  | [w] => [rev cur0 ++ colon :: w :: b]
  | w :: _ => [rev cur0 ++ [colon; w]; b]
  end.
Proof.
  intros Hb Hw.
  assert (Hbw : b <> []) by apply Hw. apply word_nonsep in Hw as Hbn.
  change (colon :: ws2 ++ b) with ([colon] ++ ws2 ++ b).
  rewrite split_seq_nonsep by (constructor; [apply sep_colon|constructor]).
  cbn [rev app last_char]. unfold last_char; cbn [rev app].
  destruct ws2 as [|w ws2].
  - cbn [app]. rewrite <- (app_nil_r b) at 1. rewrite split_seq_nonsep by exact Hbn.
    cbn [split_seq]. rewrite rev_app_distr, rev_involutive. cbn [rev]. rewrite <- app_assoc. cbn [app filter].
    destruct (rev cur0); reflexivity.
  - inversion Hb as [|? ? Hw1 Hws]; subst. cbn [app]. rewrite split_seq_after_colon.
    destruct ws2 as [|w2 ws2].
    + cbn [app]. rewrite <- (app_nil_r b) at 1. rewrite split_seq_nonsep by exact Hbn.
      cbn [split_seq]. rewrite rev_app_distr, rev_involutive. cbn [rev]. rewrite <- !app_assoc. cbn [app filter].
      destruct (rev cur0); reflexivity.
    + rewrite (split_seq_run _ _ (w2 :: ws2) b).
      * cbn [rev filter]. rewrite <- !app_assoc; cbn [app].
        replace (nonempty (rev cur0 ++ [colon; w])) with true by (destruct (rev cur0); reflexivity).
        f_equal. rewrite <- (app_nil_r b) at 1. rewrite split_seq_nonsep by exact Hbn.
        cbn [split_seq]. rewrite app_nil_r, rev_involutive. cbn [filter]. destruct b; [congruence|reflexivity].
      * intros [= ->]. discriminate.
      * discriminate.
      * apply blanks_sep; exact Hws.
      * right. destruct b as [|c b]; [congruence|]. exists c, b. inversion Hbn; subst.
        split; [reflexivity|]; split; [assumption|]. destruct Hw as (_ & Hf). inversion Hf; subst; tauto.
Qed.

Lemma seq_parts_text a ws1 ws2 b :
  word a -> word b -> blanks ws1 -> blanks ws2 ->
  seq_parts (seq_text a ws1 ws2 b) =
  match ws1 with
  | [] | [_] =>
      match ws2 with
      | [] | [_] => [a ++ ws1 ++ colon :: ws2 ++ b]
      | w :: _ => [a ++ ws1 ++ [colon; w]; b]
      end
  | _ =>
      a :: match ws2 with
           | [] | [_] => [last ws1 colon :: colon :: ws2 ++ b]
           | w :: _ => [[last ws1 colon; colon; w]; b]
           end
  end.
Proof.
  intros Ha Hb H1 H2. unfold seq_parts, seq_text.
  rewrite split_seq_nonsep by (apply word_nonsep; exact Ha). rewrite app_nil_r.
  destruct ws1 as [|w1 ws1].
  - cbn [app]. rewrite split_tail by assumption. rewrite rev_involutive.
    destruct ws2 as [|? [|? ?]]; reflexivity.
  - destruct ws1 as [|w2 ws1].
    + cbn [app]. rewrite split_seq_one_colon, split_tail by assumption. cbn [rev]. rewrite rev_involutive.
      destruct ws2 as [|? [|? ?]]; rewrite <- app_assoc; reflexivity.
    + assert (Hne : w1 :: w2 :: ws1 <> []) by discriminate.
      rewrite (app_removelast_last colon Hne) at 1.
      rewrite <- app_assoc; cbn [app].
      assert (Hsep : Forall (fun c => sep_list c = true) (w1 :: w2 :: ws1)) by (apply blanks_sep; exact H1).
      rewrite (app_removelast_last colon Hne) in Hsep. apply Forall_app in Hsep. destruct Hsep as (Hs1 & Hs2).
      rewrite split_seq_run_colon.
      * rewrite rev_involutive. cbn [filter].
        destruct a as [|a0 a]; [destruct Ha; congruence|]. cbn [nonempty]. f_equal.
        rewrite split_tail by assumption. destruct ws2 as [|? [|? ?]]; reflexivity.
      * apply word_last; exact Ha.
      * cbn. discriminate.
      * exact Hs1.
      * inversion Hs2; assumption.
Qed.

Lemma inner_range a ws1 ws2 b :
  word a -> word b -> blanks ws1 -> blanks ws2 -> inner_parts (a ++ ws1 ++ colon :: ws2 ++ b) = [a; b].
Proof.
  intros Ha Hb H1 H2. unfold inner_parts. apply split_class_iff.
  rewrite <- (app_nil_l (a ++ _)). constructor.
  - constructor.
  - apply Ha.
  - apply word_inner, Ha.
  - right. destruct ws1 as [|w ws1]; cbn; [exists colon; eexists; split; reflexivity|].
    apply blanks_inner in H1; inversion H1; subst; eauto.
  - replace (ws1 ++ colon :: ws2 ++ b) with ((ws1 ++ colon :: ws2) ++ b ++ [])
      by (rewrite app_nil_r, <- app_assoc; reflexivity).
    constructor.
    + apply Forall_app; split; [apply blanks_inner; exact H1|]. constructor; [reflexivity|apply blanks_inner; exact H2].
    + apply Hb.
    + apply word_inner, Hb.
    + left; reflexivity.
    + constructor; constructor.
Qed.

Lemma inner_one s w s2 : Forall (fun c => sep_inner c = true) s -> word w -> Forall (fun c => sep_inner c = true) s2 ->
  inner_parts (s ++ w ++ s2) = [w].
Proof.
  intros H1 Hw H2. unfold inner_parts. apply split_class_iff. constructor; try assumption.
  - apply Hw.
  - apply word_inner, Hw.
  - destruct s2 as [|c s2]; [left; reflexivity|right]. inversion H2; subst; eauto.
  - constructor; exact H2.
Qed.

Section SeqThm.
Variable pyfloat : str -> res Q.
Variable fuel : nat.
Hypothesis pyfloat_colon : forall s, In colon s -> pyfloat s = Err ValueError.
Hypothesis pyfloat_err : forall s e, pyfloat s = Err e -> e = ValueError.

Lemma parse_part_err_colon s w s2 : Forall (fun c => sep_inner c = true) s -> word w ->
  Forall (fun c => sep_inner c = true) s2 -> In colon (s ++ w ++ s2) ->
  parse_part pyfloat fuel (s ++ w ++ s2) = Some (Err ValueError).
Proof. intros H1 Hw H2 Hc. unfold parse_part. rewrite inner_one by assumption. rewrite pyfloat_colon by exact Hc. reflexivity. Qed.

Lemma parse_part_word w : word w -> parse_part pyfloat fuel w = Some (let! x := pyfloat w in Ok [x]).
Proof.
  intros Hw. unfold parse_part.
  assert (E : inner_parts w = [w]).
  { rewrite <- (app_nil_r w) at 1. apply (inner_one [] w []); auto. }
  rewrite E. reflexivity.
Qed.

Theorem seq_blanks a ws1 ws2 b :
  word a -> word b -> blanks ws1 -> blanks ws2 ->
  parse_seq pyfloat fuel (seq_text a ws1 ws2 b) =
  if (length ws1 <=? 1) && (length ws2 <=? 1)
  then parse_seq pyfloat fuel (seq_text a [] [] b)
  else Some (Err ValueError).
Proof.
  intros Ha Hb H1 H2. unfold parse_seq. rewrite !seq_parts_text by (assumption || constructor).
  assert (Hok : (length ws1 <=? 1) && (length ws2 <=? 1) = true ->
    parse_parts pyfloat fuel [a ++ ws1 ++ colon :: ws2 ++ b] = parse_parts pyfloat fuel [a ++ [] ++ colon :: [] ++ b]).
  { intros _. cbn [parse_parts]. unfold parse_part at 1 2. rewrite !inner_range by (assumption || constructor). reflexivity. }
  assert (Herr1 : forall w rest, is_space w = true ->
     parse_parts pyfloat fuel ((a ++ ws1 ++ [colon; w]) :: rest) = Some (Err ValueError)).
  { intros w rest Hw. cbn [parse_parts].
    change (a ++ ws1 ++ [colon; w]) with ([] ++ a ++ (ws1 ++ [colon; w])).
    rewrite parse_part_err_colon; [reflexivity|constructor|exact Ha| |].
    - apply Forall_app; split; [apply blanks_inner; exact H1|]. repeat constructor.
      unfold sep_inner; rewrite Hw; apply orb_true_r.
    - cbn. rewrite !in_app_iff; right; right; left; reflexivity. }
  assert (Herr2 : forall p rest, parse_part pyfloat fuel p = Some (Err ValueError) ->
     parse_parts pyfloat fuel (a :: p :: rest) = Some (Err ValueError)).
  { intros p rest Hp. cbn [parse_parts]. rewrite parse_part_word by exact Ha. rewrite Hp.
    destruct (pyfloat a) as [x|e] eqn:E; cbn; [reflexivity|]. apply pyfloat_err in E; subst; reflexivity. }
  destruct ws1 as [|w1 [|w1' ws1]].
  - destruct ws2 as [|w2 [|w2' ws2]]; cbn [length Nat.leb andb]; [reflexivity|apply Hok; reflexivity|].
    apply Herr1. inversion H2; assumption.
  - destruct ws2 as [|w2 [|w2' ws2]]; cbn [length Nat.leb andb]; [apply Hok; reflexivity|apply Hok; reflexivity|].
    apply Herr1. inversion H2; assumption.
  - cbn [length Nat.leb andb].
    set (wl := last (w1 :: w1' :: ws1) colon).
    assert (Hwl : sep_inner wl = true).
    { assert (Hf : Forall (fun c => sep_inner c = true) (w1 :: w1' :: ws1)) by (apply blanks_inner; exact H1).
      rewrite Forall_forall in Hf; apply Hf. unfold wl.
      rewrite (app_removelast_last (l:=w1 :: w1' :: ws1) colon) at 2 by discriminate.
      apply in_or_app; right; left; reflexivity. }
    assert (Hb1 : forall ws, blanks ws -> parse_part pyfloat fuel (wl :: colon :: ws ++ b) = Some (Err ValueError)).
    { intros ws Hws. replace (wl :: colon :: ws ++ b) with ((wl :: colon :: ws) ++ b ++ [])
        by (rewrite app_nil_r; reflexivity).
      apply parse_part_err_colon; [|exact Hb|constructor|].
      - constructor; [exact Hwl|]. constructor; [reflexivity|apply blanks_inner; exact Hws].
      - right; left; reflexivity. }
    destruct ws2 as [|w2 [|w2' ws2]].
    + apply Herr2. apply (Hb1 []); constructor.
    + apply Herr2. apply (Hb1 [w2]); exact H2.
    + apply Herr2. unfold parse_part.
      assert (E : inner_parts [wl; colon; w2] = []).
      { unfold inner_parts. apply split_class_iff. constructor. inversion H2 as [|? ? Hx]; subst.
        repeat constructor; [exact Hwl|]. unfold sep_inner; rewrite Hx; apply orb_true_r. }
      rewrite E. reflexivity.
Qed.
End SeqThm.

(** Without loose colons the split is that of [parse_list]. *)
Fixpoint noadj (prev : option ascii) (t : str) : Prop :=
  match t with
  | [] => True
  | c :: r => (match prev with
               | Some x => ~ (x = colon /\ sep_list c = true) /\ ~ (sep_list x = true /\ c = colon)
               | None => True end) /\ noadj (Some c) r
  end.

Lemma no_loose_noadj t : no_loose_colon t -> noadj None t.
Proof.
  intros H. destruct t as [|c t]; [exact I|]. cbn; split; [exact I|].
  revert c H; induction t as [|d t IH]; intros c H; cbn; [exact I|]. split.
  - destruct (H [] t c d eq_refl) as (H1 & H2). rewrite !sep_list_spec. tauto.
  - apply IH. intros l r x y E. apply (H (c :: l) r x y). cbn; congruence.
Qed.

Lemma backtrack_noadj t prev : noadj prev t -> 0 < run_len t -> backtrack t (run_len t) = Some (run_len t).
Proof.
  intros Hn Hl.
  assert (Hc : nth_error t (run_len t) <> Some colon).
  { revert prev Hn Hl; induction t as [|c t IH]; intros prev Hn Hl; [cbn; discriminate|].
    cbn [run_len] in *. destruct (sep_list c) eqn:E; [|lia]. cbn [nth_error].
    destruct Hn as (_ & Hn).
    destruct t as [|d t]; [cbn; discriminate|].
    destruct (sep_list d) eqn:Ed.
    - apply (IH (Some c) Hn). cbn [run_len]; rewrite Ed; lia.
    - cbn [run_len]; rewrite Ed; cbn. intros [= ->]. destruct Hn as ((_ & Hn) & _). apply Hn; auto. }
  destruct (run_len t) as [|n]; [lia|]. cbn [backtrack].
  destruct (nth_error t (S n)) as [x|]; [|reflexivity].
  unfold ch_eq; destruct (Ascii.eqb_spec x colon); [congruence|reflexivity].
Qed.

Lemma split_seq_class t : forall prev, noadj prev t ->
  (forall cur, (match prev with Some x => sep_list x = false | None => True end) ->
     filter nonempty (split_seq prev cur 0 t) = filter nonempty (split_class sep_list cur false t))
  /\ filter nonempty (split_seq prev [] (run_len t) t) = filter nonempty (split_class sep_list [] true t).
Proof.
  induction t as [|c t IH]; intros prev Hn; [split; reflexivity|].
  destruct (IH (Some c) (proj2 Hn)) as (IH1 & IH2). split.
  - intros cur Hp. cbn [split_seq split_class].
    destruct (sep_list c) eqn:E.
    + assert (Hl : 0 < run_len (c :: t)) by (cbn; rewrite E; lia).
      assert (Hm : match_sep prev (c :: t) = Some (run_len (c :: t))).
      { unfold match_sep. rewrite (backtrack_noadj _ _ Hn Hl). destruct prev as [x|]; [|reflexivity].
        unfold ch_eq; destruct (Ascii.eqb_spec x colon) as [->|]; [|reflexivity].
        destruct Hn as ((Hn & _) & _). exfalso; apply Hn; auto. }
      rewrite Hm. assert (Hpred : Nat.pred (run_len (c :: t)) = run_len t) by (cbn; rewrite E; reflexivity).
      rewrite Hpred. cbn [filter]. rewrite IH2. reflexivity.
    + rewrite match_sep_nonsep by exact E. apply IH1; assumption || reflexivity.
  - cbn [run_len split_class]. destruct (sep_list c) eqn:E.
    + cbn [split_seq]. exact IH2.
    + cbn [split_seq]. rewrite match_sep_nonsep by exact E. apply IH1; assumption || reflexivity.
Qed.

Theorem seq_parts_plain t : no_loose_colon t -> seq_parts t = parse_list t.
Proof.
  intros H. unfold seq_parts, parse_list.
  apply (proj1 (split_seq_class t None (no_loose_noadj t H)) []). exact I.
Qed.

(** ** range expansion *)
Local Open Scope Q_scope.
Local Notation inj n := (inject_Z (Z.of_nat n)).

Lemma inj_S n : inj (S n) == inj n + 1.
Proof. rewrite Nat2Z.inj_succ. unfold Z.succ. rewrite inject_Z_plus. reflexivity. Qed.

Lemma inj_nonneg n : 0 <= inj n.
Proof. change 0 with (inject_Z 0). rewrite <- Zle_Qle. lia. Qed.

Lemma while_range_spec N : forall fuel start e,
  e <= start + inj N -> (N < fuel)%nat ->
  exists l, while_range fuel start e = Some l /\
    forall k, (start + inj k < e -> exists v, nth_error l k = Some v /\ v == start + inj k)
           /\ (e <= start + inj k -> nth_error l k = None).
Proof.
  induction N as [|N IH]; intros fuel start e He Hf; (destruct fuel as [|fuel]; [lia|]); cbn [while_range].
  - destruct (Qlt_le_dec start e) as [Hlt|Hle].
    + exfalso. change (inj 0) with 0 in He. lra.
    + exists []; split; [reflexivity|]. intros k; split; [|destruct k; reflexivity].
      intros H; pose proof (inj_nonneg k); exfalso; lra.
  - destruct (Qlt_le_dec start e) as [Hlt|Hle].
    + destruct (IH fuel (start + 1) e) as (l & Hl & Hk); [rewrite inj_S in He; lra|lia|].
      rewrite Hl. exists (start :: l); split; [reflexivity|]. intros [|k].
      * change (inj 0) with 0. split; [|intros; lra]. intros _; exists start; split; [reflexivity|lra].
      * cbn [nth_error]. pose proof (inj_S k) as HS. destruct (Hk k) as (H1 & H2). split.
        -- intros H; destruct H1 as (v & Hv & Ev); [lra|]. exists v; split; [exact Hv|lra].
        -- intros H; apply H2; lra.
    + exists []; split; [reflexivity|]. intros k; split; [|destruct k; reflexivity].
      intros H; pose proof (inj_nonneg k); exfalso; lra.
Qed.

Theorem while_range_total start e : exists N, forall fuel, (N < fuel)%nat ->
  exists l, while_range fuel start e = Some l /\
    forall k, (start + inj k < e -> exists v, nth_error l k = Some v /\ v == start + inj k)
           /\ (e <= start + inj k -> nth_error l k = None).
Proof.
  exists (Z.to_nat (Qceiling (e - start))). intros fuel Hf. apply (while_range_spec (Z.to_nat (Qceiling (e - start)))); [|exact Hf].
  pose proof (Qle_ceiling (e - start)) as H.
  destruct (Z_le_gt_dec 0 (Qceiling (e - start))) as [Hz|Hz].
  - rewrite Z2Nat.id by exact Hz. lra.
  - assert (Hneg : inject_Z (Qceiling (e - start)) <= 0).
    { change 0 with (inject_Z 0). rewrite <- Zle_Qle; lia. }
    pose proof (inj_nonneg (Z.to_nat (Qceiling (e - start)))). lra.
Qed.

Lemma for_range_nth n : forall start step k,
  ((k < n)%nat -> exists v, nth_error (for_range n start step) k = Some v /\ v == start + inj k * step)
  /\ ((n <= k)%nat -> nth_error (for_range n start step) k = None).
Proof.
  induction n as [|n IH]; intros start step k; cbn [for_range].
  - split; [lia|]. intros _; destruct k; reflexivity.
  - destruct k as [|k].
    + split; [|lia]. intros _; exists start; split; [reflexivity|change (inj 0) with 0; ring].
    + destruct (IH (start + step) step k) as (H1 & H2). cbn [nth_error]; split.
      * intros Hk; destruct H1 as (v & Hv & Ev); [lia|]. exists v; split; [exact Hv|]. rewrite Ev, inj_S; ring.
      * intros Hk; apply H2; lia.
Qed.

Theorem step_range_spec start step e :
  (step == 0 -> step_range start step e = Err ZeroDivisionError)
  /\ (~ step == 0 -> (e - start) / step < 0 -> step_range start step e = Ok [])
  /\ (~ step == 0 -> 0 <= (e - start) / step ->
      exists l, step_range start step e = Ok l
        /\ length l = S (Z.to_nat (Qfloor ((e - start) / step + eps4)))
        /\ (forall k v, nth_error l k = Some v ->
              v == start + inj k * step /\ inj k <= (e - start) / step + eps4)
        /\ (forall k, inj k <= (e - start) / step + eps4 -> exists v, nth_error l k = Some v)).
Proof.
  unfold step_range. split; [|split].
  - intros H. apply Qeq_bool_iff in H; rewrite H; reflexivity.
  - intros H Hn. destruct (Qeq_bool step 0) eqn:E; [apply Qeq_bool_iff in E; contradiction|].
    destruct (Qlt_le_dec ((e - start) / step) 0); [reflexivity|exfalso; lra].
  - intros H Hn. destruct (Qeq_bool step 0) eqn:E; [apply Qeq_bool_iff in E; contradiction|].
    destruct (Qlt_le_dec ((e - start) / step) 0) as [Hl|_]; [exfalso; lra|].
    set (num := (e - start) / step) in *. set (n := S (Z.to_nat (Qfloor (num + eps4)))).
    assert (Hfl : (0 <= Qfloor (num + eps4))%Z).
    { change 0%Z with (Qfloor 0). apply Qfloor_resp_le. unfold eps4; lra. }
    exists (for_range n start step); split; [reflexivity|].
    assert (Hlen : length (for_range n start step) = n).
    { clear. generalize start as s. induction n as [|n IH]; intros s; cbn; [reflexivity|rewrite IH; reflexivity]. }
    split; [exact Hlen|]. split.
    + intros k v Hk. assert (Hkn : (k < n)%nat) by (rewrite <- Hlen; apply nth_error_Some; congruence).
      destruct (proj1 (for_range_nth n start step k) Hkn) as (v' & Hv' & Ev).
      assert (v' = v) by congruence; subst v'. split; [exact Ev|].
      apply Qle_trans with (inject_Z (Qfloor (num + eps4))); [|apply Qfloor_le].
      rewrite <- Zle_Qle. unfold n in Hkn. lia.
    + intros k Hk. assert (Hkn : (k < n)%nat).
      { apply Qfloor_resp_le in Hk. rewrite Qfloor_Z in Hk. unfold n. lia. }
      destruct (proj1 (for_range_nth n start step k) Hkn) as (v & Hv & _). eauto.
Qed.

(** values stay within [1e-4] steps of the interval *)
Theorem step_range_bounds start step e l v :
  step_range start step e = Ok l -> In v l ->
  (0 < step -> start <= v /\ v <= e + eps4 * step) /\
  (step < 0 -> v <= start /\ e + eps4 * step <= v).
Proof.
  intros Hl Hv. destruct (step_range_spec start step e) as (H0 & Hneg & Hpos).
  destruct (Qeq_dec step 0) as [Hz|Hz]; [rewrite H0 in Hl by exact Hz; discriminate|].
  destruct (Qlt_le_dec ((e - start) / step) 0) as [Hn|Hn].
  { rewrite Hneg in Hl by assumption. inversion Hl; subst; destruct Hv. }
  destruct (Hpos Hz Hn) as (l' & Hl' & _ & Hk & _). assert (l' = l) by congruence; subst l'.
  apply In_nth_error in Hv; destruct Hv as (k & Hv). destruct (Hk k v Hv) as (Ev & Hle).
  set (num := (e - start) / step) in *.
  assert (Hnum : num * step == e - start) by (unfold num; field; exact Hz).
  pose proof (inj_nonneg k) as Hk0.
  split; intros Hs.
  - split; rewrite Ev; [nra|]. assert (inj k * step <= (num + eps4) * step) by nra. lra.
  - split; rewrite Ev; [nra|]. assert ((num + eps4) * step <= inj k * step) by nra. lra.
Qed.

Section Parts.
Variable pyfloat : str -> res Q.

Theorem parse_part_range a b x y :
  pyfloat a = Ok x -> pyfloat b = Ok y -> word a -> word b ->
  exists N, forall fuel, (N < fuel)%nat ->
    exists l, parse_seq pyfloat fuel (a ++ colon :: b) = Some (Ok l) /\
    forall k, (x + inj k < y + eps4 -> exists v, nth_error l k = Some v /\ v == x + inj k)
           /\ (y + eps4 <= x + inj k -> nth_error l k = None).
Proof.
  intros Hx Hy Ha Hb. destruct (while_range_total x (y + eps4)) as (N & HN).
  exists N; intros fuel Hf. destruct (HN fuel Hf) as (l & Hl & Hk).
  exists l; split; [|exact Hk].
  unfold parse_seq. change (a ++ colon :: b) with (seq_text a [] [] b).
  rewrite seq_parts_text by (assumption || constructor). cbn [parse_parts].
  unfold parse_part. rewrite inner_range by (assumption || constructor).
  rewrite Hx, Hy, Hl. rewrite app_nil_r. reflexivity.
Qed.

Lemma inner_three a s b : word a -> word s -> word b -> inner_parts (a ++ colon :: s ++ colon :: b) = [a; s; b].
Proof.
  intros Ha Hs Hb. unfold inner_parts. apply split_class_iff.
  rewrite <- (app_nil_l (a ++ _)). constructor; [constructor|apply Ha|apply word_inner, Ha|right; eexists; eexists; split; reflexivity|].
  change (colon :: s ++ colon :: b) with ([colon] ++ s ++ colon :: b).
  constructor; [repeat constructor|apply Hs|apply word_inner, Hs|right; eexists; eexists; split; reflexivity|].
  change (colon :: b) with ([colon] ++ b). rewrite <- (app_nil_r b) at 1.
  constructor; [repeat constructor|apply Hb|apply word_inner, Hb|left; reflexivity|constructor; constructor].
Qed.

Lemma word_colon_nonsep a : word a -> Forall (fun c => sep_list c = false) a.
Proof. apply word_nonsep. Qed.

Lemma seq_parts_nonsep u : u <> [] -> Forall (fun c => sep_list c = false) u -> seq_parts u = [u].
Proof.
  intros Hne H. unfold seq_parts. rewrite <- (app_nil_r u) at 1. rewrite split_seq_nonsep by exact H.
  cbn. rewrite app_nil_r, rev_involutive. destruct u; [congruence|reflexivity].
Qed.

Theorem parse_part_step a s b x st y fuel :
  pyfloat a = Ok x -> pyfloat s = Ok st -> pyfloat b = Ok y -> word a -> word s -> word b ->
  parse_seq pyfloat fuel (a ++ colon :: s ++ colon :: b) = Some (step_range x st y).
Proof.
  intros Hx Hs Hy Ha Hsw Hb. unfold parse_seq.
  rewrite seq_parts_nonsep.
  - cbn [parse_parts]. unfold parse_part. rewrite inner_three by assumption. rewrite Hx, Hs, Hy; cbn [rbind].
    destruct (step_range x st y) as [l|e]; [rewrite app_nil_r|]; reflexivity.
  - destruct a; discriminate.
  - apply Forall_app; split; [apply word_nonsep, Ha|]. constructor; [reflexivity|].
    apply Forall_app; split; [apply word_nonsep, Hsw|]. constructor; [reflexivity|apply word_nonsep, Hb].
Qed.

(** four or more numbers: ValueError *)
Theorem parse_part_many part fuel : (3 < length (inner_parts part))%nat -> parse_part pyfloat fuel part = Some (Err ValueError).
Proof.
  unfold parse_part. destruct (inner_parts part) as [|a [|b [|c [|d l]]]]; cbn; intros H; try lia. reflexivity.
Qed.

Theorem parse_seq_many ws fuel : (3 < length ws)%nat -> Forall word ws ->
  parse_seq pyfloat fuel (join [colon] ws) = Some (Err ValueError).
Proof.
  intros Hl Hws. unfold parse_seq. rewrite seq_parts_nonsep.
  - cbn [parse_parts]. rewrite parse_part_many; [reflexivity|].
    unfold inner_parts. rewrite split_join; [exact Hl|discriminate|repeat constructor|].
    eapply Forall_impl; [|exact Hws]. intros w Hw; split; [apply Hw|apply word_inner, Hw].
  - destruct ws as [|w ws]; [cbn in Hl; lia|]. inversion Hws as [|? ? (Hw & _) _]; subst.
    destruct w; [congruence|discriminate].
  - destruct ws as [|w ws]; [constructor|]. inversion Hws as [|? ? Hw Hws']; subst. cbn [join].
    apply Forall_app; split; [apply word_nonsep, Hw|].
    clear -Hws'. induction Hws' as [|w ws Hw Hws IH]; cbn; [constructor|].
    constructor; [reflexivity|]. apply Forall_app; split; [apply word_nonsep, Hw|exact IH].
Qed.

Theorem parse_parts_err fuel ps p qs l e :
  parse_parts pyfloat fuel ps = Some (Ok l) -> parse_part pyfloat fuel p = Some (Err e) ->
  parse_parts pyfloat fuel (ps ++ p :: qs) = Some (Err e).
Proof.
  revert l; induction ps as [|q ps IH]; intros l Hp Hq; cbn in *.
  - rewrite Hq; reflexivity.
  - destruct (parse_part pyfloat fuel q) as [[lp|]|]; try discriminate.
    destruct (parse_parts pyfloat fuel ps) as [[lps|]|]; try discriminate.
    rewrite (IH lps eq_refl Hq); reflexivity.
Qed.

(** concatenation in order, first error wins *)
Theorem parse_parts_app fuel ps qs l l' :
  parse_parts pyfloat fuel ps = Some (Ok l) -> parse_parts pyfloat fuel qs = Some (Ok l') ->
  parse_parts pyfloat fuel (ps ++ qs) = Some (Ok (l ++ l')).
Proof.
  revert l; induction ps as [|p ps IH]; intros l Hp Hq; cbn in *.
  - inversion Hp; subst; exact Hq.
  - destruct (parse_part pyfloat fuel p) as [[lp|]|]; try discriminate.
    destruct (parse_parts pyfloat fuel ps) as [[lps|]|]; try discriminate.
    inversion Hp; subst. rewrite (IH lps eq_refl Hq). rewrite app_assoc; reflexivity.
Qed.

Theorem parse_seq_concat fuel (ps : list str) (rs : list (list Q)) (sp : str) :
  sp <> [] -> Forall (fun c => sep_list c = true) sp ->
  Forall2 (fun p r => p <> [] /\ Forall (fun c => sep_list c = false) p /\
             (forall c u, p = c :: u -> c <> colon) /\ (forall c u, p = u ++ [c] -> c <> colon) /\
             parse_part pyfloat fuel p = Some (Ok r)) ps rs ->
  parse_seq pyfloat fuel (join sp ps) = Some (Ok (concat rs)).
Proof.
  intros Hne Hsp H.
  assert (Hparts : seq_parts (join sp ps) = ps).
  { assert (Hw : Forall (fun p => p <> [] /\ Forall (fun c => sep_list c = false) p /\
             (forall c u, p = c :: u -> c <> colon) /\ (forall c u, p = u ++ [c] -> c <> colon)) ps).
    { clear -H; induction H as [|p r ps rs Hp H IH]; constructor; [|exact IH].
      destruct Hp as (H1 & H2 & H3 & H4 & _); exact (conj H1 (conj H2 (conj H3 H4))). }
    clear H. unfold seq_parts.
    assert (G : forall qs prev cur, prev <> Some colon -> Forall (fun p => p <> [] /\ Forall (fun c => sep_list c = false) p /\
             (forall c u, p = c :: u -> c <> colon) /\ (forall c u, p = u ++ [c] -> c <> colon)) qs -> rev cur <> [] ->
       filter nonempty (split_seq prev cur 0 (flat_map (fun x => sp ++ x) qs)) = rev cur :: qs).
    { induction qs as [|q qs IHq]; intros prev cur Hp Hqs Hc; cbn [flat_map].
      - cbn [split_seq filter]. destruct (rev cur); [congruence|reflexivity].
      - inversion Hqs as [|? ? (Hq1 & Hq2 & Hq3 & Hq4) Hqs']; subst.
        rewrite <- app_assoc. rewrite split_seq_run; [|exact Hp|exact Hne|exact Hsp|].
        + cbn [filter]. destruct (rev cur) as [|rc0 rc] eqn:Erc; [congruence|]. cbn [nonempty]. f_equal.
          rewrite split_seq_nonsep by exact Hq2. rewrite app_nil_r.
          rewrite IHq; [rewrite rev_involutive; reflexivity| |exact Hqs'|rewrite rev_involutive; exact Hq1].
          unfold last_char. destruct (rev q) as [|c u] eqn:E.
          { apply (f_equal (@rev _)) in E; rewrite rev_involutive in E; contradiction. }
          intros [= ->]. apply (Hq4 colon (rev u)); [|reflexivity].
          apply (f_equal (@rev _)) in E; rewrite rev_involutive in E; exact E.
        + right. destruct q as [|c q]; [congruence|]. exists c, (q ++ flat_map (fun x => sp ++ x) qs).
          inversion Hq2; subst. split; [reflexivity|]; split; [assumption|]. apply (Hq3 c q eq_refl). }
    destruct ps as [|p ps]; [reflexivity|].
    inversion Hw as [|? ? (Hq1 & Hq2 & Hq3 & Hq4) Hqs']; subst. cbn [join].
    rewrite split_seq_nonsep by exact Hq2. rewrite app_nil_r. rewrite G; [rewrite rev_involutive; reflexivity| |exact Hqs'|rewrite rev_involutive; exact Hq1].
    unfold last_char. destruct (rev p) as [|c u] eqn:E; [discriminate|].
    intros [= ->]. apply (Hq4 colon (rev u)); [|reflexivity].
    apply (f_equal (@rev _)) in E; rewrite rev_involutive in E; exact E. }
  unfold parse_seq; rewrite Hparts. clear Hparts.
  induction H as [|p r ps rs Hp H IH]; [reflexivity|]. cbn [parse_parts concat].
  destruct Hp as (_ & _ & _ & _ & ->). rewrite IH; reflexivity.
Qed.
End Parts.
