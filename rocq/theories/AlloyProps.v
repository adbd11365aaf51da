(** C56: alloy formulas, [Alloy.from_string] (src/teflow/loader.py:461-486). *)
From Coq Require Import ZArith String.
From Verif Require Import Py PyDict PyStr RUtil DataModel DataSpec DataProofs CompModel CompSpec CompProofs CompProps AlloyProofs.
Local Open Scope list_scope.
Local Open Scope R_scope.

Lemma F2len {A B} (P : A -> B -> Prop) l m : Forall2 P l m -> length l = length m.
Proof. induction 1; cbn; congruence. Qed.
Lemma F2impl {A B} (P Q : A -> B -> Prop) l m : (forall a b, P a b -> Q a b) -> Forall2 P l m -> Forall2 Q l m.
Proof. intros H. induction 1; constructor; auto. Qed.
Lemma map_nodup_in {A B} (f : A -> B) l : (forall x y, In x l -> In y l -> f x = f y -> x = y) -> NoDup l -> NoDup (map f l).
Proof.
  intros H Hd. induction Hd as [|x l Hx _ IH]; [constructor|]. cbn. constructor.
  - intros Hi. apply in_map_iff in Hi as (y & E & Hy). apply Hx. rewrite (H x y (or_introl eq_refl) (or_intror Hy)); [exact Hy|congruence].
  - apply IH. intros a b Ha Hb. apply H; right; assumption.
Qed.
Lemma combine_fst {A B C} (g : A -> C) (a : list A) (b : list B) : length a = length b -> map (fun t => g (fst t)) (combine a b) = map g a.
Proof. revert b; induction a as [|x a IH]; intros [|y b] H; try discriminate; [reflexivity|]. cbn [combine map fst]. f_equal. apply IH. injection H; auto. Qed.
Lemma combine_snd {A B} (a : list A) (b : list B) : length a = length b -> map (fun t => snd t) (combine a b) = b.
Proof. revert b; induction a as [|x a IH]; intros [|y b] H; try discriminate; [reflexivity|]. cbn [combine map snd]. f_equal. apply IH. injection H; auto. Qed.
Definition plain_item (q : str * str) : item := Item (fst q) [] (snd q) [].
Lemma plain_text l : flat_map item_text (map plain_item l) = flat_map (fun q => fst q ++ snd q) l.
Proof. induction l as [|q l IH]; [reflexivity|]. cbn [map flat_map]. rewrite IH. unfold item_text. cbn. rewrite app_nil_r. reflexivity. Qed.
Lemma numbered_good l : forall i, Forall good_part l -> Forall good_item (map plain_item (numbered l i)).
Proof.
  induction l as [|[n m|x m] l IH]; intros i H; inversion H as [|? ? (Hn & Hp) Hl]; subst; cbn [numbered map]; constructor; try (apply IH; assumption).
  - unfold good_item, plain_item; cbn. repeat split; [apply Hp|constructor|exact Hn|constructor|intros; discriminate].
  - unfold good_item, plain_item; cbn. repeat split; [apply placeholder_name|constructor|exact Hn|constructor|intros; discriminate].
Qed.
Lemma numbered_nums l : forall i, map snd (numbered l i) = map part_num l.
Proof. induction l as [|[n m|x m] l IH]; intros i; cbn; [|rewrite IH|rewrite IH]; reflexivity. Qed.
Lemma combine_keys {A} (ks : list str) (xs : list A) : length ks = length xs -> map fst (combine ks xs) = ks.
Proof. revert xs; induction ks as [|k ks IH]; intros [|x xs] H; try discriminate; [reflexivity|]. cbn. rewrite IH; [reflexivity|]. cbn in H; lia. Qed.
Lemma numbered_len l : forall i, length (numbered l i) = length l.
Proof. induction l as [|[n m|x m] l IH]; intros i; cbn; [|rewrite IH|rewrite IH]; reflexivity. Qed.
Lemma pseudo l xs : Forall good_part l -> NoDup (contents l) -> NoDup (elem_names l) -> Forall2 (fun p x => amount (part_num p) x) l xs ->
  let sf := sub_hyphen (length (flat_map part_text l)) (flat_map part_text l) in
  exists sf', extract (length sf) sf 0 = (sf', contents l) /\ comp_from_string sf' false false = Ok (combine (map fst (numbered l 0)) xs).
Proof.
  intros Hg Hc He Hx. cbv zeta. rewrite sub_nhp by (apply parts_nhp; exact Hg).
  pose proof (extract_spec l Hg Hc (length (flat_map part_text l)) 0%nat [] (contents_len l) (fun H => H)) as E. cbn [app] in E.
  exists (flat_map (fun q => fst q ++ snd q) (numbered l 0)). split; [exact E|].
  rewrite <- plain_text. pose proof (C50_reads [] (map plain_item (numbered l 0)) xs ltac:(constructor) (numbered_good l 0 Hg)) as R. cbn [app] in R. rewrite R.
  - f_equal. rewrite map_map. cbn [plain_item i_name]. apply dupdate_self. cbn [map app].
    rewrite combine_keys; [apply numbered_keys; assumption|]. rewrite map_length, numbered_len. apply F2len in Hx. exact Hx.
  - clear -Hx. generalize 0%nat. induction Hx as [|p x l xs H _ IH]; intros i; [constructor|]. destruct p as [n m|y m]; cbn [numbered map]; constructor; auto.
Qed.
(** every part becomes a site, in order: its composition times its amount *)
Theorem C56_formula :
  forall (skip raise_ : bool) (l : list part) (xs : list R) (cs : list compound),
  Forall good_part l -> NoDup (contents l) -> NoDup (elem_names l) -> (length l <= 26)%nat ->
  Forall2 (fun p x => amount (part_num p) x) l xs ->
  Forall2 (fun p c => comp_from_string (part_source p) skip raise_ = Ok c /\ undetermined c = false /\ natom c <> 0) l cs ->
  alloy_from_string (flat_map part_text l) None skip raise_
  = Ok (combine (map letter (seq 0 (length l))) (map (fun q => SComp (times (snd q) (fst q))) (combine cs xs))).
Proof.
  intros skip raise_ l xs cs Hg Hc He Hl Hx Hcs. unfold alloy_from_string.
  destruct (pseudo l xs Hg Hc He Hx) as (sf' & E1 & E2). rewrite E1, E2. cbn [rbind].
  assert (Lx : length xs = length l) by (apply F2len in Hx; lia). assert (Lc : length cs = length l) by (apply F2len in Hcs; lia).
  pose proof (read_sites skip raise_ l cs xs Hg) as RS. specialize (RS ltac:(eapply F2impl; [|exact Hcs]; cbn; tauto) Lx []). cbn [app length] in RS. rewrite RS. cbn [rbind].
  set (sites := map (fun q : compound * R => (fst q, snd q * natom (fst q))) (combine cs xs)).
  assert (Ls : length sites = length l) by (unfold sites; rewrite map_length, combine_length; lia).
  rewrite (proj1 (C55_automatic_names _ _)) by (rewrite map_length; lia). rewrite map_length, Ls.
  set (nm := map (fun i : nat => [ascii_of_nat (65 + i)]) (seq 0 (length l))).
  assert (Ln : length nm = length l) by (unfold nm; rewrite map_length, seq_length; reflexivity).
  pose proof (proj1 (C55_from_compounds (map (fun t => (fst (fst t), (snd t, snd (fst t)))) (combine sites nm)) 
     ltac:(rewrite map_map; cbn [fst snd]; rewrite combine_snd by congruence; unfold nm; apply map_nodup_in; [|apply seq_NoDup]; intros i j Hi Hj Eij; apply in_seq in Hi, Hj; injection Eij as Eij; apply (f_equal nat_of_ascii) in Eij; rewrite !nat_ascii_embedding in Eij by lia; lia)
     ltac:(apply Forall_forall; intros p Hp; apply in_map_iff in Hp as ((s, m) & <- & Hin); cbn [fst snd]; apply in_combine_l in Hin; unfold sites in Hin; apply in_map_iff in Hin as ((c, x) & <- & Hin); cbn [fst snd]; apply in_combine_l in Hin; clear -Hcs Hin; induction Hcs as [|p c0 l cs (_ & _ & H) _ IH]; [destruct Hin|destruct Hin as [->|Hin]; [exact H|exact (IH Hin)]]))) as F.
  rewrite !map_map in F. cbn [fst snd] in F.
  pose proof (combine_fst (B := str) (fun p => Some (fst p)) sites nm (eq_trans Ls (eq_sym Ln))) as M1. pose proof (combine_snd (B := str) sites nm (eq_trans Ls (eq_sym Ln))) as M2.
  pose proof (combine_fst (B := str) snd sites nm (eq_trans Ls (eq_sym Ln))) as M3. cbv beta in M1, M3.
  refine (eq_trans (eq_sym (f_equal3 from_compounds M1 (f_equal (@Some _) M2) (f_equal (@Some _) M3))) (eq_trans F _)). f_equal.
  change (map letter (seq 0 (length l))) with nm. unfold sites. clearbody nm. clear -Hcs Lx Lc Ln. revert nm xs Lx Lc Ln.
  induction Hcs as [|p c l cs (_ & _ & H) _ IH]; intros [|m nm] [|x xs] Lx Lc Ln; cbn in Lx, Lc, Ln; try lia; [reflexivity|].
  cbn [combine map fst snd]. f_equal; [|apply IH; lia]. f_equal. f_equal. unfold scaled, times. apply map_ext. intros q. f_equal. field. exact H.
Qed.
Print Assumptions C56_formula.
(** a part whose composition is a bare enumeration ("SbBi") is refused *)
Lemma mapM_err {A B} (f : A -> res B) a x b ys e : mapM f a = Ok ys -> f x = Err e -> mapM f (a ++ x :: b) = Err e.
Proof.
  revert ys; induction a as [|y a IH]; intros ys Ha Hx; cbn [mapM app] in *; [rewrite Hx; reflexivity|].
  destruct (f y) as [v|]; [|discriminate]. cbn [rbind] in *. destruct (mapM f a) as [vs|]; [|discriminate]. rewrite (IH vs eq_refl Hx). reflexivity.
Qed.
Lemma read_bad skip raise_ l1 p l2 cs xs x c : Forall good_part (l1 ++ p :: l2) ->
  Forall2 (fun p c => comp_from_string (part_source p) skip raise_ = Ok c /\ undetermined c = false) l1 cs ->
  comp_from_string (part_source p) skip raise_ = Ok c -> undetermined c = true -> length xs = length l1 ->
  forall pre xs2, mapM (read_site (pre ++ contents (l1 ++ p :: l2)) skip raise_) (combine (map fst (numbered (l1 ++ p :: l2) (length pre))) (xs ++ x :: xs2)) = Err ValueError.
Proof.
  intros Hg Hc Hp Hu. revert xs. induction Hc as [|p1 c1 l1 cs (H1 & U1) _ IH]; intros xs Hl pre xs2.
  - destruct xs; [|discriminate]. inversion Hg as [|? ? Hgp Hgl]; subst. destruct p as [name num|y num]; cbn [app numbered map fst combine mapM contents part_source] in *.
    + unfold read_site at 1. cbn [fst snd]. rewrite group_index_name by (apply Hgp). cbn [rbind]. rewrite Hp. cbn [rbind]. rewrite Hu. reflexivity.
    + unfold read_site at 1. cbn [fst snd]. rewrite group_index_placeholder. unfold py_nth. rewrite nth_error_app2 by lia. rewrite Nat.sub_diag. cbn [nth_error rbind].
      rewrite Hp. cbn [rbind]. rewrite Hu. reflexivity.
  - destruct xs as [|x1 xs]; [discriminate|]. injection Hl as Hl. inversion Hg as [|? ? Hgp Hgl]; subst.
    destruct p1 as [name num|y num]; cbn [app numbered map fst combine mapM contents part_source] in *.
    + unfold read_site at 1. cbn [fst snd]. rewrite group_index_name by (apply Hgp). cbn [rbind]. rewrite H1. cbn [rbind]. rewrite U1. rewrite IH by assumption. reflexivity.
    + unfold read_site at 1. cbn [fst snd]. rewrite group_index_placeholder. unfold py_nth. rewrite nth_error_app2 by lia. rewrite Nat.sub_diag. cbn [nth_error rbind].
      rewrite H1. cbn [rbind]. rewrite U1.
      specialize (IH Hgl xs Hl (pre ++ [y]) xs2). rewrite app_length in IH. cbn [length] in IH. rewrite Nat.add_1_r in IH. rewrite <- app_assoc in IH. cbn [app] in IH.
      cbn [rbind]. rewrite IH. reflexivity.
Qed.
Theorem C56_undetermined :
  forall (skip raise_ : bool) (names : option (list str)) (l1 : list part) (p : part) (l2 : list part) (xs : list R) (cs : list compound) (c : compound),
  Forall good_part (l1 ++ p :: l2) -> NoDup (contents (l1 ++ p :: l2)) -> NoDup (elem_names (l1 ++ p :: l2)) ->
  Forall2 (fun p x => amount (part_num p) x) (l1 ++ p :: l2) xs ->
  Forall2 (fun p c => comp_from_string (part_source p) skip raise_ = Ok c /\ undetermined c = false) l1 cs ->
  comp_from_string (part_source p) skip raise_ = Ok c -> (1 < length c)%nat -> Forall (fun q => snd q = 1) c ->
  alloy_from_string (flat_map part_text (l1 ++ p :: l2)) names skip raise_ = Err ValueError.
Proof.
  intros skip raise_ names l1 p l2 xs cs c Hg Hc He Hx Hcs Hp Hlen Hone. unfold alloy_from_string.
  destruct (pseudo _ xs Hg Hc He Hx) as (sf' & E1 & E2). rewrite E1, E2. cbn [rbind].
  apply Forall2_app_inv_l in Hx as (x1 & x2 & H1 & H2 & ->). inversion H2 as [|? x ? x2' _ _]; subst.
  assert (Hu : undetermined c = true).
  { unfold undetermined. apply andb_true_iff. split; [apply Nat.ltb_lt; exact Hlen|]. apply forallb_forall. intros q Hq. rewrite Forall_forall in Hone. unfold near_one. rewrite (Hone q Hq).
    destruct (Rlt_dec (Rabs (1 - 1)) 1e-8) as [_|N]; [reflexivity|]. exfalso. apply N. replace (1 - 1) with 0 by ring. rewrite Rabs_R0. lra. }
  pose proof (read_bad skip raise_ l1 p l2 cs x1 x c Hg Hcs Hp Hu ltac:(apply F2len in H1; lia) [] x2') as R. cbn [app length] in R. rewrite R. reflexivity.
Qed.
Print Assumptions C56_undetermined.

(** the notation written by to_string(style='origin') is never read back *)
Lemma sub_origin n s t u : nhp s -> ok_end s -> (length s < n)%nat -> nhp u -> t <> [] -> Forall (fun c => c <> "("%char /\ c <> ")"%char /\ c <> ascii_of_nat 10) t ->
  sub_hyphen n (s ++ S_ "-(" ++ t ++ ")"%char :: u) = s ++ S_ "_(" ++ t ++ ")"%char :: u.
Proof.
  revert n. induction s as [|c s IH]; intros n Hs He Hn Hu Hne Ht.
  - destruct n as [|n]; [cbn in Hn; lia|]. change ([] ++ S_ "-(" ++ t ++ ")"%char :: u) with ("-"%char :: "("%char :: (t ++ ")"%char :: u)). cbn [sub_hyphen]. change (ch_eq "-" "-") with true. change (ch_eq "(" "(") with true. cbv iota.
    rewrite paren_at_spec by assumption. rewrite sub_nhp by exact Hu. reflexivity.
  - destruct n as [|n]; [cbn in Hn; lia|]. cbn [app sub_hyphen].
    assert (Hs' : nhp s) by (destruct s; [exact I|apply Hs]).
    assert (IHs : sub_hyphen n (s ++ S_ "-(" ++ t ++ ")"%char :: u) = s ++ S_ "_(" ++ t ++ ")"%char :: u).
    { apply IH; try assumption; [|cbn in Hn; lia]. destruct s; [unfold ok_end; cbn; discriminate|exact He]. }
    rewrite IHs. unfold ch_eq at 1. destruct (Ascii.eqb_spec c "-") as [->|]; [|reflexivity].
    destruct s as [|d s]; [exfalso; apply He; reflexivity|]. cbn [app]. unfold ch_eq. destruct (Ascii.eqb_spec d "(") as [->|]; [exfalso; apply (proj1 Hs); auto|]. reflexivity.
Qed.
Lemma no_capital_empty s skip raise_ : Forall (fun c => ~ capital c) s -> comp_from_string s skip raise_ = Ok [].
Proof. intros H. unfold comp_from_string. pose proof (find_whole s [] H (Forall_nil _)) as E. cbn in E. rewrite app_nil_r in E. rewrite E. reflexivity. Qed.
Lemma number_no_capital s : number_text s -> Forall (fun c => ~ capital c) s.
Proof.
  assert (D : forall d, Forall digit d -> Forall (fun c => ~ capital c) d) by (intros d H; eapply Forall_impl; [|exact H]; intros c Hc Hk; exact (capital_not_digit c Hk Hc)).
  intros (d1 & H1 & [->|(d2 & H2 & ->)]); [apply D; exact H1|]. apply Forall_app. split; [apply D; exact H1|]. constructor; [intros H; exact (capital_not_dot _ H eq_refl)|apply D; exact H2].
Qed.
Lemma number_plain s : number_text s -> Forall (fun c => c <> "("%char /\ c <> ")"%char /\ c <> ascii_of_nat 10) s.
Proof.
  assert (D : forall d, Forall digit d -> Forall (fun c => c <> "("%char /\ c <> ")"%char /\ c <> ascii_of_nat 10) d).
  { intros d H; eapply Forall_impl; [|exact H]. intros c Hc. repeat split; intros ->; classes; cbn in Hc; lia. }
  intros (d1 & H1 & [->|(d2 & H2 & ->)]); [apply D; exact H1|]. apply Forall_app. split; [apply D; exact H1|]. constructor; [repeat split; discriminate|apply D; exact H2].
Qed.
Lemma mapM_in {A B} (f : A -> res B) l ys x : mapM f l = Ok ys -> In x l -> exists y, f x = Ok y /\ In y ys.
Proof.
  revert ys; induction l as [|a l IH]; intros ys H Hin; [destruct Hin|]. cbn in H. destruct (f a) as [y|] eqn:E; [|discriminate]. cbn in H.
  destruct (mapM f l) as [ys'|]; [|discriminate]. injection H as <-. destruct Hin as [->|Hin]; [exists y; split; [exact E|left; reflexivity]|].
  destruct (IH ys' eq_refl Hin) as (z & H1 & H2). exists z. split; [exact H1|right; exact H2].
Qed.
Lemma last_val_in {V} (l : list (str * V)) k : In k (map fst l) -> exists v, last_val l k = Some v.
Proof.
  intros H. destruct (last_val l k) as [v|] eqn:E; [exists v; reflexivity|]. exfalso. revert E.
  induction l as [|[a b] l IH]; cbn in *; [destruct H|]. destruct (last_val l k) as [w|] eqn:E; [discriminate|].
  destruct H as [->|H]; [rewrite eqb_refl; discriminate|exfalso; exact (IH H eq_refl)].
Qed.
Theorem C56_origin_style :
  forall (name num rest : str) (skip raise_ : bool) (a : alloy),
  name_like name -> number_text num -> num <> [] -> ~ In "("%char rest -> (rest = [] \/ exists c r, rest = c :: r /\ capital c) ->
  alloy_from_string (name ++ S_ "\-(" ++ num ++ S_ ")" ++ rest) None skip raise_ <> Ok a.
Proof.
  intros name num rest skip raise_ a Hname Hnum Hne Hrest Hhead H. unfold alloy_from_string in H.
  set (F := name ++ S_ "\-(" ++ num ++ S_ ")" ++ rest) in *.
  assert (E1 : sub_hyphen (length F) F = (name ++ S_ "\_") ++ "("%char :: num ++ ")"%char :: rest).
  { assert (EF : F = (name ++ S_ "\") ++ S_ "-(" ++ num ++ ")"%char :: rest) by (unfold F; rewrite <- app_assoc; reflexivity).
    rewrite EF at 2. rewrite sub_origin.
    - rewrite <- !app_assoc. reflexivity.
    - apply nhp_np, np_app; [apply np_name; exact Hname|intros [X|[]]; discriminate].
    - apply ok_end_cases. right. exists name, "\"%char. split; [reflexivity|discriminate].
    - rewrite EF, !app_length. cbn. lia.
    - apply nhp_np. exact Hrest.
    - exact Hne.
    - apply number_plain; exact Hnum. }
  rewrite E1 in H.
  set (G := (name ++ S_ "\_") ++ "("%char :: num ++ ")"%char :: rest) in *.
  assert (HP : np (name ++ S_ "\_")) by (apply np_app; [apply np_name; exact Hname|intros [X|[X|[]]]; discriminate]).
  assert (E2 : extract (length G) G 0 = (name ++ S_ "\_" ++ placeholder 0 ++ rest, [num])).
  { assert (L : exists m, length G = S (S m)) by (unfold G; rewrite !app_length; cbn; exists (length name + length (num ++ ")"%char :: rest) + 1)%nat; lia).
    destruct L as (m & L). rewrite L. cbn [extract]. unfold G at 1. rewrite find_paren_spec by (try assumption; apply number_plain; assumption).
    assert (E3 : replace_all (length G) ("("%char :: num ++ [")"%char]) (placeholder 0) G = (name ++ S_ "\_") ++ placeholder 0 ++ rest).
    { replace G with ((name ++ S_ "\_") ++ ("("%char :: num ++ [")"%char]) ++ rest) at 2 by (unfold G; rewrite <- !app_assoc; cbn; rewrite <- !app_assoc; reflexivity).
      apply replace_once; [exact HP|unfold G; rewrite (app_length (name ++ S_ "\_")); cbn; lia|].
      intros u v E. apply Hrest. rewrite E. apply in_or_app. right. left. reflexivity. }
    rewrite E3. cbn [extract]. rewrite find_paren_np; [rewrite <- app_assoc; reflexivity|].
    apply np_app; [exact HP|apply np_app; [apply np_placeholder|exact Hrest]]. }
  rewrite E2 in H. clear E1 E2.
  destruct (decompose rest) as (g0 & items & Er & Hg0 & Hitems).
  assert (Hg : g0 = []).
  { destruct g0 as [|c g0]; [reflexivity|]. destruct Hhead as [->|(d & r & -> & Hd)]; [discriminate|]. cbn in Er. injection Er as <- _. inversion Hg0; contradiction. }
  subst g0. cbn [app] in Er.
  set (its := Item name (S_ "\_") [] [] :: Item (placeholder 0) [] [] [] :: items).
  assert (Hits : Forall good_item its).
  { unfold its. constructor; [|constructor; [|exact Hitems]].
    - unfold good_item. cbn. repeat split; [exact Hname|repeat constructor; unfold filler; cbn; tauto|exists []; split; [constructor|left; reflexivity]|constructor|intros; discriminate].
    - unfold good_item. cbn. repeat split; [exact (placeholder_name 0)|constructor|exists []; split; [constructor|left; reflexivity]|constructor|intros; discriminate]. }
  assert (Et : name ++ S_ "\_" ++ placeholder 0 ++ rest = [] ++ flat_map item_text its).
  { unfold its. cbn [flat_map app]. rewrite <- Er. unfold item_text. cbn [i_name i_fill i_num i_gap]. rewrite !app_nil_r. rewrite <- !app_assoc. reflexivity. }
  rewrite Et in H.
  assert (Hps : forall ps, comp_from_string ([] ++ flat_map item_text its) false false = Ok ps -> exists v, In (placeholder 0, v) ps).
  { intros ps Hps.
    assert (X : exists xs, Forall2 (fun i x => amount (i_num i) x) its xs).
    { assert (ND : ~ In (S_ ".") (map i_num its)) by (intros Hin; apply (C50_lone_point [] its ltac:(constructor) Hits) in Hin; congruence).
      clear -Hits ND. induction Hits as [|i its Hi _ IH]; [exists []; constructor|]. destruct IH as (xs & Hxs); [intros Hin; apply ND; right; exact Hin|].
      destruct (number_amount (i_num i)) as (x & Hx); [apply Hi|intros E; apply ND; left; exact E|]. exists (x :: xs). constructor; assumption. }
    destruct X as (xs & Hxs). rewrite (C50_reads [] its xs ltac:(constructor) Hits Hxs) in Hps. injection Hps as <-.
    destruct (last_val_in (combine (map i_name its) xs) (placeholder 0)) as (v & Hv).
    { rewrite combine_keys; [unfold its; right; left; reflexivity|]. rewrite map_length. apply F2len in Hxs. exact Hxs. }
    exists v. apply dget_In; [apply dupdate_wf; constructor|]. etransitivity; [apply dget_dupdate|]. set (lv := last_val _ _) in *. match goal with |- match ?z with _ => _ end = _ => change z with lv end. rewrite Hv. reflexivity. }
  destruct (comp_from_string ([] ++ flat_map item_text its) false false) as [ps|] eqn:Ep; [|discriminate]. cbn [rbind] in H.
  destruct (Hps ps eq_refl) as (v & Hin).
  destruct (mapM (read_site [num] skip raise_) ps) as [sites|] eqn:Em; [|discriminate]. cbn [rbind] in H.
  destruct (mapM_in _ _ _ _ Em Hin) as (y & Hy & Hiny).
  unfold read_site in Hy. cbn [fst snd] in Hy. rewrite group_index_placeholder in Hy. cbn [py_nth nth_error rbind] in Hy.
  rewrite no_capital_empty in Hy by (apply number_no_capital; exact Hnum). cbn in Hy. injection Hy as <-.
  apply in_split in Hiny as (s1 & s2 & ->). rewrite !map_app in H. cbn [map fst snd] in H.
  assert (N0 : natom [] = 0).
  { rewrite (natom_int [] 0); reflexivity. }
  destruct (Nat.le_gt_cases (length (map (fun p : compound * R => Some (fst p)) s1 ++ Some [] :: map (fun p : compound * R => Some (fst p)) s2)) 26) as [Le|Gt].
  - rewrite (proj1 (C55_automatic_names _ _) Le) in H. rewrite app_length in H. cbn [length] in H. rewrite !map_length in H.
    pose proof (proj2 (compounds_refused (map fst s1) (map fst s2) (map (fun i => [ascii_of_nat (65 + i)]) (seq 0 (length s1 + S (length s2)))) (map snd s1 ++ (v * natom []) :: map snd s2)
      ltac:(rewrite !map_length, seq_length; lia) ltac:(rewrite app_length, !map_length; cbn; lia)) [] a N0) as X.
    apply X. rewrite !map_map. exact H.
  - rewrite (proj2 (C55_automatic_names _ _) Gt) in H. discriminate.
Qed.
Print Assumptions C56_origin_style.

(** ** non-vacuity: Bi2(Te0.9Se0.1)3 *)
Lemma case_amount_2 : amount (S_ "2") 2.
Proof. right; left. split; [discriminate|]. exists 2%Z. split; [exact (whole_snoc [] 0 2 whole_nil ltac:(lia))|reflexivity]. Qed.
Lemma case_amount_3 : amount (S_ "3") 3.
Proof. right; left. split; [discriminate|]. exists 3%Z. split; [exact (whole_snoc [] 0 3 whole_nil ltac:(lia))|reflexivity]. Qed.
Lemma case_digit c : In c (list_ascii_of_string "0123456789") -> digit c.
Proof. intros H. unfold digit. cbn in *. tauto. Qed.
Definition parts_case : list part := [Elem (S_ "Bi") (S_ "2"); Group (S_ "Te0.9Se0.1") (S_ "3")].
Lemma parts_case_good : Forall good_part parts_case.
Proof.
  assert (D : forall c, In c (list_ascii_of_string "0123456789") -> number_text [c]).
  { intros c H. exists [c]. split; [constructor; [apply case_digit; exact H|constructor]|left; reflexivity]. }
  constructor; [|constructor; [|constructor]].
  - split; [apply D; cbn; tauto|]. split; [|discriminate]. exists "B"%char, (S_ "i"). split; [reflexivity|]. split; [unfold capital; cbn; tauto|].
    constructor; [unfold lower_letter; cbn; tauto|constructor].
  - split; [apply D; cbn; tauto|]. split; [discriminate|]. apply Forall_forall. intros c H. cbn in H.
    repeat (destruct H as [<-|H]; [repeat split; discriminate|]). destruct H.
Qed.
Lemma case_te skip : comp_from_string (S_ "Te0.9Se0.1") skip true = Ok [(S_ "Te", IZR 9 / 10 ^ 1); (S_ "Se", IZR 1 / 10 ^ 1)].
Proof. reflexivity. Qed.
Lemma case_bi skip : comp_from_string (S_ "Bi") skip true = Ok [(S_ "Bi", 1)].
Proof. reflexivity. Qed.
Example C56_case : exists te se, alloy_from_string (S_ "Bi2(Te0.9Se0.1)3") None false true
  = Ok [(S_ "A", SComp [(S_ "Bi", 1 * 2)]); (S_ "B", SComp [(S_ "Te", te); (S_ "Se", se)])] /\ te = 2.7 /\ se = 0.3.
Proof.
  exists (IZR 9 / 10 ^ 1 * 3), (IZR 1 / 10 ^ 1 * 3). split; [|split; simpl; lra].
  assert (ND : forall x : str, NoDup [x]) by (intros x; constructor; [intros []|constructor]).
  exact (C56_formula false true parts_case [2; 3] [[(S_ "Bi", 1)]; [(S_ "Te", IZR 9 / 10 ^ 1); (S_ "Se", IZR 1 / 10 ^ 1)]]
    parts_case_good (ND _) (ND _) ltac:(cbn; lia)
    ltac:(constructor; [exact case_amount_2|constructor; [exact case_amount_3|constructor]])
    ltac:(constructor; [split; [apply case_bi|split; [reflexivity|rewrite (natom_int _ 1) by (unfold total; cbn; lra); lra]]|
          constructor; [split; [apply case_te|split; [|rewrite (natom_int _ 1) by (unfold total; cbn; lra); lra]]|constructor]];
          unfold undetermined; cbn [length Nat.ltb Nat.leb andb forallb snd]; unfold near_one; destruct (Rlt_dec _ _) as [H|H]; [exfalso; apply Rabs_def2 in H; simpl in H; lra|reflexivity])).
Qed.
(** C56_undetermined: (SbBi)2Te3 is refused *)
Example C56_case_undetermined : alloy_from_string (S_ "Te3(SbBi)2") None false true = Err ValueError.
Proof.
  assert (ND : forall x : str, NoDup [x]) by (intros x; constructor; [intros []|constructor]).
  assert (D : forall c, In c (list_ascii_of_string "0123456789") -> number_text [c]).
  { intros c H. exists [c]. split; [constructor; [apply case_digit; exact H|constructor]|left; reflexivity]. }
  apply (C56_undetermined false true None [Elem (S_ "Te") (S_ "3")] (Group (S_ "SbBi") (S_ "2")) [] [3; 2] [[(S_ "Te", 1)]] [(S_ "Sb", 1); (S_ "Bi", 1)]).
  - constructor; [|constructor; [|constructor]].
    + split; [apply D; cbn; tauto|]. split; [|discriminate]. exists "T"%char, (S_ "e"). split; [reflexivity|]. split; [unfold capital; cbn; tauto|].
      constructor; [unfold lower_letter; cbn; tauto|constructor].
    + split; [apply D; cbn; tauto|]. split; [discriminate|]. apply Forall_forall. intros c H. cbn in H.
      repeat (destruct H as [<-|H]; [repeat split; discriminate|]). destruct H.
  - apply ND.
  - apply ND.
  - constructor; [exact case_amount_3|constructor; [exact case_amount_2|constructor]].
  - constructor; [split; reflexivity|constructor].
  - reflexivity.
  - cbn; lia.
  - constructor; [reflexivity|constructor; [reflexivity|constructor]].
Qed.
(** C56_origin_style: the text that to_string(style='origin') writes for Bi0.5 *)
Example C56_case_origin : forall a, alloy_from_string (S_ "Bi\-(0.5)Te") None false false <> Ok a.
Proof.
  intros a. apply (C56_origin_style (S_ "Bi") (S_ "0.5") (S_ "Te") false false a).
  - exists "B"%char, (S_ "i"). split; [reflexivity|]. split; [unfold capital; cbn; tauto|]. constructor; [unfold lower_letter; cbn; tauto|constructor].
  - exists (S_ "0"). split; [constructor; [apply case_digit; cbn; tauto|constructor]|]. right. exists (S_ "5"). split; [constructor; [apply case_digit; cbn; tauto|constructor]|reflexivity].
  - discriminate.
  - intros [H|[H|[]]]; discriminate.
  - right. exists "T"%char, (S_ "e"). split; [reflexivity|unfold capital; cbn; tauto].
Qed.
(** why the hypotheses that groups and element names differ are needed: a repeated part overwrites *)
Example C56_case_repeated : comp_from_string (S_ "Bi2Te3Bi1") false true = Ok [(S_ "Bi", IZR 1); (S_ "Te", IZR 3)].
Proof. reflexivity. Qed.
