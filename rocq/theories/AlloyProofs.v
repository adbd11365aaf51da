From Coq Require Import ZArith String.
From Verif Require Import Py PyDict PyStr RUtil DataModel DataSpec DataProofs CompModel CompSpec CompProofs CompProps.
Local Open Scope list_scope.
Local Open Scope R_scope.

Definition np (s : str) : Prop := ~ In "("%char s.
Lemma np_app a b : np a -> np b -> np (a ++ b).
Proof. intros H1 H2 H. apply in_app_or in H. destruct H; auto. Qed.
Lemma np_digits d : Forall digit d -> np d.
Proof. intros H Hi. rewrite Forall_forall in H. specialize (H _ Hi). classes. cbn in H. lia. Qed.
Lemma np_number s : number_text s -> np s.
Proof.
  intros (d1 & H1 & [->|(d2 & H2 & ->)]); [apply np_digits; exact H1|]. apply np_app; [apply np_digits; exact H1|].
  intros [H|H]; [discriminate|exact (np_digits d2 H2 H)].
Qed.
Lemma np_name s : name_like s -> np s.
Proof.
  intros (c & r & -> & Hc & Hr) [H|H]; [subst; classes; cbn in Hc; lia|]. rewrite Forall_forall in Hr. specialize (Hr _ H). classes. cbn in Hr. lia.
Qed.

(** ** the hyphen substitution *)
Fixpoint nhp (s : str) : Prop :=
  match s with c :: ((d :: _) as r) => ~ (c = "-"%char /\ d = "("%char) /\ nhp r | _ => True end.
Lemma sub_nhp n : forall s, nhp s -> sub_hyphen n s = s.
Proof.
  induction n as [|n IH]; intros [|c s] H; try reflexivity. cbn [sub_hyphen]. unfold ch_eq.
  assert (Hs : nhp s) by (destruct s; [exact I|apply H]).
  destruct (Ascii.eqb_spec c "-") as [->|]; [|rewrite IH by exact Hs; reflexivity].
  destruct s as [|d s]; [rewrite IH by exact I; reflexivity|]. destruct (Ascii.eqb_spec d "(") as [->|]; [exfalso; apply (proj1 H); auto|].
  rewrite IH by exact Hs. reflexivity.
Qed.
Lemma nhp_np s : np s -> nhp s.
Proof.
  induction s as [|c s IH]; intros H; [exact I|]. destruct s as [|d s]; [exact I|]. split.
  - intros (_ & ->). apply H. right; left; reflexivity.
  - apply IH. intros Hi. apply H. right; exact Hi.
Qed.
Definition ok_end (s : str) : Prop := last s "x"%char <> "-"%char.
Lemma nhp_app a b : nhp a -> nhp b -> ok_end a -> nhp (a ++ b).
Proof.
  induction a as [|c a IH]; intros Ha Hb He; [exact Hb|]. cbn [app]. destruct a as [|d a].
  - cbn. destruct b as [|d b]; [exact I|]. split; [|exact Hb]. intros (-> & _). apply He. reflexivity.
  - cbn [app]. split; [apply Ha|]. apply IH; [apply Ha|exact Hb|exact He].
Qed.
Lemma ok_end_cases s : (s = [] \/ exists u c, s = u ++ [c] /\ c <> "-"%char) -> ok_end s.
Proof. unfold ok_end. intros [->|(u & c & -> & Hc)]; [cbn; discriminate|rewrite last_last; exact Hc]. Qed.
Lemma no_hyphen_end s : ~ In "-"%char s -> ok_end s.
Proof.
  intros H. apply ok_end_cases. destruct s as [|c s] using rev_ind; [left; reflexivity|right]. exists s, c. split; [reflexivity|].
  intros ->. apply H. apply in_or_app. right; left; reflexivity.
Qed.
Lemma nohyphen_number s : number_text s -> ~ In "-"%char s.
Proof.
  assert (D : forall d, Forall digit d -> ~ In "-"%char d).
  { intros d H Hi. rewrite Forall_forall in H. specialize (H _ Hi). classes. cbn in H. lia. }
  intros (d1 & H1 & [->|(d2 & H2 & ->)]); [apply D; exact H1|]. intros H. apply in_app_or in H as [H|[H|H]]; [exact (D _ H1 H)|discriminate|exact (D _ H2 H)].
Qed.
Lemma nohyphen_name s : name_like s -> ~ In "-"%char s.
Proof.
  intros (c & r & -> & Hc & Hr) [H|H]; [subst; classes; cbn in Hc; lia|]. rewrite Forall_forall in Hr. specialize (Hr _ H). classes. cbn in Hr. lia.
Qed.
Lemma last_app_ne (a b : str) x : b <> [] -> last (a ++ b) x = last b x.
Proof. intros H. destruct b as [|c b] using rev_ind; [congruence|]. rewrite app_assoc, !last_last. reflexivity. Qed.
Lemma part_nhp p : good_part p -> nhp (part_text p) /\ ok_end (part_text p).
Proof.
  intros (Hn & Hp). destruct p as [name num|x num]; cbn [part_text part_num] in *.
  - destruct Hp as (Hl & _). split; [apply nhp_np, np_app; [apply np_name; exact Hl|apply np_number; exact Hn]|].
    apply no_hyphen_end. intros H. apply in_app_or in H as [H|H]; [exact (nohyphen_name _ Hl H)|exact (nohyphen_number _ Hn H)].
  - destruct Hp as (_ & Hx). split.
    + change ("("%char :: x ++ ")"%char :: num) with (["("%char] ++ (x ++ ")"%char :: num)). apply nhp_app; [exact I| |unfold ok_end; cbn; discriminate].
      apply nhp_np, np_app; [intros H; rewrite Forall_forall in Hx; destruct (Hx _ H) as (H1 & _); congruence|].
      intros [H|H]; [discriminate|exact (np_number _ Hn H)].
    + unfold ok_end. rewrite app_comm_cons. rewrite last_app_ne by discriminate.
      apply (no_hyphen_end (")"%char :: num)). intros [H|H]; [discriminate|exact (nohyphen_number _ Hn H)].
Qed.
Lemma parts_nhp l : Forall good_part l -> nhp (flat_map part_text l).
Proof.
  induction 1 as [|p l Hp _ IH]; [exact I|]. cbn. destruct (part_nhp p Hp). apply nhp_app; assumption.
Qed.

(** ** extraction of the groups *)
Lemma find_paren_np s : np s -> find_paren s = None.
Proof.
  induction s as [|c s IH]; intros H; [reflexivity|]. cbn. unfold ch_eq. destruct (Ascii.eqb_spec c "(") as [->|]; [exfalso; apply H; left; reflexivity|].
  rewrite IH; [reflexivity|]. intros Hi. apply H. right; exact Hi.
Qed.
Lemma until_close_spec x t : forall acc, Forall (fun c => c <> "("%char /\ c <> ")"%char /\ c <> ascii_of_nat 10) x ->
  until_close acc (x ++ ")"%char :: t) = Some (rev acc ++ x, t).
Proof.
  induction x as [|c x IH]; intros acc H.
  - cbn. rewrite app_nil_r. reflexivity.
  - inversion H as [|? ? (_ & H2 & H3) Hx]; subst. cbn [app until_close]. unfold ch_eq, newline.
    destruct (Ascii.eqb_spec c ")"); [contradiction|]. destruct (Ascii.eqb_spec c (ascii_of_nat 10)); [contradiction|].
    rewrite IH by exact Hx. cbn [rev]. rewrite <- app_assoc. reflexivity.
Qed.
Lemma paren_at_spec x t : x <> [] -> Forall (fun c => c <> "("%char /\ c <> ")"%char /\ c <> ascii_of_nat 10) x -> paren_at (x ++ ")"%char :: t) = Some (x, t).
Proof.
  intros Hne H. destruct x as [|c x]; [congruence|]. inversion H as [|? ? (_ & _ & H3) Hx]; subst. cbn [app paren_at]. unfold ch_eq, newline.
  destruct (Ascii.eqb_spec c (ascii_of_nat 10)); [contradiction|]. rewrite until_close_spec by exact Hx. reflexivity.
Qed.
Lemma find_paren_spec P x t : np P -> x <> [] -> Forall (fun c => c <> "("%char /\ c <> ")"%char /\ c <> ascii_of_nat 10) x ->
  find_paren (P ++ "("%char :: x ++ ")"%char :: t) = Some (P, x, t).
Proof.
  intros HP Hne Hx. induction P as [|c P IH].
  - cbn [app find_paren]. change (ch_eq "("%char "(") with true. cbv iota. rewrite paren_at_spec by assumption. reflexivity.
  - cbn [app find_paren]. unfold ch_eq. destruct (Ascii.eqb_spec c "(") as [->|]; [exfalso; apply HP; left; reflexivity|].
    rewrite IH; [reflexivity|]. intros Hi. apply HP. right; exact Hi.
Qed.
Lemma starts_no c s old : c <> "("%char -> startswith (c :: s) ("("%char :: old) = false.
Proof.
  intros H. destruct (startswith (c :: s) ("("%char :: old)) eqn:E; [|reflexivity]. apply startswith_spec in E as (t & E). cbn in E. congruence.
Qed.
Lemma replace_none n old new : forall t, (forall a b, t <> a ++ old ++ b) -> replace_all n old new t = t.
Proof.
  induction n as [|n IH]; intros t H; [reflexivity|]. cbn [replace_all]. destruct (startswith t old) eqn:E.
  - apply startswith_spec in E as (b & ->). exfalso. exact (H [] b eq_refl).
  - destruct t as [|c t]; [reflexivity|]. f_equal. apply IH. intros a b ->. exact (H (c :: a) b eq_refl).
Qed.
Lemma replace_once x new P t : forall n, np P -> (length P < n)%nat -> (forall a b, t <> a ++ ("("%char :: x) ++ b) ->
  replace_all n ("("%char :: x) new (P ++ ("("%char :: x) ++ t) = P ++ new ++ t.
Proof.
  induction P as [|c P IH]; intros n HP Hn Ht.
  - destruct n as [|n]; [cbn in Hn; lia|]. cbn [app replace_all].
    assert (E : startswith ("("%char :: x ++ t) ("("%char :: x) = true) by (apply startswith_spec; exists t; reflexivity).
    rewrite E. f_equal. change ("("%char :: x ++ t) with (("("%char :: x) ++ t). rewrite skipn_app, skipn_all, Nat.sub_diag. cbn [app skipn].
    apply replace_none. exact Ht.
  - destruct n as [|n]; [cbn in Hn; lia|]. cbn [app] in *. cbn [replace_all]. rewrite starts_no by (intros ->; apply HP; left; reflexivity).
    f_equal. apply IH; [intros Hi; apply HP; right; exact Hi|cbn in Hn; lia|exact Ht].
Qed.
Lemma first_close (x y : str) s t : ~ In ")"%char x -> ~ In ")"%char y -> x ++ ")"%char :: s = y ++ ")"%char :: t -> x = y.
Proof.
  revert y; induction x as [|c x IH]; intros [|d y] Hx Hy E; cbn in E; [reflexivity| | |].
  - injection E as <- _. exfalso; apply Hy; left; reflexivity.
  - injection E as -> _. exfalso; apply Hx; left; reflexivity.
  - injection E as -> E. f_equal. apply (IH y); [intros H; apply Hx; right; exact H|intros H; apply Hy; right; exact H|exact E].
Qed.
Lemma no_close x : Forall (fun c => c <> "("%char /\ c <> ")"%char /\ c <> ascii_of_nat 10) x -> ~ In ")"%char x /\ np x.
Proof. intros H. rewrite Forall_forall in H. split; intros Hi; destruct (H _ Hi) as (A & B & _); congruence. Qed.
Lemma no_occurrence x l : ~ In ")"%char x -> Forall good_part l -> ~ In x (contents l) -> forall P, np P ->
  forall a b, P ++ flat_map part_text l <> a ++ ("("%char :: x ++ [")"%char]) ++ b.
Proof.
  intros Hx H. induction H as [|p l Hp Hl IH]; intros Hc P HP a b E.
  - cbn in E. rewrite app_nil_r in E. apply HP. rewrite E. apply in_or_app. right; left; reflexivity.
  - destruct Hp as (Hn & Hp). destruct p as [name num|y num]; cbn [flat_map part_text contents part_num] in *.
    + rewrite app_assoc in E. apply (IH Hc (P ++ name ++ num)) in E; [exact E|].
      apply np_app; [exact HP|apply np_app; [apply np_name; tauto|apply np_number; exact Hn]].
    + destruct Hp as (Hy & Hyc). destruct (no_close y Hyc) as (Hy1 & Hy2).
      apply app_eq_app in E as (u & [(E1 & E2)|(E1 & E2)]).
      * (* P = a ++ u *) destruct u as [|c u].
        -- cbn [app] in E2. cbn in E2. injection E2 as E2. rewrite <- !app_assoc in E2. cbn [app] in E2.
           apply first_close in E2; [|exact Hx|exact Hy1]. apply Hc. left. congruence.
        -- cbn in E2. injection E2 as <- _. apply HP. rewrite E1. apply in_or_app. right; left; reflexivity.
      * (* a = P ++ u *) destruct u as [|c u].
        -- cbn [app] in E2. injection E2 as E2. rewrite <- !app_assoc in E2. cbn [app] in E2.
           symmetry in E2. apply first_close in E2; [|exact Hx|exact Hy1]. apply Hc. left. congruence.
        -- cbn [app] in E2. injection E2 as _ E2. rewrite <- app_assoc in E2. cbn [app] in E2.
           replace (y ++ ")"%char :: num ++ flat_map part_text l) with ((y ++ ")"%char :: num) ++ flat_map part_text l) in E2 by (rewrite <- app_assoc; reflexivity).
           apply (IH (fun H => Hc (or_intror H)) (y ++ ")"%char :: num)) in E2; [exact E2|].
           apply np_app; [exact Hy2|]. intros [H|H]; [discriminate|exact (np_number _ Hn H)].
Qed.
(** the parts with the groups replaced by numbered placeholders *)
Fixpoint numbered (l : list part) (i : nat) : list (str * str) :=
  match l with
  | [] => []
  | Elem name num :: r => (name, num) :: numbered r i
  | Group _ num :: r => (placeholder i, num) :: numbered r (S i)
  end.
Lemma np_placeholder i : np (placeholder i).
Proof.
  unfold placeholder. apply np_app; [cbn; intros H; repeat destruct H as [H|H]; try discriminate; exact H|]. intros H. apply repeat_spec in H. discriminate.
Qed.
Lemma extract_spec l : Forall good_part l -> NoDup (contents l) -> forall n i P, (length (contents l) <= n)%nat -> np P ->
  extract n (P ++ flat_map part_text l) i = (P ++ flat_map (fun q => fst q ++ snd q) (numbered l i), contents l).
Proof.
  induction 1 as [|p l Hp Hl IH]; intros Hd n i P Hn HP.
  - cbn. rewrite app_nil_r. destruct n; [reflexivity|]. cbn. rewrite find_paren_np by exact HP. reflexivity.
  - destruct p as [name num|x num]; cbn [flat_map part_text numbered contents] in *; destruct Hp as (Hnum & Hp); cbn [part_num] in Hnum.
    + rewrite !app_assoc. rewrite IH; [cbn [fst snd]; rewrite <- !app_assoc; reflexivity|exact Hd|exact Hn|].
      apply np_app; [apply np_app; [exact HP|apply np_name; tauto]|apply np_number; exact Hnum].
    + destruct n as [|n]; [cbn in Hn; lia|]. cbn [extract]. destruct Hp as (Hx & Hxc). destruct (no_close x Hxc) as (Hx1 & Hx2). inversion Hd as [|? ? Hnx Hd']; subst.
      assert (Ef : P ++ ("("%char :: x ++ ")"%char :: num) ++ flat_map part_text l = P ++ "("%char :: x ++ ")"%char :: (num ++ flat_map part_text l)) by (cbn; rewrite <- app_assoc; reflexivity).
      rewrite Ef, find_paren_spec by assumption.
      assert (Er : replace_all (length (P ++ "("%char :: x ++ ")"%char :: num ++ flat_map part_text l)) ("("%char :: x ++ [")"%char]) (placeholder i)
                    (P ++ "("%char :: x ++ ")"%char :: num ++ flat_map part_text l) = P ++ placeholder i ++ num ++ flat_map part_text l).
      { assert (Es : P ++ "("%char :: x ++ ")"%char :: num ++ flat_map part_text l = P ++ ("("%char :: x ++ [")"%char]) ++ (num ++ flat_map part_text l)) by (cbn; rewrite <- app_assoc; reflexivity).
        rewrite Es at 2. apply replace_once; [exact HP|rewrite app_length; cbn; lia|]. intros a b.
        apply (no_occurrence x l Hx1 Hl Hnx num (np_number _ Hnum)). }
      rewrite Er.
      replace (P ++ placeholder i ++ num ++ flat_map part_text l) with ((P ++ placeholder i ++ num) ++ flat_map part_text l) by (rewrite <- !app_assoc; reflexivity).
      rewrite IH; [cbn [fst snd]; rewrite <- !app_assoc; reflexivity|exact Hd'|cbn in Hn; lia|].
      apply np_app; [exact HP|apply np_app; [apply np_placeholder|apply np_number; exact Hnum]].
Qed.
Lemma contents_len l : (length (contents l) <= length (flat_map part_text l))%nat.
Proof. induction l as [|[n m|x m] l IH]; cbn; rewrite ?app_length; cbn; rewrite ?app_length; lia. Qed.

(** ** reading the placeholders back *)
Lemma placeholder_name i : name_like (placeholder i).
Proof.
  exists "J"%char, (S_ "alloyed" ++ repeat "x"%char i). split; [reflexivity|]. split; [unfold capital; cbn; tauto|].
  apply Forall_app. split; [apply Forall_forall; intros c Hc; cbn in Hc; repeat (destruct Hc as [<-|Hc]; [unfold lower_letter; cbn; tauto|]); destruct Hc|]. apply Forall_forall. intros c Hc. apply repeat_spec in Hc. subst. unfold lower_letter. cbn. tauto.
Qed.
Lemma group_index_placeholder i : group_index (placeholder i) = Some i.
Proof.
  unfold group_index. assert (E : startswith (placeholder i) (S_ "Jalloyed") = true) by (apply startswith_spec; eexists; reflexivity).
  rewrite E. f_equal. change (skipn 8 (placeholder i)) with (repeat "x"%char i).
  induction i as [|i IH]; [reflexivity|]. cbn [repeat span]. change (ch_eq "x" "x") with true. cbv iota.
  destruct (span (fun c => ch_eq c "x") (repeat "x"%char i)) as [u v]. cbn in *. rewrite IH; reflexivity.
Qed.
Lemma group_index_name s : firstn 8 s <> S_ "Jalloyed" -> group_index s = None.
Proof.
  intros H. unfold group_index. destruct (startswith s (S_ "Jalloyed")) eqn:E; [|reflexivity]. apply startswith_spec in E as (t & ->). exfalso. apply H. reflexivity.
Qed.
Lemma placeholder_inj i j : placeholder i = placeholder j -> i = j.
Proof. intros H. apply (f_equal group_index) in H. rewrite !group_index_placeholder in H. congruence. Qed.
Lemma numbered_keys l : forall i, Forall good_part l -> NoDup (elem_names l) -> NoDup (map fst (numbered l i)).
Proof.
  assert (K : forall l i s, In s (map fst (numbered l i)) -> (In s (elem_names l)) \/ exists j, (i <= j)%nat /\ s = placeholder j).
  { clear. induction l as [|[n m|x m] l IH]; intros i s H; cbn in *; [destruct H| |].
    - destruct H as [H|H]; [left; left; exact H|]. destruct (IH i s H) as [H1|H1]; [left; right; exact H1|right; exact H1].
    - destruct H as [H|H]; [right; exists i; split; [lia|congruence]|]. destruct (IH (S i) s H) as [H1|(j & Hj & H1)]; [left; exact H1|right; exists j; split; [lia|exact H1]]. }
  induction l as [|[n m|x m] l IH]; intros i Hg Hd; cbn; [constructor| |]; inversion Hg as [|? ? Hp Hl]; subst.
  - inversion Hd as [|? ? Hn Hd']; subst. constructor; [|apply IH; assumption]. intros H. apply K in H as [H|(j & _ & ->)]; [contradiction|].
    destruct Hp as (_ & _ & Hj). apply Hj. reflexivity.
  - constructor; [|apply IH; assumption]. intros H. apply K in H as [H|(j & Hj & E)].
    + assert (X : forall l, Forall good_part l -> ~ In (placeholder i) (elem_names l)).
      { clear. induction 1 as [|[n m|x m] l Hp _ IH]; cbn; [tauto| |exact IH]. intros [->|H]; [destruct Hp as (_ & _ & Hj); apply Hj; reflexivity|exact (IH H)]. }
      exact (X l Hl H).
    + apply placeholder_inj in E. lia.
Qed.
Lemma read_sites skip raise_ l cs xs : Forall good_part l ->
  Forall2 (fun p c => comp_from_string (part_source p) skip raise_ = Ok c /\ undetermined c = false) l cs -> length xs = length l ->
  forall pre, mapM (read_site (pre ++ contents l) skip raise_) (combine (map fst (numbered l (length pre))) xs)
  = Ok (map (fun q => (fst q, snd q * natom (fst q))) (combine cs xs)).
Proof.
  intros Hg Hc. revert xs. induction Hc as [|p c l cs (Hp & Hu) _ IH]; intros xs Hl pre; [reflexivity|]. inversion Hg as [|? ? Hgp Hgl]; subst.
  destruct xs as [|x xs]; [discriminate|]. injection Hl as Hl.
  destruct p as [name num|y num]; cbn [numbered map fst combine mapM contents part_source] in *.
  - unfold read_site at 1. cbn [fst snd]. rewrite group_index_name by (apply Hgp). cbn [rbind]. rewrite Hp. cbn [rbind]. rewrite Hu.
    rewrite IH by assumption. reflexivity.
  - unfold read_site at 1. cbn [fst snd]. rewrite group_index_placeholder. unfold py_nth. rewrite nth_error_app2 by lia. rewrite Nat.sub_diag. cbn [nth_error rbind].
    rewrite Hp. cbn [rbind]. rewrite Hu.
    specialize (IH Hgl xs Hl (pre ++ [y])). rewrite app_length in IH. cbn [length] in IH. rewrite Nat.add_1_r in IH. rewrite <- app_assoc in IH. cbn [app] in IH.
    cbn [rbind]. rewrite IH. reflexivity.
Qed.
