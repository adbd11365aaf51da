From Coq Require Import ZArith String.
From Verif Require Import Py PyDict PyStr RUtil DataModel DataSpec DataProofs CompModel CompSpec.
Local Open Scope list_scope.
Local Open Scope R_scope.

Lemma is_lower_spec c : is_lower c = true <-> lower_letter c.
Proof. unfold is_lower, lower_letter. rewrite range_spec by lia. rewrite andb_true_iff, !Nat.leb_le. lia. Qed.
Lemma is_digit_spec c : is_digit c = true <-> digit c.
Proof. unfold is_digit, digit. rewrite range_spec by lia. rewrite andb_true_iff, !Nat.leb_le. lia. Qed.
Lemma is_fill_spec c : is_fill c = true <-> filler c.
Proof. unfold is_fill, filler, ch_eq. rewrite !orb_true_iff, !Ascii.eqb_eq. cbn. intuition congruence. Qed.
Lemma not_true (b : bool) (P : Prop) : (b = true <-> P) -> ~ P -> b = false.
Proof. intros H Hn. destruct b; [exfalso; apply Hn, H; reflexivity|reflexivity]. Qed.
(** the classes are disjoint *)
Ltac classes := unfold lower_letter, digit, capital in *; rewrite ?range_spec in * by lia.
Lemma capital_not_lower c : capital c -> ~ lower_letter c. Proof. classes. lia. Qed.
Lemma capital_not_digit c : capital c -> ~ digit c. Proof. classes. lia. Qed.
Lemma capital_not_fill c : capital c -> ~ filler c.
Proof. intros H [<-|[<-|[<-|[<-|[<-|[]]]]]]; classes; cbn in H; lia. Qed.
Lemma capital_not_dot c : capital c -> c <> "."%char. Proof. intros H ->. classes. cbn in H; lia. Qed.
Lemma digit_not_lower c : digit c -> ~ lower_letter c. Proof. classes. lia. Qed.
Lemma digit_not_fill c : digit c -> ~ filler c.
Proof. intros H [<-|[<-|[<-|[<-|[<-|[]]]]]]; classes; cbn in H; lia. Qed.
Lemma fill_not_lower c : filler c -> ~ lower_letter c.
Proof. intros [<-|[<-|[<-|[<-|[<-|[]]]]]] H; classes; cbn in H; lia. Qed.
Lemma dot_not_lower : ~ lower_letter "."%char. Proof. intros H; classes; cbn in H; lia. Qed.
Lemma dot_not_fill : ~ filler "."%char. Proof. intros [H|[H|[H|[H|[H|[]]]]]]; discriminate. Qed.
Lemma dot_not_digit : ~ digit "."%char. Proof. intros H; classes; cbn in H; lia. Qed.

Lemma span_app f a b : Forall (fun c => f c = true) a -> (forall c r, b = c :: r -> f c = false) -> span f (a ++ b) = (a, b).
Proof.
  intros Ha Hb. induction Ha as [|c a Hc _ IH]; cbn.
  - destruct b as [|c r]; [reflexivity|]. cbn. rewrite (Hb c r eq_refl). reflexivity.
  - rewrite Hc, IH. reflexivity.
Qed.
Lemma span_inv f s : forall a b, span f s = (a, b) -> s = a ++ b /\ Forall (fun c => f c = true) a /\ (forall c r, b = c :: r -> f c = false).
Proof.
  induction s as [|c s IH]; cbn; intros a b.
  - intros [= <- <-]. repeat split; [constructor|intros; discriminate].
  - destruct (f c) eqn:E.
    + destruct (span f s) as [a' b'] eqn:Es. intros [= <- <-]. destruct (IH a' b' eq_refl) as (-> & H1 & H2). repeat split; [constructor; assumption|exact H2].
    + intros [= <- <-]. repeat split; [constructor|]. intros x r [= -> ->]. exact E.
Qed.
Lemma Forall_digit d : Forall digit d -> Forall (fun c => is_digit c = true) d.
Proof. apply Forall_impl. intros c; apply is_digit_spec. Qed.
Lemma Forall_digit' d : Forall (fun c => is_digit c = true) d -> Forall digit d.
Proof. apply Forall_impl. intros c; apply is_digit_spec. Qed.
Lemma digits_no_dot d : Forall digit d -> ~ In "."%char d.
Proof. intros H Hi. rewrite Forall_forall in H. exact (dot_not_digit (H _ Hi)). Qed.
Lemma take_num_app num t : number_text num ->
  (forall c r, t = c :: r -> ~ digit c /\ (c = "."%char -> In "."%char num)) -> take_num (num ++ t) = (num, t).
Proof.
  intros (d1 & Hd1 & Hn) Ht. unfold take_num. destruct Hn as [->|(d2 & Hd2 & ->)].
  - rewrite (span_app is_digit d1 t); [|apply Forall_digit; exact Hd1|intros c r E; apply (not_true _ _ (is_digit_spec c)); apply (Ht c r E)].
    destruct t as [|c r]; [reflexivity|]. unfold ch_eq, dot. destruct (Ascii.eqb_spec c ".") as [->|]; [|reflexivity].
    exfalso. destruct (Ht _ r eq_refl) as (_ & H). exact (digits_no_dot d1 Hd1 (H eq_refl)).
  - rewrite <- app_assoc. cbn [app]. rewrite (span_app is_digit d1); [|apply Forall_digit; exact Hd1|].
    2:{ intros c r [= <- <-]. reflexivity. }
    change (ch_eq "."%char dot) with true. cbv iota.
    rewrite (span_app is_digit d2 t); [reflexivity|apply Forall_digit; exact Hd2|].
    intros c r E. apply (not_true _ _ (is_digit_spec c)). apply (Ht c r E).
Qed.
Lemma take_num_inv s : forall num t, take_num s = (num, t) -> s = num ++ t /\ number_text num
  /\ (forall c r, t = c :: r -> ~ digit c /\ (c = "."%char -> In "."%char num)).
Proof.
  intros num t. unfold take_num. destruct (span is_digit s) as [d1 r] eqn:E. apply span_inv in E as (-> & H1 & H2).
  apply Forall_digit' in H1. destruct r as [|c r].
  - intros [= <- <-]. split; [reflexivity|]. split; [exists d1; auto|]. intros; discriminate.
  - unfold ch_eq, dot. destruct (Ascii.eqb_spec c ".") as [->|Hc].
    + destruct (span is_digit r) as [d2 r2] eqn:E2. apply span_inv in E2 as (-> & H3 & H4). apply Forall_digit' in H3.
      intros [= <- <-]. split; [rewrite <- app_assoc; reflexivity|]. split; [exists d1; split; [exact H1|right; exists d2; auto]|].
      intros c r -> . split; [intros Hd; apply is_digit_spec in Hd; rewrite (H4 c r eq_refl) in Hd; discriminate|].
      intros _. apply in_or_app. right. left. reflexivity.
    + intros [= <- <-]. split; [reflexivity|]. split; [exists d1; auto|]. intros c' r' [= -> ->]. split.
      * intros Hd; apply is_digit_spec in Hd; rewrite (H2 _ _ eq_refl) in Hd; discriminate.
      * congruence.
Qed.

(** one item *)
Lemma number_head num c r : number_text num -> num = c :: r -> digit c \/ c = "."%char.
Proof.
  intros (d1 & H1 & [->|(d2 & H2 & ->)]) E; destruct d1 as [|x d1]; cbn in E; try discriminate.
  - injection E as -> _. left. inversion H1; assumption.
  - injection E as <- _. right; reflexivity.
  - injection E as -> _. left. inversion H1; assumption.
Qed.
Definition starts_ok (i : item) (t : str) : Prop := forall c r, t = c :: r -> ~ extends i c.
Lemma item_parse i t n : good_item i -> i_gap i = [] -> starts_ok i t ->
  find_items (S n) (item_text i ++ t) = (i_name i, i_num i) :: find_items n t.
Proof.
  intros ((c & low & En & Hc & Hlow) & Hf & Hn & _ & _) Hg Ht. unfold item_text. rewrite Hg, app_nil_r, En. cbn [app]. cbn [find_items].
  rewrite (proj2 (is_upper_spec c) Hc). rewrite <- app_assoc.
  rewrite (span_app is_lower low); [|eapply Forall_impl; [|exact Hlow]; intros x; apply is_lower_spec|].
  2:{ intros x r E. apply (not_true _ _ (is_lower_spec x)). destruct (i_fill i) as [|y f] eqn:Ef.
      - cbn in E. destruct (i_num i) as [|y m] eqn:Em.
        + cbn in E. intros Hl. apply (Ht x r E). unfold extends. rewrite Em, Ef. left. auto.
        + cbn in E. injection E as -> _. destruct (number_head _ _ _ Hn eq_refl) as [H| ->]; [exact (digit_not_lower _ H)|exact dot_not_lower].
      - cbn in E. injection E as -> _. inversion Hf as [|? ? Hy _]; subst. exact (fill_not_lower _ Hy). }
  rewrite <- app_assoc. rewrite (span_app is_fill (i_fill i)); [|eapply Forall_impl; [|exact Hf]; intros x; apply is_fill_spec|].
  2:{ intros x r E. apply (not_true _ _ (is_fill_spec x)). destruct (i_num i) as [|y m] eqn:Em.
      - cbn in E. intros Hl. apply (Ht x r E). unfold extends. rewrite Em. auto.
      - cbn in E. injection E as -> _. destruct (number_head _ _ _ Hn eq_refl) as [H| ->]; [exact (digit_not_fill _ H)|exact dot_not_fill]. }
  rewrite take_num_app; [reflexivity|exact Hn|].
  intros x r E. specialize (Ht x r E). unfold extends in Ht. destruct (i_num i) as [|y m] eqn:Em.
  - split; [tauto|]. intros ->. exfalso. apply Ht. auto.
  - split; [tauto|]. intros ->. destruct (in_dec Ascii.ascii_dec "."%char (y :: m)) as [H|H]; [exact H|]. exfalso. apply Ht. auto.
Qed.
Lemma find_gap g : forall n t, Forall (fun c => ~ capital c) g -> find_items (length g + n) (g ++ t) = find_items n t.
Proof.
  induction g as [|c g IH]; intros n t H; [reflexivity|]. inversion H as [|? ? Hc Hg]; subst. cbn [length Nat.add app find_items].
  rewrite (not_true _ _ (is_upper_spec c) Hc). apply IH. exact Hg.
Qed.
(** more fuel than characters changes nothing *)
Lemma span_len f s a b : span f s = (a, b) -> (length b <= length s)%nat.
Proof. intros H. apply span_inv in H as (-> & _). rewrite app_length. lia. Qed.
Lemma take_num_len s a b : take_num s = (a, b) -> (length b <= length s)%nat.
Proof. intros H. apply take_num_inv in H as (-> & _). rewrite app_length. lia. Qed.
Lemma find_fuel n : forall m s, (length s <= n)%nat -> (length s <= m)%nat -> find_items n s = find_items m s.
Proof.
  induction n as [|n IH]; intros m s Hn Hm.
  - destruct s; [|cbn in Hn; lia]. destruct m; reflexivity.
  - destruct s as [|c s]; [destruct m; reflexivity|]. destruct m as [|m]; [cbn in Hm; lia|]. cbn in Hn, Hm. cbn [find_items].
    destruct (is_upper c); [|apply IH; lia]. destruct (span is_lower s) as [low r1] eqn:E1. destruct (span is_fill r1) as [f r2] eqn:E2.
    destruct (take_num r2) as [num r3] eqn:E3. f_equal. apply span_len in E1, E2. apply take_num_len in E3. apply IH; lia.
Qed.
Lemma item_ne i : good_item i -> (1 <= length (item_text i))%nat.
Proof. intros ((c & r & E & _) & _). unfold item_text. rewrite E. cbn. lia. Qed.
Lemma find_all items : Forall good_item items -> forall n, (length (flat_map item_text items) <= n)%nat ->
  find_items n (flat_map item_text items) = map (fun i => (i_name i, i_num i)) items.
Proof.
  induction 1 as [|i items Hi Hr IH]; intros n Hn; [destruct n; reflexivity|]. cbn [flat_map map] in *.
  rewrite app_length in Hn. pose proof (item_ne i Hi) as Hne. destruct n as [|n]; [lia|].
  set (j := Item (i_name i) (i_fill i) (i_num i) []).
  assert (Hj : item_text i ++ flat_map item_text items = item_text j ++ (i_gap i ++ flat_map item_text items)).
  { unfold item_text, j. cbn. rewrite app_nil_r, <- !app_assoc. reflexivity. }
  assert (Gj : good_item j).
  { destruct Hi as (H1 & H2 & H3 & _). unfold j. repeat split; cbn; try assumption; [constructor|intros; discriminate]. }
  assert (Sj : starts_ok j (i_gap i ++ flat_map item_text items)).
  { intros c r E Hx. assert (Hx' : extends i c) by exact Hx. destruct Hi as (_ & _ & _ & Hg & He). destruct (i_gap i) as [|x g] eqn:Eg.
    - cbn in E. destruct items as [|k items]; [discriminate|]. inversion Hr as [|? ? ((c' & r' & Ec & Hcap & _) & _) _]; subst.
      cbn in E. unfold item_text in E. rewrite Ec in E. cbn in E. injection E as <- _.
      unfold extends in Hx'. destruct (i_num i).
      + destruct Hx' as [(_ & H)|[H|[H|H]]]; [exact (capital_not_lower _ Hcap H)|exact (capital_not_fill _ Hcap H)|exact (capital_not_digit _ Hcap H)|exact (capital_not_dot _ Hcap H)].
      + destruct Hx' as [H|(H & _)]; [exact (capital_not_digit _ Hcap H)|exact (capital_not_dot _ Hcap H)].
    - cbn in E. injection E as -> _. exact (He c g eq_refl Hx'). }
  rewrite Hj, (item_parse j _ n Gj eq_refl Sj). cbn [i_name i_num j]. f_equal.
  assert (Hg : Forall (fun c => ~ capital c) (i_gap i)) by apply Hi.
  assert (Hl : (length (i_gap i) <= n)%nat).
  { unfold item_text in Hn, Hne. rewrite !app_length in Hn. destruct Hi as ((c & r & Ec & _) & _). rewrite Ec in Hn. cbn in Hn. lia. }
  replace n with (length (i_gap i) + (n - length (i_gap i)))%nat by lia. rewrite find_gap by exact Hg.
  apply IH. assert (Hit : length (item_text i) = (length (i_name i) + (length (i_fill i) + (length (i_num i) + length (i_gap i))))%nat) by (unfold item_text; rewrite !app_length; reflexivity).
  destruct Hi as ((c & r & Ec & _) & _). rewrite Ec in Hit. cbn [length] in Hit. lia.
Qed.
Lemma find_whole g0 items : Forall (fun c => ~ capital c) g0 -> Forall good_item items ->
  let f := g0 ++ flat_map item_text items in find_items (length f) f = map (fun i => (i_name i, i_num i)) items.
Proof.
  intros H0 Hi f. unfold f. rewrite app_length, find_gap by exact H0. apply find_all; [exact Hi|lia].
Qed.
(** every text is a gap followed by items *)
Lemma decompose s : exists g0 items, s = g0 ++ flat_map item_text items /\ Forall (fun c => ~ capital c) g0 /\ Forall good_item items.
Proof.
  remember (length s) as n eqn:En. revert s En. induction n as [n IH] using lt_wf_ind. intros s ->.
  destruct s as [|c s]; [exists [], []; repeat split; constructor|]. destruct (is_upper c) eqn:Ec.
  - apply is_upper_spec in Ec. destruct (span is_lower s) as [low r1] eqn:E1. destruct (span is_fill r1) as [fl r2] eqn:E2. destruct (take_num r2) as [num r3] eqn:E3.
    pose proof (span_len _ _ _ _ E1) as L1. pose proof (span_len _ _ _ _ E2) as L2. pose proof (take_num_len _ _ _ E3) as L3.
    apply span_inv in E1 as (-> & A1 & B1). apply span_inv in E2 as (-> & A2 & B2). apply take_num_inv in E3 as (-> & A3 & B3).
    destruct (IH (length r3) ltac:(cbn; lia) r3 eq_refl) as (g0 & items & -> & Hg & Hi).
    exists [], (Item (c :: low) fl num g0 :: items). cbn [app flat_map]. unfold item_text at 1. cbn [i_name i_fill i_num i_gap].
    split; [cbn; rewrite <- !app_assoc; reflexivity|]. split; [constructor|]. constructor; [|exact Hi].
    unfold good_item. cbn [i_name i_fill i_num i_gap]. split; [exists c, low; split; [reflexivity|]; split; [exact Ec|eapply Forall_impl; [|exact A1]; intros x; apply is_lower_spec]|].
    split; [eapply Forall_impl; [|exact A2]; intros x; apply is_fill_spec|]. split; [exact A3|]. split; [exact Hg|].
    intros x r -> Hx. unfold extends in Hx. cbn [i_num i_fill] in Hx. cbn [app] in B3. destruct (B3 x _ eq_refl) as (Nd & Ndot). destruct num as [|y num].
    + cbn [app] in *. destruct Hx as [(-> & H)|[H|[H|H]]].
      * apply is_lower_spec in H. cbn [app] in B1. rewrite (B1 x _ eq_refl) in H. discriminate.
      * apply is_fill_spec in H. rewrite (B2 x _ eq_refl) in H. discriminate.
      * exact (Nd H).
      * destruct (Ndot H).
    + destruct Hx as [H|(H & H2)]; [exact (Nd H)|exact (H2 (Ndot H))].
  - destruct (IH (length s) ltac:(cbn; lia) s eq_refl) as (g0 & items & -> & Hg & Hi). exists (c :: g0), items.
    split; [reflexivity|]. split; [|exact Hi]. constructor; [|exact Hg]. intros H. apply is_upper_spec in H. congruence.
Qed.

(** numbers *)
Lemma int_val_snoc s c : int_val (s ++ [c]) = (int_val s * 10 + digit_val c)%Z.
Proof. unfold int_val. rewrite fold_left_app. reflexivity. Qed.
Lemma whole_digits s v : whole s v -> Forall digit s.
Proof.
  induction 1 as [|s v k _ IH Hk]; [constructor|]. apply Forall_app. split; [exact IH|]. constructor; [|constructor].
  unfold digit. apply in_map. apply in_seq. lia.
Qed.
Lemma whole_val s v : whole s v -> int_val s = v.
Proof.
  induction 1 as [|s v k H IH Hk]; [reflexivity|]. rewrite int_val_snoc, IH. unfold digit_val. rewrite nat_ascii_embedding by lia. lia.
Qed.
Lemma whole_exists s : Forall digit s -> whole s (int_val s).
Proof.
  induction s as [|c s IH] using rev_ind; intros H; [constructor|]. apply Forall_app in H as (Hs & Hc). inversion Hc as [|? ? Hd _]; subst.
  unfold digit in Hd. apply in_map_iff in Hd as (x & <- & Hx). apply in_seq in Hx. rewrite int_val_snoc.
  replace (int_val s * 10 + digit_val (ascii_of_nat x))%Z with (10 * int_val s + Z.of_nat (x - 48))%Z.
  - replace x with (48 + (x - 48))%nat at 1 by lia. constructor; [apply IH; exact Hs|lia].
  - unfold digit_val. rewrite nat_ascii_embedding by lia. lia.
Qed.
Lemma num_val_amount s x : amount s x -> num_val s = Ok x.
Proof.
  intros [(-> & ->)|[(Hne & v & Hv & ->)|(d1 & d2 & v & -> & Hne & Hv & ->)]]; [reflexivity|..].
  - unfold num_val. destruct s as [|c s]; [congruence|]. pose proof (whole_digits _ _ Hv) as Hd.
    rewrite <- (app_nil_r (c :: s)). rewrite (span_app is_digit (c :: s) []); [|apply Forall_digit; exact Hd|intros; discriminate].
    rewrite (whole_val _ _ Hv). reflexivity.
  - unfold num_val. pose proof (whole_digits _ _ Hv) as Hd. apply Forall_app in Hd as (Hd1 & Hd2).
    destruct (d1 ++ "."%char :: d2) as [|y z] eqn:E; [destruct d1; discriminate|]. rewrite <- E.
    rewrite (span_app is_digit d1); [|apply Forall_digit; exact Hd1|intros c r [= <- <-]; reflexivity].
    destruct d1 as [|a d1]; destruct d2 as [|b d2]; try (rewrite (whole_val _ _ Hv); reflexivity). exfalso. apply Hne. reflexivity.
Qed.
Lemma number_amount s : number_text s -> s <> S_ "." -> exists x, amount s x.
Proof.
  intros (d1 & H1 & [->|(d2 & H2 & ->)]) Hn.
  - destruct d1 as [|c d1]; [exists 1; left; auto|]. eexists. right; left. split; [discriminate|]. eexists. split; [apply whole_exists; exact H1|reflexivity].
  - eexists. right; right. exists d1, d2. eexists. split; [reflexivity|]. split; [|split; [apply whole_exists; apply Forall_app; auto|reflexivity]].
    intros E. apply app_eq_nil in E as (-> & ->). apply Hn. reflexivity.
Qed.
