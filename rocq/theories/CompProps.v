(** C50-C56: chemical formulas, compounds and alloys (src/teflow/loader.py:324-512). *)
From Coq Require Import ZArith String.
From Verif Require Import Py PyDict PyStr RUtil DataModel DataSpec DataProofs CompModel CompSpec CompProofs.
Local Open Scope list_scope.
Local Open Scope R_scope.

(** ** C50 *)
Lemma read_plain l : forall acc xs, Forall2 (fun p x => num_val (snd p) = Ok x) l xs ->
  read_items false false l acc = Ok (dupdate acc (combine (map fst l) xs)).
Proof.
  intros acc xs H. revert acc. induction H as [|[name num] x l xs Hx _ IH]; intros acc; [reflexivity|]. cbn [read_items map fst combine].
  cbn in Hx. rewrite !andb_false_r, Hx. cbn [rbind]. rewrite IH. reflexivity.
Qed.
Theorem C50_reads :
  forall (g0 : str) (items : list item) (xs : list R),
  Forall (fun c => ~ capital c) g0 -> Forall good_item items -> Forall2 (fun i x => amount (i_num i) x) items xs ->
  comp_from_string (g0 ++ flat_map item_text items) false false
  = Ok (dupdate [] (combine (map i_name items) xs)).
Proof.
  intros g0 items xs H0 Hi Hx. unfold comp_from_string. rewrite find_whole by assumption.
  rewrite (read_plain _ _ xs).
  - rewrite map_map. reflexivity.
  - clear -Hx. induction Hx as [|i x items xs H _ IH]; constructor; [apply num_val_amount; exact H|exact IH].
Qed.
Print Assumptions C50_reads.
Theorem C50_every_text :
  forall s : str, exists g0 items, s = g0 ++ flat_map item_text items
  /\ Forall (fun c => ~ capital c) g0 /\ Forall good_item items.
Proof. exact decompose. Qed.
Print Assumptions C50_every_text.
(** a lone point is the only number text that is refused, with ValueError *)
Lemma read_refused (l : list (str * str)) : forall acc, Forall (fun p => number_text (snd p)) l -> In (S_ ".") (map snd l) -> read_items false false l acc = Err ValueError.
Proof.
  induction l as [|[name num] l IH]; intros acc Hf Hin; [destruct Hin|]. destruct Hin as [H|H]; inversion Hf as [|? ? Hn Hr]; subst; cbn [read_items]; rewrite !andb_false_r; cbn [snd] in *.
  - subst num. reflexivity.
  - destruct (list_eq_dec Ascii.ascii_dec num (S_ ".")) as [->|Hne]; [reflexivity|].
    destruct (number_amount num Hn Hne) as (x & Hx). apply num_val_amount in Hx. rewrite Hx. cbn. apply IH; assumption.
Qed.
Theorem C50_lone_point :
  forall (g0 : str) (items : list item), Forall (fun c => ~ capital c) g0 -> Forall good_item items ->
  comp_from_string (g0 ++ flat_map item_text items) false false = Err ValueError <-> In (S_ ".") (map i_num items).
Proof.
  intros g0 items H0 Hi. unfold comp_from_string. rewrite find_whole by assumption. split.
  - intros H. destruct (in_dec (list_eq_dec Ascii.ascii_dec) (S_ ".") (map i_num items)) as [Hin|Hn]; [exact Hin|exfalso].
    assert (X : exists xs, Forall2 (fun p x => num_val (snd p) = Ok x) (map (fun i => (i_name i, i_num i)) items) xs).
    { clear H H0. induction Hi as [|i items Hg _ IH]; [exists []; constructor|]. destruct IH as (xs & Hxs); [intros Hin; apply Hn; right; exact Hin|].
      destruct (number_amount (i_num i)) as (x & Hx); [apply Hg|intros E; apply Hn; left; exact E|].
      exists (x :: xs). constructor; [apply num_val_amount; exact Hx|exact Hxs]. }
    destruct X as (xs & Hxs). rewrite (read_plain _ _ xs Hxs) in H. discriminate.
  - intros Hin. apply read_refused.
    + apply Forall_map. eapply Forall_impl; [|exact Hi]. intros i Hg. apply Hg.
    + rewrite map_map. exact Hin.
Qed.
Print Assumptions C50_lone_point.
(** the known symbols are those of the periodic table in order of atomic number, preceded by the dummy XX *)
Theorem C50_elements : elements = S_ "XX" :: symbols /\ length symbols = 118%nat /\ map (@length str) (map (words_at []) periods) = [2; 8; 8; 18; 18; 32; 32]%nat /\ NoDup symbols.
Proof.
  split; [vm_compute; reflexivity|]. split; [vm_compute; reflexivity|]. split; [vm_compute; reflexivity|].
  assert (N : forall l : list str, (fix go l := match l with [] => true | x :: r => negb (memb x r) && go r end)%bool l = true -> NoDup l).
  { induction l as [|x r IH]; intros H; [constructor|]. apply andb_prop in H. destruct H as [H1 H2]. constructor; [|apply IH; exact H2]. intros Hin. apply memb_In in Hin. rewrite Hin in H1. discriminate. }
  apply N. vm_compute. reflexivity.
Qed.
Print Assumptions C50_elements.
Lemma accepted_b name : memb (firstn 2 name) elements = true <-> accepted name.
Proof. apply memb_In. Qed.
(** raise_unknown: only the first two letters are looked at *)
Theorem C50_raise_unknown :
  forall (g0 : str) (items : list item) (skip : bool), Forall (fun c => ~ capital c) g0 -> Forall good_item items ->
  (Forall (fun i => accepted (i_name i)) items ->
     comp_from_string (g0 ++ flat_map item_text items) skip true = comp_from_string (g0 ++ flat_map item_text items) false false)
  /\ (~ Forall (fun i => accepted (i_name i)) items ->
     comp_from_string (g0 ++ flat_map item_text items) skip true = Err ValueError).
Proof.
  intros g0 items skip H0 Hi. unfold comp_from_string. rewrite find_whole by assumption. split.
  - intros H. generalize (@nil (str * R)). induction H as [|i items Ha _ IH]; intros acc; [reflexivity|]. cbn [map read_items].
    rewrite (proj2 (accepted_b _) Ha). cbn [negb andb]. inversion Hi as [|? ? _ Hr]; subst. destruct (num_val (i_num i)) as [x|e]; cbn; [apply IH; exact Hr|reflexivity].
  - generalize (@nil (str * R)). induction Hi as [|i items Hg _ IH]; intros acc H; [exfalso; apply H; constructor|]. cbn [map read_items].
    destruct (memb (firstn 2 (i_name i)) elements) eqn:E; cbn [negb andb]; [|reflexivity].
    destruct (list_eq_dec Ascii.ascii_dec (i_num i) (S_ ".")) as [->|Hne]; [reflexivity|].
    destruct (number_amount (i_num i) ltac:(apply Hg) Hne) as (x & Hx). apply num_val_amount in Hx. rewrite Hx. cbn. apply IH.
    intros Hf. apply H. constructor; [apply accepted_b; exact E|exact Hf].
Qed.
Print Assumptions C50_raise_unknown.
(** skip_unknown: as if the unknown items were not there *)
Theorem C50_skip_unknown :
  forall (g0 : str) (items : list item), Forall (fun c => ~ capital c) g0 -> Forall good_item items ->
  comp_from_string (g0 ++ flat_map item_text items) true false
  = comp_from_string (flat_map item_text (filter (fun i => memb (firstn 2 (i_name i)) elements) items)) false false.
Proof.
  intros g0 items H0 Hi. unfold comp_from_string. rewrite find_whole by assumption.
  rewrite find_all; [|apply incl_Forall with items; [intros x Hx; apply filter_In in Hx; tauto|exact Hi]|lia].
  generalize (@nil (str * R)). induction Hi as [|i items Hg _ IH]; intros acc; [reflexivity|]. cbn [map read_items filter].
  destruct (memb (firstn 2 (i_name i)) elements) eqn:E; cbn [negb andb map read_items].
  - rewrite E. cbn [negb andb]. destruct (num_val (i_num i)); cbn; [apply IH|reflexivity].
  - apply IH.
Qed.
Print Assumptions C50_skip_unknown.
Example C50_case : comp_from_string (S_ "Bi2Te2.7 Se_0.3, Bi1") false false = Ok [(S_ "Bi", 1); (S_ "Te", 27 / 10 ^ 1); (S_ "Se", 3 / 10 ^ 1)].
Proof. reflexivity. Qed.
Example C50_case_unknown : comp_from_string (S_ "Besx2") false true = Ok [(S_ "Besx", 2)] /\ ~ In (S_ "Besx") elements.
Proof. split; [reflexivity|]. rewrite <- memb_In. vm_compute. discriminate. Qed.

(** ** C51 *)
(** the format writes [x] exactly, in plain decimal notation *)
Definition plain_format (fmt : R -> str) (x : R) : Prop := fmt x <> [] /\ number_text (fmt x) /\ amount (fmt x) x.

Definition token_item (fmt : R -> str) (st : style) (omit last : bool) (p : str * R) : item :=
  let num_ := fmt (snd p) in
  if (omit && eqb num_ ["1"%char])%bool
  then Item (fst p) (match st with Split => if last then [] else S_ " " | _ => [] end) [] []
  else match st with
       | Origin => Item (fst p) (S_ "\-(") num_ (S_ ")")
       | Split => Item (fst p) [] num_ (if last then [] else S_ " ")
       | Join => Item (fst p) [] num_ []
       end.
Fixpoint token_items (fmt : R -> str) (st : style) (omit : bool) (c : compound) : list item :=
  match c with
  | [] => []
  | p :: r => token_item fmt st omit (match r with [] => true | _ => false end) p :: token_items fmt st omit r
  end.
Lemma tokens_text fmt st omit c : comp_to_string fmt st omit c = flat_map item_text (token_items fmt st omit c).
Proof.
  unfold comp_to_string. induction c as [|p c IH]; [reflexivity|]. cbn [map token_items flat_map].
  assert (J : forall sep x l, join_with sep (x :: l) = x ++ (match l with [] => [] | _ => sep end) ++ join_with sep l).
  { intros sep x [|y l]; cbn; [rewrite app_nil_r; reflexivity|reflexivity]. }
  rewrite J, IH. rewrite app_assoc. f_equal. unfold comp_token, token_item, item_text. 
  destruct c as [|q c]; destruct st; destruct (omit && eqb (fmt (snd p)) ["1"%char])%bool; cbn; rewrite ?app_nil_r, <- ?app_assoc; reflexivity.
Qed.
Lemma token_good fmt st omit last p : name_like (fst p) -> plain_format fmt (snd p) -> good_item (token_item fmt st omit last p).
Proof.
  intros Hn (Hne & Ht & _). unfold token_item. destruct (omit && eqb (fmt (snd p)) ["1"%char])%bool.
  - unfold good_item. cbn [i_name i_fill i_num i_gap]. split; [exact Hn|]. split.
    { destruct st; try constructor. destruct last; repeat constructor. }
    split; [exists []; split; [constructor|left; reflexivity]|]. split; [constructor|intros; discriminate].
  - assert (Hd : forall i x, i_num i = fmt (snd p) -> ~ digit x -> x <> "."%char -> ~ extends i x).
    { intros i x E H1 H2. unfold extends. rewrite E. destruct (fmt (snd p)); [congruence|]. intros [H|(H & _)]; contradiction. }
    assert (N1 : ~ digit " "%char) by (intros H; classes; cbn in H; lia).
    assert (N2 : ~ digit ")"%char) by (intros H; classes; cbn in H; lia).
    assert (N3 : ~ capital " "%char) by (intros H; classes; cbn in H; lia).
    assert (N4 : ~ capital ")"%char) by (intros H; classes; cbn in H; lia).
    destruct st; unfold good_item; cbn [i_name i_fill i_num i_gap]; (split; [exact Hn|]).
    + split; [constructor|]. split; [exact Ht|]. split; [constructor|intros; discriminate].
    + split; [constructor|]. split; [exact Ht|]. destruct last; [split; [constructor|intros; discriminate]|].
      split; [repeat constructor; exact N3|]. intros x r [= <- <-]. apply Hd; [reflexivity|exact N1|discriminate].
    + split; [unfold fill_text, filler; cbn; repeat constructor; tauto|]. split; [exact Ht|]. split; [repeat constructor; exact N4|].
      intros x r [= <- <-]. apply Hd; [reflexivity|exact N2|discriminate].
Qed.
Lemma amount_one : amount [] 1. Proof. left; auto. Qed.
Lemma amount_unique s x y : amount s x -> amount s y -> x = y.
Proof. intros H1 H2. apply num_val_amount in H1, H2. congruence. Qed.
Lemma token_amount fmt st omit last p : plain_format fmt (snd p) -> amount (i_num (token_item fmt st omit last p)) (snd p).
Proof.
  intros (Hne & Ht & Ha). unfold token_item. destruct (omit && eqb (fmt (snd p)) ["1"%char])%bool eqn:E.
  - cbn [i_num]. apply andb_true_iff in E as (_ & E). apply eqb_eq in E. rewrite E in Ha.
    replace (snd p) with 1; [apply amount_one|]. apply (amount_unique ["1"%char]); [|exact Ha].
    right; left. split; [discriminate|]. exists 1%Z. split; [|reflexivity]. exact (whole_snoc [] 0 1 whole_nil ltac:(lia)).
  - destruct st; exact Ha.
Qed.
Lemma dupdate_self {V} (d : dict str V) : forall acc, NoDup (map fst acc ++ map fst d) -> dupdate acc d = acc ++ d.
Proof.
  induction d as [|[k v] d IH]; intros acc H; [cbn; rewrite app_nil_r; reflexivity|]. cbn. 
  assert (Hk : ~ In k (dkeys acc)).
  { cbn in H. apply NoDup_remove_2 in H. intros Hi. apply H. apply in_or_app. left. exact Hi. }
  rewrite dset_keys_notin by exact Hk. unfold dupdate in IH. rewrite IH; [rewrite <- app_assoc; reflexivity|].
  rewrite map_app, <- app_assoc. exact H.
Qed.
Theorem C51_roundtrip :
  forall (fmt : R -> str) (st : style) (omit_one : bool) (c : compound),
  NoDup (map fst c) -> Forall (fun p => name_like (fst p)) c -> Forall (fun p => plain_format fmt (snd p)) c ->
  comp_from_string (comp_to_string fmt st omit_one c) false false = Ok c.
Proof.
  intros fmt st omit c Hd Hn Hf. rewrite tokens_text.
  assert (Hg : Forall good_item (token_items fmt st omit c)).
  { clear Hd. induction c as [|p c IH]; [constructor|]. inversion Hn; inversion Hf; subst. cbn. constructor; [apply token_good; assumption|apply IH; assumption]. }
  assert (Ha : Forall2 (fun i x => amount (i_num i) x) (token_items fmt st omit c) (map snd c)).
  { clear Hd Hn Hg. induction c as [|p c IH]; [constructor|]. inversion Hf; subst. cbn. constructor; [apply token_amount; assumption|apply IH; assumption]. }
  pose proof (C50_reads [] _ _ ltac:(constructor) Hg Ha) as E. cbn [app] in E. rewrite E. f_equal.
  assert (En : map i_name (token_items fmt st omit c) = map fst c).
  { clear. induction c as [|p c IH]; [reflexivity|]. cbn [token_items map]. rewrite IH. f_equal. unfold token_item. destruct (omit && _)%bool; destruct st; reflexivity. }
  rewrite En. replace (combine (map fst c) (map snd c)) with c; [|clear; induction c as [|[a b] c IH]; cbn; [reflexivity|rewrite <- IH; reflexivity]].
  apply (dupdate_self c []). exact Hd.
Qed.
Print Assumptions C51_roundtrip.
(** numbers that the format writes with an exponent or a sign come back as something else *)
Theorem C51_exponent_lost :
  forall (fmt : R -> str) (name num rest : str) (x y : R), name_like name ->
  fmt x = num ++ "e"%char :: rest -> num <> [] -> number_text num -> amount num y -> Forall (fun c => ~ capital c) rest ->
  comp_from_string (comp_to_string fmt Join true [(name, x)]) false false = Ok [(name, y)].
Proof.
  intros fmt name num rest x y Hn Hf Hne Ht Ha Hr.
  assert (E : comp_to_string fmt Join true [(name, x)] = flat_map item_text [Item name [] num ("e"%char :: rest)]).
  { unfold comp_to_string. cbn [map join_with]. unfold comp_token. cbn [fst snd]. rewrite Hf. match goal with |- context [if ?b then _ else _] => destruct b eqn:E end.
    - apply andb_true_iff in E as (_ & E). apply eqb_eq in E. destruct num as [|a [|b num]]; cbn in E; [congruence|injection E as _ E; discriminate|injection E as _ E; discriminate].
    - unfold item_text. cbn. rewrite app_nil_r. reflexivity. }
  rewrite E. apply (C50_reads [] [Item name [] num ("e"%char :: rest)] [y]); [constructor| |constructor; [exact Ha|constructor]].
  constructor; [|constructor]. unfold good_item. cbn [i_name i_fill i_num i_gap]. split; [exact Hn|]. split; [constructor|]. split; [exact Ht|]. split.
  - constructor; [intros H; classes; cbn in H; lia|exact Hr].
  - intros c r [= <- <-]. unfold extends. cbn [i_num]. destruct num; [congruence|]. intros [H|(H & _)]; [classes; cbn in H; lia|discriminate].
Qed.
Print Assumptions C51_exponent_lost.
Theorem C51_sign_lost :
  forall (fmt : R -> str) (name num : str) (x y : R), name_like name ->
  fmt x = "-"%char :: num -> num <> [] -> number_text num -> amount num y ->
  comp_from_string (comp_to_string fmt Join true [(name, x)]) false false = Ok [(name, y)].
Proof.
  intros fmt name num x y Hn Hf Hne Ht Ha.
  assert (E : comp_to_string fmt Join true [(name, x)] = flat_map item_text [Item name ["-"%char] num []]).
  { unfold comp_to_string. cbn [map join_with]. unfold comp_token. cbn [fst snd]. rewrite Hf. match goal with |- context [if ?b then _ else _] => destruct b eqn:E end.
    - apply andb_true_iff in E as (_ & E). apply eqb_eq in E. discriminate.
    - unfold item_text. cbn. rewrite !app_nil_r. reflexivity. }
  rewrite E. apply (C50_reads [] [Item name ["-"%char] num []] [y]); [constructor| |constructor; [exact Ha|constructor]].
  constructor; [|constructor]. unfold good_item. cbn [i_name i_fill i_num i_gap]. split; [exact Hn|]. split; [unfold fill_text, filler; cbn; repeat constructor; tauto|]. split; [exact Ht|]. split.
  - constructor.
  - intros; discriminate.
Qed.
Print Assumptions C51_sign_lost.
Lemma plain_int_format : plain_format (fun _ => S_ "2") 2.
Proof.
  split; [discriminate|]. split; [exists (S_ "2"); split; [repeat constructor; unfold digit; cbn; tauto|left; reflexivity]|].
  right; left. split; [discriminate|]. exists 2%Z. split; [|reflexivity]. exact (whole_snoc [] 0 2 whole_nil ltac:(lia)).
Qed.
Example C51_case : let fmt := fun x : R => if Req_EM_T x 1 then S_ "1" else S_ "2" in
  comp_from_string (comp_to_string fmt Origin true [(S_ "Bi", 2); (S_ "Te", 1)]) false false = Ok [(S_ "Bi", 2); (S_ "Te", 1)]
  /\ comp_to_string fmt Origin true [(S_ "Bi", 2); (S_ "Te", 1)] = S_ "Bi\-(2)Te".
Proof.
  intros fmt. assert (F1 : fmt 1 = S_ "1") by (unfold fmt; destruct (Req_EM_T 1 1); [reflexivity|lra]).
  assert (F2 : fmt 2 = S_ "2") by (unfold fmt; destruct (Req_EM_T 2 1); [lra|reflexivity]). split.
  - apply C51_roundtrip.
    + cbn. constructor; [intros [H|[]]; discriminate|]. constructor; [intros []|constructor].
    + repeat constructor; cbn [fst]; eexists _, _; (split; [reflexivity|]); (split; [unfold capital; cbn; tauto|]); repeat constructor; unfold lower_letter; cbn; tauto.
    + constructor; [|constructor; [|constructor]]; cbn [snd]; unfold plain_format; rewrite ?F1, ?F2.
      * exact plain_int_format.
      * split; [discriminate|]. split; [exists (S_ "1"); split; [repeat constructor; unfold digit; cbn; tauto|left; reflexivity]|].
        right; left. split; [discriminate|]. exists 1%Z. split; [|reflexivity]. exact (whole_snoc [] 0 1 whole_nil ltac:(lia)).
  - unfold comp_to_string. cbn [map join_with]. unfold comp_token. cbn [fst snd]. rewrite F1, F2. reflexivity.
Qed.

(** ** C52 *)
Lemma nearest_IZR z x : Rabs (x - IZR z) < 1/2 -> nearest x = IZR z.
Proof.
  intros H. unfold nearest. f_equal. apply Rabs_def2 in H. destruct (base_Int_part (x + 1/2)) as (H1 & H2).
  set (k := Int_part (x + 1/2)) in *. assert (A : IZR k < IZR (z + 1)) by (rewrite plus_IZR; lra). assert (B : IZR (z - 1) < IZR k) by (rewrite minus_IZR; lra).
  apply lt_IZR in A, B. lia.
Qed.
Theorem C52_natom :
  forall c : compound,
  (forall z : Z, Rabs (total c - IZR z) < 1e-8 -> natom c = IZR z)
  /\ ((forall z : Z, 1e-8 <= Rabs (total c - IZR z)) -> natom c = total c)
  /\ Rabs (natom c - total c) < 1e-8.
Proof.
  intros c. unfold natom. set (n := total c). split; [|split].
  - intros z Hz. assert (E : nearest n = IZR z) by (apply nearest_IZR; lra). rewrite E. destruct (Rlt_dec _ _); [reflexivity|contradiction].
  - intros H. destruct (Rlt_dec _ _) as [Hlt|]; [|reflexivity]. specialize (H (Int_part (n + 1/2))). fold (nearest n) in H. lra.
  - destruct (Rlt_dec _ _) as [Hlt|].
    + rewrite Rabs_minus_sym. exact Hlt.
    + rewrite Rminus_diag_eq by reflexivity. rewrite Rabs_R0. lra.
Qed.
Print Assumptions C52_natom.
Lemma weights_ok aw c : Forall (fun p => In (fst p) elements) c -> weights aw c = Ok (map (fun p => (fst p, aw (fst p))) c).
Proof.
  unfold weights. induction 1 as [|p c Hp _ IH]; [reflexivity|]. cbn [mapM map]. rewrite (proj2 (memb_In _ _) Hp). cbn [rbind]. rewrite IH. reflexivity.
Qed.
Lemma products aw (c : compound) (f : str -> R) : (forall p, In p c -> aw (fst p) = Some (f (fst p))) ->
  mapM (fun p : str * R * (str * option R) => match snd (snd p) with Some x => Ok (snd (fst p) * x) | None => Err TypeError end)
    (combine c (map (fun p => (fst p, aw (fst p))) c)) = Ok (map (fun p => snd p * f (fst p)) c).
Proof.
  induction c as [|p c IH]; intros H; [reflexivity|]. cbn [map combine mapM]. cbn [fst snd]. rewrite (H p) by (left; reflexivity). cbn [rbind].
  rewrite IH by (intros; apply H; right; assumption). reflexivity.
Qed.
Theorem C52_weight_ave :
  forall (atomic_weight : str -> option R) (w : str -> R) (c : compound),
  Forall (fun p => In (fst p) elements /\ atomic_weight (fst p) = Some (w (fst p))) c ->
  (forall a, weight_ave atomic_weight c = Ok a -> a * natom c = sumR (map (fun p => snd p * w (fst p)) c))
  /\ ((exists a, weight_ave atomic_weight c = Ok a) <-> 1e-8 <= Rabs (total c))
  /\ (Rabs (total c) < 1e-8 -> weight_ave atomic_weight c = Err ZeroDivisionError)
  /\ (forall a lo hi, weight_ave atomic_weight c = Ok a -> natom c = total c -> Forall (fun p => 0 <= snd p) c ->
        Forall (fun p => lo <= w (fst p) <= hi) c -> lo <= a <= hi).
Proof.
  intros aw w c H.
  assert (E : weight_ave aw c = if Req_EM_T (natom c) 0 then Err ZeroDivisionError else Ok (sumR (map (fun p => snd p * w (fst p)) c) / natom c)).
  { unfold weight_ave. rewrite weights_ok by (eapply Forall_impl; [|exact H]; cbn; tauto). cbn [rbind].
    rewrite (products aw c w); [reflexivity|]. intros p Hp. rewrite Forall_forall in H. apply (H p Hp). }
  assert (Z : natom c = 0 <-> Rabs (total c) < 1e-8).
  { split; intros Hz.
    - destruct (C52_natom c) as (_ & _ & B). rewrite Hz in B. rewrite Rabs_minus_sym, Rminus_0_r in B. exact B.
    - destruct (C52_natom c) as (B & _). apply (B 0%Z). rewrite Rminus_0_r. exact Hz. }
  rewrite E. split; [|split; [|split]].
  - intros a Ha. destruct (Req_EM_T (natom c) 0); [discriminate|]. injection Ha as <-. field. assumption.
  - split.
    + intros (a & Ha). destruct (Req_EM_T (natom c) 0); [discriminate|]. destruct (Rlt_dec (Rabs (total c)) 1e-8); [tauto|lra].
    + intros Ha. destruct (Req_EM_T (natom c) 0) as [e|]; [apply Z in e; lra|eauto].
  - intros Hz. destruct (Req_EM_T (natom c) 0); [reflexivity|tauto].
  - intros a lo hi Ha Hn Hp Hw. destruct (Req_EM_T (natom c) 0) as [|Hne]; [discriminate|]. injection Ha as <-. rewrite Hn in *.
    assert (Ht : 0 <= total c) by (apply sumR_nonneg; apply Forall_map; exact Hp).
    assert (Hpos : 0 < total c) by lra. rewrite Forall_forall in Hp, Hw.
    assert (H1 : sumR (map (fun p => lo * snd p) c) <= sumR (map (fun p => snd p * w (fst p)) c)).
    { apply sumR_le. intros p Hpi. specialize (Hp p Hpi). destruct (Hw p Hpi). rewrite Rmult_comm. apply Rmult_le_compat_l; assumption. }
    assert (H2 : sumR (map (fun p => snd p * w (fst p)) c) <= sumR (map (fun p => hi * snd p) c)).
    { apply sumR_le. intros p Hpi. specialize (Hp p Hpi). destruct (Hw p Hpi). rewrite (Rmult_comm hi). apply Rmult_le_compat_l; assumption. }
    rewrite sumR_scal in H1, H2. fold (total c) in H1, H2. split.
    + apply Rmult_le_reg_r with (total c); [exact Hpos|]. unfold Rdiv. rewrite Rmult_assoc, Rinv_l by lra. lra.
    + apply Rmult_le_reg_r with (total c); [exact Hpos|]. unfold Rdiv. rewrite Rmult_assoc, Rinv_l by lra. lra.
Qed.
Print Assumptions C52_weight_ave.
Theorem C52_weight_errors :
  forall (atomic_weight : str -> option R) (c : compound),
  (~ Forall (fun p => In (fst p) elements) c -> weight_ave atomic_weight c = Err KeyError)
  /\ (Forall (fun p => In (fst p) elements) c -> Exists (fun p => atomic_weight (fst p) = None) c -> weight_ave atomic_weight c = Err TypeError).
Proof.
  intros aw c. split.
  - intros H. unfold weight_ave. replace (weights aw c) with (@Err (list (str * option R)) KeyError); [reflexivity|]. symmetry.
    unfold weights. induction c as [|p c IH]; [exfalso; apply H; constructor|]. cbn [mapM]. destruct (memb (fst p) elements) eqn:E; [|reflexivity].
    cbn [rbind]. rewrite IH; [reflexivity|]. intros Hf. apply H. constructor; [apply memb_In; exact E|exact Hf].
  - intros H He. unfold weight_ave. rewrite weights_ok by exact H. cbn [rbind].
    replace (mapM _ _) with (@Err (list R) TypeError); [reflexivity|]. symmetry. clear H.
    induction He as [p c Hp|p c _ IH]; cbn [map combine mapM]; cbn [fst snd].
    + rewrite Hp. reflexivity.
    + destruct (aw (fst p)); [|reflexivity]. cbn [rbind]. rewrite IH. reflexivity.
Qed.
Print Assumptions C52_weight_errors.
Example C52_case : natom [(S_ "Bi", 2); (S_ "Te", 2.7); (S_ "Se", 0.3)] = 5.
Proof. apply (proj1 (C52_natom _) 5%Z). unfold total. cbn. rewrite Rabs_right; lra. Qed.

(** ** C53 *)
Lemma pop_until_spec old new stack : forall poped a v b, ~ In old (map fst b) -> stack = b ++ (old, v) :: a ->
  pop_until old new stack poped = Ok (rev a, (new, v) :: rev b ++ poped).
Proof.
  intros poped a v b Hb ->. revert poped. induction b as [|[k x] b IH]; intros poped.
  - cbn. rewrite eqb_refl. reflexivity.
  - cbn in Hb. cbn [app pop_until]. destruct (eqb k old) eqn:E; [apply eqb_eq in E; tauto|]. rewrite IH by tauto. cbn [rev]. rewrite <- app_assoc. reflexivity.
Qed.
Theorem C53_replace :
  forall (a b : compound) (old new : str) (v : R),
  NoDup (map fst (a ++ (old, v) :: b)) -> ~ In new (map fst (a ++ (old, v) :: b)) ->
  replace (a ++ (old, v) :: b) old new true = Ok (a ++ (new, v) :: b)
  /\ replace (a ++ (old, v) :: b) old new false = Ok (a ++ b ++ [(new, v)]).
Proof.
  intros a b old new v Hd Hn. set (c := a ++ (old, v) :: b) in *.
  assert (Hold : dmem c old = true) by (apply dmem_spec; unfold c, dkeys; rewrite map_app; apply in_or_app; right; left; reflexivity).
  assert (Hnew : dmem c new = false).
  { destruct (dmem c new) eqn:E; [apply dmem_spec in E; contradiction|reflexivity]. }
  assert (Hd' : NoDup (map fst a ++ old :: map fst b)) by (unfold c in Hd; rewrite map_app in Hd; exact Hd).
  assert (Hoa : ~ In old (map fst a)) by (apply NoDup_remove_2 in Hd'; intros H; apply Hd', in_or_app; auto).
  assert (Hob : ~ In old (map fst b)) by (apply NoDup_remove_2 in Hd'; intros H; apply Hd', in_or_app; auto).
  assert (Hna : ~ In new (map fst a) /\ ~ In new (map fst b)).
  { unfold c in Hn. rewrite map_app in Hn. cbn in Hn. split; intros H; apply Hn, in_or_app; [left|right; right]; exact H. }
  unfold replace. rewrite Hold, Hnew. cbn [negb]. split.
  - rewrite (pop_until_spec old new (rev c) [] (rev a) v (rev b)).
    + cbn [rbind]. rewrite !rev_involutive, app_nil_r. f_equal. apply dupdate_self. cbn [map fst].
      apply NoDup_remove_1 in Hd'. clear -Hd' Hna. destruct Hna as (H1 & H2).
      apply (NoDup_Add (Add_app new (map fst a) (map fst b))). split; [exact Hd'|]. intros H. apply in_app_or in H. tauto.
    + rewrite map_rev. intros H. apply Hob. apply in_rev in H. exact H.
    + unfold c. rewrite rev_app_distr. cbn [rev]. rewrite <- app_assoc. reflexivity.
  - unfold dpop. assert (Eg : dget c old = Some v).
    { apply dget_In; [exact Hd|]. unfold c. apply in_or_app. right; left; reflexivity. }
    rewrite Eg. cbn [rbind]. f_equal.
    assert (Er : dremove c old = a ++ b).
    { unfold c, dremove. rewrite filter_app. cbn [filter fst]. rewrite eqb_refl. cbn [negb].
      assert (F : forall l : compound, ~ In old (map fst l) -> filter (fun p => negb (eqb old (fst p))) l = l).
      { clear. induction l as [|[k x] l IH]; intros H; [reflexivity|]. cbn in *. destruct (eqb old k) eqn:E; [apply eqb_eq in E; subst; tauto|]. cbn. rewrite IH by tauto. reflexivity. }
      rewrite !F by assumption. reflexivity. }
    rewrite Er. rewrite dset_keys_notin; [rewrite <- app_assoc; reflexivity|]. unfold dkeys. rewrite map_app. intros H. apply in_app_or in H. tauto.
Qed.
Print Assumptions C53_replace.
Theorem C53_refused :
  forall (c : compound) (old new : str) (match_order : bool),
  ~ In old (map fst c) \/ In new (map fst c) -> replace c old new match_order = Err KeyError.
Proof.
  intros c old new mo H. unfold replace. destruct (dmem c old) eqn:Eo; [|reflexivity]. cbn [negb].
  apply dmem_spec in Eo. destruct H as [H|H]; [contradiction|]. apply dmem_spec in H. rewrite H. reflexivity.
Qed.
Print Assumptions C53_refused.
Example C53_case : replace [(S_ "Bi", 2); (S_ "Te", 3)] (S_ "Bi") (S_ "Sb") true = Ok [(S_ "Sb", 2); (S_ "Te", 3)]
  /\ replace [(S_ "Bi", 2); (S_ "Te", 3)] (S_ "Bi") (S_ "Sb") false = Ok [(S_ "Te", 3); (S_ "Sb", 2)].
Proof. split; reflexivity. Qed.

(** ** C54 *)
Lemma regularise_spec c : (natom c <> 0 \/ c = []) -> regularise c = Ok (map (fun p => (fst p, snd p / natom c)) c).
Proof.
  intros H. unfold regularise. destruct (Req_EM_T (natom c) 1) as [E|].
  - f_equal. rewrite E. rewrite <- (map_id c) at 1. apply map_ext. intros [k v]. cbn. f_equal. field.
  - destruct (Req_EM_T (natom c) 0) as [E0|]; [|reflexivity]. destruct H as [H| ->]; [contradiction|]. reflexivity.
Qed.
Lemma all_sites_comps regular (l : list (str * compound)) : Forall (fun p => natom (snd p) <> 0) l -> forall o,
  all_sites regular (map (fun p => (fst p, SComp (snd p))) l) o
  = Ok (map (fun p => (fst p, if regular then map (fun q => (fst q, snd q / natom (snd p))) (snd p) else snd p, natom (snd p))) l,
        map (fun p => (fst p, SComp (snd p))) l).
Proof.
  induction 1 as [|[n c] l Hc _ IH]; intros o; [reflexivity|]. cbn [map all_sites fst snd rbind] in *. destruct regular.
  - rewrite regularise_spec by (left; exact Hc). cbn [rbind]. rewrite IH. reflexivity.
  - cbn [rbind]. rewrite IH. reflexivity.
Qed.
Theorem C54_sites :
  forall (regular : bool) (l : list (str * compound)), Forall (fun p => natom (snd p) <> 0) l ->
  all_sites regular (map (fun p => (fst p, SComp (snd p))) l) None
  = Ok (map (fun p => (fst p, if regular then map (fun q => (fst q, snd q / natom (snd p))) (snd p) else snd p, natom (snd p))) l,
        map (fun p => (fst p, SComp (snd p))) l).
Proof. intros. apply all_sites_comps. assumption. Qed.
Print Assumptions C54_sites.
Theorem C54_fractions_sum_to_one :
  forall c : compound, natom c <> 0 -> natom c = total c ->
  total (map (fun q => (fst q, snd q / natom c)) c) = 1.
Proof.
  intros c H0 H. unfold total. rewrite map_map. cbn [snd].
  replace (map (fun x : str * R => snd x / natom c) c) with (map (fun x => / natom c * snd x) c) by (apply map_ext; intros; unfold Rdiv; ring).
  rewrite sumR_scal. fold (total c). rewrite <- H. field. exact H0.
Qed.
Print Assumptions C54_fractions_sum_to_one.
Lemma all_sites_app regular a : forall b o ys al, all_sites regular (a ++ b) o = Ok (ys, al) ->
  exists y1 a1 y2 a2 o', all_sites regular a o = Ok (y1, a1) /\ all_sites regular b o' = Ok (y2, a2) /\ ys = y1 ++ y2 /\ al = a1 ++ a2
    /\ length y1 = length a /\ length a1 = length a
    /\ o' = match rev y1 with [] => o | (_, c, _) :: _ => Some c end.
Proof.
  induction a as [|[n s] a IH]; intros b o ys al H.
  - exists [], [], ys, al, o. cbn in *. auto 10.
  - cbn [app all_sites] in *. destruct (match s with SComp c => Ok c | SDict _ => match o with Some c => Ok c | None => Err UnboundLocalError end | SOther => Err TypeError end) as [c|e]; [|discriminate].
    cbn [rbind] in *. destruct (if regular then regularise c else Ok c) as [c'|e]; [|discriminate]. cbn [rbind] in *.
    destruct (all_sites regular (a ++ b) (Some c')) as [[yr ar]|e] eqn:E; [|discriminate]. cbn [rbind fst snd] in H. injection H as <- <-.
    destruct (IH b (Some c') yr ar E) as (y1 & a1 & y2 & a2 & o' & E1 & E2 & -> & -> & L1 & L2 & Ho).
    exists ((n, c', natom c) :: y1), ((n, SComp c) :: a1), y2, a2, o'. rewrite E1. cbn [rbind fst snd length]. repeat split; try congruence.
    rewrite Ho. cbn [rev]. destruct (rev y1) as [|[[x y] z] r]; reflexivity.
Qed.
(** a site given as a plain dictionary takes over the composition of the site before it *)
Theorem C54_dict_first :
  forall (regular : bool) (name : str) (d : compound) (rest : alloy),
  all_sites regular ((name, SDict d) :: rest) None = Err UnboundLocalError.
Proof. reflexivity. Qed.
Print Assumptions C54_dict_first.
Theorem C54_dict_later :
  forall (regular : bool) (a b : alloy) (n1 n2 : str) (s1 : site) (d : compound) ys al,
  all_sites regular (a ++ (n1, s1) :: (n2, SDict d) :: b) None = Ok (ys, al) ->
  exists c1 m1 c2,
    nth_error ys (length a) = Some (n1, c1, m1)
    /\ nth_error ys (S (length a)) = Some (n2, c2, natom c1)
    /\ (if regular then regularise c1 else Ok c1) = Ok c2
    /\ nth_error al (S (length a)) = Some (n2, SComp c1).
Proof.
  intros regular a b n1 n2 s1 d ys al H. apply all_sites_app in H as (y1 & a1 & y2 & a2 & o' & _ & E2 & -> & -> & L1 & L2 & _).
  cbn [all_sites] in E2. destruct (match s1 with SComp c => Ok c | SDict _ => match o' with Some c => Ok c | None => Err UnboundLocalError end | SOther => Err TypeError end) as [c|e]; [|discriminate].
  cbn [rbind] in E2. destruct (if regular then regularise c else Ok c) as [c1|e]; [|discriminate]. cbn [rbind] in E2.
  destruct (if regular then regularise c1 else Ok c1) as [c2|e] eqn:Er; [|discriminate]. cbn [rbind] in E2.
  destruct (all_sites regular b (Some c2)) as [[yr ar]|e]; [|discriminate]. cbn [rbind fst snd] in E2. injection E2 as <- <-.
  exists c1, (natom c), c2. rewrite !nth_error_app2 by lia. rewrite L1, L2, Nat.sub_diag. replace (S (length a) - length a)%nat with 1%nat by lia.
  cbn. auto.
Qed.
Print Assumptions C54_dict_later.
Theorem C54_other_refused :
  forall (regular : bool) (a b : alloy) (n : str) ys al, all_sites regular (a ++ (n, SOther) :: b) None <> Ok (ys, al).
Proof.
  intros regular a b n ys al H. apply all_sites_app in H as (y1 & a1 & y2 & a2 & o' & _ & E2 & _). discriminate.
Qed.
Print Assumptions C54_other_refused.
Lemma natom_int c z : total c = IZR z -> natom c = IZR z.
Proof. intros H. apply (proj1 (C52_natom c)). rewrite H, Rminus_diag_eq by reflexivity. rewrite Rabs_R0. lra. Qed.
Example C54_case : exists ys al,
  all_sites true [(S_ "A", SComp [(S_ "Bi", 2)]); (S_ "B", SDict [(S_ "Te", 3)])] None = Ok (ys, al)
  /\ nth_error al 1 = Some (S_ "B", SComp [(S_ "Bi", 2 / 2)]).
Proof.
  assert (N2 : natom [(S_ "Bi", 2)] = 2) by (apply (natom_int _ 2); unfold total; cbn; lra).
  assert (N1 : natom [(S_ "Bi", 2 / 2)] = 1) by (apply (natom_int _ 1); unfold total; cbn; lra).
  cbn [all_sites rbind]. rewrite regularise_spec by (left; rewrite N2; lra). rewrite N2. cbn [map fst snd rbind].
  rewrite regularise_spec by (left; rewrite N1; lra). cbn [rbind]. eexists _, _. split; reflexivity.
Qed.

(** ** C55 *)
Lemma fill_spec (l : list (compound * (str * option R))) : forall acc,
  NoDup (map fst acc ++ map (fun p => fst (snd p)) l) ->
  Forall (fun p => snd (snd p) = None \/ natom (fst p) <> 0) l ->
  fill_alloy (map (fun p => (Some (fst p), snd p)) l) acc
  = Ok (acc ++ map (fun p => (fst (snd p), SComp (match snd (snd p) with
          | None => fst p | Some n => map (fun q => (fst q, snd q * (n / natom (fst p)))) (fst p) end))) l).
Proof.
  induction l as [|[c [name n]] l IH]; intros acc Hd Hf; [cbn; rewrite app_nil_r; reflexivity|]. inversion Hf as [|? ? Hc Hr]; subst. cbn [map fill_alloy fst snd] in *.
  assert (Es : scale_to c n = Ok (match n with None => c | Some n => map (fun q => (fst q, snd q * (n / natom c))) c end)).
  { unfold scale_to. destruct n as [n|]; [|reflexivity]. destruct Hc as [Hc|Hc]; [discriminate|]. destruct (Req_EM_T (natom c) 0); [contradiction|reflexivity]. }
  rewrite Es. cbn [rbind]. rewrite dset_keys_notin.
  - rewrite IH; [rewrite <- app_assoc; reflexivity|rewrite map_app; cbn [map fst]; rewrite <- app_assoc; exact Hd|exact Hr].
  - apply NoDup_remove_2 in Hd. intros H. apply Hd. apply in_or_app. left. exact H.
Qed.
(** scaling keeps the proportions and gives the site the requested number of atoms *)
Definition scaled (c : compound) (n : R) : compound := map (fun q => (fst q, snd q * (n / natom c))) c.
Theorem C55_from_compounds :
  forall (l : list (compound * (str * R))), NoDup (map (fun p => fst (snd p)) l) -> Forall (fun p => natom (fst p) <> 0) l ->
  from_compounds (map (fun p => Some (fst p)) l) (Some (map (fun p => fst (snd p)) l)) (Some (map (fun p => snd (snd p)) l))
  = Ok (map (fun p => (fst (snd p), SComp (scaled (fst p) (snd (snd p))))) l)
  /\ from_compounds (map (fun p => Some (fst p)) l) (Some (map (fun p => fst (snd p)) l)) None
  = Ok (map (fun p => (fst (snd p), SComp (fst p))) l).
Proof.
  intros l Hd Hf. unfold from_compounds. cbn [rbind]. split.
  - replace (combine _ _) with (map (fun p : compound * (str * option R) => (Some (fst p), snd p)) (map (fun p => (fst p, (fst (snd p), Some (snd (snd p))))) l)).
    + rewrite fill_spec; cbn [map app fst snd].
      * rewrite map_map. reflexivity.
      * rewrite map_map. exact Hd.
      * apply Forall_map. eapply Forall_impl; [|exact Hf]. cbn. auto.
    + clear. induction l as [|[c [n x]] l IH]; [reflexivity|]. cbn in *. rewrite IH. reflexivity.
  - replace (combine _ _) with (map (fun p : compound * (str * option R) => (Some (fst p), snd p)) (map (fun p => (fst p, (fst (snd p), None))) l)).
    + rewrite fill_spec; cbn [map app fst snd].
      * rewrite map_map. reflexivity.
      * rewrite map_map. exact Hd.
      * apply Forall_map. eapply Forall_impl; [|exact Hf]. cbn. auto.
    + rewrite map_length. clear. induction l as [|[c [n x]] l IH]; [reflexivity|]. cbn in *. rewrite IH. reflexivity.
Qed.
Print Assumptions C55_from_compounds.
Theorem C55_scaled :
  forall (c : compound) (n : R), natom c <> 0 -> map fst (scaled c n) = map fst c
  /\ total (scaled c n) = n * (total c / natom c)
  /\ (natom c = total c -> total (scaled c n) = n)
  /\ forall i p q, nth_error c i = Some p -> nth_error (scaled c n) i = Some q -> snd q * natom c = snd p * n.
Proof.
  intros c n H. unfold scaled. split; [rewrite map_map; reflexivity|].
  assert (E : total (map (fun q : str * R => (fst q, snd q * (n / natom c))) c) = n * (total c / natom c)).
  { unfold total. rewrite map_map. cbn [snd]. replace (map (fun x : str * R => snd x * (n / natom c)) c) with (map (fun x => (n / natom c) * snd x) c) by (apply map_ext; intros; ring).
    rewrite sumR_scal. field. exact H. }
  split; [exact E|]. split.
  - intros Ht. rewrite E, <- Ht. field. exact H.
  - intros i p q Hp Hq. rewrite nth_error_map, Hp in Hq. cbn in Hq. injection Hq as <-. cbn. field. exact H.
Qed.
Print Assumptions C55_scaled.
(** automatic names are the letters A, B, C, ...; more than 26 sites are refused *)
Lemma auto_nodup n : (n <= 26)%nat -> NoDup (map auto_name (seq 0 n)).
Proof.
  intros H. assert (G : forall l, NoDup l -> (forall x, In x l -> (x < 26)%nat) -> NoDup (map auto_name l)).
  { clear. induction l as [|x l IH]; intros Hd Hb; [constructor|]. cbn. inversion Hd as [|? ? Hx Hl]; subst. constructor.
    - intros Hi. apply in_map_iff in Hi as (y & E & Hy). unfold auto_name in E. injection E as E.
      apply (f_equal nat_of_ascii) in E. pose proof (Hb x (or_introl eq_refl)). pose proof (Hb y (or_intror Hy)).
      rewrite !nat_ascii_embedding in E by lia. assert (x = y) by lia. subst. contradiction.
    - apply IH; [exact Hl|]. intros; apply Hb; right; assumption. }
  apply G; [apply seq_NoDup|]. intros x Hx. apply in_seq in Hx. lia.
Qed.
Theorem C55_automatic_names :
  forall (comps : list (option compound)) (natoms : option (list R)),
  ((length comps <= 26)%nat -> from_compounds comps None natoms = from_compounds comps (Some (map (fun i => [ascii_of_nat (65 + i)]) (seq 0 (length comps)))) natoms)
  /\ ((26 < length comps)%nat -> from_compounds comps None natoms = Err ValueError).
Proof.
  intros comps natoms. unfold from_compounds. split; intros H.
  - rewrite (proj2 (Nat.leb_le _ _) H). cbn [rbind].
    replace (map auto_name (seq 0 (length comps))) with (map (fun i => [ascii_of_nat (65 + i)]) (seq 0 (length comps))); [reflexivity|].
    apply map_ext. intros i. unfold auto_name. do 2 f_equal. lia.
  - destruct (Nat.leb_spec (length comps) 26); [lia|reflexivity].
Qed.
Print Assumptions C55_automatic_names.
Lemma compounds_refused :
  forall (a b : list compound) (names : list str) (natoms : list R),
  (length a < length names)%nat -> (length a < length natoms)%nat ->
  (forall al, from_compounds (map Some a ++ None :: map Some b) (Some names) (Some natoms) <> Ok al)
  /\ (forall c al, natom c = 0 -> from_compounds (map Some a ++ Some c :: map Some b) (Some names) (Some natoms) <> Ok al).
Proof.
  intros a b names natoms H1 H2. unfold from_compounds. cbn [rbind].
  assert (G : forall x : option compound, match x with None => True | Some c => natom c = 0 end -> forall al acc names natoms, (length a < length names)%nat -> (length a < length natoms)%nat ->
     fill_alloy (combine (map Some a ++ x :: map Some b) (combine names (map Some natoms))) acc <> Ok al).
  { intros x Hx al. clear H1 H2 names natoms. induction a as [|c a IH]; intros acc [|n names] [|m natoms] H1 H2; try (cbn in *; lia).
    - cbn [map combine app fill_alloy]. destruct x as [c|]; [|discriminate]. unfold scale_to. rewrite Hx.
      destruct (Req_EM_T 0 0); [discriminate|congruence].
    - cbn [map combine app fill_alloy]. destruct (scale_to c (Some m)) as [c'|]; [|discriminate]. cbn [rbind]. apply IH; cbn in *; lia. }
  split; [intros al|intros c al Hc]; apply G; auto.
Qed.
Theorem C55_refused :
  forall (a b : list compound) (names : list str) (natoms : list R),
  (length a < length names)%nat -> (length a < length natoms)%nat -> Forall (fun c => natom c <> 0) a ->
  from_compounds (map Some a ++ None :: map Some b) (Some names) (Some natoms) = Err TypeError
  /\ (forall c, natom c = 0 -> from_compounds (map Some a ++ Some c :: map Some b) (Some names) (Some natoms) = Err ZeroDivisionError)
  /\ from_compounds (map Some a ++ None :: map Some b) (Some names) None = Err TypeError.
Proof.
  intros a b names natoms H1 H2 HA. unfold from_compounds. cbn [rbind].
  assert (G : forall (x : option compound) (e : exn) (m : option R), (forall acc name l, fill_alloy ((x, (name, m)) :: l) acc = Err e) -> forall (ms : list (option R)) acc ns, nth_error ms (length a) = Some m ->
     (length a < length ns)%nat -> fill_alloy (combine (map Some a ++ x :: map Some b) (combine ns ms)) acc = Err e).
  { intros x e m Hx. clear H1 H2 names natoms. induction HA as [|c a Hc HA IH]; intros [|o ms] acc [|n ns] E H1; try discriminate; try (cbn in *; lia).
    - cbn in E. injection E as ->. cbn [map combine app]. apply Hx.
    - cbn [map combine app fill_alloy]. unfold scale_to. destruct o as [o|]; [destruct (Req_EM_T (natom c) 0) as [Z|_]; [congruence|]|]; cbn [rbind]; apply IH; try assumption; cbn in *; lia. }
  assert (N : exists m, nth_error (map Some natoms) (length a) = Some (Some m)).
  { destruct (nth_error natoms (length a)) as [m|] eqn:E; [exists m; apply map_nth_error; exact E|]. apply nth_error_None in E. lia. }
  destruct N as (m & Em). split; [|split].
  - apply (G None TypeError (Some m)); try assumption. reflexivity.
  - intros c Hc. apply (G (Some c) ZeroDivisionError (Some m)); try assumption. intros acc name l. cbn [fill_alloy]. unfold scale_to. destruct (Req_EM_T (natom c) 0); [reflexivity|congruence].
  - apply (G None TypeError None); try assumption; [reflexivity|]. rewrite app_length, map_length. cbn [length]. apply nth_error_repeat. lia.
Qed.
Print Assumptions C55_refused.
Example C55_case : from_compounds [Some [(S_ "Bi", 1)]; Some [(S_ "Te", 0.9); (S_ "Se", 0.1)]] (Some [S_ "A"; S_ "B"]) (Some [2; 3])
  = Ok [(S_ "A", SComp (scaled [(S_ "Bi", 1)] 2)); (S_ "B", SComp (scaled [(S_ "Te", 0.9); (S_ "Se", 0.1)] 3))].
Proof.
  apply (C55_from_compounds [([(S_ "Bi", 1)], (S_ "A", 2)); ([(S_ "Te", 0.9); (S_ "Se", 0.1)], (S_ "B", 3))]).
  - cbn. constructor; [intros [H|[]]; discriminate|]. constructor; [intros []|constructor].
  - repeat constructor; cbn [fst].
    + rewrite (natom_int _ 1) by (unfold total; cbn; lra). lra.
    + rewrite (natom_int _ 1) by (unfold total; cbn; lra). lra.
Qed.
