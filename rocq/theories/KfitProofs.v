From Coq Require Import Reals String Ascii.
From Verif Require Import Py PyStr PyDict Regex CfgModel ExecModel ScatModel KvarModel VarModel KvarSpec KvarProofs KfitModel KfitSpec ExecSpec ExecProofs.
Local Open Scope list_scope.
Local Open Scope nat_scope.

Lemma nodupb_iff l : nodupb l = true <-> NoDup l.
Proof.
  induction l as [|a l IH]; cbn; [split; [constructor|reflexivity]|]. rewrite andb_true_iff, IH, negb_true_iff. split.
  - intros (H & N). constructor; [|exact N]. intros Hin. assert (E : existsb (eqb a) l = true) by (apply existsb_exists; exists a; split; [exact Hin|apply eqb_refl]). congruence.
  - intros N. inversion N. subst. split; [|assumption]. destruct (existsb (eqb a) l) eqn:E; [|reflexivity]. apply existsb_exists in E. destruct E as (x & Hx & E). apply eqb_eq in E. subst x. contradiction.
Qed.
Lemma blank_iff v : blank v = true <-> spaces v.
Proof. unfold blank, spaces. rewrite forallb_forall, Forall_forall. reflexivity. Qed.
(** references *)
Definition fin0 : str -> caps -> option caps := fun t c => match t with [] => Some c | _ => None end.
Lemma ref_yes text tag : refers text tag -> exists c, refmatch text = Some c /\ group c (S_ "tag") = given tag.
Proof.
  intros (w0 & w1 & w2 & -> & H0 & H1 & H2 & Ht). unfold refmatch, refpat.
  set (k2 := fun t c => rmatch (Many is_space) t c fin0). set (k1 := fun t c => orelse (rmatch (Cap (S_ "tag") (Many1 non_space)) t c k2) (k2 t c)).
  change (exists c, many is_space (w0 ++ "@"%char :: w1 ++ tag ++ w2) (fun t => match t with [] => None | ch :: t' => if is_ch at_c ch then many is_space t' (fun t'' => k1 t'' []) else None end) = Some c /\ group c (S_ "tag") = given tag).
  assert (K2 : forall c, k2 w2 c = Some c).
  { intros c. unfold k2. cbn [rmatch]. rewrite <- (app_nil_r w2). rewrite many_back; [reflexivity|exact H2| |left; exists c; reflexivity]. intros a b E N _. apply eq_sym, app_eq_nil in E. destruct E. contradiction. }
  assert (K : exists c, many is_space (w1 ++ tag ++ w2) (fun t'' => k1 t'' []) = Some c /\ group c (S_ "tag") = given tag).
  { destruct tag as [|x tag].
    - cbn [app]. rewrite <- (app_nil_r (w1 ++ w2)). rewrite many_back; [exists []; split; reflexivity|apply Forall_app; split; assumption| |left; exists []; reflexivity]. intros a b E N _. apply eq_sym, app_eq_nil in E. destruct E. contradiction.
    - assert (V : k1 ((x :: tag) ++ w2) [] = Some [(S_ "tag", x :: tag)]).
      { unfold k1. rewrite cap_many1; [rewrite K2; reflexivity|discriminate|eapply Forall_impl; [|exact Ht]; intros a Ha; cbn beta in Ha; unfold non_space; rewrite Ha; reflexivity| |exists [(S_ "tag", x :: tag)]; apply K2].
        intros a b y E N F. destruct a as [|z a]; [congruence|]. rewrite E in H2. inversion H2 as [|? ? Hz _]. inversion F as [|? ? Hz' _]. cbn beta in Hz, Hz'. unfold non_space in Hz'. rewrite Hz in Hz'. discriminate. }
      exists [(S_ "tag", x :: tag)]. split; [|reflexivity]. rewrite many_back; [exact V|exact H1| |left; eauto].
      intros a b E N F. destruct a as [|z a]; [congruence|]. cbn [app] in E. injection E as -> _. inversion F. inversion Ht. subst. congruence. }
  destruct K as (c & K & G). exists c. split; [|exact G]. rewrite many_back; [cbn beta iota; rewrite is_ch_refl; exact K|exact H0| |left; exists c; cbn beta iota; rewrite is_ch_refl; exact K].
  intros a b E N F. destruct a as [|z a]; [congruence|]. injection E as <- _. inversion F. subst. discriminate.
Qed.
Lemma ref_no text : refmatch text <> None -> exists tag, refers text tag.
Proof.
  unfold refmatch, refpat. set (k2 := fun t c => rmatch (Many is_space) t c fin0). set (k1 := fun t c => orelse (rmatch (Cap (S_ "tag") (Many1 non_space)) t c k2) (k2 t c)).
  change (many is_space text (fun t => match t with [] => None | ch :: t' => if is_ch at_c ch then many is_space t' (fun t'' => k1 t'' []) else None end) <> None -> exists tag, refers text tag).
  intros H. match type of H with ?m <> None => destruct m as [x|] eqn:E; [|congruence] end. clear H.
  destruct (many_inv _ _ _ _ E) as (w0 & t & -> & F0 & E0). destruct t as [|ch t]; [discriminate|]. destruct (is_ch at_c ch) eqn:A; [apply is_ch_eq in A; subst ch|discriminate].
  destruct (many_inv _ _ _ _ E0) as (w1 & t' & -> & F1 & E1). cbn beta in E1. unfold k1 in E1.
  assert (K2 : forall t c y, k2 t c = Some y -> spaces t).
  { intros t c y Q. unfold k2 in Q. cbn [rmatch] in Q. destruct (many_inv _ _ _ _ Q) as (u & r & -> & Fu & Q'). unfold fin0 in Q'. destruct r; [|discriminate]. rewrite app_nil_r. exact Fu. }
  unfold orelse in E1. destruct (rmatch (Cap (S_ "tag") (Many1 non_space)) t' [] k2) eqn:E2.
  - cbn [rmatch Many1] in E2. destruct t' as [|b t']; [discriminate|]. destruct (non_space b) eqn:B; [|discriminate]. destruct (many_inv _ _ _ _ E2) as (u & r & -> & Fu & Q). cbn beta in Q. apply K2 in Q.
    exists (b :: u), w0, w1, r. split; [reflexivity|]. split; [exact F0|]. split; [exact F1|]. split; [exact Q|]. constructor; [unfold non_space in B; destruct (is_space b); [discriminate|reflexivity]|]. eapply Forall_impl; [|exact Fu]. intros a Ha. cbn beta in Ha. unfold non_space in Ha. destruct (is_space a); [discriminate|reflexivity].
  - apply K2 in E1. exists [], w0, w1, t'. split; [reflexivity|]. split; [exact F0|]. split; [exact F1|]. split; [exact E1|constructor].
Qed.

Section P.
Variable pyfloat : str -> res R.
Variable vd : list (str * entry).
Variable cfg : list (str * list (str * str)).
Notation parse := (parse_sub pyfloat vd cfg).
Notation ents := (entries pyfloat vd).
Lemma seq_res_ok {A} (f : str -> option (res A)) l os : seq_res f l = Some (Ok os) <-> Forall2 (fun n o => f n = Some (Ok o)) l os.
Proof.
  revert os. induction l as [|n l IH]; intros os; cbn; [split; [intros H; assert (os = []) by congruence; subst; constructor|intros H; inversion H; reflexivity]|].
  split.
  - intros H. destruct (f n) as [[o|e]|] eqn:E; try discriminate. destruct (seq_res f l) as [[xs|e]|] eqn:E2; try discriminate. assert (os = o :: xs) by congruence. subst. constructor; [exact E|]. apply IH. reflexivity.
  - intros H. inversion H as [|? o ? xs E F]; subst. rewrite E. apply IH in F. rewrite F. reflexivity.
Qed.
Lemma seq_res_mono {A} (f g : str -> option (res A)) l r : (forall n x, f n = Some x -> g n = Some x) -> seq_res f l = Some r -> seq_res g l = Some r.
Proof.
  intros H. revert r. induction l as [|n l IH]; intros r; cbn; [auto|]. destruct (f n) as [[o|e]|] eqn:E; try discriminate; rewrite (H _ _ E); [|auto].
  destruct (seq_res f l) as [[xs|e]|] eqn:E2; try discriminate; rewrite (IH _ eq_refl); auto.
Qed.
Lemma entries_mono (f g : list str -> option (res (list obj))) l r : (forall n x, f n = Some x -> g n = Some x) -> ents f l = Some r -> ents g l = Some r.
Proof.
  intros H. revert r. induction l as [|[k v] l IH]; intros r; cbn [entries]; [auto|]. destruct (blank v); [auto|]. destruct (eqb k (S_ "components")).
  - destruct (f (parse_list v)) as [[os|e]|] eqn:E; try discriminate; rewrite (H _ _ E); [|auto]. destruct (ents f l) as [[d|e]|] eqn:E2; try discriminate; rewrite (IH _ eq_refl); auto.
  - destruct (plain pyfloat vd k v); [|auto]. destruct (ents f l) as [[d|e']|] eqn:E2; try discriminate; rewrite (IH _ eq_refl); auto.
Qed.
Lemma parse_mono f : forall n r, parse f n = Some r -> parse (S f) n = Some r.
Proof.
  induction f as [|f IH]; [discriminate|]. intros n r. cbn [parse_sub]. destruct (pmatch cfg n) as [[sect ty]|e]; [|auto]. destruct (dget execmeta ty) as [[args opts]|]; [|auto].
  destruct (ents (seq_res (parse f)) sect) as [x|] eqn:E; [|discriminate].
  assert (E' : ents (seq_res (parse (S f))) sect = Some x) by (apply entries_mono with (f := seq_res (parse f)); [intros l y; apply seq_res_mono; exact IH|exact E]).
  cbn [parse_sub] in E'. rewrite E'. auto.
Qed.
Lemma parse_mono_le f g n r : f <= g -> parse f n = Some r -> parse g n = Some r.
Proof. intros H. induction H; [auto|]. intros E. apply parse_mono. auto. Qed.
Lemma entries_keys f l d : ents f l = Some (Ok d) -> map fst d = map fst l.
Proof.
  revert d. induction l as [|[k v] l IH]; intros d; cbn [entries map fst]; [intros H; assert (d = []) by congruence; subst; reflexivity|]. destruct (blank v); [discriminate|].
  destruct (if eqb k (S_ "components") then _ else _) as [[x|e]|]; try discriminate. destruct (ents f l) as [[d'|e]|]; try discriminate. intros H. assert (d = (k, x) :: d') by congruence. subst. cbn. rewrite (IH d' eq_refl). reflexivity.
Qed.
Lemma entries_in f l d k v : ents f l = Some (Ok d) -> In (k, v) d -> exists text, In (k, text) l /\ blank text = false /\
  (if eqb k (S_ "components") then exists os, f (parse_list text) = Some (Ok os) /\ v = VObjs os else plain pyfloat vd k text = Ok v).
Proof.
  revert d. induction l as [|[k0 t0] l IH]; intros d; cbn [entries]; [intros H; assert (d = []) by congruence; subst; intros []|]. destruct (blank t0) eqn:B; [discriminate|].
  destruct (eqb k0 (S_ "components")) eqn:K.
  - destruct (f (parse_list t0)) as [[os|e]|] eqn:E; try discriminate. destruct (ents f l) as [[d'|e]|]; try discriminate. intros H. assert (d = (k0, VObjs os) :: d') by congruence. subst. intros [H1|H1].
    + assert (k0 = k) by congruence. assert (VObjs os = v) by congruence. subst. exists t0. split; [left; reflexivity|]. split; [exact B|]. rewrite K. exists os. split; [exact E|reflexivity].
    + destruct (IH d' eq_refl H1) as (t & Ht & R0). exists t. split; [right; exact Ht|exact R0].
  - destruct (plain pyfloat vd k0 t0) as [x|e] eqn:E; [|discriminate]. destruct (ents f l) as [[d'|e]|]; try discriminate. intros H. assert (d = (k0, x) :: d') by congruence. subst. intros [H1|H1].
    + assert (k0 = k) by congruence. assert (x = v) by congruence. subst. exists t0. split; [left; reflexivity|]. split; [exact B|]. rewrite K. exact E.
    + destruct (IH d' eq_refl H1) as (t & Ht & R0). exists t. split; [right; exact Ht|exact R0].
Qed.
(** a section that is parsed completely *)
Lemma parse_inv f name r : parse f name = Some r ->
  (exists e, pmatch cfg name = Err e /\ r = Err e) \/
  (exists sect ty, pmatch cfg name = Ok (sect, ty) /\ dget execmeta ty = None /\ r = Err TypeError) \/
  (exists sect ty args opts g, f = S g /\ pmatch cfg name = Ok (sect, ty) /\ dget execmeta ty = Some (args, opts) /\
     ((exists e, ents (seq_res (parse g)) sect = Some (Err e) /\ r = Err e) \/
      (exists kw, ents (seq_res (parse g)) sect = Some (Ok kw) /\
         r = snd (execute (fun D => if accepts ty D then Some (Obj name ty D) else None) (ExecModel.init args opts) kw)))).
Proof.
  destruct f as [|g]; [discriminate|]. cbn [parse_sub]. destruct (pmatch cfg name) as [[sect ty]|e]; [|intros H; left; exists e; split; [reflexivity|congruence]].
  destruct (dget execmeta ty) as [[args opts]|] eqn:D; [|intros H; right; left; exists sect, ty; split; [reflexivity|]; split; [exact D|congruence]].
  destruct (ents (seq_res (parse g)) sect) as [[kw|e]|] eqn:E; intros H; [| |discriminate]; right; right; exists sect, ty, args, opts, g.
  - split; [reflexivity|]. split; [reflexivity|]. split; [exact D|]. right. exists kw. split; [exact E|congruence].
  - split; [reflexivity|]. split; [reflexivity|]. split; [exact D|]. left. exists e. split; [exact E|congruence].
Qed.
End P.
Lemma execute_fresh {R0} (run : list (str * value) -> option R0) args opts kw : wf kw ->
  ((exists k, In k args /\ dget kw k = None) /\ snd (execute run (ExecModel.init args opts) kw) = Err ValueError) \/
  ((forall k, In k args -> dget kw k <> None) /\ exists D, wf D /\ (forall k, dget D k = if memb k (args ++ opts) then dget kw k else None) /\
     snd (execute run (ExecModel.init args opts) kw) = match run D with Some r => Ok r | None => Err RuntimeError end).
Proof.
  intros W. change (ExecModel.init args opts) with (after (K:=str) (V:=value) args opts []).
  assert (EF : forall k, effective [] kw k = dget kw k) by (intros k; unfold effective; cbn; destruct (dget kw k); reflexivity).
  destruct (existsb (fun k => match dget kw k with None => true | _ => false end) args) eqn:E.
  - left. apply existsb_exists in E. destruct E as (k & Hk & Ek). destruct (dget kw k) eqn:G; [discriminate|]. split; [exists k; split; assumption|].
    rewrite (execute_missing run args opts [] kw (Forall_nil _) W); [reflexivity|]. exists k. split; [exact Hk|]. rewrite EF. exact G.
  - right. assert (A : forall k, In k args -> dget kw k <> None).
    { intros k Hk G. assert (X : existsb (fun k => match dget kw k with None => true | _ => false end) args = true) by (apply existsb_exists; exists k; split; [exact Hk|rewrite G; reflexivity]). congruence. }
    split; [exact A|]. destruct (execute_spec run args opts [] kw (Forall_nil _) W) as (D & WD & GD & E'); [intros k Hk; rewrite EF; apply A, Hk|].
    exists D. split; [exact WD|]. split; [intros k; rewrite GD, EF; reflexivity|]. rewrite E'. reflexivity.
Qed.

(** ** acceptance by the constructors *)
Lemma pres {V} (D : list (str * V)) (k : str) : dget D k <> None -> exists v, dget D k = Some v.
Proof. destruct (dget D k); [eauto|congruence]. Qed.
Lemma dmem_some {V} (D : list (str * V)) (k : str) v : dget D k = Some v -> dmem D k = true.
Proof. intros H. unfold dmem. apply memb_In. apply dget_Some_In. eauto. Qed.
Lemma dmem_dget {V} (D : list (str * V)) (k : str) : dmem D k = match dget D k with Some _ => true | None => false end.
Proof. destruct (dget D k) eqn:E; [apply (dmem_some _ _ _ E)|]. unfold dmem. destruct (memb k (dkeys D)) eqn:M; [|reflexivity]. apply memb_In, dget_Some_In in M. destruct M. congruence. Qed.
Ltac in_args := cbn [In app]; repeat (first [left; reflexivity | right]).
Ltac not_in := cbn [In app]; let X := fresh in intros X; repeat destruct X as [X|X]; try discriminate X; exact X.
Lemma accepts_ok ty args opts (D : list (str * value)) : dget execmeta ty = Some (args, opts) -> ty <> S_ "DEBYE" ->
  (forall k, In k args -> dget D k <> None) -> (forall k, ~ In k (args ++ opts) -> dget D k = None) -> accepts ty D = true.
Proof.
  intros H N A B. apply dget_In in H; [|apply nodupb_iff; reflexivity].
  unfold accepts. replace (eqb ty (S_ "DEBYE")) with false by (symmetry; destruct (eqb ty (S_ "DEBYE")) eqn:E; [apply eqb_eq in E; contradiction|reflexivity]). unfold forallb. repeat rewrite dmem_dget.
  unfold execmeta in H. cbn [map fst snd names] in H.
  repeat match goal with |- context[dget D ?k] => let g := fresh "g" in let E := fresh "Eg" in remember (dget D k) as g eqn:E end.
  repeat (destruct H as [H|H]; [
    let Et := fresh in assert (Et := f_equal fst H); cbn [fst] in Et; let Ea := fresh in assert (Ea := f_equal (fun x => fst (snd x)) H); cbn [fst snd] in Ea;
    let Eo := fresh in assert (Eo := f_equal (fun x => snd (snd x)) H); cbn [fst snd] in Eo; clear H; subst ty args opts; try congruence;
    repeat match goal with E : ?g = dget D ?k |- _ =>
      first [ let X := fresh in assert (X : g <> None) by (rewrite E; apply A; in_args); clear E; destruct g; [clear X|congruence]
            | rewrite (B k) in E by not_in; subst g
            | clear E ] end;
    clear A B; lazy; reflexivity|]). contradiction.
Qed.

Section Q.
Variable pyfloat : str -> res R.
Variable vd : list (str * entry).
Variable cfg : list (str * list (str * str)).
Notation parse := (parse_sub pyfloat vd cfg).
Notation ents := (entries pyfloat vd).
Lemma plain_readable k t : readable (map fst vd) k t -> exists v, plain pyfloat vd k t = Ok v.
Proof.
  intros (_ & H). unfold plain. destruct (refmatch t) as [c|] eqn:E; [|destruct (pyfloat t); eauto].
  destruct (ref_no t) as (tag & Rt); [congruence|]. destruct (ref_yes _ _ Rt) as (c' & Ec & G). assert (c' = c) by congruence. subst c'. rewrite G.
  assert (H1 := H tag Rt). change (map fst vd) with (dkeys vd) in H1. apply dget_Some_In in H1. destruct H1 as (e & He). destruct tag; cbn [given]; rewrite He; eauto.
Qed.
Lemma entries_succeed f l : (forall k t, In (k, t) l -> k <> S_ "components" -> readable (map fst vd) k t) ->
  (forall t, In (S_ "components", t) l -> ~ spaces t /\ exists os, f (parse_list t) = Some (Ok os)) -> exists d, ents f l = Some (Ok d).
Proof.
  induction l as [|[k t] l IH]; intros H1 H2; cbn [entries]; [eauto|].
  assert (B : blank t = false). { destruct (blank t) eqn:B; [|reflexivity]. apply blank_iff in B. destruct (eqb k (S_ "components")) eqn:Ek.
    - apply eqb_eq in Ek. subst k. destruct (H2 t (or_introl eq_refl)). contradiction.
    - destruct (H1 k t (or_introl eq_refl)) as (Nb & _); [intros ->; rewrite eqb_refl in Ek; discriminate|contradiction]. }
  rewrite B. destruct IH as (d & Ed); [intros; apply H1; [right; assumption|assumption]|intros; apply H2; right; assumption|]. rewrite Ed.
  destruct (eqb k (S_ "components")) eqn:Ek.
  - apply eqb_eq in Ek. subst k. destruct (H2 t (or_introl eq_refl)) as (_ & os & E). rewrite E. eauto.
  - destruct (plain_readable k t) as (v & Ev); [apply H1; [left; reflexivity|intros ->; rewrite eqb_refl in Ek; discriminate]|]. rewrite Ev. eauto.
Qed.
Lemma seq_none {A} (f : str -> option (res A)) a m b : (forall x, In x a -> forall e, f x <> Some (Err e)) -> f m = None -> seq_res f (a ++ m :: b) = None.
Proof.
  induction a as [|x a IH]; intros H E; cbn; [rewrite E; reflexivity|]. destruct (f x) as [[o|e]|] eqn:Ex; [|exfalso; apply (H x (or_introl eq_refl) e Ex)|reflexivity].
  rewrite IH; [reflexivity| |exact E]. intros y Hy. apply H. right. exact Hy.
Qed.
Lemma entries_none f pre t post : (forall k u, In (k, u) pre -> k <> S_ "components" /\ readable (map fst vd) k u) -> ~ spaces t -> f (parse_list t) = None ->
  ents f (pre ++ (S_ "components", t) :: post) = None.
Proof.
  induction pre as [|[k u] pre IH]; intros H N E; cbn [app entries].
  - destruct (blank t) eqn:B; [apply blank_iff in B; contradiction|]. rewrite eqb_refl, E. reflexivity.
  - destruct (H k u (or_introl eq_refl)) as (Nk & Rd). destruct (blank u) eqn:B; [apply blank_iff in B; destruct Rd; contradiction|].
    destruct (eqb k (S_ "components")) eqn:Ek; [apply eqb_eq in Ek; contradiction|]. destruct (plain_readable k u Rd) as (v & Ev). rewrite Ev. rewrite IH; [reflexivity| |exact N|exact E]. intros; apply H; right; assumption.
Qed.
Lemma entries_bad f pre k t post : (forall k u, In (k, u) pre -> k <> S_ "components" /\ readable (map fst vd) k u) ->
  (spaces t \/ (k <> S_ "components" /\ exists tag, refers t tag /\ dget vd (match tag with [] => k | _ => tag end) = None)) ->
  ents f (pre ++ (k, t) :: post) = Some (Err ValueError).
Proof.
  induction pre as [|[k' u] pre IH]; intros H Hb; cbn [app entries].
  - destruct (blank t) eqn:B; [reflexivity|]. destruct Hb as [Hb|(Nk & tag & Rt & D)]; [apply blank_iff in Hb; congruence|].
    destruct (eqb k (S_ "components")) eqn:Ek; [apply eqb_eq in Ek; contradiction|]. unfold plain. destruct (ref_yes _ _ Rt) as (c' & Ec & G). rewrite Ec, G. destruct tag; cbn [given]; rewrite D; reflexivity.
  - destruct (H k' u (or_introl eq_refl)) as (Nk & Rd). destruct (blank u) eqn:B; [apply blank_iff in B; destruct Rd; contradiction|].
    destruct (eqb k' (S_ "components")) eqn:Ek; [apply eqb_eq in Ek; contradiction|]. destruct (plain_readable k' u Rd) as (v & Ev). rewrite Ev. rewrite IH; [reflexivity| |exact Hb]. intros; apply H; right; assumption.
Qed.
Lemma seq_some {A} (f : str -> option (res A)) l : (forall x, In x l -> f x <> None) -> seq_res f l <> None.
Proof.
  induction l as [|x l IH]; intros H; cbn; [discriminate|]. destruct (f x) as [[o|e]|] eqn:Ex; [|discriminate|exfalso; apply (H x (or_introl eq_refl) Ex)].
  destruct (seq_res f l) as [[|]|] eqn:E; try discriminate. intros _. apply IH; [intros y Hy; apply H; right; exact Hy|reflexivity].
Qed.
Lemma entries_some f l : (forall t, In (S_ "components", t) l -> f (parse_list t) <> None) -> ents f l <> None.
Proof.
  induction l as [|[k t] l IH]; intros H; cbn [entries]; [discriminate|]. destruct (blank t); [discriminate|]. assert (I : ents f l <> None) by (apply IH; intros; apply H; right; assumption).
  destruct (eqb k (S_ "components")) eqn:Ek.
  - apply eqb_eq in Ek. subst k. assert (X := H t (or_introl eq_refl)). destruct (f (parse_list t)) as [[|]|]; [|discriminate|congruence]. destruct (ents f l) as [[|]|]; try discriminate. congruence.
  - destruct (plain pyfloat vd k t); [|discriminate]. destruct (ents f l) as [[|]|]; try discriminate. congruence.
Qed.
End Q.
(** distinct names are distinct tags *)
Lemma nodup_split os : (forall o o', In o os -> In o' os -> o_tag o = o_tag o' -> o = o') ->
  nodupb (map o_tag (filter (fun o => negb (is_model (o_type o))) os)) && nodupb (map o_tag (filter (fun o => is_model (o_type o)) os)) = nodupb (map o_tag os).
Proof.
  intros H. apply Bool.eq_iff_eq_true. rewrite andb_true_iff, !nodupb_iff. induction os as [|o os IH]; cbn [filter map]; [split; [intros _; constructor|intros _; split; constructor]|].
  assert (IH' := IH (fun a b Ha Hb => H a b (or_intror Ha) (or_intror Hb))). clear IH.
  assert (X : In (o_tag o) (map o_tag os) <-> In (o_tag o) (map o_tag (if is_model (o_type o) then filter (fun o => is_model (o_type o)) os else filter (fun o => negb (is_model (o_type o))) os))).
  { split; intros Hi; apply in_map_iff in Hi; destruct Hi as (b & Eb & Hb).
    - assert (b = o) by (apply H; [right; exact Hb|left; reflexivity|exact Eb]). subst b. apply in_map. destruct (is_model (o_type o)) eqn:E; apply filter_In; split; try exact Hb; rewrite E; reflexivity.
    - rewrite <- Eb. apply in_map. destruct (is_model (o_type o)); apply filter_In in Hb; apply Hb. }
  destruct (is_model (o_type o)); cbn [negb map]; split.
  - intros (A & B). inversion B. subst. constructor; [rewrite X; assumption|]. apply IH'. split; assumption.
  - intros A. inversion A. subst. assert (Y : NoDup (map o_tag os)) by assumption. apply IH' in Y. destruct Y. split; [assumption|]. constructor; [rewrite <- X; assumption|assumption].
  - intros (A & B). inversion A. subst. constructor; [rewrite X; assumption|]. apply IH'. split; assumption.
  - intros A. inversion A. subst. assert (Y : NoDup (map o_tag os)) by assumption. apply IH' in Y. destruct Y. split; [|assumption]. constructor; [rewrite <- X; assumption|assumption].
Qed.
Lemma model_or_scattering ty : In ty (map fst execmeta) -> is_model ty = false <-> In ty scattering_types.
Proof. intros H. cbn in H. repeat destruct H as [H|H]; try contradiction; subst ty; split; intros X; try reflexivity; try discriminate X; try (cbn; tauto); exfalso; cbn in X; repeat destruct X as [X|X]; try discriminate X; exact X. Qed.
Lemma accepts_debye (D : list (str * value)) l : (forall k, In k (names ["vs"; "td"]%string) -> dget D k <> None) -> dget D (S_ "components") = Some (VObjs l) ->
  accepts (S_ "DEBYE") D = nodupb (map o_tag (filter (fun o => negb (is_model (o_type o))) l)) && nodupb (map o_tag (filter (fun o => is_model (o_type o)) l)) && negb (List.length (filter (fun o => negb (is_model (o_type o))) l) =? 0).
Proof.
  intros A C. unfold accepts. rewrite eqb_refl, C. cbn [forallb]. rewrite !dmem_dget.
  assert (Av := A (S_ "vs") (or_introl eq_refl)). assert (At := A (S_ "td") (or_intror (or_introl eq_refl))). destruct (dget D (S_ "vs")); [|congruence]. destruct (dget D (S_ "td")); [|congruence]. reflexivity.
Qed.
