(** C101-C103: a MultiBands from a configuration (src/teflow/bandlib.py 1560-1652). *)
From Coq Require Import Reals Lra String Ascii FunctionalExtensionality.
From Verif Require Import Py PyStr PyDict RUtil CfgSpec CfgModel CfgProofs Regex KvarModel KvarSpec KvarProofs SubsModel SubsProofs ExecModel ExecSpec ExecProps BandModel BandSpec BandProofs BandProps BandInitProps InstrSpec InstrProofs InstrProps BcfgModel BcfgSpec.
Local Open Scope list_scope.
Local Open Scope R_scope.

Lemma parse_list_words t ws : has_words t ws -> parse_list t = ws.
Proof. intros H. apply (split_class_iff blank_comma) in H. exact H. Qed.
Lemma dget_first_in {V} (l : list (str * V)) k v : NoDup (map fst l) -> In (k, v) l -> dget l k = Some v.
Proof. intros ND Hin. apply dget_In; assumption. Qed.

Section P.
Variable pyfloat : str -> res R.
Variable pyseq : str -> res (list R).
Variable run : str -> dict str R -> option (option band).
Variable solve : heap -> multi -> str -> R -> R -> R -> res R.
Hypothesis float_error : forall s e, pyfloat s = Err e -> e = ValueError.
(** all entries read as numbers *)
Definition as_numbers (content : dict str str) (kw : dict str R) : Prop := Forall2 (fun a b => fst a = fst b /\ pyfloat (snd a) = Ok (snd b)) content kw.
Lemma numbers_ok content kw : as_numbers content kw -> numbers_of pyfloat content = Ok kw.
Proof.
  induction 1 as [|a b c k (E1 & E2) _ IH]; [reflexivity|]. unfold numbers_of in *. cbn [mapM]. rewrite E2. cbn [rbind]. rewrite IH. destruct a, b. cbn [fst snd rbind] in *. subst. reflexivity.
Qed.
Lemma numbers_bad content : (exists k t, In (k, t) content /\ forall x, pyfloat t <> Ok x) -> numbers_of pyfloat content = Err ValueError.
Proof.
  intros (k & t & Hin & Hb). unfold numbers_of. induction content as [|[a b] c IH]; [destruct Hin|]. cbn [mapM fst snd]. destruct (pyfloat b) as [x|e] eqn:E.
  - cbn [rbind]. destruct Hin as [Hin|Hin]; [exfalso; assert (b = t) by congruence; subst; exact (Hb x E)|]. rewrite (IH Hin). reflexivity.
  - cbn [rbind]. rewrite (float_error _ _ E). reflexivity.
Qed.
Lemma as_numbers_get content kw k : as_numbers content kw -> dget kw k = match dget content k with Some t => match pyfloat t with Ok x => Some x | Err _ => None end | None => None end.
Proof.
  induction 1 as [|[a t] [b x] c w (E1 & E2) _ IH]; [reflexivity|]. cbn in E1, E2 |- *. subst b. destruct (eqb k a); [rewrite E2; reflexivity|exact IH].
Qed.
Lemma as_numbers_keys content kw : as_numbers content kw -> map fst kw = map fst content.
Proof. induction 1 as [|[a t] [b x] c w (E1 & E2) _ IH]; [reflexivity|]. cbn in *. congruence. Qed.
Lemma bandmeta_eq : bandmeta = band_types.
Proof. reflexivity. Qed.
Lemma types_nodup : NoDup (map fst band_types).
Proof. cbn. repeat (constructor; [cbn; intuition discriminate|]). constructor. Qed.

(** C101: one band *)
Theorem C101_band : forall items name content ty args opts kw,
  section_of items name content ty -> NoDup (map fst content) -> as_numbers content kw -> In (ty, (args, opts)) band_types ->
  ((forall k, In k args -> In k (map fst content)) ->
     exists D, (forall k, dget D k = if memb k (args ++ opts) then match dget content k with Some t => match pyfloat t with Ok x => Some x | Err _ => None end | None => None end else None) /\
       make_band pyfloat run items name = match run ty D with Some b => Ok b | None => Err RuntimeError end) /\
  ((exists k, In k args /\ ~ In k (map fst content)) -> make_band pyfloat run items name = Err ValueError).
Proof.
  intros items name content ty args opts kw Hs ND Hn Ht. unfold make_band. assert (Hp : pmatch items name = Ok (content, ty)) by (apply pmatch_ok; exact Hs). rewrite Hp. cbv beta iota delta [rbind]. rewrite (numbers_ok _ _ Hn). rewrite bandmeta_eq, (dget_first_in _ _ _ types_nodup Ht).
  assert (Wk : wf kw) by (unfold wf, dkeys; rewrite (as_numbers_keys _ _ Hn); exact ND).
  assert (Kk : forall k, dget kw k <> None <-> In k (map fst content)). { intros k. rewrite <- (as_numbers_keys _ _ Hn). destruct (dget kw k) eqn:E; [split; [intros _; apply (proj2 (dget_Some_In kw k)); eauto|discriminate]|]. apply dget_None in E. split; [congruence|]. intros X. contradiction. }
  split.
  - intros Ha. destruct (C05_execute str R (option band) _ (run ty) args opts [] kw (Forall_nil _) Wk) as (D & _ & HD & E).
    { intros k Hk. unfold effective. cbn. specialize (Ha k Hk). apply Kk in Ha. destruct (dget kw k); [discriminate|congruence]. }
    exists D. split.
    + intros k. rewrite HD. destruct (memb k (args ++ opts)); [|reflexivity]. unfold effective. rewrite <- (as_numbers_get content kw k Hn). cbn. destruct (dget kw k); reflexivity.
    + change (init args opts) with (after args opts (@nil (op str R))). rewrite E. reflexivity.
  - intros (k & Hk & Hc). change (init args opts) with (after args opts (@nil (op str R))). rewrite (C05_execute_missing str R (option band) _ (run ty) args opts [] kw (Forall_nil _) Wk); [reflexivity|]. exists k. split; [exact Hk|]. unfold effective. cbn. destruct (dget kw k) eqn:E; [|reflexivity]. exfalso. apply Hc, Kk. congruence.
Qed.
Print Assumptions C101_band.
Theorem C101_failures : forall items name,
  (no_section items name -> make_band pyfloat run items name = Err NoSectionError) /\
  (forall content ty, section_of items name content ty ->
     ((exists k t, In (k, t) content /\ forall x, pyfloat t <> Ok x) -> make_band pyfloat run items name = Err ValueError) /\
     (forall kw, as_numbers content kw -> ~ In ty (map fst band_types) -> make_band pyfloat run items name = Err KeyError)).
Proof.
  intros items name. unfold make_band. split.
  - intros H. assert (E : pmatch items name = Err NoSectionError) by (apply pmatch_err; split; [reflexivity|exact H]). rewrite E. reflexivity.
  - intros content ty Hs. assert (Hp : pmatch items name = Ok (content, ty)) by (apply pmatch_ok; exact Hs). rewrite Hp. cbv beta iota delta [rbind]. split.
    + intros H. rewrite (numbers_bad _ H). reflexivity.
    + intros kw Hn Ht. rewrite (numbers_ok _ _ Hn), bandmeta_eq. assert (E : dget band_types ty = None) by (apply dget_None; exact Ht). rewrite E. reflexivity.
Qed.
Print Assumptions C101_failures.
(** the bands of the list in its order, each a new object, also for a name listed twice *)
Lemma mapM_forall2 {A B} (f : A -> res B) l ys : Forall2 (fun x y => f x = Ok y) l ys -> mapM f l = Ok ys.
Proof. induction 1 as [|x y l ys E _ IH]; [reflexivity|]. cbn. rewrite E. cbn [rbind]. rewrite IH. reflexivity. Qed.
Lemma refs_some bs : refs (map Some bs) = map Some (seq 0 (List.length bs)).
Proof.
  unfold refs. rewrite map_length. generalize 0%nat. induction bs as [|b bs IH]; intros n; [reflexivity|]. cbn. f_equal. apply IH.
Qed.
Lemma heap_some bs i b : nth_error bs i = Some b -> heap_of (map Some bs) i = b.
Proof. intros H. unfold heap_of. rewrite nth_error_map, H. reflexivity. Qed.
Lemma refs_bad bs : (exists i, nth_error bs i = Some None) -> In None (refs bs).
Proof.
  intros (i & H). unfold refs. assert (G : forall n, In None (map (fun p : nat * option band => match snd p with Some _ => Some (fst p) | None => None end) (combine (seq n (List.length bs)) bs))); [|apply G].
  revert i H. induction bs as [|b bs IH]; intros i H n; [destruct i; discriminate|]. destruct i as [|i]; cbn in *; [left; assert (b = None) by congruence; subst; reflexivity|]. right. apply (IH i H).
Qed.
Definition bands_are (items : dict str (dict str str)) (entry : dict str str) (bs : list band) : Prop :=
  exists t names, dget entry (S_ "bands") = Some t /\ has_words t names /\ Forall2 (fun n b => make_band pyfloat run items n = Ok (Some b)) names bs.
Definition offsets_are (entry : dict str str) (n : nat) (ds : list R) : Prop :=
  match dget entry (S_ "deltas") with
  | None => ds = repeat 0 n
  | Some t => exists ws, has_words t ws /\ Forall2 (fun w d => pyfloat w = Ok d) ws ds
  end.
Lemma offsets_ok entry n ds : offsets_are entry n ds -> offsets pyfloat entry n = Ok ds.
Proof. unfold offsets_are, offsets. destruct (dget entry (S_ "deltas")); [|intros ->; reflexivity]. intros (ws & H & F). rewrite (parse_list_words _ _ H). apply mapM_forall2. exact F. Qed.
Lemma Forall2_len {A B} (P : A -> B -> Prop) l m : Forall2 P l m -> List.length l = List.length m.
Proof. induction 1; cbn; congruence. Qed.
Lemma build_eq items entry bs ds : bands_are items entry bs -> offsets_are entry (List.length bs) ds ->
  build pyfloat run items entry = let! _ := logged (types entry) ds in let (h, r) := new_multi (heap_of (map Some bs)) (map Some (seq 0 (List.length bs))) (map DNum ds) (match types entry with Some l => Some (map Some l) | None => None end) in let! m := r in Ok (h, m).
Proof.
  intros (t & names & E & W & F) Ho. unfold build. rewrite E, (parse_list_words _ _ W). assert (M : mapM (make_band pyfloat run items) names = Ok (map Some bs)). { apply mapM_forall2. clear - F. induction F; constructor; assumption. }
  rewrite M. cbv beta iota delta [rbind]. rewrite map_length, (offsets_ok _ _ _ Ho), refs_some. reflexivity.
Qed.
(** the model of the first bands, as many as there are signs: band number i, a new object, with offset i; sign +1 for valence, -1 for conduction bands *)
Definition is_model (h : heap) (m : multi) (bs : list band) (ds ss : list R) : Prop :=
  m_cache m = None /\ m_items m = combine (seq 0 (Nat.min (List.length bs) (List.length ss))) ds /\ forall i b s, nth_error bs i = Some b -> nth_error ss i = Some s -> h i = sign_band b s.
(** C102: offsets and types *)
Theorem C102_missing : forall items entry,
  (dget entry (S_ "bands") = None -> build pyfloat run items entry = Err ValueError) /\
  (forall bs ds, bands_are items entry bs -> offsets_are entry (List.length bs) ds -> List.length ds <> List.length bs -> build pyfloat run items entry = Err ValueError).
Proof.
  intros items entry. split; [intros E; unfold build; rewrite E; reflexivity|].
  intros bs ds Hb Ho Hl. rewrite (build_eq _ _ _ _ Hb Ho).
  assert (G : forall l : option (list str), logged l ds = Ok tt \/ logged l ds = Err ValueError).
  { intros l. unfold logged, guess_btypes. destruct l as [[|? ?]|]; auto; destruct (has TC ds), (has TV ds), (has TX ds); cbn; auto. }
  destruct (G (types entry)) as [E|E]; rewrite E; cbv beta iota delta [rbind]; [|reflexivity]. rewrite C67_length_mismatch; [reflexivity|]. rewrite !map_length, seq_length. congruence.
Qed.
Print Assumptions C102_missing.
Theorem C102_types_needed : forall items entry bs, bands_are items entry bs -> bs <> [] -> dget entry (S_ "deltas") = None -> dget entry (S_ "btypes") = None ->
  build pyfloat run items entry = Err ValueError.
Proof.
  intros items entry bs Hb Hn Hd Ht. assert (Ho : offsets_are entry (List.length bs) (repeat 0 (List.length bs))) by (unfold offsets_are; rewrite Hd; reflexivity). rewrite (build_eq _ _ _ _ Hb Ho). unfold types. rewrite Ht. unfold logged.
  assert (G : guess_btypes (repeat 0 (List.length bs)) = Err ValueError). { apply (proj2 (proj2 (proj2 (C66_guess (repeat 0 (List.length bs)))))); [exists 0; split|right; intros d Hd']; [destruct bs; [congruence|left; reflexivity]| |apply repeat_spec in Hd'; subst]; unfold near_zero; rewrite Rabs_R0; lra. }
  rewrite G. reflexivity.
Qed.
Print Assumptions C102_types_needed.
Theorem C102_one_type : forall items entry bs ds t s, bands_are items entry bs -> offsets_are entry (List.length bs) ds -> List.length ds = List.length bs ->
  (exists text, dget entry (S_ "btypes") = Some text /\ has_words text [t]) -> kind t = Some s ->
  exists h m, build pyfloat run items entry = Ok (h, m) /\ is_model h m bs ds (repeat s (List.length bs)).
Proof.
  intros items entry bs ds t s Hb Ho Hl (text & Et & Hw) Hk. rewrite (build_eq _ _ _ _ Hb Ho). unfold types. rewrite Et, (parse_list_words _ _ Hw). cbn [logged map]. cbv beta iota delta [rbind].
  destruct (C67_one_type (heap_of (map Some bs)) (seq 0 (List.length bs)) ds t s) as (g & E & Hg); [rewrite seq_length; congruence|exact Hk|]. rewrite E. exists g. eexists. split; [reflexivity|]. split; [reflexivity|]. split; [cbn [m_items]; rewrite repeat_length, Nat.min_id; reflexivity|].
  intros i b s' Hi Hs. rewrite Hg. assert (X : existsb (Nat.eqb i) (seq 0 (List.length bs)) = true). { apply existsb_exists. exists i. split; [|apply Nat.eqb_refl]. apply in_seq. split; [lia|]. cbn. apply nth_error_Some. congruence. }
  rewrite X, (heap_some _ _ _ Hi). f_equal. apply nth_error_In, repeat_spec in Hs. congruence.
Qed.
Print Assumptions C102_one_type.
Lemma last_kind_seq ds : forall n ts i t, (i < List.length ds)%nat -> nth_error ts i = Some t -> kind t <> None -> last_kind (n + i)%nat (combine (seq n (List.length ds)) ds) ts = kind t.
Proof.
  induction ds as [|d ds IH]; intros n ts i t L Hi Hk; cbn in L; [lia|]. destruct ts as [|t0 ts]; [destruct i; discriminate|]. cbn [List.length seq combine last_kind].
  destruct i as [|i]; cbn in Hi.
  - assert (t0 = t) by congruence. subst. assert (E : forall k ts', (n + 0 < k)%nat -> last_kind (n + 0)%nat (combine (seq k (List.length ds)) ds) ts' = None).
    { clear. induction ds as [|d ds IH]; intros k ts' Hk; [reflexivity|]. destruct ts' as [|x ts']; [reflexivity|]. cbn [List.length seq combine last_kind]. rewrite IH by lia. destruct (Nat.eqb_spec (n + 0) k); [lia|reflexivity]. }
    rewrite E by lia. rewrite Nat.add_0_r, Nat.eqb_refl. reflexivity.
  - replace (n + S i)%nat with (S n + i)%nat by lia. rewrite (IH (S n) ts i t); [|lia|exact Hi|exact Hk]. destruct (kind t); [reflexivity|congruence].
Qed.
Lemma firstn_combine_seq k : forall n (ds : list R), firstn k (combine (seq n (List.length ds)) ds) = combine (seq n (Nat.min (List.length ds) k)) ds.
Proof. induction k as [|k IH]; intros n ds; [rewrite Nat.min_0_r; reflexivity|]. destruct ds as [|d ds]; [reflexivity|]. cbn. f_equal. apply IH. Qed.
Lemma forall2_nth {A B} (P : A -> B -> Prop) l m i y : Forall2 P l m -> nth_error m i = Some y -> exists x, nth_error l i = Some x /\ P x y.
Proof. intros F. revert i. induction F as [|x y0 l m H F IH]; intros [|i] E; try discriminate; cbn in *; [exists x; split; [reflexivity|congruence]|exact (IH i E)]. Qed.
(** explicit types of any number but one: so many bands, the others are dropped without a word *)
Theorem C102_types : forall items entry bs ds ts ss, bands_are items entry bs -> offsets_are entry (List.length bs) ds -> List.length ds = List.length bs ->
  (exists text, dget entry (S_ "btypes") = Some text /\ has_words text ts) -> (2 <= List.length ts)%nat -> Forall2 (fun t s => kind t = Some s) ts ss ->
  exists h m, build pyfloat run items entry = Ok (h, m) /\ is_model h m bs ds ss.
Proof.
  intros items entry bs ds ts ss Hb Ho Hl (text & Et & Hw) Hlt Hk.
  rewrite (build_eq _ _ _ _ Hb Ho). unfold types. rewrite Et, (parse_list_words _ _ Hw).
  assert (Lg : logged (Some ts) ds = Ok tt) by (destruct ts; [cbn in Hlt; lia|reflexivity]). rewrite Lg. cbv beta iota delta [rbind].
  assert (K : Forall (fun t => kind t <> None) ts) by (clear - Hk; induction Hk; constructor; [congruence|assumption]).
  destruct (C67_explicit_types (heap_of (map Some bs)) (seq 0 (List.length bs)) ds ts) as (g & E & Hg); [rewrite seq_length; congruence|lia|exact K|]. rewrite E. exists g. eexists. split; [reflexivity|]. split; [reflexivity|]. split; [cbn [m_items]; rewrite <- Hl, firstn_combine_seq, (Forall2_len _ _ _ Hk); reflexivity|].
  intros i b s Hi Hs. rewrite Hg. destruct (forall2_nth _ _ _ _ _ Hk Hs) as (t & Ti & Tk). assert (Li : (i < List.length ds)%nat) by (rewrite Hl; apply nth_error_Some; congruence).
  rewrite <- Hl. change i with (0 + i)%nat at 1. rewrite (last_kind_seq ds 0 ts i t); [|exact Li|exact Ti|congruence]. rewrite Tk, (heap_some _ _ _ Hi). reflexivity.
Qed.
Print Assumptions C102_types.
(** btypes with no word in it: the types are guessed for the log, then a model without bands is made *)
Theorem C102_empty_types : forall items entry bs ds, bands_are items entry bs -> offsets_are entry (List.length bs) ds -> List.length ds = List.length bs ->
  (exists text, dget entry (S_ "btypes") = Some text /\ has_words text []) ->
  build pyfloat run items entry = match guess_btypes ds with Ok _ => Ok (heap_of (map Some bs), {| m_items := []; m_cache := None |}) | Err _ => Err ValueError end.
Proof.
  intros items entry bs ds Hb Ho Hl (text & Et & Hw). rewrite (build_eq _ _ _ _ Hb Ho). unfold types. rewrite Et, (parse_list_words _ _ Hw). unfold logged.
  destruct (guess_btypes ds) as [ts|e] eqn:G.
  - cbv beta iota delta [rbind]. cbn [map]. unfold new_multi. rewrite !map_length, seq_length, Hl, Nat.eqb_refl. cbn [negb].
    assert (Z : forall A B (a : list A) (b : list B), @zip3 A B (option str) a b [] = []) by (intros A B [|] [|]; reflexivity). rewrite Z. reflexivity.
  - assert (e = ValueError) by (unfold guess_btypes in G; destruct (has TC ds), (has TV ds), (has TX ds); congruence). subst. reflexivity.
Qed.
Print Assumptions C102_empty_types.
(** no types: guessed from all offsets *)
Lemma build_guessed items entry bs ds ts ss : bands_are items entry bs -> offsets_are entry (List.length bs) ds -> List.length ds = List.length bs -> dget entry (S_ "btypes") = None ->
  guess_btypes ds = Ok ts -> Forall2 (fun t s => kind t = Some s) ts ss -> exists h m, build pyfloat run items entry = Ok (h, m) /\ is_model h m bs ds ss.
Proof.
  intros Hb Ho Hl Ht G Hk. rewrite (build_eq _ _ _ _ Hb Ho). unfold types. rewrite Ht. unfold logged. rewrite G. cbv beta iota delta [rbind].
  assert (L0 : List.length (seq 0 (List.length bs)) = List.length ds) by (rewrite seq_length; congruence).
  destruct (C67_guessed_types (heap_of (map Some bs)) (seq 0 (List.length bs)) ds L0) as (_ & X & _). destruct (X ts G) as (g & E & Hg). rewrite E. exists g. eexists. split; [reflexivity|]. split; [reflexivity|].
  assert (Ls : List.length ss = List.length bs) by (rewrite <- (Forall2_len _ _ _ Hk), (proj1 (guess_len ds ts G)); exact Hl).
  split; [cbn [m_items]; rewrite Ls, Nat.min_id; reflexivity|].
  intros i b s Hi Hs. rewrite Hg. destruct (forall2_nth _ _ _ _ _ Hk Hs) as (t & Ti & Tk). assert (Li : (i < List.length ds)%nat) by (rewrite Hl; apply nth_error_Some; congruence).
  rewrite <- Hl. change i with (0 + i)%nat at 1. rewrite (last_kind_seq ds 0 ts i t); [|exact Li|exact Ti|congruence]. rewrite Tk, (heap_some _ _ _ Hi). reflexivity.
Qed.
Lemma build_unguessed items entry bs ds : bands_are items entry bs -> offsets_are entry (List.length bs) ds -> dget entry (S_ "btypes") = None -> guess_btypes ds = Err ValueError -> build pyfloat run items entry = Err ValueError.
Proof. intros Hb Ho Ht G. rewrite (build_eq _ _ _ _ Hb Ho). unfold types. rewrite Ht. unfold logged. rewrite G. reflexivity. Qed.
Lemma forall2_repeat {A B} (P : A -> B -> Prop) x y n : P x y -> Forall2 P (repeat x n) (repeat y n).
Proof. intros H. induction n; cbn; constructor; assumption. Qed.
Theorem C102_guessed : forall items entry bs ds, bands_are items entry bs -> offsets_are entry (List.length bs) ds -> List.length ds = List.length bs -> dget entry (S_ "btypes") = None ->
  let built ss := exists h m, build pyfloat run items entry = Ok (h, m) /\ is_model h m bs ds ss in
  ((forall d, In d ds -> ~ near_zero d) -> built (map (fun d => if Rlt_dec 0 d then -1 else 1) ds)) /\
  ((exists d, In d ds /\ near_zero d) -> (exists d, In d ds /\ clear_pos d) -> (forall d, In d ds -> ~ clear_neg d) -> built (repeat (-1) (List.length ds))) /\
  ((exists d, In d ds /\ near_zero d) -> (exists d, In d ds /\ clear_neg d) -> (forall d, In d ds -> ~ clear_pos d) -> built (repeat 1 (List.length ds))) /\
  ((exists d, In d ds /\ near_zero d) -> ((exists d, In d ds /\ clear_pos d) /\ (exists d, In d ds /\ clear_neg d)) \/ (forall d, In d ds -> near_zero d) -> build pyfloat run items entry = Err ValueError).
Proof.
  intros items entry bs ds Hb Ho Hl Ht built. destruct (C66_guess ds) as (G1 & G2 & G3 & G4).
  assert (B : forall ts ss, guess_btypes ds = Ok ts -> Forall2 (fun t s => kind t = Some s) ts ss -> built ss) by (intros ts ss; apply build_guessed; assumption).
  split; [|split; [|split]].
  - intros H. apply (B _ _ (G1 H)). clear. induction ds as [|d ds IH]; cbn; constructor; [|exact IH]. destruct (Rlt_dec 0 d); reflexivity.
  - intros H1 H2 H3. apply (B _ _ (G2 H1 H2 H3)). apply forall2_repeat. reflexivity.
  - intros H1 H2 H3. apply (B _ _ (G3 H1 H2 H3)). apply forall2_repeat. reflexivity.
  - intros H1 H2. apply (build_unguessed _ _ _ _ Hb Ho Ht). apply G4; assumption.
Qed.
Print Assumptions C102_guessed.
(** a type that is neither valence nor conduction, or an object that is no band, is refused wherever it is used *)
Lemma append_err h l b d t e : (t <> []) -> snd (append h l b (DNum d) (Some t)) = Err e -> e = ValueError.
Proof.
  intros Ht. unfold append. destruct b as [i|]; [|cbn; congruence]. cbn. destruct t as [|c r]; [congruence|]. destruct (_ || _)%bool; [discriminate|]. destruct (_ || _)%bool; [discriminate|]. cbn. congruence.
Qed.
Lemma append_all_bad : forall bs ds ts h l, List.length ds = List.length bs -> Forall (fun t : str => t <> []) ts ->
  (exists i b t, nth_error bs i = Some b /\ nth_error ts i = Some t /\ (b = None \/ kind t = None)) -> snd (append_all h l (zip3 bs (map DNum ds) (map Some ts))) = Err ValueError.
Proof.
  induction bs as [|b bs IH]; intros ds ts h l Hl Hn (i & b' & t' & Hi & Ti & Bad); [destruct i; discriminate|].
  destruct ds as [|d ds]; [discriminate|]. destruct ts as [|t ts]; [destruct i; discriminate|]. cbn [map zip3 append_all].
  inversion Hn as [|? ? N1 N2]; subst. destruct (append h l b (DNum d) (Some t)) as [g [l'|e]] eqn:E.
  - destruct i as [|i].
    + exfalso. cbn in Hi, Ti. assert (b = b') by congruence. assert (t = t') by congruence. subst b' t'. destruct Bad as [->|Bad]; [discriminate|]. destruct b as [j|]; [|discriminate]. unfold append in E. cbn in E. destruct t as [|c r]; [congruence|]. unfold kind in Bad. destruct (_ || _)%bool; [discriminate|]. destruct (_ || _)%bool; [discriminate|]. discriminate.
    + apply IH; [cbn in Hl; lia|exact N2|]. exists i, b', t'. auto.
  - cbn. f_equal. apply (append_err h l b d t e N1). exact (f_equal snd E).
Qed.
Lemma words_nonempty t ws : has_words t ws -> Forall (fun w : str => w <> []) ws.
Proof. induction 1; constructor; assumption. Qed.
Definition objects_are (items : dict str (dict str str)) (entry : dict str str) (bs : list (option band)) : Prop :=
  exists t names, dget entry (S_ "bands") = Some t /\ has_words t names /\ Forall2 (fun n b => make_band pyfloat run items n = Ok b) names bs.
Theorem C102_refused : forall items entry bs ds ts, objects_are items entry bs -> offsets_are entry (List.length bs) ds -> List.length ds = List.length bs ->
  (exists text, dget entry (S_ "btypes") = Some text /\ has_words text ts) -> ts <> [] ->
  (exists i b t, nth_error bs i = Some b /\ nth_error (match ts with [t] => repeat t (List.length bs) | _ => ts end) i = Some t /\ (b = None \/ kind t = None)) ->
  build pyfloat run items entry = Err ValueError.
Proof.
  intros items entry bs ds ts (t & names & E & W & F) Ho Hl (text & Et & Hw) Hne (i & b & ty & Bi & Ti & Bad). unfold build. rewrite E, (parse_list_words _ _ W), (mapM_forall2 _ _ _ F). cbv beta iota delta [rbind]. rewrite (offsets_ok _ _ _ Ho). unfold types. rewrite Et, (parse_list_words _ _ Hw).
  assert (Lg : logged (Some ts) ds = Ok tt) by (destruct ts; [congruence|reflexivity]). rewrite Lg.
  assert (Lr : List.length (refs bs) = List.length bs) by (unfold refs; rewrite map_length, combine_length, seq_length; apply Nat.min_id).
  assert (Ri : nth_error (refs bs) i = Some (match b with Some _ => Some i | None => None end)).
  { unfold refs. rewrite nth_error_map. assert (G : nth_error (combine (seq 0 (List.length bs)) bs) i = Some (i, b)); [|rewrite G; destruct b; reflexivity]. clear - Bi. change i with (0 + i)%nat at 2. generalize 0%nat. revert i Bi. induction bs as [|x bs IH]; intros [|i] Bi n; try discriminate; cbn in *; [rewrite Nat.add_0_r; congruence|]. rewrite (IH i Bi (S n)). do 2 f_equal. lia. }
  set (ts' := match ts with [t0] => repeat t0 (List.length bs) | _ => ts end) in *.
  assert (Nt : Forall (fun w : str => w <> []) ts'). { apply words_nonempty in Hw. unfold ts'. destruct ts as [|a [|b' r]]; try exact Hw. inversion Hw; subst. apply Forall_forall. intros x Hx. apply repeat_spec in Hx. congruence. }
  assert (Q : snd (append_all (heap_of bs) [] (zip3 (refs bs) (map DNum ds) (map Some ts'))) = Err ValueError). { apply append_all_bad; [congruence|exact Nt|]. exists i. do 2 eexists. split; [exact Ri|]. split; [exact Ti|]. destruct Bad as [->|Bad]; auto. }
  assert (Z : snd (new_multi (heap_of bs) (refs bs) (map DNum ds) (Some (map Some ts))) = Err ValueError).
  { unfold new_multi. rewrite Lr, !map_length, Hl, Nat.eqb_refl. cbn [negb]. assert (M : (match Some (map Some ts) with None => let! ds0 := mapM as_num (map DNum ds) in let! g := guess_btypes ds0 in Ok (map Some g) | Some [t0] => Ok (repeat t0 (List.length bs)) | Some l => Ok l end) = Ok (map Some ts')). { unfold ts'. destruct ts as [|a [|b' r]]; try reflexivity. cbn. rewrite map_repeat. reflexivity. }
    rewrite M. destruct (append_all (heap_of bs) [] (zip3 (refs bs) (map DNum ds) (map Some ts'))) as [g q]. cbn in Q |- *. rewrite Q. reflexivity. }
  destruct (new_multi _ _ _ _) as [g q]. cbn in Z. rewrite Z. reflexivity.
Qed.
Print Assumptions C102_refused.
Theorem C102_refused_guessed : forall items entry bs ds, objects_are items entry bs -> offsets_are entry (List.length bs) ds -> dget entry (S_ "btypes") = None -> In None bs ->
  build pyfloat run items entry = Err ValueError.
Proof.
  intros items entry bs ds (t & names & E & W & F) Ho Ht Hn. unfold build. rewrite E, (parse_list_words _ _ W), (mapM_forall2 _ _ _ F). cbv beta iota delta [rbind]. rewrite (offsets_ok _ _ _ Ho). unfold types. rewrite Ht. unfold logged.
  destruct (guess_btypes ds) as [ts|e] eqn:G; [|assert (e = ValueError) by (unfold guess_btypes in G; destruct (has TC ds), (has TV ds), (has TX ds); congruence); subst; reflexivity].
  assert (Lr : List.length (refs bs) = List.length bs) by (unfold refs; rewrite map_length, combine_length, seq_length; apply Nat.min_id).
  destruct (Nat.eq_dec (List.length ds) (List.length bs)) as [Hl|Hl]; [|cbv beta iota delta [rbind]; rewrite C67_length_mismatch; [reflexivity|rewrite Lr, map_length; congruence]].
  apply In_nth_error in Hn as (i & Hi). assert (Hr : In None (refs bs)) by (apply refs_bad; eauto). apply In_nth_error in Hr as (j & Hj).
  destruct (guess_len ds ts G) as (L & K). assert (Lj : (j < List.length ts)%nat). { rewrite L, Hl, <- Lr. apply nth_error_Some. congruence. } destruct (nth_error ts j) as [tj|] eqn:Tj; [|apply nth_error_None in Tj; lia].
  assert (Q : snd (append_all (heap_of bs) [] (zip3 (refs bs) (map DNum ds) (map Some ts))) = Err ValueError). { apply append_all_bad; [congruence| |exists j, None, tj; auto]. eapply Forall_impl; [|exact K]. intros a Ha ->. apply Ha. reflexivity. }
  unfold new_multi. rewrite Lr, !map_length, Hl, Nat.eqb_refl. cbn [negb]. rewrite mapM_num. cbn [rbind]. rewrite G. cbn [rbind].
  destruct (append_all (heap_of bs) [] (zip3 (refs bs) (map DNum ds) (map Some ts))) as [g q]. cbn in Q. rewrite Q. reflexivity.
Qed.
Print Assumptions C102_refused_guessed.

(** C103: temperatures, Fermi energies, compilation *)
(** the entry section after the overrides *)
Lemma dset_dset {V} (d : dict str V) k v w : dset (dset d k v) k w = dset d k w.
Proof. induction d as [|[a x] d IH]; cbn; [rewrite eqb_refl; reflexivity|]. destruct (eqb k a) eqn:Q; cbn; rewrite Q; [reflexivity|]. f_equal. exact IH. Qed.
Lemma dset_same_value {V} (d : dict str V) k v : dget d k = Some v -> dset d k v = d.
Proof. induction d as [|[a x] d IH]; cbn; [discriminate|]. destruct (eqb k a) eqn:Q; [intros [= ->]; apply eqb_eq in Q; subst; reflexivity|]. intros H. f_equal. exact (IH H). Qed.
Theorem C103_overrides : forall config entry specify, dget config (S_ "entry") = Some entry ->
  parse_Bands pyfloat pyseq run solve config specify = parse_Bands pyfloat pyseq run solve (dset config (S_ "entry") (dupdate entry specify)) [] /\
  forall k, dget (dupdate entry specify) k = setting entry specify k.
Proof.
  intros config entry specify E. split; [|intros k; apply setting_eq]. unfold parse_Bands, dgetitem. rewrite E, dget_dset, eqb_refl. cbv beta iota delta [rbind]. cbn [dupdate fold_left]. rewrite dset_dset. reflexivity.
Qed.
Print Assumptions C103_overrides.
Theorem C103_no_entry : forall config specify, dget config (S_ "entry") = None -> parse_Bands pyfloat pyseq run solve config specify = Err KeyError.
Proof. intros config specify E. unfold parse_Bands, dgetitem. rewrite E. reflexivity. Qed.
Print Assumptions C103_no_entry.
(** in what follows: the entry section with all its settings, the model built from it *)
Lemma parse_eq config e h m : dget config (S_ "entry") = Some e -> build pyfloat run config e = Ok (h, m) ->
  parse_Bands pyfloat pyseq run solve config [] =
  match dget e (S_ "T") with
  | None => Ok {| r_heap := h; r_model := m; r_compiled := None |}
  | Some tx =>
      let! T := pyseq tx in
      match dget e (S_ "EF") with
      | None => Ok {| r_heap := h; r_model := m; r_compiled := None |}
      | Some ef =>
          let! pairs := fermi pyfloat pyseq solve h m e ef T in
          let! _ := compile_at h m (0, 1) in
          let! cs := mapM (compile_at h m) pairs in
          Ok {| r_heap := h; r_model := m; r_compiled := Some (cs, match dget e (S_ "properties") with Some t => parse_list t | None => props_default end) |}
      end
  end.
Proof.
  intros E B. unfold parse_Bands, dgetitem. rewrite E. cbv beta iota delta [rbind]. cbn [dupdate fold_left]. rewrite (dset_same_value _ _ _ E), B. reflexivity.
Qed.
Theorem C103_uncompiled : forall config e h m, dget config (S_ "entry") = Some e -> build pyfloat run config e = Ok (h, m) ->
  dget e (S_ "T") = None \/ (dget e (S_ "EF") = None /\ exists tx T, dget e (S_ "T") = Some tx /\ pyseq tx = Ok T) ->
  parse_Bands pyfloat pyseq run solve config [] = Ok {| r_heap := h; r_model := m; r_compiled := None |}.
Proof.
  intros config e h m E B H. rewrite (parse_eq _ _ _ _ E B). destruct H as [->|(EF & tx & T & -> & S)]; [reflexivity|]. rewrite S, EF. reflexivity.
Qed.
Print Assumptions C103_uncompiled.
(** Fermi energies given as numbers *)
Lemma broadcast_ok a b l : paired a b l -> broadcast a b = Ok l.
Proof.
  intros [a' b' L|x b'|a' y]; unfold broadcast.
  - apply Nat.eqb_eq in L. rewrite L. reflexivity.
  - destruct (Nat.eqb_spec (List.length [x]) (List.length b')) as [L|L]; [|destruct b'; reflexivity]. destruct b' as [|y [|? ?]]; try discriminate. reflexivity.
  - destruct (Nat.eqb_spec (List.length a') (List.length [y])) as [L|L]; [destruct a' as [|x [|? ?]]; try discriminate; reflexivity|]. destruct a' as [|x [|? ?]]; reflexivity.
Qed.
Lemma broadcast_bad a b : (forall l, ~ paired a b l) -> broadcast a b = Err ValueError.
Proof.
  intros H. unfold broadcast. destruct (Nat.eqb_spec (List.length a) (List.length b)) as [L|L]; [exfalso; exact (H _ (pr_same a b L))|].
  destruct a as [|x [|x' a]]; [|exfalso; exact (H _ (pr_left x b))|]; (destruct b as [|y [|y' b]]; try reflexivity; exfalso; exact (H _ (pr_right _ y))).
Qed.
Lemma last_part_none s : ~ In "@"%char s -> last_part s = None.
Proof.
  induction s as [|c s IH]; intros H; [reflexivity|]. cbn. rewrite IH by (intros X; apply H; right; exact X). destruct (is_ch "@" c) eqn:P; [|reflexivity]. exfalso. apply H. left. apply is_ch_eq in P. congruence.
Qed.
Lemma last_part_some y b : ~ In "@"%char b -> last_part (y ++ "@"%char :: b) = Some b.
Proof. intros H. induction y as [|c y IH]; cbn; [rewrite (last_part_none _ H); reflexivity|]. rewrite IH. reflexivity. Qed.
Lemma first_part_at x r : ~ In "@"%char x -> first_part (x ++ "@"%char :: r) = x.
Proof. intros H. induction x as [|c x IH]; cbn; [reflexivity|]. destruct (is_ch "@" c) eqn:P; [exfalso; apply H; left; apply is_ch_eq in P; congruence|]. f_equal. apply IH. intros X. apply H. right. exact X. Qed.
Theorem C103_pairs : forall h m e ef T EF, ~ In "@"%char ef -> pyseq ef = Ok EF ->
  (forall l, paired EF T l -> fermi pyfloat pyseq solve h m e ef T = Ok l) /\ ((forall l, ~ paired EF T l) -> fermi pyfloat pyseq solve h m e ef T = Err ValueError).
Proof.
  intros h m e ef T EF Hn Hs. unfold fermi. rewrite (last_part_none _ Hn), Hs. cbn [rbind]. split; [intros l; apply broadcast_ok|apply broadcast_bad].
Qed.
Print Assumptions C103_pairs.
(** Fermi energies solved from other data: data @ quantity *)
Definition asks (ef data quantity : str) : Prop :=
  exists x r y z, ef = x ++ "@"%char :: r /\ ~ In "@"%char x /\ trimmed x data /\ ef = y ++ "@"%char :: z /\ ~ In "@"%char z /\ trimmed z quantity.
Lemma mapM_err {A B} (f : A -> res B) l : (exists x, In x l /\ forall y, f x <> Ok y) -> exists e, mapM f l = Err e.
Proof.
  induction l as [|a l IH]; intros (x & Hx & Hf); [destruct Hx|]. cbn. destruct (f a) as [y|e0] eqn:E; [|exists e0; reflexivity]. destruct Hx as [->|Hx]; [exfalso; exact (Hf y E)|]. destruct IH as (e1 & E1); [eauto|]. exists e1. cbn [rbind]. rewrite E1. reflexivity.
Qed.
Theorem C103_solved : forall h m e ef data quantity T ref l, asks ef data quantity -> pyseq data = Ok ref -> paired ref T l ->
  (forall x0, match dget e (S_ "initial") with Some t => pyfloat t = Ok x0 | None => x0 = 0 end ->
    (forall EF, Forall2 (fun p x => solve h m quantity (fst p) (snd p) x0 = Ok x) l EF -> fermi pyfloat pyseq solve h m e ef T = Ok (combine EF (map snd l))) /\
    ((exists p, In p l /\ forall x, solve h m quantity (fst p) (snd p) x0 <> Ok x) -> fermi pyfloat pyseq solve h m e ef T = Err RuntimeError)) /\
  ((exists t, dget e (S_ "initial") = Some t /\ forall x, pyfloat t <> Ok x) -> fermi pyfloat pyseq solve h m e ef T = Err RuntimeError).
Proof.
  intros h m e ef data quantity T ref l (x & r & y & z & E1 & N1 & T1 & E2 & N2 & T2) Hs Hp. unfold fermi.
  assert (L : last_part ef = Some z) by (rewrite E2; apply last_part_some, N2). assert (P : first_part ef = x) by (rewrite E1; apply first_part_at, N1). rewrite L, P.
  apply strip_iff in T1, T2. rewrite T1, T2, Hs. cbv beta iota delta [rbind]. rewrite (broadcast_ok _ _ _ Hp). split.
  - intros x0 H0. assert (I : (match dget e (S_ "initial") with Some t => pyfloat t | None => Ok 0 end) = Ok x0) by (destruct (dget e (S_ "initial")); [exact H0|subst; reflexivity]). rewrite I. split.
    + intros EF F. assert (M : mapM (fun p : R * R => match solve h m quantity (fst p) (snd p) x0 with Ok a => Ok (a, snd p) | Err err => Err err end) l = Ok (combine EF (map snd l))); [|rewrite M; reflexivity].
      clear - F. induction F as [|p v l EF E F IH]; [reflexivity|]. cbn [mapM map combine]. rewrite E. cbn [rbind]. rewrite IH. reflexivity.
    + intros (p & Hp' & Hx). destruct (mapM_err (fun p : R * R => match solve h m quantity (fst p) (snd p) x0 with Ok a => Ok (a, snd p) | Err err => Err err end) l) as (e0 & E0); [exists p; split; [exact Hp'|]; intros q; destruct (solve h m quantity (fst p) (snd p) x0) as [a|] eqn:Q; [exfalso; exact (Hx a eq_refl)|discriminate]|]. rewrite E0. reflexivity.
  - intros (t & E & Hb). rewrite E. destruct (pyfloat t) as [v|] eqn:Q; [exfalso; exact (Hb v eq_refl)|reflexivity].
Qed.
Print Assumptions C103_solved.
Theorem C103_solved_mismatch : forall h m e ef data quantity T ref, asks ef data quantity -> pyseq data = Ok ref -> (forall l, ~ paired ref T l) -> fermi pyfloat pyseq solve h m e ef T = Err ValueError.
Proof.
  intros h m e ef data quantity T ref (x & r & y & z & E1 & N1 & T1 & E2 & N2 & T2) Hs Hp. unfold fermi.
  assert (L : last_part ef = Some z) by (rewrite E2; apply last_part_some, N2). assert (P : first_part ef = x) by (rewrite E1; apply first_part_at, N1). rewrite L, P.
  apply strip_iff in T1. rewrite T1, Hs. cbv beta iota delta [rbind]. rewrite (broadcast_bad _ _ Hp). reflexivity.
Qed.
Print Assumptions C103_solved_mismatch.
(** the compiled model gives, for every pair, the numbers of the model itself at that Fermi energy and temperature *)
Lemma clear_fresh h m : fresh h m -> fst (clear_multi h m) = h /\ snd (clear_multi h m) = m.
Proof.
  intros (C & F). destruct m as [l c]. cbn in *. subst c. split; [|reflexivity]. clear - F. revert F. induction l as [|[i d] l IH]; intros F; [reflexivity|]. cbn [fold_left fst].
  assert (E : upd h i (clear_band (h i)) = h). { apply functional_extensionality. intros j. unfold upd. destruct (Nat.eqb_spec j i) as [->|]; [|reflexivity]. specialize (F i d (or_introl eq_refl)). unfold clear_band. destruct (h i); cbn in *; subst; reflexivity. }
  rewrite E. apply IH. intros j d' H. apply (F j d'). right. exact H.
Qed.
Lemma model_nodup h m bs ds ss : is_model h m bs ds ss -> NoDup (map fst (m_items m)).
Proof.
  intros (_ & -> & _). assert (G : forall n k (l : list R), NoDup (map fst (combine (seq n k) l)) /\ forall i, In i (map fst (combine (seq n k) l)) -> (n <= i)%nat); [|apply G].
  intros n k. revert n. induction k as [|k IH]; intros n l; [split; [constructor|intros i []]|]. destruct l as [|d l]; [split; [constructor|intros i []]|]. cbn. destruct (IH (S n) l) as (H1 & H2). split; [constructor; [|exact H1]|]; [intros X; apply H2 in X; lia|]. intros i [<-|X]; [lia|]. apply H2 in X. lia.
Qed.
Lemma model_items h m bs ds ss i d : is_model h m bs ds ss -> In (i, d) (m_items m) -> exists b s, nth_error bs i = Some b /\ nth_error ss i = Some s /\ h i = sign_band b s.
Proof.
  intros (_ & E & Hh) Hin. rewrite E in Hin. apply in_combine_l in Hin. apply in_seq in Hin. cbn in Hin. destruct (nth_error bs i) as [b|] eqn:B; [|apply nth_error_None in B; lia]. destruct (nth_error ss i) as [s|] eqn:S'; [|apply nth_error_None in S'; lia]. exists b, s. auto.
Qed.
Definition new_bands (bs : list band) : Prop := Forall (fun b => b_cache b = None) bs.
Definition with_hall (bs : list band) : Prop := Forall (fun b => r_H (b_raw b) <> None) bs.
Definition same_numbers (h : heap) (m : multi) (p : R * R) (c : R * R * (heap * multi)) : Prop :=
  fst c = p /\ m_items (snd (snd c)) = m_items m /\ forall q a1 a2, method (self_multi (fst (snd c)) (snd (snd c))) q a1 a2 = method (self_multi h m) q (Some (fst p)) (Some (snd p)).
Lemma compile_at_ok h m bs ds ss p : is_model h m bs ds ss -> new_bands bs -> with_hall bs -> exists c, compile_at h m p = Ok c /\ same_numbers h m p c.
Proof.
  intros M Nb Wh. destruct (C64_compile_transparent h m (fst p) (snd p) 3) as (g & m' & E & I & H); [exact (model_nodup _ _ _ _ _ M)| |].
  { intros i d Hin. destruct (model_items _ _ _ _ _ _ _ M Hin) as (b & s & Hb & _ & Eh). rewrite Eh. cbn. apply nth_error_In in Hb. exact (proj1 (Forall_forall _ _) Wh b Hb). }
  assert (Fr : fresh h m). { split; [apply M|]. intros i d Hin. destruct (model_items _ _ _ _ _ _ _ M Hin) as (b & s & Hb & _ & Eh). rewrite Eh. cbn. apply nth_error_In in Hb. exact (proj1 (Forall_forall _ _) Nb b Hb). }
  destruct (clear_fresh h m Fr) as (C1' & C2'). rewrite C1', C2' in H. unfold compile_at. rewrite E. eexists. split; [reflexivity|]. split; [reflexivity|]. split; [exact I|]. intros q a1 a2. cbn [fst snd]. apply H. destruct q; cbn; lia.
Qed.
Theorem C103_compiled : forall config e h m bs ds ss tx T ef pairs, dget config (S_ "entry") = Some e -> build pyfloat run config e = Ok (h, m) -> is_model h m bs ds ss -> new_bands bs -> with_hall bs ->
  dget e (S_ "T") = Some tx -> pyseq tx = Ok T -> dget e (S_ "EF") = Some ef -> fermi pyfloat pyseq solve h m e ef T = Ok pairs ->
  exists cs props, parse_Bands pyfloat pyseq run solve config [] = Ok {| r_heap := h; r_model := m; r_compiled := Some (cs, props) |} /\
    Forall2 (same_numbers h m) pairs cs /\
    (dget e (S_ "properties") = None -> props = words ["T"; "EF"; "N"; "C"; "S"; "PF"; "L"; "Ke"]%string) /\
    (forall t ws, dget e (S_ "properties") = Some t -> has_words t ws -> props = ws).
Proof.
  intros config e h m bs ds ss tx T ef pairs E B M Nb Wh HT HTs HE HF. rewrite (parse_eq _ _ _ _ E B), HT, HTs. cbv beta iota delta [rbind]. rewrite HE, HF.
  destruct (compile_at_ok h m bs ds ss (0, 1) M Nb Wh) as (c0 & E0 & _). rewrite E0.
  assert (X : exists cs, mapM (compile_at h m) pairs = Ok cs /\ Forall2 (same_numbers h m) pairs cs).
  { clear HF. induction pairs as [|p ps IH]; [exists []; split; [reflexivity|constructor]|]. destruct (compile_at_ok h m bs ds ss p M Nb Wh) as (c & Ec & Sc). destruct IH as (cs & Es & Fs). exists (c :: cs). split; [cbn [mapM]; rewrite Ec; cbn [rbind]; rewrite Es; reflexivity|constructor; assumption]. }
  destruct X as (cs & Es & Fs). rewrite Es. do 2 eexists. split; [reflexivity|]. split; [exact Fs|]. split; [intros ->; reflexivity|]. intros t ws -> W. apply parse_list_words, W.
Qed.
Print Assumptions C103_compiled.
(** a band without a Hall function (LinearBand) cannot be compiled *)
Lemma total_err l f : (exists i d, In (i, d) l /\ f i d = Err TypeError) -> (forall i d e, In (i, d) l -> f i d = Err e -> e = TypeError) -> total l f = Err TypeError.
Proof.
  induction l as [|[j d'] l IH]; intros (i & d & Hin & E) Hall; [destruct Hin|]. cbn. destruct (f j d') as [x|e0] eqn:Q; [|rewrite (Hall j d' e0 (or_introl eq_refl) Q); reflexivity].
  destruct Hin as [Hin|Hin]; [exfalso; assert (j = i) by congruence; assert (d' = d) by congruence; subst; congruence|]. cbn [rbind]. rewrite IH; [reflexivity|eauto|]. intros i0 d0 e0 H0. apply Hall. right. exact H0.
Qed.
Theorem C103_no_hall : forall config e h m bs ds ss tx T ef pairs, dget config (S_ "entry") = Some e -> build pyfloat run config e = Ok (h, m) -> is_model h m bs ds ss ->
  (exists i b, nth_error bs i = Some b /\ r_H (b_raw b) = None /\ (i < List.length ss)%nat /\ (i < List.length ds)%nat) ->
  dget e (S_ "T") = Some tx -> pyseq tx = Ok T -> dget e (S_ "EF") = Some ef -> fermi pyfloat pyseq solve h m e ef T = Ok pairs ->
  parse_Bands pyfloat pyseq run solve config [] = Err TypeError.
Proof.
  intros config e h m bs ds ss tx T ef pairs E B M (k & b & Bk & Hh & Lk & Ld) HT HTs HE HF. rewrite (parse_eq _ _ _ _ E B), HT, HTs. cbv beta iota delta [rbind]. rewrite HE, HF.
  assert (X : compile_at h m (0, 1) = Err TypeError); [|rewrite X; reflexivity].
  destruct (nth_error ds k) as [dk|] eqn:Dk; [|apply nth_error_None in Dk; lia].
  assert (In0 : In (k, dk) (m_items m)). { destruct M as (_ & -> & _). assert (Lb : (k < List.length bs)%nat) by (apply nth_error_Some; congruence). assert (G : forall j n (l : list R) n0, (j < n)%nat -> nth_error l j = Some dk -> In ((n0 + j)%nat, dk) (combine (seq n0 n) l)); [|apply (G k _ ds 0%nat); [lia|exact Dk]].
    clear. induction j as [|j IH]; intros n l n0 Hj Hl; (destruct n as [|n]; [lia|]); (destruct l as [|x l]; [discriminate|]); cbn in *; [left; rewrite Nat.add_0_r; congruence|]. right. replace (n0 + S j)%nat with (S n0 + j)%nat by lia. apply IH; [lia|exact Hl]. }
  unfold compile_at, compile_multi. cbn [fst snd]. set (g := compile_items (m_items m) h 0 1 3).
  assert (HH : multi_H g (m_items m) (Some 0) (Some 1) = Err TypeError).
  { unfold multi_H. apply total_err.
    - exists k, dk. split; [exact In0|]. cbn [reduced need]. unfold g. rewrite (g_at h m 0 1 3 k dk In0). destruct (model_items _ _ _ _ _ _ _ M In0) as (b' & s & Hb & _ & Eh). assert (b' = b) by congruence. subst b'. rewrite Eh. unfold fetch_H. cbn [self_band compile_band o_cache b_cache raw_cache c_H b_raw sign_band]. rewrite Hh. reflexivity.
    - intros i d e0 Hin. cbn [reduced need]. unfold g. rewrite (g_at h m 0 1 3 i d Hin). unfold fetch_H. cbn [self_band compile_band o_cache b_cache raw_cache c_H]. destruct (r_H (b_raw (h i))); cbn; congruence. }
  unfold make_cache. cbn [self_multi o_N o_K o_H]. unfold g at 1. rewrite cN. cbn [rbind].
  rewrite (mapM_ok _ (fun n => Sum m (fun i d => b_sign (h i) ^ n * r_K (b_raw (h i)) n (-1 * b_sign (h i) * (0 - ld m i)) 1))); [|intros n Hn; apply in_seq in Hn; apply cK; lia].
  cbn [rbind]. rewrite HH. reflexivity.
Qed.
Print Assumptions C103_no_hall.
End P.
(** concrete configuration: two bands of one section each *)
Definition ex_float (s : str) : res R := if eqb s (S_ "1") then Ok 1 else if eqb s (S_ "-0.2") then Ok (-0.2) else if eqb s (S_ "0.1") then Ok 0.1 else Err ValueError.
Definition ex_seq (s : str) : res (list R) := if eqb s (S_ "300 400") then Ok [300; 400] else if eqb s (S_ "1") then Ok [1] else Err ValueError.
Definition ex_raw (x : R) : raw := {| r_N := fun EF T => x * T; r_K := fun _ _ _ => x; r_H := Some (fun _ _ => x) |}.
Definition ex_band (x : R) : band := {| b_raw := ex_raw x; b_sign := 1; b_cache := None |}.
Definition ex_run (ty : str) (kw : dict str R) : option (option band) := Some (Some (ex_band (match dget kw (S_ "m_d") with Some x => x | None => 7 end))).
Definition ex_solve (h : heap) (m : multi) (s : str) (v T x0 : R) : res R := if eqb s (S_ "N") then Ok (v + T) else Err KeyError.
Definition ex_items : dict str (dict str str) :=
  [(S_ "entry", [(S_ "bands", S_ "low, high"); (S_ "deltas", S_ "-0.2 0.1"); (S_ "T", S_ "300 400"); (S_ "EF", S_ " 1 @ N"); (S_ "properties", S_ "S, C")]);
   (S_ "low.APSSPB", [(S_ "m_d", S_ "1"); (S_ "colour", S_ "0.1")]); (S_ "high.APSSKB_DP", [])].
Definition ex_entry : dict str str := match dget ex_items (S_ "entry") with Some e => e | None => [] end.
Example C101_case : section_of ex_items (S_ "low") [(S_ "m_d", S_ "1"); (S_ "colour", S_ "0.1")] (S_ "APSSPB") /\
  as_numbers ex_float [(S_ "m_d", S_ "1"); (S_ "colour", S_ "0.1")] [(S_ "m_d", 1); (S_ "colour", 0.1)] /\
  make_band ex_float ex_run ex_items (S_ "low") = Ok (Some (ex_band 1)) /\ make_band ex_float ex_run ex_items (S_ "high") = Ok (Some (ex_band 7)) /\ make_band ex_float ex_run ex_items (S_ "hig") = Err NoSectionError.
Proof.
  split; [|split; [|split; [|split]]]; [|repeat constructor|reflexivity..].
  assert (H : pmatch ex_items (S_ "low") = Ok ([(S_ "m_d", S_ "1"); (S_ "colour", S_ "0.1")], S_ "APSSPB")) by reflexivity. apply pmatch_ok in H. exact H.
Qed.
Example C102_case : bands_are ex_float ex_run ex_items ex_entry [ex_band 1; ex_band 7] /\ offsets_are ex_float ex_entry 2 [-0.2; 0.1] /\ dget ex_entry (S_ "btypes") = None /\
  (forall d, In d [-0.2; 0.1] -> ~ near_zero d) /\
  exists h m, build ex_float ex_run ex_items ex_entry = Ok (h, m) /\ m_items m = [(0%nat, -0.2); (1%nat, 0.1)] /\ b_sign (h 0%nat) = 1 /\ b_sign (h 1%nat) = -1.
Proof.
  assert (W : forall t ws, parse_list t = ws -> has_words t ws) by (intros t ws H; apply (split_class_iff blank_comma); exact H).
  assert (Hb : bands_are ex_float ex_run ex_items ex_entry [ex_band 1; ex_band 7]) by (exists (S_ "low, high"), [S_ "low"; S_ "high"]; split; [reflexivity|]; split; [apply W; reflexivity|]; repeat constructor).
  assert (Ho : offsets_are ex_float ex_entry 2 [-0.2; 0.1]) by (exists [S_ "-0.2"; S_ "0.1"]; split; [apply W; reflexivity|]; repeat constructor).
  assert (Nz : forall d, In d [-0.2; 0.1] -> ~ near_zero d). { intros d [<-|[<-|[]]] H; unfold near_zero in H; [rewrite Rabs_left in H by lra|rewrite Rabs_pos_eq in H by lra]; lra. }
  split; [exact Hb|]. split; [exact Ho|]. split; [reflexivity|]. split; [exact Nz|].
  destruct (C102_guessed ex_float ex_run ex_items ex_entry _ _ Hb Ho eq_refl eq_refl) as (G & _). destruct (G Nz) as (h & m & E & (_ & I & Hh)). exists h, m. split; [exact E|]. split; [exact I|].
  split; [rewrite (Hh 0%nat _ _ eq_refl eq_refl)|rewrite (Hh 1%nat _ _ eq_refl eq_refl)]; cbn; [destruct (Rlt_dec 0 (-0.2)); [lra|reflexivity]|destruct (Rlt_dec 0 0.1); [reflexivity|lra]].
Qed.
Example C103_case : exists h m cs, build ex_float ex_run ex_items ex_entry = Ok (h, m) /\ asks (S_ " 1 @ N") (S_ "1") (S_ "N") /\
  fermi ex_float ex_seq ex_solve h m ex_entry (S_ " 1 @ N") [300; 400] = Ok [(1 + 300, 300); (1 + 400, 400)] /\
  parse_Bands ex_float ex_seq ex_run ex_solve ex_items [] = Ok {| r_heap := h; r_model := m; r_compiled := Some (cs, [S_ "S"; S_ "C"]) |} /\
  Forall2 (same_numbers h m) [(1 + 300, 300); (1 + 400, 400)] cs.
Proof.
  destruct C102_case as (Hb & Ho & Ht & Nz & _). destruct (C102_guessed ex_float ex_run ex_items ex_entry _ _ Hb Ho eq_refl Ht) as (G & _). destruct (G Nz) as (h & m & E & M).
  assert (A : asks (S_ " 1 @ N") (S_ "1") (S_ "N")). { exists (S_ " 1 "), (S_ " N"), (S_ " 1 "), (S_ " N"). split; [reflexivity|]. split; [cbn; intuition discriminate|]. split; [apply strip_iff; reflexivity|]. split; [reflexivity|]. split; [cbn; intuition discriminate|apply strip_iff; reflexivity]. }
  assert (F : fermi ex_float ex_seq ex_solve h m ex_entry (S_ " 1 @ N") [300; 400] = Ok [(1 + 300, 300); (1 + 400, 400)]).
  { destruct (C103_solved ex_float ex_seq ex_solve h m ex_entry (S_ " 1 @ N") (S_ "1") (S_ "N") [300; 400] [1] _ A eq_refl (pr_left 1 [300; 400])) as (X & _). destruct (X 0 eq_refl) as (Y & _). apply (Y [1 + 300; 1 + 400]). repeat constructor. }
  assert (Nb : new_bands [ex_band 1; ex_band 7]) by repeat constructor. assert (Wh : with_hall [ex_band 1; ex_band 7]) by (repeat constructor; discriminate).
  destruct (C103_compiled ex_float ex_seq ex_run ex_solve ex_items ex_entry h m [ex_band 1; ex_band 7] _ _ (S_ "300 400") [300; 400] (S_ " 1 @ N") [(1 + 300, 300); (1 + 400, 400)] eq_refl E M Nb Wh eq_refl eq_refl eq_refl F) as (cs & props & P & S' & _ & W).
  exists h, m, cs. split; [exact E|]. split; [exact A|]. split; [exact F|]. split; [|exact S']. rewrite P. do 3 f_equal. f_equal. f_equal. apply (W (S_ "S, C")); [reflexivity|]. apply (split_class_iff blank_comma). reflexivity.
Qed.
