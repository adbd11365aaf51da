(** C66-C68: building a MultiBands (src/teflow/bandlib.py:435-518, 644-688). *)
From Coq Require Import Reals Lra String Ascii.
From Verif Require Import Py PyStr RUtil RombModel RombProps BandModel BandSpec BandProofs BandProps.
Local Open Scope R_scope.

(** ** C66: guessing the type of a band from its offset *)
Definition near_zero (d : R) : Prop := Rabs d < 1e-6.
Definition clear_pos (d : R) : Prop := 1e-6 <= d.
Definition clear_neg (d : R) : Prop := d <= -1e-6.
Lemma tag_near d : near_zero d <-> tag d = TX.
Proof. unfold near_zero, tag. destruct (Rlt_dec (Rabs d) 1e-6); [split; auto|]. destruct (Rlt_dec 0 d); split; intros; try discriminate; contradiction. Qed.
Lemma tag_pos d : clear_pos d <-> tag d = TC.
Proof.
  unfold clear_pos, tag. destruct (Rlt_dec (Rabs d) 1e-6) as [A|A].
  - split; [|discriminate]. intros H. rewrite Rabs_pos_eq in A by lra. lra.
  - destruct (Rlt_dec 0 d) as [B|B]; split; intros H; try reflexivity; try discriminate; [|lra]. rewrite Rabs_pos_eq in A by lra. lra.
Qed.
Lemma tag_neg d : clear_neg d <-> tag d = TV.
Proof.
  unfold clear_neg, tag. destruct (Rlt_dec (Rabs d) 1e-6) as [A|A].
  - split; [|discriminate]. intros H. rewrite Rabs_left in A by lra. lra.
  - destruct (Rlt_dec 0 d) as [B|B]; split; intros H; try reflexivity; try discriminate; [lra|].
    destruct (Req_dec d 0) as [->|Hne]; [rewrite Rabs_R0 in A; lra|]. rewrite Rabs_left in A by lra. lra.
Qed.
Lemma has_iff t ds : has t ds = true <-> exists d, In d ds /\ tag d = t.
Proof.
  unfold has. rewrite existsb_exists. split; intros (d & Hd & E); exists d; (split; [exact Hd|]); destruct t, (tag d); congruence.
Qed.
Lemma has_false t ds : has t ds = false <-> forall d, In d ds -> tag d <> t.
Proof.
  split.
  - intros E d Hd Ht. assert (has t ds = true) by (apply has_iff; eauto). congruence.
  - intros H. destruct (has t ds) eqn:E; [|reflexivity]. apply has_iff in E as (d & Hd & Ht). exfalso. apply (H d Hd Ht).
Qed.
Theorem C66_guess :
  forall ds : list R,
  ((forall d, In d ds -> ~ near_zero d) ->
     guess_btypes ds = Ok (map (fun d => if Rlt_dec 0 d then S_ "C" else S_ "V") ds))
  /\ ((exists d, In d ds /\ near_zero d) -> (exists d, In d ds /\ clear_pos d) -> (forall d, In d ds -> ~ clear_neg d) ->
     guess_btypes ds = Ok (repeat (S_ "C") (List.length ds)))
  /\ ((exists d, In d ds /\ near_zero d) -> (exists d, In d ds /\ clear_neg d) -> (forall d, In d ds -> ~ clear_pos d) ->
     guess_btypes ds = Ok (repeat (S_ "V") (List.length ds)))
  /\ ((exists d, In d ds /\ near_zero d) ->
      ((exists d, In d ds /\ clear_pos d) /\ (exists d, In d ds /\ clear_neg d)) \/ (forall d, In d ds -> near_zero d) ->
     guess_btypes ds = Err ValueError).
Proof.
  intros ds.
  assert (X : (exists d, In d ds /\ near_zero d) -> has TX ds = true) by (intros (d & Hd & H); apply has_iff; exists d; rewrite <- tag_near; auto).
  assert (CP : (exists d, In d ds /\ clear_pos d) -> has TC ds = true) by (intros (d & Hd & H); apply has_iff; exists d; rewrite <- tag_pos; auto).
  assert (CN : (exists d, In d ds /\ clear_neg d) -> has TV ds = true) by (intros (d & Hd & H); apply has_iff; exists d; rewrite <- tag_neg; auto).
  unfold guess_btypes. split; [|split; [|split]].
  - intros H. assert (E : has TX ds = false) by (apply has_false; intros d Hd Ht; apply tag_near in Ht; apply (H d Hd Ht)). rewrite E.
    assert (M : map (fun d => letter (tag d)) ds = map (fun d => if Rlt_dec 0 d then S_ "C" else S_ "V") ds).
    { apply map_ext_in. intros d Hd. specialize (H d Hd). unfold near_zero in H. unfold tag. destruct (Rlt_dec (Rabs d) 1e-6); [contradiction|]. destruct (Rlt_dec 0 d); reflexivity. }
    rewrite M. destruct (has TC ds), (has TV ds); reflexivity.
  - intros HX HC HN. rewrite (X HX), (CP HC). assert (E : has TV ds = false) by (apply has_false; intros d Hd Ht; apply tag_neg in Ht; apply (HN d Hd Ht)). rewrite E. reflexivity.
  - intros HX HC HN. rewrite (X HX), (CN HC). assert (E : has TC ds = false) by (apply has_false; intros d Hd Ht; apply tag_pos in Ht; apply (HN d Hd Ht)). rewrite E. reflexivity.
  - intros HX [(HC & HN)|HA].
    + rewrite (X HX), (CP HC), (CN HN). reflexivity.
    + rewrite (X HX). assert (E1 : has TC ds = false) by (apply has_false; intros d Hd Ht; specialize (HA d Hd); apply tag_near in HA; congruence).
      assert (E2 : has TV ds = false) by (apply has_false; intros d Hd Ht; specialize (HA d Hd); apply tag_near in HA; congruence). rewrite E1, E2. reflexivity.
Qed.
Print Assumptions C66_guess.
(** the four cases are all there are, and exclude each other *)
Theorem C66_cases :
  forall ds : list R,
  let A := forall d, In d ds -> ~ near_zero d in
  let B := (exists d, In d ds /\ near_zero d) /\ (exists d, In d ds /\ clear_pos d) /\ (forall d, In d ds -> ~ clear_neg d) in
  let C := (exists d, In d ds /\ near_zero d) /\ (exists d, In d ds /\ clear_neg d) /\ (forall d, In d ds -> ~ clear_pos d) in
  let D := (exists d, In d ds /\ near_zero d) /\ (((exists d, In d ds /\ clear_pos d) /\ (exists d, In d ds /\ clear_neg d)) \/ (forall d, In d ds -> near_zero d)) in
  A \/ B \/ C \/ D.
Proof.
  intros ds A B C D. unfold A, B, C, D. destruct (has TX ds) eqn:X.
  - assert (HX : exists d, In d ds /\ near_zero d) by (apply has_iff in X as (d & Hd & H); exists d; rewrite tag_near; auto).
    right. destruct (has TC ds) eqn:P; destruct (has TV ds) eqn:N.
    + right. right. split; [exact HX|]. left. apply has_iff in P as (d & Hd & H). apply has_iff in N as (e & He & G). split; [exists d; rewrite tag_pos; auto|exists e; rewrite tag_neg; auto].
    + left. split; [exact HX|]. apply has_iff in P as (d & Hd & H). split; [exists d; rewrite tag_pos; auto|]. intros e He. rewrite tag_neg. apply has_false with (1 := N). exact He.
    + right. left. split; [exact HX|]. apply has_iff in N as (d & Hd & H). split; [exists d; rewrite tag_neg; auto|]. intros e He. rewrite tag_pos. apply has_false with (1 := P). exact He.
    + right. right. split; [exact HX|]. right. intros d Hd. rewrite tag_near. pose proof (proj1 (has_false _ _) P d Hd). pose proof (proj1 (has_false _ _) N d Hd). destruct (tag d); congruence.
  - left. intros d Hd. rewrite tag_near. apply has_false with (1 := X). exact Hd.
Qed.
Print Assumptions C66_cases.

(** ** C67: MultiBands(bands, deltas, btypes) *)
(** the sign a type name stands for: only its first letter counts *)
Definition kind (t : str) : option R :=
  match t with
  | c :: _ => if (ch_eq c "v" || ch_eq c "V")%bool then Some 1 else if (ch_eq c "c" || ch_eq c "C")%bool then Some (-1) else None
  | [] => None
  end.
Lemma append_ok h l i x t s : kind t = Some s -> append h l (Some i) (DNum x) (Some t) = (upd h i (sign_band (h i) s), Ok (l ++ [(i, x)])).
Proof.
  unfold kind, append. cbn [as_float]. destruct t as [|c t]; [discriminate|]. destruct (_ || _)%bool; [intros [= <-]; reflexivity|]. destruct (_ || _)%bool; [intros [= <-]; reflexivity|discriminate].
Qed.
(** append succeeds exactly for a band, a convertible offset and a recognised (or guessable) type; otherwise nothing changes *)
Theorem C67_append :
  forall (h : heap) (l : list (nat * R)) (i : nat) (d : delta_in) (t : option str) (x : R),
  (forall s, (d = DNum x \/ d = DText x) -> match t with Some n => kind n = Some s | None => (clear_pos x /\ s = -1) \/ (clear_neg x /\ s = 1) end ->
     append h l (Some i) d t = (upd h i (sign_band (h i) s), Ok (l ++ [(i, x)])))
  /\ (append h l None d t = (h, Err ValueError))
  /\ (d = DBad -> append h l (Some i) d t = (h, Err ValueError))
  /\ ((d = DNum x \/ d = DText x) -> t = None -> near_zero x -> append h l (Some i) d t = (h, Err ValueError))
  /\ (forall c r, (d = DNum x \/ d = DText x) -> t = Some (c :: r) -> kind (c :: r) = None -> append h l (Some i) d t = (h, Err ValueError))
  /\ ((d = DNum x \/ d = DText x) -> t = Some [] -> append h l (Some i) d t = (h, Err IndexError)).
Proof.
  intros h l i d t x. assert (F : d = DNum x \/ d = DText x -> as_float d = Ok x) by (intros [-> | ->]; reflexivity). assert (F0 : d = DBad -> as_float d = Err ValueError) by (intros ->; reflexivity). split; [|split; [|split; [|split; [|split]]]].
  - intros s Hd Ht. apply F in Hd. unfold append. rewrite Hd. destruct t as [t|].
    + rewrite <- (append_ok h l i x t s Ht). reflexivity.
    + destruct (C66_guess [x]) as (G & _). destruct Ht as [(Hp & ->)|(Hp & ->)].
      * rewrite G by (intros e [<-|[]]; unfold near_zero, clear_pos in *; rewrite Rabs_pos_eq by lra; lra). cbn [map]. destruct (Rlt_dec 0 x) as [|n]; [|exfalso; unfold clear_pos in Hp; lra]. reflexivity.
      * rewrite G by (intros e [<-|[]]; unfold near_zero, clear_neg in *; rewrite Rabs_left by lra; lra). cbn [map]. destruct (Rlt_dec 0 x) as [n|]; [exfalso; unfold clear_neg in Hp; lra|]. reflexivity.
  - reflexivity.
  - intros Hd. apply F0 in Hd. unfold append. rewrite Hd. reflexivity.
  - intros Hd -> Hn. apply F in Hd. unfold append. rewrite Hd. destruct (C66_guess [x]) as (_ & _ & _ & G). rewrite G; [reflexivity|exists x; split; [left; reflexivity|exact Hn]|]. right. intros e [<-|[]]. exact Hn.
  - intros c r Hd -> Hk. apply F in Hd. unfold append. rewrite Hd. unfold kind in Hk. destruct (_ || _)%bool; [discriminate|]. destruct (_ || _)%bool; [discriminate|reflexivity].
  - intros Hd ->. apply F in Hd. unfold append. rewrite Hd. reflexivity.
Qed.
Print Assumptions C67_append.

(** the type of the last entry of band i *)
Fixpoint last_kind (i : nat) (l : list (nat * R)) (ts : list str) : option R :=
  match l, ts with
  | (j, _) :: l', t :: ts' => match last_kind i l' ts' with Some s => Some s | None => if Nat.eqb i j then kind t else None end
  | _, _ => None
  end.
Lemma append_all_ok ids : forall ds ts h l, List.length ids = List.length ds -> Forall (fun t => kind t <> None) ts ->
  exists g, append_all h l (zip3 (map Some ids) (map DNum ds) (map Some ts)) = (g, Ok (l ++ firstn (List.length ts) (combine ids ds)))
  /\ forall i, g i = match last_kind i (combine ids ds) ts with Some s => sign_band (h i) s | None => h i end.
Proof.
  induction ids as [|i ids IH]; intros ds ts h l Hlen Hk.
  - exists h. split; [|intros i; reflexivity]. cbn [map zip3 append_all combine]. rewrite firstn_nil, app_nil_r. reflexivity.
  - destruct ds as [|d ds]; [discriminate|]. destruct ts as [|t ts].
    + exists h. split; [|intros j; reflexivity]. cbn [map zip3 append_all firstn List.length]. rewrite app_nil_r. reflexivity.
    + inversion Hk as [|? ? K1 K2]; subst. destruct (kind t) as [s|] eqn:Ks; [|congruence].
      cbn [map zip3 append_all combine]. rewrite (append_ok h l i d t s Ks).
      destruct (IH ds ts (upd h i (sign_band (h i) s)) (l ++ [(i, d)])) as (g & E & Hg); [cbn in Hlen; lia|exact K2|].
      exists g. split; [rewrite E; cbn [List.length firstn]; rewrite <- app_assoc; reflexivity|].
      intros j. rewrite Hg. cbn [last_kind]. rewrite Ks. destruct (Nat.eqb_spec j i) as [->|N].
      * rewrite upd_same. destruct (last_kind i (combine ids ds) ts); reflexivity.
      * rewrite upd_other by exact N. destruct (last_kind j (combine ids ds) ts); reflexivity.
Qed.
(** explicit types: as many entries as there are types (extra bands are silently dropped, extra types ignored),
    each band object takes the type of its last entry, nothing else changes *)
Theorem C67_explicit_types :
  forall (h : heap) (ids : list nat) (ds : list R) (ts : list str),
  List.length ids = List.length ds -> List.length ts <> 1%nat -> Forall (fun t => kind t <> None) ts ->
  exists g, new_multi h (map Some ids) (map DNum ds) (Some (map Some ts))
            = (g, Ok {| m_items := firstn (List.length ts) (combine ids ds); m_cache := None |})
  /\ forall i, g i = match last_kind i (combine ids ds) ts with Some s => sign_band (h i) s | None => h i end.
Proof.
  intros h ids ds ts Hlen Hn Hk. unfold new_multi. rewrite !map_length, Hlen, Nat.eqb_refl. cbn [negb].
  destruct (append_all_ok ids ds ts h [] Hlen Hk) as (g & E & Hg). exists g. split; [|exact Hg].
  destruct ts as [|t [|t' ts]].
  - cbn [map] in *. rewrite E. reflexivity.
  - cbn in Hn. lia.
  - cbn [map] in *. rewrite E. reflexivity.
Qed.
Print Assumptions C67_explicit_types.
Lemma kinds_repeat s ids : forall ds n i t, kind t = Some s -> List.length ids = List.length ds -> n = List.length ids ->
  last_kind i (combine ids ds) (repeat t n) = if existsb (Nat.eqb i) ids then Some s else None.
Proof.
  induction ids as [|j ids IH]; intros ds n i t Hk Hlen ->; [reflexivity|]. destruct ds as [|d ds]; [discriminate|].
  cbn [List.length repeat combine last_kind existsb]. rewrite (IH ds _ i t Hk ltac:(cbn in Hlen; lia) eq_refl), Hk.
  destruct (Nat.eqb i j), (existsb (Nat.eqb i) ids); reflexivity.
Qed.
Lemma map_repeat {A B} (f : A -> B) x n : map f (repeat x n) = repeat (f x) n.
Proof. induction n as [|n IH]; [reflexivity|]. cbn [repeat map]. rewrite IH. reflexivity. Qed.
(** one type applies to all bands *)
Theorem C67_one_type :
  forall (h : heap) (ids : list nat) (ds : list R) (t : str) (s : R), List.length ids = List.length ds -> kind t = Some s ->
  exists g, new_multi h (map Some ids) (map DNum ds) (Some [Some t]) = (g, Ok {| m_items := combine ids ds; m_cache := None |})
  /\ forall i, g i = if existsb (Nat.eqb i) ids then sign_band (h i) s else h i.
Proof.
  intros h ids ds t s Hlen Hk. unfold new_multi. rewrite !map_length, Hlen, Nat.eqb_refl. cbn [negb].
  destruct (append_all_ok ids ds (repeat t (List.length ds)) h [] Hlen) as (g & E & Hg).
  { apply Forall_forall. intros x Hx. apply repeat_spec in Hx. subst. congruence. }
  exists g. split.
  - rewrite map_repeat in E. rewrite E. cbn [rbind app]. rewrite repeat_length. do 3 f_equal. apply firstn_all2. rewrite combine_length. lia.
  - intros i. rewrite Hg, (kinds_repeat s ids ds (List.length ds) i t Hk Hlen) by lia. destruct (existsb _ ids); reflexivity.
Qed.
Print Assumptions C67_one_type.
Lemma mapM_num ds : mapM as_num (map DNum ds) = Ok ds.
Proof. induction ds as [|d ds IH]; [reflexivity|]. cbn [map mapM as_num rbind]. rewrite IH. reflexivity. Qed.
Lemma guess_len ds ts : guess_btypes ds = Ok ts -> List.length ts = List.length ds /\ Forall (fun t => kind t <> None) ts.
Proof.
  intros E.
  assert (C : kind (letter TC) <> None) by (cbn; discriminate). assert (V : kind (letter TV) <> None) by (cbn; discriminate).
  unfold guess_btypes in E. destruct (has TC ds) eqn:A, (has TV ds) eqn:B, (has TX ds) eqn:X; try discriminate; injection E as <-; rewrite ?map_length, ?repeat_length; (split; [reflexivity|]);
    apply Forall_forall; intros t Ht; try (apply repeat_spec in Ht; subst; assumption); apply in_map_iff in Ht as (d & <- & Hd);
    pose proof (proj1 (has_false _ _) X d Hd); destruct (tag d); congruence.
Qed.
(** no types: those guessed from all offsets; refused when they cannot be guessed or the offsets are texts *)
Theorem C67_guessed_types :
  forall (h : heap) (ids : list nat) (ds : list R), List.length ids = List.length ds ->
  (forall e, guess_btypes ds = Err e -> new_multi h (map Some ids) (map DNum ds) None = (h, Err e))
  /\ (forall ts, guess_btypes ds = Ok ts ->
      exists g, new_multi h (map Some ids) (map DNum ds) None = (g, Ok {| m_items := combine ids ds; m_cache := None |})
      /\ forall i, g i = match last_kind i (combine ids ds) ts with Some s => sign_band (h i) s | None => h i end)
  /\ (ids <> [] -> new_multi h (map Some ids) (map DText ds) None = (h, Err TypeError)).
Proof.
  intros h ids ds Hlen. unfold new_multi. rewrite !map_length, Hlen, Nat.eqb_refl. cbn [negb]. rewrite mapM_num. cbn [rbind]. split; [|split].
  - intros e ->. reflexivity.
  - intros ts E. rewrite E. cbn [rbind]. destruct (guess_len ds ts E) as (L & K). destruct (append_all_ok ids ds ts h [] Hlen K) as (g & Eg & Hg).
    exists g. rewrite Eg. split; [|exact Hg]. cbn [rbind app]. do 3 f_equal. apply firstn_all2. rewrite combine_length. lia.
  - intros Hn. destruct ids as [|i ids]; [congruence|]. destruct ds as [|d ds]; [discriminate|]. reflexivity.
Qed.
Print Assumptions C67_guessed_types.
Theorem C67_length_mismatch :
  forall h bands deltas btypes, List.length bands <> List.length deltas -> new_multi h bands deltas btypes = (h, Err ValueError).
Proof. intros h bands deltas btypes Hn. unfold new_multi. apply Nat.eqb_neq in Hn. rewrite Hn. reflexivity. Qed.
Print Assumptions C67_length_mismatch.
(** a compiled MultiBands keeps its numbers after bands are added *)
Theorem C67_append_after_compile :
  forall (h g : heap) (l l' : list (nat * R)) (c : cache) (p : prop) (a1 a2 : option R),
  method (self_multi h {| m_items := l; m_cache := Some c |}) p a1 a2 = method (self_multi g {| m_items := l'; m_cache := Some c |}) p a1 a2.
Proof. intros. apply method_ext; reflexivity. Qed.
Print Assumptions C67_append_after_compile.

(** ** C68: extend *)
Lemma extend_step_ok h l i d : (b_sign (h i) = 1 \/ b_sign (h i) = -1) ->
  extend_step h l (i, d) = (upd h i (sign_band (h i) (b_sign (h i))), Ok (l ++ [(i, d)])).
Proof.
  intros Hs. unfold extend_step. cbn [fst snd]. apply append_ok. destruct Hs as [E|E]; rewrite E; destruct (Rlt_dec 0 _); try lra; reflexivity.
Qed.
Lemma sign_band_id b : sign_band b (b_sign b) = b. Proof. destruct b. reflexivity. Qed.
Lemma upd_id h i : forall j, upd h i (sign_band (h i) (b_sign (h i))) j = h j.
Proof. intros j. unfold upd. destruct (Nat.eqb_spec j i) as [->|]; [apply sign_band_id|reflexivity]. Qed.
(** extending by another MultiBands appends its bands with their offsets and types and changes no band *)
Theorem C68_extend :
  forall (h : heap) (m other : multi), signs_ok h ->
  exists g, extend h m other = (g, Ok {| m_items := m_items m ++ m_items other; m_cache := m_cache m |}) /\ forall i, g i = h i.
Proof.
  intros h m other Hs. unfold extend.
  assert (E : forall o g l, (forall i, g i = h i) -> exists g', extend_list g l o = (g', Ok (l ++ o)) /\ forall i, g' i = h i).
  { induction o as [|(i, d) o IH]; intros g l Hg; cbn [extend_list]; [exists g; rewrite app_nil_r; auto|].
    rewrite extend_step_ok by (rewrite Hg; apply Hs). destruct (IH (upd g i (sign_band (g i) (b_sign (g i)))) (l ++ [(i, d)])) as (g' & E & Hg').
    - intros j. rewrite upd_id. apply Hg.
    - exists g'. rewrite E, <- app_assoc. auto. }
  destruct (E (m_items other) h (m_items m) (fun i => eq_refl)) as (g & Eg & Hg). exists g. rewrite Eg. auto.
Qed.
Print Assumptions C68_extend.
(** m.extend(m) never returns for a non-empty m: however many iterations are run, the loop is not finished *)
Theorem C68_self_extend_diverges :
  forall (h : heap) (l : list (nat * R)) (fuel : nat), signs_ok h -> l <> [] -> extend_self fuel h l 0 = None.
Proof.
  intros h l fuel Hs Hl.
  assert (E : forall fuel g l pos, (forall i, g i = h i) -> (pos < List.length l)%nat -> extend_self fuel g l pos = None).
  { clear l Hl fuel. induction fuel as [|k IH]; intros g l pos Hg Hp; cbn [extend_self]; [reflexivity|].
    destruct (nth_error l pos) as [(i, d)|] eqn:En; [|apply nth_error_None in En; lia].
    rewrite extend_step_ok by (rewrite Hg; apply Hs). apply IH.
    - intros j. rewrite upd_id. apply Hg.
    - rewrite app_length. cbn [List.length]. lia. }
  apply E; [reflexivity|]. destruct l; [congruence|cbn; lia].
Qed.
Print Assumptions C68_self_extend_diverges.

(** ** non-vacuity *)
Definition lin (T0 : R) : raw := spectral (fun E _ => E) (fun E _ => E) (fun E _ => 1).
Definition h0 : heap := fun i => {| b_raw := lin 300; b_sign := if Nat.eqb i 0 then -1 else 1; b_cache := None |}.
Lemma h0_signs : signs_ok h0. Proof. intros i. unfold h0. destruct (Nat.eqb i 0); cbn; auto. Qed.
Definition m0 : multi := {| m_items := [(0%nat, 0.1); (1%nat, -0.1)]; m_cache := None |}.
Lemma m0_fresh : fresh h0 m0. Proof. split; [reflexivity|]. intros; reflexivity. Qed.
Lemma m0_hall : all_hall h0 m0. Proof. intros i d _. discriminate. Qed.
Lemma m0_pos T : positive_bands h0 m0 T.
Proof. intros i d _. do 3 eexists. split; [reflexivity|]. cbv beta. auto. Qed.
Example C60_case : value (method (self_band (compile_band (h0 1%nat) 0 300 3)) PC None None) (romb_dfx (fun E _ => E) 0 300 0 6)
  /\ method (self_band (compile_band (h0 1%nat) 0 300 2)) PL None None = Err IndexError.
Proof.
  split; [rewrite C60_compile_transparent by (cbn; lia); reflexivity|]. apply (proj2 C60_levels). cbn; lia.
Qed.
Example C63_case : exists l, value (method (self_multi h0 m0) PL (Some 0) (Some 300)) l /\ 0 <= l.
Proof.
  destruct (C63_positive h0 m0 0 300 m0_fresh h0_signs (m0_pos 300) ltac:(discriminate) ltac:(lra)) as (c & cl & l & ke & _ & _ & H & _ & _ & _ & P & _). exists l. auto.
Qed.
Example C64_case : exists g m', compile_multi h0 m0 0 300 3 = (g, Ok m').
Proof.
  destruct (C64_compile_transparent h0 m0 0 300 3) as (g & m' & E & _).
  - cbn. constructor; [intros [H|[]]; discriminate|]. constructor; [intros []|constructor].
  - apply m0_hall.
  - exists g, m'. exact E.
Qed.
Lemma part_c : m_items (part h0 true m0) = [(0%nat, 0.1)].
Proof. unfold part, m0. cbn [m_items filter]. unfold is_c. cbn. destruct (Rlt_dec (-1) 0); [|lra]. destruct (Rlt_dec 1 0); [lra|]. reflexivity. Qed.
Lemma part_v : m_items (part h0 false m0) = [(1%nat, -0.1)].
Proof. unfold part, m0. cbn [m_items filter]. unfold is_c. cbn. destruct (Rlt_dec (-1) 0); [|lra]. destruct (Rlt_dec 1 0); [lra|]. reflexivity. Qed.
Example C65_case : exists kb, Kbip h0 m0 (Some 0) (Some 300) = Ok kb /\ 0 <= kb.
Proof.
  destruct (C63_positive h0 (part h0 true m0) 0 300) as (c & cl & l & ke & H1 & _ & _ & H2 & P & _).
  { apply fresh_part, m0_fresh. } { apply h0_signs. } { intros i d Hin. apply part_in in Hin. apply (m0_pos 300 i d). apply Hin. } { rewrite part_c; discriminate. } { lra. }
  destruct (C63_positive h0 (part h0 false m0) 0 300) as (c' & cl' & l' & ke' & H1' & _ & _ & H2' & P' & _).
  { apply fresh_part, m0_fresh. } { apply h0_signs. } { intros i d Hin. apply part_in in Hin. apply (m0_pos 300 i d). apply Hin. } { rewrite part_v; discriminate. } { lra. }
  destruct (C65_decomposition h0 m0 0 300 c c' ke ke' m0_fresh h0_signs) as (kb & E & K & _); try assumption; try lra.
  - rewrite part_c; discriminate.
  - rewrite part_v; discriminate.
  - exists kb. auto.
Qed.
Example C66_case : guess_btypes [0; 0.1; 0.2] = Ok [S_ "C"; S_ "C"; S_ "C"] /\ guess_btypes [0; 0.1; -0.2] = Err ValueError.
Proof.
  split.
  - destruct (C66_guess [0; 0.1; 0.2]) as (_ & G & _). apply G.
    + exists 0. split; [left; reflexivity|]. unfold near_zero. rewrite Rabs_R0. lra.
    + exists 0.1. split; [right; left; reflexivity|]. unfold clear_pos. lra.
    + unfold clear_neg. intros d [<-|[<-|[<-|[]]]]; lra.
  - destruct (C66_guess [0; 0.1; -0.2]) as (_ & _ & _ & G). apply G.
    + exists 0. split; [left; reflexivity|]. unfold near_zero. rewrite Rabs_R0. lra.
    + left. split; [exists 0.1|exists (-0.2)]; (split; [cbn [In]; auto|]); unfold clear_pos, clear_neg; lra.
Qed.
Example C67_case : exists g, new_multi h0 [Some 0%nat; Some 1%nat; Some 2%nat] [DNum 0; DNum 1; DNum 2] (Some [Some (S_ "c"); Some (S_ "V")]) = (g, Ok {| m_items := [(0%nat, 0); (1%nat, 1)]; m_cache := None |}).
Proof.
  destruct (C67_explicit_types h0 [0%nat; 1%nat; 2%nat] [0; 1; 2] [S_ "c"; S_ "V"] eq_refl) as (g & E & _).
  - cbn; lia.
  - constructor; [cbn; discriminate|]. constructor; [cbn; discriminate|constructor].
  - exists g. exact E.
Qed.
Example C68_case : forall fuel, extend_self fuel h0 (m_items m0) 0 = None.
Proof. intros fuel. apply C68_self_extend_diverges; [apply h0_signs|discriminate]. Qed.
Definition try0 (f : R -> res R) : res (R * bool) :=
  match f 0 with Ok y => Ok (0, if Req_EM_T y 0 then true else false) | Err e => Err e end.
Example C61_case : exists y, value (method (self_band (h0 1%nat)) PC (Some (0 * kB * 300)) (Some 300)) y /\ solve_EF try0 (self_band (h0 1%nat)) PC y 300 = Ok (Some (0 * kB * 300))
  /\ forall f x, try0 f = Ok (x, true) -> exists z, f x = Ok z /\ z = 0.
Proof.
  eexists. split; [reflexivity|]. split.
  - unfold solve_EF, try0. unfold residual at 1. cbn [method]. unfold fetch_K. cbn [self_band o_cache h0 b_cache o_K both rbind num].
    destruct (Req_EM_T _ 0) as [E|E]; [reflexivity|]. exfalso. apply E. apply Rminus_diag_eq. reflexivity.
  - intros f x H. unfold try0 in H. destruct (f 0) as [y|e] eqn:E; [|discriminate]. destruct (Req_EM_T y 0); [|discriminate]. injection H as <-. exists y. auto.
Qed.
Example C62_case : exists s c pf cs, value (method (self_band (h0 1%nat)) PS (Some 0) (Some 300)) s /\ value (method (self_band (h0 1%nat)) PC (Some 0) (Some 300)) c
  /\ value (method (self_band (h0 1%nat)) PPF (Some 0) (Some 300)) pf /\ value (method (self_band (h0 1%nat)) PCS (Some 0) (Some 300)) cs /\ c <> 0.
Proof.
  do 4 eexists. split; [reflexivity|]. split; [reflexivity|]. split; [reflexivity|]. split; [reflexivity|].
  apply Rgt_not_eq. apply (proj2 (C58_positive (fun E _ => E) 0 300 ltac:(lra))). auto.
Qed.
