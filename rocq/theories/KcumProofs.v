(** Lemmas for cumulative conductivities on arrays. *)
From Coq Require Import ZArith Reals String Ascii Lra Lia.
From Verif Require Import Py PyDict PyStr RUtil ScatModel EngModel DebyeModel ArrModel ArrSpec ArrProofs VecModel VecSpec VecProofs VecProps BvecSpec BvecProofs KvecModel KvecSpec KvecProofs.
Local Open Scope list_scope.
Local Open Scope nat_scope.

Section Cum.
Variable X : Type.
Variable ka : karith X.
Let ar := k_ar ka.
Let z := a_lit ar 0%R.
Lemma upd_at ax k j (p q : list nat) : List.length p = ax -> upd ax j (p ++ k :: q) = p ++ j :: q.
Proof. intros <-. unfold upd. rewrite firstn_app, firstn_all, Nat.sub_diag. cbn [firstn]. rewrite app_nil_r. f_equal. f_equal. replace (S (List.length p)) with (List.length p + 1) by lia. rewrite <- skipn_skipn, skipn_app, skipn_all, Nat.sub_diag. reflexivity. Qed.
Lemma nth_at ax k (p q : list nat) : List.length p = ax -> nth ax (p ++ k :: q) 0 = k.
Proof. intros <-. rewrite app_nth2 by lia. rewrite Nat.sub_diag. reflexivity. Qed.
Lemma csum_snoc l t : csum X ka (l ++ [t]) = match l with [] => t | _ => a_add ar (csum X ka l) t end.
Proof. destruct l as [|a l]; [reflexivity|]. cbn [app csum]. rewrite fold_left_app. reflexivity. Qed.
Lemma index_mid s p k q : index s (p ++ k :: q) -> exists m, nth_error s (List.length p) = Some m /\ k < m /\ forall j, j < m -> index s (p ++ j :: q).
Proof.
  revert s. induction p as [|a p IH]; intros s I; inversion I as [|n k' s' i' H1 H2]; subst.
  - exists n. split; [reflexivity|]. split; [exact H1|]. intros j Hj. constructor; assumption.
  - destruct (IH _ H2) as (m & E & Hk & H). exists m. split; [exact E|]. split; [exact Hk|]. intros j Hj. cbn. constructor; [exact H1|apply H, Hj].
Qed.
Lemma elem_get (A : nd X) s i x : array A -> shape A = s -> elem A i x -> bc_get z A i = x.
Proof.
  intros HA <- E. assert (I := proj1 E). apply (sees_fun A i); [apply (bc_get_sees z A (shape A) i HA (fits_refl _) I)|]. 
  exact (proj2 (proj2 (proj2 (exact_rel X (shape A) i A x HA eq_refl (fun _ => E)))) I).
Qed.
Lemma cum_running (Y W : nd X) ax m n : array Y -> array W -> nth_error (shape Y) ax = Some m -> Nat.max 1 n = m ->
  (shape W = [n] \/ (List.length (shape W) = List.length (shape Y) /\ nth_error (shape W) ax = Some n /\ fits (shape W) (shape Y))) ->
  exists C, cum_nd X ka Y W ax = Ok C /\ running ar Y C ax (freq_at W).
Proof.
  intros HY HW Em Hn Hs.
  set (f := fun i j => match shape W with [_] => nth j (flat W) z | _ => bc_get z W (upd ax j i) end).
  set (C := Nd (shape Y) (List.map (fun p => let i := unravel (shape Y) p in
                  csum X ka (List.map (fun j => a_div ar (a_mul ar (a_sub ar (f i (S j)) (f i j)) (a_add ar (bc_get z Y (upd ax (S j) i)) (bc_get z Y (upd ax j i)))) (a_lit ar 2)) (seq 0 (nth ax i 0)))) (seq 0 (size (shape Y))))).
  exists C. split.
  - assert (G : negb (Z.of_nat (n - 1) =? Z.of_nat m - 1)%Z = false) by (apply Bool.negb_false_iff, Z.eqb_eq; lia).
    unfold cum_nd. rewrite Em. unfold C, f. destruct Hs as [Hs|(L & En & _)].
    + rewrite Hs, G. reflexivity.
    + destruct (shape W) as [|a [|b r]] eqn:Sw.
      * destruct ax; discriminate.
      * destruct ax as [|ax]; [|destruct ax; discriminate]. cbn in En. injection En as ->. rewrite G. reflexivity.
      * rewrite L, Nat.eqb_refl. cbn [negb]. rewrite En, G. reflexivity.
  - split; [unfold array, C; cbn [flat shape]; rewrite map_length, seq_length; apply size_count|]. split; [reflexivity|]. intros p q Lp.
    assert (V : forall k c, elem C (p ++ k :: q) c -> c = csum X ka (List.map (fun j => a_div ar (a_mul ar (a_sub ar (f (p ++ k :: q) (S j)) (f (p ++ k :: q) j)) (a_add ar (bc_get z Y (p ++ S j :: q)) (bc_get z Y (p ++ j :: q)))) (a_lit ar 2)) (seq 0 k))).
    { intros k c (I & E). unfold C in I, E. cbn [flat shape] in I, E. rewrite nth_error_map in E. assert (Lt := place_lt _ _ I).
      destruct (nth_error (seq 0 (size (shape Y))) (place (shape Y) (p ++ k :: q))) as [r|] eqn:Er; [|discriminate]. 
      assert (r = place (shape Y) (p ++ k :: q)). { apply nth_error_nth with (d := 0) in Er. rewrite seq_nth in Er by exact Lt. lia. } subst r. cbn [option_map] in E. injection E as <-. cbv zeta.
      rewrite (unravel_place _ _ I), (nth_at ax k p q Lp). f_equal. apply map_ext. intros j. rewrite !(upd_at ax k _ p q Lp). reflexivity. }
    assert (Fq : forall k j, f (p ++ k :: q) j = match shape W with [_] => nth j (flat W) z | _ => bc_get z W (p ++ j :: q) end) by (intros k j; unfold f; rewrite (upd_at ax k j p q Lp); reflexivity).
    split; [intros c Hc; apply (V 0 c Hc)|]. intros k c' x0 x1 y0 y1 Hc X0 X1 Y0 Y1. cbv zeta.
    assert (Fx : forall j x, index (shape Y) (p ++ j :: q) -> freq_at W p j q x -> match shape W with [_] => nth j (flat W) z | _ => bc_get z W (p ++ j :: q) end = x).
    { intros j x I. unfold freq_at. destruct Hs as [Hs|(_ & _ & Fw)].
      - rewrite Hs. intros (I1 & E1). rewrite Hs in E1. unfold place in E1. cbn in E1. apply nth_error_nth with (d := z) in E1. exact E1.
      - assert (S : forall x, sees W (p ++ j :: q) x -> bc_get z W (p ++ j :: q) = x) by (intros y Sy; apply (sees_fun W (p ++ j :: q)); [apply (bc_get_sees z W (shape Y)); assumption|exact Sy]).
        destruct (shape W) as [|a [|b r]] eqn:Sw; [apply S| |apply S]. intros (I1 & E1). rewrite Sw in E1. unfold place in E1. cbn in E1. apply nth_error_nth with (d := z) in E1. exact E1. }
    assert (T := V (S k) c' Hc). rewrite seq_S, map_app in T. cbn [List.map plus] in T. rewrite csum_snoc in T.
    rewrite !Fq, (Fx (S k) x1 (proj1 Y1) X1), (Fx k x0 (proj1 Y0) X0), (elem_get Y _ _ _ HY eq_refl Y0), (elem_get Y _ _ _ HY eq_refl Y1) in T.
    destruct k as [|k]; [exact T|].
    assert (AC : array C) by (unfold array, C; cbn [flat shape]; rewrite map_length, seq_length; apply size_count).
    destruct (elem_ex C (p ++ S k :: q) AC (proj1 Y0)) as (c & Ec). exists c. split; [exact Ec|]. rewrite (V (S k) c Ec).
    etransitivity; [exact T|]. 
    assert (G : forall (f1 f2 : nat -> X) t, (forall j, f1 j = f2 j) -> match List.map f1 (seq 0 (S k)) with [] => t | _ => a_add ar (csum X ka (List.map f1 (seq 0 (S k)))) t end = a_add ar (csum X ka (List.map f2 (seq 0 (S k)))) t).
    { intros f1 f2 t H. rewrite (map_ext f1 f2 H). reflexivity. }
    apply G. intros j. rewrite !Fq. reflexivity.
Qed.
Lemma cum_refused (Y W : nd X) ax m : nth_error (shape Y) ax = Some m ->
  ((exists n, shape W = [n] /\ Nat.max 1 n <> m) \/ (List.length (shape W) <> 1 /\ List.length (shape W) <> List.length (shape Y)) \/ (List.length (shape W) = List.length (shape Y) /\ exists n, nth_error (shape W) ax = Some n /\ Nat.max 1 n <> m)) ->
  cum_nd X ka Y W ax = Err ValueError.
Proof.
  intros Em H. assert (G : forall n, Nat.max 1 n <> m -> negb (Z.of_nat (n - 1) =? Z.of_nat m - 1)%Z = true) by (intros n Hn; apply Bool.negb_true_iff, Z.eqb_neq; lia).
  unfold cum_nd. rewrite Em. destruct H as [(n & -> & Hn)|[(H1 & H2)|(L & n & En & Hn)]].
  - rewrite (G n Hn). reflexivity.
  - apply Nat.eqb_neq in H2. destruct (shape W) as [|a [|b r]]; [rewrite H2; reflexivity|cbn in H1; congruence|rewrite H2; reflexivity].
  - destruct (shape W) as [|a [|b r]] eqn:Sw.
    + destruct ax; discriminate.
    + destruct ax as [|[|ax]]; [|discriminate|discriminate]. injection En as ->. rewrite (G n Hn). reflexivity.
    + rewrite L, Nat.eqb_refl. cbn [negb]. rewrite En, (G n Hn). reflexivity.
Qed.
(** ** mean free paths *)
Lemma fits_snoc a d b e : fits (a ++ [d]) (b ++ [e]) <-> fits a b /\ (d = 1 \/ d = e).
Proof. rewrite !fits_rev, !rev_app_distr. cbn [rev app]. split; [intros H; inversion H; subst; auto|intros (H1 & H2); constructor; assumption]. Qed.
Lemma fits_ends a d r : fits (a ++ [d]) r -> exists b e, r = b ++ [e].
Proof. intros F. apply fits_length in F. rewrite app_length in F. cbn in F. destruct (exists_last (l := r)) as (b & e & ->); [intros ->; cbn in F; lia|]. eauto. Qed.
Lemma forall2_snoc {A B} (P : A -> B -> Prop) l a m b : Forall2 P (l ++ [a]) (m ++ [b]) -> Forall2 P l m /\ P a b.
Proof. intros H. apply forall2_rev in H. rewrite !rev_app_distr in H. inversion H as [|? ? ? ? H1 H2]; subst. split; [|exact H1]. apply forall2_rev in H2. rewrite !rev_involutive in H2. exact H2. Qed.
Lemma index_snoc s n i j : index (s ++ [n]) (i ++ [j]) <-> index s i /\ j < n.
Proof. split; [intros H; exact (forall2_snoc (fun n k => k < n) s n i j H)|]. intros (H1 & H2). apply index_app; [exact H1|constructor; [exact H2|constructor]]. Qed.
Lemma proj_snoc t d i k : List.length t <= List.length i -> proj (t ++ [d]) (i ++ [k]) = proj t i ++ [if d =? 1 then 0 else k].
Proof.
  intros L. unfold proj. rewrite !app_length. cbn [List.length]. replace (List.length i + 1 - (List.length t + 1)) with (List.length i - List.length t) by lia.
  rewrite skipn_app. replace (List.length i - List.length t - List.length i) with 0 by lia. cbn [skipn].
  assert (L' : List.length t = List.length (skipn (List.length i - List.length t) i)) by (rewrite skipn_length; lia). revert L'. generalize (skipn (List.length i - List.length t) i). clear. induction t as [|a t IH]; intros [|b m] L; try discriminate L; [reflexivity|].
  cbn [app combine List.map]. f_equal. apply IH. cbn in L. congruence.
Qed.
Lemma rel_into c ic s i (t : list nat -> Prop) A x : rel X c ic t A x -> fits c s -> (index s i -> index c ic /\ proj c i = ic) -> rel X s i t A x.
Proof.
  intros (HA & F & T & E) Fc Hi. split; [exact HA|]. split; [exact (fits_trans _ _ _ F Fc)|]. split; [exact T|]. intros I. destruct (Hi I) as (Ic & P). specialize (E Ic).
  apply sees_proj in E; [|rewrite (index_length _ _ Ic); apply fits_length, F]. apply sees_proj; [rewrite (index_length _ _ I); apply fits_length, (fits_trans _ _ _ F Fc)|]. rewrite <- P, (proj_trans _ _ _ _ F Fc I) in E. exact E.
Qed.
Lemma last_rel (M : nd X) s i n j x : array M -> fits (shape M) s -> (index s i -> sees M i x) -> rel X (s ++ [n]) (i ++ [j]) (eq (shape M ++ [1])) (last_axis X M) x.
Proof.
  intros HM F Sx. apply plain_rel; unfold last_axis; cbn [shape].
  - unfold array in *. cbn [flat shape]. rewrite HM. rewrite <- !size_count, size_app. cbn. lia.
  - apply fits_snoc. auto.
  - intros I. apply index_snoc in I as (I & Hj). specialize (Sx I). assert (L : List.length (shape M) <= List.length i) by (rewrite (index_length _ _ I); apply fits_length, F).
    apply sees_proj in Sx; [|exact L]. apply sees_proj; [cbn [shape]; rewrite !app_length; cbn; lia|]. cbn [shape]. rewrite proj_snoc by exact L. cbn [Nat.eqb]. destruct Sx as (I1 & E1). split; [apply index_snoc; cbn; split; [exact I1|lia]|].
    cbn [flat shape]. rewrite place_app; [|apply index_length, I1|reflexivity]. cbn. rewrite Nat.mul_1_r, Nat.add_0_r. exact E1.
Qed.
Lemma sum_last_elem (A : nd X) s n i (v : nat -> X) : array A -> shape A = s ++ [n] -> index s i -> (forall j, j < n -> elem A (i ++ [j]) (v j)) -> elem (sum_last X ka A) i (k_sum ka (List.map v (seq 0 n))).
Proof.
  intros HA Sh I E. unfold sum_last. rewrite Sh, removelast_last, last_last. split; [exact I|]. cbn [shape flat]. rewrite nth_error_map. assert (Lt := place_lt _ _ I).
  destruct (nth_error (seq 0 (size s)) (place s i)) as [r|] eqn:Er; [|apply nth_error_None in Er; rewrite seq_length in Er; lia].
  assert (r = place s i). { apply nth_error_nth with (d := 0) in Er. rewrite seq_nth in Er by exact Lt. lia. } subst r. cbn [option_map]. f_equal. f_equal. apply map_ext_in. intros j Hj. apply in_seq in Hj.
  destruct (E j ltac:(lia)) as (_ & E'). rewrite Sh in E'. rewrite place_app in E'; [|apply index_length, I|reflexivity]. cbn in E'. rewrite Nat.mul_1_r in E'. apply nth_error_nth with (d := z) in E'. exact E'.
Qed.
Lemma sum_last_shape (A : nd X) s n : shape A = s ++ [n] -> array (sum_last X ka A) /\ shape (sum_last X ka A) = s.
Proof. intros Sh. unfold sum_last. rewrite Sh, removelast_last. split; [|reflexivity]. unfold array. cbn [flat shape]. rewrite map_length, seq_length. apply size_count. Qed.
Lemma entries3_ok (f : nd X -> nd X -> nd X -> res (nd X)) : forall D l r, List.length D <= List.length l -> List.length D <= List.length r ->
  (forall k E a b, nth_error D k = Some E -> nth_error l k = Some a -> nth_error r k = Some b -> exists y, f (snd E) a b = Ok y) ->
  exists out, entries3 X f D l r = Ok out /\ List.map fst out = List.map fst D /\ forall k e, nth_error out k = Some e -> exists E a b, nth_error D k = Some E /\ nth_error l k = Some a /\ nth_error r k = Some b /\ f (snd E) a b = Ok (snd e) /\ fst e = fst E.
Proof.
  induction D as [|E D IH]; intros l r Hl Hr H; [exists []; split; [reflexivity|]; split; [reflexivity|]; intros [|k] e; discriminate|].
  destruct l as [|a l]; [cbn in Hl; lia|]. destruct r as [|b r]; [cbn in Hr; lia|]. cbn [entries3]. destruct (H 0 E a b eq_refl eq_refl eq_refl) as (y & Ey). rewrite Ey.
  destruct (IH l r) as (out & Eo & K & G); [cbn in Hl; lia|cbn in Hr; lia|intros k; exact (H (S k))|]. rewrite Eo. cbv beta iota delta [rbind]. eexists. split; [reflexivity|]. split; [cbn [List.map fst]; f_equal; exact K|].
  intros [|k] e He; [injection He as <-; exists E, a, b; auto|]. exact (G k e He).
Qed.
Lemma mapM_length {A B} (f : A -> res B) : forall l m, mapM f l = Ok m -> List.length m = List.length l.
Proof. induction l as [|a l IH]; intros m H; [injection H as <-; reflexivity|]. cbn [mapM] in H. unfold rbind in H. destruct (f a); [|discriminate]. destruct (mapM f l) as [m'|]; [|discriminate]. injection H as <-. cbn. f_equal. apply IH. reflexivity. Qed.
Lemma accum_length : forall l P D, v_accum X ka (nd X) (u2 z) P l = Ok D -> List.length D = List.length l.
Proof.
  induction l as [|e l IH]; intros P D H; [injection H as <-; reflexivity|]. cbn [v_accum] in H. unfold rbind in H. destruct (match P with Some p => _ | None => _ end) as [e'|]; [|discriminate].
  match type of H with match ?x with _ => _ end = _ => destruct x as [r|] eqn:E; [|discriminate] end. injection H as <-. cbn. f_equal. exact (IH _ _ E).
Qed.
Lemma dset_length {V} : forall (d : list (str * V)) k v, List.length (dset d k v) <= S (List.length d).
Proof. induction d as [|[k' v'] d IH]; intros k v; [cbn; lia|]. cbn [dset]. destruct (eqb k k'); cbn [List.length]; [lia|]. specialize (IH k v). lia. Qed.
Lemma dupdate_length {V} : forall (e d : list (str * V)), List.length (dupdate d e) <= List.length d + List.length e.
Proof. unfold dupdate. induction e as [|a e IH]; intros d; cbn [fold_left List.length]; [lia|]. eapply Nat.le_trans; [apply IH|]. pose proof (dset_length d (fst a) (snd a)). lia. Qed.
Lemma spectral_length td vs L W T acc D : nd_spectral X ka td vs L W T acc = Ok D -> List.length D <= List.length L.
Proof.
  unfold nd_spectral, v_spectral. cbv zeta. unfold rbind. fold ar z. destruct (u2 z _ _ T) as [W'|]; [|discriminate]. destruct (u2 z _ _ T) as [T'|]; [|discriminate]. destruct (rates (nd X) L W' T') as [o|] eqn:E1; [|discriminate].
  destruct (if acc then _ else _) as [o'|] eqn:E2; [|discriminate]. destruct (v_factor _ _ _ _ _ _ _ _ _) as [F|]; [|discriminate]. destruct (u2 z _ W' F) as [F'|]; [|discriminate]. destruct (mapM _ o') as [D'|] eqn:E3; [|discriminate].
  intros H. injection H as <-. eapply Nat.le_trans; [apply dupdate_length|]. cbn [List.length plus]. apply mapM_length in E1, E3. rewrite E3, <- E1. destruct acc; [apply accum_length in E2; lia|injection E2 as <-; lia].
Qed.
Lemma spectral_nonempty td vs L W T acc D : nd_spectral X ka td vs L W T acc = Ok D -> L <> [] -> D <> [].
Proof.
  unfold nd_spectral, v_spectral. cbv zeta. unfold rbind. fold ar z. destruct (u2 z _ _ T) as [W'|]; [|discriminate]. destruct (u2 z _ _ T) as [T'|]; [|discriminate]. destruct (rates (nd X) L W' T') as [o|] eqn:E1; [|discriminate].
  destruct (if acc then _ else _) as [o'|] eqn:E2; [|discriminate]. destruct (v_factor _ _ _ _ _ _ _ _ _) as [F|]; [|discriminate]. destruct (u2 z _ W' F) as [F'|]; [|discriminate]. destruct (mapM _ o') as [D'|] eqn:E3; [|discriminate].
  intros H N. injection H as <-. apply mapM_length in E1, E3. assert (N' : D' <> []). { intros ->. cbn in E3. destruct L; [congruence|]. cbn in E1. destruct acc; [apply accum_length in E2; lia|injection E2 as <-; lia]. }
  destruct D' as [|e D']; [congruence|]. unfold dupdate. cbn [fold_left dset]. generalize (fst e) (snd e). clear. assert (G : forall (l : list (str * nd X)) d, d <> [] -> fold_left (fun d kv => dset d (fst kv) (snd kv)) l d <> []).
  { induction l as [|a l IH]; intros d H; [exact H|]. cbn [fold_left]. apply IH. destruct d as [|[k v] d]; [congruence|]. cbn [dset]. destruct (eqb _ _); discriminate. }
  intros k v. apply G. discriminate.
Qed.
(** all axes of length 1 *)
Lemma ones_proj rl : Forall (eq 1) rl -> forall i, List.length rl <= List.length i -> proj rl i = repeat 0 (List.length rl).
Proof.
  intros H i L. unfold proj. assert (L' : List.length rl = List.length (skipn (List.length i - List.length rl) i)) by (rewrite skipn_length; lia). revert L'. generalize (skipn (List.length i - List.length rl) i). clear i L.
  induction H as [|a rl Ha H IH]; intros [|b m] L; try discriminate L; [reflexivity|]. subst a. cbn. f_equal. apply IH. cbn in L. congruence.
Qed.
Lemma count_one s : count s = 1 -> Forall (eq 1) s.
Proof. induction s as [|a s IH]; [constructor|]. cbn. intros H. apply Nat.eq_mul_1 in H as (-> & H). constructor; [reflexivity|apply IH, H]. Qed.
Lemma ones_index rl : Forall (eq 1) rl -> index rl (repeat 0 (List.length rl)).
Proof. induction 1 as [|a l Ha H IH]; [constructor|]. subst a. cbn. constructor; [lia|exact IH]. Qed.
Lemma bins_common rl n : common [[n]; rl ++ [1]] (rl ++ [n]).
Proof.
  split.
  - constructor; [|constructor; [|constructor]]. + exact (proj2 (fits_snoc [] n rl n) (conj (fits_nil rl) (or_intror eq_refl))). + apply fits_snoc. split; [apply fits_refl|auto].
  - intros r H. pose proof (Forall_inv H) as H1. pose proof (Forall_inv (Forall_inv_tail H)) as H2. destruct (fits_ends rl 1 r H2) as (b & e & ->). apply fits_snoc in H2 as (H2 & _). apply (proj1 (fits_snoc [] n b e)) in H1 as (_ & H1). apply fits_snoc. auto.
Qed.
Lemma mfp_common M rl s n : common [M; rl] s -> common [M ++ [1]; rl ++ [n]] (s ++ [n]).
Proof.
  intros (F & Mi). pose proof (Forall_inv F) as F1. pose proof (Forall_inv (Forall_inv_tail F)) as F2. split; [constructor; [apply fits_snoc; auto|constructor; [apply fits_snoc; auto|constructor]]|].
  intros r H. pose proof (Forall_inv H) as H1. pose proof (Forall_inv (Forall_inv_tail H)) as H2. destruct (fits_ends M 1 r H1) as (b & e & ->). apply fits_snoc in H1 as (H1 & _). apply fits_snoc in H2 as (H2 & H3). apply fits_snoc. split; [|exact H3].
  apply Mi. constructor; [exact H1|constructor; [exact H2|constructor]].
Qed.
Lemma bins_rel rl n f j : rel X (rl ++ [n]) (repeat 0 (List.length rl) ++ [j]) (eq [n]) (bins X n f) (f j).
Proof.
  apply plain_rel; [unfold array; cbn; rewrite map_length, seq_length; lia|exact (proj2 (fits_snoc [] n rl n) (conj (fits_nil rl) (or_intror eq_refl)))|].
  intros I. apply index_snoc in I as (_ & Hj). exists (repeat 0 (List.length rl)), [j]. split; [reflexivity|]. split; [|reflexivity]. cbn [shape bins combine List.map fst snd].
  assert (E : (if n =? 1 then 0 else j) = j) by (destruct (Nat.eqb_spec n 1); lia). rewrite E. split; [constructor; [exact Hj|constructor]|]. unfold place. cbn [shape bins flat combine fold_left fst snd]. rewrite nth_error_map.
  cbn. destruct (nth_error (seq 0 n) j) as [r|] eqn:Er; [|apply nth_error_None in Er; rewrite seq_length in Er; lia]. apply nth_error_nth with (d := 0) in Er. rewrite seq_nth in Er by exact Hj. cbn in Er. subst r. reflexivity.
Qed.
Lemma temp_rel (T : nd X) rl n j t : array T -> shape T = rl ++ [1] -> flat T = [t] -> rel X (rl ++ [n]) (repeat 0 (List.length rl) ++ [j]) (eq (shape T)) T t.
Proof.
  intros HT Sh Fl. assert (F : fits (shape T) (rl ++ [n])) by (rewrite Sh; apply fits_snoc; split; [apply fits_refl|auto]). apply plain_rel; [exact HT|exact F|]. intros I.
  pose proof (bc_get_sees t T _ _ HT F I) as S. assert (E : bc_get t T (repeat 0 (List.length rl) ++ [j]) = t). { unfold bc_get. rewrite Fl. destruct (dot _ _) as [|[|k]]; reflexivity. } rewrite E in S. exact S.
Qed.
Lemma drel_nth s i D d k E : drel X s i D d -> nth_error D k = Some E -> exists e, nth_error d k = Some e /\ fst E = fst e /\ rel X s i (eq s) (snd E) (snd e).
Proof. intros H. revert k. induction H as [|E0 e0 D d (HK & HE) HD IH]; intros [|k] HkE; try discriminate; [injection HkE as <-; exists e0; split; [reflexivity|]; auto|]. exact (IH k HkE). Qed.
Lemma drel_nth' s i D d k e : drel X s i D d -> nth_error d k = Some e -> exists E, nth_error D k = Some E /\ fst E = fst e /\ rel X s i (eq s) (snd E) (snd e).
Proof. intros H. revert k. induction H as [|E0 e0 D d (HK & HE) HD IH]; intros [|k] HkE; try discriminate; [injection HkE as <-; exists E0; split; [reflexivity|]; auto|]. exact (IH k HkE). Qed.
End Cum.
