From Verif Require Import Py PyDict RetainModel RetainSpec.
From Coq Require Import Permutation Sorted.

Lemma filter_ext_In' {A} (f g : A -> bool) l :
  (forall x, In x l -> f x = g x) -> filter f l = filter g l.
Proof. apply filter_ext_in. Qed.

Lemma filter_true {A} (f : A -> bool) l : (forall x, In x l -> f x = true) -> filter f l = l.
Proof.
  induction l as [|x l IH]; cbn; intros H; [reflexivity|].
  rewrite (H x) by auto; f_equal; apply IH; auto.
Qed.

Lemma filter_filter {A} (f g : A -> bool) l :
  filter f (filter g l) = filter (fun x => g x && f x) l.
Proof.
  induction l as [|x l IH]; cbn; [reflexivity|].
  destruct (g x); cbn; [destruct (f x); congruence|exact IH].
Qed.

Lemma subseq_filter {A} (f : A -> bool) l : subseq (filter f l) l.
Proof. induction l as [|x l IH]; cbn; [constructor|]; destruct (f x); constructor; exact IH. Qed.

Lemma filter_keys {K V} (f : K -> bool) (d : list (K * V)) :
  map fst (filter (fun kv => f (fst kv)) d) = filter f (map fst d).
Proof. induction d as [|[k v] d IH]; cbn; [reflexivity|]; destruct (f k); cbn; congruence. Qed.

Lemma NoDup_firstn_skipn_last_position {K} (l : list K) k n m :
  last_position l k n -> last_position l k m -> n = m.
Proof.
  intros (A1 & B1) (A2 & B2).
  destruct (Nat.lt_trichotomy n m) as [H|[H|H]]; [|exact H|].
  - exfalso; exact (B1 m H A2).
  - exfalso; exact (B2 n H A1).
Qed.

Lemma NoDup_app_remove_l {A} (l l' : list A) : NoDup (l ++ l') -> NoDup l'.
Proof. induction l as [|x l IH]; cbn; intros H; [exact H|]; inversion H; auto. Qed.

Section P.
Context {K V : Type} {HK : EqDec K}.

Lemma pop_all_ok (ord : list K) : forall (d p : dict K V),
  wf d -> NoDup ord -> (forall k, In k ord -> In k (dkeys d)) ->
  (forall k, In k ord -> ~ In k (dkeys p)) ->
  exists q, pop_all ord d p = Ok (filter (fun kv => negb (memb (fst kv) ord)) d, p ++ q)
            /\ map fst q = ord /\ (forall k v, In (k, v) q -> In (k, v) d).
Proof.
  induction ord as [|k ord IH]; intros d p Hw Hn Hd Hp.
  - exists []; cbn; rewrite app_nil_r. split; [|split; [reflexivity|intros ? ? []]].
    rewrite (filter_true (fun kv => true)); [reflexivity|reflexivity].
  - inversion Hn as [|? ? Hni Hn']; subst.
    destruct (proj1 (dget_Some_In d k) (Hd k (or_introl eq_refl))) as (v & Hv).
    cbn [pop_all]; unfold dpop; rewrite Hv; cbn [rbind fst snd].
    rewrite (dset_keys_notin p k v) by (apply Hp; left; reflexivity).
    destruct (IH (dremove d k) (p ++ [(k, v)])) as (q & Hq & Hf & Hin).
    + apply dremove_wf; exact Hw.
    + exact Hn'.
    + intros k' Hk'. rewrite dremove_keys, filter_In; split; [apply Hd; right; exact Hk'|].
      apply negb_true_iff, eqb_neq; intros ->; contradiction.
    + intros k' Hk'. unfold dkeys; rewrite map_app, in_app_iff; cbn.
      intros [H|[H|[]]]; [apply (Hp k'); [right; exact Hk'|exact H]|subst; contradiction].
    + exists ((k, v) :: q); split; [|split].
      * rewrite Hq, <- app_assoc; cbn [app]; f_equal; f_equal.
        unfold dremove; rewrite filter_filter; apply filter_ext; intros [k' v']; cbn.
        unfold eqb; destruct (eq_dec k k'), (eq_dec k' k); subst; try congruence; reflexivity.
      * cbn; congruence.
      * intros k' v' [H|H]; [inversion H; subst; apply dget_In; assumption|].
        apply Hin in H; unfold dremove in H; apply filter_In in H; tauto.
Qed.

Lemma pop_all_retain (ord l : list K) (d : dict K V) :
  wf d -> set_difference_order ord d l ->
  exists q, pop_all ord d [] = Ok (filter (fun kv => memb (fst kv) l) d, q)
    /\ Permutation q (filter (fun kv => negb (memb (fst kv) l)) d).
Proof.
  intros Hw (Hn & Ho).
  destruct (pop_all_ok ord d [] Hw Hn) as (q & Hq & Hf & Hin).
  - intros k Hk; apply Ho, Hk.
  - intros k _ [].
  - exists q; split.
    + rewrite Hq; cbn; f_equal; f_equal. apply filter_ext_in; intros [k v] Hk; cbn.
      assert (Hkd : In k (dkeys d)) by (apply (in_map fst) in Hk; exact Hk).
      destruct (memb k ord) eqn:E; cbn; symmetry.
      * apply memb_In, Ho in E; apply memb_nIn; tauto.
      * apply memb_nIn in E. apply memb_In.
        destruct (in_dec eq_dec k l) as [|n]; [assumption|].
        exfalso; apply E, Ho; tauto.
    + apply NoDup_Permutation.
      * apply (NoDup_map_inv fst); rewrite Hf; exact Hn.
      * apply NoDup_filter, (NoDup_map_inv fst); exact Hw.
      * intros [k v]; rewrite filter_In; cbn; rewrite negb_true_iff, memb_nIn; split.
        -- intros H; split; [apply Hin, H|].
           apply (in_map fst) in H; rewrite Hf in H; cbn in H. apply Ho, H.
        -- intros (H & Hk).
           assert (Hko : In k ord).
           { apply Ho; split; [apply (in_map fst) in H; exact H|exact Hk]. }
           rewrite <- Hf, in_map_iff in Hko; destruct Hko as ([k' v'] & Hkk & Hkv); cbn in Hkk; subst k'.
           assert (v' = v); [|subst; exact Hkv].
           apply Hin in Hkv. apply dget_In in H, Hkv; try assumption; congruence.
Qed.

(** ** indices *)
Lemma last_val_enum (l : list K) : forall s k,
  match last_val (map (fun ik => (snd ik, fst ik)) (enumerate_from s l)) k with
  | Some n => exists m, n = s + m /\ last_position l k m
  | None => ~ In k l
  end.
Proof.
  induction l as [|x l IH]; intros s k; cbn; [tauto|].
  specialize (IH (S s) k).
  destruct (last_val _ k) as [n|].
  - destruct IH as (m & -> & Hm & Hl). exists (S m); split; [lia|]; split; [exact Hm|].
    intros [|m'] Hlt; [lia|]; cbn; apply Hl; lia.
  - destruct (eqb k x) eqn:E.
    + apply eqb_eq in E; subst x. exists 0; split; [lia|]; split; [reflexivity|].
      intros [|m] Hm; [lia|]; cbn. intros H; apply nth_error_In in H; contradiction.
    + apply eqb_neq in E. intros [H|H]; [congruence|contradiction].
Qed.

Lemma indices_spec (l : list K) k :
  match dget (indices_of l) k with
  | Some n => last_position l k n
  | None => ~ In k l
  end.
Proof.
  unfold indices_of; rewrite dget_dupdate; pose proof (last_val_enum l 0 k) as H.
  destruct (last_val _ k) as [n|]; cbn; [|exact H].
  destruct H as (m & -> & Hm); exact Hm.
Qed.

Definition idx (l : list K) (k : K) : nat :=
  match dget (indices_of l) k with Some n => n | None => 0 end.

Lemma idx_last l k : In k l -> last_position l k (idx l k).
Proof.
  intros H; unfold idx; pose proof (indices_spec l k) as Hs.
  destruct (dget _ k); [exact Hs|contradiction].
Qed.

Lemma idx_inj l k k' : In k l -> In k' l -> idx l k = idx l k' -> k = k'.
Proof.
  intros H H' E. destruct (idx_last l k H) as (A & _), (idx_last l k' H') as (A' & _).
  rewrite E in A; congruence.
Qed.

Lemma numbered_ok l (d : dict K V) :
  (forall k, In k (dkeys d) -> In k l) ->
  numbered (indices_of l) d = Ok (map (fun k => (idx l k, k)) (dkeys d)).
Proof.
  unfold numbered; generalize (dkeys d) as ks; induction ks as [|k ks IH]; intros H; cbn; [reflexivity|].
  unfold dgetitem at 1, idx at 1. pose proof (indices_spec l k) as Hs.
  destruct (dget (indices_of l) k); [|exfalso; apply Hs, H; left; reflexivity].
  cbn. rewrite IH by (intros; apply H; right; assumption). reflexivity.
Qed.

(** ** the greedy loop *)
Section Loop.
Variable s : list (nat * K).
Hypothesis Hnd1 : NoDup (map fst s).
Hypothesis Hnd2 : NoDup (map snd s).

Lemma NoDup_fst_inj a b : In a s -> In b s -> fst a = fst b -> a = b.
Proof.
  clear Hnd2; revert a b Hnd1; induction s as [|x r IH]; intros a b Hnd1; [intros []|].
  inversion Hnd1 as [|? ? Hni Hnd']; subst.
  intros [->|Ha] [->|Hb] E; auto.
  - exfalso; apply Hni; rewrite E; apply in_map; exact Hb.
  - exfalso; apply Hni; rewrite <- E; apply in_map; exact Ha.
Qed.

Lemma firstn_S_nth {A} (l : list A) n x :
  nth_error l n = Some x -> firstn (S n) l = firstn n l ++ [x].
Proof.
  revert n; induction l as [|y l IH]; intros [|n]; cbn; try discriminate.
  - congruence.
  - intros H; f_equal; apply (IH n H).
Qed.

Lemma collect_ok : forall todo don n tm,
  Permutation s (don ++ todo) ->
  filter (fun x => negb (memb (snd x) (map snd tm))) don = firstn n s ->
  Permutation don (firstn n s ++ tm) -> n <= length don ->
  exists n' tm', collect_moves s todo n tm = Ok tm'
    /\ filter (fun x => negb (memb (snd x) (map snd tm'))) (don ++ todo) = firstn n' s
    /\ Permutation (don ++ todo) (firstn n' s ++ tm').
Proof.
  induction todo as [|[num key] todo IH]; intros don n tm Hp Hf Hpd Hn.
  - exists n, tm; cbn; rewrite app_nil_r; auto.
  - cbn [collect_moves]; unfold py_nth.
    assert (Hlt : n < length s).
    { rewrite (Permutation_length Hp), app_length; cbn; lia. }
    destruct (nth_error s n) as [x|] eqn:Ex;
      [|apply nth_error_None in Ex; lia].
    cbn [rbind].
    assert (Hnd : NoDup (map snd (don ++ (num, key) :: todo))).
    { rewrite <- Hp; exact Hnd2. }
    assert (Hfresh : ~ In key (map snd don)).
    { rewrite map_app in Hnd; cbn in Hnd. apply NoDup_remove_2 in Hnd.
      intros H; apply Hnd, in_or_app; left; exact H. }
    assert (Hfresh' : ~ In key (map snd tm)).
    { intros H; apply Hfresh. rewrite Hpd, map_app, in_app_iff; right; exact H. }
    assert (Happ : don ++ (num, key) :: todo = (don ++ [(num, key)]) ++ todo)
      by (rewrite <- app_assoc; reflexivity).
    rewrite Happ. destruct (num =? fst x) eqn:E.
    + apply Nat.eqb_eq in E.
      assert (Hx : x = (num, key)).
      { apply NoDup_fst_inj; [eapply nth_error_In; exact Ex| |exact (eq_sym E)].
        rewrite Hp, in_app_iff; right; left; reflexivity. }
      subst x; clear E.
      apply IH.
      * rewrite <- Happ; exact Hp.
      * rewrite filter_app, Hf; cbn.
        rewrite (proj2 (memb_nIn key (map snd tm)) Hfresh'); cbn.
        symmetry; apply firstn_S_nth; exact Ex.
      * rewrite (firstn_S_nth _ _ _ Ex), Hpd, <- !app_assoc; apply Permutation_app_head.
        cbn. symmetry; apply Permutation_cons_append.
      * rewrite app_length; cbn; lia.
    + apply IH.
      * rewrite <- Happ; exact Hp.
      * rewrite filter_app; cbn. rewrite map_app; cbn.
        replace (memb key (map snd tm ++ [key])) with true
          by (symmetry; apply memb_In, in_or_app; right; left; reflexivity).
        cbn; rewrite app_nil_r, <- Hf. apply filter_ext_in; intros y Hy; f_equal.
        assert (snd y <> key) by (intros Heq; apply Hfresh; rewrite <- Heq; apply in_map; exact Hy).
        unfold memb; rewrite existsb_app; cbn.
        rewrite (proj2 (eqb_neq (snd y) key)) by assumption. rewrite !orb_false_r; reflexivity.
      * rewrite Hpd, <- app_assoc; reflexivity.
      * rewrite app_length; cbn; lia.
Qed.
End Loop.

Lemma dget_removed (d : dict K V) k k' : k <> k' -> dget (dremove d k) k' = dget d k'.
Proof.
  intros H; unfold dremove; induction d as [|[k0 v0] d IH]; cbn; [reflexivity|].
  destruct (eqb k k0) eqn:E; cbn.
  - apply eqb_eq in E; subst k0. rewrite (proj2 (eqb_neq k' k)) by congruence. exact IH.
  - destruct (eqb k' k0); [reflexivity|exact IH].
Qed.

Lemma dget_app (d e : dict K V) k :
  dget (d ++ e) k = match dget d k with Some v => Some v | None => dget e k end.
Proof. induction d as [|[k0 v0] d IH]; cbn; [reflexivity|]; destruct (eqb k k0); auto. Qed.

Lemma move_all_ok (ks : list K) : forall (d : dict K V),
  wf d -> NoDup ks -> (forall k, In k ks -> In k (dkeys d)) ->
  exists d', move_all ks d = Ok d' /\ Permutation d d'
    /\ dkeys d' = filter (fun k => negb (memb k ks)) (dkeys d) ++ ks.
Proof.
  induction ks as [|k ks IH]; intros d Hw Hn Hd.
  - exists d; cbn; rewrite app_nil_r. repeat split; [reflexivity|].
    symmetry; apply filter_true; reflexivity.
  - inversion Hn as [|? ? Hni Hn']; subst.
    destruct (proj1 (dget_Some_In d k) (Hd k (or_introl eq_refl))) as (v & Hv).
    cbn [move_all]; unfold dmove_to_end; rewrite Hv; cbn [rbind].
    assert (Hp : Permutation d (dremove d k ++ [(k, v)])).
    { rewrite <- Permutation_cons_append.
      apply NoDup_Permutation.
      - apply (NoDup_map_inv fst); exact Hw.
      - constructor.
        + unfold dremove; rewrite filter_In; cbn; rewrite eqb_refl; cbn; intros (_ & H); discriminate.
        + apply NoDup_filter, (NoDup_map_inv fst); exact Hw.
      - intros [k' v']; cbn; unfold dremove; rewrite filter_In; cbn; rewrite negb_true_iff, eqb_neq; split.
        + intros H; destruct (eq_dec k k') as [->|n]; [left|right; auto].
          apply dget_In in H; [congruence|exact Hw].
        + intros [H|H]; [inversion H; subst; apply dget_In; assumption|tauto]. }
    destruct (IH (dremove d k ++ [(k, v)])) as (d' & Hd' & Hpd & Hk).
    + unfold wf, dkeys; rewrite <- Hp; exact Hw.
    + exact Hn'.
    + intros k' Hk'; unfold dkeys; rewrite <- Hp; apply Hd; right; exact Hk'.
    + exists d'; split; [exact Hd'|]; split; [rewrite <- Hpd; exact Hp|].
      rewrite Hk. unfold dkeys at 1; rewrite map_app, filter_app; cbn.
      rewrite (proj2 (memb_nIn k ks) Hni); cbn. rewrite <- app_assoc; cbn. f_equal.
      fold (dkeys (dremove d k)); rewrite dremove_keys, filter_filter; apply filter_ext; intros x; cbn.
      unfold eqb; destruct (eq_dec k x), (eq_dec x k); subst; try congruence; reflexivity.
Qed.

Lemma reorder_ok (l : list K) (d : dict K V) :
  wf d -> (forall k, In k (dkeys d) -> In k l) ->
  exists d', reorder l d = Ok d' /\ Permutation d d'
    /\ dkeys d' = map snd (sort_by fst (map (fun k => (idx l k, k)) (dkeys d))).
Proof.
  intros Hw Hl; unfold reorder; rewrite numbered_ok by exact Hl; cbn [rbind].
  set (number := map (fun k => (idx l k, k)) (dkeys d)).
  assert (Hsn : map snd number = dkeys d).
  { unfold number; rewrite map_map; cbn; apply map_id. }
  assert (Hn2 : NoDup (map snd number)) by (rewrite Hsn; exact Hw).
  assert (Hn1 : NoDup (map fst number)).
  { unfold number; rewrite map_map; cbn.
    unfold wf in Hw; revert Hl Hw; generalize (dkeys d) as ks; clear.
    induction ks as [|k ks IH]; intros Hl Hw; cbn; [constructor|].
    inversion Hw as [|? ? Hni Hw']; subst; constructor; [|apply IH; auto with *].
    rewrite in_map_iff; intros (k' & E & Hk'). apply idx_inj in E; [subst; contradiction| |];
      apply Hl; [right; exact Hk'|left; reflexivity]. }
  set (s := sort_by fst number).
  assert (Hps : Permutation number s) by apply sort_by_perm.
  destruct (collect_ok s) with (todo := number) (don := @nil (nat * K)) (n := 0) (tm := @nil (nat * K))
    as (n & tm & Hc & Hf & Hpd).
  - rewrite <- Hps; exact Hn1.
  - rewrite <- Hps; exact Hn2.
  - cbn; symmetry; exact Hps.
  - reflexivity.
  - reflexivity.
  - cbn; lia.
  - rewrite Hc; cbn [rbind]. cbn [app] in Hf, Hpd.
    assert (Htm : Permutation (skipn n s) tm).
    { apply (Permutation_app_inv_l (firstn n s)). rewrite firstn_skipn. etransitivity; [symmetry; exact Hps|exact Hpd]. }
    assert (Hst : sort_by fst tm = skipn n s).
    { symmetry; apply (sorted_unique fst).
      - assert (H : NoDup (map fst s)) by (rewrite <- Hps; exact Hn1).
        rewrite <- (firstn_skipn n s), map_app in H. apply NoDup_app_remove_l in H; exact H.
      - rewrite Htm; apply sort_by_perm.
      - assert (Hss : StronglySorted (by_le fst) s) by apply sort_by_sorted.
        rewrite <- (firstn_skipn n s) in Hss. apply StronglySorted_app_inv in Hss; tauto.
      - apply sort_by_sorted. }
    rewrite Hst.
    destruct (move_all_ok (map snd (skipn n s)) d Hw) as (d' & Hd' & Hpd' & Hk).
    + assert (H : NoDup (map snd s)) by (rewrite <- Hps; exact Hn2).
      rewrite <- (firstn_skipn n s), map_app in H. apply NoDup_app_remove_l in H; exact H.
    + intros k Hk. rewrite <- Hsn. rewrite Hps, <- (firstn_skipn n s), map_app, in_app_iff.
      right; exact Hk.
    + exists d'; split; [exact Hd'|]; split; [exact Hpd'|].
      rewrite Hk. rewrite <- (firstn_skipn n s) at 2. rewrite map_app; f_equal.
      rewrite <- Hf, <- Hsn. clear -Htm.
      assert (forall k, memb k (map snd (skipn n s)) = memb k (map snd tm)) as Hm.
      { intros k. apply eq_true_iff_eq. rewrite !memb_In, Htm; tauto. }
      clear Htm; revert Hm; generalize (map snd (skipn n s)) as z; intros z Hm; clear s.
      induction number as [|[i k] r IH]; cbn; [reflexivity|]. rewrite Hm.
      destruct (memb k (map snd tm)); cbn; [exact IH|f_equal; exact IH].
Qed.

(** ** The statements used in RetainProps.v *)

Theorem retain_plain (ord : list K) (d : dict K V) (keys : keys_arg K) :
  wf d -> keys <> NotIterable -> set_difference_order ord d (keys_list keys) ->
  exists d' popped,
    retain ord d keys false = (d', Ok popped)
    /\ subseq d' d
    /\ (forall k v, In (k, v) d' <-> In (k, v) d /\ In k (keys_list keys))
    /\ (forall k v, In (k, v) popped <-> In (k, v) d /\ ~ In k (keys_list keys))
    /\ wf d' /\ wf popped /\ Permutation (d' ++ popped) d.
Proof.
  intros Hw Hk Ho.
  destruct (pop_all_retain ord (keys_list keys) d Hw Ho) as (q & Hq & Hp).
  exists (filter (fun kv => memb (fst kv) (keys_list keys)) d), q.
  assert (Hwq : wf q).
  { unfold wf, dkeys; rewrite Hp, (filter_keys (fun k => negb (memb k (keys_list keys)))).
    apply NoDup_filter, Hw. }
  split; [|split; [|split; [|split; [|split; [|split]]]]].
  - destruct keys as [|l|l]; [congruence| |]; cbn [retain keys_list] in *; rewrite Hq; reflexivity.
  - apply subseq_filter.
  - intros k v; rewrite filter_In; cbn; rewrite memb_In; tauto.
  - intros k v; rewrite Hp, filter_In; cbn; rewrite negb_true_iff, memb_nIn; tauto.
  - unfold wf, dkeys; rewrite (filter_keys (fun k => memb k (keys_list keys))).
    apply NoDup_filter, Hw.
  - exact Hwq.
  - rewrite Hp. clear. induction d as [|x d IH]; cbn; [reflexivity|].
    destruct (memb (fst x) (keys_list keys)); cbn; [constructor; exact IH|].
    rewrite <- Permutation_middle; constructor; exact IH.
Qed.

Theorem retain_ordered (ord : list K) (d : dict K V) (l : list K) :
  wf d -> set_difference_order ord d l ->
  exists d' popped,
    retain ord d (Seq l) true = (d', Ok popped)
    /\ Permutation d' (fst (retain ord d (Seq l) false))
    /\ retain ord d (Seq l) false = (fst (retain ord d (Seq l) false), Ok popped)
    /\ (forall k v, In (k, v) d' <-> In (k, v) d /\ In k l)
    /\ ordered_like l d'.
Proof.
  intros Hw Ho.
  destruct (retain_plain ord d (Seq l) Hw) as (d1 & q & E & Hs & H1 & H2 & W1 & W2 & Hp1);
    [discriminate|exact Ho|].
  destruct (reorder_ok l d1 W1) as (d2 & Hr & Hp & Hk).
  { intros k Hk. unfold dkeys in Hk; rewrite in_map_iff in Hk.
    destruct Hk as ([k' v'] & <- & Hin). apply H1 in Hin; tauto. }
  exists d2, q. rewrite E; cbn [fst].
  cbn [retain keys_list] in E |- *.
  destruct (pop_all ord d []) as [[d1' q']|]; [|discriminate].
  inversion E; subst d1' q'; rewrite Hr.
  repeat split; try tauto.
  - symmetry; exact Hp.
  - rewrite <- Hp in H; apply H1 in H; tauto.
  - rewrite <- Hp in H; apply H1 in H; tauto.
  - intros H; rewrite <- Hp; apply H1; exact H.
  - intros i j a b p q' Hij Ha Hb Hpa Hpb.
    set (num := map (fun k => (idx l k, k)) (dkeys d1)) in *.
    assert (Hss : StronglySorted (by_le fst) (sort_by fst num)) by apply sort_by_sorted.
    assert (Hprop : Forall (fun x => fst x = idx l (snd x)) (sort_by fst num)).
    { rewrite <- (sort_by_perm fst num); unfold num; rewrite Forall_map; apply Forall_forall; reflexivity. }
    assert (Hka : nth_error (dkeys d2) i = Some (fst a)) by (unfold dkeys; apply map_nth_error; exact Ha).
    assert (Hkb : nth_error (dkeys d2) j = Some (fst b)) by (unfold dkeys; apply map_nth_error; exact Hb).
    assert (Hab : fst a <> fst b).
    { assert (Hnd : NoDup (dkeys d2)) by (unfold dkeys; rewrite <- Hp; exact W1).
      intros Heq; rewrite Heq in Hka.
      assert (i = j); [|lia].
      apply (proj1 (NoDup_nth_error _) Hnd); [apply nth_error_Some; congruence|congruence]. }
    rewrite Hk in Hka, Hkb.
    assert (Hle : idx l (fst a) <= idx l (fst b)).
    { clear Ha Hb; revert i j Hij Hka Hkb Hss Hprop. generalize (sort_by fst num) as t; clear.
      induction t as [|x t IH]; intros i j Hij Hka Hkb Hss Hprop; [destruct i; discriminate|].
      inversion Hss as [|? ? Hss' Hall]; inversion Hprop as [|? ? Hx Hprop']; subst.
      destruct i as [|i], j as [|j]; try lia; cbn in Hka, Hkb.
      - inversion Hka as [Hka']. rewrite <- Hx.
        apply nth_error_In, in_map_iff in Hkb; destruct Hkb as (y & Hy & Hin).
        rewrite Forall_forall in Hall, Hprop'. rewrite <- Hy, <- (Hprop' y Hin).
        apply (Hall y Hin).
      - apply (IH i j); [lia|assumption..]. }
    assert (Ia : In (fst a) l) by (destruct Hpa as (Hx & _); eapply nth_error_In; exact Hx).
    assert (Ib : In (fst b) l) by (destruct Hpb as (Hx & _); eapply nth_error_In; exact Hx).
    rewrite (NoDup_firstn_skipn_last_position _ _ _ _ Hpa (idx_last l _ Ia)).
    rewrite (NoDup_firstn_skipn_last_position _ _ _ _ Hpb (idx_last l _ Ib)).
    destruct (Nat.eq_dec (idx l (fst a)) (idx l (fst b))) as [Heq|]; [|lia].
    apply idx_inj in Heq; [contradiction|assumption..].
Qed.

Theorem retain_failures (ord : list K) (d : dict K V) :
  wf d ->
  (forall mo, retain ord d NotIterable mo = (d, Err TypeError))
  /\ (forall l, set_difference_order ord d l ->
       exists d', retain ord d (Iter l) true = (d', Err TypeError)
         /\ subseq d' d
         /\ (forall k v, In (k, v) d' <-> In (k, v) d /\ In k l)
         /\ (d' = d <-> (forall k, In k (dkeys d) -> In k l)))
  /\ (forall l mo, set_difference_order ord d l ->
       (exists p, snd (retain ord d (Seq l) mo) = Ok p) /\
       (exists p, snd (retain ord d (Iter l) false) = Ok p)).
Proof.
  intros Hw; split; [reflexivity|]; split.
  - intros l Ho.
    destruct (retain_plain ord d (Iter l) Hw) as (d1 & q & E & Hs & H1 & H2 & W1 & W2 & Hp);
      [discriminate|exact Ho|].
    exists d1. cbn [retain keys_list] in E |- *.
    destruct (pop_all ord d []) as [[d1' q']|]; [|discriminate]. inversion E; subst d1' q'.
    split; [reflexivity|]; split; [exact Hs|]; split; [exact H1|]. split.
    + intros -> k Hk. unfold dkeys in Hk; rewrite in_map_iff in Hk.
      destruct Hk as ([k' v'] & <- & Hin). apply H1 in Hin; tauto.
    + intros Hall. destruct q as [|[k v] q].
      * apply Permutation_length in Hp; rewrite app_nil_r in Hp.
        clear -Hs Hp.
        assert (Hlen : forall (a b : list (K * V)), subseq a b -> length a <= length b)
          by (induction 1; cbn; lia).
        induction Hs as [|x a b Hs IH|x a b Hs IH]; cbn in Hp; [reflexivity| |].
        -- f_equal; apply IH; lia.
        -- apply Hlen in Hs; lia.
      * exfalso. destruct (proj1 (H2 k v)) as (Hin & Hn); [left; reflexivity|].
        apply Hn, Hall. apply (in_map fst) in Hin; exact Hin.
  - intros l mo Ho; split.
    + destruct mo.
      * destruct (retain_ordered ord d l Hw Ho) as (d' & p & -> & _); exists p; reflexivity.
      * destruct (retain_plain ord d (Seq l) Hw) as (d1 & p & -> & _); [discriminate|exact Ho|].
        exists p; reflexivity.
    + destruct (retain_plain ord d (Iter l) Hw) as (d1 & p & -> & _); [discriminate|exact Ho|].
      exists p; reflexivity.
Qed.

End P.
