From Verif Require Import Py PyDict ListDictModel.
From Coq Require Import Permutation.

Lemma mapM_Ok {A B} (f : A -> res B) l ys :
  mapM f l = Ok ys <-> Forall2 (fun x y => f x = Ok y) l ys.
Proof.
  revert ys; induction l as [|x l IH]; intros ys; cbn.
  - split; [intros [= <-]; constructor|intros H; inversion H; reflexivity].
  - destruct (f x) as [y|e] eqn:E; cbn.
    + destruct (mapM f l) as [ys'|e] eqn:E'; cbn; split.
      * intros [= <-]; constructor; [exact E|]; apply IH; reflexivity.
      * intros H; inversion H as [|? y' ? ys'' Hy Hys]; subst.
        apply IH in Hys; congruence.
      * discriminate.
      * intros H; inversion H as [|? y' ? ys'' Hy Hys]; subst. apply IH in Hys; discriminate.
    + split; [discriminate|]. intros H; inversion H; congruence.
Qed.

Lemma mapM_Err {A B} (f : A -> res B) l e :
  mapM f l = Err e -> exists x, In x l /\ f x = Err e.
Proof.
  induction l as [|x l IH]; cbn; [discriminate|].
  destruct (f x) as [y|e'] eqn:E; cbn.
  - destruct (mapM f l); cbn; [discriminate|]. intros [= ->].
    destruct (IH eq_refl) as (z & Hz & Hf); eauto.
  - intros [= ->]; eauto.
Qed.

Section P.
Context {K V : Type} {HK : EqDec K}.
Implicit Types (ds : list (dict K V)).

Lemma as_dicts_Dict ds : as_dicts (map Dict ds) = Ok ds.
Proof. induction ds as [|d ds IH]; cbn; [reflexivity|rewrite IH; reflexivity]. Qed.

Lemma as_dicts_NotDict (l : list (obj K V)) : In NotDict l -> as_dicts l = Err ValueError.
Proof.
  induction l as [|[d|] l IH]; cbn; [tauto| |reflexivity].
  intros [H|H]; [discriminate|]; rewrite IH; [reflexivity|exact H].
Qed.

Lemma dgetitem_Ok (d : dict K V) k v : dgetitem d k = Ok v <-> dget d k = Some v.
Proof. unfold dgetitem; destruct (dget d k); split; congruence. Qed.

Lemma dgetitem_Err (d : dict K V) k e : dgetitem d k = Err e -> e = KeyError /\ ~ In k (dkeys d).
Proof.
  unfold dgetitem; destruct (dget d k) eqn:E; [discriminate|].
  intros [= <-]; split; [reflexivity|apply dget_None; exact E].
Qed.

Lemma dupdate_nodup {W} (rst : list (K * W)) : NoDup (map fst rst) -> dupdate [] rst = rst.
Proof.
  intros H. unfold dupdate.
  assert (G : forall (r acc : list (K * W)), NoDup (map fst (acc ++ r)) ->
            fold_left (fun d kv => dset d (fst kv) (snd kv)) r acc = acc ++ r).
  { induction r as [|[k v] r IH]; intros acc Ha; cbn; [rewrite app_nil_r; reflexivity|].
    rewrite dset_keys_notin.
    - rewrite IH; rewrite <- app_assoc; [reflexivity|exact Ha].
    - unfold dkeys; rewrite map_app in Ha; cbn in Ha. apply NoDup_remove_2 in Ha.
      intros Hin; apply Ha, in_or_app; left; exact Hin. }
  apply (G rst []); exact H.
Qed.

(** [merge] of dictionaries: complete characterisation for distinct keys. *)
Theorem merge_spec ds (ks : list K) :
  NoDup ks ->
  ((forall d k, In d ds -> In k ks -> In k (dkeys d)) ->
     exists m, merge (map Dict ds) (Some ks) = Ok m /\ dkeys m = ks
       /\ forall k l, In (k, l) m ->
            length l = length ds
            /\ forall i d, nth_error ds i = Some d -> nth_error l i = dget d k)
  /\ ((exists d k, In d ds /\ In k ks /\ ~ In k (dkeys d)) ->
       merge (map Dict ds) (Some ks) = Err KeyError).
Proof.
  intros Hn; unfold merge; rewrite as_dicts_Dict; cbn [rbind sel_keys].
  assert (Hvs : forall k vs, mapM (fun d : dict K V => dgetitem d k) ds = Ok vs ->
     length vs = length ds /\ forall i d, nth_error ds i = Some d -> nth_error vs i = dget d k).
  { intros k vs H; apply mapM_Ok in H; clear Hn.
    induction H as [|d v ds' vs' Hd Hds IH]; [split; [reflexivity|intros [|i] d; discriminate]|].
    destruct IH as (L & N); split; [cbn; congruence|].
    intros [|i] d'; cbn; [intros [= <-]; apply dgetitem_Ok in Hd; congruence|apply N]. }
  split.
  - intros Hall.
    assert (Hrst : exists rst, mapM (fun k => let! vs := mapM (fun d : dict K V => dgetitem d k) ds in Ok (k, vs)) ks
                   = Ok rst).
    { destruct (mapM (fun k => _) ks) as [rst|e] eqn:E; [eauto|]. exfalso.
      apply mapM_Err in E; destruct E as (k & Hk & E).
      destruct (mapM (fun d => dgetitem d k) ds) as [vs|e'] eqn:E'; cbn in E; [discriminate|].
      apply mapM_Err in E'; destruct E' as (d & Hd & E').
      apply dgetitem_Err in E'; apply (proj2 E'), Hall; assumption. }
    destruct Hrst as (rst & Hr); rewrite Hr; cbn [rbind].
    apply mapM_Ok in Hr.
    assert (Hkr : map fst rst = ks).
    { clear -Hr; induction Hr as [|k [k' l] ks rst H Hr IH]; cbn; [reflexivity|].
      destruct (mapM _ ds); cbn in H; [|discriminate]. inversion H; subst; cbn; congruence. }
    rewrite dupdate_nodup by (rewrite Hkr; exact Hn).
    exists rst; split; [reflexivity|]; split; [exact Hkr|].
    intros k l Hin. clear Hkr Hall Hn.
    induction Hr as [|k0 [k' l'] ks rst H Hr IH]; [destruct Hin|].
    destruct Hin as [Heq|Hin]; [|apply IH; exact Hin].
    inversion Heq; subst. destruct (mapM _ ds) as [vs|] eqn:E; cbn in H; [|discriminate].
    inversion H; subst. apply Hvs; exact E.
  - intros (d & k & Hd & Hk & Hnk).
    destruct (mapM _ ks) as [rst|e] eqn:E.
    + exfalso. apply mapM_Ok in E. revert Hk; induction E as [|k0 [k' l'] ks rst H Hr IH]; [intros []|].
      intros [<-|Hk]; [|apply IH; [inversion Hn; assumption|exact Hk]].
      destruct (mapM (fun d => dgetitem d k0) ds) as [vs|] eqn:E; cbn in H; [|discriminate].
      destruct (Hvs _ _ E) as (L & N).
      apply In_nth_error in Hd; destruct Hd as (i & Hi).
      pose proof (N i d Hi) as Hv. apply dget_None in Hnk; rewrite Hnk in Hv.
      apply nth_error_None in Hv. assert (i < length ds) by (apply nth_error_Some; congruence). lia.
    + cbn. apply mapM_Err in E; destruct E as (k0 & Hk0 & E).
      destruct (mapM (fun d => dgetitem d k0) ds) as [vs|e'] eqn:E'; cbn in E; [discriminate|].
      apply mapM_Err in E'; destruct E' as (d' & Hd' & E'). apply dgetitem_Err in E'. destruct E' as (-> & _).
      inversion E; reflexivity.
Qed.

Lemma append_loop_ok (o : dict K V) : forall todo don,
  (forall k, In k (dkeys todo) -> In k (dkeys o)) ->
  append_loop don todo o
  = (don ++ map (fun kl => (fst kl, snd kl ++ match dget o (fst kl) with Some v => [v] | None => [] end)) todo, Ok tt).
Proof.
  induction todo as [|[k l] todo IH]; intros don H; cbn [append_loop].
  - cbn; rewrite app_nil_r; reflexivity.
  - destruct (proj1 (dget_Some_In o k)) as (v & Hv); [apply H; left; reflexivity|].
    unfold dgetitem; rewrite Hv. rewrite IH by (intros; apply H; right; assumption).
    rewrite <- app_assoc; cbn. rewrite Hv; reflexivity.
Qed.

Lemma append_loop_fail (o : dict K V) : forall pre don k l post,
  (forall x, In x (dkeys pre) -> In x (dkeys o)) -> ~ In k (dkeys o) ->
  append_loop don (pre ++ (k, l) :: post) o
  = (don ++ map (fun kl => (fst kl, snd kl ++ match dget o (fst kl) with Some v => [v] | None => [] end)) pre
         ++ (k, l) :: post, Err KeyError).
Proof.
  induction pre as [|[k' l'] pre IH]; intros don k l post H Hk; cbn [append_loop app].
  - unfold dgetitem. rewrite (proj2 (dget_None o k) Hk). reflexivity.
  - destruct (proj1 (dget_Some_In o k')) as (v & Hv); [apply H; left; reflexivity|].
    unfold dgetitem; rewrite Hv, IH; [|intros; apply H; right; assumption|exact Hk].
    rewrite <- app_assoc; cbn; rewrite Hv; reflexivity.
Qed.

Theorem append_spec (d : dict K (list V)) (o : dict K V) :
  (forall k, In k (dkeys d) -> In k (dkeys o)) ->
  exists d', append d (Dict o) = (d', Ok tt)
    /\ dkeys d' = dkeys d
    /\ forall k l, wf d -> In (k, l) d -> exists v, dget o k = Some v /\ In (k, l ++ [v]) d'.
Proof.
  intros H; unfold append; rewrite append_loop_ok by exact H; cbn [app].
  eexists; split; [reflexivity|]; split.
  - unfold dkeys; rewrite map_map; reflexivity.
  - intros k l _ Hin. destruct (proj1 (dget_Some_In o k)) as (v & Hv).
    + apply H. apply (in_map fst) in Hin; exact Hin.
    + exists v; split; [exact Hv|]. apply in_map_iff; exists (k, l); split; [cbn; rewrite Hv; reflexivity|exact Hin].
Qed.

Theorem append_not_atomic (pre post : dict K (list V)) k l (o : dict K V) :
  (forall x, In x (dkeys pre) -> In x (dkeys o)) -> ~ In k (dkeys o) ->
  exists pre', append (pre ++ (k, l) :: post) (Dict o) = (pre' ++ (k, l) :: post, Err KeyError)
    /\ append pre (Dict o) = (pre', Ok tt)
    /\ (pre <> [] -> pre' ++ (k, l) :: post <> pre ++ (k, l) :: post).
Proof.
  intros H Hk; unfold append; rewrite append_loop_fail by assumption.
  rewrite append_loop_ok by exact H; cbn [app].
  eexists; split; [reflexivity|]; split; [reflexivity|].
  intros Hne E. apply app_inv_tail in E.
  destruct pre as [|[k0 l0] pre]; [congruence|]. cbn in E. injection E; intros _ E1.
  destruct (proj1 (dget_Some_In o k0)) as (v & Hv); [apply H; left; reflexivity|].
  rewrite Hv in E1. apply (f_equal (@length _)) in E1; rewrite app_length in E1; cbn in E1; lia.
Qed.

(** The merged dictionary, explicitly. *)
Lemma merge_explicit ds (ks : list K) m :
  NoDup ks -> merge (map Dict ds) (Some ks) = Ok m ->
  (forall d k, In d ds -> In k ks -> In k (dkeys d)) /\
  m = map (fun k => (k, flat_map (fun d => match dget d k with Some v => [v] | None => [] end) ds)) ks.
Proof.
  intros Hn; unfold merge; rewrite as_dicts_Dict; cbn [rbind sel_keys].
  destruct (mapM (fun k => _) ks) as [rst|e] eqn:E; cbn [rbind]; [|discriminate].
  intros [= <-]. apply mapM_Ok in E.
  assert (G : forall k l, (let! vs := mapM (fun d : dict K V => dgetitem d k) ds in Ok (k, vs)) = Ok l ->
     (forall d, In d ds -> In k (dkeys d)) /\
     l = (k, flat_map (fun d => match dget d k with Some v => [v] | None => [] end) ds)).
  { intros k l H. destruct (mapM (fun d : dict K V => dgetitem d k) ds) as [vs|] eqn:E'; cbn in H; [|discriminate].
    apply mapM_Ok in E'. inversion H; subst; clear -E'.
    assert (G : (forall d, In d ds -> In k (dkeys d)) /\
       vs = flat_map (fun d => match dget d k with Some v => [v] | None => [] end) ds).
    { induction E' as [|d v ds' vs' Hd _ IH]; [split; [intros ? []|reflexivity]|].
      apply dgetitem_Ok in Hd. destruct IH as (I1 & I2); split.
      - intros d' [<-|Hd']; [apply dget_Some_In; eauto|auto].
      - cbn; rewrite Hd; cbn; congruence. }
    destruct G as (G1 & G2); split; [exact G1|congruence]. }
  assert (Hrst : (forall d k, In d ds -> In k ks -> In k (dkeys d)) /\
    rst = map (fun k => (k, flat_map (fun d => match dget d k with Some v => [v] | None => [] end) ds)) ks).
  { clear Hn; induction E as [|k l ks rst H Hr IH]; [split; [intros ? ? ? []|reflexivity]|].
    apply G in H; destruct H as (H1 & H2), IH as (I1 & I2). split.
    - intros d k' Hd [<-|Hk']; auto.
    - cbn; congruence. }
  destruct Hrst as (H1 & H2); split; [exact H1|].
  rewrite dupdate_nodup; [exact H2|]. rewrite H2, map_map; cbn; rewrite map_id; exact Hn.
Qed.

Lemma merge_Ok ds ks : NoDup ks -> (forall d k, In d ds -> In k ks -> In k (dkeys d)) ->
  merge (map Dict ds) (Some ks)
  = Ok (map (fun k => (k, flat_map (fun d => match dget d k with Some v => [v] | None => [] end) ds)) ks).
Proof.
  intros Hn H. destruct (proj1 (merge_spec ds ks Hn) H) as (m & Hm & _).
  rewrite Hm; f_equal. apply (merge_explicit ds ks m Hn Hm).
Qed.

Definition append_all (d : dict K (list V)) (os : list (dict K V)) : dict K (list V) * res unit :=
  fold_left (fun s o => match snd s with Ok _ => append (fst s) (Dict o) | Err _ => s end) os (d, Ok tt).

Theorem merge_history ds os (ks : list K) m :
  NoDup ks -> merge (map Dict ds) (Some ks) = Ok m ->
  (forall o k, In o os -> In k ks -> In k (dkeys o)) ->
  exists m', append_all m os = (m', Ok tt) /\ merge (map Dict (ds ++ os)) (Some ks) = Ok m'.
Proof.
  intros Hn Hm; revert ds m Hm; unfold append_all.
  induction os as [|o os IH]; intros ds m Hm Ho; cbn [fold_left].
  - exists m; rewrite app_nil_r; auto.
  - destruct (merge_explicit ds ks m Hn Hm) as (Hd & Em).
    destruct (append_spec m o) as (m1 & H1 & _ & _).
    { intros k Hk; apply Ho; [left; reflexivity|].
      rewrite Em in Hk; unfold dkeys in Hk; rewrite map_map, map_id in Hk; exact Hk. }
    cbn [snd fst]. rewrite H1.
    assert (Hm1 : merge (map Dict (ds ++ [o])) (Some ks) = Ok m1).
    { rewrite merge_Ok; [|exact Hn|].
      - unfold append in H1. rewrite append_loop_ok in H1.
        + inversion H1; subst m1; f_equal. rewrite Em; cbn; rewrite map_map; apply map_ext; intros k; cbn.
          rewrite flat_map_app; cbn; rewrite app_nil_r; reflexivity.
        + intros k Hk; apply Ho; [left; reflexivity|].
          rewrite Em in Hk; unfold dkeys in Hk; rewrite map_map, map_id in Hk; exact Hk.
      - intros d k Hin Hk; apply in_app_iff in Hin; destruct Hin as [Hin|[<-|[]]]; [auto|].
        apply Ho; [left; reflexivity|exact Hk]. }
    destruct (IH (ds ++ [o]) m1 Hm1) as (m' & H' & Hm'); [intros; apply Ho; [right|]; assumption|].
    exists m'; split; [exact H'|]. rewrite <- app_assoc in Hm'; exact Hm'.
Qed.

Theorem merge_default_keys (d : dict K V) ds :
  merge (map Dict (d :: ds)) None = merge (map Dict (d :: ds)) (Some (dkeys d))
  /\ merge (K:=K) (V:=V) [] None = Err IndexError.
Proof. split; [|reflexivity]. unfold merge; rewrite as_dicts_Dict; reflexivity. Qed.

Theorem not_dict_rejected (l : list (obj K V)) ks add start (d : dict K (list V)) :
  In NotDict l ->
  merge l ks = Err ValueError /\ sum add l start ks = Err ValueError
  /\ append d NotDict = (d, Err ValueError).
Proof.
  intros H; unfold merge, sum; rewrite as_dicts_NotDict by exact H; repeat split.
Qed.

Lemma mapM_all_Ok {A B} (f : A -> res B) (g : A -> B) l :
  (forall x, In x l -> f x = Ok (g x)) -> mapM f l = Ok (map g l).
Proof.
  induction l as [|x l IH]; intros H; cbn; [reflexivity|].
  rewrite H by (left; reflexivity); cbn. rewrite IH by (intros; apply H; right; assumption). reflexivity.
Qed.

Theorem sum_spec ds (ks : list K) add start m :
  NoDup ks -> merge (map Dict ds) (Some ks) = Ok m ->
  exists s, sum add (map Dict ds) start (Some ks) = Ok s /\
  dkeys s = ks /\
  forall k l, In (k, l) m -> dget s k = Some (fold_left add l start).
Proof.
  intros Hn Hm. destruct (merge_explicit ds ks m Hn Hm) as (Hd & Em).
  set (col := fun k => flat_map (fun d : dict K V => match dget d k with Some v => [v] | None => [] end) ds) in *.
  assert (Hcol : forall k, In k ks -> mapM (fun d : dict K V => dgetitem d k) ds = Ok (col k)).
  { intros k Hk. assert (Hk' : forall d, In d ds -> In k (dkeys d)) by (intros; apply Hd; auto).
    unfold col; clear -Hk'; induction ds as [|d ds IH]; [reflexivity|]; cbn.
    destruct (proj1 (dget_Some_In d k)) as (v & Hv); [apply Hk'; left; reflexivity|].
    rewrite (proj2 (dgetitem_Ok d k v) Hv); cbn.
    rewrite IH by (intros; apply Hk'; right; assumption). rewrite Hv; reflexivity. }
  unfold sum; rewrite as_dicts_Dict; cbn [rbind sel_keys].
  rewrite (mapM_all_Ok _ (fun k => (k, fold_left add (col k) start)))
    by (intros k Hk; rewrite (Hcol k Hk); reflexivity).
  cbn [rbind]. rewrite dupdate_nodup by (rewrite map_map; cbn; rewrite map_id; exact Hn).
  eexists; split; [reflexivity|]; split; [unfold dkeys; rewrite map_map; cbn; apply map_id|].
  intros k l Hin. apply dget_In.
  - unfold wf, dkeys; rewrite map_map; cbn; rewrite map_id; exact Hn.
  - rewrite Em in Hin. apply in_map_iff in Hin; destruct Hin as (k' & Heq & Hk'). inversion Heq; subst.
    apply in_map_iff; exists k; auto.
Qed.
End P.

Section E.
Context {K A : Type} {HK : EqDec K}.
Lemma extend_loop_ok (o : dict K (list A)) : forall todo don,
  (forall k, In k (dkeys todo) -> In k (dkeys o)) ->
  extend_loop don todo o
  = (don ++ map (fun kl => (fst kl, snd kl ++ match dget o (fst kl) with Some v => v | None => [] end)) todo, Ok tt).
Proof.
  induction todo as [|[k l] todo IH]; intros don H; cbn [extend_loop].
  - cbn; rewrite app_nil_r; reflexivity.
  - destruct (proj1 (dget_Some_In o k)) as (v & Hv); [apply H; left; reflexivity|].
    unfold dgetitem; rewrite Hv. rewrite IH by (intros; apply H; right; assumption).
    rewrite <- app_assoc; cbn. rewrite Hv; reflexivity.
Qed.
Theorem extend_spec (d : dict K (list A)) (o : dict K (list A)) :
  (forall k, In k (dkeys d) -> In k (dkeys o)) ->
  exists d', extend d (Dict o) = (d', Ok tt)
    /\ dkeys d' = dkeys d
    /\ forall k l, In (k, l) d -> exists v, dget o k = Some v /\ In (k, l ++ v) d'.
Proof.
  intros H; unfold extend; rewrite extend_loop_ok by exact H; cbn [app].
  eexists; split; [reflexivity|]; split.
  - unfold dkeys; rewrite map_map; reflexivity.
  - intros k l Hin. destruct (proj1 (dget_Some_In o k)) as (v & Hv).
    + apply H. apply (in_map fst) in Hin; exact Hin.
    + exists v; split; [exact Hv|]. apply in_map_iff; exists (k, l); split; [cbn; rewrite Hv; reflexivity|exact Hin].
Qed.
End E.
