From Coq Require Import String Sorted.
From Verif Require Import Py PyDict LoggerModel LoggerSpec.

Definition req_ev (s : st) (e : string * dest * bool) : st :=
  request s (fst (fst e)) (token (snd (fst e))) (snd e).

Lemma get_root_logger_events s c : get_root_logger s c = fold_left req_ev (events_of c) s.
Proof.
  unfold get_root_logger, events_of.
  destruct (c_stdout c), (c_file c) as [[f ok]|]; reflexivity.
Qed.

Lemma run_events h : run h = fold_left req_ev (events h) st0.
Proof.
  unfold run, events; generalize st0 as s; induction h as [|c h IH]; intros s; cbn; [reflexivity|].
  rewrite fold_left_app, <- get_root_logger_events; apply IH.
Qed.

Definition Live (evs : list (string * dest * bool)) (p : string) (i : nat) : Prop :=
  exists d, nth_error evs i = Some (p, d, true)
    /\ forall j d' ok, i < j -> same_token d d' -> nth_error evs j <> Some (p, d', ok).

Definition Inv (evs : list (string * dest * bool)) (s : st) : Prop :=
  next s = List.length evs
  /\ (forall p, StronglySorted lt (attached s p))
  /\ (forall p i, In i (attached s p) <-> Live evs p i)
  /\ (forall p t i, dget (table s) (p, t) = Some i ->
        i < List.length evs /\ exists d ok, nth_error evs i = Some (p, d, ok) /\ token d = t)
  /\ (forall p i d, In i (attached s p) -> nth_error evs i = Some (p, d, true) ->
        dget (table s) (p, token d) = Some i).

Lemma nth_snoc {A} (l : list A) x i :
  nth_error (l ++ [x]) i = if i <? List.length l then nth_error l i
                           else if i =? List.length l then Some x else None.
Proof.
  destruct (Nat.ltb_spec i (List.length l)).
  - apply nth_error_app1; assumption.
  - rewrite nth_error_app2 by assumption. destruct (Nat.eqb_spec i (List.length l)).
    + subst; rewrite Nat.sub_diag; reflexivity.
    + destruct (i - List.length l) as [|m] eqn:E; [lia|]. cbn; destruct m; reflexivity.
Qed.

Lemma nth_lt {A} (l : list A) i x : nth_error l i = Some x -> i < List.length l.
Proof. intros H; apply nth_error_Some; congruence. Qed.

Lemma Live_snoc evs p t0 ok0 q i :
  Live (evs ++ [(p, t0, ok0)]) q i <->
  (i = List.length evs /\ q = p /\ ok0 = true) \/
  (Live evs q i /\ ~ (q = p /\ exists d, nth_error evs i = Some (q, d, true) /\ token d = token t0)).
Proof.
  unfold Live; split.
  - intros (d & Hd & Hl). rewrite nth_snoc in Hd.
    destruct (Nat.ltb_spec i (List.length evs)) as [Hlt|Hge].
    + right; split.
      * exists d; split; [exact Hd|]. intros j d' ok Hj Hs.
        specialize (Hl j d' ok Hj Hs); rewrite nth_snoc in Hl.
        intros H; apply Hl. pose proof (nth_lt _ _ _ H) as L. apply Nat.ltb_lt in L; rewrite L; exact H.
      * intros (-> & d' & Hd' & Ht). assert (d' = d) by congruence; subst d'.
        apply (Hl (List.length evs) t0 ok0 Hlt); [exact Ht|].
        rewrite nth_snoc, Nat.ltb_irrefl, Nat.eqb_refl; reflexivity.
    + destruct (Nat.eqb_spec i (List.length evs)) as [->|]; [|discriminate].
      left; repeat split; congruence.
  - intros [(-> & -> & ->)|((d & Hd & Hl) & Hn)].
    + exists t0; split; [rewrite nth_snoc, Nat.ltb_irrefl, Nat.eqb_refl; reflexivity|].
      intros j d' ok Hj _ H; apply nth_lt in H; rewrite app_length in H; cbn in H; lia.
    + exists d; pose proof (nth_lt _ _ _ Hd) as Hlt; split.
      * rewrite nth_snoc. apply Nat.ltb_lt in Hlt; rewrite Hlt; exact Hd.
      * intros j d' ok Hj Hs H; rewrite nth_snoc in H.
        destruct (j <? List.length evs); [exact (Hl j d' ok Hj Hs H)|].
        destruct (j =? List.length evs); [|discriminate].
        inversion H; subst. apply Hn; split; [reflexivity|]. exists d; split; [exact Hd|exact Hs].
Qed.

Lemma StronglySorted_filter {A} (R : A -> A -> Prop) f l :
  StronglySorted R l -> StronglySorted R (filter f l).
Proof.
  intros H; induction H as [|x l Hs IH Hall]; cbn; [constructor|].
  destruct (f x); [|exact IH]. constructor; [exact IH|].
  rewrite Forall_forall in *; intros y Hy; apply filter_In in Hy; apply Hall; tauto.
Qed.

Lemma StronglySorted_snoc l n : StronglySorted lt l -> (forall x, In x l -> x < n) -> StronglySorted lt (l ++ [n]).
Proof.
  induction l as [|x l IH]; cbn; intros Hs Hn; [repeat constructor|].
  inversion Hs as [|? ? Hs' Hall]; subst. constructor; [apply IH; auto|].
  rewrite Forall_app; split; [exact Hall|]. constructor; [apply Hn; left; reflexivity|constructor].
Qed.

Lemma upd_same f p l : upd f p l p = l.
Proof. unfold upd; rewrite eqb_refl; reflexivity. Qed.
Lemma upd_other f p l q : q <> p -> upd f p l q = f q.
Proof. intros H; unfold upd; rewrite (proj2 (eqb_neq q p) H); reflexivity. Qed.

Lemma inv_step evs s e : Inv evs s -> Inv (evs ++ [e]) (req_ev s e).
Proof.
  destruct e as [[p d0] ok0]. intros (Hn & Hs & Hin & Htab & Hreg).
  unfold req_ev, request; cbn [fst snd].
  set (l := match dget (table s) (p, token d0) with
            | Some h => remove_handler h (attached s p) | None => attached s p end).
  assert (Hl : forall i, In i l <-> In i (attached s p) /\
              ~ exists d, nth_error evs i = Some (p, d, true) /\ token d = token d0).
  { intros i; unfold l. destruct (dget (table s) (p, token d0)) as [h|] eqn:E.
    - unfold remove_handler; rewrite filter_In, negb_true_iff, Nat.eqb_neq.
      split; intros (Hi & Hx); (split; [exact Hi|]).
      + intros (d & Hd & Ht). apply Hx. pose proof (Hreg p i d Hi Hd) as Hr. rewrite Ht in Hr. congruence.
      + intros ->. apply Hx. destruct (Htab _ _ _ E) as (_ & d & ok & Hd & Ht).
        apply Hin in Hi; destruct Hi as (d' & Hd' & _).
        exists d'; split; [exact Hd'|]. congruence.
    - split; [|tauto]. intros Hi; split; [exact Hi|]. intros (d & Hd & Ht).
      pose proof (Hreg p i d Hi Hd) as Hr; rewrite Ht in Hr; congruence. }
  assert (Hls : StronglySorted lt l).
  { unfold l; destruct (dget _ _); [apply StronglySorted_filter|]; apply Hs. }
  assert (Hllt : forall x, In x l -> x < List.length evs).
  { intros x Hx; apply Hl in Hx; destruct Hx as (Hx & _); apply Hin in Hx.
    destruct Hx as (d & Hd & _); eapply nth_lt; exact Hd. }
  assert (Hnth : forall i x, nth_error evs i = Some x -> nth_error (evs ++ [(p, d0, ok0)]) i = Some x).
  { intros i x Hx; rewrite nth_error_app1; [exact Hx|eapply nth_lt; exact Hx]. }
  assert (Hlen : List.length (evs ++ [(p, d0, ok0)]) = S (List.length evs)).
  { rewrite app_length; cbn; lia. }
  (* membership in the old list, as [Live_snoc] wants it *)
  assert (Hlive : forall q i, Live (evs ++ [(p, d0, ok0)]) q i <->
     (i = List.length evs /\ q = p /\ ok0 = true) \/ (if eqb q p then In i l else In i (attached s q))).
  { intros q i; rewrite Live_snoc. destruct (eqb q p) eqn:E.
    - apply eqb_eq in E; subst q. rewrite Hl, <- (Hin p i).
      split; (intros [H|(H1 & H2)]; [left; exact H|right; split; [exact H1|]]); intros H; apply H2; tauto.
    - apply eqb_neq in E. rewrite (Hin q i). tauto. }
  assert (Hreg' : forall q i d, In i (attached s q) -> i <> List.length evs ->
      nth_error (evs ++ [(p, d0, ok0)]) i = Some (q, d, true) ->
      (q = p -> token d <> token d0) -> dget (table s) (q, token d) = Some i).
  { intros q i d Hi Hne Hd _. apply Hreg; [exact Hi|].
    rewrite nth_snoc in Hd. destruct (i <? _); [exact Hd|].
    destruct (Nat.eqb_spec i (List.length evs)); [contradiction|discriminate]. }
  destruct ok0; unfold Inv; cbn [next table attached]; rewrite Hlen.
  - split; [congruence|]. split; [|split; [|split]].
    + intros q; destruct (eq_dec q p) as [->|Hq].
      * rewrite upd_same, Hn. apply StronglySorted_snoc; assumption.
      * rewrite upd_other by exact Hq; apply Hs.
    + intros q i. rewrite Hlive, Hn. destruct (eq_dec q p) as [->|Hq].
      * rewrite upd_same, eqb_refl, in_app_iff; cbn. split.
        -- intros [H|[H|[]]]; [right; exact H|left; auto].
        -- intros [(-> & _)|H]; [right; left; reflexivity|left; exact H].
      * rewrite upd_other by exact Hq. rewrite (proj2 (eqb_neq q p) Hq). tauto.
    + intros q t i. rewrite dget_dset. destruct (eqb (q, t) (p, token d0)) eqn:E.
      * apply eqb_eq in E; inversion E; subst. intros [= <-]. rewrite Hn. split; [lia|].
        exists d0, true; split; [|reflexivity]. rewrite nth_snoc, Nat.ltb_irrefl, Nat.eqb_refl; reflexivity.
      * intros H; destruct (Htab q t i H) as (L & d & ok & Hd & Ht). split; [lia|].
        exists d, ok; split; [apply Hnth; exact Hd|exact Ht].
    + intros q i d Hi Hd. rewrite dget_dset.
      destruct (eq_dec q p) as [->|Hq].
      * rewrite upd_same, in_app_iff, Hn in Hi. destruct Hi as [Hi|[Hi|[]]].
        -- pose proof (Hllt i Hi) as Hlt. apply Hl in Hi; destruct Hi as (Hi & Hx).
           rewrite nth_snoc in Hd. apply Nat.ltb_lt in Hlt; rewrite Hlt in Hd.
           destruct (eqb (p, token d) (p, token d0)) eqn:E.
           ++ apply eqb_eq in E. exfalso; apply Hx; exists d; split; [exact Hd|congruence].
           ++ apply Hreg; assumption.
        -- subst i. rewrite nth_snoc, Nat.ltb_irrefl, Nat.eqb_refl in Hd.
           inversion Hd; subst. rewrite eqb_refl, Hn; reflexivity.
      * rewrite upd_other in Hi by exact Hq.
        destruct (eqb (q, token d) (p, token d0)) eqn:E; [apply eqb_eq in E; congruence|].
        apply Hreg'; [exact Hi| |exact Hd|congruence].
        apply Hin in Hi; destruct Hi as (d' & Hd' & _); apply nth_lt in Hd'; lia.
  - split; [congruence|]. split; [|split; [|split]].
    + intros q; destruct (eq_dec q p) as [->|Hq]; [rewrite upd_same; exact Hls|rewrite upd_other by exact Hq; apply Hs].
    + intros q i. rewrite Hlive. destruct (eq_dec q p) as [->|Hq].
      * rewrite upd_same, eqb_refl. split; [tauto|]. intros [(_ & _ & H)|H]; [discriminate|exact H].
      * rewrite upd_other by exact Hq. rewrite (proj2 (eqb_neq q p) Hq).
        split; [tauto|]. intros [(_ & _ & H)|H]; [discriminate|exact H].
    + intros q t i H; destruct (Htab q t i H) as (L & d & ok & Hd & Ht). split; [lia|].
      exists d, ok; split; [apply Hnth; exact Hd|exact Ht].
    + intros q i d Hi Hd.
      assert (Hi' : In i (attached s q)).
      { destruct (eq_dec q p) as [->|Hq]; [rewrite upd_same in Hi; apply Hl in Hi; tauto|
          rewrite upd_other in Hi by exact Hq; exact Hi]. }
      apply Hreg; [exact Hi'|].
      assert (Hlt : i < List.length evs).
      { apply Hin in Hi'; destruct Hi' as (d' & Hd' & _); eapply nth_lt; exact Hd'. }
      rewrite nth_error_app1 in Hd by exact Hlt; exact Hd.
Qed.

Lemma inv_all evs : Inv evs (fold_left req_ev evs st0).
Proof.
  induction evs as [|e evs IH] using rev_ind.
  - cbn. unfold Inv, st0; cbn. split; [reflexivity|]. split; [intros; constructor|]. split; [|split].
    + intros p i; split; [intros []|]. intros (d & Hd & _); destruct i; discriminate.
    + discriminate.
    + intros p i d [].
  - rewrite fold_left_app; cbn. apply inv_step; exact IH.
Qed.

Theorem logger_tokens h p :
  StronglySorted lt (attached (run h) p)
  /\ forall i, In i (attached (run h) p) <-> most_recent same_token h p i.
Proof.
  rewrite run_events. destruct (inv_all (events h)) as (_ & Hs & Hin & _).
  split; [apply Hs|]. intros i; rewrite Hin; unfold Live, most_recent; tauto.
Qed.

Theorem logger_dests h p :
  (forall c ok, In c h -> c_file c <> Some ("console"%string, ok)) ->
  forall i, In i (attached (run h) p) <-> most_recent eq h p i.
Proof.
  intros Hno i. destruct (logger_tokens h p) as (_ & ->).
  assert (Hev : forall j q d ok, nth_error (events h) j = Some (q, d, ok) -> d <> File "console").
  { intros j q d ok H ->. apply nth_error_In in H. unfold events in H. apply in_flat_map in H.
    destruct H as (c & Hc & H). unfold events_of in H. apply in_app_iff in H. destruct H as [H|H].
    - destruct (c_stdout c); [destruct H as [H|[]]; discriminate|destruct H].
    - destruct (c_file c) as [[f ok']|] eqn:E; [|destruct H]. destruct H as [H|[]]. inversion H; subst.
      exact (Hno c ok Hc E). }
  unfold most_recent; split; intros (d & Hd & Hl); exists d; (split; [exact Hd|]); intros j d' ok Hj Hs H.
  - subst d'. exact (Hl j d ok Hj eq_refl H).
  - apply (Hl j d' ok Hj); [|exact H].
    pose proof (Hev _ _ _ _ Hd) as H1; pose proof (Hev _ _ _ _ H) as H2.
    unfold same_token in Hs; destruct d, d'; cbn in Hs; congruence.
Qed.
