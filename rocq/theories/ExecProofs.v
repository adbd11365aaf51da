From Verif Require Import Py PyDict ExecModel ExecSpec.

Section P.
Context {K V R : Type} {HK : EqDec K}.
Implicit Types (k : K) (w : wrapper K V) (args opts : list K) (g : K -> option V) (kv : K * V) (kw : dict K V).


Lemma dget_unset names (k : K) :
  dget (unset_dict (V:=V) names) k = if memb k names then Some None else None.
Proof.
  unfold unset_dict; rewrite dget_dupdate. cbn [dget].
  assert (E : last_val (map (fun k => (k, @None V)) names) k = if memb k names then Some None else None).
  { induction names as [|x l IH]; [reflexivity|]. cbn [map last_val]. rewrite IH.
    unfold memb; cbn [existsb]. destruct (existsb (eqb k) l); destruct (eqb k x); reflexivity. }
  rewrite E; destruct (memb k names); reflexivity.
Qed.

Lemma unset_wf names : wf (unset_dict (K:=K) (V:=V) names).
Proof. apply dupdate_wf; constructor. Qed.

Definition Inv (args opts : list K) (h : list (op K V)) (w : wrapper K V) : Prop :=
  wf (w_args w) /\ wf (w_opts w)
  /\ (forall k, dget (w_args w) k = if memb k args then Some (latest h k) else None)
  /\ (forall k, dget (w_opts w) k = if memb k opts
        then Some (if memb k args then None else latest h k) else None).

Lemma dmem_dget {W} (d : dict K W) k : dmem d k = match dget d k with Some _ => true | None => false end.
Proof.
  destruct (dget d k) eqn:E.
  - apply dmem_spec, dget_Some_In; eauto.
  - apply dget_None in E. unfold dmem; apply memb_nIn; exact E.
Qed.

Lemma latest_snoc h o (k : K) : latest (h ++ [o]) k =
  match (match o with Update kw => dget kw k | Execute _ => @None V end) with
  | Some v => Some v | None => latest h k end.
Proof.
  induction h as [|o' h IH]; cbn.
  - destruct o; [destruct (dget kwargs k); reflexivity|reflexivity].
  - rewrite IH. destruct o as [kw|kw]; [destruct (dget kw k)|]; reflexivity.
Qed.

(** one keyword at a time *)
Lemma update1_get args opts g w kv :
  (forall k, dget (w_args w) k = if memb k args then Some (g k) else None) ->
  (forall k, dget (w_opts w) k = if memb k opts then Some (if memb k args then None else g k) else None) ->
  let g' := fun k => if eqb k (fst kv) then Some (snd kv) else g k in
  (forall k, dget (w_args (update1 w kv)) k = if memb k args then Some (g' k) else None) /\
  (forall k, dget (w_opts (update1 w kv)) k
     = if memb k opts then Some (if memb k args then None else g' k) else @None (option V)).
Proof.
  intros HA HO g'; unfold update1; rewrite !dmem_dget, HA, HO.
  destruct (memb (fst kv) args) eqn:EA; cbn; [|destruct (memb (fst kv) opts) eqn:EO; cbn].
  - split; intros k; [rewrite dget_dset|]; unfold g'.
    + destruct (eqb k (fst kv)) eqn:E; [apply eqb_eq in E; subst k; rewrite EA; reflexivity|apply HA].
    + rewrite HO; destruct (eqb k (fst kv)) eqn:E; [|reflexivity].
      apply eqb_eq in E; subst k; rewrite EA; reflexivity.
  - split; intros k; [|rewrite dget_dset]; unfold g'.
    + rewrite HA; destruct (eqb k (fst kv)) eqn:E; [|reflexivity].
      apply eqb_eq in E; subst k; rewrite EA; reflexivity.
    + destruct (eqb k (fst kv)) eqn:E; [apply eqb_eq in E; subst k; rewrite EO, EA; reflexivity|apply HO].
  - split; intros k; unfold g'; [rewrite HA|rewrite HO];
      (destruct (eqb k (fst kv)) eqn:E; [apply eqb_eq in E; subst k; rewrite ?EA, ?EO; reflexivity|reflexivity]).
Qed.

Lemma update1_wf w kv : wf (w_args w) -> wf (w_opts (V:=V) w) ->
  wf (w_args (update1 (K:=K) w kv)) /\ wf (w_opts (update1 w kv)).
Proof.
  unfold update1; intros HA HO; destruct (dmem (w_args w) (fst kv)); cbn; [split; [apply dset_wf|]; assumption|].
  destruct (dmem (w_opts w) (fst kv)); cbn; [split; [|apply dset_wf]; assumption|split; assumption].
Qed.

Lemma update_get args opts kw : forall g w,
  (forall k, dget (w_args w) k = if memb k args then Some (g k) else None) ->
  (forall k, dget (w_opts w) k = if memb k opts then Some (if memb k args then None else g k) else None) ->
  let g' := fun k => match last_val kw k with Some v => Some v | None => g k end in
  (forall k, dget (w_args (update w kw)) k = if memb k args then Some (g' k) else None) /\
  (forall k, dget (w_opts (update w kw)) k
     = if memb k opts then Some (if memb k args then None else g' k) else @None (option V)).
Proof.
  induction kw as [|[k0 v0] kw IH]; intros g w HA HO g'; cbn [update fold_left].
  - split; [exact HA|exact HO].
  - destruct (update1_get args opts g w (k0, v0) HA HO) as (HA' & HO').
    destruct (IH _ _ HA' HO') as (H1 & H2). unfold g'; cbn [last_val fst snd] in *.
    split; intros k; [unfold update in H1; rewrite H1|unfold update in H2; rewrite H2];
      destruct (last_val kw k); try reflexivity; destruct (eqb k k0); reflexivity.
Qed.

Lemma update_wf kw : forall w, wf (w_args w) -> wf (w_opts w) ->
  wf (w_args (update (K:=K) (V:=V) w kw)) /\ wf (w_opts (update w kw)).
Proof.
  induction kw as [|kv kw IH]; intros w HA HO; cbn; [auto|].
  destruct (update1_wf w kv HA HO); apply IH; assumption.
Qed.

Lemma last_val_wf (d : dict K V) k : wf d -> last_val d k = dget d k.
Proof.
  unfold wf; induction d as [|[k' v'] d IH]; cbn; [reflexivity|].
  intros H; inversion H as [|? ? Hni H']; subst. rewrite IH by exact H'.
  destruct (eqb k k') eqn:E; [|destruct (dget d k); reflexivity].
  apply eqb_eq in E; subst k'. rewrite (proj2 (dget_None d k) Hni); reflexivity.
Qed.

Lemma inv_after args opts h : Forall op_ok h -> Inv args opts h (after args opts h).
Proof.
  intros Hok; induction h as [|o h IH] using rev_ind.
  - unfold after; cbn; unfold Inv; cbn.
    repeat split; try apply unset_wf; intros k; rewrite dget_unset; [reflexivity|].
    destruct (memb k opts); [destruct (memb k args)|]; reflexivity.
  - apply Forall_app in Hok; destruct Hok as (Hok & Ho); inversion Ho as [|? ? Ho' _]; subst.
    specialize (IH Hok). unfold after in *; rewrite fold_left_app; cbn [fold_left].
    set (w := fold_left step h (init args opts)) in *.
    destruct IH as (W1 & W2 & HA & HO).
    destruct o as [kw|kw]; cbn [step].
    + destruct (update_wf kw w W1 W2) as (W1' & W2').
      destruct (update_get args opts kw _ w HA HO) as (HA' & HO').
      split; [exact W1'|]; split; [exact W2'|]. cbn in Ho'.
      split; intros k; [rewrite HA'|rewrite HO']; rewrite latest_snoc, last_val_wf by exact Ho'; reflexivity.
    + split; [exact W1|]; split; [exact W2|]; split; intros k; [rewrite HA|rewrite HO]; rewrite latest_snoc; reflexivity.
Qed.

Lemma dget_set_items (d : dict K (option V)) k : wf d ->
  dget (set_items d) k = match dget d k with Some (Some v) => Some v | _ => None end.
Proof.
  unfold wf; induction d as [|[k' o] d IH]; intros Hw; [reflexivity|].
  inversion Hw as [|? ? Hni Hw']; subst. cbn. destruct o as [v|]; cbn; fold (set_items d); rewrite IH by exact Hw'.
  - destruct (eqb k k'); reflexivity.
  - destruct (eqb k k') eqn:E; [|reflexivity]. apply eqb_eq in E; subst k'.
    rewrite (proj2 (dget_None d k) Hni); reflexivity.
Qed.

Lemma set_items_wf (d : dict K (option V)) : wf d -> wf (set_items d).
Proof.
  unfold wf; induction d as [|[k' o] d IH]; intros Hw; [constructor|].
  inversion Hw as [|? ? Hni Hw']; subst. specialize (IH Hw').
  destruct o as [v|]; cbn; [|exact IH]. constructor; [|exact IH].
  intros Hin; apply Hni. unfold dkeys, set_items in Hin.
  apply in_map_iff in Hin; destruct Hin as ([k v'] & Hk & Hin); cbn in Hk; subst k.
  apply in_flat_map in Hin; destruct Hin as ([k o'] & Hin & H); cbn in H.
  destruct o'; [|destruct H]. destruct H as [H|[]]; inversion H; subst.
  apply (in_map fst) in Hin; exact Hin.
Qed.

Lemma filter_wf {W} (f : K * W -> bool) (d : dict K W) : wf d -> wf (filter f d).
Proof.
  unfold wf; induction d as [|[k v] d IH]; cbn; [auto|]. intros H; inversion H as [|? ? Hni H']; subst.
  destruct (f (k, v)); cbn; [|auto]. constructor; [|auto].
  intros Hin; apply Hni. unfold dkeys in Hin; apply in_map_iff in Hin; destruct Hin as (x & <- & Hx).
  apply filter_In in Hx; apply in_map; tauto.
Qed.

Lemma dget_filter_key (f : K -> bool) (d : dict K V) k :
  dget (filter (fun kv => f (fst kv)) d) k = if f k then dget d k else None.
Proof.
  induction d as [|[k' v] d IH]; cbn; [destruct (f k); reflexivity|].
  destruct (f k') eqn:E; cbn; destruct (eqb k k') eqn:E'; rewrite ?IH.
  - apply eqb_eq in E'; subst; rewrite E; reflexivity.
  - reflexivity.
  - apply eqb_eq in E'; subst; rewrite E; reflexivity.
  - reflexivity.
Qed.

Lemma last_val_mapsome (d : list (K * V)) k :
  last_val (map (fun kv => (fst kv, Some (snd kv))) d) k
  = match last_val d k with Some v => Some (Some v) | None => None end.
Proof.
  induction d as [|[k' v] d IH]; cbn; [reflexivity|]. rewrite IH.
  destruct (last_val d k); [reflexivity|]. destruct (eqb k k'); reflexivity.
Qed.

Theorem execute_spec (run : dict K V -> option R) args opts h kw :
  Forall op_ok h -> wf kw ->
  (forall k, In k args -> effective h kw k <> None) ->
  exists D, wf D
    /\ (forall k, dget D k = if memb k (args ++ opts) then effective h kw k else None)
    /\ execute run (after args opts h) kw
       = (Some D, match run D with Some r => Ok r | None => Err RuntimeError end).
Proof.
  intros Hh Hkw Hreq. destruct (inv_after args opts h Hh) as (W1 & W2 & HA & HO).
  set (w := after args opts h) in *. unfold execute.
  set (A1 := dupdate (w_args w) _).
  assert (WA1 : wf A1) by (apply dupdate_wf; exact W1).
  assert (HA1 : forall k, dget A1 k = if memb k args then Some (effective h kw k) else None).
  { intros k; unfold A1; rewrite dget_dupdate, last_val_mapsome.
    rewrite last_val_wf by (apply filter_wf; exact Hkw).
    rewrite (dget_filter_key (fun k => dmem (w_args w) k)), dmem_dget, HA.
    unfold effective; destruct (memb k args); [|reflexivity].
    destruct (dget kw k); reflexivity. }
  assert (Hset : existsb (fun kv : K * option V => match snd kv with None => true | Some _ => false end) A1 = false).
  { apply not_true_is_false; intros H; apply existsb_exists in H; destruct H as ([k o] & Hin & Ho).
    cbn in Ho; destruct o; [discriminate|]. apply dget_In in Hin; [|exact WA1].
    rewrite HA1 in Hin. destruct (memb k args) eqn:E; [|discriminate].
    apply memb_In in E; apply (Hreq k E). congruence. }
  rewrite Hset.
  set (D := dupdate (dupdate _ _) _).
  exists D; split; [|split].
  - unfold D; apply dupdate_wf, dupdate_wf, set_items_wf, WA1.
  - intros k; unfold D. rewrite !dget_dupdate.
    rewrite (last_val_wf (filter _ kw)) by (apply filter_wf; exact Hkw).
    rewrite (dget_filter_key (fun k => dmem (w_opts w) k)), dmem_dget, HO.
    rewrite (last_val_wf (set_items _)) by (apply set_items_wf; exact W2).
    rewrite !dget_set_items by assumption. rewrite HO, HA1.
    assert (Happ : memb k (args ++ opts) = memb k args || memb k opts)
      by (unfold memb; apply existsb_app).
    rewrite Happ.
    unfold effective.
    destruct (memb k args), (memb k opts); cbn; destruct (dget kw k); try reflexivity;
      destruct (latest h k); reflexivity.
  - destruct (run D); reflexivity.
Qed.

Theorem execute_missing (run : dict K V -> option R) args opts h kw :
  Forall op_ok h -> wf kw ->
  (exists k, In k args /\ effective h kw k = None) ->
  execute run (after args opts h) kw = (None, Err ValueError).
Proof.
  intros Hh Hkw (k & Hk & He). destruct (inv_after args opts h Hh) as (W1 & W2 & HA & HO).
  set (w := after args opts h) in *. unfold execute.
  set (A1 := dupdate (w_args w) _).
  assert (WA1 : wf A1) by (apply dupdate_wf; exact W1).
  assert (HA1 : dget A1 k = Some None).
  { unfold A1; rewrite dget_dupdate, last_val_mapsome.
    rewrite last_val_wf by (apply filter_wf; exact Hkw).
    rewrite (dget_filter_key (fun k => dmem (w_args w) k)), dmem_dget, HA.
    rewrite (proj2 (memb_In k args) Hk). unfold effective in He.
    destruct (dget kw k); [discriminate|]. rewrite He; reflexivity. }
  assert (Hset : existsb (fun kv : K * option V => match snd kv with None => true | Some _ => false end) A1 = true).
  { apply existsb_exists; exists (k, None); split; [apply dget_In; assumption|reflexivity]. }
  rewrite Hset; reflexivity.
Qed.
End P.
