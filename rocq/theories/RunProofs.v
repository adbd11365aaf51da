From Coq Require Import ZArith Reals Lra String Ascii Permutation.
From Verif Require Import Py PyStr PyDict RUtil CfgSpec CfgModel DataModel SubsModel Regex RetainModel RetainSpec RetainProofs RetainProps ExecModel ExecSpec ExecProofs ExecProps KvarSpec InstrSpec TxtSpec TxtModel TxtProofs TxtProps FmtSpec CliSpec CliModel CliProofs CliProps MonoModel InterpModel ZtModel EngModel CmdSpec CmdModel CmdProofs CmdProps RunSpec RunModel.
Local Open Scope list_scope.
Local Open Scope R_scope.

(** tables *)
Lemma to_rows_ok cols n : cols <> [] -> Forall (fun c => List.length c = n) cols -> exists rows, to_rows 0 cols = Ok rows /\ by_columns n cols rows.
Proof.
  intros N H. destruct cols as [|c r]; [congruence|]. inversion H as [|? ? Hc Hr]; subst. unfold to_rows.
  assert (E : forallb (fun q => Nat.eqb (List.length q) (List.length c)) r = true). { apply forallb_forall. intros q Hq. rewrite Forall_forall in Hr. apply Nat.eqb_eq, Hr, Hq. }
  rewrite E. eexists. split; [reflexivity|]. split; [rewrite map_length, seq_length; reflexivity|]. intros i row Hi.
  assert (Li : (i < List.length c)%nat). { assert (Q : nth_error (map (fun i => map (fun q => nth i q 0) (c :: r)) (seq 0 (List.length c))) i <> None) by congruence. apply nth_error_Some in Q. rewrite map_length, seq_length in Q. exact Q. }
  assert (Er : row = map (fun q => nth i q 0) (c :: r)). { rewrite (map_nth_error (fun i => map (fun q => nth i q 0) (c :: r)) i (seq 0 (List.length c)) (d := i)) in Hi; [injection Hi; auto|]. rewrite (nth_error_nth' _ 0%nat) by (rewrite seq_length; exact Li). rewrite seq_nth by exact Li. rewrite Nat.add_0_l. reflexivity. }
  subst row. split; [apply map_length|]. intros j q Hj. rewrite (map_nth_error _ _ _ Hj). symmetry. apply nth_error_nth'. apply nth_error_In in Hj. rewrite Forall_forall in H. rewrite (H q Hj). exact Li.
Qed.
Lemma to_rows_empty : @to_rows R 0 [] = Err ValueError. Proof. reflexivity. Qed.
Lemma to_rows_ragged (cols : list (list R)) a b : In a cols -> In b cols -> List.length a <> List.length b -> to_rows 0 cols = Err ValueError.
Proof.
  destruct cols as [|c r]; [intros []|]. intros Ha Hb Hn. unfold to_rows. destruct (forallb _ r) eqn:E; [|reflexivity]. exfalso. rewrite forallb_forall in E.
  assert (G : forall x, In x (c :: r) -> List.length x = List.length c). { intros x [->|Hx]; [reflexivity|]. apply Nat.eqb_eq, E, Hx. }
  apply Hn. rewrite (G a Ha), (G b Hb). reflexivity.
Qed.
Lemma to_file_text num stamp bare headers title labels rows : stamp <> [] -> one_line stamp -> one_line title -> Forall one_line labels ->
  to_file num stamp bare headers title labels rows = file_text num stamp bare headers title labels rows.
Proof.
  intros N Hs Ht Hl. unfold file_text. destruct bare; [apply C113_bare|]. destruct headers.
  - rewrite C113_headers by assumption. reflexivity.
  - rewrite C113_default by assumption. destruct (label_line labels); reflexivity.
Qed.

(** options *)
Lemma given_last_val {V} (l : list (str * V)) k : given_last l k = last_val l k.
Proof.
  induction l as [|[n v] r IH]; [reflexivity|]. cbn [given_last last_val]. rewrite IH. destruct (last_val r k); [reflexivity|]. destruct (eqb n k) eqn:E.
  - apply eqb_eq in E. subst. rewrite eqb_refl. reflexivity.
  - apply eqb_neq in E. destruct (eqb k n) eqn:E2; [apply eqb_eq in E2; congruence|reflexivity].
Qed.
Lemma stored_wf given : wf (stored given). Proof. apply (dupdate_wf given []). constructor. Qed.
Lemma stored_get given k : dget (stored given) k = given_last given k.
Proof. refine (eq_trans (dget_dupdate given [] k) _). rewrite given_last_val. destruct (last_val given k); reflexivity. Qed.

(** dispatch *)
Lemma chain_some l w t : chain l w = Some t -> exists n, In (n, t) l /\ startswith w n = true.
Proof. induction l as [|[n u] r IH]; [discriminate|]. cbn [chain]. destruct (startswith w n) eqn:E; [intros [= <-]; exists n; split; [left; reflexivity|exact E]|]. intros H. destruct (IH H) as (m & A & B). exists m. split; [right; exact A|exact B]. Qed.
Lemma chain_none l w : chain l w = None <-> forall n t, In (n, t) l -> startswith w n = false.
Proof.
  induction l as [|[n u] r IH]; [split; [intros _ ? ? []|reflexivity]|]. cbn [chain]. destruct (startswith w n) eqn:E.
  - split; [discriminate|]. intros H. specialize (H n u (or_introl eq_refl)). congruence.
  - rewrite IH. split; [intros H m t [[= <- <-]|Hi]; [exact E|exact (H m t Hi)]|intros H m t Hi; apply (H m t); right; exact Hi].
Qed.
Lemma two_names w n t m u : In (n, t) tasks -> In (m, u) tasks -> startswith w n = true -> startswith w m = true -> t = u.
Proof.
  intros Hn Hm A B. apply startswith_spec in A as (x & ->). apply startswith_spec in B as (y & E).
  assert (G : firstn 4 n = firstn 4 m). { assert (P := f_equal (firstn 4) E). clear E. cbn in Hn, Hm. repeat destruct Hn as [[= <- <-]|Hn]; repeat destruct Hm as [[= <- <-]|Hm]; try contradiction; cbn in P |- *; congruence. }
  clear E. cbn in Hn, Hm. repeat destruct Hn as [[= <- <-]|Hn]; repeat destruct Hm as [[= <- <-]|Hm]; try contradiction; try reflexivity; cbn in G; discriminate.
Qed.

(** columns with the inputs in front *)
Section Front.
Context {V : Type}.
Lemma drop_dset (P : str -> bool) (d : dict str V) k v : P k = false -> filter (fun kv => P (fst kv)) (dset d k v) = filter (fun kv => P (fst kv)) d.
Proof.
  intros Hk. induction d as [|[n x] d IH]; cbn [dset filter fst]; [rewrite Hk; reflexivity|]. destruct (eqb k n) eqn:E.
  - apply eqb_eq in E. subst n. cbn [filter fst]. rewrite Hk. reflexivity.
  - cbn [filter fst]. rewrite IH. reflexivity.
Qed.
Lemma drop_dupdate (P : str -> bool) (u d : dict str V) : (forall k, In k (dkeys u) -> P k = false) -> filter (fun kv => P (fst kv)) (dupdate d u) = filter (fun kv => P (fst kv)) d.
Proof.
  revert d. induction u as [|[k v] u IH]; intros d H; [reflexivity|]. refine (eq_trans (IH (dset d k v) _) _); [intros q Hq; apply H; right; exact Hq|]. apply drop_dset. apply H. left. reflexivity.
Qed.
Lemma fronted (f : str -> V) ks : forall d : dict str V, NoDup ks -> (forall k, In k ks -> dget d k = Some (f k)) ->
  fold_left to_front ks d = rev (map (fun k => (k, f k)) ks) ++ filter (fun kv => negb (memb (fst kv) ks)) d.
Proof.
  induction ks as [|k ks IH]; intros d N H.
  - cbn. symmetry. apply filter_true. intros; reflexivity.
  - inversion N as [|? ? Hk Hn]; subst. cbn [fold_left map rev]. assert (E : to_front d k = (k, f k) :: dremove d k) by (unfold to_front; rewrite (H k (or_introl eq_refl)); reflexivity). rewrite E.
    rewrite IH; [|exact Hn|].
    + rewrite <- app_assoc. f_equal. cbn [filter fst app]. destruct (memb k ks) eqn:Em; [apply memb_In in Em; contradiction|]. cbn [negb]. f_equal. unfold dremove.
      rewrite filter_filter. apply filter_ext. intros [n x]. cbn [fst]. unfold memb. cbn [existsb]. destruct (eqb n k) eqn:A.
      * apply eqb_eq in A. subst. rewrite eqb_refl. cbn. rewrite ?andb_false_r. reflexivity.
      * apply eqb_neq in A. destruct (eqb k n) eqn:B; [apply eqb_eq in B; congruence|]. cbn. rewrite ?andb_true_r. reflexivity.
    + intros q Hq. cbn [dget]. destruct (eqb q k) eqn:A; [apply eqb_eq in A; subst; contradiction|]. apply eqb_neq in A. rewrite dget_removed by congruence. apply H. right. exact Hq.
Qed.
End Front.
Lemma inputs_columns get : inputs get = columns_of get quantities. Proof. reflexivity. Qed.
Definition present (get : str -> option (list R)) (k : str) : bool := match get k with Some _ => true | None => false end.
Definition val (get : str -> option (list R)) (k : str) : list R := match get k with Some v => v | None => [] end.
Lemma columns_filter get l : columns_of get l = map (fun k => (k, val get k)) (filter (present get) l).
Proof. unfold columns_of, present, val. induction l as [|k l IH]; [reflexivity|]. cbn [flat_map filter]. rewrite IH. destruct (get k) as [v|] eqn:E; [|reflexivity]. cbn [map app]. rewrite E. reflexivity. Qed.
Lemma columns_keys get l : dkeys (columns_of get l) = filter (present get) l.
Proof. rewrite columns_filter. unfold dkeys. rewrite map_map. apply map_id. Qed.
Lemma quantities_nodup : NoDup quantities.
Proof. repeat constructor; cbn; intuition discriminate. Qed.
Lemma columns_wf get : wf (columns_of get quantities).
Proof. unfold wf. rewrite columns_keys. apply NoDup_filter, quantities_nodup. Qed.
Lemma columns_get get k v : dget (columns_of get quantities) k = Some v <-> In k quantities /\ get k = Some v.
Proof.
  rewrite (dget_In _ _ _ (columns_wf get)). unfold columns_of. rewrite in_flat_map. split.
  - intros (q & Hq & H). destruct (get q) as [x|] eqn:E; [|destruct H]. destruct H as [[= <- <-]|[]]. auto.
  - intros (Hk & H). exists k. split; [exact Hk|]. rewrite H. left. reflexivity.
Qed.
Lemma with_inputs_eq out get : wf out -> with_inputs out (inputs get) = columns_of get quantities ++ filter (fun kv => negb (memb (fst kv) (filter (present get) quantities))) out.
Proof.
  intros W. rewrite inputs_columns. set (inp := columns_of get quantities). set (ks := filter (present get) quantities).
  assert (Ek : dkeys inp = ks) by apply columns_keys.
  unfold with_inputs. change letters with quantities.
  assert (F : forall l (d : dict str (list R)), fold_left (fun d k => if dmem inp k then to_front d k else d) l d = fold_left to_front (filter (dmem inp) l) d).
  { induction l as [|k l IH]; intros d; [reflexivity|]. cbn [fold_left filter]. rewrite IH. destruct (dmem inp k); reflexivity. }
  rewrite F.
  assert (Er : filter (dmem inp) (rev quantities) = rev ks).
  { assert (G : forall l : list str, filter (dmem inp) (rev l) = rev (filter (dmem inp) l)). { induction l as [|x l IH]; [reflexivity|]. cbn [rev filter]. rewrite filter_app, IH. cbn [filter]. destruct (dmem inp x); [reflexivity|apply app_nil_r]. }
    rewrite G. f_equal. unfold ks. apply filter_ext_In'. intros x Hx. unfold dmem. rewrite Ek. unfold ks. destruct (present get x) eqn:P.
    - apply memb_In, filter_In. auto.
    - apply memb_nIn. intros Hi. apply filter_In in Hi. destruct Hi. congruence. }
  rewrite Er. assert (Nk : NoDup ks) by (apply NoDup_filter, quantities_nodup).
  rewrite (fronted (val get) (rev ks)).
  - rewrite map_rev, rev_involutive. apply f_equal2; [symmetry; apply columns_filter|].
    assert (Q : forall d : dict str (list R), filter (fun kv => negb (memb (fst kv) (rev ks))) d = filter (fun kv => negb (memb (fst kv) ks)) d).
    { intros d. apply filter_ext. intros [n x]. cbn [fst]. f_equal. destruct (memb n ks) eqn:A; [apply memb_In in A; apply memb_In; apply in_rev; rewrite rev_involutive; exact A|apply memb_nIn in A; apply memb_nIn; intros B; apply A, in_rev, B]. }
    etransitivity; [apply Q|]. apply (drop_dupdate (fun k => negb (memb k ks))). intros k Hk. rewrite Ek in Hk. apply memb_In in Hk. rewrite Hk. reflexivity.
  - apply NoDup_rev, Nk.
  - intros k Hk. apply in_rev in Hk. rewrite dget_dupdate. rewrite last_val_wf by apply columns_wf. unfold ks in Hk. apply filter_In in Hk as (Hq & P). unfold present in P. destruct (get k) as [v|] eqn:E; [|discriminate].
    assert (X : dget inp k = Some v) by (apply columns_get; auto). rewrite X. unfold val. rewrite E. reflexivity.
Qed.

(** ** the wrappers after a history *)
Section History.
Variables (stamp : str) (valuate : model -> dict str value -> option (dict str (list R))) (visit : dict str (list R) -> list str -> list str) (num4 : R -> str).
Definition gap_ops (o : op str value) : Prop := exists g, o = Update [(S_ "Eg", Num g)].
Definition is_after (ws : model -> wrapper str value) : Prop := forall m, exists ops, Forall gap_ops ops /\ (m <> SKB -> ops = []) /\ ws m = after (required m) (optional m) ops.
Lemma model_eqb_iff a b : model_eqb a b = true <-> a = b.
Proof. destruct a, b; cbn; split; congruence. Qed.
Lemma after_snoc (req opt : list str) (ops : list (op str value)) o : after req opt (ops ++ [o]) = step (after req opt ops) o.
Proof. unfold after. rewrite fold_left_app. reflexivity. Qed.
Lemma step_after ws fs c : is_after ws -> is_after (fst (run_call stamp valuate visit num4 ws fs c)).
Proof.
  intros H. unfold run_call, modelling. destruct (c_model c) eqn:Em.
  1,2: cbn [fst]; intros m; unfold set_wrapper; destruct (model_eqb m _) eqn:E; [apply model_eqb_iff in E; subst m; apply H|apply H].
  destruct (c_gap c) as [g|]; [|exact H]. destruct (Rle_dec g 0); [exact H|]. cbn [fst]. intros m. unfold set_wrapper. destruct (model_eqb m SKB) eqn:E; [|apply H]. apply model_eqb_iff in E. subst m.
  destruct (H SKB) as (ops & A & B & D). exists (ops ++ [Update [(S_ "Eg", Num g)]]). split; [apply Forall_app; split; [exact A|constructor; [exists g; reflexivity|constructor]]|]. split; [congruence|]. rewrite after_snoc, <- D. reflexivity.
Qed.
Lemma calls_after h : is_after (after_calls stamp valuate visit num4 h).
Proof.
  unfold after_calls. assert (G : forall h ws, is_after ws -> is_after (fold_left (fun ws c => fst (run_call stamp valuate visit num4 ws (fun _ => None) c)) h ws)). { clear h. induction h as [|c h IH]; intros ws H; [exact H|]. cbn [fold_left]. apply IH, step_after, H. }
  apply G. intros m. exists []. split; [constructor|]. split; reflexivity.
Qed.
Lemma gap_ok ops : Forall gap_ops ops -> Forall op_ok ops.
Proof. intros H. eapply Forall_impl; [|exact H]. intros o (g & ->). cbn. repeat constructor. intros []. Qed.
Lemma gap_latest ops k : Forall gap_ops ops -> k <> S_ "Eg" -> latest ops k = None.
Proof.
  intros H Hk. induction H as [|o ops (g & ->) _ IH]; [reflexivity|]. cbn [latest]. rewrite IH. cbn [dget]. destruct (eqb k (S_ "Eg")) eqn:E; [apply eqb_eq in E; congruence|reflexivity].
Qed.
End History.
