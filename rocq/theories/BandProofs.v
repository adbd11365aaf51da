From Coq Require Import Reals Lra.
From Verif Require Import Py PyStr RUtil RombModel BandModel BandSpec.
Local Open Scope R_scope.

Lemma method_ext o o' p a b a' b' :
  o_sign o = o_sign o' ->
  (fetch_N o a b = fetch_N o' a' b') ->
  (forall n, (n < levels p)%nat -> fetch_K o n a b = fetch_K o' n a' b') ->
  (uses_hall p = true -> fetch_H o a b = fetch_H o' a' b') ->
  fetch_T o b = fetch_T o' b' ->
  method o p a b = method o' p a' b'.
Proof.
  intros HS HN HK HH HT.
  destruct p; cbn [method levels uses_hall] in *; rewrite ?HS, ?HN, ?HT; try rewrite (HH eq_refl);
    repeat (rewrite HK by lia); reflexivity.
Qed.

Lemma py_nth_map {A B} (f : A -> B) l n x : nth_error l n = Some x -> py_nth (map f l) n = Ok (f x).
Proof. intros H. unfold py_nth. rewrite nth_error_map, H. reflexivity. Qed.
Lemma nth_error_seq n m : (n < m)%nat -> nth_error (seq 0 m) n = Some n.
Proof. intros H. rewrite (nth_error_nth' _ 0%nat) by (rewrite seq_length; exact H). rewrite seq_nth by exact H. reflexivity. Qed.
Lemma py_nth_seq {B} (f : nat -> B) n m : (n < m)%nat -> py_nth (map f (seq 0 m)) n = Ok (f n).
Proof. intros H. apply py_nth_map. apply nth_error_seq. exact H. Qed.
Lemma py_nth_short {A} (l : list A) n : (length l <= n)%nat -> py_nth l n = Err IndexError.
Proof. intros H. unfold py_nth. apply nth_error_None in H. rewrite H. reflexivity. Qed.
Lemma compiled_K b EF T nlev n a c : (n < nlev)%nat -> fetch_K (self_band (compile_band b EF T nlev)) n a c = Ok (r_K (b_raw b) n EF T).
Proof. intros H. unfold fetch_K. cbn [self_band compile_band o_cache b_cache raw_cache c_K]. apply (py_nth_seq (fun n => r_K (b_raw b) n EF T)). exact H. Qed.

Lemma upd_same h i b : upd h i b i = b.
Proof. unfold upd. rewrite Nat.eqb_refl. reflexivity. Qed.
Lemma upd_other h i j b : j <> i -> upd h i b j = h j.
Proof. intros H. unfold upd. apply Nat.eqb_neq in H. rewrite H. reflexivity. Qed.

Lemma compile_twice b e t n e' t' n' : compile_band (compile_band b e t n) e' t' n' = compile_band b e' t' n'.
Proof. reflexivity. Qed.
Lemma compile_items_at l : forall h EF T nlev i,
  compile_items l h EF T nlev i = match last_delta i l with
                                  | Some d => compile_band (h i) (-1 * b_sign (h i) * (EF - d)) T nlev
                                  | None => h i end.
Proof.
  unfold compile_items. induction l as [|(j, d) l IH]; intros h EF T nlev i; cbn [fold_left last_delta fst snd]; [reflexivity|].
  rewrite IH. destruct (Nat.eq_dec i j) as [->|N].
  - rewrite Nat.eqb_refl, upd_same. destruct (last_delta j l); reflexivity.
  - rewrite upd_other by exact N. apply Nat.eqb_neq in N. rewrite N. destruct (last_delta i l); reflexivity.
Qed.
Lemma last_delta_in i d l : last_delta i l = Some d -> In (i, d) l.
Proof.
  induction l as [|(j, x) l IH]; cbn [last_delta]; [discriminate|]. destruct (last_delta i l) as [y|].
  - intros E. right. apply IH. exact E.
  - destruct (Nat.eqb_spec i j) as [->|]; [|discriminate]. intros [= ->]. left. reflexivity.
Qed.
Lemma last_delta_some i d l : In (i, d) l -> exists x, last_delta i l = Some x.
Proof.
  induction l as [|(j, x) l IH]; intros H; [destruct H|]. cbn [last_delta]. destruct H as [[= -> ->]|H].
  - rewrite Nat.eqb_refl. destruct (last_delta i l); eauto.
  - destruct (IH H) as (y & ->). eauto.
Qed.
Lemma last_delta_nodup i d l : NoDup (map fst l) -> In (i, d) l -> last_delta i l = Some d.
Proof.
  intros ND Hin. destruct (last_delta_some i d l Hin) as (x & E). rewrite E. f_equal. apply last_delta_in in E.
  induction l as [|(j, y) l IH]; [destruct Hin|]. cbn [map fst] in ND. inversion ND as [|? ? Hj ND']; subst.
  destruct Hin as [H1|Hin]; destruct E as [H2|E]; auto.
  - congruence.
  - exfalso. apply Hj. apply in_map_iff. exists (i, x). inversion H1; subst. auto.
  - exfalso. apply Hj. apply in_map_iff. exists (i, d). inversion H2; subst. auto.
Qed.
Lemma clear_items_at l : forall h i,
  fold_left (fun g (id : nat * R) => upd g (fst id) (clear_band (g (fst id)))) l h i
  = if existsb (fun id => Nat.eqb i (fst id)) l then clear_band (h i) else h i.
Proof.
  induction l as [|(j, d) l IH]; intros h i; cbn [fold_left existsb fst]; [reflexivity|]. rewrite IH.
  destruct (Nat.eqb_spec i j) as [->|N]; cbn [orb].
  - rewrite upd_same. destruct (existsb _ l); reflexivity.
  - rewrite upd_other by exact N. reflexivity.
Qed.
Lemma clear_at h m i d : In (i, d) (m_items m) -> fst (clear_multi h m) i = clear_band (h i).
Proof.
  intros H. cbn [clear_multi fst]. rewrite clear_items_at.
  assert (E : existsb (fun id : nat * R => Nat.eqb i (fst id)) (m_items m) = true).
  { apply existsb_exists. exists (i, d). split; [exact H|apply Nat.eqb_refl]. }
  rewrite E. reflexivity.
Qed.

Lemma total_ext l f g : (forall i d, In (i, d) l -> f i d = g i d) -> total l f = total l g.
Proof.
  induction l as [|(i, d) l IH]; intros H; cbn [total]; [reflexivity|].
  rewrite (H i d) by (left; reflexivity). destruct (g i d); cbn [rbind]; [|reflexivity]. rewrite IH; [reflexivity|]. intros; apply H; right; assumption.
Qed.
Lemma total_ok l f g : (forall i d, In (i, d) l -> f i d = Ok (g i d)) -> total l f = Ok (sumR (map (fun id => g (fst id) (snd id)) l)).
Proof.
  induction l as [|(i, d) l IH]; intros H; cbn [total]; [reflexivity|].
  rewrite (H i d) by (left; reflexivity). cbn [rbind]. rewrite IH by (intros; apply H; right; assumption). reflexivity.
Qed.
Lemma mapM_ok {A B} (f : A -> res B) g l : (forall x, In x l -> f x = Ok (g x)) -> mapM f l = Ok (map g l).
Proof.
  induction l as [|x l IH]; intros H; cbn [mapM]; [reflexivity|]. rewrite (H x) by (left; reflexivity). cbn [rbind].
  rewrite IH by (intros; apply H; right; assumption). reflexivity.
Qed.
Lemma seen_reduced h EF i d : signs_ok h -> -1 * b_sign (h i) * (EF - d) = seen h EF i d.
Proof. intros H. unfold seen. destruct (H i) as [E|E]; rewrite E; destruct (Rlt_dec _ 0); lra. Qed.
Lemma div_nonneg a b : 0 <= a -> 0 < b -> 0 <= a / b.
Proof. intros. apply Rmult_le_pos; [assumption|]. apply Rlt_le, Rinv_0_lt_compat. assumption. Qed.
