From Coq Require Import Permutation Sorted.
From Verif Require Import Py RUtil InterpModel InterpSpec.
Local Open Scope R_scope.


Lemma line_left p q : line p q (fst p) = snd p.
Proof. unfold line, Rdiv. ring. Qed.
Lemma line_right p q : fst p < fst q -> line p q (fst q) = snd q.
Proof. intros H. unfold line. field. lra. Qed.

Lemma incr_app_inv a b : incr (a ++ b) -> incr a /\ incr b /\ (forall x y, In x a -> In y b -> fst x < fst y).
Proof. apply StronglySorted_app_inv. Qed.

Lemma inner_chord pre p q post t : incr (pre ++ p :: q :: post) -> fst p <= t <= fst q ->
  inner (pre ++ p :: q :: post) t = line p q t.
Proof.
  intros Hi Ht. induction pre as [|a pre IH].
  - cbn [app]. cbn [inner]. destruct (Rlt_dec t (fst q)) as [|Hn]; [reflexivity|].
    assert (E : t = fst q) by lra. subst t.
    inversion Hi as [|? ? Hi2 Hf]; subst. inversion Hf; subst.
    rewrite line_right by assumption. destruct post as [|r post]; [reflexivity|]. cbn [inner].
    inversion Hi2 as [|? ? Hi3 Hf3]; subst. inversion Hf3; subst.
    destruct (Rlt_dec (fst q) (fst r)); [apply line_left|contradiction].
  - inversion Hi as [|? ? Hi2 Hf]; subst. rewrite <- app_comm_cons.
    destruct (pre ++ p :: q :: post) as [|b l] eqn:E; [destruct pre; discriminate|]. cbn [inner].
    destruct (Rlt_dec t (fst b)) as [Hlt|Hn]; [|apply IH; assumption].
    exfalso. assert (Hpb : fst b <= fst p); [|lra].
    destruct pre as [|c pre]; cbn in E; inversion E; subst; [lra|].
    left. apply (proj2 (proj2 (incr_app_inv (b :: pre) (p :: q :: post) Hi2))); [left; reflexivity|left; reflexivity].
Qed.

Lemma first_app p r : first_pt (p :: r) = p. Proof. reflexivity. Qed.
Lemma last_app pre q : last_pt (pre ++ [q]) = q.
Proof. unfold last_pt. rewrite app_length, app_nth2; cbn; [|lia]. replace (length pre + 1 - 1 - length pre)%nat with 0%nat by lia. reflexivity. Qed.

Lemma incr_nth l i j : incr l -> (i < j < length l)%nat -> fst (nth i l (0,0)) < fst (nth j l (0,0)).
Proof.
  intros H; revert i j; induction H as [|p l Hl IH Hf]; intros i j Hij; cbn in *; [lia|].
  destruct j as [|j]; [lia|]. destruct i as [|i].
  - rewrite Forall_forall in Hf. apply Hf. apply nth_In; lia.
  - apply IH; lia.
Qed.

(** The chord through neighbouring nodes; also at and outside the outermost nodes. *)
Lemma interpx_between pre p q post lf rt t :
  incr (pre ++ p :: q :: post) -> fst p <= t <= fst q -> interpx (pre ++ p :: q :: post) lf rt t = line p q t.
Proof.
  intros Hi Ht. set (l := pre ++ p :: q :: post) in *.
  assert (Hlen : length l = S (S (length pre + length post))) by (unfold l; rewrite app_length; cbn; lia).
  assert (Hp : nth (length pre) l (0,0) = p) by (unfold l; rewrite nth_middle; reflexivity).
  assert (Hq : nth (S (length pre)) l (0,0) = q).
  { unfold l. change (p :: q :: post) with ([p] ++ q :: post). rewrite app_assoc.
    replace (S (length pre)) with (length (pre ++ [p])) by (rewrite app_length; cbn; lia). apply nth_middle. }
  assert (H1 : ~ t < fst (first_pt l)).
  { unfold first_pt. destruct (Nat.eq_dec (length pre) 0) as [E|E].
    - rewrite <- E, Hp. lra.
    - pose proof (incr_nth l 0 (length pre) Hi ltac:(lia)) as H. rewrite Hp in H. lra. }
  assert (H2 : ~ fst (last_pt l) < t).
  { unfold last_pt. destruct (Nat.eq_dec (length post) 0) as [E|E].
    - replace (length l - 1)%nat with (S (length pre)) by lia. rewrite Hq. lra.
    - pose proof (incr_nth l (S (length pre)) (length l - 1) Hi ltac:(lia)) as H. rewrite Hq in H. lra. }
  unfold interpx, np_interp. destruct (Rlt_dec t (fst (first_pt l))) as [|_]; [contradiction|].
  destruct (Rlt_dec (fst (last_pt l)) t) as [|_]; [contradiction|].
  destruct lf, rt; apply inner_chord; assumption.
Qed.

Lemma interpx_node l p lf rt : incr l -> (2 <= length l)%nat -> In p l -> interpx l lf rt (fst p) = snd p.
Proof.
  intros Hi Hl Hin. apply in_split in Hin. destruct Hin as (pre & post & ->).
  destruct post as [|q post].
  - destruct pre as [|a pre] using rev_ind; [cbn in Hl; lia|]. rewrite <- app_assoc in *. cbn [app] in *.
    destruct (incr_app_inv _ _ Hi) as (_ & H2 & _). inversion H2 as [|? ? ? Hf]; subst. inversion Hf; subst.
    rewrite interpx_between by (assumption || lra). apply line_right; assumption.
  - destruct (incr_app_inv _ _ Hi) as (_ & H2 & _). inversion H2 as [|? ? ? Hf]; subst. inversion Hf; subst.
    rewrite interpx_between by (assumption || lra). apply line_left.
Qed.

Lemma last_incr a b r : incr (a :: b :: r) -> fst a < fst (last_pt (a :: b :: r)).
Proof.
  intros Hi. unfold last_pt. apply (incr_nth (a :: b :: r) 0 (length (a :: b :: r) - 1) Hi). cbn; lia.
Qed.

Lemma interpx_left p q r lf rt t : incr (p :: q :: r) -> t < fst p ->
  interpx (p :: q :: r) lf rt t = match lf with None => line p q t | Some v => v end.
Proof.
  intros Hi Ht. pose proof (last_incr p q r Hi) as Hlast. unfold interpx, np_interp. rewrite first_app.
  destruct (Rlt_dec t (fst p)); [|lra]. destruct (Rlt_dec (fst (last_pt (p :: q :: r))) t); [lra|].
  destruct lf, rt; reflexivity.
Qed.

Lemma interpx_right pre p q lf rt t : incr (pre ++ [p; q]) -> fst q < t ->
  interpx (pre ++ [p; q]) lf rt t = match rt with None => line p q t | Some v => v end.
Proof.
  intros Hi Ht. destruct (incr_app_inv _ _ Hi) as (_ & H2 & _). inversion H2 as [|? ? ? Hf]; subst. inversion Hf; subst.
  assert (El : last_pt (pre ++ [p; q]) = q).
  { replace (pre ++ [p; q]) with ((pre ++ [p]) ++ [q]) by (rewrite <- app_assoc; reflexivity). apply last_app. }
  assert (E2 : nth (length (pre ++ [p; q]) - 2) (pre ++ [p; q]) (0, 0) = p).
  { rewrite app_length; cbn. replace (length pre + 2 - 2)%nat with (length pre) by lia. apply nth_middle. }
  assert (H1 : ~ t < fst (first_pt (pre ++ [p; q]))).
  { unfold first_pt. pose proof (incr_nth _ 0 (length (pre ++ [p; q]) - 1) Hi) as Hn.
    fold (last_pt (pre ++ [p; q])) in Hn. rewrite El in Hn. rewrite app_length in Hn; cbn in Hn. specialize (Hn ltac:(lia)). lra. }
  unfold interpx, np_interp. rewrite El, E2.
  destruct (Rlt_dec t (fst (first_pt (pre ++ [p; q])))); [contradiction|]. destruct (Rlt_dec (fst q) t); [|contradiction].
  destruct lf, rt; try reflexivity; unfold line; field; lra.
Qed.

(** Every query point falls into one of the cases. *)
Lemma locate l t : incr l -> (2 <= length l)%nat ->
  (exists p q r, l = p :: q :: r /\ t < fst p)
  \/ (exists pre p q post, l = pre ++ p :: q :: post /\ fst p <= t <= fst q)
  \/ (exists pre p q, l = pre ++ [p; q] /\ fst q < t).
Proof.
  intros Hi. induction Hi as [|p l Hl IH Hf]; intros Hlen; [cbn in Hlen; lia|].
  destruct l as [|q l]; [cbn in Hlen; lia|]. inversion Hf; subst.
  destruct (Rlt_dec t (fst p)); [left; exists p, q, l; auto|].
  destruct (Rle_dec t (fst q)) as [|Hq]; [right; left; exists [], p, q, l; split; [reflexivity|lra]|].
  destruct l as [|s l].
  - right; right; exists [], p, q; split; [reflexivity|lra].
  - destruct IH as [(p' & q' & r' & E & Ht)|[(pre & p' & q' & post & E & Ht)|(pre & p' & q' & E & Ht)]]; [cbn; lia| | |].
    + inversion E; subst; lra.
    + right; left; exists (p :: pre), p', q', post; split; [rewrite E; reflexivity|exact Ht].
    + right; right; exists (p :: pre), p', q'; split; [rewrite E; reflexivity|exact Ht].
Qed.

Lemma line_affine a b p q t : fst p < fst q -> snd p = a * fst p + b -> snd q = a * fst q + b -> line p q t = a * t + b.
Proof. intros H Hp Hq. unfold line. rewrite Hp, Hq. field. lra. Qed.

Lemma interpx_affine l a b t : incr l -> (2 <= length l)%nat -> (forall p, In p l -> snd p = a * fst p + b) ->
  interpx l None None t = a * t + b.
Proof.
  intros Hi Hlen Ha. destruct (locate l t Hi Hlen) as [(p & q & r & -> & Ht)|[(pre & p & q & post & -> & Ht)|(pre & p & q & -> & Ht)]].
  - rewrite interpx_left by assumption. inversion Hi as [|? ? ? Hf]; subst; inversion Hf; subst.
    apply line_affine; [assumption| |]; apply Ha; cbn; auto.
  - rewrite interpx_between by assumption. destruct (incr_app_inv _ _ Hi) as (_ & H2 & _). inversion H2 as [|? ? ? Hf]; subst; inversion Hf; subst.
    apply line_affine; [assumption| |]; apply Ha; rewrite in_app_iff; cbn; auto.
  - rewrite interpx_right by assumption. destruct (incr_app_inv _ _ Hi) as (_ & H2 & _). inversion H2 as [|? ? ? Hf]; subst; inversion Hf; subst.
    apply line_affine; [assumption| |]; apply Ha; rewrite in_app_iff; cbn; auto.
Qed.

Lemma line_bounds p q t : fst p < fst q -> fst p <= t <= fst q ->
  Rmin (snd p) (snd q) <= line p q t <= Rmax (snd p) (snd q).
Proof.
  intros H Ht. unfold line. set (w := (t - fst p) / (fst q - fst p)).
  assert (Hw : 0 <= w <= 1).
  { unfold w. split; [apply Rmult_le_pos; [lra|left; apply Rinv_0_lt_compat; lra]|].
    apply Rmult_le_reg_r with (fst q - fst p); [lra|]. unfold Rdiv. rewrite Rmult_assoc, Rinv_l by lra. lra. }
  replace (snd p + (snd q - snd p) / (fst q - fst p) * (t - fst p)) with (snd p + (snd q - snd p) * w) by (unfold w; field; lra).
  unfold Rmin, Rmax. destruct (Rle_dec (snd p) (snd q)); nra.
Qed.

(** ** vinterp *)
Lemma ins_key_perm p l : Permutation (p :: l) (ins_key p l).
Proof.
  induction l as [|q l IH]; cbn; [reflexivity|]. destruct (Rlt_dec (fst q) (fst p)); [|reflexivity].
  rewrite perm_swap. constructor. exact IH.
Qed.
Lemma sort_key_perm l : Permutation l (sort_key l).
Proof. induction l as [|p l IH]; cbn; [reflexivity|]. rewrite <- ins_key_perm. constructor; exact IH. Qed.

Definition kle (a b : R * nat) := fst a <= fst b.
Lemma ins_key_sorted p l : StronglySorted kle l -> StronglySorted kle (ins_key p l).
Proof.
  induction 1 as [|q l Hl IH Hf]; cbn; [repeat constructor|].
  destruct (Rlt_dec (fst q) (fst p)).
  - constructor; [exact IH|]. rewrite <- (ins_key_perm p l). constructor; [unfold kle; lra|exact Hf].
  - constructor; [constructor; assumption|]. constructor; [unfold kle; lra|].
    eapply Forall_impl; [|exact Hf]. unfold kle; intros; lra.
Qed.
Lemma sort_key_sorted l : StronglySorted kle (sort_key l).
Proof. induction l as [|p l IH]; cbn; [constructor|apply ins_key_sorted; exact IH]. Qed.

Lemma take_seq {A} (d : A) l : take d l (seq 0 (length l)) = l.
Proof.
  unfold take. induction l as [|a l IH]; [reflexivity|]. cbn [length seq map nth]. f_equal.
  rewrite <- seq_shift, map_map. exact IH.
Qed.

Lemma argsort_perm x : Permutation (argsort x) (seq 0 (length x)).
Proof.
  unfold argsort. rewrite <- sort_key_perm.
  assert (E : map snd (combine x (seq 0 (length x))) = seq 0 (length x)); [|rewrite E; reflexivity].
  generalize 0%nat as k. induction x as [|a x IH]; intros k; cbn; [reflexivity|]. rewrite IH; reflexivity.
Qed.

Lemma combine_key x : forall p, In p (combine x (seq 0 (length x))) -> fst p = nth (snd p) x 0.
Proof.
  assert (G : forall y k, (forall p, In p (combine y (seq k (length y))) -> exists i, snd p = (k + i)%nat /\ fst p = nth i y 0)).
  { induction y as [|a y IH]; intros k p; cbn; [intros []|]. intros [<-|H]; [exists 0%nat; cbn; split; [lia|reflexivity]|].
    destruct (IH (S k) p H) as (i & Hi & Hv). exists (S i); split; [lia|exact Hv]. }
  intros p Hp. destruct (G x 0%nat p Hp) as (i & Hi & Hv). rewrite Hi. exact Hv.
Qed.

Lemma take_argsort x : take 0 x (argsort x) = map fst (sort_key (combine x (seq 0 (length x)))).
Proof.
  unfold take, argsort. rewrite map_map. apply map_ext_in. intros p Hp. symmetry. apply combine_key.
  eapply Permutation_in; [symmetry; apply sort_key_perm|exact Hp].
Qed.

Definition nondecr (l : list R) := StronglySorted Rle l.
Lemma argsort_nondecr x : nondecr (take 0 x (argsort x)).
Proof.
  rewrite take_argsort. pose proof (sort_key_sorted (combine x (seq 0 (length x)))) as H.
  induction H as [|p l Hl IH Hf]; cbn; constructor; [exact IH|]. apply Forall_map. exact Hf.
Qed.

Lemma any_decrease_nondecr x : any_decrease x = false -> nondecr x.
Proof.
  induction x as [|a x IH]; intros H; [constructor|]. destruct x as [|b x]; [repeat constructor|].
  change (any_decrease (a :: b :: x)) with ((if Rlt_dec b a then true else false) || any_decrease (b :: x)) in H.
  apply orb_false_iff in H. destruct H as (H1 & H2). destruct (Rlt_dec b a); [discriminate|].
  specialize (IH H2). constructor; [exact IH|]. inversion IH as [|? ? ? Hf]; subst.
  constructor; [lra|]. eapply Forall_impl; [|exact Hf]. intros; cbn in *; lra.
Qed.

Lemma any_decrease_iff x : any_decrease x = true <-> exists i, (S i < length x)%nat /\ nth (S i) x 0 < nth i x 0.
Proof.
  induction x as [|a x IH]; [split; [discriminate|intros (i & H & _); cbn in H; lia]|].
  destruct x as [|b x]; [split; [discriminate|intros (i & H & _); cbn in H; lia]|].
  change (any_decrease (a :: b :: x)) with ((if Rlt_dec b a then true else false) || any_decrease (b :: x)).
  rewrite orb_true_iff, IH. split.
  - intros [H|(i & Hi & Hlt)].
    + destruct (Rlt_dec b a); [|discriminate]. exists 0%nat; cbn; split; [lia|assumption].
    + exists (S i); split; [cbn in *; lia|exact Hlt].
  - intros ([|i] & Hi & Hlt); cbn in Hlt.
    + left. destruct (Rlt_dec b a); [reflexivity|contradiction].
    + right. exists i; split; [cbn in *; lia|exact Hlt].
Qed.

(** strictly sorted permutations of points agree *)
Definition plt (a b : R * R) := fst a < fst b.
Lemma strict_unique (l1 l2 : list (R * R)) : Permutation l1 l2 -> StronglySorted plt l1 -> StronglySorted plt l2 -> l1 = l2.
Proof.
  intros Hp H1; revert l2 Hp; induction H1 as [|x l1 H1 IH Hf1]; intros l2 Hp H2.
  - apply Permutation_nil in Hp; congruence.
  - destruct l2 as [|y l2]; [apply Permutation_sym, Permutation_nil in Hp; discriminate|].
    inversion H2 as [|? ? H2' Hf2]; subst. rewrite Forall_forall in Hf1, Hf2.
    assert (x = y).
    { assert (Hy : In y (x :: l1)) by (rewrite Hp; left; reflexivity).
      assert (Hx : In x (y :: l2)) by (rewrite <- Hp; left; reflexivity).
      destruct Hy as [|Hy]; [assumption|]; destruct Hx as [|Hx]; [congruence|].
      pose proof (Hf1 _ Hy) as A; pose proof (Hf2 _ Hx) as B; unfold plt in *; lra. }
    subst y; f_equal. apply IH; [|exact H2']. eapply Permutation_cons_inv; exact Hp.
Qed.

Lemma strict_of_nondecr x r : length r = length x -> NoDup x -> nondecr x -> StronglySorted plt (combine x r).
Proof.
  intros Hl Hn Hx; revert r Hl; induction Hx as [|a x Hx IH Hf]; intros [|b r] Hl; cbn in *; try lia; constructor.
  - apply IH; [inversion Hn; assumption|lia].
  - apply Forall_forall. intros [u v] Hin. apply in_combine_l in Hin. unfold plt; cbn.
    rewrite Forall_forall in Hf. pose proof (Hf u Hin). assert (a <> u); [|lra].
    inversion Hn as [|? ? Hni]; subst. intros ->; contradiction.
Qed.

Lemma combine_take x r idx : length r = length x -> (forall i, In i idx -> (i < length x)%nat) ->
  combine (take 0 x idx) (take 0 r idx) = take (0, 0) (combine x r) idx.
Proof.
  intros Hl Hi. unfold take in *. induction idx as [|i idx IH]; [reflexivity|]. cbn [map combine]. rewrite IH by (intros; apply Hi; right; assumption).
  f_equal. symmetry. apply combine_nth. lia.
Qed.

Lemma take_perm {A} (d : A) l idx : Permutation idx (seq 0 (length l)) -> Permutation (take d l idx) l.
Proof. intros H. rewrite <- (take_seq d l) at 2. apply Permutation_map. exact H. Qed.

Lemma perm_bound idx n : Permutation idx (seq 0 n) -> forall i, In i idx -> (i < n)%nat.
Proof. intros H i Hi. eapply Permutation_in in Hi; [|exact H]. apply in_seq in Hi. lia. Qed.

Lemma take_length {A} (d : A) l idx : length (take d l idx) = length idx.
Proof. apply map_length. Qed.

Lemma combine_fst_snd (a b c d : list R) : length a = length b -> length c = length d -> combine a b = combine c d -> a = c /\ b = d.
Proof.
  revert b c d; induction a as [|x a IH]; intros [|y b] [|z c] [|w d] H1 H2 E; cbn in *; try lia; try discriminate; [auto|].
  inversion E; subst. destruct (IH b c d) as (-> & ->); auto.
Qed.

(** The arrangement handed to the back-end. *)
Definition arranged (x : list R) : list nat :=
  if any_decrease x then argsort x else seq 0 (length x).

Lemma arranged_perm x : Permutation (arranged x) (seq 0 (length x)).
Proof. unfold arranged. destruct (any_decrease x); [apply argsort_perm|reflexivity]. Qed.

Lemma arranged_nondecr x : nondecr (take 0 x (arranged x)).
Proof.
  unfold arranged. destruct (any_decrease x) eqn:E; [apply argsort_nondecr|]. rewrite take_seq. apply any_decrease_nondecr; exact E.
Qed.

Lemma arranged_eq x r s : NoDup x -> length r = length x -> Permutation s (seq 0 (length x)) ->
  let x' := take 0 x s in let r' := take 0 r s in
  take 0 x' (arranged x') = take 0 x (arranged x) /\ take 0 r' (arranged x') = take 0 r (arranged x).
Proof.
  intros Hn Hl Hs x' r'.
  assert (Hsl : length s = length x) by (rewrite (Permutation_length Hs), seq_length; reflexivity).
  assert (Hl' : length r' = length x') by (unfold r', x'; rewrite !take_length; reflexivity).
  assert (Hx'l : length x' = length x) by (unfold x'; rewrite take_length; exact Hsl).
  assert (Hn' : NoDup x') by (eapply Permutation_NoDup; [symmetry; apply (take_perm 0 x s); exact Hs|exact Hn]).
  assert (Hb := perm_bound _ _ (arranged_perm x)). assert (Hb' := perm_bound _ _ (arranged_perm x')).
  assert (Hbs := perm_bound _ _ Hs).
  apply combine_fst_snd; [rewrite !take_length; reflexivity|rewrite !take_length; reflexivity|].
  apply strict_unique.
  - rewrite (combine_take x' r') by assumption. rewrite (combine_take x r) by assumption.
    rewrite (take_perm (0,0) (combine x' r')) by (rewrite combine_length, Hl', Nat.min_id; apply arranged_perm).
    rewrite (take_perm (0,0) (combine x r)) by (rewrite combine_length, Hl, Nat.min_id; apply arranged_perm).
    unfold x', r'. rewrite combine_take by assumption. apply take_perm. rewrite combine_length, Hl, Nat.min_id. exact Hs.
  - apply strict_of_nondecr; [rewrite !take_length; reflexivity| |apply arranged_nondecr].
    eapply Permutation_NoDup; [symmetry; apply (take_perm 0 x'), arranged_perm|exact Hn'].
  - apply strict_of_nondecr; [rewrite !take_length; reflexivity| |apply arranged_nondecr].
    eapply Permutation_NoDup; [symmetry; apply (take_perm 0 x), arranged_perm|exact Hn].
Qed.

Section Vi.
Context {Out : Type}.
Variable method : list R -> list R -> list R -> Out.


Lemma finite_all_iff l : finite_all l = true <-> all_finite l.
Proof.
  unfold finite_all, all_finite. rewrite forallb_forall. split; intros H o Ho; specialize (H o Ho); destruct o; congruence.
Qed.
Lemma rows_ok_iff x y : forallb (fun row => Nat.eqb (length row) (length x)) y = true <-> rows_ok x y.
Proof. rewrite forallb_forall. unfold rows_ok. split; intros H r Hr; specialize (H r Hr); apply Nat.eqb_eq; exact H. Qed.

Lemma vinterp_ok x y xp : rows_ok x y -> all_finite x -> (forall r, In r y -> all_finite r) -> all_finite xp ->
  vinterp method x y xp true =
  Ok (map (fun r => method (take 0 (vals x) (arranged (vals x))) (take 0 (vals r) (arranged (vals x))) (vals xp)) y).
Proof.
  intros H1 H2 H3 H4. unfold vinterp. rewrite (proj2 (rows_ok_iff x y) H1). cbn [negb].
  rewrite (proj2 (finite_all_iff x) H2), (proj2 (finite_all_iff xp) H4).
  assert (E : forallb finite_all y = true) by (apply forallb_forall; intros r Hr; apply finite_all_iff, H3, Hr).
  rewrite E. cbn [andb negb]. unfold arranged. destruct (any_decrease (vals x)) eqn:Ed.
  - rewrite map_map. reflexivity.
  - rewrite map_map. f_equal. apply map_ext_in. intros r Hr. rewrite take_seq.
    replace (length (vals x)) with (length (vals r)) by (unfold vals; rewrite !map_length; apply H1; exact Hr).
    rewrite take_seq. reflexivity.
Qed.

Lemma vinterp_err x y xp reorder :
  vinterp method x y xp reorder = Err ValueError <->
  ~ rows_ok x y \/ ~ (all_finite x /\ (forall r, In r y -> all_finite r) /\ all_finite xp)
  \/ (reorder = false /\ exists i, (S i < length x)%nat /\ nth (S i) (vals x) 0 < nth i (vals x) 0).
Proof.
  unfold vinterp.
  destruct (forallb (fun row => Nat.eqb (length row) (length x)) y) eqn:E1; cbn [negb].
  2:{ split; [|reflexivity]. intros _; left. rewrite <- rows_ok_iff. congruence. }
  apply rows_ok_iff in E1.
  destruct (finite_all x && forallb finite_all y && finite_all xp) eqn:E2; cbn [negb].
  2:{ split; [|reflexivity]. intros _; right; left. intros (A & B & C).
      rewrite <- finite_all_iff in A, C. rewrite A, C in E2. rewrite andb_true_r in E2; cbn in E2.
      assert (forallb finite_all y = true); [|congruence]. apply forallb_forall; intros r Hr; apply finite_all_iff, B, Hr. }
  assert (Hfin : all_finite x /\ (forall r, In r y -> all_finite r) /\ all_finite xp).
  { apply andb_true_iff in E2; destruct E2 as (E2 & E3). apply andb_true_iff in E2; destruct E2 as (E2 & E4).
    split; [apply finite_all_iff; exact E2|]. split; [|apply finite_all_iff; exact E3].
    intros r Hr. apply finite_all_iff. rewrite forallb_forall in E4. apply E4; exact Hr. }
  assert (Hlen : length (vals x) = length x) by apply map_length.
  destruct (any_decrease (vals x)) eqn:Ed.
  - apply any_decrease_iff in Ed. rewrite Hlen in Ed. destruct reorder.
    + split; [discriminate|]. intros [H|[H|(H & _)]]; [contradiction|contradiction|discriminate].
    + split; [|reflexivity]. intros _; right; right; auto.
  - split; [discriminate|]. intros [H|[H|(_ & H)]]; [contradiction|contradiction|].
    rewrite <- Hlen in H. apply any_decrease_iff in H. congruence.
Qed.

Lemma vals_take x s : vals (take (Some 0) x s) = take 0 (vals x) s.
Proof.
  unfold vals, take. rewrite map_map. apply map_ext. intros i.
  exact (eq_sym (map_nth (fun o : option R => match o with Some v => v | None => 0 end) x (Some 0) i)).
Qed.

Lemma finite_take x s : all_finite x -> all_finite (take (Some 0) x s).
Proof.
  intros H o Ho. unfold take in Ho. apply in_map_iff in Ho. destruct Ho as (i & <- & _).
  destruct (nth_in_or_default i x (Some 0)) as [Hi|E]; [apply H; exact Hi|rewrite E; discriminate].
Qed.

Lemma vinterp_perm x y xp s :
  rows_ok x y -> all_finite x -> (forall r, In r y -> all_finite r) -> all_finite xp ->
  NoDup (vals x) -> Permutation s (seq 0 (length x)) ->
  vinterp method (take (Some 0) x s) (map (fun r => take (Some 0) r s) y) xp true = vinterp method x y xp true.
Proof.
  intros H1 H2 H3 H4 Hn Hs.
  assert (Hsl : length s = length x) by (rewrite (Permutation_length Hs), seq_length; reflexivity).
  rewrite vinterp_ok; [rewrite vinterp_ok by assumption| |apply finite_take; exact H2| |exact H4].
  - f_equal. rewrite map_map. apply map_ext_in. intros r Hr. rewrite !vals_take.
    destruct (arranged_eq (vals x) (vals r) s Hn) as (E1 & E2).
    + unfold vals; rewrite !map_length. apply H1; exact Hr.
    + unfold vals; rewrite map_length; exact Hs.
    + rewrite E1, E2. reflexivity.
  - intros r Hr. apply in_map_iff in Hr. destruct Hr as (r0 & <- & _). rewrite !take_length. reflexivity.
  - intros r Hr. apply in_map_iff in Hr. destruct Hr as (r0 & <- & Hr0). apply finite_take, H3, Hr0.
Qed.
End Vi.
