(** Lemmas about the model of numpy arrays. *)
From Coq Require Import ZArith Reals String Ascii Permutation Sorted Lia.
From Verif Require Import Py PyStr RUtil CfgModel CfgSpec SubsModel Regex InterpModel TxtModel CliModel CmdModel TxtSpec CliSpec RunSpec ArrModel ArrSpec.
Local Open Scope list_scope.
Local Open Scope nat_scope.

Lemma size_count s : size s = count s.
Proof. induction s as [|d s IH]; [reflexivity|]. cbn. rewrite IH. reflexivity. Qed.

(** ** shapes *)
Inductive fitsr : list nat -> list nat -> Prop :=
| fr_nil s : fitsr [] s
| fr_cons d t n s : d = 1 \/ d = n -> fitsr t s -> fitsr (d :: t) (n :: s).
Lemma fitsr_app a b x : fitsr a b -> fitsr a (b ++ x).
Proof. induction 1; cbn; constructor; assumption. Qed.
Lemma forall2_fitsr t s : Forall2 (fun d n => d = 1 \/ d = n) t s -> fitsr t s.
Proof. induction 1; constructor; assumption. Qed.
Lemma fitsr_split t s : fitsr t s -> exists a b, s = a ++ b /\ Forall2 (fun d n => d = 1 \/ d = n) t a.
Proof.
  induction 1 as [s|d t n s H _ (a & b & -> & F)]; [exists [], s; split; [reflexivity|constructor]|].
  exists (n :: a), b. split; [reflexivity|constructor; assumption].
Qed.
Lemma forall2_rev {A B} (P : A -> B -> Prop) l l' : Forall2 P l l' -> Forall2 P (rev l) (rev l').
Proof. induction 1; cbn; [constructor|]. apply Forall2_app; [assumption|]. constructor; [assumption|constructor]. Qed.
Lemma fits_rev t s : fits t s <-> fitsr (rev t) (rev s).
Proof.
  split.
  - intros (lead & s' & -> & F). rewrite rev_app_distr. apply fitsr_app, forall2_fitsr, forall2_rev, F.
  - intros H. apply fitsr_split in H as (a & b & E & F). exists (rev b), (rev a). split.
    + rewrite <- rev_app_distr, <- E, rev_involutive. reflexivity.
    + rewrite <- (rev_involutive t). apply forall2_rev, F.
Qed.
Lemma fitsr_refl s : fitsr s s.
Proof. induction s; constructor; auto. Qed.
Lemma fitsr_trans a b c : fitsr a b -> fitsr b c -> fitsr a c.
Proof.
  intros H. revert c. induction H as [s|d t n s H H0 IH]; intros c Hc; [constructor|]. inversion Hc as [|d' t' n' s' A B]; subst.
  constructor; [|apply IH, B]. destruct H; subst; [left; reflexivity|]. exact A.
Qed.
Lemma fitsr_antisym a b : fitsr a b -> fitsr b a -> a = b.
Proof.
  induction 1 as [s|d t n s H H0 IH]; intros Hb; [inversion Hb; reflexivity|]. inversion Hb as [|d' t' n' s' A B]; subst. rewrite (IH B). f_equal. lia.
Qed.
Lemma bc_rev_spec s : forall t, match bc_rev s t with
  | Ok r => fitsr s r /\ fitsr t r /\ forall u, fitsr s u -> fitsr t u -> fitsr r u
  | Err e => e = ValueError /\ forall u, fitsr s u -> fitsr t u -> False end.
Proof.
  induction s as [|a s IH]; intros [|b t]; cbn [bc_rev].
  - split; [constructor|]. split; [constructor|]. intros. constructor.
  - split; [constructor|]. split; [apply fitsr_refl|]. intros; assumption.
  - split; [apply fitsr_refl|]. split; [constructor|]. intros; assumption.
  - specialize (IH t). destruct (bc_rev s t) as [r|e].
    + cbv beta iota delta [rbind]. destruct IH as (A & B & C).
      destruct (Nat.eqb_spec a b) as [<-|N]; [|destruct (Nat.eqb_spec a 1) as [->|N1]; [|destruct (Nat.eqb_spec b 1) as [->|N2]]].
      * split; [constructor; auto|]. split; [constructor; auto|]. intros u U V. inversion U; inversion V; subst. match goal with H : _ :: _ = _ :: _ |- _ => injection H as <- <- end. constructor; auto.
      * split; [constructor; auto|]. split; [constructor; auto|]. intros u U V. inversion U; inversion V; subst. match goal with H : _ :: _ = _ :: _ |- _ => injection H as <- <- end. constructor; auto.
      * split; [constructor; auto|]. split; [constructor; auto|]. intros u U V. inversion U; inversion V; subst. match goal with H : _ :: _ = _ :: _ |- _ => injection H as <- <- end. constructor; auto.
      * split; [reflexivity|]. intros u U V. inversion U; inversion V; subst. match goal with H : _ :: _ = _ :: _ |- _ => injection H as <- <- end. lia.
    + cbv beta iota delta [rbind]. destruct IH as (A & B). split; [exact A|]. intros u U V. inversion U; inversion V; subst. match goal with H : _ :: _ = _ :: _ |- _ => injection H as <- <- end. eapply B; eassumption.
Qed.
Lemma bc_all_spec ts : forall s, match bc_all s ts with
  | Ok r => fitsr s r /\ Forall (fun t => fitsr (rev t) r) ts /\ forall u, fitsr s u -> Forall (fun t => fitsr (rev t) u) ts -> fitsr r u
  | Err e => e = ValueError /\ forall u, fitsr s u -> Forall (fun t => fitsr (rev t) u) ts -> False end.
Proof.
  induction ts as [|t ts IH]; intros s; cbn [bc_all].
  - split; [apply fitsr_refl|]. split; [constructor|]. intros; assumption.
  - pose proof (bc_rev_spec s (rev t)) as H. destruct (bc_rev s (rev t)) as [s'|e]; cbv beta iota delta [rbind].
    + destruct H as (A & B & C). specialize (IH s'). destruct (bc_all s' ts) as [r|e].
      * destruct IH as (D & E & F). split; [eapply fitsr_trans; eassumption|]. split; [constructor; [eapply fitsr_trans; eassumption|exact E]|].
        intros u U V. apply F; [apply C; [exact U|exact (Forall_inv V)]|exact (Forall_inv_tail V)].
      * destruct IH as (D & E). split; [exact D|]. intros u U V. apply (E u); [apply C; [exact U|exact (Forall_inv V)]|exact (Forall_inv_tail V)].
    + destruct H as (A & B). split; [exact A|]. intros u U V. apply (B u U (Forall_inv V)).
Qed.
Lemma fits_all ts r : Forall (fun t => fits t r) ts <-> Forall (fun t => fitsr (rev t) (rev r)) ts.
Proof. rewrite !Forall_forall. split; intros H t Ht; apply fits_rev, H, Ht. Qed.
Lemma broadcast_common ts s : broadcast_shape ts = Ok s <-> common ts s.
Proof.
  unfold broadcast_shape, common. pose proof (bc_all_spec ts []) as H. destruct (bc_all [] ts) as [r|e]; cbv beta iota delta [rbind].
  - destruct H as (_ & B & C). split.
    + intros [= <-]. split; [apply fits_all; rewrite rev_involutive; exact B|]. intros u U. apply fits_rev. rewrite rev_involutive. apply C; [constructor|apply fits_all, U].
    + intros (D & E). f_equal. rewrite <- (rev_involutive s). f_equal. apply fitsr_antisym.
      * apply C; [constructor|apply fits_all, D].
      * rewrite <- (rev_involutive r). apply fits_rev, E, fits_all. rewrite rev_involutive. exact B.
  - destruct H as (-> & B). split; [discriminate|]. intros (D & _). exfalso. apply (B (rev s)); [constructor|apply fits_all, D].
Qed.
Lemma broadcast_none ts : broadcast_shape ts = Err ValueError <-> forall s, ~ Forall (fun t => fits t s) ts.
Proof.
  unfold broadcast_shape. pose proof (bc_all_spec ts []) as H. destruct (bc_all [] ts) as [r|e]; cbv beta iota delta [rbind].
  - split; [discriminate|]. intros N. exfalso. apply (N (rev r)). apply fits_all. rewrite rev_involutive. apply H.
  - destruct H as (-> & B). split; [|reflexivity]. intros _ s Hs. apply (B (rev s)); [constructor|apply fits_all, Hs].
Qed.

(** ** indices *)
Lemma place_acc s : forall i p, List.length i = List.length s -> fold_left (fun p nk => p * fst nk + snd nk) (combine s i) p = p * size s + place s i.
Proof.
  induction s as [|d s IH]; intros [|k i] p H; try discriminate; [cbn; lia|]. injection H as H. unfold place. cbn [combine fold_left fst snd size].
  rewrite IH, (IH i (0 * d + k)) by exact H. nia.
Qed.
Lemma place_cons d s k i : List.length i = List.length s -> place (d :: s) (k :: i) = k * size s + place s i.
Proof. intros H. unfold place at 1. cbn [combine fold_left fst snd]. rewrite place_acc by exact H. lia. Qed.
Lemma index_length s i : index s i -> List.length i = List.length s.
Proof. induction 1; cbn; congruence. Qed.
Lemma place_lt s i : index s i -> place s i < size s.
Proof.
  induction 1 as [|n k s i H F IH]; [cbn; lia|]. rewrite place_cons by (eapply index_length; exact F). cbn [size]. nia.
Qed.
Lemma size_pos s i : index s i -> 0 < size s.
Proof. intros H. apply place_lt in H. lia. Qed.
Lemma unravel_index s : forall k, k < size s -> index s (unravel s k) /\ place s (unravel s k) = k.
Proof.
  induction s as [|d s IH]; intros k H; cbn [unravel size] in *; [split; [constructor|cbn; lia]|].
  assert (P : size s <> 0) by nia. destruct (IH (k mod size s)) as (A & B); [apply Nat.mod_upper_bound, P|]. split.
  - constructor; [|exact A]. apply Nat.div_lt_upper_bound; [exact P|]. lia.
  - rewrite place_cons by (eapply index_length; exact A). rewrite B. pose proof (Nat.div_mod k (size s) P). lia.
Qed.
Lemma unravel_place s i : index s i -> unravel s (place s i) = i.
Proof.
  induction 1 as [|n k s i H F IH]; [reflexivity|]. rewrite place_cons by (eapply index_length; exact F). cbn [unravel].
  pose proof (place_lt _ _ F) as L. assert (P : size s <> 0) by lia. rewrite Nat.div_add_l, Nat.div_small by assumption. rewrite Nat.add_0_r. f_equal.
  rewrite Nat.add_comm, Nat.mod_add, Nat.mod_small by assumption. exact IH.
Qed.

(** ** [ndindex] lists the indices in the order of their places *)
Lemma seq_blocks b : forall n a, flat_map (fun i => List.map (fun k => i * b + k) (seq 0 b)) (seq a n) = seq (a * b) (n * b).
Proof.
  induction n as [|n IH]; intros a; [reflexivity|]. cbn [seq flat_map]. rewrite IH. replace (S n * b) with (b + n * b) by lia. rewrite seq_app. f_equal.
  - clear. assert (Q : forall b c x, List.map (fun k => x + k) (seq c b) = seq (x + c) b).
    { clear. induction b as [|b IH]; intros c x; [reflexivity|]. cbn. rewrite IH. f_equal. f_equal. lia. }
    rewrite Q. f_equal. lia.
  - f_equal. lia.
Qed.
Lemma flat_map_map {A B C} (f : B -> C) (g : A -> list B) l : List.map f (flat_map g l) = flat_map (fun x => List.map f (g x)) l.
Proof. induction l as [|a l IH]; [reflexivity|]. cbn. rewrite map_app, IH. reflexivity. Qed.
Lemma ndindex_unravel s : ndindex s = List.map (unravel s) (seq 0 (size s)).
Proof.
  induction s as [|d s IH]; [reflexivity|]. cbn [ndindex size]. rewrite IH.
  transitivity (List.map (unravel (d :: s)) (flat_map (fun i => List.map (fun k => i * size s + k) (seq 0 (size s))) (seq 0 d))).
  - rewrite flat_map_map. apply flat_map_ext. intros i. rewrite !map_map. apply map_ext_in. intros k Hk. apply in_seq in Hk. cbn [unravel].
    assert (P : size s <> 0) by lia. rewrite Nat.div_add_l, Nat.div_small, Nat.add_0_r by lia. f_equal.
    rewrite Nat.add_comm, Nat.mod_add, Nat.mod_small by lia. reflexivity.
  - rewrite seq_blocks. reflexivity.
Qed.
Lemma combine_map_l {A B} (f : A -> B) l : combine (List.map f l) l = List.map (fun x => (f x, x)) l.
Proof. induction l as [|a l IH]; [reflexivity|]. cbn. rewrite IH. reflexivity. Qed.
Lemma visited s : combine (ndindex s) (seq 0 (size s)) = List.map (fun k => (unravel s k, k)) (seq 0 (size s)).
Proof. rewrite ndindex_unravel. apply combine_map_l. Qed.

(** ** what an operand contributes *)
Lemma dot_place t : forall i, List.length i = List.length t ->
  dot i (strides t) = place t (List.map (fun dk => if fst dk =? 1 then 0 else snd dk) (combine t i)).
Proof.
  induction t as [|d t IH]; intros [|k i] H; try discriminate; [reflexivity|]. injection H as H. cbn [strides dot combine List.map fst snd].
  rewrite place_cons by (rewrite map_length, combine_length, H; apply Nat.min_id). rewrite IH by exact H. destruct (d =? 1); lia.
Qed.
Lemma fits_index t s i : fits t s -> index s i -> exists lead i', i = lead ++ i' /\ List.length i' = List.length t /\ index t (List.map (fun dk => if fst dk =? 1 then 0 else snd dk) (combine t i')).
Proof.
  intros (lead & s' & -> & F) H. unfold index in H. apply Forall2_app_inv_l in H as (l1 & l2 & H1 & H2 & ->). exists l1, l2. split; [reflexivity|].
  clear lead l1 H1. revert l2 H2. induction F as [|d n t s' D F IH]; intros l2 H2; inversion H2 as [|n' k s'' i Hk Hi]; subst; [split; [reflexivity|constructor]|].
  destruct (IH i Hi) as (A & B). split; [cbn; rewrite A; reflexivity|]. cbn [combine List.map fst snd]. constructor; [|exact B].
  destruct (Nat.eqb_spec d 1); [lia|]. destruct D; [contradiction|]. lia.
Qed.
Lemma bc_get_sees {X} (x0 : X) A s i : array A -> fits (shape A) s -> index s i -> sees A i (bc_get x0 A i).
Proof.
  intros HA F H. destruct (fits_index _ _ _ F H) as (lead & i' & -> & L & I). exists lead, i'. split; [reflexivity|]. split; [|exact L]. split; [exact I|].
  unfold bc_get. rewrite app_length, L. replace (List.length lead + List.length (shape A) - List.length (shape A)) with (List.length lead + 0) by lia.
  rewrite skipn_app. rewrite Nat.add_0_r, skipn_all, Nat.sub_diag. cbn [skipn app]. rewrite dot_place by exact L.
  apply nth_error_nth'. rewrite HA, <- size_count. apply place_lt, I.
Qed.
Lemma sees_fun {X} (A : nd X) i x y : sees A i x -> sees A i y -> x = y.
Proof.
  intros (l1 & i1 & E1 & (_ & H1) & L1) (l2 & i2 & E2 & (_ & H2) & L2). assert (i1 = i2).
  { rewrite E1 in E2. clear H1 H2 E1 i. revert l2 E2. induction l1 as [|a l1 IH]; intros [|b l2] E2; cbn in E2.
    - exact E2.
    - exfalso. apply (f_equal (@List.length nat)) in E2. cbn in E2. rewrite app_length in E2. lia.
    - exfalso. apply (f_equal (@List.length nat)) in E2. cbn in E2. rewrite app_length in E2. lia.
    - injection E2 as _ E2. eapply IH; eassumption. }
  subst i2. congruence.
Qed.
(** ** order *)
Lemma place_before s j i : index s j -> index s i -> (place s j < place s i <-> before j i).
Proof.
  intros Hj. revert i. induction Hj as [|n k s j Hk Fj IH]; intros i Hi; inversion Hi as [|n' k' s' i' Hk' Fi]; subst.
  - split; [cbn; lia|]. intros (p & x & y & q & q' & E & _). destruct p; discriminate.
  - rewrite !place_cons by (eapply index_length; eassumption). pose proof (place_lt _ _ Fj). pose proof (place_lt _ _ Fi). split.
    + intros L. destruct (lt_eq_lt_dec k k') as [[C|C]|C].
      * exists [], k, k', j, i'. repeat split. exact C.
      * subst k'. assert (Q : place s j < place s i') by lia. apply (IH _ Fi) in Q as (p & x & y & q & q' & -> & -> & Q). exists (k :: p), x, y, q, q'. repeat split. exact Q.
      * nia.
    + intros (p & x & y & q & q' & E & E' & Q). destruct p as [|z p]; cbn in E, E'; injection E as -> E; injection E' as -> E'.
      * nia.
      * apply Nat.add_lt_mono_l. apply (IH _ Fi). exists p, x, y, q, q'. auto.
Qed.

(** ** indices made of two parts *)
Lemma place_app s t i j : List.length i = List.length s -> List.length j = List.length t -> place (s ++ t) (i ++ j) = place s i * size t + place t j.
Proof.
  revert i. induction s as [|d s IH]; intros [|k i] L M; try discriminate; [change (place [] []) with 0; cbn [app]; lia|]. injection L as L. cbn [app]. rewrite !place_cons by (rewrite ?app_length; congruence). rewrite IH by assumption.
  assert (E : size (s ++ t) = size s * size t) by (clear; induction s as [|d s IH]; cbn; [lia|rewrite IH; lia]). rewrite E. lia.
Qed.
Lemma size_app s t : size (s ++ t) = size s * size t.
Proof. induction s as [|d s IH]; cbn; [lia|rewrite IH; lia]. Qed.
Lemma index_app s t i j : index s i -> index t j -> index (s ++ t) (i ++ j).
Proof. apply Forall2_app. Qed.
Lemma elem_fun {X} (A : nd X) i x y : elem A i x -> elem A i y -> x = y.
Proof. intros (_ & E) (_ & E'). congruence. Qed.
Lemma elem_ex {X} (A : nd X) i : array A -> index (shape A) i -> exists x, elem A i x.
Proof. intros HA Hi. unfold elem. destruct (nth_error (flat A) (place (shape A) i)) as [x|] eqn:E; [exists x; auto|]. apply nth_error_None in E. apply place_lt in Hi. unfold array in HA. rewrite <- size_count in HA. lia. Qed.

(** ** squeeze *)
Lemma squeeze_place s i : index s i -> index (filter (fun d => negb (d =? 1)) s) (bare_index s i) /\ place (filter (fun d => negb (d =? 1)) s) (bare_index s i) = place s i.
Proof.
  intros H. unfold bare_index. induction H as [|n k s i H F IH]; [split; [constructor|reflexivity]|]. destruct IH as (I & P). cbn [combine filter fst].
  assert (Z : size (filter (fun d => negb (d =? 1)) s) = size s) by (clear; induction s as [|d s IH]; [reflexivity|]; cbn [filter]; destruct (Nat.eqb_spec d 1); cbn [negb size]; rewrite ?IH; lia).
  destruct (Nat.eqb_spec n 1) as [->|N]; cbn [negb map snd].
  - split; [exact I|]. rewrite P, place_cons by (eapply index_length; exact F). replace k with 0 by lia. lia.
  - split; [constructor; assumption|]. rewrite !place_cons, P by (eapply index_length; eassumption). rewrite Z. reflexivity.
Qed.
Lemma size_squeeze s : size (filter (fun d => negb (d =? 1)) s) = size s.
Proof. induction s as [|d s IH]; [reflexivity|]; cbn [filter]; destruct (Nat.eqb_spec d 1); cbn [negb size]; rewrite ?IH; lia. Qed.
Lemma squeeze_bare {X} (A : nd X) : array A -> bare A (squeeze A).
Proof.
  intros HA. split; [reflexivity|]. split; [unfold array, squeeze in *; cbn [shape flat]; rewrite <- size_count, size_squeeze, size_count; exact HA|].
  intros i x (I & E). destruct (squeeze_place _ _ I) as (I' & P). split; [exact I'|]. cbn [squeeze shape flat]. rewrite P. exact E.
Qed.
(** the squeezed array is determined by this *)
Lemma unsqueeze s : forall j, index (filter (fun d => negb (d =? 1)) s) j -> exists i, index s i /\ bare_index s i = j.
Proof.
  unfold bare_index. induction s as [|d s IH]; intros j H; cbn [filter] in H.
  - inversion H; subst. exists []. split; [constructor|reflexivity].
  - destruct (Nat.eqb_spec d 1) as [->|N]; cbn [negb] in H.
    + destruct (IH j H) as (i & I & E). exists (0 :: i). split; [constructor; [lia|exact I]|]. exact E.
    + inversion H as [|? k ? j' Hk Hj]; subst. destruct (IH j' Hj) as (i & I & E). exists (k :: i). split; [constructor; assumption|]. cbn [combine filter fst]. destruct (Nat.eqb_spec d 1); [contradiction|]. cbn [negb map snd]. f_equal. exact E.
Qed.
Lemma nth_error_ext {X} (l m : list X) : (forall k, nth_error l k = nth_error m k) -> l = m.
Proof.
  revert m. induction l as [|a l IH]; intros [|b m] H; [reflexivity|discriminate (H 0)|discriminate (H 0)|]. assert (E := H 0). injection E as ->. f_equal. apply IH. intros k. exact (H (S k)).
Qed.
Lemma array_ext {X} (B B' : nd X) : array B -> array B' -> shape B = shape B' -> (forall j x, elem B j x -> elem B' j x) -> B = B'.
Proof.
  intros HB HB' S E. destruct B as [s l], B' as [s' l']. cbn [shape] in S. subst s'. f_equal. unfold array in *. cbn [shape flat] in *. rewrite <- size_count in *. apply nth_error_ext. intros k.
  destruct (Nat.lt_ge_cases k (size s)) as [L|L].
  - destruct (unravel_index s k L) as (I & P). destruct (nth_error l k) as [x|] eqn:Ek; [|apply nth_error_None in Ek; lia].
    destruct (E (unravel s k) x) as (_ & E'); [split; [exact I|cbn [shape flat]; rewrite P; exact Ek]|]. cbn [shape flat] in E'. rewrite P in E'. symmetry. exact E'.
  - rewrite !(proj2 (nth_error_None _ _)) by lia. reflexivity.
Qed.
Lemma bare_squeeze {X} (A B : nd X) : array A -> bare A B -> B = squeeze A.
Proof.
  intros HA (S & HB & E). destruct (squeeze_bare A HA) as (S' & HB' & E'). apply array_ext; [exact HB|exact HB'|congruence|].
  intros j x Hj. destruct Hj as (I & P). rewrite S in I. destruct (unsqueeze _ _ I) as (i & Hi & <-). destruct (elem_ex A i HA Hi) as (y & Hy). replace x with y; [apply E', Hy|].
  apply (elem_fun B (bare_index (shape A) i)); [apply E, Hy|]. split; [rewrite S; exact I|exact P].
Qed.

(** ** pieces *)
Lemma nth_error_skipn {X} n : forall (l : list X) k, nth_error (skipn n l) k = nth_error l (n + k).
Proof. induction n as [|n IH]; intros [|x l] k; cbn; try reflexivity; [destruct k; reflexivity|apply IH]. Qed.
Lemma nth_error_firstn {X} n : forall (l : list X) k, k < n -> nth_error (firstn n l) k = nth_error l k.
Proof. induction n as [|n IH]; intros [|x l] [|k] H; try lia; try reflexivity. cbn. apply IH. lia. Qed.
Lemma pieces_spec {X} n : forall m (l : list X), List.length l = m * n ->
  List.length (pieces n m l) = m /\ forall p r, nth_error (pieces n m l) p = Some r -> List.length r = n /\ forall k, k < n -> nth_error r k = nth_error l (p * n + k).
Proof.
  induction m as [|m IH]; intros l L; cbn [pieces]; [split; [reflexivity|intros [|p] r; discriminate]|]. destruct (IH (skipn n l)) as (A & B); [rewrite skipn_length; lia|].
  split; [cbn; rewrite A; reflexivity|]. intros [|p] r H; cbn [nth_error] in H.
  - injection H as <-. split; [rewrite firstn_length; lia|]. intros k Hk. rewrite nth_error_firstn by exact Hk. reflexivity.
  - destruct (B p r H) as (L1 & L2). split; [exact L1|]. intros k Hk. rewrite (L2 k Hk), nth_error_skipn. f_equal. lia.
Qed.
Lemma concat_nth {X} p : forall (o : list (list X)) a r k, Forall (fun r => List.length r = p) o -> nth_error o a = Some r -> k < p -> nth_error (List.concat o) (a * p + k) = nth_error r k.
Proof.
  induction o as [|r0 o IH]; intros [|a] r k F H Hk; try discriminate; cbn [List.concat nth_error] in *.
  - injection H as <-. assert (L := Forall_inv F). cbn in L. rewrite Nat.mul_0_l, Nat.add_0_l, nth_error_app1 by lia. reflexivity.
  - assert (L := Forall_inv F). cbn in L. rewrite nth_error_app2 by nia. rewrite <- (IH a r k (Forall_inv_tail F) H Hk). f_equal. cbn. lia.
Qed.
Lemma concat_length {X} p (o : list (list X)) : Forall (fun r => List.length r = p) o -> List.length (List.concat o) = List.length o * p.
Proof. induction 1 as [|r o H F IH]; [reflexivity|]. cbn. rewrite app_length, IH, H. reflexivity. Qed.
