(** C12: [split_monotonic] (src/teflow/mathext.py:139-228). *)
From Coq Require Import String QArith Sorted.
From Verif Require Import Py PyStr MonoModel MonoSpec MonoProofs.
Local Open Scope nat_scope.

(** [us] stands for [re.finditer] on user patterns ('#...'); it is irrelevant for the
    built-in trends.  With ends = 'both' the returned segments are exactly the maximal intervals of
    the requested directions, in increasing order, sharing at most an end point. *)
Theorem C12_maximal_intervals :
  forall us (x : list Q) (trend ends : str) (eps : Q),
  builtin trend -> first_letter ends "b" "B" -> (0 <= eps)%Q ->
  exists segs, split_monotonic us x trend ends eps = Ok segs
  /\ StronglySorted (fun a b => snd (m_idx a) <= S (fst (m_idx b))) segs
  /\ (forall i j, (exists g, In g segs /\ m_idx g = (i, S j)) <->
                  exists d, requested trend d /\ max_interval x eps d i j)
  /\ (forall g, In g segs -> exists d i j,
        m_idx g = (i, S j) /\ requested trend d /\ max_interval x eps d i j /\ m_sign g = dir_sign d
        /\ length (m_vals g) = S j - i
        /\ (forall k, k < S j - i -> nth_error (m_vals g) k = nth_error x (i + k))).
Proof. exact split_both. Qed.
Print Assumptions C12_maximal_intervals.

(** Every step of a requested direction lies in exactly one maximal interval. *)
Theorem C12_each_step_once :
  forall (x : list Q) (eps : Q) (d : dir) (k : nat),
  (0 <= eps)%Q -> moves x eps d k ->
  (exists i j, max_interval x eps d i j /\ i <= k < j)
  /\ (forall d1 d2 i1 j1 i2 j2,
        max_interval x eps d1 i1 j1 -> max_interval x eps d2 i2 j2 ->
        i1 <= k < j1 -> i2 <= k < j2 -> i1 = i2 /\ j1 = j2).
Proof.
  intros x eps d k He Hk. split; [exact (max_interval_covers x eps d k He Hk)|].
  intros d1 d2 i1 j1 i2 j2 H1 H2 Hi1 Hi2.
  assert (d1 = d).
  { destruct H1 as (_ & _ & _ & H1 & _). destruct d1, d; try reflexivity; exfalso; apply (H1 k Hi1); exact Hk. }
  subst d1. exact (max_interval_unique x eps d d2 i1 j1 i2 j2 k He H1 H2 Hk Hi1 Hi2).
Qed.
Print Assumptions C12_each_step_once.

(** The other [ends] values drop the last, the first, or both points. *)
Theorem C12_ends :
  forall us (x : list Q) (trend : str) (eps : Q) (ends endsB : str),
  builtin trend -> (0 <= eps)%Q -> first_letter endsB "b" "B" ->
  forall (f : list Q -> list Q) (di dj : nat),
  (first_letter ends "l" "L" /\ f = (@removelast Q) /\ di = 0 /\ dj = 1)
  \/ (first_letter ends "r" "R" /\ f = (@tl Q) /\ di = 1 /\ dj = 0)
  \/ (first_letter ends "n" "N" /\ f = (fun l => tl (removelast l)) /\ di = 1 /\ dj = 1) ->
  exists segsB segs,
    split_monotonic us x trend endsB eps = Ok segsB /\ split_monotonic us x trend ends eps = Ok segs
    /\ Forall2 (fun b g => m_vals g = f (m_vals b) /\ m_sign g = m_sign b
                   /\ m_idx g = (fst (m_idx b) + di, snd (m_idx b) - dj)) segsB segs.
Proof. exact split_ends. Qed.
Print Assumptions C12_ends.

(** Anything else is refused: an empty [ends] or [trend] with IndexError, another first letter with ValueError ([ends] is looked at first). *)
Theorem C12_refused :
  forall us (x : list Q) (eps : Q) (trend : str),
  split_monotonic us x trend [] eps = Err IndexError
  /\ (forall c r, ~ In c ["l"; "L"; "r"; "R"; "b"; "B"; "n"; "N"]%char -> split_monotonic us x trend (c :: r) eps = Err ValueError)
  /\ (forall c r, In c ["l"; "L"; "r"; "R"; "b"; "B"; "n"; "N"]%char ->
        split_monotonic us x [] (c :: r) eps = Err IndexError
        /\ forall t t', ~ In t ["b"; "B"; "a"; "A"; "d"; "D"; "#"]%char -> split_monotonic us x (t :: t') (c :: r) eps = Err ValueError).
Proof.
  intros us x eps trend. split; [reflexivity|]. split.
  - intros c r H. assert (E : ends_offsets (c :: r) = Err ValueError); [|unfold split_monotonic; rewrite E; reflexivity].
    destruct c as [[] [] [] [] [] [] [] []]; try reflexivity; exfalso; apply H; cbn; tauto.
  - intros c r H. assert (E : exists lr, ends_offsets (c :: r) = Ok lr) by (cbn in H; repeat (destruct H as [<-|H]; [eexists; reflexivity|]); destruct H).
    destruct E as (lr & E). unfold split_monotonic. rewrite E. cbn [rbind]. split; [reflexivity|]. intros t t' Ht.
    assert (E2 : forall s, trend_spans us (t :: t') s = Err ValueError); [|rewrite E2; reflexivity]. intros s.
    destruct t as [[] [] [] [] [] [] [] []]; try reflexivity; exfalso; apply Ht; cbn; tauto.
Qed.
Print Assumptions C12_refused.
(** With trend='#pattern' the pattern is searched in the steps written as letters; each match becomes one interval, with the sign of its first step,
    and a pattern with an empty match raises IndexError. *)
Theorem C12_pattern :
  forall us (x : list Q) (eps : Q) (pattern ends : str) spans, first_letter ends "b" "B" ->
  us pattern (map (classify eps) (diffs x)) = Ok spans ->
  ((exists i, In (i, i) spans) -> split_monotonic us x ("#"%char :: pattern) ends eps = Err IndexError)
  /\ ((forall i j, In (i, j) spans -> i < j < length x) -> (0 <= eps)%Q ->
      exists segs, split_monotonic us x ("#"%char :: pattern) ends eps = Ok segs
      /\ Forall2 (fun ij g => m_idx g = (fst ij, S (snd ij)) /\ length (m_vals g) = S (snd ij) - fst ij
           /\ (forall k, k < S (snd ij) - fst ij -> nth_error (m_vals g) k = nth_error x (fst ij + k))
           /\ forall d, m_sign g = dir_sign d <-> moves x eps d (fst ij)) spans segs).
Proof.
  intros us x eps pattern ends spans Hb Hus. unfold split_monotonic. rewrite (proj1 (ends_spec ends) Hb). cbn [rbind].
  assert (T : trend_spans us ("#"%char :: pattern) (map (classify eps) (diffs x)) = Ok spans) by exact Hus. rewrite T. cbn [rbind]. split.
  - intros (i & Hi). assert (X : existsb (fun m : nat * nat => Nat.eqb (fst m) (snd m)) spans = true) by (apply existsb_exists; exists (i, i); split; [exact Hi|apply Nat.eqb_refl]). rewrite X. reflexivity.
  - intros HI He. assert (X : existsb (fun m : nat * nat => Nat.eqb (fst m) (snd m)) spans = false).
    { destruct (existsb _ _) eqn:X; [|reflexivity]. apply existsb_exists in X as ([i j] & Hin & X). apply Nat.eqb_eq in X. cbn in X. apply HI in Hin. lia. }
    rewrite X. eexists. split; [reflexivity|]. clear X T Hus. induction spans as [|[i j] spans IH]; cbn [map]; constructor; [|apply IH; intros; apply HI; right; assumption].
    destruct (HI i j (or_introl eq_refl)) as (H1 & H2). unfold segment; cbn [m_vals m_sign m_idx fst snd]. rewrite Nat.add_0_r, Nat.add_1_r. split; [reflexivity|]. split; [apply slice_length; lia|]. split.
    + intros k Hk. rewrite nth_slice. destruct (i + k <? S j) eqn:E; [reflexivity|apply Nat.ltb_ge in E; lia].
    + intros d. rewrite <- (signs_nth x eps d i He). destruct (nth_error (map (classify eps) (diffs x)) i) as [[]|], d; cbn; split; intros E; try discriminate; reflexivity.
Qed.
Print Assumptions C12_pattern.
(** Non-vacuity. *)
Definition no_user (_ : str) (_ : list sgn) : res (list (nat * nat)) := Err ValueError.
Local Open Scope Q_scope.
Example C12_case :
  rmap (map (fun g => (m_vals g, m_sign g, m_idx g)))
    (split_monotonic no_user [0; 0; 1; 1; 2; 1; 1; 0; 0; 3] (S_ "both") (S_ "Both") (1#100))
  = Ok [([0; 1; 1; 2], 1%Z, (1, 5)%nat); ([2; 1; 1; 0], (-1)%Z, (4, 8)%nat); ([0; 3], 1%Z, (8, 10)%nat)]
  /\ builtin (S_ "both") /\ first_letter (S_ "Both") "b" "B".
Proof.
  split; [reflexivity|]. split.
  - exists Up. left. exists "b"%char; eexists; split; [reflexivity|left; reflexivity].
  - exists "B"%char; eexists; split; [reflexivity|right; reflexivity].
Qed.
Definition runs_A (p : str) (s : list sgn) : res (list (nat * nat)) := if (length p =? 2)%nat then Ok [(0, 2); (3, 4)]%nat else Ok [(0, 0)]%nat.
Example C12_case_pattern :
  rmap (map (fun g => (m_vals g, m_sign g, m_idx g))) (split_monotonic runs_A [0; 1; 2; 2; 3] (S_ "#A+") (S_ "both") (1#100))
  = Ok [([0; 1; 2], 1%Z, (0, 3)%nat); ([2; 3], 1%Z, (3, 5)%nat)]
  /\ split_monotonic runs_A [0; 1; 2; 2; 3] (S_ "#A*?") (S_ "both") (1#100) = Err IndexError.
Proof. split; reflexivity. Qed.
