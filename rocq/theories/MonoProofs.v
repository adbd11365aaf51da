From Coq Require Import QArith Lqa Sorted.
From Verif Require Import Py PyStr MonoModel MonoSpec.
Local Open Scope nat_scope.

Lemma sgn_eqb_eq a b : sgn_eqb a b = true <-> a = b.
Proof. destruct a, b; cbn; split; congruence. Qed.

Lemma ne_opp g : g <> SS -> Some g <> Some (opp g).
Proof. destruct g; cbn; congruence. Qed.

(** ** The greedy match *)
Definition tail_pat (g : sgn) : re := Seq (StarC (fun c => sgn_eqb c g || sgn_eqb c SS)) (Chr (sgn_eqb g)).

Lemma flat_map_map {A B C} (f : A -> B) (g : B -> list C) l : flat_map g (map f l) = flat_map (fun a => g (f a)) l.
Proof. induction l; cbn; congruence. Qed.
Lemma map_flat_map {A B C} (f : A -> list B) (g : B -> C) l : map g (flat_map f l) = flat_map (fun a => map g (f a)) l.
Proof. induction l; cbn; [reflexivity|]. rewrite map_app; congruence. Qed.

Lemma tail_cons g c r :
  matches (tail_pat g) (c :: r) =
  (if sgn_eqb c g || sgn_eqb c SS then map S (matches (tail_pat g) r) else [])
  ++ (if sgn_eqb g c then [1] else []).
Proof.
  cbn [matches tail_pat star_lens]. destruct (sgn_eqb c g || sgn_eqb c SS) eqn:E.
  - rewrite flat_map_app, flat_map_map, map_flat_map. f_equal.
    + apply flat_map_ext; intros n. rewrite map_map. reflexivity.
    + cbn. destruct (sgn_eqb g c); reflexivity.
  - cbn. destruct (sgn_eqb g c); reflexivity.
Qed.

(** [n] = number of leading steps up to the last [g] before any opposite step. *)
Definition last_g (g : sgn) (s : list sgn) (n : nat) : Prop :=
  0 < n /\ nth_error s (n - 1) = Some g
  /\ (forall k, k < n -> nth_error s k <> Some (opp g))
  /\ (forall k, n <= k -> nth_error s k = Some g -> exists m, n <= m < k /\ nth_error s m = Some (opp g)).

Lemma tail_first g s : g <> SS ->
  match hd_error (matches (tail_pat g) s) with
  | Some n => last_g g s n
  | None => forall k, nth_error s k = Some g -> exists m, m < k /\ nth_error s m = Some (opp g)
  end.
Proof.
  intros Hg. induction s as [|c r IH].
  - cbn. intros k Hk; destruct k; discriminate.
  - rewrite tail_cons. destruct (matches (tail_pat g) r) as [|n l] eqn:E; cbn [hd_error] in IH.
    + destruct (sgn_eqb c g || sgn_eqb c SS) eqn:Ec.
      * cbn [map app]. destruct (sgn_eqb g c) eqn:Egc; cbn [hd_error].
        -- apply sgn_eqb_eq in Egc; subst c. split; [lia|]. split; [reflexivity|]. split.
           ++ intros k Hk; replace k with 0 by lia; cbn. apply ne_opp; exact Hg.
           ++ intros [|k] Hk Hn; [lia|]. cbn in Hn. destruct (IH k Hn) as (m & Hm & Hn').
              exists (S m); split; [lia|exact Hn'].
        -- intros [|k] Hn; cbn in Hn.
           ++ inversion Hn; subst. rewrite (proj2 (sgn_eqb_eq g g) eq_refl) in Egc; discriminate.
           ++ destruct (IH k Hn) as (m & Hm & Hn'). exists (S m); split; [lia|exact Hn'].
      * cbn [app]. apply orb_false_iff in Ec; destruct Ec as (Ec1 & Ec2).
        assert (Hc : c = opp g) by (destruct c, g; cbn in *; congruence).
        destruct (sgn_eqb g c) eqn:Egc; cbn [hd_error].
        -- apply sgn_eqb_eq in Egc. subst c; destruct g; cbn in *; congruence.
        -- intros [|k] Hn; cbn in Hn; [inversion Hn; subst; destruct g; cbn in *; congruence|].
           exists 0; split; [lia|cbn; congruence].
    + destruct (sgn_eqb c g || sgn_eqb c SS) eqn:Ec.
      * cbn [map app hd_error]. destruct IH as (Hn0 & Hlast & Hno & Hmax).
        split; [lia|]. split; [replace (S n - 1) with (S (n - 1)) by lia; exact Hlast|]. split.
        -- intros [|k] Hk; cbn; [|apply Hno; lia].
           intros [= ->]. destruct g; cbn in *; congruence.
        -- intros [|k] Hk Hkn; [lia|]. cbn in Hkn. destruct (Hmax k) as (m & Hm & Hmn); [lia|exact Hkn|].
           exists (S m); split; [lia|exact Hmn].
      * cbn [app]. apply orb_false_iff in Ec; destruct Ec as (Ec1 & Ec2).
        assert (Hc : c = opp g) by (destruct c, g; cbn in *; congruence).
        destruct (sgn_eqb g c) eqn:Egc; cbn [hd_error].
        -- apply sgn_eqb_eq in Egc. subst c; destruct g; cbn in *; congruence.
        -- intros [|k] Hn; cbn in Hn; [inversion Hn; subst; destruct g; cbn in *; congruence|].
           exists 0; split; [lia|cbn; congruence].
Qed.

Lemma pat1_cons g c r : matches (pat1 g) (c :: r) =
  if sgn_eqb g c then map S (matches (tail_pat g) r) ++ [1] else [].
Proof.
  unfold pat1; cbn [matches]. fold (tail_pat g). destruct (sgn_eqb g c); [|reflexivity].
  cbn [flat_map skipn]. rewrite app_nil_r. change (matches (Seq _ _) r) with (matches (tail_pat g) r).
  rewrite map_app. reflexivity.
Qed.

Lemma pat1_first g c r : g <> SS ->
  match matches (pat1 g) (c :: r) with
  | n :: _ => c = g /\ last_g g (c :: r) n
  | [] => c <> g
  end.
Proof.
  intros Hg. rewrite pat1_cons. destruct (sgn_eqb g c) eqn:E.
  - apply sgn_eqb_eq in E; subst c. pose proof (tail_first g r Hg) as H.
    destruct (matches (tail_pat g) r) as [|n l]; cbn [map app hd_error] in *; (split; [reflexivity|]).
    + split; [lia|]. split; [reflexivity|]. split.
      * intros k Hk; replace k with 0 by lia; cbn. apply ne_opp; exact Hg.
      * intros [|k] Hk Hn; [lia|]. cbn in Hn. destruct (H k Hn) as (m & Hm & Hn').
        exists (S m); split; [lia|exact Hn'].
    + destruct H as (Hn0 & Hlast & Hno & Hmax).
      split; [lia|]. split; [replace (S n - 1) with (S (n - 1)) by lia; exact Hlast|]. split.
      * intros [|k] Hk; cbn; [apply ne_opp; exact Hg|apply Hno; lia].
      * intros [|k] Hk Hkn; [lia|]. cbn in Hkn. destruct (Hmax k) as (m & Hm & Hmn); [lia|exact Hkn|].
        exists (S m); split; [lia|exact Hmn].
  - intros ->. rewrite (proj2 (sgn_eqb_eq g g) eq_refl) in E; discriminate.
Qed.

(** The requested signs of a pattern *)
Definition pat_of (req : list sgn) : option re :=
  match req with
  | [SA] => Some pat_A | [SD] => Some pat_D | [SA; SD] => Some pat_B | _ => None end.

Lemma pat_first req p c r : pat_of req = Some p ->
  match matches p (c :: r) with
  | n :: _ => In c req /\ c <> SS /\ last_g c (c :: r) n
  | [] => ~ In c req
  end /\ (forall g, In g req -> g <> SS).
Proof.
  intros Hp. destruct req as [|[] [|[] [|]]]; try discriminate; inversion Hp; subst p; clear Hp.
  - split; [|intros g [<-|[]]; discriminate].
    pose proof (pat1_first SA c r ltac:(discriminate)) as H. unfold pat_A.
    destruct (matches (pat1 SA) (c :: r)); [intros [E|[]]; congruence|].
    destruct H as (-> & H); repeat split; try apply H; [left; reflexivity|discriminate].
  - split; [|intros g [<-|[<-|[]]]; discriminate].
    pose proof (pat1_first SA c r ltac:(discriminate)) as H.
    pose proof (pat1_first SD c r ltac:(discriminate)) as H'. change (matches pat_B (c :: r)) with (matches (pat1 SA) (c :: r) ++ matches (pat1 SD) (c :: r)).
    destruct (matches (pat1 SA) (c :: r)) as [|n l]; cbn [app].
    + destruct (matches (pat1 SD) (c :: r)) as [|n l]; [intros [E|[E|[]]]; congruence|].
      destruct H' as (-> & H'); repeat split; try apply H'; [right; left; reflexivity|discriminate].
    + destruct H as (-> & H); repeat split; try apply H; [left; reflexivity|discriminate].
  - split; [|intros g [<-|[]]; discriminate].
    pose proof (pat1_first SD c r ltac:(discriminate)) as H. unfold pat_D.
    destruct (matches (pat1 SD) (c :: r)); [intros [E|[]]; congruence|].
    destruct H as (-> & H); repeat split; try apply H; [left; reflexivity|discriminate].
Qed.

(** ** Maximal sign intervals *)
Definition sgn_interval (s : list sgn) (g : sgn) (i j : nat) : Prop :=
  i < j /\ nth_error s i = Some g /\ nth_error s (j - 1) = Some g
  /\ (forall k, i <= k < j -> nth_error s k <> Some (opp g))
  /\ (forall k, j <= k -> nth_error s k = Some g -> exists m, j <= m < k /\ nth_error s m = Some (opp g))
  /\ (forall k, k < i -> nth_error s k = Some g -> exists m, k < m < i /\ nth_error s m = Some (opp g)).

(** Nothing of sign [g] before [pos] can reach past [pos]. *)
Definition clean (s : list sgn) (g : sgn) (pos : nat) : Prop :=
  forall k m, k < pos -> pos <= m -> nth_error s k = Some g -> nth_error s m = Some g ->
    exists o, k < o < m /\ nth_error s o = Some (opp g).

Lemma finditer_skip p n : forall pos s, n <= length s ->
  finditer p pos n s = finditer p (pos + n) 0 (skipn n s).
Proof.
  induction n as [|n IH]; intros pos s Hn; [rewrite Nat.add_0_r; reflexivity|].
  destruct s as [|c s]; [cbn in Hn; lia|]. cbn [finditer skipn].
  rewrite IH by (cbn in Hn; lia). f_equal; lia.
Qed.

Lemma skipn_skipn {A} (l : list A) a b : skipn a (skipn b l) = skipn (a + b) l.
Proof.
  revert l; induction b as [|b IH]; intros l; [rewrite Nat.add_0_r; reflexivity|].
  rewrite Nat.add_succ_r. destruct l as [|x l]; [rewrite !skipn_nil; reflexivity|]. cbn [skipn]. apply IH.
Qed.

Lemma nth_error_skipn {A} (l : list A) n k : nth_error (skipn n l) k = nth_error l (n + k).
Proof. revert n; induction l as [|a l IH]; intros [|n]; cbn; try reflexivity; [destruct k; reflexivity|apply IH]. Qed.

Lemma finditer_iff req p : pat_of req = Some p ->
  forall len pos s, length s - pos <= len -> pos <= length s ->
  (forall g, In g req -> clean s g pos) ->
  forall i j, In (i, j) (finditer p pos 0 (skipn pos s)) <->
              pos <= i /\ exists g, In g req /\ sgn_interval s g i j.
Proof.
  intros Hp. induction len as [|len IH]; intros pos s Hlen Hpos Hclean i j.
  - assert (pos = length s) by lia. rewrite skipn_all2 by lia. cbn. split; [intros []|].
    intros (Hi & g & _ & Hij & Hsi & _). assert (Hx : nth_error s i <> None) by congruence.
    apply nth_error_Some in Hx. lia.
  - destruct (Nat.eq_dec pos (length s)) as [->|Hne].
    { rewrite skipn_all. cbn. split; [intros []|].
      intros (Hi & g & _ & Hij & Hsi & _). assert (Hx : nth_error s i <> None) by congruence.
      apply nth_error_Some in Hx. lia. }
    destruct (skipn pos s) as [|c r] eqn:Es.
    { apply (f_equal (@length _)) in Es. rewrite skipn_length in Es; cbn in Es; lia. }
    assert (Hr : r = skipn (S pos) s).
    { change (S pos) with (1 + pos). rewrite <- skipn_skipn, Es. reflexivity. }
    assert (Hc : nth_error s pos = Some c).
    { rewrite <- (Nat.add_0_r pos), <- nth_error_skipn, Es. reflexivity. }
    assert (Hlenr : length (c :: r) = length s - pos) by (rewrite <- Es; apply skipn_length).
    destruct (pat_first req p c r Hp) as (Hm & HSS).
    cbn [finditer]. destruct (matches p (c :: r)) as [|[|n] l] eqn:Em.
    + (* no match here *)
      rewrite Hr, (IH (S pos) s); [|lia|lia|].
      * split.
        -- intros (Hi & H); split; [lia|exact H].
        -- intros (Hi & g & Hg & Hint). split; [|eauto].
           destruct (Nat.eq_dec i pos) as [->|]; [|lia].
           destruct Hint as (_ & H & _). assert (c = g) by congruence; subst. contradiction.
      * intros g Hg k m Hk Hmm Hkg Hmg.
        destruct (Nat.eq_dec k pos) as [->|]; [assert (c = g) by congruence; subst; contradiction|].
        apply (Hclean g Hg k m); try assumption; lia.
    + destruct Hm as (_ & _ & Hl0 & _). lia.
    + destruct Hm as (Hin & Hss & Hlast). destruct Hlast as (_ & Hl & Hno & Hmax).
      assert (Hnl : S n <= length (c :: r)).
      { assert (Hx : nth_error (c :: r) (S n - 1) <> None) by congruence. apply nth_error_Some in Hx. lia. }
      assert (Hnth : forall k, nth_error (c :: r) k = nth_error s (pos + k)).
      { intros k. rewrite <- Es, nth_error_skipn. reflexivity. }
      assert (Hint : sgn_interval s c pos (pos + S n)).
      { split; [lia|]. split; [exact Hc|]. split.
        { replace (pos + S n - 1) with (pos + (S n - 1)) by lia. rewrite <- Hnth. exact Hl. }
        split; [|split].
        - intros k Hk. replace k with (pos + (k - pos)) by lia. rewrite <- Hnth. apply Hno; lia.
        - intros k Hk Hkc. replace k with (pos + (k - pos)) in Hkc by lia. rewrite <- Hnth in Hkc.
          destruct (Hmax (k - pos)) as (m & Hm & Hmo); [lia|exact Hkc|].
          exists (pos + m); split; [lia|]. rewrite <- Hnth; exact Hmo.
        - intros k Hk Hkc. destruct (Hclean c Hin k pos) as (o & Ho & Hoo); try assumption; [lia|].
          exists o; split; [lia|exact Hoo]. }
      rewrite finditer_skip by (cbn [length] in Hnl; lia).
      replace (skipn n r) with (skipn (S pos + n) s).
      2:{ rewrite Hr, skipn_skipn. f_equal; lia. }
      assert (HIH := IH (S pos + n) s).
      split.
      * intros [[= <- <-]|H]; [split; [lia|eauto]|].
        rewrite HIH in H; [|lia|cbn [length] in *; lia|].
        -- destruct H as (Hi & H); split; [lia|exact H].
        -- clear H HIH. intros g Hg k m Hk Hmm Hkg Hmg. destruct Hint as (_ & _ & Hend & Hnop & Hri & _).
           destruct (Nat.lt_ge_cases k pos) as [Hlt|Hge]; [apply (Hclean g Hg k m); try assumption; lia|].
           assert (Hgc : g = c).
           { assert (Hgo : g <> opp c) by (intros ->; apply (Hnop k); [lia|exact Hkg]).
             pose proof (HSS g Hg). destruct g, c; cbn in *; congruence. }
           subst g. destruct (Hri m) as (o & Ho & Hoo); [lia|exact Hmg|]. exists o; split; [lia|exact Hoo].
      * intros (Hi & g & Hg & Hg2).
        destruct (Nat.eq_dec i pos) as [->|Hip].
        { left. assert (g = c) by (destruct Hg2 as (_ & H & _); congruence). subst g.
          f_equal. destruct Hint as (A1 & A2 & A3 & A4 & A5 & A6). destruct Hg2 as (B1 & B2 & B3 & B4 & B5 & B6).
          destruct (Nat.lt_trichotomy (pos + S n) j) as [H|[H|H]]; [|exact H|].
          - destruct (A5 (j - 1)) as (m & Hm & Hmo); [lia|exact B3|]. exfalso; apply (B4 m); [lia|exact Hmo].
          - destruct (B5 (pos + S n - 1)) as (m & Hm & Hmo); [lia|exact A3|]. exfalso; apply (A4 m); [lia|exact Hmo]. }
        right. apply HIH; [lia|cbn [length] in *; lia| |].
        -- clear HIH. intros g' Hg' k m Hk Hmm Hkg Hmg. destruct Hint as (_ & _ & Hend & Hnop & Hri & _).
           destruct (Nat.lt_ge_cases k pos) as [Hlt|Hge]; [apply (Hclean g' Hg' k m); try assumption; lia|].
           assert (Hgc : g' = c).
           { assert (Hgo : g' <> opp c) by (intros ->; apply (Hnop k); [lia|exact Hkg]).
             pose proof (HSS g' Hg'). destruct g', c; cbn in *; congruence. }
           subst g'. destruct (Hri m) as (o & Ho & Hoo); [lia|exact Hmg|]. exists o; split; [lia|exact Hoo].
        -- split; [|eauto]. destruct (Nat.lt_ge_cases i (S pos + n)) as [Hlt|]; [exfalso|assumption].
           destruct Hint as (A1 & A2 & A3 & A4 & A5 & A6). destruct Hg2 as (B1 & B2 & B3 & B4 & B5 & B6).
           assert (Hgc : g = c).
           { assert (Hgo : g <> opp c) by (intros ->; apply (A4 i); [lia|exact B2]).
             pose proof (HSS g Hg). destruct g, c; cbn in *; congruence. }
           subst g. destruct (B6 pos) as (m & Hm & Hmo); [lia|exact A2|]. apply (A4 m); [lia|exact Hmo].
Qed.

Definition before (a b : nat * nat) : Prop := snd a <= fst b.

Lemma finditer_ge p s : forall pos k i j, In (i, j) (finditer p pos k s) -> pos + k <= i /\ i < j.
Proof.
  induction s as [|c s IH]; intros pos k i j; cbn [finditer]; [intros []|].
  destruct k as [|k].
  - destruct (matches p (c :: s)) as [|[|n] l].
    + intros H; apply IH in H; lia.
    + intros H; apply IH in H; lia.
    + intros [[= <- <-]|H]; [lia|]. apply IH in H; lia.
  - intros H; apply IH in H; lia.
Qed.

Lemma finditer_sorted p s : forall pos k, StronglySorted before (finditer p pos k s).
Proof.
  induction s as [|c s IH]; intros pos k; cbn [finditer]; [constructor|].
  destruct k as [|k]; [|apply IH].
  destruct (matches p (c :: s)) as [|[|n] l]; [apply IH|apply IH|].
  constructor; [apply IH|]. apply Forall_forall. intros [i j] H. apply finditer_ge in H.
  unfold before; cbn. lia.
Qed.

(** ** From signs to the array *)
Definition sgn_of (d : dir) : sgn := match d with Up => SA | Down => SD end.

Lemma diffs_nth x : forall k q, nth_error (diffs x) k = Some q <->
  exists a b, nth_error x k = Some a /\ nth_error x (S k) = Some b /\ q = (b - a)%Q.
Proof.
  induction x as [|a x IH]; intros k q.
  - cbn. split; [destruct k; discriminate|]. intros (? & ? & H & _); destruct k; discriminate.
  - destruct x as [|b x].
    + cbn. split; [destruct k; discriminate|]. intros (? & ? & _ & H & _); destruct k; discriminate.
    + change (diffs (a :: b :: x)) with ((b - a)%Q :: diffs (b :: x)). destruct k as [|k].
      * cbn. split; [intros [= <-]; eauto|]. intros (? & ? & [= <-] & [= <-] & ->); reflexivity.
      * cbn [nth_error]. rewrite IH. reflexivity.
Qed.

Lemma signs_nth x eps d k : (0 <= eps)%Q ->
  nth_error (map (classify eps) (diffs x)) k = Some (sgn_of d) <-> moves x eps d k.
Proof.
  intros He. unfold moves. split.
  - intros H. destruct (nth_error (diffs x) k) as [q|] eqn:E.
    + rewrite (map_nth_error _ _ _ E) in H. apply diffs_nth in E. destruct E as (a & b & Ha & Hb & ->).
      exists a, b; split; [exact Ha|]; split; [exact Hb|].
      unfold classify in H. destruct (Qlt_le_dec eps (b - a)); [destruct d; [assumption|discriminate]|].
      destruct (Qlt_le_dec (b - a) (- eps)); destruct d; try discriminate; assumption.
    + exfalso. assert (length (map (classify eps) (diffs x)) <= k).
      { rewrite map_length. apply nth_error_None; exact E. }
      apply nth_error_None in H0; congruence.
  - intros (a & b & Ha & Hb & H). assert (E : nth_error (diffs x) k = Some (b - a)%Q).
    { apply diffs_nth; exists a, b; auto. }
    rewrite (map_nth_error _ _ _ E). f_equal. unfold classify.
    destruct d; cbn.
    + destruct (Qlt_le_dec eps (b - a)); [reflexivity|exfalso; lra].
    + destruct (Qlt_le_dec eps (b - a)); [exfalso; lra|]. destruct (Qlt_le_dec (b - a) (- eps)); [reflexivity|exfalso; lra].
Qed.

Lemma interval_iff x eps d i j : (0 <= eps)%Q ->
  sgn_interval (map (classify eps) (diffs x)) (sgn_of d) i j <-> max_interval x eps d i j.
Proof.
  intros He. unfold sgn_interval, max_interval.
  assert (Ho : opp (sgn_of d) = sgn_of (other d)) by (destruct d; reflexivity). rewrite Ho.
  rewrite !signs_nth by exact He.
  assert (N : forall k, nth_error (map (classify eps) (diffs x)) k <> Some (sgn_of (other d)) <-> ~ moves x eps (other d) k).
  { intros k. rewrite <- signs_nth by exact He. reflexivity. }
  split; intros (H1 & H2 & H3 & H4 & H5 & H6); (split; [exact H1|]); (split; [exact H2|]); (split; [exact H3|]); (split; [|split]).
  - intros k Hk; apply N, H4, Hk.
  - intros k Hk Hm. rewrite <- signs_nth in Hm by exact He. destruct (H5 k Hk Hm) as (m & Hm' & Hmm).
    exists m; split; [exact Hm'|]. apply signs_nth in Hmm; assumption.
  - intros k Hk Hm. rewrite <- signs_nth in Hm by exact He. destruct (H6 k Hk Hm) as (m & Hm' & Hmm).
    exists m; split; [exact Hm'|]. apply signs_nth in Hmm; assumption.
  - intros k Hk; apply N, H4, Hk.
  - intros k Hk Hm. rewrite signs_nth in Hm by exact He. destruct (H5 k Hk Hm) as (m & Hm' & Hmm).
    exists m; split; [exact Hm'|]. apply signs_nth; assumption.
  - intros k Hk Hm. rewrite signs_nth in Hm by exact He. destruct (H6 k Hk Hm) as (m & Hm' & Hmm).
    exists m; split; [exact Hm'|]. apply signs_nth; assumption.
Qed.

(** Every step of the requested direction lies in an interval (existence). *)
Lemma covered_aux g s : g <> SS -> forall k, nth_error s k = Some g ->
  exists i j, sgn_interval s g i j /\ i <= k < j.
Proof.
  intros Hg k Hk.
  (* right end *)
  assert (HR : exists j, k < j /\ nth_error s (j - 1) = Some g
      /\ (forall m, k <= m < j -> nth_error s m <> Some (opp g))
      /\ (forall m, j <= m -> nth_error s m = Some g -> exists o, j <= o < m /\ nth_error s o = Some (opp g))).
  { destruct (skipn k s) as [|c r] eqn:Es.
    { apply (f_equal (@length _)) in Es. rewrite skipn_length in Es; cbn in Es.
      assert (nth_error s k <> None) by congruence. apply nth_error_Some in H; lia. }
    assert (Hnth : forall m, nth_error (c :: r) m = nth_error s (k + m)) by (intros; rewrite <- Es; apply nth_error_skipn).
    assert (c = g) by (specialize (Hnth 0); rewrite Nat.add_0_r in Hnth; cbn in Hnth; congruence). subst c.
    pose proof (pat1_first g g r Hg) as H. destruct (matches (pat1 g) (g :: r)) as [|n l]; [congruence|].
    destruct H as (_ & Hn & Hl & Hno & Hmax). exists (k + n). split; [lia|]. split; [|split].
    - replace (k + n - 1) with (k + (n - 1)) by lia. rewrite <- Hnth; exact Hl.
    - intros m Hm. replace m with (k + (m - k)) by lia. rewrite <- Hnth. apply Hno; lia.
    - intros m Hm Hmg. replace m with (k + (m - k)) in Hmg by lia. rewrite <- Hnth in Hmg.
      destruct (Hmax (m - k)) as (o & Ho & Hoo); [lia|exact Hmg|]. exists (k + o); split; [lia|]. rewrite <- Hnth; exact Hoo. }
  assert (HL : forall n, n <= k -> exists i, n <= i <= k /\ nth_error s i = Some g
      /\ (forall m, i <= m <= k -> nth_error s m <> Some (opp g))
      /\ (forall m, n <= m < i -> nth_error s m = Some g -> exists o, m < o < i /\ nth_error s o = Some (opp g))).
  { intros n Hn. remember (k - n) as d eqn:Ed. revert n Hn Ed. induction d as [|d IHd]; intros n Hn Ed.
    - assert (n = k) by lia. subst n. exists k. split; [lia|]. split; [exact Hk|]. split.
      + intros m Hm; replace m with k by lia. rewrite Hk; apply ne_opp; exact Hg.
      + intros m Hm; lia.
    - destruct (IHd (S n)) as (i & Hi & Hig & Hno & Hmax); [lia|lia|].
      destruct (nth_error s n) as [c|] eqn:En.
      2:{ exfalso. apply nth_error_None in En. assert (nth_error s k <> None) by congruence. apply nth_error_Some in H; lia. }
      destruct (sgn_eqb c g) eqn:Ecg.
      + apply sgn_eqb_eq in Ecg; subst c.
        (* is there an opposite between n and i? *)
        assert (Hdec : (exists o, n < o < i /\ nth_error s o = Some (opp g)) \/
                       (forall o, n < o < i -> nth_error s o <> Some (opp g))).
        { clear. remember i as b eqn:Eb. clear Eb i. induction b as [|b IHb].
          - right; intros; lia.
          - destruct IHb as [(o & Ho & Hoo)|Hn]; [left; exists o; split; [lia|exact Hoo]|].
            destruct (nth_error s b) as [c|] eqn:Eb.
            + destruct (sgn_eqb c (opp g)) eqn:Ec.
              * apply sgn_eqb_eq in Ec. destruct (Nat.lt_ge_cases n b).
                -- left; exists b; split; [lia|congruence].
                -- right; intros; lia.
              * right. intros o Ho. destruct (Nat.eq_dec o b) as [->|]; [|apply Hn; lia].
                rewrite Eb. intros [= ->]. rewrite (proj2 (sgn_eqb_eq _ _) eq_refl) in Ec; discriminate.
            + right. intros o Ho. destruct (Nat.eq_dec o b) as [->|]; [congruence|apply Hn; lia]. }
        destruct Hdec as [(o & Ho & Hoo)|Hnone].
        * exists i. split; [lia|]. split; [exact Hig|]. split; [exact Hno|].
          intros m Hm Hmg. destruct (Nat.eq_dec m n) as [->|]; [exists o; auto|]. apply Hmax; [lia|exact Hmg].
        * exists n. split; [lia|]. split; [exact En|]. split.
          -- intros m Hm. destruct (Nat.lt_ge_cases m i) as [Hlt|Hge]; [|apply Hno; lia].
             destruct (Nat.eq_dec m n) as [->|]; [rewrite En; apply ne_opp; exact Hg|]. apply Hnone; lia.
          -- intros m Hm; lia.
      + exists i. split; [lia|]. split; [exact Hig|]. split; [exact Hno|].
        intros m Hm Hmg. destruct (Nat.eq_dec m n) as [->|]; [|apply Hmax; [lia|exact Hmg]].
        rewrite En in Hmg. inversion Hmg; subst. rewrite (proj2 (sgn_eqb_eq g g) eq_refl) in Ecg; discriminate. }
  destruct HR as (j & Hj & Hjg & Hjno & Hjmax). destruct (HL 0 ltac:(lia)) as (i & Hi & Hig & Hino & Himax).
  exists i, j. split; [|lia]. split; [lia|]. split; [exact Hig|]. split; [exact Hjg|]. split; [|split].
  - intros m Hm. destruct (Nat.le_gt_cases m k); [apply Hino; lia|apply Hjno; lia].
  - exact Hjmax.
  - intros m Hm Hmg. apply Himax; [lia|exact Hmg].
Qed.

(** ** split_monotonic *)
Definition req_of (trend : str) : option (list sgn) :=
  match trend with
  | [] => None
  | c :: _ => if ch_eq (upper c) "B" then Some [SA; SD] else if ch_eq (upper c) "A" then Some [SA]
              else if ch_eq (upper c) "D" then Some [SD] else None
  end.

Definition dirs (req : list sgn) (d : dir) : Prop := In (sgn_of d) req.

Lemma trend_spans_req us trend req s : req_of trend = Some req ->
  exists p, pat_of req = Some p /\ trend_spans us trend s = Ok (finditer p 0 0 s).
Proof.
  destruct trend as [|c t]; cbn; [discriminate|].
  destruct (ch_eq (upper c) "B"); [intros [= <-]; exists pat_B; auto|].
  destruct (ch_eq (upper c) "A"); [intros [= <-]; exists pat_A; auto|].
  destruct (ch_eq (upper c) "D"); [intros [= <-]; exists pat_D; auto|discriminate].
Qed.

Lemma spans_iff req p x eps : pat_of req = Some p -> (0 <= eps)%Q ->
  let spans := finditer p 0 0 (map (classify eps) (diffs x)) in
  forall i j, In (i, j) spans <-> exists d, dirs req d /\ max_interval x eps d i j.
Proof.
  intros Hp He spans i j. unfold spans. set (s := map (classify eps) (diffs x)).
  change s with (skipn 0 s) at 1. rewrite (finditer_iff req p Hp (length s) 0 s) by (lia || (intros g _ k m Hk; lia)).
  split.
  - intros (_ & g & Hg & Hint). destruct (pat_first req p SA [] Hp) as (_ & HSS). specialize (HSS g Hg).
    assert (exists d, g = sgn_of d) as (d & ->) by (destruct g; [exists Up|exists Down|congruence]; reflexivity).
    exists d; split; [exact Hg|]. apply interval_iff; assumption.
  - intros (d & Hd & Hint). split; [lia|]. exists (sgn_of d); split; [exact Hd|]. apply interval_iff; assumption.
Qed.

Lemma map_nth_error_inv {A B} (f : A -> B) l k y : nth_error (map f l) k = Some y ->
  exists x, nth_error l k = Some x /\ y = f x.
Proof.
  revert k; induction l as [|a l IH]; intros [|k]; cbn; try discriminate; [intros [= <-]; eauto|apply IH].
Qed.

Lemma upper_is lo up : In (lo, up) [("b", "B"); ("a", "A"); ("d", "D"); ("l", "L"); ("r", "R"); ("n", "N")]%char ->
  forall c, ch_eq (upper c) up = true <-> c = lo \/ c = up.
Proof.
  cbn. intros H c. split.
  - intros E. intuition; match goal with H : (_, _) = _ |- _ => inversion H; subst; clear H end;
      destruct c as [[] [] [] [] [] [] [] []]; vm_compute in E; try discriminate; auto.
  - intros E. intuition; match goal with H : (_, _) = _ |- _ => inversion H; subst; clear H end; reflexivity.
Qed.

Ltac upp := first [rewrite (upper_is "b" "B") by (cbn; tauto) | rewrite (upper_is "a" "A") by (cbn; tauto)
  | rewrite (upper_is "d" "D") by (cbn; tauto) | rewrite (upper_is "l" "L") by (cbn; tauto)
  | rewrite (upper_is "r" "R") by (cbn; tauto) | rewrite (upper_is "n" "N") by (cbn; tauto)].

Lemma first_letter_cons c r lo up : first_letter (c :: r) lo up <-> c = lo \/ c = up.
Proof. split; [intros (? & ? & [= <- <-] & H); exact H|intros H; exists c, r; auto]. Qed.

Lemma req_of_spec trend : builtin trend ->
  exists req, req_of trend = Some req /\ forall d, dirs req d <-> requested trend d.
Proof.
  intros (d0 & H). destruct trend as [|c r].
  { exfalso. unfold requested, first_letter in H. destruct d0; firstorder discriminate. }
  unfold requested in *. cbn [req_of].
  pose proof (upper_is "b" "B" ltac:(cbn; tauto) c) as HB.
  pose proof (upper_is "a" "A" ltac:(cbn; tauto) c) as HA.
  pose proof (upper_is "d" "D" ltac:(cbn; tauto) c) as HD.
  destruct (ch_eq (upper c) "B") eqn:EB.
  { exists [SA; SD]; split; [reflexivity|]. intros d. unfold dirs. split; [|destruct d; cbn; tauto].
    intros _; left. apply first_letter_cons, HB. reflexivity. }
  assert (nB : ~ (c = "b" \/ c = "B")%char) by (intros X; apply HB in X; discriminate).
  destruct (ch_eq (upper c) "A") eqn:EA.
  { exists [SA]; split; [reflexivity|]. assert (X : (c = "a" \/ c = "A")%char) by (apply HA; reflexivity).
    intros d. unfold dirs; destruct d; cbn [sgn_of In]; rewrite !first_letter_cons.
    - tauto.
    - split; [intros [|[]]; discriminate|]. intros [Y|Y]; [contradiction|].
      exfalso. destruct X as [->| ->], Y as [Y|Y]; discriminate. }
  assert (nA : ~ (c = "a" \/ c = "A")%char) by (intros X; apply HA in X; discriminate).
  destruct (ch_eq (upper c) "D") eqn:ED.
  { exists [SD]; split; [reflexivity|]. assert (X : (c = "d" \/ c = "D")%char) by (apply HD; reflexivity).
    intros d. unfold dirs; destruct d; cbn [sgn_of In]; rewrite !first_letter_cons; [|tauto].
    split; [intros [|[]]; discriminate|]. tauto. }
  assert (nD : ~ (c = "d" \/ c = "D")%char) by (intros X; apply HD in X; discriminate).
  exfalso. destruct d0; rewrite !first_letter_cons in H; tauto.
Qed.

Lemma ends_spec ends :
  (first_letter ends "b" "B" -> ends_offsets ends = Ok (0, 1))
  /\ (first_letter ends "l" "L" -> ends_offsets ends = Ok (0, 0))
  /\ (first_letter ends "r" "R" -> ends_offsets ends = Ok (1, 1))
  /\ (first_letter ends "n" "N" -> ends_offsets ends = Ok (1, 0)).
Proof.
  repeat split; intros (c & r & -> & [-> | ->]); reflexivity.
Qed.

Lemma max_interval_bound x eps d i j : max_interval x eps d i j -> i < j < length x.
Proof.
  intros (Hij & _ & (a & b & Ha & Hb & _) & _). assert (Hx : nth_error x (S (j - 1)) <> None) by congruence.
  apply nth_error_Some in Hx. lia.
Qed.
(** the whole result, for built-in trends *)
Lemma split_result us x trend ends eps lr : builtin trend -> (0 <= eps)%Q -> ends_offsets ends = Ok lr ->
  exists spans,
    split_monotonic us x trend ends eps = Ok (map (segment x (map (classify eps) (diffs x)) lr) spans)
    /\ trend_spans us trend (map (classify eps) (diffs x)) = Ok spans
    /\ existsb (fun m => Nat.eqb (fst m) (snd m)) spans = false
    /\ StronglySorted before spans
    /\ (forall i j, In (i, j) spans <-> exists d, requested trend d /\ max_interval x eps d i j).
Proof.
  intros Hb He Hl. destruct (req_of_spec trend Hb) as (req & Hreq & Hdirs).
  destruct (trend_spans_req us trend req (map (classify eps) (diffs x)) Hreq) as (p & Hp & Hs).
  assert (IFF : forall i j, In (i, j) (finditer p 0 0 (map (classify eps) (diffs x))) <-> exists d, requested trend d /\ max_interval x eps d i j).
  { intros i j. rewrite (spans_iff req p x eps Hp He). split; intros (d & Hd & Hm); exists d; split; try assumption; apply Hdirs; exact Hd. }
  assert (NE : existsb (fun m => Nat.eqb (fst m) (snd m)) (finditer p 0 0 (map (classify eps) (diffs x))) = false).
  { destruct (existsb _ _) eqn:X; [|reflexivity]. apply existsb_exists in X as ([i j] & Hin & X). apply Nat.eqb_eq in X. cbn in X. apply IFF in Hin as (d & _ & Hm). apply max_interval_bound in Hm. lia. }
  exists (finditer p 0 0 (map (classify eps) (diffs x))). split; [|split; [exact Hs|split; [exact NE|split]]].
  - unfold split_monotonic. rewrite Hl; cbn [rbind]. rewrite Hs; cbn [rbind]. rewrite NE. reflexivity.
  - apply finditer_sorted.
  - intros i j. rewrite (spans_iff req p x eps Hp He). split; intros (d & Hd & Hm); exists d; split; try assumption; apply Hdirs; exact Hd.
Qed.



Lemma nth_slice {A} (l : list A) i j k : nth_error (slice l i j) k = if i + k <? j then nth_error l (i + k) else None.
Proof.
  unfold slice. rewrite nth_error_skipn. destruct (i + k <? j) eqn:E.
  - apply Nat.ltb_lt in E. revert l j E. generalize (i + k) as n. clear.
    intros n l; revert n; induction l as [|a l IH]; intros n j H; [rewrite firstn_nil; reflexivity|].
    destruct j as [|j]; [lia|]. destruct n as [|n]; cbn; [reflexivity|]. apply IH; lia.
  - apply Nat.ltb_ge in E. apply nth_error_None. rewrite firstn_length. lia.
Qed.

Lemma slice_length {A} (l : list A) i j : j <= length l -> length (slice l i j) = j - i.
Proof. intros H. unfold slice. rewrite skipn_length, firstn_length. lia. Qed.

Lemma sign_of_interval x eps d i j : (0 <= eps)%Q -> max_interval x eps d i j ->
  sign_num (nth_error (map (classify eps) (diffs x)) i) = dir_sign d.
Proof.
  intros He (_ & Hm & _). apply signs_nth in Hm; [|exact He]. rewrite Hm. destruct d; reflexivity.
Qed.

Lemma max_interval_unique x eps d d' i j i' j' k : (0 <= eps)%Q ->
  max_interval x eps d i j -> max_interval x eps d' i' j' ->
  moves x eps d k -> i <= k < j -> i' <= k < j' -> i = i' /\ j = j'.
Proof.
  intros He H H' Hk Hi Hi'.
  assert (d = d').
  { destruct H' as (_ & _ & _ & H' & _). destruct d, d'; try reflexivity; exfalso; apply (H' k Hi'); exact Hk. }
  subst d'. destruct H as (A1 & A2 & A3 & A4 & A5 & A6), H' as (B1 & B2 & B3 & B4 & B5 & B6).
  split.
  - destruct (Nat.lt_trichotomy i i') as [L|[L|L]]; [|exact L|].
    + destruct (B6 i L A2) as (m & Hm & Hmm). exfalso; apply (A4 m); [lia|exact Hmm].
    + destruct (A6 i' L B2) as (m & Hm & Hmm). exfalso; apply (B4 m); [lia|exact Hmm].
  - destruct (Nat.lt_trichotomy j j') as [L|[L|L]]; [|exact L|].
    + destruct (A5 (j' - 1) ltac:(lia) B3) as (m & Hm & Hmm). exfalso; apply (B4 m); [lia|exact Hmm].
    + destruct (B5 (j - 1) ltac:(lia) A3) as (m & Hm & Hmm). exfalso; apply (A4 m); [lia|exact Hmm].
Qed.

Lemma max_interval_covers x eps d k : (0 <= eps)%Q -> moves x eps d k ->
  exists i j, max_interval x eps d i j /\ i <= k < j.
Proof.
  intros He Hk. apply signs_nth in Hk; [|exact He].
  destruct (covered_aux (sgn_of d) _ ltac:(destruct d; discriminate) k Hk) as (i & j & Hint & Hb).
  exists i, j; split; [apply interval_iff; assumption|exact Hb].
Qed.

(** C12, intervals *)
Theorem split_both us x trend ends eps :
  builtin trend -> first_letter ends "b" "B" -> (0 <= eps)%Q ->
  exists segs, split_monotonic us x trend ends eps = Ok segs
  /\ StronglySorted (fun a b => snd (m_idx a) <= S (fst (m_idx b))) segs
  /\ (forall i j, (exists g, In g segs /\ m_idx g = (i, S j)) <->
                  exists d, requested trend d /\ max_interval x eps d i j)
  /\ (forall g, In g segs -> exists d i j,
        m_idx g = (i, S j) /\ requested trend d /\ max_interval x eps d i j /\ m_sign g = dir_sign d
        /\ length (m_vals g) = S j - i
        /\ (forall k, k < S j - i -> nth_error (m_vals g) k = nth_error x (i + k))).
Proof.
  intros Ht Hends He. destruct (split_result us x trend ends eps (0, 1) Ht He (proj1 (ends_spec ends) Hends)) as (spans & Hs & _ & _ & Hsort & Hiff).
  eexists; split; [exact Hs|]. split; [|split].
  - clear -Hsort. induction Hsort as [|m l Hl IH Hf]; cbn [map]; constructor; [exact IH|].
    apply Forall_map. eapply Forall_impl; [|exact Hf]. unfold before; intros [i j] Hb; cbn in *. lia.
  - intros i j. rewrite <- Hiff. split.
    + intros (g & Hg & Hi). apply in_map_iff in Hg. destruct Hg as ([i0 j0] & <- & Hin).
      cbn in Hi. inversion Hi; subst. rewrite Nat.add_0_r. replace j with j0 by lia. exact Hin.
    + intros Hin. exists (segment x (map (classify eps) (diffs x)) (0, 1) (i, j)). split; [apply in_map; exact Hin|].
      cbn. f_equal; lia.
  - intros g Hg. apply in_map_iff in Hg. destruct Hg as ([i j] & <- & Hin).
    apply Hiff in Hin. destruct Hin as (d & Hd & Hmax). exists d, i, j.
    pose proof (max_interval_bound _ _ _ _ _ Hmax).
    unfold segment; cbn [m_idx m_sign m_vals fst snd]. rewrite Nat.add_0_r, Nat.add_1_r.
    split; [reflexivity|]. split; [exact Hd|]. split; [exact Hmax|]. split; [|split].
    + apply (sign_of_interval x eps d i j); assumption.
    + apply slice_length; lia.
    + intros k Hk. rewrite nth_slice. destruct (i + k <? S j) eqn:E; [reflexivity|apply Nat.ltb_ge in E; lia].
Qed.

Lemma slice_tl {A} (l : list A) i j : i < j -> j <= length l -> slice l (S i) j = tl (slice l i j).
Proof.
  intros H1 H2. unfold slice. change (S i) with (1 + i). rewrite <- skipn_skipn.
  destruct (skipn i (firstn j l)); reflexivity.
Qed.
Lemma slice_removelast {A} (l : list A) i j : i <= j -> S j <= length l -> slice l i j = removelast (slice l i (S j)).
Proof.
  intros H1 H2. unfold slice.
  assert (E : firstn (S j) l = firstn j l ++ firstn 1 (skipn j l)).
  { rewrite <- (firstn_skipn j l) at 1. rewrite firstn_app. rewrite firstn_length, Nat.min_l by lia.
    rewrite firstn_all2 by (rewrite firstn_length; lia). f_equal. replace (S j - j) with 1 by lia. reflexivity. }
  destruct (skipn j l) as [|z r] eqn:Ez.
  { apply (f_equal (@length _)) in Ez. rewrite skipn_length in Ez; cbn in Ez; lia. }
  rewrite E. cbn [firstn]. rewrite skipn_app, firstn_length, Nat.min_l by lia.
  replace (i - j) with 0 by lia. cbn [skipn]. rewrite removelast_app by discriminate. cbn. rewrite app_nil_r. reflexivity.
Qed.

(** C12, ends *)
Theorem split_ends us x trend eps (ends endsB : str) :
  builtin trend -> (0 <= eps)%Q -> first_letter endsB "b" "B" ->
  forall (f : list Q -> list Q) (di dj : nat),
  (first_letter ends "l" "L" /\ f = (@removelast Q) /\ di = 0 /\ dj = 1)
  \/ (first_letter ends "r" "R" /\ f = (@tl Q) /\ di = 1 /\ dj = 0)
  \/ (first_letter ends "n" "N" /\ f = (fun l => tl (removelast l)) /\ di = 1 /\ dj = 1) ->
  exists segsB segs,
    split_monotonic us x trend endsB eps = Ok segsB /\ split_monotonic us x trend ends eps = Ok segs
    /\ Forall2 (fun b g => m_vals g = f (m_vals b) /\ m_sign g = m_sign b
                   /\ m_idx g = (fst (m_idx b) + di, snd (m_idx b) - dj)) segsB segs.
Proof.
  intros Ht He HB f di dj Hcase.
  destruct (split_result us x trend endsB eps (0, 1) Ht He (proj1 (ends_spec endsB) HB)) as (spans & Hs & Hsp & Hne & _ & Hiff).
  destruct (ends_spec ends) as (_ & HL & HR & HN).
  assert (exists lr, ends_offsets ends = Ok lr /\ ((lr = (0,0) /\ f = (@removelast Q) /\ di = 0 /\ dj = 1)
     \/ (lr = (1,1) /\ f = (@tl Q) /\ di = 1 /\ dj = 0) \/ (lr = (1,0) /\ f = (fun l => tl (removelast l)) /\ di = 1 /\ dj = 1))) as (lr & Hlr & Hc).
  { destruct Hcase as [(H & ?)|[(H & ?)|(H & ?)]]; [exists (0,0)|exists (1,1)|exists (1,0)]; split; auto. }
  exists (map (segment x (map (classify eps) (diffs x)) (0, 1)) spans), (map (segment x (map (classify eps) (diffs x)) lr) spans).
  split; [exact Hs|]. split.
  { unfold split_monotonic. rewrite Hlr. cbn [rbind]. rewrite Hsp. cbn [rbind]. rewrite Hne. reflexivity. }
  assert (Hall : forall m, In m spans -> fst m < snd m < length x).
  { intros [i j] Hin. apply Hiff in Hin. destruct Hin as (d & _ & Hmax). apply max_interval_bound in Hmax. exact Hmax. }
  clear -Hall Hc. induction spans as [|[i j] spans IH]; cbn [map]; constructor; [|apply IH; intros; apply Hall; right; assumption].
  destruct (Hall (i, j) (or_introl eq_refl)) as (H1 & H2). cbn in H1, H2. unfold segment; cbn [m_vals m_sign m_idx fst snd].
  rewrite !Nat.add_0_r, !Nat.add_1_r.
  destruct Hc as [(-> & -> & -> & ->)|[(-> & -> & -> & ->)|(-> & -> & -> & ->)]]; cbn [fst snd]; rewrite ?Nat.add_0_r, ?Nat.add_1_r.
  - split; [apply slice_removelast; lia|]. split; [reflexivity|]. f_equal; lia.
  - split; [apply slice_tl; lia|]. split; [reflexivity|]. f_equal; lia.
  - split; [|split; [reflexivity|f_equal; lia]].
    rewrite <- slice_removelast by lia. apply slice_tl; lia.
Qed.
