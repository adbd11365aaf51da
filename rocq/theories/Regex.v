(** A backtracking matcher for the regular expressions used in the modelled code, after CPython's [re]: [re.match] tries the alternatives in the
    order of their preference (a greedy repetition first takes as much as it can, a lazy one as little), captures are those of the successful attempt.
    Repetitions are only needed for classes of characters. *)
From Verif Require Import Py PyStr.

Inductive re :=
  | Cls (p : ascii -> bool)                  (* one character *)
  | Many (p : ascii -> bool)                 (* p* *)
  | LazyMany (p : ascii -> bool)             (* p*? *)
  | Sq (a b : re)                            (* ab *)
  | Opt (a : re)                             (* (a)? *)
  | Cap (name : str) (a : re).               (* (?P<name>a) *)
Definition Many1 p := Sq (Cls p) (Many p).
Definition LazyMany1 p := Sq (Cls p) (LazyMany p).
Notation caps := (list (str * str)).

Section Match.
Context {X : Type}.
Definition orelse (a b : option X) : option X := match a with Some v => Some v | None => b end.
Fixpoint many (p : ascii -> bool) (s : str) (k : str -> option X) : option X :=
  match s with ch :: t => if p ch then orelse (many p t k) (k s) else k s | [] => k [] end.
Fixpoint lazy (p : ascii -> bool) (s : str) (k : str -> option X) : option X :=
  match s with ch :: t => if p ch then orelse (k s) (lazy p t k) else k s | [] => k [] end.
Fixpoint rmatch (r : re) (s : str) (c : caps) (k : str -> caps -> option X) : option X :=
  match r with
  | Cls p => match s with ch :: t => if p ch then k t c else None | [] => None end
  | Many p => many p s (fun t => k t c)
  | LazyMany p => lazy p s (fun t => k t c)
  | Sq a b => rmatch a s c (fun t c' => rmatch b t c' k)
  | Opt a => orelse (rmatch a s c k) (k s c)
  | Cap n a => rmatch a s c (fun t c' => k t ((n, firstn (length s - length t) s) :: c'))
  end.
End Match.
(** [re.compile(r).match(s)]: the captures and the text after the match *)
Definition re_match (r : re) (s : str) : option (caps * str) := rmatch r s [] (fun t c => Some (c, t)).
Fixpoint group (c : caps) (n : str) : option str := match c with (m, v) :: r => if eqb n m then Some v else group r n | [] => None end.
Definition is_ch (a : ascii) (c : ascii) : bool := ch_eq c a.
Definition non_space (c : ascii) : bool := negb (is_space c).

Section Facts.
Context {X : Type}.
Implicit Types k : str -> option X.
Lemma many_inv p k v : forall s, many p s k = Some v -> exists u t, s = u ++ t /\ Forall (fun c => p c = true) u /\ k t = Some v.
Proof.
  induction s as [|ch t IH]; cbn; intros H; [exists [], []; split; [reflexivity|split; [constructor|exact H]]|].
  destruct (p ch) eqn:P; [|exists [], (ch :: t); split; [reflexivity|split; [constructor|exact H]]]. unfold orelse in H. destruct (many p t k) eqn:E.
  - destruct (IH H) as (u & t' & -> & F & K). exists (ch :: u), t'. split; [reflexivity|]. split; [constructor; assumption|exact K].
  - exists [], (ch :: t). split; [reflexivity|]. split; [constructor|exact H].
Qed.
Lemma many_none p k : forall s, (forall u t, s = u ++ t -> Forall (fun c => p c = true) u -> k t = None) -> many p s k = None.
Proof.
  intros s H. destruct (many p s k) eqn:E; [|reflexivity]. destruct (many_inv _ _ _ _ E) as (u & t & Es & F & K). rewrite (H u t Es F) in K. discriminate.
Qed.
(** the greedy repetition stops after [u] if continuing later always fails *)
Lemma many_back p k u w : Forall (fun c => p c = true) u ->
  (forall w1 w2, w = w1 ++ w2 -> w1 <> [] -> Forall (fun c => p c = true) w1 -> k w2 = None) -> (exists v, k w = Some v) \/ (u = []) ->
  many p (u ++ w) k = k w.
Proof.
  intros F B Hv.
  assert (E0 : many p w k = k w).
  { destruct w as [|ch t]; [reflexivity|]. cbn. destruct (p ch) eqn:P; [|reflexivity]. rewrite many_none; [reflexivity|]. intros u' t' E F'. apply (B (ch :: u') t'); [rewrite E; reflexivity|discriminate|constructor; assumption]. }
  destruct Hv as [(v & Hv)| ->]; [|exact E0]. induction F as [|x u P F IH]; [exact E0|]. cbn [app many]. rewrite P, IH, Hv. reflexivity.
Qed.
Lemma rmatch_inv r : forall s c (k : str -> caps -> option X) v, rmatch r s c k = Some v -> exists u t c', s = u ++ t /\ k t c' = Some v.
Proof.
  induction r as [p|p|p|a IHa b IHb|a IHa|n a IHa]; cbn; intros s c k v H.
  - destruct s as [|ch t]; [discriminate|]. destruct (p ch); [|discriminate]. exists [ch], t, c. split; [reflexivity|exact H].
  - destruct (many_inv _ _ _ _ H) as (u & t & E & _ & K). eauto.
  - assert (G : forall s, lazy p s (fun t => k t c) = Some v -> exists u t, s = u ++ t /\ k t c = Some v).
    { induction s0 as [|ch t IH]; cbn; intros Q; [exists [], []; split; [reflexivity|exact Q]|]. destruct (p ch); [|exists [], (ch :: t); split; [reflexivity|exact Q]].
      unfold orelse in Q. destruct (k (ch :: t) c) eqn:E; [exists [], (ch :: t); split; [reflexivity|congruence]|]. destruct (IH Q) as (u & t' & -> & K). exists (ch :: u), t'. split; [reflexivity|exact K]. }
    destruct (G s H) as (u & t & E & K). eauto.
  - apply IHa in H. destruct H as (u & t & c' & -> & H). apply IHb in H. destruct H as (u' & t' & c'' & -> & H). exists (u ++ u'), t', c''. split; [apply app_assoc|exact H].
  - unfold orelse in H. destruct (rmatch a s c k) eqn:E; [injection H as ->; apply IHa in E; exact E|]. exists [], s, c. split; [reflexivity|exact H].
  - apply IHa in H. destruct H as (u & t & c' & E & K). eauto.
Qed.
(** an expression that still has to meet a character fails on a text without it *)
Lemma needs p r1 r2 s c (k : str -> caps -> option X) : Forall (fun c => p c = false) s -> rmatch (Sq r1 (Sq (Cls p) r2)) s c k = None.
Proof.
  intros F. destruct (rmatch (Sq r1 (Sq (Cls p) r2)) s c k) eqn:E; [|reflexivity]. exfalso. cbn [rmatch] in E. apply rmatch_inv in E. destruct E as (u & t & c' & -> & E).
  apply Forall_app in F. destruct F as [_ F]. destruct t as [|ch t]; [discriminate|]. inversion F. subst. rewrite H1 in E. discriminate.
Qed.
Lemma needs0 p r2 s c (k : str -> caps -> option X) : Forall (fun c => p c = false) s -> rmatch (Sq (Cls p) r2) s c k = None.
Proof. intros F. cbn. destruct s as [|ch t]; [reflexivity|]. inversion F. subst. rewrite H1. reflexivity. Qed.
Lemma firstn_diff {A} (u t : list A) : firstn (length (u ++ t) - length t) (u ++ t) = u.
Proof. rewrite app_length. replace (length u + length t - length t) with (length u) by lia. rewrite firstn_app, Nat.sub_diag. cbn. rewrite firstn_all, app_nil_r. reflexivity. Qed.
(** the same for one-or-more repetitions under a capture *)
Lemma cap_many1 n p u w c (k : str -> caps -> option X) : u <> [] -> Forall (fun c => p c = true) u ->
  (forall w1 w2 x, w = w1 ++ w2 -> w1 <> [] -> Forall (fun c => p c = true) w1 -> k w2 ((n, x) :: c) = None) -> (exists v, k w ((n, u) :: c) = Some v) ->
  rmatch (Cap n (Many1 p)) (u ++ w) c k = k w ((n, u) :: c).
Proof.
  intros Hu F B (v & Hv). destruct u as [|ch u]; [congruence|]. inversion F as [|? ? P F']; subst. cbn [rmatch Many1 app]. rewrite P.
  rewrite many_back; [cbn beta; change (ch :: u ++ w) with ((ch :: u) ++ w); rewrite firstn_diff; reflexivity|exact F'| |left; exists v; cbn beta; change (ch :: u ++ w) with ((ch :: u) ++ w); rewrite firstn_diff; exact Hv].
  intros w1 w2 E N Fw. cbn beta. apply (B w1 w2 _ E N Fw).
Qed.
Lemma cap_many1_none n p s c (k : str -> caps -> option X) :
  (forall u t x, s = u ++ t -> u <> [] -> Forall (fun c => p c = true) u -> k t ((n, x) :: c) = None) -> rmatch (Cap n (Many1 p)) s c k = None.
Proof.
  intros B. cbn [rmatch Many1]. destruct s as [|ch t]; [reflexivity|]. destruct (p ch) eqn:P; [|reflexivity]. apply many_none. intros u t' E F. cbn beta. apply (B (ch :: u) t'); [rewrite E; reflexivity|discriminate|constructor; assumption].
Qed.
End Facts.
