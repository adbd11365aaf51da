(** Python-level values shared by all models.

    Exceptions are values: a Python function that may raise is modelled by a
    function into [res].  Only the exception classes that occur in TEflow are
    listed; messages are not modelled. *)
From Coq Require Export List Arith Lia Bool.
From Coq Require Import Permutation Sorted.
Export ListNotations.

Inductive exn :=
| TypeError | ValueError | KeyError | IndexError | RuntimeError
| ZeroDivisionError | NoSectionError | NotImplementedError
| UnboundLocalError | AttributeError | FileNotFoundError | AssertionError | OSError.

Inductive res (A : Type) := Ok (a : A) | Err (e : exn).
Arguments Ok {A} a.
Arguments Err {A} e.

Definition rbind {A B} (r : res A) (f : A -> res B) : res B :=
  match r with Ok a => f a | Err e => Err e end.

Definition rmap {A B} (f : A -> B) (r : res A) : res B :=
  match r with Ok a => Ok (f a) | Err e => Err e end.

Notation "'let!' x ':=' r 'in' k" := (rbind r (fun x => k))
  (at level 200, x pattern, r at level 100, k at level 200, right associativity).

(** [for x in l: ...] whose body may raise, collecting results:
    a Python list comprehension. *)
Fixpoint mapM {A B} (f : A -> res B) (l : list A) : res (list B) :=
  match l with
  | [] => Ok []
  | x :: r => let! y := f x in let! ys := mapM f r in Ok (y :: ys)
  end.

(** Lookup in a list by Python index, [IndexError] when out of range
    (non-negative indices only). *)
Definition py_nth {A} (l : list A) (n : nat) : res A :=
  match nth_error l n with Some a => Ok a | None => Err IndexError end.

(** Decidable equality of (hashable) keys. *)
Class EqDec (K : Type) := eq_dec : forall x y : K, {x = y} + {x <> y}.
#[global] Hint Mode EqDec ! : typeclass_instances.

Definition eqb {K} {H : EqDec K} (x y : K) : bool := if eq_dec x y then true else false.

Lemma eqb_eq {K} {H : EqDec K} (x y : K) : eqb x y = true <-> x = y.
Proof. unfold eqb; destruct (eq_dec x y); split; congruence. Qed.
Lemma eqb_neq {K} {H : EqDec K} (x y : K) : eqb x y = false <-> x <> y.
Proof. unfold eqb; destruct (eq_dec x y); split; congruence. Qed.
Lemma eqb_refl {K} {H : EqDec K} (x : K) : eqb x x = true.
Proof. apply eqb_eq; reflexivity. Qed.

Definition memb {K} {H : EqDec K} (x : K) (l : list K) : bool := existsb (eqb x) l.

Lemma memb_In {K} {H : EqDec K} (x : K) l : memb x l = true <-> In x l.
Proof.
  unfold memb; rewrite existsb_exists; split.
  - intros (y & Hy & E); apply eqb_eq in E; subst; exact Hy.
  - intros Hx; exists x; split; [exact Hx | apply eqb_refl].
Qed.
Lemma memb_nIn {K} {H : EqDec K} (x : K) l : memb x l = false <-> ~ In x l.
Proof. rewrite <- memb_In; destruct (memb x l); split; congruence. Qed.

(** Python's [sorted] with an integer key: stable insertion sort. *)
Fixpoint ins_by {A} (f : A -> nat) (x : A) (l : list A) : list A :=
  match l with
  | [] => [x]
  | y :: r' => if f y <? f x then y :: ins_by f x r' else x :: y :: r'
  end.

Fixpoint sort_by {A} (f : A -> nat) (l : list A) : list A :=
  match l with
  | [] => []
  | x :: r => ins_by f x (sort_by f r)   (* in front of equal keys: stable *)
  end.

Lemma sort_by_cons {A} (f : A -> nat) x l : sort_by f (x :: l) = ins_by f x (sort_by f l).
Proof. reflexivity. Qed.

Lemma ins_by_perm {A} (f : A -> nat) x l : Permutation (x :: l) (ins_by f x l).
Proof.
  induction l as [|y l IH]; cbn [ins_by]; [reflexivity|].
  destruct (f y <? f x); [|reflexivity].
  rewrite perm_swap; constructor; exact IH.
Qed.

Lemma sort_by_perm {A} (f : A -> nat) l : Permutation l (sort_by f l).
Proof.
  induction l as [|x l IH]; [reflexivity|].
  rewrite sort_by_cons, <- ins_by_perm; constructor; exact IH.
Qed.

Definition by_le {A} (f : A -> nat) (x y : A) := f x <= f y.

Lemma ins_by_sorted {A} (f : A -> nat) x l :
  StronglySorted (by_le f) l -> StronglySorted (by_le f) (ins_by f x l).
Proof.
  intros Hs; induction Hs as [|y l Hs IH Hall]; cbn [ins_by].
  - repeat constructor.
  - destruct (f y <? f x) eqn:E.
    + constructor; [exact IH|].
      rewrite <- (ins_by_perm f x l); constructor; [|exact Hall].
      apply Nat.ltb_lt in E; unfold by_le; lia.
    + apply Nat.ltb_ge in E; constructor; [constructor; assumption|].
      constructor; [exact E|].
      eapply Forall_impl; [|exact Hall]; unfold by_le; intros; lia.
Qed.

Lemma sort_by_sorted {A} (f : A -> nat) l : StronglySorted (by_le f) (sort_by f l).
Proof.
  induction l as [|x l IH]; [constructor|].
  rewrite sort_by_cons; apply ins_by_sorted; exact IH.
Qed.

(** A strictly sorted arrangement of a list with distinct keys is unique. *)
Lemma sorted_unique {A} (f : A -> nat) (l1 l2 : list A) :
  NoDup (map f l1) -> Permutation l1 l2 ->
  StronglySorted (by_le f) l1 -> StronglySorted (by_le f) l2 -> l1 = l2.
Proof.
  intros Hnd Hp H1; revert l2 Hp; induction H1 as [|x l1 H1 IH Hall1]; intros l2 Hp H2.
  - apply Permutation_nil in Hp; congruence.
  - destruct l2 as [|y l2]; [apply Permutation_sym, Permutation_nil in Hp; discriminate|].
    inversion H2 as [|? ? H2' Hall2]; subst.
    assert (Hxy : x = y).
    { assert (Hy : In y (x :: l1)) by (rewrite Hp; left; reflexivity).
      assert (Hx : In x (y :: l2)) by (rewrite <- Hp; left; reflexivity).
      destruct Hy as [|Hy]; [assumption|]; destruct Hx as [|Hx]; [congruence|].
      rewrite Forall_forall in Hall1, Hall2.
      pose proof (Hall1 _ Hy) as L1; pose proof (Hall2 _ Hx) as L2; unfold by_le in L1, L2.
      cbn in Hnd; inversion Hnd as [|? ? Hni]; subst.
      exfalso; apply Hni; replace (f x) with (f y) by lia; apply in_map; exact Hy. }
    subst y; f_equal; apply IH; [inversion Hnd; assumption| |assumption].
    eapply Permutation_cons_inv; exact Hp.
Qed.

Lemma StronglySorted_app_inv {A} (R : A -> A -> Prop) l1 l2 :
  StronglySorted R (l1 ++ l2) ->
  StronglySorted R l1 /\ StronglySorted R l2 /\ (forall x y, In x l1 -> In y l2 -> R x y).
Proof.
  induction l1 as [|x l1 IH]; cbn; intros H.
  - repeat split; [constructor|exact H|intros ? ? []].
  - inversion H as [|? ? Hs Hall]; subst; destruct (IH Hs) as (S1 & S2 & Hc).
    rewrite Forall_app in Hall; destruct Hall as (A1 & A2).
    split; [constructor; assumption|]; split; [exact S2|].
    intros a b [->|Ha] Hb; [rewrite Forall_forall in A2; auto|auto].
Qed.

From Coq Require Import String Ascii.
#[global] Instance eqdec_nat : EqDec nat := Nat.eq_dec.
#[global] Instance eqdec_string : EqDec string := string_dec.
#[global] Instance eqdec_ascii : EqDec ascii := ascii_dec.
#[global] Instance eqdec_pair {A B} {HA : EqDec A} {HB : EqDec B} : EqDec (A * B).
Proof. intros [a b] [a' b']; destruct (HA a a'), (HB b b'); [left|right|right|right]; congruence. Defined.
