(** Python strings as lists of characters (Latin-1 code points 0-255). *)
From Coq Require Export Ascii.
From Coq Require String.
From Verif Require Export Py.

Definition str := list ascii.

(** Literals: [s"..."%string] as [str]. *)
Definition S_ (s : String.string) : str := String.list_ascii_of_string s.

#[global] Instance eqdec_str : EqDec str := list_eq_dec ascii_dec.

Definition ch_eq (a b : ascii) : bool := Ascii.eqb a b.

(** [re]'s [\s] / [str.isspace] on Latin-1. *)
Definition is_space (c : ascii) : bool :=
  let n := nat_of_ascii c in
  ((9 <=? n) && (n <=? 13)) || ((28 <=? n) && (n <=? 32)) || (n =? 133) || (n =? 160).

Definition comma : ascii := ","%char.
Definition colon : ascii := ":"%char.
Definition dot : ascii := "."%char.

(** [s.startswith(p)] *)
Fixpoint startswith (s p : str) {struct p} : bool :=
  match p, s with
  | [], _ => true
  | a :: p', b :: s' => ch_eq a b && startswith s' p'
  | _ :: _, [] => false
  end.

Lemma startswith_spec s p : startswith s p = true <-> exists t, s = p ++ t.
Proof.
  revert s; induction p as [|a p IH]; intros s; cbn.
  - split; [intros _; exists s; reflexivity|reflexivity].
  - destruct s as [|b s]; [split; [discriminate|intros (t & H); discriminate]|].
    rewrite andb_true_iff, IH. unfold ch_eq; rewrite Ascii.eqb_eq. split.
    + intros (-> & t & ->); exists t; reflexivity.
    + intros (t & H); inversion H; subst; split; [reflexivity|exists t; reflexivity].
Qed.
