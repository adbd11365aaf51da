(** Model of [interpx] and [vinterp] (src/teflow/mathext.py:498-509, 579-648). *)
From Verif Require Import Py RUtil.
Local Open Scope R_scope.

Notation pt := (R * R)%type (only parsing).       (* a node (x_i, y_i) *)

(** Straight line through two nodes: [y0 + (y1-y0)/(x1-x0) * (t-x0)] *)
Definition line (p q : pt) (t : R) : R := snd p + (snd q - snd p) / (fst q - fst p) * (t - fst p).

(** [numpy.interp] inside the range: the chord of the interval x[j] <= t < x[j+1],
    the last node at t = x[-1].  (numpy uses a binary search; for strictly increasing x
    the interval is unique.) *)
Fixpoint inner (l : list pt) (t : R) : R :=
  match l with
  | p :: ((q :: _) as r) => if Rlt_dec t (fst q) then line p q t else inner r t
  | [p] => snd p
  | [] => 0
  end.

Definition first_pt (l : list pt) : pt := nth 0 l (0, 0).
Definition last_pt (l : list pt) : pt := nth (length l - 1) l (0, 0).

(** [np.interp(t, x, y, left, right)] *)
Definition np_interp (l : list pt) (left right : option R) (t : R) : R :=
  if Rlt_dec t (fst (first_pt l)) then match left with Some v => v | None => snd (first_pt l) end
  else if Rlt_dec (fst (last_pt l)) t then match right with Some v => v | None => snd (last_pt l) end
  else inner l t.

(** [_interpx] (498-509), one query point of an array. *)
Definition interpx (l : list pt) (left right : option R) (t : R) : R :=
  let yp := np_interp l left right t in
  let yp := match left with
            | None => if Rlt_dec t (fst (first_pt l)) then line (nth 0 l (0,0)) (nth 1 l (0,0)) t else yp   (* 503-505 *)
            | Some _ => yp end in
  match right with
  | None => if Rlt_dec (fst (last_pt l)) t
            then let a := nth (length l - 2) l (0,0) in let b := last_pt l in
                 snd b + (snd b - snd a) / (fst b - fst a) * (t - fst b)                                   (* 507 *)
            else yp
  | Some _ => yp
  end.

(** ** vinterp (579-648) *)
(** Entries may be non-finite ([None]). *)
Definition finite_all (l : list (option R)) : bool := forallb (fun o => match o with Some _ => true | None => false end) l.
Definition vals (l : list (option R)) : list R := map (fun o => match o with Some v => v | None => 0 end) l.

(** [np.any(np.diff(x) < 0)] *)
Fixpoint any_decrease (x : list R) : bool :=
  match x with
  | a :: ((b :: _) as r) => (if Rlt_dec b a then true else false) || any_decrease r
  | _ => false
  end.

(** [np.argsort(x)]: any arrangement of the indices that makes x non-decreasing will do for the
    theorems (distinct x); here insertion sort of the pairs (x_i, i). *)
Fixpoint ins_key (p : R * nat) (l : list (R * nat)) : list (R * nat) :=
  match l with
  | [] => [p]
  | q :: r => if Rlt_dec (fst q) (fst p) then q :: ins_key p r else p :: q :: r
  end.
Fixpoint sort_key (l : list (R * nat)) : list (R * nat) :=
  match l with [] => [] | p :: r => ins_key p (sort_key r) end.
Definition argsort (x : list R) : list nat := map snd (sort_key (combine x (seq 0 (length x)))).

(** [x[idx]] *)
Definition take {A} (d : A) (l : list A) (idx : list nat) : list A := map (fun i => nth i l d) idx.

Section Vinterp.
(** [_interp_vect] for the chosen method: x-values, one row of y-values, query points. *)
Context {Out : Type}.
Variable method : list R -> list R -> list R -> Out.

(** [y] is given by its rows (the last axis has the length of x). *)
Definition vinterp (x : list (option R)) (y : list (list (option R))) (xp : list (option R)) (reorder : bool) : res (list Out) :=
  if negb (forallb (fun row => Nat.eqb (length row) (length x)) y) then Err ValueError       (* 629 *)
  else if negb (finite_all x && forallb finite_all y && finite_all xp) then Err ValueError    (* 632-634 *)
  else
    let xv := vals x in let yv := map vals y in
    if any_decrease xv then
      if reorder then
        let idx := argsort xv in
        Ok (map (fun row => method (take 0 xv idx) (take 0 row idx) (vals xp)) yv)
      else Err ValueError
    else Ok (map (fun row => method xv row (vals xp)) yv).
End Vinterp.
