(** C17, C18: [interpx] and [vinterp] (src/teflow/mathext.py:498-509, 579-648). *)
From Coq Require Import Permutation Sorted.
From Verif Require Import Py RUtil InterpModel InterpSpec InterpProofs.
Local Open Scope R_scope.

Lemma line_chord p q t : fst p < fst q -> line p q t = chord p q t.
Proof. intros H. unfold line, chord. field. lra. Qed.
Lemma incr_adj pre p q post : incr (pre ++ p :: q :: post) -> fst p < fst q.
Proof. intros H. destruct (incr_app_inv _ _ H) as (_ & H2 & _). inversion H2 as [|? ? ? Hf]; subst; inversion Hf; assumption. Qed.

(** [l] lists the nodes; [lf], [rt] are the optional [left], [right] values. *)
Theorem C17_inside :
  forall (l : list (R * R)) (lf rt : option R),
  incr l -> (2 <= length l)%nat ->
  (forall p, In p l -> interpx l lf rt (fst p) = snd p)
  /\ (forall pre p q post t, l = pre ++ p :: q :: post -> fst p <= t <= fst q ->
        interpx l lf rt t = chord p q t
        /\ Rmin (snd p) (snd q) <= interpx l lf rt t <= Rmax (snd p) (snd q)).
Proof.
  intros l lf rt Hi Hl. split; [intros p Hp; apply interpx_node; assumption|].
  intros pre p q post t -> Ht. rewrite interpx_between by assumption. pose proof (incr_adj _ _ _ _ Hi).
  split; [apply line_chord; assumption|apply line_bounds; assumption].
Qed.
Print Assumptions C17_inside.

Theorem C17_outside :
  forall (l : list (R * R)) (lf rt : option R) (t : R),
  incr l ->
  (forall p q r, l = p :: q :: r -> t < fst p ->
      interpx l lf rt t = match lf with None => chord p q t | Some v => v end)
  /\ (forall pre p q, l = pre ++ [p; q] -> fst q < t ->
      interpx l lf rt t = match rt with None => chord p q t | Some v => v end).
Proof.
  intros l lf rt t Hi. split.
  - intros p q r -> Ht. rewrite interpx_left by assumption. pose proof (incr_adj [] _ _ _ Hi).
    destruct lf; [reflexivity|apply line_chord; assumption].
  - intros pre p q -> Ht. rewrite interpx_right by assumption. pose proof (incr_adj _ _ _ _ Hi).
    destruct rt; [reflexivity|apply line_chord; assumption].
Qed.
Print Assumptions C17_outside.

Theorem C17_straight_line_data :
  forall (l : list (R * R)) (a b t : R),
  incr l -> (2 <= length l)%nat -> (forall p, In p l -> snd p = a * fst p + b) ->
  interpx l None None t = a * t + b.
Proof. exact interpx_affine. Qed.
Print Assumptions C17_straight_line_data.

(** The cases above are exhaustive. *)
Theorem C17_cases :
  forall (l : list (R * R)) (t : R), incr l -> (2 <= length l)%nat ->
  (exists p q r, l = p :: q :: r /\ t < fst p)
  \/ (exists pre p q post, l = pre ++ p :: q :: post /\ fst p <= t <= fst q)
  \/ (exists pre p q, l = pre ++ [p; q] /\ fst q < t).
Proof. exact locate. Qed.
Print Assumptions C17_cases.

Example C17_case : incr [(0, 1); (2, 5); (3, 4)] /\ interpx [(0, 1); (2, 5); (3, 4)] None None 4 = 3.
Proof.
  assert (H : incr [(0, 1); (2, 5); (3, 4)]) by (unfold incr; repeat constructor; cbn; lra).
  split; [exact H|]. destruct (C17_outside _ None None 4 H) as (_ & Hr).
  rewrite (Hr [(0, 1)] (2, 5) (3, 4) eq_refl ltac:(cbn; lra)). unfold chord; cbn. lra.
Qed.

(** [take d x s] re-arranges x by the index list s (Python: x[s]); [method] is any back-end. *)
Theorem C18_order_irrelevant :
  forall (Out : Type) (method : list R -> list R -> list R -> Out)
         (x : list (option R)) (y : list (list (option R))) (xp : list (option R)) (s : list nat),
  rows_ok x y -> all_finite x -> (forall r, In r y -> all_finite r) -> all_finite xp ->
  NoDup (vals x) -> Permutation s (seq 0 (length x)) ->
  vinterp method (take (Some 0) x s) (map (fun r => take (Some 0) r s) y) xp true
  = vinterp method x y xp true.
Proof. exact (@vinterp_perm). Qed.
Print Assumptions C18_order_irrelevant.

Theorem C18_errors :
  forall (Out : Type) (method : list R -> list R -> list R -> Out)
         (x : list (option R)) (y : list (list (option R))) (xp : list (option R)) (reorder : bool),
  vinterp method x y xp reorder = Err ValueError <->
  ~ rows_ok x y \/ ~ (all_finite x /\ (forall r, In r y -> all_finite r) /\ all_finite xp)
  \/ (reorder = false /\ exists i, (S i < length x)%nat /\ nth (S i) (vals x) 0 < nth i (vals x) 0).
Proof. exact (@vinterp_err). Qed.
Print Assumptions C18_errors.

(** The data reach the back-end sorted, each row re-arranged like x. *)
Theorem C18_sorted_data :
  forall (Out : Type) (method : list R -> list R -> list R -> Out)
         (x : list (option R)) (y : list (list (option R))) (xp : list (option R)),
  rows_ok x y -> all_finite x -> (forall r, In r y -> all_finite r) -> all_finite xp ->
  exists idx, Permutation idx (seq 0 (length x)) /\ StronglySorted Rle (take 0 (vals x) idx)
    /\ vinterp method x y xp true = Ok (map (fun r => method (take 0 (vals x) idx) (take 0 (vals r) idx) (vals xp)) y).
Proof.
  intros Out method x y xp H1 H2 H3 H4. exists (arranged (vals x)). split; [|split].
  - assert (E : length x = length (vals x)) by (unfold vals; rewrite map_length; reflexivity). rewrite E. apply arranged_perm.
  - apply arranged_nondecr.
  - apply vinterp_ok; assumption.
Qed.
Print Assumptions C18_sorted_data.

Example C18_case : exists r, vinterp (fun a b c => (a, b, c)) [Some 2; Some 1] [[Some 5; Some 7]] [Some 1] true = Ok r
  /\ r = [([1; 2], [7; 5], [1])].
Proof.
  unfold vinterp. cbn. destruct (Rlt_dec 1 2); [|lra]. cbn. unfold argsort. cbn.
  destruct (Rlt_dec 1 2); [|lra]. cbn. eexists; split; reflexivity.
Qed.
