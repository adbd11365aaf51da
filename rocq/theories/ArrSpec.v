(** Vocabulary for numpy arrays; no reference to the functions of the model (only to its array and routine types). *)
From Coq Require Import ZArith Reals String Ascii Permutation Sorted.
From Verif Require Import Py PyStr RUtil CfgSpec InstrSpec TxtSpec CliSpec RunSpec ArrModel.
Local Open Scope list_scope.
Local Open Scope nat_scope.

Definition count (s : list nat) : nat := fold_right Nat.mul 1 s.
Definition array {X} (A : nd X) : Prop := List.length (flat A) = count (shape A).
(** the indices of a shape, and the place of an index in C order *)
Definition index (s i : list nat) : Prop := Forall2 (fun n k => k < n) s i.
Definition place (s i : list nat) : nat := fold_left (fun p nk => p * fst nk + snd nk) (combine s i) 0.
Definition elem {X} (A : nd X) (i : list nat) (x : X) : Prop := index (shape A) i /\ nth_error (flat A) (place (shape A) i) = Some x.
(** [t] can be broadcast to [s]: matched from the last axis, every dimension of [t] is 1 or that of [s] *)
Definition fits (t s : list nat) : Prop := exists lead s', s = lead ++ s' /\ Forall2 (fun d n => d = 1 \/ d = n) t s'.
(** the smallest shape all operands can be broadcast to *)
Definition common (ts : list (list nat)) (s : list nat) : Prop := Forall (fun t => fits t s) ts /\ forall r, Forall (fun t => fits t r) ts -> fits s r.
(** what an operand contributes at index [i] of the result: the last coordinates, 0 along axes of length 1 *)
Definition sees {X} (A : nd X) (i : list nat) (x : X) : Prop :=
  exists lead i', i = lead ++ i' /\ elem A (List.map (fun dk => if fst dk =? 1 then 0 else snd dk) (combine (shape A) i')) x /\ List.length i' = List.length (shape A).
(** order in which the positions are visited: the last coordinate runs fastest *)
Definition before (j i : list nat) : Prop := exists p x y q q', j = p ++ x :: q /\ i = p ++ y :: q' /\ x < y.

(** ** interpolation methods *)
Definition in_any_case (m n : str) : Prop := folded m = n.
Inductive selects : str -> routine -> Prop :=
| sel_linear : selects (S_ "linear") Linear
| sel_line : selects (S_ "line") Line
| sel_cubic : selects (S_ "cubic") Cubic
| sel_pchip : selects (S_ "pchip") Pchip
| sel_spline : selects (S_ "spline") Spline
| sel_akima m : in_any_case m (S_ "akima") -> selects m Akima
| sel_gpr m : in_any_case m (S_ "gpr") -> selects m Gpr
(** begins with poly in any case; the last character is the degree *)
| sel_poly m q d : begins_with m (S_ "poly") -> m = q ++ [ascii_of_nat (48 + d)] -> d <= 9 -> selects m (Poly d).
(** an array without its axes of length 1: the coordinates along these axes disappear *)
Definition bare_index (s i : list nat) : list nat := List.map snd (filter (fun dk => negb (fst dk =? 1)) (combine s i)).
Definition bare {X} (A B : nd X) : Prop := shape B = filter (fun d => negb (d =? 1)) (shape A) /\ array B /\ forall i x, elem A i x -> elem B (bare_index (shape A) i) x.
(** row [i] of an array: the elements along the last axis *)
Definition row_of {X} (A : nd X) (lead : list nat) (n : nat) (i : list nat) (r : list X) : Prop :=
  shape A = lead ++ [n] /\ index lead i /\ List.length r = n /\ forall k x, nth_error r k = Some x -> elem A (i ++ [k]) x.
(** only numbers *)
Definition numbers (l : list (option R)) (v : list R) : Prop := l = List.map Some v.
(** [x'] and [y'] are [x] and [y] rearranged together by increasing x *)
Definition by_x (x y x' y' : list R) : Prop :=
  exists idx, Permutation idx (seq 0 (List.length x)) /\ x' = List.map (fun k => nth k x 0%R) idx /\ y' = List.map (fun k => nth k y 0%R) idx /\ StronglySorted Rle x'.

(** ** arrays in configuration files: where the numbers stand *)
Inductive source (fs : str -> option str) (text : str) : str -> Prop :=
| src_file p q c : trimmed text (S_ "file:" ++ p) -> trimmed p q -> fs q = Some c -> source fs text c
| src_array p q : trimmed text (S_ "array:" ++ p) -> trimmed p q -> source fs text q
| src_bare t : trimmed text t -> (forall p, t <> S_ "file:" ++ p) -> (forall p, t <> S_ "array:" ++ p) -> source fs text t.
(** columns of a table of rows *)
Definition columns_are {X} (rows cols : list (list X)) : Prop :=
  forall j k x, (exists r, nth_error rows k = Some r /\ nth_error r j = Some x) <-> (exists c, nth_error cols j = Some c /\ nth_error c k = Some x).
