(** Specification vocabulary for [AttrDict.retain]; nothing here refers to the model. *)
From Coq Require Import List.
Import ListNotations.

(** [k] stands at position [n] of [l] and at no later position. *)
Definition last_position {K} (l : list K) (k : K) (n : nat) : Prop :=
  nth_error l n = Some k /\ forall m, n < m -> nth_error l m <> Some k.

(** [s] is obtained from [l] by erasing elements (the others keep their order). *)
Inductive subseq {A} : list A -> list A -> Prop :=
| sub_nil : subseq [] []
| sub_keep x s l : subseq s l -> subseq (x :: s) (x :: l)
| sub_skip x s l : subseq s l -> subseq s (x :: l).

(** The entries of [d] occur in the order in which their keys (last) occur in [l]. *)
Definition ordered_like {K V} (l : list K) (d : list (K * V)) : Prop :=
  forall i j a b p q,
    i < j -> nth_error d i = Some a -> nth_error d j = Some b ->
    last_position l (fst a) p -> last_position l (fst b) q -> p < q.
