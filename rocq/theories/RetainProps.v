(** C01-C03: properties of [AttrDict.retain] (src/teflow/utils.py:84-145). *)
From Verif Require Import Py PyDict RetainModel RetainSpec RetainProofs.
From Coq Require Import Permutation String.

(** C01.  Without [match_order]: the dictionary becomes the subsequence of its
    entries whose key is listed; the returned dictionary holds the other entries. *)
Theorem C01_retain_keeps_listed_in_order :
  forall (K V : Type) (HK : EqDec K) (ord : list K) (d : dict K V) (keys : keys_arg K),
  wf d -> keys <> NotIterable -> set_difference_order ord d (keys_list keys) ->
  exists d' popped,
    retain ord d keys false = (d', Ok popped)
    /\ subseq d' d
    /\ (forall k v, In (k, v) d' <-> In (k, v) d /\ In k (keys_list keys))
    /\ (forall k v, In (k, v) popped <-> In (k, v) d /\ ~ In k (keys_list keys))
    /\ wf d' /\ wf popped /\ Permutation (d' ++ popped) d.
Proof. exact (fun K V HK => @retain_plain K V HK). Qed.
Print Assumptions C01_retain_keeps_listed_in_order.

(** C02.  With [match_order] and a sequence: same survivors and same popped
    entries, survivors in the order of the (last occurrences in the) sequence;
    in particular no exception. *)
Theorem C02_retain_match_order :
  forall (K V : Type) (HK : EqDec K) (ord : list K) (d : dict K V) (l : list K),
  wf d -> set_difference_order ord d l ->
  exists d' popped,
    retain ord d (Seq l) true = (d', Ok popped)
    /\ Permutation d' (fst (retain ord d (Seq l) false))
    /\ retain ord d (Seq l) false = (fst (retain ord d (Seq l) false), Ok popped)
    /\ (forall k v, In (k, v) d' <-> In (k, v) d /\ In k l)
    /\ ordered_like l d'.
Proof. exact (fun K V HK => @retain_ordered K V HK). Qed.
Print Assumptions C02_retain_match_order.

(** C03.  Failure behaviour, including the non-atomic one. *)
Theorem C03_retain_failures :
  forall (K V : Type) (HK : EqDec K) (ord : list K) (d : dict K V),
  wf d ->
  (forall mo, retain ord d NotIterable mo = (d, Err TypeError))
  /\ (forall l, set_difference_order ord d l ->
       exists d', retain ord d (Iter l) true = (d', Err TypeError)
         /\ subseq d' d
         /\ (forall k v, In (k, v) d' <-> In (k, v) d /\ In k l)
         /\ (d' = d <-> (forall k, In k (dkeys d) -> In k l)))
  /\ (forall l mo, set_difference_order ord d l ->
       (exists p, snd (retain ord d (Seq l) mo) = Ok p) /\
       (exists p, snd (retain ord d (Iter l) false) = Ok p)).
Proof. exact (fun K V HK => @retain_failures K V HK). Qed.
Print Assumptions C03_retain_failures.

(** Non-vacuity: the docstring example (utils.py:112-119), and the lost entry of C03. *)
Open Scope string_scope.
Definition doc_dict : dict string nat := [("b", 2); ("g", 3); ("note", 9); ("c", 2)].
Definition doc_keys := ["a"; "b"; "c"; "d"; "e"; "f"; "g"].

Example doc_hypotheses : wf doc_dict /\ set_difference_order ["note"] doc_dict doc_keys.
Proof.
  split.
  - unfold wf; cbn; repeat constructor; cbn; intuition discriminate.
  - split; [repeat constructor; intros []|].
    intros k; cbn; split.
    + intros [<-|[]]; split; [auto|intuition discriminate].
    + intros [[<-|[<-|[<-|[<-|[]]]]] Hn]; auto; exfalso; apply Hn; auto 10.
Qed.

Example doc_retain :
  retain ["note"] doc_dict (Seq doc_keys) true
  = ([("b", 2); ("c", 2); ("g", 3)], Ok [("note", 9)]).
Proof. reflexivity. Qed.

Example doc_retain_set_loses_entry :
  retain ["note"] doc_dict (Iter doc_keys) true
  = ([("b", 2); ("g", 3); ("c", 2)], Err TypeError).
Proof. reflexivity. Qed.
