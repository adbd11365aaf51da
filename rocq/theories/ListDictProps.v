(** C04: [ListDict] (src/teflow/utils.py:148-275). *)
From Verif Require Import Py PyDict ListDictModel ListDictProofs.

(** [merge(objs, keys)]: value lists in the order of [objs]; [KeyError] iff a key is missing. *)
Theorem C04_merge :
  forall (K V : Type) (HK : EqDec K) (ds : list (dict K V)) (ks : list K),
  NoDup ks ->
  ((forall d k, In d ds -> In k ks -> In k (dkeys d)) ->
     exists m, merge (map Dict ds) (Some ks) = Ok m /\ dkeys m = ks
       /\ forall k l, In (k, l) m ->
            length l = length ds
            /\ forall i d, nth_error ds i = Some d -> nth_error l i = dget d k)
  /\ ((exists d k, In d ds /\ In k ks /\ ~ In k (dkeys d)) ->
       merge (map Dict ds) (Some ks) = Err KeyError).
Proof. exact (fun K V HK => @merge_spec K V HK). Qed.
Print Assumptions C04_merge.

Theorem C04_merge_default_keys :
  forall (K V : Type) (HK : EqDec K) (d : dict K V) (ds : list (dict K V)),
  merge (map Dict (d :: ds)) None = merge (map Dict (d :: ds)) (Some (dkeys d))
  /\ merge (K:=K) (V:=V) [] None = Err IndexError.
Proof. exact (fun K V HK => @merge_default_keys K V HK). Qed.
Print Assumptions C04_merge_default_keys.

Theorem C04_append :
  forall (K V : Type) (HK : EqDec K) (d : dict K (list V)) (o : dict K V),
  (forall k, In k (dkeys d) -> In k (dkeys o)) ->
  exists d', append d (Dict o) = (d', Ok tt)
    /\ dkeys d' = dkeys d
    /\ forall k l, wf d -> In (k, l) d -> exists v, dget o k = Some v /\ In (k, l ++ [v]) d'.
Proof. exact (fun K V HK => @append_spec K V HK). Qed.
Print Assumptions C04_append.

Theorem C04_extend :
  forall (K A : Type) (HK : EqDec K) (d o : dict K (list A)),
  (forall k, In k (dkeys d) -> In k (dkeys o)) ->
  exists d', extend d (Dict o) = (d', Ok tt)
    /\ dkeys d' = dkeys d
    /\ forall k l, In (k, l) d -> exists v, dget o k = Some v /\ In (k, l ++ v) d'.
Proof. exact (fun K A HK => @extend_spec K A HK). Qed.
Print Assumptions C04_extend.

(** A missing key: [KeyError], but the preceding lists have grown. *)
Theorem C04_append_not_atomic :
  forall (K V : Type) (HK : EqDec K) (pre post : dict K (list V)) k l (o : dict K V),
  (forall x, In x (dkeys pre) -> In x (dkeys o)) -> ~ In k (dkeys o) ->
  exists pre', append (pre ++ (k, l) :: post) (Dict o) = (pre' ++ (k, l) :: post, Err KeyError)
    /\ append pre (Dict o) = (pre', Ok tt)
    /\ (pre <> [] -> pre' ++ (k, l) :: post <> pre ++ (k, l) :: post).
Proof. exact (fun K V HK => @append_not_atomic K V HK). Qed.
Print Assumptions C04_append_not_atomic.

(** Merging a history = merging its beginning, then appending each later dict. *)
Theorem C04_merge_history :
  forall (K V : Type) (HK : EqDec K) (ds os : list (dict K V)) (ks : list K) m,
  NoDup ks -> merge (map Dict ds) (Some ks) = Ok m ->
  (forall o k, In o os -> In k ks -> In k (dkeys o)) ->
  exists m', append_all m os = (m', Ok tt) /\ merge (map Dict (ds ++ os)) (Some ks) = Ok m'.
Proof. exact (fun K V HK => @merge_history K V HK). Qed.
Print Assumptions C04_merge_history.

Theorem C04_sum :
  forall (K V : Type) (HK : EqDec K) (ds : list (dict K V)) (ks : list K) add start m,
  NoDup ks -> merge (map Dict ds) (Some ks) = Ok m ->
  exists s, sum add (map Dict ds) start (Some ks) = Ok s /\
  dkeys s = ks /\
  forall k l, In (k, l) m -> dget s k = Some (fold_left add l start).
Proof. exact (fun K V HK => @sum_spec K V HK). Qed.
Print Assumptions C04_sum.

Theorem C04_not_dict :
  forall (K V : Type) (HK : EqDec K) (l : list (obj K V)) ks add start (d : dict K (list V)),
  In NotDict l ->
  merge l ks = Err ValueError /\ sum add l start ks = Err ValueError
  /\ append d NotDict = (d, Err ValueError).
Proof. exact (fun K V HK => @not_dict_rejected K V HK). Qed.
Print Assumptions C04_not_dict.

(** Non-vacuity: the docstring examples, and a partial append. *)
From Coq Require Import String.
Open Scope string_scope.
Example doc_merge :
  merge [Dict [("a", 1); ("b", 2)]; Dict [("a", 3); ("b", 4)]] None
  = Ok [("a", [1; 3]); ("b", [2; 4])].
Proof. reflexivity. Qed.
Example doc_sum :
  sum Nat.add [Dict [("a", 1); ("b", 2)]; Dict [("a", 3); ("b", 4)]] 0 None
  = Ok [("a", 4); ("b", 6)].
Proof. reflexivity. Qed.
Example partial_append :
  ListDictModel.append [("a", [1]); ("b", [2])] (Dict [("a", 7)]) = ([("a", [1; 7]); ("b", [2])], Err KeyError).
Proof. reflexivity. Qed.
