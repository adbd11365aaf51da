(** Python dictionaries: association lists in insertion order.

    Well-formed dictionaries have pairwise distinct keys ([wf]).  The operations
    below are the ones of CPython's [dict] / [collections.OrderedDict]. *)
From Verif Require Import Py.
From Coq Require Import Permutation.

Section Dict.
Context {K V : Type} {HK : EqDec K}.

Definition dict := list (K * V).
Definition dkeys (d : dict) : list K := map fst d.
Definition wf (d : dict) : Prop := NoDup (dkeys d).

Fixpoint dget (d : dict) (k : K) : option V :=
  match d with
  | [] => None
  | (k', v) :: r => if eqb k k' then Some v else dget r k
  end.

(** [k in d] *)
Definition dmem (d : dict) (k : K) : bool := memb k (dkeys d).

(** [d[k]], raising [KeyError] *)
Definition dgetitem (d : dict) (k : K) : res V :=
  match dget d k with Some v => Ok v | None => Err KeyError end.

(** [d[k] = v]: an existing key keeps its position *)
Fixpoint dset (d : dict) (k : K) (v : V) : dict :=
  match d with
  | [] => [(k, v)]
  | (k', v') :: r => if eqb k k' then (k', v) :: r else (k', v') :: dset r k v
  end.

(** [del d[k]] (no effect when absent) *)
Definition dremove (d : dict) (k : K) : dict :=
  filter (fun kv => negb (eqb k (fst kv))) d.

(** [d.pop(k)] *)
Definition dpop (d : dict) (k : K) : res (dict * V) :=
  match dget d k with Some v => Ok (dremove d k, v) | None => Err KeyError end.

(** [OrderedDict.move_to_end(k)] *)
Definition dmove_to_end (d : dict) (k : K) : res dict :=
  match dget d k with Some v => Ok (dremove d k ++ [(k, v)]) | None => Err KeyError end.

(** [dict(pairs)] / [d.update(pairs)] *)
Definition dupdate (d : dict) (kvs : list (K * V)) : dict :=
  fold_left (fun d kv => dset d (fst kv) (snd kv)) kvs d.

(** ** Facts *)

Lemma dget_In d k v : wf d -> dget d k = Some v <-> In (k, v) d.
Proof.
  unfold wf; induction d as [|[k' v'] d IH]; cbn; intros Hw; [split; [discriminate|tauto]|].
  inversion Hw as [|? ? Hni Hw']; subst.
  destruct (eqb k k') eqn:E.
  - apply eqb_eq in E; subst k'; split.
    + intros [= ->]; left; reflexivity.
    + intros [H|H]; [congruence|]. exfalso; apply Hni; apply (in_map fst) in H; exact H.
  - apply eqb_neq in E. rewrite IH by exact Hw'. split; [tauto|].
    intros [H|H]; [congruence|exact H].
Qed.

Lemma dget_None d k : dget d k = None <-> ~ In k (dkeys d).
Proof.
  induction d as [|[k' v'] d IH]; cbn; [tauto|].
  destruct (eqb k k') eqn:E.
  - apply eqb_eq in E; split; [discriminate|]; intros H; exfalso; apply H; auto.
  - apply eqb_neq in E; rewrite IH; split; [intros H [H'|H']; [congruence|tauto]|tauto].
Qed.

Lemma dget_Some_In d k : In k (dkeys d) <-> exists v, dget d k = Some v.
Proof.
  destruct (dget d k) eqn:E.
  - split; [eauto|]. intros _. destruct (in_dec eq_dec k (dkeys d)) as [|n]; [assumption|].
    apply dget_None in n; congruence.
  - apply dget_None in E; split; [tauto|intros (v & Hv); discriminate].
Qed.

Lemma dmem_spec d k : dmem d k = true <-> In k (dkeys d).
Proof. apply memb_In. Qed.

Lemma dremove_keys d k : dkeys (dremove d k) = filter (fun x => negb (eqb k x)) (dkeys d).
Proof.
  unfold dremove, dkeys; induction d as [|[k' v] d IH]; cbn; [reflexivity|].
  destruct (negb (eqb k k')); cbn; congruence.
Qed.

Lemma dremove_wf d k : wf d -> wf (dremove d k).
Proof. unfold wf; rewrite dremove_keys; apply NoDup_filter. Qed.

Lemma dremove_notin d k : ~ In k (dkeys d) -> dremove d k = d.
Proof.
  unfold dremove; induction d as [|[k' v] d IH]; cbn; intros H; [reflexivity|].
  destruct (eqb k k') eqn:E; cbn.
  - apply eqb_eq in E; exfalso; apply H; auto.
  - f_equal; apply IH; tauto.
Qed.

Lemma dget_dset d k v k' : dget (dset d k v) k' = if eqb k' k then Some v else dget d k'.
Proof.
  induction d as [|[k0 v0] d IH]; cbn; [reflexivity|].
  destruct (eqb k k0) eqn:E; cbn.
  - apply eqb_eq in E; subst k0. destruct (eqb k' k); reflexivity.
  - destruct (eqb k' k0) eqn:E'; [|exact IH].
    apply eqb_eq in E'; subst k0. apply eqb_neq in E.
    destruct (eqb k' k) eqn:E2; [apply eqb_eq in E2; congruence|reflexivity].
Qed.

Lemma dset_keys_in d k v : In k (dkeys d) -> dkeys (dset d k v) = dkeys d.
Proof.
  induction d as [|[k0 v0] d IH]; cbn; [tauto|].
  destruct (eqb k k0) eqn:E; cbn; [reflexivity|].
  apply eqb_neq in E; intros [H|H]; [congruence|]. f_equal; apply IH; exact H.
Qed.

Lemma dset_keys_notin d k v : ~ In k (dkeys d) -> dset d k v = d ++ [(k, v)].
Proof.
  induction d as [|[k0 v0] d IH]; cbn; [reflexivity|].
  destruct (eqb k k0) eqn:E; cbn; intros H.
  - apply eqb_eq in E; exfalso; apply H; auto.
  - f_equal; apply IH; tauto.
Qed.

Lemma NoDup_snoc {A} (l : list A) x : NoDup l -> ~ In x l -> NoDup (l ++ [x]).
Proof.
  intros Hn Hx; apply NoDup_rev in Hn. rewrite <- (rev_involutive (l ++ [x])).
  apply NoDup_rev. rewrite rev_app_distr; cbn; constructor; [rewrite <- in_rev; exact Hx|exact Hn].
Qed.

Lemma dset_wf d k v : wf d -> wf (dset d k v).
Proof.
  unfold wf; intros H; destruct (in_dec eq_dec k (dkeys d)) as [Hi|Hi].
  - rewrite dset_keys_in; assumption.
  - rewrite dset_keys_notin by assumption. unfold dkeys; rewrite map_app; cbn.
    apply NoDup_snoc; assumption.
Qed.

Lemma dset_keys_iff d k v x : In x (dkeys (dset d k v)) <-> x = k \/ In x (dkeys d).
Proof.
  destruct (in_dec eq_dec k (dkeys d)) as [Hi|Hi].
  - rewrite dset_keys_in by assumption. split; [tauto|intros [->|]; assumption].
  - rewrite dset_keys_notin by assumption. unfold dkeys; rewrite map_app, in_app_iff; cbn.
    split; [intros [|[|[]]]; auto|intros [|]; auto].
Qed.

Lemma dupdate_wf kvs : forall d, wf d -> wf (dupdate d kvs).
Proof.
  induction kvs as [|[k v] kvs IH]; cbn; intros d H; [exact H|]. apply IH, dset_wf, H.
Qed.

(** The value of a key after an update: the last pair wins. *)
Fixpoint last_val (kvs : list (K * V)) (k : K) : option V :=
  match kvs with
  | [] => None
  | (k', v) :: r => match last_val r k with
                    | Some w => Some w
                    | None => if eqb k k' then Some v else None
                    end
  end.

Lemma dget_dupdate kvs : forall d k,
  dget (dupdate d kvs) k = match last_val kvs k with Some v => Some v | None => dget d k end.
Proof.
  unfold dupdate; induction kvs as [|[k' v'] kvs IH]; cbn; intros d k; [reflexivity|].
  rewrite IH; destruct (last_val kvs k); [reflexivity|]. rewrite dget_dset.
  destruct (eqb k k'); reflexivity.
Qed.

Lemma dict_ext_perm d1 d2 : wf d1 -> wf d2 -> (forall k, dget d1 k = dget d2 k) -> Permutation d1 d2.
Proof.
  intros W1 W2 H. apply NoDup_Permutation.
  - apply (NoDup_map_inv fst); exact W1.
  - apply (NoDup_map_inv fst); exact W2.
  - intros [k v]; rewrite <- !dget_In by assumption. rewrite H; tauto.
Qed.

End Dict.
Arguments dict : clear implicits.
