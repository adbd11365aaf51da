(** C13: [mixing] (src/teflow/mathext.py:230-269). *)
From Verif Require Import Py RUtil MixModel MixSpec MixProofs.
Local Open Scope R_scope.

(** [weights datas weight]: the given weights, or ones.  [wsum datas ws j] = sum_i w_i * d_i[j]. *)
Theorem C13_weighted_mean :
  forall (datas : list (list R)) (weight : option (list R)),
  let ws := weights datas weight in
  datas <> [] -> length ws = length datas ->
  (forall d, In d datas -> length d = length (hd [] datas)) ->
  sumR ws <> 0 ->
  exists r, mixing datas weight None = Ok r /\ length r = length (hd [] datas)
    /\ (forall j, nth j r 0 = wsum datas ws j / sumR ws)
    /\ (forall s, exists r', mixing datas weight (Some s) = Ok r' /\ length r' = length r
            /\ forall j, nth j r' 0 = s * sumR ws * nth j r 0).
Proof.
  intros datas weight ws Hne Hl Hd Hs. unfold ws in *.
  destruct (mixing_ok datas weight None Hne Hl Hd) as (r & Hr & Hlen & Hn).
  exists r; split; [exact Hr|]. split; [exact Hlen|]. split.
  - intros j. rewrite Hn. field. exact Hs.
  - intros s. destruct (mixing_ok datas weight (Some s) Hne Hl Hd) as (r' & Hr' & Hlen' & Hn').
    exists r'; split; [exact Hr'|]. split; [lia|]. intros j. rewrite Hn, Hn'. field. exact Hs.
Qed.
Print Assumptions C13_weighted_mean.

Theorem C13_between :
  forall (datas : list (list R)) (weight : option (list R)) (r : list R) (j : nat) (lo hi : R),
  let ws := weights datas weight in
  mixing datas weight None = Ok r -> Forall (fun w => 0 <= w) ws -> 0 < sumR ws ->
  (forall d, In d datas -> lo <= nth j d 0 <= hi) -> lo <= nth j r 0 <= hi.
Proof.
  intros datas weight r j lo hi ws Hr Hw Hs Hd. unfold ws in *.
  destruct (mixing_inv _ _ _ _ Hr) as (Hne & Hl & Hd').
  destruct (mixing_ok datas weight None Hne Hl Hd') as (r' & Hr' & _ & Hn).
  assert (r' = r) by congruence; subst r'. rewrite Hn.
  destruct (wsum_bounds datas (weights datas weight) lo hi j Hl Hw Hd) as (H1 & H2).
  set (S := sumR _) in *. set (W := wsum _ _ _) in *.
  assert (HW : W = / S * W * S) by (field; lra). pose proof (Rinv_0_lt_compat S Hs).
  split; apply Rmult_le_reg_r with S; lra.
Qed.
Print Assumptions C13_between.

Theorem C13_equal_inputs :
  forall (datas : list (list R)) (weight : option (list R)) (r : list R) (j : nat) (v : R),
  let ws := weights datas weight in
  mixing datas weight None = Ok r -> sumR ws <> 0 ->
  (forall d, In d datas -> nth j d 0 = v) -> nth j r 0 = v.
Proof.
  intros datas weight r j v ws Hr Hs Hd. unfold ws in *.
  destruct (mixing_inv _ _ _ _ Hr) as (Hne & Hl & Hd').
  destruct (mixing_ok datas weight None Hne Hl Hd') as (r' & Hr' & _ & Hn).
  assert (r' = r) by congruence; subst r'. rewrite Hn, (wsum_equal datas _ v j Hl Hd). field; exact Hs.
Qed.
Print Assumptions C13_equal_inputs.

Theorem C13_errors :
  forall (datas : list (list R)) (weight : option (list R)) (scale : option R),
  datas <> [] ->
  (mixing datas weight scale = Err ValueError <->
   length (weights datas weight) <> length datas \/ exists d, In d datas /\ length d <> length (hd [] datas)).
Proof. exact mixing_err. Qed.
Print Assumptions C13_errors.

(** Nothing to mix. *)
Theorem C13_nothing :
  forall (weight : option (list R)) (scale : option R),
  mixing [] weight scale = Err (match weight with Some (_ :: _) => ValueError | _ => IndexError end).
Proof. intros [[|a w]|] scale; reflexivity. Qed.
Print Assumptions C13_nothing.

(** Non-vacuity. *)
Example C13_case : exists r, mixing [[1; 2]; [3; 6]] (Some [1; 3]) None = Ok r /\ nth 1 r 0 = 5.
Proof.
  destruct (C13_weighted_mean [[1; 2]; [3; 6]] (Some [1; 3])) as (r & Hr & _ & Hn & _); cbn; try congruence; try lra; auto.
  - intros d [<-|[<-|[]]]; reflexivity.
  - exists r; split; [exact Hr|]. rewrite Hn. unfold wsum; cbn. lra.
Qed.
