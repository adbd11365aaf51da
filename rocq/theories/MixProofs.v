From Verif Require Import Py RUtil MixModel MixSpec.
Local Open Scope R_scope.


Lemma add_scaled_length c a b : length b = length a -> length (add_scaled c a b) = length a.
Proof. revert b; induction a as [|x a IH]; intros [|y b] H; cbn in *; try lia. rewrite IH; lia. Qed.

Lemma add_scaled_nth c a b j : length b = length a -> nth j (add_scaled c a b) 0 = nth j a 0 + c * nth j b 0.
Proof.
  revert b j; induction a as [|x a IH]; intros [|y b] j H; cbn in *; try lia.
  - destruct j; lra.
  - destruct j; [lra|]. apply IH; lia.
Qed.

Lemma mix_loop_ok scale n dw : forall data, length data = n ->
  Forall (fun p => length (fst p) = n) dw ->
  exists r, mix_loop scale n dw data = Ok r /\ length r = n /\
    forall j, nth j r 0 = nth j data 0 + scale * sumR (map (fun p => snd p * nth j (fst p) 0) dw).
Proof.
  induction dw as [|[d w] dw IH]; intros data Hd Hf; cbn [mix_loop].
  - exists data; repeat split; try assumption. intros j; cbn; lra.
  - inversion Hf as [|? ? H1 H2]; subst. cbn in H1. rewrite H1, Nat.eqb_refl.
    destruct (IH (add_scaled (scale * w) data d)) as (r & Hr & Hl & Hn).
    { apply add_scaled_length; exact H1. }
    { exact H2. }
    exists r; split; [exact Hr|]. split; [exact Hl|]. intros j. rewrite Hn, add_scaled_nth by exact H1. cbn. lra.
Qed.

Lemma mix_loop_err scale n dw : forall data, ~ Forall (fun p => length (fst p) = n) dw ->
  mix_loop scale n dw data = Err ValueError.
Proof.
  induction dw as [|[d w] dw IH]; intros data H; cbn [mix_loop]; [exfalso; apply H; constructor|].
  destruct (Nat.eqb_spec (length d) n) as [E|E]; [|reflexivity].
  apply IH. intros Hf; apply H; constructor; [exact E|exact Hf].
Qed.


Lemma combine_Forall {A B} (P : A -> Prop) (l : list A) (m : list B) : length m = length l ->
  Forall P l <-> Forall (fun p => P (fst p)) (combine l m).
Proof.
  revert m; induction l as [|a l IH]; intros [|b m] H; cbn in *; try lia; [split; constructor|].
  split; intros Hf; inversion Hf; subst; constructor; try assumption; apply (IH m); try assumption; lia.
Qed.

Theorem mixing_ok datas weight scale :
  datas <> [] -> length (weights datas weight) = length datas ->
  (forall d, In d datas -> length d = length (hd [] datas)) ->
  exists r, mixing datas weight scale = Ok r /\ length r = length (hd [] datas) /\
    forall j, nth j r 0 = (match scale with None => / sumR (weights datas weight) | Some s => s end)
                          * wsum datas (weights datas weight) j.
Proof.
  intros Hne Hw Hd. destruct datas as [|d0 datas]; [congruence|]. unfold mixing.
  assert (E : match weight with
     | None => Ok (repeat 1 (length (d0 :: datas)))
     | Some ws => if Nat.eqb (length ws) (length (d0 :: datas)) then Ok ws else Err ValueError end
     = Ok (weights (d0 :: datas) weight)).
  { destruct weight as [ws|]; cbn [weights] in *; [|reflexivity]. rewrite Hw, Nat.eqb_refl; reflexivity. }
  rewrite E; cbn [rbind]. clear E.
  set (ws := weights (d0 :: datas) weight) in *.
  destruct (mix_loop_ok (match scale with None => / sumR ws | Some s => s end) (length d0)
              (combine (d0 :: datas) ws) (repeat 0 (length d0))) as (r & Hr & Hl & Hn).
  { apply repeat_length. }
  { apply (combine_Forall (fun d => length d = length d0)); [exact Hw|]. apply Forall_forall; exact Hd. }
  exists r; split; [exact Hr|]. split; [exact Hl|]. intros j. rewrite Hn, nth_repeat. unfold wsum; lra.
Qed.

Theorem mixing_err datas weight scale :
  datas <> [] ->
  (mixing datas weight scale = Err ValueError <->
   length (weights datas weight) <> length datas \/ exists d, In d datas /\ length d <> length (hd [] datas)).
Proof.
  intros Hne. split.
  - intros H. destruct (Nat.eq_dec (length (weights datas weight)) (length datas)) as [E|E]; [right|left; exact E].
    destruct (Exists_dec (fun d => length d <> length (hd [] datas)) datas) as [X|X].
    { intros d. destruct (Nat.eq_dec (length d) (length (hd [] datas))); [right|left]; lia. }
    + apply Exists_exists in X. destruct X as (d & Hin & Hd); eauto.
    + exfalso. destruct (mixing_ok datas weight scale Hne E) as (r & Hr & _); [|congruence].
      intros d Hd. destruct (Nat.eq_dec (length d) (length (hd [] datas))); [assumption|].
      exfalso; apply X, Exists_exists; eauto.
  - intros H. destruct (Nat.eq_dec (length (weights datas weight)) (length datas)) as [E|E].
    + destruct H as [H|(d & Hin & Hd)]; [contradiction|].
      destruct datas as [|d0 datas]; [congruence|]. unfold mixing.
      assert (E' : match weight with
         | None => Ok (repeat 1 (length (d0 :: datas)))
         | Some ws => if Nat.eqb (length ws) (length (d0 :: datas)) then Ok ws else Err ValueError end
         = Ok (weights (d0 :: datas) weight)).
      { destruct weight as [ws|]; cbn [weights] in *; [|reflexivity]. rewrite E, Nat.eqb_refl; reflexivity. }
      rewrite E'; cbn [rbind]. apply mix_loop_err. intros Hf.
      apply (combine_Forall (fun d => length d = length d0)) in Hf; [|exact E].
      rewrite Forall_forall in Hf. apply Hd, Hf, Hin.
    + unfold mixing. destruct weight as [ws|]; cbn [weights] in E; [|rewrite repeat_length in E; congruence].
      apply Nat.eqb_neq in E; rewrite E. reflexivity.
Qed.

Lemma wsum_bounds datas ws lo hi j : length ws = length datas ->
  Forall (fun w => 0 <= w) ws -> (forall d, In d datas -> lo <= nth j d 0 <= hi) ->
  lo * sumR ws <= wsum datas ws j <= hi * sumR ws.
Proof.
  revert ws; induction datas as [|d datas IH]; intros [|w ws] Hl Hw Hd; cbn in Hl; try lia.
  - unfold wsum; cbn. lra.
  - inversion Hw as [|? ? Hw0 Hw']; subst.
    destruct (IH ws) as (H1 & H2); [lia|exact Hw'|intros; apply Hd; right; assumption|].
    destruct (Hd d (or_introl eq_refl)) as (H3 & H4).
    unfold wsum in *; cbn [combine map sumR fst snd]. split; nra.
Qed.

Lemma wsum_equal datas ws v j : length ws = length datas ->
  (forall d, In d datas -> nth j d 0 = v) -> wsum datas ws j = v * sumR ws.
Proof.
  revert ws; induction datas as [|d datas IH]; intros [|w ws] Hl Hd; cbn in Hl; try lia.
  - unfold wsum; cbn. lra.
  - unfold wsum in *; cbn [combine map sumR fst snd]. rewrite IH by (lia || (intros; apply Hd; right; assumption)).
    rewrite (Hd d (or_introl eq_refl)). lra.
Qed.

Lemma mixing_inv datas weight scale r : mixing datas weight scale = Ok r ->
  datas <> [] /\ length (weights datas weight) = length datas
  /\ (forall d, In d datas -> length d = length (hd [] datas)).
Proof.
  intros Hr. assert (Hne : datas <> []) by (intros ->; cbn in Hr; destruct weight as [[|]|]; discriminate).
  assert (Hno : ~ mixing datas weight scale = Err ValueError) by congruence.
  rewrite mixing_err in Hno by exact Hne. split; [exact Hne|]. split.
  - destruct (Nat.eq_dec (length (weights datas weight)) (length datas)); [assumption|exfalso; tauto].
  - intros d Hin. destruct (Nat.eq_dec (length d) (length (hd [] datas))); [assumption|exfalso; apply Hno; right; eauto].
Qed.
