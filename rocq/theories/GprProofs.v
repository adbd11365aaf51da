From Verif Require Import Py RUtil InterpModel InterpProofs GprModel GprSpec.
Local Open Scope R_scope.

Lemma sumn_ext n f g : (forall i, (i < n)%nat -> f i = g i) -> sumn n f = sumn n g.
Proof. intros H. apply sumR_ext. intros i Hi. apply in_seq in Hi. apply H. lia. Qed.
Lemma sumn_S n f : sumn (S n) f = sumn n f + f n.
Proof. unfold sumn. rewrite seq_S, map_app, sumR_app. cbn. lra. Qed.
Lemma sumn_delta n f k : (k < n)%nat -> sumn n (fun i => f i * (if (i =? k)%nat then 1 else 0)) = f k.
Proof.
  induction n as [|n IH]; intros H; [lia|]. rewrite sumn_S.
  destruct (Nat.eq_dec k n) as [->|Hk].
  - rewrite Nat.eqb_refl. assert (E : sumn n (fun i => f i * (if (i =? n)%nat then 1 else 0)) = 0).
    { rewrite (sumn_ext n _ (fun _ => 0)). { unfold sumn. rewrite sumR_const. ring. }
      intros i Hi. destruct (Nat.eqb_spec i n); [lia|ring]. }
    rewrite E. ring.
  - rewrite IH by lia. destruct (Nat.eqb_spec n k); [lia|ring].
Qed.
Lemma sumn_minus n f g : sumn n (fun i => f i - g i) = sumn n f - sumn n g.
Proof. induction n as [|n IH]; [unfold sumn; cbn; lra|]. rewrite !sumn_S, IH. lra. Qed.

(** the solution of A w = (j-th column of A) is the j-th unit vector *)
Lemma solve_unit n (A : mat) c (B W : mat) p j :
  solves n A c B W -> regular_mat n A -> (p < c)%nat -> (j < n)%nat ->
  (forall i, (i < n)%nat -> B i p = A i j) ->
  forall i, (i < n)%nat -> W i p = if (i =? j)%nat then 1 else 0.
Proof.
  intros Hs Hr Hp Hj HB i Hi.
  set (w := fun i => W i p - (if (i =? j)%nat then 1 else 0)).
  assert (H : w i = 0); [|unfold w in H; lra].
  apply (Hr w); [|exact Hi]. intros k Hk. unfold w.
  rewrite (sumn_ext n _ (fun i0 => A k i0 * W i0 p - A k i0 * (if (i0 =? j)%nat then 1 else 0))) by (intros; ring).
  rewrite sumn_minus, (Hs k p Hk Hp), (sumn_delta n (fun i0 => A k i0) j Hj), (HB k Hk). ring.
Qed.

Lemma nth_map_seq (f : nat -> R) n p : (p < n)%nat -> nth p (map f (seq 0 n)) 0 = f p.
Proof.
  intros H. rewrite nth_indep with (d' := f 0%nat) by (rewrite map_length, seq_length; exact H).
  rewrite map_nth, seq_nth by exact H. reflexivity.
Qed.
Lemma regular_ext n A A' : mat_eq n n A A' -> regular_mat n A -> regular_mat n A'.
Proof.
  intros E H w Hw. apply H. intros i Hi. rewrite <- (Hw i Hi). apply sumn_ext. intros j Hj. rewrite E by assumption. reflexivity.
Qed.

Section S.
Variable lsolve : nat -> mat -> nat -> mat -> res mat.
Hypothesis Hex : exact_solver lsolve.

Lemma raw_sc K0 K x y xp s r :
  interp_gpr_raw lsolve K0 K x y xp (Sc s) r =
  (let! A := add_reg (length x) (fun i j => K0 (nth j x 0) (nth i x 0) s) r in
   let! W := lsolve (length x) A (length xp) (fun i p => K (nth p xp 0) (nth i x 0) s) in
   Ok (map (fun p => sumn (length x) (fun i => nth i y 0 * W i p)) (seq 0 (length xp)))).
Proof.
  unfold interp_gpr_raw, kern_grid, rbind. rewrite Nat.eqb_refl. cbn [negb].
  destruct (add_reg _ _ _); [|reflexivity]. destruct (lsolve _ _ _ _); [|reflexivity]. rewrite Nat.eqb_refl. reflexivity.
Qed.

Lemma raw_nodes K x y xp s r A out :
  add_reg (length x) (fun i j => K (nth j x 0) (nth i x 0) s) r = Ok A ->
  mat_eq (length x) (length x) A (fun i j => K (nth j x 0) (nth i x 0) s) ->
  regular_mat (length x) (fun i j => K (nth j x 0) (nth i x 0) s) ->
  interp_gpr_raw lsolve K K x y xp (Sc s) r = Ok out ->
  length out = length xp /\
  forall p j, (p < length xp)%nat -> (j < length x)%nat -> nth p xp 0 = nth j x 0 -> nth p out 0 = nth j y 0.
Proof.
  intros EA HA Hr. rewrite raw_sc, EA. cbn [rbind]. destruct (lsolve _ _ _ _) as [W|] eqn:EW; cbn [rbind]; [|discriminate].
  intros [= <-]. split; [rewrite map_length, seq_length; reflexivity|]. intros p j Hp Hj E.
  rewrite nth_map_seq by exact Hp. apply Hex in EW.
  pose proof (solve_unit _ _ _ _ _ p j EW) as HW.
  assert (Hr' : regular_mat (length x) A).
  { eapply regular_ext; [|exact Hr]. intros i k Hi Hk; symmetry; apply HA; assumption. }
  specialize (HW Hr' Hp Hj).
  rewrite (sumn_ext _ _ (fun i => nth i y 0 * (if (i =? j)%nat then 1 else 0))).
  - apply (sumn_delta (length x) (fun i => nth i y 0)). exact Hj.
  - intros i Hi. rewrite HW; [reflexivity| |exact Hi]. intros k Hk. rewrite HA by assumption. rewrite E. reflexivity.
Qed.
End S.

