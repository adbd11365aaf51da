From Coq Require Import QArith Qreals Reals Lra FunctionalExtensionality.
From Verif Require Import Py RUtil FuncModel RombModel.
Local Open Scope R_scope.

(** ** romb is a fixed linear combination of the samples *)
Definition rowR := romb_row R Rplus Rminus Rmult Rdiv INR.
Definition richR := richardson R Rplus Rminus Rdiv INR.
Definition sumatR := sum_at R Rplus INR.
Lemma richR_cons p o l j : richR p (o :: l) j = p :: richR (p + (p - o) / INR (4 ^ j - 1)) l (S j).
Proof. reflexivity. Qed.
Lemma richR_nil p j : richR p [] j = [p]. Proof. reflexivity. Qed.
Fixpoint zip2 (c : R) (a b : list R) : list R :=
  match a, b with x :: a', y :: b' => (c * x + y) :: zip2 c a' b' | _, _ => [] end.
Lemma richR_lin c old : forall old' p p' j, length old = length old' ->
  richR (c * p + p') (zip2 c old old') j = zip2 c (richR p old j) (richR p' old' j).
Proof.
  induction old as [|o old IH]; intros [|o' old'] p p' j H; try discriminate; [reflexivity|]. cbn [zip2]. rewrite !richR_cons. cbn [zip2]. f_equal.
  rewrite <- IH by (cbn in H; lia). f_equal. unfold Rdiv. ring.
Qed.
Lemma richR_len old : forall p j, length (richR p old j) = S (length old).
Proof. induction old as [|o old IH]; intros p j; [reflexivity|]. rewrite richR_cons. cbn [length]. rewrite IH. reflexivity. Qed.
Lemma rowR_len y n i : length (rowR y n i) = S i.
Proof. induction i as [|i IH]; [reflexivity|]. unfold rowR in *. cbn [romb_row]. fold richR. rewrite richR_len, IH. reflexivity. Qed.
Lemma sumat_lin c y z l : sumatR (fun i => c * y i + z i) l = c * sumatR y l + sumatR z l.
Proof. induction l as [|i l IH]; unfold sumatR, sum_at in *; cbn [fold_right]; [cbn; ring|]. rewrite IH. ring. Qed.
Lemma hd_zip c a b d : length a = length b -> a <> [] -> hd d (zip2 c a b) = c * hd d a + hd d b.
Proof. destruct a, b; intros H1 H2; try discriminate; [congruence|reflexivity]. Qed.
Lemma last_zip c a : forall b d, length a = length b -> a <> [] -> last (zip2 c a b) d = c * last a d + last b d.
Proof.
  induction a as [|x a IH]; intros [|y b] d H1 H2; try discriminate; [congruence|]. destruct a as [|x' a], b as [|y' b]; try discriminate; [reflexivity|].
  change (last (zip2 c (x :: x' :: a) (y :: y' :: b)) d) with (last (zip2 c (x' :: a) (y' :: b)) d). rewrite IH; [reflexivity|cbn in *; lia|discriminate].
Qed.
Lemma rowR_lin c y z n i : rowR (fun j => c * y j + z j) n i = zip2 c (rowR y n i) (rowR z n i).
Proof.
  induction i as [|i IH].
  - cbn. f_equal. unfold Rdiv. ring.
  - unfold rowR in *. cbn [romb_row]. fold richR sumatR in *. rewrite IH. rewrite <- richR_lin by (rewrite !(rowR_len _ n i); reflexivity). f_equal.
    rewrite hd_zip; [|rewrite !(rowR_len _ n i); reflexivity|pose proof (rowR_len y n i) as L; unfold rowR in L; intros E; rewrite E in L; discriminate].
    rewrite sumat_lin. unfold Rdiv. ring.
Qed.
Lemma romb_lin c y z k : rombR (fun j => c * y j + z j) k = c * rombR y k + rombR z k.
Proof.
  unfold rombR, romb. fold rowR. change (romb_row R Rplus Rminus Rmult Rdiv INR) with rowR. rewrite rowR_lin. apply last_zip; [rewrite !rowR_len; reflexivity|].
  pose proof (rowR_len y (2 ^ k) k) as L. intros E. rewrite E in L. discriminate.
Qed.
(** only the samples 0..2^k matter *)
Lemma slice_le start stop step i : (0 < step)%nat -> (start < stop)%nat -> In i (slice_idx start stop step) -> (i < stop)%nat.
Proof.
  intros Hs Hl H. unfold slice_idx in H. apply in_map_iff in H as (j & <- & Hj). apply in_seq in Hj as (_ & Hj). cbn in Hj.
  assert (H2 : (j * step <= stop - start + (step - 1) - step)%nat).
  { assert (Hq : (S j <= (stop - start + (step - 1)) / step)%nat) by lia. apply (Nat.mul_le_mono_r _ _ step) in Hq.
    pose proof (Nat.mul_div_le (stop - start + (step - 1)) step). nia. }
  lia.
Qed.
Lemma rowR_ext y z k i : (i <= k)%nat -> (forall j, (j <= 2 ^ k)%nat -> y j = z j) -> rowR y (2 ^ k) i = rowR z (2 ^ k) i.
Proof.
  intros Hi H. assert (P : forall m, (0 < 2 ^ m)%nat) by (intros; apply Nat.neq_0_lt_0, Nat.pow_nonzero; lia).
  induction i as [|i IH]; [unfold rowR; cbn; rewrite !H by lia; reflexivity|].
  unfold rowR in *. cbn [romb_row]. rewrite IH by lia. f_equal. do 3 f_equal.
  assert (D : forall m, (m <= k)%nat -> (2 ^ k / 2 ^ m = 2 ^ (k - m))%nat).
  { intros m Hm. replace (2 ^ k)%nat with (2 ^ (k - m) * 2 ^ m)%nat by (rewrite <- Nat.pow_add_r; f_equal; lia). apply Nat.div_mul. apply Nat.pow_nonzero. lia. }
  rewrite !D by lia. change (sum_at R Rplus INR) with sumatR.
  assert (G : forall l, (forall j, In j l -> (j <= 2 ^ k)%nat) -> sumatR y l = sumatR z l).
  { induction l as [|j l IHl]; intros Hl; [reflexivity|]. unfold sumatR, sum_at in *. cbn [fold_right]. rewrite IHl by (intros; apply Hl; right; assumption). rewrite H; [reflexivity|]. apply Hl. left; reflexivity. }
  apply G. intros j Hj. apply Nat.lt_le_incl. eapply slice_le; [| |exact Hj]; [apply P|]. apply Nat.pow_lt_mono_r; lia.
Qed.
Lemma romb_ext y z k : (forall j, (j <= 2 ^ k)%nat -> y j = z j) -> rombR y k = rombR z k.
Proof. intros H. unfold rombR, romb. change (romb_row R Rplus Rminus Rmult Rdiv INR) with rowR. rewrite (rowR_ext y z k k) by auto. reflexivity. Qed.
Definition unitR (i j : nat) : R := if Nat.eqb i j then 1 else 0.
Definition wR (k i : nat) : R := rombR (unitR i) k.
Lemma romb_zero k : rombR (fun _ => 0) k = 0.
Proof. pose proof (romb_lin (-1) (fun _ => 0) (fun _ => 0) k) as H. cbv beta in H. rewrite (romb_ext (fun _ : nat => -1 * 0 + 0) (fun _ => 0)) in H by (intros; ring). lra. Qed.
Lemma romb_sum_aux y k l : rombR (fun j => sumR (map (fun i => y i * unitR i j) l)) k = sumR (map (fun i => wR k i * y i) l).
Proof.
  induction l as [|i l IH]; [apply romb_zero|]. cbn [map sumR].
  rewrite (romb_lin (y i) (unitR i) (fun j => sumR (map (fun i => y i * unitR i j) l))). rewrite IH. unfold wR. ring.
Qed.
Lemma unit_sum y : forall l j, NoDup l -> In j l -> sumR (map (fun i => y i * unitR i j) l) = y j.
Proof.
  induction l as [|i l IH]; intros j Hd Hin; [destruct Hin|]. cbn [map sumR]. inversion Hd as [|? ? Hn Hd']; subst. unfold unitR at 1. destruct (Nat.eqb_spec i j) as [->|Hne].
  - assert (Z : sumR (map (fun i => y i * unitR i j) l) = 0); [|rewrite Z; ring].
    clear IH Hd Hin Hd'. induction l as [|m l IH]; [reflexivity|]. cbn [map sumR]. unfold unitR at 1. destruct (Nat.eqb_spec m j) as [->|]; [exfalso; apply Hn; left; reflexivity|].
    rewrite IH; [ring|]. intros H; apply Hn; right; exact H.
  - destruct Hin as [->|Hin]; [congruence|]. rewrite IH by assumption. ring.
Qed.
Lemma romb_sum y k : rombR y k = sumR (map (fun i => wR k i * y i) (seq 0 (S (2 ^ k)))).
Proof.
  rewrite <- romb_sum_aux. apply romb_ext. intros j Hj. symmetry. apply unit_sum; [apply seq_NoDup|]. apply in_seq. lia.
Qed.

(** ** the weights, computed in Q *)
Definition rombQ := romb Q (fun a b => Qred (a + b)) (fun a b => Qred (a - b)) (fun a b => Qred (a * b)) (fun a b => Qred (a / b)) (fun n => inject_Z (Z.of_nat n)).
Definition rowQ := romb_row Q (fun a b => Qred (a + b)) (fun a b => Qred (a - b)) (fun a b => Qred (a * b)) (fun a b => Qred (a / b)) (fun n => inject_Z (Z.of_nat n)).
Definition richQ := richardson Q (fun a b => Qred (a + b)) (fun a b => Qred (a - b)) (fun a b => Qred (a / b)) (fun n => inject_Z (Z.of_nat n)).
Definition unitQ (i j : nat) : Q := if Nat.eqb i j then 1%Q else 0%Q.
Lemma Q2R_red q : Q2R (Qred q) = Q2R q.
Proof. apply Qeq_eqR. apply Qred_correct. Qed.
Lemma Q2R_nat n : Q2R (inject_Z (Z.of_nat n)) = INR n.
Proof. rewrite INR_IZR_INZ. unfold Q2R, inject_Z. cbn. field. Qed.
Lemma Q2R_divn a n : (n <> 0)%nat -> Q2R (Qred (a / inject_Z (Z.of_nat n))) = Q2R a / INR n.
Proof.
  intros H. rewrite Q2R_red, Q2R_div, Q2R_nat; [reflexivity|]. intros E. unfold Qeq, inject_Z in E. cbn in E. lia.
Qed.
Lemma pow4 j : (4 ^ S j - 1 <> 0)%nat.
Proof. assert (H : (1 <= 4 ^ j)%nat) by (pose proof (Nat.pow_nonzero 4 j); lia). rewrite Nat.pow_succ_r'. lia. Qed.
Lemma rich_hom old : forall p j, map Q2R (richQ p old (S j)) = richR (Q2R p) (map Q2R old) (S j).
Proof.
  induction old as [|o old IH]; intros p j; [reflexivity|]. cbn [map]. rewrite richR_cons. unfold richQ in *. cbn [richardson map]. f_equal.
  rewrite IH. f_equal. rewrite Q2R_red, Q2R_plus. f_equal. rewrite Q2R_divn by apply pow4. rewrite Q2R_red, Q2R_minus. reflexivity.
Qed.
Lemma sumat_hom y l : Q2R (sum_at Q (fun a b => Qred (a + b)) (fun n => inject_Z (Z.of_nat n)) y l) = sumatR (fun i => Q2R (y i)) l.
Proof. induction l as [|i l IH]; unfold sumatR, sum_at in *; cbn [fold_right]; [rewrite Q2R_nat; reflexivity|]. rewrite Q2R_red, Q2R_plus, IH. reflexivity. Qed.
Lemma row_hom y n i : map Q2R (rowQ y n i) = rowR (fun j => Q2R (y j)) n i.
Proof.
  induction i as [|i IH].
  - unfold rowQ, rowR. cbn [romb_row map]. f_equal. rewrite Q2R_red, Q2R_mult, Q2R_nat. f_equal.
    rewrite Q2R_divn by lia. rewrite Q2R_red, Q2R_plus. reflexivity.
  - unfold rowQ, rowR in *. cbn [romb_row]. change (richardson Q _ _ _ _) with richQ. rewrite rich_hom. fold richR. rewrite IH. unfold richR. f_equal.
    rewrite Q2R_divn by lia. f_equal. rewrite Q2R_red, Q2R_plus. f_equal.
    + rewrite <- IH. destruct (romb_row Q _ _ _ _ _ _ _ i); [cbn [hd map]; apply Q2R_nat|reflexivity].
    + rewrite Q2R_red, Q2R_mult. f_equal; [|apply sumat_hom]. rewrite Q2R_divn by (apply Nat.pow_nonzero; lia). rewrite Q2R_nat. reflexivity.
Qed.
Lemma last_map {A B} (f : A -> B) l d e : l <> [] -> f (last l d) = last (map f l) e.
Proof. induction l as [|x l IH]; intros H; [congruence|]. destruct l as [|y l]; [reflexivity|]. change (f (last (y :: l) d) = last (map f (y :: l)) e). apply IH. discriminate. Qed.
Lemma wR_Q k i : wR k i = Q2R (rombQ (unitQ i) k).
Proof.
  unfold wR, rombR, rombQ, romb. change (romb_row R Rplus Rminus Rmult Rdiv INR) with rowR. change (romb_row Q _ _ _ _ _) with rowQ.
  rewrite (last_map Q2R _ _ (INR 0)).
  - rewrite row_hom. f_equal. f_equal. apply functional_extensionality_dep. intros j. unfold unitR, unitQ. destruct (Nat.eqb i j); unfold Q2R; cbn; field.
  - intros E. apply (f_equal (map Q2R)) in E. rewrite row_hom in E. apply (f_equal (@length R)) in E. rewrite rowR_len in E. discriminate.
Qed.
Lemma weights_pos i : (i <= 64)%nat -> 1/4 <= wR 6 i.
Proof.
  intros H. rewrite wR_Q.
  assert (G : forallb (fun i => Qle_bool (1#4) (rombQ (unitQ i) 6)) (seq 0 65) = true) by (vm_compute; reflexivity).
  rewrite forallb_forall in G. specialize (G i). apply Qle_bool_iff in G; [|apply in_seq; lia]. apply Qle_Rle in G. replace (1/4) with (Q2R (1#4)) by (unfold Q2R; cbn; lra). exact G.
Qed.
Lemma weights_sum : sumR (map (wR 6) (seq 0 65)) = 64.
Proof.
  assert (G : fold_right Qplus 0%Q (map (fun i => rombQ (unitQ i) 6) (seq 0 65)) == 64%Q) by (vm_compute; reflexivity).
  apply Qeq_eqR in G. replace (Q2R 64) with 64 in G by (unfold Q2R; cbn; lra). rewrite <- G. clear G. generalize (seq 0 65). induction l as [|i l IH]; [unfold Q2R; cbn; lra|].
  cbn [map sumR fold_right]. rewrite Q2R_plus, IH, wR_Q. reflexivity.
Qed.
