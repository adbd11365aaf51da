(** Lemmas for CliProps. *)
From Coq Require Import ZArith Reals Lra String Ascii.
From Verif Require Import Py PyStr RUtil CfgSpec CfgModel CfgProofs KvarSpec KvarModel KvarProofs DataModel SubsModel SubsProofs Regex InstrSpec InstrModel InstrProofs MonoModel InterpModel FuncModel TxtSpec TxtModel TxtProofs CliSpec CliModel.
Local Open Scope list_scope.
Local Open Scope R_scope.
Lemma ceil_lt i x : (i < Z.to_nat (ceil x))%nat <-> INR i < x.
Proof.
  unfold ceil. destruct (base_Int_part (- x)) as (H1 & H2). set (z := Int_part (- x)) in *. clearbody z. rewrite INR_IZR_INZ. split.
  - intros H. assert (L : (Z.of_nat i <= - z - 1)%Z) by lia. apply IZR_le in L. rewrite minus_IZR, opp_IZR in L. lra.
  - intros H. assert (L : IZR (Z.of_nat i) < IZR (- z)) by (rewrite opp_IZR; lra). apply lt_IZR in L. lia.
Qed.
Lemma arange_points start step stop : step <> 0 -> exists l, arange start (stop + 0.001 * step) step = Ok l /\ range_points start step stop l.
Proof.
  intros H. unfold arange. destruct (Req_EM_T step 0) as [E|_]; [contradiction|]. eexists. split; [reflexivity|]. split; [exact H|]. eexists. split; [reflexivity|]. intros i. rewrite ceil_lt. replace ((stop + 0.001 * step - start) / step) with ((stop - start) / step + 0.001) by (field_simplify_eq; [lra|exact H]). reflexivity.
Qed.
Lemma range_points_unique start step stop l l' : range_points start step stop l -> range_points start step stop l' -> l = l'.
Proof.
  intros (_ & n & -> & H) (_ & m & -> & H'). f_equal. assert (X : forall i, (i < n)%nat <-> (i < m)%nat) by (intros i; rewrite H, H'; reflexivity). destruct (Nat.lt_trichotomy n m) as [L|[E|L]]; [apply X in L; lia|exact E|apply X in L; lia].
Qed.
Lemma linspace_evenly a b n : (0 <= n)%Z -> exists l, linspace a b n = Ok l /\ evenly a b (Z.to_nat n) l.
Proof.
  intros H. unfold linspace. destruct (n <? 0)%Z eqn:E; [apply Z.ltb_lt in E; lia|]. eexists. split; [reflexivity|]. set (k := Z.to_nat n). clearbody k. set (f := fun i => if Nat.eqb i 0 then a else a + INR i * ((b - a) / INR (k - 1))).
  assert (V : forall i, (i < k)%nat -> nth i (map f (seq 0 k)) 0 = f i). { intros i L. rewrite (nth_indep _ 0 (f 0%nat)) by (rewrite map_length, seq_length; exact L). rewrite (map_nth f (seq 0 k) 0%nat). rewrite seq_nth by exact L. reflexivity. }
  split; [rewrite map_length; apply seq_length|]. split; [intros N; rewrite V by lia; reflexivity|]. intros L. assert (P : INR (k - 1) <> 0) by (apply not_0_INR; lia).
  assert (W : forall i, (i < k)%nat -> nth i (map f (seq 0 k)) 0 = a + INR i / INR (k - 1) * (b - a)). { intros i Li. rewrite V by exact Li. unfold f. destruct (Nat.eqb i 0) eqn:Z0; [apply Nat.eqb_eq in Z0; subst i; simpl INR; unfold Rdiv; ring|]. field. exact P. }
  split; [|exact W]. rewrite W by lia. field. exact P.
Qed.
Lemma evenly_unique a b n l l' : evenly a b n l -> evenly a b n l' -> l = l'.
Proof.
  intros (L1 & F1 & E1) (L2 & F2 & E2). apply (nth_ext _ _ 0 0); [congruence|]. intros i Hi. rewrite L1 in Hi. destruct (le_lt_dec 2 n) as [G|G].
  - destruct (E1 G) as (_ & A). destruct (E2 G) as (_ & B). rewrite A, B by exact Hi. reflexivity.
  - assert (i = 0)%nat by lia. subst i. rewrite F1, F2 by lia. reflexivity.
Qed.
Lemma first_ok x0 x : first (x0 :: x) = Ok x0. Proof. reflexivity. Qed.
Lemma lst_ok x xl : lst (x ++ [xl]) = Ok xl. Proof. unfold lst. rewrite rev_app_distr. reflexivity. Qed.
