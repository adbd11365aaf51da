(** Convergence of the Romberg quadrature and of the Fermi integrals. *)
From Coq Require Import Reals Lra Lia.
From Coquelicot Require Import Coquelicot.
From Verif Require Import Py RUtil FuncModel RombModel RombProofs RombProps.
Local Open Scope R_scope.

(** ** Richardson's table keeps limits *)
Fixpoint tab (T : nat -> R) (i : nat) : list R := match i with O => [T 0%nat] | S i' => richR (T (S i')) (tab T i') 1 end.
Lemma tab_len T i : length (tab T i) = S i.
Proof. induction i as [|i IH]; [reflexivity|]. cbn [tab]. rewrite richR_len, IH. reflexivity. Qed.
Fixpoint Qc (j : nat) : R := match j with O => 1 | S j' => Qc j' * ((INR (4 ^ S j' - 1) + 3) / INR (4 ^ S j' - 1)) end.
Lemma c_pos j : 3 <= INR (4 ^ S j - 1).
Proof.
  assert (H : (4 <= 4 ^ S j)%nat) by (cbn [Nat.pow]; pose proof (Nat.pow_nonzero 4 j ltac:(lia)); lia).
  replace 3 with (INR 3) by (cbn; lra). apply le_INR. lia.
Qed.
Lemma c_val j : INR (4 ^ S j - 1) = 4 ^ S j - 1.
Proof. rewrite minus_INR by (pose proof (Nat.pow_nonzero 4 (S j) ltac:(lia)); lia). rewrite pow_INR. replace (INR 4) with 4 by (cbn; lra). reflexivity. Qed.
Lemma Qc_pos j : 0 < Qc j.
Proof. induction j as [|j IH]; cbn [Qc]; [lra|]. pose proof (c_pos j). apply Rmult_lt_0_compat; [exact IH|]. apply Rdiv_lt_0_compat; lra. Qed.
Lemma Qc_bound j : Qc j <= exp (4 / 3).
Proof.
  assert (H : Qc j <= exp (4 / 3 * (1 - / 4 ^ j))).
  { induction j as [|j IH]; [cbn; replace (4 / 3 * (1 - / 1)) with 0 by (rewrite Rinv_1; lra); rewrite exp_0; lra|]. cbn [Qc].
    pose proof (c_pos j) as C. rewrite c_val in *. assert (P : 0 < 4 ^ j) by (apply pow_lt; lra). cbn [pow] in *.
    replace (4 / 3 * (1 - / (4 * 4 ^ j))) with (4 / 3 * (1 - / 4 ^ j) + 4 / (4 * 4 ^ j)) by (field; lra). rewrite exp_plus.
    apply Rmult_le_compat; [apply Rlt_le, Qc_pos|apply Rle_div_r; lra|exact IH|].
    eapply Rle_trans; [|apply exp_ineq1_le]. apply Rle_div_l; [lra|].
    replace ((1 + 4 / (4 * 4 ^ j)) * (4 * 4 ^ j - 1)) with (4 * 4 ^ j + 3 - 4 / (4 * 4 ^ j)) by (field; lra).
    assert (Q : 4 / (4 * 4 ^ j) <= 1) by (apply Rle_div_l; lra). lra. }
  eapply Rle_trans; [exact H|]. assert (P : 0 < / 4 ^ j) by (apply Rinv_0_lt_compat, pow_lt; lra).
  destruct (Rle_lt_or_eq_dec (4 / 3 * (1 - / 4 ^ j)) (4 / 3) ltac:(lra)) as [L|E]; [left; apply exp_increasing; exact L|right; rewrite E; reflexivity].
Qed.
Lemma rich_err I D : forall old p j, Rabs (p - I) <= Qc j * D -> (forall m, (m < length old)%nat -> Rabs (nth m old 0 - I) <= Qc (j + m) * (2 * D)) ->
  forall m, (m <= length old)%nat -> Rabs (nth m (richR p old (S j)) 0 - I) <= Qc (j + m) * D.
Proof.
  induction old as [|o old IH]; intros p j Hp Ho m Hm.
  - cbn in Hm. replace m with 0%nat by lia. rewrite Nat.add_0_r. exact Hp.
  - rewrite richR_cons. destruct m as [|m]; [rewrite Nat.add_0_r; exact Hp|]. cbn [nth]. replace (j + S m)%nat with (S j + m)%nat by lia.
    apply IH; [| |cbn in Hm; lia].
    + pose proof (c_pos j) as C. cbn [Qc]. set (c := INR (4 ^ S j - 1)) in *.
      replace (p + (p - o) / c - I) with ((1 + / c) * (p - I) + - (/ c * (o - I))) by (field; lra).
      assert (Ic : 0 < / c) by (apply Rinv_0_lt_compat; lra). eapply Rle_trans; [apply Rabs_triang|]. rewrite Rabs_Ropp, !Rabs_mult, (Rabs_pos_eq (1 + / c)), (Rabs_pos_eq (/ c)) by lra.
      pose proof (Ho 0%nat ltac:(cbn; lia)) as H0. cbn [nth] in H0. rewrite Nat.add_0_r in H0.
      replace (Qc j * ((c + 3) / c) * D) with ((1 + / c) * (Qc j * D) + / c * (Qc j * (2 * D))) by (field; lra).
      apply Rplus_le_compat; apply Rmult_le_compat_l; lra.
    + intros i Hi. replace (S j + i)%nat with (j + S i)%nat by lia. apply (Ho (S i)). cbn. lia.
Qed.
Fixpoint Dm (T : nat -> R) (I : R) (i : nat) : R := match i with O => Rabs (T 0%nat - I) | S i' => Rmax (Rabs (T (S i') - I)) (Dm T I i' / 2) end.
Lemma Dm_pos T I i : 0 <= Dm T I i.
Proof. destruct i; cbn [Dm]; [apply Rabs_pos|]. eapply Rle_trans; [apply Rabs_pos|apply Rmax_l]. Qed.
Lemma Dm_ge T I i : Rabs (T i - I) <= Dm T I i.
Proof. destruct i; cbn [Dm]; [lra|apply Rmax_l]. Qed.
Lemma tab_err T I i : forall m, (m <= i)%nat -> Rabs (nth m (tab T i) 0 - I) <= Qc m * Dm T I i.
Proof.
  induction i as [|i IH]; intros m Hm.
  - replace m with 0%nat by lia. cbn. lra.
  - cbn [tab]. apply (rich_err I (Dm T I (S i)) (tab T i) (T (S i)) 0).
    + cbn [Qc]. rewrite Rmult_1_l. apply Dm_ge.
    + rewrite tab_len. intros j Hj. cbn [plus]. eapply Rle_trans; [apply IH; lia|]. apply Rmult_le_compat_l; [apply Rlt_le, Qc_pos|].
      cbn [Dm]. pose proof (Rmax_r (Rabs (T (S i) - I)) (Dm T I i / 2)). lra.
    + rewrite tab_len. exact Hm.
Qed.
Lemma Dm_lim (T : nat -> R) (I : R) : is_lim_seq T I -> is_lim_seq (Dm T I) 0.
Proof.
  intros H. apply is_lim_seq_spec. intros eps. apply is_lim_seq_spec in H. cbv beta iota delta [is_lim_seq'] in H. destruct (H (pos_div_2 eps)) as (N & HN). cbn in HN.
  assert (G : forall d, Dm T I (N + d) <= Rmax (eps / 2) (Dm T I N / 2 ^ d)).
  { induction d as [|d IH]; [rewrite Nat.add_0_r; cbn [pow]; unfold Rdiv at 2; rewrite Rinv_1, Rmult_1_r; apply Rmax_r|]. rewrite Nat.add_succ_r. cbn [Dm].
    apply Rmax_lub; [eapply Rle_trans; [apply Rlt_le, HN; lia|apply Rmax_l]|].
    unfold Rmax in *. destruct (Rle_dec (eps / 2) (Dm T I N / 2 ^ d)) as [A|A]; destruct (Rle_dec (eps / 2) (Dm T I N / 2 ^ S d)) as [B|B]; cbn [pow] in *.
    - assert (P : 0 < 2 ^ d) by (apply pow_lt; lra). replace (Dm T I N / (2 * 2 ^ d)) with (Dm T I N / 2 ^ d / 2) by (field; lra). lra.
    - assert (P : 0 < 2 ^ d) by (apply pow_lt; lra). replace (Dm T I N / (2 * 2 ^ d)) with (Dm T I N / 2 ^ d / 2) in B by (field; lra). lra.
    - pose proof (cond_pos eps). lra.
    - pose proof (cond_pos eps). lra. }
  assert (K : is_lim_seq (fun d => Dm T I N * (/ 2) ^ d) 0).
  { replace (Finite 0) with (Rbar_mult (Dm T I N) 0) by (cbn; f_equal; ring). apply is_lim_seq_scal_l. apply is_lim_seq_geom. rewrite Rabs_pos_eq; lra. }
  apply is_lim_seq_spec in K. cbv beta iota delta [is_lim_seq'] in K. destruct (K (pos_div_2 eps)) as (M & HM). cbn in HM. exists (N + M)%nat. intros n Hn. replace n with (N + (n - N))%nat by lia.
  rewrite Rminus_0_r, Rabs_pos_eq by apply Dm_pos. eapply Rle_lt_trans; [apply G|]. specialize (HM (n - N)%nat ltac:(lia)). rewrite Rminus_0_r in HM. apply Rabs_def2 in HM. rewrite <- Rinv_pow in HM by (apply Rgt_not_eq; lra).
  apply Rmax_lub_lt; [pose proof (cond_pos eps); lra|]. unfold Rdiv. pose proof (cond_pos eps). lra.
Qed.
Lemma last_nth (l : list R) d : last l d = nth (length l - 1) l d.
Proof. induction l as [|a l IH]; [reflexivity|]. destruct l as [|b l]; [reflexivity|]. change (last (a :: b :: l) d) with (last (b :: l) d). rewrite IH. cbn [length]. rewrite !Nat.sub_succ, !Nat.sub_0_r. reflexivity. Qed.
Lemma tab_lim (T : nat -> R) (I : R) : is_lim_seq T I -> is_lim_seq (fun n => last (tab T n) 0) I.
Proof.
  intros H. apply is_lim_seq_spec. intros eps. pose proof (Dm_lim T I H) as D. apply is_lim_seq_spec in D. cbv beta iota delta [is_lim_seq'] in D.
  assert (P : 0 < eps / exp (4 / 3)) by (apply Rdiv_lt_0_compat; [apply cond_pos|apply exp_pos]). destruct (D (mkposreal _ P)) as (N & HN). cbn in HN.
  exists N. intros n Hn. rewrite last_nth, tab_len. replace (S n - 1)%nat with n by lia. eapply Rle_lt_trans; [apply tab_err; lia|].
  specialize (HN n Hn). rewrite Rminus_0_r, Rabs_pos_eq in HN by apply Dm_pos. apply Rle_lt_trans with (exp (4 / 3) * Dm T I n).
  - apply Rmult_le_compat_r; [apply Dm_pos|apply Qc_bound].
  - apply (Rmult_lt_compat_l (exp (4 / 3))) in HN; [|apply exp_pos]. replace (exp (4 / 3) * (eps / exp (4 / 3))) with (pos eps) in HN; [exact HN|]. field. apply Rgt_not_eq, exp_pos.
Qed.

(** ** the Romberg table of samples is Richardson's table of trapezoid sums *)
Definition odd_sum (G : R -> R) (w : R) (i : nat) : R := sumR (map (fun j => G (INR (2 * j + 1) * (w / INR (2 ^ S i)))) (seq 0 (2 ^ i))).
Fixpoint Tr (G : R -> R) (w : R) (i : nat) : R :=
  match i with O => w * ((G 0 + G w) / 2) | S i' => Tr G w i' / 2 + w / INR (2 ^ S i') * odd_sum G w i' end.
Lemma richR_scale c old : forall p j, richR (c * p) (map (Rmult c) old) j = map (Rmult c) (richR p old j).
Proof. induction old as [|o old IH]; intros p j; [reflexivity|]. cbn [map]. rewrite !richR_cons. cbn [map]. f_equal. rewrite <- IH. f_equal. unfold Rdiv. ring. Qed.
Lemma tab_hd T i : hd 0 (tab T i) = T i.
Proof. destruct i; [reflexivity|]. cbn [tab]. destruct (tab T i); reflexivity. Qed.
Lemma pow2_pos i : 0 < INR (2 ^ i). Proof. apply lt_0_INR, Nat.neq_0_lt_0, Nat.pow_nonzero. lia. Qed.
Lemma pow2_S i : INR (2 ^ S i) = 2 * INR (2 ^ i).
Proof. replace (2 ^ S i)%nat with (2 * 2 ^ i)%nat by reflexivity. rewrite mult_INR. replace (INR 2) with 2 by (cbn; lra). reflexivity. Qed.
Lemma rows_tab (G : R -> R) (w : R) (n : nat) (y : nat -> R) : 0 < w -> (forall j, (j <= 2 ^ n)%nat -> y j = G (INR j * (w / INR (2 ^ n)))) ->
  forall i, (i <= n)%nat -> rowR y (2 ^ n) i = map (Rmult (INR (2 ^ n) / w)) (tab (Tr G w) i).
Proof.
  intros Hw Hy. pose proof (pow2_pos n) as PN. assert (Pn : (2 ^ n <> 0)%nat) by (apply Nat.pow_nonzero; lia).
  induction i as [|i IH]; intros Hi.
  - unfold rowR. cbn [romb_row tab Tr map]. f_equal. rewrite !Hy by lia. cbn [INR]. rewrite Rmult_0_l. replace (INR (2 ^ n) * (w / INR (2 ^ n))) with w by (field; lra). replace (1 + 1) with 2 by lra. field. lra.
  - unfold rowR in *. cbn [romb_row tab]. fold richR sumatR. rewrite (IH ltac:(lia)). rewrite <- richR_scale. f_equal.
    assert (Hh : hd (INR 0) (map (Rmult (INR (2 ^ n) / w)) (tab (Tr G w) i)) = INR (2 ^ n) / w * Tr G w i).
    { pose proof (tab_hd (Tr G w) i) as E. pose proof (tab_len (Tr G w) i) as L. destruct (tab (Tr G w) i) as [|a l]; [discriminate|]. cbn in *. rewrite E. reflexivity. }
    rewrite Hh. pose proof (pow2_pos i) as Pi. pose proof (pow2_pos (S i)) as PSi.
    assert (S2 : sumatR y (slice_idx (2 ^ n / 2 ^ S i) (2 ^ n) (2 ^ n / 2 ^ i)) = odd_sum G w i).
    { assert (D : forall m, (m <= n)%nat -> (2 ^ n / 2 ^ m = 2 ^ (n - m))%nat).
      { intros m Hm. replace (2 ^ n)%nat with (2 ^ (n - m) * 2 ^ m)%nat by (rewrite <- Nat.pow_add_r; f_equal; lia). apply Nat.div_mul. apply Nat.pow_nonzero. lia. }
      rewrite !D by lia. set (s := (2 ^ (n - S i))%nat). assert (Es : (2 ^ (n - i) = 2 * s)%nat) by (unfold s; replace (n - i)%nat with (S (n - S i)) by lia; reflexivity).
      assert (En : (2 ^ n = 2 ^ i * (2 * s))%nat) by (rewrite <- Es, <- Nat.pow_add_r; f_equal; lia). assert (Ps : (0 < s)%nat) by (unfold s; apply Nat.neq_0_lt_0, Nat.pow_nonzero; lia).
      rewrite Es. unfold slice_idx.
      assert (Cn : ((2 ^ n - s + (2 * s - 1)) / (2 * s) = 2 ^ i)%nat).
      { symmetry. apply (Nat.div_unique _ _ _ (s - 1)); [lia|]. rewrite En. assert (0 < 2 ^ i)%nat by (apply Nat.neq_0_lt_0, Nat.pow_nonzero; lia). nia. }
      rewrite Cn. unfold odd_sum. assert (A : forall l, (forall j, In j l -> (j < 2 ^ i)%nat) -> sumatR y (map (fun j => (s + j * (2 * s))%nat) l) = sumR (map (fun j => G (INR (2 * j + 1) * (w / INR (2 ^ S i)))) l)).
      { induction l as [|j l IHl]; intros Hl; [reflexivity|]. cbn [map]. unfold sumatR, sum_at in *. cbn [fold_right]. rewrite IHl by (intros; apply Hl; right; assumption).
        cbn [map]. change (sumR (?a :: ?b)) with (a + sumR b). f_equal. pose proof (Hl j (or_introl eq_refl)) as Hj. rewrite Hy by nia. f_equal.
        replace (s + j * (2 * s))%nat with ((2 * j + 1) * s)%nat by lia. replace (2 ^ n)%nat with (2 ^ S i * s)%nat by (rewrite En; cbn [Nat.pow]; lia). rewrite !mult_INR.
        assert (0 < INR s) by (apply lt_0_INR; exact Ps). field. split; lra. }
      apply A. intros j Hj. apply in_seq in Hj. lia. }
    rewrite S2. cbn [Tr]. rewrite !pow2_S. replace (INR 2) with 2 by (cbn; lra). field. split; lra.
Qed.
Lemma romb_tab (G : R -> R) (w : R) (n : nat) (y : nat -> R) : 0 < w -> (forall j, (j <= 2 ^ n)%nat -> y j = G (INR j * (w / INR (2 ^ n)))) ->
  rombR y n * (w / INR (2 ^ n)) = last (tab (Tr G w) n) 0.
Proof.
  intros Hw Hy. pose proof (pow2_pos n) as PN. unfold rombR, romb. change (romb_row R Rplus Rminus Rmult Rdiv INR) with rowR. rewrite (rows_tab G w n y Hw Hy n) by lia.
  assert (E : forall l d, l <> [] -> last (map (Rmult (INR (2 ^ n) / w)) l) d = INR (2 ^ n) / w * last l 0).
  { induction l as [|a l IH]; intros d N; [contradiction|]. destruct l as [|b l]; [reflexivity|]. change (last (map (Rmult (INR (2 ^ n) / w)) (a :: b :: l)) d) with (last (map (Rmult (INR (2 ^ n) / w)) (b :: l)) d).
    rewrite IH by discriminate. reflexivity. }
  rewrite E by (pose proof (tab_len (Tr G w) n) as L; intros H; rewrite H in L; discriminate). field. split; lra.
Qed.
(** changing the function at the end point only *)
Lemma Tr_end (F G : R -> R) (w : R) : 0 < w -> (forall t, 0 <= t < w -> F t = G t) -> forall i, Tr G w i = Tr F w i + w / INR (2 ^ i) * ((G w - F w) / 2).
Proof.
  intros Hw H. induction i as [|i IH].
  - cbn [Tr Nat.pow INR]. rewrite (H 0) by lra. field.
  - cbn [Tr]. rewrite IH. assert (O : odd_sum G w i = odd_sum F w i).
    { unfold odd_sum. f_equal. apply map_ext_in. intros j Hj. apply in_seq in Hj. symmetry. apply H. pose proof (pow2_pos (S i)) as P. split.
      - apply Rmult_le_pos; [apply pos_INR|]. apply Rlt_le, Rdiv_lt_0_compat; lra.
      - replace (INR (2 * j + 1) * (w / INR (2 ^ S i))) with (w * (INR (2 * j + 1) / INR (2 ^ S i))) by (field; lra). rewrite <- (Rmult_1_r w) at 2. apply Rmult_lt_compat_l; [exact Hw|].
        apply Rlt_div_l; [exact P|]. rewrite Rmult_1_l. apply lt_INR. cbn [Nat.pow]. lia. }
    rewrite O. pose proof (pow2_pos i). rewrite !pow2_S. field. lra.
Qed.
(** the closed form *)
Definition piece (F : R -> R) (h : R) (j : nat) : R := h * ((F (INR j * h) + F (INR (S j) * h)) / 2).
Lemma pieces_double (F : R -> R) (h : R) : forall m, sumR (map (piece F h) (seq 0 (2 * m))) = sumR (map (piece F (2 * h)) (seq 0 m)) / 2 + h * sumR (map (fun j => F (INR (2 * j + 1) * h)) (seq 0 m)).
Proof.
  assert (SA : forall (f : nat -> R) m, sumR (map f (seq 0 (S m))) = sumR (map f (seq 0 m)) + f m).
  { intros f m. rewrite seq_S, map_app, sumR_app. cbn [map plus]. unfold sumR at 2. cbn. ring. }
  induction m as [|m IH]; [cbn; lra|]. replace (2 * S m)%nat with (S (S (2 * m))) by lia. rewrite !SA, IH. unfold piece.
  replace (INR m * (2 * h)) with (INR (2 * m) * h) by (rewrite mult_INR; cbn [INR]; ring). replace (INR (S m) * (2 * h)) with (INR (S (S (2 * m))) * h) by (rewrite !S_INR, mult_INR; cbn [INR]; ring).
  replace (2 * m + 1)%nat with (S (2 * m)) by lia. field.
Qed.
Lemma Tr_closed (F : R -> R) (w : R) i : Tr F w i = sumR (map (piece F (w / INR (2 ^ i))) (seq 0 (2 ^ i))).
Proof.
  induction i as [|i IH].
  - cbn [Tr Nat.pow seq map INR]. unfold sumR, piece; cbn. rewrite Rmult_0_l. unfold Rdiv at 2 3 4. rewrite Rinv_1, !Rmult_1_r, Rmult_1_l. lra.
  - cbn [Tr]. replace (2 ^ S i)%nat with (2 * 2 ^ i)%nat by reflexivity. rewrite pieces_double. pose proof (pow2_pos i). 
    replace (2 * (w / INR (2 * 2 ^ i))) with (w / INR (2 ^ i)) by (rewrite mult_INR; replace (INR 2) with 2 by (cbn; lra); field; lra). rewrite <- IH. reflexivity.
Qed.
Lemma piece_err (F : R -> R) (a b e : R) : a <= b -> (forall t, continuous F t) -> (forall t, a <= t <= b -> Rabs (F t - F a) <= e /\ Rabs (F t - F b) <= e) ->
  Rabs (RInt F a b - (b - a) * ((F a + F b) / 2)) <= (b - a) * e.
Proof.
  intros H C B. set (c := (F a + F b) / 2). assert (EX : forall f : R -> R, (forall t, continuous f t) -> ex_RInt f a b) by (intros f Cf; apply (ex_RInt_continuous (V := R_CompleteNormedModule)); intros; apply Cf).
  assert (K : forall v : R, RInt (fun _ => v) a b = (b - a) * v) by (intros v; rewrite RInt_const; reflexivity).
  assert (Bd : forall t, a < t < b -> c - e <= F t <= c + e).
  { intros t Ht. destruct (B t ltac:(lra)) as (B1 & B2). apply Rabs_le_between in B1. apply Rabs_le_between in B2. unfold c. lra. }
  assert (L : (b - a) * (c - e) <= RInt F a b) by (rewrite <- K; apply RInt_le; [exact H|apply ex_RInt_const|apply EX, C|intros; apply Bd; assumption]).
  assert (U : RInt F a b <= (b - a) * (c + e)) by (rewrite <- K; apply RInt_le; [exact H|apply EX, C|apply ex_RInt_const|intros; apply Bd; assumption]).
  apply Rabs_le_between. lra.
Qed.
Lemma trap_err (F : R -> R) (h e : R) : 0 < h -> (forall t, continuous F t) -> forall m, (forall s t, 0 <= s <= INR m * h -> 0 <= t <= INR m * h -> Rabs (s - t) <= h -> Rabs (F s - F t) <= e) ->
  Rabs (RInt F 0 (INR m * h) - sumR (map (piece F h) (seq 0 m))) <= INR m * h * e.
Proof.
  intros Hh C. induction m as [|m IH]; intros B.
  - cbn [INR]. rewrite Rmult_0_l, RInt_point. cbn. rewrite Rminus_0_r, Rabs_R0. lra.
  - assert (Lm : INR m * h <= INR (S m) * h) by (apply Rmult_le_compat_r; [lra|]; apply le_INR; lia). assert (Pm : 0 <= INR m * h) by (apply Rmult_le_pos; [apply pos_INR|lra]).
    assert (CH : RInt F 0 (INR (S m) * h) = RInt F 0 (INR m * h) + RInt F (INR m * h) (INR (S m) * h)).
    { symmetry. apply (RInt_Chasles F 0 (INR m * h) (INR (S m) * h)); apply (ex_RInt_continuous (V := R_CompleteNormedModule)); intros; apply C. }
    assert (SM : sumR (map (piece F h) (seq 0 (S m))) = sumR (map (piece F h) (seq 0 m)) + piece F h m).
    { rewrite seq_S, map_app, sumR_app. cbn [map Nat.add sumR]. ring. }
    rewrite CH, SM. match goal with |- Rabs (?x + ?y - (?s + ?p)) <= _ => replace (x + y - (s + p)) with ((x - s) + (y - p)) by ring end.
    eapply Rle_trans; [apply Rabs_triang|]. replace (INR (S m) * h * e) with (INR m * h * e + h * e) by (rewrite S_INR; ring).
    assert (Eh : INR (S m) * h - INR m * h = h) by (rewrite S_INR; ring). apply Rplus_le_compat.
    + apply IH. intros s t Hs Ht. apply B; lra.
    + pose proof (piece_err F (INR m * h) (INR (S m) * h) e Lm C) as P. rewrite Eh in P. apply P. intros t Ht.
      assert (A1 : Rabs (t - INR m * h) <= h) by (apply Rabs_le_between; lra). assert (A2 : Rabs (t - INR (S m) * h) <= h) by (apply Rabs_le_between; lra).
      split; apply B; lra.
Qed.
Lemma Tr_lim (F : R -> R) (w : R) : 0 < w -> (forall t, continuous F t) -> is_lim_seq (Tr F w) (RInt F 0 w).
Proof.
  intros Hw C. apply is_lim_seq_spec. intros eps.
  assert (UC : uniform_continuity F (fun c => 0 <= c <= w)).
  { apply Heine; [apply compact_P3|]. intros x _. apply continuity_pt_filterlim. apply C. }
  assert (Pe : 0 < eps / (2 * w)) by (apply Rdiv_lt_0_compat; [apply cond_pos|lra]). destruct (UC (mkposreal _ Pe)) as (delta & HD). cbn in HD.
  assert (K : is_lim_seq (fun i => w * (/ 2) ^ i) 0).
  { replace (Finite 0) with (Rbar_mult w 0) by (cbn; f_equal; ring). apply is_lim_seq_scal_l. apply is_lim_seq_geom. rewrite Rabs_pos_eq; lra. }
  apply is_lim_seq_spec in K. cbv beta iota delta [is_lim_seq'] in K. destruct (K delta) as (N & HN). exists N. intros n Hn. specialize (HN n Hn). rewrite Rminus_0_r in HN. apply Rabs_def2 in HN. destruct HN as (HN & _).
  pose proof (pow2_pos n) as P2. assert (Eh : w * (/ 2) ^ n = w / INR (2 ^ n)).
  { rewrite <- Rinv_pow by (apply Rgt_not_eq; lra). rewrite pow_INR. replace (INR 2) with 2 by (cbn; lra). reflexivity. }
  rewrite Eh in HN. assert (Hh : 0 < w / INR (2 ^ n)) by (apply Rdiv_lt_0_compat; lra). rewrite Tr_closed. rewrite Rabs_minus_sym.
  pose proof (trap_err F (w / INR (2 ^ n)) (eps / (2 * w)) Hh C (2 ^ n)) as T. replace (INR (2 ^ n) * (w / INR (2 ^ n))) with w in T by (field; lra).
  eapply Rle_lt_trans; [apply T|].
  - intros s t Hs Ht Hst. apply Rlt_le. apply HD; [exact Hs|exact Ht|]. eapply Rle_lt_trans; [exact Hst|exact HN].
  - replace (w * (eps / (2 * w))) with (eps / 2) by (field; lra). pose proof (cond_pos eps). lra.
Qed.
(** Romberg of any function that agrees with a continuous one up to the right end *)
Lemma romb_lim (F : R -> R) (w B : R) (y : nat -> nat -> R) : 0 < w -> (forall t, continuous F t) ->
  (forall n j, (j < 2 ^ n)%nat -> y n j = F (INR j * (w / INR (2 ^ n)))) -> (forall n, y n (2 ^ n)%nat = B) ->
  is_lim_seq (fun n => rombR (y n) n * (w / INR (2 ^ n))) (RInt F 0 w).
Proof.
  intros Hw C Hy HB. set (G := fun t => if Rlt_dec t w then F t else B).
  assert (EG : forall n, rombR (y n) n * (w / INR (2 ^ n)) = last (tab (Tr G w) n) 0).
  { intros n. pose proof (pow2_pos n) as P. apply romb_tab; [exact Hw|]. intros j Hj. unfold G. destruct (Nat.eq_dec j (2 ^ n)) as [->|Nj].
    - rewrite HB. destruct (Rlt_dec _ w) as [L|]; [|reflexivity]. exfalso. replace (INR (2 ^ n) * (w / INR (2 ^ n))) with w in L by (field; lra). lra.
    - rewrite Hy by lia. destruct (Rlt_dec _ w) as [|L]; [reflexivity|]. exfalso. apply L. replace (INR j * (w / INR (2 ^ n))) with (w * (INR j / INR (2 ^ n))) by (field; lra).
      rewrite <- (Rmult_1_r w) at 2. apply Rmult_lt_compat_l; [exact Hw|]. apply Rlt_div_l; [exact P|]. rewrite Rmult_1_l. apply lt_INR. lia. }
  apply is_lim_seq_ext with (fun n => last (tab (Tr G w) n) 0); [intros n; symmetry; apply EG|]. apply tab_lim.
  assert (TG : forall i, Tr G w i = Tr F w i + w * (/ 2) ^ i * ((B - F w) / 2)).
  { intros i. rewrite (Tr_end F G w Hw). 2:{ intros t Ht. unfold G. destruct (Rlt_dec t w); [reflexivity|lra]. }
    assert (Gw : G w = B) by (unfold G; destruct (Rlt_dec w w); [lra|reflexivity]). rewrite Gw. rewrite <- Rinv_pow by (apply Rgt_not_eq; lra). rewrite pow_INR. replace (INR 2) with 2 by (cbn; lra). reflexivity. }
  apply is_lim_seq_ext with (fun i => Tr F w i + w * (/ 2) ^ i * ((B - F w) / 2)); [intros; symmetry; apply TG|].
  replace (Finite (RInt F 0 w)) with (Rbar_plus (RInt F 0 w) 0) by (cbn; f_equal; ring). apply is_lim_seq_plus'; [apply Tr_lim; assumption|].
  replace 0 with (w * 0 * ((B - F w) / 2)) by ring. apply is_lim_seq_mult'; [|apply is_lim_seq_const]. apply is_lim_seq_mult'; [apply is_lim_seq_const|]. apply is_lim_seq_geom. rewrite Rabs_pos_eq; lra.
Qed.
