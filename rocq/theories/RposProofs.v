(** Romberg weights are positive at every order. *)
From Coq Require Import Reals Lra Lia.
From Coquelicot Require Import Coquelicot.
From Verif Require Import Py RUtil FuncModel RombModel RombProofs RombProps RconvProofs.
Local Open Scope R_scope.
Lemma rich_step old : forall p j m, (m < length old)%nat ->
  nth (S m) (richR p old j) 0 = nth m (richR p old j) 0 + (nth m (richR p old j) 0 - nth m old 0) / INR (4 ^ (j + m) - 1).
Proof.
  induction old as [|o old IH]; intros p j m Hm; [cbn in Hm; lia|]. rewrite richR_cons. destruct m as [|m].
  - cbn [nth]. rewrite Nat.add_0_r. destruct old; [rewrite richR_nil|rewrite richR_cons]; reflexivity.
  - change (nth (S (S m)) (p :: ?l) 0) with (nth (S m) l 0). change (nth (S m) (p :: ?l) 0) with (nth m l 0). change (nth (S m) (o :: old) 0) with (nth m old 0).
    rewrite IH by (cbn in Hm; lia). replace (S j + m)%nat with (j + S m)%nat by lia. reflexivity.
Qed.
Lemma tab_step T i m : (m <= i)%nat -> nth (S m) (tab T (S i)) 0 = nth m (tab T (S i)) 0 + (nth m (tab T (S i)) 0 - nth m (tab T i) 0) / INR (4 ^ S m - 1).
Proof. intros H. cbn [tab]. rewrite rich_step by (rewrite tab_len; lia). reflexivity. Qed.
Lemma tab_0 T i : nth 0 (tab T i) 0 = T i.
Proof. pose proof (tab_hd T i) as H. pose proof (tab_len T i) as L. destruct (tab T i); [discriminate|exact H]. Qed.
Fixpoint hi (m : nat) : R := match m with O => 1 | S m' => hi m' + hi m' / INR (4 ^ S m' - 1) end.
Fixpoint lo (m : nat) : R := match m with O => 1 | S m' => lo m' + (lo m' - 2 * hi m') / INR (4 ^ S m' - 1) end.
Lemma lo_hi m : 2 / 5 + 16 / 15 / 4 ^ S m <= lo (S m) /\ 0 < hi (S m) <= 3 / 2 - 8 / 15 / 4 ^ S m.
Proof.
  induction m as [|m (IL & IP & IH)].
  - cbn [lo hi]. rewrite c_val. cbn [pow]. lra.
  - change (lo (S (S m))) with (lo (S m) + (lo (S m) - 2 * hi (S m)) / INR (4 ^ S (S m) - 1)).
    change (hi (S (S m))) with (hi (S m) + hi (S m) / INR (4 ^ S (S m) - 1)).
    rewrite c_val. change (4 ^ S (S m)) with (4 * 4 ^ S m). assert (P : 4 <= 4 ^ S m).
    { change (4 ^ S m) with (4 * 4 ^ m). pose proof (pow_R1_Rle 4 m ltac:(lra)). lra. }
    set (q := 4 ^ S m) in *. set (h := hi (S m)) in *. set (l := lo (S m)) in *. clearbody q h l.
    assert (D : 0 < / (4 * q - 1)) by (apply Rinv_0_lt_compat; lra).
    assert (Q : 0 < / q) by (apply Rinv_0_lt_compat; lra).
    split; [|split].
    + apply Rle_trans with ((2 / 5 + 16 / 15 / q) * (1 + / (4 * q - 1)) - 2 * (3 / 2 - 8 / 15 / q) * / (4 * q - 1)).
      * apply Rminus_le_0.
        replace ((2 / 5 + 16 / 15 / q) * (1 + / (4 * q - 1)) - 2 * (3 / 2 - 8 / 15 / q) * / (4 * q - 1) - (2 / 5 + 16 / 15 / (4 * q)))
          with (((2 / 5 + 16 / 15 / q) * (4 * q) - 2 * (3 / 2 - 8 / 15 / q) - (2 / 5 + 4 / 15 / q) * (4 * q - 1)) / (4 * q - 1)) by (field; lra).
        apply Rdiv_le_0_compat; [|lra].
        replace ((2 / 5 + 16 / 15 / q) * (4 * q) - 2 * (3 / 2 - 8 / 15 / q) - (2 / 5 + 4 / 15 / q) * (4 * q - 1)) with (3/5 + 4/3 * / q) by (field; lra). lra.
      * replace (l + (l - 2 * h) / (4 * q - 1)) with (l * (1 + / (4 * q - 1)) - 2 * h * / (4 * q - 1)) by (field; lra).
        apply Rplus_le_compat; [apply Rmult_le_compat_r; lra|]. apply Ropp_le_contravar. apply Rmult_le_compat_r; lra.
    + unfold Rdiv. assert (0 < h * / (4 * q - 1)) by (apply Rmult_lt_0_compat; lra). lra.
    + apply Rle_trans with ((3 / 2 - 8 / 15 / q) * (1 + / (4 * q - 1))).
      * replace (h + h / (4 * q - 1)) with (h * (1 + / (4 * q - 1))) by (field; lra). apply Rmult_le_compat_r; lra.
      * apply Rminus_le_0. replace (3 / 2 - 8 / 15 / (4 * q) - (3 / 2 - 8 / 15 / q) * (1 + / (4 * q - 1))) with (((3 / 2 - 8 / 15 / (4 * q)) * (4 * q - 1) - (3 / 2 - 8 / 15 / q) * (4 * q)) / (4 * q - 1)) by (field; lra).
        apply Rdiv_le_0_compat; [|lra]. replace ((3 / 2 - 8 / 15 / (4 * q)) * (4 * q - 1) - (3 / 2 - 8 / 15 / q) * (4 * q)) with (1/10 + 2/15 * / q) by (field; lra). lra.
Qed.
Lemma lo_pos m : 0 < lo m.
Proof.
  destruct m as [|m]; [cbn; lra|]. destruct (lo_hi m) as (A & _). assert (0 < / 4 ^ S m) by (apply Rinv_0_lt_compat, pow_lt; lra). unfold Rdiv in A. lra.
Qed.
Lemma hi_pos m : 0 < hi m.
Proof. destruct m as [|m]; [cbn; lra|]. apply lo_hi. Qed.
(** a trapezoid column that is 0 up to level s and halves from there on *)
Lemma tab_bounds (T : nat -> R) (A : R) (s n : nat) : 0 < A -> (forall t, (t < s)%nat -> T t = 0) -> (forall t, (s <= t <= n)%nat -> T t = A / INR (2 ^ t)) ->
  forall m i, (m <= i <= n)%nat -> ((i < s)%nat -> nth m (tab T i) 0 = 0) /\ ((s <= i)%nat -> lo m * (A / INR (2 ^ i)) <= nth m (tab T i) 0 <= hi m * (A / INR (2 ^ i))).
Proof.
  intros HA H0 H1. induction m as [|m IH]; intros i Hi.
  - rewrite tab_0. split; intros H; [apply H0; exact H|]. rewrite H1 by lia. cbn [lo hi]. lra.
  - destruct i as [|i]; [lia|]. rewrite tab_step by lia. pose proof (c_pos m) as C. destruct (IH (S i) ltac:(lia)) as (Z & B). destruct (IH i ltac:(lia)) as (Z' & B').
    split; intros H.
    + rewrite Z, Z' by lia. unfold Rdiv. ring.
    + specialize (B H). assert (P : 0 < A / INR (2 ^ S i)) by (apply Rdiv_lt_0_compat; [exact HA|apply pow2_pos]).
      assert (O : 0 <= nth m (tab T i) 0 <= hi m * (2 * (A / INR (2 ^ S i)))).
      { pose proof (hi_pos m). pose proof (lo_pos m). destruct (Nat.lt_ge_cases i s) as [Hl|Hl].
        - rewrite Z' by exact Hl. split; [lra|]. apply Rmult_le_pos; lra.
        - specialize (B' Hl). rewrite pow2_S. pose proof (pow2_pos i). replace (2 * (A / (2 * INR (2 ^ i)))) with (A / INR (2 ^ i)) by (field; lra).
          assert (0 < A / INR (2 ^ i)) by (apply Rdiv_lt_0_compat; assumption). assert (0 < lo m * (A / INR (2 ^ i))) by (apply Rmult_lt_0_compat; assumption). lra. }
      cbn [lo hi]. set (c := INR (4 ^ S m - 1)) in *. set (x := nth m (tab T (S i)) 0) in *. set (o := nth m (tab T i) 0) in *. set (a := A / INR (2 ^ S i)) in *.
      assert (Ic : 0 < / c) by (apply Rinv_0_lt_compat; lra). unfold Rdiv.
      replace (x + (x - o) * / c) with (x * (1 + / c) - o * / c) by ring.
      replace ((lo m + (lo m - 2 * hi m) * / c) * a) with (lo m * a * (1 + / c) - hi m * (2 * a) * / c) by ring.
      replace ((hi m + hi m * / c) * a) with (hi m * a * (1 + / c) - 0 * / c) by ring.
      split; (apply Rplus_le_compat; [apply Rmult_le_compat_r; lra|apply Ropp_le_contravar, Rmult_le_compat_r; lra]).
Qed.
Lemma last_tab T n : last (tab T n) 0 = nth n (tab T n) 0.
Proof. rewrite last_nth, tab_len. f_equal. lia. Qed.

(** ** the weight of one sample *)
Definition at_i (i : nat) (x : R) : R := if Req_EM_T x (INR i) then 1 else 0.
Lemma at_i_1 i x : x = INR i -> at_i i x = 1.
Proof. intros E. unfold at_i. destruct (Req_EM_T x (INR i)); [reflexivity|contradiction]. Qed.
Lemma at_i_0 i x : x <> INR i -> at_i i x = 0.
Proof. intros E. unfold at_i. destruct (Req_EM_T x (INR i)); [contradiction|reflexivity]. Qed.
Lemma w_tab n i : wR n i = last (tab (Tr (at_i i) (INR (2 ^ n))) n) 0.
Proof.
  pose proof (pow2_pos n) as P. rewrite <- (romb_tab (at_i i) (INR (2 ^ n)) n (unitR i) P).
  - unfold wR, Rdiv. rewrite Rinv_r by lra. ring.
  - intros j Hj. replace (INR (2 ^ n) / INR (2 ^ n)) with 1 by (field; lra). rewrite Rmult_1_r. unfold unitR. destruct (Nat.eqb_spec i j) as [->|N].
    + symmetry. apply at_i_1. reflexivity.
    + symmetry. apply at_i_0. intros E. apply INR_eq in E. congruence.
Qed.
Lemma odd_node n t j : (t < n)%nat -> INR (2 * j + 1) * (INR (2 ^ n) / INR (2 ^ S t)) = INR ((2 * j + 1) * 2 ^ (n - S t)).
Proof.
  intros H. rewrite mult_INR. f_equal. replace (2 ^ n)%nat with (2 ^ (n - S t) * 2 ^ S t)%nat by (rewrite <- Nat.pow_add_r; f_equal; lia). rewrite mult_INR.
  pose proof (pow2_pos (S t)). field. lra.
Qed.
Lemma sumR_zero {B} (f : B -> R) l : (forall x, In x l -> f x = 0) -> sumR (map f l) = 0.
Proof. induction l as [|a l IH]; intros H; [reflexivity|]. cbn [map]. change (f a + sumR (map f l) = 0). rewrite H by (left; reflexivity). rewrite IH by (intros; apply H; right; assumption). ring. Qed.
Lemma odd_sum_0 n i t : (t < n)%nat -> (forall j, (j < 2 ^ t)%nat -> (2 * j + 1) * 2 ^ (n - S t) <> i)%nat -> odd_sum (at_i i) (INR (2 ^ n)) t = 0.
Proof.
  intros Ht H. unfold odd_sum. apply sumR_zero. intros j Hj. apply in_seq in Hj. rewrite odd_node by exact Ht. apply at_i_0. intros E. apply INR_eq in E. apply (H j); [lia|exact E].
Qed.
Lemma sumR_one (f : nat -> R) q : forall m b, (b <= q < b + m)%nat -> f q = 1 -> (forall j, j <> q -> f j = 0) -> sumR (map f (seq b m)) = 1.
Proof.
  induction m as [|m IH]; intros b Hq H1 H0; [lia|]. cbn [seq map]. change (f b + sumR (map f (seq (S b) m)) = 1). destruct (Nat.eq_dec b q) as [->|N].
  - rewrite H1, sumR_zero; [ring|]. intros x Hx. apply in_seq in Hx. apply H0. lia.
  - rewrite H0 by exact N. rewrite IH; [ring|lia|exact H1|exact H0].
Qed.
Lemma odd_sum_1 n q t : (t < n)%nat -> (q < 2 ^ t)%nat -> odd_sum (at_i ((2 * q + 1) * 2 ^ (n - S t))) (INR (2 ^ n)) t = 1.
Proof.
  intros Ht Hq. unfold odd_sum. assert (P : (2 ^ (n - S t) <> 0)%nat) by (apply Nat.pow_nonzero; lia). apply (sumR_one _ q); [lia| |].
  - rewrite odd_node by exact Ht. apply at_i_1. reflexivity.
  - intros j Hj. rewrite odd_node by exact Ht. apply at_i_0. intros E. apply INR_eq in E. apply Nat.mul_cancel_r in E; [lia|exact P].
Qed.
Lemma two_odd (k : nat) : (0 < k)%nat -> exists e q, (k = (2 * q + 1) * 2 ^ e)%nat.
Proof.
  induction k as [k IH] using (well_founded_induction Wf_nat.lt_wf). intros H. destruct (Nat.Even_or_Odd k) as [(m & E)|(m & E)].
  - destruct (IH m ltac:(lia) ltac:(lia)) as (e & q & D). exists (S e), q. rewrite E, D. cbn [Nat.pow]. lia.
  - exists 0%nat, m. cbn [Nat.pow]. lia.
Qed.
Lemma odd_even_ne a b e : ((2 * a + 1) <> (2 * b + 1) * 2 ^ S e)%nat.
Proof. cbn [Nat.pow]. intros H. replace ((2 * b + 1) * (2 ^ e + (2 ^ e + 0)))%nat with (2 * ((2 * b + 1) * 2 ^ e))%nat in H by lia. lia. Qed.
Lemma odd_unique a b : forall e f, ((2 * a + 1) * 2 ^ e = (2 * b + 1) * 2 ^ f)%nat -> e = f.
Proof.
  assert (G : forall a b e f, (e < f)%nat -> ((2 * a + 1) * 2 ^ e <> (2 * b + 1) * 2 ^ f)%nat).
  { clear. intros a b e f H E. replace f with (S (f - S e) + e)%nat in E by lia. rewrite Nat.pow_add_r, Nat.mul_assoc in E. apply Nat.mul_cancel_r in E; [|apply Nat.pow_nonzero; lia]. exact (odd_even_ne _ _ _ E). }
  intros e f E. destruct (Nat.lt_trichotomy e f) as [H|[H|H]]; [exfalso; exact (G _ _ _ _ H E)|exact H|exfalso; exact (G _ _ _ _ H (eq_sym E))].
Qed.
Lemma weight_lower n i : (i <= 2 ^ n)%nat -> exists A s, 0 < A /\ (s <= n)%nat /\ lo n * (A / INR (2 ^ n)) <= wR n i <= hi n * (A / INR (2 ^ n)) /\ INR (2 ^ n) / 2 <= A <= INR (2 ^ n).
Proof.
  intros Hi. pose proof (pow2_pos n) as P. rewrite w_tab, last_tab. set (G := at_i i). set (w := INR (2 ^ n)) in *. assert (P0 : (0 < 2 ^ n)%nat) by (apply INR_lt; exact P).
  destruct (Nat.eq_dec n 0) as [En|En].
  { exists (w / 2), 0%nat. subst n. cbn [tab nth Tr lo hi]. unfold w in *. cbn [Nat.pow INR] in *.
    assert (V : G 0 + G 1 = 1).
    { unfold G. destruct i as [|[|i]]; [rewrite (at_i_1 0 0), (at_i_0 0 1) by (cbn; lra)|rewrite (at_i_0 1 0), (at_i_1 1 1) by (cbn; lra)|lia]; ring. }
    rewrite V. repeat split; try lra; try lia. }
  destruct (Nat.eq_dec i 0) as [E0|E0]; [|destruct (Nat.eq_dec i (2 ^ n)) as [E1|E1]].
  3:{ destruct (two_odd i ltac:(lia)) as (e & q & D).
      assert (He : (e < n)%nat). { destruct (Nat.lt_ge_cases e n) as [|Hge]; [assumption|exfalso]. pose proof (Nat.pow_le_mono_r 2 n e ltac:(lia) Hge). nia. }
      set (s := (n - e)%nat). exists w, s.
      assert (Q : (q < 2 ^ (s - 1))%nat).
      { assert (Hn : (2 ^ n = 2 * 2 ^ (s - 1) * 2 ^ e)%nat) by (replace n with (S (s - 1) + e)%nat at 1 by (unfold s; lia); rewrite Nat.pow_add_r; cbn [Nat.pow]; lia).
        assert (Hlt : ((2 * q + 1) * 2 ^ e < 2 * 2 ^ (s - 1) * 2 ^ e)%nat) by lia. apply Nat.mul_lt_mono_pos_r in Hlt; [lia|]. apply Nat.neq_0_lt_0, Nat.pow_nonzero. lia. }
      assert (Os : odd_sum G w (s - 1) = 1). { unfold G, w. rewrite D. replace e with (n - S (s - 1))%nat at 1 by (unfold s; lia). apply odd_sum_1; [unfold s; lia|exact Q]. }
      assert (Oz : forall t, (t < n)%nat -> t <> (s - 1)%nat -> odd_sum G w t = 0).
      { intros t Ht Hne. apply odd_sum_0; [exact Ht|]. intros j _ E. rewrite D in E. apply odd_unique in E. unfold s in Hne. lia. }
      assert (T0 : forall t, (t < s)%nat -> Tr G w t = 0).
      { induction t as [|t IH]; intros Ht; cbn [Tr].
        - unfold G. rewrite !at_i_0; [unfold Rdiv; ring| |]; [unfold w; intros E; apply INR_eq in E; congruence|]. change 0 with (INR 0). intros E; apply INR_eq in E; congruence.
        - rewrite IH by lia. rewrite Oz by (unfold s in *; lia). unfold Rdiv. ring. }
      assert (T1 : forall t, (s <= t <= n)%nat -> Tr G w t = w / INR (2 ^ t)).
      { induction t as [|t IH]; intros Ht; [unfold s in Ht; lia|]. cbn [Tr]. pose proof (pow2_pos t). destruct (Nat.eq_dec (S t) s) as [Es|Es].
        - rewrite T0 by lia. replace t with (s - 1)%nat at 2 by lia. rewrite Os. unfold Rdiv. ring.
        - rewrite IH by lia. rewrite Oz by (unfold s in *; lia). rewrite pow2_S. field. lra. }
      split; [exact P|]. split; [unfold s; lia|]. split; [|lra]. apply (tab_bounds (Tr G w) w s n P T0 T1 n n); unfold s; lia. }
  all: exists (w / 2), 0%nat.
  all: assert (Oz : forall t, (t < n)%nat -> odd_sum G w t = 0) by
    (intros t Ht; apply odd_sum_0; [exact Ht|]; intros j Hj E; assert (Pt : (2 ^ (n - S t) <> 0)%nat) by (apply Nat.pow_nonzero; lia);
     assert (Hn : (2 ^ n = 2 * 2 ^ t * 2 ^ (n - S t))%nat) by (replace n with (S t + (n - S t))%nat at 1 by lia; rewrite Nat.pow_add_r; cbn [Nat.pow]; lia); nia).
  all: assert (T0 : Tr G w 0 = w / 2) by
    (cbn [Tr]; unfold G, w; rewrite ?E0, ?E1;
     first [rewrite (at_i_1 0 0), (at_i_0 0 (INR (2 ^ n))) by first [reflexivity|fold w; cbn [INR]; lra]; field
           |rewrite (at_i_0 (2 ^ n) 0), (at_i_1 (2 ^ n) (INR (2 ^ n))) by first [reflexivity|fold w; lra]; field]).
  all: assert (T1 : forall t, (0 <= t <= n)%nat -> Tr G w t = w / 2 / INR (2 ^ t)) by
    (induction t as [|t IH]; intros Ht; [rewrite T0; cbn [Nat.pow INR]; field|]; cbn [Tr]; rewrite IH by lia; rewrite Oz by lia; rewrite pow2_S; pose proof (pow2_pos t); field; lra).
  all: split; [lra|split; [lia|split; [|lra]]]; apply (tab_bounds (Tr G w) (w / 2) 0 n ltac:(lra) ltac:(intros; lia) T1 n n); lia.
Qed.
Lemma weight_bounds n i : (i <= 2 ^ n)%nat -> 1 / 5 < wR n i < 3 / 2.
Proof.
  intros Hi. destruct (weight_lower n i Hi) as (A & s & HA & _ & (L & U) & (B1 & B2)). pose proof (pow2_pos n) as P. set (w := INR (2 ^ n)) in *.
  assert (R1 : 1 / 2 <= A / w <= 1) by (split; [apply (Rle_div_r (1 / 2) A w); lra|apply (Rle_div_l A 1 w); lra]).
  assert (Lo : 2 / 5 < lo n /\ 0 < hi n < 3 / 2).
  { destruct n as [|n]; [cbn; lra|]. destruct (lo_hi n) as (X & Y & Z). assert (0 < / 4 ^ S n) by (apply Rinv_0_lt_compat, pow_lt; lra). unfold Rdiv in X, Z. lra. }
  split; [apply Rlt_le_trans with (lo n * (A / w)); [|exact L]|apply Rle_lt_trans with (hi n * (A / w)); [exact U|]].
  - apply Rlt_le_trans with (lo n * (1 / 2)); [lra|]. apply Rmult_le_compat_l; lra.
  - apply Rle_lt_trans with (hi n * 1); [|lra]. apply Rmult_le_compat_l; lra.
Qed.
