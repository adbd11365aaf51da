(** C58, C59: the Fermi-Dirac quadrature behind every band model (src/teflow/bandlib.py:69-118). *)
From Coq Require Import Reals Lra.
From Coquelicot Require Import Coquelicot.
From Verif Require Import Py RUtil FuncModel RombModel RombProofs.
Local Open Scope R_scope.

(** ** C58 *)
Lemma kB_pos : 0 < kB. Proof. unfold kB. lra. Qed.
Lemma width_range EF T : 0 < width EF T < 1.
Proof.
  unfold width. set (z := exp _). assert (0 < z) by apply exp_pos. split; [apply Rdiv_lt_0_compat; lra|]. apply (Rmult_lt_reg_r (1 + z)); [lra|]. unfold Rdiv. rewrite Rmult_assoc, Rinv_l by lra. lra.
Qed.
Lemma tp_range EF T n i : (i <= 2 ^ n)%nat -> 0 <= tp EF T n i <= width EF T.
Proof.
  intros Hi. unfold tp, nbins. pose proof (width_range EF T) as (W & _). assert (N : 0 < INR (2 ^ n)) by (apply lt_0_INR, Nat.neq_0_lt_0, Nat.pow_nonzero; lia).
  apply le_INR in Hi. pose proof (pos_INR i). replace (INR i * (width EF T / INR (2 ^ n))) with (width EF T * (INR i / INR (2 ^ n))) by (field; lra).
  assert (0 <= INR i / INR (2 ^ n) <= 1).
  { split; [apply Rdiv_le_0_compat; lra|]. apply (Rmult_le_reg_r (INR (2 ^ n))); [lra|]. unfold Rdiv. rewrite Rmult_assoc, Rinv_l by lra. lra. }
  split; [apply Rmult_le_pos; lra|]. rewrite <- (Rmult_1_r (width EF T)) at 2. apply Rmult_le_compat_l; lra.
Qed.
Lemma tp_inner EF T n i : (0 < i < 2 ^ n)%nat -> 0 < tp EF T n i < width EF T.
Proof.
  intros Hi. unfold tp, nbins. pose proof (width_range EF T) as (W & _). assert (N : 0 < INR (2 ^ n)) by (apply lt_0_INR; lia).
  assert (I : 0 < INR i) by (apply lt_0_INR; lia). assert (J : INR i < INR (2 ^ n)) by (apply lt_INR; lia).
  replace (INR i * (width EF T / INR (2 ^ n))) with (width EF T * (INR i / INR (2 ^ n))) by (field; lra).
  assert (0 < INR i / INR (2 ^ n) < 1).
  { split; [apply Rdiv_lt_0_compat; lra|]. apply (Rmult_lt_reg_r (INR (2 ^ n))); [lra|]. unfold Rdiv. rewrite Rmult_assoc, Rinv_l by lra. lra. }
  split; [apply Rmult_lt_0_compat; lra|]. rewrite <- (Rmult_1_r (width EF T)) at 2. apply Rmult_lt_compat_l; lra.
Qed.
(** the node map: x(t) > -EF/kT exactly for t below the width *)
Lemma node_width EF T : node_x (width EF T) = - (EF / kT T).
Proof.
  unfold node_x, width. set (z := - (EF / kT T) / 3). pose proof (exp_pos z). replace (1 / (1 / (1 + exp z)) - 1) with (exp z) by (field; lra).
  rewrite ln_exp. unfold z. set (y := EF / kT T). lra.
Qed.
Lemma node_decreasing s t : 0 < s -> s < t -> t < 1 -> node_x t < node_x s.
Proof.
  intros Hs Hst Ht. unfold node_x. apply Rmult_lt_compat_l; [lra|]. apply ln_increasing.
  - apply Rlt_Rminus. apply (Rmult_lt_reg_r t); [lra|]. unfold Rdiv. rewrite Rmult_assoc, Rinv_l by lra. lra.
  - apply Rplus_lt_compat_r. unfold Rdiv. rewrite !Rmult_1_l. apply Rinv_lt_contravar; [apply Rmult_lt_0_compat; lra|exact Hst].
Qed.
Lemma weight0_nonneg t : 0 <= weight0 t.
Proof.
  unfold weight0. destruct (Req_dec ((t ^ 3 + (1 - t) ^ 3) ^ 2) 0) as [E|E].
  - rewrite E. unfold Rdiv. rewrite Rinv_0. lra.
  - apply Rdiv_le_0_compat; [apply Rmult_le_pos; [lra|apply pow2_ge_0]|]. destruct (pow2_ge_0 (t ^ 3 + (1 - t) ^ 3)) as [P|P]; [exact P|exfalso; apply E; symmetry; exact P].
Qed.
Lemma cubes_pos t : 0 <= t <= 1 -> 0 < t ^ 3 + (1 - t) ^ 3.
Proof. intros H. replace (t ^ 3 + (1 - t) ^ 3) with (3 * (t - 1/2) ^ 2 + 1/4) by field. pose proof (pow2_ge_0 (t - 1/2)). lra. Qed.
Lemma weight0_pos t : 0 < t < 1 -> 0 < weight0 t.
Proof.
  intros H. unfold weight0. pose proof (cubes_pos t ltac:(lra)). apply Rdiv_lt_0_compat; [|apply pow_lt; assumption].
  apply Rmult_lt_0_compat; [lra|]. apply pow_lt. apply Rmult_lt_0_compat; lra.
Qed.
Lemma energy_pos EF T i : 0 < T -> (i <= 64)%nat -> 0 < energy EF T 6 i.
Proof.
  intros HT Hi. unfold energy. assert (K : 0 < kT T) by (unfold kT; apply Rmult_lt_0_compat; [apply kB_pos|exact HT]).
  assert (X : - (EF / kT T) < xp EF T 6 i).
  { unfold xp, nbins. change (2 ^ 6)%nat with 64%nat. destruct (Nat.eqb_spec i 0) as [E|E]; [cbn [orb]; unfold eps; lra|]. destruct (Nat.eqb_spec i 64) as [E'|E']; [cbn [orb]; unfold eps; lra|].
    cbn [orb]. rewrite <- node_width. pose proof (tp_inner EF T 6 i ltac:(change (2 ^ 6)%nat with 64%nat; lia)) as (A & B). pose proof (width_range EF T). apply node_decreasing; lra. }
  apply (Rmult_lt_compat_l (kT T)) in X; [|exact K]. replace (kT T * - (EF / kT T)) with (- EF) in X by (field; lra). lra.
Qed.
Lemma energy_x EF T i : 0 < T -> (energy EF T 6 i - EF) / kT T = xp EF T 6 i.
Proof. intros HT. assert (K : 0 < kT T) by (unfold kT; apply Rmult_lt_0_compat; [apply kB_pos|exact HT]). unfold energy. field. lra. Qed.

Lemma five (d w f x t : R) : d * (w * (f * (x * t))) = w * t * d * (x * f).
Proof. ring. Qed.
Lemma dfx_sum func EF T k : 0 < T -> romb_dfx func EF T k 6
  = sumR (map (fun i => wR 6 i * weight0 (tp EF T 6 i) * (width EF T / INR (nbins 6)) * (((energy EF T 6 i - EF) / kT T) ^ k * func (energy EF T 6 i) T)) (seq 0 65)).
Proof.
  intros HT. unfold romb_dfx. rewrite romb_sum. assert (E65 : S (2 ^ 6) = 65%nat) by reflexivity. rewrite E65. clear E65. rewrite Rmult_comm.
  rewrite <- sumR_scal. f_equal. apply map_ext. intros i. unfold sample. rewrite (energy_x EF T i HT).
  apply five.
Qed.
Lemma cs2 {A} (f g : A -> R) l : (sumR (map (fun x => f x * g x) l)) ^ 2 <= sumR (map (fun x => f x ^ 2) l) * sumR (map (fun x => g x ^ 2) l).
Proof.
  pose proof (cauchy_schwarz f g l) as H. rewrite Rsqr_pow2 in H. rewrite (map_ext (fun x => (f x)²) (fun x => f x ^ 2)), (map_ext (fun x => (g x)²) (fun x => g x ^ 2)) in H by (intros; apply Rsqr_pow2). exact H.
Qed.
(** One fixed set of positive energies and non-negative weights serves every integrand and every power *)
Theorem C58_positive_sum :
  forall EF T : R, 0 < T ->
  exists nodes : list (R * R),
    Forall (fun n => 0 < fst n /\ 0 <= snd n) nodes /\ Exists (fun n => 0 < snd n) nodes
    /\ forall (func : R -> R -> R) (k : nat),
       romb_dfx func EF T k 6 = sumR (map (fun n => snd n * (((fst n - EF) / (kB * T)) ^ k * func (fst n) T)) nodes).
Proof.
  intros EF T HT. set (W := width EF T). pose proof (width_range EF T) as HW. fold W in HW.
  exists (map (fun i => (energy EF T 6 i, wR 6 i * weight0 (tp EF T 6 i) * (W / INR (nbins 6)))) (seq 0 65)).
  assert (N : 0 < INR (nbins 6)) by (apply lt_0_INR; unfold nbins; cbn; lia).
  assert (D : 0 < W / INR (nbins 6)) by (apply Rdiv_lt_0_compat; lra).
  split; [|split].
  - apply Forall_forall. intros n Hn. apply in_map_iff in Hn as (i & <- & Hi). apply in_seq in Hi. cbn [fst snd]. split; [apply energy_pos; [exact HT|lia]|].
    apply Rmult_le_pos; [|lra]. apply Rmult_le_pos; [|apply weight0_nonneg]. pose proof (weights_pos i ltac:(lia)). lra.
  - apply Exists_exists. exists (energy EF T 6 1, wR 6 1 * weight0 (tp EF T 6 1) * (W / INR (nbins 6))). split.
    + apply in_map_iff. exists 1%nat. split; [reflexivity|]. apply in_seq. lia.
    + cbn [snd]. apply Rmult_lt_0_compat; [|exact D]. apply Rmult_lt_0_compat; [pose proof (weights_pos 1 ltac:(lia)); lra|].
      apply weight0_pos. pose proof (tp_inner EF T 6 1 ltac:(cbn; lia)) as (A & B). fold W in B. lra.
  - intros func k. rewrite dfx_sum by exact HT. rewrite map_map. reflexivity.
Qed.
Print Assumptions C58_positive_sum.
Theorem C58_linear :
  forall (f g : R -> R -> R) (a EF T : R) (k : nat), 0 < T ->
  romb_dfx (fun E t => a * f E t + g E t) EF T k 6 = a * romb_dfx f EF T k 6 + romb_dfx g EF T k 6.
Proof.
  intros f g a EF T k HT. destruct (C58_positive_sum EF T HT) as (l & _ & _ & H). rewrite !H.
  rewrite <- sumR_scal, <- sumR_plus. f_equal. apply map_ext. intros n. ring.
Qed.
Print Assumptions C58_linear.
(** an integrand matters only at positive energies (relative to the band edge) *)
Theorem C58_only_positive_energies :
  forall (f g : R -> R -> R) (EF T : R) (k : nat), 0 < T -> (forall E, 0 < E -> f E T = g E T) ->
  romb_dfx f EF T k 6 = romb_dfx g EF T k 6.
Proof.
  intros f g EF T k HT Hfg. destruct (C58_positive_sum EF T HT) as (l & Hl & _ & H). rewrite !H. apply sumR_ext. intros n Hn.
  rewrite Forall_forall in Hl. destruct (Hl n Hn) as (A & _). rewrite Hfg by exact A. reflexivity.
Qed.
Print Assumptions C58_only_positive_energies.
Theorem C58_positive :
  forall (f : R -> R -> R) (EF T : R), 0 < T ->
  ((forall E, 0 < E -> 0 <= f E T) -> 0 <= romb_dfx f EF T 0 6 /\ 0 <= romb_dfx f EF T 2 6
      /\ (romb_dfx f EF T 1 6) ^ 2 <= romb_dfx f EF T 0 6 * romb_dfx f EF T 2 6)
  /\ ((forall E, 0 < E -> 0 < f E T) -> 0 < romb_dfx f EF T 0 6).
Proof.
  intros f EF T HT. destruct (C58_positive_sum EF T HT) as (l & Hl & He & H). rewrite !H. split.
  - intros Hf.
    assert (Hw : forall n, In n l -> 0 <= snd n * f (fst n) T).
    { intros n Hn. rewrite Forall_forall in Hl. destruct (Hl n Hn) as (A & B). apply Rmult_le_pos; [exact B|apply Hf; exact A]. }
    split; [|split].
    + apply sumR_nonneg. apply Forall_forall. intros x Hx. apply in_map_iff in Hx as (n & <- & Hn). cbn [pow]. specialize (Hw n Hn). lra.
    + apply sumR_nonneg. apply Forall_forall. intros x Hx. apply in_map_iff in Hx as (n & <- & Hn). specialize (Hw n Hn).
      replace (snd n * (((fst n - EF) / (kB * T)) ^ 2 * f (fst n) T)) with (((fst n - EF) / (kB * T)) ^ 2 * (snd n * f (fst n) T)) by ring.
      apply Rmult_le_pos; [apply pow2_ge_0|exact Hw].
    + pose proof (cs2 (fun n => sqrt (snd n * f (fst n) T)) (fun n => sqrt (snd n * f (fst n) T) * ((fst n - EF) / (kB * T))) l) as CS. cbv beta in CS.
      replace (map (fun n => snd n * (((fst n - EF) / (kB * T)) ^ 1 * f (fst n) T)) l)
        with (map (fun n => sqrt (snd n * f (fst n) T) * (sqrt (snd n * f (fst n) T) * ((fst n - EF) / (kB * T)))) l).
      2:{ apply map_ext_in. intros n Hn. rewrite <- Rmult_assoc, sqrt_sqrt by (apply Hw; exact Hn). ring. }
      replace (map (fun n => snd n * (((fst n - EF) / (kB * T)) ^ 0 * f (fst n) T)) l) with (map (fun n => sqrt (snd n * f (fst n) T) ^ 2) l).
      2:{ apply map_ext_in. intros n Hn. rewrite pow2_sqrt by (apply Hw; exact Hn). ring. }
      replace (map (fun n => snd n * (((fst n - EF) / (kB * T)) ^ 2 * f (fst n) T)) l) with (map (fun n => (sqrt (snd n * f (fst n) T) * ((fst n - EF) / (kB * T))) ^ 2) l).
      2:{ apply map_ext_in. intros n Hn. rewrite Rpow_mult_distr, pow2_sqrt by (apply Hw; exact Hn). ring. }
      exact CS.
  - intros Hf. apply Exists_exists in He as (m & Hm & Hpos).
    replace 0 with (sumR (map (fun _ : R * R => 0) l)) at 1 by (rewrite sumR_const; ring).
    apply sumR_lt.
    + intros n Hn. rewrite Forall_forall in Hl. destruct (Hl n Hn) as (A & B). cbn [pow]. rewrite Rmult_1_l. apply Rmult_le_pos; [exact B|]. apply Rlt_le, Hf, A.
    + exists m. split; [exact Hm|]. rewrite Forall_forall in Hl. destruct (Hl m Hm) as (A & _). cbn [pow]. rewrite Rmult_1_l. apply Rmult_lt_0_compat; [exact Hpos|apply Hf, A].
Qed.
Print Assumptions C58_positive.

(** ** C59: the substitution is the exact change of variables of the Fermi window *)
(** - df/dx, the window function *)
Definition window (x : R) : R := exp x / (1 + exp x) ^ 2.
Lemma window_is_derivative x : is_derive fermidirac x (- window x).
Proof.
  unfold fermidirac, expit, window. pose proof (exp_pos x). auto_derive.
  - rewrite Ropp_involutive. lra.
  - rewrite !Ropp_involutive. field. lra.
Qed.
Lemma node_exp t : 0 < t < 1 -> exp (node_x t) = ((1 - t) / t) ^ 3.
Proof.
  intros H. unfold node_x. replace (1 / t - 1) with ((1 - t) / t) by (field; lra). assert (P : 0 < (1 - t) / t) by (apply Rdiv_lt_0_compat; lra).
  replace (3 * ln ((1 - t) / t)) with (INR 3 * ln ((1 - t) / t)) by (simpl; ring). rewrite <- ln_pow by exact P. apply exp_ln. apply pow_lt. exact P.
Qed.
Lemma node_derive t : 0 < t < 1 -> is_derive node_x t (- (3 / (t * (1 - t)))).
Proof.
  intros H. unfold node_x. auto_derive.
  - split; [lra|]. split; [|exact I]. replace (1 * / t + - (1)) with ((1 - t) / t) by (field; lra). apply Rdiv_lt_0_compat; lra.
  - field. repeat split; lra.
Qed.
Lemma window_node t : 0 < t < 1 -> window (node_x t) * (3 / (t * (1 - t))) = weight0 t.
Proof.
  intros H. unfold window, weight0. rewrite node_exp by exact H. pose proof (cubes_pos t ltac:(lra)) as C.
  assert (D : 1 + ((1 - t) / t) ^ 3 = (t ^ 3 + (1 - t) ^ 3) / t ^ 3) by (field; lra). rewrite D. field. repeat split; lra.
Qed.
Theorem C59_weight_is_window :
  forall t : R, 0 < t < 1 -> is_derive (fun t => fermidirac (node_x t)) t (weight0 t).
Proof.
  intros t H. rewrite <- window_node by exact H. replace (window (node_x t) * (3 / (t * (1 - t)))) with (- (3 / (t * (1 - t))) * - window (node_x t)) by ring.
  apply (is_derive_comp fermidirac node_x t); [apply window_is_derivative|apply node_derive; exact H].
Qed.
Print Assumptions C59_weight_is_window.
Lemma window_cont x : continuous window x.
Proof.
  apply (ex_derive_continuous window x). unfold window. pose proof (exp_pos x). auto_derive. apply Rgt_not_eq. apply Rmult_lt_0_compat; [lra|]. apply Rmult_lt_0_compat; lra.
Qed.
Theorem C59_substitution :
  forall (g : R -> R) (k : nat) (a b : R), 0 < a -> a < b -> b < 1 -> (forall x, continuous g x) ->
  RInt (fun t => g (node_x t) * (node_x t ^ k * weight0 t)) a b
  = RInt (fun x => g x * (x ^ k * window x)) (node_x b) (node_x a).
Proof.
  intros g k a b Ha Hab Hb Hg. set (f := fun x => g x * (x ^ k * window x)).
  assert (Cf : forall x, continuous f x).
  { intros x. unfold f. apply (continuous_mult g (fun x => x ^ k * window x)); [apply Hg|]. apply (continuous_mult (fun x => x ^ k) window); [|apply window_cont].
    apply (ex_derive_continuous (fun x => x ^ k)). auto_derive. exact I. }
  pose proof (RInt_comp f node_x (fun t => - (3 / (t * (1 - t)))) a b) as S.
  assert (B : forall x, Rmin a b <= x <= Rmax a b -> 0 < x < 1) by (intros x; rewrite Rmin_left, Rmax_right by lra; lra).
  specialize (S ltac:(intros; apply Cf)).
  specialize (S ltac:(intros x Hx; apply B in Hx; split; [apply node_derive; exact Hx|]; apply (ex_derive_continuous (fun t => - (3 / (t * (1 - t))))); auto_derive; apply Rgt_not_eq, Rmult_lt_0_compat; lra)).
  rewrite <- (opp_RInt_swap f) ; [|apply ex_RInt_continuous; intros; apply Cf].
  rewrite <- S. rewrite <- RInt_opp.
  - apply RInt_ext. intros x Hx. rewrite Rmin_left, Rmax_right in Hx by lra. unfold opp, scal, mult, f; cbn. rewrite <- window_node by lra. unfold mult; cbn. ring.
  - apply ex_RInt_continuous. intros x Hx. apply B in Hx.
    apply (continuous_scal (fun t => - (3 / (t * (1 - t)))) (fun t => f (node_x t))).
    + apply (ex_derive_continuous (fun t => - (3 / (t * (1 - t))))). auto_derive. apply Rgt_not_eq, Rmult_lt_0_compat; lra.
    + apply continuous_comp; [|apply Cf]. apply (ex_derive_continuous node_x). eexists. apply node_derive. exact Hx.
Qed.
Print Assumptions C59_substitution.
(** the sampled interval (0, width) is exactly the energies above the band edge, decreasingly *)
Theorem C59_range :
  forall EF T t : R, 0 < T -> 0 < t < 1 ->
  (0 < kB * T * node_x t + EF <-> t < width EF T) /\ kB * T * node_x (width EF T) + EF = 0
  /\ (forall s, 0 < s -> s < t -> kB * T * node_x t + EF < kB * T * node_x s + EF).
Proof.
  intros EF T t HT Ht. pose proof (width_range EF T) as W. pose proof (node_width EF T) as NW.
  assert (K : 0 < kB * T) by (apply Rmult_lt_0_compat; [apply kB_pos|exact HT]).
  assert (Z : kB * T * node_x (width EF T) + EF = 0) by (rewrite NW; unfold kT; set (c := kB * T) in *; field; lra).
  split; [|split; [exact Z|]].
  - split; intros H.
    + destruct (Rlt_le_dec t (width EF T)) as [|Hle]; [assumption|exfalso]. destruct Hle as [Hlt|E].
      * pose proof (node_decreasing (width EF T) t ltac:(lra) Hlt ltac:(lra)) as N. apply (Rmult_lt_compat_l (kB * T)) in N; [lra|exact K].
      * rewrite <- E in H. lra.
    + pose proof (node_decreasing t (width EF T) ltac:(lra) H ltac:(lra)) as N. apply (Rmult_lt_compat_l (kB * T)) in N; [lra|exact K].
  - intros s Hs Hst. pose proof (node_decreasing s t Hs Hst ltac:(lra)) as N. apply (Rmult_lt_compat_l (kB * T)) in N; [lra|exact K].
Qed.
Print Assumptions C59_range.

(** non-vacuity *)
Example C58_case : 0 < romb_dfx (fun E _ => E) 0 300 0 6.
Proof. apply C58_positive; [lra|]. intros; assumption. Qed.
Example C59_case : weight0 (1/2) = 3 /\ is_derive (fun t => fermidirac (node_x t)) (1/2) 3.
Proof.
  assert (E : weight0 (1/2) = 3) by (unfold weight0; lra). split; [exact E|]. rewrite <- E. apply C59_weight_is_window. lra.
Qed.
