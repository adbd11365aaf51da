(** C58 at every order: the Fermi-Dirac quadrature (src/teflow/bandlib.py:69-118) for any number 2^ndiv of intervals. *)
From Coq Require Import Reals Lra Lia.
From Coquelicot Require Import Coquelicot.
From Verif Require Import Py RUtil FuncModel RombModel RombProofs RombProps RconvProofs RposProofs.
Local Open Scope R_scope.

Lemma energy_pos_n EF T n i : 0 < T -> (i <= 2 ^ n)%nat -> 0 < energy EF T n i.
Proof.
  intros HT Hi. unfold energy. assert (K : 0 < kT T) by (unfold kT; apply Rmult_lt_0_compat; [apply kB_pos|exact HT]).
  assert (X : - (EF / kT T) < xp EF T n i).
  { unfold xp, nbins. destruct (Nat.eqb_spec i 0) as [E|E]; [cbn [orb]; unfold eps; lra|]. destruct (Nat.eqb_spec i (2 ^ n)) as [E'|E']; [cbn [orb]; unfold eps; lra|].
    cbn [orb]. rewrite <- node_width. pose proof (tp_inner EF T n i ltac:(lia)) as (A & B). pose proof (width_range EF T). apply node_decreasing; lra. }
  apply (Rmult_lt_compat_l (kT T)) in X; [|exact K]. replace (kT T * - (EF / kT T)) with (- EF) in X by (field; lra). lra.
Qed.
Lemma energy_x_n EF T n i : 0 < T -> (energy EF T n i - EF) / kT T = xp EF T n i.
Proof. intros HT. assert (K : 0 < kT T) by (unfold kT; apply Rmult_lt_0_compat; [apply kB_pos|exact HT]). unfold energy. field. lra. Qed.
Lemma dfx_sum_n func EF T k n : 0 < T -> romb_dfx func EF T k n
  = sumR (map (fun i => wR n i * weight0 (tp EF T n i) * (width EF T / INR (nbins n)) * (((energy EF T n i - EF) / kT T) ^ k * func (energy EF T n i) T)) (seq 0 (S (2 ^ n)))).
Proof.
  intros HT. unfold romb_dfx. rewrite romb_sum. rewrite Rmult_comm.
  rewrite <- sumR_scal. f_equal. apply map_ext. intros i. unfold sample. rewrite (energy_x_n EF T n i HT).
  apply five.
Qed.
(** Whatever the order, one fixed list of 2^ndiv+1 positive energies with non-negative weights serves every integrand and
    every power *)
Theorem C58_every_order :
  forall (EF T : R) (ndiv : nat), 0 < T ->
  exists nodes : list (R * R),
    length nodes = S (2 ^ ndiv) /\ Forall (fun n => 0 < fst n /\ 0 <= snd n) nodes /\ Exists (fun n => 0 < snd n) nodes
    /\ forall (func : R -> R -> R) (k : nat),
       romb_dfx func EF T k ndiv = sumR (map (fun n => snd n * (((fst n - EF) / (kB * T)) ^ k * func (fst n) T)) nodes).
Proof.
  intros EF T ndiv HT. set (W := width EF T). pose proof (width_range EF T) as HW. fold W in HW.
  exists (map (fun i => (energy EF T ndiv i, wR ndiv i * weight0 (tp EF T ndiv i) * (W / INR (nbins ndiv)))) (seq 0 (S (2 ^ ndiv)))).
  assert (N : 0 < INR (nbins ndiv)) by apply pow2_pos.
  assert (D : 0 < W / INR (nbins ndiv)) by (apply Rdiv_lt_0_compat; lra).
  split; [|split; [|split]].
  - rewrite map_length, seq_length. reflexivity.
  - apply Forall_forall. intros n Hn. apply in_map_iff in Hn as (i & <- & Hi). apply in_seq in Hi. cbn [fst snd]. split; [apply energy_pos_n; [exact HT|lia]|].
    apply Rmult_le_pos; [|lra]. apply Rmult_le_pos; [|apply weight0_nonneg]. pose proof (weight_bounds ndiv i ltac:(lia)). lra.
  - apply Exists_exists. eexists. split.
    + apply in_map_iff. exists (2 ^ ndiv)%nat. split; [reflexivity|]. apply in_seq. lia.
    + cbn [snd]. apply Rmult_lt_0_compat; [|exact D]. apply Rmult_lt_0_compat; [pose proof (weight_bounds ndiv (2 ^ ndiv) ltac:(lia)); lra|].
      apply weight0_pos. unfold tp. fold (nbins ndiv). fold W. replace (INR (nbins ndiv) * (W / INR (nbins ndiv))) with W by (field; lra). exact HW.
  - intros func k. rewrite dfx_sum_n by exact HT. rewrite map_map. reflexivity.
Qed.
Print Assumptions C58_every_order.
Theorem C58_every_order_linear :
  forall (f g : R -> R -> R) (a EF T : R) (k ndiv : nat), 0 < T ->
  romb_dfx (fun E t => a * f E t + g E t) EF T k ndiv = a * romb_dfx f EF T k ndiv + romb_dfx g EF T k ndiv.
Proof.
  intros f g a EF T k ndiv HT. destruct (C58_every_order EF T ndiv HT) as (l & _ & _ & _ & H). rewrite !H.
  rewrite <- sumR_scal, <- sumR_plus. f_equal. apply map_ext. intros n. ring.
Qed.
Print Assumptions C58_every_order_linear.
Theorem C58_every_order_only_positive_energies :
  forall (f g : R -> R -> R) (EF T : R) (k ndiv : nat), 0 < T -> (forall E, 0 < E -> f E T = g E T) ->
  romb_dfx f EF T k ndiv = romb_dfx g EF T k ndiv.
Proof.
  intros f g EF T k ndiv HT Hfg. destruct (C58_every_order EF T ndiv HT) as (l & _ & Hl & _ & H). rewrite !H. apply sumR_ext. intros n Hn.
  rewrite Forall_forall in Hl. destruct (Hl n Hn) as (A & _). rewrite Hfg by exact A. reflexivity.
Qed.
Print Assumptions C58_every_order_only_positive_energies.
Theorem C58_every_order_positive :
  forall (f : R -> R -> R) (EF T : R) (ndiv : nat), 0 < T ->
  ((forall E, 0 < E -> 0 <= f E T) -> 0 <= romb_dfx f EF T 0 ndiv /\ 0 <= romb_dfx f EF T 2 ndiv
      /\ (romb_dfx f EF T 1 ndiv) ^ 2 <= romb_dfx f EF T 0 ndiv * romb_dfx f EF T 2 ndiv)
  /\ ((forall E, 0 < E -> 0 < f E T) -> 0 < romb_dfx f EF T 0 ndiv).
Proof.
  intros f EF T ndiv HT. destruct (C58_every_order EF T ndiv HT) as (l & _ & Hl & He & H). rewrite !H. split.
  - intros Hf.
    assert (Hw : forall n, In n l -> 0 <= snd n * f (fst n) T).
    { intros n Hn. rewrite Forall_forall in Hl. destruct (Hl n Hn) as (A & B). apply Rmult_le_pos; [exact B|apply Hf; exact A]. }
    split; [|split].
    + apply sumR_nonneg. apply Forall_forall. intros x Hx. apply in_map_iff in Hx as (n & <- & Hn). cbn [pow]. specialize (Hw n Hn). lra.
    + apply sumR_nonneg. apply Forall_forall. intros x Hx. apply in_map_iff in Hx as (n & <- & Hn). specialize (Hw n Hn).
      replace (snd n * (((fst n - EF) / (kB * T)) ^ 2 * f (fst n) T)) with (((fst n - EF) / (kB * T)) ^ 2 * (snd n * f (fst n) T)) by ring.
      apply Rmult_le_pos; [apply pow2_ge_0|exact Hw].
    + pose proof (cs2 (fun n => sqrt (snd n * f (fst n) T)) (fun n => sqrt (snd n * f (fst n) T) * ((fst n - EF) / (kB * T))) l) as CS. cbv beta in CS.
      replace (map (fun n => snd n * (((fst n - EF) / (kB * T)) ^ 1 * f (fst n) T)) l)
        with (map (fun n => sqrt (snd n * f (fst n) T) * (sqrt (snd n * f (fst n) T) * ((fst n - EF) / (kB * T)))) l).
      2:{ apply map_ext_in. intros n Hn. rewrite <- Rmult_assoc, sqrt_sqrt by (apply Hw; exact Hn). ring. }
      replace (map (fun n => snd n * (((fst n - EF) / (kB * T)) ^ 0 * f (fst n) T)) l) with (map (fun n => sqrt (snd n * f (fst n) T) ^ 2) l).
      2:{ apply map_ext_in. intros n Hn. rewrite pow2_sqrt by (apply Hw; exact Hn). ring. }
      replace (map (fun n => snd n * (((fst n - EF) / (kB * T)) ^ 2 * f (fst n) T)) l) with (map (fun n => (sqrt (snd n * f (fst n) T) * ((fst n - EF) / (kB * T))) ^ 2) l).
      2:{ apply map_ext_in. intros n Hn. rewrite Rpow_mult_distr, pow2_sqrt by (apply Hw; exact Hn). ring. }
      exact CS.
  - intros Hf. apply Exists_exists in He as (m & Hm & Hpos).
    replace 0 with (sumR (map (fun _ : R * R => 0) l)) at 1 by (rewrite sumR_const; ring).
    apply sumR_lt.
    + intros n Hn. rewrite Forall_forall in Hl. destruct (Hl n Hn) as (A & B). cbn [pow]. rewrite Rmult_1_l. apply Rmult_le_pos; [exact B|]. apply Rlt_le, Hf, A.
    + exists m. split; [exact Hm|]. rewrite Forall_forall in Hl. destruct (Hl m Hm) as (A & _). cbn [pow]. rewrite Rmult_1_l. apply Rmult_lt_0_compat; [exact Hpos|apply Hf, A].
Qed.
Print Assumptions C58_every_order_positive.
(** the weights scipy's rule gives to the samples (unit spacing) stay between 1/5 and 3/2 at every order *)
Theorem C58_romberg_weights :
  forall (k : nat) (y : nat -> R), (forall j, (j <= 2 ^ k)%nat -> 0 <= y j) ->
  1 / 5 * sumR (map y (seq 0 (S (2 ^ k)))) <= rombR y k <= 3 / 2 * sumR (map y (seq 0 (S (2 ^ k)))).
Proof.
  intros k y Hy. rewrite romb_sum, <- !sumR_scal.
  assert (G : forall l, (forall j, In j l -> (j <= 2 ^ k)%nat) -> sumR (map (fun x => 1 / 5 * y x) l) <= sumR (map (fun i => wR k i * y i) l) <= sumR (map (fun x => 3 / 2 * y x) l)).
  { induction l as [|a l IH]; intros Hl; [cbn; lra|]. cbn [map]. change (sumR (?u :: ?v)) with (u + sumR v).
    specialize (IH ltac:(intros; apply Hl; right; assumption)). pose proof (Hl a (or_introl eq_refl)) as Ha. pose proof (weight_bounds k a Ha) as B. specialize (Hy a Ha).
    assert (1 / 5 * y a <= wR k a * y a <= 3 / 2 * y a) by (split; apply Rmult_le_compat_r; lra). lra. }
  apply G. intros j Hj. apply in_seq in Hj. lia.
Qed.
Print Assumptions C58_romberg_weights.

(** non-vacuity *)
Example C58_case_every_order : 0 < romb_dfx (fun E _ => E) 0 300 0 0 /\ 0 < romb_dfx (fun E _ => E) 0 300 0 10.
Proof. split; apply C58_every_order_positive; try lra; intros; assumption. Qed.
