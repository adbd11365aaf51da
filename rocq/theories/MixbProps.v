(** C143: the Seebeck coefficient and the heat carried by the electrons of several bands. *)
From Coq Require Import Reals Lra List.
From Verif Require Import Py PyStr RUtil RombModel RombProps BandModel BandSpec BandProofs BandProps SpbModel MixbProofs.
Import ListNotations.
Local Open Scope R_scope.

Lemma band_K h m EF T i d n : fresh h m -> In (i, d) (m_items m) -> fetch_K (self_band (h i)) n (Some (seen h EF i d)) (Some T) = Ok (K_of h n i (seen h EF i d) T).
Proof. intros (_ & Hf) Hin. unfold fetch_K. cbn [self_band o_cache o_K]. rewrite (Hf i d Hin). reflexivity. Qed.
Lemma K0_positive h m EF T : fresh h m -> positive_bands h m T -> 0 < T -> forall i d, In (i, d) (m_items m) -> 0 < K_of h 0 i (seen h EF i d) T.
Proof.
  intros Hf Hp HT i d Hin. destruct (Hp i d Hin) as (idos & trs & hall & Hr & Pt). destruct (C63_single (h i) idos trs hall (seen h EF i d) T Hr (proj2 Hf i d Hin) Pt HT) as (c & _ & _ & _ & V & _ & _ & _ & P & _).
  unfold value in V. cbn [method] in V. rewrite (band_K h m EF T i d 0 Hf Hin) in V. cbn [rbind] in V. injection V as ->. exact P.
Qed.

(** C143: the conductivity-weighted mean *)
Theorem C143_mean :
  forall (h : heap) (m : multi) (EF T : R), fresh h m -> signs_ok h -> positive_bands h m T -> m_items m <> [] -> 0 < T ->
  exists (c s : nat -> R -> R) (C S : R),
    (forall i d, In (i, d) (m_items m) -> value (method (self_band (h i)) PC (Some (seen h EF i d)) (Some T)) (c i d) /\ 0 < c i d
       /\ value (method (self_band (h i)) PS (Some (seen h EF i d)) (Some T)) (s i d))
    /\ value (method (self_multi h m) PC (Some EF) (Some T)) C /\ value (method (self_multi h m) PS (Some EF) (Some T)) S
    /\ 0 < C /\ C = Sum m c /\ C * S = Sum m (fun i d => c i d * s i d)
    /\ forall lo hi, (forall i d, In (i, d) (m_items m) -> lo <= s i d <= hi) -> lo <= S <= hi.
Proof.
  intros h m EF T Hf Hs Hp Hne HT. pose proof (K0_positive h m EF T Hf Hp HT) as P. set (K n i d := K_of h n i (seen h EF i d) T).
  assert (PC0 : 0 < Sum m (K 0%nat)) by (apply sum_pos; [intros (i, d) Hin; apply P; exact Hin|exact Hne]).
  set (c := K 0%nat). set (s := fun i d => b_sign (h i) * S0 * K 1%nat i d / K 0%nat i d). set (C := Sum m c). set (S := 1 * S0 * Sum m (fun i d => b_sign (h i) ^ 1 * K 1%nat i d) / C).
  assert (E : C * S = Sum m (fun i d => c i d * s i d)).
  { unfold S. replace (C * (1 * S0 * Sum m (fun i d => b_sign (h i) ^ 1 * K 1%nat i d) / C)) with (S0 * Sum m (fun i d => b_sign (h i) ^ 1 * K 1%nat i d)) by (unfold C; field; unfold c; lra).
    unfold Sum. rewrite <- (sumR_scal S0). apply sumR_ext. intros (i, d) Hin. cbn [fst snd]. unfold s, c. pose proof (P i d Hin) as Pi. fold (K 0%nat i d) in Pi. cbn [pow]. field. lra. }
  exists c, s, C, S. split; [|split; [|split; [|split; [exact PC0|split; [reflexivity|split; [exact E|]]]]]].
  - intros i d Hin. unfold value. cbn [method]. rewrite !(fun n => band_K h m EF T i d n Hf Hin). split; [reflexivity|]. split; [apply P; exact Hin|reflexivity].
  - unfold value. cbn [method]. rewrite (fresh_K h m 0 EF T Hf Hs). cbn [rbind]. do 2 f_equal. apply sumR_ext. intros (i, d) Hin. cbn [fst snd pow]. unfold c, K. ring.
  - unfold value. cbn [method]. rewrite !(fun n => fresh_K h m n EF T Hf Hs). cbn [rbind self_multi o_sign]. do 2 f_equal. unfold S, Rdiv. f_equal. f_equal. apply sumR_ext. intros (i, d) Hin. cbn [fst snd pow]. unfold c, K. ring.
  - intros lo hi B. assert (CS : lo * C <= C * S <= hi * C).
    { rewrite E. unfold C, Sum. rewrite <- !sumR_scal. split; apply sum_le; intros (i, d) Hin; cbn [fst snd]; pose proof (P i d Hin) as Pi; fold (K 0%nat i d) in Pi; fold c in Pi; pose proof (B i d Hin); rewrite (Rmult_comm (c i d)); apply Rmult_le_compat_r; lra. }
    fold c C in PC0. split; apply Rmult_le_reg_l with C; lra.
Qed.

(** C143: the bands together carry at least the heat they carry apart, and the Lorenz number is at least the smallest of theirs *)
Theorem C143_heat :
  forall (h : heap) (m : multi) (EF T : R), fresh h m -> signs_ok h -> positive_bands h m T -> m_items m <> [] -> 0 < T ->
  exists (k l : nat -> R -> R) (CL L : R),
    (forall i d, In (i, d) (m_items m) -> value (method (self_band (h i)) PCL (Some (seen h EF i d)) (Some T)) (k i d) /\ value (method (self_band (h i)) PL (Some (seen h EF i d)) (Some T)) (l i d))
    /\ value (method (self_multi h m) PCL (Some EF) (Some T)) CL /\ value (method (self_multi h m) PL (Some EF) (Some T)) L
    /\ Sum m k <= CL
    /\ forall lo, (forall i d, In (i, d) (m_items m) -> lo <= l i d) -> lo <= L.
Proof.
  intros h m EF T Hf Hs Hp Hne HT. pose proof (K0_positive h m EF T Hf Hp HT) as P. set (K n i d := K_of h n i (seen h EF i d) T).
  assert (Q0 : 0 < Sum m (K 0%nat)) by (apply sum_pos; [intros (i, d) Hin; apply P; exact Hin|exact Hne]).
  set (p0 := Sum m (K 0%nat)) in *. set (p1 := Sum m (fun i d => b_sign (h i) ^ 1 * K 1%nat i d)). set (p2 := Sum m (K 2%nat)).
  set (q := fun i d => K 2%nat i d - K 1%nat i d ^ 2 / K 0%nat i d).
  assert (F0 : fetch_K (self_multi h m) 0 (Some EF) (Some T) = Ok p0) by (rewrite (fresh_K h m 0 EF T Hf Hs); f_equal; apply sumR_ext; intros (i, d) Hin; cbn [fst snd pow]; unfold K; ring).
  assert (F1 : fetch_K (self_multi h m) 1 (Some EF) (Some T) = Ok p1) by (rewrite (fresh_K h m 1 EF T Hf Hs); reflexivity).
  assert (F2 : fetch_K (self_multi h m) 2 (Some EF) (Some T) = Ok p2) by (rewrite (fresh_K h m 2 EF T Hf Hs); f_equal; apply sumR_ext; intros (i, d) Hin; cbn [fst snd pow]; unfold K; destruct (Hs i) as [E|E]; rewrite E; ring).
  assert (Low : Sum m q <= p2 - p1 ^ 2 / p0).
  { pose proof (sum_cauchy (fun id => K 0%nat (fst id) (snd id)) (fun id => b_sign (h (fst id)) ^ 1 * K 1%nat (fst id) (snd id)) (m_items m) (fun id Hin => P (fst id) (snd id) ltac:(destruct id; exact Hin)) Hne) as Ca.
    fold (Sum m (K 0%nat)) (Sum m (fun i d => b_sign (h i) ^ 1 * K 1%nat i d)) in Ca. change (p1 ^ 2 / p0 <= sumR (map (fun id => (b_sign (h (fst id)) ^ 1 * K 1%nat (fst id) (snd id)) ^ 2 / K 0%nat (fst id) (snd id)) (m_items m))) in Ca.
    assert (E : p2 = Sum m q + sumR (map (fun id => (b_sign (h (fst id)) ^ 1 * K 1%nat (fst id) (snd id)) ^ 2 / K 0%nat (fst id) (snd id)) (m_items m))).
    { unfold p2, Sum. rewrite <- sumR_plus. apply sumR_ext. intros (i, d) Hin. cbn [fst snd]. unfold q. destruct (Hs i) as [E|E]; rewrite E; unfold Rdiv; ring. }
    lra. }
  assert (G : 0 < 1e2 * kB * kB) by (unfold kB; lra). assert (G' : 0 < L0) by (unfold L0; lra).
  exists (fun i d => 1e2 * kB * kB * q i d), (fun i d => L0 * (K 2%nat i d / K 0%nat i d - (K 1%nat i d / K 0%nat i d) ^ 2)), (1e2 * kB * kB * (p2 - p1 ^ 2 / p0)), (L0 * (p2 / p0 - (p1 / p0) ^ 2)).
  split; [|split; [|split; [|split]]].
  - intros i d Hin. unfold value. cbn [method]. rewrite !(fun n => band_K h m EF T i d n Hf Hin). split; reflexivity.
  - unfold value. cbn [method]. rewrite F0, F1, F2. reflexivity.
  - unfold value. cbn [method]. rewrite F0, F1, F2. reflexivity.
  - unfold Sum. rewrite (sumR_scal (1e2 * kB * kB)). apply Rmult_le_compat_l; [lra|exact Low].
  - intros lo B. assert (W : lo / L0 * p0 <= p2 - p1 ^ 2 / p0).
    { eapply Rle_trans; [|exact Low]. unfold p0, Sum. rewrite <- sumR_scal. apply sum_le. intros (i, d) Hin. cbn [fst snd]. pose proof (P i d Hin) as Pi. fold (K 0%nat i d) in Pi. specialize (B i d Hin).
      replace (q i d) with (L0 * (K 2%nat i d / K 0%nat i d - (K 1%nat i d / K 0%nat i d) ^ 2) / L0 * K 0%nat i d) by (unfold q; field; split; lra).
      apply Rmult_le_compat_r; [lra|]. unfold Rdiv at 1 2. apply Rmult_le_compat_r; [left; apply Rinv_0_lt_compat; exact G'|exact B]. }
    replace (p2 / p0 - (p1 / p0) ^ 2) with ((p2 - p1 ^ 2 / p0) / p0) by (field; lra). replace lo with (L0 * (lo / L0)) by (field; lra). apply Rmult_le_compat_l; [lra|].
    apply Rmult_le_reg_r with p0; [exact Q0|]. replace ((p2 - p1 ^ 2 / p0) / p0 * p0) with (p2 - p1 ^ 2 / p0) by (field; lra). exact W.
Qed.

(** a parabolic conduction band and a linear valence band *)
Example C143_case : exists (h : heap) (m : multi), fresh h m /\ signs_ok h /\ positive_bands h m 300 /\ length (m_items m) = 2%nat.
Proof.
  exists (fun i => match i with O => {| b_raw := spectral (fun _ _ => 1) (spb_trs 1000) (fun _ _ => 1); b_sign := -1; b_cache := None |} | _ => {| b_raw := spectral (fun _ _ => 1) (lin_trs 500) (fun _ _ => 1); b_sign := 1; b_cache := None |} end).
  exists {| m_items := [(0%nat, 0); (1%nat, -1/10)]; m_cache := None |}. split; [split; [reflexivity|intros [|i] d _; reflexivity]|]. split; [intros [|i]; cbn; auto|]. split; [|reflexivity].
  intros [|i] d _; cbn [b_raw].
  - exists (fun _ _ => 1), (spb_trs 1000), (fun _ _ => 1). split; [reflexivity|]. intros E HE. unfold spb_trs. assert (0 < kB) by (unfold kB; lra). apply Rmult_lt_0_compat; [lra|]. apply Rinv_0_lt_compat. lra.
  - exists (fun _ _ => 1), (lin_trs 500), (fun _ _ => 1). split; [reflexivity|]. intros E HE. unfold lin_trs. lra.
Qed.
Print Assumptions C143_mean.
Print Assumptions C143_heat.
