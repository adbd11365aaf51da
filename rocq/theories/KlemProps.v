(** C90-C92: the Klemens alloy model, the disorder parameters and the configurational entropy. *)
From Coq Require Import Reals Lra Lia.
From Verif Require Import Py RUtil ScatSpec ScatProps KlemModel KlemSpec KlemProofs DebyeProofs.
Local Open Scope R_scope.

(** *** C90 *)
(** in SI units (metres, metres per second, cubic metres) [u2] is the documented one *)
Theorem C90_documented : forall Kpure vs td G0 Va X, 0 < vs ->
  u2 Kpure vs td G0 Va X = doc_u2 Kpure (vs * 10 ^ 3) td G0 (Va * / 10 ^ 30) X.
Proof.
  intros K v td G V X Hv. unfold u2, doc_u2, c_hbar.
  assert (G2 : forall t h p, 0 < t -> 0 < h -> p * td * V / (2 * (h * t ^ 2) * v ^ 2) * K * G * X * (1 - X) =
    p * td * (V * / t ^ 30) / (2 * (h * / t ^ 34) * (v * t ^ 3) ^ 2) * K * G * (X * (1 - X))).
  { intros t h p Ht Hh. field. repeat split; apply Rgt_not_eq; try apply pow_lt; lra. }
  replace 105.4571817 with (1.054571817 * 10 ^ 2) by lra. apply G2; lra.
Qed.
Print Assumptions C90_documented.
Lemma atan_mvt a b : a < b -> exists c, a < c < b /\ atan b - atan a = (b - a) / (1 + c ^ 2).
Proof.
  intros H. destruct (MVT_cor2 atan (fun x => / (1 + x ^ 2)) a b H) as (c & E & Hc).
  - intros x _. apply derivable_pt_lim_atan.
  - exists c. split; [exact Hc|]. rewrite E. unfold Rdiv. ring.
Qed.
Lemma inv_sq_lt a b : 0 <= a < b -> / (1 + b ^ 2) < / (1 + a ^ 2).
Proof. intros H. apply Rinv_lt_contravar; [apply Rmult_lt_0_compat; nra|nra]. Qed.
Lemma atan_ratio_anti a b : 0 < a < b -> atan b / b < atan a / a.
Proof.
  intros H. destruct (atan_mvt 0 a) as (c & Hc & Ec); [lra|]. destruct (atan_mvt a b) as (e & He & Ee); [lra|]. rewrite atan_0 in Ec.
  assert (L := inv_sq_lt c e ltac:(lra)).
  assert (Ea : atan a = a * / (1 + c ^ 2)) by (unfold Rdiv in Ec; lra).
  assert (Eb : atan b = a * / (1 + c ^ 2) + (b - a) * / (1 + e ^ 2)) by (unfold Rdiv in Ee; lra).
  rewrite Ea. replace (a * / (1 + c ^ 2) / a) with (/ (1 + c ^ 2)) by (field; nra). apply Rmult_lt_reg_r with b; [lra|].
  replace (atan b / b * b) with (atan b) by (field; lra). rewrite Eb. nra.
Qed.
Lemma atan_lt_id a : 0 < a -> 0 < atan a < a.
Proof.
  intros H. split; [rewrite <- atan_0; apply atan_increasing; exact H|]. destruct (atan_mvt 0 a) as (c & Hc & Ec); [lra|]. rewrite atan_0 in Ec.
  assert (L := inv_sq_lt 0 c ltac:(lra)). replace (/ (1 + 0 ^ 2)) with 1 in L by field. unfold Rdiv in Ec. nra.
Qed.
Definition uu (x : R) : R := sqrt (Rmax x (/ 10 ^ 12)).
Lemma uu_pos x : 0 < uu x.
Proof. unfold uu. apply sqrt_lt_R0. apply Rlt_le_trans with (/ 10 ^ 12); [apply ip10|apply Rmax_r]. Qed.
Lemma kl_uu K v td G V X : klemens K v td G V X = K * (atan (uu (u2 K v td G V X)) / uu (u2 K v td G V X)).
Proof. unfold klemens, uu. cbv zeta. unfold Rdiv. ring. Qed.
Lemma uu_mono x y : x <= y -> uu x <= uu y.
Proof. intros H. apply sqrt_le_1_alt. apply Rle_max_compat_r. exact H. Qed.
Lemma uu_strict x y : x < y -> / 10 ^ 12 < y -> uu x < uu y.
Proof. intros H Hy. apply sqrt_lt_1_alt. split; [apply Rle_trans with (/ 10 ^ 12); [left; apply ip10|apply Rmax_r]|]. rewrite (Rmax_left y) by lra. apply Rmax_lub_lt; lra. Qed.
Lemma ratio_le a b : 0 < a <= b -> atan b / b <= atan a / a.
Proof. intros [H [L| ->]]; [left; apply atan_ratio_anti; lra|right; reflexivity]. Qed.

(** the alloy conducts worse than the pure crystal, whatever the composition; at most [Kpure * (pi/2) / u] *)
Theorem C90_below_pure : forall Kpure vs td G0 Va X, 0 < Kpure ->
  0 < klemens Kpure vs td G0 Va X < Kpure /\
  (/ 10 ^ 12 <= u2 Kpure vs td G0 Va X -> klemens Kpure vs td G0 Va X = Kpure * (atan (sqrt (u2 Kpure vs td G0 Va X)) / sqrt (u2 Kpure vs td G0 Va X)) /\
     klemens Kpure vs td G0 Va X < Kpure * (PI / 2) / sqrt (u2 Kpure vs td G0 Va X)).
Proof.
  intros K v td G V X HK. rewrite kl_uu. set (U := u2 K v td G V X). assert (P := uu_pos U). assert (A := atan_lt_id _ P). split; [split|].
  - apply Rmult_lt_0_compat; [exact HK|apply div_pp; lra].
  - rewrite <- (Rmult_1_r K) at 2. apply Rmult_lt_compat_l; [exact HK|]. apply Rmult_lt_reg_r with (uu U); [exact P|]. replace (atan (uu U) / uu U * uu U) with (atan (uu U)) by (field; lra). lra.
  - intros L. assert (E : uu U = sqrt U) by (unfold uu; rewrite Rmax_left by lra; reflexivity). rewrite E in *. split; [reflexivity|].
    unfold Rdiv. rewrite <- !Rmult_assoc. apply Rmult_lt_compat_r; [apply Rinv_0_lt_compat; exact P|]. assert (B := atan_bound (sqrt U)). nra.
Qed.
Print Assumptions C90_below_pure.
(** both ends of the composition range are equivalent, and outside the range the value is that of the ends *)
Theorem C90_symmetric : forall Kpure vs td G0 Va X, klemens Kpure vs td G0 Va (1 - X) = klemens Kpure vs td G0 Va X.
Proof. intros K v td G V X. rewrite !kl_uu. replace (u2 K v td G V (1 - X)) with (u2 K v td G V X); [reflexivity|]. unfold u2. cbv zeta. ring. Qed.
Print Assumptions C90_symmetric.
Lemma u2_form K v td G V X : u2 K v td G V X = PI * td * V / (2 * 105.4571817 * v ^ 2) * K * G * (X * (1 - X)).
Proof. unfold u2. cbv zeta. ring. Qed.
Lemma factor_pos K v td G V : 0 < K -> 0 < v -> 0 < td -> 0 < G -> 0 < V -> 0 < PI * td * V / (2 * 105.4571817 * v ^ 2) * K * G.
Proof.
  intros. apply Rmult_lt_0_compat; [|assumption]. apply Rmult_lt_0_compat; [|assumption]. apply div_pp; [|apply Rmult_lt_0_compat; [lra|apply pow_lt; assumption]].
  apply Rmult_lt_0_compat; [|assumption]. apply Rmult_lt_0_compat; [apply PI_RGT_0|assumption].
Qed.
Theorem C90_outside : forall Kpure vs td G0 Va X, 0 < Kpure -> 0 < vs -> 0 < td -> 0 < G0 -> 0 < Va -> X <= 0 \/ 1 <= X ->
  klemens Kpure vs td G0 Va X = klemens Kpure vs td G0 Va 0 /\ klemens Kpure vs td G0 Va 0 = Kpure * (atan (/ 10 ^ 6) / / 10 ^ 6).
Proof.
  intros K v td G V X HK Hv Htd HG HV HX. assert (P := factor_pos K v td G V HK Hv Htd HG HV).
  assert (E : forall Y, Y <= 0 \/ 1 <= Y -> uu (u2 K v td G V Y) = / 10 ^ 6).
  { intros Y HY. rewrite u2_form. unfold uu. rewrite Rmax_right.
    - replace (/ 10 ^ 12) with ((/ 10 ^ 6)²); [apply sqrt_Rsqr; left; apply ip10|]. unfold Rsqr. rewrite <- Rinv_mult. f_equal. ring.
    - apply Rle_trans with 0; [|left; apply ip10]. assert (Y * (1 - Y) <= 0) by (destruct HY; nra). nra. }
  rewrite !kl_uu, (E X HX), (E 0) by (left; lra). split; reflexivity.
Qed.
Print Assumptions C90_outside.
(** towards the middle of the range the conductivity never rises, and falls as soon as [u2] exceeds 1e-12; the same with growing disorder *)
Theorem C90_falls : forall Kpure vs td G0 Va X X', 0 < Kpure -> 0 < vs -> 0 < td -> 0 < G0 -> 0 < Va -> 0 <= X < X' -> X' <= 1 / 2 ->
  klemens Kpure vs td G0 Va X' <= klemens Kpure vs td G0 Va X /\
  (/ 10 ^ 12 < u2 Kpure vs td G0 Va X' -> klemens Kpure vs td G0 Va X' < klemens Kpure vs td G0 Va X).
Proof.
  intros K v td G V X X' HK Hv Htd HG HV HX HX'. assert (P := factor_pos K v td G V HK Hv Htd HG HV).
  assert (L : u2 K v td G V X < u2 K v td G V X') by (rewrite !u2_form; apply Rmult_lt_compat_l; [exact P|nra]).
  rewrite !kl_uu. split.
  - apply Rmult_le_compat_l; [lra|]. apply ratio_le. split; [apply uu_pos|apply uu_mono; lra].
  - intros H. apply Rmult_lt_compat_l; [lra|]. apply atan_ratio_anti. split; [apply uu_pos|apply uu_strict; lra].
Qed.
Print Assumptions C90_falls.
Theorem C90_disorder : forall Kpure vs td G0 G1 Va X, 0 < Kpure -> 0 < vs -> 0 < td -> 0 < G0 < G1 -> 0 < Va -> 0 < X < 1 ->
  klemens Kpure vs td G1 Va X <= klemens Kpure vs td G0 Va X /\
  (/ 10 ^ 12 < u2 Kpure vs td G1 Va X -> klemens Kpure vs td G1 Va X < klemens Kpure vs td G0 Va X).
Proof.
  intros K v td G0 G1 V X HK Hv Htd HG HV HX. assert (P := factor_pos K v td 1 V HK Hv Htd ltac:(lra) HV).
  assert (L : u2 K v td G0 V X < u2 K v td G1 V X).
  { rewrite !u2_form. set (f := PI * td * V / (2 * 105.4571817 * v ^ 2) * K) in *. assert (0 < f * (X * (1 - X))) by (apply Rmult_lt_0_compat; nra).
    replace (f * G0 * (X * (1 - X))) with (f * (X * (1 - X)) * G0) by ring. replace (f * G1 * (X * (1 - X))) with (f * (X * (1 - X)) * G1) by ring. apply Rmult_lt_compat_l; lra. }
  rewrite !kl_uu. split.
  - apply Rmult_le_compat_l; [lra|]. apply ratio_le. split; [apply uu_pos|apply uu_mono; lra].
  - intros H. apply Rmult_lt_compat_l; [lra|]. apply atan_ratio_anti. split; [apply uu_pos|apply uu_strict; lra].
Qed.
Print Assumptions C90_disorder.
(** the parameters of a real alloy meet the hypothesis that u2 exceeds 1e-12 *)
Example C90_case : / 10 ^ 12 < u2 10 2 200 (5 / 100) 30 (1 / 2).
Proof.
  rewrite u2_form. assert (P := PI2_1). assert (/ 10 ^ 12 < 1) by (rewrite <- Rinv_1; apply Rinv_lt_contravar; [rewrite Rmult_1_l; apply pow_lt; lra|]; apply Rlt_pow_R1; [lra|lia]).
  apply Rlt_trans with 1; [assumption|]. apply Rlt_le_trans with (PI * 200 * 30 / 1000 * 10 * (5 / 100) * (1 / 4)); [unfold PI2 in *; nra|].
  replace (2 * 105.4571817 * 2 ^ 2) with 843.6574536 by lra. unfold PI2 in *. nra.
Qed.

(** *** C91: disorder parameters *)
(** the documented formulas, the weights of the sublattices being the sums of their occupations *)
Theorem C91_documented : forall d alpha renorm (r : bool), d <> [] -> (forall s, In s d -> nearly1 (occ_total s)) ->
  (forall s, In s d -> wmean (with_mass s) <> 0) -> (r = true -> forall s, In s d -> wmean (with_rad s) <> 0) ->
  exists entropy,
  let gm := doc_Gamma (map (fun s => (occ_total s, wmean (with_mass s), spread (with_mass s))) d) in
  let gr := if r then doc_Gamma (map (fun s => (occ_total s, wmean (with_mass s), spread (with_rad s))) d) else 0 in
  fluctuation (occs d) (massesl d) (if r then radiil d else []) alpha renorm = Ok (gm + alpha * gr, gm, gr, entropy).
Proof.
  intros d alpha renorm r Hd Hc Hm Hr. exists (sc d). cbv zeta. fold (frad d r). rewrite fl_close by assumption. cbv zeta.
  assert (Em : gam occ_total s_mass d = doc_Gamma (map (fun s => (occ_total s, wmean (with_mass s), spread (with_mass s))) d)).
  { unfold gam. f_equal. apply map_ext_in. intros s Hs. f_equal. rewrite <- (disorder_row0 s_mass 0 s). apply disorder_row. apply Hm, Hs. }
  rewrite Em. destruct r; [|reflexivity].
  assert (Er : gam occ_total s_rad d = doc_Gamma (map (fun s => (occ_total s, wmean (with_mass s), spread (with_rad s))) d)).
  { unfold gam. f_equal. apply map_ext_in. intros s Hs. f_equal. rewrite <- (disorder_row0 s_rad 0 s). apply disorder_row. apply Hr; [reflexivity|exact Hs]. }
  rewrite Er. reflexivity.
Qed.
Print Assumptions C91_documented.
(** occupations that do not all sum to 1 (to about 1e-5) are divided by their sums, or refused *)
Theorem C91_renormalised : forall d alpha (r : bool), d <> [] -> ~ (forall s, In s d -> nearly1 (occ_total s)) -> (forall s, In s d -> occ_total s <> 0) ->
  fluctuation (occs d) (massesl d) (if r then radiil d else []) alpha false = Err ValueError /\
  fluctuation (occs d) (massesl d) (if r then radiil d else []) alpha true =
    fluctuation (occs (normalise d)) (massesl (normalise d)) (if r then radiil (normalise d) else []) alpha true /\
  (forall s, In s (normalise d) -> occ_total s = 1).
Proof.
  intros d alpha r Hd Hc Hs. fold (frad d r). fold (frad (normalise d) r). rewrite !fl_far by assumption. split; [reflexivity|]. split; [reflexivity|].
  intros s H. unfold normalise in H. apply in_map_iff in H. destruct H as (s0 & <- & H). unfold occ_total at 1. rewrite map_map. unfold s_occ at 1. cbn [fst].
  erewrite map_ext; [|intros p; unfold Rdiv; rewrite Rmult_comm; reflexivity]. rewrite sumR_scal. fold (occ_total s0). field. apply Hs, H.
Qed.
Print Assumptions C91_renormalised.
(** if they all do, they are used as they are *)
Theorem C91_used_as_given : forall d alpha renorm (r : bool), d <> [] -> (forall s, In s d -> nearly1 (occ_total s)) ->
  fluctuation (occs d) (massesl d) (if r then radiil d else []) alpha renorm = fluctuation (occs d) (massesl d) (if r then radiil d else []) alpha false /\
  exists v, fluctuation (occs d) (massesl d) (if r then radiil d else []) alpha renorm = Ok v.
Proof. intros d alpha renorm r Hd Hc. fold (frad d r). rewrite !fl_close by assumption. split; [reflexivity|]. eauto. Qed.
Print Assumptions C91_used_as_given.
(** every sublattice then weighs the same: multiplying the occupations of each sublattice by its number of sites changes nothing *)
Definition times (k : list species -> R) (d : list (list species)) : list (list species) := map (fun s => map (fun p => (k s * s_occ p, s_mass p, s_rad p)) s) d.
Lemma occ_times k s : occ_total (map (fun p => (k * s_occ p, s_mass p, s_rad p)) s) = k * occ_total s.
Proof. unfold occ_total. rewrite map_map. unfold s_occ at 1. cbn [fst]. apply sumR_scal. Qed.
Lemma normalise_times k d : (forall s, In s d -> k s <> 0 /\ occ_total s = 1) -> normalise (times k d) = d.
Proof.
  intros H. unfold normalise, times. rewrite map_map. transitivity (map (fun s : list species => s) d); [|apply map_id]. apply map_ext_in. intros s Hs. destruct (H s Hs) as (Hk & Ho).
  rewrite occ_times, Ho, map_map. transitivity (map (fun p : species => p) s); [|apply map_id]. apply map_ext. intros [[a b] c]. unfold s_occ, s_mass, s_rad. cbn [fst snd]. f_equal. f_equal. field. exact Hk.
Qed.
Theorem C91_multiplicities : forall d alpha (r : bool) k, d <> [] -> (forall s, In s d -> occ_total s = 1 /\ 0 < k s) -> (exists s, In s d /\ ~ nearly1 (k s)) ->
  fluctuation (occs (times k d)) (massesl (times k d)) (if r then radiil (times k d) else []) alpha true =
  fluctuation (occs d) (massesl d) (if r then radiil d else []) alpha true.
Proof.
  intros d alpha r k Hd H (s0 & Hs0 & F). fold (frad d r). fold (frad (times k d) r).
  assert (Hin : forall s, In s (times k d) -> exists t, In t d /\ occ_total s = k t).
  { intros s Hs. unfold times in Hs. apply in_map_iff in Hs. destruct Hs as (t & <- & Ht). exists t. split; [exact Ht|]. rewrite occ_times, (proj1 (H t Ht)). ring. }
  rewrite fl_far.
  - rewrite normalise_times; [reflexivity|]. intros s Hs. destruct (H s Hs). split; [lra|assumption].
  - destruct d; [congruence|discriminate].
  - intros A. apply F. specialize (A (map (fun p => (k s0 * s_occ p, s_mass p, s_rad p)) s0)). rewrite occ_times, (proj1 (H s0 Hs0)), Rmult_1_r in A. apply A. unfold times. apply (in_map (fun s => map (fun p => (k s * s_occ p, s_mass p, s_rad p)) s)). exact Hs0.
  - intros s Hs. destruct (Hin s Hs) as (t & Ht & ->). destruct (H t Ht). lra.
Qed.
Print Assumptions C91_multiplicities.

(** occupations that sum to 1 exactly, non-negative, and positive masses *)
Definition proper (d : list (list species)) : Prop :=
  d <> [] /\ (forall s, In s d -> occ_total s = 1) /\ (forall s p, In s d -> In p s -> 0 <= s_occ p /\ 0 < s_mass p).
Lemma near1_1 : nearly1 1.
Proof. unfold nearly1. rewrite Rminus_eq_0, Rabs_R0. assert (A := ip10 8). assert (B := ip10 5). lra. Qed.
Lemma some_occ s : occ_total s = 1 -> (forall p, In p s -> 0 <= s_occ p) -> exists p, In p s /\ 0 < s_occ p.
Proof.
  unfold occ_total. induction s as [|p s IH]; cbn [map sumR]; intros E H; [lra|]. destruct (Rlt_le_dec 0 (s_occ p)); [exists p; split; [left; reflexivity|assumption]|].
  destruct IH as (q & Hq & L); [|intros q Hq; apply H; right; exact Hq|exists q; split; [right; exact Hq|exact L]]. assert (A := H p (or_introl eq_refl)). lra.
Qed.
Lemma wm_pos d s : proper d -> In s d -> 0 < wmean (with_mass s).
Proof.
  intros (_ & Ho & Hp) Hs. destruct (some_occ s (Ho s Hs)) as (p & Hq & L); [intros p Hp'; apply (Hp s p Hs Hp')|].
  unfold wmean, with_mass. rewrite map_map. cbn [fst snd]. assert (Hp' := fun q => Hp s q Hs). clear - Hq L Hp'.
  rewrite <- (Rmult_0_r 0). replace (0 * 0) with (sumR (map (fun _ : species => 0) s)) by (rewrite sumR_const; ring). apply sumR_lt.
  - intros x Hx. destruct (Hp' x Hx). apply Rmult_le_pos; lra.
  - exists p. split; [exact Hq|]. destruct (Hp' p Hq). apply Rmult_lt_0_compat; lra.
Qed.
Lemma sum_ones {X} (f : X -> R) (d : list X) : (forall s, In s d -> f s = 1) -> sumR (map f d) = INR (List.length d).
Proof. intros H. rewrite (sumR_ext f (fun _ => 1) d H), sumR_const. ring. Qed.
(** with exact sums: the mean over the sublattices of [(M_i/M)^2 Gamma_i], M the mean of the M_i *)
Definition eqGamma (h : list species -> R) (d : list (list species)) : R :=
  let M := sumR (map (fun s => wmean (with_mass s)) d) / INR (List.length d) in
  sumR (map (fun s => (wmean (with_mass s) / M) ^ 2 * h s) d) / INR (List.length d).
Lemma doc_eq h d : (forall s, In s d -> occ_total s = 1) -> doc_Gamma (map (fun s => (occ_total s, wmean (with_mass s), h s)) d) = eqGamma h d.
Proof.
  intros H. unfold doc_Gamma, eqGamma. rewrite !map_map. cbn [fst snd]. rewrite (sum_ones (fun s => occ_total s) d H). cbv zeta. set (n := INR _).
  assert (E1 : sumR (map (fun s => occ_total s * wmean (with_mass s)) d) = sumR (map (fun s => wmean (with_mass s)) d)) by (apply sumR_ext; intros s Hs; rewrite (H s Hs); ring).
  rewrite E1. f_equal. apply sumR_ext. intros s Hs. rewrite (H s Hs). ring.
Qed.
Lemma proper_fl d alpha renorm : proper d ->
  exists e, fluctuation (occs d) (massesl d) [] alpha renorm = Ok (eqGamma (fun s => spread (with_mass s)) d + alpha * 0, eqGamma (fun s => spread (with_mass s)) d, 0, e).
Proof.
  intros P. assert (Q := P). destruct Q as (Hd & Ho & Hp). destruct (C91_documented d alpha renorm false Hd) as (e & E).
  - intros s Hs. rewrite (Ho s Hs). apply near1_1.
  - intros s Hs. apply Rgt_not_eq. apply (wm_pos d s P Hs).
  - discriminate.
  - exists e. cbv zeta in E. rewrite E. rewrite !doc_eq by exact Ho. reflexivity.
Qed.
Lemma spread_nonneg s : (forall p, In p s -> 0 <= s_occ p) -> 0 <= spread (with_mass s).
Proof.
  intros H. unfold spread. set (w := wmean (with_mass s)). clearbody w. unfold with_mass. rewrite map_map. cbn [fst snd]. apply sumR_nonneg. apply Forall_map, Forall_forall. intros p Hp. apply Rmult_le_pos; [apply H, Hp|apply pow2_ge_0].
Qed.
Lemma spread_zero s : (forall p, In p s -> 0 <= s_occ p) -> wmean (with_mass s) <> 0 ->
  (spread (with_mass s) = 0 <-> forall p, In p s -> 0 < s_occ p -> s_mass p = wmean (with_mass s)).
Proof.
  intros H Hw. unfold spread. set (w := wmean (with_mass s)) in *. clearbody w. unfold with_mass. rewrite map_map. cbn [fst snd]. split.
  - intros E p Hp Lp. apply sumR_zero in E.
    + rewrite Forall_map, Forall_forall in E. specialize (E p Hp). cbn beta in E. assert (X : ((s_mass p - w) / w) ^ 2 = 0) by (apply Rmult_integral in E; destruct E; [lra|assumption]).
      assert (Y : (s_mass p - w) / w = 0) by (apply Rmult_integral in X; destruct X as [X|X]; [exact X|apply Rmult_integral in X; destruct X as [X|X]; [exact X|lra]]).
      assert (Z : s_mass p - w = (s_mass p - w) / w * w) by (field; exact Hw). rewrite Y in Z. lra.
    + apply Forall_map, Forall_forall. intros q Hq. apply Rmult_le_pos; [apply H, Hq|apply pow2_ge_0].
  - intros E. transitivity (sumR (map (fun _ : species => 0) s)); [|rewrite sumR_const; ring]. apply sumR_ext. intros p Hp. destruct (H p Hp) as [L|L]; [rewrite (E p Hp L); unfold Rdiv; ring|rewrite <- L; ring].
Qed.
Lemma const_mean s v : occ_total s = 1 -> (forall p, In p s -> 0 <= s_occ p) -> (forall p, In p s -> 0 < s_occ p -> s_mass p = v) -> wmean (with_mass s) = v.
Proof.
  intros Ho H E. unfold wmean, with_mass. rewrite map_map. cbn [fst snd]. transitivity (sumR (map (fun p => v * s_occ p) s)).
  - apply sumR_ext. intros p Hp. destruct (H p Hp) as [L|L]; [rewrite (E p Hp L); ring|rewrite <- L; ring].
  - rewrite sumR_scal. fold (occ_total s). rewrite Ho. ring.
Qed.
(** the mass disorder is never negative and vanishes exactly if no sublattice is occupied by species of different mass *)
Theorem C91_mass_disorder : forall d alpha renorm, proper d -> exists gm e,
  fluctuation (occs d) (massesl d) [] alpha renorm = Ok (gm, gm, 0, e) /\ 0 <= gm /\
  (gm = 0 <-> forall s p q, In s d -> In p s -> In q s -> 0 < s_occ p -> 0 < s_occ q -> s_mass p = s_mass q).
Proof.
  intros d alpha renorm P. destruct (proper_fl d alpha renorm P) as (e & E). exists (eqGamma (fun s => spread (with_mass s)) d), e.
  split; [rewrite E; do 4 f_equal; ring|]. clear E e. assert (Q := P). destruct Q as (Hd & Ho & Hp).
  assert (Hn : 0 < INR (List.length d)) by (apply lt_0_INR; destruct d; [congruence|cbn; lia]).
  assert (HM : 0 < sumR (map (fun s => wmean (with_mass s)) d)).
  { destruct d as [|s0 d0]; [congruence|]. cbn [map sumR]. assert (A := wm_pos _ s0 P (or_introl eq_refl)).
    assert (B : 0 <= sumR (map (fun s => wmean (with_mass s)) d0)) by (apply sumR_nonneg, Forall_map, Forall_forall; intros s Hs; left; apply (wm_pos _ s P); right; exact Hs). lra. }
  unfold eqGamma. cbv zeta. set (M := sumR (map (fun s => wmean (with_mass s)) d) / INR (List.length d)). assert (PM : 0 < M) by (apply div_pp; assumption). clearbody M.
  assert (Nn : Forall (fun x => 0 <= x) (map (fun s => (wmean (with_mass s) / M) ^ 2 * spread (with_mass s)) d)).
  { apply Forall_map, Forall_forall. intros s Hs. apply Rmult_le_pos; [apply pow2_ge_0|]. apply spread_nonneg. intros p Hp'. apply (Hp s p Hs Hp'). }
  split; [apply Rmult_le_pos; [apply sumR_nonneg; exact Nn|left; apply Rinv_0_lt_compat; exact Hn]|].
  assert (Z : forall s, In s d -> spread (with_mass s) = 0 <-> (forall p, In p s -> 0 < s_occ p -> s_mass p = wmean (with_mass s))).
  { intros s Hs. apply spread_zero; [intros p Hp'; apply (Hp s p Hs Hp')|apply Rgt_not_eq; apply (wm_pos d s P Hs)]. }
  split.
  - intros E s p q Hs Hp' Hq Lp Lq. assert (E' : sumR (map (fun s => (wmean (with_mass s) / M) ^ 2 * spread (with_mass s)) d) = 0) by (unfold Rdiv in E at 1; apply Rmult_integral in E; destruct E as [E|E]; [exact E|exfalso; apply (Rinv_neq_0_compat (INR (List.length d))); lra]).
    apply (sumR_zero _ Nn) in E'. rewrite Forall_map, Forall_forall in E'. specialize (E' s Hs). cbn beta in E'.
    assert (W : 0 < (wmean (with_mass s) / M) ^ 2) by (apply pow_lt, div_pp; [apply (wm_pos d s P Hs)|exact PM]). assert (S0 : spread (with_mass s) = 0) by (apply Rmult_integral in E'; destruct E'; [lra|assumption]).
    apply (proj1 (Z s Hs)) with (p := p) in S0 as S1; [|assumption|assumption]. apply (proj1 (Z s Hs)) with (p := q) in S0; [|assumption|assumption]. congruence.
  - intros A. transitivity (0 / INR (List.length d)); [|unfold Rdiv; ring]. f_equal. transitivity (sumR (map (fun _ : list species => 0) d)); [|rewrite sumR_const; ring].
    apply sumR_ext. intros s Hs. assert (Hoc : forall p, In p s -> 0 <= s_occ p) by (intros p Hp'; apply (Hp s p Hs Hp')). destruct (some_occ s (Ho s Hs) Hoc) as (q & Hq & Lq).
    assert (E : wmean (with_mass s) = s_mass q) by (apply const_mean; [apply Ho, Hs|exact Hoc|intros p Hp' Lp; apply (A s); assumption]).
    rewrite (proj2 (Z s Hs)); [ring|]. intros p Hp' Lp. rewrite E. apply (A s); assumption.
Qed.
Print Assumptions C91_mass_disorder.
(** only the ratios of the masses matter *)
Definition heavier (k : R) (d : list (list species)) : list (list species) := map (map (fun p => (s_occ p, k * s_mass p, s_rad p))) d.
Lemma wm_heavier k s : wmean (with_mass (map (fun p => (s_occ p, k * s_mass p, s_rad p)) s)) = k * wmean (with_mass s).
Proof. unfold wmean, with_mass. rewrite !map_map. unfold s_occ, s_mass. cbn [fst snd]. rewrite <- sumR_scal. apply sumR_ext. intros p _. ring. Qed.
Lemma spread_heavier k s : k <> 0 -> wmean (with_mass s) <> 0 -> spread (with_mass (map (fun p => (s_occ p, k * s_mass p, s_rad p)) s)) = spread (with_mass s).
Proof.
  intros Hk Hw. unfold spread. rewrite wm_heavier. set (w := wmean (with_mass s)) in *. clearbody w. unfold with_mass. rewrite !map_map. unfold s_occ, s_mass. cbn [fst snd]. apply sumR_ext. intros p _. field. split; assumption.
Qed.
Theorem C91_ratios : forall d alpha renorm k, proper d -> 0 < k ->
  fluctuation (occs (heavier k d)) (massesl (heavier k d)) [] alpha renorm = fluctuation (occs d) (massesl d) [] alpha renorm.
Proof.
  intros d alpha renorm k P Hk. assert (Q := P). destruct Q as (Hd & Ho & Hp).
  assert (Eo : forall s, occ_total (map (fun p => (s_occ p, k * s_mass p, s_rad p)) s) = occ_total s) by (intros s; unfold occ_total; rewrite map_map; reflexivity).
  assert (P' : forall s, In s (heavier k d) -> exists t, In t d /\ s = map (fun p => (s_occ p, k * s_mass p, s_rad p)) t) by (intros s Hs; unfold heavier in Hs; apply in_map_iff in Hs; destruct Hs as (t & <- & Ht); eauto).
  assert (Hd' : heavier k d <> []) by (destruct d; [congruence|discriminate]).
  assert (N1 : forall s, In s d -> nearly1 (occ_total s)) by (intros s Hs; rewrite (Ho s Hs); apply near1_1).
  assert (N2 : forall s, In s (heavier k d) -> nearly1 (occ_total s)) by (intros s Hs; destruct (P' s Hs) as (t & Ht & ->); rewrite Eo; apply N1, Ht).
  change (fluctuation (occs (heavier k d)) (massesl (heavier k d)) (frad (heavier k d) false) alpha renorm = fluctuation (occs d) (massesl d) (frad d false) alpha renorm).
  rewrite !fl_close by assumption. cbv zeta.
  assert (Es : sc (heavier k d) = sc d) by (unfold sc, heavier; rewrite map_map; f_equal; apply sumR_ext; intros s _; rewrite map_map; reflexivity). rewrite Es.
  assert (Eg : gam occ_total s_mass (heavier k d) = gam occ_total s_mass d); [|rewrite Eg; reflexivity].
  assert (G : forall d', (forall s, In s d' -> wmean (with_mass s) <> 0) -> gam occ_total s_mass d' = doc_Gamma (map (fun s => (occ_total s, wmean (with_mass s), spread (with_mass s))) d')).
  { intros d' H'. unfold gam. f_equal. apply map_ext_in. intros s Hs. f_equal. rewrite <- (disorder_row0 s_mass 0 s). apply disorder_row. apply H', Hs. }
  assert (W1 : forall s, In s d -> wmean (with_mass s) <> 0) by (intros s Hs; apply Rgt_not_eq; apply (wm_pos d s P Hs)).
  rewrite (G d W1), G.
  2:{ intros s Hs. destruct (P' s Hs) as (t & Ht & ->). rewrite wm_heavier. apply Rmult_integral_contrapositive. split; [lra|apply W1, Ht]. }
  rewrite !doc_eq by (try exact Ho; intros s Hs; destruct (P' s Hs) as (t & Ht & ->); rewrite Eo; apply Ho, Ht).
  unfold eqGamma, heavier. rewrite !map_length, !map_map.
  rewrite (sumR_ext (fun x => wmean (with_mass (map (fun p => (s_occ p, k * s_mass p, s_rad p)) x))) (fun x => k * wmean (with_mass x))) by (intros; apply wm_heavier). rewrite sumR_scal.
  set (S0 := sumR (map (fun s => wmean (with_mass s)) d)). assert (S0p : 0 < S0).
  { unfold S0. destruct d as [|s0 d0]; [congruence|]. cbn [map sumR]. assert (A := wm_pos _ s0 P (or_introl eq_refl)).
    assert (B : 0 <= sumR (map (fun s => wmean (with_mass s)) d0)) by (apply sumR_nonneg, Forall_map, Forall_forall; intros s Hs; left; apply (wm_pos _ s P); right; exact Hs). lra. }
  clearbody S0. assert (Hn : 0 < INR (List.length d)) by (apply lt_0_INR; destruct d; [congruence|cbn; lia]). set (n := INR _) in *. clearbody n.
  cbv zeta. f_equal. apply sumR_ext. intros s Hs. rewrite wm_heavier, spread_heavier by (try lra; apply W1, Hs). field. repeat split; lra.
Qed.
Print Assumptions C91_ratios.
(** a sublattice shared by two species: x(1-x)(a-b)^2/(mean mass)^2 *)
Theorem C91_binary : forall x a b ra rb alpha renorm, 0 <= x <= 1 -> 0 < a -> 0 < b ->
  exists e, let m := x * a + (1 - x) * b in let G := x * (1 - x) * (a - b) ^ 2 / m ^ 2 in
  let r := x * ra + (1 - x) * rb in let gr := x * (1 - x) * (ra - rb) ^ 2 / r ^ 2 in
  fluctuation [[x; 1 - x]] [[a; b]] [] alpha renorm = Ok (G, G, 0, e) /\
  (r <> 0 -> fluctuation [[x; 1 - x]] [[a; b]] [[ra; rb]] alpha renorm = Ok (G + alpha * gr, G, gr, e)).
Proof.
  intros x a b ra rb alpha renorm Hx Ha Hb. set (d := [[(x, a, ra); (1 - x, b, rb)]]).
  assert (Hm : 0 < x * a + (1 - x) * b) by nra.
  assert (O1 : forall s, In s d -> occ_total s = 1) by (intros s [<-|[]]; unfold occ_total, s_occ; cbn; ring).
  assert (N1 : forall s, In s d -> nearly1 (occ_total s)) by (intros s Hs; rewrite (O1 s Hs); apply near1_1).
  assert (Hd : d <> []) by discriminate.
  assert (Wm : wmean (with_mass [(x, a, ra); (1 - x, b, rb)]) = x * a + (1 - x) * b) by (unfold wmean, with_mass, s_occ, s_mass; cbn; ring).
  assert (Wr : wmean (with_rad [(x, a, ra); (1 - x, b, rb)]) = x * ra + (1 - x) * rb) by (unfold wmean, with_rad, s_occ, s_rad; cbn; ring).
  assert (Fm : forall h, eqGamma h d = h [(x, a, ra); (1 - x, b, rb)]).
  { intros h. unfold eqGamma, d. cbn [map sumR List.length INR]. rewrite Wm. field. lra. }
  exists (sc d). cbv zeta.
  set (m := x * a + (1 - x) * b) in *. set (w := x * ra + (1 - x) * rb) in *.
  assert (Sm : spread (with_mass [(x, a, ra); (1 - x, b, rb)]) = x * (1 - x) * (a - b) ^ 2 / m ^ 2).
  { unfold spread. rewrite Wm. unfold with_mass, s_occ, s_mass. cbn [map fst snd sumR]. fold m. unfold Rdiv. rewrite !Rpow_mult_distr, <- pow_inv. unfold m. ring. }
  assert (Hw : forall s, In s d -> wmean (with_mass s) <> 0) by (intros s [<-|[]]; rewrite Wm; lra).
  assert (A := fl_close d alpha renorm false Hd N1). assert (B := fl_close d alpha renorm true Hd N1). cbv zeta in A, B.
  destruct (C91_documented d alpha renorm false Hd N1 Hw ltac:(discriminate)) as (e & E). cbv zeta in E. fold (frad d false) in E. rewrite A in E.
  rewrite !doc_eq, !Fm, Sm in E by exact O1.
  assert (E1 : gam occ_total s_mass d = x * (1 - x) * (a - b) ^ 2 / m ^ 2) by congruence.
  split. { change (fluctuation (occs d) (massesl d) (frad d false) alpha renorm = Ok (x * (1 - x) * (a - b) ^ 2 / m ^ 2, x * (1 - x) * (a - b) ^ 2 / m ^ 2, 0, sc d)). rewrite A, E1. do 4 f_equal. ring. }
  intros C.
  destruct (C91_documented d alpha renorm true Hd N1 Hw) as (e' & E').
  { intros _ s [<-|[]]. rewrite Wr. exact C. }
  cbv zeta in E'. fold (frad d true) in E'. rewrite B in E'. rewrite !doc_eq, !Fm, Sm in E' by exact O1.
  assert (Sr : spread (with_rad [(x, a, ra); (1 - x, b, rb)]) = x * (1 - x) * (ra - rb) ^ 2 / w ^ 2).
  { unfold spread. rewrite Wr. unfold with_rad, s_occ, s_rad. cbn [map fst snd sumR]. fold w. unfold Rdiv. rewrite !Rpow_mult_distr, <- pow_inv. unfold w. ring. }
  rewrite Sr in E'. assert (E2 : gam occ_total s_rad d = x * (1 - x) * (ra - rb) ^ 2 / w ^ 2) by congruence.
  change (fluctuation (occs d) (massesl d) (frad d true) alpha renorm = Ok (x * (1 - x) * (a - b) ^ 2 / m ^ 2 + alpha * (x * (1 - x) * (ra - rb) ^ 2 / w ^ 2), x * (1 - x) * (a - b) ^ 2 / m ^ 2, x * (1 - x) * (ra - rb) ^ 2 / w ^ 2, sc d)).
  rewrite B, E1, E2. reflexivity.
Qed.
Print Assumptions C91_binary.
(** rows of masses (or radii) longer than every row of occupations are refused; missing values at the end of a row silently count as 1 *)
Lemma mapM_pad_err n v l m : In m l -> (n < List.length m)%nat -> mapM (pad n v) l = Err ValueError.
Proof.
  intros H L. induction l as [|x l IH]; [destruct H|]. cbn [mapM]. unfold pad at 1. destruct (n <? List.length x)%nat eqn:E; [reflexivity|]. cbv beta iota delta [rbind].
  destruct H as [->|H]; [apply Nat.ltb_ge in E; lia|]. rewrite (IH H). reflexivity.
Qed.
Lemma mapM_pad_cases n v l : (exists r, mapM (pad n v) l = Ok r) \/ mapM (pad n v) l = Err ValueError.
Proof.
  induction l as [|x l [(r & IH)|IH]]; [left; exists []; reflexivity| |]; cbn [mapM]; unfold pad at 1 3; destruct (n <? List.length x)%nat; try (right; reflexivity); cbv beta iota delta [rbind]; rewrite IH; [left; eauto|right; reflexivity].
Qed.
Lemma longer_than occ (m : list R) : (forall o, In o occ -> (List.length o < List.length m)%nat) -> occ <> [] -> (nmax occ < List.length m)%nat.
Proof. unfold nmax. induction occ as [|x l IH]; intros H E; [congruence|]. cbn. assert (A := H x (or_introl eq_refl)). destruct l as [|y l]; [cbn; lia|]. assert (B : (fold_right Nat.max 0 (map (List.length (A:=R)) (y :: l)) < List.length m)%nat) by (apply IH; [intros o Ho; apply H; right; exact Ho|discriminate]). cbn [map fold_right] in *. lia. Qed.
Theorem C91_refused : forall occ masses radii alpha renorm,
  occ = [] \/ (exists m, (In m masses \/ In m radii) /\ forall o, In o occ -> (List.length o < List.length m)%nat) ->
  fluctuation occ masses radii alpha renorm = Err ValueError.
Proof.
  intros occ masses radii alpha renorm [->|(m & Hm & L)]; [reflexivity|]. unfold fluctuation. destruct occ as [|o1 occ1]; [reflexivity|]. set (occ := o1 :: occ1) in *.
  assert (L' := longer_than occ m L ltac:(discriminate)). clearbody occ. destruct (mapM_pad_cases (nmax occ) 0 occ) as [(oc0 & E)|E]; rewrite E; cbv beta iota delta [rbind]; [|reflexivity].
  destruct (forallb close1 (map sumR oc0)); [|destruct renorm; [|reflexivity]].
  all: (destruct Hm as [Hm|Hm]; [rewrite (mapM_pad_err _ _ _ m Hm L'); reflexivity|];
    destruct (mapM_pad_cases (nmax occ) 1 masses) as [(ms & E')|E']; rewrite E'; [|reflexivity]; destruct radii as [|r0 rr]; [destruct Hm|]; rewrite (mapM_pad_err _ _ _ m Hm L'); reflexivity).
Qed.
Print Assumptions C91_refused.
Theorem C91_missing_mass : forall occ l1 m l2 radii alpha renorm o, In o occ -> (List.length m < List.length o)%nat ->
  fluctuation occ (l1 ++ m :: l2) radii alpha renorm = fluctuation occ (l1 ++ (m ++ [1]) :: l2) radii alpha renorm.
Proof.
  intros occ l1 m l2 radii alpha renorm o Ho L. unfold fluctuation. destruct occ as [|o1 occ1]; [destruct Ho|]. set (occ := o1 :: occ1) in *.
  assert (N := nmax_ge occ o Ho). clearbody occ.
  assert (E : mapM (pad (nmax occ) 1) (l1 ++ m :: l2) = mapM (pad (nmax occ) 1) (l1 ++ (m ++ [1]) :: l2)).
  { induction l1 as [|x l1 IH]; cbn [app mapM]; [|rewrite IH; reflexivity]. assert (P : pad (nmax occ) 1 m = pad (nmax occ) 1 (m ++ [1])); [|rewrite P; reflexivity].
    unfold pad. rewrite app_length. cbn [List.length]. replace (nmax occ <? List.length m)%nat with false by (symmetry; apply Nat.ltb_ge; lia). replace (nmax occ <? List.length m + 1)%nat with false by (symmetry; apply Nat.ltb_ge; lia).
    f_equal. rewrite <- app_assoc. f_equal. replace (nmax occ - List.length m)%nat with (S (nmax occ - (List.length m + 1)))%nat by lia. reflexivity. }
  rewrite E. reflexivity.
Qed.
Print Assumptions C91_missing_mass.
Example C91_case : proper [[(1 / 2, 100, 1); (1 / 2, 50, 2)]; [(1, 30, 1)]] /\ (forall s, In s [[(1 / 2, 100, 1); (1 / 2, 50, 2)]; [(1, 30, 1)]] -> wmean (with_rad s) <> 0).
Proof.
  split; [split; [discriminate|split]|].
  - intros s [<-|[<-|[]]]; unfold occ_total, s_occ; cbn; lra.
  - intros s p [<-|[<-|[]]]; [intros [<-|[<-|[]]]|intros [<-|[]]]; unfold s_occ, s_mass; cbn; lra.
  - intros s [<-|[<-|[]]]; unfold wmean, with_rad, s_occ, s_rad; cbn; lra.
Qed.
Example C91_case_far : ~ nearly1 3 /\ nearly1 (1 + / 10 ^ 6).
Proof.
  unfold nearly1. assert (A := ip10 8). assert (B : / 10 ^ 8 < 1) by (rewrite <- Rinv_1; apply Rinv_lt_contravar; [rewrite Rmult_1_l; apply pow_lt; lra|]; apply Rlt_pow_R1; [lra|lia]).
  assert (B' : / 10 ^ 5 < 1) by (rewrite <- Rinv_1; apply Rinv_lt_contravar; [rewrite Rmult_1_l; apply pow_lt; lra|]; apply Rlt_pow_R1; [lra|lia]). split.
  - rewrite Rabs_right by lra. lra.
  - replace (1 + / 10 ^ 6 - 1) with (/ 10 ^ 6) by ring. rewrite Rabs_right by (left; apply ip10). assert (/ 10 ^ 6 < / 10 ^ 5) by (apply Rinv_lt_contravar; [apply Rmult_lt_0_compat; apply pow_lt; lra|]; apply Rlt_pow; [lra|lia]). lra.
Qed.

(** *** C92: the configurational entropy *)
Definition ent (x : R) : R := x * ln (Rmax x (/ 10 ^ 12)).
Lemma eps12 : 0 < / 10 ^ 12 < 1.
Proof. split; [apply ip10|]. rewrite <- Rinv_1. apply Rinv_lt_contravar; [rewrite Rmult_1_l; apply pow_lt; lra|]. apply Rlt_pow_R1; [lra|lia]. Qed.
Lemma ent_nonpos x : 0 <= x <= 1 -> ent x <= 0 /\ (ent x = 0 <-> x = 0 \/ x = 1).
Proof.
  intros H. assert (E := eps12). unfold ent. set (m := Rmax x (/ 10 ^ 12)). assert (Pm : 0 < m <= 1) by (unfold m; split; [apply Rlt_le_trans with (/ 10 ^ 12); [lra|apply Rmax_r]|apply Rmax_lub; lra]).
  assert (L : ln m <= 0) by (rewrite <- ln_1; destruct (proj2 Pm) as [Q|Q]; [left; apply ln_increasing; lra|rewrite Q; right; reflexivity]).
  split; [nra|]. split.
  - intros Z. apply Rmult_integral in Z. destruct Z as [Z|Z]; [left; exact Z|right]. assert (M1 : m = 1) by (apply ln_inv; [lra|lra|rewrite ln_1; exact Z]). unfold m in M1. unfold Rmax in M1. destruct (Rle_dec x (/ 10 ^ 12)); lra.
  - intros [->| ->]; [ring|]. assert (M1 : m = 1) by (unfold m; apply Rmax_left; lra). rewrite M1, ln_1. ring.
Qed.
Lemma ent_gibbs x n : 0 <= x -> 0 < n -> - ent x <= x * ln n + (/ n - x).
Proof.
  intros H Hn. unfold ent. assert (In : 0 < / n) by (apply Rinv_0_lt_compat; exact Hn). destruct H as [H| <-]; [|lra].
  assert (L : ln x <= ln (Rmax x (/ 10 ^ 12))) by (destruct (Rmax_l x (/ 10 ^ 12)) as [Q|Q]; [left; apply ln_increasing; [exact H|exact Q]|rewrite <- Q; right; reflexivity]).
  assert (K : ln (/ (n * x)) <= / (n * x) - 1).
  { assert (Py : 0 < / (n * x)) by (apply Rinv_0_lt_compat, Rmult_lt_0_compat; assumption). set (y := / (n * x)) in *. assert (X := exp_ineq1_le (y - 1)). rewrite <- (ln_exp (y - 1)). destruct (Req_dec y (exp (y - 1))) as [Q|Q]; [right; f_equal; exact Q|left; apply ln_increasing; lra]. }
  rewrite ln_Rinv, ln_mult in K by (try apply Rmult_lt_0_compat; assumption).
  assert (M : x * (- (ln n + ln x)) <= x * (/ (n * x) - 1)) by (apply Rmult_le_compat_l; lra). replace (x * (/ (n * x) - 1)) with (/ n - x) in M by (field; lra). nra.
Qed.
Lemma gibbs s : occ_total s = 1 -> (forall p, In p s -> 0 <= s_occ p) -> - sumR (map (fun p => ent (s_occ p)) s) <= ln (INR (List.length s)).
Proof.
  intros Ho H. assert (Hs : s <> []) by (intros ->; unfold occ_total in Ho; cbn in Ho; lra).
  assert (Hn : 0 < INR (List.length s)) by (apply lt_0_INR; destruct s; [congruence|cbn; lia]). set (n := INR (List.length s)) in *.
  replace (- sumR (map (fun p => ent (s_occ p)) s)) with (sumR (map (fun p => - ent (s_occ p)) s)).
  2:{ replace (- sumR (map (fun p => ent (s_occ p)) s)) with (-1 * sumR (map (fun p => ent (s_occ p)) s)) by ring. rewrite <- sumR_scal. apply sumR_ext. intros. ring. }
  apply Rle_trans with (sumR (map (fun p => s_occ p * ln n + (/ n - s_occ p)) s)); [apply sumR_le; intros p Hp; apply ent_gibbs; [apply H, Hp|exact Hn]|].
  rewrite (sumR_ext _ (fun p => (ln n - 1) * s_occ p + / n)) by (intros; ring). rewrite sumR_plus, sumR_scal, sumR_const. fold (occ_total s). fold n. rewrite Ho. right. field. lra.
Qed.
Lemma occ_le1 s p : occ_total s = 1 -> (forall p, In p s -> 0 <= s_occ p) -> In p s -> s_occ p <= 1.
Proof.
  unfold occ_total. intros E H. revert p. enough (A : forall s p, (forall p, In p s -> 0 <= s_occ p) -> In p s -> s_occ p <= sumR (map s_occ s)) by (intros p Hp; rewrite <- E; apply A; assumption).
  clear. induction s as [|q s IH]; intros p H Hp; [destruct Hp|]. cbn [map sumR]. assert (A : 0 <= sumR (map s_occ s)) by (apply sumR_nonneg, Forall_map, Forall_forall; intros x Hx; apply H; right; exact Hx).
  destruct Hp as [->|Hp]; [lra|]. specialize (IH p (fun x Hx => H x (or_intror Hx)) Hp). assert (B := H q (or_introl eq_refl)). lra.
Qed.
(** for occupations that sum to 1: never negative, at most the sum of the logarithms of the numbers of species, zero exactly if every sublattice is
    occupied by a single species; and minus the documented expression as long as no occupation lies strictly between 0 and 1e-12 *)
Theorem C92_entropy : forall d alpha renorm (r : bool), d <> [] -> (forall s, In s d -> occ_total s = 1) -> (forall s p, In s d -> In p s -> 0 <= s_occ p) ->
  exists g gm gr S, fluctuation (occs d) (massesl d) (if r then radiil d else []) alpha renorm = Ok (g, gm, gr, S) /\
  0 <= S <= sumR (map (fun s => ln (INR (List.length s))) d) /\
  (S = 0 <-> forall s p, In s d -> In p s -> s_occ p = 0 \/ s_occ p = 1) /\
  ((forall s p, In s d -> In p s -> s_occ p = 0 \/ / 10 ^ 12 <= s_occ p) -> S = - doc_S d).
Proof.
  intros d alpha renorm r Hd Ho Hp. eexists _, _, _, (sc d). split.
  { fold (frad d r). rewrite fl_close; [cbv zeta; reflexivity|exact Hd|]. intros s Hs. rewrite (Ho s Hs). apply near1_1. }
  assert (Es : sc d = sumR (map (fun s => - sumR (map (fun p => ent (s_occ p)) s)) d)).
  { unfold sc. rewrite <- sumR_scal. apply sumR_ext. intros s _. unfold ent. ring. }
  assert (Nn : forall s, In s d -> 0 <= - sumR (map (fun p => ent (s_occ p)) s)).
  { intros s Hs. replace (- sumR (map (fun p => ent (s_occ p)) s)) with (sumR (map (fun p => -1 * ent (s_occ p)) s)) by (rewrite sumR_scal; ring).
    apply sumR_nonneg, Forall_map, Forall_forall. intros p Hp'. assert (A := proj1 (ent_nonpos (s_occ p) (conj (Hp s p Hs Hp') (occ_le1 s p (Ho s Hs) (fun q => Hp s q Hs) Hp')))). lra. }
  split; [split|split].
  - rewrite Es. apply sumR_nonneg, Forall_map, Forall_forall. exact Nn.
  - rewrite Es. apply sumR_le. intros s Hs. apply gibbs; [apply Ho, Hs|intros p; apply Hp, Hs].
  - rewrite Es. split.
    + intros Z s p Hs Hp'. apply sumR_zero in Z; [|apply Forall_map, Forall_forall; exact Nn]. rewrite Forall_map, Forall_forall in Z. specialize (Z s Hs). cbn beta in Z.
      assert (Z' : sumR (map (fun p => -1 * ent (s_occ p)) s) = 0) by (rewrite sumR_scal; lra). apply sumR_zero in Z'.
      * rewrite Forall_map, Forall_forall in Z'. specialize (Z' p Hp'). cbn beta in Z'. apply (proj2 (ent_nonpos (s_occ p) (conj (Hp s p Hs Hp') (occ_le1 s p (Ho s Hs) (fun q => Hp s q Hs) Hp')))). lra.
      * apply Forall_map, Forall_forall. intros q Hq. assert (A := proj1 (ent_nonpos (s_occ q) (conj (Hp s q Hs Hq) (occ_le1 s q (Ho s Hs) (fun q => Hp s q Hs) Hq)))). lra.
    + intros A. transitivity (sumR (map (fun _ : list species => 0) d)); [|rewrite sumR_const; ring]. apply sumR_ext. intros s Hs. rewrite (sumR_ext _ (fun _ => 0)); [rewrite sumR_const; ring|].
      intros p Hp'. apply (proj2 (ent_nonpos (s_occ p) (conj (Hp s p Hs Hp') (occ_le1 s p (Ho s Hs) (fun q => Hp s q Hs) Hp')))). apply (A s); assumption.
  - intros A. rewrite Es. unfold doc_S. replace (- sumR (map (fun s => sumR (map (fun p => s_occ p * ln (s_occ p)) s)) d)) with (-1 * sumR (map (fun s => sumR (map (fun p => s_occ p * ln (s_occ p)) s)) d)) by ring.
    rewrite <- sumR_scal. apply sumR_ext. intros s Hs. rewrite (sumR_ext _ (fun p => s_occ p * ln (s_occ p))); [ring|]. intros p Hp'. unfold ent. destruct (A s p Hs Hp') as [-> | Q]; [ring|]. rewrite Rmax_left by lra. reflexivity.
Qed.
Print Assumptions C92_entropy.
(** so the sign of the documentation is wrong wherever there is disorder: its expression is then negative *)
Theorem C92_documented_sign : forall d, d <> [] -> (forall s, In s d -> occ_total s = 1) -> (forall s p, In s d -> In p s -> 0 <= s_occ p) ->
  (forall s p, In s d -> In p s -> s_occ p = 0 \/ / 10 ^ 12 <= s_occ p) -> (exists s p, In s d /\ In p s /\ 0 < s_occ p < 1) ->
  forall alpha renorm g gm gr S, fluctuation (occs d) (massesl d) [] alpha renorm = Ok (g, gm, gr, S) -> doc_S d < 0 < S.
Proof.
  intros d Hd Ho Hp Hq (s & p & Hs & Hp' & L) alpha renorm g gm gr S E. destruct (C92_entropy d alpha renorm false Hd Ho Hp) as (g' & gm' & gr' & S' & E' & B & Z & D). cbv iota in E'.
  assert (S = S') by congruence. subst S'. specialize (D Hq). assert (S <> 0). { intros Q. apply Z with (s := s) (p := p) in Q; [lra|assumption|assumption]. } lra.
Qed.
Print Assumptions C92_documented_sign.
Example C92_case : exists d, d <> [] /\ (forall s, In s d -> occ_total s = 1) /\ (forall s p, In s d -> In p s -> 0 <= s_occ p) /\
  (forall s p, In s d -> In p s -> s_occ p = 0 \/ / 10 ^ 12 <= s_occ p) /\ (exists s p, In s d /\ In p s /\ 0 < s_occ p < 1).
Proof.
  exists [[(1 / 2, 100, 1); (1 / 2, 50, 2)]]. assert (E : / 10 ^ 12 <= 1 / 2). { replace (1 / 2) with (/ 2) by lra. apply Rinv_le_contravar; [lra|]. assert (A : 10 ^ 1 <= 10 ^ 12) by (apply Rle_pow; [lra|lia]). lra. }
  split; [discriminate|]. split; [intros s [<-|[]]; unfold occ_total, s_occ; cbn; lra|]. split; [intros s p [<-|[]] [<-|[<-|[]]]; unfold s_occ; cbn; lra|].
  split; [intros s p [<-|[]] [<-|[<-|[]]]; unfold s_occ; cbn [fst]; right; exact E|]. exists [(1 / 2, 100, 1); (1 / 2, 50, 2)], (1 / 2, 100, 1). split; [left; reflexivity|]. split; [left; reflexivity|]. unfold s_occ. cbn. lra.
Qed.
