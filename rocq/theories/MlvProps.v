(** C140: the carriers of several bands and the Fermi level. *)
From Coq Require Import Reals Lra Lia.
From Coquelicot Require Import Coquelicot.
From Verif Require Import Py RUtil FuncModel RombModel RombProofs RombProps BandModel SpbModel SpbProps RconvSpec RconvProofs RconvFermi RconvBands RconvProps NdosModel NdosSpec NdosProofs NdosProps OptProofs LvlProofs LvlProps MlvSpec MlvProofs.
Local Open Scope R_scope.

Record nice (c : R) (n : R -> R) : Prop := {
  n_lim : forall e, 0 < n e; n_mono : forall x y, x < y -> n x < n y; n_cont : forall x, continuity_pt n x; n_conv : convex n;
  n_up : forall v, exists x, v < n x; n_low : exists K, 0 <= K /\ forall x, n x <= K * exp (x / c) }.
Lemma nice_band idos T : 0 < T -> rising_band idos -> exists n, nice (kB * T) n /\ forall EF, is_lim_seq (fun ndiv => romb_dfx (fun E _ => idos E) EF T 0 ndiv) (n EF).
Proof.
  intros HT (dos & Hd & Pd & Md & Hi & Hp & Ha & Ht). destruct (C139_levels dos idos T p_infty HT Hd Pd Hi Hp Ha Ht) as (N & L & M & P & U). exists N.
  assert (HO : forall EF, occupied dos EF T (N EF)) by (intros; apply L). pose proof (ktp T HT) as K. split; [|intros EF; apply L]. split.
  - intros e. apply P.
  - intros x y H. apply M, H.
  - intros x. assert (C : continuity_pt (fun x => exp (kB * T * ln (N x) / (kB * T))) x).
    { apply (continuity_pt_comp (fun x => kB * T * ln (N x) / (kB * T)) exp); [|apply derivable_continuous_pt, derivable_pt_exp]. apply continuity_pt_mult; [|apply continuity_pt_const; intros u w; reflexivity].
      apply continuity_pt_filterlim, (lipschitz_continuous (fun x => kB * T * ln (N x))). apply (lnN_lip dos T HT Hd Pd N HO). }
    apply (continuity_pt_ext (fun x => exp (kB * T * ln (N x) / (kB * T)))); [|exact C]. intros y. replace (kB * T * ln (N y) / (kB * T)) with (ln (N y)) by (field; split; [intros ->; lra|unfold kB; lra]). apply exp_ln, P.
  - apply (N_convex dos idos T HT Pd Md Hi Hp Ha N). intros; apply L.
  - intros v. pose proof (Rmax_r v 0). pose proof (Rmax_l v 0). destruct (U (Rmax v 0 + 1) ltac:(lra) I) as (x & E & _). exists x. lra.
  - exists (2 * N 0). split; [pose proof (proj1 (P 0)); lra|]. intros x. pose proof (N_low dos T HT Hd Pd N HO x). lra.
Qed.

(** the sum of [n i] over the items, each at the Fermi level seen from its own edge *)
Definition tot (n : nat -> R -> R) (sign : nat -> R) (l : list (nat * R)) (EF : R) : R := fold_right (fun id s => n (fst id) (-1 * sign (fst id) * (EF - snd id)) + s) 0 l.
Lemma total_ok (f : nat -> R -> res R) (g : nat -> R -> R) (l : list (nat * R)) : (forall i d, f i d = Ok (g i d)) -> total l f = Ok (fold_right (fun id s => g (fst id) (snd id) + s) 0 l).
Proof. intros H. induction l as [|(i, d) r IH]; [reflexivity|]. cbn [total fold_right fst snd]. rewrite H. cbn [rbind]. rewrite IH. reflexivity. Qed.
Lemma carriers_tot (idos : nat -> R -> R) (sign : nat -> R) (items : list (nat * R)) (T : R) (n : nat -> R -> R) : (forall i d, In (i, d) items -> forall EF, is_lim_seq (fun ndiv => romb_dfx (fun E _ => idos i E) EF T 0 ndiv) (n i EF)) -> carriers idos sign items T (tot n sign items).
Proof.
  intros H EF. exists (fun k => fold_right (fun id s => romb_dfx (fun E _ => idos (fst id) E) (-1 * sign (fst id) * (EF - snd id)) T 0 k + s) 0 items). split.
  - induction items as [|(i, d) r IH]; [apply is_lim_seq_const|]. cbn [fold_right fst snd]. unfold tot; cbn [fold_right fst snd].
    apply (is_lim_seq_plus' (fun k => romb_dfx (fun E _ => idos i E) (-1 * sign i * (EF - d)) T 0 k) (fun k => fold_right (fun id s => romb_dfx (fun E _ => idos (fst id) E) (-1 * sign (fst id) * (EF - snd id)) T 0 k + s) 0 r)); [apply (H i d (or_introl eq_refl))|]. apply IH. intros j e Hj. apply (H j e (or_intror Hj)).
  - intros k. cbn [method]. unfold fetch_N; cbn [self_multi o_cache m_cache o_N m_items]. unfold multi_N.
    rewrite (total_ok _ (fun i d => romb_dfx (fun E _ => idos i E) (-1 * sign i * (EF - d)) T 0 k)); [reflexivity|]. intros i d. reflexivity.
Qed.
Lemma tot_cont (n : nat -> R -> R) (sign : nat -> R) (l : list (nat * R)) : (forall i d, In (i, d) l -> forall x, continuity_pt (n i) x) -> forall x, continuity_pt (tot n sign l) x.
Proof.
  intros H x. induction l as [|(i, d) r IH]; [apply continuity_pt_const; intros u w; reflexivity|].
  apply (continuity_pt_plus (fun EF => n i (-1 * sign i * (EF - d))) (tot n sign r)); [|apply IH; intros j e Hj; apply (H j e (or_intror Hj))].
  apply (continuity_pt_comp (fun EF => -1 * sign i * (EF - d)) (n i)); [|apply (H i d (or_introl eq_refl))]. apply derivable_continuous_pt. reg.
Qed.
Lemma tot_conv (n : nat -> R -> R) (sign : nat -> R) (l : list (nat * R)) : (forall i d, In (i, d) l -> convex (n i)) -> convex (tot n sign l).
Proof.
  intros H a b k Hab Hk. induction l as [|(i, d) r IH]; [unfold tot; cbn; lra|]. unfold tot in *; cbn [fold_right fst snd] in *.
  specialize (IH (fun j e Hj => H j e (or_intror Hj))). pose proof (conv_any (n i) (H i d (or_introl eq_refl)) (-1 * sign i * (a - d)) (-1 * sign i * (b - d)) k Hk) as C.
  replace (k * (-1 * sign i * (a - d)) + (1 - k) * (-1 * sign i * (b - d))) with (-1 * sign i * (k * a + (1 - k) * b - d)) in C by ring. lra.
Qed.
Lemma tot_nonneg (n : nat -> R -> R) (sign : nat -> R) (l : list (nat * R)) (x : R) : (forall i d, In (i, d) l -> forall e, 0 < n i e) -> 0 <= tot n sign l x.
Proof. intros H. induction l as [|(i, d) r IH]; [unfold tot; cbn; lra|]. unfold tot in *; cbn [fold_right fst snd] in *. specialize (IH (fun j e Hj => H j e (or_intror Hj))). pose proof (H i d (or_introl eq_refl) (-1 * sign i * (x - d))). lra. Qed.
Lemma tot_ge (n : nat -> R -> R) (sign : nat -> R) (l : list (nat * R)) (x : R) (i : nat) (d : R) : (forall i d, In (i, d) l -> forall e, 0 < n i e) -> In (i, d) l -> n i (-1 * sign i * (x - d)) <= tot n sign l x.
Proof.
  intros H Hin. induction l as [|(j, e) r IH]; [destruct Hin|]. unfold tot; cbn [fold_right fst snd]. pose proof (tot_nonneg n sign r x (fun j e Hj => H j e (or_intror Hj))) as T0. unfold tot in T0.
  destruct Hin as [E|Hin]; [injection E as <- <-; lra|]. specialize (IH (fun j e Hj => H j e (or_intror Hj)) Hin). unfold tot in IH. pose proof (H j e (or_introl eq_refl) (-1 * sign j * (x - e))). lra.
Qed.
Lemma all_nice (idos : nat -> R -> R) items T : 0 < T -> (forall i (d : R), In (i, d) items -> rising_band (idos i)) ->
  exists n : nat -> R -> R, forall i d, In (i, d) items -> nice (kB * T) (n i) /\ forall EF, is_lim_seq (fun ndiv => romb_dfx (fun E _ => idos i E) EF T 0 ndiv) (n i EF).
Proof.
  intros HT H. exists (fun i EF => real (Lim_seq (fun ndiv => romb_dfx (fun E _ => idos i E) EF T 0 ndiv))). intros i d Hin. destruct (nice_band (idos i) T HT (H i d Hin)) as (n & Nn & L).
  assert (E : forall EF, real (Lim_seq (fun ndiv => romb_dfx (fun E _ => idos i E) EF T 0 ndiv)) = n EF) by (intros EF; rewrite (is_lim_seq_unique _ _ (L EF)); reflexivity).
  assert (E' : (fun EF => real (Lim_seq (fun ndiv => romb_dfx (fun E _ => idos i E) EF T 0 ndiv))) = n) by (apply FunctionalExtensionality.functional_extensionality; exact E). rewrite E'. split; [exact Nn|]. intros EF. rewrite E. apply L.
Qed.

(** C140: with bands of one kind only, each positive concentration belongs to exactly one Fermi level *)
Theorem C140_one_kind :
  forall (idos : nat -> R -> R) (sign : nat -> R) (items : list (nat * R)) (T s : R), 0 < T -> items <> [] -> (s = -1 \/ s = 1) ->
  (forall i d, In (i, d) items -> rising_band (idos i) /\ sign i = s) ->
  exists N : R -> R, carriers idos sign items T N /\ (forall EF, 0 < N EF) /\ (forall EF EF', EF < EF' -> if Rlt_dec s 0 then N EF < N EF' else N EF' < N EF)
    /\ forall v, 0 < v -> exists! EF, N EF = v.
Proof.
  intros idos sign items T s HT Hne Hs H. destruct (all_nice idos items T HT (fun i d Hin => proj1 (H i d Hin))) as (n & Hn). pose proof (ktp T HT) as K.
  exists (tot n sign items). split; [apply carriers_tot; intros i d Hin; apply (Hn i d Hin)|].
  assert (Pos : forall i d, In (i, d) items -> forall e, 0 < n i e) by (intros i d Hin; destruct (Hn i d Hin) as ([] & _); assumption).
  assert (Hin0 : exists i d, In (i, d) items) by (destruct items as [|(i, d) r]; [contradiction|exists i, d; left; reflexivity]). destruct Hin0 as (i0 & d0 & Hin0).
  split; [intros EF; eapply Rlt_le_trans; [apply (Pos i0 d0 Hin0)|apply tot_ge; [exact Pos|exact Hin0]]|].
  (* in the variable y = -s EF everything grows *)
  set (U := fun y => tot n sign items (- s * y)). assert (Ss : s * s = 1) by (destruct Hs as [->| ->]; ring).
  assert (Arg : forall i d, In (i, d) items -> forall y, -1 * sign i * (- s * y - d) = y + s * d) by (intros i d Hin y; rewrite (proj2 (H i d Hin)); replace (-1 * s * (- s * y - d)) with (s * s * y + s * d) by ring; rewrite Ss; ring).
  assert (UM : forall x y, x < y -> U x < U y).
  { intros x y L. unfold U. clear - Hn Arg L Hne. assert (W : forall l, (forall i d, In (i, d) l -> In (i, d) items) -> tot n sign l (- s * x) <= tot n sign l (- s * y) /\ (l <> [] -> tot n sign l (- s * x) < tot n sign l (- s * y))).
    { induction l as [|(i, d) r IH]; intros Sub; [unfold tot; cbn; split; [lra|congruence]|]. destruct (IH (fun j e Hj => Sub j e (or_intror Hj))) as (I1 & _). unfold tot in *; cbn [fold_right fst snd]. pose proof (Sub i d (or_introl eq_refl)) as Hin. rewrite !(Arg i d Hin).
      destruct (Hn i d Hin) as ([] & _). pose proof (n_mono0 (x + s * d) (y + s * d) ltac:(lra)). split; [lra|intros _; lra]. }
    apply (W items (fun i d Hin => Hin)), Hne. }
  assert (UC : forall x, continuity_pt U x). { intros x. apply (continuity_pt_comp (fun y => - s * y) (tot n sign items)); [apply derivable_continuous_pt; reg|]. apply tot_cont. intros i d Hin. destruct (Hn i d Hin) as ([] & _). assumption. }
  assert (UU : forall v, exists x, v < U x). { intros v. destruct (Hn i0 d0 Hin0) as ([] & _). destruct (n_up0 v) as (x & Hx). exists (x - s * d0). unfold U. eapply Rlt_le_trans; [|apply (tot_ge n sign items (- s * (x - s * d0)) i0 d0 Pos Hin0)]. rewrite (Arg i0 d0 Hin0). replace (x - s * d0 + s * d0) with x by ring. exact Hx. }
  assert (UL : exists C, forall x, U x <= C * exp (x / (kB * T))).
  { unfold U. clear - Hn Arg K. assert (W : forall l, (forall i d, In (i, d) l -> In (i, d) items) -> exists C, forall x, tot n sign l (- s * x) <= C * exp (x / (kB * T))).
    { induction l as [|(i, d) r IH]; intros Sub; [exists 0; intros x; unfold tot; cbn; lra|]. destruct (IH (fun j e Hj => Sub j e (or_intror Hj))) as (C & HC). pose proof (Sub i d (or_introl eq_refl)) as Hin. destruct (Hn i d Hin) as ([] & _). destruct n_low0 as (k & _ & Hk).
      exists (k * exp (s * d / (kB * T)) + C). intros x. specialize (HC x). unfold tot in *; cbn [fold_right fst snd]. rewrite (Arg i d Hin). specialize (Hk (x + s * d)). replace ((x + s * d) / (kB * T)) with (s * d / (kB * T) + x / (kB * T)) in Hk by (unfold Rdiv; ring). rewrite exp_plus in Hk. lra. }
    apply (W items (fun i d Hin => Hin)). }
  destruct UL as (C & UL). assert (Back : forall EF, tot n sign items EF = U (- s * EF)) by (intros EF; unfold U; f_equal; replace (- s * (- s * EF)) with (s * s * EF) by ring; rewrite Ss; ring).
  split.
  - intros EF EF' L. rewrite !Back. destruct (Rlt_dec s 0) as [S0|S0]; apply UM; destruct Hs as [->| ->]; lra.
  - intros v Hv. destruct (one_level U (kB * T) C K UM UC UU UL v Hv) as (y & Ey & Uq). exists (- s * y). split; [exact Ey|]. intros EF E. rewrite Back in E. rewrite (Uq _ E). replace (- s * (- s * EF)) with (s * s * EF) by ring. rewrite Ss. ring.
Qed.

(** C140: with both kinds, N counts electrons and holes together: no concentration below a minimum is possible, and each one above it belongs to exactly two Fermi levels *)
Theorem C140_both_kinds :
  forall (idos : nat -> R -> R) (sign : nat -> R) (items : list (nat * R)) (T : R), 0 < T ->
  (forall i d, In (i, d) items -> rising_band (idos i)) ->
  (exists i d, In (i, d) items /\ sign i = -1) -> (exists i d, In (i, d) items /\ sign i = 1) ->
  exists N : R -> R, carriers idos sign items T N
    /\ exists EF0, 0 < N EF0 /\ (forall EF, N EF0 <= N EF)
       /\ forall v, N EF0 < v -> exists EF1 EF2, EF1 < EF2 /\ N EF1 = v /\ N EF2 = v /\ forall EF, N EF = v -> EF = EF1 \/ EF = EF2.
Proof.
  intros idos sign items T HT H (ic & dc & Hc & Sc) (iv & dv & Hv & Sv). destruct (all_nice idos items T HT H) as (n & Hn). exists (tot n sign items). split; [apply carriers_tot; intros i d Hin; apply (Hn i d Hin)|].
  assert (Pos : forall i d, In (i, d) items -> forall e, 0 < n i e) by (intros i d Hin; destruct (Hn i d Hin) as ([] & _); assumption).
  destruct (two_levels (tot n sign items)) as (m & Min & Two).
  - apply tot_conv. intros i d Hin. destruct (Hn i d Hin) as ([] & _). assumption.
  - apply tot_cont. intros i d Hin. destruct (Hn i d Hin) as ([] & _). assumption.
  - intros v. destruct (Hn ic dc Hc) as ([] & _). destruct (n_up0 v) as (x & Hx). exists (x + dc). intros y Hy. eapply Rlt_le_trans; [|apply (tot_ge n sign items y ic dc Pos Hc)]. rewrite Sc. replace (-1 * -1 * (y - dc)) with (y - dc) by ring.
    destruct (Rle_lt_or_eq_dec x (y - dc) ltac:(lra)) as [L|E]; [specialize (n_mono0 _ _ L); lra|rewrite <- E; exact Hx].
  - intros v. destruct (Hn iv dv Hv) as ([] & _). destruct (n_up0 v) as (x & Hx). exists (dv - x). intros y Hy. eapply Rlt_le_trans; [|apply (tot_ge n sign items y iv dv Pos Hv)]. rewrite Sv. replace (-1 * 1 * (y - dv)) with (dv - y) by ring.
    destruct (Rle_lt_or_eq_dec x (dv - y) ltac:(lra)) as [L|E]; [specialize (n_mono0 _ _ L); lra|rewrite <- E; exact Hx].
  - exists m. split; [eapply Rlt_le_trans; [apply (Pos ic dc Hc)|apply (tot_ge n sign items m ic dc Pos Hc)]|]. split; [exact Min|exact Two].
Qed.

(** C140: the three band classes qualify *)
Theorem C140_classes :
  forall m_d Eg vF : R, 0 < m_d -> 0 < Eg -> vF <> 0 -> rising_band (spb_idos m_d) /\ rising_band (skb_idos m_d Eg) /\ rising_band (lin_idos vF).
Proof.
  intros m_d Eg vF Hm He Hv. pose proof PI_RGT_0 as Pi. assert (Ph : 0 < hbar ^ 3) by (apply pow_lt; unfold hbar; lra). assert (P2 : 0 < 2 * PI * PI * hbar ^ 3) by (apply Rmult_lt_0_compat; [nra|exact Ph]).
  assert (A : 0 < 2 * m_d * m_e * qe) by (unfold m_e, qe; nra). set (c := 1e-25 * (pow32 (2 * m_d * m_e * qe) / (2 * PI * PI * hbar ^ 3))). assert (C0 : 0 < c) by (unfold c; apply Rmult_lt_0_compat; [lra|]; apply Rdiv_lt_0_compat; [|exact P2]; apply Rmult_lt_0_compat; [exact A|apply sqrt_lt_R0; exact A]).
  split; [|split].
  - exists (spb_dos m_d). destruct (C69_spb_idos m_d Hm) as (Z & D). destruct (good_spb_dos m_d) as (G1 & _). destruct (good_spb_idos m_d) as (G2 & G3). split; [exact G1|]. split; [intros E HE; unfold spb_dos; apply Rmult_lt_0_compat; [exact C0|apply sqrt_lt_R0; exact HE]|].
    split; [intros E E' HE L; unfold spb_dos; apply Rmult_le_compat_l; [fold c; lra|apply sqrt_le_1_alt; exact L]|]. split; [exact G2|]. split; [exact G3|]. split; [split; [exact Z|intros E HE; apply D; exact HE]|].
    apply (top_idos m_d Eg vF (spb_dos m_d) _ Hm He Hv). left. reflexivity.
  - exists (skb_dos m_d Eg). destruct (C69_skb_idos m_d Eg Hm He) as (Z & D). destruct (good_skb_dos m_d Eg) as (G1 & _). destruct (good_skb_idos m_d Eg) as (G2 & G3). split; [exact G1|].
    assert (Y : forall E, 0 < E -> 0 < E / Eg) by (intros E HE; apply Rdiv_lt_0_compat; lra). assert (Dv : forall E, 2 * E / Eg = 2 * (E / Eg)) by (intros; unfold Rdiv; ring).
    split; [intros E HE; unfold skb_dos; pose proof (Y E HE); apply Rmult_lt_0_compat; [apply Rmult_lt_0_compat; [exact C0|apply sqrt_lt_R0; exact HE]|apply Rmult_lt_0_compat; [apply sqrt_lt_R0; lra|rewrite Dv; lra]]|].
    split; [intros E E' HE L; unfold skb_dos; fold c; rewrite !Dv; pose proof (Y E HE); assert (E / Eg <= E' / Eg) by (unfold Rdiv; apply Rmult_le_compat_r; [left; apply Rinv_0_lt_compat; exact He|exact L])|].
    { apply Rmult_le_compat; [apply Rmult_le_pos; [lra|apply sqrt_pos]|apply Rmult_le_pos; [apply sqrt_pos|lra]|apply Rmult_le_compat_l; [lra|apply sqrt_le_1_alt; exact L]|]. apply Rmult_le_compat; [apply sqrt_pos|lra|apply sqrt_le_1_alt; lra|lra]. }
    split; [exact G2|]. split; [exact G3|]. split; [split; [exact Z|intros E HE; apply D; exact HE]|].
    apply (top_idos m_d Eg vF (skb_dos m_d Eg) _ Hm He Hv). right. left. reflexivity.
  - exists (lin_dos vF). destruct (C69_linear_idos vF Hv) as (Z & D). destruct (good_lin_dos vF) as (G1 & _). destruct (good_lin_idos vF) as (G2 & G3). split; [exact G1|].
    assert (V : 0 < Rabs vF * 1e5 * hbar) by (apply Rmult_lt_0_compat; [apply Rmult_lt_0_compat; [apply Rabs_pos_lt; exact Hv|lra]|unfold hbar; lra]).
    assert (B : 0 < 1e-25 * ((1 / PI) ^ 2 * (qe / (Rabs vF * 1e5 * hbar)) ^ 3)) by (apply Rmult_lt_0_compat; [lra|]; apply Rmult_lt_0_compat; [apply pow_lt, Rdiv_lt_0_compat; lra|apply pow_lt, Rdiv_lt_0_compat; [unfold qe; lra|exact V]]).
    split; [intros E HE; unfold lin_dos; apply Rmult_lt_0_compat; [exact B|apply pow_lt; exact HE]|]. split; [intros E E' HE L; unfold lin_dos; apply Rmult_le_compat_l; [lra|apply pow_incr; lra]|].
    split; [exact G2|]. split; [exact G3|]. split; [split; [exact Z|intros E HE; apply D]|].
    apply (top_idos m_d Eg vF (lin_dos vF) _ Hm He Hv). right. right. left. reflexivity.
Qed.

(** the hypotheses are met: a conduction and a valence band a tenth of an eV apart, and two conduction bands *)
Definition side (i : nat) : R := match i with O => -1 | _ => 1 end.
Example C140_case : exists N : R -> R, carriers (fun i => match i with O => spb_idos 1 | _ => skb_idos 1 1 end) side [(0%nat, 0); (1%nat, -1/10)] 300 N
  /\ exists EF0, 0 < N EF0 /\ forall v, N EF0 < v -> exists EF1 EF2, EF1 < EF2 /\ N EF1 = v /\ N EF2 = v.
Proof.
  destruct (C140_classes 1 1 1 ltac:(lra) ltac:(lra) ltac:(lra)) as (A & B & _).
  destruct (C140_both_kinds (fun i => match i with O => spb_idos 1 | _ => skb_idos 1 1 end) side [(0%nat, 0); (1%nat, -1/10)] 300 ltac:(lra)) as (N & HN & EF0 & P & _ & T2).
  - intros [|i] d _; assumption.
  - exists 0%nat, 0. split; [left; reflexivity|reflexivity].
  - exists 1%nat, (-1/10). split; [right; left; reflexivity|reflexivity].
  - exists N. split; [exact HN|]. exists EF0. split; [exact P|]. intros v Hv. destruct (T2 v Hv) as (a & b & H1 & H2 & H3 & _). exists a, b. auto.
Qed.
Example C140_case_same : exists N : R -> R, carriers (fun _ => spb_idos 1) (fun _ => -1) [(0%nat, 0); (1%nat, 1/10)] 300 N /\ exists! EF, N EF = 1.
Proof.
  destruct (C140_classes 1 1 1 ltac:(lra) ltac:(lra) ltac:(lra)) as (A & _).
  destruct (C140_one_kind (fun _ => spb_idos 1) (fun _ => -1) [(0%nat, 0); (1%nat, 1/10)] 300 (-1) ltac:(lra) ltac:(discriminate) ltac:(left; reflexivity)) as (N & HN & _ & _ & U); [intros; split; [exact A|reflexivity]|].
  exists N. split; [exact HN|]. apply U. lra.
Qed.
Print Assumptions C140_one_kind.
Print Assumptions C140_both_kinds.
Print Assumptions C140_classes.
