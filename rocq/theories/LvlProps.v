(** C139: a carrier concentration or a conductivity fixes the Fermi level. *)
From Coq Require Import Reals Lra Lia.
From Coquelicot Require Import Coquelicot.
From Verif Require Import Py RUtil FuncModel RombModel RombProofs RombProps BandModel SpbModel SpbProps RconvSpec RconvProofs RconvFermi RconvBands RconvProps NdosModel NdosSpec NdosProofs NdosProps OptProofs LvlProofs.
Local Open Scope R_scope.

(** C139: the number of occupied states, to which the quadrature converges, as a function of the Fermi level *)
Theorem C139_levels :
  forall (dos idos : R -> R) (T : R) (top : Rbar), 0 < T ->
  continuous_up dos -> (forall E, 0 < E -> 0 < dos E) -> continuous_up idos -> power_bounded idos -> antiderivative idos dos -> is_lim idos p_infty top ->
  exists N : R -> R,
    (forall EF, is_lim_seq (fun ndiv => romb_dfx (fun E _ => idos E) EF T 0 ndiv) (N EF) /\ occupied dos EF T (N EF))
    /\ (forall EF EF', EF < EF' -> N EF < N EF' <= exp ((EF' - EF) / (kB * T)) * N EF)
    /\ (forall EF, 0 < N EF /\ Rbar_lt (N EF) top)
    /\ (forall v, 0 < v -> Rbar_lt v top -> exists! EF, N EF = v).
Proof.
  intros dos idos T top HT Hd Pd Hi Hp Ha Ht.
  set (N := fun EF => real (Lim_seq (fun ndiv => romb_dfx (fun E _ => idos E) EF T 0 ndiv))). exists N.
  assert (HN : forall EF, is_lim_seq (fun ndiv => romb_dfx (fun E _ => idos E) EF T 0 ndiv) (N EF) /\ occupied dos EF T (N EF)).
  { intros EF. destruct (C131_two_counts dos idos EF T HT Hd Hi Hp Ha) as (n & L & O & _). unfold N. rewrite (is_lim_seq_unique _ _ L). split; assumption. }
  assert (HO : forall EF, occupied dos EF T (N EF)) by (intros EF; apply HN).
  split; [exact HN|]. assert (M : forall a b, a < b -> N a < N b) by (intros a b H; apply (N_mono dos T HT Hd Pd N HO); exact H).
  split; [intros EF EF' H; split; [apply M, H|apply (N_ratio dos T HT Hd Pd N HO); lra]|]. split.
  - intros EF. split; [apply (N_pos dos T HT Hd Pd N HO)|]. destruct top as [c| |]; cbn; [apply (N_ceiling dos idos T HT Hd Pd Hi Ha N HO EF c Ht)|exact I|].
    assert (Q : Rbar_le 0 m_infty); [|exact Q]. apply (is_lim_le_loc (fun _ => 0) idos p_infty); [|apply is_lim_const|exact Ht]. exists 0. intros x Hx. rewrite <- (idos_int dos idos Hd Hi Ha x ltac:(lra)). apply RInt_ge_0; [lra|apply ri, (dz_cont dos Hd)|]. intros y Hy. apply (dz_nonneg dos Hd Pd). lra.
  - intros v Hv Lt. destruct (N_onto dos idos T HT Hd Pd Hi Ha N HO v top Ht Hv Lt) as (EF & E). exists EF. split; [exact E|]. intros EF' E'. destruct (Rtotal_order EF EF') as [L|[Q|L]]; [|exact Q|]; apply M in L; lra.
Qed.

Lemma lim_unbounded (f : R -> R) c x0 : 0 < c -> (forall x, x0 <= x -> c * x <= f x) -> is_lim f p_infty p_infty.
Proof.
  intros Hc H. apply (is_lim_le_p_loc (fun x => c * x) f).
  - exists x0. intros x Hx. apply H. lra.
  - apply (is_lim_ext (fun x => c * x)); [reflexivity|]. replace p_infty with (Rbar_mult c p_infty) at 2; [apply (is_lim_scal_l (fun x => x) c p_infty p_infty), is_lim_id|]. cbn. destruct (Rle_dec 0 c) as [h|h]; [|lra]. destruct (Rle_lt_or_eq_dec 0 c h); [reflexivity|lra].
Qed.
Lemma pow32_ge x : 1 <= x -> x <= pow32 x.
Proof. intros H. unfold pow32. assert (1 <= sqrt x) by (rewrite <- sqrt_1; apply sqrt_le_1_alt; exact H). nra. Qed.
Lemma top_idos m_d Eg vF dos idos : 0 < m_d -> 0 < Eg -> vF <> 0 -> List.In (dos, idos) [(spb_dos m_d, spb_idos m_d); (skb_dos m_d Eg, skb_idos m_d Eg); (lin_dos vF, lin_idos vF)] -> is_lim idos p_infty p_infty.
Proof.
  intros Hm He Hv H. pose proof PI_RGT_0 as Pi. assert (Ph : 0 < hbar ^ 3) by (apply pow_lt; unfold hbar; lra). assert (Hm3 : 0 < 3 * PI * PI * hbar ^ 3) by (apply Rmult_lt_0_compat; [nra|exact Ph]).
  set (a := 2 * m_d * m_e * qe). assert (A : 0 < a) by (unfold a, m_e, qe; nra).
  assert (Th : forall E, / a <= E -> 0 < E /\ 1 <= a * E). { intros E L. pose proof (Rinv_0_lt_compat a A). split; [lra|]. apply (Rmult_le_compat_l a) in L; [|lra]. rewrite Rinv_r in L by lra. exact L. }
  destruct H as [E|[E|[E|[]]]]; injection E as <- <-.
  - apply (lim_unbounded _ (1e-25 * a / (3 * PI * PI * hbar ^ 3)) (/ a)); [apply Rdiv_lt_0_compat; lra|]. intros x Hx. destruct (Th x Hx) as (X & X1). unfold spb_idos. fold a. pose proof (pow32_ge (a * x) X1) as B.
    replace (1e-25 * a / (3 * PI * PI * hbar ^ 3) * x) with (1e-25 * (a * x / (3 * PI * PI * hbar ^ 3))) by (unfold Rdiv; ring). apply Rmult_le_compat_l; [lra|]. unfold Rdiv. apply Rmult_le_compat_r; [left; apply Rinv_0_lt_compat; exact Hm3|exact B].
  - apply (lim_unbounded _ (1e-25 * a / (3 * PI * PI * hbar ^ 3)) (/ a)); [apply Rdiv_lt_0_compat; lra|]. intros x Hx. destruct (Th x Hx) as (X & X1). unfold skb_idos. fold a. assert (Y : 0 < x / Eg) by (apply Rdiv_lt_0_compat; lra). assert (X2 : a * x <= a * x * (1 + x / Eg)) by nra. pose proof (pow32_ge (a * x * (1 + x / Eg)) ltac:(lra)) as B.
    replace (1e-25 * a / (3 * PI * PI * hbar ^ 3) * x) with (1e-25 * (a * x) / (3 * PI * PI * hbar ^ 3)) by (unfold Rdiv; ring). unfold Rdiv. apply Rmult_le_compat_r; [left; apply Rinv_0_lt_compat; exact Hm3|]. apply Rmult_le_compat_l; lra.
  - set (b := qe / (Rabs vF * hbar)). assert (B : 0 < b) by (unfold b; apply Rdiv_lt_0_compat; [unfold qe; lra|apply Rmult_lt_0_compat; [apply Rabs_pos_lt; exact Hv|unfold hbar; lra]]). assert (P2 : 0 < 3e40 * PI ^ 2) by (apply Rmult_lt_0_compat; [lra|apply pow_lt; lra]).
    apply (lim_unbounded _ (b / (3e40 * PI ^ 2)) (/ b)); [apply Rdiv_lt_0_compat; lra|]. intros x Hx. assert (X1 : 1 <= b * x) by (apply (Rmult_le_compat_l b) in Hx; [|lra]; rewrite Rinv_r in Hx by lra; exact Hx).
    unfold lin_idos. replace (qe * x / (Rabs vF * hbar)) with (b * x) by (unfold b, Rdiv; ring). replace (b / (3e40 * PI ^ 2) * x) with (b * x / (3e40 * PI ^ 2)) by (unfold Rdiv; ring). unfold Rdiv. apply Rmult_le_compat_r; [left; apply Rinv_0_lt_compat; exact P2|]. set (y := b * x) in *. assert (y <= y ^ 2) by nra. assert (y ^ 2 <= y ^ 2 * y) by nra. replace (y ^ 3) with (y ^ 2 * y) by ring. lra.
Qed.

(** C139: each positive carrier concentration belongs to exactly one Fermi level, for the three band models *)
Theorem C139_concentration :
  forall (m_d Eg vF T : R), 0 < T -> 0 < m_d -> 0 < Eg -> vF <> 0 ->
  forall idos : R -> R, List.In idos [spb_idos m_d; skb_idos m_d Eg; lin_idos vF] ->
  exists N : R -> R,
    (forall EF, is_lim_seq (fun ndiv => romb_dfx (fun E _ => idos E) EF T 0 ndiv) (N EF))
    /\ (forall EF EF', EF < EF' -> N EF < N EF' <= exp ((EF' - EF) / (kB * T)) * N EF)
    /\ (forall EF, 0 < N EF)
    /\ (forall n, 0 < n -> exists! EF, N EF = n).
Proof.
  intros m_d Eg vF T HT Hm He Hv idos H.
  assert (G : exists dos, List.In (dos, idos) [(spb_dos m_d, spb_idos m_d); (skb_dos m_d Eg, skb_idos m_d Eg); (lin_dos vF, lin_idos vF)] /\ good dos /\ good idos /\ antiderivative idos dos /\ forall E, 0 < E -> 0 < dos E).
  { pose proof PI_RGT_0 as Pi. assert (Ph : 0 < hbar ^ 3) by (apply pow_lt; unfold hbar; lra). assert (P2 : 0 < 2 * PI * PI * hbar ^ 3) by (apply Rmult_lt_0_compat; [nra|exact Ph]).
    assert (A : 0 < 2 * m_d * m_e * qe) by (unfold m_e, qe; nra). assert (C0 : 0 < 1e-25 * (pow32 (2 * m_d * m_e * qe) / (2 * PI * PI * hbar ^ 3))) by (apply Rmult_lt_0_compat; [lra|]; apply Rdiv_lt_0_compat; [|exact P2]; apply Rmult_lt_0_compat; [exact A|apply sqrt_lt_R0; exact A]).
    destruct H as [<-|[<-|[<-|[]]]].
    - exists (spb_dos m_d). split; [left; reflexivity|]. destruct (C69_spb_idos m_d Hm) as (Z & D). split; [apply good_spb_dos|]. split; [apply good_spb_idos|]. split; [split; [exact Z|intros E HE; apply D; exact HE]|].
      intros E HE. unfold spb_dos. apply Rmult_lt_0_compat; [exact C0|apply sqrt_lt_R0; exact HE].
    - exists (skb_dos m_d Eg). split; [right; left; reflexivity|]. destruct (C69_skb_idos m_d Eg Hm He) as (Z & D). split; [apply good_skb_dos|]. split; [apply good_skb_idos|]. split; [split; [exact Z|intros E HE; apply D; exact HE]|].
      intros E HE. assert (Y : 0 < E / Eg) by (apply Rdiv_lt_0_compat; lra). unfold skb_dos. apply Rmult_lt_0_compat; [apply Rmult_lt_0_compat; [exact C0|apply sqrt_lt_R0; exact HE]|]. apply Rmult_lt_0_compat; [apply sqrt_lt_R0; lra|]. replace (2 * E / Eg) with (2 * (E / Eg)) by (unfold Rdiv; ring). lra.
    - exists (lin_dos vF). split; [right; right; left; reflexivity|]. destruct (C69_linear_idos vF Hv) as (Z & D). split; [apply good_lin_dos|]. split; [apply good_lin_idos|]. split; [split; [exact Z|intros E HE; apply D]|].
      intros E HE. unfold lin_dos. apply Rmult_lt_0_compat; [|apply pow_lt; exact HE]. apply Rmult_lt_0_compat; [lra|]. apply Rmult_lt_0_compat; [apply pow_lt, Rdiv_lt_0_compat; lra|]. apply pow_lt, Rdiv_lt_0_compat; [unfold qe; lra|]. apply Rmult_lt_0_compat; [apply Rmult_lt_0_compat; [apply Rabs_pos_lt; exact Hv|lra]|unfold hbar; lra]. }
  destruct G as (dos & Hin & (Hd & _) & (Hi & Hp) & Ha & Pd). pose proof (top_idos m_d Eg vF dos idos Hm He Hv Hin) as Ht.
  destruct (C139_levels dos idos T p_infty HT Hd Pd Hi Hp Ha Ht) as (N & L & M & P & U). exists N. split; [intros EF; apply L|]. split; [exact M|]. split; [intros EF; apply P|]. intros n Hn. apply U; [exact Hn|exact I].
Qed.

(** C139: the conductivity does so too, up to a ceiling that is infinite for the parabolic band only *)
Definition top_conductivity (sigma0 Eg T : R) : list ((R -> R -> R) * Rbar) :=
  [(spb_trs sigma0, p_infty); (skb_trs sigma0 Eg, Finite (3 / 4 * sigma0 * Eg / (kB * T))); (lin_trs sigma0, Finite sigma0)].
Theorem C139_conductivity :
  forall (sigma0 Eg T : R), 0 < T -> 0 < sigma0 -> 0 < Eg ->
  forall trs top, List.In (trs, top) (top_conductivity sigma0 Eg T) ->
  exists C : R -> R,
    (forall EF, is_lim_seq (fun ndiv => romb_dfx trs EF T 0 ndiv) (C EF))
    /\ (forall EF EF', EF < EF' -> C EF < C EF' <= exp ((EF' - EF) / (kB * T)) * C EF)
    /\ (forall EF, 0 < C EF /\ Rbar_lt (C EF) top)
    /\ (forall c, 0 < c -> Rbar_lt c top -> exists! EF, C EF = c).
Proof.
  intros s Eg T HT Hs He trs top H. pose proof kB_pos as KB. assert (K : 0 < kB * T) by (apply Rmult_lt_0_compat; lra). assert (S0 : 0 < s / (kB * T)) by (apply Rdiv_lt_0_compat; assumption).
  destruct H as [E|[E|[E|[]]]]; injection E as <- <-.
  - destruct (good_spb_trs s T) as (Hi & Hp).
    destruct (C139_levels (fun _ => s / (kB * T)) (fun E => spb_trs s E T) T p_infty HT) as (N & L & M & P & U).
    + apply cont_up. intros. apply continuous_const. + intros. exact S0. + exact Hi. + exact Hp.
    + split; [unfold spb_trs; field; lra|]. intros E HE. unfold spb_trs. auto_derive; [lra|field; lra].
    + apply (lim_unbounded _ (s / (kB * T)) 0 S0). intros x _. unfold spb_trs. right. field. lra.
    + exists N. split; [intros EF; exact (proj1 (L EF))|]. split; [exact M|]. split; [exact P|exact U].
  - destruct (good_skb_trs s Eg T) as (Hi & Hp). set (q := fun E => (1 + 2 * E / Eg) ^ 2 + 2). assert (Q : forall E, 0 < q E) by (intros E; unfold q; pose proof (pow2_ge_0 (1 + 2 * E / Eg)); lra).
    destruct (C139_levels (fun E => s / (kB * T) * (9 * (1 + 2 * E / Eg) / (q E) ^ 2)) (fun E => skb_trs s Eg E T) T (3 / 4 * s * Eg / (kB * T)) HT) as (N & L & M & P & U).
    + apply cont_up. intros E HE. pose proof (Q E) as QE. apply (ex_derive_continuous (fun E => s / (kB * T) * (9 * (1 + 2 * E / Eg) / (q E) ^ 2))). unfold q in *. auto_derive. cbn [pow] in *. nra.
    + intros E HE. apply Rmult_lt_0_compat; [exact S0|]. assert (0 < 2 * E / Eg) by (apply Rdiv_lt_0_compat; lra). apply Rdiv_lt_0_compat; [lra|]. apply pow_lt, Q.
    + exact Hi. + exact Hp.
    + split; [unfold skb_trs, Rdiv; ring|]. intros E HE. pose proof (Q E) as QE. unfold q in *. unfold skb_trs. auto_derive; [cbn [pow] in *; repeat split; lra|]. field. repeat split; try lra. assert (0 < (1 + 2 * E / Eg) ^ 2 + 2) by exact QE. assert (P2 : 0 < Eg ^ 2) by nra. nra.
    + set (c := 3 / 4 * s * Eg / (kB * T)). assert (C0 : 0 < c) by (unfold c; apply Rdiv_lt_0_compat; [nra|lra]). apply is_lim_spec. intros eps. pose proof (cond_pos eps) as Pe. exists (c * Eg / eps). intros E HE. 
      assert (B0 : 0 < c * Eg / eps) by (apply Rdiv_lt_0_compat; [nra|lra]). assert (E0 : 0 < E) by lra. set (y := E / Eg). assert (Y : 0 < y) by (unfold y; apply Rdiv_lt_0_compat; lra). assert (D : 0 < 4 * y ^ 2 + 4 * y + 3) by nra.
      assert (F : skb_trs s Eg E T - c = - (3 * c / (4 * y ^ 2 + 4 * y + 3))). { unfold skb_trs, c. replace (2 * E / Eg) with (2 * y) by (unfold y, Rdiv; ring). replace (1 + E / Eg) with (1 + y) by reflexivity. replace E with (y * Eg) by (unfold y; field; lra). field. repeat split; nra. }
      rewrite F, Rabs_Ropp, Rabs_pos_eq by (apply Rlt_le, Rdiv_lt_0_compat; lra). apply (proj2 (Rlt_div_l (3 * c) eps (4 * y ^ 2 + 4 * y + 3) D)).
      apply (Rmult_lt_compat_r (eps / Eg)) in HE; [|apply Rdiv_lt_0_compat; lra]. replace (c * Eg / eps * (eps / Eg)) with c in HE by (field; lra). replace (E * (eps / Eg)) with (eps * y) in HE by (unfold y; field; lra). nra.
    + exists N. split; [intros EF; exact (proj1 (L EF))|]. split; [exact M|]. split; [exact P|exact U].
  - assert (F : forall EF, fermidirac (- EF / (kB * T)) = occupation EF T 0).
    { intros EF. unfold fermidirac, expit, occupation. f_equal. f_equal. f_equal. field. lra. }
    exists (fun EF => s * occupation EF T 0). split; [|split; [|split]].
    + intros EF. rewrite <- F. exact (C130_constant s EF T HT).
    + intros a b H. pose proof (occ_mono T HT a b 0 H). pose proof (occ_ratio T HT a b 0 ltac:(lra)) as Rr. split; [apply Rmult_lt_compat_l; lra|]. apply (Rmult_le_compat_l s) in Rr; lra.
    + intros EF. pose proof (occp T EF 0) as O. split; [apply Rmult_lt_0_compat; lra|]. cbn. rewrite <- (Rmult_1_r s) at 2. apply Rmult_lt_compat_l; lra.
    + intros v Hv Lt. cbn in Lt. assert (Q : 0 < s / v - 1). { assert (1 < s / v); [|lra]. apply (proj1 (Rlt_div_r 1 s v Hv)). lra. }
      exists (- (kB * T * ln (s / v - 1))). split.
      * unfold occupation. replace ((0 - - (kB * T * ln (s / v - 1))) / (kB * T)) with (ln (s / v - 1)) by (field; lra). rewrite exp_ln by exact Q. field. lra.
      * intros b Hb. set (a := - (kB * T * ln (s / v - 1))). assert (Ea : s * occupation a T 0 = v). { unfold occupation, a. replace ((0 - - (kB * T * ln (s / v - 1))) / (kB * T)) with (ln (s / v - 1)) by (field; lra). rewrite exp_ln by exact Q. field. lra. }
        destruct (Rtotal_order a b) as [L|[E|L]]; [|exact E|]; apply (occ_mono T HT _ _ 0) in L; nra.
Qed.
(** a Kane band with Eg = 0.1 eV and sigma0 = 1000 S/cm conducts less than 2902 S/cm at 300 K whatever its Fermi level; it reaches 2900 S/cm at exactly one *)
Example C139_case : exists C : R -> R, (forall EF, is_lim_seq (fun ndiv => romb_dfx (skb_trs 1000 0.1) EF 300 0 ndiv) (C EF)) /\ (forall EF, C EF < 2902) /\ exists! EF, C EF = 2900.
Proof.
  assert (T : 2901 <= 3 / 4 * 1000 * 0.1 / (kB * 300) <= 2902) by (split; [apply (proj1 (Rle_div_r 2901 (3 / 4 * 1000 * 0.1) (kB * 300) ltac:(unfold kB; lra)))|apply (proj2 (Rle_div_l (3 / 4 * 1000 * 0.1) 2902 (kB * 300) ltac:(unfold kB; lra)))]; unfold kB; lra).
  destruct (C139_conductivity 1000 0.1 300 ltac:(lra) ltac:(lra) ltac:(lra) (skb_trs 1000 0.1) (Finite (3 / 4 * 1000 * 0.1 / (kB * 300)))) as (C & L & _ & P & U); [right; left; reflexivity|].
  exists C. split; [exact L|]. split; [intros EF; specialize (P EF) as (_ & P2); cbn in P2; lra|]. apply U; [lra|cbn; lra].
Qed.
Example C139_case_concentration : exists N : R -> R, (forall EF, is_lim_seq (fun ndiv => romb_dfx (fun E _ => spb_idos 1 E) EF 300 0 ndiv) (N EF)) /\ exists! EF, N EF = 10.
Proof. destruct (C139_concentration 1 1 1 300 ltac:(lra) ltac:(lra) ltac:(lra) ltac:(lra) (spb_idos 1)) as (N & L & _ & _ & U); [left; reflexivity|]. exists N. split; [exact L|apply U; lra]. Qed.
Print Assumptions C139_levels.
Print Assumptions C139_concentration.
Print Assumptions C139_conductivity.
