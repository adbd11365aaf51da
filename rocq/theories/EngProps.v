(** C25-C33, C41: src/teflow/engout.py. *)
From Coq Require Import Sorted ZArith String.
From Verif Require Import Py PyStr RUtil MonoModel ZtModel ZtSpec EngModel EngSpec ZtProofs EngProofs.
Local Open Scope list_scope.
Local Open Scope R_scope.

(** ** C25 *)
(** [p] = profiles of a built device; [outputs p r] = result of [simulate(r)]. *)
Theorem C25_outputs :
  forall (L A : R) (w : bool) (i : itgs) (r : R),
  L <> 0 -> iRho i <> 0 ->
  let p := build L A w i in let o := outputs p r in
  oI o = r * pIsc p /\ oVout o = (1 - r) * pVoc p
  /\ oPout o = 1e-3 * oVout o * oI o /\ oYita o = 100 * oPout o / oQhot o.
Proof.
  intros L A w i r HL Hr p o.
  assert (Hp : p = build L A w i) by reflexivity. unfold build in Hp.
  destruct w; subst p o; cbn [outputs oI oVout oPout oYita oQhot build get_prfs pIsc pVoc pQx]; repeat split; try ring; field; auto.
Qed.
Print Assumptions C25_outputs.

Theorem C25_scaling :
  forall (L A c r : R) (w : bool) (i : itgs),
  L <> 0 -> c <> 0 -> iRho i <> 0 ->
  let o := outputs (build L A w i) r in
  let oL := outputs (build (c * L) A w i) r in let oA := outputs (build L (c * A) w i) r in
  oQhot o <> 0 ->
  (oI oL = oI o / c /\ oPout oL = oPout o / c /\ oQhot oL = oQhot o / c /\ oVout oL = oVout o /\ oYita oL = oYita o)
  /\ (oI oA = c * oI o /\ oPout oA = c * oPout o /\ oQhot oA = c * oQhot o /\ oVout oA = oVout o /\ oYita oA = oYita o).
Proof.
  intros L A c r w i HL Hc Hr o oL oA Hq.
  assert (EI : oI oL = oI o / c) by (unfold oL, o, build; destruct w; cbn; field; auto).
  assert (EP : oPout oL = oPout o / c) by (unfold oL, o, build; destruct w; cbn; field; auto).
  assert (EQ : oQhot oL = oQhot o / c).
  { unfold oL, o, build; destruct w; cbn; unfold Rdiv; rewrite Rinv_mult; ring. }
  assert (FI : oI oA = c * oI o) by (unfold oA, o, build; destruct w; cbn; field; auto).
  assert (FP : oPout oA = c * oPout o) by (unfold oA, o, build; destruct w; cbn; field; auto).
  assert (FQ : oQhot oA = c * oQhot o).
  { unfold oA, o, build; destruct w; cbn; unfold Rdiv; ring. }
  assert (YL : oYita oL = 100 * oPout oL / oQhot oL) by (unfold oL, build; destruct w; reflexivity).
  assert (YA : oYita oA = 100 * oPout oA / oQhot oA) by (unfold oA, build; destruct w; reflexivity).
  assert (Y : oYita o = 100 * oPout o / oQhot o) by (unfold o, build; destruct w; reflexivity).
  repeat split; try assumption.
  - unfold oL, o, build; destruct w; reflexivity.
  - rewrite YL, Y, EP, EQ. field. auto.
  - unfold oA, o, build; destruct w; reflexivity.
  - rewrite YA, Y, FP, FQ. field. auto.
Qed.
Print Assumptions C25_scaling.

(** ** C26 *)
Theorem C26_power_max :
  forall (p : prfs) (t : temps) (n : nat) (s : str), 0 < pQx p -> (exists s', s = "p"%char :: s' \/ s = "P"%char :: s') ->
  exists o, simulate (Some p) t (CStr s) n = Ok [o] /\
  forall r, oPout (outputs p r) <= oPout o /\ (oPout (outputs p r) = oPout o -> r = 1 / 2).
Proof.
  intros p t n s HQ (s' & Hs). exists (outputs p (1 / 2)). split.
  - unfold simulate, simulate_built, reduced_currents. destruct Hs as [->| ->]; reflexivity.
  - intros r. cbn. replace (pQx p * (r * (1 - r))) with (pQx p * (1 / 4) - pQx p * (r - 1 / 2) ^ 2) by field.
    replace (pQx p * (1 / 2 * (1 - 1 / 2))) with (pQx p * (1 / 4)) by field.
    pose proof (pow2_ge_0 (r - 1 / 2)) as H2. split; [nra|].
    intros E. assert (E0 : pQx p * (r - 1 / 2) ^ 2 = 0) by lra. apply Rmult_integral in E0 as [E0|E0]; [lra|].
    replace ((r - 1 / 2) ^ 2) with ((r - 1 / 2) * (r - 1 / 2)) in E0 by ring. apply Rmult_integral in E0. lra.
Qed.
Print Assumptions C26_power_max.

(** ** C27 *)
Lemma yita_eq p r : 0 < pQx p -> 0 < pDT p -> oQhot (outputs p r) <> 0 ->
  let D := 1 / pZeng p + mST (pmdfs p) * r - mRhoT (pmdfs p) * r * r in
  D <> 0 /\ oYita (outputs p r) = 100 * pDT p * (r * (1 - r)) / D /\ (0 < oQhot (outputs p r) -> 0 < D).
Proof.
  intros HQ HT Hq D. cbn in Hq |- *. fold D in Hq |- *.
  assert (HD : D <> 0). { intros E. apply Hq. rewrite E. unfold Rdiv. ring. }
  split; [exact HD|]. split; [field; repeat split; auto; lra|].
  intros Hp. apply Rmult_lt_reg_l with (pQx p / pDT p); [apply Rdiv_lt_0_compat; assumption|].
  rewrite Rmult_0_r. replace (pQx p / pDT p * D) with (pQx p * D / pDT p) by (field; lra). exact Hp.
Qed.

Theorem C27_yita_max :
  forall (L A : R) (w : bool) (i : itgs) (t : temps) (n : nat) (s : str),
  let p := build L A w i in
  0 < pQx p -> 0 < pDT p -> 0 < pZeng p -> 0 <= 1 + pZTp p ->
  (forall q, 0 <= q <= 1 -> 0 < oQhot (outputs p q)) ->
  (exists s', s = "y"%char :: s' \/ s = "Y"%char :: s') ->
  exists o, simulate (Some p) t (CStr s) n = Ok [o] /\
  forall q, 0 < oQhot (outputs p q) -> oYita (outputs p q) <= oYita o.
Proof.
  intros L A w i t n s p HQ HT HZ HZT Hreg (s' & Hs).
  set (m := pm_opt p). set (r := 1 / (1 + m)). exists (outputs p r). split.
  - unfold simulate, simulate_built, reduced_currents. destruct Hs as [->| ->]; reflexivity.
  - intros q Hq.
    assert (Hm : m = sqrt (1 + pZTp p)) by (unfold m, p, build; destruct w; reflexivity).
    assert (Hm0 : 0 <= m) by (rewrite Hm; apply sqrt_pos).
    assert (Hmm : m * m = 1 + pZTp p) by (rewrite Hm; apply sqrt_sqrt; exact HZT).
    assert (HZp : pZTp p = pZeng p * (mST (pmdfs p) - mRhoT (pmdfs p))) by (unfold p, build; destruct w; reflexivity).
    assert (Hr : 0 <= r <= 1).
    { unfold r. split; [apply Rlt_le, Rdiv_lt_0_compat; lra|]. apply Rmult_le_reg_r with (1 + m); [lra|].
      unfold Rdiv. rewrite Rmult_assoc, Rinv_l by lra. lra. }
    specialize (Hreg r Hr).
    destruct (yita_eq p q HQ HT ltac:(lra)) as (HDq & Eq & Pq). destruct (yita_eq p r HQ HT ltac:(lra)) as (HDr & Er & Pr).
    specialize (Pq Hq). specialize (Pr Hreg). rewrite Eq, Er.
    set (a := 1 / pZeng p) in *. set (sT := mST (pmdfs p)) in *. set (rT := mRhoT (pmdfs p)) in *.
    set (Dq := a + sT * q - rT * q * q) in *. set (Dr := a + sT * r - rT * r * r) in *.
    assert (Ha : 0 < a) by (apply Rdiv_lt_0_compat; lra).
    assert (Hst : sT - rT = a * (m * m - 1)).
    { unfold a. rewrite Hmm, HZp. field. lra. }
    assert (Hmr : m * r = 1 - r) by (unfold r; field; lra).
    assert (Key : r * (1 - r) * Dq - q * (1 - q) * Dr = a * m * (r - q) ^ 2).
    { unfold Dq, Dr.
      replace (r * (1 - r) * (a + sT * q - rT * q * q) - q * (1 - q) * (a + sT * r - rT * r * r))
        with ((r - q) * (a * (1 - r - q) - (sT - rT) * (r * q))) by ring.
      rewrite Hst. replace (a * (m * m - 1) * (r * q)) with (a * q * (m * (m * r) - r)) by ring. rewrite Hmr.
      replace (a * q * (m * (1 - r) - r)) with (a * q * (m - m * r - r)) by ring. rewrite Hmr.
      replace (a * (1 - r - q) - a * q * (m - (1 - r) - r)) with (a * ((1 - r) - m * q)) by ring. rewrite <- Hmr. ring. }
    assert (Hk : 0 <= a * m * (r - q) ^ 2) by (apply Rmult_le_pos; [apply Rmult_le_pos; lra|apply pow2_ge_0]).
    assert (Hle : q * (1 - q) / Dq <= r * (1 - r) / Dr).
    { apply Rmult_le_reg_r with (Dq * Dr); [apply Rmult_lt_0_compat; assumption|].
      replace (q * (1 - q) / Dq * (Dq * Dr)) with (q * (1 - q) * Dr) by (field; lra).
      replace (r * (1 - r) / Dr * (Dq * Dr)) with (r * (1 - r) * Dq) by (field; lra). lra. }
    replace (100 * pDT p * (q * (1 - q)) / Dq) with (100 * pDT p * (q * (1 - q) / Dq)) by (field; lra).
    replace (100 * pDT p * (r * (1 - r)) / Dr) with (100 * pDT p * (r * (1 - r) / Dr)) by (field; lra).
    apply Rmult_le_compat_l; [lra|exact Hle].
Qed.
Print Assumptions C27_yita_max.

(** ** C32 *)
(** [tab_int f d Tc Th]: the integral of the tabulated property f computed by build. *)
Theorem C32_grid_points :
  forall (f : tp -> R) (pre mid post : list tp) (a b : tp),
  let d := pre ++ a :: mid ++ b :: post in
  increasing_T d -> tab_int f d (tT a) (tT b) = trapezoids f (a :: mid ++ [b]).
Proof. intros; apply tab_int_nodes; assumption. Qed.
Print Assumptions C32_grid_points.

Theorem C32_additive :
  forall (f : tp -> R) (d : list tp) (T1 T2 T3 : R),
  tab_int f d T1 T2 + tab_int f d T2 T3 = tab_int f d T1 T3 /\ tab_int f d T1 T1 = 0.
Proof. intros. unfold tab_int. split; ring. Qed.
Print Assumptions C32_additive.

Theorem C32_positive :
  forall (f : tp -> R) (d : list tp) (Tc Th : R),
  increasing_T d -> d <> [] -> (forall p, In p d -> 0 < f p) ->
  tT (hd (TP 0 0 0 0) d) <= Tc -> Tc < Th -> Th <= tT (last d (TP 0 0 0 0)) -> 0 < tab_int f d Tc Th.
Proof. intros f d Tc Th H Hne Hp. apply tab_int_pos; [exact H|exact Hne|]. apply Forall_forall; exact Hp. Qed.
Print Assumptions C32_positive.

Theorem C32_clamped :
  forall (f : tp -> R) (d : list tp) (T : R),
  increasing_T d -> d <> [] ->
  let T0 := tT (hd (TP 0 0 0 0) d) in let Tn := tT (last d (TP 0 0 0 0)) in
  forall T', (T <= T0 -> tab_int f d T T' = tab_int f d T0 T' /\ tab_int f d T' T = tab_int f d T' T0)
    /\ (Tn <= T -> tab_int f d T T' = tab_int f d Tn T' /\ tab_int f d T' T = tab_int f d T' Tn).
Proof.
  intros f d T H Hne T0 Tn T'. unfold tab_int. destruct (cum_ends 0 f d Hne) as (E1 & E2). fold (cumtrapz (graph f d)) in E1, E2.
  pose proof (incr_cum f d H) as Hi. set (c := cumtrapz _) in *.
  assert (Hc : c <> []). { unfold c, cumtrapz. destruct d as [|x [|y d]]; [congruence|discriminate|discriminate]. }
  split; intros HT.
  - rewrite (tab_below c T Hi Hc) by (rewrite E1; exact HT). rewrite E1. split; reflexivity.
  - rewrite (tab_above c T Hi Hc) by (rewrite E2; exact HT). rewrite E2. split; reflexivity.
Qed.
Print Assumptions C32_clamped.

Lemma yita_const_alg Z Tc Th Q : 0 < Z -> 0 < Tc -> Tc < Th -> Q <> 0 ->
  let m := sqrt (1 + Z * ((Th + Tc) / 2)) in let r := 1 / (1 + m) in
  100 * (Q * (r * (1 - r))) / (Q * (1 / Z + Th * r - (Th - Tc) / 2 * r * r) / (Th - Tc)) = yita_textbook (Z * ((Th + Tc) / 2)) Tc Th.
Proof.
  intros HZ HTc HT EQ m r. unfold yita_textbook. fold m. set (ZT := Z * ((Th + Tc) / 2)) in *.
  assert (HZT : 0 < ZT) by (unfold ZT; apply Rmult_lt_0_compat; lra).
  assert (Hm : 1 < m). { unfold m. rewrite <- sqrt_1 at 1. apply sqrt_lt_1_alt. lra. }
  assert (Hmm : m * m = 1 + ZT) by (unfold m; apply sqrt_sqrt; lra). clearbody m.
  assert (Hm1 : m * m - 1 <> 0) by nra.
  assert (HZm : 1 / Z = (Th + Tc) / 2 / (m * m - 1)).
  { replace (m * m - 1) with ZT by lra. unfold ZT. field. repeat split; lra. }
  assert (HD : 1 / Z + Th * r - (Th - Tc) / 2 * r * r = m * (m * Th + Tc) / ((m - 1) * (1 + m) * (1 + m))).
  { rewrite HZm. unfold r. field. repeat split; nra. }
  rewrite HD. unfold r.
  assert (0 < m * Th + Tc) by nra.
  field. repeat split; try exact EQ; try lra; try nra.
Qed.

(** ** C28 *)
(** Constant properties: conductivity, Seebeck coefficient and thermal conductivity the same at
    every grid point; Tc and Th are grid points. *)
Section Constant.
Variables (pre mid post : list tp) (a b : tp) (c s k : R).
Let d := pre ++ a :: mid ++ b :: post.
Let Tc := tT a.
Let Th := tT b.
Hypothesis Hinc : increasing_T d.
Hypothesis Hconst : forall p, In p d -> tC p = c /\ tS p = s /\ tK p = k.
Hypothesis Hpos : 0 < c /\ s <> 0 /\ 0 < k /\ 0 < Tc.
Let rho := 1e4 / c.
Let Z := 1e-6 * (s * s) / (rho * k).

Lemma const_order : Tc < Th.
Proof.
  unfold d, increasing_T in Hinc. apply StronglySorted_app_inv in Hinc as (_ & H & _). inversion H as [|? ? _ Hf]; subst.
  rewrite Forall_forall in Hf. apply Hf. apply in_or_app; right; left; reflexivity.
Qed.
Lemma in_seg p : In p (a :: mid ++ [b]) -> In p d.
Proof.
  intros H. unfold d. apply in_or_app; right. destruct H as [->|H]; [left; reflexivity|right].
  apply in_app_or in H as [H|[->|[]]]; apply in_or_app; [left; exact H|right; left; reflexivity].
Qed.
Lemma const_int f al be : (forall p, In p d -> f p = al + be * tT p) ->
  tab_int f d Tc Th = al * (Th - Tc) + be * (Th * Th - Tc * Tc) / 2.
Proof.
  intros H. unfold d, Tc, Th. rewrite tab_int_nodes by exact Hinc. rewrite (trapezoids_affine f al be).
  - rewrite last_last. reflexivity.
  - intros p Hp. apply H, in_seg, Hp.
Qed.
Lemma const_itgs :
  let i := itgs_tab d Tc Th in
  iTc i = Tc /\ iTh i = Th /\ iDT i = Th - Tc /\ iRho i = rho * (Th - Tc) /\ iS i = s * (Th - Tc) /\ iK i = k * (Th - Tc)
  /\ iRhoT i = rho * (Th * Th - Tc * Tc) / 2 /\ iST i = s * (Th * Th - Tc * Tc) / 2.
Proof.
  cbn. repeat split.
  - rewrite (const_int _ rho 0); [field|]. intros p Hp. unfold rho_of, rho. destruct (Hconst p Hp) as (-> & _). ring.
  - rewrite (const_int _ s 0); [field|]. intros p Hp. destruct (Hconst p Hp) as (_ & -> & _). ring.
  - rewrite (const_int _ k 0); [field|]. intros p Hp. destruct (Hconst p Hp) as (_ & _ & ->). ring.
  - rewrite (const_int _ 0 rho); [field|]. intros p Hp. unfold rho_of, rho. destruct (Hconst p Hp) as (-> & _). ring.
  - rewrite (const_int _ 0 s); [field|]. intros p Hp. destruct (Hconst p Hp) as (_ & -> & _). ring.
Qed.
Lemma rho_pos : 0 < rho. Proof. apply Rdiv_lt_0_compat; lra. Qed.
Lemma Z_pos : 0 < Z.
Proof.
  pose proof rho_pos. unfold Z. apply Rdiv_lt_0_compat; [|apply Rmult_lt_0_compat; lra].
  apply Rmult_lt_0_compat; [lra|]. destruct Hpos as (_ & Hs & _). apply Rsqr_pos_lt in Hs. exact Hs.
Qed.
Lemma const_prfs L A w :
  let p := build L A w (itgs_tab d Tc Th) in
  pZTeng p = Z * (Th - Tc) /\ pZeng p = Z /\ pZTp p = Z * ((Th + Tc) / 2) /\ pm_opt p = sqrt (1 + Z * ((Th + Tc) / 2))
  /\ mST (pmdfs p) = Th /\ mRhoT (pmdfs p) = (Th - Tc) / 2 /\ pDT p = Th - Tc
  /\ (L <> 0 -> A <> 0 -> pQx p <> 0).
Proof.
  destruct const_itgs as (E1 & E2 & E3 & E4 & E5 & E6 & E7 & E8). revert E1 E2 E3 E4 E5 E6 E7 E8.
  generalize (itgs_tab d Tc Th) as i. intros i E1 E2 E3 E4 E5 E6 E7 E8 p.
  pose proof const_order as HT. pose proof rho_pos as Hr. destruct Hpos as (Hc & Hs & Hk & HTc).
  assert (EZ : pZeng p = Z). { unfold p, build. destruct w; cbn; rewrite E4, E5, E6; unfold Z; field; repeat split; lra. }
  assert (EM : mST (pmdfs p) = Th). { unfold p, build. destruct w; cbn; rewrite E8, E5, E1; field; repeat split; lra. }
  assert (EN : mRhoT (pmdfs p) = (Th - Tc) / 2). { unfold p, build. destruct w; cbn; rewrite E7, E4, E1; field; repeat split; lra. }
  assert (ED : pDT p = Th - Tc) by (unfold p, build; destruct w; cbn; exact E3).
  assert (EP : pZTp p = Z * ((Th + Tc) / 2)).
  { replace (pZTp p) with (pZeng p * (mST (pmdfs p) - mRhoT (pmdfs p))) by (unfold p, build; destruct w; reflexivity).
    rewrite EZ, EM, EN. field. }
  repeat split; try assumption.
  - replace (pZTeng p) with (pZeng p * pDT p) by (unfold p, build; destruct w; reflexivity). rewrite EZ, ED. reflexivity.
  - rewrite <- EP. unfold p, build; destruct w; reflexivity.
  - intros HL HA. assert (EQ : pQx p = 1e-3 * (1e-6 * (s * s) / rho * (Th - Tc)) * (Th - Tc) * (A / L)).
    { unfold p, build. destruct w; cbn; rewrite E3, E4, E5; field; repeat split; lra. }
    rewrite EQ. apply Rmult_integral_contrapositive_currified; [|apply Rmult_integral_contrapositive_currified; [exact HA|apply Rinv_neq_0_compat; exact HL]].
    assert (Hss : 0 < s * s) by (apply Rsqr_pos_lt in Hs; exact Hs).
    assert (0 < 1e-6 * (s * s) / rho) by (apply Rdiv_lt_0_compat; [apply Rmult_lt_0_compat; lra|exact Hr]).
    set (q := 1e-6 * (s * s) / rho) in *.
    apply Rgt_not_eq. apply Rmult_lt_0_compat; [apply Rmult_lt_0_compat; [lra|apply Rmult_lt_0_compat; lra]|lra].
Qed.

Lemma const_yita L A w : L <> 0 -> A <> 0 ->
  let p := build L A w (itgs_tab d Tc Th) in
  oYita (outputs p (1 / (1 + pm_opt p))) = yita_textbook (Z * ((Th + Tc) / 2)) Tc Th.
Proof.
  intros HL HA p. destruct (const_prfs L A w) as (_ & EZ & _ & EM & ES & ER & ED & EQ). fold p in EZ, EM, ES, ER, ED, EQ.
  specialize (EQ HL HA). pose proof const_order as HT. destruct Hpos as (Hc & Hs & Hk & HTc). pose proof Z_pos as HZ.
  cbn [outputs oYita]. rewrite EM, EZ, ES, ER, ED. exact (yita_const_alg Z Tc Th (pQx p) HZ HTc HT EQ).
Qed.

Lemma const_below_carnot : 0 < yita_textbook (Z * ((Th + Tc) / 2)) Tc Th < 100 * (1 - Tc / Th).
Proof.
  pose proof const_order as HT. destruct Hpos as (Hc & Hs & Hk & HTc). pose proof Z_pos as HZ. unfold yita_textbook.
  set (ZT := Z * ((Th + Tc) / 2)). set (m := sqrt (1 + ZT)).
  assert (HZT : 0 < ZT).
  { assert (Hsum : 0 < (Th + Tc) / 2) by lra. exact (Rmult_lt_0_compat _ _ HZ Hsum). }
  assert (Hm : 1 < m). { unfold m. rewrite <- sqrt_1 at 1. apply sqrt_lt_1_alt. lra. }
  assert (Hq : 0 < Tc / Th) by (apply Rdiv_lt_0_compat; lra).
  replace (100 * ((Th - Tc) / Th)) with (100 * (1 - Tc / Th)) by (field; lra).
  assert (Hq1 : Tc / Th < 1). { apply Rmult_lt_reg_r with Th; [lra|]. unfold Rdiv. rewrite Rmult_assoc, Rinv_l by lra. lra. }
  assert (Hf : 0 < (m - 1) / (m + Tc / Th) < 1).
  { split; [apply Rdiv_lt_0_compat; lra|]. apply Rmult_lt_reg_r with (m + Tc / Th); [lra|]. 
    unfold Rdiv at 1. rewrite Rmult_assoc, Rinv_l by lra. lra. }
  set (g := (m - 1) / (m + Tc / Th)) in *. set (h := Tc / Th) in *. split; nra.
Qed.
End Constant.

Theorem C28_constant_properties :
  forall (pre mid post : list tp) (a b : tp) (c s k L A : R) (w : bool) (t : temps) (n : nat),
  let d := pre ++ a :: mid ++ b :: post in let Tc := tT a in let Th := tT b in
  increasing_T d -> (forall p, In p d -> tC p = c /\ tS p = s /\ tK p = k) ->
  0 < c -> s <> 0 -> 0 < k -> 0 < Tc -> L <> 0 -> A <> 0 ->
  let rho := 1e4 / c in                               (* uOhm.m *)
  let Z := (1e-6 * s) ^ 2 / ((1e-6 * rho) * k) in     (* SI *)
  let ZTm := Z * ((Th + Tc) / 2) in
  let p := build L A w (itgs_tab d Tc Th) in
  pZTeng p = Z * (Th - Tc)
  /\ exists o, simulate (Some p) t (CStr (S_ "YitaMax")) n = Ok [o]
       /\ oYita o = yita_textbook ZTm Tc Th
       /\ 0 < oYita o < 100 * (1 - Tc / Th)
       /\ (1e-3 < Rabs (Th * (1 - oYita o / 100) - Tc) -> cal_ZTdev (oYita o) Tc Th = ZTm).
Proof.
  intros pre mid post a b c s k L A w t n d Tc Th Hinc Hc H1 H2 H3 H4 H5 H6 rho Z ZTm p.
  assert (Hpos : 0 < c /\ s <> 0 /\ 0 < k /\ 0 < tT a) by auto.
  assert (EZ : 1e-6 * (s * s) / (1e4 / c * k) = Z).
  { unfold Z, rho. field. split; lra. }
  destruct (const_prfs pre mid post a b c s k Hinc Hc Hpos L A w) as (E & _).
  rewrite EZ in E. split; [exact E|].
  exists (outputs p (1 / (1 + pm_opt p))). split; [reflexivity|].
  pose proof (const_yita pre mid post a b c s k Hinc Hc Hpos L A w H5 H6) as EY. rewrite EZ in EY.
  pose proof (const_below_carnot pre mid post a b c s k Hinc Hpos) as HB. rewrite EZ in HB.
  fold d Tc Th in EY, HB. cbv zeta in EY. fold p in EY. rewrite EY. fold ZTm in HB |- *. split; [reflexivity|]. split; [exact HB|].
  apply ZTdev_textbook; [exact H4| |].
  - exact (const_order pre mid post a b c s k Hinc).
  - unfold ZTm. rewrite <- EZ. apply Rmult_le_pos.
    + left. exact (Z_pos a c s k Hpos).
    + pose proof (const_order pre mid post a b c s k Hinc). unfold Th, Tc. lra.
Qed.
Print Assumptions C28_constant_properties.

(** ** C29, C30: geometry of a p-n pair *)
(** [pZTeng (build L A w (merge rL rA p n))]: ZTeng of the pair with length ratio rL = Ln/Lp and
    area ratio rA = An/Ap. *)
Definition ZT_of (L A : R) (p n : itgs) (rL rA : R) : R := pZTeng (build L A true (merge rL rA p n)).
Definition PF_of (L A : R) (p n : itgs) (rL rA : R) : R := pPFeng (build L A true (merge rL rA p n)).

Lemma PF_form L A p n rL rA : PF_of L A p n rL rA = 1e-6 * (iS p - iS n) * (iS p - iS n) / ((1 + rA) * (iRho p + iRho n * rL / rA)).
Proof.
  unfold PF_of. cbn. f_equal. unfold Rdiv. ring.
Qed.
Lemma ZT_form L A p n rL rA : 0 < rA -> 0 < rL -> pos_itgs p -> pos_itgs n -> ZT_of L A p n rL rA
  = 1e-6 * (iS p - iS n) * (iS p - iS n) * ((iDT p + iDT n) / 2) / ((iRho p + iRho n * rL / rA) * (iK p + iK n * rA / rL)).
Proof.
  intros HA HL (Hrp & Hkp) (Hrn & Hkn). unfold ZT_of. cbn.
  assert (0 < iRho p * rA + iRho n * rL) by nra. assert (0 < iK p * rL + iK n * rA) by nra.
  field. repeat split; try lra; try nra.
Qed.

(** AM-GM: x + c/x is minimal exactly at sqrt c *)
Lemma amgm a b x : 0 < a -> 0 < b -> 0 < x ->
  let x0 := sqrt (b / a) in
  a * x0 + b / x0 <= a * x + b / x /\ (a * x0 + b / x0 = a * x + b / x -> x = x0).
Proof.
  intros Ha Hb Hx x0.
  assert (Hq : 0 < b / a) by (apply Rdiv_lt_0_compat; assumption).
  assert (H0 : 0 < x0) by (apply sqrt_lt_R0; exact Hq).
  assert (Hb' : b = a * (x0 * x0)). { unfold x0. rewrite sqrt_sqrt by lra. field. lra. }
  assert (E : a * x + b / x - (a * x0 + b / x0) = a * (x - x0) ^ 2 / x).
  { rewrite Hb'. field. split; lra. }
  assert (Hn : 0 <= a * (x - x0) ^ 2 / x).
  { apply Rmult_le_pos; [apply Rmult_le_pos; [lra|apply pow2_ge_0]|left; apply Rinv_0_lt_compat; exact Hx]. }
  split; [lra|]. intros Ee. assert (E0 : a * (x - x0) ^ 2 / x = 0) by lra.
  apply Rmult_integral in E0 as [E0|E0]; [|pose proof (Rinv_neq_0_compat x); lra].
  apply Rmult_integral in E0 as [E0|E0]; [lra|].
  replace ((x - x0) ^ 2) with ((x - x0) * (x - x0)) in E0 by ring. apply Rmult_integral in E0. lra.
Qed.
Lemma div_le_den N d1 d2 : 0 < N -> 0 < d1 -> 0 < d2 -> d1 <= d2 -> N / d2 <= N / d1 /\ (N / d2 = N / d1 -> d1 = d2).
Proof.
  intros HN H1 H2 H. split.
  - apply Rmult_le_compat_l; [lra|]. apply Rinv_le_contravar; assumption.
  - intros E. unfold Rdiv in E. apply Rmult_eq_reg_l in E; [|lra]. apply (f_equal Rinv) in E. rewrite !Rinv_inv in E. lra.
Qed.

(** The true optimum, and what [ratioArea='ZTengMax'] uses. *)
Theorem C29_ZTengMax :
  forall (L A : R) (p n : itgs) (rL : R),
  0 < rL -> pos_itgs p -> pos_itgs n -> iS p <> iS n -> 0 < iDT p + iDT n ->
  let best := rL * sqrt (iRho n * iK p / (iRho p * iK n)) in
  let used := rL * sqrt (iRho p * iK n / (iRho n * iK p)) in
  (forall rA, 0 < rA -> ZT_of L A p n rL rA <= ZT_of L A p n rL best
      /\ (ZT_of L A p n rL rA = ZT_of L A p n rL best -> rA = best))
  /\ pair_build L A p n rL (RStr (S_ "ZTengMax")) false = Ok (used, build L A true (merge rL used p n))
  /\ (ZT_of L A p n rL used = ZT_of L A p n rL best <-> iRho p * iK n = iRho n * iK p)
  /\ (iRho p * iK n <> iRho n * iK p -> ZT_of L A p n rL used < ZT_of L A p n rL best).
Proof.
  intros L A p n rL HL Hp Hn HS HD best used. pose proof Hp as (Hrp & Hkp). pose proof Hn as (Hrn & Hkn).
  assert (Hpn : 0 < iRho p * iK n) by (apply Rmult_lt_0_compat; assumption).
  assert (Hnp : 0 < iRho n * iK p) by (apply Rmult_lt_0_compat; assumption).
  assert (Hsb : 0 < sqrt (iRho n * iK p / (iRho p * iK n))) by (apply sqrt_lt_R0, Rdiv_lt_0_compat; assumption).
  assert (Hsu : 0 < sqrt (iRho p * iK n / (iRho n * iK p))) by (apply sqrt_lt_R0, Rdiv_lt_0_compat; assumption).
  assert (Hb : 0 < best) by (apply Rmult_lt_0_compat; assumption).
  assert (Hu : 0 < used) by (apply Rmult_lt_0_compat; assumption).
  set (N := 1e-6 * (iS p - iS n) * (iS p - iS n) * ((iDT p + iDT n) / 2)).
  assert (HN : 0 < N).
  { unfold N. assert (0 < (iS p - iS n) * (iS p - iS n)) by (apply Rsqr_pos_lt; lra).
    apply Rmult_lt_0_compat; [|lra]. rewrite Rmult_assoc. apply Rmult_lt_0_compat; lra. }
  set (g := fun rA => (iRho p + iRho n * rL / rA) * (iK p + iK n * rA / rL)).
  assert (Hg : forall rA, 0 < rA -> g rA = iRho p * iK p + iRho n * iK n + (iRho p * iK n * (rA / rL) + iRho n * iK p / (rA / rL))).
  { intros rA HA. unfold g. field. lra. }
  assert (Hgp : forall rA, 0 < rA -> 0 < g rA).
  { intros rA HA. rewrite Hg by exact HA. assert (0 < rA / rL) by (apply Rdiv_lt_0_compat; assumption).
    assert (0 < iRho p * iK n * (rA / rL)) by (apply Rmult_lt_0_compat; assumption).
    assert (0 < iRho n * iK p / (rA / rL)) by (apply Rdiv_lt_0_compat; assumption). nra. }
  assert (HZ : forall rA, 0 < rA -> ZT_of L A p n rL rA = N / g rA) by (intros; apply ZT_form; assumption).
  assert (Hbr : best / rL = sqrt (iRho n * iK p / (iRho p * iK n))) by (unfold best; field; lra).
  assert (Hopt : forall rA, 0 < rA -> ZT_of L A p n rL rA <= ZT_of L A p n rL best
      /\ (ZT_of L A p n rL rA = ZT_of L A p n rL best -> rA = best)).
  { intros rA HA. rewrite !HZ by assumption.
    assert (Hx : 0 < rA / rL) by (apply Rdiv_lt_0_compat; assumption).
    destruct (amgm _ _ (rA / rL) Hpn Hnp Hx) as (Hle & Heq). cbv zeta in Hle, Heq. rewrite <- Hbr in Hle, Heq.
    assert (Hgle : g best <= g rA) by (rewrite !Hg by assumption; lra).
    destruct (div_le_den N (g best) (g rA) HN (Hgp _ Hb) (Hgp _ HA) Hgle) as (H1 & H2). split; [exact H1|].
    intros E. apply H2 in E. rewrite !Hg in E by assumption. assert (E' : rA / rL = best / rL) by (apply Heq; lra).
    apply (f_equal (fun z => z * rL)) in E'. unfold Rdiv in E'. rewrite !Rmult_assoc, Rinv_l in E' by lra. lra. }
  assert (Hiff : ZT_of L A p n rL used = ZT_of L A p n rL best <-> iRho p * iK n = iRho n * iK p).
  { split.
    - intros E. apply (Hopt used Hu) in E. unfold used, best in E. apply Rmult_eq_reg_l in E; [|lra].
      apply sqrt_inj in E; [|left; apply Rdiv_lt_0_compat; assumption|left; apply Rdiv_lt_0_compat; assumption].
      set (x := iRho p * iK n) in *. set (y := iRho n * iK p) in *.
      assert (E2 : x * x = y * y). { apply (f_equal (fun z => z * (x * y))) in E. field_simplify in E; [lra|lra|lra]. }
      assert ((x - y) * (x + y) = 0) by (ring_simplify; lra). apply Rmult_integral in H as [H|H]; lra.
    - intros E. unfold used, best. rewrite E. reflexivity. }
  split; [exact Hopt|]. split; [|split; [exact Hiff|]].
  - unfold pair_build, ratio_area. cbn [first_lower]. replace (first_lower (S_ "ZTengMax") "z") with true by reflexivity.
    cbn [rbind]. replace (iRho p / iRho n * iK n / iK p) with (iRho p * iK n / (iRho n * iK p)) by (field; lra). reflexivity.
  - intros Hne. destruct (Hopt used Hu) as (H1 & H2). destruct (Req_dec (ZT_of L A p n rL used) (ZT_of L A p n rL best)) as [E|E]; [|lra].
    exfalso. apply Hne, Hiff, E.
Qed.
Print Assumptions C29_ZTengMax.

Theorem C30_PFengMax :
  forall (L A : R) (p n : itgs) (rL : R),
  0 < rL -> 0 < iRho p -> 0 < iRho n -> iS p <> iS n ->
  let best := sqrt (rL * iRho n / iRho p) in
  let used := sqrt (rL * iRho p / iRho n) in
  (forall rA, 0 < rA -> PF_of L A p n rL rA <= PF_of L A p n rL best
      /\ (PF_of L A p n rL rA = PF_of L A p n rL best -> rA = best))
  /\ pair_build L A p n rL (RStr (S_ "PFengMax")) false = Ok (used, build L A true (merge rL used p n))
  /\ (PF_of L A p n rL used = PF_of L A p n rL best <-> iRho p = iRho n).
Proof.
  intros L A p n rL HL Hrp Hrn HS best used.
  assert (Hq : 0 < rL * iRho n / iRho p) by (apply Rdiv_lt_0_compat; [apply Rmult_lt_0_compat|]; assumption).
  assert (Hq' : 0 < rL * iRho p / iRho n) by (apply Rdiv_lt_0_compat; [apply Rmult_lt_0_compat|]; assumption).
  assert (Hb : 0 < best) by (apply sqrt_lt_R0; exact Hq).
  assert (Hu : 0 < used) by (apply sqrt_lt_R0; exact Hq').
  set (N := 1e-6 * (iS p - iS n) * (iS p - iS n)).
  assert (HN : 0 < N).
  { unfold N. assert (0 < (iS p - iS n) * (iS p - iS n)) by (apply Rsqr_pos_lt; lra). rewrite Rmult_assoc. apply Rmult_lt_0_compat; lra. }
  set (g := fun rA => (1 + rA) * (iRho p + iRho n * rL / rA)).
  assert (Hg : forall rA, 0 < rA -> g rA = iRho p + iRho n * rL + (iRho p * rA + (rL * iRho n) / rA)).
  { intros rA HA. unfold g. field. lra. }
  assert (Hc : 0 < rL * iRho n) by (apply Rmult_lt_0_compat; assumption).
  assert (Hgp : forall rA, 0 < rA -> 0 < g rA).
  { intros rA HA. rewrite Hg by exact HA. assert (0 < iRho p * rA) by (apply Rmult_lt_0_compat; assumption).
    assert (0 < rL * iRho n / rA) by (apply Rdiv_lt_0_compat; assumption). lra. }
  assert (HZ : forall rA, PF_of L A p n rL rA = N / g rA) by (intros; apply PF_form).
  assert (Hopt : forall rA, 0 < rA -> PF_of L A p n rL rA <= PF_of L A p n rL best
      /\ (PF_of L A p n rL rA = PF_of L A p n rL best -> rA = best)).
  { intros rA HA. rewrite !HZ. destruct (amgm _ _ rA Hrp Hc HA) as (Hle & Heq). cbv zeta in Hle, Heq.
    fold best in Hle, Heq.
    assert (Hgle : g best <= g rA) by (rewrite !Hg by assumption; lra).
    destruct (div_le_den N (g best) (g rA) HN (Hgp _ Hb) (Hgp _ HA) Hgle) as (H1 & H2). split; [exact H1|].
    intros E. apply H2 in E. rewrite !Hg in E by assumption. apply Heq; lra. }
  split; [exact Hopt|]. split.
  - reflexivity.
  - split.
    + intros E. apply (Hopt used Hu) in E. unfold used, best in E. apply sqrt_inj in E; [|lra|lra].
      assert (E2 : iRho p * iRho p = iRho n * iRho n).
      { apply (f_equal (fun z => z * (iRho p * iRho n))) in E. 
        replace (rL * iRho p / iRho n * (iRho p * iRho n)) with (rL * (iRho p * iRho p)) in E by (field; lra).
        replace (rL * iRho n / iRho p * (iRho p * iRho n)) with (rL * (iRho n * iRho n)) in E by (field; lra).
        apply Rmult_eq_reg_l in E; lra. }
      assert ((iRho p - iRho n) * (iRho p + iRho n) = 0) by (ring_simplify; lra). apply Rmult_integral in H as [H|H]; lra.
    + intros E. unfold used, best. rewrite E. reflexivity.
Qed.
Print Assumptions C30_PFengMax.

(** ** C31 *)
(** The five integrals in polynomial mode, against any antiderivative of the integrand. *)
Theorem C31_polynomial_integrals :
  forall (Rho S K : poly) (Tc Th : R),
  let i := itgs_poly Rho S K Tc Th in
  (forall F, antiderivative_of F (peval Rho) -> iRho i = F Th - F Tc)
  /\ (forall F, antiderivative_of F (peval S) -> iS i = F Th - F Tc)
  /\ (forall F, antiderivative_of F (peval K) -> iK i = F Th - F Tc)
  /\ (forall F, antiderivative_of F (fun T => T * peval Rho T) -> iRhoT i = F Th - F Tc)
  /\ (forall F, antiderivative_of F (fun T => T * peval Rho T) -> iST i = F Th - F Tc).
Proof.
  intros Rho S K Tc Th i.
  assert (HT : antiderivative_of (peval (pinteg (pmulT Rho))) (fun T => T * peval Rho T)).
  { intros x. pose proof (pinteg_antideriv (pmulT Rho) x) as H. cbn [pmulT peval] in H. rewrite Rplus_0_l in H. exact H. }
  repeat split; intros F HF; cbn [i itgs_poly iRho iS iK iRhoT iST].
  - exact (antideriv_unique _ _ _ (pinteg_antideriv Rho) HF Tc Th).
  - exact (antideriv_unique _ _ _ (pinteg_antideriv S) HF Tc Th).
  - exact (antideriv_unique _ _ _ (pinteg_antideriv K) HF Tc Th).
  - exact (antideriv_unique _ _ _ HT HF Tc Th).
  - exact (antideriv_unique _ _ _ HT HF Tc Th).
Qed.
Print Assumptions C31_polynomial_integrals.

Theorem C31_ST_wrong_unless_equal :
  forall (Rho S K : poly) (F : R -> R), antiderivative_of F (fun T => T * peval S T) ->
  ((forall Tc Th, iST (itgs_poly Rho S K Tc Th) = F Th - F Tc) <-> forall T, peval S T = peval Rho T).
Proof.
  intros Rho S K F HF.
  assert (HT : antiderivative_of (peval (pinteg (pmulT Rho))) (fun T => T * peval Rho T)).
  { intros x. pose proof (pinteg_antideriv (pmulT Rho) x) as H. cbn [pmulT peval] in H. rewrite Rplus_0_l in H. exact H. }
  split.
  - intros H. cbn [itgs_poly iST] in H.
    assert (Hd : forall x, x * peval S x = x * peval Rho x).
    { intros x. apply (uniqueness_limite F x); [apply HF|].
      replace F with (fun t => peval (pinteg (pmulT Rho)) t + (F 0 - peval (pinteg (pmulT Rho)) 0)).
      - replace (x * peval Rho x) with (x * peval Rho x + 0) by ring.
        apply (derivable_pt_lim_plus (peval (pinteg (pmulT Rho))) (fun _ => F 0 - peval (pinteg (pmulT Rho)) 0));
          [apply HT|apply derivable_pt_lim_const].
      - apply FunctionalExtensionality.functional_extensionality; intros t. specialize (H 0 t). lra. }
    assert (Hn : forall x, x <> 0 -> peval S x - peval Rho x = 0).
    { intros x Hx. specialize (Hd x). apply Rmult_eq_reg_l in Hd; [lra|exact Hx]. }
    assert (Hz : peval S 0 - peval Rho 0 = 0).
    { apply (cont_zero (fun x => peval S x - peval Rho x)); [|exact Hn].
      apply (continuity_minus (peval S) (peval Rho)); apply peval_continuous. }
    intros T. destruct (Req_dec T 0) as [->|HT0]; [lra|]. specialize (Hn T HT0). lra.
  - intros H Tc Th. destruct (C31_polynomial_integrals Rho S K Tc Th) as (_ & _ & _ & _ & HST). apply HST.
    intros x. rewrite <- H. apply HF.
Qed.
Print Assumptions C31_ST_wrong_unless_equal.

(** ** C33: histories of calls on one object *)
(** [built] after a history: the profile of the latest successful build, if any. *)
Fixpoint latest (answers : list (call * res answer)) (acc : option prfs) : option prfs :=
  match answers with
  | [] => acc
  | (Simulate _ _, _) :: r => latest r acc
  | (_, Ok (AProf p)) :: r => latest r (Some p)
  | (_, _) :: r => latest r acc
  end.

Lemma run_state L A dev t h : forall st, fst (run L A dev t st h) = latest (combine h (snd (run L A dev t st h))) st
  /\ length (snd (run L A dev t st h)) = length h.
Proof.
  induction h as [|c h IH]; intros st; [split; reflexivity|]. cbn [run].
  destruct (exec L A dev t st c) as [st1 a] eqn:E. specialize (IH st1). destruct (run L A dev t st1 h) as [st2 l] eqn:E2.
  cbn [fst snd combine length] in *. destruct IH as (IH & IHl). split; [|rewrite IHl; reflexivity].
  unfold exec in E. destruct c as [w|rL rA w|c n]; [destruct dev as [i|p n]|destruct dev as [i|p n]|].
  - injection E as <- <-. exact IH.
  - destruct (pair_build _ _ _ _ _ _ _) as [[r q]|e]; injection E as <- <-; exact IH.
  - injection E as <- <-. exact IH.
  - destruct (pair_build _ _ _ _ _ _ _) as [[r q]|e]; injection E as <- <-; exact IH.
  - injection E as <- <-. exact IH.
Qed.

(** A [simulate] call at the end of any history of calls on a fresh object. *)
Theorem C33_simulate_after_build :
  forall (L A : R) (dev : device) (t : temps) (h : list call) (c : current) (n : nat),
  let answers := snd (run L A dev t None h) in
  let result := snd (exec L A dev t (fst (run L A dev t None h)) (Simulate c n)) in
  (latest (combine h answers) None = None -> result = Err RuntimeError)
  /\ (forall p, latest (combine h answers) None = Some p ->
        result = rmap AOut (simulate_built p t c n)
        /\ (forall s, c = CStr s -> first_lower s "y" = false -> first_lower s "p" = false -> first_lower s "s" = false ->
              result = Err ValueError)
        /\ result <> Err RuntimeError).
Proof.
  intros L A dev t h c n answers result. destruct (run_state L A dev t h None) as (E & _). fold answers in E.
  unfold result. cbn [exec snd]. rewrite E. split; [intros ->; reflexivity|].
  intros p ->. cbn [simulate]. split; [reflexivity|]. split.
  - intros s -> H1 H2 H3. unfold simulate_built, reduced_currents. rewrite H1, H2, H3. reflexivity.
  - unfold simulate_built, reduced_currents, reshape. destruct c as [s|l]; [|discriminate].
    destruct (first_lower s "y"); [discriminate|]. destruct (first_lower s "p"); [discriminate|].
    destruct (first_lower s "s"); [|discriminate]. destruct t as [|DT]; [discriminate|].
    destruct (existsb _ _); [discriminate|]. destruct (_ - _)%nat as [|[|k]]; [destruct (Z.eqb _ _); discriminate| |discriminate].
    destruct (Z.eqb _ _); [discriminate|]. destruct (Z.eqb _ _); discriminate.
Qed.
Print Assumptions C33_simulate_after_build.

(** The profile returned by a build: the weight factors are those requested for a leg and always
    present for a pair. *)
Theorem C33_weights :
  forall (L A : R) (t : temps) (st : option prfs),
  (forall i w p, snd (exec L A (Leg i) t st (BuildLeg w)) = Ok (AProf p) -> (pwgts p <> None <-> w = true))
  /\ (forall ip iN rL rA w p, snd (exec L A (Pair ip iN) t st (BuildPair rL rA w)) = Ok (AProf p) -> pwgts p <> None)
  /\ (forall ip iN rL s w, first_lower s "z" = false -> first_lower s "p" = false ->
        exec L A (Pair ip iN) t st (BuildPair rL (RStr s) w) = (st, Err ValueError)).
Proof.
  intros L A t st. split; [|split].
  - intros i w p. cbn [exec snd leg_build]. intros [= <-]. destruct w; cbn; split; congruence.
  - intros ip iN rL rA w p. unfold exec, pair_build. destruct (ratio_area rL rA ip iN) as [r|e]; cbn [rbind snd]; [|discriminate].
    intros [= <-]. discriminate.
  - intros ip iN rL s w H1 H2. unfold exec, pair_build, ratio_area. rewrite H1, H2. reflexivity.
Qed.
Print Assumptions C33_weights.

(** What [build] of a pair uses where nothing is given. *)
Theorem C33_defaults :
  forall (L A : R) (t : temps) (st : option prfs) (ip iN : itgs) (w : bool),
  exec L A (Pair ip iN) t st (BuildLeg w) = exec L A (Pair ip iN) t st (BuildPair 1 (RStr (S_ "ZTengMax")) w).
Proof. reflexivity. Qed.
Print Assumptions C33_defaults.

(** ** C41: ['scan'] / ['sweep'] *)
Theorem C41_scan_float_temperatures :
  forall (p : prfs) (s : str) (n : nat), first_lower s "s" = true ->
  simulate (Some p) FloatT (CStr s) n = Err TypeError.
Proof.
  intros p s n H. unfold simulate, simulate_built, reduced_currents.
  assert (Hy : first_lower s "y" = false /\ first_lower s "p" = false).
  { destruct s as [|x s]; [discriminate|]. cbn [first_lower] in *. unfold ch_eq in *. apply Ascii.eqb_eq in H. rewrite H. split; reflexivity. }
  destruct Hy as (-> & ->). rewrite H. reflexivity.
Qed.
Print Assumptions C41_scan_float_temperatures.

Theorem C41_scan_integer_temperatures :
  forall (p : prfs) (s : str) (n : nat) (dT : Z), first_lower s "s" = true ->
  simulate (Some p) (IntT [dT]) (CStr s) n =
  (if (Z.eqb dT (Z.of_nat n + 1) || Z.eqb dT 0)%bool then Ok (map (outputs p) (linspace01 n)) else Err ValueError).
Proof.
  intros p s n dT H. unfold simulate, simulate_built, reduced_currents.
  assert (Hy : first_lower s "y" = false /\ first_lower s "p" = false).
  { destruct s as [|x s]; [discriminate|]. cbn [first_lower] in *. unfold ch_eq in *. apply Ascii.eqb_eq in H. rewrite H. split; reflexivity. }
  destruct Hy as (-> & ->). rewrite H. cbn [map]. unfold reshape. cbn [filter].
  set (q := (-1 + 1 * dT)%Z). destruct (Z.eqb_spec q (-1)) as [E|E]; cbn [negb].
  - assert (dT = 0%Z) as -> by (unfold q in E; lia). rewrite Bool.orb_true_r. cbn [existsb length Nat.sub zprod fold_right Z.eqb].
    rewrite Z.mod_1_r. reflexivity.
  - cbn [existsb length Nat.sub]. rewrite Bool.orb_false_r.
    destruct (Z.eqb_spec dT (Z.of_nat n + 1)) as [E1|E1]; destruct (Z.eqb_spec dT 0) as [E2|E2]; cbn [orb]; try (exfalso; unfold q in E; lia).
    + destruct (Z.ltb_spec q 0); [unfold q in *; lia|]. cbn [zprod fold_right].
      destruct (Z.eqb_spec (q * 1) (Z.of_nat n)); [reflexivity|unfold q in *; lia].
    + destruct (Z.ltb_spec q 0); [reflexivity|]. cbn [zprod fold_right].
      destruct (Z.eqb_spec (q * 1) (Z.of_nat n)); [unfold q in *; lia|reflexivity].
Qed.
Print Assumptions C41_scan_integer_temperatures.

(** The currents of a scan: numPoints values k/(numPoints-1), from 0 to 1. *)
Theorem C41_scan_currents :
  forall (n : nat), (2 <= n)%nat ->
  length (linspace01 n) = n /\ hd 0 (linspace01 n) = 0 /\ last (linspace01 n) 0 = 1
  /\ forall k, (S k < n)%nat -> nth (S k) (linspace01 n) 0 - nth k (linspace01 n) 0 = 1 / INR (n - 1).
Proof.
  intros n Hn. assert (HI : 0 < INR (n - 1)) by (apply lt_0_INR; lia).
  assert (Hnth : forall k, (k < n)%nat -> nth k (linspace01 n) 0 = INR k / INR (n - 1)).
  { intros k Hk. unfold linspace01. rewrite nth_indep with (d' := INR 0 / INR (n - 1)) by (rewrite map_length, seq_length; exact Hk).
    rewrite (map_nth (fun k => INR k / INR (n - 1))). rewrite seq_nth by exact Hk. reflexivity. }
  assert (Hl : length (linspace01 n) = n) by (unfold linspace01; rewrite map_length, seq_length; reflexivity).
  split; [exact Hl|]. split; [|split].
  - specialize (Hnth 0%nat ltac:(lia)). destruct (linspace01 n); [cbn in *; lia|]. cbn in Hnth |- *. rewrite Hnth. field. lra.
  - assert (Hlast : forall (l : list R), l <> [] -> last l 0 = nth (length l - 1) l 0).
    { clear. induction l as [|x [|y l] IH]; intros H; [congruence|reflexivity|].
      change (last (x :: y :: l) 0) with (last (y :: l) 0). rewrite IH by discriminate.
      cbn [length Nat.sub nth]. rewrite Nat.sub_0_r. reflexivity. }
    rewrite Hlast by (intros E; rewrite E in Hl; cbn in Hl; lia). rewrite Hl, Hnth by lia. field. lra.
  - intros k Hk. rewrite !Hnth by lia. rewrite S_INR. field. lra.
Qed.
Print Assumptions C41_scan_currents.

(** ** C25: the heat taken in at the hot side *)
(** Conduction + Peltier/Thomson part - the part of the Joule heat that returns to the hot side; in W, with
    L in mm, A in mm^2, resistance in Ohm. *)
Theorem C25_heat :
  forall (L A : R) (w : bool) (i : itgs) (r : R),
  L <> 0 -> A <> 0 -> iRho i <> 0 -> iS i <> 0 -> iK i <> 0 -> iDT i <> 0 ->
  let o := outputs (build L A w i) r in let I := oI o in
  let Rint := 1e-3 * (iRho i / iDT i) * L / A in
  oQhot o = 1e-3 * iK i * A / L + 1e-6 * I * ((2 * iST i - iTc i * iS i) / iDT i)
            - I * I * Rint * ((iRhoT i - iTc i * iRho i) / (iRho i * iDT i))
  /\ oVout o = 1e-3 * iS i - 1e3 * I * Rint.
Proof.
  intros L A w i r HL HA HR HS HK HD o I Rint. unfold I, Rint, o, build.
  destruct w; cbn; split; field; repeat split; auto; lra.
Qed.
Print Assumptions C25_heat.

(** ** C32, C31: Seebeck coefficient at the two ends and the list of integrals *)
Theorem C32_fields :
  forall (d : list tp) (Tc Th : R), increasing_T d ->
  let i := itgs_tab d Tc Th in
  iTc i = Tc /\ iTh i = Th /\ iDT i = Th - Tc
  /\ iRho i = tab_int (fun p => 1e4 / tC p) d Tc Th /\ iS i = tab_int tS d Tc Th /\ iK i = tab_int tK d Tc Th
  /\ iRhoT i = tab_int (fun p => tT p * (1e4 / tC p)) d Tc Th /\ iST i = tab_int (fun p => tT p * tS p) d Tc Th
  /\ (forall p, In p d -> tT p = Tc -> iSc i = tS p) /\ (forall p, In p d -> tT p = Th -> iSh i = tS p).
Proof.
  intros d Tc Th H i. repeat split; cbn [i itgs_tab iSc iSh]; intros p Hp <-;
    exact (tab_node (map (fun p => (tT p, tS p)) d) (tT p, tS p) (incr_graph tS d H) (in_map (fun p => (tT p, tS p)) d p Hp)).
Qed.
Print Assumptions C32_fields.
Theorem C31_ends :
  forall (Rho S K : poly) (Tc Th : R), let i := itgs_poly Rho S K Tc Th in
  iSc i = peval S Tc /\ iSh i = peval S Th /\ iTc i = Tc /\ iTh i = Th /\ iDT i = Th - Tc.
Proof. intros; repeat split. Qed.
Print Assumptions C31_ends.

(** ** C43: modification and weight factors *)
Theorem C43_modification :
  forall (pre mid post : list tp) (a b : tp) (L A : R) (w : bool),
  let d := pre ++ a :: mid ++ b :: post in let Tc := tT a in let Th := tT b in
  increasing_T d ->
  let i := itgs_tab d Tc Th in let m := pmdfs (build L A w i) in
  let leg := a :: mid ++ [b] in
  mRhoW m = trapezoids (fun p => (tT p - Tc) * (1e4 / tC p)) leg
  /\ mSW m = trapezoids (fun p => (2 * tT p - Tc) * tS p) leg
  /\ (trapezoids (fun p => 1e4 / tC p) leg <> 0 ->
        mRhoT m = trapezoids (fun p => (tT p - Tc) * (1e4 / tC p)) leg / trapezoids (fun p => 1e4 / tC p) leg)
  /\ (trapezoids tS leg <> 0 -> mST m = trapezoids (fun p => (2 * tT p - Tc) * tS p) leg / trapezoids tS leg)
  /\ m0 m = mST m /\ m1 m = m0 m - mRhoT m /\ m2 m = m1 m - mRhoT m.
Proof.
  intros pre mid post a b L A w d Tc Th H i m leg.
  assert (Hlin : forall (f g h : tp -> R) al be, (forall p, h p = al * f p + be * g p) ->
     forall l, trapezoids h l = al * trapezoids f l + be * trapezoids g l).
  { clear. intros f g h al be E. induction l as [|x [|y l] IH]; [cbn; ring|cbn; ring|].
    replace (trapezoids h (x :: y :: l)) with ((tT y - tT x) * (h x + h y) / 2 + trapezoids h (y :: l)) by reflexivity.
    replace (trapezoids f (x :: y :: l)) with ((tT y - tT x) * (f x + f y) / 2 + trapezoids f (y :: l)) by reflexivity.
    replace (trapezoids g (x :: y :: l)) with ((tT y - tT x) * (g x + g y) / 2 + trapezoids g (y :: l)) by reflexivity.
    rewrite IH, !E. field. }
  assert (E1 : iRho i = trapezoids rho_of leg) by exact (tab_int_nodes rho_of pre a mid b post H).
  assert (E2 : iS i = trapezoids tS leg) by exact (tab_int_nodes tS pre a mid b post H).
  assert (E3 : iRhoT i = trapezoids (fun p => tT p * rho_of p) leg) by exact (tab_int_nodes (fun p => tT p * rho_of p) pre a mid b post H).
  assert (E4 : iST i = trapezoids (fun p => tT p * tS p) leg) by exact (tab_int_nodes (fun p => tT p * tS p) pre a mid b post H).
  assert (E5 : iTc i = Tc) by reflexivity.
  assert (F1 : trapezoids (fun p => (tT p - Tc) * (1e4 / tC p)) leg = iRhoT i - Tc * iRho i).
  { rewrite E1, E3. rewrite (Hlin (fun p => tT p * rho_of p) rho_of _ 1 (- Tc)); [ring|]. intros p. unfold rho_of. ring. }
  assert (F2 : trapezoids (fun p => (2 * tT p - Tc) * tS p) leg = 2 * iST i - Tc * iS i).
  { rewrite E2, E4. rewrite (Hlin (fun p => tT p * tS p) tS _ 2 (- Tc)); [ring|]. intros p. ring. }
  assert (E6 : m = get_mdfs i) by (unfold m, build; destruct w; reflexivity).
  change (trapezoids (fun p => 1e4 / tC p) leg) with (trapezoids rho_of leg). rewrite F1, F2, <- E1, <- E2, E6. 
  cbn [get_mdfs mRhoW mSW mRhoT mST m0 m1 m2]. rewrite E5. repeat split; intros; field; assumption.
Qed.
Print Assumptions C43_modification.

(** What [wgts] contains: W_J = <T*rho>/<rho>/(Th-Tc), alpha_j = (modified Th, Tmean, Tc)/S(Th). *)
Theorem C43_weights :
  forall (L A : R) (i : itgs), exists g, pwgts (build L A true i) = Some g /\
  let m := pmdfs (build L A true i) in
  wJ g = iRhoT i / iRho i / iDT i
  /\ wT g = (iTh i * iSh i * iDT i - mSW m) / (iTh i * iSh i - iTc i * iSc i - iS i) / iDT i
  /\ wa0 g = m0 m / iSh i /\ wa1 g = m1 m / iSh i /\ wa2 g = m2 m / iSh i.
Proof. intros L A i. eexists; split; [reflexivity|]. repeat split. Qed.
Print Assumptions C43_weights.
(** For constant properties W_J is not the textbook 1/2 but mean temperature over difference, the
    denominator of W_T vanishes, and the alpha_j are Th/S, Tmean/S, Tc/S (not dimensionless: multiplying
    all Seebeck coefficients by a number divides them by it). *)
Theorem C43_constant_properties :
  forall (pre mid post : list tp) (a b : tp) (c s k L A : R),
  let d := pre ++ a :: mid ++ b :: post in let Tc := tT a in let Th := tT b in
  increasing_T d -> (forall p, In p d -> tC p = c /\ tS p = s /\ tK p = k) ->
  0 < c -> s <> 0 -> 0 < k -> 0 < Tc ->
  let i := itgs_tab d Tc Th in
  exists g, pwgts (build L A true i) = Some g
  /\ wJ g = (Tc + Th) / 2 / (Th - Tc) /\ 1 / 2 < wJ g
  /\ iTh i * iSh i - iTc i * iSc i - iS i = 0
  /\ wa0 g = Th / s /\ wa1 g = (Tc + Th) / 2 / s /\ wa2 g = Tc / s.
Proof.
  intros pre mid post a b c s k L A d Tc Th Hinc Hc H1 H2 H3 H4 i.
  assert (Hpos : 0 < c /\ s <> 0 /\ 0 < k /\ 0 < tT a) by auto.
  pose proof (const_order pre mid post a b c s k Hinc) as HT. fold Tc Th in HT.
  pose proof (rho_pos a c s k Hpos) as Hr.
  destruct (const_itgs pre mid post a b c s k Hinc Hc Hpos) as (E1 & E2 & E3 & E4 & E5 & E6 & E7 & E8). fold d Tc Th i in E1, E2, E3, E4, E5, E6, E7, E8.
  assert (Ia : In a d) by (unfold d; apply in_or_app; right; left; reflexivity).
  assert (Ib : In b d) by (unfold d; apply in_or_app; right; right; apply in_or_app; right; left; reflexivity).
  destruct (C32_fields d Tc Th Hinc) as (_ & _ & _ & _ & _ & _ & _ & _ & Fc & Fh). fold i in Fc, Fh.
  specialize (Fc a Ia eq_refl). specialize (Fh b Ib eq_refl). destruct (Hc a Ia) as (_ & Sa & _). destruct (Hc b Ib) as (_ & Sb & _).
  rewrite Sa in Fc. rewrite Sb in Fh. set (rho := 1e4 / c) in *. clearbody i rho.
  eexists; split; [reflexivity|]. cbn [get_wgts get_mdfs wJ wa0 wa1 wa2 mRho m0 m1 m2].
  assert (EJ : iRhoT i / iRho i / iDT i = (Tc + Th) / 2 / (Th - Tc)) by (rewrite E3, E4, E7; field; lra).
  rewrite EJ. split; [reflexivity|]. split.
  { apply Rmult_lt_reg_r with (2 * (Th - Tc)); [lra|].
    replace ((Tc + Th) / 2 / (Th - Tc) * (2 * (Th - Tc))) with (Tc + Th) by (field; lra). lra. }
  rewrite E1, E2, E4, E5, E7, E8, Fc, Fh. repeat split; field; lra.
Qed.
Print Assumptions C43_constant_properties.

(** ** C44: a p-n pair is the sum of its legs *)
(** Leg p has length L and area A/(1+rA), leg n length L*rL and area A*rA/(1+rA).  When the pair carries
    the current I, the p leg carries I and the n leg carries -I; heats and powers of the legs add up and
    the pair voltage is the difference of the leg voltages. *)
Theorem C44_pair_is_sum :
  forall (L A rL rA r rp rn : R) (p n : itgs) (wp wn : bool),
  L <> 0 -> A <> 0 -> 0 < rL -> 0 < rA -> iTc n = iTc p -> iTh n = iTh p -> iDT n = iDT p -> iDT p <> 0 ->
  iRho p <> 0 -> iRho n <> 0 -> iK p <> 0 -> iK n <> 0 -> iS p <> 0 -> iS n <> 0 ->
  iRho (merge rL rA p n) <> 0 -> iK (merge rL rA p n) <> 0 -> iS p - iS n <> 0 ->
  let pair := outputs (build L A true (merge rL rA p n)) r in
  let legp := outputs (build L (A / (1 + rA)) wp p) rp in
  let legn := outputs (build (L * rL) (A * rA / (1 + rA)) wn n) rn in
  oI legp = oI pair -> oI legn = - oI pair ->
  oVout pair = oVout legp - oVout legn
  /\ oPout pair = oPout legp + oPout legn
  /\ oQhot pair = oQhot legp + oQhot legn
  /\ oYita pair = 100 * (oPout legp + oPout legn) / (oQhot legp + oQhot legn).
Proof.
  assert (Z1 : forall x, 0 < x -> x <> 0) by (intros; lra). assert (Z2 : forall x, 0 < x -> 1 + x <> 0) by (intros; lra).
  intros L A rL rA r rp rn p n wp wn HL HA HrL HrA ETc ETh EDT HD HRp HRn HKp HKn HSp HSn HR HK HS pair legp legn Ip In_.
  pose proof (Z1 _ HrL) as NL. pose proof (Z1 _ HrA) as NA. pose proof (Z2 _ HrA) as N1. clear Z1 Z2.
  assert (HAp : A / (1 + rA) <> 0) by (apply Rmult_integral_contrapositive_currified; [exact HA|apply Rinv_neq_0_compat; exact N1]).
  assert (HAn : A * rA / (1 + rA) <> 0).
  { apply Rmult_integral_contrapositive_currified; [apply Rmult_integral_contrapositive_currified; assumption|apply Rinv_neq_0_compat; exact N1]. }
  assert (HLn : L * rL <> 0) by (apply Rmult_integral_contrapositive_currified; assumption).
  set (mg := merge rL rA p n) in *.
  assert (Hmd : iDT mg = iDT p) by (unfold mg; cbn; rewrite EDT; field).
  assert (Hmt : iTc mg = iTc p) by (unfold mg; cbn; rewrite ETc; field).
  destruct (C25_heat L A true mg r HL HA HR) as (Qg & Vg); [unfold mg; cbn; exact HS|exact HK|rewrite Hmd; exact HD|].
  destruct (C25_heat L (A / (1 + rA)) wp p rp HL HAp HRp HSp HKp HD) as (Qp & Vp).
  destruct (C25_heat (L * rL) (A * rA / (1 + rA)) wn n rn HLn HAn HRn HSn HKn) as (Qn & Vn); [rewrite EDT; exact HD|].
  fold pair in Qg, Vg. fold legp in Qp, Vp. fold legn in Qn, Vn. rewrite Ip in Qp, Vp. rewrite In_ in Qn, Vn.
  destruct (C25_outputs L A true mg r HL HR) as (_ & _ & Pg & Yg).
  destruct (C25_outputs L (A / (1 + rA)) wp p rp HL HRp) as (_ & _ & Pp & _).
  destruct (C25_outputs (L * rL) (A * rA / (1 + rA)) wn n rn HLn HRn) as (_ & _ & Pn & _).
  fold pair in Pg, Yg. fold legp in Pp. fold legn in Pn. rewrite Ip in Pp. rewrite In_ in Pn.
  set (I := oI pair) in *. rewrite Hmd, Hmt in Qg. rewrite Hmd in Vg. rewrite EDT, ETc in Qn. rewrite EDT in Vn.
  assert (Mr : iRho mg = iRho p * (1 + rA) + iRho n * rL / rA * (1 + rA)) by reflexivity.
  assert (Mk : iK mg = iK p / (1 + rA) + iK n / (1 + rA) * rA / rL) by reflexivity.
  assert (Ms : iS mg = iS p - iS n) by reflexivity.
  assert (Mrt : iRhoT mg = iRhoT p * (1 + rA) + iRhoT n * rL / rA * (1 + rA)) by reflexivity.
  assert (Mst : iST mg = iST p - iST n) by reflexivity.
  assert (EV : oVout pair = oVout legp - oVout legn).
  { rewrite Vg, Vp, Vn, Ms, Mr. field. repeat split; assumption. }
  assert (EP : oPout pair = oPout legp + oPout legn) by (rewrite Pg, Pp, Pn, EV; ring).
  assert (EQ : oQhot pair = oQhot legp + oQhot legn).
  { replace (I * I * (1e-3 * (iRho mg / iDT p) * L / A) * ((iRhoT mg - iTc p * iRho mg) / (iRho mg * iDT p)))
      with (I * I * 1e-3 * L / A * (iRhoT mg - iTc p * iRho mg) / (iDT p * iDT p)) in Qg by (field; repeat split; assumption).
    rewrite Qg, Qp, Qn, Mrt, Mst, Ms, Mk, Mr. field. repeat split; assumption. }
  split; [exact EV|]. split; [exact EP|]. split; [exact EQ|]. rewrite Yg, EP, EQ. reflexivity.
Qed.
Print Assumptions C44_pair_is_sum.

(** ** Non-vacuity *)
Definition leg2 : list tp := [TP 300 1000 200 1; TP 600 1000 200 1].
Example C28_case : exists o, simulate (Some (build 1 100 false (itgs_tab leg2 300 600))) FloatT (CStr (S_ "YitaMax")) 101 = Ok [o]
  /\ 0 < oYita o < 50.
Proof.
  destruct (C28_constant_properties [] [] [] (TP 300 1000 200 1) (TP 600 1000 200 1) 1000 200 1 1 100 false FloatT 101) as (_ & o & H1 & _ & H3 & _).
  - cbn. unfold increasing_T. repeat constructor. cbn; lra.
  - intros p [<-|[<-|[]]]; cbn; auto.
  - lra.
  - lra.
  - lra.
  - cbn; lra.
  - lra.
  - lra.
  - exists o. split; [exact H1|]. cbn [tT] in H3. lra.
Qed.
Example C29_case :
  let p := Itgs 300 600 300 200 200 3000 60000 600 1350000 27000000 in
  let n := Itgs 300 600 300 (-200) (-200) 6000 (-60000) 300 2700000 (-27000000) in
  ZT_of 1 100 p n 1 (1 * sqrt (3000 * 300 / (6000 * 600))) < ZT_of 1 100 p n 1 (1 * sqrt (6000 * 600 / (3000 * 300))).
Proof.
  intros p n. destruct (C29_ZTengMax 1 100 p n 1) as (_ & _ & _ & H); cbn; try lra; try (unfold pos_itgs; cbn; lra). apply H. cbn. lra.
Qed.
Example C27_case : exists p, p = build 1 100 false (itgs_tab leg2 300 600) /\ 0 < pQx p /\ 0 < pDT p /\ 0 < pZeng p /\ 0 <= 1 + pZTp p
  /\ forall q, 0 <= q <= 1 -> 0 < oQhot (outputs p q).
Proof.
  eexists; split; [reflexivity|].
  assert (Hinc : increasing_T leg2) by (unfold increasing_T; repeat constructor; cbn; lra).
  assert (Hc : forall p, In p leg2 -> tC p = 1000 /\ tS p = 200 /\ tK p = 1) by (intros p [<-|[<-|[]]]; cbn; auto).
  assert (Hpos : 0 < 1000 /\ 200 <> 0 /\ 0 < 1 /\ 0 < tT (TP 300 1000 200 1)) by (cbn; lra).
  destruct (const_prfs [] [] [] (TP 300 1000 200 1) (TP 600 1000 200 1) 1000 200 1 Hinc Hc Hpos 1 100 false) as (_ & EZ & EP & _ & ES & ER & ED & _).
  pose proof (Z_pos (TP 300 1000 200 1) 1000 200 1 Hpos) as HZ.
  pose proof (const_itgs [] [] [] (TP 300 1000 200 1) (TP 600 1000 200 1) 1000 200 1 Hinc Hc Hpos) as HI.
  cbn [app tT] in *. fold leg2 in *. set (p := build 1 100 false (itgs_tab leg2 300 600)) in *. cbv zeta in HI. destruct HI as (E1 & E2 & E3 & E4 & E5 & E6 & E7 & E8).
  assert (HQ : 0 < pQx p).
  { replace (pQx p) with (1e-3 * (1e-6 * iS (itgs_tab leg2 300 600) * iS (itgs_tab leg2 300 600) / iRho (itgs_tab leg2 300 600)) * iDT (itgs_tab leg2 300 600) / 1 * 100) by reflexivity.
    rewrite E3, E4, E5. lra. }
  split; [exact HQ|]. split; [lra|]. split; [lra|]. split; [rewrite EP; lra|].
  intros q Hq. cbn [outputs oQhot]. rewrite EZ, ES, ER, ED. apply Rdiv_lt_0_compat; [|lra]. apply Rmult_lt_0_compat; [exact HQ|].
  assert (0 < 1 / (1e-6 * (200 * 200) / (1e4 / 1000 * 1))) by (apply Rdiv_lt_0_compat; lra). nra.
Qed.
Example C33_case : snd (run 1 100 (Leg (itgs_tab leg2 300 600)) FloatT None [Simulate (CVals [0]) 1; BuildLeg false; Simulate (CVals []) 1])
  = [Err RuntimeError; Ok (AProf (build 1 100 false (itgs_tab leg2 300 600))); Ok (AOut [])].
Proof. reflexivity. Qed.
Example C31_case : antiderivative_of (fun T => T ^ 3 / 3) (fun T => T * peval [0; 1] T).
Proof.
  intros x. cbn [peval]. replace (x * (0 + x * (1 + x * 0))) with (/ 3 * (INR 3 * x ^ pred 3)) by (cbn; field).
  replace (fun T : R => T ^ 3 / 3) with (mult_real_fct (/ 3) (fun y => y ^ 3)).
  - apply derivable_pt_lim_scal. apply derivable_pt_lim_pow.
  - apply FunctionalExtensionality.functional_extensionality; intros t. unfold mult_real_fct. field.
Qed.
Example C43_case : exists g, pwgts (build 1 100 true (itgs_tab leg2 300 600)) = Some g /\ wJ g = 3 / 2 /\ wa0 g = 3.
Proof.
  destruct (C43_constant_properties [] [] [] (TP 300 1000 200 1) (TP 600 1000 200 1) 1000 200 1 1 100) as (g & H1 & H2 & _ & _ & H3 & _).
  - cbn. unfold increasing_T. repeat constructor. cbn; lra.
  - intros p [<-|[<-|[]]]; cbn; auto.
  - lra.
  - lra.
  - lra.
  - cbn; lra.
  - exists g. cbn [tT app] in *. split; [exact H1|]. rewrite H2, H3. split; field.
Qed.
Definition ip0 := Itgs 300 600 300 200 200 3000 60000 300 1350000 27000000.
Definition in0 := Itgs 300 600 300 (-200) (-200) 3000 (-60000) 300 1350000 (-27000000).
Example C44_case :
  let pair := outputs (build 1 100 true (merge 1 1 ip0 in0)) (1 / 2) in
  let legp := outputs (build 1 (100 / (1 + 1)) false ip0) (1 / 2) in
  let legn := outputs (build (1 * 1) (100 * 1 / (1 + 1)) false in0) (1 / 2) in
  oI legp = oI pair /\ oI legn = - oI pair /\ oVout pair = 60 /\ oQhot pair = oQhot legp + oQhot legn.
Proof.
  cbv zeta.
  assert (H1 : oI (outputs (build 1 (100 / (1 + 1)) false ip0) (1 / 2)) = oI (outputs (build 1 100 true (merge 1 1 ip0 in0)) (1 / 2))) by (cbn; field).
  assert (H2 : oI (outputs (build (1 * 1) (100 * 1 / (1 + 1)) false in0) (1 / 2)) = - oI (outputs (build 1 100 true (merge 1 1 ip0 in0)) (1 / 2))) by (cbn; field).
  split; [exact H1|]. split; [exact H2|]. split; [cbn; field|].
  apply (C44_pair_is_sum 1 100 1 1 (1 / 2) (1 / 2) (1 / 2) ip0 in0 false false); try exact H1; try exact H2; try (cbn; lra).
Qed.
