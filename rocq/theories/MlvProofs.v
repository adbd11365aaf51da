(** Lemmas for MlvProps: the number of states is a convex function of the Fermi level; convex functions with no upper bound on either side. *)
From Coq Require Import Reals Lra Lia Ranalysis5.
From Coquelicot Require Import Coquelicot.
From Verif Require Import Py RUtil FuncModel RombModel RombProps RconvSpec RconvProofs RconvFermi RconvBands RconvProps NdosModel NdosSpec NdosProofs OptProofs LvlProofs.
Local Open Scope R_scope.

Definition convex (F : R -> R) : Prop := forall a b l, a < b -> 0 <= l <= 1 -> F (l * a + (1 - l) * b) <= l * F a + (1 - l) * F b.
Definition expo (F : R -> R) (c : R) : Prop := forall a b, F b <= exp (Rabs (b - a) / c) * F a.
Definition no_top (F : R -> R) : Prop := forall v, (exists b, forall x, b <= x -> v < F x).

Lemma RInt_scal_R (f : R -> R) (l a b : R) : (forall x, continuous f x) -> RInt (fun x => l * f x) a b = l * RInt f a b.
Proof. intros C. apply (RInt_scal (V := R_CompleteNormedModule) f a b l), ri, C. Qed.
Section Conv.
Variables dos idos : R -> R.
Variable T : R.
Hypothesis HT : 0 < T.
Hypothesis Pd : forall E, 0 < E -> 0 < dos E.
Hypothesis Md : forall E E', 0 < E -> E <= E' -> dos E <= dos E'.
Hypothesis Hi : continuous_up idos.
Hypothesis Hp : power_bounded idos.
Hypothesis Ha : antiderivative idos dos.
Lemma up_neg y : y <= 0 -> idos (Rmax y 0) = 0. Proof. intros H. rewrite Rmax_right by exact H. apply (proj1 Ha). Qed.
Lemma idos_slope (x y lo hi : R) : 0 <= x -> x < y -> (forall c, x <= c <= y -> 0 < c -> lo <= dos c <= hi) -> (x = 0 -> lo <= 0 <= hi) -> lo * (y - x) <= idos y - idos x <= hi * (y - x).
Proof.
  intros Hx H B B0. destruct Ha as (Z & D).
  destruct (MVT_gen (fun e => idos (Rmax e 0)) x y (fun c => if Rlt_dec 0 c then dos c else 0)) as (c & Hc & E).
  - rewrite Rmin_left, Rmax_right by lra. intros c Hc. destruct (Rlt_dec 0 c); [|lra]. apply (is_derive_ext_loc idos); [|apply D; lra].
    assert (X0 : 0 < c) by lra. exists (mkposreal c X0). intros z Hz. unfold ball in Hz; cbn in Hz. unfold AbsRing_ball, abs, minus, plus, opp in Hz; cbn in Hz. apply Rabs_def2 in Hz. rewrite Rmax_left by lra. reflexivity.
  - intros c _. apply continuity_pt_filterlim. apply (up_continuous idos Hi).
  - rewrite Rmin_left, Rmax_right in Hc by lra. cbv beta in E. rewrite !Rmax_left in E by lra. rewrite E. destruct (Rlt_dec 0 c) as [P|P].
    + specialize (B c Hc P). split; apply Rmult_le_compat_r; lra.
    + assert (X0 : x = 0) by lra. specialize (B0 X0). split; apply Rmult_le_compat_r; lra.
Qed.
Lemma up_nonneg y : 0 <= idos (Rmax y 0).
Proof.
  destruct (Rle_lt_dec y 0) as [H|H]; [rewrite up_neg by exact H; lra|]. rewrite Rmax_left by lra. pose proof (idos_slope 0 y 0 (dos y) (Rle_refl 0) H) as S. rewrite (proj1 Ha) in S. pose proof (Pd y H).
  destruct S as (S & _); [intros c Hc P; pose proof (Pd c P); pose proof (Md c y P ltac:(lra)); lra|lra|]. lra.
Qed.
Lemma up_convex : convex (fun y => idos (Rmax y 0)).
Proof.
  intros a b l Hab Hl. set (c := l * a + (1 - l) * b). pose proof (up_nonneg a) as A. pose proof (up_nonneg b) as B. destruct (Rle_lt_dec c 0) as [H|H]; [rewrite (up_neg c H); nra|].
  assert (Ac : a <= c) by (unfold c; nra). assert (Cb : c <= b) by (unfold c; nra). pose proof (Pd c H) as D. rewrite (Rmax_left c) by lra. rewrite (Rmax_left b) in * by lra.
  assert (U : idos b - idos c >= dos c * (b - c)).
  { destruct Cb as [Cb|Ecb]; [|rewrite Ecb; lra]. destruct (idos_slope c b (dos c) (dos b) ltac:(lra) Cb) as (S & _); [intros e He P; split; apply Md; lra|lra|]. lra. }
  assert (L : idos c - idos (Rmax a 0) <= dos c * (c - a)).
  { destruct (Rle_lt_dec a 0) as [N|N].
    - rewrite (up_neg a N). destruct (idos_slope 0 c 0 (dos c) (Rle_refl 0) H) as (_ & S); [intros e He P; pose proof (Pd e P); pose proof (Md e c P ltac:(lra)); lra|lra|]. rewrite (proj1 Ha) in S. nra.
    - rewrite Rmax_left by lra. destruct Ac as [Ac|E]; [|rewrite E; lra]. destruct (idos_slope a c 0 (dos c) ltac:(lra) Ac) as (_ & S); [intros e He P; pose proof (Pd e P); pose proof (Md e c P ltac:(lra)); lra|lra|]. exact S. }
  assert (E1 : l * (c - a) = (1 - l) * (b - c)) by (unfold c; ring).
  assert (U2 : (1 - l) * (idos b - idos c) >= (1 - l) * (dos c * (b - c))) by (apply Rle_ge, Rmult_le_compat_l; lra). assert (L2 : l * (idos c - idos (Rmax a 0)) <= l * (dos c * (c - a))) by (apply Rmult_le_compat_l; lra).
  assert (E2 : l * (dos c * (c - a)) = (1 - l) * (dos c * (b - c))) by (replace (l * (dos c * (c - a))) with (dos c * (l * (c - a))) by ring; rewrite E1; ring). lra.
Qed.
Variable N : R -> R.
Hypothesis HN : forall EF, is_lim_seq (fun ndiv => romb_dfx (fun E _ => idos E) EF T 0 ndiv) (N EF).
Definition gu (EF x : R) : R := idos (Rmax (kB * T * x + EF) 0) * window x.
Lemma gu_cont EF x : continuous (gu EF) x.
Proof. apply (continuous_mult (fun x => idos (Rmax (kB * T * x + EF) 0)) window); [apply (fp_cont idos EF T Hi)|]. apply window_cont. Qed.
Lemma gu_lim EF A : EF / (kB * T) <= A -> is_lim (fun X => RInt (gu EF) (- A) X) p_infty (N EF).
Proof.
  intros HA. pose proof (ktp T HT) as K. destruct (C130_converges (fun E _ => idos E) EF T 0 HT Hi Hp) as (n & L1 & L2).
  assert (En : N EF = n) by (apply is_lim_seq_unique in L1; pose proof (HN EF) as L3; apply is_lim_seq_unique in L3; rewrite L3 in L1; injection L1; auto).
  assert (EI : n = RInt (F idos EF T 0) 0 (width EF T)). { pose proof (energy_lim idos EF T 0 HT Hi Hp) as L4. unfold fermi_integral in *. apply is_lim_unique in L2. apply is_lim_unique in L4. rewrite L4 in L2. injection L2; auto. }
  rewrite En, EI. apply (is_lim_ext (fun X => RInt (g idos EF T 0) (- (EF / (kB * T))) X)); [|apply (int_lim idos EF T 0 HT Hi Hp)]. intros X.
  assert (G : forall x, g idos EF T 0 x = gu EF x) by (intros x; unfold g, gu, fp; cbn [pow]; ring).
  assert (Z : RInt (gu EF) (- A) (- (EF / (kB * T))) = 0).
  { rewrite (RInt_ext _ (fun _ => 0)).
    - rewrite (RInt_const (V := R_CompleteNormedModule)). unfold scal; cbn. unfold mult; cbn. ring.
    - intros x Hx. rewrite Rmin_left, Rmax_right in Hx by lra. unfold gu. rewrite up_neg; [apply Rmult_0_l|]. destruct Hx as (_ & Hx). apply (Rmult_lt_compat_l (kB * T)) in Hx; [|exact K]. replace (kB * T * - (EF / (kB * T))) with (- EF) in Hx by fld. lra. }
  rewrite (RInt_ext (g idos EF T 0) (gu EF)) by (intros x _; apply G).
  assert (Ch : RInt (gu EF) (- A) X = RInt (gu EF) (- A) (- (EF / (kB * T))) + RInt (gu EF) (- (EF / (kB * T))) X) by (symmetry; apply (RInt_Chasles (gu EF)); apply ri, gu_cont). rewrite Ch, Z. exact (eq_sym (Rplus_0_l _)).
Qed.
Lemma N_convex : convex N.
Proof.
  intros a b l Hab Hl. pose proof (ktp T HT) as K. set (c := l * a + (1 - l) * b). assert (Cb : c <= b) by (unfold c; nra). set (A := b / (kB * T)).
  assert (Le : forall x, x <= b -> x / (kB * T) <= A) by (intros x Hx; unfold A, Rdiv; apply Rmult_le_compat_r; [left; apply Rinv_0_lt_compat; exact K|exact Hx]).
  assert (Q : Rbar_le (N c) (l * N a + (1 - l) * N b)); [|exact Q].
  apply (is_lim_le_loc (fun X => RInt (gu c) (- A) X) (fun X => l * RInt (gu a) (- A) X + (1 - l) * RInt (gu b) (- A) X) p_infty); [|apply gu_lim, Le, Cb|].
  - exists (- A). intros X HX. assert (E : l * RInt (gu a) (- A) X + (1 - l) * RInt (gu b) (- A) X = RInt (fun x => l * gu a x + (1 - l) * gu b x) (- A) X).
    { symmetry. rewrite <- (RInt_scal_R (gu a) l) by apply gu_cont. rewrite <- (RInt_scal_R (gu b) (1 - l)) by apply gu_cont. apply (RInt_plus (V := R_CompleteNormedModule) (fun x => l * gu a x) (fun x => (1 - l) * gu b x)); apply ri; intros x; [apply (continuous_mult (fun _ => l) (gu a))|apply (continuous_mult (fun _ => 1 - l) (gu b))]; try apply continuous_const; apply gu_cont. }
    rewrite E. apply RInt_le; [lra|apply ri, gu_cont| |].
    + apply ri. intros x. apply (continuous_plus (fun x => l * gu a x) (fun x => (1 - l) * gu b x)); [apply (continuous_mult (fun _ => l) (gu a))|apply (continuous_mult (fun _ => 1 - l) (gu b))]; try apply continuous_const; apply gu_cont.
    + intros x _. unfold gu. pose proof (up_convex (kB * T * x + a) (kB * T * x + b) l ltac:(lra) Hl) as U. replace (l * (kB * T * x + a) + (1 - l) * (kB * T * x + b)) with (kB * T * x + c) in U by (unfold c; ring).
      assert (W : 0 <= window x) by (unfold window; pose proof (exp_pos x); apply Rdiv_le_0_compat; [lra|]; apply pow_lt; lra). apply (Rmult_le_compat_r (window x)) in U; [|exact W]. lra.
  - apply (is_lim_plus' (fun X => l * RInt (gu a) (- A) X) (fun X => (1 - l) * RInt (gu b) (- A) X) p_infty (l * N a) ((1 - l) * N b)).
    + apply (is_lim_scal_l (fun X => RInt (gu a) (- A) X) l p_infty (N a)), gu_lim, Le. lra.
    + apply (is_lim_scal_l (fun X => RInt (gu b) (- A) X) (1 - l) p_infty (N b)), gu_lim, Le. lra.
Qed.
End Conv.
(** a convex function that grows without bound on both sides takes every value above its minimum exactly twice *)
Lemma conv_any F : convex F -> forall a b l, 0 <= l <= 1 -> F (l * a + (1 - l) * b) <= l * F a + (1 - l) * F b.
Proof.
  intros C a b l Hl. destruct (Rtotal_order a b) as [L|[<-|L]]; [apply C; assumption| |].
  - replace (l * a + (1 - l) * a) with a by ring. lra.
  - pose proof (C b a (1 - l) L ltac:(lra)) as Q. replace ((1 - l) * b + (1 - (1 - l)) * a) with (l * a + (1 - l) * b) in Q by ring. lra.
Qed.
Lemma conv_below F m p q v : convex F -> F m < v -> F p = v -> F q = v -> (q - p) * (m - q) > 0 -> False.
Proof.
  intros C Hm Hp Hq S. assert (N : m - p <> 0) by (intros E; assert (E' : m = p) by lra; rewrite E' in S; pose proof (pow2_ge_0 (q - p)); nra). set (l := (m - q) / (m - p)).
  assert (L : 0 < l < 1). { unfold l. destruct (Rlt_le_dec p m) as [P|P].
    - assert (P' : 0 < m - p) by lra. assert (Q1 : p < q) by (apply Rnot_le_lt; intros L'; nra). assert (Q2 : q < m) by (apply Rnot_le_lt; intros L'; nra). split; [apply Rdiv_lt_0_compat; lra|apply (proj2 (Rlt_div_l (m - q) 1 (m - p) P')); lra].
    - assert (P' : 0 < p - m) by lra. assert (Q1 : q < p) by (apply Rnot_le_lt; intros L'; nra). assert (Q2 : m < q) by (apply Rnot_le_lt; intros L'; nra). replace ((m - q) / (m - p)) with ((q - m) / (p - m)) by (field; lra). split; [apply Rdiv_lt_0_compat; lra|apply (proj2 (Rlt_div_l (q - m) 1 (p - m) P')); lra]. }
  pose proof (conv_any F C p m l ltac:(lra)) as Q. replace (l * p + (1 - l) * m) with q in Q by (unfold l; field; lra). nra.
Qed.
Lemma two_levels F : convex F -> (forall x, continuity_pt F x) -> (forall v, exists b, forall x, b <= x -> v < F x) -> (forall v, exists a, forall x, x <= a -> v < F x) ->
  exists m, (forall x, F m <= F x) /\ forall v, F m < v -> exists x1 x2, x1 < x2 /\ F x1 = v /\ F x2 = v /\ forall x, F x = v -> x = x1 \/ x = x2.
Proof.
  intros C Ct Up Dn. destruct (Up (F 0)) as (b & B). destruct (Dn (F 0)) as (a & A). pose proof (Rmin_l a 0). pose proof (Rmin_r a 0). pose proof (Rmax_l b 0). pose proof (Rmax_r b 0).
  destruct (continuity_ab_min F (Rmin a 0) (Rmax b 0)) as (m & M & _); [lra|intros; apply Ct|]. exists m.
  assert (Min : forall x, F m <= F x). { intros x. pose proof (M 0 ltac:(lra)) as M0. destruct (Rlt_le_dec x (Rmin a 0)) as [L|L]; [specialize (A x ltac:(lra)); lra|]. destruct (Rlt_le_dec (Rmax b 0) x) as [L'|L']; [specialize (B x ltac:(lra)); lra|]. apply M; lra. }
  split; [exact Min|]. intros v Hv. destruct (Dn v) as (a' & A'). destruct (Up v) as (b' & B').
  assert (Am : a' < m) by (apply Rnot_le_lt; intros L; specialize (A' m L); lra). assert (Bm : m < b') by (apply Rnot_le_lt; intros L; specialize (B' m L); lra).
  destruct (IVT_interv (fun x => v - F x) a' m) as (x1 & X1 & E1); [intros x _; apply continuity_pt_minus; [apply continuity_pt_const; intros u w; reflexivity|apply Ct]|exact Am|specialize (A' a' ltac:(lra)); lra|lra|].
  destruct (IVT_interv (fun x => F x - v) m b') as (x2 & X2 & E2); [intros x _; apply continuity_pt_minus; [apply Ct|apply continuity_pt_const; intros u w; reflexivity]|exact Bm|lra|specialize (B' b' ltac:(lra)); lra|].
  assert (F1 : F x1 = v) by lra. assert (F2 : F x2 = v) by lra. assert (N1 : x1 <> m) by (intros ->; lra). assert (N2 : x2 <> m) by (intros ->; lra).
  exists x1, x2. split; [lra|]. split; [exact F1|]. split; [exact F2|]. intros x Fx. assert (Nm : x <> m) by (intros ->; lra).
  destruct (Rlt_le_dec x m) as [L|L].
  - left. destruct (Rtotal_order x x1) as [P|[P|P]]; [exfalso|exact P|exfalso]; [apply (conv_below F m x x1 v C Hv Fx F1)|apply (conv_below F m x1 x v C Hv F1 Fx)]; apply Rmult_lt_0_compat; lra.
  - right. destruct (Rtotal_order x x2) as [P|[P|P]]; [exfalso|exact P|exfalso].
    + apply (conv_below F m x2 x v C Hv F2 Fx). replace ((x - x2) * (m - x)) with ((x2 - x) * (x - m)) by ring. apply Rmult_lt_0_compat; lra.
    + apply (conv_below F m x x2 v C Hv Fx F2). replace ((x2 - x) * (m - x2)) with ((x - x2) * (x2 - m)) by ring. apply Rmult_lt_0_compat; lra.
Qed.
(** a strictly increasing continuous function that decreases to 0 and grows without bound takes every positive value exactly once *)
Lemma one_level F c K : 0 < c -> (forall x y, x < y -> F x < F y) -> (forall x, continuity_pt F x) -> (forall v, exists x, v < F x) -> (forall x, F x <= K * exp (x / c)) -> forall v, 0 < v -> exists! x, F x = v.
Proof.
  intros Hc M Ct Up Dn v Hv. destruct (Up v) as (b & B). set (k := Rmax K 1). assert (K1 : 1 <= k) by apply Rmax_r. assert (Kk : K <= k) by apply Rmax_l.
  set (a := c * ln (v / (2 * k))). assert (A : F a < v).
  { eapply Rle_lt_trans; [apply Dn|]. unfold a. replace (c * ln (v / (2 * k)) / c) with (ln (v / (2 * k))) by (field; lra). assert (P : 0 < v / (2 * k)) by (apply Rdiv_lt_0_compat; lra). rewrite exp_ln by exact P. apply Rle_lt_trans with (k * (v / (2 * k))); [apply Rmult_le_compat_r; lra|]. replace (k * (v / (2 * k))) with (v / 2) by (field; lra). lra. }
  assert (AB : a < b) by (apply Rnot_le_lt; intros [L|L]; [apply M in L; lra|rewrite L in B; lra]).
  destruct (IVT_interv (fun x => F x - v) a b) as (z & _ & E); [intros x _; apply continuity_pt_minus; [apply Ct|apply continuity_pt_const; intros u w; reflexivity]|exact AB|lra|lra|].
  exists z. split; [lra|]. intros y Hy. destruct (Rtotal_order z y) as [L|[L|L]]; [|exact L|]; apply M in L; lra.
Qed.
