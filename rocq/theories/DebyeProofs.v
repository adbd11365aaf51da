From Coq Require Import Reals Lra Lia String Permutation.
From Coquelicot Require Import Coquelicot.
From Verif Require Import Py PyDict PyStr RUtil ScatModel EngModel DebyeModel DebyeSpec.
Local Open Scope R_scope.

(** *** construction *)
Lemma dmem_dset_new {V} (s : list (str * V)) t f : dmem s t = false -> dset s t f = s ++ [(t, f)].
Proof. intros H. apply dset_keys_notin. intros Hi. apply dmem_spec in Hi. congruence. Qed.
Lemma dmem_false {V} (s : list (str * V)) t : dmem s t = false <-> ~ In t (map fst s).
Proof.
  split.
  - intros H Hi. assert (E : dmem s t = true) by (apply dmem_spec; exact Hi). congruence.
  - intros H. destruct (dmem s t) eqn:E; [|reflexivity]. apply dmem_spec in E. contradiction.
Qed.
Lemma nodup_mid {A} (l : list A) x r : NoDup (l ++ x :: r) <-> NoDup ((l ++ [x]) ++ r).
Proof. rewrite <- app_assoc. reflexivity. Qed.
Lemma load_ok l : forall s a, NoDup (map fst s) -> NoDup (map fst a) ->
  (~ In Other l /\ NoDup (map fst (s ++ scats l)) /\ NoDup (map fst (a ++ subs l)) -> load s a l = Ok (s ++ scats l, a ++ subs l)) /\
  (forall s' a', load s a l = Ok (s', a') -> ~ In Other l /\ NoDup (map fst (s ++ scats l)) /\ NoDup (map fst (a ++ subs l)) /\ s' = s ++ scats l /\ a' = a ++ subs l).
Proof.
  induction l as [|[t f|t k|] l IH]; intros s a Ns Na.
  - cbn. rewrite !app_nil_r. split; [intros _; reflexivity|]. intros s' a' [= <- <-]. repeat split; auto.
  - change (scats (Scat t f :: l)) with ((t, f) :: scats l). change (subs (Scat t f :: l)) with (subs l). cbn [load].
    assert (E1 : s ++ (t, f) :: scats l = (s ++ [(t, f)]) ++ scats l) by (rewrite <- app_assoc; reflexivity). rewrite E1.
    destruct (dmem s t) eqn:D.
    + split; [|discriminate]. intros (_ & H & _). exfalso. apply dmem_spec in D. rewrite <- E1, map_app in H. cbn in H. apply NoDup_remove_2 in H. apply H, in_app_iff. left. exact D.
    + rewrite (dmem_dset_new s t f D). assert (D' := proj1 (dmem_false s t) D).
      assert (Ns' : NoDup (map fst (s ++ [(t, f)]))) by (rewrite map_app; apply NoDup_snoc; assumption).
      destruct (IH (s ++ [(t, f)]) a Ns' Na) as [I1 I2]. split.
      * intros (H1 & H2 & H3). apply I1. split; [intros Hi; apply H1; right; exact Hi|auto].
      * intros s' a' H. destruct (I2 _ _ H) as (H1 & H2). split; [intros [Hi|Hi]; [discriminate|exact (H1 Hi)]|exact H2].
  - change (subs (Sub t k :: l)) with ((t, k) :: subs l). change (scats (Sub t k :: l)) with (scats l). cbn [load].
    assert (E1 : a ++ (t, k) :: subs l = (a ++ [(t, k)]) ++ subs l) by (rewrite <- app_assoc; reflexivity). rewrite E1.
    destruct (dmem a t) eqn:D.
    + split; [|discriminate]. intros (_ & _ & H). exfalso. apply dmem_spec in D. rewrite <- E1, map_app in H. cbn in H. apply NoDup_remove_2 in H. apply H, in_app_iff. left. exact D.
    + rewrite (dmem_dset_new a t k D). assert (D' := proj1 (dmem_false a t) D).
      assert (Na' : NoDup (map fst (a ++ [(t, k)]))) by (rewrite map_app; apply NoDup_snoc; assumption).
      destruct (IH s (a ++ [(t, k)]) Ns Na') as [I1 I2]. split.
      * intros (H1 & H2 & H3). apply I1. split; [intros Hi; apply H1; right; exact Hi|auto].
      * intros s' a' H. destruct (I2 _ _ H) as (H1 & H2). split; [intros [Hi|Hi]; [discriminate|exact (H1 Hi)]|exact H2].
  - cbn. split; [intros (H & _); exfalso; apply H; left; reflexivity|discriminate].
Qed.
Lemma load_prefix pre : forall s a r, NoDup (map fst s) -> NoDup (map fst a) ->
  ~ In Other pre -> NoDup (map fst (s ++ scats pre)) -> NoDup (map fst (a ++ subs pre)) -> load s a (pre ++ r) = load (s ++ scats pre) (a ++ subs pre) r.
Proof.
  induction pre as [|[t f|t k|] pre IH]; intros s a r Ns Na H1 H2 H3.
  - cbn. rewrite !app_nil_r. reflexivity.
  - change (scats (Scat t f :: pre)) with ((t, f) :: scats pre) in *. change (subs (Scat t f :: pre)) with (subs pre) in *. cbn [load app].
    assert (E1 : s ++ (t, f) :: scats pre = (s ++ [(t, f)]) ++ scats pre) by (rewrite <- app_assoc; reflexivity).
    assert (D' : ~ In t (map fst s)). { rewrite map_app in H2. cbn in H2. apply NoDup_remove_2 in H2. intros Hi. apply H2, in_app_iff. left. exact Hi. }
    rewrite (proj2 (dmem_false s t) D'). rewrite (dmem_dset_new s t f (proj2 (dmem_false s t) D')). rewrite E1 in *.
    apply IH; auto; [rewrite map_app; apply NoDup_snoc; assumption|intros Hi; apply H1; right; exact Hi].
  - change (subs (Sub t k :: pre)) with ((t, k) :: subs pre) in *. change (scats (Sub t k :: pre)) with (scats pre) in *. cbn [load app].
    assert (E1 : a ++ (t, k) :: subs pre = (a ++ [(t, k)]) ++ subs pre) by (rewrite <- app_assoc; reflexivity).
    assert (D' : ~ In t (map fst a)). { rewrite map_app in H3. cbn in H3. apply NoDup_remove_2 in H3. intros Hi. apply H3, in_app_iff. left. exact Hi. }
    rewrite (proj2 (dmem_false a t) D'). rewrite (dmem_dset_new a t k (proj2 (dmem_false a t) D')). rewrite E1 in *.
    apply IH; auto; [rewrite map_app; apply NoDup_snoc; assumption|intros Hi; apply H1; right; exact Hi].
  - exfalso. apply H1. left. reflexivity.
Qed.

(** *** labels *)
Lemma dupdate_app (l : list (str * R)) : forall acc, NoDup (map fst (acc ++ l)) -> dupdate acc l = acc ++ l.
Proof.
  induction l as [|[k v] l IH]; intros acc H; cbn; [rewrite app_nil_r; reflexivity|].
  assert (D : ~ In k (dkeys acc)). { rewrite map_app in H. cbn in H. apply NoDup_remove_2 in H. intros Hi. apply H, in_app_iff. left. exact Hi. }
  change (dupdate (dset acc k v) l = acc ++ (k, v) :: l). rewrite dset_keys_notin by exact D. rewrite IH; rewrite <- app_assoc; [reflexivity|exact H].
Qed.
Lemma accum_len l : forall p, List.length (accum p l) = List.length l.
Proof. induction l as [|e l IH]; intros p; cbn; [reflexivity|]. rewrite IH. reflexivity. Qed.
Lemma accum_longer l : forall p e, In e (accum (Some p) l) -> (List.length (fst p) < List.length (fst e))%nat.
Proof.
  induction l as [|x l IH]; intros p e; cbn; [intros []|]. intros [<-|H].
  - cbn [fst]. rewrite !app_length. cbn. lia.
  - apply IH in H. cbn [fst] in H. rewrite !app_length in H. cbn in H. lia.
Qed.
Lemma accum_nodup l : forall p, NoDup (map fst (accum p l)).
Proof.
  induction l as [|x l IH]; intros p; cbn; [constructor|]. constructor; [|apply IH].
  intros H. apply in_map_iff in H. destruct H as (e & E & H). apply accum_longer in H. rewrite E in H. lia.
Qed.
Lemma accum_nth_some l : forall p k e, nth_error (accum (Some p) l) k = Some e ->
  e = (fst p ++ S_ "+" ++ plus_join (firstn (S k) (map fst l)), snd p + sumR (firstn (S k) (map snd l))).
Proof.
  induction l as [|x l IH]; intros p k e; [destruct k; discriminate|]. destruct k as [|k].
  - cbn. intros [= <-]. f_equal. lra.
  - cbn [accum nth_error]. intros H. rewrite (IH _ _ _ H). cbn [fst snd]. cbn [map]. rewrite (firstn_cons (S k)), (firstn_cons (S k)). f_equal.
    + destruct l as [|y l]; [destruct k; discriminate H|]. cbn [map]. rewrite (firstn_cons k). cbn [plus_join]. rewrite <- !app_assoc. reflexivity.
    + cbn [sumR]. lra.
Qed.
Lemma accum_nth l k e : nth_error (accum None l) k = Some e -> e = (plus_join (firstn (S k) (map fst l)), sumR (firstn (S k) (map snd l))).
Proof.
  destruct l as [|x l]; [destruct k; discriminate|]. destruct k as [|k].
  - cbn. intros [= <-]. destruct x; cbn. f_equal. lra.
  - cbn [accum nth_error]. intros H. rewrite (accum_nth_some _ _ _ _ H). cbn [map]. rewrite (firstn_cons (S k)), (firstn_cons (S k)). f_equal.
    destruct l as [|y l]; [destruct k; discriminate H|]. reflexivity.
Qed.


(** *** the Debye weight *)
Lemma div_pp a b : 0 < a -> 0 < b -> 0 < a / b.
Proof. intros. apply Rmult_lt_0_compat; [assumption|apply Rinv_0_lt_compat; assumption]. Qed.
Lemma ip10 n : 0 < / 10 ^ n. Proof. apply Rinv_0_lt_compat, pow_lt. lra. Qed.
Lemma sinh_gt y : 0 < y -> y < sinh y.
Proof.
  intros H. destruct (MVT_cor2 (fun x => sinh x - x) (fun x => cosh x - 1) 0 y H) as (c & E & Hc).
  - intros c _. apply derivable_pt_lim_minus; [apply derivable_pt_lim_sinh|apply derivable_pt_lim_id].
  - rewrite sinh_0 in E. assert (1 < cosh c).
    { unfold cosh. assert (E0 := exp_pos c). assert (E1 := exp_pos (- c)). assert (I : exp c * exp (- c) = 1) by (rewrite <- exp_plus, <- exp_0; f_equal; lra).
      assert (1 < exp c) by (rewrite <- exp_0; apply exp_increasing; lra). nra. }
    nra.
Qed.
(** x cosh x > sinh x *)
Lemma cosh_gt y : 0 < y -> sinh y < y * cosh y.
Proof.
  intros H. destruct (MVT_cor2 (fun x => x * cosh x - sinh x) (fun x => 1 * cosh x + x * sinh x - cosh x) 0 y H) as (c & E & Hc).
  - intros c _. apply derivable_pt_lim_minus; [|apply derivable_pt_lim_sinh]. apply (derivable_pt_lim_mult (fun x => x) cosh); [apply derivable_pt_lim_id|apply derivable_pt_lim_cosh].
  - rewrite sinh_0 in E. assert (S0 := sinh_gt c ltac:(lra)). assert (0 < c * sinh c) by (apply Rmult_lt_0_compat; lra). assert (0 < (1 * cosh c + c * sinh c - cosh c) * (y - 0)) by (apply Rmult_lt_0_compat; lra). lra.
Qed.
Lemma sinh_ratio y1 y2 : 0 < y1 < y2 -> sinh y1 / y1 < sinh y2 / y2.
Proof.
  intros H. destruct (MVT_cor2 (fun x => sinh x / x) (fun x => (cosh x * x - 1 * sinh x) / x²) y1 y2 (proj2 H)) as (c & E & Hc).
  - intros c Hc. apply (derivable_pt_lim_div sinh (fun x => x)); [apply derivable_pt_lim_sinh|apply derivable_pt_lim_id|lra].
  - assert (G := cosh_gt c ltac:(lra)). assert (0 < (cosh c * c - 1 * sinh c) / c² ) by (apply div_pp; [lra|apply Rsqr_pos_lt; lra]).
    assert (0 < (cosh c * c - 1 * sinh c) / c² * (y2 - y1)) by (apply Rmult_lt_0_compat; lra). lra.
Qed.
Lemma weight_sinh x : 0 < x -> x ^ 2 * exp x / (exp x - 1) ^ 2 = / (sinh (x / 2) / (x / 2)) ^ 2.
Proof.
  intros H. assert (S0 := sinh_gt (x / 2) ltac:(lra)). unfold sinh in *. assert (E0 := exp_pos (x / 2)).
  assert (I : exp (- (x / 2)) = / exp (x / 2)) by apply exp_Ropp. assert (Ex : exp x = exp (x / 2) * exp (x / 2)) by (rewrite <- exp_plus; f_equal; lra).
  rewrite I, Ex in *. set (a := exp (x / 2)) in *. clearbody a.
  assert (Ha : 1 < a). { destruct (Rlt_le_dec 1 a); [assumption|]. exfalso. assert (1 <= / a) by (rewrite <- Rinv_1; apply Rinv_le_contravar; lra). lra. }
  field. repeat split; nra.
Qed.
Lemma sinh_ratio_gt1 y : 0 < y -> 1 < sinh y / y.
Proof. intros H. apply (Rmult_lt_reg_r y); [exact H|]. unfold Rdiv. rewrite Rmult_assoc, Rinv_l by lra. rewrite Rmult_1_l, Rmult_1_r. apply sinh_gt, H. Qed.
Lemma debye_weight x : 0 < x -> 0 < x ^ 2 * exp x / (exp x - 1) ^ 2 < 1.
Proof.
  intros H. rewrite (weight_sinh x H). assert (G := sinh_ratio_gt1 (x / 2) ltac:(lra)). set (g := sinh (x / 2) / (x / 2)) in *. clearbody g.
  assert (1 < g ^ 2) by nra. split; [apply Rinv_0_lt_compat; lra|]. rewrite <- Rinv_1. apply Rinv_lt_contravar; lra.
Qed.
(** it falls with x *)
Lemma debye_weight_anti x1 x2 : 0 < x1 < x2 -> x2 ^ 2 * exp x2 / (exp x2 - 1) ^ 2 < x1 ^ 2 * exp x1 / (exp x1 - 1) ^ 2.
Proof.
  intros H. rewrite !weight_sinh by lra. assert (G := sinh_ratio_gt1 (x1 / 2) ltac:(lra)). assert (L := sinh_ratio (x1 / 2) (x2 / 2) ltac:(lra)).
  set (a := sinh (x1 / 2) / (x1 / 2)) in *. set (b := sinh (x2 / 2) / (x2 / 2)) in *. clearbody a b. apply Rinv_lt_contravar; [apply Rmult_lt_0_compat; apply pow_lt; lra|]. nra.
Qed.

Lemma firstn_plus {A} (l : list A) : forall a b, firstn (a + b) l = firstn a l ++ firstn b (skipn a l).
Proof. induction l as [|x l IH]; intros [|a] b; cbn; try rewrite firstn_nil; try reflexivity. rewrite IH. reflexivity. Qed.

(** *** the integral *)
Lemma sumR_perm l l' : Permutation l l' -> sumR l = sumR l'.
Proof. induction 1; cbn; lra. Qed.
Definition rsum (s : list mech) (w T : R) : R := sumR (map (fun m => snd m w T) s).
Lemma rsum_pos td T s w : regular td T s -> EPS <= w <= wd td -> 0 < rsum s w T.
Proof.
  intros [Hn H] Hw. unfold rsum. destruct s as [|m s]; [congruence|]. cbn. assert (0 < snd m w T) by (apply H; [left; reflexivity|exact Hw]).
  assert (0 <= sumR (map (fun m0 => snd m0 w T) s)). { apply sumR_nonneg. apply Forall_forall. intros x Hx. apply in_map_iff in Hx. destruct Hx as (q & <- & Hq). left. apply H; [right; exact Hq|exact Hw]. }
  lra.
Qed.
Lemma rsum_cont s T w : (forall m, In m s -> continuity_pt (fun w => snd m w T) w) -> continuous (fun w => rsum s w T) w.
Proof.
  unfold rsum. induction s as [|m s IH]; intros H; cbn; [apply continuous_const|].
  apply (continuous_plus (fun w => snd m w T) (fun w => sumR (map (fun m0 => snd m0 w T) s))).
  - apply continuity_pt_filterlim. apply H. left. reflexivity.
  - apply IH. intros q Hq. apply H. right. exact Hq.
Qed.
Lemma EPS_pos : 0 < EPS. Proof. apply (ip10 6). Qed.
Lemma exp_m1 x : 0 < x -> exp x - 1 <> 0.
Proof. intros H. assert (exp 0 < exp x) by (apply exp_increasing; exact H). rewrite exp_0 in *. lra. Qed.
Lemma sfactor_cont vs T w : 0 < vs -> 0 < T -> 0 < w -> continuous (fun w => sfactor vs w T) w.
Proof.
  intros Hv HT Hw. assert (Hx : 0 < w / T * hbar_kB) by (apply Rmult_lt_0_compat; [apply div_pp; assumption|unfold hbar_kB; lra]).
  apply (ex_derive_continuous (fun w => sfactor vs w T) w). unfold sfactor. cbn zeta. generalize dependent hbar_kB. intros h Hx.
  assert (E := exp_m1 _ Hx). unfold Rdiv in *. auto_derive.
  replace (w * / T * h) with (w / T * h) in * by reflexivity. apply Rmult_integral_contrapositive. split; [exact E|]. rewrite Rmult_1_r. exact E.
Qed.
Lemma sfactor_pos vs w T : 0 < vs -> 0 < w -> 0 < T -> 0 < sfactor vs w T.
Proof.
  intros Hv Hw HT. assert (P := PI_RGT_0). unfold sfactor. cbn zeta. assert (Hx : 0 < w / T * hbar_kB) by (apply Rmult_lt_0_compat; [apply div_pp; assumption|unfold hbar_kB; lra]).
  assert (D := debye_weight _ Hx). apply Rmult_lt_0_compat; [apply div_pp; [apply pow_lt, div_pp; assumption|lra]|]. lra.
Qed.
Lemma ss_cont td vs s T w : regular td T s -> 0 < vs -> 0 < T -> EPS <= w <= wd td -> continuous (fun w => spectral_sum vs s w T 0) w.
Proof.
  intros Hr Hv HT Hw. assert (E := EPS_pos). assert (Hp := rsum_pos td T s w Hr Hw).
  apply (continuous_mult (fun w => sfactor vs w T) (fun w => / rsum s w T)); [apply sfactor_cont; lra|].
  apply (continuous_comp (fun w => rsum s w T) Rinv); [apply rsum_cont; intros m Hm; apply (proj2 Hr m w Hm Hw)|].
  apply continuity_pt_filterlim. apply (continuity_pt_inv (fun x => x)); [apply continuity_pt_id|]. lra.
Qed.
Lemma ss_int td vs s T : regular td T s -> 0 < vs -> 0 < T -> EPS <= wd td -> ex_RInt (fun w => spectral_sum vs s w T 0) EPS (wd td).
Proof.
  intros Hr Hv HT Hd. apply (ex_RInt_continuous (V := R_CompleteNormedModule)). intros z Hz. rewrite Rmin_left, Rmax_right in Hz by exact Hd. apply (ss_cont td); assumption.
Qed.
Lemma ss_pos td vs s T w : regular td T s -> 0 < vs -> 0 < T -> EPS <= w <= wd td -> 0 < spectral_sum vs s w T 0.
Proof.
  intros Hr Hv HT Hw. assert (E := EPS_pos). unfold spectral_sum. apply div_pp; [apply sfactor_pos; lra|apply (rsum_pos td T s w Hr Hw)].
Qed.
(** strict monotonicity of the integral *)
Lemma ss_lt td vs1 s1 T1 vs2 s2 T2 : regular td T1 s1 -> regular td T2 s2 -> 0 < vs1 -> 0 < vs2 -> 0 < T1 -> 0 < T2 -> EPS < wd td ->
  (forall w, EPS < w < wd td -> spectral_sum vs1 s1 w T1 0 < spectral_sum vs2 s2 w T2 0) -> kappa_n td vs1 s1 T1 0 < kappa_n td vs2 s2 T2 0.
Proof.
  intros. unfold kappa_n. apply RInt_lt; [assumption| | |assumption]; intros x Hx.
  - apply (ss_cont td); assumption.
  - apply (ss_cont td); assumption.
Qed.

(** *** cumulative quantities *)
Lemma ctz_from_len l : forall a, List.length (cumtrapz_from a l) = List.length l.
Proof. induction l as [|p l IH]; intros a; cbn; [reflexivity|]. destruct l as [|q l]; [reflexivity|]. rewrite IH. reflexivity. Qed.
Lemma ctz_first a l x : nth_error (map snd (cumtrapz_from a l)) 0 = Some x -> x = a.
Proof. destruct l as [|p l]; cbn; [discriminate|]. congruence. Qed.
Lemma ctz_step l : forall a k x y p q, nth_error (map snd (cumtrapz_from a l)) k = Some x -> nth_error (map snd (cumtrapz_from a l)) (S k) = Some y ->
  nth_error l k = Some p -> nth_error l (S k) = Some q -> y - x = (fst q - fst p) * (snd q + snd p) / 2.
Proof.
  induction l as [|p0 l IH]; intros a k x y p q; [destruct k; discriminate|]. destruct l as [|q0 l]; [destruct k; cbn; intros; [discriminate|destruct k; discriminate]|].
  change (cumtrapz_from a (p0 :: q0 :: l)) with ((fst p0, a) :: cumtrapz_from (a + (fst q0 - fst p0) * (snd q0 + snd p0) / 2) (q0 :: l)). cbn [map snd].
  destruct k as [|k].
  - cbn [nth_error]. intros Hx Hy Hp Hq. apply ctz_first in Hy. injection Hx as <-. injection Hp as <-. injection Hq as <-. lra.
  - intros Hx Hy Hp Hq. apply (IH _ k x y p q Hx Hy Hp Hq).
Qed.
Lemma ramp_bounds m ave d w : 0 < d -> 0 <= w -> 0 <= ramp m ave d w <= w.
Proof.
  intros Hd Hw. unfold ramp. assert (A : 0 <= Rmin (Rmax (m - ave - d / 2) 0) d <= d) by (split; [apply Rmin_glb; [apply Rmax_r|lra]|apply Rmin_r]).
  set (q := Rmin _ d) in *. assert (B : 0 <= w / d) by (apply Rmult_le_pos; [exact Hw|left; apply Rinv_0_lt_compat, Hd]). split; [apply Rmult_le_pos; lra|].
  apply (Rle_trans _ (w / d * d)); [apply Rmult_le_compat_l; lra|right; field; lra].
Qed.
Lemma ramp_mono m m' ave d w : 0 < d -> 0 <= w -> m <= m' -> ramp m ave d w <= ramp m' ave d w.
Proof.
  intros Hd Hw Hm. unfold ramp. apply Rmult_le_compat_l; [apply Rmult_le_pos; [exact Hw|left; apply Rinv_0_lt_compat, Hd]|].
  apply Rle_min_compat_r, Rle_max_compat_r. lra.
Qed.
Lemma ramp_zero m ave d w : 0 < d -> m <= ave + d / 2 -> ramp m ave d w = 0.
Proof. intros Hd H. unfold ramp. rewrite Rmax_right by lra. rewrite Rmin_left by lra. ring. Qed.
Lemma ramp_full m ave d w : 0 < d -> ave + 3 / 2 * d <= m -> ramp m ave d w = w.
Proof. intros Hd H. unfold ramp. rewrite Rmax_left by lra. rewrite Rmin_right by lra. field. lra. Qed.
Lemma ramp_partial m ave d w : 0 < d -> 0 < w -> m < ave + 3 / 2 * d -> ramp m ave d w < w.
Proof.
  intros Hd Hw H. unfold ramp. assert (B : 0 < w / d) by (apply div_pp; assumption).
  apply (Rlt_le_trans _ (w / d * d)); [|right; field; lra]. apply Rmult_lt_compat_l; [exact B|].
  unfold Rmin, Rmax. destruct (Rle_dec (m - ave - d / 2) 0); destruct (Rle_dec _ d); lra.
Qed.
Lemma edges_eq td n i : edges td n i = (bin_left (wd td) n i, bin_right (wd td) n i, (INR i + / 2) * (wd td / INR n)).
Proof.
  unfold edges, bin_left, bin_right. rewrite S_INR. set (d := wd td / INR n). cbn zeta.
  replace (INR i * d + d) with ((INR i + 1) * d) by ring. replace ((INR i * d + (INR i + 1) * d) / 2) with ((INR i + / 2) * d) by field. destruct i; reflexivity.
Qed.
Definition contrib vs rate spec td n m i : R :=
  let ml := vs / rate (bin_left (wd td) n i) in let mr := vs / rate (bin_right (wd td) n i) in
  ramp m ((ml + mr) / 2) (Rmax (Rabs (ml - mr)) (10 * EPS)) (bin_share spec (wd td) n i).
Lemma cum_mfp_eq vs rate spec td n m : cum_mfp vs rate spec td n m = sumR (map (contrib vs rate spec td n m) (seq 0 n)).
Proof. unfold cum_mfp. apply sumR_ext. intros i _. rewrite edges_eq. reflexivity. Qed.
Lemma width_pos a : 0 < Rmax a (10 * EPS).
Proof. assert (E := EPS_pos). eapply Rlt_le_trans; [|apply Rmax_r]. lra. Qed.
Lemma abs_mid a b : (a + b) / 2 + Rabs (a - b) / 2 = Rmax a b.
Proof. unfold Rabs, Rmax. destruct (Rcase_abs (a - b)), (Rle_dec a b); lra. Qed.
Lemma sumR_filter {A} (f : A -> R) (p : A -> bool) l : sumR (map f (filter p l)) = sumR (map (fun x => if p x then f x else 0) l).
Proof. induction l as [|x l IH]; cbn; [reflexivity|]. destruct (p x); cbn; rewrite IH; lra. Qed.
Lemma below_le vs rate spec td n m i : 0 <= bin_share spec (wd td) n i ->
  contrib vs rate spec td n m i <= (if bin_below vs rate (wd td) n m i then bin_share spec (wd td) n i else 0).
Proof.
  intros Hw. unfold contrib, bin_below. cbn zeta. set (ml := vs / rate (bin_left (wd td) n i)). set (mr := vs / rate (bin_right (wd td) n i)).
  assert (W := Rmax_l (Rabs (ml - mr)) (10 * EPS)). assert (P := width_pos (Rabs (ml - mr))). set (d := Rmax _ _) in *. assert (A := abs_mid ml mr).
  assert (M1 := Rmax_l ml mr). assert (M2 := Rmax_r ml mr).
  destruct (Rlt_dec ml m) as [H1|H1]; [destruct (Rlt_dec mr m) as [H2|H2]|].
  - apply ramp_bounds; assumption.
  - rewrite ramp_zero; [right; reflexivity|exact P|lra].
  - rewrite ramp_zero; [right; reflexivity|exact P|lra].
Qed.

Lemma Rpower_mult_distr_sym x y z : 0 < x -> 0 < y -> Rpower (x * y) z = Rpower x z * Rpower y z.
Proof. intros. symmetry. apply Rpower_mult_distr; assumption. Qed.
