(** Properties of the Debye model (C85-C89). *)
From Coq Require Import Reals Lra Lia String Permutation.
From Coquelicot Require Import Coquelicot.
From Verif Require Import Py PyDict PyStr RUtil ScatModel ScatSpec EngModel DebyeModel DebyeSpec DebyeProofs.
Local Open Scope R_scope.

(** ** C85: components *)
Theorem C85_construct : forall l s a, debye_init l = Ok (s, a) <-> fitting l /\ scats l <> [] /\ s = scats l /\ a = subs l.
Proof.
  intros l s a. unfold debye_init. destruct (load_ok l [] [] (NoDup_nil _) (NoDup_nil _)) as [A B]. cbn [app] in A, B. split.
  - destruct (load [] [] l) as [[s0 a0]|e] eqn:E; [|discriminate]. destruct (B _ _ eq_refl) as (H1 & H2 & H3 & -> & ->).
    intros H. assert (N : scats l <> []) by (intros Z; cbn in H; rewrite Z in H; discriminate).
    assert (H' : Ok (scats l, subs l) = Ok (s, a)) by (cbn in H; destruct (scats l); [congruence|exact H]). injection H' as <- <-. repeat split; auto.
  - intros ((H1 & H2 & H3) & H4 & -> & ->). rewrite A by auto. cbn. destruct (scats l); [congruence|reflexivity].
Qed.
(** the first component that does not fit decides *)
Theorem C85_first_offence : forall pre c r, fitting pre ->
  (c = Other -> debye_init (pre ++ c :: r) = Err NotImplementedError) /\
  (c <> Other -> ~ fitting (pre ++ [c]) -> debye_init (pre ++ c :: r) = Err ValueError).
Proof.
  intros pre c r (F1 & F2 & F3). unfold debye_init. rewrite (load_prefix pre [] [] (c :: r) (NoDup_nil _) (NoDup_nil _) F1 F2 F3). cbn [app]. split.
  - intros ->. reflexivity.
  - intros N NF. destruct c as [t f|t k|]; [| |congruence]; cbn [load].
    + destruct (dmem (scats pre) t) eqn:D; [reflexivity|]. exfalso. apply NF. apply dmem_false in D. unfold fitting, scats, subs. rewrite !flat_map_app, !map_app. fold (scats pre) (subs pre). cbn. rewrite !app_nil_r.
      split; [rewrite in_app_iff; intros [H|[H|[]]]; [auto|discriminate]|]. split; [apply NoDup_snoc; assumption|exact F3].
    + destruct (dmem (subs pre) t) eqn:D; [reflexivity|]. exfalso. apply NF. apply dmem_false in D. unfold fitting, scats, subs. rewrite !flat_map_app, !map_app. fold (scats pre) (subs pre). cbn. rewrite !app_nil_r.
      split; [rewrite in_app_iff; intros [H|[H|[]]]; [auto|discriminate]|]. split; [exact F2|apply NoDup_snoc; assumption].
Qed.
Theorem C85_no_mechanism : forall l, fitting l -> scats l = [] -> debye_init l = Err ValueError.
Proof.
  intros l (F1 & F2 & F3) E. unfold debye_init. destruct (load_ok l [] [] (NoDup_nil _) (NoDup_nil _)) as [A _]. cbn [app] in A. rewrite A by auto. cbn. rewrite E. reflexivity.
Qed.
(** the rates are reported under their tags, followed by their sum (no mechanism being called "total") *)
Theorem C85_scattering : forall s w T, NoDup (map fst s) -> ~ In (S_ "total") (map fst s) ->
  scattering s w T false = map (fun m => (fst m, snd m w T)) s /\
  scattering s w T true = map (fun m => (fst m, snd m w T)) s ++ [(S_ "total", sumR (map (fun m => snd m w T) s))].
Proof.
  intros s w T ND NT. split; [reflexivity|]. unfold scattering. rewrite dset_keys_notin.
  - rewrite map_map. reflexivity.
  - unfold dkeys. rewrite map_map. cbn. exact NT.
Qed.

(** ** C86: spectral conductivity *)
(** one value F, zero above the Debye frequency, divided by each rate; with accumulation by the sum of the rates so far, under labels "A", "A+B", "A+B+C"...
    that never coincide; frequencies below 1e-6 count as 1e-6 *)
Theorem C86_entries : forall td vs s w T, NoDup (map fst s) -> let w' := Rmax (/ 10 ^ 6) w in
  exists F, (td / 7.638232577577646 < w' -> F = 0) /\ (w' <= td / 7.638232577577646 -> F = sfactor vs w' T) /\
  spectral td vs s w T false = map (fun m => (fst m, F / snd m w' T)) s /\
  (let l := spectral td vs s w T true in
   List.length l = List.length s /\ NoDup (map fst l) /\
   forall k e, nth_error l k = Some e -> e = (plus_join (firstn (S k) (map fst s)), F / sumR (firstn (S k) (map (fun m => snd m w' T) s)))).
Proof.
  intros td vs s w T ND w'. exists (if Rle_dec w' (wd td) then sfactor vs w' T else 0). set (F0 := if Rle_dec w' (wd td) then _ else _).
  split; [|split; [|split]].
  - intros H. unfold F0. destruct (Rle_dec w' (wd td)) as [H'|]; [unfold wd, hbar_kB in H'; lra|reflexivity].
  - intros H. unfold F0. destruct (Rle_dec w' (wd td)) as [|H']; [reflexivity|unfold wd, hbar_kB in H'; lra].
  - unfold spectral. change (Rmax EPS w) with w'. rewrite map_map. cbn [fst snd]. rewrite dupdate_app; [reflexivity|]. cbn [app]. rewrite map_map. cbn [fst]. exact ND.
  - intros l. set (out := map (fun m => (fst m, snd m w' T)) s).
    assert (EL : l = map (fun e => (fst e, F0 / snd e)) (accum None out)).
    { unfold l, spectral. change (Rmax EPS w) with w'. fold out. fold F0. rewrite dupdate_app; [reflexivity|]. cbn [app]. rewrite map_map. cbn [fst]. apply accum_nodup. }
    split; [rewrite EL, map_length, accum_len; unfold out; apply map_length|]. split; [rewrite EL, map_map; cbn [fst]; apply accum_nodup|].
    intros k e H. rewrite EL in H. rewrite nth_error_map in H. destruct (nth_error (accum None out) k) as [e0|] eqn:E0; [|discriminate]. cbn in H. injection H as <-.
    apply accum_nth in E0. subst e0. cbn [fst snd]. unfold out. rewrite !map_map. reflexivity.
Qed.
(** the value is the documented one in SI units, with a reduced Planck constant right to 1e-14; it is positive and below its classical limit *)
Theorem C86_factor : forall vs w T, 0 < vs -> 0 < w -> 0 < T ->
  (exists hb, Rabs (hb / c_hbar - 1) < / 10 ^ 14 /\ sfactor vs w T = doc_factor hb c_kB (vs * 10 ^ 3) (w * 10 ^ 12) T) /\
  0 < sfactor vs w T < c_kB * (w * 10 ^ 12) ^ 2 / (2 * PI ^ 2 * (vs * 10 ^ 3)).
Proof.
  intros vs w T Hv Hw HT. assert (P := PI_RGT_0). assert (Hx : 0 < w / T * hbar_kB) by (apply Rmult_lt_0_compat; [apply div_pp; assumption|unfold hbar_kB; lra]). split.
  - exists (hbar_kB * (1.380649 * / 10 ^ 23) * / 10 ^ 12). split.
    + unfold c_hbar, hbar_kB. apply Rabs_def1; lra.
    + unfold sfactor, doc_factor, c_kB.
      assert (Ex : hbar_kB * (1.380649 * / 10 ^ 23) * / 10 ^ 12 * (w * 10 ^ 12) / (1.380649 * / 10 ^ 23 * T) = w / T * hbar_kB).
      { generalize hbar_kB. intros h. assert (Q : forall t k, t <> 0 -> k <> 0 -> h * (k * / t ^ 23) * / t ^ 12 * (w * t ^ 12) / (k * / t ^ 23 * T) = w / T * h) by (intros; field; repeat split; lra). apply Q; lra. }
      rewrite Ex. set (x := w / T * hbar_kB) in *. assert (E1 := exp_pos x). assert (E2 : 1 < exp x) by (rewrite <- exp_0; apply exp_increasing; lra).
      generalize dependent (exp x). intros e E1 E2. clearbody x.
      assert (Q : forall t, t <> 0 -> (w / PI) ^ 2 / (2 * vs) * (x ^ 2 * e / (e - 1) ^ 2 * (1.380649 * / t ^ 2)) = (w * t ^ 12) ^ 2 / (2 * (vs * t ^ 3) * PI ^ 2) * (1.380649 * / t ^ 23) * x ^ 2 * (e / (e - 1) ^ 2)).
      { intros t Ht. generalize 1.380649. intros k. field. repeat split; lra. }
      rewrite <- Q by lra. replace 0.01380649 with (1.380649 * / 10 ^ 2) by lra. reflexivity.
  - unfold sfactor, c_kB. cbn zeta. set (x := w / T * hbar_kB) in *. destruct (debye_weight x Hx) as [D1 D2].
    set (g := x ^ 2 * exp x / (exp x - 1) ^ 2) in *. clearbody g x.
    assert (A : 0 < (w / PI) ^ 2 / (2 * vs)) by (apply div_pp; [apply pow_lt, div_pp; assumption|lra]). split.
    + apply Rmult_lt_0_compat; [exact A|lra].
    + replace (1.380649 * / 10 ^ 23 * (w * 10 ^ 12) ^ 2 / (2 * PI ^ 2 * (vs * 10 ^ 3))) with ((w / PI) ^ 2 / (2 * vs) * 0.01380649).
      * apply Rmult_lt_compat_l; [exact A|lra].
      * replace 0.01380649 with (1.380649 * / 10 ^ 2) by lra. assert (Q : forall t k, t <> 0 -> (w / PI) ^ 2 / (2 * vs) * (k * / t ^ 2) = k * / t ^ 23 * (w * t ^ 12) ^ 2 / (2 * PI ^ 2 * (vs * t ^ 3))) by (intros; field; repeat split; lra). apply Q. lra.
Qed.
(** with positive rates: every further mechanism lowers the entry, and the reciprocals add up (Matthiessen's rule) *)
Theorem C86_matthiessen : forall td vs s w T, NoDup (map fst s) -> 0 < vs -> 0 < T -> (forall m, In m s -> 0 < snd m (Rmax (/ 10 ^ 6) w) T) ->
  Rmax (/ 10 ^ 6) w <= td / 7.638232577577646 ->
  let one := spectral td vs s w T false in let acc := spectral td vs s w T true in
  (forall k, (k < List.length s)%nat -> exists x, nth_error (map snd acc) k = Some x /\ 0 < x /\ / x = sumR (map Rinv (firstn (S k) (map snd one)))) /\
  (forall j k x y, (j < k)%nat -> nth_error (map snd acc) j = Some x -> nth_error (map snd acc) k = Some y -> y < x).
Proof.
  intros td vs s w T ND Hv HT Hr Hw one acc. destruct (C86_entries td vs s w T ND) as (F & _ & FF & E1 & Ln & _ & E2).
  fold one in E1. fold acc in Ln, E2. set (w' := Rmax (/ 10 ^ 6) w) in *. assert (W0 : 0 < w') by (eapply Rlt_le_trans; [apply (ip10 6)|apply Rmax_l]).
  assert (FP : 0 < F) by (rewrite (FF Hw); apply (C86_factor vs w' T); assumption). clear FF.
  set (r := map (fun m => snd m w' T) s) in *.
  assert (Hp : forall x, In x r -> 0 < x) by (intros x Hx; apply in_map_iff in Hx; destruct Hx as (m & <- & Hm); apply Hr, Hm).
  assert (Lr : List.length r = List.length s) by apply map_length.
  assert (V : forall k, (k < List.length s)%nat -> nth_error (map snd acc) k = Some (F / sumR (firstn (S k) r)) /\ 0 < sumR (firstn (S k) r)).
  { intros k Hk. split.
    - rewrite nth_error_map. destruct (nth_error acc k) as [e|] eqn:E; [rewrite (E2 _ _ E); reflexivity|]. apply nth_error_None in E. lia.
    - destruct r as [|x r']; [cbn in Lr; lia|]. rewrite firstn_cons. cbn [sumR]. assert (0 < x) by (apply Hp; left; reflexivity).
      assert (0 <= sumR (firstn k r')). { apply sumR_nonneg. apply Forall_forall. intros y Hy. left. apply Hp. right. rewrite <- (firstn_skipn k r'). apply in_app_iff. left. exact Hy. }
      lra. }
  split.
  - intros k Hk. destruct (V k Hk) as [V1 V2]. eexists. split; [exact V1|]. split; [apply div_pp; assumption|].
    rewrite E1, map_map. cbn [snd]. assert (Em : map (fun m => F / snd m w' T) s = map (fun x => F / x) r) by (unfold r; rewrite map_map; reflexivity). rewrite Em.
    rewrite firstn_map, map_map. rewrite (Rinv_div _ _).
    transitivity (/ F * sumR (map (fun x => x) (firstn (S k) r))); [rewrite map_id; unfold Rdiv; ring|]. rewrite <- sumR_scal. apply sumR_ext. intros x _. rewrite Rinv_div. unfold Rdiv. ring.
  - intros j k x y Hjk Hx Hy. assert (Hk : (k < List.length s)%nat) by (rewrite <- Ln; rewrite <- (map_length snd acc); apply nth_error_Some; congruence).
    destruct (V j ltac:(lia)) as [V1 V2]. destruct (V k Hk) as [V3 V4]. assert (Ex : x = F / sumR (firstn (S j) r)) by congruence. assert (Ey : y = F / sumR (firstn (S k) r)) by congruence. rewrite Ex, Ey.
    unfold Rdiv. apply Rmult_lt_compat_l; [exact FP|]. apply Rinv_lt_contravar; [apply Rmult_lt_0_compat; assumption|].
    assert (Es : firstn (S k) r = firstn (S j) r ++ firstn (k - j) (skipn (S j) r)).
    { replace (S k) with (S j + (k - j))%nat at 1 by lia. apply firstn_plus. }
    rewrite Es, sumR_app. assert (Ls : (0 < List.length (skipn (S j) r))%nat) by (rewrite skipn_length; lia).
    assert (Hq : forall y, In y (skipn (S j) r) -> 0 < y) by (intros z Hz; apply Hp; rewrite <- (firstn_skipn (S j) r); apply in_app_iff; right; exact Hz).
    destruct (skipn (S j) r) as [|q qs]; [cbn in Ls; lia|]. replace (k - j)%nat with (S (k - j - 1)) by lia. rewrite firstn_cons. cbn [sumR].
    assert (0 < q) by (apply Hq; left; reflexivity).
    assert (0 <= sumR (firstn (k - j - 1) qs)). { apply sumR_nonneg. apply Forall_forall. intros z Hz. left. apply Hq. right. rewrite <- (firstn_skipn (k - j - 1) qs). apply in_app_iff. left. exact Hz. }
    lra.
Qed.

(** ** C87: lattice thermal conductivity *)
Theorem C87_adding_lowers : forall td vs s m T, s <> [] -> regular td T (s ++ [m]) -> / 10 ^ 6 < td / 7.638232577577646 -> 0 < vs -> 0 < T ->
  0 < kappa_n td vs (s ++ [m]) T 0 < kappa_n td vs s T 0.
Proof.
  intros td vs s m T Hs Hr Hd Hv HT. change (EPS < wd td) in Hd.
  assert (Hr1 : regular td T s) by (split; [exact Hs|]; intros q w Hq; apply (proj2 Hr); apply in_app_iff; left; exact Hq). split.
  - unfold kappa_n. apply RInt_gt_0; [exact Hd| |]; intros x Hx; [apply (ss_pos td); auto; lra|apply (ss_cont td); assumption].
  - apply ss_lt; auto. intros w Hw. unfold spectral_sum. assert (E := EPS_pos). assert (F := sfactor_pos vs w T Hv ltac:(lra) HT).
    unfold Rdiv. apply Rmult_lt_compat_l; [exact F|]. assert (P1 := rsum_pos td T s w Hr1 ltac:(lra)). unfold rsum in P1.
    rewrite map_app, sumR_app. cbn [map sumR]. assert (P2 : 0 < snd m w T) by (apply (proj2 Hr); [apply in_app_iff; right; left; reflexivity|lra]).
    apply Rinv_lt_contravar; [apply Rmult_lt_0_compat; lra|lra].
Qed.
(** nscat = n > 0: the model with the first n mechanisms alone; 0, or at least their number: all; without nscat the submodels are added *)
Theorem C87_first_mechanisms : forall td vs s a T n,
  ((0 < n)%nat -> kappa_n td vs s T n = kappa_n td vs (firstn n s) T 0) /\
  ((List.length s <= n)%nat -> kappa_n td vs s T n = kappa_n td vs s T 0) /\
  kappa td vs s a T = kappa_n td vs s T 0 + sumR (map (fun m => snd m T) a).
Proof.
  intros td vs s a T n. split; [|split; [|reflexivity]].
  - intros H. destruct n as [|n]; [lia|]. reflexivity.
  - intros H. destruct n as [|n]; [reflexivity|]. unfold kappa_n, spectral_sum. rewrite firstn_all2 by exact H. reflexivity.
Qed.
(** the order of the mechanisms does not matter; multiplying all rates divides the conductivity *)
Theorem C87_order : forall td vs s s' T, Permutation s s' -> kappa_n td vs s T 0 = kappa_n td vs s' T 0.
Proof.
  intros td vs s s' T H. unfold kappa_n. apply RInt_ext. intros x _. unfold spectral_sum. f_equal. apply sumR_perm, Permutation_map, H.
Qed.
Theorem C87_scaling : forall td vs s T c, regular td T s -> / 10 ^ 6 <= td / 7.638232577577646 -> 0 < vs -> 0 < T -> 0 < c ->
  kappa_n td vs (map (fun m => (fst m, fun w T => c * snd m w T)) s) T 0 = kappa_n td vs s T 0 / c.
Proof.
  intros td vs s T c Hr Hd Hv HT Hc. change (EPS <= wd td) in Hd. unfold kappa_n, Rdiv. rewrite (Rmult_comm _ (/ c)).
  assert (Q := RInt_scal (V := R_CompleteNormedModule) (fun w => spectral_sum vs s w T 0) EPS (wd td) (/ c) (ss_int td vs s T Hr Hv HT Hd)).
  etransitivity; [|exact Q].
  apply RInt_ext. intros w Hw. rewrite Rmin_left, Rmax_right in Hw by exact Hd. unfold spectral_sum. rewrite map_map. cbn [snd]. rewrite sumR_scal.
  assert (P := rsum_pos td T s w Hr ltac:(lra)). unfold rsum in P. unfold scal. cbn. unfold mult. cbn. field. split; lra.
Qed.
(** with rates that do not depend on temperature it rises with temperature *)
Theorem C87_rises_with_temperature : forall td vs s T1 T2, regular td T1 s -> (forall m w, In m s -> snd m w T1 = snd m w T2) ->
  / 10 ^ 6 < td / 7.638232577577646 -> 0 < vs -> 0 < T1 < T2 -> kappa_n td vs s T1 0 < kappa_n td vs s T2 0.
Proof.
  intros td vs s T1 T2 Hr Hi Hd Hv HT. change (EPS < wd td) in Hd.
  assert (Hr2 : regular td T2 s).
  { split; [apply Hr|]. intros m w Hm Hw. destruct (proj2 Hr m w Hm Hw) as [H1 H2]. split; [|rewrite <- (Hi m w Hm); exact H2].
    apply (continuity_pt_ext (fun w => snd m w T1)); [intros y; apply Hi, Hm|exact H1]. }
  apply ss_lt; auto; try lra. intros w Hw. unfold spectral_sum. assert (E := EPS_pos). assert (P1 := rsum_pos td T1 s w Hr ltac:(lra)). unfold rsum in P1.
  assert (Es : sumR (map (fun m => snd m w T2) s) = sumR (map (fun m => snd m w T1) s)) by (apply sumR_ext; intros m Hm; symmetry; apply Hi, Hm). rewrite Es.
  unfold Rdiv. apply Rmult_lt_compat_r; [apply Rinv_0_lt_compat, P1|]. unfold sfactor. cbn zeta.
  assert (Hh : 0 < hbar_kB) by (unfold hbar_kB; lra). assert (P := PI_RGT_0).
  assert (X : 0 < w / T2 * hbar_kB < w / T1 * hbar_kB).
  { split; [apply Rmult_lt_0_compat; [apply div_pp; lra|exact Hh]|]. apply Rmult_lt_compat_r; [exact Hh|]. unfold Rdiv. apply Rmult_lt_compat_l; [lra|]. apply Rinv_lt_contravar; [apply Rmult_lt_0_compat|]; lra. }
  assert (D := debye_weight_anti _ _ X). apply Rmult_lt_compat_l; [apply div_pp; [apply pow_lt, div_pp; lra|lra]|]. lra.
Qed.
(** kinetic limit: if the total rate is never below r, the conductivity is below kB wd^3/(6 pi^2 vs r), in SI units (1/3 C vs^2/r with the classical heat capacity) *)
Theorem C87_kinetic_limit : forall td vs s T r, regular td T s -> / 10 ^ 6 < td / 7.638232577577646 -> 0 < vs -> 0 < T -> 0 < r ->
  (forall w, / 10 ^ 6 < w < td / 7.638232577577646 -> r <= sumR (map (fun m => snd m w T) s)) ->
  kappa_n td vs s T 0 < c_kB * (td / 7.638232577577646 * 10 ^ 12) ^ 3 / (6 * PI ^ 2 * (vs * 10 ^ 3) * (r * 10 ^ 12)).
Proof.
  intros td vs s T r Hr Hd Hv HT H0 Hlow. change (EPS < wd td) in Hd. change (forall w, EPS < w < wd td -> r <= sumR (map (fun m => snd m w T) s)) in Hlow.
  change (td / 7.638232577577646) with (wd td). assert (P := PI_RGT_0). assert (E := EPS_pos).
  set (c := c_kB * (10 ^ 12) ^ 2 / (2 * PI ^ 2 * (vs * 10 ^ 3) * r)).
  assert (K0 : 0 < c_kB) by (unfold c_kB; apply Rmult_lt_0_compat; [lra|apply ip10]).
  assert (HV : 0 < vs * 10 ^ 3) by (apply Rmult_lt_0_compat; [exact Hv|apply pow_lt; lra]).
  assert (D0 : 0 < 2 * PI ^ 2 * (vs * 10 ^ 3) * r) by (apply Rmult_lt_0_compat; [apply Rmult_lt_0_compat; [apply Rmult_lt_0_compat; [lra|apply pow_lt; lra]|exact HV]|exact H0]).
  assert (C0 : 0 < c) by (unfold c; apply div_pp; [apply Rmult_lt_0_compat; [exact K0|apply pow_lt, pow_lt; lra]|exact D0]).
  assert (I : is_RInt (fun w => c * w ^ 2) EPS (wd td) (c * wd td ^ 3 / 3 - c * EPS ^ 3 / 3)).
  { apply (is_RInt_derive (fun w => c * w ^ 3 / 3) (fun w => c * w ^ 2)).
    - intros x _. auto_derive; [exact I|]. field.
    - intros x _. apply (ex_derive_continuous (fun w => c * w ^ 2)). auto_derive. exact I. }
  apply (Rlt_trans _ (c * wd td ^ 3 / 3 - c * EPS ^ 3 / 3)).
  - rewrite <- (is_RInt_unique _ _ _ _ I). unfold kappa_n. apply RInt_lt; [exact Hd| | |].
    + intros x Hx. apply (ex_derive_continuous (fun w => c * w ^ 2)). auto_derive. exact Logic.I.
    + intros x Hx. apply (ss_cont td); assumption.
    + intros w Hw. unfold spectral_sum. destruct (C86_factor vs w T Hv ltac:(lra) HT) as [_ [F1 F2]]. assert (L := Hlow w Hw).
      apply (Rle_lt_trans _ (sfactor vs w T / r)); [unfold Rdiv; apply Rmult_le_compat_l; [lra|apply Rinv_le_contravar; assumption]|].
      replace (c * w ^ 2) with (c_kB * (w * 10 ^ 12) ^ 2 / (2 * PI ^ 2 * (vs * 10 ^ 3)) / r).
      * unfold Rdiv at 1 3. apply Rmult_lt_compat_r; [apply Rinv_0_lt_compat, H0|exact F2].
      * unfold c. generalize (10 ^ 12). intros t. field. repeat split; lra.
  - assert (Hsub : 0 < c * EPS ^ 3 / 3) by (apply div_pp; [apply Rmult_lt_0_compat; [exact C0|apply pow_lt, E]|lra]).
    assert (Eq : c * wd td ^ 3 / 3 = c_kB * (wd td * 10 ^ 12) ^ 3 / (6 * PI ^ 2 * (vs * 10 ^ 3) * (r * 10 ^ 12))).
    { unfold c. assert (T0 : 10 ^ 12 <> 0) by (apply pow_nonzero; lra). assert (T1 : 10 ^ 3 <> 0) by (apply pow_nonzero; lra). generalize dependent (10 ^ 12). generalize dependent (10 ^ 3). intros. generalize dependent (wd td). intros. field. repeat split; try lra; assumption. }
    lra.
Qed.

(** ** C88: cumulative conductivity *)
(** over frequency: as many values as frequencies, from 0, each step the trapezoid between two frequencies; never falling if the spectral values are not negative *)
Theorem C88_frequency : forall spec ws,
  List.length (cumulative spec ws) = List.length ws /\
  (forall x, nth_error (cumulative spec ws) 0 = Some x -> x = 0) /\
  (forall k x y w1 w2, nth_error (cumulative spec ws) k = Some x -> nth_error (cumulative spec ws) (S k) = Some y -> nth_error ws k = Some w1 -> nth_error ws (S k) = Some w2 ->
     y - x = (w2 - w1) * (spec w1 + spec w2) / 2 /\ (w1 <= w2 -> 0 <= spec w1 -> 0 <= spec w2 -> x <= y)).
Proof.
  intros spec ws. unfold cumulative, cumtrapz. split; [rewrite map_length, ctz_from_len; apply map_length|]. split; [intros x; apply ctz_first|].
  intros k x y w1 w2 Hx Hy H1 H2. assert (E : y - x = (w2 - w1) * (spec w1 + spec w2) / 2).
  { rewrite (Rplus_comm (spec w1)). apply (ctz_step _ 0 k x y (w1, spec w1) (w2, spec w2) Hx Hy); rewrite nth_error_map; [rewrite H1|rewrite H2]; reflexivity. }
  split; [exact E|]. intros. assert (0 <= (w2 - w1) * (spec w1 + spec w2)) by (apply Rmult_le_pos; lra). lra.
Qed.
(** over mean free path: never falling, between 0 and the sum of all shares, which it reaches; but never more than the bins entirely below the given path,
    and strictly less if its larger end is within the bin's own width of the path: every bin is counted too late by its width *)
Theorem C88_mean_free_path : forall vs rate spec td n m, (0 < n)%nat -> (forall i, (i < n)%nat -> 0 <= bin_share spec (wd td) n i) ->
  let cum := cum_mfp vs rate spec td n in
  (0 <= cum m <= total_share spec (wd td) n) /\ (forall m', m <= m' -> cum m <= cum m') /\
  (exists M, forall m', M <= m' -> cum m' = total_share spec (wd td) n) /\
  cum m <= share_below vs rate spec (wd td) n m /\
  (forall i, (i < n)%nat -> 0 < bin_share spec (wd td) n i -> let ml := vs / rate (bin_left (wd td) n i) in let mr := vs / rate (bin_right (wd td) n i) in
     Rmax ml mr < m < Rmax ml mr + Rabs (ml - mr) -> cum m < share_below vs rate spec (wd td) n m).
Proof.
  intros vs rate spec td n m Hn Hw cum. unfold cum. split; [|split; [|split; [|split]]].
  - rewrite cum_mfp_eq. unfold total_share. split.
    + apply sumR_nonneg. apply Forall_forall. intros x Hx. apply in_map_iff in Hx. destruct Hx as (i & <- & Hi). apply in_seq in Hi. apply ramp_bounds; [apply width_pos|apply Hw; lia].
    + apply sumR_le. intros i Hi. apply in_seq in Hi. apply ramp_bounds; [apply width_pos|apply Hw; lia].
  - intros m' Hm. rewrite !cum_mfp_eq. apply sumR_le. intros i Hi. apply in_seq in Hi. apply ramp_mono; [apply width_pos|apply Hw; lia|exact Hm].
  - assert (B : exists M, forall i, In i (seq 0 n) -> let ml := vs / rate (bin_left (wd td) n i) in let mr := vs / rate (bin_right (wd td) n i) in
        (ml + mr) / 2 + 3 / 2 * Rmax (Rabs (ml - mr)) (10 * EPS) <= M).
    { clear. induction (seq 0 n) as [|i l [M IH]]; [exists 0; intros i []|].
      exists (Rmax M (let ml := vs / rate (bin_left (wd td) n i) in let mr := vs / rate (bin_right (wd td) n i) in (ml + mr) / 2 + 3 / 2 * Rmax (Rabs (ml - mr)) (10 * EPS))).
      intros j [<-|Hj]; [apply Rmax_r|]. eapply Rle_trans; [apply (IH j Hj)|apply Rmax_l]. }
    destruct B as [M B]. exists M. intros m' Hm. rewrite cum_mfp_eq. apply sumR_ext. intros i Hi. apply ramp_full; [apply width_pos|]. specialize (B i Hi). cbn zeta in B. lra.
  - rewrite cum_mfp_eq. unfold share_below. rewrite sumR_filter. apply sumR_le. intros i Hi. apply in_seq in Hi. apply below_le; [apply Hw; lia].
  - intros i Hi Hp. set (ml := vs / rate (bin_left (wd td) n i)). set (mr := vs / rate (bin_right (wd td) n i)). intros [H1 H3]. assert (M1 := Rmax_l ml mr). assert (M2 := Rmax_r ml mr). rewrite cum_mfp_eq. unfold share_below. rewrite sumR_filter. apply sumR_lt.
    + intros j Hj. apply in_seq in Hj. apply below_le; apply Hw; lia.
    + exists i. split; [apply in_seq; lia|]. unfold bin_below. fold ml mr. destruct (Rlt_dec ml m); [|lra]. destruct (Rlt_dec mr m); [|lra].
      apply ramp_partial; [apply width_pos|exact Hp|]. fold ml mr. assert (W := Rmax_l (Rabs (ml - mr)) (10 * EPS)).
      assert (A := abs_mid ml mr). lra.
Qed.
(** one temperature only; bins of less than 1e-5 rad/ps are refused *)
Theorem C88_checks : forall nT td n, (0 < n)%nat ->
  (mfp_check nT td n = None <-> nT = 1%nat /\ / 10 ^ 5 <= (td / 7.638232577577646) / INR n) /\ (mfp_check nT td n <> None -> mfp_check nT td n = Some ValueError).
Proof.
  intros nT td n Hn. unfold mfp_check. destruct (Nat.eqb_spec nT 1) as [E|E]; cbn [negb].
  - destruct (Rlt_dec (wd td / INR n) (10 * EPS)) as [H|H]; unfold wd, hbar_kB, EPS in H.
    + split; [split; [discriminate|]|reflexivity]. intros [_ H']. exfalso. lra.
    + split; [split; [|reflexivity]|congruence]. intros _. split; [exact E|lra].
  - split; [split; [discriminate|tauto]|reflexivity].
Qed.

(** ** C89: sound velocities *)
(** Debye temperature: the documented one in SI units to 1e-14; its cut-off frequency gives three modes per atom *)
Theorem C89_debye_temperature : forall vs Va, 0 < vs -> 0 < Va ->
  (exists e, Rabs (e - 1) < / 10 ^ 14 /\ vs_to_td vs Va = e * (c_hbar / c_kB * Rpower (6 * PI ^ 2 / (Va * / 10 ^ 30)) (1 / 3) * (vs * 10 ^ 3))) /\
  3 * (wd (vs_to_td vs Va) * 10 ^ 12) ^ 3 / (6 * PI ^ 2 * (vs * 10 ^ 3) ^ 3) * (Va * / 10 ^ 30) = 3.
Proof.
  intros vs Va Hv HV. assert (P := PI_RGT_0). assert (A : 0 < 6 * PI * PI / Va) by (apply div_pp; [apply Rmult_lt_0_compat; [lra|exact P]|exact HV]). split.
  - exists (hbar_kB * 1.380649 / 10.54571817). split; [unfold hbar_kB; apply Rabs_def1; lra|]. unfold vs_to_td, c_hbar, c_kB.
    assert (E : 6 * PI ^ 2 / (Va * / 10 ^ 30) = 6 * PI * PI / Va * 10 ^ 30) by (assert (Q : forall t, t <> 0 -> 6 * PI ^ 2 / (Va * / t) = 6 * PI * PI / Va * t) by (intros; field; split; lra); apply Q, pow_nonzero; lra).
    rewrite E, Rpower_mult_distr_sym; [|exact A|apply pow_lt; lra]. replace (Rpower (10 ^ 30) (1 / 3)) with (10 ^ 10).
    + generalize (Rpower (6 * PI * PI / Va) (1 / 3)) hbar_kB. intros r h.
      assert (Q : forall t k, t <> 0 -> k <> 0 -> h * t * r * vs = h * k / (t * 1.054571817) * (1.054571817 * / t ^ 34 / (k * / t ^ 23) * (r * t ^ 10) * (vs * t ^ 3))).
      { intros t k Ht Hk. generalize 1.054571817 (ltac:(lra) : 1.054571817 <> 0). intros b Hb. field. repeat split; lra. }
      rewrite (Q 10 1.380649) by lra. replace (10 * 1.054571817) with 10.54571817 by lra. reflexivity.
    + replace (10 ^ 30) with ((10 ^ 10) ^ 3) by (rewrite <- pow_mult; reflexivity). rewrite <- (Rpower_pow 3) by (apply pow_lt; lra). rewrite Rpower_mult.
      replace (INR 3 * (1 / 3)) with 1 by (cbn; lra). rewrite Rpower_1 by (apply pow_lt; lra). reflexivity.
  - unfold wd, vs_to_td. set (r := Rpower (6 * PI * PI / Va) (1 / 3)). assert (R3 : r ^ 3 = 6 * PI * PI / Va).
    { unfold r. rewrite <- (Rpower_pow 3) by apply exp_pos. rewrite Rpower_mult. replace (1 / 3 * INR 3) with 1 by (cbn; lra). apply Rpower_1, A. }
    assert (Hh : hbar_kB <> 0) by (unfold hbar_kB; lra). generalize dependent hbar_kB. intros h Hh. clearbody r.
    assert (Q : forall t, t <> 0 -> 3 * (h * t * r * vs / h * t ^ 12) ^ 3 / (6 * PI ^ 2 * (vs * t ^ 3) ^ 3) * (Va * / t ^ 30) = 3 * (r ^ 3 / (6 * PI * PI / Va))) by (intros; field; repeat split; lra).
    rewrite (Q 10) by lra. rewrite R3. field. split; lra.
Qed.
(** Gruneisen parameter: the documented one through the Poisson ratio; positive exactly for (v1/v2)^2 > 4/3, rising with v1/v2, below 9/2 *)
Theorem C89_gruneisen : forall v1 v2 mu, 0 < v1 -> 0 < v2 -> mu < 1 / 2 -> v1 / v2 = sqrt ((2 - 2 * mu) / (1 - 2 * mu)) ->
  vs_to_gm v1 v2 = 3 / 2 * ((1 + mu) / (2 - 3 * mu)).
Proof.
  intros v1 v2 mu H1 H2 Hm E. unfold vs_to_gm. cbn zeta. assert (D : 0 <= (2 - 2 * mu) / (1 - 2 * mu)) by (left; apply div_pp; lra).
  assert (R2 : (v1 / v2) ^ 2 = (2 - 2 * mu) / (1 - 2 * mu)) by (rewrite E; cbn; rewrite Rmult_1_r; apply sqrt_sqrt, D). rewrite R2.
  field. repeat split; lra.
Qed.
Theorem C89_gruneisen_range : forall v1 v2, 0 < v1 -> 0 < v2 ->
  (0 < vs_to_gm v1 v2 <-> 4 / 3 < (v1 / v2) ^ 2) /\ vs_to_gm v1 v2 < 9 / 2 /\ (forall v1', v1 < v1' -> vs_to_gm v1 v2 < vs_to_gm v1' v2).
Proof.
  intros v1 v2 H1 H2. unfold vs_to_gm. cbn zeta.
  assert (G : forall r, 0 < r -> 3 / 2 * (3 * r - 4) / (r + 2) = 9 / 2 - 15 / (r + 2)) by (intros; field; lra).
  assert (Q : forall v, 0 < v -> 0 < (v / v2) ^ 2) by (intros; apply pow_lt, div_pp; assumption). set (r := (v1 / v2) ^ 2). assert (R0 : 0 < r) by apply Q, H1.
  assert (D : 0 < 15 / (r + 2)) by (apply div_pp; lra).
  split; [|split].
  - split; intros H.
    + destruct (Rlt_le_dec (4 / 3) r); [assumption|]. exfalso. assert (3 / 2 * (3 * r - 4) / (r + 2) <= 0); [|lra].
      unfold Rdiv. assert (0 < / (r + 2)) by (apply Rinv_0_lt_compat; lra). assert (0 <= - (3 * / 2 * (3 * r - 4)) * / (r + 2)) by (apply Rmult_le_pos; lra). lra.
    + apply div_pp; lra.
  - rewrite G by exact R0. lra.
  - intros v1' H. assert (Rr : r < (v1' / v2) ^ 2).
    { unfold r. assert (0 < v1 / v2) by (apply div_pp; assumption). assert (v1 / v2 < v1' / v2) by (apply Rmult_lt_compat_r; [apply Rinv_0_lt_compat|]; lra). nra. }
    rewrite !G by (try exact R0; apply Q; lra). assert (15 / ((v1' / v2) ^ 2 + 2) < 15 / (r + 2)); [|lra]. apply Rmult_lt_compat_l; [lra|]. apply Rinv_lt_contravar; [apply Rmult_lt_0_compat|]; lra.
Qed.
(** mean velocity: the documented power mean, between the two velocities; p = 0 is the geometric mean *)
Theorem C89_mean : forall v1 v2 p, 0 < v1 -> 0 < v2 ->
  Rmin v1 v2 <= vs_mean v1 v2 p <= Rmax v1 v2 /\
  (p <> 0%Z -> Rpower (vs_mean v1 v2 p) (IZR p) = (powerRZ v1 p + 2 * powerRZ v2 p) / 3) /\ (p = 0%Z -> vs_mean v1 v2 p ^ 3 = v1 * v2 ^ 2).
Proof.
  intros v1 v2 p H1 H2. assert (M1 : 0 < Rmin v1 v2) by (apply Rmin_glb_lt; assumption). assert (Ma := Rmin_l v1 v2). assert (Mb := Rmin_r v1 v2). assert (Mc := Rmax_l v1 v2). assert (Md := Rmax_r v1 v2).
  assert (M2 : 0 < Rmax v1 v2) by lra. unfold vs_mean. destruct (Z.eqb_spec p 0) as [->|Hp].
  - assert (PP : 0 < v1 * v2 * v2) by (apply Rmult_lt_0_compat; [apply Rmult_lt_0_compat|]; assumption).
    assert (C3 : forall x, 0 < x -> Rpower (x ^ 3) (1 / 3) = x).
    { intros x Hx. rewrite <- (Rpower_pow 3) by exact Hx. rewrite Rpower_mult. replace (INR 3 * (1 / 3)) with 1 by (cbn; lra). apply Rpower_1, Hx. }
    split; [|split; [congruence|]].
    + set (a := Rmin v1 v2) in *. set (b := Rmax v1 v2) in *. clearbody a b. split.
      * rewrite <- (C3 a M1) at 1. apply Rle_Rpower_l; [lra|]. split; [apply pow_lt, M1|]. replace (a ^ 3) with (a * a * a) by ring.
        apply Rmult_le_compat; [nra|lra| |assumption]. apply Rmult_le_compat; lra.
      * rewrite <- (C3 b M2). apply Rle_Rpower_l; [lra|]. split; [exact PP|]. replace (b ^ 3) with (b * b * b) by ring.
        apply Rmult_le_compat; [nra|lra| |assumption]. apply Rmult_le_compat; lra.
    + intros _. rewrite <- (Rpower_pow 3) by apply exp_pos. rewrite Rpower_mult. replace (1 / 3 * INR 3) with 1 by (cbn; lra). rewrite Rpower_1 by exact PP. ring.
  - assert (Hq : IZR p <> 0) by (apply not_0_IZR, Hp). rewrite !powerRZ_Rpower by assumption. set (q := IZR p) in *. clearbody q.
    assert (S1 : 0 < Rpower v1 q) by apply exp_pos. assert (S2 : 0 < Rpower v2 q) by apply exp_pos. set (m := (Rpower v1 q + Rpower v2 q + Rpower v2 q) / 3).
    assert (M0 : 0 < m) by (unfold m; lra). split; [|split; [|congruence]].
    + assert (I : forall x, 0 < x -> Rpower (Rpower x q) (1 / q) = x) by (intros x Hx; rewrite Rpower_mult; replace (q * (1 / q)) with 1 by (field; exact Hq); apply Rpower_1, Hx).
      destruct (Rlt_le_dec 0 q) as [Q|Q].
      * assert (Q' : 0 <= 1 / q) by (left; apply div_pp; lra).
        assert (L1 : forall x y, 0 < x <= y -> Rpower x q <= Rpower y q) by (intros x y Hxy; apply Rle_Rpower_l; lra).
        assert (A1 := L1 _ _ (conj M1 Ma)). assert (A2 := L1 _ _ (conj M1 Mb)). assert (A3 := L1 _ _ (conj H1 Mc)). assert (A4 := L1 _ _ (conj H2 Md)).
        split; [rewrite <- (I _ M1) at 1|rewrite <- (I _ M2)]; apply Rle_Rpower_l; try exact Q'; split; try apply exp_pos; unfold m; lra.
      * assert (Q1 : q < 0) by lra. assert (Q' : 0 <= - (1 / q)) by (left; replace (- (1 / q)) with (1 / - q) by (field; lra); apply div_pp; lra).
        assert (L1 : forall x y e, 0 < x <= y -> 0 <= - e -> Rpower y e <= Rpower x e).
        { intros x y e Hxy He. replace e with (- - e) by ring. rewrite !(Rpower_Ropp _ (- e)). apply Rinv_le_contravar; [apply exp_pos|]. apply Rle_Rpower_l; lra. }
        assert (A1 := L1 _ _ q (conj M1 Ma) ltac:(lra)). assert (A2 := L1 _ _ q (conj M1 Mb) ltac:(lra)). assert (A3 := L1 _ _ q (conj H1 Mc) ltac:(lra)). assert (A4 := L1 _ _ q (conj H2 Md) ltac:(lra)).
        split; [rewrite <- (I _ M1) at 1|rewrite <- (I _ M2)]; apply L1; try exact Q'; split; try apply exp_pos; unfold m; lra.
    + intros _. rewrite Rpower_mult. replace (1 / q * q) with 1 by (field; exact Hq). rewrite Rpower_1 by exact M0. unfold m. lra.
Qed.
(** arrays of n equal pairs give one number: v for p <> 0, but v^n for p = 0 *)
Theorem C89_mean_of_arrays : forall v n p, 0 < v -> (0 < n)%nat ->
  (p <> 0%Z -> vs_mean_arr (repeat (v, v) n) p = v) /\ vs_mean_arr (repeat (v, v) n) 0 = v ^ n.
Proof.
  intros v n p Hv Hn. unfold vs_mean_arr. split.
  - intros Hp. apply Z.eqb_neq in Hp. rewrite Hp. apply Z.eqb_neq in Hp. assert (Hq : IZR p <> 0) by (apply not_0_IZR, Hp).
    assert (E : flat_map (fun ab : R * R => [fst ab; snd ab; snd ab]) (repeat (v, v) n) = repeat v (3 * n)).
    { clear. induction n as [|n IH]; [reflexivity|]. replace (3 * S n)%nat with (3 + 3 * n)%nat by lia. cbn -[Nat.mul]. rewrite IH. reflexivity. }
    rewrite E. rewrite repeat_length. assert (Em : map (fun x => powerRZ x p) (repeat v (3 * n)) = repeat (powerRZ v p) (3 * n)) by (clear; induction (3 * n)%nat; cbn; congruence).
    rewrite Em, sumR_repeat. assert (N0 : INR (3 * n) <> 0) by (apply not_0_INR; lia). replace (INR (3 * n) * powerRZ v p / INR (3 * n)) with (powerRZ v p) by (field; exact N0).
    rewrite powerRZ_Rpower by exact Hv. rewrite Rpower_mult. replace (IZR p * (1 / IZR p)) with 1 by (field; exact Hq). apply Rpower_1, Hv.
  - cbn [Z.eqb]. assert (E : fold_right Rmult 1 (flat_map (fun ab : R * R => [fst ab; snd ab; snd ab]) (repeat (v, v) n)) = (v ^ n) ^ 3).
    { clear. induction n as [|n IH]; cbn -[pow]; [cbn; lra|]. cbn -[pow] in IH. rewrite IH. cbn. ring. }
    rewrite E. assert (0 < v ^ n) by (apply pow_lt, Hv). rewrite <- (Rpower_pow 3) by assumption. rewrite Rpower_mult. replace (INR 3 * (1 / 3)) with 1 by (cbn; lra). apply Rpower_1. assumption.
Qed.

Example C85_case : debye_init [Scat (S_ "PH") (fun w T => w ^ 2 * T); Sub (S_ "BIPOLAR") (fun T => T); Scat (S_ "GB") (fun _ _ => 1)] =
  Ok ([(S_ "PH", fun w T => w ^ 2 * T); (S_ "GB", fun _ _ => 1)], [(S_ "BIPOLAR", fun T => T)]).
Proof. reflexivity. Qed.
Example C87_case : regular 300 300 ([(S_ "PH", fun w T => w ^ 2 * T)] ++ [(S_ "GB", fun _ _ => 1)]) /\ / 10 ^ 6 < 300 / 7.638232577577646.
Proof.
  split; [|lra]. split; [discriminate|]. intros m w Hm Hw. assert (E := EPS_pos). destruct Hm as [<-|[<-|[]]]; cbn [snd]; split.
  - apply derivable_continuous_pt. apply (derivable_pt_mult (fun w => w ^ 2) (fun _ => 300)); [apply derivable_pt_pow|apply derivable_pt_const].
  - apply Rmult_lt_0_compat; [apply pow_lt; lra|lra].
  - apply continuity_pt_const. intros x y. reflexivity.
  - lra.
Qed.
Example C86_case : NoDup (map fst [(S_ "PH", fun w T => w ^ 2 * T); (S_ "GB", fun _ _ => 1)]) /\ Rmax (/ 10 ^ 6) 1 <= 300 / 7.638232577577646.
Proof. split; [constructor; [intros [H|[]]; discriminate|constructor; [intros []|constructor]]|]. rewrite Rmax_right by lra. lra. Qed.
Example C88_case : let td := 2 * hbar_kB in let ml := 1 / bin_left (wd td) 2 1 in let mr := 1 / bin_right (wd td) 2 1 in
  (forall i, (i < 2)%nat -> 0 <= bin_share (fun _ => 1) (wd td) 2 i) /\ 0 < bin_share (fun _ => 1) (wd td) 2 1 /\ Rmax ml mr < 1.2 < Rmax ml mr + Rabs (ml - mr).
Proof.
  intros td ml mr. assert (W : wd td = 2) by (unfold td, wd; field; unfold hbar_kB; lra).
  assert (E1 : ml = 1) by (unfold ml, bin_left; rewrite W; cbn; field). assert (E2 : mr = 1 / 2) by (unfold mr, bin_right; rewrite W; cbn; field).
  unfold bin_share. rewrite W, E1, E2, Rmax_left by lra. rewrite Rabs_pos_eq by lra. cbn. split; [intros; lra|]. lra.
Qed.
Example C89_case : sqrt 3 / 1 = sqrt ((2 - 2 * (1 / 4)) / (1 - 2 * (1 / 4))).
Proof. replace ((2 - 2 * (1 / 4)) / (1 - 2 * (1 / 4))) with 3 by field. field. Qed.
Print Assumptions C85_first_offence.
Print Assumptions C86_matthiessen.
Print Assumptions C87_kinetic_limit.
Print Assumptions C88_mean_free_path.
Print Assumptions C89_mean.
