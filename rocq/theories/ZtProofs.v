From Coq Require Import Sorted.
From Verif Require Import Py RUtil ZtModel ZtSpec.
Local Open Scope R_scope.

Lemma yita_loop_len P a u r : length (yita_loop P a u r) = length r.
Proof. revert a u; induction r as [|b r IH]; intros a u; cbn [yita_loop length]; [reflexivity|]. rewrite IH; reflexivity. Qed.

Lemma yita_loop_firstn P a u r n : yita_loop P a u (firstn n r) = firstn n (yita_loop P a u r).
Proof.
  revert a u n; induction r as [|b r IH]; intros a u [|n]; try reflexivity.
  cbn [yita_loop firstn]. rewrite IH. reflexivity.
Qed.

Lemma inv_opt_opp x : inv_opt (- x) = option_map Ropp (inv_opt x).
Proof.
  unfold inv_opt. destruct (Req_EM_T x 0) as [->|H], (Req_EM_T (- _) 0) as [H'|H']; cbn; try reflexivity; try lra.
  f_equal. field. exact H.
Qed.
Lemma cal_Phi_opp u S T : cal_Phi (- u) (- S) T = option_map Ropp (cal_Phi u S T).
Proof. unfold cal_Phi. rewrite inv_opt_opp. destruct (inv_opt u); cbn; [f_equal; lra|reflexivity]. Qed.

Notation mir p := (TP (tT p) (tC p) (- tS p) (tK p)).

Lemma next_u_opp a b u : next_u (mir a) (mir b) (- u) = option_map Ropp (next_u a b u).
Proof.
  unfold next_u. cbn [tT tC tS tK]. replace ((- u) ^ 2) with (u ^ 2) by ring.
  set (p := 1 - _). destruct (Rlt_dec p 0); [reflexivity|].
  destruct (Req_EM_T u 0) as [->|H], (Req_EM_T (- _) 0) as [H'|H']; try reflexivity; try lra.
  rewrite <- inv_opt_opp. f_equal. field. exact H.
Qed.
Lemma yita_i_opp P b u : yita_i (option_map Ropp P) (mir b) (option_map Ropp u) = yita_i P b u.
Proof.
  destruct P as [P|], u as [u|]; try reflexivity. cbn [yita_i option_map tT tS]. rewrite cal_Phi_opp.
  destruct (cal_Phi u (tS b) (tT b)) as [q|]; [|reflexivity]. cbn.
  destruct (Req_EM_T q 0) as [->|H], (Req_EM_T (- _) 0) as [H'|H']; try reflexivity; try lra.
  do 2 f_equal. field. exact H.
Qed.
Lemma yita_loop_opp P a u r :
  yita_loop (option_map Ropp P) (mir a) (option_map Ropp u) (mirror r) = yita_loop P a u r.
Proof.
  revert a u; induction r as [|b r IH]; intros a u; [reflexivity|]. cbn [yita_loop mirror map].
  assert (E : match option_map Ropp u with Some u0 => next_u (mir a) (mir b) u0 | None => None end
              = option_map Ropp (match u with Some u0 => next_u a b u0 | None => None end)).
  { destruct u; [apply next_u_opp|reflexivity]. }
  cbn [option_map] in *. rewrite E, yita_i_opp. f_equal. apply IH.
Qed.

(** One step of the recursion, when everything is defined. *)
Lemma next_u_forward a b u u' : 0 < u ->
  let rk p := tK p / (tC p * 100) in
  0 <= 1 - u * u * (rk b + rk a) * (tT b - tT a) ->
  1 / u' = 1 / u * sqrt (1 - u * u * (rk b + rk a) * (tT b - tT a)) - (tT a + tT b) / 2 * ((tS b - tS a) / 1e6) ->
  0 < u' -> next_u a b u = Some u'.
Proof.
  intros Hu rk Hp E Hu'. unfold next_u.
  replace (1 - u ^ 2 * (tK b / (1e2 * tC b) + tK a / (1e2 * tC a)) * (tT b - tT a))
    with (1 - u * u * (rk b + rk a) * (tT b - tT a)).
  2:{ unfold rk. replace (1e2 * tC b) with (tC b * 100) by ring. replace (1e2 * tC a) with (tC a * 100) by ring. ring. }
  destruct (Rlt_dec _ 0); [lra|]. destruct (Req_EM_T u 0); [lra|].
  set (q := sqrt _) in *.
  replace (q / u - (tT b + tT a) / 2 * (1e-6 * tS b - 1e-6 * tS a)) with (1 / u').
  2:{ rewrite E. unfold Rdiv. lra. }
  unfold inv_opt. assert (1 / u' <> 0). { unfold Rdiv. rewrite Rmult_1_l. apply Rinv_neq_0_compat; lra. }
  destruct (Req_EM_T (1 / u') 0); [contradiction|]. f_equal. field. lra.
Qed.

(** entropy-like quantity Phi/T is non-increasing *)
Lemma next_u_value a b u u' : u <> 0 ->
  let rk p := tK p / (tC p * 100) in
  0 <= 1 - u * u * (rk b + rk a) * (tT b - tT a) ->
  1 / u' = 1 / u * sqrt (1 - u * u * (rk b + rk a) * (tT b - tT a)) - (tT a + tT b) / 2 * ((tS b - tS a) / 1e6) ->
  u' <> 0 -> next_u a b u = Some u'.
Proof.
  intros Hu rk Hp E Hu'. unfold next_u.
  replace (1 - u ^ 2 * (tK b / (1e2 * tC b) + tK a / (1e2 * tC a)) * (tT b - tT a))
    with (1 - u * u * (rk b + rk a) * (tT b - tT a)).
  2:{ unfold rk. replace (1e2 * tC b) with (tC b * 100) by ring. replace (1e2 * tC a) with (tC a * 100) by ring. ring. }
  destruct (Rlt_dec _ 0); [lra|]. destruct (Req_EM_T u 0); [lra|].
  set (q := sqrt _) in *.
  replace (q / u - (tT b + tT a) / 2 * (1e-6 * tS b - 1e-6 * tS a)) with (1 / u').
  2:{ rewrite E. unfold Rdiv. lra. }
  unfold inv_opt. assert (1 / u' <> 0). { unfold Rdiv. rewrite Rmult_1_l. apply Rinv_neq_0_compat; exact Hu'. }
  destruct (Req_EM_T (1 / u') 0); [contradiction|]. f_equal. field. exact Hu'.
Qed.
Lemma cal_Phi_potential p u : u <> 0 -> cal_Phi u (tS p) (tT p) = Some (potential p u).
Proof.
  intros Hu. unfold cal_Phi, inv_opt. destruct (Req_EM_T u 0); [contradiction|]. f_equal. unfold potential. 
  replace (1 / u) with (/ u) by (field; exact Hu). lra.
Qed.
Lemma values_loop : forall us a u r a0 u0, currents u (a :: r) (u :: us) -> u0 <> 0 ->
  forall i, (i < length r)%nat ->
  let Pi := potential (nth i r a) (nth i us 0) in Pi <> 0 ->
  nth i (yita_loop (Some (potential a0 u0)) a (Some u) r) None = Some (100 * (1 - potential a0 u0 / Pi)).
Proof.
  induction us as [|w us IH]; intros a u r a0 u0 Hc H0 i Hi Pi HP.
  - inversion Hc; subst; [cbn in Hi; lia|]. match goal with H : currents _ (_ :: _) [] |- _ => inversion H end.
  - inversion Hc as [|? ? b r' u' ? Hu rk Hs E Hu' Hr]; subst.
    assert (u' = w) by (inversion Hr; reflexivity). subst u'.
    cbn [yita_loop]. rewrite (next_u_value a b u w Hu Hs E Hu'). destruct i as [|i]; cbn [nth].
    + unfold Pi in *. cbn [nth] in *. unfold yita_i. rewrite (cal_Phi_potential b w Hu').
      destruct (Req_EM_T _ 0); [contradiction|]. reflexivity.
    + cbn [length] in Hi. replace (nth i r' a) with (nth i r' b) in * by (apply nth_indep; lia).
      unfold Pi in *. cbn [nth] in *. rewrite (nth_indep r' a b) in * by lia. apply (IH b w r' a0 u0 Hr H0 i); [lia|exact HP].
Qed.
Lemma phi_over_T a b u u' :
  0 < u -> 0 < tT a -> tT a < tT b -> 0 < tC a -> 0 < tC b -> 0 <= tK a -> 0 <= tK b ->
  let rk p := tK p / (tC p * 100) in
  0 <= 1 - u * u * (rk b + rk a) * (tT b - tT a) ->
  1 / u' = 1 / u * sqrt (1 - u * u * (rk b + rk a) * (tT b - tT a)) - (tT a + tT b) / 2 * ((tS b - tS a) / 1e6) ->
  0 < u' ->
  (1e-6 * tS b * tT b + 1 / u') * tT a <= (1e-6 * tS a * tT a + 1 / u) * tT b.
Proof.
  intros Hu Ha Hab HCa HCb HKa HKb rk Hp E Hu'.
  assert (Hrk : forall p, 0 < tC p -> 0 <= tK p -> 0 <= rk p).
  { intros p Hc Hk. unfold rk. apply Rmult_le_pos; [exact Hk|left; apply Rinv_0_lt_compat; lra]. }
  assert (Hs : sqrt (1 - u * u * (rk b + rk a) * (tT b - tT a)) <= 1).
  { rewrite <- sqrt_1 at 2. apply sqrt_le_1_alt.
    assert (0 <= u * u * (rk b + rk a) * (tT b - tT a)).
    { apply Rmult_le_pos; [apply Rmult_le_pos; [nra|]|lra]. pose proof (Hrk a HCa HKa); pose proof (Hrk b HCb HKb); lra. }
    lra. }
  set (q := sqrt _) in *. assert (Hq : 0 <= q) by apply sqrt_pos.
  assert (Hw : 0 < 1 / u) by (apply Rdiv_lt_0_compat; lra).
  assert (Hw' : 0 < 1 / u') by (apply Rdiv_lt_0_compat; lra).
  set (w := 1 / u) in *. set (w' := 1 / u') in *.
  set (dS := (tS b - tS a) / 1e6) in *.
  replace (1e-6 * tS b) with (1e-6 * tS a + dS) by (unfold dS; lra).
  assert (Hwq : w * q <= w) by nra.
  assert (H1 : w' <= w - (tT a + tT b) / 2 * dS) by lra.
  assert (H2 : tT a * dS <= 2 * w).
  { destruct (Rle_dec dS 0) as [Hn|Hn]; [nra|]. assert (tT a * dS <= (tT a + tT b) / 2 * dS) by nra. lra. }
  (* (sa + dS) Tb Ta + w' Ta <= sa Ta Tb + w Tb *)
  set (sa := 1e-6 * tS a). 
  assert (w' * tT a <= (w - (tT a + tT b) / 2 * dS) * tT a) by nra.
  assert (tT a * dS * (tT b - tT a) <= 2 * w * (tT b - tT a)) by nra.
  nra.
Qed.

Lemma carnot_loop : forall d a u us a0 u0,
  forward u (a :: d) us ->
  0 < u0 -> 0 < tT a0 -> 0 <= tS a0 -> tT a0 <= tT a ->
  Forall (fun p => 0 < tT p /\ 0 < tC p /\ 0 <= tK p /\ 0 <= tS p) (a :: d) ->
  increasing_T (a :: d) ->
  (1e-6 * tS a * tT a + 1 / u) * tT a0 <= (1e-6 * tS a0 * tT a0 + 1 / u0) * tT a ->
  forall i, (i < length d)%nat ->
  exists y, nth i (yita_loop (cal_Phi u0 (tS a0) (tT a0)) a (Some u) d) None = Some y
    /\ y <= 100 * (1 - tT a0 / tT (nth i d a)).
Proof.
  induction d as [|b r IH]; intros a u us a0 u0 Hf Hu0 HT0 HS0 H0a Hpos Hinc Hphi i Hi; [cbn in Hi; lia|].
  inversion Hf as [|u_ a_ b_ r_ u' us' Hu rk Hp E Hu' Hf']; subst.
  pose proof (next_u_forward a b u u' Hu Hp E Hu') as Hn.
  inversion Hpos as [|? ? (HTa & HCa & HKa & HSa) Hpos']; subst.
  inversion Hpos' as [|? ? (HTb & HCb & HKb & HSb) _]; subst.
  inversion Hinc as [|? ? Hinc' Hlt]; subst. assert (Hab : tT a < tT b) by (inversion Hlt; assumption).
  pose proof (phi_over_T a b u u' Hu HTa Hab HCa HCb HKa HKb Hp E Hu') as Hstep.
  assert (Hphi' : (1e-6 * tS b * tT b + 1 / u') * tT a0 <= (1e-6 * tS a0 * tT a0 + 1 / u0) * tT b).
  { set (x := 1e-6 * tS b * tT b + 1 / u') in *. set (y := 1e-6 * tS a * tT a + 1 / u) in *.
    set (z := 1e-6 * tS a0 * tT a0 + 1 / u0) in *.
    apply Rmult_le_reg_r with (tT a); [exact HTa|]. 
    assert (x * tT a * tT a0 <= y * tT b * tT a0) by (apply Rmult_le_compat_r; lra).
    assert (y * tT a0 * tT b <= z * tT a * tT b) by (apply Rmult_le_compat_r; lra). lra. }
  cbn [yita_loop]. rewrite Hn. destruct i as [|i].
  - cbn [nth]. unfold yita_i, cal_Phi, inv_opt.
    destruct (Req_EM_T u0 0); [lra|]. destruct (Req_EM_T u' 0); [lra|].
    assert (Hw' : 0 < / u') by (apply Rinv_0_lt_compat; lra).
    assert (Hpi : 0 < 1e-6 * tS b * tT b + / u').
    { assert (0 <= 1e-6 * tS b * tT b) by (apply Rmult_le_pos; [lra|lra]). lra. }
    destruct (Req_EM_T _ 0) as [|_]; [lra|]. eexists; split; [reflexivity|].
    apply Rmult_le_compat_l; [lra|]. apply Rplus_le_compat_l, Ropp_le_contravar.
    replace (1 / u') with (/ u') in Hphi' by (unfold Rdiv; ring). replace (1 / u0) with (/ u0) in Hphi' by (unfold Rdiv; ring).
    apply Rmult_le_reg_r with (tT b); [exact HTb|]. replace (tT a0 / tT b * tT b) with (tT a0) by (field; lra).
    apply Rmult_le_reg_r with (1e-6 * tS b * tT b + / u'); [exact Hpi|].
    set (P := 1e-6 * tS b * tT b + / u') in *. set (P0 := 1e-6 * tS a0 * tT a0 + / u0) in *.
    replace (P0 / P * tT b * P) with (P0 * tT b) by (field; lra). lra.
  - cbn [nth length] in *.
    destruct (IH b u' us' a0 u0 Hf' Hu0 HT0 HS0 ltac:(lra) Hpos' Hinc' Hphi' i ltac:(lia)) as (y & Hy & Hle).
    exists y; split; [exact Hy|]. rewrite nth_indep with (d' := b) by lia. exact Hle.
Qed.

(** ** cal_ZTdev *)
Lemma ZTdev_textbook ZT Tc Th : 0 < Tc -> Tc < Th -> 0 <= ZT ->
  let Y := yita_textbook ZT Tc Th in
  1e-3 < Rabs (Th * (1 - Y / 100) - Tc) -> cal_ZTdev Y Tc Th = ZT.
Proof.
  intros Hc Hh HZ Y Hg. unfold cal_ZTdev. destruct (Rlt_dec _ _) as [_|H]; [|contradiction].
  set (m := sqrt (1 + ZT)). assert (Hm : 1 <= m). { unfold m. rewrite <- sqrt_1 at 1. apply sqrt_le_1_alt; lra. }
  assert (HmZ : m ^ 2 = 1 + ZT). { unfold m. cbn [pow]. rewrite Rmult_1_r. apply sqrt_sqrt; lra. }
  assert (Hd : 0 < m + Tc / Th). { assert (0 < Tc / Th) by (apply Rdiv_lt_0_compat; lra). lra. }
  assert (HY : Y / 100 = (Th - Tc) * (m - 1) / (Th * m + Tc)).
  { unfold Y, yita_textbook. fold m. field. repeat split; nra. }
  assert (Hden : 0 < Th * m + Tc) by nra.
  rewrite HY.
  replace ((Th - Tc * (1 - (Th - Tc) * (m - 1) / (Th * m + Tc))) / (Th * (1 - (Th - Tc) * (m - 1) / (Th * m + Tc)) - Tc)) with m.
  { lra. }
  assert (E1 : Th * (1 - (Th - Tc) * (m - 1) / (Th * m + Tc)) - Tc = (Th - Tc) * (Th + Tc) / (Th * m + Tc)) by (field; lra).
  assert (E2 : Th - Tc * (1 - (Th - Tc) * (m - 1) / (Th * m + Tc)) = m * ((Th - Tc) * (Th + Tc)) / (Th * m + Tc)) by (field; lra).
  rewrite E1, E2. field. repeat split; nra.
Qed.

Lemma ZTdev_guard Yita Tc Th : Rabs (Th * (1 - Yita / 100) - Tc) <= 1e-3 -> cal_ZTdev Yita Tc Th = 0.
Proof. intros H. unfold cal_ZTdev. destruct (Rlt_dec _ _); [lra|]. ring. Qed.

Lemma ZTdev_mono Tc Th y1 y2 : 0 < Tc -> Tc < Th -> 0 <= y1 -> y1 < y2 ->
  1e-3 < Th * (1 - y2 / 100) - Tc ->
  0 <= cal_ZTdev y1 Tc Th < cal_ZTdev y2 Tc Th.
Proof.
  intros Hc Hh H1 H12 Hg. unfold cal_ZTdev.
  set (a := 1 - y1 / 100) in *. set (b := 1 - y2 / 100) in *. assert (Hab : b < a) by (unfold a, b; lra).
  assert (Ha1 : a <= 1) by (unfold a; lra).
  assert (Hga : 1e-3 < Th * a - Tc) by nra.
  destruct (Rlt_dec _ _) as [_|H]; [|rewrite Rabs_right in H; lra].
  destruct (Rlt_dec _ _) as [_|H]; [|rewrite Rabs_right in H; lra].
  assert (Hda : 1 <= (Th - Tc * a) / (Th * a - Tc)).
  { apply Rmult_le_reg_r with (Th * a - Tc); [lra|]. unfold Rdiv. rewrite Rmult_assoc, Rinv_l by lra. nra. }
  assert (Hlt : (Th - Tc * a) / (Th * a - Tc) < (Th - Tc * b) / (Th * b - Tc)).
  { apply Rmult_lt_reg_r with (Th * a - Tc); [lra|]. unfold Rdiv at 1. rewrite Rmult_assoc, Rinv_l, Rmult_1_r by lra.
    apply Rmult_lt_reg_r with (Th * b - Tc); [lra|].
    replace ((Th - Tc * b) / (Th * b - Tc) * (Th * a - Tc) * (Th * b - Tc)) with ((Th - Tc * b) * (Th * a - Tc)) by (field; lra).
    assert ((Th - Tc * b) * (Th * a - Tc) - (Th - Tc * a) * (Th * b - Tc) = (a - b) * (Th * Th - Tc * Tc)) by ring.
    assert (0 < (a - b) * (Th * Th - Tc * Tc)) by (apply Rmult_lt_0_compat; nra). lra. }
  set (qa := (Th - Tc * a) / (Th * a - Tc)) in *. set (qb := (Th - Tc * b) / (Th * b - Tc)) in *. nra.
Qed.
