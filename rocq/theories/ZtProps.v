(** C21-C24, C40: src/teflow/ztdev.py. *)
From Coq Require Import Sorted.
From Verif Require Import Py RUtil ZtModel ZtSpec ZtProofs.
Local Open Scope R_scope.

Theorem C21_profile :
  forall (u : R) (d : list tp), d <> [] ->
  exists l, cal_Yita_all u d = Ok l /\ length l = length d /\ nth 0 l None = Some 0
    /\ cal_Yita u d = Ok (nth (length d - 1) l None)
    /\ (forall n, (1 <= n)%nat -> cal_Yita_all u (firstn n d) = Ok (firstn n l))
    /\ (forall n, (1 <= n <= length d)%nat -> cal_Yita u (firstn n d) = Ok (nth (n - 1) l None)).
Proof.
  intros u [|a r] Hne; [congruence|]. unfold cal_Yita. cbn [cal_Yita_all rbind length].
  set (lp := yita_loop _ _ _ _). assert (Hlen : length lp = length r) by apply yita_loop_len.
  assert (Hlast : forall (l : list (option R)) x, last (x :: l) None = nth (length l) (x :: l) None).
  { clear. intros l x. revert x. induction l as [|y l IH]; intros x; [reflexivity|]. exact (IH y). }
  assert (Hfn : forall n, (1 <= n)%nat -> cal_Yita_all u (firstn n (a :: r)) = Ok (firstn n (Some (100 * 0) :: lp))).
  { intros [|n] Hn; [lia|]. cbn [firstn cal_Yita_all]. rewrite yita_loop_firstn. reflexivity. }
  eexists; split; [reflexivity|]. split; [cbn [length]; rewrite Hlen; reflexivity|].
  split; [cbn [nth]; f_equal; ring|]. split; [rewrite Hlast; cbn [length]; do 2 f_equal; lia|].
  split; [exact Hfn|].
  intros n Hn. rewrite Hfn by lia. cbn [rbind]. destruct n as [|n]; [lia|]. cbn [firstn]. rewrite Hlast.
  rewrite firstn_length_le by lia. f_equal. replace (S n - 1)%nat with n by lia.
  change (Some (100 * 0) :: firstn n lp) with (firstn (S n) (Some (100 * 0) :: lp)). 
  rewrite <- (firstn_skipn (S n) (Some (100 * 0) :: lp)) at 2. rewrite app_nth1; [reflexivity|].
  rewrite firstn_length_le; cbn [length]; lia.
Qed.
Print Assumptions C21_profile.

(** The value at point i: 100*(1 - Phi_0/Phi_i) with Phi = S*T + 1/u along the current profile. *)
Theorem C21_values :
  forall (u : R) (d : list tp) (us : list R), currents u d us ->
  exists l, cal_Yita_all u d = Ok l /\
  forall i dflt, (i < length d)%nat ->
    let P0 := potential (nth 0 d dflt) (nth 0 us 0) in let Pi := potential (nth i d dflt) (nth i us 0) in
    P0 <> 0 -> Pi <> 0 -> nth i l None = Some (100 * (1 - P0 / Pi)).
Proof.
  intros u d us Hc. assert (Hu : u <> 0) by (inversion Hc; assumption).
  destruct d as [|a r]; [inversion Hc|]. destruct us as [|w us]; [inversion Hc|].
  assert (w = u) by (inversion Hc; reflexivity). subst w.
  cbn [cal_Yita_all]. rewrite (cal_Phi_potential a u Hu). eexists; split; [reflexivity|].
  intros i dflt Hi H0 H1; destruct i as [|i]; cbn [nth] in *.
  - f_equal. field. exact H0.
  - cbn [length] in Hi. rewrite (nth_indep r dflt a) in * by lia. apply (values_loop us a u r a u Hc Hu i); [lia|exact H1].
Qed.
Print Assumptions C21_values.

Theorem C21_pn_symmetry :
  forall (u : R) (d : list tp), cal_Yita_all (- u) (mirror d) = cal_Yita_all u d.
Proof.
  intros u [|a r]; [reflexivity|]. cbn [mirror map cal_Yita_all tS tT]. rewrite cal_Phi_opp. do 2 f_equal.
  exact (yita_loop_opp _ a (Some u) r).
Qed.
Print Assumptions C21_pn_symmetry.

(** Carnot bound at every temperature point. *)
Theorem C22_carnot :
  forall (u : R) (d : list tp) (us : list R),
  d <> [] -> increasing_T d -> positive_data d -> forward u d us ->
  exists l, cal_Yita_all u d = Ok l /\
  forall i, (i < length d)%nat ->
    exists y, nth i l None = Some y /\ y <= 100 * (1 - tT (nth 0 d (TP 0 0 0 0)) / tT (nth i d (TP 0 0 0 0))).
Proof.
  intros u [|a r] us Hne Hinc Hpos Hf; [congruence|]. cbn [cal_Yita_all]. eexists; split; [reflexivity|].
  assert (Hu : 0 < u) by (inversion Hf; assumption).
  inversion Hpos as [|? ? (HT & HC & HK & HS) _]; subst.
  intros [|i] Hi; cbn [nth length] in *.
  - exists (100 * 0); split; [reflexivity|]. replace (tT a / tT a) with 1 by (field; lra). lra.
  - destruct (carnot_loop r a u us a u Hf Hu HT HS ltac:(lra) Hpos Hinc ltac:(lra) i ltac:(lia)) as (y & Hy & Hle).
    exists y; split; [exact Hy|]. rewrite nth_indep with (d' := a) by lia. exact Hle.
Qed.
Print Assumptions C22_carnot.

Theorem C23_inverse :
  forall ZT Tc Th : R, 0 < Tc -> Tc < Th -> 0 <= ZT ->
  let Y := yita_textbook ZT Tc Th in
  1e-3 < Rabs (Th * (1 - Y / 100) - Tc) -> cal_ZTdev Y Tc Th = ZT.
Proof. exact ZTdev_textbook. Qed.
Print Assumptions C23_inverse.

Theorem C23_guard :
  forall Yita Tc Th : R, Rabs (Th * (1 - Yita / 100) - Tc) <= 1e-3 -> cal_ZTdev Yita Tc Th = 0.
Proof. exact ZTdev_guard. Qed.
Print Assumptions C23_guard.

(** Below the Carnot limit: [1e-3 < Th*(1-y/100) - Tc]. *)
Theorem C23_increasing :
  forall Tc Th y1 y2 : R, 0 < Tc -> Tc < Th -> 0 <= y1 -> y1 < y2 ->
  1e-3 < Th * (1 - y2 / 100) - Tc ->
  0 <= cal_ZTdev y1 Tc Th < cal_ZTdev y2 Tc Th.
Proof. exact ZTdev_mono. Qed.
Print Assumptions C23_increasing.

(** The textbook efficiency stays below Carnot, so the guard excludes only a thin band: it applies
    iff the temperature difference is tiny or ZT is huge. *)
Theorem C23_guard_band :
  forall ZT Tc Th : R, 0 < Tc -> Tc < Th -> 0 <= ZT ->
  Th * (1 - yita_textbook ZT Tc Th / 100) - Tc = (Th - Tc) * (Th + Tc) / (Th * sqrt (1 + ZT) + Tc).
Proof.
  intros ZT Tc Th Hc Hh HZ. unfold yita_textbook. set (m := sqrt (1 + ZT)).
  assert (Hm : 1 <= m). { unfold m. rewrite <- sqrt_1 at 1. apply sqrt_le_1_alt; lra. }
  field. repeat split; nra.
Qed.
Print Assumptions C23_guard_band.

(** C24 *)
Theorem C24_interval :
  forall a : tp,
  u_bounds a = (if Rlt_dec 0 (tS a) then (0.01, 1e-4 * tS a * tC a / tK a) else (1e-4 * tS a * tC a / tK a, - 0.01))
  /\ (0 < tC a -> 0 < tK a -> (snd (u_bounds a) < fst (u_bounds a) <-> Rabs (tS a) * tC a / tK a < 100)).
Proof.
  intros a. split.
  - unfold u_bounds. destruct (Rlt_dec 0 (tS a)); f_equal; lra.
  - intros HC HK. unfold u_bounds. set (q := tC a / tK a).
    assert (E : forall x, x * tC a / tK a = x * q) by (intros; unfold q; field; lra). rewrite !E.
    destruct (Rlt_dec 0 (tS a)) as [H|H]; cbn [fst snd].
    + rewrite Rabs_right by lra. split; lra.
    + rewrite Rabs_left1 by lra. split; lra.
Qed.
Print Assumptions C24_interval.

Theorem C24_result :
  forall minimize (a : tp) (d : list tp),
  bounded_minimizer minimize ->
  let data := a :: d in let lo := fst (u_bounds a) in let hi := snd (u_bounds a) in
  (hi < lo -> optim_u minimize data = Err ValueError /\ optim_Yita minimize data = Err ValueError) /\
  (lo <= hi -> exists r, minimize (nega_Yita data) lo hi = Ok r /\
     (osuccess r = false -> optim_u minimize data = Ok None /\ optim_Yita minimize data = Err TypeError) /\
     (osuccess r = true -> exists u y,
        optim_u minimize data = Ok (Some (u, y)) /\ lo <= u <= hi /\ cal_Yita u data = Ok y
        /\ optim_Yita minimize data = cal_Yita_all u data
        /\ (forall p v w, not_above minimize (nega_Yita data) lo hi p ->
              cal_Yita p data = Ok (Some v) -> y = Some w -> v <= w))).
Proof.
  intros minimize a d Hm data lo hi. destruct (Hm (nega_Yita data) lo hi) as (Hinv & Hok).
  assert (Eb : u_bounds a = (lo, hi)) by (unfold lo, hi; destruct (u_bounds a); reflexivity).
  assert (Eu : optim_u minimize data = (let! r := minimize (nega_Yita data) lo hi in
      Ok (if osuccess r then Some (ox r, neg_opt (ofun r)) else None))).
  { unfold data. cbn [optim_u]. rewrite Eb. reflexivity. }
  unfold optim_Yita. rewrite Eu. split.
  - intros H. rewrite (Hinv H). cbn [rbind]. split; reflexivity.
  - intros H. destruct (Hok H) as (r & Hr & Hx & Hf). exists r. split; [exact Hr|]. rewrite Hr. cbn [rbind]. split.
    + intros ->. split; reflexivity.
    + intros Hs. rewrite Hs. exists (ox r), (neg_opt (ofun r)). split; [reflexivity|]. split; [exact Hx|].
      assert (Ey : cal_Yita (ox r) data = Ok (neg_opt (ofun r))).
      { rewrite Hf. unfold nega_Yita. destruct (cal_Yita (ox r) data) as [y|e] eqn:E.
        - f_equal. destruct y; cbn; [f_equal; lra|reflexivity].
        - exfalso. unfold data, cal_Yita in E. cbn in E. discriminate. }
      split; [exact Ey|]. split; [reflexivity|].
      intros p v w Hna Hp Hw. destruct (ofun r) as [f|] eqn:Ef; [|discriminate]. cbn in Hw. injection Hw as <-.
      specialize (Hna r Hr Hs f (- v) Ef). unfold nega_Yita in Hna at 1. rewrite Hp in Hna. cbn in Hna.
      assert (f <= - v) by (apply Hna; f_equal; lra). lra.
Qed.
Print Assumptions C24_result.

(** C40: [valuate] *)
Theorem C40_rows :
  forall minimize (a : tp) (d : list tp) ys rows,
  valuate minimize (a :: d) true = Ok (ys, rows) ->
  optim_Yita minimize (a :: d) = Ok ys /\ length rows = length (a :: d)
  /\ (nth 0 rows (0, 0, None) = (tT a, tT a, Some 0) /\ nth 0 ys None = Some 0)
  /\ forall i, (i < length (a :: d))%nat ->
       let Th := tT (nth i (a :: d) a) in
       nth i rows (0, 0, None) = (tT a, Th, match nth i ys None with Some y => Some (cal_ZTdev y (tT a) Th) | None => None end).
Proof.
  intros minimize a d ys rows. cbn [valuate]. unfold rbind. remember (a :: d) as dd eqn:Edd. destruct (optim_Yita minimize (dd)) as [ys'|] eqn:E; [|discriminate].
  intros [= <- <-]. split; [reflexivity|].
  assert (Hy : length ys' = length (dd) /\ nth 0 ys' None = Some 0).
  { unfold optim_Yita, rbind in E. destruct (optim_u minimize (dd)) as [[[x y]|]|]; try discriminate.
    destruct (C21_profile x dd ltac:(rewrite Edd; discriminate)) as (l & Hl & Hlen & H0 & _). rewrite Hl in E. injection E as <-. split; assumption. }
  destruct Hy as (Hlen & H0).
  assert (Hi : forall i, (i < length (dd))%nat ->
       nth i (map (fun q : tp * option R => (tT a, tT (fst q), option_map (fun y => cal_ZTdev y (tT a) (tT (fst q))) (snd q))) (combine (dd) ys')) (0, 0, None)
       = (tT a, tT (nth i (dd) a), match nth i ys' None with Some y => Some (cal_ZTdev y (tT a) (tT (nth i (dd) a))) | None => None end)).
  { intros i Hi. set (g := fun q : tp * option R => _).
    rewrite (nth_indep _ _ (g (a, None))) by (rewrite map_length, combine_length; lia).
    rewrite map_nth, combine_nth by (symmetry; exact Hlen). unfold g. cbn [fst snd].
    destruct (nth i ys' None); reflexivity. }
  split; [rewrite map_length, combine_length; lia|]. split; [|exact Hi].
  split; [|exact H0]. rewrite Hi by (rewrite Edd; cbn; lia). rewrite H0, Edd. cbn [nth]. do 2 f_equal.
  apply ZTdev_guard. replace (tT a * (1 - 0 / 100) - tT a) with 0 by field. rewrite Rabs_R0. lra.
Qed.
Print Assumptions C40_rows.

(** [allTemp=False]: the last efficiency is combined with EVERY hot-side temperature. *)
Theorem C40_last_only :
  forall minimize (a : tp) (d : list tp) ys1 rows,
  valuate minimize (a :: d) false = Ok (ys1, rows) ->
  exists ys y, optim_Yita minimize (a :: d) = Ok ys /\ last ys None = y /\ ys1 = [y] /\
  length rows = length (a :: d) /\
  forall i, (i < length (a :: d))%nat ->
    nth i rows (0, 0, None) = (tT a, tT (nth i (a :: d) a), match y with Some y => Some (cal_ZTdev y (tT a) (tT (nth i (a :: d) a))) | None => None end).
Proof.
  intros minimize a d ys1 rows. cbn [valuate]. unfold rbind. remember (a :: d) as dd eqn:Edd. destruct (optim_Yita minimize (dd)) as [ys'|] eqn:E; [|discriminate].
  intros H. injection H as H1 <-. exists ys', (last ys' None). rewrite H1. split; [reflexivity|]. split; [reflexivity|]. split; [reflexivity|]. split; [rewrite map_length; reflexivity|].
  intros i Hi. set (g := fun p : tp => _).
  rewrite (nth_indep _ _ (g a)) by (rewrite map_length; exact Hi). rewrite map_nth. reflexivity.
Qed.
Print Assumptions C40_last_only.

Theorem C40_raises :
  forall minimize (d : list tp) (allTemp : bool) e,
  optim_Yita minimize d = Err e -> valuate minimize d allTemp = Err e.
Proof.
  intros minimize [|a d] allTemp e H.
  - cbn in *. injection H as <-. reflexivity.
  - cbn [valuate]. unfold rbind. remember (a :: d) as dd. rewrite H. reflexivity.
Qed.
Print Assumptions C40_raises.

(** Non-vacuity. *)
Example C22_case : exists us, let d := [TP 300 1000 200 1; TP 400 1000 200 1] in
  increasing_T d /\ positive_data d /\ forward 1 d us.
Proof.
  assert (E : 1 - 1 * 1 * (1 / (1000 * 100) + 1 / (1000 * 100)) * (400 - 300) = 0.998) by lra.
  assert (Hs : 0 < sqrt 0.998) by (apply sqrt_lt_R0; lra).
  exists [1; / sqrt 0.998]. cbn zeta. split; [|split].
  - unfold increasing_T. repeat constructor. cbn; lra.
  - unfold positive_data. repeat constructor; cbn; lra.
  - eapply fwd_step with (u' := / sqrt 0.998); cbn [tT tC tS tK]; try rewrite E; try lra.
    + unfold Rdiv. rewrite Rinv_inv. lra.
    + apply Rinv_0_lt_compat; exact Hs.
    + constructor. apply Rinv_0_lt_compat; exact Hs.
Qed.
Example C23_case : cal_ZTdev (yita_textbook 1 300 600) 300 600 = 1.
Proof.
  apply C23_inverse; try lra. rewrite C23_guard_band by lra.
  assert (Hs : 1 <= sqrt (1 + 1) <= 2).
  { split; [rewrite <- sqrt_1 at 1; apply sqrt_le_1_alt; lra|]. apply Rle_trans with (sqrt (2 * 2)); [apply sqrt_le_1_alt; lra|rewrite sqrt_square; lra]. }
  assert (0 < 600 * sqrt (1 + 1) + 300 <= 1500) by lra. set (m := 600 * sqrt (1 + 1) + 300) in *.
  assert (H1 : 1 < (600 - 300) * (600 + 300) / m).
  { apply Rmult_lt_reg_r with m; [lra|]. unfold Rdiv. rewrite Rmult_assoc, Rinv_l; lra. }
  rewrite Rabs_right; lra.
Qed.
Definition mid_minimizer (f : R -> option R) (lo hi : R) : res opt_res :=
  if Rlt_dec hi lo then Err ValueError else Ok (OR lo (f lo) true).
Example C24_case : bounded_minimizer mid_minimizer.
Proof.
  intros f lo hi. unfold mid_minimizer. destruct (Rlt_dec hi lo); split; intros; try lra; [reflexivity|].
  eexists; split; [reflexivity|]. cbn. split; [lra|reflexivity].
Qed.
Example C40_case : exists ys rows, valuate mid_minimizer [TP 300 1000 200 1; TP 400 1000 200 1] true = Ok (ys, rows).
Proof.
  unfold valuate, optim_Yita, optim_u, u_bounds. cbn [tS tC tK]. destruct (Rlt_dec 0 200); [|lra].
  unfold mid_minimizer. destruct (Rlt_dec _ _); [lra|]. cbn [rbind osuccess]. eexists. eexists. reflexivity.
Qed.
Example C21_case : let d := [TP 300 1000 200 0; TP 600 1000 200 0] in currents 1 d [1; 1].
Proof.
  cbv zeta. apply (cur_step 1 (TP 300 1000 200 0) (TP 600 1000 200 0) [] 1 [1]); cbn [tK tC tT tS]; try lra.
  - replace (1 - 1 * 1 * (0 / (1000 * 100) + 0 / (1000 * 100)) * (600 - 300)) with 1 by field. rewrite sqrt_1. field.
  - constructor. lra.
Qed.
