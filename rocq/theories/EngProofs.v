From Coq Require Import Sorted ZArith.
From Verif Require Import Py PyStr RUtil InterpModel InterpSpec InterpProofs ZtModel ZtSpec EngModel EngSpec.
Local Open Scope R_scope.

(** ** np.interp *)
Lemma np_interp_in l t : fst (first_pt l) <= t <= fst (last_pt l) -> np_interp l None None t = inner l t.
Proof. intros H. unfold np_interp. destruct (Rlt_dec _ _); [lra|]. destruct (Rlt_dec _ _); [lra|reflexivity]. Qed.
Lemma inner_cons p q r t : inner (p :: q :: r) t = if Rlt_dec t (fst q) then line p q t else inner (q :: r) t.
Proof. reflexivity. Qed.
Lemma inner_first p r : incr (p :: r) -> inner (p :: r) (fst p) = snd p.
Proof.
  intros H. destruct r as [|q r]; [reflexivity|]. cbn [inner]. inversion H as [|? ? _ Hf]; subst. inversion Hf; subst.
  destruct (Rlt_dec _ _); [apply line_left|lra].
Qed.
Lemma incr_tail p r : incr (p :: r) -> incr r.
Proof. intros H; inversion H; assumption. Qed.
Lemma last_pt_cons p q r : last_pt (p :: q :: r) = last_pt (q :: r).
Proof. unfold last_pt. cbn [length]. replace (S (S (length r)) - 1)%nat with (S (length r)) by lia. replace (S (length r) - 1)%nat with (length r) by lia. reflexivity. Qed.
Lemma last_pt_ge p r : incr (p :: r) -> fst p <= fst (last_pt (p :: r)).
Proof.
  revert p; induction r as [|q r IH]; intros p H; [cbn; lra|]. rewrite last_pt_cons.
  pose proof (IH q (incr_tail _ _ H)). inversion H as [|? ? _ Hf]; subst. inversion Hf; subst. lra.
Qed.
Lemma inner_last l t : incr l -> l <> [] -> fst (last_pt l) <= t -> inner l t = snd (last_pt l).
Proof.
  induction l as [|p [|q r] IH]; intros H Hne Ht; [congruence|reflexivity|]. rewrite last_pt_cons in *. cbn [inner].
  pose proof (last_pt_ge q r (incr_tail _ _ H)). destruct (Rlt_dec t (fst q)); [lra|]. apply IH; [exact (incr_tail _ _ H)|discriminate|exact Ht].
Qed.
Lemma inner_node l p : incr l -> In p l -> inner l (fst p) = snd p.
Proof.
  induction l as [|a [|b r] IH]; intros H Hp; [destruct Hp|destruct Hp as [->|[]]; reflexivity|].
  destruct Hp as [->|Hp]; [apply inner_first; exact H|]. cbn [inner].
  assert (fst b <= fst p).
  { destruct Hp as [->|Hp]; [lra|]. apply incr_tail in H. inversion H as [|? ? _ Hf]; subst. rewrite Forall_forall in Hf. specialize (Hf p Hp). cbn in Hf. lra. }
  destruct (Rlt_dec _ _); [lra|]. apply IH; [exact (incr_tail _ _ H)|exact Hp].
Qed.
Lemma node_range l p : incr l -> In p l -> fst (first_pt l) <= fst p <= fst (last_pt l).
Proof.
  destruct l as [|a r]; intros H Hp; [destruct Hp|]. split.
  - cbn. destruct Hp as [->|Hp]; [lra|]. inversion H as [|? ? _ Hf]; subst. rewrite Forall_forall in Hf. specialize (Hf p Hp). cbn in Hf. lra.
  - revert a H Hp. induction r as [|b r IH]; intros a H Hp; [destruct Hp as [->|[]]; cbn; lra|].
    destruct Hp as [->|Hp]; [apply last_pt_ge; exact H|]. rewrite last_pt_cons. apply IH; [exact (incr_tail _ _ H)|exact Hp].
Qed.
Lemma tab_node l p : incr l -> In p l -> tab_interp l (fst p) = snd p.
Proof. intros H Hp. unfold tab_interp. rewrite np_interp_in by (apply node_range; assumption). apply inner_node; assumption. Qed.

Lemma tab_below l t : incr l -> l <> [] -> t <= fst (first_pt l) -> tab_interp l t = tab_interp l (fst (first_pt l)).
Proof.
  intros H Hne Ht. destruct l as [|p r]; [congruence|]. cbn [first_pt nth] in *.
  rewrite (tab_node (p :: r) p H (or_introl eq_refl)).
  destruct (Req_EM_T t (fst p)) as [->|Hn]; [apply tab_node; [exact H|left; reflexivity]|].
  unfold tab_interp, np_interp. cbn [first_pt nth]. destruct (Rlt_dec t (fst p)); [reflexivity|lra].
Qed.
Lemma tab_above l t : incr l -> l <> [] -> fst (last_pt l) <= t -> tab_interp l t = tab_interp l (fst (last_pt l)).
Proof.
  intros H Hne Ht. destruct l as [|p r]; [congruence|]. pose proof (last_pt_ge p r H) as Hl.
  unfold tab_interp, np_interp. cbn [first_pt nth].
  destruct (Rlt_dec t (fst p)); [lra|]. destruct (Rlt_dec (fst (last_pt (p :: r))) (fst p)); [lra|].
  destruct (Rlt_dec (fst (last_pt _)) (fst (last_pt _))); [lra|]. rewrite (inner_last _ (fst (last_pt _))) by (auto; lra).
  destruct (Rlt_dec _ _); [reflexivity|]. apply inner_last; auto.
Qed.

(** strictly increasing ordinates *)
Definition incr_y (l : list (R * R)) : Prop := StronglySorted (fun a b => snd a < snd b) l.
Lemma line_lt p q s t : fst p < fst q -> snd p < snd q -> s < t -> line p q s < line p q t.
Proof.
  intros H1 H2 H. unfold line. apply Rplus_lt_compat_l. apply Rmult_lt_compat_l; [|lra]. apply Rdiv_lt_0_compat; lra.
Qed.
Lemma inner_ge p r t : incr (p :: r) -> incr_y (p :: r) -> fst p <= t <= fst (last_pt (p :: r)) -> snd p <= inner (p :: r) t.
Proof.
  revert p; induction r as [|q r IH]; intros p H Hy Ht; [cbn; lra|]. rewrite inner_cons.
  inversion H as [|? ? H' Hf]; subst. inversion Hf as [|? ? Hpq _]; subst. inversion Hy as [|? ? Hy' Hg]; subst. inversion Hg as [|? ? Hpq' _]; subst.
  destruct (Rlt_dec t (fst q)) as [Hq|Hq].
  - destruct (Req_EM_T t (fst p)) as [->|]; [rewrite line_left; lra|].
    pose proof (line_lt p q (fst p) t Hpq Hpq' ltac:(lra)) as Hl. rewrite line_left in Hl. lra.
  - rewrite last_pt_cons in Ht. pose proof (IH q H' Hy' ltac:(lra)). lra.
Qed.
Lemma inner_mono l s t : incr l -> incr_y l -> fst (first_pt l) <= s -> s < t -> t <= fst (last_pt l) -> inner l s < inner l t.
Proof.
  induction l as [|p [|q r] IH]; intros H Hy Hs Hst Ht; [cbn in *; lra|cbn in *; lra|].
  rewrite last_pt_cons in Ht. rewrite !inner_cons. cbn [first_pt nth] in *.
  inversion H as [|? ? H' Hf]; subst. inversion Hf as [|? ? Hpq _]; subst. inversion Hy as [|? ? Hy' Hg]; subst. inversion Hg as [|? ? Hpq' _]; subst.
  destruct (Rlt_dec s (fst q)), (Rlt_dec t (fst q)); [apply line_lt; assumption| |lra|].
  - pose proof (line_lt p q s (fst q) Hpq Hpq' ltac:(lra)) as Hl. rewrite line_right in Hl by exact Hpq.
    pose proof (inner_ge q r t H' Hy' ltac:(lra)). lra.
  - apply IH; [exact H'|exact Hy'|lra|exact Hst|exact Ht].
Qed.

(** ** cumtrapz *)
Notation graph f d := (map (fun p => (tT p, f p)) d).

Lemma cum_fst acc l : map fst (cumtrapz_from acc l) = map fst l.
Proof. revert acc; induction l as [|p [|q r] IH]; intros acc; try reflexivity. cbn [cumtrapz_from map]. f_equal. apply IH. Qed.
Lemma incr_fst l l' : map fst l = map fst l' -> incr l -> incr l'.
Proof.
  revert l'; induction l as [|a l IH]; intros [|b l'] E H; try discriminate; [constructor|].
  injection E as E1 E2. inversion H as [|? ? H' Hf]; subst. constructor; [apply IH; assumption|].
  apply Forall_forall. intros x Hx. apply (in_map fst) in Hx. rewrite <- E2 in Hx. apply in_map_iff in Hx as (y & Ey & Hy).
  rewrite Forall_forall in Hf. specialize (Hf y Hy). cbn in *. lra.
Qed.
Lemma incr_graph f d : increasing_T d -> incr (graph f d).
Proof.
  induction 1 as [|a d H IH Hf]; cbn [map]; constructor; [exact IH|]. apply Forall_map. cbn. exact Hf.
Qed.
Lemma incr_cum f d : increasing_T d -> incr (cumtrapz (graph f d)).
Proof. intros H. eapply incr_fst; [|apply (incr_graph f d H)]. unfold cumtrapz. rewrite cum_fst. reflexivity. Qed.

Lemma cum_app acc pre p r f :
  cumtrapz_from acc (graph f (pre ++ p :: r)) =
  firstn (length pre) (cumtrapz_from acc (graph f (pre ++ p :: r))) ++ cumtrapz_from (acc + trapezoids f (pre ++ [p])) (graph f (p :: r)).
Proof.
  revert acc; induction pre as [|a pre IH]; intros acc.
  - cbn [app firstn length trapezoids]. rewrite Rplus_0_r. reflexivity.
  - cbn [app]. destruct pre as [|b pre].
    + cbn [app map firstn length trapezoids].
      change (cumtrapz_from acc ((tT a, f a) :: (tT p, f p) :: graph f r))
        with ((tT a, acc) :: cumtrapz_from (acc + (tT p - tT a) * (f p + f a) / 2) ((tT p, f p) :: graph f r)).
      cbn [firstn app]. do 2 f_equal. lra.
    + change (length (a :: b :: pre)) with (S (length (b :: pre))).
      change (cumtrapz_from acc (graph f (a :: (b :: pre) ++ p :: r)))
        with ((tT a, acc) :: cumtrapz_from (acc + (tT b - tT a) * (f b + f a) / 2) (graph f ((b :: pre) ++ p :: r))).
      rewrite firstn_cons, <- app_comm_cons. apply (f_equal (cons (tT a, acc))). rewrite IH at 1.
      apply (f_equal (app _)).
      change (trapezoids f (a :: (b :: pre) ++ [p])) with ((tT b - tT a) * (f a + f b) / 2 + trapezoids f ((b :: pre) ++ [p])).
      apply (f_equal (fun z => cumtrapz_from z (graph f (p :: r)))). lra.
Qed.
Lemma cum_node f pre p r : In (tT p, trapezoids f (pre ++ [p])) (cumtrapz (graph f (pre ++ p :: r))).
Proof.
  unfold cumtrapz. rewrite cum_app. apply in_or_app; right. rewrite Rplus_0_l. cbn [map cumtrapz_from fst]. left; reflexivity.
Qed.
Lemma trapezoids_app f pre p mid : trapezoids f (pre ++ p :: mid) = trapezoids f (pre ++ [p]) + trapezoids f (p :: mid).
Proof.
  induction pre as [|a pre IH]; [cbn [app trapezoids]; lra|].
  destruct pre as [|b pre]; [cbn [app trapezoids]; destruct mid; lra|].
  change (trapezoids f ((a :: b :: pre) ++ p :: mid)) with ((tT b - tT a) * (f a + f b) / 2 + trapezoids f ((b :: pre) ++ p :: mid)).
  change (trapezoids f ((a :: b :: pre) ++ [p])) with ((tT b - tT a) * (f a + f b) / 2 + trapezoids f ((b :: pre) ++ [p])).
  rewrite IH. lra.
Qed.
Lemma tab_int_nodes f pre p mid q r : increasing_T (pre ++ p :: mid ++ q :: r) ->
  tab_int f (pre ++ p :: mid ++ q :: r) (tT p) (tT q) = trapezoids f (p :: mid ++ [q]).
Proof.
  intros H. unfold tab_int. set (d := pre ++ _) in *. pose proof (incr_cum f d H) as Hc.
  pose proof (cum_node f pre p (mid ++ q :: r)) as Hp.
  assert (Hq : In (tT q, trapezoids f (pre ++ p :: mid ++ [q])) (cumtrapz (graph f d))).
  { pose proof (cum_node f (pre ++ p :: mid) q r) as Hq. rewrite <- !app_assoc in Hq. exact Hq. }
  pose proof (tab_node _ _ Hc Hp) as E1. pose proof (tab_node _ _ Hc Hq) as E2. cbn [fst snd] in E1, E2.
  rewrite E1, E2. rewrite (trapezoids_app f pre p (mid ++ [q])). ring.
Qed.

Lemma cum_incr_y acc f d : increasing_T d -> Forall (fun p => 0 < f p) d ->
  incr_y (cumtrapz_from acc (graph f d)) /\ Forall (fun q => acc <= snd q) (cumtrapz_from acc (graph f d)).
Proof.
  intros H; revert acc; induction H as [|a d H IH Hf]; intros acc Hp; [split; constructor|].
  inversion Hp as [|? ? Ha Hp']; subst. destruct d as [|b d].
  - cbn. split; constructor; [constructor|constructor|cbn; lra|constructor].
  - inversion Hf as [|? ? Hab _]; subst. inversion Hp' as [|? ? Hb _]; subst.
    change (cumtrapz_from acc (graph f (a :: b :: d)))
        with ((tT a, acc) :: cumtrapz_from (acc + (tT b - tT a) * (f b + f a) / 2) (graph f (b :: d))).
    set (acc' := acc + _). assert (Hacc : acc < acc').
    { unfold acc'. assert (0 < (tT b - tT a) * (f b + f a)) by (apply Rmult_lt_0_compat; lra). lra. }
    destruct (IH acc' Hp') as (IH1 & IH2). split.
    + constructor; [exact IH1|]. eapply Forall_impl; [|exact IH2]. cbn; intros q Hq; lra.
    + constructor; [cbn; lra|]. eapply Forall_impl; [|exact IH2]. cbn; intros q Hq; lra.
Qed.

Lemma cum_ends acc f d : d <> [] ->
  fst (first_pt (cumtrapz_from acc (graph f d))) = tT (hd (TP 0 0 0 0) d)
  /\ fst (last_pt (cumtrapz_from acc (graph f d))) = tT (last d (TP 0 0 0 0)).
Proof.
  intros Hne. split.
  - destruct d as [|a [|b d]]; [congruence|reflexivity|reflexivity].
  - revert acc Hne; induction d as [|a [|b d] IH]; intros acc Hne; [congruence|reflexivity|].
    set (acc' := acc + (tT b - tT a) * (f b + f a) / 2).
    assert (E : cumtrapz_from acc (graph f (a :: b :: d)) = (tT a, acc) :: cumtrapz_from acc' (graph f (b :: d))) by reflexivity.
    rewrite E. specialize (IH acc' ltac:(discriminate)).
    change (last (a :: b :: d) (TP 0 0 0 0)) with (last (b :: d) (TP 0 0 0 0)). rewrite <- IH.
    destruct (cumtrapz_from acc' (graph f (b :: d))) eqn:E2; [cbn in E2; destruct d; discriminate|]. rewrite last_pt_cons. reflexivity.
Qed.

Lemma tab_int_pos f d Tc Th : increasing_T d -> d <> [] -> Forall (fun p => 0 < f p) d ->
  tT (hd (TP 0 0 0 0) d) <= Tc -> Tc < Th -> Th <= tT (last d (TP 0 0 0 0)) -> 0 < tab_int f d Tc Th.
Proof.
  intros H Hne Hp H1 H2 H3. unfold tab_int. destruct (cum_ends 0 f d Hne) as (E1 & E2).
  fold (cumtrapz (graph f d)) in E1, E2. pose proof (incr_cum f d H) as Hi. destruct (cum_incr_y 0 f d H Hp) as (Hy & _).
  fold (cumtrapz (graph f d)) in Hy. set (c := cumtrapz _) in *.
  unfold tab_interp. rewrite !np_interp_in by lra.
  assert (inner c Tc < inner c Th) by (apply inner_mono; [exact Hi|exact Hy|lra|lra|lra]). lra.
Qed.

(** affine integrands are integrated exactly between grid points *)
Lemma trapezoids_affine f al be a d : (forall p, In p (a :: d) -> f p = al + be * tT p) ->
  trapezoids f (a :: d) = al * (tT (last d a) - tT a) + be * (tT (last d a) * tT (last d a) - tT a * tT a) / 2.
Proof.
  revert a; induction d as [|b d IH]; intros a Hf; [cbn; lra|].
  change (trapezoids f (a :: b :: d)) with ((tT b - tT a) * (f a + f b) / 2 + trapezoids f (b :: d)).
  rewrite IH by (intros p Hp; apply Hf; right; exact Hp).
  rewrite (Hf a) by (left; reflexivity). rewrite (Hf b) by (right; left; reflexivity).
  replace (last (b :: d) a) with (last d b); [lra|]. clear. revert a b. induction d as [|c d IH]; intros a b; [reflexivity|].
  change (last (b :: c :: d) a) with (last (c :: d) a). rewrite <- (IH a c), <- (IH b c). reflexivity.
Qed.

(** ** polynomials *)
Lemma pinteg_deriv k p x : derivable_pt_lim (fun t => t ^ S k * peval (pinteg_from k p) t) x (x ^ k * peval p x).
Proof.
  revert k; induction p as [|a r IH]; intros k.
  - cbn [pinteg_from peval]. replace (x ^ k * 0) with 0 by ring.
    replace (fun t => t ^ S k * 0) with (fun _ : R => 0).
    + apply derivable_pt_lim_const.
    + apply FunctionalExtensionality.functional_extensionality; intros; ring.
  - cbn [pinteg_from peval].
    replace (fun t => t ^ S k * (a / INR (S k) + t * peval (pinteg_from (S k) r) t))
      with (plus_fct (mult_real_fct (a / INR (S k)) (fun t => t ^ S k)) (fun t => t ^ S (S k) * peval (pinteg_from (S k) r) t)).
    + replace (x ^ k * (a + x * peval r x)) with ((a / INR (S k)) * (INR (S k) * x ^ pred (S k)) + x ^ S k * peval r x).
      * apply derivable_pt_lim_plus; [|apply IH]. apply derivable_pt_lim_scal. apply derivable_pt_lim_pow.
      * cbn [pred pow]. field. apply not_0_INR; lia.
    + apply FunctionalExtensionality.functional_extensionality; intros t. unfold plus_fct, mult_real_fct. cbn [pow]. ring.
Qed.
Lemma pinteg_antideriv p : antiderivative_of (peval (pinteg p)) (peval p).
Proof.
  intros x. pose proof (pinteg_deriv 0 p x) as H. cbn [pow] in H. rewrite Rmult_1_l in H.
  replace (peval (pinteg p)) with (fun t => t * 1 * peval (pinteg_from 0 p) t); [exact H|].
  apply FunctionalExtensionality.functional_extensionality; intros t. cbn [pinteg peval]. ring.
Qed.
Lemma antideriv_unique F G f : antiderivative_of F f -> antiderivative_of G f -> forall a b, F b - F a = G b - G a.
Proof.
  intros HF HG a b.
  set (h := fun x => F x - G x).
  assert (Hd : forall x, derivable_pt_lim h x 0).
  { intros x. replace 0 with (f x - f x) by ring. apply (derivable_pt_lim_minus F G x _ _ (HF x) (HG x)). }
  assert (Hc : h a = h b).
  { destruct (Rtotal_order a b) as [Hab|[->|Hab]]; [|reflexivity|].
    - destruct (MVT_cor2 h (fun _ => 0) a b Hab (fun c _ => Hd c)) as (c & E & _). lra.
    - destruct (MVT_cor2 h (fun _ => 0) b a Hab (fun c _ => Hd c)) as (c & E & _). lra. }
  unfold h in Hc. lra.
Qed.
Lemma peval_continuous p : continuity (peval p).
Proof.
  induction p as [|a r IH]; [apply continuity_const; intros x y; reflexivity|].
  change (peval (a :: r)) with (plus_fct (fun _ => a) (mult_fct id (peval r))). apply continuity_plus; [apply continuity_const; intros x y; reflexivity|].
  apply continuity_mult; [apply derivable_continuous, derivable_id|exact IH].
Qed.
(** a continuous function vanishing off 0 vanishes at 0 *)
Lemma cont_zero (g : R -> R) : continuity g -> (forall x, x <> 0 -> g x = 0) -> g 0 = 0.
Proof.
  intros Hc Hz. destruct (Req_EM_T (g 0) 0) as [|Hn]; [assumption|exfalso].
  destruct (Hc 0 (Rabs (g 0)) (Rabs_pos_lt _ Hn)) as (al & Hal & Hlim). cbn in Hlim. unfold R_dist in Hlim.
  specialize (Hlim (al / 2)). assert (al / 2 <> 0) by lra.
  assert (Hx : D_x no_cond 0 (al / 2) /\ Rabs (al / 2 - 0) < al).
  { split; [split; [exact I|lra]|]. rewrite Rabs_right; lra. }
  specialize (Hlim Hx). rewrite (Hz (al / 2)) in Hlim by assumption.
  rewrite Rabs_minus_sym, Rminus_0_r in Hlim. lra.
Qed.
