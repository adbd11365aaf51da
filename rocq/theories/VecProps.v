(** C124: generator calculations on arrays of temperatures, ratios and currents. *)
From Coq Require Import ZArith Reals String Ascii Lra Lia.
From Verif Require Import Py PyStr RUtil MonoModel InterpModel ZtModel EngModel ArrModel ArrSpec ArrProofs VecModel VecSpec VecProofs.
Local Open Scope list_scope.

Section C124.
Variable X : Type.
Variable ar : arith X.
Let z := a_lit ar 0%R.
Notation set := (list nat -> Prop).

Lemma dims_atleast (A : nd X) : shape (atleast_1d A) = dims A.
Proof. unfold atleast_1d, dims. destruct (shape A) eqn:E; [reflexivity|exact E]. Qed.
Lemma atleast_array (A : nd X) : array A -> array (atleast_1d A).
Proof. unfold atleast_1d. destruct (shape A) eqn:E; [|exact (fun H => H)]. unfold array. rewrite E. cbn. auto. Qed.
Lemma peek_ok (A : nd X) : hd 1%nat (dims A) <> 0%nat -> peek (atleast_1d A) = Ok tt.
Proof. intros H. unfold peek. rewrite dims_atleast. destruct (dims A) as [|[|n] l]; [reflexivity|cbn in H; lia|reflexivity]. Qed.
Lemma sees_atleast (A : nd X) s i x : fits (dims A) s -> index s i -> sees (atleast_1d A) i x -> sees A i x.
Proof.
  intros F I. unfold atleast_1d, dims in *. destruct (shape A) as [|d l] eqn:E; [|exact (fun H => H)]. intros (lead & i' & -> & (J & P) & L). cbn [shape] in *. destruct i' as [|k [|? ?]]; try discriminate L.
  exists (lead ++ [k]), []. split; [symmetry; apply app_nil_r|]. rewrite E. split; [|reflexivity]. split; [rewrite E; constructor|]. rewrite E. cbn in *. exact P.
Qed.
(** an operand as [rel], with some value at every index *)
Lemma any_rel (A : nd X) s i : array A -> fits (dims A) s -> exists x, rel X s i (eq (dims A)) (atleast_1d A) x.
Proof.
  intros HA F. exists (bc_get z (atleast_1d A) i). rewrite <- dims_atleast in *. apply plain_rel; [apply atleast_array, HA|exact F|]. intros I. apply bc_get_sees with (s := s); [apply atleast_array, HA|exact F|exact I].
Qed.
Lemma any_rel0 (A : nd X) s i : array A -> fits (shape A) s -> exists x, rel X s i (eq (shape A)) A x.
Proof. intros HA F. exists (bc_get z A i). apply plain_rel; [exact HA|exact F|]. intros I. apply bc_get_sees with (s := s); assumption. Qed.
Lemma this_rel (A : nd X) s i x : array A -> fits (dims A) s -> sees A i x -> rel X s i (eq (dims A)) (atleast_1d A) x.
Proof. intros HA F E. rewrite <- dims_atleast in *. apply atleast_rel; auto. Qed.
Lemma rel_exact s i (t : set) A x ts : rel X s i t A x -> common ts s -> (forall l, In l ts -> t l) -> array A /\ shape A = s.
Proof.
  intros (HA & F & T & _) (_ & M) Q. split; [exact HA|]. apply fits_antisym; [exact F|]. apply M. apply Forall_forall. intros l Hl. apply T, Q, Hl.
Qed.
Lemma rel_within s i (t : set) A x : rel X s i t A x -> array A /\ fits (shape A) s.
Proof. intros (HA & F & _). auto. Qed.
Lemma rel_sees s i (t : set) A x : index s i -> rel X s i t A x -> sees A i x.
Proof. intros I (_ & _ & _ & E). exact (E I). Qed.
Ltac conj := repeat match goal with H : _ /\ _ |- _ => destruct H end.
Lemma itgs_show s i c h d w P p : index s i -> itgs_rel X s i c h d w P p -> show (itgs_entries P) i (itgs_entries p).
Proof. intros I H. unfold itgs_rel in H. conj. unfold show, itgs_entries. repeat constructor; eapply rel_sees; eassumption. Qed.
Lemma mdfs_show s i d w P p : index s i -> mdfs_rel X s i d w P p -> show (mdfs_entries P) i (mdfs_entries p).
Proof. intros I H. unfold mdfs_rel in H. conj. unfold show, mdfs_entries. repeat constructor; eapply rel_sees; eassumption. Qed.
Lemma prfs_show s i c h d w P p : index s i -> prfs_rel X s i c h d w P p -> show (entries P) i (entries p).
Proof.
  intros I H. unfold prfs_rel in H. destruct H as (H1 & H2 & H3 & H4 & H5 & H6 & H7 & H8 & H9 & H10 & H11 & H12). unfold show, entries. apply Forall2_app; [repeat constructor; eapply rel_sees; eassumption|].
  apply Forall2_app; [eapply itgs_show; eassumption|]. apply Forall2_app; [eapply mdfs_show; eassumption|].
  destruct (vpwgts P) as [V|], (vpwgts p) as [v|]; try contradiction; [|constructor]. unfold wgts_rel in H12. conj. cbn [wgts_entries]. repeat constructor; eapply rel_sees; eassumption.
Qed.
Lemma outs_show s i d w P p : index s i -> outs_rel X s i d w P p -> show (out_entries P) i (out_entries p).
Proof. intros I H. unfold outs_rel in H. conj. unfold show, out_entries. repeat constructor; eapply rel_sees; eassumption. Qed.

(** ** one leg *)
Lemma leg_walk t L A b Tc Th s i tc th : hd 1%nat (dims Tc) <> 0%nat -> hd 1%nat (dims Th) <> 0%nat -> rel X s i (eq (dims Tc)) (atleast_1d Tc) tc -> rel X s i (eq (dims Th)) (atleast_1d Th) th ->
  exists P p, nd_leg X ar t L A b Tc Th = Ok P /\ one_leg X ar t L A b tc th = Ok p
    /\ prfs_rel X s i (eq (dims Tc)) (eq (dims Th)) (fun l => dims Tc = l \/ dims Th = l) (fun l => dims Tc = l \/ dims Th = l) P p.
Proof.
  intros Nc Nh Hc Hh. unfold nd_leg, one_leg, leg. rewrite (peek_ok Tc Nc), (peek_ok Th Nh). cbv beta iota zeta delta [rbind].
  destruct (itgs_walk X ar s i _ _ t _ _ tc th Hc Hh) as (P & p & E1 & E2 & H). rewrite E1, E2.
  destruct (build_walk X ar s i _ _ _ _ L A b P p H) as (Q & q & E3 & E4 & H'). rewrite E3, E4. exists Q, q. auto.
Qed.
Lemma leg_parts t L A b Tc Th P : nd_leg X ar t L A b Tc Th = Ok P ->
  vTc (vpitgs P) = atleast_1d Tc /\ vTh (vpitgs P) = atleast_1d Th /\ vSc (vpitgs P) = u1 (t_S t) (atleast_1d Tc) /\ vSh (vpitgs P) = u1 (t_S t) (atleast_1d Th) /\ (vpwgts P = None <-> b = false).
Proof.
  unfold nd_leg, leg. destruct (peek (atleast_1d Tc)); [|discriminate]. destruct (peek (atleast_1d Th)); [|discriminate]. cbv beta iota zeta delta [rbind].
  pose proof (itgs_fail X ar t (atleast_1d Tc) (atleast_1d Th)) as F. destruct (v_itgs _ _ _ _ _ _ _ _) as [Q|e]; [|discriminate]. destruct F as (F1 & F2 & F3 & F4 & _).
  pose proof (build_fail X ar L A b Q) as G. intros E. rewrite E in G. destruct G as (-> & G). auto.
Qed.
(** Tc and Th are paired by broadcasting: the profiles have the common shape, and each index holds what the single pair of temperatures there gives. *)
Theorem C124_leg t L A w Tc Th s : array Tc -> array Th -> hd 1%nat (dims Tc) <> 0%nat -> hd 1%nat (dims Th) <> 0%nat -> common [dims Tc; dims Th] s ->
  exists P, nd_leg X ar t L A w Tc Th = Ok P
    /\ of_shape s (temp_entries P ++ main_entries P ++ wgts_entries (vpwgts P)) /\ of_shape (dims Tc) (cold_entries P) /\ of_shape (dims Th) (hot_entries P)
    /\ (vpwgts P = None <-> w = false)
    /\ forall i tc th, index s i -> sees Tc i tc -> sees Th i th -> exists p, one_leg X ar t L A w tc th = Ok p /\ show (entries P) i (entries p).
Proof.
  intros HTc HTh Nc Nh Hs. assert (Fc := Forall_inv (proj1 Hs)). assert (Fh := Forall_inv (Forall_inv_tail (proj1 Hs))).
  destruct (any_rel Tc s [] HTc Fc) as (tc0 & R1). destruct (any_rel Th s [] HTh Fh) as (th0 & R2).
  destruct (leg_walk t L A w Tc Th s [] tc0 th0 Nc Nh R1 R2) as (P & p0 & E & E0 & H).
  exists P. split; [exact E|]. destruct (leg_parts t L A w Tc Th P E) as (V1 & V2 & V3 & V4 & V5).
  assert (Ex : forall B x, rel X s [] (fun l => dims Tc = l \/ dims Th = l) B x -> array B /\ shape B = s).
  { intros B x HB. apply (rel_exact s [] _ B x _ HB Hs). intros l [<-|[<-|[]]]; auto. }
  split; [|split; [|split; [|split]]].
  - unfold prfs_rel, mdfs_rel, itgs_rel in H. destruct H as (H1 & H2 & H3 & H4 & H5 & H6 & H7 & H8 & H9 & H10 & H11 & H12). conj. unfold of_shape, temp_entries, main_entries. apply Forall_app. split; [repeat constructor; eapply Ex; eassumption|]. apply Forall_app. split; [repeat constructor; eapply Ex; eassumption|].
    destruct (vpwgts P) as [V|]; [|constructor]. destruct (vpwgts p0) as [v|]; [|contradiction]. unfold wgts_rel in H12. conj. cbn [wgts_entries]. repeat constructor; eapply Ex; eassumption.
  - unfold of_shape, cold_entries. rewrite V1, V3. repeat constructor; rewrite <- ?dims_atleast; try apply atleast_array, HTc; try reflexivity; cbn [u1 shape]; try (unfold array, u1; cbn [flat shape]; rewrite map_length; apply atleast_array, HTc).
  - unfold of_shape, hot_entries. rewrite V2, V4. repeat constructor; rewrite <- ?dims_atleast; try apply atleast_array, HTh; try reflexivity; cbn [u1 shape]; try (unfold array, u1; cbn [flat shape]; rewrite map_length; apply atleast_array, HTh).
  - exact V5.
  - intros i tc th I S1 S2. destruct (leg_walk t L A w Tc Th s i tc th Nc Nh (this_rel Tc s i tc HTc Fc S1) (this_rel Th s i th HTh Fh S2)) as (P' & p & E1 & E2 & H').
    rewrite E in E1. injection E1 as <-. exists p. split; [exact E2|]. eapply prfs_show; eassumption.
Qed.
(** temperatures that cannot be broadcast together; no temperatures *)
Theorem C124_leg_refused t L A w Tc Th : hd 1%nat (dims Tc) <> 0%nat -> hd 1%nat (dims Th) <> 0%nat -> no_common [dims Tc; dims Th] -> nd_leg X ar t L A w Tc Th = Err ValueError.
Proof.
  intros Nc Nh N. unfold nd_leg, leg. rewrite (peek_ok Tc Nc), (peek_ok Th Nh). cbv beta iota zeta delta [rbind].
  pose proof (itgs_fail X ar t (atleast_1d Tc) (atleast_1d Th)) as F. destruct (v_itgs _ _ _ _ _ _ _ _) as [P|e]; [|rewrite F; reflexivity]. exfalso. destruct F as (_ & _ & _ & _ & F1 & F2). rewrite !dims_atleast in *.
  apply (N (shape (vRho P))). constructor; [exact F1|constructor; [exact F2|constructor]].
Qed.
Theorem C124_empty t tn L A w Tc Th rL rA : hd 1%nat (dims Tc) = 0%nat \/ hd 1%nat (dims Th) = 0%nat -> nd_leg X ar t L A w Tc Th = Err IndexError /\ nd_pair X ar t tn L A Tc Th rL rA = Err IndexError.
Proof.
  assert (K : forall B : nd X, peek (atleast_1d B) = if (hd 1 (dims B) =? 0)%nat then Err IndexError else Ok tt) by (intros B; unfold peek; rewrite dims_atleast; destruct (dims B) as [|[|n] l]; reflexivity).
  intros H. unfold nd_leg, nd_pair. cbv zeta. rewrite !K. destruct (Nat.eqb_spec (hd 1 (dims Tc)) 0) as [Q|Q]; [split; reflexivity|]. destruct H as [H|H]; [contradiction|]. apply Nat.eqb_eq in H. rewrite H. split; reflexivity.
Qed.

(** ** outputs of a leg *)
Lemma common_join ts s u s' : common ts s -> common [s; u] s' -> common (ts ++ [u]) s'.
Proof.
  intros (F & M) (F' & M'). assert (Fs := Forall_inv F'). assert (Fu := Forall_inv (Forall_inv_tail F')). split.
  - apply Forall_app. split; [|constructor; [exact Fu|constructor]]. eapply Forall_impl; [|exact F]. intros t Ht. exact (fits_trans _ _ _ Ht Fs).
  - intros r Hr. apply Forall_app in Hr as (H1 & H2). apply M'. constructor; [apply M, H1|exact H2].
Qed.
Lemma outs_at_walk s i c h d w P p Ir r : prfs_rel X s i c h d w P p -> rel X s i (eq (dims Ir)) (atleast_1d Ir) r ->
  exists Q q, nd_outs X ar P (Some Ir) = Ok Q /\ one_outs X ar p (Some r) = Ok q /\ outs_rel X s i (fun l => d l \/ dims Ir = l) (fun l => w l \/ dims Ir = l) Q q.
Proof. intros H HI. exact (outs_walk X ar s i c h d w _ P p _ r H HI). Qed.
Lemma outs_best_walk s i c h d w P p : prfs_rel X s i c h d w P p ->
  exists Q q, nd_outs X ar P None = Ok Q /\ one_outs X ar p None = Ok q /\ outs_rel X s i (fun l => d l \/ w l) (fun l => w l \/ w l) Q q.
Proof.
  intros H. destruct (current_walk X ar s i c h d w P p H) as (I & y & E1 & E2 & HI). destruct (outs_walk X ar s i c h d w _ P p I y H HI) as (Q & q & E3 & E4 & HQ).
  exists Q, q. unfold nd_outs, one_outs, outs_at. rewrite E1, E2. cbv beta iota delta [rbind]. auto.
Qed.
Theorem C124_simulate t L A w Tc Th Ir s s' : array Tc -> array Th -> array Ir -> hd 1%nat (dims Tc) <> 0%nat -> hd 1%nat (dims Th) <> 0%nat -> common [dims Tc; dims Th] s -> common [s; dims Ir] s' ->
  exists P o, nd_leg X ar t L A w Tc Th = Ok P /\ nd_outs X ar P (Some Ir) = Ok o /\ of_shape s' (out_entries o)
    /\ forall i tc th r, index s' i -> sees Tc i tc -> sees Th i th -> sees Ir i r ->
       exists p q, one_leg X ar t L A w tc th = Ok p /\ one_outs X ar p (Some r) = Ok q /\ show (out_entries o) i (out_entries q).
Proof.
  intros HTc HTh HI Nc Nh Hs Hs'. pose proof (common_join _ _ _ _ Hs Hs') as J. cbn [app] in J. assert (Fc := Forall_inv (proj1 J)). assert (Fh := Forall_inv (Forall_inv_tail (proj1 J))). assert (Fi := Forall_inv (Forall_inv_tail (Forall_inv_tail (proj1 J)))).
  destruct (any_rel Tc s' [] HTc Fc) as (tc0 & R1). destruct (any_rel Th s' [] HTh Fh) as (th0 & R2). destruct (any_rel Ir s' [] HI Fi) as (r0 & R3).
  destruct (leg_walk t L A w Tc Th s' [] tc0 th0 Nc Nh R1 R2) as (P & p0 & E & E0 & H). destruct (outs_at_walk _ _ _ _ _ _ P p0 Ir r0 H R3) as (o & q0 & Eo & Eo0 & Ho).
  exists P, o. split; [exact E|]. split; [exact Eo|]. split.
  - unfold outs_rel in Ho. conj. unfold of_shape, out_entries. repeat constructor;
      match goal with K : rel X s' [] _ ?B _ |- array ?B => apply (proj1 (rel_within _ _ _ _ _ K)) | K : rel X s' [] _ ?B _ |- shape ?B = s' => apply (proj2 (rel_exact s' [] _ B _ _ K J ltac:(intros l [<-|[<-|[<-|[]]]]; auto))) end.
  - intros i tc th r I S1 S2 S3. destruct (leg_walk t L A w Tc Th s' i tc th Nc Nh (this_rel Tc s' i tc HTc Fc S1) (this_rel Th s' i th HTh Fh S2)) as (P' & p & E1 & E2 & H').
    rewrite E in E1. injection E1 as <-. destruct (outs_at_walk _ _ _ _ _ _ P p Ir r H' (this_rel Ir s' i r HI Fi S3)) as (o' & q & E3 & E4 & H4). rewrite Eo in E3. injection E3 as <-. exists p, q. split; [exact E2|]. split; [exact E4|]. eapply outs_show; eassumption.
Qed.
(** at the greatest efficiency every temperature pair has its own current *)
Theorem C124_simulate_best t L A w Tc Th s : array Tc -> array Th -> hd 1%nat (dims Tc) <> 0%nat -> hd 1%nat (dims Th) <> 0%nat -> common [dims Tc; dims Th] s ->
  exists P o, nd_leg X ar t L A w Tc Th = Ok P /\ nd_outs X ar P None = Ok o /\ of_shape s (out_entries o)
    /\ forall i tc th, index s i -> sees Tc i tc -> sees Th i th ->
       exists p q, one_leg X ar t L A w tc th = Ok p /\ one_outs X ar p None = Ok q /\ show (out_entries o) i (out_entries q).
Proof.
  intros HTc HTh Nc Nh J. assert (Fc := Forall_inv (proj1 J)). assert (Fh := Forall_inv (Forall_inv_tail (proj1 J))).
  destruct (any_rel Tc s [] HTc Fc) as (tc0 & R1). destruct (any_rel Th s [] HTh Fh) as (th0 & R2).
  destruct (leg_walk t L A w Tc Th s [] tc0 th0 Nc Nh R1 R2) as (P & p0 & E & E0 & H). destruct (outs_best_walk _ _ _ _ _ _ P p0 H) as (o & q0 & Eo & Eo0 & Ho).
  exists P, o. split; [exact E|]. split; [exact Eo|]. split.
  - unfold outs_rel in Ho. conj. unfold of_shape, out_entries. repeat constructor;
      match goal with K : rel X s [] _ ?B _ |- array ?B => apply (proj1 (rel_within _ _ _ _ _ K)) | K : rel X s [] _ ?B _ |- shape ?B = s => apply (proj2 (rel_exact s [] _ B _ _ K J ltac:(intros l [<-|[<-|[]]]; auto))) end.
  - intros i tc th I S1 S2. destruct (leg_walk t L A w Tc Th s i tc th Nc Nh (this_rel Tc s i tc HTc Fc S1) (this_rel Th s i th HTh Fh S2)) as (P' & p & E1 & E2 & H').
    rewrite E in E1. injection E1 as <-. destruct (outs_best_walk _ _ _ _ _ _ P p H') as (o' & q & E3 & E4 & H4). rewrite Eo in E3. injection E3 as <-. exists p, q. split; [exact E2|]. split; [exact E4|]. eapply outs_show; eassumption.
Qed.
Lemma outs_refused P Ir s : shape (vpIsc P) = s -> no_common [s; dims Ir] -> nd_outs X ar P (Some Ir) = Err ValueError.
Proof.
  intros <- N. unfold nd_outs, outs_at. cbv beta iota delta [rbind]. pose proof (outs_fail X ar P (atleast_1d Ir)) as F. destruct (v_outs _ _ _ _ _ _ _) as [o|e]; [|rewrite F; reflexivity]. exfalso. destruct F as (F1 & F2). rewrite dims_atleast in F2.
  apply (N (shape (voI o))). constructor; [exact F1|constructor; [exact F2|constructor]].
Qed.
Theorem C124_simulate_refused t L A w Tc Th Ir s : array Tc -> array Th -> hd 1%nat (dims Tc) <> 0%nat -> hd 1%nat (dims Th) <> 0%nat -> common [dims Tc; dims Th] s -> no_common [s; dims Ir] ->
  exists P, nd_leg X ar t L A w Tc Th = Ok P /\ nd_outs X ar P (Some Ir) = Err ValueError.
Proof.
  intros HTc HTh Nc Nh Hs N. destruct (C124_leg t L A w Tc Th s HTc HTh Nc Nh Hs) as (P & E & F & _). exists P. split; [exact E|]. apply outs_refused with (s := s); [|exact N].
  unfold of_shape in F. rewrite Forall_forall in F. apply F. unfold temp_entries, main_entries. apply in_or_app. right. cbn. tauto.
Qed.
(** hence lists of n temperatures and n currents are paired one by one, not combined; lists of different lengths fail *)
Lemma common_same n : common [[n]; [n]] [n].
Proof. split; [repeat constructor; apply fits_refl|]. intros r H. exact (Forall_inv H). Qed.
Lemma common_one n : common [[n]; [1%nat]] [n].
Proof.
  split; [constructor; [apply fits_refl|constructor; [|constructor]]|intros r H; exact (Forall_inv H)]. exists [], [n]. split; [reflexivity|]. repeat constructor.
Qed.
Lemma nocommon_1d n k : n <> 1%nat -> k <> 1%nat -> n <> k -> no_common [[n]; [k]].
Proof.
  intros Hn Hk Hnk s F. assert (F1 := Forall_inv F). assert (F2 := Forall_inv (Forall_inv_tail F)). destruct F1 as (l1 & s1 & -> & G1), F2 as (l2 & s2 & E & G2).
  inversion G1 as [|? d ? ? A1 B1]; subst. inversion B1; subst. inversion G2 as [|? e ? ? A2 B2]; subst. inversion B2; subst. apply app_inj_tail in E as (_ & E). subst e. lia.
Qed.
Lemma sees_1d (l : list X) k x : nth_error l k = Some x -> sees (Nd [List.length l] l) [k] x.
Proof.
  intros E. assert (k < List.length l)%nat by (apply nth_error_Some; congruence). exists [], [k]. split; [reflexivity|]. split; [|reflexivity]. cbn [shape combine List.map fst snd].
  destruct (Nat.eqb_spec (List.length l) 1) as [Q|Q]; (split; [cbn [shape]; repeat constructor; lia|]); cbn; [|exact E]. replace k with 0%nat in E by lia. exact E.
Qed.
Lemma sees_1d_inv (B : nd X) n k x : shape B = [n] -> sees B [k] x -> nth_error (flat B) (if (n =? 1)%nat then 0%nat else k) = Some x.
Proof. intros Hn (lead & i' & E & (_ & P) & L). rewrite Hn in *. destruct lead as [|? [|? ?]]; try discriminate E; [|destruct i'; [discriminate L|discriminate E]]. cbn in E. subst i'. cbn in P. rewrite Nat.mul_0_r in P || idtac. exact P. Qed.
Theorem C124_paired t L A w Tc (Th Ir : list X) : Th <> [] -> List.length Ir = List.length Th ->
  exists P o, nd_leg X ar t L A w (Nd [] [Tc]) (Nd [List.length Th] Th) = Ok P /\ nd_outs X ar P (Some (Nd [List.length Ir] Ir)) = Ok o
    /\ Forall (fun B => List.length (flat B) = List.length Th) (out_entries o)
    /\ forall k th r, nth_error Th k = Some th -> nth_error Ir k = Some r ->
       exists p q, one_leg X ar t L A w Tc th = Ok p /\ one_outs X ar p (Some r) = Ok q /\ Forall2 (fun B x => nth_error (flat B) k = Some x) (out_entries o) (out_entries q).
Proof.
  intros Ne Len. set (n := List.length Th). assert (n <> 0%nat) by (destruct Th; [congruence|cbn; lia]).
  assert (H0 : common [[1%nat]; [n]] [n]). { destruct (common_one n) as (F & M). split; [constructor; [exact (Forall_inv (Forall_inv_tail F))|constructor; [exact (Forall_inv F)|constructor]]|]. intros r Hr. exact (Forall_inv (Forall_inv_tail Hr)). }
  destruct (C124_simulate t L A w (Nd [] [Tc]) (Nd [n] Th) (Nd [List.length Ir] Ir) [n] [n]) as (P & o & E1 & E2 & F & G);
    [reflexivity|unfold array; cbn; subst n; lia|unfold array; cbn; lia|cbn; lia|cbn; lia|exact H0|unfold dims; cbn [shape]; rewrite Len; apply common_same|].
  exists P, o. split; [exact E1|]. split; [exact E2|]. split.
  - eapply Forall_impl; [|exact F]. intros B (HB & S). unfold array in HB. rewrite HB, S. cbn. lia.
  - intros k th r Hk Hr. assert (k < n)%nat by (apply nth_error_Some; congruence). destruct (G [k] Tc th r) as (p & q & G1 & G2 & G3).
    + repeat constructor. assumption.
    + exists [k], []. split; [reflexivity|]. split; [|reflexivity]. split; [constructor|reflexivity].
    + apply sees_1d, Hk.
    + apply sees_1d, Hr.
    + exists p, q. split; [exact G1|]. split; [exact G2|]. clear - F G3 H1. unfold of_shape in F. unfold show in G3. induction G3 as [|B x Bs xs Hx Hr IH]; constructor.
      * assert (S := Forall_inv F). destruct S as (_ & S). pose proof (sees_1d_inv B n k x S Hx) as Q. destruct (Nat.eqb_spec n 1) as [->|]; [replace k with 0%nat by lia|]; exact Q.
      * apply IH. exact (Forall_inv_tail F).
Qed.
Theorem C124_not_combined t L A w Tc (Th Ir : list X) : (2 <= List.length Th)%nat -> (2 <= List.length Ir)%nat -> List.length Ir <> List.length Th ->
  exists P, nd_leg X ar t L A w (Nd [] [Tc]) (Nd [List.length Th] Th) = Ok P /\ nd_outs X ar P (Some (Nd [List.length Ir] Ir)) = Err ValueError.
Proof.
  intros H1 H2 H3. apply C124_simulate_refused with (s := [List.length Th]); try (cbn; lia); [reflexivity|unfold array; cbn; lia| |apply nocommon_1d; cbn; lia].
  destruct (common_one (List.length Th)) as (F & M). split; [constructor; [exact (Forall_inv (Forall_inv_tail F))|constructor; [exact (Forall_inv F)|constructor]]|]. intros r Hr. exact (Forall_inv (Forall_inv_tail Hr)).
Qed.

(** ** p-n pairs *)
Lemma ratio_any (rA : vratio (nd X)) s i : ratio_array rA -> Forall (fun t => fits t s) (ratio_shape rA) -> exists y, ratio_rel X s i (fun l => In l (ratio_shape rA)) rA y.
Proof.
  destruct rA as [| |A]; cbn; intros HA F; [exists VZ; exact I|exists VP; exact I|]. destruct (any_rel0 A s i HA (Forall_inv F)) as (x & R). exists (VNum x). eapply rel_weak; [exact R|]. intros l [<-|[]]. reflexivity.
Qed.
Lemma ratio_this (rA : vratio (nd X)) s i y : ratio_array rA -> Forall (fun t => fits t s) (ratio_shape rA) -> ratio_sees rA i y -> ratio_rel X s i (fun l => In l (ratio_shape rA)) rA y.
Proof.
  destruct rA as [| |A], y as [| |x]; cbn; intros HA F E; try exact E. eapply rel_weak; [apply plain_rel; [exact HA|exact (Forall_inv F)|intros _; exact E]|]. intros l [<-|[]]. reflexivity.
Qed.
Definition all_shapes (Tc Th rL : nd X) (rA : vratio (nd X)) : list (list nat) := [dims Tc; dims Th; shape rL] ++ ratio_shape rA.
Lemma pair_walk tp tn L A Tc Th rL rA s i tc th yL yA : hd 1%nat (dims Tc) <> 0%nat -> hd 1%nat (dims Th) <> 0%nat -> rel X s i (eq (dims Tc)) (atleast_1d Tc) tc -> rel X s i (eq (dims Th)) (atleast_1d Th) th ->
  rel X s i (eq (shape rL)) rL yL -> ratio_rel X s i (fun l => In l (ratio_shape rA)) rA yA ->
  exists r P y p, nd_pair X ar tp tn L A Tc Th rL rA = Ok (r, P) /\ one_pair X ar tp tn L A tc th yL yA = Ok (y, p) /\ rel X s i (fun l => In l (ratio_shape rA)) r y
    /\ prfs_rel X s i (eq (dims Tc)) (eq (dims Th)) (fun l => dims Tc = l \/ dims Th = l) (fun l => In l (all_shapes Tc Th rL rA)) P p.
Proof.
  intros Nc Nh Hc Hh HL HA. unfold nd_pair, one_pair, pair. rewrite (peek_ok Tc Nc), (peek_ok Th Nh). cbv beta iota zeta delta [rbind].
  destruct (itgs_walk X ar s i _ _ tp _ _ tc th Hc Hh) as (P & p & E1 & E2 & H). rewrite E1, E2. destruct (itgs_walk X ar s i _ _ tn _ _ tc th Hc Hh) as (N & n & E3 & E4 & H'). rewrite E3, E4.
  destruct (ratio_walk X ar s i _ _ _ _ _ P p N n rL yL rA yA H H' HL HA) as (r & y & E5 & E6 & HR). rewrite E5, E6.
  destruct (merge_walk X ar s i _ _ _ _ _ P p N n rL yL r y H H' HL HR) as (Q & q & E7 & E8 & HQ). rewrite E7, E8.
  destruct (build_walk X ar s i _ _ _ _ L A true Q q HQ) as (B & b & E9 & E10 & HB). rewrite E9, E10. exists r, B, y, b. split; [reflexivity|]. split; [reflexivity|]. split.
  - eapply rel_weak; [exact HR|]. intros l Hl. destruct rA, yA; cbn in *; try contradiction; assumption.
  - assert (W : forall l, In l (all_shapes Tc Th rL rA) -> (dims Tc = l \/ dims Th = l) \/ shape rL = l \/ ratio_set X (fun l => dims Tc = l \/ dims Th = l) (eq (shape rL)) (fun l => In l (ratio_shape rA)) yA l).
    { intros l. unfold all_shapes. cbn [app In]. intros [Hl|[Hl|[Hl|Hl]]]; auto. right. right. destruct rA, yA; cbn in *; try contradiction; assumption. }
    eapply prfs_weak; [exact W|exact HB].
Qed.
Theorem C124_pair tp tn L A Tc Th rL rA s : array Tc -> array Th -> array rL -> ratio_array rA -> hd 1%nat (dims Tc) <> 0%nat -> hd 1%nat (dims Th) <> 0%nat -> common ([dims Tc; dims Th; shape rL] ++ ratio_shape rA) s ->
  exists r P, nd_pair X ar tp tn L A Tc Th rL rA = Ok (r, P) /\ of_shape s (main_entries P) /\ within s (r :: entries P)
    /\ forall i tc th l a, index s i -> sees Tc i tc -> sees Th i th -> sees rL i l -> ratio_sees rA i a ->
       exists y p, one_pair X ar tp tn L A tc th l a = Ok (y, p) /\ sees r i y /\ show (entries P) i (entries p).
Proof.
  intros HTc HTh HL HA Nc Nh J. destruct (proj1 (Forall_app _ _ _) (proj1 J)) as (J1 & J2). assert (Fc := Forall_inv J1). assert (Fh := Forall_inv (Forall_inv_tail J1)). assert (Fl := Forall_inv (Forall_inv_tail (Forall_inv_tail J1))).
  destruct (any_rel Tc s [] HTc Fc) as (tc0 & R1). destruct (any_rel Th s [] HTh Fh) as (th0 & R2). destruct (any_rel0 rL s [] HL Fl) as (l0 & R3). destruct (ratio_any rA s [] HA J2) as (a0 & R4).
  destruct (pair_walk tp tn L A Tc Th rL rA s [] tc0 th0 l0 a0 Nc Nh R1 R2 R3 R4) as (r & P & y0 & p0 & E & E0 & Hr & H). exists r, P. split; [exact E|]. split; [|split].
  - assert (Ex : forall B x, rel X s [] (fun l => In l (all_shapes Tc Th rL rA)) B x -> array B /\ shape B = s) by (intros B x HB; apply (rel_exact s [] _ B x _ HB J); intros l Hl; exact Hl).
    unfold prfs_rel, mdfs_rel, itgs_rel in H. destruct H as (H1 & H2 & H3 & H4 & H5 & H6 & H7 & H8 & H9 & H10 & H11 & H12). conj. unfold of_shape, main_entries. repeat constructor; eapply Ex; eassumption.
  - constructor; [eapply rel_within; exact Hr|]. unfold entries. unfold prfs_rel in H. destruct H as (H1 & H2 & H3 & H4 & H5 & H6 & H7 & H8 & H9 & H10 & H11 & H12).
    apply Forall_app. split; [repeat constructor; eapply rel_within; eassumption|]. apply Forall_app. split; [unfold itgs_rel in H11; conj; repeat constructor; eapply rel_within; eassumption|].
    apply Forall_app. split; [unfold mdfs_rel in H10; conj; repeat constructor; eapply rel_within; eassumption|].
    destruct (vpwgts P) as [V|]; [|constructor]. destruct (vpwgts p0) as [v|]; [|contradiction]. unfold wgts_rel in H12. conj. cbn [wgts_entries]. repeat constructor; eapply rel_within; eassumption.
  - intros i tc th l a I S1 S2 S3 S4. destruct (pair_walk tp tn L A Tc Th rL rA s i tc th l a Nc Nh (this_rel Tc s i tc HTc Fc S1) (this_rel Th s i th HTh Fh S2) (plain_rel X s i rL l HL Fl (fun _ => S3)) (ratio_this rA s i a HA J2 S4)) as (r' & P' & y & p & E1 & E2 & Hy & Hp).
    rewrite E in E1. injection E1 as <- <-. exists y, p. split; [exact E2|]. split; [eapply rel_sees; eassumption|]. eapply prfs_show; eassumption.
Qed.
Theorem C124_pair_refused tp tn L A Tc Th rL rA : hd 1%nat (dims Tc) <> 0%nat -> hd 1%nat (dims Th) <> 0%nat -> no_common ([dims Tc; dims Th; shape rL] ++ ratio_shape rA) -> nd_pair X ar tp tn L A Tc Th rL rA = Err ValueError.
Proof.
  intros Nc Nh N. unfold nd_pair, pair. rewrite (peek_ok Tc Nc), (peek_ok Th Nh). cbv beta iota zeta delta [rbind].
  pose proof (itgs_fail X ar tp (atleast_1d Tc) (atleast_1d Th)) as F. destruct (v_itgs _ _ _ _ _ tp _ _) as [P|e]; [|rewrite F; reflexivity]. destruct F as (_ & _ & _ & _ & F1 & F2).
  pose proof (itgs_fail X ar tn (atleast_1d Tc) (atleast_1d Th)) as G. destruct (v_itgs _ _ _ _ _ tn _ _) as [Q|e]; [|rewrite G; reflexivity].
  pose proof (ratio_fail X ar rL rA P Q) as H. destruct (v_ratio _ _ _ _ _ _ _ _ _) as [r|e]; [|rewrite H; reflexivity].
  pose proof (merge_fail X ar rL r P Q) as K. destruct (v_merge _ _ _ _ _ _ _ _ _) as [m|e]; [|rewrite K; reflexivity]. exfalso. destruct K as (K1 & _ & K3 & K4). rewrite !dims_atleast in *.
  apply (N (shape (vRho m))). apply Forall_app. split; [constructor; [exact (fits_trans _ _ _ F1 K1)|constructor; [exact (fits_trans _ _ _ F2 K1)|constructor; [exact K3|constructor]]]|]. destruct rA; cbn; [constructor|constructor|]. subst r. constructor; [exact K4|constructor].
Qed.
Theorem C124_pair_simulate tp tn L A Tc Th rL rA Ir s s' : array Tc -> array Th -> array rL -> ratio_array rA -> array Ir -> hd 1%nat (dims Tc) <> 0%nat -> hd 1%nat (dims Th) <> 0%nat ->
  common ([dims Tc; dims Th; shape rL] ++ ratio_shape rA) s -> common [s; dims Ir] s' ->
  exists r P o, nd_pair X ar tp tn L A Tc Th rL rA = Ok (r, P) /\ nd_outs X ar P (Some Ir) = Ok o /\ of_shape s' [voI o; voPout o; voQhot o; voYita o] /\ within s' (out_entries o)
    /\ forall i tc th l a x, index s' i -> sees Tc i tc -> sees Th i th -> sees rL i l -> ratio_sees rA i a -> sees Ir i x ->
       exists y p q, one_pair X ar tp tn L A tc th l a = Ok (y, p) /\ one_outs X ar p (Some x) = Ok q /\ show (out_entries o) i (out_entries q).
Proof.
  intros HTc HTh HL HA HI Nc Nh Hs Hs'. pose proof (common_join _ _ _ _ Hs Hs') as J. rewrite <- app_assoc in J. destruct (proj1 (Forall_app _ _ _) (proj1 J)) as (J1 & J2). apply Forall_app in J2 as (J2 & J3). assert (Fc := Forall_inv J1). assert (Fh := Forall_inv (Forall_inv_tail J1)). assert (Fl := Forall_inv (Forall_inv_tail (Forall_inv_tail J1))). assert (Fi := Forall_inv J3).
  destruct (any_rel Tc s' [] HTc Fc) as (tc0 & R1). destruct (any_rel Th s' [] HTh Fh) as (th0 & R2). destruct (any_rel0 rL s' [] HL Fl) as (l0 & R3). destruct (ratio_any rA s' [] HA J2) as (a0 & R4). destruct (any_rel Ir s' [] HI Fi) as (x0 & R5).
  destruct (pair_walk tp tn L A Tc Th rL rA s' [] tc0 th0 l0 a0 Nc Nh R1 R2 R3 R4) as (r & P & y0 & p0 & E & E0 & Hr & H). destruct (outs_at_walk _ _ _ _ _ _ P p0 Ir x0 H R5) as (o & q0 & Eo & Eo0 & Ho).
  exists r, P, o. split; [exact E|]. split; [exact Eo|]. split; [|split].
  - assert (Ex : forall B x, rel X s' [] (fun l => In l (all_shapes Tc Th rL rA) \/ dims Ir = l) B x -> array B /\ shape B = s') by (intros B x HB; apply (rel_exact s' [] _ B x _ HB J); intros l Hl; rewrite app_assoc in Hl; apply in_app_or in Hl as [Hl|[Hl|[]]]; auto).
    unfold outs_rel in Ho. conj. unfold of_shape. repeat constructor; eapply Ex; eassumption.
  - unfold outs_rel in Ho. conj. unfold within, out_entries. repeat constructor; eapply rel_within; eassumption.
  - intros i tc th l a x I S1 S2 S3 S4 S5. destruct (pair_walk tp tn L A Tc Th rL rA s' i tc th l a Nc Nh (this_rel Tc s' i tc HTc Fc S1) (this_rel Th s' i th HTh Fh S2) (plain_rel X s' i rL l HL Fl (fun _ => S3)) (ratio_this rA s' i a HA J2 S4)) as (r' & P' & y & p & E1 & E2 & Hy & Hp).
    rewrite E in E1. injection E1 as <- <-. destruct (outs_at_walk _ _ _ _ _ _ P p Ir x Hp (this_rel Ir s' i x HI Fi S5)) as (o' & q & E3 & E4 & H4). rewrite Eo in E3. injection E3 as <-. exists y, p, q. split; [exact E2|]. split; [exact E4|]. eapply outs_show; eassumption.
Qed.
End C124.

(** ** single numbers: the formulas of EngModel (C25-C44) *)
Definition real_arith : arith R := {| a_lit := fun r => r; a_add := Rplus; a_sub := Rminus; a_mul := Rmult; a_div := Rdiv; a_sqrt := sqrt |}.
(** functions of temperature made from measured data, or from polynomials *)
Definition tables_tab (d : list tp) : tables R :=
  let cum f := tab_interp (cumtrapz (map (fun p => (tT p, f p)) d)) in
  {| t_S := tab_interp (map (fun p => (tT p, tS p)) d); t_iRho := cum rho_of; t_iS := cum tS; t_iK := cum tK; t_iRhoT := cum (fun p => tT p * rho_of p)%R; t_iST := cum (fun p => tT p * tS p)%R |}.
Definition tables_poly (rho s k : poly) : tables R :=
  {| t_S := peval s; t_iRho := peval (pinteg rho); t_iS := peval (pinteg s); t_iK := peval (pinteg k); t_iRhoT := peval (pinteg (pmulT rho)); t_iST := peval (pinteg (pmulT rho)) |}.
Definition i_entries (i : itgs) : list R := [iTc i; iTh i; iDT i; iSc i; iSh i; iRho i; iS i; iK i; iRhoT i; iST i].
Definition m_entries (m : mdfs) : list R := [mRho m; mS m; mRhoW m; mSW m; mRhoT m; mST m; m0 m; m1 m; m2 m].
Definition p_entries (p : prfs) : list R :=
  [pDT p; pPFeng p; pZeng p; pZTeng p; pZTp p; pm_opt p; pVoc p; pIsc p; pQx p] ++ i_entries (pitgs p) ++ m_entries (pmdfs p) ++ match pwgts p with Some w => [wJ w; wT w; wa0 w; wa1 w; wa2 w] | None => [] end.
Definition o_entries (o : outs) : list R := [oI o; oVout o; oPout o; oQhot o; oYita o].
Definition of_itgs (i : itgs) : vitgs R := VItgs (iTc i) (iTh i) (iDT i) (iSc i) (iSh i) (iRho i) (iS i) (iK i) (iRhoT i) (iST i).
Lemma itgs_tab_of d Tc Th : v_itgs R real_arith R (fun f x => f x) (fun f x y => Ok (f x y)) (tables_tab d) Tc Th = Ok (of_itgs (itgs_tab d Tc Th)).
Proof. reflexivity. Qed.
Lemma itgs_poly_of r s k Tc Th : v_itgs R real_arith R (fun f x => f x) (fun f x y => Ok (f x y)) (tables_poly r s k) Tc Th = Ok (of_itgs (itgs_poly r s k Tc Th)).
Proof. reflexivity. Qed.
Lemma merge_of l r i j : v_merge R real_arith R (fun f x y => Ok (f x y)) (fun x => x) l r (of_itgs i) (of_itgs j) = Ok (of_itgs (merge l r i j)).
Proof. destruct i, j. reflexivity. Qed.
Lemma build_of L A w i : exists p, v_build R real_arith R (fun f x => f x) (fun f x y => Ok (f x y)) (fun x => x) L A w (of_itgs i) = Ok p /\ entries p = p_entries (build L A w i).
Proof. destruct i. destruct w; (eexists; split; reflexivity). Qed.
Lemma outs_of P p Ir : entries p = p_entries P -> exists q, one_outs R real_arith p (Some Ir) = Ok q /\ out_entries q = o_entries (outputs P Ir)
  /\ exists q', one_outs R real_arith p None = Ok q' /\ out_entries q' = o_entries (outputs P (1 / (1 + pm_opt P))).
Proof.
  destruct p as [? ? ? ? ? ? ? ? ? ? [] ?], P as [? ? ? ? ? ? ? ? ? ? [] ?]. intros E. unfold entries, p_entries, itgs_entries, i_entries, mdfs_entries, m_entries in E. cbn in E. injection E. intros. subst.
  eexists. split; [reflexivity|]. split; [reflexivity|]. eexists. split; reflexivity.
Qed.
Theorem C124_single_leg d L A w Tc Th Ir : exists p q, one_leg R real_arith (tables_tab d) L A w Tc Th = Ok p /\ entries p = p_entries (leg_build L A (itgs_tab d Tc Th) w)
  /\ one_outs R real_arith p (Some Ir) = Ok q /\ out_entries q = o_entries (outputs (leg_build L A (itgs_tab d Tc Th) w) Ir)
  /\ exists q', one_outs R real_arith p None = Ok q' /\ out_entries q' = o_entries (outputs (leg_build L A (itgs_tab d Tc Th) w) (1 / (1 + pm_opt (leg_build L A (itgs_tab d Tc Th) w)))).
Proof.
  unfold one_leg, leg. rewrite itgs_tab_of. cbv beta iota delta [rbind]. unfold leg_build. generalize (itgs_tab d Tc Th). intros i. destruct (build_of L A w i) as (p & E & F). exists p. destruct (outs_of (build L A w i) p Ir F) as (q & E1 & E2 & q' & E3 & E4). exists q. split; [exact E|]. split; [exact F|]. split; [exact E1|]. split; [exact E2|]. exists q'. auto.
Qed.
Theorem C124_single_poly rho s k L A w Tc Th : exists p, one_leg R real_arith (tables_poly rho s k) L A w Tc Th = Ok p /\ entries p = p_entries (leg_build L A (itgs_poly rho s k Tc Th) w).
Proof.
  unfold one_leg, leg. rewrite itgs_poly_of. cbv beta iota delta [rbind]. unfold leg_build. exact (build_of L A w _).
Qed.
Definition ratio_of (a : vratio R) : ratio := match a with VZ => RStr (S_ "ZTengMax") | VP => RStr (S_ "PFengMax") | VNum r => RNum r end.
Theorem C124_single_pair dp dn L A Tc Th l a : exists y p q, one_pair R real_arith (tables_tab dp) (tables_tab dn) L A Tc Th l a = Ok (y, p)
  /\ pair_build L A (itgs_tab dp Tc Th) (itgs_tab dn Tc Th) l (ratio_of a) false = Ok (y, q) /\ entries p = p_entries q.
Proof.
  unfold one_pair, pair. rewrite !itgs_tab_of. cbv beta iota delta [rbind]. generalize (itgs_tab dp Tc Th) (itgs_tab dn Tc Th). intros i j.
  assert (E : exists y, v_ratio R real_arith R (fun f x => f x) (fun f x y => Ok (f x y)) l a (of_itgs i) (of_itgs j) = Ok y /\ ratio_area l (ratio_of a) i j = Ok y) by (destruct a; eexists; split; reflexivity).
  destruct E as (y & E1 & E2). rewrite E1. unfold pair_build. rewrite E2. cbv beta iota delta [rbind]. rewrite merge_of. destruct (build_of L A true (merge l y i j)) as (p & E & F). rewrite E. exists y, p, (build L A true (merge l y i j)). auto.
Qed.
Print Assumptions C124_leg.
(** two hot temperatures in a column and three currents in a row give all six combinations *)
Example C124_case t L A : let Tc := Nd [] [300%R] in let Th := Nd [2; 1]%nat [400; 500]%R in let Ir := Nd [3%nat] [0; 1/2; 1]%R in
  common [dims Tc; dims Th] [2; 1]%nat /\ common [[2; 1]%nat; dims Ir] [2; 3]%nat
  /\ (exists P o, nd_leg R real_arith t L A true Tc Th = Ok P /\ nd_outs R real_arith P (Some Ir) = Ok o /\ shape (voPout o) = [2; 3]%nat /\ List.length (flat (voYita o)) = 6%nat)
  /\ no_common [[2%nat]; dims Ir].
Proof.
  cbv zeta. split; [apply broadcast_common; reflexivity|]. split; [apply broadcast_common; reflexivity|]. split; [|apply nocommon_1d; cbn; lia].
  assert (H1 : common [dims (Nd [] [300%R]); dims (Nd [2; 1]%nat [400; 500]%R)] [2; 1]%nat) by (apply broadcast_common; reflexivity).
  assert (H2 : common [[2; 1]%nat; dims (Nd [3%nat] [0; 1/2; 1]%R)] [2; 3]%nat) by (apply broadcast_common; reflexivity).
  destruct (C124_simulate R real_arith t L A true (Nd [] [300%R]) (Nd [2; 1]%nat [400; 500]%R) (Nd [3%nat] [0; 1/2; 1]%R) [2; 1]%nat [2; 3]%nat eq_refl eq_refl eq_refl ltac:(discriminate) ltac:(discriminate) H1 H2) as (P & o & E1 & E2 & F & _).
  exists P, o. split; [exact E1|]. split; [exact E2|]. unfold of_shape in F. rewrite Forall_forall in F. destruct (F (voPout o)) as (_ & F1); [cbn; auto|]. destruct (F (voYita o)) as (F2 & F3); [cbn; auto 10|]. split; [exact F1|]. unfold array in F2. rewrite F2, F3. reflexivity.
Qed.
Print Assumptions C124_leg_refused.
Print Assumptions C124_empty.
Print Assumptions C124_simulate.
Print Assumptions C124_simulate_best.
Print Assumptions C124_simulate_refused.
Print Assumptions C124_paired.
Print Assumptions C124_not_combined.
Print Assumptions C124_pair.
Print Assumptions C124_pair_refused.
Print Assumptions C124_pair_simulate.
Print Assumptions C124_single_leg.
Print Assumptions C124_single_poly.
Print Assumptions C124_single_pair.
Print Assumptions C124_case.
