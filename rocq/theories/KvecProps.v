(** C126, C127: lattice thermal conductivity on arrays of frequencies, temperatures and mean free paths. *)
From Coq Require Import ZArith Reals String Ascii Lra Lia.
From Verif Require Import Py PyDict PyStr RUtil ScatModel DebyeModel KlemModel ArrModel ArrSpec ArrProofs VecModel VecSpec VecProofs VecProps BvecSpec BvecProofs KvecModel KvecSpec KvecProofs.
Local Open Scope list_scope.
Local Open Scope nat_scope.

Section C126.
Variable X : Type.
Variable ka : karith X.
Let ar := k_ar ka.
Let z := a_lit ar 0%R.

Lemma begin2 A B s : @array X A -> @array X B -> common [shape A; shape B] s ->
  least (fun l => shape A = l \/ shape B = l) s
  /\ (forall i e, (index s i -> sees A i e) -> rel X s i (eq (shape A)) A e) /\ (forall i x, (index s i -> sees B i x) -> rel X s i (eq (shape B)) B x)
  /\ (forall a, rel X s (0 :: s) (eq (shape A)) A a) /\ (forall b, rel X s (0 :: s) (eq (shape B)) B b).
Proof.
  intros HA HB (F & M). assert (F1 := Forall_inv F). assert (F2 := Forall_inv (Forall_inv_tail F)). split; [intros r Q; apply M; constructor; [apply Q; auto|constructor; [apply Q; auto|constructor]]|].
  assert (R1 : forall i e, (index s i -> sees A i e) -> rel X s i (eq (shape A)) A e) by (intros i e S; apply plain_rel; assumption). assert (R2 : forall i x, (index s i -> sees B i x) -> rel X s i (eq (shape B)) B x) by (intros i x S; apply plain_rel; assumption).
  assert (N : ~ index s (0 :: s)) by (intros I; apply index_length in I; cbn in I; lia).
  split; [exact R1|]. split; [exact R2|]. split; intros a; [apply R1|apply R2]; intros I; contradiction.
Qed.
(** from one index to the whole array *)
Lemma gather2 (F : nd X -> nd X -> res (nd X)) (f : X -> X -> res X) :
  (forall a b, exists c, f a b = Ok c) ->
  (forall A B s i a b, rel X s i (eq (shape A)) A a -> rel X s i (eq (shape B)) B b -> both X s i (fun l => shape A = l \/ shape B = l) (F A B) (f a b)) -> bcast2 F f.
Proof.
  intros Tot W. split; [exact Tot|]. intros A B s HA HB Hs. destruct (begin2 A B s HA HB Hs) as (L & R1 & R2 & Q1 & Q2).
  assert (x0 : exists x : X, True). { exists z. exact I. } destruct x0 as (x0 & _). destruct (Tot x0 x0) as (c0 & E0).
  destruct (W A B s _ x0 x0 (Q1 x0) (Q2 x0)) as [(C & c & E1 & E2 & HC)|(_ & E)]; [|congruence]. exists C. split; [exact E1|].
  destruct (rel_shape X s _ (eq s) C c (rel_least X _ _ _ _ _ HC L) eq_refl) as (AC & SC). split; [exact AC|]. split; [exact SC|].
  intros i a b I Sa Sb. destruct (W A B s i a b (R1 i a (fun _ => Sa)) (R2 i b (fun _ => Sb))) as [(C' & c' & G1 & G2 & HC')|(G & _)]; [|congruence].
  rewrite E1 in G1. injection G1 as <-. exists c'. split; [exact G2|]. apply (rel_elem X _ _ _ _ _ HC' SC I).
Qed.
(** ** the mechanisms *)
Theorem C126_rate m :
  bcast2 (nd_rate X ka m) (one_rate X ka m)
  \/ ((exists vs md EF Ed D0 Rep coef, m = MEP vs md EF Ed D0 Rep coef) /\ (forall w T, one_rate X ka m w T = Err KeyError)
      /\ forall W T s, array W -> array T -> common [shape W; shape T] s -> nd_rate X ka m W T = Err KeyError).
Proof.
  destruct (one_rate X ka m z z) as [c0|e] eqn:E0.
  - left. apply gather2.
    + intros a b. destruct m; try (eexists; reflexivity). unfold one_rate, v_rate, v_ep, v_rep, rbind in E0 |- *. cbv zeta in E0 |- *. destruct (x_coef X ka md vs Ed D0 coef); [|discriminate].
      destruct Rep as [r|]; [destruct (k_zero ka r)|]; try (eexists; reflexivity); (destruct md as [md|]; [|discriminate]; destruct vs as [vs|]; [|discriminate]; destruct EF as [EF|]; [|discriminate]); eexists; reflexivity.
    + intros A B s i a b HA HB. exact (rate_walk X ka s i _ _ m A B a b HA HB).
  - right. assert (K : forall w T, one_rate X ka m w T = Err KeyError /\ exists vs md EF Ed D0 Rep coef, m = MEP vs md EF Ed D0 Rep coef).
    { destruct m; try discriminate E0. intros w T. split; [|do 7 eexists; reflexivity].
      pose proof (rate_walk X ka [] [] (fun _ => False) (fun _ => False) (MEP vs md EF Ed D0 Rep coef) (con0 w) (con0 T) w T (con_rel X _ _ _) (con_rel X _ _ _)) as [(C & c & _ & G & _)|(_ & G)]; [|exact G]. exfalso.
      unfold one_rate, v_rate, v_ep, v_rep, rbind in E0, G. cbv zeta in E0, G. destruct (x_coef X ka md vs Ed D0 coef); [|discriminate].
      destruct Rep as [r|]; [destruct (k_zero ka r)|]; try discriminate; (destruct md as [md|]; [|discriminate]; destruct vs as [vs|]; [|discriminate]; destruct EF as [EF|]; [|discriminate]); discriminate. }
    split; [exact (proj2 (K z z))|]. split; [intros w T; exact (proj1 (K w T))|]. intros W T s HW HT Hs. destruct (begin2 W T s HW HT Hs) as (_ & _ & _ & Q1 & Q2).
    destruct (rate_walk X ka s _ _ _ m W T _ _ (Q1 z) (Q2 z)) as [(C & c & _ & G & _)|(G & _)]; [|exact G]. exfalso. pose proof (proj1 (K z z)) as G'. unfold one_rate in G'. rewrite G in G'. discriminate.
Qed.
Lemma nocommon2 (A B : nd X) : no_common [shape A; shape B] -> forall s, ~ (fits (shape A) s /\ fits (shape B) s).
Proof. intros N s (H1 & H2). apply (N s). constructor; [exact H1|constructor; [exact H2|constructor]]. Qed.
Theorem C126_rate_refused m W T : no_common [shape W; shape T] -> nd_rate X ka m W T = Err ValueError.
Proof. intros N. unfold nd_rate, v_rate. fold ar z. rewrite (u2_none X z _ W T (nocommon2 W T N)). reflexivity. Qed.

(** ** the dictionaries *)
Lemma gatherd (F : res (list (str * nd X))) (f : X -> X -> res (list (str * X))) A B s : array A -> array B -> common [shape A; shape B] s ->
  (forall i a b, rel X s i (eq (shape A)) A a -> rel X s i (eq (shape B)) B b -> exists D d, F = Ok D /\ f a b = Ok d /\ drel X s i D d) -> exists D, F = Ok D /\ shows f A B D s.
Proof.
  intros HA HB Hs W. destruct (begin2 A B s HA HB Hs) as (L & R1 & R2 & Q1 & Q2). destruct (W _ z z (Q1 z) (Q2 z)) as (D & d & E1 & E2 & H). exists D. split; [exact E1|].
  assert (S : Forall (fun E => array (snd E) /\ shape (snd E) = s) D). { clear - H. induction H as [|E e D d (_ & HE) HD IH]; constructor; [|exact IH]. exact (rel_shape X s _ (eq s) _ _ HE eq_refl). }
  split; [exact S|]. intros i a b I Sa Sb. destruct (W i a b (R1 i a (fun _ => Sa)) (R2 i b (fun _ => Sb))) as (D' & d' & G1 & G2 & H'). rewrite E1 in G1. injection G1 as <-. exists d'. split; [exact G2|].
  clear - H' S I. induction H' as [|E e D d (HK & HE) HD IH]; constructor.
  - split; [exact HK|]. apply (rel_elem X _ _ _ _ _ HE (proj2 (Forall_inv S)) I).
  - apply IH. exact (Forall_inv_tail S).
Qed.
Theorem C126_scattering L l W T s tot : array W -> array T -> common [shape W; shape T] s -> same_mechs L l -> (tot = true -> L <> []) ->
  exists D, nd_scattering X ka L W T tot = Ok D /\ shows (fun w t => one_scattering X ka l w t tot) W T D s.
Proof. intros HW HT Hs HL Hn. destruct (begin2 W T s HW HT Hs) as (Lst & _). apply gatherd; try assumption. intros i a b H1 H2. exact (scattering_walk X ka s i _ _ L l tot W T a b HL H1 H2 Lst Hn). Qed.
Theorem C126_spectral td vs L l W T s acc : array W -> array T -> common [shape W; shape T] s -> same_mechs L l ->
  exists D, nd_spectral X ka td vs L W T acc = Ok D /\ shows (fun w t => one_spectral X ka td vs l w t acc) W T D s.
Proof. intros HW HT Hs HL. destruct (begin2 W T s HW HT Hs) as (Lst & _). apply gatherd; try assumption. intros i a b H1 H2. exact (spectral_walk X ka s i _ _ L l td vs acc W T a b HL H1 H2 Lst). Qed.
Theorem C126_refused td vs (L : list (str * mechanism X)) W T tot acc : no_common [shape W; shape T] ->
  (L <> [] -> nd_scattering X ka (List.map (fun m => (fst m, nd_rate X ka (snd m))) L) W T tot = Err ValueError)
  /\ nd_spectral X ka td vs (List.map (fun m => (fst m, nd_rate X ka (snd m))) L) W T acc = Err ValueError.
Proof.
  intros N. split.
  - intros H. destruct L as [|[k m] L]; [congruence|]. unfold nd_scattering, v_scattering, rates. cbn [List.map mapM fst snd]. rewrite (C126_rate_refused m W T N). reflexivity.
  - unfold nd_spectral, v_spectral. cbv zeta. fold ar z. rewrite (u2_none X z _ _ T); [reflexivity|]. intros s. exact (nocommon2 W T N s).
Qed.
(** ** formulas of one and of two arrays *)
Theorem C126_velocities : bcast2 (nd_vs_to_td X ka) (one_vs_to_td X ka) /\ bcast2 (nd_vs_to_gm X ka) (one_vs_to_gm X ka).
Proof. split; (apply gather2; [intros a b; eexists; reflexivity|]); intros A B s i a b HA HB; [exact (td_walk X ka s i _ _ A B a b HA HB)|exact (gm_walk X ka s i _ _ A B a b HA HB)]. Qed.
Theorem C126_velocities_refused A B : no_common [shape A; shape B] -> nd_vs_to_td X ka A B = Err ValueError /\ nd_vs_to_gm X ka A B = Err ValueError.
Proof.
  intros N. pose proof (nocommon2 A B N) as H. split.
  - unfold nd_vs_to_td, v_vs_to_td. cbv beta iota zeta delta [rbind]. fold ar z. destruct (u2 z (a_div ar) (con0 _) B) as [C1'|e] eqn:E1; [|apply u2_err in E1; subst; reflexivity].
    destruct (u2 z (a_mul ar) (con0 _) _) as [C2'|e] eqn:E2; [|apply u2_err in E2; subst; reflexivity]. destruct (u2 z (a_mul ar) C2' A) as [C3'|e] eqn:E3; [|apply u2_err in E3; subst; reflexivity].
    apply u2_inv in E1, E2, E3. destruct E1 as (_ & E1), E2 as (_ & E2), E3 as (E3 & E4). exfalso. apply (H (shape C3')). split; [exact E4|]. exact (fits_trans _ _ _ E1 (fits_trans _ _ _ E2 E3)).
  - unfold nd_vs_to_gm, v_vs_to_gm. cbv beta iota zeta delta [rbind]. fold ar z. rewrite (u2_none X z _ A B H). reflexivity.
Qed.
Lemma gather1 (F : nd X -> res (nd X)) (f : X -> res X) : (forall a, exists c, f a = Ok c) -> (forall s i (t : list nat -> Prop) A a, rel X s i t A a -> both X s i t (F A) (f a)) -> bcast1 F f.
Proof.
  intros Tot W A HA. assert (Q : forall i a, (index (shape A) i -> elem A i a) -> rel X (shape A) i (eq (shape A)) A a) by (intros i a S; apply exact_rel; [exact HA|reflexivity|exact S]).
  assert (N : ~ index (shape A) (0 :: shape A)) by (intros I; apply index_length in I; cbn in I; lia).
  destruct (Tot z) as (c0 & E0). destruct (W _ _ _ A z (Q (0 :: shape A) z (fun I => False_ind _ (N I)))) as [(C & c & E1 & E2 & HC)|(_ & G)]; [|congruence].
  exists C. split; [exact E1|]. destruct (rel_shape X _ _ _ _ _ HC eq_refl) as (AC & SC). split; [exact AC|]. split; [exact SC|]. intros i a Ha.
  destruct (W _ _ _ A a (Q i a (fun _ => Ha))) as [(C' & c' & G1 & G2 & HC')|(G & _)]; [|congruence]. rewrite E1 in G1. injection G1 as <-. exists c'. split; [exact G2|]. exact (rel_elem X _ _ _ _ _ HC' SC (proj1 Ha)).
Qed.
Theorem C126_models :
  (forall A td gm Ma Va N, bcast1 (nd_slack X ka A td gm Ma Va N) (one_slack X ka A td gm Ma Va N))
  /\ (forall Kbp Eg p, bcast1 (nd_bipolar X ka Kbp Eg p) (one_bipolar X ka Kbp Eg p))
  /\ (forall Kamb n K0, bcast1 (nd_powerlaw X ka Kamb n K0) (one_powerlaw X ka Kamb n K0))
  /\ (forall Kpure vs td G0 Va, bcast1 (nd_klemens X ka Kpure vs td G0 Va) (one_klemens X ka Kpure vs td G0 Va)).
Proof.
  repeat match goal with |- _ /\ _ => split end; intros; (apply gather1; [intros; eexists; reflexivity|]); intros; [apply slack_walk|apply bipolar_walk|apply powerlaw_walk|apply klemens_walk]; assumption.
Qed.
End C126.
(** ** over the real numbers: the formulas of ScatModel, DebyeModel and KlemModel *)
Theorem C126_single_rate m w T : one_rate R real_ka m w T = rate_of m w T.
Proof.
  destruct m; try reflexivity.
  unfold one_rate, rate_of, v_rate, v_ep, v_rep, ep_rate, ep_coef, ep_Rep, or_else, x_coef, x_need, ep_cal_coef, ep_cal_Rep, need. cbv zeta. cbn [e_vs e_md e_EF e_Ed e_D0 e_Rep e_coef].
  cbv beta iota delta [rbind].
  destruct coef as [k|]; [cbn [real_ka k_zero]; destruct (Req_EM_T k 0)|]; (destruct Ed, md, D0, vs; try reflexivity); (destruct Rep as [rr|]; [cbn [real_ka k_zero]; destruct (Req_EM_T rr 0)|]); (destruct EF; try reflexivity).
Qed.
Lemma rates_real l w T : rates R (as_mechs l) w T = Ok (List.map (fun m => (fst m, snd m w T)) l).
Proof. unfold rates, as_mechs. induction l as [|[k f] l IH]; [reflexivity|]. cbn [List.map mapM fst snd]. rewrite IH. reflexivity. Qed.
Theorem C126_single_scattering l w T tot : one_scattering R real_ka (as_mechs l) w T tot = Ok (scattering l w T tot).
Proof.
  unfold one_scattering, v_scattering. rewrite rates_real. unfold scattering. set (d := List.map _ l). destruct tot; [|reflexivity]. cbv beta iota zeta delta [rbind]. cbn [real_ka k_ar a_add a_lit].
  assert (G : forall d a, fold_left (fun (acc : res R) (e : str * R) => match acc with Ok x => Ok (x + snd e)%R | Err er => Err er end) d (Ok a) = Ok (fold_left Rplus (List.map snd d) a)). { clear. induction d as [|e d IH]; intros a; [reflexivity|apply IH]. }
  assert (G' : forall (m : list R) a, fold_left Rplus m a = (a + sumR m)%R). { clear. induction m as [|x m IH]; intros a; cbn [fold_left sumR]; [ring|rewrite IH; ring]. }
  rewrite G, G', Rplus_0_l. reflexivity.
Qed.
Theorem C126_single_spectral td vs l w T acc : one_spectral R real_ka td vs (as_mechs l) w T acc = Ok (spectral td vs l w T acc).
Proof.
  unfold one_spectral, v_spectral, spectral. cbv zeta. cbv beta iota delta [rbind]. rewrite rates_real. cbn [real_ka k_max]. change (x_EPS R real_ka) with EPS. set (d := List.map _ l).
  assert (A : forall d (o : option (str * R)), v_accum R real_ka R (fun f x y => Ok (f x y)) o d = Ok (accum o d)).
  { clear. induction d as [|e d IH]; intros o; [reflexivity|]. cbn [v_accum accum]. cbv zeta. cbv beta iota delta [rbind]. destruct o as [q|]; rewrite IH; reflexivity. }
  assert (Mm : forall f d, mapM (fun e : str * R => Ok (fst e, (f / snd e)%R)) d = Ok (List.map (fun e => (fst e, (f / snd e)%R)) d)) by (clear; induction d as [|e d IH]; [reflexivity|]; cbn [mapM List.map]; rewrite IH; reflexivity).
  assert (Fc : v_factor R real_ka R (fun f x => f x) (fun f x y => Ok (f x y)) (fun x => x) vs (Rmax EPS w) T = Ok (sfactor vs (Rmax EPS w) T)) by reflexivity.
  destruct acc; [rewrite A|]; rewrite Fc; cbn [real_ka k_le k_ar a_div a_lit]; rewrite Mm; f_equal; f_equal; change (x_wd R real_ka td) with (wd td); destruct (Rle_dec (Rmax EPS w) (wd td)); reflexivity.
Qed.
Theorem C126_single_models :
  (forall a b, one_vs_to_td R real_ka a b = Ok (vs_to_td a b)) /\ (forall a b, one_vs_to_gm R real_ka a b = Ok (vs_to_gm a b))
  /\ (forall A td gm Ma Va N T, one_slack R real_ka A td gm Ma Va N T = slack (ANum A) td gm Ma Va N T) /\ (forall Kbp Eg p T, one_bipolar R real_ka Kbp Eg p T = Ok (bipolar Kbp Eg p T))
  /\ (forall Kamb n K0 T, one_powerlaw R real_ka Kamb n K0 T = Ok (powerlaw Kamb n K0 T)) /\ (forall Kpure vs td G0 Va x, one_klemens R real_ka Kpure vs td G0 Va x = Ok (klemens Kpure vs td G0 Va x)).
Proof. repeat match goal with |- _ /\ _ => split end; intros; reflexivity. Qed.
Lemma rate_ok m : (forall w T, rate_of m w T <> Err KeyError) -> bcast2 (nd_rate R real_ka m) (one_rate R real_ka m).
Proof. intros H. destruct (C126_rate R real_ka m) as [B|(_ & K & _)]; [exact B|]. exfalso. apply (H 0%R 0%R). rewrite <- C126_single_rate. apply K. Qed.
Example C126_case : let W := Nd [2%nat] [1; 2]%R in let T := Nd [3; 1]%nat [300; 400; 500]%R in
  let L := [(S_ "PD", nd_rate R real_ka (MPDX 5%R)); (S_ "GB", nd_rate R real_ka (MGB 3%R 2%R 1%R))] in
  common [shape W; shape T] [3; 2]%nat
  /\ (exists D C, nd_scattering R real_ka L W T true = Ok D /\ dget D (S_ "total") = Some C /\ shape C = [3; 2]%nat /\ nth_error (flat C) 5 = Some (pd_rate (PDcoef 5) 2 500 + gb_rate 3 2 1 2 500)%R)
  /\ (exists C1' C2', nd_spectral R real_ka 300%R 3%R L W T true = Ok [(S_ "PD", C1'); (S_ "PD+GB", C2')] /\ shape C2' = [3; 2]%nat)
  /\ nd_spectral R real_ka 300%R 3%R L W (Nd [3%nat] [300; 400; 500]%R) true = Err ValueError
  /\ nd_rate R real_ka (MEP (Some 3%R) None None (Some 1%R) (Some 5%R) None None) W T = Err KeyError.
Proof.
  cbv zeta. set (W := Nd [2%nat] [1; 2]%R). set (T := Nd [3; 1]%nat [300; 400; 500]%R). set (L := [(S_ "PD", nd_rate R real_ka (MPDX 5%R)); (S_ "GB", nd_rate R real_ka (MGB 3%R 2%R 1%R))]).
  assert (Hs : common [shape W; shape T] [3; 2]%nat) by (apply broadcast_common; reflexivity). split; [exact Hs|].
  set (l := [(S_ "PD", fun w T => pd_rate (PDcoef 5) w T); (S_ "GB", fun w T => gb_rate 3 2 1 w T)]).
  assert (HL : same_mechs L (as_mechs l)).
  { constructor; [split; [reflexivity|]|constructor; [split; [reflexivity|]|constructor]].
    - exact (rate_ok (MPDX 5%R) ltac:(intros; discriminate)).
    - exact (rate_ok (MGB 3%R 2%R 1%R) ltac:(intros; discriminate)). }
  assert (I : index [3; 2]%nat [2; 1]%nat) by (repeat constructor).
  assert (S1 : sees W [2; 1]%nat 2%R) by (exists [2%nat], [1%nat]; repeat split; repeat constructor). assert (S2 : sees T [2; 1]%nat 500%R) by (exists [], [2; 1]%nat; repeat split; repeat constructor).
  split; [|split; [|split]].
  - destruct (C126_scattering R real_ka L (as_mechs l) W T [3; 2]%nat true eq_refl eq_refl Hs HL ltac:(discriminate)) as (D & E & Sh & V). destruct (V _ _ _ I S1 S2) as (d & Ed & F). rewrite C126_single_scattering in Ed. injection Ed as <-.
    change (scattering l 2 500 true) with [(S_ "PD", pd_rate (PDcoef 5) 2 500); (S_ "GB", gb_rate 3 2 1 2 500); (S_ "total", (pd_rate (PDcoef 5) 2 500 + (gb_rate 3 2 1 2 500 + 0))%R)] in F.
    inversion F as [|[k1 A1] ? D1 ? (K1 & _) F1]; subst. inversion F1 as [|[k2 A2] ? D2 ? (K2 & _) F2]; subst. inversion F2 as [|[k3 A3] ? D3 ? (K3 & V3) F3]; subst. inversion F3; subst. cbn [fst snd] in *. subst k1 k2 k3.
    exists [(S_ "PD", A1); (S_ "GB", A2); (S_ "total", A3)], A3. split; [exact E|]. split; [reflexivity|]. assert (S3 := proj2 (Forall_inv (Forall_inv_tail (Forall_inv_tail Sh)))). cbn [snd] in S3. split; [exact S3|].
    destruct V3 as (_ & V3). rewrite S3 in V3. change (place [3; 2]%nat [2; 1]%nat) with 5%nat in V3. rewrite V3. rewrite Rplus_0_r. reflexivity.
  - destruct (C126_spectral R real_ka 300%R 3%R L (as_mechs l) W T [3; 2]%nat true eq_refl eq_refl Hs HL) as (D & E & Sh & V). destruct (V _ _ _ I S1 S2) as (d & Ed & F). rewrite C126_single_spectral in Ed. injection Ed as <-.
    unfold spectral in F. cbv zeta in F. cbn [List.map l fst snd accum] in F.
    match type of F with Forall2 _ _ (dupdate [] ?x) => change (dupdate [] x) with x in F end.
    inversion F as [|[k1 A1] ? D1 ? (K1 & _) F1]; subst. inversion F1 as [|[k2 A2] ? D2 ? (K2 & _) F2]; subst. inversion F2; subst. cbn [fst snd] in *. subst k1 k2.
    exists A1, A2. split; [exact E|]. exact (proj2 (Forall_inv (Forall_inv_tail Sh))).
  - apply (proj2 (C126_refused R real_ka 300%R 3%R [(S_ "PD", MPDX 5%R); (S_ "GB", MGB 3%R 2%R 1%R)] W (Nd [3%nat] [300; 400; 500]%R) true true ltac:(apply nocommon_1d; discriminate))).
  - destruct (C126_rate R real_ka (MEP (Some 3%R) None None (Some 1%R) (Some 5%R) None None)) as [(Tot & _)|(_ & _ & K)]; [destruct (Tot 0%R 0%R) as (c & H); discriminate H|]. exact (K W T _ eq_refl eq_refl Hs).
Qed.
Print Assumptions C126_rate.
Print Assumptions C126_rate_refused.
Print Assumptions C126_scattering.
Print Assumptions C126_spectral.
Print Assumptions C126_refused.
Print Assumptions C126_velocities.
Print Assumptions C126_velocities_refused.
Print Assumptions C126_models.
Print Assumptions C126_single_rate.
Print Assumptions C126_single_scattering.
Print Assumptions C126_single_spectral.
Print Assumptions C126_single_models.
