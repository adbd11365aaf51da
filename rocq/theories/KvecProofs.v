(** Lemmas for lattice thermal conductivity on arrays. *)
From Coq Require Import ZArith Reals String Ascii Lia.
From Verif Require Import Py PyDict PyStr RUtil ScatModel DebyeModel ArrModel ArrSpec ArrProofs VecModel VecSpec VecProofs BvecSpec BvecProofs KvecModel KvecSpec.
Local Open Scope list_scope.
Local Open Scope nat_scope.

Section Walk.
Variable X : Type.
Variable ka : karith X.
Let ar := k_ar ka.
Let z := a_lit ar 0%R.
Notation relx := (rel X).
Notation set := (list nat -> Prop).
Let s1 (f : X -> X) (x : X) := f x.
Let s2 (f : X -> X -> X) (x y : X) : res X := Ok (f x y).
Let c1 (x : X) := x.

Ltac get_rel A :=
  match A with
  | con0 ?c => match goal with |- context [rel _ ?s ?i _ _ _] => constr:(con_rel X s i c) | H : rel _ ?s ?i _ _ _ |- _ => constr:(con_rel X s i c) end
  | u1 ?f ?B => let h := get_rel B in constr:(u1_rel X _ _ _ f B _ h)
  | _ => match goal with H : rel _ _ _ _ A _ |- _ => H end
  end.
Ltac step :=
  match goal with
  | |- context [u2 ?zz ?f ?A ?B] =>
      let ha := get_rel A in let hb := get_rel B in
      let C := fresh "C" in let E := fresh "E" in let H := fresh "H" in
      destruct (u2_rel X zz _ _ _ _ f A B _ _ ha hb) as (C & E & H); rewrite E; clear E; cbv beta iota
  end.
Ltac finish :=
  repeat match goal with |- _ /\ _ => split end;
  match goal with
  | |- True => exact I
  | H : rel _ ?s ?i ?t ?A ?x |- rel _ ?s ?i ?b ?A ?x => apply (rel_weak' X s i b t A x H); cbv beta; intros; tauto
  | H : rel _ ?s ?i ?t ?A ?x |- rel _ ?s ?i ?b (u1 ?f ?A) _ => apply (rel_weak' X s i b t (u1 f A) (f x) (u1_rel X s i t f A x H)); cbv beta; intros; tauto
  end.
(** outcome of a formula on arrays and on numbers: both succeed and agree at the index, or both fail alike *)
Definition both s i (t : set) (H : res (nd X)) (h : res X) : Prop := (exists C c, H = Ok C /\ h = Ok c /\ relx s i t C c) \/ (H = Err KeyError /\ h = Err KeyError).
Ltac close := left; do 2 eexists; split; [reflexivity|]; split; [reflexivity|]; finish.
Lemma ep_walk s i (u : set) W T w x vs md EF Ed D0 Rep coef : relx s i u W w -> relx s i u T x -> both s i u (v_ep X ka (nd X) u1 (u2 z) con0 vs md EF Ed D0 Rep coef W T) (v_ep X ka X s1 s2 c1 vs md EF Ed D0 Rep coef w x).
Proof.
  intros HW HT. unfold v_ep. fold ar. destruct (x_coef X ka md vs Ed D0 coef) as [k|e] eqn:Ek.
  2: { assert (e = KeyError). { unfold x_coef in Ek. cbv zeta in Ek. destruct coef as [x0|]; [destruct (k_zero ka x0); [|discriminate]|]; destruct Ed, md, D0, vs; cbn in Ek; congruence. } subst e. right. split; reflexivity. }
  cbv beta iota delta [rbind].
  assert (Cal : both s i u (let! md := x_need X md in let! vs := x_need X vs in let! EF := x_need X EF in v_rep X ka (nd X) u1 (u2 z) con0 md vs EF W T) (let! md := x_need X md in let! vs := x_need X vs in let! EF := x_need X EF in v_rep X ka X s1 s2 c1 md vs EF w x)).
  { destruct md as [md|]; [|right; split; reflexivity]. destruct vs as [vs|]; [|right; split; reflexivity]. destruct EF as [EF|]; [|right; split; reflexivity]. cbn [x_need]. unfold v_rep. cbv beta iota zeta delta [rbind s1 s2 c1]. fold ar z. repeat step. close. }
  assert (R0 : both s i (fun _ => False) (match Rep with Some x => if k_zero ka x then (let! md := x_need X md in let! vs := x_need X vs in let! EF := x_need X EF in v_rep X ka (nd X) u1 (u2 z) con0 md vs EF W T) else Ok (con0 x) | None => (let! md := x_need X md in let! vs := x_need X vs in let! EF := x_need X EF in v_rep X ka (nd X) u1 (u2 z) con0 md vs EF W T) end)
    (match Rep with Some x0 => if k_zero ka x0 then (let! md := x_need X md in let! vs := x_need X vs in let! EF := x_need X EF in v_rep X ka X s1 s2 c1 md vs EF w x) else Ok (c1 x0) | None => (let! md := x_need X md in let! vs := x_need X vs in let! EF := x_need X EF in v_rep X ka X s1 s2 c1 md vs EF w x) end)).
  { assert (Cal' : both s i (fun _ => False) (let! md := x_need X md in let! vs := x_need X vs in let! EF := x_need X EF in v_rep X ka (nd X) u1 (u2 z) con0 md vs EF W T) (let! md := x_need X md in let! vs := x_need X vs in let! EF := x_need X EF in v_rep X ka X s1 s2 c1 md vs EF w x)).
    { destruct Cal as [(C & c & E1 & E2 & H)|H]; [left; exists C, c; split; [exact E1|]; split; [exact E2|]; apply (rel_weak' X _ _ _ _ _ _ H); tauto|right; exact H]. }
    destruct Rep as [r|]; [|exact Cal']. destruct (k_zero ka r); [exact Cal'|]. left. exists (con0 r), r. split; [reflexivity|]. split; [reflexivity|]. apply con_rel. }
  fold s1 s2 c1 in R0. unfold rbind in R0. clear Cal. destruct R0 as [(C & c & E1 & E2 & H)|(E1 & E2)]; [|right; cbv zeta; rewrite E1, E2; split; reflexivity].
  cbv zeta. rewrite E1, E2. clear E1 E2. unfold s2, c1. repeat step. close.
Qed.
Lemma rate_walk s i (t u : set) m W T w x : relx s i t W w -> relx s i u T x -> both s i (fun l => t l \/ u l) (v_rate X ka (nd X) u1 (u2 z) con0 m W T) (v_rate X ka X s1 s2 c1 m w x).
Proof.
  intros HW HT. unfold v_rate. cbv beta iota delta [rbind]. fold ar.
  destruct (u2_rel X z _ _ _ _ (fun a _ => a) W T _ _ HW HT) as (W' & E1 & H1). destruct (u2_rel X z _ _ _ _ (fun _ b => b) W T _ _ HW HT) as (T' & E2 & H2). rewrite E1, E2. unfold s2 at 1 2.
  destruct m; try (apply ep_walk; assumption); unfold v_ph, v_np, v_dl; cbv beta iota zeta delta [rbind s1 s2 c1]; fold ar z; clear E1 E2; repeat step; close.
Qed.
Lemma fact_walk s i (u : set) vs W T w x : relx s i u W w -> relx s i u T x -> exists C c, v_factor X ka (nd X) u1 (u2 z) con0 vs W T = Ok C /\ v_factor X ka X s1 s2 c1 vs w x = Ok c /\ relx s i u C c.
Proof. intros HW HT. unfold v_factor. cbv beta iota zeta delta [rbind s1 s2 c1]. fold ar z. repeat step. do 2 eexists. split; [reflexivity|]. split; [reflexivity|]. finish. Qed.
(** ** dictionaries *)
Definition drel s i (D : list (str * nd X)) (d : list (str * X)) : Prop := Forall2 (fun E e => fst E = fst e /\ relx s i (eq s) (snd E) (snd e)) D d.
Lemma bcast2_rel F f s i (t u : set) W T w x : bcast2 F f -> relx s i t W w -> relx s i u T x -> least (fun l => t l \/ u l) s -> exists C c, F W T = Ok C /\ f w x = Ok c /\ relx s i (eq s) C c.
Proof.
  intros (Tot & B) (AW & FW & TW & EW) (AT & FT & TT & ET) L. destruct (B W T s AW AT) as (C & EC & AC & SC & P).
  - split; [constructor; [exact FW|constructor; [exact FT|constructor]]|]. intros r Hr. apply L. intros l [Q|Q]; [exact (fits_trans _ _ _ (TW l Q) (Forall_inv Hr))|exact (fits_trans _ _ _ (TT l Q) (Forall_inv (Forall_inv_tail Hr)))].
  - destruct (Tot w x) as (c & Ec). exists C, c. split; [exact EC|]. split; [exact Ec|]. apply exact_rel; [exact AC|exact SC|]. intros I. destruct (P i w x I (EW I) (ET I)) as (c' & Ec' & H). rewrite Ec in Ec'. injection Ec' as <-. exact H.
Qed.
Lemma rates_walk s i (t u : set) L l W T w x : same_mechs L l -> relx s i t W w -> relx s i u T x -> least (fun l => t l \/ u l) s -> exists D d, rates (nd X) L W T = Ok D /\ rates X l w x = Ok d /\ drel s i D d.
Proof.
  intros HL HW HT Lst. unfold rates. induction HL as [|[K F] [k f] L l (HK & HF) HL IH]; [do 2 eexists; split; [reflexivity|]; split; [reflexivity|constructor]|].
  cbn [fst snd] in HK, HF. subst k. cbn [mapM fst snd]. destruct (bcast2_rel F f s i t u W T w x HF HW HT Lst) as (C & c & E1 & E2 & H). rewrite E1, E2. destruct IH as (D & d & E3 & E4 & H').
  unfold rbind in E3, E4 |- *. rewrite E3, E4. do 2 eexists. split; [reflexivity|]. split; [reflexivity|]. constructor; [split; [reflexivity|exact H]|exact H'].
Qed.
Lemma accum_walk s i : forall D d, drel s i D d -> forall P p, match P, p with Some E, Some e => fst E = fst e /\ relx s i (eq s) (snd E) (snd e) | None, None => True | _, _ => False end ->
  exists D' d', v_accum X ka (nd X) (u2 z) P D = Ok D' /\ v_accum X ka X s2 p d = Ok d' /\ drel s i D' d'.
Proof.
  induction 1 as [|[K A] [k a] D d (HK & HA) HD IH]; intros P p HP; [do 2 eexists; split; [reflexivity|]; split; [reflexivity|constructor]|]. cbn [fst snd] in HK, HA. subst k. cbn [v_accum fst snd]. fold ar.
  destruct P as [[K0 A0]|], p as [[k0 a0]|]; try contradiction; cbv beta iota delta [rbind].
  - cbn [fst snd] in HP |- *. destruct HP as (-> & H0). step. change (s2 (a_add ar) a0 a) with (Ok (a_add ar a0 a)). cbv beta iota.
    destruct (IH (Some (k0 ++ S_ "+" ++ K, C)%list) (Some (k0 ++ S_ "+" ++ K, a_add ar a0 a)%list)) as (D' & d' & E1 & E2 & H'); [split; [reflexivity|]; finish|].
    unfold rbind in E1, E2. fold ar in E1, E2. 
    do 2 eexists. split; [rewrite E1; reflexivity|]. split; [rewrite E2; reflexivity|]. constructor; [split; [reflexivity|]; finish|exact H'].
  - destruct (IH (Some (K, A)) (Some (K, a))) as (D' & d' & E1 & E2 & H); [split; [reflexivity|exact HA]|]. exists ((K, A) :: D'), ((K, a) :: d').
    split; [exact (f_equal (fun r : res (list (str * nd X)) => match r with Ok a0 => Ok ((K, A) :: a0) | Err e => Err e end) E1)|]. split; [exact (f_equal (fun r : res (list (str * X)) => match r with Ok a0 => Ok ((K, a) :: a0) | Err e => Err e end) E2)|]. constructor; [split; [reflexivity|exact HA]|exact H].
Qed.
Lemma dset_rel s i D d k A a : drel s i D d -> relx s i (eq s) A a -> drel s i (dset D k A) (dset d k a).
Proof.
  intros H HA. induction H as [|[K B] [k' b] D d (HK & HB) HD IH]; [constructor; [split; [reflexivity|exact HA]|constructor]|]. cbn [fst snd] in HK, HB. subst k'. cbn [dset]. destruct (eqb k K).
  - constructor; [split; [reflexivity|exact HA]|exact HD].
  - constructor; [split; [reflexivity|exact HB]|exact IH].
Qed.
Lemma dupdate_rel s i : forall E e, drel s i E e -> forall D d, drel s i D d -> drel s i (dupdate D E) (dupdate d e).
Proof. unfold dupdate. induction 1 as [|[K B] [k' b] E e (HK & HB) HD IH]; intros D d H; [exact H|]. cbn [fst snd] in HK, HB. subst k'. cbn [fold_left fst snd]. apply IH. apply dset_rel; assumption. Qed.
Lemma total_walk s i : forall D d, drel s i D d -> forall (t : set) A a, relx s i t A a ->
  exists C c, fold_left (fun acc e => rbind acc (fun x => rbind (Ok (snd e)) (fun y => u2 z (a_add ar) x y))) D (Ok A) = Ok C /\ fold_left (fun acc e => rbind acc (fun x => rbind (Ok (snd e)) (fun y => s2 (a_add ar) x y))) d (Ok a) = Ok c
    /\ relx s i (fun l => t l \/ (D <> [] /\ s = l)) C c.
Proof.
  induction 1 as [|[K B] [k' b] D d (HK & HB) HD IH]; intros t A a HA; [exists A, a; split; [reflexivity|]; split; [reflexivity|]; apply (rel_weak' X _ _ _ _ _ _ HA); intuition congruence|].
  cbn [fst snd] in HK, HB. subst k'. cbn [fold_left fst snd]. cbv beta iota delta [rbind]. cbn [fst snd]. destruct (u2_rel X z _ _ _ _ (a_add ar) A B _ _ HA HB) as (C & E & H). rewrite E. unfold s2 at 2. destruct (IH _ _ _ H) as (C' & c' & E1 & E2 & H').
  exists C', c'. split; [exact E1|]. split; [exact E2|]. apply (rel_weak' X _ _ _ _ _ _ H'). intros l0 Q; cbv beta in Q |- *; tauto.
Qed.
Lemma scattering_walk s i (t u : set) L l tot W T w x : same_mechs L l -> relx s i t W w -> relx s i u T x -> least (fun l => t l \/ u l) s -> (tot = true -> L <> []) ->
  exists D d, nd_scattering X ka L W T tot = Ok D /\ one_scattering X ka l w x tot = Ok d /\ drel s i D d.
Proof.
  intros HL HW HT Lst Hn. destruct (rates_walk s i t u L l W T w x HL HW HT Lst) as (D & d & E1 & E2 & H). unfold nd_scattering, one_scattering, v_scattering. rewrite E1, E2. destruct tot; [|exists D, d; auto].
  cbv zeta. fold ar. fold z. destruct (total_walk s i D d H (fun _ => False) (con0 z) z (con_rel X s i z)) as (C & c & E3 & E4 & H3). unfold s2 in E4. cbv beta iota zeta delta [rbind] in E3, E4 |- *. rewrite E3, E4.
  do 2 eexists. split; [reflexivity|]. split; [reflexivity|]. apply dset_rel; [exact H|]. apply (rel_weak' X _ _ _ _ _ _ H3). intros l0 <-. right. split; [|reflexivity].
  intros ->. specialize (Hn eq_refl). destruct L as [|[K F] L]; [congruence|]. unfold rates in E1. cbn [mapM] in E1. unfold rbind in E1. destruct (snd (K, F) W T); [|discriminate]. destruct (mapM _ L); discriminate.
Qed.
Lemma div_walk s i F f : relx s i (eq s) F f -> forall D d, drel s i D d -> exists D' d', mapM (fun e => rbind (u2 z (a_div ar) F (snd e)) (fun y => Ok (fst e, y))) D = Ok D' /\ mapM (fun e => rbind (s2 (a_div ar) f (snd e)) (fun y => Ok (fst e, y))) d = Ok d' /\ drel s i D' d'.
Proof.
  intros HF. induction 1 as [|[K B] [k' b] D d (HK & HB) HD IH]; [do 2 eexists; split; [reflexivity|]; split; [reflexivity|constructor]|]. cbn [fst snd] in HK, HB. subst k'. cbn [mapM fst snd].
  destruct (u2_rel X z _ _ _ _ (a_div ar) F B _ _ HF HB) as (C & E & H). rewrite E. destruct IH as (D' & d' & E1 & E2 & H'). rewrite E1, E2. unfold s2, rbind. do 2 eexists. split; [reflexivity|]. split; [reflexivity|].
  constructor; [split; [reflexivity|]; cbn [snd]; finish|exact H'].
Qed.
Lemma spectral_walk s i (t u : set) L l td vs acc W T w x : same_mechs L l -> relx s i t W w -> relx s i u T x -> least (fun l => t l \/ u l) s ->
  exists D d, nd_spectral X ka td vs L W T acc = Ok D /\ one_spectral X ka td vs l w x acc = Ok d /\ drel s i D d.
Proof.
  intros HL HW HT Lst. unfold nd_spectral, one_spectral, v_spectral. cbv zeta. fold ar. fold z.
  pose proof (u1_rel X s i t (k_max ka (x_EPS X ka)) W w HW) as HW0.
  destruct (u2_rel X z _ _ _ _ (fun a _ => a) _ T _ _ HW0 HT) as (W' & E1 & H1). destruct (u2_rel X z _ _ _ _ (fun _ b => b) _ T _ _ HW0 HT) as (T' & E2 & H2). rewrite E1, E2. cbv beta iota delta [rbind].
  assert (L' : least (fun l => (t l \/ u l) \/ (t l \/ u l)) s) by (intros r Hr; apply Lst; intros; apply Hr; tauto).
  destruct (rates_walk s i _ _ L l W' T' _ _ HL H1 H2 L') as (D & d & E3 & E4 & H3). unfold rbind in E3, E4. 
  rewrite E3, E4.
  destruct (fact_walk s i _ vs W' T' _ _ H1 H2) as (F & f & E5 & E6 & H5).
  set (out := if acc then v_accum X ka (nd X) (u2 z) None D else Ok D). set (ou := if acc then v_accum X ka X s2 None d else Ok d).
  assert (O : exists D' d', out = Ok D' /\ ou = Ok d' /\ drel s i D' d'). { unfold out, ou. destruct acc; [apply accum_walk; [exact H3|exact I]|exists D, d; auto]. }
  destruct O as (D' & d' & -> & EO & HD'). unfold ou, s2 in EO |- *. rewrite EO, E5. unfold s1, s2, c1 in E6. rewrite E6.
  destruct (u2_rel X z _ _ _ _ (fun w0 f0 => if k_le ka w0 (x_wd X ka td) then f0 else z) W' F _ _ H1 H5) as (F' & E7 & H7). rewrite E7.
  assert (H7' : relx s i (eq s) F' (if k_le ka (k_max ka (x_EPS X ka) w) (x_wd X ka td) then f else z)) by (apply (rel_least X s i _ F' _ H7); intros r Hr; apply Lst; intros; apply Hr; tauto).
  destruct (div_walk s i F' _ H7' D' d' HD') as (D2 & d2 & E8 & E9 & H8). unfold rbind in E8, E9. unfold s2 in E9. rewrite E8, E9.
  do 2 eexists. split; [reflexivity|]. split; [reflexivity|]. apply dupdate_rel; [exact H8|constructor].
Qed.
(** ** formulas of one and of two arrays *)
Lemma td_walk s i (t u : set) A B a b : relx s i t A a -> relx s i u B b -> both s i (fun l => t l \/ u l) (nd_vs_to_td X ka A B) (one_vs_to_td X ka a b).
Proof. intros HA HB. unfold nd_vs_to_td, one_vs_to_td, v_vs_to_td. cbv beta iota zeta delta [rbind]. fold ar z. repeat step. close. Qed.
Lemma gm_walk s i (t u : set) A B a b : relx s i t A a -> relx s i u B b -> both s i (fun l => t l \/ u l) (nd_vs_to_gm X ka A B) (one_vs_to_gm X ka a b).
Proof. intros HA HB. unfold nd_vs_to_gm, one_vs_to_gm, v_vs_to_gm. cbv beta iota zeta delta [rbind]. fold ar z. repeat step. close. Qed.
Lemma slack_walk s i (t : set) c1' c2 c3 c4 c5 c6 A a : relx s i t A a -> both s i t (nd_slack X ka c1' c2 c3 c4 c5 c6 A) (one_slack X ka c1' c2 c3 c4 c5 c6 a).
Proof. intros HA. unfold nd_slack, one_slack, v_slack. cbv beta iota zeta delta [rbind]. fold ar z. repeat step. close. Qed.
Lemma bipolar_walk s i (t : set) c1' c2 c3 A a : relx s i t A a -> both s i t (nd_bipolar X ka c1' c2 c3 A) (one_bipolar X ka c1' c2 c3 a).
Proof. intros HA. unfold nd_bipolar, one_bipolar, v_bipolar. cbv beta iota zeta delta [rbind]. fold ar z. repeat step. close. Qed.
Lemma powerlaw_walk s i (t : set) c1' c2 c3 A a : relx s i t A a -> both s i t (nd_powerlaw X ka c1' c2 c3 A) (one_powerlaw X ka c1' c2 c3 a).
Proof. intros HA. unfold nd_powerlaw, one_powerlaw, v_powerlaw. cbv beta iota zeta delta [rbind]. fold ar z. repeat step. close. Qed.
Lemma klemens_walk s i (t : set) c1' c2 c3 c4 c5 A a : relx s i t A a -> both s i t (nd_klemens X ka c1' c2 c3 c4 c5 A) (one_klemens X ka c1' c2 c3 c4 c5 a).
Proof. intros HA. unfold nd_klemens, one_klemens, v_klemens. cbv beta iota zeta delta [rbind]. fold ar z. repeat step. close. Qed.
(** ** one entry of [cumulative_mfp_t] *)
Lemma mfp_walk s i (t u : set) vs dw M m S sp L l R' r : relx s i t (last_axis X M) m -> relx s i u S sp -> relx s i u L l -> relx s i u R' r ->
  exists C, nd_mfp_cum X ka vs dw M S L R' = Ok C /\ relx s i (fun q => t q \/ u q) C (one_share X ka vs dw m sp l r).
Proof.
  intros HM HS HL HR. unfold nd_mfp_cum. cbv beta iota zeta delta [rbind]. fold ar z. repeat step. eexists. split; [reflexivity|]. unfold one_share. cbv zeta. fold ar z. finish.
Qed.
Lemma ends_walk s i (t u : set) L l (acc : bool) W T w x : same_mechs L l -> relx s i t W w -> relx s i u T x -> least (fun l => t l \/ u l) s ->
  exists D d, (let! d := rates (nd X) L W T in if acc then v_accum X ka (nd X) (u2 z) None d else Ok d) = Ok D /\ one_ends X ka l w x acc = Ok d /\ drel s i D d.
Proof.
  intros HL HW HT Lst. destruct (rates_walk s i t u L l W T w x HL HW HT Lst) as (D & d & E1 & E2 & H). unfold one_ends. rewrite E1, E2. cbv beta iota delta [rbind]. destruct acc; [apply accum_walk; [exact H|exact I]|exists D, d; auto].
Qed.
End Walk.
