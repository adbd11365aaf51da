(** C125: properties of bands on arrays of Fermi levels and temperatures. *)
From Coq Require Import ZArith Reals String Ascii Lra Lia.
From Verif Require Import Py PyStr RUtil RombModel RombProofs BandModel SpbModel ArrModel ArrSpec ArrProofs VecModel VecSpec VecProofs BvecModel BvecSpec BvecProofs.
Local Open Scope list_scope.

Section C125.
Variable X : Type.
Variable fa : farith X.
Let z := a_lit (f_ar fa) 0%R.
Notation set := (list nat -> Prop).

Lemma start EF T s : @array X EF -> @array X T -> common [shape EF; shape T] s ->
  least (fun l => shape EF = l \/ shape T = l) s
  /\ (forall i e, (index s i -> sees EF i e) -> rel X s i (eq (shape EF)) EF e) /\ (forall i x, (index s i -> sees T i x) -> rel X s i (eq (shape T)) T x)
  /\ (exists e, rel X s [] (eq (shape EF)) EF e) /\ (exists x, rel X s [] (eq (shape T)) T x).
Proof.
  intros HE HT (F & M). assert (F1 := Forall_inv F). assert (F2 := Forall_inv (Forall_inv_tail F)). split; [intros r Q; apply M; constructor; [apply Q; auto|constructor; [apply Q; auto|constructor]]|].
  assert (R1 : forall i e, (index s i -> sees EF i e) -> rel X s i (eq (shape EF)) EF e) by (intros i e S; apply plain_rel; assumption). assert (R2 : forall i x, (index s i -> sees T i x) -> rel X s i (eq (shape T)) T x) by (intros i x S; apply plain_rel; assumption).
  split; [exact R1|]. split; [exact R2|]. split; eexists; [apply R1|apply R2]; intros I; apply (bc_get_sees z) with (s := s); assumption.
Qed.
(** from one index to the whole array *)
Lemma gather (Res : res (option (nd X))) (r : X -> X -> res (option X)) EF T s : array EF -> array T -> common [shape EF; shape T] s ->
  (forall i e x, rel X s i (eq (shape EF)) EF e -> rel X s i (eq (shape T)) T x -> opt_rel X s i Res (r e x)) -> (forall e x, exists c, r e x = Ok (Some c)) ->
  exists C, Res = Ok (Some C) /\ pointwise (fun e t c => r e t = Ok (Some c)) EF T C s.
Proof.
  intros HE HT Hs W Tot. destruct (start EF T s HE HT Hs) as (_ & R1 & R2 & (e0 & Q1) & (x0 & Q2)). destruct (Tot e0 x0) as (c0 & E0).
  destruct (W [] e0 x0 Q1 Q2) as [(C & c & E1 & E2 & HC)|[(_ & E)|(er & _ & E)]]; [|congruence|congruence]. exists C. split; [exact E1|]. destruct (rel_shape X _ _ _ _ _ HC eq_refl) as (AC & SC). split; [exact AC|]. split; [exact SC|].
  intros i a b I Sa Sb. destruct (Tot a b) as (c' & E'). exists c'. split; [exact E'|]. destruct (W i a b (R1 i a (fun _ => Sa)) (R2 i b (fun _ => Sb))) as [(C' & c2 & G1 & G2 & HC')|[(_ & E)|(er & _ & E)]]; [|congruence|congruence].
  rewrite E1 in G1. injection G1 as <-. rewrite E' in G2. injection G2 as <-. apply (rel_elem X _ _ _ _ _ HC' SC I).
Qed.
(** ** one band *)
Lemma band_total b p : ~ hall_prop p \/ vb_hall b <> None -> forall e x, exists c, one_band X fa b p e x = Ok (Some c).
Proof.
  intros H e x. unfold one_band, v_method, obj_band, band_N, band_K, band_H, s_dfx. cbn [vo_N vo_K vo_H vo_sign]. cbv zeta. destruct (vb_hall b) as [f|]; [destruct p; eexists; reflexivity|].
  assert (N : ~ hall_prop p) by (destruct H; [assumption|congruence]). unfold hall_prop in N. destruct p; try (eexists; reflexivity); exfalso; apply N; auto.
Qed.
Theorem C125_band B b p EF T s : array EF -> array T -> common [shape EF; shape T] s -> same_band B b -> ~ hall_prop p \/ vb_hall b <> None ->
  exists C, nd_band X fa B p EF T = Ok (Some C) /\ pointwise (fun e t c => one_band X fa b p e t = Ok (Some c)) EF T C s.
Proof.
  intros HE HT Hs Hb Hp. apply gather; try assumption; [|apply band_total, Hp]. intros i e x Q1 Q2. destruct (start EF T s HE HT Hs) as (L & _).
  apply (method_walk X fa s i (eq (shape T)) _ _ p EF T e x); [|exact Q2]. exact (band_walk X fa s i _ _ B b EF T e x Hb Q1 Q2 L).
Qed.
(** a band without a Hall function (LinearBand) *)
Theorem C125_no_hall B b EF T s : array EF -> array T -> common [shape EF; shape T] s -> same_band B b -> vb_hall b = None ->
  nd_band X fa B PCCRH EF T = Ok None /\ nd_band X fa B PRH EF T = Err TypeError /\ nd_band X fa B PUH EF T = Err TypeError /\ nd_band X fa B PNH EF T = Err TypeError.
Proof.
  intros HE HT Hs Hb N. destruct (start EF T s HE HT Hs) as (L & _ & _ & (e & Q1) & (x & Q2)).
  assert (W := fun p => method_walk X fa s [] (eq (shape T)) _ _ p EF T e x (band_walk X fa s [] _ _ B b EF T e x Hb Q1 Q2 L) Q2).
  assert (E : forall p, v_method X fa X (fun f x => f x) (fun f x y => Ok (f x y)) (fun x => x) (obj_band X fa X (fun f x y => Ok (f x y)) (fun x => x) (s_dfx X fa) b) p e x = one_band X fa b p e x) by reflexivity.
  assert (V : forall p, match p with PCCRH => one_band X fa b p e x = Ok None | PRH | PUH | PNH => one_band X fa b p e x = Err TypeError | _ => True end).
  { unfold one_band, v_method, obj_band, band_N, band_K, band_H, s_dfx. cbn [vo_N vo_K vo_H vo_sign]. cbv zeta. rewrite N. intros []; first [exact I|reflexivity]. }
  repeat match goal with |- _ /\ _ => split end.
  - destruct (W PCCRH) as [(C & c & _ & G & _)|[(G & _)|(er & G1 & G2)]]; [pose proof (V PCCRH) as K; cbv beta iota in K; rewrite <- E in K; congruence|exact G|pose proof (V PCCRH) as K; cbv beta iota in K; rewrite <- E in K; congruence].
  - destruct (W PRH) as [(C & c & _ & G & _)|[(_ & G)|(er & G1 & G)]]; pose proof (V PRH) as K; cbv beta iota in K; rewrite <- E in K; [congruence|congruence|]. unfold nd_band. rewrite G1. congruence.
  - destruct (W PUH) as [(C & c & _ & G & _)|[(_ & G)|(er & G1 & G)]]; pose proof (V PUH) as K; cbv beta iota in K; rewrite <- E in K; [congruence|congruence|]. unfold nd_band. rewrite G1. congruence.
  - destruct (W PNH) as [(C & c & _ & G & _)|[(_ & G)|(er & G1 & G)]]; pose proof (V PNH) as K; cbv beta iota in K; rewrite <- E in K; [congruence|congruence|]. unfold nd_band. rewrite G1. congruence.
Qed.
(** arrays that cannot be broadcast together *)
Lemma dfx_refused f EF T k : no_common [shape EF; shape T] -> nd_dfx X fa f EF T k = Err ValueError.
Proof.
  intros N. unfold nd_dfx, nd_width. cbv beta iota zeta delta [rbind].
  destruct (u2 (a_lit (f_ar fa) 0%R) (a_mul (f_ar fa)) (con0 (a_lit (f_ar fa) kB)) T) as [K|e] eqn:E1; [|apply u2_err in E1; subst e; reflexivity]. apply u2_inv in E1 as (_ & F).
  rewrite u2_none; [reflexivity|]. intros s (G1 & G2). apply (N s). constructor; [exact G1|constructor; [exact (fits_trans _ _ _ F G2)|constructor]].
Qed.
Theorem C125_refused B p EF T : no_common [shape EF; shape T] -> p <> PCCRH \/ vb_hall B <> None -> nd_band X fa B p EF T = Err ValueError.
Proof.
  intros N Hp. unfold nd_band, v_method, obj_band, band_N, band_K, band_H. cbn [vo_N vo_K vo_H vo_sign]. cbv zeta. rewrite !dfx_refused by exact N.
  destruct (vb_hall B) as [f|]; [rewrite dfx_refused by exact N; destruct p; reflexivity|]. destruct p; try reflexivity. exfalso. destruct Hp; congruence.
Qed.
(** ** several bands *)
Lemma all_hallable {Y} (l : list (vband X Y * X)) : all_hall l <-> hallable X l.
Proof. unfold all_hall, hallable. rewrite Forall_forall. split; [intros H [b d] Hi; exact (H b d Hi)|intros H b d Hi; exact (H (b, d) Hi)]. Qed.
Let s2 (f : X -> X -> X) (x y : X) : res X := Ok (f x y).
Let c1 (x : X) := x.
Lemma total_one (g : vband X X -> X -> res X) l e : (forall b e', In b (List.map fst l) -> exists c, g b e' = Ok c) -> exists c, v_total X fa X s2 c1 g l e = Ok c.
Proof.
  unfold v_total. intros H. assert (K : forall a, exists c, fold_left (fun acc bd => let! x := acc in let! y := (let! e0 := efr X fa X s2 c1 (fst bd) (snd bd) e in g (fst bd) e0) in s2 (a_add (f_ar fa)) x y) l (Ok a) = Ok c); [|exact (K _)].
  induction l as [|[b d] l IH]; intros a; [eexists; reflexivity|]. cbn [fold_left fst snd]. cbn [List.map fst] in H. unfold efr at 2. cbv beta iota delta [rbind s2 c1].
  match goal with |- context [g b ?q] => destruct (H b q ltac:(left; reflexivity)) as (c & ->) end. apply IH. intros b' e' Hi. apply H. right. exact Hi.
Qed.
Lemma multi_total l p : ~ hall_prop p \/ all_hall l -> forall e x, exists c, one_multi X fa l p e x = Ok (Some c).
Proof.
  intros H e x. unfold one_multi. fold s2 c1. 
  assert (HN : exists n, vo_N _ _ (obj_multi X fa X s2 c1 (s_dfx X fa) l) e x = Ok n) by (cbn [obj_multi vo_N]; apply total_one; intros b e' _; eexists; reflexivity).
  assert (HK : forall k, exists n, vo_K _ _ (obj_multi X fa X s2 c1 (s_dfx X fa) l) k e x = Ok n) by (intros k; cbn [obj_multi vo_K]; apply total_one; intros b e' _; eexists; reflexivity).
  assert (HH : all_hall l -> exists n, vo_H _ _ (obj_multi X fa X s2 c1 (s_dfx X fa) l) e x = Ok (Some n)).
  { intros A. cbn [obj_multi vo_H]. match goal with |- exists n, rbind (v_total _ _ _ _ _ ?g l e) _ = _ => destruct (total_one g l e) as (c & E) end; [|rewrite E; eexists; reflexivity].
    intros b e' Hi. apply in_map_iff in Hi as ([b' d] & <- & Hi). cbn [fst]. unfold band_H. specialize (A b' d Hi). destruct (vb_hall b'); [eexists; reflexivity|congruence]. }
  destruct HN as (n & EN), (HK 0%nat) as (k0 & E0), (HK 1%nat) as (k1 & E1), (HK 2%nat) as (k2 & E2). unfold v_method. cbv zeta. rewrite EN, E0, E1, E2.
  destruct H as [H|H]; [|destruct (HH H) as (h & EH); rewrite EH; destruct p; eexists; reflexivity].
  unfold hall_prop in H. destruct p; try (eexists; reflexivity); exfalso; apply H; auto.
Qed.
Theorem C125_multi L l p EF T s : array EF -> array T -> common [shape EF; shape T] s -> same_bands L l -> L <> [] -> ~ hall_prop p \/ all_hall l ->
  exists C, nd_multi X fa L p EF T = Ok (Some C) /\ pointwise (fun e t c => one_multi X fa l p e t = Ok (Some c)) EF T C s.
Proof.
  intros HE HT Hs Hb Ne Hp. apply gather; try assumption; [|apply multi_total, Hp]. intros i e x Q1 Q2. destruct (start EF T s HE HT Hs) as (Ls & _).
  apply (method_walk X fa s i (eq (shape T)) _ _ p EF T e x); [|exact Q2]. exact (proj1 (multi_walk X fa s i _ _ L l EF T e x Hb Q1 Q2 Ls Ne)).
Qed.
Theorem C125_multi_no_hall L l p EF T s : array EF -> array T -> common [shape EF; shape T] s -> same_bands L l -> L <> [] -> hall_prop p -> ~ all_hall l -> nd_multi X fa L p EF T = Err TypeError.
Proof.
  intros HE HT Hs Hb Ne Hp N. destruct (start EF T s HE HT Hs) as (Ls & _ & _ & (e & Q1) & (x & Q2)). destruct (multi_walk X fa s [] _ _ L l EF T e x Hb Q1 Q2 Ls Ne) as ((_ & _ & HK & _) & _ & W). destruct (W ltac:(rewrite <- all_hallable; exact N)) as (E & _).
  destruct (HK 0%nat) as (K0 & k0 & E0 & _ & H0). unfold nd_multi, v_method. cbv zeta. rewrite E, E0. destruct Hp as [->|[->|[->| ->]]]; reflexivity.
Qed.
Theorem C125_multi_refused B d L p EF T : no_common [shape EF; shape T] -> ~ hall_prop p \/ vb_hall B <> None -> nd_multi X fa ((B, d) :: L) p EF T = Err ValueError.
Proof.
  intros N Hp. assert (Er : forall (G : vband X (nd X) -> nd X -> res (nd X)) l, fold_left (fun acc bd => let! x := acc in let! y := (let! e0 := efr X fa (nd X) (u2 z) con0 (fst bd) (snd bd) EF in G (fst bd) e0) in u2 z (a_add (f_ar fa)) x y) l (Err ValueError) = Err ValueError) by (intros G l; induction l; auto).
  assert (Tot : forall (G : vband X (nd X) -> nd X -> res (nd X)), (forall e, no_common [shape e; shape T] -> G B e = Err ValueError) -> v_total X fa (nd X) (u2 z) con0 G ((B, d) :: L) EF = Err ValueError).
  { intros G HG. unfold v_total. cbn [fold_left fst snd]. etransitivity; [|apply (Er G L)]. unfold z. f_equal. unfold efr at 1. cbv beta iota delta [rbind].
    destruct (u2 _ _ (con0 (a_lit (f_ar fa) (-1)%R)) _) as [P|e] eqn:E1; [|apply u2_err in E1; subst e; reflexivity].
    destruct (u2 _ _ EF _) as [Q|e] eqn:E2; [|apply u2_err in E2; subst e; reflexivity]. destruct (u2 _ _ P Q) as [E'|e] eqn:E3; [|apply u2_err in E3; subst e; reflexivity].
    rewrite HG; [reflexivity|]. apply u2_inv in E2 as (F1 & _). apply u2_inv in E3 as (_ & F2). intros r Hr. apply (N r). constructor; [exact (fits_trans _ _ _ (fits_trans _ _ _ F1 F2) (Forall_inv Hr))|exact (Forall_inv_tail Hr)]. }
  assert (EN : vo_N _ _ (obj_multi X fa (nd X) (u2 z) con0 (nd_dfx X fa) ((B, d) :: L)) EF T = Err ValueError) by (apply Tot; intros e Hn; apply dfx_refused, Hn).
  assert (EK : forall k, vo_K _ _ (obj_multi X fa (nd X) (u2 z) con0 (nd_dfx X fa) ((B, d) :: L)) k EF T = Err ValueError) by (intros k; apply Tot; intros e Hn; unfold band_K; rewrite dfx_refused by exact Hn; reflexivity).
  assert (EH : vb_hall B <> None -> vo_H _ _ (obj_multi X fa (nd X) (u2 z) con0 (nd_dfx X fa) ((B, d) :: L)) EF T = Err ValueError).
  { intros V. cbn [obj_multi vo_H]. rewrite Tot; [reflexivity|]. intros e Hn. unfold band_H. destruct (vb_hall B); [|congruence]. rewrite dfx_refused by exact Hn. reflexivity. }
  unfold nd_multi. fold z. unfold v_method. cbv zeta. rewrite EN, !EK. destruct Hp as [Hp|Hp]; [|rewrite (EH Hp); destruct p; reflexivity]. unfold hall_prop in Hp. destruct p; try reflexivity; exfalso; apply Hp; auto.
Qed.
(** bipolar thermal conductivity *)
Theorem C125_Kbip neg L l EF T s : array EF -> array T -> common [shape EF; shape T] s -> same_bands L l -> L <> [] ->
  exists C, nd_Kbip X fa neg L EF T = Ok C /\ pointwise (fun e t c => one_Kbip X fa neg l e t = Ok c) EF T C s.
Proof.
  intros HE HT Hs Hb Ne. destruct (start EF T s HE HT Hs) as (Ls & R1 & R2 & (e0 & Q1) & (x0 & Q2)). assert (W := fun i e x Q1 Q2 => kbip_walk X fa s i _ _ neg L l EF T e x Hb Q1 Q2 Ls Ne).
  destruct (W [] e0 x0 Q1 Q2) as (C & c & E1 & E2 & HC). exists C. split; [exact E1|]. destruct (rel_shape X _ _ _ _ _ HC eq_refl) as (AC & SC). split; [exact AC|]. split; [exact SC|].
  intros i a b I Sa Sb. destruct (W i a b (R1 i a (fun _ => Sa)) (R2 i b (fun _ => Sb))) as (C' & c' & G1 & G2 & HC'). rewrite E1 in G1. injection G1 as <-. exists c'. split; [exact G2|]. apply (rel_elem X _ _ _ _ _ HC' SC I).
Qed.
(** the band classes of the package *)
Theorem C125_classes sg m_d sigma0 Eg Kmass vF :
  same_band (nd_spb X fa sg m_d sigma0 Kmass) (one_spb X fa sg m_d sigma0 Kmass) /\ same_band (nd_skb X fa sg m_d sigma0 Eg Kmass) (one_skb X fa sg m_d sigma0 Eg Kmass)
  /\ same_band (nd_linear X fa sg vF sigma0) (one_lin X fa sg vF sigma0) /\ vb_hall (one_spb X fa sg m_d sigma0 Kmass) <> None /\ vb_hall (one_skb X fa sg m_d sigma0 Eg Kmass) <> None /\ vb_hall (one_lin X fa sg vF sigma0) = None.
Proof.
  split; [apply spb_same|]. split; [apply skb_same|]. split; [apply lin_same|]. split; [discriminate|]. split; [discriminate|reflexivity].
Qed.
(** ** solving for the Fermi level *)
Lemma mapM_err {A B} (f : A -> res B) a x b e : (forall y, In y a -> exists v, f y = Ok v) -> f x = Err e -> mapM f (a ++ x :: b) = Err e.
Proof.
  induction a as [|y a IH]; intros H E; cbn [app mapM]; [rewrite E; reflexivity|]. destruct (H y) as (v & ->); [left; reflexivity|]. cbv beta iota delta [rbind]. rewrite IH; [reflexivity| |exact E]. intros y' Hy. apply H. right. exact Hy.
Qed.
Lemma mapM_all {A B} (f : A -> res B) l : (forall y, In y l -> exists v, f y = Ok v) -> exists ys, mapM f l = Ok ys /\ List.length ys = List.length l /\ forall k y, nth_error l k = Some y -> exists v, f y = Ok v /\ nth_error ys k = Some v.
Proof.
  induction l as [|x l IH]; intros H; cbn [mapM]; [exists []; repeat split; intros [|k] y Q; discriminate Q|]. destruct (H x) as (v & E); [left; reflexivity|]. rewrite E. destruct IH as (ys & -> & Ln & P); [intros y Hy; apply H; right; exact Hy|].
  cbv beta iota delta [rbind]. exists (v :: ys). split; [reflexivity|]. split; [cbn; congruence|]. intros [|k] y Q; cbn [nth_error] in *; [injection Q as <-; eauto|exact (P k y Q)].
Qed.
Lemma common_nonempty (ts : list (list nat)) s : common ts s -> Forall (Forall (fun d => d <> 0%nat)) ts -> Forall (fun d => d <> 0%nat) s.
Proof.
  intros (F & M) N. set (s' := List.map (fun d => if (d =? 0)%nat then 1%nat else d) s).
  assert (K : fits s s').
  { apply M. rewrite Forall_forall in F, N. apply Forall_forall. intros t Ht. specialize (F t Ht). specialize (N t Ht). destruct F as (lead & r & E & G). exists (List.map (fun d => if (d =? 0)%nat then 1%nat else d) lead), (List.map (fun d => if (d =? 0)%nat then 1%nat else d) r).
    split; [unfold s'; rewrite E; apply map_app|]. clear - G N. induction G as [|a b t r H G IH]; [constructor|]. cbn [List.map]. constructor; [|apply IH, (Forall_inv_tail N)]. pose proof (Forall_inv N) as Na. cbv beta in Na. destruct (Nat.eqb_spec b 0); lia. }
  destruct K as (lead & r & E & G). assert (lead = []) by (apply (f_equal (@List.length nat)) in E; unfold s' in E; rewrite map_length, app_length in E; assert (List.length s = List.length r) by (clear - G; induction G; cbn; congruence); destruct lead; [reflexivity|cbn in E; lia]). subst lead. cbn [app] in E. subst r.
  unfold s' in G. clear - G. remember (List.map _ s) as m eqn:Em. revert Em. induction G as [|a b t r H G IH]; intros Em; [constructor|]. cbn [List.map] in Em. injection Em as E1 E2. constructor; [|exact (IH E2)]. destruct (Nat.eqb_spec a 0); lia.
Qed.
Lemma flat_dims (A : nd X) x r : array A -> flat A = x :: r -> Forall (fun d => d <> 0%nat) (shape A).
Proof.
  unfold array. intros HA Q. rewrite Q in HA. cbn [List.length] in HA. apply Forall_forall. intros d Hd ->. assert (Z : count (shape A) = 0%nat); [|rewrite Z in HA; discriminate HA].
  clear - Hd. induction (shape A) as [|a t IH]; [contradiction|]. destruct Hd as [->|Hd]; cbn; [reflexivity|]. unfold count in IH |- *. cbn. rewrite (IH Hd). apply Nat.mul_0_r.
Qed.
(** the first element of each array is seen at the first index *)
Lemma zeros_index s : Forall (fun d => d <> 0%nat) s -> index s (List.map (fun _ => 0%nat) s) /\ place s (List.map (fun _ => 0%nat) s) = 0%nat.
Proof.
  intros H. assert (I : index s (List.map (fun _ => 0%nat) s)) by (induction H as [|d s Hd H IH]; constructor; [lia|exact IH]). split; [exact I|].
  induction H as [|d s Hd H IH]; [reflexivity|]. cbn [List.map]. inversion I; subst. rewrite place_cons by (rewrite map_length; reflexivity). rewrite IH by assumption. reflexivity.
Qed.
Lemma first_seen (A : nd X) x r s : array A -> flat A = x :: r -> fits (shape A) s -> sees A (List.map (fun _ => 0%nat) s) x.
Proof.
  intros HA Q (lead & r' & -> & G). rewrite map_app. exists (List.map (fun _ => 0%nat) lead), (List.map (fun _ => 0%nat) r'). split; [reflexivity|].
  assert (L : List.length r' = List.length (shape A)) by (clear - G; induction G; cbn; congruence). split; [|rewrite map_length; exact L].
  assert (E : List.map (fun dk : nat * nat => if (fst dk =? 1)%nat then 0%nat else snd dk) (combine (shape A) (List.map (fun _ => 0%nat) r')) = List.map (fun _ => 0%nat) (shape A)).
  { clear - L. revert r' L. generalize (shape A). induction l as [|d l IH]; intros [|d' r'] L; try discriminate L; [reflexivity|]. cbn. rewrite IH by (cbn in L; lia). destruct (d =? 1)%nat; reflexivity. }
  rewrite E. destruct (zeros_index (shape A) (flat_dims A x r HA Q)) as (I & P). split; [exact I|]. rewrite P, Q. reflexivity.
Qed.
Variable solve : X -> X -> res X.
Section Given.
Variables (V T : nd X) (s : list nat).
Hypothesis HV : array V.
Hypothesis HT : array T.
Hypothesis Hs : common [shape V; shape T] s.
Hypothesis NV : flat V <> [].
Hypothesis NT : flat T <> [].
Lemma solve_start : exists x t, sees V (List.map (fun _ => 0%nat) s) x /\ sees T (List.map (fun _ => 0%nat) s) t /\ index s (List.map (fun _ => 0%nat) s) /\ place s (List.map (fun _ => 0%nat) s) = 0%nat
  /\ nd_solve X fa solve V T = (let! _ := solve x t in let! l := mapM (fun k => solve (bc_get z V (unravel s k)) (bc_get z T (unravel s k))) (seq 0 (size s)) in Ok (Nd s l)).
Proof.
  assert (F1 := Forall_inv (proj1 Hs)). assert (F2 := Forall_inv (Forall_inv_tail (proj1 Hs))). unfold nd_solve. fold z. rewrite (proj2 (broadcast_common _ _) Hs).
  destruct (flat V) as [|x rV] eqn:EV; [congruence|]. destruct (flat T) as [|t rT] eqn:ET; [congruence|]. exists x, t. split; [exact (first_seen V x rV s HV EV F1)|]. split; [exact (first_seen T t rT s HT ET F2)|].
  assert (D : Forall (fun d => d <> 0%nat) s) by (apply (common_nonempty _ _ Hs); constructor; [exact (flat_dims V x rV HV EV)|constructor; [exact (flat_dims T t rT HT ET)|constructor]]).
  destruct (zeros_index s D) as (I & P). split; [exact I|]. split; [exact P|]. reflexivity.
Qed.
Lemma solve_at i v t : index s i -> sees V i v -> sees T i t -> solve (bc_get z V (unravel s (place s i))) (bc_get z T (unravel s (place s i))) = solve v t.
Proof.
  intros I Sv St. rewrite unravel_place by exact I. assert (F1 := Forall_inv (proj1 Hs)). assert (F2 := Forall_inv (Forall_inv_tail (proj1 Hs))). f_equal; eapply sees_fun; try eassumption; apply bc_get_sees with (s := s); assumption.
Qed.
End Given.
(** every element of the broadcast value and temperature is solved for by itself *)
Theorem C125_solve V T s : array V -> array T -> common [shape V; shape T] s -> flat V <> [] -> flat T <> [] -> (forall i v t, index s i -> sees V i v -> sees T i t -> exists c, solve v t = Ok c) ->
  exists C, nd_solve X fa solve V T = Ok C /\ pointwise (fun v t c => solve v t = Ok c) V T C s.
Proof.
  intros HV HT Hs NV NT Ok_. assert (F1 := Forall_inv (proj1 Hs)). assert (F2 := Forall_inv (Forall_inv_tail (proj1 Hs))).
  destruct (solve_start V T s HV HT Hs NV NT) as (x & t & Sx & St & I0 & P0 & E). destruct (Ok_ _ x t I0 Sx St) as (c0 & E0). rewrite E, E0. cbv beta iota delta [rbind].
  destruct (mapM_all (fun k => solve (bc_get z V (unravel s k)) (bc_get z T (unravel s k))) (seq 0 (size s))) as (l & El & Ll & Pl).
  { intros k Hk. apply in_seq in Hk. destruct (unravel_index s k) as (I & _); [lia|]. apply (Ok_ (unravel s k)); [exact I|apply bc_get_sees with (s := s); assumption|apply bc_get_sees with (s := s); assumption]. }
  rewrite El. eexists. split; [reflexivity|]. split; [unfold array; cbn [shape flat]; rewrite Ll, seq_length; apply size_count|]. split; [reflexivity|]. intros i v t' I Sv St'. pose proof (place_lt _ _ I) as L.
  destruct (Pl (place s i) (place s i)) as (c & E1 & E2); [rewrite (nth_error_nth' _ 0%nat) by (rewrite seq_length; exact L); rewrite seq_nth by exact L; reflexivity|]. exists c. split; [rewrite <- E1; symmetry; apply (solve_at V T s HV HT Hs); assumption|]. split; [exact I|exact E2].
Qed.
(** the first failure is the one that is raised *)
Theorem C125_solve_fails V T s i v t e : array V -> array T -> common [shape V; shape T] s -> flat V <> [] -> flat T <> [] -> index s i -> sees V i v -> sees T i t -> solve v t = Err e ->
  (forall i' v' t', index s i' -> (place s i' < place s i)%nat -> sees V i' v' -> sees T i' t' -> exists c, solve v' t' = Ok c) -> nd_solve X fa solve V T = Err e.
Proof.
  intros HV HT Hs NV NT I Sv St Er Before. assert (F1 := Forall_inv (proj1 Hs)). assert (F2 := Forall_inv (Forall_inv_tail (proj1 Hs))). pose proof (place_lt _ _ I) as L.
  destruct (solve_start V T s HV HT Hs NV NT) as (x & t0 & Sx & St0 & I0 & P0 & E). rewrite E.
  destruct (Nat.eq_dec (place s i) 0) as [Z|Z].
  - assert (Ei : i = List.map (fun _ => 0%nat) s) by (rewrite <- (unravel_place s i I), <- (unravel_place s _ I0), Z, P0; reflexivity). subst i. rewrite (sees_fun _ _ _ _ Sx Sv), (sees_fun _ _ _ _ St0 St), Er. reflexivity.
  - destruct (Before _ x t0 I0 ltac:(lia) Sx St0) as (c0 & E0). rewrite E0. cbv beta iota delta [rbind].
    replace (seq 0 (size s)) with (seq 0 (place s i) ++ place s i :: seq (S (place s i)) (size s - S (place s i))) by (symmetry; replace (size s) with (place s i + S (size s - S (place s i)))%nat at 1 by lia; rewrite seq_app; reflexivity).
    rewrite (mapM_err _ _ _ _ e); [reflexivity| |rewrite (solve_at V T s HV HT Hs i v t I Sv St); exact Er].
    intros k Hk. apply in_seq in Hk. destruct (unravel_index s k) as (Ik & Pk); [lia|]. apply (Before (unravel s k)); [exact Ik|rewrite Pk; lia|apply bc_get_sees with (s := s); assumption|apply bc_get_sees with (s := s); assumption].
Qed.
Theorem C125_solve_refused V T : flat V = [] \/ flat T = [] -> nd_solve X fa solve V T = Err ValueError.
Proof. intros [H|H]; unfold nd_solve; rewrite H; [reflexivity|destruct (flat V); reflexivity]. Qed.
Theorem C125_solve_mismatch x y (V T : list X) : V <> [] -> T <> [] -> (forall v t, exists c, solve v t = Ok c) -> no_common [x; y] -> nd_solve X fa solve (Nd x V) (Nd y T) = Err ValueError.
Proof.
  intros NV NT Ok_ N. unfold nd_solve. cbn [flat shape]. destruct V as [|v V]; [congruence|]. destruct T as [|t T]; [congruence|]. destruct (Ok_ v t) as (c & ->). cbv beta iota delta [rbind]. rewrite (proj2 (broadcast_none [x; y])); [reflexivity|exact N].
Qed.
End C125.

(** ** over the real numbers: the single values are those of BandModel *)
Section Real.
Local Open Scope R_scope.
Lemma dfx_real f EF T k : one_dfx R real_fa f EF T k = romb_dfx f EF T k 6.
Proof.
  unfold one_dfx, romb_dfx. cbv zeta.
  assert (Q : f_romb real_fa (List.map (one_sample R real_fa f EF T k 64) (seq 0 65)) = rombR (sample f EF T k 6) 6).
  { unfold real_fa at 1. cbn [f_romb]. apply romb_ext. intros j Hj. change (2 ^ 6)%nat with 64%nat in Hj. rewrite (nth_indep _ 0 (one_sample R real_fa f EF T k 64 0)) by (rewrite map_length, seq_length; lia). rewrite (map_nth (one_sample R real_fa f EF T k 64) (seq 0 65) 0%nat j), seq_nth by lia. cbn [Nat.add].
    unfold one_sample, sample. cbv zeta.
    assert (E1 : one_xp R real_fa EF T 64 j = xp EF T 6 j).
    { unfold one_xp, xp. change (nbins 6) with 64%nat. destruct ((j =? 0)%nat || (j =? 64)%nat)%bool; [|reflexivity]. change (0 - EF / kT T + eps = - (EF / kT T) + eps). ring. }
    rewrite E1. change (f_lin real_fa (one_width R real_fa EF T) 64 j) with (tp EF T 6 j). unfold energy. change (one_kT R real_fa T) with (kT T). generalize (xp EF T 6 j) (tp EF T 6 j). intros x t.
    change (f (kT T * x + EF) T * (x ^ k * 3 * (t * (1 - t)) ^ 2 / (t ^ 3 + (1 - t) ^ 3) ^ 2) = f (kT T * x + EF) T * (x ^ k * weight0 t)). unfold weight0. f_equal. unfold Rdiv. ring. }
  rewrite Q. change (one_width R real_fa EF T) with (width EF T). change (nbins 6) with 64%nat. generalize (rombR (sample f EF T k 6) 6) (width EF T). intros a w. change (a * w / INR 64 = a * (w / INR 64)). unfold Rdiv. ring.
Qed.
Lemma method_real (o : vobj R R) (o' : obj) p EF T n (k : nat -> R) h : o_sign o' = vo_sign _ _ o -> o_cache o' = None -> vo_N _ _ o EF T = Ok n -> (forall j, vo_K _ _ o j EF T = Ok (k j)) -> vo_H _ _ o EF T = h ->
  o_N o' (Some EF) (Some T) = Ok n -> (forall j, o_K o' j (Some EF) (Some T) = Ok (k j)) -> o_H o' (Some EF) (Some T) = h ->
  v_method R real_fa R (fun f x => f x) (fun f x y => Ok (f x y)) (fun x => x) o p EF T = method o' p (Some EF) (Some T).
Proof.
  intros Sg C N1 K1 H1 N2 K2 H2. unfold v_method, method, fetch_N, fetch_K, fetch_H, fetch_T. cbv zeta. rewrite C, N1, N2, H1, H2, !K1, !K2, Sg. clear. generalize (k 0%nat) (k 1%nat) (k 2%nat) (vo_sign R R o). intros k0 k1 k2 sg.
  destruct p; try reflexivity; destruct h as [[h|]|e]; reflexivity.
Qed.
(** one band *)
Theorem C125_single b p EF T : one_band R real_fa b p EF T = method (self_band (as_band b)) p (Some EF) (Some T).
Proof.
  unfold one_band. eapply method_real; try reflexivity.
  - cbn [obj_band vo_N]. unfold band_N, s_dfx. rewrite dfx_real. reflexivity.
  - intros j. cbn [obj_band vo_K]. unfold band_K, s_dfx. rewrite dfx_real. reflexivity.
  - cbn [obj_band vo_H self_band o_H as_band b_raw as_raw r_H b_sign]. unfold band_H. destruct (vb_hall b); [|reflexivity]. unfold s_dfx. rewrite dfx_real. reflexivity.
Qed.
(** the classes: the functions of SpbModel *)
Theorem C125_single_classes sg m_d sigma0 Eg Kmass vF : 0 < vF ->
  as_raw (one_spb R real_fa sg m_d sigma0 Kmass) = spb m_d sigma0 Kmass
  /\ (0 < Eg -> skb m_d sigma0 Eg Kmass = Ok (as_raw (one_skb R real_fa sg m_d sigma0 Eg Kmass)))
  /\ (forall EF T k, r_N (as_raw (one_lin R real_fa sg vF sigma0)) EF T = r_N (linear vF sigma0) EF T /\ r_K (as_raw (one_lin R real_fa sg vF sigma0)) k EF T = r_K (linear vF sigma0) k EF T)
  /\ r_H (as_raw (one_lin R real_fa sg vF sigma0)) = r_H (linear vF sigma0).
Proof.
  intros Hv. split; [reflexivity|]. split; [intros Hg; unfold skb; destruct (Rlt_dec 0 Eg); [reflexivity|contradiction]|]. split; [|reflexivity]. intros EF T k. split; cbn [as_raw r_N r_K linear]; (unfold romb_dfx; f_equal; apply romb_ext; intros j _; unfold sample; f_equal).
  - unfold lin_idos. rewrite Rabs_right by lra. reflexivity.
  - unfold lin_trs. change (sigma0 * 1 = sigma0). ring.
Qed.
(** several bands *)
Lemma total_real h (l : list (vband R R * R)) its g g' e : as_items h l its -> (forall b i e', h i = as_band b -> g' i e' = g b e') ->
  v_total R real_fa R (fun f x y => Ok (f x y)) (fun x => x) g l e = total its (fun i d => need (reduced h (Some e) i d) (fun e' => g' i e')).
Proof.
  unfold v_total. intros H G.
  assert (Er : forall er m, fold_left (fun acc bd => let! x := acc in let! y := (let! e0 := efr R real_fa R (fun f x y => Ok (f x y)) (fun x => x) (fst bd) (snd bd) e in g (fst bd) e0) in Ok (x + y)) m (Err er) = Err er) by (intros er m; induction m; auto).
  assert (K : forall a, fold_left (fun acc bd => let! x := acc in let! y := (let! e0 := efr R real_fa R (fun f x y => Ok (f x y)) (fun x => x) (fst bd) (snd bd) e in g (fst bd) e0) in Ok (x + y)) l (Ok a)
    = let! s := total its (fun i d => need (reduced h (Some e) i d) (fun e' => g' i e')) in Ok (a + s)).
  { induction H as [|[b d] [i d'] l its (Hb & Hd) H IH]; intros a; [cbn [fold_left total rbind]; f_equal; ring|]. cbn [fst snd] in Hb, Hd. subst d'. cbn [fold_left fst snd total]. unfold reduced at 1, need at 1. rewrite Hb. cbn [as_band b_sign].
    match goal with |- fold_left ?P l ?q = _ => assert (Q : q = let! y := g b (-1 * vb_sign b * (e - d)) in Ok (a + y)) by reflexivity; rewrite Q end.
    rewrite (G b i _ Hb). destruct (g b (-1 * vb_sign b * (e - d))) as [c|er]; [|apply Er]. etransitivity; [apply IH|]. cbv beta iota delta [rbind].
    destruct (total its _) as [s|er]; cbv beta iota; [f_equal; ring|reflexivity]. }
  etransitivity; [apply (K 0)|]. destruct (total its _) as [s|er]; cbv beta iota delta [rbind]; [f_equal; ring|reflexivity].
Qed.
Theorem C125_single_multi h l its p EF T : as_items h l its -> one_multi R real_fa l p EF T = method (self_multi h {| m_items := its; m_cache := None |}) p (Some EF) (Some T).
Proof.
  intros H. unfold one_multi. set (o := obj_multi _ _ _ _ _ _ _).
  assert (VN : exists n, vo_N _ _ o EF T = Ok n) by (apply total_one; intros; eexists; reflexivity). destruct VN as (n & EN).
  assert (VK : exists k, forall j, vo_K _ _ o j EF T = Ok (k j)).
  { assert (V : forall j, exists c, vo_K _ _ o j EF T = Ok c) by (intros j; apply total_one; intros; eexists; reflexivity). exists (fun j => match vo_K _ _ o j EF T with Ok c => c | Err _ => 0 end). intros j. destruct (V j) as (c & ->). reflexivity. }
  destruct VK as (k & EK).
  eapply method_real with (n := n) (k := k); try reflexivity; [exact EN|exact EK| | |].
  - rewrite <- EN. symmetry. cbn [self_multi o_N m_items]. unfold multi_N. apply (total_real h l its _ (fun i e' => fetch_N (self_band (h i)) (Some e') (Some T)) EF H). intros b i e' E. rewrite E. unfold band_N, s_dfx. rewrite dfx_real. reflexivity.
  - intros j. rewrite <- EK. symmetry. cbn [self_multi o_K m_items]. unfold multi_K. apply (total_real h l its _ (fun i e' => let! x := fetch_K (self_band (h i)) j (Some e') (Some T) in Ok (b_sign (h i) ^ j * x)) EF H). intros b i e' E. rewrite E. unfold band_K, s_dfx. rewrite dfx_real. reflexivity.
  - cbn [self_multi o_H m_items]. unfold o. cbn [obj_multi vo_H]. f_equal. symmetry. unfold multi_H. apply (total_real h l its _ (fun i e' => let! x := fetch_H (self_band (h i)) (Some e') (Some T) in num x) EF H). intros b i e' E. rewrite E. unfold fetch_H. cbn [as_band self_band o_cache o_H b_cache b_raw as_raw r_H b_sign]. unfold band_H. destruct (vb_hall b); [|reflexivity]. unfold s_dfx. rewrite dfx_real. reflexivity.
Qed.
(** bipolar thermal conductivity *)
Lemma quad (a b c d a' b' c' d' : R) : a = a' -> b = b' -> c = c' -> d = d' -> Ok (a, b, c, d) = Ok (a', b', c', d').
Proof. intros -> -> -> ->. reflexivity. Qed.
Lemma bip_real h l its EF T : as_items h l its -> forall c0 c1 v0 v1, fold_left (bip_step R real_fa R (fun f x y => Ok (f x y)) (fun x => x) (s_dfx R real_fa) neg_real T EF) l (Ok (c0, c1, v0, v1))
  = let! (d0, d1, w0, w1) := bip_totals h its (Some EF) (Some T) in Ok (c0 + d0, c1 + d1, v0 + w0, v1 + w1).
Proof.
  induction 1 as [|[b d] [i d'] l its (Hb & Hd) H IH]; intros c0 c1 v0 v1; [cbn [fold_left bip_totals rbind]; apply quad; ring|]. cbn [fst snd] in Hb, Hd. subst d'. cbn [fold_left bip_totals]. rewrite Hb. cbn [as_band b_sign]. unfold bip_step at 2.
  unfold neg_real at 2. destruct (Rlt_dec (vb_sign b) 0).
  - match goal with |- fold_left ?P l ?q = _ => assert (Q : q = Ok (c0 + r_K (as_raw b) 0 (EF - d) T, c1 - r_K (as_raw b) 1 (EF - d) T, v0, v1)) by (cbn [as_raw r_K]; rewrite <- !dfx_real; reflexivity); rewrite Q end.
    rewrite IH. unfold fetch_K. cbn [as_band self_band o_cache o_K b_cache b_raw both]. cbv beta iota delta [rbind]. destruct (bip_totals h its (Some EF) (Some T)) as [[[[d0 d1] w0] w1]|er]; [|reflexivity]. cbv beta iota. apply quad; ring.
  - match goal with |- fold_left ?P l ?q = _ => assert (Q : q = Ok (c0, c1, v0 + r_K (as_raw b) 0 (d - EF) T, v1 + r_K (as_raw b) 1 (d - EF) T)) by (cbn [as_raw r_K]; rewrite <- !dfx_real; reflexivity); rewrite Q end.
    rewrite IH. unfold fetch_K. cbn [as_band self_band o_cache o_K b_cache b_raw both]. cbv beta iota delta [rbind]. destruct (bip_totals h its (Some EF) (Some T)) as [[[[d0 d1] w0] w1]|er]; [|reflexivity]. cbv beta iota. apply quad; ring.
Qed.
Theorem C125_single_Kbip h l its EF T : as_items h l its -> one_Kbip R real_fa neg_real l EF T = Kbip h {| m_items := its; m_cache := None |} (Some EF) (Some T).
Proof.
  intros H. unfold one_Kbip, v_Kbip, Kbip. cbv zeta. change (a_lit (f_ar real_fa) 0) with 0. rewrite (bip_real h l its EF T H). cbn [m_items].
  assert (Q : forall f : bool -> bool, existsb (fun bd : vband R R * R => f (neg_real (vb_sign (fst bd)))) l = existsb (fun id => f (is_c h id)) its).
  { intros f. clear - H. induction H as [|[b d] [i d'] l its (Hb & Hd) H IH]; [reflexivity|]. cbn [existsb fst]. cbn [fst] in Hb. rewrite IH. unfold is_c. cbn [fst]. rewrite Hb. reflexivity. }
  rewrite (Q (fun b => b)), (Q negb). change (existsb (fun id => is_c h id) its) with (existsb (is_c h) its). destruct (bip_totals h its (Some EF) (Some T)) as [[[[d0 d1] w0] w1]|er]; [|reflexivity]. cbv beta iota delta [rbind].
  destruct (existsb (is_c h) its), (existsb (fun id => negb (is_c h id)) its); cbn [andb]; try reflexivity. unfold fetch_T. cbn [self_multi o_cache m_cache num].
  change (Ok (1e2 * kB * kB * ((0 + d1) ^ 2 / (0 + d0) + (0 + w1) ^ 2 / (0 + w0) - (0 + d1 + (0 + w1)) ^ 2 / (0 + d0 + (0 + w0))) * T) = Ok (1e2 * kB * kB * (d1 ^ 2 / d0 + w1 ^ 2 / w0 - (d1 + w1) ^ 2 / (d0 + w0)) * T)). rewrite !Rplus_0_l. reflexivity.
Qed.
End Real.
(** four Fermi levels in a row and two temperatures in a column give eight Seebeck coefficients, each that of its own Fermi level and temperature *)
Example C125_case : let EF := Nd [4%nat] [-1e-2; 0; 1e-2; 2e-2]%R in let T := Nd [2; 1]%nat [300; 600]%R in
  common [shape EF; shape T] [2; 4]%nat
  /\ (exists C, nd_band R real_fa (nd_spb R real_fa 1%R 1%R 1%R 1%R) PS EF T = Ok (Some C) /\ shape C = [2; 4]%nat
      /\ nth_error (flat C) 6 = Some (get (spb 1%R 1%R 1%R) PS 1e-2%R 600%R))
  /\ (exists C, nd_Kbip R real_fa neg_real [(nd_spb R real_fa 1%R 1%R 1%R 1%R, 0%R); (nd_linear R real_fa (-1)%R 1%R 1%R, 1e-1%R)] EF T = Ok C /\ shape C = [2; 4]%nat)
  /\ nd_multi R real_fa [(nd_spb R real_fa 1%R 1%R 1%R 1%R, 0%R); (nd_linear R real_fa (-1)%R 1%R 1%R, 1e-1%R)] PRH EF T = Err TypeError
  /\ nd_band R real_fa (nd_spb R real_fa 1%R 1%R 1%R 1%R) PS (Nd [3%nat] [0; 0; 0]%R) (Nd [2%nat] [300; 600]%R) = Err ValueError.
Proof.
  cbv zeta. set (EF := Nd [4%nat] [-1e-2; 0; 1e-2; 2e-2]%R). set (T := Nd [2; 1]%nat [300; 600]%R). assert (Hs : common [shape EF; shape T] [2; 4]%nat) by (apply broadcast_common; reflexivity). split; [exact Hs|].
  destruct (C125_classes R real_fa 1%R 1%R 1%R 1%R 1%R 1%R) as (S1 & _ & _ & V1 & _). destruct (C125_classes R real_fa (-1)%R 1%R 1%R 1%R 1%R 1%R) as (_ & _ & S2 & _ & _ & V2).
  assert (SB : same_bands [(nd_spb R real_fa 1%R 1%R 1%R 1%R, 0%R); (nd_linear R real_fa (-1)%R 1%R 1%R, 1e-1%R)] [(one_spb R real_fa 1%R 1%R 1%R 1%R, 0%R); (one_lin R real_fa (-1)%R 1%R 1%R, 1e-1%R)]) by (constructor; [split; [exact S1|reflexivity]|constructor; [split; [exact S2|reflexivity]|constructor]]).
  split; [|split; [|split]].
  - destruct (C125_band R real_fa _ _ PS EF T [2; 4]%nat eq_refl eq_refl Hs S1 (or_intror V1)) as (C & E & AC & SC & P). exists C. split; [exact E|]. split; [exact SC|].
    destruct (P [1; 2]%nat 1e-2%R 600%R) as (c & Ec & (_ & Q)); [repeat constructor| |exists [], [1; 2]%nat; repeat split; repeat constructor|].
    + exists [1%nat], [2%nat]. repeat split. repeat constructor.
    + rewrite SC in Q. change (place [2; 4]%nat [1; 2]%nat) with 6%nat in Q. rewrite Q. f_equal. rewrite C125_single in Ec. unfold get. rewrite <- (proj1 (C125_single_classes 1%R 1%R 1%R 1%R 1%R 1%R ltac:(lra))). unfold plain. unfold as_band in Ec. cbn [vb_sign one_spb v_spb] in Ec. rewrite Ec. reflexivity.
  - destruct (C125_Kbip R real_fa neg_real _ _ EF T [2; 4]%nat eq_refl eq_refl Hs SB ltac:(discriminate)) as (C & E & AC & SC & _). exists C. split; [exact E|exact SC].
  - apply (C125_multi_no_hall R real_fa _ _ PRH EF T [2; 4]%nat eq_refl eq_refl Hs SB ltac:(discriminate)); [unfold hall_prop; auto|]. intros A. exact (A (one_lin R real_fa (-1)%R 1%R 1%R) 1e-1%R (or_intror (or_introl eq_refl)) V2).
  - apply C125_refused; [|left; discriminate]. cbn [shape]. refine (proj1 (broadcast_none _) _). reflexivity.
Qed.
Print Assumptions C125_band.
Print Assumptions C125_no_hall.
Print Assumptions C125_refused.
Print Assumptions C125_multi.
Print Assumptions C125_multi_no_hall.
Print Assumptions C125_multi_refused.
Print Assumptions C125_Kbip.
Print Assumptions C125_classes.
Print Assumptions C125_solve.
Print Assumptions C125_solve_fails.
Print Assumptions C125_solve_refused.
Print Assumptions C125_solve_mismatch.
Print Assumptions C125_single.
Print Assumptions C125_single_classes.
Print Assumptions C125_single_multi.
Print Assumptions C125_single_Kbip.
