(** Lemmas for band properties on arrays. *)
From Coq Require Import ZArith Reals String Ascii Permutation Sorted Lia.
From Verif Require Import Py PyStr RUtil RombModel BandModel SpbModel ArrModel ArrSpec ArrProofs VecModel VecSpec VecProofs BvecModel BvecSpec.
Local Open Scope list_scope.
Local Open Scope nat_scope.

Lemma fits_lead n s : fits s (n :: s).
Proof. exists [n], s. split; [reflexivity|]. induction s; constructor; auto. Qed.
Section Rows.
Variable X : Type.
Variable x0 : X.
Notation relx := (rel X).
Lemma rel_weak' s i (b t : list nat -> Prop) A x : relx s i t A x -> (forall l, b l -> t l) -> relx s i b A x.
Proof. intros (H1 & H2 & H3 & H4) H. split; [exact H1|]. split; [exact H2|]. split; [intros l Q; exact (H3 l (H l Q))|exact H4]. Qed.
Lemma rel_lead n s i j t A x : relx s i t A x -> relx (n :: s) (j :: i) t A x.
Proof.
  intros (HA & F & T & E). split; [exact HA|]. split; [exact (fits_trans _ _ _ F (fits_lead n s))|]. split; [exact T|]. intros I. inversion I as [|? ? ? ? H2 H4]; subst. destruct (E H4) as (lead & i' & -> & P & L). exists (j :: lead), i'. auto.
Qed.
Lemma exact_rel s i A x : array A -> shape A = s -> (index s i -> elem A i x) -> relx s i (eq s) A x.
Proof.
  intros HA <- E. split; [exact HA|]. split; [apply fits_refl|]. split; [intros l <-; apply fits_refl|]. intros I. exists [], i. split; [reflexivity|]. split; [|apply index_length, I].
  assert (P : List.map (fun dk => if fst dk =? 1 then 0 else snd dk) (combine (shape A) i) = i).
  { clear - I. unfold index in I. induction I as [|n k s i H I IH]; [reflexivity|]. cbn. f_equal; [|exact IH]. destruct (Nat.eqb_spec n 1); [lia|reflexivity]. }
  rewrite P. exact (E I).
Qed.
Lemma rel_elem s i t A x : relx s i t A x -> shape A = s -> index s i -> elem A i x.
Proof.
  intros (_ & _ & _ & E) S I. destruct (E I) as (lead & i' & Ei & P & L). assert (List.length i = List.length i') by (rewrite L, S; apply index_length, I). destruct lead as [|? ?]; [|apply (f_equal (@List.length nat)) in Ei; cbn in Ei; rewrite app_length in Ei; lia].
  cbn in Ei. subst i'. subst s.
  assert (Q : List.map (fun dk => if fst dk =? 1 then 0 else snd dk) (combine (shape A) i) = i).
  { clear - I. unfold index in I. induction I as [|n k s i H I IH]; [reflexivity|]. cbn. f_equal; [|exact IH]. destruct (Nat.eqb_spec n 1); [lia|reflexivity]. }
  rewrite Q in P. exact P.
Qed.
Lemma rel_shape s i (t : list nat -> Prop) A x : relx s i t A x -> t s -> array A /\ shape A = s.
Proof. intros (HA & F & T & _) Q. split; [exact HA|]. apply fits_antisym; [exact F|apply T, Q]. Qed.
Lemma place_lead n s j i : index s i -> place (n :: s) (j :: i) = j * size s + place s i.
Proof. intros I. apply place_cons. apply index_length, I. Qed.
(** a new first axis *)
Lemma lin_array lin n (W : nd X) : array W -> array (nd_lin lin n W).
Proof.
  unfold array, nd_lin. cbn [shape flat]. intros H. unfold count. cbn [fold_right]. fold (count (shape W)). rewrite <- H. generalize (S n) as m, 0 as a. induction m as [|m IH]; intros a; [reflexivity|]. cbn [seq flat_map]. rewrite app_length, map_length, IH. reflexivity.
Qed.
Lemma nth_flat_map (f : nat -> list X) q m : (forall j, List.length (f j) = q) -> forall a j k, j < m -> k < q -> nth_error (flat_map f (seq a m)) (j * q + k) = nth_error (f (a + j)) k.
Proof.
  intros L. induction m as [|m IH]; intros a j k Hj Hk; [lia|]. cbn [seq flat_map]. destruct j as [|j].
  - rewrite nth_error_app1 by (rewrite L; lia). rewrite Nat.add_0_r. reflexivity.
  - rewrite nth_error_app2 by (rewrite L; lia). rewrite L. replace (S j * q + k - q) with (j * q + k) by lia. rewrite IH by lia. f_equal. f_equal. lia.
Qed.
Lemma lin_rel lin n (W : nd X) s i j w : array W -> shape W = s -> (index s i -> elem W i w) -> j <= n -> relx (S n :: s) (j :: i) (eq (S n :: s)) (nd_lin lin n W) (lin w n j).
Proof.
  intros HA <- E Hj. apply exact_rel; [apply lin_array, HA|reflexivity|]. intros I. inversion I as [|? ? ? ? H2 H4]; subst. destruct (E H4) as (_ & P). split; [exact I|]. cbn [nd_lin shape flat]. rewrite place_lead by exact H4.
  pose proof (place_lt _ _ H4) as L. rewrite (nth_flat_map _ (size (shape W))); [|intros a; rewrite map_length; unfold array in HA; rewrite HA; symmetry; apply size_count|lia|exact L]. rewrite nth_error_map, P. reflexivity.
Qed.
Lemma inner_rel n A B s i j a b t u : relx (S n :: s) (j :: i) t A a -> relx (S n :: s) (j :: i) u B b -> shape A = S n :: s -> shape B = S n :: s -> relx (S n :: s) (j :: i) (eq (S n :: s)) (set_inner x0 n A B) (if ((j =? 0) || (j =? n))%bool then a else b).
Proof.
  intros HA HB SA SB. apply exact_rel; [unfold array, set_inner; cbn [shape flat]; rewrite map_length, seq_length; apply size_count|exact SA|]. intros I. destruct (rel_elem _ _ _ _ _ HA SA I) as (_ & PA). destruct (rel_elem _ _ _ _ _ HB SB I) as (_ & PB).
  rewrite SA in PA. rewrite SB in PB. split; [unfold set_inner; cbn [shape]; rewrite SA; exact I|]. unfold set_inner. cbn [shape flat]. rewrite SA. cbn [tl]. pose proof (place_lt _ _ I) as L. rewrite nth_error_map.
  rewrite (nth_error_nth' (seq 0 (size (S n :: s))) 0) by (rewrite seq_length; exact L). rewrite seq_nth by exact L. cbn [option_map Nat.add]. f_equal. inversion I as [|? ? ? ? H2 H4]; subst. pose proof (place_lt _ _ H4) as L2.
  assert (D : place (S n :: s) (j :: i) / size s = j). { rewrite place_lead by exact H4. rewrite Nat.div_add_l by lia. rewrite Nat.div_small by exact L2. lia. }
  rewrite D. destruct ((j =? 0) || (j =? n))%bool; apply nth_error_nth; assumption.
Qed.
Lemma romb_rel rm n (A : nd X) s i (x : nat -> X) : array A -> shape A = S n :: s -> (index s i -> forall j, j <= n -> elem A (j :: i) (x j)) -> relx s i (eq s) (romb0 x0 rm n A) (rm (List.map x (seq 0 (S n)))).
Proof.
  intros HA SA E. apply exact_rel; [unfold array, romb0; cbn [shape flat]; rewrite map_length, seq_length, SA; apply size_count|unfold romb0; cbn [shape]; rewrite SA; reflexivity|]. intros I. split; [unfold romb0; cbn [shape]; rewrite SA; exact I|].
  unfold romb0. cbn [shape flat]. rewrite SA. cbn [tl]. pose proof (place_lt _ _ I) as L. rewrite nth_error_map. rewrite (nth_error_nth' (seq 0 (size s)) 0) by (rewrite seq_length; exact L). rewrite seq_nth by exact L. cbn [option_map Nat.add]. f_equal. f_equal. apply map_ext_in. intros j Hj. apply in_seq in Hj.
  destruct (E I j ltac:(lia)) as (_ & P). rewrite SA, place_lead in P by exact I. apply nth_error_nth. exact P.
Qed.
(** the values of a function of two arrays *)
Lemma bcast_rel func f E T s i t u e x : broadcasts func f -> relx s i t E e -> relx s i u T x -> shape E = s -> exists C c, func E T = Ok C /\ f e x = Ok c /\ relx s i (eq s) C c.
Proof.
  intros (Tot & B) HE HT SE. destruct HE as (AE & FE & _ & EE), HT as (AT & FT & _ & ET). destruct (B E T AE AT) as (C & EC & AC & SC & P); [rewrite SE; exact FT|]. destruct (Tot e x) as (c & F). exists C, c. split; [exact EC|]. split; [exact F|].
  apply exact_rel; [exact AC|congruence|]. intros I. rewrite SE in P. destruct (P i e x I (EE I) (ET I)) as (c' & F' & L). rewrite F in F'. injection F' as <-. exact L.
Qed.
End Rows.

Section Walk.
Variable X : Type.
Variable fa : farith X.
Let ar := f_ar fa.
Let z := a_lit ar 0%R.
Notation relx := (rel X).
Notation set := (list nat -> Prop).
Let s1 (f : X -> X) (x : X) := f x.
Let s2 (f : X -> X -> X) (x y : X) : res X := Ok (f x y).
Let c1 (x : X) := x.
Definition least (t : set) (s : list nat) : Prop := forall r, (forall l, t l -> fits l r) -> fits s r.
Lemma rel_least s i (t : set) A x : relx s i t A x -> least t s -> relx s i (eq s) A x.
Proof. intros (HA & F & T & E) L. split; [exact HA|]. split; [exact F|]. split; [intros l <-; apply L, T|exact E]. Qed.
Lemma least_eq s (t : set) : t s -> least t s.
Proof. intros H r Q. apply Q, H. Qed.

Ltac get_rel A :=
  match A with
  | con0 ?c => match goal with |- context [rel _ ?s ?i _ _ _] => constr:(con_rel X s i c) | H : rel _ ?s ?i _ _ _ |- _ => constr:(con_rel X s i c) end
  | u1 ?f ?B => let h := get_rel B in constr:(u1_rel X _ _ _ f B _ h)
  | _ => match goal with H : rel _ _ _ _ A _ |- _ => H end
  end.
Ltac step :=
  match goal with
  | |- context [u2 ?zz ?f ?A ?B] =>
      let ha := get_rel A in let hb := get_rel B in
      let C := fresh "C" in let E := fresh "E" in let H := fresh "H" in
      destruct (u2_rel X zz _ _ _ _ f A B _ _ ha hb) as (C & E & H); rewrite E; clear E; cbv beta iota
  end.
Ltac finish :=
  repeat match goal with |- _ /\ _ => split end;
  match goal with
  | |- True => exact I
  | H : rel _ ?s ?i ?t ?A ?x |- rel _ ?s ?i ?b ?A ?x => apply (rel_weak' X s i b t A x H); cbv beta; intros; tauto
  | H : rel _ ?s ?i ?t ?A ?x |- rel _ ?s ?i ?b (u1 ?f ?A) _ => apply (rel_weak' X s i b t (u1 f A) (f x) (u1_rel X s i t f A x H)); cbv beta; intros; tauto
  end.

Lemma width_walk s i (t u : set) EF T e x : relx s i t EF e -> relx s i u T x ->
  exists K Y W, nd_width X fa EF T = Ok (K, Y, W) /\ relx s i u K (one_kT X fa x) /\ relx s i (fun l => t l \/ u l) Y (a_div ar e (one_kT X fa x)) /\ relx s i (fun l => t l \/ u l) W (one_width X fa e x).
Proof.
  intros He Hx. unfold nd_width. cbv beta iota zeta delta [rbind]. fold ar z. repeat step. do 3 eexists. split; [reflexivity|]. unfold one_width, one_kT. fold ar. finish.
Qed.
Lemma samples_walk func f s i (t u : set) EF T e x k n K Y W j : broadcasts func f -> relx s i t EF e -> relx s i u T x ->
  relx s i u K (one_kT X fa x) -> relx s i (fun l => t l \/ u l) Y (a_div ar e (one_kT X fa x)) -> relx s i (eq s) W (one_width X fa e x) -> j <= n ->
  exists A, nd_samples X fa func EF T k n K Y W = Ok A /\ relx (S n :: s) (j :: i) (eq (S n :: s)) A (one_sample X fa (fun e t => val X z (f e t)) e x k n j).
Proof.
  intros B He Hx HK HY HW Hj. destruct (rel_shape X _ _ _ _ _ HW eq_refl) as (AW & SW).
  assert (Ht := lin_rel X (f_lin fa) n W s i j (one_width X fa e x) AW SW (fun I => rel_elem X _ _ _ _ _ HW SW I) Hj).
  apply (rel_lead X (S n) s i j) in He, Hx, HK, HY, HW. set (tp := nd_lin (f_lin fa) n W) in *. set (tj := f_lin fa (one_width X fa e x) n j) in *.
  unfold nd_samples. cbv zeta. fold tp. cbv beta iota delta [rbind]. fold ar z. do 2 step. do 3 step.
  match goal with |- context [set_inner z n ?P ?Q] => 
    match goal with HP : rel X _ _ ?pt P ?px, HQ : rel X _ _ ?qt Q ?qx |- _ => 
      assert (SP : shape P = S n :: s) by (apply (proj2 (rel_shape X _ _ _ _ _ HP ltac:(cbv beta; tauto)))); assert (SQ : shape Q = S n :: s) by (apply (proj2 (rel_shape X _ _ _ _ _ HQ ltac:(cbv beta; tauto))));
      pose proof (inner_rel X z n P Q s i j px qx pt qt HP HQ SP SQ) as Hin; set (xp := set_inner z n P Q) in * end end.
  match type of Hin with rel _ _ _ _ _ ?q => change q with (one_xp X fa e x n j) in Hin; set (xj := one_xp X fa e x n j) in * end.
  do 2 step.
  match goal with |- context [func ?E T] => match goal with HE : rel X _ _ ?pt E ?px |- _ => assert (SE : shape E = S n :: s) by (apply (proj2 (rel_shape X _ _ _ _ _ HE ltac:(cbv beta; tauto)))); destruct (bcast_rel X func f E T _ _ _ _ _ _ B HE Hx SE) as (FP & fp & EF1 & EF2 & HF) end end.
  rewrite EF1. repeat step. eexists. split; [reflexivity|]. unfold one_sample. cbv zeta. fold tj xj ar. unfold val. rewrite EF2. finish.
Qed.
Lemma dfx_walk func f s i (t u : set) EF T e x k : broadcasts func f -> relx s i t EF e -> relx s i u T x -> least (fun l => t l \/ u l) s ->
  exists C, nd_dfx X fa func EF T k = Ok C /\ relx s i (eq s) C (one_dfx X fa (fun e t => val X z (f e t)) e x k).
Proof.
  intros B He Hx L. destruct (width_walk _ _ _ _ _ _ _ _ He Hx) as (K & Y & W & E & HK & HY & HW). pose proof (rel_least _ _ _ _ _ HW L) as HW'. unfold nd_dfx. cbv zeta. rewrite E. cbv beta iota delta [rbind]. set (n := 64).
  assert (Sm := fun j => samples_walk func f s i t u EF T e x k n K Y W j B He Hx HK HY HW').
  destruct (Sm 0 ltac:(lia)) as (A & EA & HA). rewrite EA. destruct (rel_shape X _ _ _ _ _ HA eq_refl) as (A1 & A2).
  assert (Hr := romb_rel X z (f_romb fa) n A s i (one_sample X fa (fun e t => val X z (f e t)) e x k n) A1 A2).
  assert (Hr' : relx s i (eq s) (romb0 z (f_romb fa) n A) (f_romb fa (List.map (one_sample X fa (fun e t => val X z (f e t)) e x k n) (seq 0 (S n))))).
  { apply Hr. intros I j Hj. destruct (Sm j Hj) as (A' & EA' & HA'). rewrite EA in EA'. injection EA' as <-. apply (rel_elem X _ _ _ _ _ HA' A2). constructor; [lia|exact I]. }
  clear Hr Sm HA. unfold one_dfx. cbv zeta. fold ar z. fold n. set (RM := romb0 z (f_romb fa) n A) in *. repeat step. eexists. split; [reflexivity|]. finish.
Qed.

(** ** objects *)
Definition opt_rel s i (H : res (option (nd X))) (h : res (option X)) : Prop :=
  (exists A a, H = Ok (Some A) /\ h = Ok (Some a) /\ relx s i (eq s) A a) \/ (H = Ok None /\ h = Ok None) \/ exists e, H = Err e /\ h = Err e.
Definition obj_rel s i (O : vobj X (nd X)) (o : vobj X X) EF T e x : Prop :=
  vo_sign _ _ O = vo_sign _ _ o /\ (exists N n, vo_N _ _ O EF T = Ok N /\ vo_N _ _ o e x = Ok n /\ relx s i (eq s) N n)
  /\ (forall k, exists N n, vo_K _ _ O k EF T = Ok N /\ vo_K _ _ o k e x = Ok n /\ relx s i (eq s) N n)
  /\ opt_rel s i (vo_H _ _ O EF T) (vo_H _ _ o e x).
Lemma band_walk s i (t u : set) B b EF T e x : same_band B b -> relx s i t EF e -> relx s i u T x -> least (fun l => t l \/ u l) s ->
  obj_rel s i (obj_band X fa (nd X) (u2 z) con0 (nd_dfx X fa) B) (obj_band X fa X s2 c1 (s_dfx X fa) b) EF T e x.
Proof.
  intros (Sg & HI & HT & HH) He Hx L. split; [exact Sg|]. cbn [obj_band vo_N vo_K vo_H].
  split; [|split].
  - destruct (dfx_walk _ _ s i t u EF T e x 0 HI He Hx L) as (C & E & H). do 2 eexists. split; [exact E|]. split; [reflexivity|]. exact H.
  - intros k. destruct (dfx_walk _ _ s i t u EF T e x k HT He Hx L) as (C & E & H). do 2 eexists. split; [exact E|]. split; [reflexivity|]. exact H.
  - unfold band_H. destruct (vb_hall B) as [F|], (vb_hall b) as [f|]; try contradiction; [|right; left; auto].
    destruct (dfx_walk _ _ s i t u EF T e x 0 HH He Hx L) as (C & E & H). rewrite E. cbv beta iota delta [rbind s_dfx s2 c1]. fold ar z. left. step. do 2 eexists. split; [reflexivity|]. split; [rewrite <- Sg; reflexivity|]. finish.
Qed.
(** ** sums over bands *)
Lemma efr_walk s i (t : set) B b d EF e : vb_sign B = vb_sign b -> relx s i t EF e ->
  exists E' e', efr X fa (nd X) (u2 z) con0 B d EF = Ok E' /\ efr X fa X s2 c1 b d e = Ok e' /\ relx s i t E' e'.
Proof.
  intros Sg He. unfold efr. cbv beta iota delta [rbind s2 c1]. fold ar. rewrite Sg. repeat step. do 2 eexists. split; [reflexivity|]. split; [reflexivity|]. finish.
Qed.
Lemma total_walk s i (t : set) (G : vband X (nd X) -> nd X -> res (nd X)) (g : vband X X -> X -> res X) L l EF e : same_bands L l -> relx s i t EF e ->
  (forall B b E' e', same_band B b -> relx s i t E' e' -> (exists C c, G B E' = Ok C /\ g b e' = Ok c /\ relx s i (eq s) C c)) -> L <> [] ->
  exists C c, v_total X fa (nd X) (u2 z) con0 G L EF = Ok C /\ v_total X fa X s2 c1 g l e = Ok c /\ relx s i (eq s) C c.
Proof.
  intros HL He Hg Ne. unfold v_total.
  match goal with |- exists C c, fold_left ?P L ?A0 = _ /\ fold_left ?p l ?a0 = _ /\ _ =>
    assert (K : forall A a w, relx s i w A a -> exists C c, fold_left P L (Ok A) = Ok C /\ fold_left p l (Ok a) = Ok c /\ relx s i (fun r => w r \/ (L <> [] /\ s = r)) C c) end.
  { clear Ne. induction HL as [|[B D] [b d] L l (Hb & Hd) HL IH]; intros A a w HA.
    - do 2 eexists. split; [reflexivity|]. split; [reflexivity|]. apply (rel_weak' X s i _ w A a HA). intros r [Q|(Q & _)]; [exact Q|congruence].
    - cbn [fst snd] in Hb, Hd. subst d. cbn [fold_left fst snd]. destruct (efr_walk s i t B b D EF e (proj1 Hb) He) as (E' & e' & Q1 & Q2 & H'). rewrite Q1, Q2. cbv beta iota delta [rbind].
      destruct (Hg B b E' e' Hb H') as (C & c & G1 & G2 & HC). rewrite G1, G2. cbv beta iota. fold ar z. step. unfold s2 at 2. 
      match goal with Q : relx s i _ ?A1 ?a1 |- context [fold_left _ L (Ok ?A1)] => destruct (IH A1 a1 _ Q) as (C' & c' & R1 & R2 & R3) end. do 2 eexists. split; [exact R1|]. split; [exact R2|].
      apply (rel_weak' X s i _ _ _ _ R3). cbv beta. tauto. }
  destruct (K (con0 (a_lit ar 0)) (a_lit ar 0) _ (con_rel X s i _)) as (C & c & R1 & R2 & R3). exists C, c. split; [exact R1|]. split; [exact R2|]. apply (rel_weak' X s i _ _ _ _ R3). cbv beta. tauto.
Qed.


Definition hallable {Y} (l : list (vband X Y * X)) : Prop := Forall (fun bd => vb_hall (fst bd) <> None) l.
Lemma total_fail s i (t : set) (G : vband X (nd X) -> nd X -> res (nd X)) (g : vband X X -> X -> res X) L l EF e : same_bands L l -> relx s i t EF e ->
  (forall B b E' e', same_band B b -> relx s i t E' e' -> vb_hall b <> None -> (exists C c, G B E' = Ok C /\ g b e' = Ok c /\ relx s i (eq s) C c)) ->
  (forall B b E' e', same_band B b -> relx s i t E' e' -> vb_hall b = None -> G B E' = Err TypeError /\ g b e' = Err TypeError) -> ~ hallable l ->
  v_total X fa (nd X) (u2 z) con0 G L EF = Err TypeError /\ v_total X fa X s2 c1 g l e = Err TypeError.
Proof.
  intros HL He Hg Hf. unfold v_total.
  match goal with |- _ -> fold_left ?P L ?A0 = _ /\ fold_left ?p l ?a0 = _ =>
    assert (K : forall A a w, relx s i w A a -> ~ hallable l -> fold_left P L (Ok A) = Err TypeError /\ fold_left p l (Ok a) = Err TypeError);
    [|exact (K (con0 (a_lit ar 0)) (a_lit ar 0) _ (con_rel X s i _))] end.
  induction HL as [|[B D] [b d] L l (Hb & Hd) HL IH]; intros A a w HA N; [exfalso; apply N; constructor|].
  cbn [fst snd] in Hb, Hd. subst d. cbn [fold_left fst snd]. destruct (efr_walk s i t B b D EF e (proj1 Hb) He) as (E' & e' & Q1 & Q2 & H'). rewrite Q1, Q2. cbv beta iota delta [rbind].
  destruct (vb_hall b) as [f|] eqn:Eh.
  - destruct (Hg B b E' e' Hb H' ltac:(congruence)) as (C & c & G1 & G2 & HC). rewrite G1, G2. cbv beta iota. fold ar z. step. unfold s2 at 2.
    match goal with Q : relx s i _ ?A1 ?a1 |- context [fold_left _ L (Ok ?A1)] => refine (IH A1 a1 _ Q _) end. intros W. apply N. constructor; [cbn [fst]; congruence|exact W].
  - destruct (Hf B b E' e' Hb H' Eh) as (G1 & G2). rewrite G1, G2. cbv beta iota. clear. split; [induction L as [|? ? IHL]; [reflexivity|exact IHL]|induction l as [|? ? IHL]; [reflexivity|exact IHL]].
Qed.
Lemma hallable_dec {Y} (l : list (vband X Y * X)) : hallable l \/ ~ hallable l.
Proof.
  induction l as [|[b d] l IH]; [left; constructor|]. destruct (vb_hall b) eqn:E; [|right; intros W; apply (Forall_inv W); exact E]. destruct IH as [IH|IH]; [left; constructor; [cbn [fst]; congruence|exact IH]|right; intros W; apply IH, (Forall_inv_tail W)].
Qed.
Lemma multi_walk s i (t u : set) L l EF T e x : same_bands L l -> relx s i t EF e -> relx s i u T x -> least (fun l => t l \/ u l) s -> L <> [] ->
  obj_rel s i (obj_multi X fa (nd X) (u2 z) con0 (nd_dfx X fa) L) (obj_multi X fa X s2 c1 (s_dfx X fa) l) EF T e x
  /\ (hallable l -> exists A a, vo_H _ _ (obj_multi X fa (nd X) (u2 z) con0 (nd_dfx X fa) L) EF T = Ok (Some A) /\ vo_H _ _ (obj_multi X fa X s2 c1 (s_dfx X fa) l) e x = Ok (Some a) /\ relx s i (eq s) A a)
  /\ (~ hallable l -> vo_H _ _ (obj_multi X fa (nd X) (u2 z) con0 (nd_dfx X fa) L) EF T = Err TypeError /\ vo_H _ _ (obj_multi X fa X s2 c1 (s_dfx X fa) l) e x = Err TypeError).
Proof.
  intros HL He Hx Lst Ne. assert (W := fun B b E' e' Hb H' => band_walk s i t u B b E' T e' x Hb H' Hx Lst).
  assert (HH : hallable l -> exists A a, vo_H _ _ (obj_multi X fa (nd X) (u2 z) con0 (nd_dfx X fa) L) EF T = Ok (Some A) /\ vo_H _ _ (obj_multi X fa X s2 c1 (s_dfx X fa) l) e x = Ok (Some a) /\ relx s i (eq s) A a).
  { intros Hl. cbn [obj_multi vo_H].
    (* restrict to bands with a Hall function: use the sums over pairs *)
    assert (Q : exists C c, v_total X fa (nd X) (u2 z) con0 (fun b e => let! h := band_H X fa (nd X) (u2 z) con0 (nd_dfx X fa) b e T in some _ h) L EF = Ok C
      /\ v_total X fa X s2 c1 (fun b e => let! h := band_H X fa X s2 c1 (s_dfx X fa) b e x in some _ h) l e = Ok c /\ relx s i (eq s) C c).
    { set (G0 := fun (b : vband X (nd X)) (e : nd X) => let! h := band_H X fa (nd X) (u2 z) con0 (nd_dfx X fa) b e T in some (nd X) h).
      set (g0 := fun (b : vband X X) (e : X) => let! h := band_H X fa X s2 c1 (s_dfx X fa) b e x in some X h).
      set (G1 := fun B E' => match vb_hall B with Some _ => G0 B E' | None => nd_dfx X fa (vb_trs B) E' T 0 end). set (g1 := fun b e' => match vb_hall b with Some _ => g0 b e' | None => s_dfx X fa (vb_trs b) e' x 0 end).
      assert (E1 : v_total X fa (nd X) (u2 z) con0 G0 L EF = v_total X fa (nd X) (u2 z) con0 G1 L EF).
      { unfold v_total. revert Hl. clear - HL. generalize (@Ok (nd X) (con0 (a_lit (f_ar fa) 0))). induction HL as [|[B D] [b d] L l (Hb & Hd) HL IH]; intros r Hl; [reflexivity|]. cbn [fold_left fst snd]. rewrite <- IH by exact (Forall_inv_tail Hl). f_equal.
        assert (V : vb_hall B <> None). { pose proof (Forall_inv Hl) as V. cbn [fst] in V, Hb. destruct Hb as (_ & _ & _ & Hb). destruct (vb_hall B), (vb_hall b); try contradiction; congruence. }
        unfold G1 at 1. destruct (vb_hall B) eqn:EB; [reflexivity|congruence]. }
      assert (E2 : v_total X fa X s2 c1 g0 l e = v_total X fa X s2 c1 g1 l e).
      { unfold v_total. revert Hl. clear. generalize (@Ok X (c1 (a_lit (f_ar fa) 0))). induction l as [|[b d] l IH]; intros r Hl; [reflexivity|]. cbn [fold_left fst snd]. rewrite <- IH by exact (Forall_inv_tail Hl). f_equal.
        pose proof (Forall_inv Hl) as V. cbn [fst] in V. unfold g1 at 1. destruct (vb_hall b) eqn:EB; [reflexivity|congruence]. }
      rewrite E1, E2. apply (total_walk s i t G1 g1 L l EF e HL He); [|exact Ne]. intros B b E' e' Hb H'. destruct (W B b E' e' Hb H') as (_ & _ & WK & WH). cbn [obj_band vo_H vo_K] in WH, WK. unfold G1, g1, G0, g0.
      pose proof Hb as (_ & _ & _ & Hb'). destruct (vb_hall B) as [F|] eqn:EB, (vb_hall b) as [f|] eqn:Eb; try contradiction; [|exact (WK 0)].
      unfold band_H in WH |- *. rewrite EB, Eb in WH |- *. destruct WH as [(A & a & Q1 & Q2 & Q3)|[(Q1 & Q2)|(? & Q1 & Q2)]].
      - rewrite Q1, Q2. cbv beta iota delta [rbind some]. eauto.
      - exfalso. revert Q2. cbv beta iota delta [rbind s_dfx s2 c1]. discriminate.
      - exfalso. revert Q2. cbv beta iota delta [rbind s_dfx s2 c1]. discriminate. }
    destruct Q as (C & c & Q1 & Q2 & Q3). rewrite Q1, Q2. exists C, c. auto. }
  assert (HN : ~ hallable l -> vo_H _ _ (obj_multi X fa (nd X) (u2 z) con0 (nd_dfx X fa) L) EF T = Err TypeError /\ vo_H _ _ (obj_multi X fa X s2 c1 (s_dfx X fa) l) e x = Err TypeError).
  { intros Hl. cbn [obj_multi vo_H].
    match goal with |- rbind (v_total _ _ _ _ _ ?G L EF) _ = _ /\ rbind (v_total _ _ _ _ _ ?g l e) _ = _ => destruct (total_fail s i t G g L l EF e HL He) as (Q1 & Q2); [| |exact Hl|rewrite Q1, Q2; split; reflexivity] end.
    - intros B b E' e' Hb H' V. destruct (W B b E' e' Hb H') as (_ & _ & _ & WH). cbn [obj_band vo_H] in WH. pose proof Hb as (_ & _ & _ & Hb'). unfold band_H in WH |- *. destruct (vb_hall B) as [F|] eqn:EB, (vb_hall b) as [f|] eqn:Eb; try contradiction.
      destruct WH as [(A & a & Q1 & Q2 & Q3)|[(Q1 & Q2)|(? & Q1 & Q2)]].
      + rewrite Q1, Q2. cbv beta iota delta [rbind some]. eauto.
      + exfalso. revert Q2. cbv beta iota delta [rbind s_dfx s2 c1]. discriminate.
      + exfalso. revert Q2. cbv beta iota delta [rbind s_dfx s2 c1]. discriminate.
    - intros B b E' e' Hb H' V. pose proof Hb as (_ & _ & _ & Hb'). unfold band_H. rewrite V. destruct (vb_hall B) as [F|] eqn:EB; [rewrite V in Hb'; contradiction|]. split; reflexivity. }
  split; [|split; [exact HH|exact HN]]. split; [reflexivity|]. split; [|split].
  - cbn [obj_multi vo_N]. apply (total_walk s i t _ _ L l EF e HL He); [|exact Ne]. intros B b E' e' Hb H'. exact (proj1 (proj2 (W B b E' e' Hb H'))).
  - intros k. cbn [obj_multi vo_K]. apply (total_walk s i t _ _ L l EF e HL He); [|exact Ne]. intros B b E' e' Hb H'. destruct (proj1 (proj2 (proj2 (W B b E' e' Hb H'))) k) as (C & c & Q1 & Q2 & Q3). cbn [obj_band vo_K] in Q1, Q2. rewrite Q1, Q2. rewrite (proj1 Hb).
    cbv beta iota delta [rbind s2 c1]. fold ar z. step. do 2 eexists. split; [reflexivity|]. split; [reflexivity|]. finish.
  - destruct (hallable_dec l) as [Hl|Hl]; [left; exact (HH Hl)|right; right; exists TypeError; exact (HN Hl)].
Qed.
(** ** public properties *)
Lemma method_walk s i (u : set) O o p EF T e x : obj_rel s i O o EF T e x -> relx s i u T x -> opt_rel s i (v_method X fa (nd X) u1 (u2 z) con0 O p EF T) (v_method X fa X s1 s2 c1 o p e x).
Proof.
  intros (Sg & (N & n & EN & En & HN) & HK & HH) Hx. unfold v_method. cbv zeta. rewrite Sg. destruct (HK 0) as (K0 & k0 & E0 & e0 & H0), (HK 1) as (K1 & k1 & E1 & e1 & H1), (HK 2) as (K2 & k2 & E2 & e2 & H2).
  rewrite EN, En, E0, e0, E1, e1, E2, e2. clear EN En E0 e0 E1 e1 E2 e2 HK Sg.
  Ltac close := left; do 2 eexists; split; [reflexivity|]; split; [reflexivity|]; finish.
  destruct p; cbv beta iota delta [rbind s1 s2 c1]; fold ar z; try (repeat step; close); try exact HH;
    (destruct HH as [(A & a & Q1 & Q2 & Q3)|[(Q1 & Q2)|(er & Q1 & Q2)]]; rewrite Q1, Q2; cbv beta iota delta [some]; [repeat step; close| |right; right; eauto]).
  all: right; right; exists TypeError; split; reflexivity.
Qed.


(** ** bipolar thermal conductivity *)
Notation flag b s := (fun r : list nat => b = true /\ s = r).
Lemma bip_walk s i (t u : set) neg L l EF T e x : same_bands L l -> relx s i t EF e -> relx s i u T x -> least (fun l => t l \/ u l) s ->
  forall fc fv C0 C1 V0 V1 c0 c1' v0 v1, relx s i (flag fc s) C0 c0 -> relx s i (flag fc s) C1 c1' -> relx s i (flag fv s) V0 v0 -> relx s i (flag fv s) V1 v1 ->
  exists D0 D1 W0 W1 d0 d1 w0 w1,
    fold_left (bip_step X fa (nd X) (u2 z) con0 (nd_dfx X fa) neg T EF) L (Ok (C0, C1, V0, V1)) = Ok (D0, D1, W0, W1)
    /\ fold_left (bip_step X fa X s2 c1 (s_dfx X fa) neg x e) l (Ok (c0, c1', v0, v1)) = Ok (d0, d1, w0, w1)
    /\ relx s i (flag (fc || existsb (fun bd => neg (vb_sign (fst bd))) l)%bool s) D0 d0 /\ relx s i (flag (fc || existsb (fun bd => neg (vb_sign (fst bd))) l)%bool s) D1 d1
    /\ relx s i (flag (fv || existsb (fun bd => negb (neg (vb_sign (fst bd)))) l)%bool s) W0 w0 /\ relx s i (flag (fv || existsb (fun bd => negb (neg (vb_sign (fst bd)))) l)%bool s) W1 w1.
Proof.
  intros HL He Hx Lst. induction HL as [|[B D] [b d] L l (Hb & Hd) HL IH]; intros fc fv C0 C1 V0 V1 c0 c1' v0 v1 H0 H1 G0 G1.
  - do 8 eexists. split; [reflexivity|]. split; [reflexivity|]. cbn [existsb]. rewrite !Bool.orb_false_r. repeat match goal with |- _ /\ _ => split end; assumption.
  - cbn [fst snd] in Hb, Hd. subst d. cbn [fold_left existsb fst]. unfold bip_step at 2 4. rewrite (proj1 Hb). destruct (neg (vb_sign b)); cbn [negb orb]; cbv beta iota delta [rbind s2 c1]; fold ar z; step.
    + match goal with Q : relx s i _ ?A (a_sub ar e D) |- _ => destruct (band_walk s i t u B b A T (a_sub ar e D) x Hb ltac:(finish) Hx Lst) as (_ & _ & WK & _) end.
      destruct (WK 0) as (K0 & k0 & E0 & e0 & J0), (WK 1) as (K1 & k1 & E1 & e1 & J1). cbn [obj_band vo_K] in E0, e0, E1, e1. rewrite E0, e0. cbv beta iota. step. rewrite E1, e1. cbv beta iota. step.
      match goal with Q0 : relx s i _ ?A0 (a_add ar c0 k0), Q1 : relx s i _ ?A1 (a_sub ar c1' k1) |- _ =>
        destruct (IH true fv A0 A1 V0 V1 (a_add ar c0 k0) (a_sub ar c1' k1) v0 v1) as (D0 & D1 & W0 & W1 & d0 & d1 & w0 & w1 & R1 & R2 & R3 & R4 & R5 & R6); [apply (rel_weak' X _ _ _ _ _ _ Q0); cbv beta; tauto|apply (rel_weak' X _ _ _ _ _ _ Q1); cbv beta; tauto|exact G0|exact G1|] end.
      exists D0, D1, W0, W1, d0, d1, w0, w1. rewrite Bool.orb_true_r. repeat match goal with |- _ /\ _ => split end; assumption.
    + match goal with Q : relx s i _ ?A (a_sub ar D e) |- _ => destruct (band_walk s i t u B b A T (a_sub ar D e) x Hb ltac:(finish) Hx Lst) as (_ & _ & WK & _) end.
      destruct (WK 0) as (K0 & k0 & E0 & e0 & J0), (WK 1) as (K1 & k1 & E1 & e1 & J1). cbn [obj_band vo_K] in E0, e0, E1, e1. rewrite E0, e0. cbv beta iota. step. rewrite E1, e1. cbv beta iota. step.
      match goal with Q0 : relx s i _ ?A0 (a_add ar v0 k0), Q1 : relx s i _ ?A1 (a_add ar v1 k1) |- _ =>
        destruct (IH fc true C0 C1 A0 A1 c0 c1' (a_add ar v0 k0) (a_add ar v1 k1)) as (D0 & D1 & W0 & W1 & d0 & d1 & w0 & w1 & R1 & R2 & R3 & R4 & R5 & R6); [exact H0|exact H1|apply (rel_weak' X _ _ _ _ _ _ Q0); cbv beta; tauto|apply (rel_weak' X _ _ _ _ _ _ Q1); cbv beta; tauto|] end.
      exists D0, D1, W0, W1, d0, d1, w0, w1. rewrite Bool.orb_true_r. repeat match goal with |- _ /\ _ => split end; assumption.
Qed.
Lemma kbip_walk s i (t u : set) neg L l EF T e x : same_bands L l -> relx s i t EF e -> relx s i u T x -> least (fun l => t l \/ u l) s -> L <> [] ->
  exists C c, v_Kbip X fa (nd X) u1 (u2 z) con0 (nd_dfx X fa) neg L EF T = Ok C /\ v_Kbip X fa X s1 s2 c1 (s_dfx X fa) neg l e x = Ok c /\ relx s i (eq s) C c.
Proof.
  intros HL He Hx Lst Ne. unfold v_Kbip. cbv zeta. assert (B0 : relx s i (flag false s) (con0 (a_lit ar 0%R)) (a_lit ar 0%R)) by (apply (rel_weak' X _ _ _ _ _ _ (con_rel X s i _)); intros r (Q & _); discriminate Q).
  destruct (bip_walk s i t u neg L l EF T e x HL He Hx Lst false false _ _ _ _ _ _ _ _ B0 B0 B0 B0) as (D0 & D1 & W0 & W1 & d0 & d1 & w0 & w1 & R1 & R2 & R3 & R4 & R5 & R6). fold ar z in R1, R2 |- *. rewrite R1. unfold c1 at 2 3 4 5. rewrite R2. cbn [orb] in R3, R4, R5, R6.
  assert (Q : forall f : bool -> bool, existsb (fun bd : vband X (nd X) * X => f (neg (vb_sign (fst bd)))) L = existsb (fun bd : vband X X * X => f (neg (vb_sign (fst bd)))) l).
  { intros f. clear - HL. induction HL as [|[B D] [b d] L l (Hb & Hd) HL IH]; [reflexivity|]. cbn [existsb fst]. cbn [fst] in Hb. rewrite IH, (proj1 Hb). reflexivity. }
  rewrite (Q (fun b => b)), (Q negb). cbv beta iota delta [rbind s1 s2 c1].
  assert (NE : existsb (fun bd : vband X X * X => neg (vb_sign (fst bd))) l = true \/ existsb (fun bd : vband X X * X => negb (neg (vb_sign (fst bd)))) l = true).
  { destruct HL as [|[B D] [b d] L l]; [congruence|]. cbn [existsb fst]. destruct (neg (vb_sign b)); auto. }
  destruct (existsb (fun bd => neg (vb_sign (fst bd))) l), (existsb (fun bd => negb (neg (vb_sign (fst bd)))) l); [| | |destruct NE; discriminate].
  - repeat step. do 2 eexists. split; [reflexivity|]. split; [reflexivity|]. finish.
  - do 2 eexists. split; [reflexivity|]. split; [reflexivity|]. apply (rel_weak' X _ _ _ _ _ _ (u1_rel X _ _ _ (fun _ => a_lit ar 0%R) _ _ R3)). cbv beta. tauto.
  - do 2 eexists. split; [reflexivity|]. split; [reflexivity|]. apply (rel_weak' X _ _ _ _ _ _ (u1_rel X _ _ _ (fun _ => a_lit ar 0%R) _ _ R5)). cbv beta. tauto.
Qed.
(** ** spectral functions *)
Lemma from_walk (func : nd X -> nd X -> res (nd X)) (f : X -> X -> res X) :
  (forall s i E T e x, relx s i (eq s) E e -> relx s i (fun _ => False) T x -> exists C c, func E T = Ok C /\ f e x = Ok c /\ relx s i (eq s) C c) -> (forall e x, exists c, f e x = Ok c) -> broadcasts func f.
Proof.
  intros W Tot. split; [exact Tot|]. intros E T HE HT F. 
  assert (RE : forall i e, (index (shape E) i -> sees E i e) -> relx (shape E) i (eq (shape E)) E e) by (intros i e S; apply plain_rel; [exact HE|apply fits_refl|exact S]).
  assert (RT : forall i x, (index (shape E) i -> sees T i x) -> relx (shape E) i (fun _ => False) T x) by (intros i x S; apply (rel_weak' X _ _ _ _ _ _ (plain_rel X _ i T x HT F S)); tauto).
  destruct (W (shape E) [] E T _ _ (RE [] (bc_get z E []) ltac:(intros I; apply bc_get_sees with (s := shape E); [exact HE|apply fits_refl|exact I])) (RT [] (bc_get z T []) ltac:(intros I; apply bc_get_sees with (s := shape E); [exact HT|exact F|exact I]))) as (C & c & E1 & _ & HC).
  exists C. split; [exact E1|]. destruct (rel_shape X _ _ _ _ _ HC eq_refl) as (AC & SC). split; [exact AC|]. split; [exact SC|]. intros i a b I Sa Sb. destruct (W (shape E) i E T a b (RE i a (fun _ => Sa)) (RT i b (fun _ => Sb))) as (C' & c' & E1' & E2' & HC'). rewrite E1 in E1'. injection E1' as <-.
  exists c'. split; [exact E2'|]. apply (rel_elem X _ _ _ _ _ HC' SC I).
Qed.
Ltac spectral := intros s i E T e x He Hx; cbv beta iota delta [rbind]; fold ar z; repeat step; do 2 eexists; (split; [reflexivity|]); (split; [reflexivity|]); finish.
Lemma spb_same sg m_d sigma0 Kmass : same_band (nd_spb X fa sg m_d sigma0 Kmass) (one_spb X fa sg m_d sigma0 Kmass).
Proof.
  split; [reflexivity|]. split; [|split]; cbn [nd_spb one_spb v_spb vb_idos vb_trs vb_hall]; (apply from_walk; [|intros e x; eexists; reflexivity]).
  - unfold v_spb_idos. spectral.
  - unfold v_spb_trs. spectral.
  - unfold v_spb_hall, v_hall_factor, v_Kstar. spectral.
Qed.
Lemma skb_same sg m_d sigma0 Eg Kmass : same_band (nd_skb X fa sg m_d sigma0 Eg Kmass) (one_skb X fa sg m_d sigma0 Eg Kmass).
Proof.
  split; [reflexivity|]. split; [|split]; cbn [nd_skb one_skb v_skb vb_idos vb_trs vb_hall]; (apply from_walk; [|intros e x; eexists; reflexivity]).
  - unfold v_skb_idos. spectral.
  - unfold v_skb_trs. spectral.
  - unfold v_skb_hall, v_hall_factor, v_Kstar. spectral.
Qed.
Lemma lin_same sg vF sigma0 : same_band (nd_linear X fa sg vF sigma0) (one_lin X fa sg vF sigma0).
Proof.
  split; [reflexivity|]. split; [|split]; cbn [nd_linear one_lin v_lin vb_idos vb_trs vb_hall]; [| |exact I]; (apply from_walk; [|intros e x; eexists; reflexivity]).
  - unfold v_lin_idos. spectral.
  - unfold v_lin_trs. spectral.
Qed.

End Walk.
