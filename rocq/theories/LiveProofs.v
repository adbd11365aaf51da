(** Proofs for live models. *)
From Coq Require Import Reals String Lra Lia FunctionalExtensionality.
From Verif Require Import Py PyDict PyStr RUtil ScatModel DebyeModel VarModel VarSpec VarProofs VarProps LiveModel LiveSpec.
Local Open Scope R_scope.

(** ** histories *)
Lemma after_trans b a w w' : after b a w -> after b w w' -> after b a w'.
Proof. intros H K. induction K; [exact H|constructor; assumption|constructor; assumption|constructor; assumption|constructor; assumption|constructor; assumption]. Qed.
Lemma set_all_after l : forall w w' e, (forall t x, In (t, x) l -> ready w t <> None) -> set_all w l = (w', e) -> after false w w' /\ (forall u, ready w u <> None -> ready w' u <> None).
Proof.
  induction l as [|[t x] l IH]; intros w w' e Hr E; cbn [set_all] in E.
  - injection E as <- <-. split; [constructor|auto].
  - destruct (set_value w t x) as [w1 [e1|]] eqn:E1.
    + injection E as <- <-. assert (A : after false w (fst (set_value w t x))) by (apply r_set; [constructor|apply (Hr t x); left; reflexivity]). rewrite E1 in A. split; [exact A|].
      intros u Hu. unfold set_value in E1. destruct (ready w t) as [v|] eqn:Rt; [destruct (in_bounds v x); [discriminate|]|]; injection E1 as <- _; exact Hu.
    + assert (A : after false w (fst (set_value w t x))) by (apply r_set; [constructor|apply (Hr t x); left; reflexivity]). rewrite E1 in A. cbn [fst] in A.
      assert (K : forall u, ready w u <> None -> ready w1 u <> None).
      { intros u Hu. unfold set_value in E1. destruct (ready w t) as [v|] eqn:Rt; [|discriminate]. destruct (in_bounds v x); [|discriminate]. injection E1 as <-.
        rewrite (ready_pars _ _ (sync_vars _ _)), ready_upd. destruct (eqb u t); [discriminate|exact Hu]. }
      destruct (IH w1 w' e) as [B C]; [|exact E|].
      * intros u y Hu. apply K. apply (Hr u y). right. exact Hu.
      * split; [exact (after_trans _ _ _ _ A B)|auto].
Qed.
Lemma sync_all_after l : forall w w' e, (forall t, In t l -> ready w t <> None) -> sync_all w l = (w', e) -> after false w w'.
Proof.
  induction l as [|t l IH]; intros w w' e Hr E; cbn [sync_all] in E.
  - injection E as <- <-. constructor.
  - assert (A : after false w (fst (sync w t))) by (apply r_sync; [constructor|apply Hr; left; reflexivity]). destruct (sync w t) as [w1 [e1|]] eqn:E1; cbn [fst] in A.
    + injection E as <- <-. exact A.
    + apply (after_trans _ _ _ _ A). apply (IH w1 w' e); [|exact E]. intros u Hu. unfold sync in E1. destruct (ready w t) as [v|] eqn:Rt.
      * injection E1 as <-. rewrite (ready_pars _ _ (sync_vars _ _)). apply Hr. right. exact Hu.
      * injection E1 as <- _. apply Hr. right. exact Hu.
Qed.
Lemma cal_after w vars ders args w' e : (forall t, In t vars -> ready w t <> None) -> (forall d, In d ders -> ready w d <> None) -> cal w vars ders args = (w', e) -> after false w w'.
Proof.
  intros Hv Hd E. unfold cal in E. destruct (negb _); [injection E as <- <-; constructor|]. destruct (set_all w (combine vars args)) as [w1 e1] eqn:E1.
  destruct (set_all_after (combine vars args) w w1 e1) as [A K]; [intros t x Hi; apply Hv; apply (in_combine_l _ _ _ _ Hi)|exact E1|].
  destruct e1 as [e1|]; [injection E as <- <-; exact A|]. apply (after_trans _ _ _ _ A). apply (sync_all_after ders w1 w' e); [|exact E]. intros t Ht. apply K, Hd, Ht.
Qed.
Lemma cal_ready w vars ders args w' e : (forall t, In t vars -> ready w t <> None) -> (forall d, In d ders -> ready w d <> None) -> cal w vars ders args = (w', e) -> Inv w ->
  forall u, ready w u <> None -> ready w' u <> None.
Proof.
  intros Hv Hd E I u Hu. pose proof (cal_after w vars ders args w' e Hv Hd E) as A. destruct (ready w u) as [v|] eqn:Ru; [|congruence]. destruct (after_grown false w w' u v I A Ru) as (v' & -> & _). discriminate.
Qed.
Lemma after_inv b w w' : Inv w -> after b w w' -> Inv w'.
Proof. intros I A. apply (after_ind_inv b w (fun _ => True) I Logic.I); auto. Qed.
Lemma calls_after vars ders calls : forall w w' e, Inv w -> (forall t, In t vars -> ready w t <> None) -> (forall d, In d ders -> ready w d <> None) -> calls_run w vars ders calls = (w', e) -> after false w w'.
Proof.
  induction calls as [|a calls IH]; intros w w' e I Hv Hd E; cbn [calls_run] in E; [injection E as <- <-; constructor|].
  destruct (cal w vars ders a) as [w1 e1] eqn:E1. pose proof (cal_after _ _ _ _ _ _ Hv Hd E1) as A. destruct e1 as [e1|]; [injection E as <- <-; exact A|].
  apply (after_trans _ _ _ _ A). apply (IH w1 w' e); [exact (after_inv _ _ _ I A)| | |exact E]; intros t Ht; apply (cal_ready _ _ _ _ _ _ Hv Hd E1 I); auto.
Qed.
Lemma reach_after w w' : reach false w -> after false w w' -> reach false w'.
Proof. apply after_trans. Qed.
(** containers keep their keys *)
Lemma after_keys w0 w p : Inv w0 -> after false w0 w -> (p < w_next w0)%nat -> (p < w_next w)%nat /\ dkeys (w_pars w p) = dkeys (w_pars w0 p).
Proof.
  intros I0 H L0. refine (proj2 (after_ind_inv false w0 (fun w => (p < w_next w)%nat /\ dkeys (w_pars w p) = dkeys (w_pars w0 p)) I0 (conj L0 eq_refl) _ _ _ _ _ w H)); clear w H.
  - intros w1 u i lo up sc c ds I1 (L & D) Ao. apply new_cases; intros; cbn [fst]; [auto|auto|auto|].
    destruct (new_params_spec _ _ _ _ H1) as (Ep & En & Epp & Eq & Er & _). cbn. split; [lia|]. rewrite Eq by lia. exact D.
  - intros w1 l I1 (L & D) Hn Ao. destruct (new_params w1 l) as [w' q] eqn:E. cbn [fst]. destruct (new_params_spec _ _ _ _ E) as (Ep & En & Epp & Eq & Er & _). split; [lia|]. rewrite Eq by lia. exact D.
  - intros w1 u y z I1 (L & D) Ru B. assert (I2 : Inv (upd_var w1 u (Ready (with_value y z)))) by (apply (inv_upd w1 u y); auto; apply shape_value).
    destruct (sync_spec _ u (with_value y z) I2 (ready_same _ _ _)) as (a & b & c & d & e). rewrite b, c. split; [exact L|exact D].
  - intros w1 u y I1 (L & D) Ru. destruct (sync_spec _ u y I1 Ru) as (a & b & c & d & e). rewrite b, c. split; [exact L|exact D].
  - discriminate.
Qed.
(** an entry shows the number its argument stands for *)
Lemma entry_number wa l wb p w k a x : reach false wa -> NoDup (map fst l) -> args_ok wa (map snd l) -> new_params wa l = (wb, p) -> after false wb w -> In (k, a) l ->
  (forall t, a = Ref t -> constrained w t = false \/ settled w t) -> stands w a x -> dget (w_pars w p) k = Some x.
Proof.
  intros Ha ND Ao E Hw Hk Hc Hx. destruct a as [y|t].
  - cbn in Hx. subst y. apply (C78_container_follows wa l wb p Ha ND Ao E w Hw). exact Hk.
  - cbn in Hx. destruct Hx as (v & y & Rv & Tv & ->).
    assert (Hb : reach false wb) by (assert (X := r_params false start wa l Ha ND Ao); rewrite E in X; exact X).
    assert (Ib := reach_inv false wb Hb). destruct (new_params_spec _ _ _ _ E) as (Ep & En & Epp & Eq & Er & _).
    destruct (ready wa t) as [z|] eqn:Rz; [|destruct (Ao t); [apply in_map_iff; exists (k, Ref t); auto|exact Rz]].
    assert (R1 : ready wb t = Some (add_subs z (map (pair p) (keys_of t l)))) by (rewrite Er, Rz; reflexivity).
    destruct (after_grown false wb w t _ Ib Hw R1) as (v' & Rv' & G). assert (v' = v) by congruence. subst v'.
    assert (Sb : In (p, k) (v_subs v)) by (apply G; cbn; apply in_app_iff; right; apply in_pair; auto).
    destruct (Hc t eq_refl) as [C|C].
    + unfold constrained in C. rewrite Rv in C. destruct (v_compute v) eqn:Vc; [discriminate|].
      rewrite (reach_slots w (reach_after _ _ Hb Hw) t v p k Rv Vc Sb). rewrite (proj1 (true_det w) t y Tv (v_value v) (tv_free w t v Rv Vc)). reflexivity.
    + exact (C v y p k Rv Tv Sb).
Qed.

(** ** binding and storing *)
Definition numb (c : cls) (k : str -> option R) (n : str) : option R :=
  match k n with Some x => Some x | None => match dget (signature c) n with Some (Default x) => Some x | _ => None end end.
Definition bound (c : cls) (kw : list (str * arg)) (n : str) : option arg :=
  match dget kw n with Some a => Some a | None => match dget (signature c) n with Some (Default x) => Some (Num x) | _ => None end end.
Definition given (b : str -> option arg) (n : str) : bool := match b n with Some _ => true | None => false end.
Definition insync (b : str -> option arg) (k : str -> option R) : Prop := forall n, match b n, k n with Some _, Some _ => True | None, None => True | _, _ => False end.
Lemma keys_params c : dkeys (signature c) = fst (parameters c) ++ snd (parameters c).
Proof. destruct c; reflexivity. Qed.
Lemma existsb_keys (f : str -> bool) {A} (l : list (str * A)) : existsb (fun ka => f (fst ka)) l = existsb f (map fst l).
Proof. induction l as [|a l IH]; [reflexivity|]. cbn. rewrite IH. reflexivity. Qed.
Lemma required_same c (f : str -> bool) : existsb (fun nd : str * dflt => match snd nd with Required => f (fst nd) | _ => false end) (signature c) = existsb f (fst (parameters c)).
Proof. destruct c; cbn [existsb signature parameters snd fst orb]; rewrite ?orb_false_r; reflexivity. Qed.
Lemma bind_plain c kw (nums : list (str * R)) : map fst nums = map fst kw ->
  match bind c kw with
  | Err e => plain c nums = Err e /\ e = TypeError
  | Ok b => b = bound c kw /\ plain c nums = plain_rate c (dget nums)
  end.
Proof.
  intros Hm. unfold bind, plain. rewrite required_same with (f := fun n => negb (dmem kw n)). rewrite existsb_keys with (f := fun n => negb (dmem (signature c) n)).
  unfold dmem. rewrite keys_params. destruct (parameters c) as [req opt]. cbn [fst snd]. rewrite existsb_keys with (f := fun n => negb (memb n (req ++ opt))). rewrite Hm.
  change (dkeys kw) with (map fst kw).
  destruct (existsb (fun n => negb (memb n (req ++ opt))) (map fst kw)); [auto|]. destruct (existsb (fun n => negb (memb n (map fst kw))) req); auto.
Qed.
Lemma insync_bound c kw (nums : list (str * R)) : map fst nums = map fst kw -> insync (bound c kw) (numb c (dget nums)).
Proof.
  intros Hm n. unfold bound, numb. assert (G : match dget kw n, dget nums n with Some _, Some _ => True | None, None => True | _, _ => False end).
  { revert nums Hm. induction kw as [|[k a] kw IH]; intros [|[k' x] nums] Hm; try discriminate; [exact I|]. cbn [map fst] in Hm. injection Hm as -> Hm. cbn [dget]. destruct (eqb n k); [exact I|]. apply IH. exact Hm. }
  destruct (dget kw n), (dget nums n); try contradiction; [exact I|]. destruct (dget (signature c) n) as [[| |x]|]; exact I.
Qed.
Lemma collect_names b names l : collect b names = Some l -> map fst l = map KName names /\ (forall n, In n names -> exists a, b n = Some a /\ In (KName n, a) l) /\ (forall k a, In (k, a) l -> exists n, In n names /\ k = KName n /\ b n = Some a).
Proof.
  revert l. induction names as [|n names IH]; intros l E; cbn [collect] in E.
  - injection E as <-. split; [reflexivity|]. split; [intros n []|intros k a []].
  - destruct (b n) as [a|] eqn:Bn; [|discriminate]. destruct (collect b names) as [r|]; [|discriminate]. injection E as <-. destruct (IH r eq_refl) as (A & B & C).
    split; [cbn; rewrite A; reflexivity|]. split.
    + intros m [<-|Hm]; [exists a; split; [exact Bn|left; reflexivity]|]. destruct (B m Hm) as (a' & E' & Hin). exists a'. split; [exact E'|right; exact Hin].
    + intros k a' [H|H]; [injection H as <- <-; exists n; repeat split; auto; left; reflexivity|]. destruct (C k a' H) as (m & Hm & -> & Bm). exists m. repeat split; auto. right. exact Hm.
Qed.
(** the names stored are distinct *)
Lemma stored_nodup c g : NoDup (snd (stored c g)).
Proof.
  assert (D : forall l : list str, (fix nd (l : list str) := match l with [] => true | x :: r => negb (memb x r) && nd r end)%bool l = true -> NoDup l).
  { induction l as [|x l IH]; intros H; [constructor|]. apply andb_prop in H. destruct H as [H1 H2]. constructor; [|apply IH; exact H2]. intros Hin. apply memb_In in Hin. rewrite Hin in H1. discriminate. }
  destruct c; unfold stored; repeat match goal with |- context [if g ?x then _ else _] => destruct (g x) end; apply D; vm_compute; reflexivity.
Qed.
Ltac sy PB b c k n :=
    let P := fresh "P" in pose proof (PB n) as P;
    let B := fresh "B" in let X := fresh "X" in
    destruct (b n) as [?|] eqn:B, (numb c k n) as [?|] eqn:X; [clear P|contradiction|contradiction|clear P]; cbn [collect]; rewrite ?B; repeat match goal with Q : b _ = _ |- _ => rewrite !Q end.
Ltac fin :=
    eexists; split; [reflexivity|]; intros g G1 G2 om T; unfold rate_of;
    repeat match goal with X : numb _ _ ?n = Some _ |- context [g ?n] => rewrite (G1 n) by (cbn [In]; tauto); rewrite X end;
    repeat match goal with |- context [g ?n] => rewrite (G2 n) by (intros H; vm_compute in H; intuition discriminate) end;
    reflexivity.
(** the object stores what the plain constructor takes, and evaluates to the same *)
Lemma stored_plain c b (k : str -> option R) : insync b (numb c k) ->
  (forall n, In n (fst (parameters c)) -> k n <> None) ->
  let '(direct, names) := stored c (given b) in
  match collect b names with
  | None => plain_rate c k = Err ValueError
  | Some _ => exists f, plain_rate c k = Ok f /\ forall g : str -> option R, (forall n, In n names -> g n = numb c k n) -> (forall n, ~ In n names -> g n = None) -> forall om T, rate_of c direct g om T = f om T
  end.
Proof.
  intros PB Rq.
  assert (ND : forall n, dget (signature c) n = Some NoneDefault \/ dget (signature c) n = Some Required -> numb c k n = k n) by (intros n [H|H]; unfold numb; rewrite H; destruct (k n); reflexivity).
  assert (DF : forall n x, dget (signature c) n = Some (Default x) -> numb c k n = or_default (k n) x) by (intros n x H; unfold numb; rewrite H; destruct (k n); reflexivity).
  destruct c; unfold stored, plain_rate, given.
  - rewrite <- !(ND (S_ "gm")), <- !(ND (S_ "vs")), <- !(ND (S_ "Va")), <- !(ND (S_ "Ma")), <- !(ND (S_ "coef")), <- (DF (S_ "A") 1), <- (DF (S_ "Theta") 0) by (auto; reflexivity).
    sy PB b PH k (S_ "coef").
    + sy PB b PH k (S_ "Theta"); cbv beta iota delta [rbind ph_init]; [fin|reflexivity].
    + sy PB b PH k (S_ "gm"); [|reflexivity]. sy PB b PH k (S_ "vs"); [|reflexivity]. sy PB b PH k (S_ "Va"); [|reflexivity]. sy PB b PH k (S_ "Ma"); [|reflexivity].
      sy PB b PH k (S_ "A"); [|reflexivity]. sy PB b PH k (S_ "Theta"); [|reflexivity]. cbv beta iota delta [rbind ph_init]. fin.
  - rewrite <- !(ND (S_ "vs")), <- !(ND (S_ "Va")), <- !(ND (S_ "G")), <- !(ND (S_ "coef")) by (auto; reflexivity).
    sy PB b PD k (S_ "coef"); [cbv beta iota delta [rbind pd_init]; fin|].
    sy PB b PD k (S_ "vs"); [|reflexivity]. sy PB b PD k (S_ "Va"); [|reflexivity]. sy PB b PD k (S_ "G"); [|reflexivity]. cbv beta iota delta [rbind pd_init]. fin.
  - pose proof (Rq (S_ "vs") ltac:(cbn; tauto)) as R1. pose proof (Rq (S_ "L") ltac:(cbn; tauto)) as R2.
    rewrite <- (ND (S_ "vs")), <- (ND (S_ "L")), <- (DF (S_ "alpha") 1) by (auto; reflexivity).
    rewrite <- (ND (S_ "vs")) in R1 by (auto; reflexivity). rewrite <- (ND (S_ "L")) in R2 by (auto; reflexivity).
    assert (R3 : numb GB k (S_ "alpha") <> None) by (rewrite (DF (S_ "alpha") 1) by reflexivity; destruct (k (S_ "alpha")); discriminate).
    sy PB b GB k (S_ "vs"); [|congruence]. sy PB b GB k (S_ "L"); [|congruence]. sy PB b GB k (S_ "alpha"); [|congruence]. cbv beta iota delta [get0]. fin.
  - rewrite <- !(ND (S_ "N1")), <- !(ND (S_ "vs")), <- !(ND (S_ "R")), <- !(ND (S_ "D0")), <- !(ND (S_ "D1")), <- !(ND (S_ "phi")), <- (DF (S_ "Y0") 1), <- (DF (S_ "Y1") 1), <- (DF (S_ "alpha") 1) by (auto; reflexivity).
    sy PB b NP k (S_ "phi").
    + sy PB b NP k (S_ "vs"); [|reflexivity]. sy PB b NP k (S_ "R"); [|reflexivity]. sy PB b NP k (S_ "D0"); [|reflexivity]. sy PB b NP k (S_ "D1"); [|reflexivity].
      sy PB b NP k (S_ "Y0"); [|reflexivity]. sy PB b NP k (S_ "Y1"); [|reflexivity]. sy PB b NP k (S_ "alpha"); [|reflexivity]. cbv beta iota delta [rbind np_init]. fin.
    + sy PB b NP k (S_ "N1"); [|reflexivity]. sy PB b NP k (S_ "vs"); [|reflexivity]. sy PB b NP k (S_ "R"); [|reflexivity]. sy PB b NP k (S_ "D0"); [|reflexivity]. sy PB b NP k (S_ "D1"); [|reflexivity].
      sy PB b NP k (S_ "Y0"); [|reflexivity]. sy PB b NP k (S_ "Y1"); [|reflexivity]. sy PB b NP k (S_ "alpha"); [|reflexivity]. cbv beta iota delta [rbind np_init]. fin.
  - pose proof (Rq (S_ "Nd") ltac:(cbn; tauto)) as R1. pose proof (Rq (S_ "vs") ltac:(cbn; tauto)) as R2. pose proof (Rq (S_ "Va") ltac:(cbn; tauto)) as R3. pose proof (Rq (S_ "Bd") ltac:(cbn; tauto)) as R4. pose proof (Rq (S_ "gm") ltac:(cbn; tauto)) as R5.
    rewrite <- (ND (S_ "Nd")), <- (ND (S_ "vs")), <- (ND (S_ "Va")), <- (ND (S_ "Bd")), <- (ND (S_ "gm")), <- (DF (S_ "F") 1), <- (DF (S_ "alpha") 0.55) by (auto; reflexivity).
    rewrite <- (ND (S_ "Nd")) in R1 by (auto; reflexivity). rewrite <- (ND (S_ "vs")) in R2 by (auto; reflexivity). rewrite <- (ND (S_ "Va")) in R3 by (auto; reflexivity). rewrite <- (ND (S_ "Bd")) in R4 by (auto; reflexivity). rewrite <- (ND (S_ "gm")) in R5 by (auto; reflexivity).
    assert (R6 : numb DL k (S_ "alpha") <> None) by (rewrite (DF (S_ "alpha") 0.55) by reflexivity; destruct (k (S_ "alpha")); discriminate).
    assert (R7 : numb DL k (S_ "F") <> None) by (rewrite (DF (S_ "F") 1) by reflexivity; destruct (k (S_ "F")); discriminate).
    sy PB b DL k (S_ "Nd"); [|congruence]. sy PB b DL k (S_ "vs"); [|congruence]. sy PB b DL k (S_ "Va"); [|congruence]. sy PB b DL k (S_ "Bd"); [|congruence]. sy PB b DL k (S_ "gm"); [|congruence].
    sy PB b DL k (S_ "F"); [|congruence]. sy PB b DL k (S_ "alpha"); [|congruence]. cbv beta iota delta [get0]. fin.
  - pose proof (Rq (S_ "Nsf") ltac:(cbn; tauto)) as R1. pose proof (Rq (S_ "vs") ltac:(cbn; tauto)) as R2. pose proof (Rq (S_ "Va") ltac:(cbn; tauto)) as R3. pose proof (Rq (S_ "gm") ltac:(cbn; tauto)) as R5.
    rewrite <- (ND (S_ "Nsf")), <- (ND (S_ "vs")), <- (ND (S_ "Va")), <- (ND (S_ "gm")), <- (DF (S_ "alpha") 0.7) by (auto; reflexivity).
    rewrite <- (ND (S_ "Nsf")) in R1 by (auto; reflexivity). rewrite <- (ND (S_ "vs")) in R2 by (auto; reflexivity). rewrite <- (ND (S_ "Va")) in R3 by (auto; reflexivity). rewrite <- (ND (S_ "gm")) in R5 by (auto; reflexivity).
    assert (R6 : numb SF k (S_ "alpha") <> None) by (rewrite (DF (S_ "alpha") 0.7) by reflexivity; destruct (k (S_ "alpha")); discriminate).
    sy PB b SF k (S_ "Nsf"); [|congruence]. sy PB b SF k (S_ "vs"); [|congruence]. sy PB b SF k (S_ "Va"); [|congruence]. sy PB b SF k (S_ "gm"); [|congruence].
    sy PB b SF k (S_ "alpha"); [|congruence]. cbv beta iota delta [get0]. fin.
  - rewrite <- !(ND (S_ "vs")), <- !(ND (S_ "md")), <- !(ND (S_ "EF")), <- !(ND (S_ "Ed")), <- !(ND (S_ "D0")), <- !(ND (S_ "Rep")), <- !(ND (S_ "coef")) by (auto; reflexivity).
    sy PB b EP k (S_ "coef"); sy PB b EP k (S_ "Rep").
    + cbv beta iota delta [rbind ep_init]. fin.
    + sy PB b EP k (S_ "vs"); [|reflexivity]. sy PB b EP k (S_ "md"); [|reflexivity]. sy PB b EP k (S_ "EF"); [|reflexivity]. cbv beta iota delta [rbind ep_init]. fin.
    + sy PB b EP k (S_ "vs"); [|reflexivity]. sy PB b EP k (S_ "md"); [|reflexivity]. sy PB b EP k (S_ "Ed"); [|reflexivity]. sy PB b EP k (S_ "D0"); [|reflexivity]. cbv beta iota delta [rbind ep_init]. fin.
    + sy PB b EP k (S_ "vs"); [|reflexivity]. sy PB b EP k (S_ "md"); [|reflexivity]. sy PB b EP k (S_ "EF"); [|reflexivity]. sy PB b EP k (S_ "Ed"); [|reflexivity]. sy PB b EP k (S_ "D0"); [|reflexivity]. cbv beta iota delta [rbind ep_init]. fin.
  - rewrite <- (DF (S_ "alpha") 1) by reflexivity.
    assert (R6 : numb CA k (S_ "alpha") <> None) by (rewrite (DF (S_ "alpha") 1) by reflexivity; destruct (k (S_ "alpha")); discriminate).
    sy PB b CA k (S_ "alpha"); [|congruence]. cbv beta iota delta [get0]. fin.
Qed.

Lemma required_given c kw b : bind c kw = Ok b -> forall n, In n (fst (parameters c)) -> In n (map fst kw).
Proof.
  unfold bind. rewrite required_same with (f := fun n => negb (dmem kw n)). destruct (existsb _ kw); [discriminate|].
  destruct (existsb (fun n => negb (dmem kw n)) (fst (parameters c))) eqn:E; [discriminate|]. intros _ n Hn.
  destruct (dmem kw n) eqn:D; [apply memb_In in D; exact D|]. assert (X : existsb (fun n => negb (dmem kw n)) (fst (parameters c)) = true) by (apply existsb_exists; exists n; rewrite D; auto). congruence.
Qed.
Lemma in_dget {A} (l : list (str * A)) n : In n (map fst l) -> dget l n <> None.
Proof. induction l as [|[k a] l IH]; [intros []|]. cbn [map fst dget]. intros [<-|H]; [rewrite (proj2 (eqb_eq k k) eq_refl); discriminate|]. destruct (eqb n k); [discriminate|apply IH, H]. Qed.
(** the constructor succeeds and fails with the plain one *)
Lemma construct_plain w c kw (nums : list (str * R)) : map fst nums = map fst kw ->
  match construct w c kw with
  | (w', Err e) => w' = w /\ plain c nums = Err e
  | (w', Ok o) => exists l p f, new_params w l = (w', p) /\ map fst l = map KName (snd (stored c (given (bound c kw)))) /\ o = {| o_cls := c; o_direct := fst (stored c (given (bound c kw))); o_par := p |} /\
      collect (bound c kw) (snd (stored c (given (bound c kw)))) = Some l /\ plain c nums = Ok f /\
      forall g : str -> option R, (forall n, In n (snd (stored c (given (bound c kw)))) -> g n = numb c (dget nums) n) -> (forall n, ~ In n (snd (stored c (given (bound c kw)))) -> g n = None) ->
        forall om T, rate_of c (fst (stored c (given (bound c kw)))) g om T = f om T
  end.
Proof.
  intros Hm. unfold construct. pose proof (bind_plain c kw nums Hm) as BP. destruct (bind c kw) as [b|e] eqn:Eb; [|split; [reflexivity|apply BP]]. destruct BP as [-> Ep].
  pose proof (stored_plain c (bound c kw) (dget nums) (insync_bound c kw nums Hm)) as SP.
  assert (Rq : forall n, In n (fst (parameters c)) -> dget nums n <> None) by (intros n Hn; apply in_dget; rewrite Hm; apply (required_given c kw _ Eb n Hn)).
  specialize (SP Rq). fold (given (bound c kw)). change (fun n => match bound c kw n with Some _ => true | None => false end) with (given (bound c kw)).
  destruct (stored c (given (bound c kw))) as [direct names]. cbn [fst snd]. destruct (collect (bound c kw) names) as [l|] eqn:Ec.
  - destruct SP as (f & Pf & Hf). destruct (new_params w l) as [w' p] eqn:En. exists l, p, f. split; [exact En|]. split; [apply (collect_names _ _ _ Ec)|]. split; [reflexivity|]. split; [reflexivity|].
    split; [congruence|]. exact Hf.
  - split; [reflexivity|congruence].
Qed.
Lemma dget_two w kw (nums : list (str * R)) n : in_numbers w kw nums ->
  match dget kw n, dget nums n with Some a, Some x => stands w a x /\ In a (map snd kw) | None, None => True | _, _ => False end.
Proof.
  induction 1 as [|[k a] [k' x] kw nums [E S] F IH]; [exact I|]. cbn [fst snd] in E, S. subst k'. cbn [dget]. destruct (eqb n k); [split; [exact S|left; reflexivity]|].
  destruct (dget kw n), (dget nums n); try contradiction; [|exact I]. destruct IH as [X Y]. split; [exact X|right; exact Y].
Qed.
Lemma in_numbers_keys w kw nums : in_numbers w kw nums -> map fst nums = map fst kw.
Proof. induction 1 as [|a b kw nums [E S] F IH]; [reflexivity|]. cbn. rewrite E, IH. reflexivity. Qed.
Lemma bound_stands w c kw nums n a : in_numbers w kw nums -> bound c kw n = Some a -> exists x, numb c (dget nums) n = Some x /\ stands w a x /\ (In a (map snd kw) \/ a = Num x).
Proof.
  intros H E. unfold bound in E. unfold numb. pose proof (dget_two w kw nums n H) as D. destruct (dget kw n) as [a'|], (dget nums n) as [x|]; try contradiction.
  - injection E as ->. destruct D as [S I]. exists x. auto.
  - destruct (dget (signature c) n) as [[| |x]|]; try discriminate. injection E as <-. exists x. cbn. auto.
Qed.
Definition fresh (w : world) (l : list arg) : Prop := forall t, In (Ref t) l -> constrained w t = false \/ settled w t.
Lemma names_nodup (l : list str) : NoDup l -> NoDup (map KName l).
Proof. induction 1; cbn; constructor; auto. intros H1. apply in_map_iff in H1. destruct H1 as (y & E & Hy). injection E as ->. contradiction. Qed.
Lemma dget_absent {A} (d : list (key * A)) k : ~ In k (dkeys d) -> dget d k = None.
Proof. induction d as [|[j a] d IH]; [reflexivity|]. intros H. cbn [dget]. destruct (eqb k j) eqn:E; [apply eqb_eq in E; subst; exfalso; apply H; left; reflexivity|]. apply IH. intros Hi. apply H. right. exact Hi. Qed.
Lemma mechanism w o c kw nums : made w o c kw -> fresh w (map snd kw) -> in_numbers w kw nums -> o_cls o = c /\ exists f, plain c nums = Ok f /\ forall om T, rate_now w o om T = f om T.
Proof.
  intros (wa & wb & Ra & ND & Ao & E & Hw) Fr Hn. pose proof (construct_plain wa c kw nums (in_numbers_keys _ _ _ Hn)) as CP. rewrite E in CP.
  destruct CP as (l & p & f & En & Kl & -> & Cl & Pf & Hf). cbn [o_cls]. split; [reflexivity|]. exists f. split; [exact Pf|]. intros om T. unfold rate_now. cbn [o_cls o_direct o_par].
  set (names := snd (stored c (given (bound c kw)))) in *. destruct (collect_names _ _ _ Cl) as (_ & Cn & Cb).
  assert (NDl : NoDup (map fst l)) by (rewrite Kl; apply names_nodup; apply stored_nodup).
  assert (Src : forall k a, In (k, a) l -> In a (map snd kw) \/ exists x, a = Num x).
  { intros k a Hk. destruct (Cb k a Hk) as (n & _ & _ & Bn). unfold bound in Bn. destruct (dget kw n) as [a'|] eqn:D.
    - injection Bn as ->. left. apply (dget_In kw n a ND) in D. apply in_map_iff. exists (n, a). auto.
    - destruct (dget (signature c) n) as [[| |x]|] eqn:D2; try discriminate Bn. injection Bn as <-. right. exists x. reflexivity. }
  assert (Aol : args_ok wa (map snd l)).
  { intros t Ht. apply in_map_iff in Ht. destruct Ht as ([k a] & Ea & Hk). cbn in Ea. subst a. destruct (Src k _ Hk) as [H|[x H]]; [apply Ao, H|discriminate]. }
  assert (Rb : reach false wb) by (assert (X := r_params false start wa l Ra NDl Aol); rewrite En in X; exact X).
  apply Hf.
  - intros n Hin. destruct (Cn n Hin) as (a & Bn & Hl). destruct (bound_stands w c kw nums n a Hn Bn) as (x & Xn & Sx & Sa). rewrite Xn.
    apply (entry_number wa l wb p w (KName n) a x Ra NDl Aol En Hw Hl); [|exact Sx]. intros t ->. destruct Sa as [Sa|Sa]; [|discriminate]. apply Fr, Sa.
  - intros n Hin. unfold para. apply dget_absent. destruct (new_params_spec _ _ _ _ En) as (Ep & Enx & Epp & _).
    assert (K : (p < w_next wb)%nat) by lia. rewrite (proj2 (after_keys wb w p (reach_inv false wb Rb) Hw K)). rewrite Epp. intros Hk. unfold dkeys in Hk. rewrite map_map in Hk.
    assert (H : In (KName n) (map fst l)) by exact Hk.
    rewrite Kl in H. apply in_map_iff in H. destruct H as (n' & En' & Hn'). injection En' as ->. contradiction.
Qed.

(** ** the whole model *)
Lemma container wa (kw : list (str * arg)) wb p w nums : reach false wa -> NoDup (map fst kw) -> args_ok wa (map snd kw) -> new_params wa (map (fun ka => (KName (fst ka), snd ka)) kw) = (wb, p) ->
  after false wb w -> fresh w (map snd kw) -> in_numbers w kw nums -> forall n, para w p n = dget nums n.
Proof.
  intros Ra ND Ao En Hw Fr Hn n. set (l := map (fun ka => (KName (fst ka), snd ka)) kw) in *.
  assert (Kl : map fst l = map KName (map fst kw)) by (unfold l; rewrite !map_map; reflexivity).
  assert (Sl : map snd l = map snd kw) by (unfold l; rewrite !map_map; reflexivity).
  assert (NDl : NoDup (map fst l)) by (rewrite Kl; apply names_nodup, ND).
  assert (Aol : args_ok wa (map snd l)) by (rewrite Sl; exact Ao).
  assert (Rb : reach false wb) by (assert (X := r_params false start wa l Ra NDl Aol); rewrite En in X; exact X).
  pose proof (dget_two w kw nums n Hn) as D. unfold para. destruct (dget kw n) as [a|] eqn:Da, (dget nums n) as [x|]; try contradiction.
  - destruct D as [Sx Ia]. apply (entry_number wa l wb p w (KName n) a x Ra NDl Aol En Hw); [|intros t ->; apply Fr, Ia|exact Sx].
    apply (dget_In kw n a ND) in Da. unfold l. apply in_map_iff. exists (n, a). auto.
  - apply dget_absent. destruct (new_params_spec _ _ _ _ En) as (Ep & Enx & Epp & _).
    assert (K : (p < w_next wb)%nat) by lia. rewrite (proj2 (after_keys wb w p (reach_inv false wb Rb) Hw K)). rewrite Epp. intros Hk. unfold dkeys in Hk. rewrite map_map in Hk.
    assert (H : In (KName n) (map fst l)) by exact Hk. rewrite Kl in H. apply in_map_iff in H. destruct H as (n' & En' & Hn'). injection En' as ->.
    apply (in_dget kw n) in Hn'. contradiction.
Qed.
(** the loop of the constructor looks at kinds and tags *)
Definition kind (c : comp) : nat * str := match c with Scat t _ => (0%nat, t) | Sub t _ => (1%nat, t) | Other => (2%nat, []) end.
Lemma dkeys_dset {A B} (d : dict str A) (e : dict str B) t x y : dkeys d = dkeys e -> dkeys (dset d t x) = dkeys (dset e t y).
Proof.
  revert e. induction d as [|[k a] d IH]; intros [|[k' b] e] H; try discriminate; [reflexivity|]. cbn [dkeys map fst] in H. injection H as -> H. cbn [dset]. destruct (eqb t k'); cbn; [f_equal; exact H|f_equal; apply IH, H].
Qed.
Lemma load_kind l : forall l' s s' a a', map kind l = map kind l' -> dkeys s = dkeys s' -> dkeys a = dkeys a' ->
  match load s a l, load s' a' l' with Ok x, Ok y => dkeys (fst x) = dkeys (fst y) /\ dkeys (snd x) = dkeys (snd y) | Err e, Err e' => e = e' | _, _ => False end.
Proof.
  induction l as [|c l IH]; intros [|c' l'] s s' a a' H Hs Ha; try discriminate; [split; assumption|]. cbn [map] in H.
  assert (Hk : kind c = kind c') by congruence. assert (Hl : map kind l = map kind l') by congruence.
  destruct c as [t f|t f|], c' as [t' f'|t' f'|]; try discriminate; cbn [load].
  - injection Hk as <-. unfold dmem. rewrite Hs. destruct (memb t (dkeys s')); [reflexivity|]. apply IH; auto. apply dkeys_dset, Hs.
  - injection Hk as <-. unfold dmem. rewrite Ha. destruct (memb t (dkeys a')); [reflexivity|]. apply IH; auto. apply dkeys_dset, Ha.
  - reflexivity.
Qed.
Lemma init_kind l l' sa : map kind l = map kind l' -> debye_init l = Ok sa -> exists sa', debye_init l' = Ok sa'.
Proof.
  intros H E. unfold debye_init in *. pose proof (load_kind l l' [] [] [] [] H eq_refl eq_refl) as K. destruct (load [] [] l) as [x|]; [|discriminate]. destruct (load [] [] l') as [y|]; [|contradiction].
  cbv beta iota delta [rbind] in *. destruct K as [K _]. destruct (fst x) as [|u v]; [discriminate|]. destruct (fst y) as [|u' v']; [discriminate|]. exists y. reflexivity.
Qed.
Lemma init_kind_err l l' e : map kind l = map kind l' -> debye_init l = Err e -> debye_init l' = Err e.
Proof.
  intros H E. unfold debye_init in *. pose proof (load_kind l l' [] [] [] [] H eq_refl eq_refl) as K. destruct (load [] [] l) as [x|], (load [] [] l') as [y|]; try contradiction; cbv beta iota delta [rbind] in *.
  - destruct K as [K _]. destruct (fst x) as [|u v]; [|discriminate]. destruct (fst y) as [|u' v']; [exact E|discriminate].
  - congruence.
Qed.
Lemma kind_present w w' l : map kind (map (present w) l) = map kind (map (present w') l).
Proof. rewrite !map_map. apply map_ext. intros [o|t p f|]; reflexivity. Qed.
Lemma present_plain w ders l pl : (forall d, In d ders -> settled w d) -> Forall2 (in_plain w ders) l pl -> map (present w) l = pl.
Proof.
  intros Hd H. assert (Cu : forall l, current w ders l -> fresh w l) by (intros l' C t Ht; destruct (C t Ht); auto).
  induction H as [|c pc l pl Hc H IH]; [reflexivity|]. cbn [map]. f_equal; [|exact IH]. destruct Hc as [o c kw nums f g M C N P G|tag p kw nums f wa wb Ra ND Ao En Hw C N|]; cbn [present]; [| |reflexivity].
  - destruct (mechanism w o c kw nums M (Cu _ C) N) as (Ec & f' & P' & E'). assert (f' = f) by congruence. subst f'. rewrite Ec. f_equal.
    apply functional_extensionality. intros om. apply functional_extensionality. intros T. rewrite E', G. reflexivity.
  - assert (E : para w p = dget nums) by (apply functional_extensionality; apply (container wa kw wb p w nums); auto). rewrite E. reflexivity.
Qed.
Lemma debye_numbers w m vs td comps ders pl xvs xtd : made_debye w m vs td comps -> (forall d, In d ders -> settled w d) -> Forall2 (in_plain w ders) comps pl ->
  current w ders [vs; td] -> stands w vs xvs -> stands w td xtd ->
  exists s a, debye_init pl = Ok (s, a) /\ forall X (k : R -> R -> list mech -> list subm -> X), with_now w m k = Ok (k xvs xtd s a).
Proof.
  intros (wa & wb & Ra & Ao & E & Hw) Hd Hp Hc Sv St. unfold new_debye in E. destruct (new_params wa [(KName (S_ "vs"), vs); (KName (S_ "td"), td)]) as [wb' p] eqn:En.
  destruct (debye_init (map (present wb') comps)) as [sa|] eqn:Ei; [|discriminate]. injection E as <- <-.
  destruct (init_kind _ (map (present w) comps) sa (kind_present wb' w comps) Ei) as [[s a] Es]. pose proof (present_plain w ders comps pl Hd Hp) as Epl. exists s, a. rewrite <- Epl. split; [exact Es|].
  intros X k. unfold with_now. cbn [l_par l_comps].
  assert (P : forall n, para w p n = dget [(S_ "vs", xvs); (S_ "td", xtd)] n).
  { apply (container wa [(S_ "vs", vs); (S_ "td", td)] wb' p w); auto.
    - repeat constructor; cbn; intros H; repeat (destruct H as [H|H]; [vm_compute in H; discriminate|]); exact H.
    - intros t Ht. destruct (Hc t Ht); auto.
    - repeat constructor; auto. }
  rewrite !P. change (dget [(S_ "vs", xvs); (S_ "td", xtd)] (S_ "vs")) with (Some xvs). change (dget [(S_ "vs", xvs); (S_ "td", xtd)] (S_ "td")) with (Some xtd). cbn [need]. cbv beta iota delta [rbind need]. rewrite Es. reflexivity.
Qed.
