(** Lemmas about element-wise operations on numpy arrays. *)
From Coq Require Import ZArith Reals String Ascii Permutation Sorted Lia.
From Verif Require Import Py PyStr RUtil CfgSpec TxtSpec CliSpec RunSpec EngModel ArrModel ArrSpec ArrProofs VecModel.
Local Open Scope list_scope.
Local Open Scope nat_scope.

(** coordinates of an index seen through a shape *)
Definition proj (t i : list nat) : list nat := List.map (fun dk => if fst dk =? 1 then 0 else snd dk) (combine t (skipn (List.length i - List.length t) i)).
Lemma skipn_suffix {A} (a b : list A) : skipn (List.length (a ++ b) - List.length b) (a ++ b) = b.
Proof. rewrite app_length. replace (List.length a + List.length b - List.length b) with (List.length a) by lia. rewrite skipn_app, skipn_all, Nat.sub_diag. reflexivity. Qed.
Lemma sees_proj {X} (A : nd X) i x : List.length (shape A) <= List.length i -> (sees A i x <-> elem A (proj (shape A) i) x).
Proof.
  intros L. split.
  - intros (lead & i' & -> & E & Li). unfold proj. rewrite <- Li, skipn_suffix. exact E.
  - intros E. exists (firstn (List.length i - List.length (shape A)) i), (skipn (List.length i - List.length (shape A)) i). split; [symmetry; apply firstn_skipn|]. split; [exact E|]. rewrite skipn_length. lia.
Qed.
Lemma fits_length t s : fits t s -> List.length t <= List.length s.
Proof. intros (lead & s' & -> & F). rewrite app_length. assert (List.length t = List.length s') by (induction F; cbn; congruence). lia. Qed.
Lemma proj_index t s i : fits t s -> index s i -> index t (proj t i).
Proof.
  intros F I. destruct (fits_index t s i F I) as (lead & i' & -> & L & J). unfold proj. rewrite <- L, skipn_suffix. exact J.
Qed.
Lemma skipn_skipn {A} a : forall b (l : list A), skipn a (skipn b l) = skipn (b + a) l.
Proof. intros b. induction b as [|b IH]; intros l; [reflexivity|]. destruct l as [|x l]; [rewrite !skipn_nil; reflexivity|]. cbn. apply IH. Qed.
Lemma combine_skipn {A B} n : forall (l : list A) (m : list B), skipn n (combine l m) = combine (skipn n l) (skipn n m).
Proof. induction n as [|n IH]; intros [|a l] [|b m]; cbn; try reflexivity; [destruct (skipn n l); reflexivity|apply IH]. Qed.
Lemma proj_trans t c s i : fits t c -> fits c s -> index s i -> proj t (proj c i) = proj t i.
Proof.
  intros (lead & c' & -> & F) Fc I. assert (Lc := fits_length _ _ Fc). apply index_length in I as Li. rewrite <- Li in Lc.
  assert (Lt : List.length t = List.length c') by (clear - F; induction F; cbn; congruence). rewrite app_length in Lc.
  unfold proj at 1. assert (Lp : List.length (proj (lead ++ c') i) = List.length (lead ++ c')) by (unfold proj; rewrite map_length, combine_length, skipn_length, app_length; lia).
  rewrite Lp, Lt. rewrite app_length. replace (List.length lead + List.length c' - List.length c') with (List.length lead) by lia.
  unfold proj. rewrite skipn_map, combine_skipn, skipn_skipn, skipn_app, skipn_all, Nat.sub_diag. cbn [skipn app]. rewrite Lt, app_length.
  replace (List.length i - (List.length lead + List.length c') + List.length lead) with (List.length i - List.length c') by lia.
  generalize (skipn (List.length i - List.length c') i). clear - F. induction F as [|d n t c H F IH]; intros l; [reflexivity|]. destruct l as [|k l]; [reflexivity|]. cbn [combine List.map fst snd]. f_equal; [|apply IH].
  destruct (Nat.eqb_spec d 1) as [->|N]; [reflexivity|]. destruct H as [H|H]; [contradiction|]. subst n. destruct (Nat.eqb_spec d 1); [contradiction|reflexivity].
Qed.
Lemma fits_refl s : fits s s.
Proof. exists [], s. split; [reflexivity|]. induction s; constructor; auto. Qed.
Lemma fits_trans a b c : fits a b -> fits b c -> fits a c.
Proof. intros H1 H2. apply fits_rev in H1, H2. apply fits_rev. eapply fitsr_trans; eassumption. Qed.
Lemma fits_antisym a b : fits a b -> fits b a -> a = b.
Proof. intros H1 H2. apply fits_rev in H1, H2. assert (E := fitsr_antisym _ _ H1 H2). apply (f_equal (@rev nat)) in E. rewrite !rev_involutive in E. exact E. Qed.
Lemma fits_nil s : fits [] s.
Proof. exists s, []. split; [symmetry; apply app_nil_r|constructor]. Qed.

Section Rel.
Variable X : Type.
Variable x0 : X.
(** the array [A] can be broadcast to [s] and shows [x] at [i]; the shapes in [t] can be broadcast to the shape of [A] *)
Definition rel (s i : list nat) (t : list nat -> Prop) (A : nd X) (x : X) : Prop := array A /\ fits (shape A) s /\ (forall l, t l -> fits l (shape A)) /\ (index s i -> sees A i x).
Lemma u1_rel s i t f A x : rel s i t A x -> rel s i t (u1 f A) (f x).
Proof.
  intros (HA & F & T & E). split; [unfold array, u1 in *; cbn [shape flat]; rewrite map_length; exact HA|]. split; [exact F|]. split; [exact T|]. intros I. destruct (E I) as (lead & i' & -> & (J & P) & L).
  exists lead, i'. split; [reflexivity|]. split; [|exact L]. split; [exact J|]. cbn [u1 shape flat]. rewrite nth_error_map, P. reflexivity.
Qed.
Lemma con_rel s i c : rel s i (fun _ => False) (con0 c) c.
Proof.
  split; [reflexivity|]. split; [apply fits_nil|]. split; [intros l []|]. intros _. exists i, []. split; [symmetry; apply app_nil_r|]. split; [|reflexivity]. split; [constructor|reflexivity].
Qed.
Lemma u2_rel s i t u f A B x y : rel s i t A x -> rel s i u B y -> exists C, u2 x0 f A B = Ok C /\ rel s i (fun l => t l \/ u l) C (f x y).
Proof.
  intros (HA & FA & TA & EA) (HB & FB & TB & EB). unfold u2.
  assert (G : exists c, broadcast_shape [shape A; shape B] = Ok c).
  { destruct (broadcast_shape [shape A; shape B]) as [c|e] eqn:E; [exists c; reflexivity|]. exfalso.
    assert (e = ValueError). { clear - E. unfold broadcast_shape in E. destruct (bc_all [] [shape A; shape B]) as [r|e'] eqn:Q; [discriminate|]. injection E as <-.
      pose proof (bc_all_spec [shape A; shape B] []) as Z. rewrite Q in Z. exact (proj1 Z). }
    subst e. apply (proj1 (broadcast_none _) E s). constructor; [exact FA|constructor; [exact FB|constructor]]. }
  destruct G as (c & Ec). rewrite Ec. cbv beta iota delta [rbind]. apply broadcast_common in Ec as (Fc & Mc).
  assert (Fa := Forall_inv Fc). assert (Fb := Forall_inv (Forall_inv_tail Fc)).
  assert (Cs : fits c s) by (apply Mc; constructor; [exact FA|constructor; [exact FB|constructor]]).
  eexists. split; [reflexivity|]. split; [|split; [exact Cs|split]].
  - unfold array. cbn [shape flat]. rewrite map_length, seq_length. apply size_count.
  - intros l Q. cbn [shape]. destruct Q as [Q|Q]; [apply TA in Q|apply TB in Q]; eapply fits_trans; eassumption.
  - intros I. specialize (EA I). specialize (EB I). apply index_length in I as Li. pose proof (fits_length _ _ Cs) as Lc. pose proof (fits_length _ _ FA) as La. pose proof (fits_length _ _ FB) as Lb.
    apply sees_proj; [cbn [shape]; lia|]. cbn [shape]. set (j := proj c i). assert (J : index c j) by (eapply proj_index; eassumption). split; [exact J|]. cbn [shape flat].
    pose proof (place_lt c j J) as P. rewrite nth_error_map. rewrite (nth_error_nth' (seq 0 (size c)) 0) by (rewrite seq_length; exact P). rewrite seq_nth by exact P. cbn [option_map Nat.add]. rewrite (unravel_place c j J). f_equal. f_equal.
    + apply (sees_fun A i); [|exact EA]. apply sees_proj; [lia|]. rewrite <- (proj_trans (shape A) c s i Fa Cs I). fold j. apply sees_proj; [rewrite (index_length c j J); apply fits_length, Fa|]. exact (bc_get_sees x0 A c j HA Fa J).
    + apply (sees_fun B i); [|exact EB]. apply sees_proj; [lia|]. rewrite <- (proj_trans (shape B) c s i Fb Cs I). fold j. apply sees_proj; [rewrite (index_length c j J); apply fits_length, Fb|]. exact (bc_get_sees x0 B c j HB Fb J).
Qed.
Lemma common_unique ts s s' : common ts s -> common ts s' -> s = s'.
Proof. intros (F & M) (F' & M'). apply fits_antisym; [apply M, F'|apply M', F]. Qed.
Lemma u2_none f A B : (forall s, ~ (fits (shape A) s /\ fits (shape B) s)) -> u2 x0 f A B = Err ValueError.
Proof.
  intros H. unfold u2. assert (E : broadcast_shape [shape A; shape B] = Err ValueError); [|rewrite E; reflexivity]. apply broadcast_none. intros s F. apply (H s). split; [exact (Forall_inv F)|exact (Forall_inv (Forall_inv_tail F))].
Qed.
Lemma plain_rel s i A x : array A -> fits (shape A) s -> (index s i -> sees A i x) -> rel s i (eq (shape A)) A x.
Proof. intros HA F E. split; [exact HA|]. split; [exact F|]. split; [intros l <-; apply fits_refl|exact E]. Qed.
Lemma atleast_rel s i A x : array A -> fits (shape (atleast_1d A)) s -> (index s i -> sees A i x) -> rel s i (eq (shape (atleast_1d A))) (atleast_1d A) x.
Proof.
  intros HA F E. unfold atleast_1d in *. destruct (shape A) as [|d l] eqn:S; [|apply plain_rel; [exact HA|exact F|exact E]].
  split; [unfold array in *; rewrite S in HA; exact HA|]. split; [exact F|]. split; [intros l <-; apply fits_refl|]. intros I. destruct (E I) as (lead & i' & -> & (J & P) & L). rewrite S in *. destruct i' as [|? ?]; [|discriminate].
  cbn [shape] in F. apply fits_length in F. rewrite <- (index_length _ _ I), app_nil_r in F. cbn in F. rewrite app_nil_r in *. destruct (exists_last (l := lead)) as (l0 & k & ->); [destruct lead; [cbn in F; lia|discriminate]|].
  exists l0, [k]. split; [reflexivity|]. split; [|reflexivity]. cbn [shape combine List.map fst snd]. split; [repeat constructor|]. cbn. cbn in P. exact P.
Qed.
End Rel.

(** ** formulas: what is shown at one index is computed from what the operands show there *)
Section Walk.
Variable X : Type.
Variable ar : arith X.
Let z := a_lit ar 0%R.
Notation relx := (rel X).
Notation set := (list nat -> Prop).
Definition itgs_rel s i (c h d w : set) (P : vitgs (nd X)) (p : vitgs X) : Prop :=
  relx s i c (vTc P) (vTc p) /\ relx s i h (vTh P) (vTh p) /\ relx s i d (vDT P) (vDT p) /\ relx s i c (vSc P) (vSc p) /\ relx s i h (vSh P) (vSh p)
  /\ relx s i w (vRho P) (vRho p) /\ relx s i d (vS P) (vS p) /\ relx s i w (vK P) (vK p) /\ relx s i w (vRhoT P) (vRhoT p) /\ relx s i d (vST P) (vST p).
Definition mdfs_rel s i (d w : set) (P : vmdfs (nd X)) (p : vmdfs X) : Prop :=
  relx s i w (nRho P) (nRho p) /\ relx s i d (nS P) (nS p) /\ relx s i w (nRhoW P) (nRhoW p) /\ relx s i d (nSW P) (nSW p) /\ relx s i w (nRhoT P) (nRhoT p) /\ relx s i d (nST P) (nST p)
  /\ relx s i d (n0 P) (n0 p) /\ relx s i w (n1 P) (n1 p) /\ relx s i w (n2 P) (n2 p).
Definition wgts_rel s i (d w : set) (P : vwgts (nd X)) (p : vwgts X) : Prop :=
  relx s i w (wgJ P) (wgJ p) /\ relx s i d (wgT P) (wgT p) /\ relx s i d (wg0 P) (wg0 p) /\ relx s i w (wg1 P) (wg1 p) /\ relx s i w (wg2 P) (wg2 p).
Definition prfs_rel s i (c h d w : set) (P : vprfs (nd X)) (p : vprfs X) : Prop :=
  relx s i d (vpDT P) (vpDT p) /\ relx s i w (vpPFeng P) (vpPFeng p) /\ relx s i w (vpZeng P) (vpZeng p) /\ relx s i w (vpZTeng P) (vpZTeng p) /\ relx s i w (vpZTp P) (vpZTp p)
  /\ relx s i w (vpm P) (vpm p) /\ relx s i d (vpVoc P) (vpVoc p) /\ relx s i w (vpIsc P) (vpIsc p) /\ relx s i w (vpQx P) (vpQx p) /\ mdfs_rel s i d w (vpmdfs P) (vpmdfs p)
  /\ itgs_rel s i c h d w (vpitgs P) (vpitgs p) /\ match vpwgts P, vpwgts p with Some V, Some v => wgts_rel s i d w V v | None, None => True | _, _ => False end.
Definition outs_rel s i (d w : set) (P : vouts (nd X)) (p : vouts X) : Prop :=
  relx s i w (voI P) (voI p) /\ relx s i d (voVout P) (voVout p) /\ relx s i w (voPout P) (voPout p) /\ relx s i w (voQhot P) (voQhot p) /\ relx s i w (voYita P) (voYita p).
Lemma rel_weak s i (b t : set) A x : relx s i t A x -> (forall l, b l -> t l) -> relx s i b A x.
Proof. intros (H1 & H2 & H3 & H4) H. split; [exact H1|]. split; [exact H2|]. split; [intros l Q; exact (H3 l (H l Q))|exact H4]. Qed.
Let s1 (f : X -> X) (x : X) := f x.
Let s2 (f : X -> X -> X) (x y : X) : res X := Ok (f x y).
Let c1 (x : X) := x.

Ltac get_rel A :=
  match A with
  | con0 ?c => match goal with |- context [rel _ ?s ?i _ _ _] => constr:(con_rel X s i c) | H : rel _ ?s ?i _ _ _ |- _ => constr:(con_rel X s i c) end
  | u1 ?f ?B => let h := get_rel B in constr:(u1_rel X _ _ _ f B _ h)
  | _ => match goal with H : rel _ _ _ _ A _ |- _ => H end
  end.
Ltac step :=
  match goal with
  | |- context [u2 ?zz ?f ?A ?B] =>
      let ha := get_rel A in let hb := get_rel B in
      let C := fresh "C" in let E := fresh "E" in let H := fresh "H" in
      destruct (u2_rel X zz _ _ _ _ f A B _ _ ha hb) as (C & E & H); rewrite E; clear E; cbv beta iota
  end.
Ltac finish :=
  repeat match goal with |- _ /\ _ => split end;
  match goal with
  | |- True => exact I
  | H : rel _ ?s ?i ?t ?A ?x |- rel _ ?s ?i ?b ?A ?x => apply (rel_weak s i b t A x H); cbv beta; intros; tauto
  | H : rel _ ?s ?i ?t ?A ?x |- rel _ ?s ?i ?b (u1 ?f ?A) _ => apply (rel_weak s i b t (u1 f A) (f x) (u1_rel X s i t f A x H)); cbv beta; intros; tauto
  end.
Ltac unf := cbv beta zeta iota delta [rbind vTc vTh vDT vSc vSh vRho vS vK vRhoT vST nRho nS nRhoW nSW nRhoT nST n0 n1 n2 vpDT vpPFeng vpZeng vpZTeng vpZTp vpm vpVoc vpIsc vpQx vpitgs vpmdfs vpwgts wgJ wgT wg0 wg1 wg2 s1 s2 c1].
Ltac rec := cbn [vTc vTh vDT vSc vSh vRho vS vK vRhoT vST nRho nS nRhoW nSW nRhoT nST n0 n1 n2 vpDT vpPFeng vpZeng vpZTeng vpZTp vpm vpVoc vpIsc vpQx vpitgs vpmdfs vpwgts wgJ wgT wg0 wg1 wg2 voI voVout voPout voQhot voYita].

Lemma itgs_walk s i c h (t : tables X) Tc Th tc th : relx s i c Tc tc -> relx s i h Th th ->
  exists P p, v_itgs X ar (nd X) u1 (u2 z) t Tc Th = Ok P /\ v_itgs X ar X s1 s2 t tc th = Ok p /\ itgs_rel s i c h (fun l => c l \/ h l) (fun l => c l \/ h l) P p.
Proof.
  intros Hc Hh. unfold v_itgs. unf. repeat step. do 2 eexists. split; [reflexivity|]. split; [reflexivity|]. unfold itgs_rel. rec. finish.
Qed.
Lemma build_walk s i c h d w L A b P p : itgs_rel s i c h d w P p ->
  exists Q q, v_build X ar (nd X) u1 (u2 z) con0 L A b P = Ok Q /\ v_build X ar X s1 s2 c1 L A b p = Ok q /\ prfs_rel s i c h d w Q q.
Proof.
  destruct P as [Tc Th DT Sc Sh Rho S_ K RhoT ST], p as [tc th dt sc sh rho s_ k rhot st]. intros (H1 & H2 & H3 & H4 & H5 & H6 & H7 & H8 & H9 & H10). cbn [vTc vTh vDT vSc vSh vRho vS vK vRhoT vST] in *.
  unfold v_build, v_mdfs, v_prfs, v_wgts. unf. repeat step. destruct b; repeat step; (do 2 eexists; split; [reflexivity|]; split; [reflexivity|]; unfold prfs_rel, itgs_rel, mdfs_rel, wgts_rel; rec; finish).
Qed.
Lemma prfs_weak s i c h d (w w' : set) P p : (forall l, w' l -> w l) -> prfs_rel s i c h d w P p -> prfs_rel s i c h d w' P p.
Proof.
  intros W. assert (K : forall A x, relx s i w A x -> relx s i w' A x) by (intros A x H; apply (rel_weak s i w' w A x H W)). unfold prfs_rel, mdfs_rel, itgs_rel, wgts_rel.
  intros H. repeat match goal with H : _ /\ _ |- _ => destruct H end. repeat match goal with |- _ /\ _ => split end; try assumption; try (apply K; assumption).
  destruct (vpwgts P), (vpwgts p); try assumption. repeat match goal with H : _ /\ _ |- _ => destruct H end. repeat match goal with |- _ /\ _ => split end; try assumption; apply K; assumption.
Qed.
(** currents and outputs *)
Lemma current_walk s i c h d w P p : prfs_rel s i c h d w P p -> exists Q q, v_current X ar (nd X) (u2 z) con0 P = Ok Q /\ v_current X ar X s2 c1 p = Ok q /\ relx s i w Q q.
Proof.
  intros H. unfold prfs_rel in H. destruct H as (_ & _ & _ & _ & _ & H & _). unfold v_current. destruct P, p. cbn [VecModel.vpm] in H. unf.
  repeat step. do 2 eexists. split; [reflexivity|]. split; [reflexivity|]. finish.
Qed.
Lemma outs_walk s i c h d w u P p I y : prfs_rel s i c h d w P p -> relx s i u I y ->
  exists Q q, v_outs X ar (nd X) (u2 z) con0 P I = Ok Q /\ v_outs X ar X s2 c1 p y = Ok q /\ outs_rel s i (fun l => d l \/ u l) (fun l => w l \/ u l) Q q.
Proof.
  intros H HI. destruct P as [DT PF Z ZT ZTp M_ Voc Isc Qx II [N1 N2 N3 N4 N5 N6 N7 N8 N9] W], p as [dt pf z' zt ztp m_ voc isc qx ii [m1 m2 m3 m4 m5 m6 m7 m8 m9] w_]. unfold prfs_rel, mdfs_rel in H.
  cbn [vpDT vpPFeng vpZeng vpZTeng vpZTp vpm vpVoc vpIsc vpQx vpitgs vpmdfs vpwgts wgJ wgT wg0 wg1 wg2 nRho nS nRhoW nSW nRhoT nST n0 n1 n2] in H.
  destruct H as (? & ? & ? & ? & ? & ? & ? & ? & ? & (? & ? & ? & ? & ? & ? & ? & ? & ?) & _).
  unfold v_outs. unf. repeat step. do 2 eexists. split; [reflexivity|]. split; [reflexivity|]. unfold outs_rel. rec. finish.
Qed.
Definition ratio_rel s i (u : set) (A : vratio (nd X)) (a : vratio X) : Prop :=
  match A, a with VZ, VZ => True | VP, VP => True | VNum r, VNum x => relx s i u r x | _, _ => False end.
Definition ratio_set (d l u : set) (a : vratio X) : set := match a with VNum _ => u | _ => fun k => d k \/ l k end.
Lemma ratio_walk s i c h d l u P p N n rL yL rA yA : itgs_rel s i c h d d P p -> itgs_rel s i c h d d N n -> relx s i l rL yL -> ratio_rel s i u rA yA ->
  exists Q q, v_ratio X ar (nd X) u1 (u2 z) rL rA P N = Ok Q /\ v_ratio X ar X s1 s2 yL yA p n = Ok q /\ relx s i (ratio_set d l u yA) Q q.
Proof.
  destruct P as [Tc Th DT Sc Sh Rho S_ K RhoT ST], p as [tc th dt sc sh rho s_ k rhot st]. intros (H1 & H2 & H3 & H4 & H5 & H6 & H7 & H8 & H9 & H10).
  destruct N as [Tc' Th' DT' Sc' Sh' Rho' S_' K' RhoT' ST'], n as [tc' th' dt' sc' sh' rho' s_' k' rhot' st']. intros (G1 & G2 & G3 & G4 & G5 & G6 & G7 & G8 & G9 & G10) HL HA. cbn [vTc vTh vDT vSc vSh vRho vS vK vRhoT vST] in *.
  unfold v_ratio. destruct rA as [| |r], yA as [| |y]; try contradiction; cbn [ratio_set]; cbn [ratio_rel] in HA; unf; repeat step; (do 2 eexists; split; [reflexivity|]; split; [reflexivity|]; finish).
Qed.
Lemma merge_walk s i c h d l u P p N n rL yL rA yA : itgs_rel s i c h d d P p -> itgs_rel s i c h d d N n -> relx s i l rL yL -> relx s i u rA yA ->
  exists Q q, v_merge X ar (nd X) (u2 z) con0 rL rA P N = Ok Q /\ v_merge X ar X s2 c1 yL yA p n = Ok q /\ itgs_rel s i c h d (fun k => d k \/ l k \/ u k) Q q.
Proof.
  destruct P as [Tc Th DT Sc Sh Rho S_ K RhoT ST], p as [tc th dt sc sh rho s_ k rhot st]. intros (H1 & H2 & H3 & H4 & H5 & H6 & H7 & H8 & H9 & H10).
  destruct N as [Tc' Th' DT' Sc' Sh' Rho' S_' K' RhoT' ST'], n as [tc' th' dt' sc' sh' rho' s_' k' rhot' st']. intros (G1 & G2 & G3 & G4 & G5 & G6 & G7 & G8 & G9 & G10) HL HA. cbn [vTc vTh vDT vSc vSh vRho vS vK vRhoT vST] in *.
  unfold v_merge. unf. repeat step. do 2 eexists. split; [reflexivity|]. split; [reflexivity|]. unfold itgs_rel. rec. finish.
Qed.
End Walk.

(** ** failures *)
Lemma u2_inv X (z : X) f A B C : u2 z f A B = Ok C -> fits (shape A) (shape C) /\ fits (shape B) (shape C).
Proof.
  unfold u2. destruct (broadcast_shape [shape A; shape B]) as [c|e] eqn:E; [|discriminate]. cbv beta iota delta [rbind]. intros Q. injection Q as <-. apply broadcast_common in E as (F & _). cbn [shape].
  split; [exact (Forall_inv F)|exact (Forall_inv (Forall_inv_tail F))].
Qed.
Lemma u2_err X (z : X) f A B e : u2 z f A B = Err e -> e = ValueError.
Proof.
  unfold u2. destruct (broadcast_shape [shape A; shape B]) as [c|e'] eqn:E; [discriminate|]. cbv beta iota delta [rbind]. intros Q. injection Q as <-. unfold broadcast_shape in E. destruct (bc_all [] [shape A; shape B]) as [r|e] eqn:Q; [discriminate|]. injection E as <-.
  pose proof (bc_all_spec [shape A; shape B] []) as Z. rewrite Q in Z. exact (proj1 Z).
Qed.
Section Fail.
Variable X : Type.
Variable ar : arith X.
Let z := a_lit ar 0%R.
Ltac unf := cbv beta zeta iota delta [rbind vTc vTh vDT vSc vSh vRho vS vK vRhoT vST nRho nS nRhoW nSW nRhoT nST n0 n1 n2 vpDT vpPFeng vpZeng vpZTeng vpZTp vpm vpVoc vpIsc vpQx vpitgs vpmdfs vpwgts].
Ltac inv :=
  match goal with |- context [u2 ?zz ?f ?A ?B] =>
    let C := fresh "C" in let e := fresh "e" in let E := fresh "E" in
    destruct (u2 zz f A B) as [C|e] eqn:E; [apply u2_inv in E; destruct E as [? ?]; cbv beta iota | apply u2_err in E; subst e; cbv beta iota; try discriminate; try (intros [=]; congruence)] end.
Lemma itgs_fail t Tc Th : match v_itgs X ar (nd X) u1 (u2 z) t Tc Th with
  | Err e => e = ValueError | Ok P => vTc P = Tc /\ vTh P = Th /\ vSc P = u1 (t_S t) Tc /\ vSh P = u1 (t_S t) Th /\ fits (shape Tc) (shape (vRho P)) /\ fits (shape Th) (shape (vRho P)) end.
Proof. unfold v_itgs. unf. repeat (inv; try reflexivity). auto 10. Qed.
Lemma build_fail L A b P : match v_build X ar (nd X) u1 (u2 z) con0 L A b P with
  | Err e => e = ValueError | Ok Q => vpitgs Q = P /\ (vpwgts Q = None <-> b = false) end.
Proof. destruct P. unfold v_build, v_mdfs, v_prfs, v_wgts. unf. repeat (inv; try reflexivity). all: destruct b; repeat (inv; try reflexivity); try reflexivity; (split; [reflexivity|split; congruence]). Qed.
Lemma outs_fail P I : match v_outs X ar (nd X) (u2 z) con0 P I with Err e => e = ValueError | Ok o => fits (shape (vpIsc P)) (shape (voI o)) /\ fits (shape I) (shape (voI o)) end.
Proof. destruct P as [? ? ? ? ? ? ? ? ? ? [] ?]. unfold v_outs. unf. repeat (inv; try reflexivity). auto. Qed.
Lemma ratio_fail rL rA P N : match v_ratio X ar (nd X) u1 (u2 z) rL rA P N with Err e => e = ValueError | Ok r => match rA with VNum A => r = A | _ => True end end.
Proof. destruct P, N. unfold v_ratio. destruct rA; unf; repeat (inv; try reflexivity); auto. Qed.
Lemma merge_fail rL rA P N : match v_merge X ar (nd X) (u2 z) con0 rL rA P N with
  | Err e => e = ValueError | Ok Q => fits (shape (vRho P)) (shape (vRho Q)) /\ fits (shape (vRho N)) (shape (vRho Q)) /\ fits (shape rL) (shape (vRho Q)) /\ fits (shape rA) (shape (vRho Q)) end.
Proof. destruct P, N. unfold v_merge. unf. repeat (inv; try reflexivity). repeat split; eauto 6 using fits_trans. Qed.
End Fail.
