(** C45-C49: data sets and data files (src/teflow/loader.py:514-836). *)
From Coq Require Import Sorted ZArith String.
From Verif Require Import Py PyDict PyStr RUtil CfgModel DataModel DataSpec DataProofs.
Local Open Scope list_scope.
Local Open Scope R_scope.

(** The names of the columns as the user writes them. *)
Theorem C46_names : kC = S_ "C" /\ kR = S_ "R" /\ kN = S_ "N" /\ kU = S_ "U" /\ kT = S_ "T" /\ kX = S_ "X".
Proof. repeat split. Qed.
Print Assumptions C46_names.
(** the elementary charge in these units *)
Theorem C46_charge : Q_CHARGE = 1.602176634.
Proof. reflexivity. Qed.
Print Assumptions C46_charge.

(** ** C45 *)
Theorem C45_identifiers :
  forall (g0 : str) (items : list (str * str)),      (* (identifier, following text) *)
  Forall (fun c => ~ capital c) g0 ->
  Forall (fun p => identifier (fst p) /\ gap_after (fst p) (snd p)) items ->
  parse_group (g0 ++ flat_map (fun p => fst p ++ snd p) items) = map fst items.
Proof. exact group_text. Qed.
Print Assumptions C45_identifiers.
(** every text has this form, so the above determines the result for every text *)
Theorem C45_all_texts :
  forall t : str, exists g0 items, t = g0 ++ flat_map (fun p => fst p ++ snd p) items
  /\ Forall (fun c => ~ capital c) g0 /\ Forall (fun p => identifier (fst p) /\ gap_after (fst p) (snd p)) items.
Proof. exact group_decompose. Qed.
Print Assumptions C45_all_texts.
Theorem C45_roundtrip :
  forall ids : list str, Forall identifier ids -> parse_group (List.concat ids) = ids.
Proof.
  intros ids H. pose proof (group_text [] (map (fun s => (s, [])) ids) ltac:(constructor)) as E. cbn [app] in E.
  rewrite map_map in E. cbn [fst] in E. rewrite map_id in E. rewrite <- E at 2.
  - f_equal. clear. induction ids as [|s ids IH]; [reflexivity|]. cbn. rewrite app_nil_r, IH. reflexivity.
  - apply Forall_map. eapply Forall_impl; [|exact H]. intros s Hs. cbn. split; [exact Hs|]. split; [constructor|]. intros _ c r; discriminate.
Qed.
Print Assumptions C45_roundtrip.
Example C45_case : parse_group (S_ "T_R1, S (uV) C0x") = [S_ "T_"; S_ "R1"; S_ "S"; S_ "V"; S_ "C0"].
Proof. reflexivity. Qed.

(** ** C46 *)
Lemma made_coherent d : made d -> coherent d.
Proof. intros [(g & data & ->)|(g & data & H)]; [apply init1_coherent|exact (init2_coherent _ _ _ H)]. Qed.
Lemma made_temp d : made d -> exists f, temp_of_idx f d.
Proof. intros [(g & data & ->)|(g & data & H)]; eexists; [apply init1_temp|exact (init2_temp _ _ _ H)]. Qed.
Lemma coherent_get d k : coherent d -> (exists v t i, dget (ddata d) k = Some v /\ dget (dtemp d) k = Some t /\ dget (dtidx d) k = Some i)
  \/ (dget (ddata d) k = None /\ dget (dtemp d) k = None /\ dget (dtidx d) k = None).
Proof.
  intros (W & E1 & E2). destruct (in_dec eq_dec k (dkeys (ddata d))) as [H|H].
  - left. pose proof H as H1. pose proof H as H2. rewrite <- E1 in H1. rewrite <- E2 in H2.
    apply dget_Some_In in H as (v & Hv). apply dget_Some_In in H1 as (t & Ht). apply dget_Some_In in H2 as (i & Hi). eauto 10.
  - right. pose proof H as H1. pose proof H as H2. rewrite <- E1 in H1. rewrite <- E2 in H2. apply dget_None in H. apply dget_None in H1. apply dget_None in H2. auto.
Qed.
Lemma dmem_get {V} (d : dict str V) k : dmem d k = match dget d k with Some _ => true | None => false end.
Proof.
  destruct (dmem d k) eqn:E.
  - apply dmem_spec, dget_Some_In in E as (v & ->). reflexivity.
  - destruct (dget d k) as [v|] eqn:Ev; [|reflexivity]. assert (In k (dkeys d)) by (apply dget_Some_In; eauto).
    apply dmem_spec in H. congruence.
Qed.
Theorem C46_original :
  forall (d : dataset) (key : str) (dflt : bool), made d ->
  (forall v, dget (ddata d) key = Some v -> exists t, getitem d key = Ok (t, v) /\ get d key dflt = Ok (Some (t, v)))
  /\ (dget (ddata d) key = None -> getitem d key = Err KeyError).
Proof.
  intros d key dflt Hm. apply made_coherent in Hm. split.
  - intros v Hv. destruct (coherent_get d key Hm) as [(v' & t & i & H1 & H2 & H3)|(H1 & _)]; [|congruence]. exists t.
    unfold getitem, get, with_temp, dgetitem, col. rewrite dmem_get, Hv, H2. cbn. split; reflexivity.
  - intros Hn. destruct (coherent_get d key Hm) as [(v' & t & i & H1 & H2 & H3)|(H1 & H2 & _)]; [congruence|].
    unfold getitem, dgetitem. rewrite H2. reflexivity.
Qed.
Print Assumptions C46_original.

Lemma nth_scal c a i : nth i (scal c a) None = cmul (Some c) (nth i a None).
Proof. unfold scal. change (@None R) with (cmul (Some c) None) at 1. apply map_nth. Qed.
Lemma nth_over c a i : nth i (over c a) None = cdiv (Some c) (nth i a None).
Proof. unfold over. change (@None R) with (cdiv (Some c) None) at 1. apply map_nth. Qed.
Lemma bcast_same f a b v : (f None None = None) -> length a = length b -> bcast f a b = Ok v ->
  length v = length a /\ forall i, nth i v None = f (nth i a None) (nth i b None).
Proof.
  intros Hf Hl. unfold bcast. rewrite Hl, Nat.eqb_refl. intros [= <-]. split; [rewrite map_length, combine_length; lia|].
  intros i. rewrite <- Hf at 1. change (f None None) with ((fun p => f (fst p) (snd p)) (@None R, @None R)) at 1.
  rewrite map_nth, combine_nth by exact Hl. reflexivity.
Qed.
Lemma bcast_total f a b : length a = length b -> exists v, bcast f a b = Ok v.
Proof. intros H. unfold bcast. rewrite H, Nat.eqb_refl. eauto. Qed.
Lemma over_pointwise c : pointwise (fun x y => x * y = 1e4) c (over 1e4 c).
Proof.
  split; [unfold over; rewrite map_length; reflexivity|]. intros i x y Hx. rewrite nth_over, Hx. cbn.
  destruct (Req_EM_T x 0); [discriminate|]. intros [= <-]. field. assumption.
Qed.
Lemma pointwise_sym c r : pointwise (fun x y => x * y = 1e4) c r -> pointwise (fun x y => x * y = 1e4) r c.
Proof. intros (H & P). split; [congruence|]. intros i x y Hx Hy. rewrite Rmult_comm. exact (P i y x Hy Hx). Qed.

Lemma view d k : coherent d -> exists o : option (arr * option arr * Z),
  dget (ddata d) k = option_map (fun x => fst (fst x)) o /\ dget (dtemp d) k = option_map (fun x => snd (fst x)) o
  /\ dget (dtidx d) k = option_map (fun x => snd x) o.
Proof.
  intros H. destruct (coherent_get d k H) as [(v & t & i & H1 & H2 & H3)|(H1 & H2 & H3)].
  - exists (Some (v, t, i)). auto.
  - exists None. auto.
Qed.
(** [get] for one of the four electrical keys *)
Lemma get_own d k b : In k [kC; kR; kN; kU] ->
  get d k b = let! v := (if eqb k kC then getC d else if eqb k kR then getR d else if eqb k kN then getN d else getU d) in
              match v with None => if b then Ok None else Err ValueError | Some p => Ok (Some p) end.
Proof.
  intros H. unfold get. destruct (dmem (ddata d) k) eqn:E; [|].
  - destruct H as [<-|[<-|[<-|[<-|[]]]]]; cbn [eqb]; unfold getC, getR, getN, getU; rewrite E; reflexivity.
  - destruct H as [<-|[<-|[<-|[<-|[]]]]]; reflexivity.
Qed.
Theorem C46_conductivity_resistivity :
  forall (d : dataset) (t t' : option arr) (c r : arr), made d ->
  get d kC false = Ok (Some (t, c)) -> get d kR false = Ok (Some (t', r)) ->
  ~ (holds d kC /\ holds d kR) ->
  t = t' /\ pointwise (fun x y => x * y = 1e4) c r.
Proof.
  intros d t t' c r Hm HC HR Hno. apply made_coherent in Hm.
  rewrite get_own in HC by (cbn; auto). rewrite get_own in HR by (cbn; auto).
  change (eqb kC kC) with true in HC. change (eqb kR kC) with false in HR. change (eqb kR kR) with true in HR. cbv iota in HC, HR.
  unfold getC, getR, with_temp, linked, col, dgetitem, holds in *. rewrite !dmem_get in *.
  destruct (view d kC Hm) as (oC & C1 & C2 & C3); destruct (view d kR Hm) as (oR & R1 & R2 & R3);
  destruct (view d kN Hm) as (oN & N1 & N2 & N3); destruct (view d kU Hm) as (oU & U1 & U2 & U3).
  rewrite C1, C2, R1, R2, N1, N2, N3, U1, U3 in HC. rewrite C1, C2, R1, R2, N1, N2, N3, U1, U3 in HR. rewrite C1, R1 in Hno.
  destruct oC as [[[vc tc] ic]|]; destruct oR as [[[vr tr] ir]|]; cbn [option_map fst snd rbind] in *.
  - exfalso. apply Hno. split; eexists; reflexivity.
  - injection HC as <- <-. injection HR as <- <-. split; [reflexivity|apply over_pointwise].
  - injection HC as <- <-. injection HR as <- <-. split; [reflexivity|apply pointwise_sym, over_pointwise].
  - destruct oN as [[[vn tn] i1]|]; destruct oU as [[[vu tu] i2]|]; cbn [option_map fst snd rbind] in *; try discriminate.
    destruct (Z.eqb i1 i2); [|discriminate]. destruct (bcast _ _ _) as [w|e]; [|discriminate]. cbn [rbind] in HC, HR.
    injection HC as <- <-. injection HR as <- <-. split; [reflexivity|apply over_pointwise].
Qed.
Print Assumptions C46_conductivity_resistivity.

Lemma temp_same (d : dataset) a b ta tb i : made d -> dget (dtidx d) a = Some i -> dget (dtidx d) b = Some i ->
  dget (dtemp d) a = Some ta -> dget (dtemp d) b = Some tb -> ta = tb.
Proof. intros Hm Ha Hb H1 H2. destruct (made_temp d Hm) as (f & Hf). apply Hf in Ha. apply Hf in Hb. congruence. Qed.
Lemma Q_pos : Q_CHARGE <> 0. Proof. unfold Q_CHARGE. lra. Qed.
Lemma scal_len c a : length (scal c a) = length a. Proof. apply map_length. Qed.
Lemma over_len c a : length (over c a) = length a. Proof. apply map_length. Qed.
Lemma cond_mul n u c : length n = length u -> bcast cmul (scal Q_CHARGE n) u = Ok c -> conduction c n u.
Proof.
  intros Hl H. destruct (bcast_same cmul _ _ _ eq_refl ltac:(rewrite scal_len; exact Hl) H) as (L & E). rewrite scal_len in L.
  split; [exact L|]. split; [congruence|]. intros i x y z Hx Hy Hz. rewrite E, nth_scal, Hy, Hz in Hx. cbn in Hx. congruence.
Qed.
Lemma cond_div c n u : length c = length n -> bcast cdiv c (scal Q_CHARGE n) = Ok u -> conduction c n u /\ conduction c u n.
Proof.
  intros Hl H. assert (Hl' : length c = length (scal Q_CHARGE n)) by (rewrite scal_len; exact Hl).
  destruct (bcast_same cdiv _ _ _ eq_refl Hl' H) as (L & E).
  assert (P : forall i x y z, nth i c None = Some x -> nth i n None = Some y -> nth i u None = Some z -> x = Q_CHARGE * y * z).
  { intros i x y z Hx Hy Hz. rewrite E, nth_scal, Hy, Hx in Hz. cbn in Hz. destruct (Req_EM_T (Q_CHARGE * y) 0) as [|Hne]; [discriminate|].
    injection Hz as <-. field. split; [intros ->; apply Hne; ring|apply Q_pos]. }
  split; (split; [congruence|]; split; [congruence|]); [exact P|]. intros i x y z Hx Hy Hz. rewrite (P i x z y Hx Hz Hy). ring.
Qed.
Theorem C46_concentration_mobility :
  forall (d : dataset) (tc tn tu : option arr) (c n u : arr), made d -> same_lengths d ->
  get d kC false = Ok (Some (tc, c)) -> get d kN false = Ok (Some (tn, n)) -> get d kU false = Ok (Some (tu, u)) ->
  ~ (holds d kC /\ holds d kR) -> ~ ((holds d kC \/ holds d kR) /\ holds d kN /\ holds d kU) ->
  tc = tn /\ tc = tu /\ conduction c n u.
Proof.
  intros d tc tn tu c n u Hmade Hsl HC HN HU Hno1 Hno2. pose proof (made_coherent d Hmade) as Hm.
  rewrite get_own in HC by (cbn; auto). rewrite get_own in HN by (cbn; auto). rewrite get_own in HU by (cbn; auto).
  change (eqb kC kC) with true in HC. change (eqb kN kC) with false in HN. change (eqb kN kR) with false in HN. change (eqb kN kN) with true in HN.
  change (eqb kU kC) with false in HU. change (eqb kU kR) with false in HU. change (eqb kU kN) with false in HU. cbv iota in HC, HN, HU.
  unfold getC, getN, getU, with_temp, linked, col, dgetitem, holds in *. rewrite !dmem_get in *.
  destruct (view d kC Hm) as (oC & C1 & C2 & C3); destruct (view d kR Hm) as (oR & R1 & R2 & R3);
  destruct (view d kN Hm) as (oN & N1 & N2 & N3); destruct (view d kU Hm) as (oU & U1 & U2 & U3).
  rewrite C1, C2, R1, R2, N1, N2, N3, U1, U3 in HC. rewrite C1, C3, R1, R3, N1, N2, U1, U2, U3 in HN. rewrite C1, C3, R1, R3, N1, N2, N3, U1, U2 in HU.
  rewrite C1, R1 in Hno1. rewrite C1, R1, N1, U1 in Hno2.
  destruct oN as [[[vn tn'] i1]|]; destruct oU as [[[vu tu'] i2]|].
  - (* both held: C and R are not *)
    destruct oC as [[[vc tc'] ic]|]; [exfalso; apply Hno2; cbn; split; [left; eauto|split; eauto]|].
    destruct oR as [[[vr tr'] ir]|]; [exfalso; apply Hno2; cbn; split; [right; eauto|split; eauto]|].
    cbn [option_map fst snd rbind] in *. destruct (Z.eqb_spec i1 i2) as [Ei|Ei]; [|discriminate]. rewrite <- Ei in *. clear Ei.
    destruct (bcast cmul _ _) as [w|e] eqn:E; [|discriminate]. cbn [rbind] in HC. injection HC as <- <-. injection HN as <- <-. injection HU as <- <-.
    split; [reflexivity|]. split; [exact (temp_same d kN kU _ _ i1 Hmade N3 U3 N2 U2)|].
    apply cond_mul; [|exact E]. apply (Hsl kN kU); cbn; auto.
  - (* N held, U derived *)
    destruct oC as [[[vc tc'] ic]|]; cbn [option_map fst snd rbind] in *.
    + injection HC as <- <-. injection HN as <- <-. destruct (Z.eqb_spec i1 ic) as [<-|].
      * destruct (bcast cdiv _ _) as [w|e] eqn:E; [|discriminate]. cbn [rbind] in HU. injection HU as <- <-.
        pose proof (temp_same d kC kN _ _ i1 Hmade C3 N3 C2 N2) as Et. split; [exact Et|]. split; [exact Et|].
        apply cond_div in E; [tauto|]. apply (Hsl kC kN); cbn; auto.
      * destruct oR as [[[vr tr'] ir]|]; cbn [option_map fst snd rbind] in *; [|discriminate]. exfalso. apply Hno1. split; eauto.
    + destruct oR as [[[vr tr'] ir]|]; cbn [option_map fst snd rbind] in *; [|discriminate].
      injection HC as <- <-. injection HN as <- <-. destruct (Z.eqb_spec i1 ir) as [<-|]; [|discriminate].
      destruct (bcast cdiv _ _) as [w|e] eqn:E; [|discriminate]. cbn [rbind] in HU. injection HU as <- <-.
      pose proof (temp_same d kR kN _ _ i1 Hmade R3 N3 R2 N2) as Et. split; [exact Et|]. split; [exact Et|].
      apply cond_div in E; [tauto|]. rewrite over_len. apply (Hsl kR kN); cbn; auto.
  - destruct oC as [[[vc tc'] ic]|]; cbn [option_map fst snd rbind] in *.
    + injection HC as <- <-. injection HU as <- <-. destruct (Z.eqb_spec i2 ic) as [<-|].
      * destruct (bcast cdiv _ _) as [w|e] eqn:E; [|discriminate]. cbn [rbind] in HN. injection HN as <- <-.
        pose proof (temp_same d kC kU _ _ i2 Hmade C3 U3 C2 U2) as Et. split; [exact Et|]. split; [exact Et|].
        apply cond_div in E; [tauto|]. apply (Hsl kC kU); cbn; auto.
      * destruct oR as [[[vr tr'] ir]|]; cbn [option_map fst snd rbind] in *; [|discriminate]. exfalso. apply Hno1. split; eauto.
    + destruct oR as [[[vr tr'] ir]|]; cbn [option_map fst snd rbind] in *; [|discriminate].
      injection HC as <- <-. injection HU as <- <-. destruct (Z.eqb_spec i2 ir) as [<-|]; [|discriminate].
      destruct (bcast cdiv _ _) as [w|e] eqn:E; [|discriminate]. cbn [rbind] in HN. injection HN as <- <-.
      pose proof (temp_same d kR kU _ _ i2 Hmade R3 U3 R2 U2) as Et. split; [exact Et|]. split; [exact Et|].
      apply cond_div in E; [tauto|]. rewrite over_len. apply (Hsl kR kU); cbn; auto 10.
  - exfalso. destruct oC as [[[vc tc'] ic]|]; destruct oR as [[[vr tr'] ir]|]; cbn [option_map fst snd rbind] in HN; discriminate.
Qed.
Print Assumptions C46_concentration_mobility.

Lemma keq (a b : str) : reflect (a = b) (eqb a b).
Proof. destruct (eqb a b) eqn:E; constructor; [apply eqb_eq in E|apply eqb_neq in E]; exact E. Qed.
(** a key that is not held: derived if it can be, else the default or ValueError *)
Theorem C46_missing :
  forall (d : dataset) (key : str), made d -> dget (ddata d) key = None ->
  (~ derivable d key -> get d key true = Ok None /\ get d key false = Err ValueError)
  /\ (derivable d key -> same_lengths d -> exists p, get d key true = Ok (Some p) /\ get d key false = Ok (Some p)).
Proof.
  intros d key Hmade Hk. pose proof (made_coherent d Hmade) as Hm.
  assert (Hmem : dmem (ddata d) key = false) by (rewrite dmem_get, Hk; reflexivity).
  destruct (view d kC Hm) as (oC & C1 & C2 & C3); destruct (view d kR Hm) as (oR & R1 & R2 & R3);
  destruct (view d kN Hm) as (oN & N1 & N2 & N3); destruct (view d kU Hm) as (oU & U1 & U2 & U3).
  assert (L : same_lengths d -> forall a b va vb, In a [kC; kR; kN; kU] -> In b [kC; kR; kN; kU] ->
     dget (ddata d) a = Some va -> dget (ddata d) b = Some vb -> length va = length vb) by (intros H; exact H).
  split.
  - intros Hd. assert (E : (if dmem (ddata d) key then with_temp d key (Ok (col d key))
    else if eqb key kC then getC d else if eqb key kR then getR d else if eqb key kN then getN d
    else if eqb key kU then getU d else Ok None) = Ok None).
    { rewrite Hmem. unfold derivable, holds, together in Hd. rewrite C1, C3, R1, R3, N1, N3, U1, U3 in Hd.
      destruct (keq key kC) as [->|]; [|destruct (keq key kR) as [->|]; [|destruct (keq key kN) as [->|]; [|destruct (keq key kU) as [->|]; [|reflexivity]]]];
        unfold getC, getR, getN, getU, linked; rewrite !dmem_get.
      - rewrite C1 in *. rewrite R1, N1, N3, U1, U3. destruct oC; [discriminate|]. cbn.
        destruct oR as [[[vr tr] ir]|]; cbn; [exfalso; apply Hd; left; split; [reflexivity|left; eexists; reflexivity]|].
        destruct oN as [[[vn tn] i1]|]; cbn; [|reflexivity]. destruct oU as [[[vu tu] i2]|]; cbn; [|reflexivity].
        destruct (Z.eqb_spec i1 i2) as [<-|]; [|reflexivity]. exfalso. apply Hd. left. split; [reflexivity|right; repeat eexists].
      - rewrite R1 in *. rewrite C1, N1, N3, U1, U3. destruct oR; [discriminate|]. cbn.
        destruct oC as [[[vr tr] ir]|]; cbn; [exfalso; apply Hd; right; left; split; [reflexivity|left; eexists; reflexivity]|].
        destruct oN as [[[vn tn] i1]|]; cbn; [|reflexivity]. destruct oU as [[[vu tu] i2]|]; cbn; [|reflexivity].
        destruct (Z.eqb_spec i1 i2) as [<-|]; [|reflexivity]. exfalso. apply Hd. right. left. split; [reflexivity|right; repeat eexists].
      - rewrite N1 in *. rewrite C1, C3, R1, R3, U1, U3. destruct oN; [discriminate|]. cbn.
        destruct oU as [[[vu tu] i2]|]; cbn; [|reflexivity].
        destruct oC as [[[vc tc] ic]|]; cbn.
        + destruct (Z.eqb_spec i2 ic) as [<-|]; [exfalso; apply Hd; right; right; left; split; [reflexivity|left; repeat eexists]|].
          destruct oR as [[[vr tr] ir]|]; cbn; [|reflexivity]. destruct (Z.eqb_spec i2 ir) as [<-|]; [|reflexivity].
          exfalso; apply Hd; right; right; left; split; [reflexivity|right; repeat eexists].
        + destruct oR as [[[vr tr] ir]|]; cbn; [|reflexivity]. destruct (Z.eqb_spec i2 ir) as [<-|]; [|reflexivity].
          exfalso; apply Hd; right; right; left; split; [reflexivity|right; repeat eexists].
      - rewrite U1 in *. rewrite C1, C3, R1, R3, N1, N3. destruct oU; [discriminate|]. cbn.
        destruct oN as [[[vu tu] i2]|]; cbn; [|reflexivity].
        destruct oC as [[[vc tc] ic]|]; cbn.
        + destruct (Z.eqb_spec i2 ic) as [<-|]; [exfalso; apply Hd; right; right; right; split; [reflexivity|left; repeat eexists]|].
          destruct oR as [[[vr tr] ir]|]; cbn; [|reflexivity]. destruct (Z.eqb_spec i2 ir) as [<-|]; [|reflexivity].
          exfalso; apply Hd; right; right; right; split; [reflexivity|right; repeat eexists].
        + destruct oR as [[[vr tr] ir]|]; cbn; [|reflexivity]. destruct (Z.eqb_spec i2 ir) as [<-|]; [|reflexivity].
          exfalso; apply Hd; right; right; right; split; [reflexivity|right; repeat eexists]. }
    unfold get. rewrite E. cbn. auto.
  - intros Hd Hsl. assert (E : exists p, (if dmem (ddata d) key then with_temp d key (Ok (col d key))
    else if eqb key kC then getC d else if eqb key kR then getR d else if eqb key kN then getN d
    else if eqb key kU then getU d else Ok None) = Ok (Some p)).
    { rewrite Hmem.
      assert (Bm : forall a b va vb, In a [kC; kR; kN; kU] -> In b [kC; kR; kN; kU] ->
         dget (ddata d) a = Some va -> dget (ddata d) b = Some vb -> forall f g h, (forall x, length (g x) = length x) -> (forall x, length (h x) = length x) ->
         exists w, bcast f (g va) (h vb) = Ok w).
      { intros a b va vb Ha Hb H1 H2 f g h Hg Hh. apply bcast_total. rewrite Hg, Hh. exact (Hsl a b va vb Ha Hb H1 H2). }
      assert (Ls : forall x, length (scal Q_CHARGE x) = length x) by (intros; apply scal_len).
      assert (Lo : forall x, length (over 1e4 x) = length x) by (intros; apply over_len).
      assert (Li : forall x : arr, length ((fun x => x) x) = length x) by reflexivity.
      destruct Hd as [(-> & [(v & Hv)|(va & vb & i & Ha & Hb & Ia & Ib)])|[(-> & [(v & Hv)|(va & vb & i & Ha & Hb & Ia & Ib)])|[(-> & [(va & vb & i & Ha & Hb & Ia & Ib)|(va & vb & i & Ha & Hb & Ia & Ib)])|(-> & [(va & vb & i & Ha & Hb & Ia & Ib)|(va & vb & i & Ha & Hb & Ia & Ib)])]]].
      - change (eqb kC kC) with true. cbv iota. unfold getC, with_temp, col, dgetitem. rewrite Hmem, dmem_get, Hv. rewrite R1 in Hv. rewrite R2. destruct oR; [|discriminate]. cbn. eauto.
      - change (eqb kC kC) with true. cbv iota. unfold getC, linked, with_temp, col, dgetitem. rewrite Hmem, dmem_get.
        rewrite Ha, Hb, Ia, Ib, Z.eqb_refl. destruct (dget (ddata d) kR) eqn:ER.
        + rewrite R1 in ER. rewrite R2. destruct oR; [|discriminate]. cbn. eauto.
        + destruct (Bm kN kU va vb ltac:(cbn; auto) ltac:(cbn; auto) Ha Hb cmul (scal Q_CHARGE) (fun x => x) Ls Li) as (w & Ew). rewrite Ew. cbn [rbind].
          rewrite N1 in Ha. rewrite N2. destruct oN; [|discriminate]. cbn. eauto.
      - change (eqb kR kC) with false. change (eqb kR kR) with true. cbv iota. unfold getR, with_temp, col, dgetitem. rewrite Hmem, dmem_get, Hv. rewrite C1 in Hv. rewrite C2. destruct oC; [|discriminate]. cbn. eauto.
      - change (eqb kR kC) with false. change (eqb kR kR) with true. cbv iota. unfold getR, linked, with_temp, col, dgetitem. rewrite Hmem, dmem_get.
        rewrite Ha, Hb, Ia, Ib, Z.eqb_refl. destruct (dget (ddata d) kC) eqn:ER.
        + rewrite C1 in ER. rewrite C2. destruct oC; [|discriminate]. cbn. eauto.
        + destruct (Bm kN kU va vb ltac:(cbn; auto) ltac:(cbn; auto) Ha Hb cmul (scal Q_CHARGE) (fun x => x) Ls Li) as (w & Ew). rewrite Ew. cbn [rbind].
          rewrite N1 in Ha. rewrite N2. destruct oN; [|discriminate]. cbn. eauto.
      - change (eqb kN kC) with false. change (eqb kN kR) with false. change (eqb kN kN) with true. cbv iota. unfold getN, linked, with_temp, col, dgetitem. rewrite Hmem.
        rewrite Ha, Hb, Ia, Ib, Z.eqb_refl.
        destruct (Bm kC kU vb va ltac:(cbn; auto) ltac:(cbn; auto) Hb Ha cdiv (fun x => x) (scal Q_CHARGE) Li Ls) as (w & Ew). rewrite Ew. cbn [rbind].
        rewrite U1 in Ha. rewrite U2. destruct oU; [|discriminate]. cbn. eauto.
      - change (eqb kN kC) with false. change (eqb kN kR) with false. change (eqb kN kN) with true. cbv iota. unfold getN, linked, with_temp, col, dgetitem. rewrite Hmem.
        rewrite Ha, Hb, Ia, Ib, Z.eqb_refl.
        destruct (Bm kR kU vb va ltac:(cbn; auto) ltac:(cbn; auto 10) Hb Ha cdiv (over 1e4) (scal Q_CHARGE) Lo Ls) as (w & Ew).
        assert (HU2 : exists t, dget (dtemp d) kU = Some t) by (rewrite U1 in Ha; rewrite U2; destruct oU; [cbn; eauto|discriminate]). destruct HU2 as (tU & HU2).
        destruct (match dget (ddata d) kC with Some _ => match dget (dtidx d) kC with Some j => (i =? j)%Z | None => false end | None => false end) eqn:El; [|rewrite Ew; cbn [rbind]; rewrite HU2; cbn; eauto].
        destruct (dget (ddata d) kC) as [vc|] eqn:EC; [|discriminate].
        destruct (Bm kC kU vc va ltac:(cbn; auto) ltac:(cbn; auto 10) EC Ha cdiv (fun x => x) (scal Q_CHARGE) Li Ls) as (w' & Ew'). rewrite Ew'. cbn [rbind]. rewrite HU2. cbn. eauto.
      - change (eqb kU kC) with false. change (eqb kU kR) with false. change (eqb kU kN) with false. change (eqb kU kU) with true. cbv iota. unfold getU, linked, with_temp, col, dgetitem. rewrite Hmem.
        rewrite Ha, Hb, Ia, Ib, Z.eqb_refl.
        destruct (Bm kC kN vb va ltac:(cbn; auto) ltac:(cbn; auto) Hb Ha cdiv (fun x => x) (scal Q_CHARGE) Li Ls) as (w & Ew). rewrite Ew. cbn [rbind].
        rewrite N1 in Ha. rewrite N2. destruct oN; [|discriminate]. cbn. eauto.
      - change (eqb kU kC) with false. change (eqb kU kR) with false. change (eqb kU kN) with false. change (eqb kU kU) with true. cbv iota. unfold getU, linked, with_temp, col, dgetitem. rewrite Hmem.
        rewrite Ha, Hb, Ia, Ib, Z.eqb_refl.
        destruct (Bm kR kN vb va ltac:(cbn; auto) ltac:(cbn; auto 10) Hb Ha cdiv (over 1e4) (scal Q_CHARGE) Lo Ls) as (w & Ew).
        assert (HU2 : exists t, dget (dtemp d) kN = Some t) by (rewrite N1 in Ha; rewrite N2; destruct oN; [cbn; eauto|discriminate]). destruct HU2 as (tU & HU2).
        destruct (match dget (ddata d) kC with Some _ => match dget (dtidx d) kC with Some j => (i =? j)%Z | None => false end | None => false end) eqn:El; [|rewrite Ew; cbn [rbind]; rewrite HU2; cbn; eauto].
        destruct (dget (ddata d) kC) as [vc|] eqn:EC; [|discriminate].
        destruct (Bm kC kN vc va ltac:(cbn; auto) ltac:(cbn; auto 10) EC Ha cdiv (fun x => x) (scal Q_CHARGE) Li Ls) as (w' & Ew'). rewrite Ew'. cbn [rbind]. rewrite HU2. cbn. eauto. }
    destruct E as (p & E). exists p. unfold get. rewrite E. cbn. auto.
Qed.
Print Assumptions C46_missing.
Lemma bcast_refused f a b : length a <> length b -> length a <> 1%nat -> length b <> 1%nat -> bcast f a b = Err ValueError.
Proof.
  intros H Ha Hb. unfold bcast. destruct (Nat.eqb_spec (length a) (length b)) as [E|_]; [contradiction|].
  destruct a as [|x [|x' a]], b as [|y [|y' b]]; cbn in *; try reflexivity; lia.
Qed.
Lemma bcast_single f a b : length a <> length b -> length a = 1%nat \/ length b = 1%nat -> f None None = None ->
  exists w, bcast f a b = Ok w /\ length w = (if Nat.eqb (length a) 1 then length b else length a) /\
    forall i z, nth i w None = Some z -> f (stretched a i) (stretched b i) = Some z.
Proof.
  intros H Ho Hf. unfold bcast, stretched. destruct (Nat.eqb_spec (length a) (length b)) as [E|_]; [contradiction|].
  assert (N : forall (g : cell -> cell) l i (z : R), nth i (map g l) None = Some z -> g (nth i l None) = Some z).
  { intros g l i z E. destruct (Nat.lt_ge_cases i (length l)) as [L|L]; [|rewrite nth_overflow in E by (rewrite map_length; exact L); discriminate].
    rewrite (nth_indep _ None (g None)) in E by (rewrite map_length; exact L). rewrite map_nth in E. exact E. }
  destruct Ho as [Ha|Hb].
  - destruct a as [|c [|]]; try discriminate. exists (map (f c) b). split; [reflexivity|]. split; [cbn; apply map_length|].
    intros i z Hz. destruct (Nat.eqb_spec (length b) 1) as [E|_]; [cbn in H; lia|]. cbn. exact (N _ _ _ _ Hz).
  - destruct b as [|c [|]]; try discriminate. exists (map (fun x => f x c) a).
    assert (L1 : length a <> 1%nat) by (intros E; apply H; rewrite E; reflexivity). destruct (Nat.eqb_spec (length a) 1) as [E|_]; [contradiction|].
    split; [destruct a as [|u [|u' a]]; [reflexivity|cbn in L1; lia|reflexivity]|]. split; [apply map_length|].
    intros i z Hz. cbn. exact (N _ _ _ _ Hz).
Qed.
(** [get] of a quantity computed from two columns *)
Lemma get_source d key a b dflt : coherent d -> source d key a b -> exists va vb t,
  dget (ddata d) a = Some va /\ dget (ddata d) b = Some vb /\
  get d key dflt = (let! w :=
    (if eqb key kC then bcast cmul (scal Q_CHARGE va) vb
     else if eqb key kR then let! v := bcast cmul (scal Q_CHARGE va) vb in Ok (over 1e4 v)
     else if eqb a kC then bcast cdiv va (scal Q_CHARGE vb) else bcast cdiv (over 1e4 va) (scal Q_CHARGE vb)) in Ok (Some (t, w))).
Proof.
  intros Hm S.
  assert (T : forall k v, dget (ddata d) k = Some v -> exists t, dget (dtemp d) k = Some t).
  { intros k v Hv. destruct (view d k Hm) as (o & E1 & E2 & _). rewrite E1 in Hv. rewrite E2. destruct o; [cbn; eauto|discriminate]. }
  assert (Lk : forall k k', together d k k' -> linked d k k' = true) by (intros k k2 (v & v2 & i & H1 & H2 & H3 & H4); unfold linked; rewrite H1, H2, H3, H4; apply Z.eqb_refl).
  assert (Ln : forall k k', ~ together d k k' -> linked d k k' = false).
  { intros k k' N. unfold linked. destruct (dget (ddata d) k) as [v|] eqn:E1; [|reflexivity]. destruct (dget (ddata d) k') as [v'|] eqn:E2; [|reflexivity].
    destruct (dget (dtidx d) k) as [i|] eqn:E3; [|reflexivity]. destruct (dget (dtidx d) k') as [i'|] eqn:E4; [|reflexivity].
    destruct (Z.eqb_spec i i') as [<-|]; [|reflexivity]. exfalso. apply N. exists v, v', i. auto. }
  assert (Me : forall k, ~ holds d k -> dmem (ddata d) k = false) by (intros k N; rewrite dmem_get; destruct (dget (ddata d) k) as [v|] eqn:E; [exfalso; apply N; exists v; exact E|reflexivity]).
  destruct S as [(K & NC & NR & G & -> & ->)|(K & NK & [(G & ->)|(NG & G & ->)])].
  - pose proof (Lk _ _ G) as L. destruct G as (va & vb & i & Ea & Eb & _). destruct (T _ _ Ea) as (t & Et). exists va, vb, t. split; [exact Ea|]. split; [exact Eb|].
    rewrite get_own by (destruct K as [-> | ->]; cbn; auto). destruct K as [-> | ->]; cbn [eqb]; unfold getC, getR, with_temp, col, dgetitem; rewrite (Me _ NC), (Me _ NR), L, Ea, Eb, Et.
    + destruct (bcast _ _ _); reflexivity.
    + change (eqb kR kC) with false. change (eqb kR kR) with true. cbv iota. destruct (bcast _ _ _); reflexivity.
  - pose proof (Lk _ _ G) as L. destruct G as (vb & va & i & Eb & Ea & _). destruct (T _ _ Eb) as (t & Et). exists va, vb, t. split; [exact Ea|]. split; [exact Eb|].
    rewrite get_own by (destruct K as [(-> & _)|(-> & _)]; cbn; auto). destruct K as [(-> & ->)|(-> & ->)]; cbn [eqb]; unfold getN, getU, with_temp, col, dgetitem; rewrite (Me _ NK), L, Ea, Eb, Et.
    + change (eqb kN kC) with false. change (eqb kN kR) with false. change (eqb kN kN) with true. change (eqb kC kC) with true. cbv iota. destruct (bcast _ _ _); reflexivity.
    + change (eqb kU kC) with false. change (eqb kU kR) with false. change (eqb kU kN) with false. change (eqb kC kC) with true. cbv iota. destruct (bcast _ _ _); reflexivity.
  - pose proof (Lk _ _ G) as L. destruct G as (vb & va & i & Eb & Ea & _). destruct (T _ _ Eb) as (t & Et). exists va, vb, t. split; [exact Ea|]. split; [exact Eb|].
    rewrite get_own by (destruct K as [(-> & _)|(-> & _)]; cbn; auto). destruct K as [(-> & ->)|(-> & ->)]; cbn [eqb]; unfold getN, getU, with_temp, col, dgetitem; rewrite (Me _ NK), (Ln _ _ NG), L, Ea, Eb, Et.
    + change (eqb kN kC) with false. change (eqb kN kR) with false. change (eqb kN kN) with true. change (eqb kR kC) with false. cbv iota. destruct (bcast _ _ _); reflexivity.
    + change (eqb kU kC) with false. change (eqb kU kR) with false. change (eqb kU kN) with false. change (eqb kR kC) with false. cbv iota. destruct (bcast _ _ _); reflexivity.
Qed.
(** columns of different lengths: a column of one element is constant, all others are refused *)
Theorem C46_unequal_lengths :
  forall (d : dataset) (key a b : str) (dflt : bool) (va vb : arr), made d -> source d key a b ->
  dget (ddata d) a = Some va -> dget (ddata d) b = Some vb -> length va <> length vb ->
  (length va <> 1%nat -> length vb <> 1%nat -> get d key dflt = Err ValueError) /\
  (length va = 1%nat \/ length vb = 1%nat -> exists t w, get d key dflt = Ok (Some (t, w)) /\
     length w = (if Nat.eqb (length va) 1 then length vb else length va) /\
     forall i x y z, stretched va i = Some x -> stretched vb i = Some y -> nth i w None = Some z -> law key a x y z).
Proof.
  intros d key a b dflt va0 vb0 Hmade S Ea0 Eb0 NL. destruct (get_source d key a b dflt (made_coherent d Hmade) S) as (va & vb & t & Ea & Eb & G).
  rewrite Ea in Ea0. injection Ea0 as <-. rewrite Eb in Eb0. injection Eb0 as <-.
  assert (ST : forall c l i x, stretched l i = Some x -> stretched (scal c l) i = Some (c * x)).
  { intros c l i x. unfold stretched. rewrite scal_len, !nth_scal. destruct (Nat.eqb _ 1); intros ->; reflexivity. }
  assert (SO : forall l i x, stretched l i = Some x -> stretched (over 1e4 l) i = cdiv (Some 1e4) (Some x)).
  { intros l i x. unfold stretched. rewrite over_len, !nth_over. destruct (Nat.eqb _ 1); intros ->; reflexivity. }
  split.
  - intros Na Nb. rewrite G. rewrite !bcast_refused by (rewrite ?scal_len, ?over_len; assumption).
    destruct (eqb key kC), (eqb key kR), (eqb a kC); reflexivity.
  - intros Ho. rewrite G. exists t. destruct S as [(K & _ & _ & _ & -> & ->)|(K & _ & A)].
    + destruct (bcast_single cmul (scal Q_CHARGE va) vb ltac:(rewrite scal_len; exact NL) ltac:(rewrite scal_len; exact Ho) eq_refl) as (w & Ew & Lw & Hw).
      rewrite scal_len in Lw. rewrite !Ew. destruct K as [-> | ->].
      * change (eqb kC kC) with true. cbn [rbind]. exists w. split; [reflexivity|]. split; [exact Lw|]. intros i x y z Hx Hy Hz.
        assert (E := Hw i _ Hz). rewrite (ST _ _ _ _ Hx), Hy in E. cbn in E. injection E as E. split; [intros _; symmetry; exact E|]. split; [discriminate|]. split; discriminate.
      * change (eqb kR kC) with false. change (eqb kR kR) with true. cbv iota. cbn [rbind]. exists (over 1e4 w). split; [reflexivity|]. split; [rewrite over_len; exact Lw|]. intros i x y z Hx Hy Hz.
        rewrite nth_over in Hz. destruct (nth i w None) as [v|] eqn:Ev; [|discriminate]. assert (E := Hw i _ Ev). rewrite (ST _ _ _ _ Hx), Hy in E. cbn in E. injection E as E.
        cbn in Hz. destruct (Req_EM_T v 0) as [|Nv]; [discriminate|]. injection Hz as <-. split; [discriminate|]. split; [intros _; rewrite E; field; exact Nv|]. split; discriminate.
    + assert (KC : eqb key kC = false /\ eqb key kR = false) by (destruct K as [(-> & _)|(-> & _)]; split; reflexivity). destruct KC as (-> & ->).
      assert (NK : key <> kC /\ key <> kR) by (destruct K as [(-> & _)|(-> & _)]; split; discriminate). destruct NK as (NK1 & NK2).
      destruct A as [(_ & ->)|(_ & _ & ->)].
      * change (eqb kC kC) with true. cbv iota.
        destruct (bcast_single cdiv va (scal Q_CHARGE vb) ltac:(rewrite scal_len; exact NL) ltac:(rewrite scal_len; exact Ho) eq_refl) as (w & Ew & Lw & Hw).
        rewrite scal_len in Lw. rewrite Ew. cbn [rbind]. exists w. split; [reflexivity|]. split; [exact Lw|]. intros i x y z Hx Hy Hz.
        assert (E := Hw i _ Hz). rewrite Hx, (ST _ _ _ _ Hy) in E. cbn in E. destruct (Req_EM_T (Q_CHARGE * y) 0) as [|Ny]; [discriminate|]. injection E as <-.
        split; [contradiction|]. split; [contradiction|]. split; [intros _|discriminate]. field. split; [intros ->; apply Ny; ring|apply Q_pos].
      * change (eqb kR kC) with false. cbv iota.
        destruct (bcast_single cdiv (over 1e4 va) (scal Q_CHARGE vb) ltac:(rewrite over_len, scal_len; exact NL) ltac:(rewrite over_len, scal_len; exact Ho) eq_refl) as (w & Ew & Lw & Hw).
        rewrite over_len, scal_len in Lw. rewrite Ew. cbn [rbind]. exists w. split; [reflexivity|]. split; [exact Lw|]. intros i x y z Hx Hy Hz.
        split; [contradiction|]. split; [contradiction|]. split; [discriminate|intros _].
        assert (E := Hw i _ Hz). rewrite (SO _ _ _ Hx), (ST _ _ _ _ Hy) in E. cbn in E. destruct (Req_EM_T x 0) as [|Nx]; [discriminate|]. cbn in E.
        destruct (Req_EM_T (Q_CHARGE * y) 0) as [|Ny]; [congruence|]. injection E as <-.
        field. repeat split; try exact Nx; try apply Q_pos; intros ->; apply Ny; ring.
Qed.
Print Assumptions C46_unequal_lengths.
Example C46_unequal_case : exists d, init2 [kT; kN; kU] [[Some 300; Some 400]; [Some 2]; [Some 3; Some 4]] = Ok d
  /\ source d kC kN kU /\ (exists t, get d kC false = Ok (Some (t, [Some (Q_CHARGE * 2 * 3); Some (Q_CHARGE * 2 * 4)]))).
Proof.
  eexists. split; [reflexivity|]. split; [|eexists; reflexivity].
  left. split; [left; reflexivity|]. split; [intros (v & Hv); discriminate|]. split; [intros (v & Hv); discriminate|].
  split; [do 3 eexists; repeat split; reflexivity|]. split; reflexivity.
Qed.
Example C46_case : exists d, init2 [kT; kN; kT; kR] [[Some 300]; [Some 2]; [Some 300]; [Some 10]] = Ok d
  /\ get d kC false = Ok (Some (Some [Some 300], [Some (1e4 / 10)])) /\ ~ derivable d kU /\ holds d kR /\ ~ holds d kC.
Proof.
  eexists. split; [reflexivity|]. split.
  - cbn. destruct (Req_EM_T 10 0); [lra|reflexivity].
  - split; [|split; [eexists; reflexivity|intros (v & H); discriminate]].
    intros [(H & _)|[(H & _)|[(H & _)|(_ & [(va & vb & i & H1 & H2 & _)|(va & vb & i & H1 & H2 & H3 & H4)])]]]; try discriminate. cbn in H3, H4. congruence.
Qed.
Example C46_case_missing : exists d, init1 [kT; kN; kU] [[Some 300]; [Some 2]; [Some 10]] = d
  /\ derivable d kC /\ same_lengths d /\ get d kC false = Ok (Some (None, [Some (Q_CHARGE * 2 * 10)])) /\ get d [ "Z"%char ] false = Err ValueError.
Proof.
  eexists. split; [reflexivity|]. split; [left; split; [reflexivity|right; repeat eexists]|]. split; [|split; reflexivity].
  assert (L : forall k v, dget (ddata (init1 [kT; kN; kU] [[Some 300]; [Some 2]; [Some 10]])) k = Some v -> length v = 1%nat).
  { intros k v. cbn. destruct (eqb k kT); [intros [= <-]; reflexivity|]. destruct (eqb k kN); [intros [= <-]; reflexivity|].
    destruct (eqb k kU); [intros [= <-]; reflexivity|discriminate]. }
  intros a b va vb _ _ Ha Hb. rewrite (L _ _ Ha), (L _ _ Hb). reflexivity.
Qed.

(** ** C47 *)
Lemma combine_names {A B} (a : list A) (b : list B) : map fst (combine a b) = firstn (length b) a.
Proof. revert b; induction a as [|x a IH]; intros [|y b]; cbn; [reflexivity|reflexivity|reflexivity|]. rewrite IH. reflexivity. Qed.
Theorem C47_accepts :
  forall (group : list str) (data : list arr),
  ((exists d, init2 group data = Ok d) <-> group = [] \/ data = [] \/ hd [] group = kT)
  /\ ((forall d, init2 group data <> Ok d) -> init2 group data = Err ValueError).
Proof.
  intros group data. split.
  - rewrite init2_total. destruct group as [|g group]; destruct data as [|c data]; cbn; [tauto|tauto|tauto|]. split.
    + intros [H|(c' & r & H)]; [discriminate|]. injection H as H _ _. auto.
    + intros [H|[H|H]]; [discriminate|discriminate|]. right. exists c, (combine group data). subst. reflexivity.
  - unfold init2. generalize (DS [] [] []).
    assert (G : forall l i j acc, (forall d, init2_loop data i j l acc <> Ok d) -> init2_loop data i j l acc = Err ValueError).
    { induction l as [|[g c] l IH]; intros i j acc H; cbn [init2_loop] in *; [exfalso; eapply H; reflexivity|].
      destruct (eqb g kT); [apply IH; exact H|]. destruct (Nat.ltb _ _); [apply IH; exact H|reflexivity]. }
    intros acc. apply G.
Qed.
Print Assumptions C47_accepts.
Theorem C47_association :
  forall (group : list str) (data : list arr) (d : dataset) (key : str), init2 group data = Ok d ->
  let names := firstn (length data) group in
  (key = kT \/ key = kX \/ ~ In key names -> getitem d key = Err KeyError)
  /\ (key <> kT -> key <> kX -> forall i, last_position (fun n => n = key) names i ->
      exists j, (j < i)%nat /\ nth_error names j = Some kT /\ (forall k, (j < k < i)%nat -> nth_error names k <> Some kT)
        /\ getitem d key = Ok (Some (nth j data []), nth i data [])).
Proof.
  intros group data d key H names. pose proof (init2_stored group data d H key) as (S1 & S2). rewrite combine_names in S1, S2. fold names in S1, S2. split.
  - intros Hk. assert (Hk' : ~ In key names \/ key = kT \/ key = kX) by tauto. destruct (S1 Hk') as (_ & E & _).
    unfold getitem, dgetitem. rewrite E. reflexivity.
  - intros H1 H2 i ((x & Hx & ->) & Hl).
    assert (Hc : forall k, nth_error names k = option_map fst (nth_error (combine group data) k)).
    { intros k. unfold names. rewrite <- combine_names, nth_error_map. reflexivity. }
    destruct (S2 H1 H2 i) as (j & Hj & HT & Hn & Ed & Et & _).
    { split.
      - rewrite Hc in Hx. destruct (nth_error (combine group data) i) as [p|] eqn:E; [|discriminate]. exists p. split; [reflexivity|]. cbn in Hx. congruence.
      - intros k p Hk Hp Hf. apply (Hl k (fst p) Hk); [rewrite Hc, Hp; reflexivity|exact Hf]. }
    exists j. split; [exact Hj|]. split; [exact HT|]. split; [exact Hn|].
    unfold getitem, dgetitem. rewrite Et, Ed. rewrite Hc in Hx. destruct (nth_error (combine group data) i) as [[g v]|] eqn:E; [|discriminate].
    cbn. repeat f_equal. symmetry. apply nth_error_nth.
    clear -E. revert data i E. induction group as [|g' group IH]; intros [|c data] [|i] E; try discriminate; cbn in *; [congruence|eapply IH; exact E].
Qed.
Print Assumptions C47_association.
(** the plain class: no temperature, the last column of that name *)
Lemma last_val_none (g : list str) (key : str) : forall data : list arr, ~ In key (firstn (length data) g) -> last_val (combine g data) key = None.
Proof.
  induction g as [|x g IH]; intros [|c data] H; cbn in *; try reflexivity. rewrite IH by tauto.
  destruct (eqb key x) eqn:E; [apply eqb_eq in E; subst; tauto|reflexivity].
Qed.
Lemma last_val_pos (g : list str) (key : str) : forall (data : list arr) i, last_position (fun n => n = key) (firstn (length data) g) i ->
  last_val (combine g data) key = Some (nth i data []).
Proof.
  induction g as [|x g IH]; intros [|c data] i ((y & Hy & Hk) & Hl); cbn [length firstn combine last_val] in *; try (destruct i; discriminate).
  destruct i as [|i]; cbn in Hy.
  - injection Hy as ->. rewrite last_val_none; [subst; rewrite eqb_refl; reflexivity|].
    intros Hi. apply In_nth_error in Hi as (k & Hk'). exact (Hl (S k) key ltac:(lia) Hk' eq_refl).
  - rewrite (IH data i); [reflexivity|]. split; [eauto|]. intros j z Hj Hz. exact (Hl (S j) z ltac:(lia) Hz).
Qed.
Lemma last_val_filter (l : list (str * arr)) key : key <> kX -> last_val (filter (fun p => negb (eqb (fst p) kX)) l) key = last_val l key.
Proof.
  intros H. induction l as [|[g v] l IH]; [reflexivity|]. cbn [filter last_val fst]. destruct (eqb g kX) eqn:E; cbn [negb last_val]; rewrite IH.
  - apply eqb_eq in E. subst. destruct (last_val l key); [reflexivity|]. destruct (eqb key kX) eqn:E; [apply eqb_eq in E; congruence|reflexivity].
  - reflexivity.
Qed.
Lemma last_val_X (l : list (str * arr)) : last_val (filter (fun p => negb (eqb (fst p) kX)) l) kX = None.
Proof.
  induction l as [|[g v] l IH]; [reflexivity|]. cbn [filter fst]. destruct (eqb g kX) eqn:E; cbn [negb last_val]; rewrite ?IH; [reflexivity|].
  destruct (eqb kX g) eqn:E'; [apply eqb_eq in E'; subst; rewrite eqb_refl in E; discriminate|reflexivity].
Qed.
Lemma init1_get g data key : dget (ddata (init1 g data)) key = if eqb key kX then None else last_val (combine g data) key.
Proof.
  unfold init1. cbn [ddata]. rewrite dget_dupdate. destruct (eqb key kX) eqn:E.
  - apply eqb_eq in E; subst. rewrite last_val_X. reflexivity.
  - apply eqb_neq in E. rewrite last_val_filter by exact E. destruct (last_val _ _); reflexivity.
Qed.
Theorem C47_plain :
  forall (group : list str) (data : list arr) (key : str),
  let names := firstn (length data) group in let d := init1 group data in
  (key = kX \/ ~ In key names -> getitem d key = Err KeyError)
  /\ (key <> kX -> forall i, last_position (fun n => n = key) names i -> getitem d key = Ok (None, nth i data [])).
Proof.
  intros group data key names d. pose proof (init1_get group data key) as E. fold d in E.
  pose proof (init1_coherent group data) as Hc. fold d in Hc. split.
  - intros Hk. destruct (coherent_get d key Hc) as [(v & t & i & H1 & _)|(_ & H2 & _)].
    + exfalso. rewrite E in H1. destruct (eqb key kX) eqn:Ek; [discriminate|]. apply eqb_neq in Ek. destruct Hk as [Hk|Hk]; [contradiction|].
      rewrite last_val_none in H1 by exact Hk. discriminate.
    + unfold getitem, dgetitem. rewrite H2. reflexivity.
  - intros Hk i Hi. rewrite (proj2 (eqb_neq key kX) Hk), (last_val_pos group key data i Hi) in E.
    destruct (coherent_get d key Hc) as [(v & t & z & H1 & H2 & H3)|(H1 & _)]; [|congruence].
    apply (init1_temp group data) in H3. fold d in H3. unfold getitem, dgetitem. rewrite H3, E. reflexivity.
Qed.
Print Assumptions C47_plain.
Example C47_case : exists d, init2 [kT; kR; kX; kT; S_ "S"; kR] [[Some 1]; [Some 2]; [Some 3]; [Some 4]; [Some 5]] = Ok d
  /\ getitem d kR = Ok (Some [Some 1], [Some 2]) /\ getitem d (S_ "S") = Ok (Some [Some 4], [Some 5]) /\ getitem d kX = Err KeyError.
Proof. eexists. repeat split. Qed.

(** ** C48 *)
Theorem C48_line :
  forall (pyfloat : str -> cell) (dl : delim) (lines : list str) (contents : list (option str)),
  Forall2 reads lines contents ->
  file_rows pyfloat dl lines
  = map (fun m => map pyfloat (split_by dl m)) (flat_map (fun o => match o with Some m => [m] | None => [] end) contents).
Proof.
  intros pf dl lines contents H. induction H as [|l o lines os Hl _ IH]; [reflexivity|]. cbn [file_rows flat_map]. rewrite (reads_match l o Hl).
  destruct o as [m|]; cbn [app map]; rewrite IH; reflexivity.
Qed.
Print Assumptions C48_line.
Theorem C48_every_line : forall l : str, exists o, reads l o /\ forall o', reads l o' -> o' = o.
Proof.
  intros l. destruct (reads_total l) as (o & H). exists o. split; [exact H|]. intros o' H'. apply reads_match in H, H'. congruence.
Qed.
Print Assumptions C48_every_line.
Theorem C48_split_white :
  forall (w : str) (r : list (str * str)),           (* (separator, word) *)
  w <> [] -> Forall (fun c => is_space c = false) w ->
  Forall (fun p => fst p <> [] /\ Forall (fun c => is_space c = true) (fst p)
                   /\ snd p <> [] /\ Forall (fun c => is_space c = false) (snd p)) r ->
  split_by White (joined w r) = w :: map snd r.
Proof. intros w r H1 H2 H3. exact (split_white w r H2 H1 H3 false). Qed.
Print Assumptions C48_split_white.
Theorem C48_split_class :
  forall (w : str) (r : list (str * str)),           (* (separator, field), fields may be empty *)
  let sep c := c = ascii_of_nat 9 \/ c = ";"%char \/ c = ","%char in
  Forall (fun c => ~ sep c) w ->
  Forall (fun p => (exists c, fst p = [c] /\ sep c) /\ Forall (fun c => ~ sep c) (snd p)) r ->
  split_by TabSemiComma (joined w r) = w :: map snd r.
Proof.
  intros w r sep Hw Hr. assert (S : forall c, is_tsc c = true <-> sep c).
  { intros c. unfold is_tsc, sep, ch_eq. rewrite !orb_true_iff, !Ascii.eqb_eq. tauto. }
  assert (N : forall c, ~ sep c -> is_tsc c = false).
  { intros c H. destruct (is_tsc c) eqn:E; [apply S in E; contradiction|reflexivity]. }
  apply split_each_fields.
  - eapply Forall_impl; [|exact Hw]. exact N.
  - eapply Forall_impl; [|exact Hr]. intros p ((c & E & Hc) & H). split; [exists c; rewrite S; auto|]. eapply Forall_impl; [|exact H]. exact N.
Qed.
Print Assumptions C48_split_class.
(** the columns of a file: as many as the longest row has fields, all as long as the number of rows,
    missing or unreadable fields being nan *)
Theorem C48_columns :
  forall (pyfloat : str -> cell) (dl : delim) (lines : list str),
  let rows := file_rows pyfloat dl lines in let cols := parse_datafile pyfloat dl lines in
  (forall c, In c cols -> length c = length rows)
  /\ (forall i j, nth i (nth j cols []) None = nth j (nth i rows []) None)
  /\ (forall i, (length (nth i rows []) <= length cols)%nat)
  /\ (rows <> [] -> exists row, In row rows /\ length row = length cols).
Proof.
  intros pf dl lines rows cols. split; [exact (columns_len_each rows)|]. split; [exact (columns_cell rows)|].
  assert (E : length cols = width rows) by apply columns_length. rewrite E. clear. split.
  - unfold width. induction rows as [|r rows IH]; intros [|i]; cbn; try lia. specialize (IH i). lia.
  - unfold width. induction rows as [|r rows IH]; [congruence|]. intros _. cbn [map fold_right].
    destruct rows as [|r2 rows]; [exists r; cbn; split; [auto|lia]|].
    destruct IH as (x & Hx & El); [discriminate|]. destruct (Nat.max_spec (length r) (fold_right Nat.max 0%nat (map (@length cell) (r2 :: rows)))) as [(_ & ->)|(_ & ->)].
    + exists x. split; [right; exact Hx|exact El].
    + exists r. split; [left; reflexivity|reflexivity].
Qed.
Print Assumptions C48_columns.
Example C48_case : forall pf : str -> cell,
  file_rows pf White [S_ "# head"; S_ " 300  1.5 # first"; S_ ""; S_ "   # note"; S_ "400 -- 2"]
  = [[pf (S_ "300"); pf (S_ "1.5")]; [pf []; pf []]; [pf (S_ "400"); pf (S_ "--"); pf (S_ "2")]].
Proof. reflexivity. Qed.

(** ** C49 *)
Theorem C49_plain_columns_filtered_apart :
  forall (pyfloat : str -> cell) (dl : delim) (group : list str) (lines : list str) (key : str) (i : nat),
  let table := file_rows pyfloat dl lines in let ncol := length (parse_datafile pyfloat dl lines) in
  key <> kX -> last_position (fun n => n = key) (firstn ncol group) i ->
  exists rows, increasing_rows rows
  /\ (forall r, In r rows <-> (r < length table)%nat /\ table_cell table r i <> None)
  /\ getitem (from_file1 pyfloat dl group lines) key = Ok (None, map (fun r => table_cell table r i) rows).
Proof.
  intros pf dl group lines key i table ncol Hk Hi. exists (filter (fun r => finite (table_cell table r i)) (seq 0 (length table))).
  split; [apply filter_sorted|]. split.
  - intros r. rewrite filter_In, in_seq. destruct (table_cell table r i); cbn; split; intros; intuition (congruence || lia).
  - unfold from_file1. destruct (C47_plain group (map (filter finite) (parse_datafile pf dl lines)) key) as (_ & E).
    rewrite map_length in E. rewrite (E Hk i Hi). do 2 f_equal.
    change (@nil cell) with (filter finite []) at 1. rewrite map_nth. unfold parse_datafile. fold table.
    assert (Hw : (i < width table)%nat).
    { destruct Hi as ((x & Hx & _) & _). assert (i < length (firstn ncol group))%nat by (apply nth_error_Some; congruence).
      rewrite firstn_length in H. unfold ncol, parse_datafile in H. rewrite columns_length in H. fold table in H. lia. }
    unfold columns. rewrite nth_map_seq by exact Hw. clear. unfold table_cell. induction table as [|row table IH] using rev_ind; [reflexivity|].
    rewrite map_app, app_length, seq_app, !filter_app, !map_app, IH. f_equal.
    + assert (X : forall (f g : nat -> cell) l, (forall r, In r l -> f r = g r) -> map f (filter (fun r => finite (f r)) l) = map g (filter (fun r => finite (g r)) l)).
      { clear. induction l as [|r l IH]; intros H; [reflexivity|]. cbn. rewrite (H r) by (left; reflexivity).
        destruct (finite (g r)); cbn; rewrite ?(H r) by (left; reflexivity); rewrite IH by (intros; apply H; right; assumption); reflexivity. }
      apply X. intros r Hr. apply in_seq in Hr. rewrite app_nth1 by lia. reflexivity.
    + cbn. rewrite app_nth2 by lia. rewrite Nat.sub_diag. cbn. destruct (nth i row None) eqn:Er; cbn; [|reflexivity].
      rewrite app_nth2 by lia. rewrite Nat.sub_diag. cbn. rewrite Er. reflexivity.
Qed.
Print Assumptions C49_plain_columns_filtered_apart.
(** [e] is the end of the block of columns that starts with the temperature column [j] *)
Definition block_end (group : list str) (ncol j e : nat) : Prop :=
  ((forall k, nth_error group k = Some kT -> k = j) /\ e = ncol)
  \/ ((exists k, k <> j /\ nth_error group k = Some kT)
      /\ ((nth_error group e = Some kT /\ (j < e)%nat /\ forall k, (j < k < e)%nat -> nth_error group k <> Some kT)
          \/ (e = length group /\ forall k, (j < k)%nat -> nth_error group k <> Some kT))).
Lemma nth_firstn_error {A} (l : list A) n k : nth_error (firstn n l) k = if Nat.ltb k n then nth_error l k else None.
Proof.
  revert n k; induction l as [|x l IH]; intros n k.
  - rewrite firstn_nil. destruct k; cbn [nth_error]; destruct (Nat.ltb _ n); reflexivity.
  - destruct n as [|n]; [destruct k; reflexivity|]. destruct k as [|k]; [reflexivity|]. cbn [firstn nth_error]. rewrite IH. reflexivity.
Qed.
Lemma nth_firstn_skipn {A} (l : list A) p n k d : (k < n)%nat -> nth k (firstn n (skipn p l)) d = nth (p + k) l d.
Proof.
  revert l; induction p as [|p IH]; intros l H.
  - cbn [skipn Nat.add]. revert l k H. induction n as [|n IHn]; intros l k H; [lia|]. destruct l as [|x l]; [destruct k; reflexivity|]. destruct k as [|k]; [reflexivity|]. cbn. apply IHn. lia.
  - destruct l as [|x l]; [cbn; rewrite firstn_nil; destruct k; reflexivity|]. cbn. apply IH; exact H.
Qed.
Lemma blk_rows_spec table j e r : In r (blk_rows (columns table) j e (length table)) <->
  (r < length table)%nat /\ forall k, (j <= k < e)%nat -> (k < length (columns table))%nat -> table_cell table r k <> None.
Proof.
  unfold blk_rows. rewrite filter_In, in_seq, row_ok_spec. split.
  - intros (H1 & H2). split; [lia|]. intros k Hk Hc. rewrite <- columns_cell. apply H2.
    replace (nth k (columns table) []) with (nth (k - j) (firstn (e - j) (skipn j (columns table))) []).
    + apply nth_In. rewrite firstn_length, skipn_length. lia.
    + rewrite nth_firstn_skipn by lia. f_equal. lia.
  - intros (H1 & H2). split; [lia|]. intros c Hc. apply (In_nth _ _ []) in Hc as (k & Hk & <-).
    rewrite firstn_length, skipn_length in Hk. rewrite nth_firstn_skipn by lia. rewrite columns_cell. apply H2; lia.
Qed.
Lemma map_cells table k l : map (fun r => nth r (nth k (columns table) []) None) l = map (fun r => table_cell table r k) l.
Proof. apply map_ext. intros r. apply columns_cell. Qed.
Theorem C49_rows_stay_aligned :
  forall (pyfloat : str -> cell) (dl : delim) (group : list str) (lines : list str) (d : dataset) (key : str) (i : nat),
  let table := file_rows pyfloat dl lines in let ncol := length (parse_datafile pyfloat dl lines) in
  from_file2 pyfloat dl group lines = Ok d -> key <> kT -> key <> kX -> last_position (fun n => n = key) (firstn ncol group) i ->
  exists j e rows,
    (j < i)%nat /\ nth_error group j = Some kT /\ (forall k, (j < k < i)%nat -> nth_error group k <> Some kT)
    /\ block_end group ncol j e
    /\ increasing_rows rows
    /\ (forall r, In r rows <-> (r < length table)%nat /\ forall k, (j <= k < e)%nat -> (k < ncol)%nat -> table_cell table r k <> None)
    /\ getitem d key = Ok (Some (map (fun r => table_cell table r j) rows), map (fun r => table_cell table r i) rows).
Proof.
  intros pf dl group lines d key i table ncol H Hk1 Hk2 Hi. unfold from_file2, parse_datafile in H. fold table in H.
  unfold parse_datafile in ncol. fold table in ncol.
  assert (Hcore : exists data', length data' = ncol /\ init2 group data' = Ok d /\
    (forall j, nth_error group j = Some kT -> (j < ncol)%nat -> exists e, block_end group ncol j e /\ (j < e)%nat /\
      forall k, (j <= k < e)%nat -> (k < ncol)%nat -> nth k data' [] = map (fun r => table_cell table r k) (blk_rows (columns table) j e (length table)))).
  { assert (Hlen : forall k, (0 <= k < length (columns table))%nat -> length (nth k (columns table) []) = length table).
    { intros k Hk. apply columns_len_each, nth_In. lia. }
    destruct (temp_positions group) as [|p ps] eqn:Ep; [discriminate|].
    destruct ps as [|p2 ps].
    - destruct (filter_block (columns table) p (length (columns table))) as [data'|e] eqn:E; [|discriminate]. cbn [rbind] in H.
      assert (Hp : (p < length (columns table))%nat).
      { unfold filter_block in E. destruct (Nat.lt_ge_cases p (length (columns table))); [assumption|]. rewrite skipn_all2, firstn_nil in E by lia. discriminate. }
      destruct (filter_block_spec _ (length table) _ _ _ ltac:(intros c Hc; apply columns_len_each; eapply (In_nth _ _ []) in Hc as (k & Hk & <-); rewrite firstn_length, skipn_length in Hk; rewrite nth_firstn_skipn by lia; apply nth_In; lia) E ltac:(lia)) as (L & _ & N).
      exists data'. split; [exact L|]. split; [exact H|]. intros j Hj Hjn.
      assert (Hjp : forall k, nth_error group k = Some kT -> k = p).
      { intros k Hk. apply temp_positions_spec in Hk. rewrite Ep in Hk. destruct Hk as [<-|[]]. reflexivity. }
      rewrite (Hjp j Hj) in *. exists ncol. split; [left; split; [exact Hjp|reflexivity]|]. split; [exact Hp|].
      intros k Hk Hkn. rewrite N. fold ncol. rewrite (proj2 (Nat.leb_le _ _)) by lia. rewrite !(proj2 (Nat.ltb_lt _ _)) by lia. cbn [andb].
      apply map_cells.
    - set (pss := p :: p2 :: ps) in *. change (p2 :: ps) with (tl pss) in H.
      destruct (filter_blocks (columns table) (combine pss (tl pss ++ [length group]))) as [data'|e] eqn:E; [|discriminate]. cbn [rbind] in H.
      assert (Hs : StronglySorted lt pss) by (rewrite <- Ep; apply temp_positions_sorted).
      assert (Hb : forall q, In q pss -> (0 <= q < length group)%nat).
      { intros q Hq. rewrite <- Ep in Hq. apply temp_positions_spec in Hq. split; [lia|]. apply nth_error_Some. congruence. }
      destruct (filter_blocks_spec (length table) _ _ _ 0%nat (chained_positions pss (length group) 0%nat Hs Hb) Hlen E) as (L & _ & N).
      exists data'. split; [exact L|]. split; [exact H|]. intros j Hj Hjn.
      assert (HjT : In j pss) by (rewrite <- Ep; apply temp_positions_spec; exact Hj).
      destruct (block_of pss (length group) j Hs HjT) as (q & Hq & Hc). exists q.
      assert (Hjq : (j < q)%nat).
      { destruct Hc as [(_ & Hjq & _)|(-> & _)]; [exact Hjq|]. apply Hb; exact HjT. }
      assert (Htwo : exists k, k <> j /\ nth_error group k = Some kT).
      { inversion Hs as [|? ? _ Hf]; subst. rewrite Forall_forall in Hf. specialize (Hf p2 (or_introl eq_refl)).
        destruct (Nat.eq_dec p j) as [<-|Hne]; [exists p2|exists p]; (split; [lia|]); apply temp_positions_spec; rewrite Ep; cbn; auto. }
      split.
      + right. split; [exact Htwo|]. destruct Hc as [(Hin & _ & Hno)|(-> & Hno)]; [left|right].
        * split; [apply temp_positions_spec; rewrite Ep; exact Hin|]. split; [exact Hjq|]. intros k Hk Hkt.
          apply temp_positions_spec in Hkt. rewrite Ep in Hkt. destruct (Hno k Hkt); lia.
        * split; [reflexivity|]. intros k Hk Hkt. apply temp_positions_spec in Hkt. rewrite Ep in Hkt. specialize (Hno k Hkt). lia.
      + split; [exact Hjq|]. intros k Hk Hkn. rewrite (N j q Hq k Hk Hkn). apply map_cells. }
  destruct Hcore as (data' & L & Hd & Hblk).
  destruct (C47_association group data' d key Hd) as (_ & A). rewrite L in A.
  destruct (A Hk1 Hk2 i Hi) as (j & Hj & HT & Hno & Eg).
  assert (Hin : (i < ncol)%nat).
  { destruct Hi as ((x & Hx & _) & _). assert (i < length (firstn ncol group))%nat by (apply nth_error_Some; congruence). rewrite firstn_length in H0. lia. }
  rewrite nth_firstn_error, (proj2 (Nat.ltb_lt _ _)) in HT by lia.
  assert (Hno' : forall k, (j < k < i)%nat -> nth_error group k <> Some kT).
  { intros k Hk. specialize (Hno k Hk). rewrite nth_firstn_error, (proj2 (Nat.ltb_lt _ _)) in Hno by lia. exact Hno. }
  destruct (Hblk j HT ltac:(lia)) as (e & He & Hje & Hv).
  assert (Hie : (i < e)%nat).
  { destruct He as [(_ & ->)|(_ & [(HeT & _)|(-> & _)])]; [exact Hin| |].
    - destruct (Nat.lt_trichotomy i e) as [H1|[H1|H1]]; [exact H1| |exfalso; exact (Hno' e ltac:(lia) HeT)].
      exfalso. destruct Hi as ((x & Hx & Hxk) & _). rewrite nth_firstn_error, (proj2 (Nat.ltb_lt _ _)) in Hx by lia. congruence.
    - destruct Hi as ((x & Hx & _) & _). rewrite nth_firstn_error, (proj2 (Nat.ltb_lt _ _)) in Hx by lia. apply nth_error_Some. congruence. }
  exists j, e, (blk_rows (columns table) j e (length table)).
  split; [exact Hj|]. split; [exact HT|]. split; [exact Hno'|]. split; [exact He|]. split; [apply filter_sorted|].
  split; [intros r; apply blk_rows_spec|]. rewrite Eg, (Hv j), (Hv i) by lia. reflexivity.
Qed.
Print Assumptions C49_rows_stay_aligned.
(** refused files: no temperature column in the group, or a temperature column beyond the file *)
Theorem C49_refused :
  forall (pyfloat : str -> cell) (dl : delim) (group : list str) (lines : list str),
  (~ In kT group -> from_file2 pyfloat dl group lines = Err ValueError)
  /\ (forall j, nth_error group j = Some kT -> (length (parse_datafile pyfloat dl lines) <= j)%nat -> forall d, from_file2 pyfloat dl group lines <> Ok d).
Proof.
  intros pf dl group lines. split.
  - intros Hn. unfold from_file2. destruct (temp_positions group) as [|p ps] eqn:E; [reflexivity|]. exfalso. apply Hn.
    apply (nth_error_In group p), temp_positions_spec. rewrite E. left; reflexivity.
  - intros j Hj Hlen d H. unfold from_file2 in H. set (data := parse_datafile pf dl lines) in *.
    assert (Hin : In j (temp_positions group)) by (apply temp_positions_spec; exact Hj).
    pose proof (temp_positions_sorted group) as Hs.
    assert (Hb : forall q, In q (temp_positions group) -> (0 <= q < length group)%nat).
    { intros q Hq. apply temp_positions_spec in Hq. split; [lia|]. apply nth_error_Some. congruence. }
    destruct (temp_positions group) as [|p ps]; [discriminate|].
    assert (F : forall data p q, (length data <= p)%nat -> filter_block data p q = Err ValueError).
    { intros dd a b Ha. unfold filter_block. rewrite skipn_all2 by exact Ha. rewrite firstn_nil. reflexivity. }
    destruct ps as [|p2 ps].
    + destruct Hin as [<-|[]]. rewrite F in H by exact Hlen. discriminate.
    + set (pss := p :: p2 :: ps) in *. change (p2 :: ps) with (tl pss) in H.
      destruct (filter_blocks data (combine pss (tl pss ++ [length group]))) as [data'|e] eqn:E; [|discriminate].
      destruct (block_of pss (length group) j Hs Hin) as (q & Hq & _).
      assert (G : forall l data data', filter_blocks data l = Ok data' -> forall p q, In (p, q) l -> (p < length data)%nat).
      { clear -F. induction l as [|[a b] l IH]; intros data data' H p q Hin; [destruct Hin|]. cbn [filter_blocks] in H.
        destruct (filter_block data a b) as [d1|e] eqn:E; [|discriminate]. cbn [rbind] in H.
        assert (Ha : (a < length data)%nat) by (destruct (Nat.lt_ge_cases a (length data)) as [Hl|Hl]; [exact Hl|rewrite F in E by exact Hl; discriminate]).
        destruct Hin as [[= -> ->]|Hin]; [exact Ha|]. specialize (IH _ _ H _ _ Hin).
        assert (length d1 <= length data)%nat; [|lia].
        unfold filter_block in E. destruct (firstn (b - a) (skipn a data)) as [|c bl] eqn:Eb; [discriminate|].
        assert (E' : d1 = firstn a data ++ nan_filter (c :: bl) ++ skipn b data) by congruence.
        assert (Ln : length (nan_filter (c :: bl)) = length (c :: bl)) by apply map_length.
        rewrite E', !app_length, Ln, <- Eb, !firstn_length, !skipn_length.
        destruct (Nat.lt_ge_cases a b); [lia|]. replace (b - a)%nat with 0%nat in Eb by lia. discriminate. }
      specialize (G _ _ _ E _ _ Hq). lia.
Qed.
Print Assumptions C49_refused.
Example C49_case : forall pf : str -> cell, pf (S_ "300") = Some 300 -> pf (S_ "400") = Some 400 -> pf (S_ "1") = Some 1 -> pf (S_ "2") = Some 2 -> pf (S_ "x") = None ->
  let lines := [S_ "300,x"; S_ "400,1"; S_ "400,2"] in
  (exists d, from_file2 pf TabSemiComma [kT; kR] lines = Ok d /\ getitem d kR = Ok (Some [Some 400; Some 400], [Some 1; Some 2]))
  /\ getitem (from_file1 pf TabSemiComma [kT; kR] lines) kT = Ok (None, [Some 300; Some 400; Some 400])
  /\ getitem (from_file1 pf TabSemiComma [kT; kR] lines) kR = Ok (None, [Some 1; Some 2]).
Proof.
  intros pf H1 H2 H3 H4 H5 lines.
  assert (E : parse_datafile pf TabSemiComma lines = [[Some 300; Some 400; Some 400]; [None; Some 1; Some 2]]).
  { unfold parse_datafile. replace (file_rows pf TabSemiComma lines) with [[pf (S_ "300"); pf (S_ "x")]; [pf (S_ "400"); pf (S_ "1")]; [pf (S_ "400"); pf (S_ "2")]] by reflexivity.
    rewrite H1, H2, H3, H4, H5. reflexivity. }
  unfold from_file2, from_file1. rewrite E. split; [eexists; split; reflexivity|]. split; reflexivity.
Qed.
