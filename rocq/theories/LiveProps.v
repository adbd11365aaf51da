(** C133: models whose parameters are variables compute what the same models with plain numbers compute. *)
From Coq Require Import Reals String Lra Lia.
From Verif Require Import Py PyDict PyStr RUtil ScatModel DebyeModel VarModel VarSpec VarProofs VarProps LiveModel LiveSpec LiveProofs.
Local Open Scope R_scope.

(** a constructor accepts numbers and variables alike: it fails, with the same exception and leaving no trace, when it fails for numbers under the same names *)
Theorem C133_constructor : forall w c kw nums, map fst nums = map fst kw ->
  match construct w c kw with
  | (_, Ok _) => exists f, plain c nums = Ok f
  | (w', Err e) => plain c nums = Err e /\ w' = w
  end.
Proof. intros w c kw nums H. pose proof (construct_plain w c kw nums H) as P. destruct (construct w c kw) as [w' [o|e]]; [destruct P as (l & p & f & _ & _ & _ & _ & Pf & _); exists f; exact Pf|tauto]. Qed.
(** in every reachable state the arguments stand for exactly one list of numbers *)
Theorem C133_numbers : forall w kw, reach false w -> args_ok w (map snd kw) -> exists! nums, in_numbers w kw nums.
Proof.
  intros w kw Hw. induction kw as [|[k a] kw IH]; intros Ao.
  - exists []. split; [constructor|]. intros n H. inversion H. reflexivity.
  - destruct IH as (nums & Hn & U); [intros t Ht; apply Ao; right; exact Ht|].
    assert (X : exists x, stands w a x /\ forall y, stands w a y -> y = x).
    { destruct a as [x|t]; [exists x; split; [reflexivity|intros y Hy; exact Hy]|]. destruct (ready w t) as [v|] eqn:Rt; [|destruct (Ao t); [left; reflexivity|exact Rt]].
      destruct (C79_well_founded false w t v Hw Rt) as (x & Tx & Ux). exists (x * v_scale v). split; [exists v, x; auto|].
      intros y (v' & z & R' & Tz & ->). assert (v' = v) by congruence. subst v'. rewrite (Ux z Tz). reflexivity. }
    destruct X as (x & Sx & Ux). exists ((k, x) :: nums). split; [constructor; [split; [reflexivity|exact Sx]|exact Hn]|].
    intros l H. inversion H as [|ka kx kw' l' [E S] F]; subst. cbn [fst snd] in E, S. destruct kx as [k' x']. cbn [fst snd] in E, S. subst k'. rewrite (Ux x' S). rewrite (U l' F). reflexivity.
Qed.
(** a mechanism made with variables, whatever happened since (assignments, syncs, new variables and containers): its rate is the rate of the mechanism made
    from the numbers the variables now stand for, as long as the variables are free *)
Theorem C133_mechanism : forall w o c kw nums, made w o c kw -> current w [] (map snd kw) -> in_numbers w kw nums ->
  exists f, plain c nums = Ok f /\ forall om T, rate_now w o om T = f om T.
Proof. intros w o c kw nums M C N. apply (mechanism w o c kw nums M); [|exact N]. intros t Ht. destruct (C t Ht) as [H|[]]. left. exact H. Qed.
(** the same for a whole Debye model: scattering rates, spectral and total conductivity *)
Theorem C133_debye : forall w m vs td comps pl xvs xtd, made_debye w m vs td comps -> Forall2 (in_plain w []) comps pl ->
  current w [] [vs; td] -> stands w vs xvs -> stands w td xtd ->
  exists s a, debye_init pl = Ok (s, a) /\ forall om T acc,
    live_scattering w m om T = Ok (scattering s om T true) /\ live_spectral w m om T acc = Ok (spectral xtd xvs s om T acc) /\ live_kappa w m T = Ok (kappa xtd xvs s a T).
Proof.
  intros w m vs td comps pl xvs xtd M F C Sv St. destruct (debye_numbers w m vs td comps [] pl xvs xtd M ltac:(intros d []) F C Sv St) as (s & a & E & K). exists s, a. split; [exact E|].
  intros om T acc. unfold live_scattering, live_spectral, live_kappa. rewrite !K. auto.
Qed.
(** the constructor of the model looks at kinds and tags only: it succeeds and fails with the one for plain numbers, now and at any later time *)
Theorem C133_debye_constructor : forall w vs td comps pl, Forall2 (in_plain w []) comps pl ->
  match snd (new_debye w vs td comps), debye_init pl with Ok _, Ok _ => True | Err e, Err e' => e = e' | _, _ => False end.
Proof.
  intros w vs td comps pl F. unfold new_debye. destruct (new_params w _) as [w' p].
  pose proof (present_plain w [] comps pl ltac:(intros d []) F) as Ep. pose proof (kind_present w' w comps) as K. rewrite Ep in K.
  destruct (debye_init (map (present w') comps)) as [sa|e] eqn:E; cbn [snd].
  - destruct (init_kind _ _ _ K E) as [sa' ->]. exact I.
  - rewrite (init_kind_err _ _ _ K E). reflexivity.
Qed.
(** objects made earlier stay made *)
Theorem C133_later : forall w w', after false w w' -> (forall o c kw, made w o c kw -> made w' o c kw) /\ (forall m vs td comps, made_debye w m vs td comps -> made_debye w' m vs td comps).
Proof.
  intros w w' A. split.
  - intros o c kw (wa & wb & Ra & ND & Ao & E & Hw). exists wa, wb. repeat (split; [assumption|]). exact (after_trans _ _ _ _ Hw A).
  - intros m vs td comps (wa & wb & Ra & Ao & E & Hw). exists wa, wb. repeat (split; [assumption|]). exact (after_trans _ _ _ _ Hw A).
Qed.

Lemma done_settled w vars ders args w' : done w vars ders args w' -> forall d, In d ders -> settled w' d.
Proof. intros (_ & D & _) d Hd v x p k Rv Tx Hs. destruct (D d Hd) as (y & Ty & _ & K). rewrite (proj1 (true_det w') d x Tx y Ty). apply (K v p k Rv Hs). Qed.
Lemma done_stands w vars ders args w' : done w vars ders args w' -> (forall t, In t vars -> constrained w' t = false) ->
  forall t x, In (t, x) (combine vars args) -> exists v, ready w' t = Some v /\ stands w' (Ref t) (x * v_scale v).
Proof.
  intros (D & _ & _) F t x Hx. destruct (D t x Hx) as [G _]. unfold get_value in G. destruct (ready w' t) as [v|] eqn:Rv; [|discriminate]. injection G as G. exists v. split; [reflexivity|].
  pose proof (F t (in_combine_l _ _ _ _ Hx)) as C. unfold constrained in C. rewrite Rv in C. exists v, x. split; [exact Rv|]. split; [|reflexivity].
  unfold val_of in G. destruct (v_compute v) eqn:Vc; [discriminate|]. subst x. apply tv_free; assumption.
Qed.
Lemma constrained_after b w w' t : Inv w -> after b w w' -> ready w t <> None -> constrained w' t = constrained w t.
Proof.
  intros I A Rt. destruct (ready w t) as [v|] eqn:Rv; [|congruence]. destruct (after_grown b w w' t v I A Rv) as (v' & R' & G). unfold constrained. rewrite Rv, R'.
  destruct G as (_ & -> & _). reflexivity.
Qed.
Lemma in_combine_ex {A B} (l : list A) (l' : list B) a : List.length l' = List.length l -> In a l -> exists b, In (a, b) (combine l l').
Proof. revert l'. induction l as [|x l IH]; intros [|y l'] L H; try discriminate; [destruct H|]. destruct H as [<-|H]; [exists y; left; reflexivity|]. destruct (IH l' ltac:(cbn in L; lia) H) as [b Hb]. exists b. right. exact Hb. Qed.

(** one evaluation of a fit: the listed free variables take the arguments, the listed constrained ones follow, and the returned conductivity is that of the
    model with the numbers they all then stand for *)
Theorem C133_step : forall w m vs td comps vars ders args, reach false w -> made_debye w m vs td comps ->
  NoDup vars -> List.length args = List.length vars -> (forall t, In t vars -> constrained w t = false) ->
  (forall t x, In (t, x) (combine vars args) -> exists v, ready w t = Some v /\ v_lower v <= x <= v_upper v) ->
  (forall d, In d ders -> ready w d <> None) -> in_order w ders ->
  exists w', after false w w' /\ (forall T, model_cal w m vars ders args T = (w', live_kappa w' m T)) /\
  (forall t x, In (t, x) (combine vars args) -> exists v, ready w' t = Some v /\ stands w' (Ref t) (x * v_scale v)) /\
  forall pl xvs xtd, Forall2 (in_plain w' ders) comps pl -> current w' ders [vs; td] -> stands w' vs xvs -> stands w' td xtd ->
  exists s a, debye_init pl = Ok (s, a) /\ forall T, live_kappa w' m T = Ok (kappa xtd xvs s a T).
Proof.
  intros w m vs td comps vars ders args Hw M ND L C B Rd O. destruct (cal_ok w vars ders args Hw ND L C B Rd O) as (w' & E & _ & D).
  assert (Rv : forall t, In t vars -> ready w t <> None) by (intros t Ht; destruct (in_combine_ex vars args t L Ht) as [x Hx]; destruct (B t x Hx) as (v & -> & _); discriminate).
  pose proof (cal_after w vars ders args w' None Rv Rd E) as A. exists w'. split; [exact A|]. split; [intros T; unfold model_cal; rewrite E; reflexivity|]. split.
  - apply (done_stands w vars ders args w' D). intros t Ht. rewrite (constrained_after false w w' t (reach_inv false w Hw) A (Rv t Ht)). apply C, Ht.
  - intros pl xvs xtd F Cu Sv St. destruct (debye_numbers w' m vs td comps ders pl xvs xtd) as (s & a & Es & K); auto.
    + apply (proj2 (C133_later w w' A) m vs td comps M).
    + apply (done_settled w vars ders args w' D).
    + exists s, a. split; [exact Es|]. intros T. unfold live_kappa. rewrite K. reflexivity.
Qed.
(** after a fit, however often the optimiser evaluated the model: the same for the arguments of its last evaluation *)
Theorem C133_fit : forall w m vs td comps variables calls last, reach false w -> made_debye w m vs td comps ->
  NoDup variables -> (forall t, In t variables -> ready w t <> None) ->
  let vars := filter (fun t => negb (constrained w t)) variables in let ders := filter (constrained w) variables in
  vars <> [] -> in_order w ders ->
  (forall a, In a (calls ++ [last]) -> List.length a = List.length vars /\ forall t x, In (t, x) (combine vars a) -> exists v, ready w t = Some v /\ v_lower v <= x <= v_upper v) ->
  exists w', fit w variables false (calls ++ [last]) = (w', None) /\ after false w w' /\
  (forall t x, In (t, x) (combine vars last) -> exists v, ready w' t = Some v /\ stands w' (Ref t) (x * v_scale v)) /\
  forall pl xvs xtd, Forall2 (in_plain w' ders) comps pl -> current w' ders [vs; td] -> stands w' vs xvs -> stands w' td xtd ->
  exists s a, debye_init pl = Ok (s, a) /\ forall om T acc,
    live_scattering w' m om T = Ok (scattering s om T true) /\ live_spectral w' m om T acc = Ok (spectral xtd xvs s om T acc) /\ live_kappa w' m T = Ok (kappa xtd xvs s a T).
Proof.
  intros w m vs td comps variables calls last Hw M ND Rd vars ders Nv O B. destruct (C80_last_evaluation_stays w variables calls last Hw ND Rd Nv O B) as (w' & E & D1 & D2 & D3).
  fold vars ders in D1, D2, D3. assert (D : done w vars ders last w') by (split; [exact D1|split; [exact D2|exact D3]]).
  assert (Rv : forall t, In t vars -> ready w t <> None) by (intros t Ht; apply Rd; apply filter_In in Ht; apply Ht).
  assert (Rr : forall t, In t ders -> ready w t <> None) by (intros t Ht; apply Rd; apply filter_In in Ht; apply Ht).
  assert (A : after false w w').
  { unfold fit in E. fold vars ders in E. destruct vars as [|v0 vr] eqn:Ev; [congruence|]. rewrite <- Ev in *. apply (calls_after vars ders (calls ++ [last]) w w' None (reach_inv false w Hw) Rv Rr E). }
  exists w'. split; [exact E|]. split; [exact A|]. split.
  - apply (done_stands w vars ders last w' D). intros t Ht. rewrite (constrained_after false w w' t (reach_inv false w Hw) A (Rv t Ht)). apply filter_In in Ht. destruct Ht as [_ Ht]. apply negb_true_iff in Ht. exact Ht.
  - intros pl xvs xtd F Cu Sv St. destruct (debye_numbers w' m vs td comps ders pl xvs xtd) as (s & a & Es & K); auto.
    + apply (proj2 (C133_later w w' A) m vs td comps M).
    + apply (done_settled w vars ders last w' D).
    + exists s, a. split; [exact Es|]. intros om T acc. unfold live_scattering, live_spectral, live_kappa. rewrite !K. auto.
Qed.

(** with a constrained variable that was not brought up to date this fails: B = 2 A, a mechanism whose alpha is B, then A := 20; the rate keeps the old
    alpha 20 while B reads 40, until B is synced *)
Definition kwB : list (str * arg) := [(S_ "vs", Num 5); (S_ "L", Num 2); (S_ "alpha", Ref B_)].
Definition wg : world := fst (construct wd GB kwB).
Definition og : obj := {| o_cls := GB; o_direct := false; o_par := 4 |}.
Definition wh : world := fst (set_value wg A_ 20).
Definition nvh := {| v_value := 20; v_lower := 0; v_upper := 1000; v_scale := 1; v_subs := [(1%nat, KDep 0); (2%nat, KDep 0)]; v_compute := None; v_deps := 0; v_args := [] |}.
Lemma eg : construct wd GB kwB = (wg, Ok og).
Proof. reflexivity. Qed.
Lemma eh : set_value wg A_ 20 = (sync_var (upd_var wg A_ (Ready nvh)) nvh, None).
Proof. rewrite (set_ok wg A_ {| v_value := 10; v_lower := 0; v_upper := 1000; v_scale := 1; v_subs := [(1%nat, KDep 0); (2%nat, KDep 0)]; v_compute := None; v_deps := 0; v_args := [] |} 20); [reflexivity|reflexivity|]. apply in_bounds_iff. cbn. lra. Qed.
Lemma nodup3 (a b c : str) : memb a [b; c] = false -> memb b [c] = false -> NoDup [a; b; c].
Proof.
  intros H1 H2. constructor; [intros H; apply memb_In in H; congruence|]. constructor; [intros H; apply memb_In in H; congruence|]. constructor; [intros []|constructor].
Qed.
Theorem C133_stale : exists w o c kw nums f, made w o c kw /\ in_numbers w kw nums /\ plain c nums = Ok f /\
  (forall om T, rate_now w o om T <> f om T) /\ exists t, In (Ref t) (map snd kw) /\ forall om T, rate_now (fst (sync w t)) o om T = f om T.
Proof.
  exists wh, og, GB, kwB, [(S_ "vs", 5); (S_ "L", 2); (S_ "alpha", fB [20 * 1] * 1)].
  exists (fun om T => Ok (gb_rate 5 2 (fB [20 * 1] * 1) om T)).
  assert (W : wh = sync_var (upd_var wg A_ (Ready nvh)) nvh) by (unfold wh; rewrite eh; reflexivity).
  assert (Rg : reach false wd) by (rewrite <- doc_wd; exact doc_reach).
  split.
  { exists wd, wg. split; [exact Rg|]. split; [apply nodup3; reflexivity|]. split; [intros t [H|[H|[H|[]]]]; try discriminate; injection H as <-; discriminate|].
    split; [exact eg|]. unfold wh. apply r_set; [constructor|discriminate]. }
  split.
  { rewrite W. constructor; [split; reflexivity|]. constructor; [split; reflexivity|]. constructor; [|constructor]. split; [reflexivity|].
    set (w' := sync_var (upd_var wg A_ (Ready nvh)) nvh).
    pose (vB := match ready w' B_ with Some v => v | None => nvh end). exists vB, (fB [20 * 1]). split; [reflexivity|]. split; [|reflexivity].
    apply (tv_con w' B_ vB fB); [reflexivity|reflexivity|]. change (v_args vB) with [Ref A_]. apply (ta_ref w' A_ nvh 20); [reflexivity|apply (tv_free w' A_ nvh); reflexivity|constructor]. }
  split; [reflexivity|]. split.
  - intros om T. rewrite W.
    assert (E : rate_now (sync_var (upd_var wg A_ (Ready nvh)) nvh) og om T = Ok (gb_rate 5 2 (fB [10 * 1] * 1) om T)) by reflexivity.
    rewrite E. unfold gb_rate, fB. intros H. injection H as H. assert (P : 0 < / 10 ^ 3) by (apply Rinv_0_lt_compat, pow_lt; lra). nra.
  - exists B_. split; [right; right; left; reflexivity|]. intros om T. rewrite W. reflexivity.
Qed.

(** the theorems apply: a model with vs = A, td = 300 and a grain boundary with alpha = A and with vs = A, in the state after A := 20 *)
Definition kwA : list (str * arg) := [(S_ "vs", Ref A_); (S_ "L", Num 2); (S_ "alpha", Ref A_)].
Definition wg2 : world := fst (construct wd GB kwA).
Definition wm : world := fst (new_debye wg2 (Ref A_) (Num 300) [LScat og]).
Definition nvm := {| v_value := 20; v_lower := 0; v_upper := 1000; v_scale := 1; v_subs := [(1%nat, KDep 0); (2%nat, KDep 0); (4%nat, KName (S_ "vs")); (4%nat, KName (S_ "alpha")); (5%nat, KName (S_ "vs"))]; v_compute := None; v_deps := 0; v_args := [] |}.
Definition wn : world := fst (set_value wm A_ 20).
Lemma en : set_value wm A_ 20 = (sync_var (upd_var wm A_ (Ready nvm)) nvm, None).
Proof. rewrite (set_ok wm A_ (with_value nvm 10) 20); [reflexivity|reflexivity|]. apply in_bounds_iff. cbn. lra. Qed.
Lemma Rwd : reach false wd. Proof. rewrite <- doc_wd. exact doc_reach. Qed.
Lemma Mo : made wg2 og GB kwA.
Proof. exists wd, wg2. split; [exact Rwd|]. split; [apply nodup3; reflexivity|]. split; [intros t [H|[H|[H|[]]]]; try discriminate; injection H as <-; discriminate|]. split; [reflexivity|constructor]. Qed.
Lemma Rg2 : reach false wg2.
Proof.
  change wg2 with (fst (new_params wd [(KName (S_ "vs"), Ref A_); (KName (S_ "L"), Num 2); (KName (S_ "alpha"), Ref A_)])). apply r_params; [exact Rwd| |].
  - apply (names_nodup [S_ "vs"; S_ "L"; S_ "alpha"]). apply nodup3; reflexivity.
  - intros t [H|[H|[H|[]]]]; try discriminate; injection H as <-; discriminate.
Qed.
Lemma Ag : after false wg2 wm.
Proof.
  change wm with (fst (new_params wg2 [(KName (S_ "vs"), Ref A_); (KName (S_ "td"), Num 300)])). apply r_params; [constructor| |].
  - constructor; [intros [H|[]]; discriminate|constructor; [intros []|constructor]].
  - intros t [H|[H|[]]]; try discriminate; injection H as <-; discriminate.
Qed.
Definition mm : live := {| l_par := 5; l_comps := [LScat og] |}.
Lemma Mm w : after false wm w -> made_debye w mm (Ref A_) (Num 300) [LScat og].
Proof. intros A. exists wg2, wm. split; [exact Rg2|]. split; [intros t [H|[H|[]]]; try discriminate; injection H as <-; discriminate|]. split; [reflexivity|exact A]. Qed.
Lemma Fm w x : after false wm w -> stands w (Ref A_) x -> Forall2 (in_plain w []) [LScat og] [Scat (S_ "GB") (gb_rate x 2 x)].
Proof.
  intros A SA. assert (CA : constrained w A_ = false) by (rewrite (constrained_after false wm w A_ (reach_inv false wm (reach_after _ _ Rg2 Ag)) A ltac:(discriminate)); reflexivity).
  constructor; [|constructor]. apply (ip_scat w [] og GB kwA [(S_ "vs", x); (S_ "L", 2); (S_ "alpha", x)] (fun om T => Ok (gb_rate x 2 x om T))).
  - apply (proj1 (C133_later wg2 w (after_trans _ _ _ _ Ag A))). exact Mo.
  - intros t [H|[H|[H|[]]]]; try discriminate; injection H as <-; left; exact CA.
  - constructor; [split; [reflexivity|exact SA]|]. constructor; [split; reflexivity|]. constructor; [split; [reflexivity|exact SA]|constructor].
  - reflexivity.
  - reflexivity.
Qed.
Lemma Cm w : after false wm w -> current w [] [Ref A_; Num 300].
Proof. intros A t [H|[H|[]]]; try discriminate. injection H as <-. left. rewrite (constrained_after false wm w A_ (reach_inv false wm (reach_after _ _ Rg2 Ag)) A ltac:(discriminate)). reflexivity. Qed.
Example C133_case : made_debye wn mm (Ref A_) (Num 300) [LScat og] /\
  Forall2 (in_plain wn []) [LScat og] [Scat (S_ "GB") (gb_rate (20 * 1) 2 (20 * 1))] /\ current wn [] [Ref A_; Num 300] /\ stands wn (Ref A_) (20 * 1) /\ stands wn (Num 300) 300.
Proof.
  assert (W : wn = sync_var (upd_var wm A_ (Ready nvm)) nvm) by (unfold wn; rewrite en; reflexivity).
  assert (An : after false wm wn) by (unfold wn; apply r_set; [constructor|discriminate]).
  assert (SA : stands wn (Ref A_) (20 * 1)) by (exists nvm, 20; rewrite W; split; [reflexivity|]; split; [apply (tv_free _ A_ nvm); reflexivity|reflexivity]).
  split; [exact (Mm wn An)|]. split; [exact (Fm wn _ An SA)|]. split; [exact (Cm wn An)|]. split; [exact SA|reflexivity].
Qed.
(** a fit of A with evaluations at 15, 40, 20 leaves the model with the conductivity of the model made from the number 20 *)
Example C133_case_fit : exists w', fit wm [A_] false ([[15]; [40]] ++ [[20]]) = (w', None) /\
  forall T, live_kappa w' mm T = Ok (kappa 300 (20 * 1) [(S_ "GB", gb_rate (20 * 1) 2 (20 * 1))] [] T).
Proof.
  assert (RA : ready wm A_ = Some (with_value nvm 10)) by reflexivity.
  assert (FV : filter (fun t => negb (constrained wm t)) [A_] = [A_]) by reflexivity. assert (FD : filter (constrained wm) [A_] = []) by reflexivity.
  destruct (C133_fit wm mm (Ref A_) (Num 300) [LScat og] [A_] [[15]; [40]] [20]) as (w' & E & A & V & K).
  - apply (reach_after _ _ Rg2 Ag).
  - apply Mm. constructor.
  - constructor; [intros []|constructor].
  - intros t [<-|[]]. discriminate.
  - rewrite FV. discriminate.
  - rewrite FD. intros [|? ?] ? ? ? ? H; discriminate.
  - rewrite FV. intros a Ha. cbn in Ha. assert (X : exists x, a = [x] /\ 0 <= x <= 1000) by (destruct Ha as [<-|[<-|[<-|[]]]]; eexists; (split; [reflexivity|lra])). destruct X as (x & -> & Bx).
    split; [reflexivity|]. intros t y [H|[]]. injection H as <- <-. exists (with_value nvm 10). split; [exact RA|exact Bx].
  - exists w'. split; [exact E|]. intros T. rewrite FV in V. rewrite FD in K. destruct (V A_ 20 (or_introl eq_refl)) as (v & Rv & Sv).
    destruct (after_grown false wm w' A_ _ (reach_inv false wm (reach_after _ _ Rg2 Ag)) A RA) as (v' & R' & G). assert (v' = v) by congruence. subst v'. destruct G as (_ & _ & Gs & _). rewrite Gs in Sv. change (v_scale (with_value nvm 10)) with 1 in Sv.
    destruct (K _ (20 * 1) 300 (Fm w' _ A Sv) (Cm w' A) Sv eq_refl) as (s & a & Es & Kk). vm_compute debye_init in Es. cbn in Es. injection Es as <- <-. apply (Kk 0 T false).
Qed.
(** refusals: an unknown name, a missing required one, a missing one of the alternative groups *)
Example C133_case_refused : forall w, snd (construct w GB [(S_ "vs", Ref A_); (S_ "L", Num 2); (S_ "beta", Num 1)]) = Err TypeError /\
  snd (construct w GB [(S_ "vs", Ref A_)]) = Err TypeError /\ snd (construct w PD [(S_ "vs", Num 3); (S_ "Va", Num 20)]) = Err ValueError /\
  plain PD [(S_ "vs", 3); (S_ "Va", 20)] = Err ValueError /\ exists o, snd (construct w PD [(S_ "coef", Ref A_)]) = Ok o.
Proof. intros w. split; [reflexivity|]. split; [reflexivity|]. split; [reflexivity|]. split; [reflexivity|]. exists {| o_cls := PD; o_direct := true; o_par := w_next w |}. reflexivity. Qed.
Print Assumptions C133_constructor.
Print Assumptions C133_numbers.
Print Assumptions C133_mechanism.
Print Assumptions C133_debye.
Print Assumptions C133_debye_constructor.
Print Assumptions C133_later.
Print Assumptions C133_step.
Print Assumptions C133_fit.
Print Assumptions C133_stale.
