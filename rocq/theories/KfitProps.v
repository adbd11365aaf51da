(** C95: building a model from the sections of a configuration. *)
From Coq Require Import Reals String Ascii.
From Verif Require Import Py PyStr PyDict Regex CfgModel CfgProofs ExecModel ScatModel KvarModel VarModel KvarSpec KvarProofs KfitModel KfitSpec KfitProofs.
Local Open Scope list_scope.
Local Open Scope nat_scope.

Section P.
(** Python's float, the variables of the file, the sections (the keys of a section are distinct) *)
Variable pyfloat : str -> res R.
Variable vd : list (str * entry).
Variable cfg : list (str * list (str * str)).
Hypothesis keys_distinct : forall n s, In (n, s) cfg -> NoDup (map fst s).
Notation parse := (parse_sub pyfloat vd cfg).

Lemma sect_wf name sect ty : pmatch cfg name = Ok (sect, ty) -> NoDup (map fst sect).
Proof. intros H. apply pmatch_ok in H. destruct H as (pre & n & post & E & _). apply (keys_distinct n). rewrite E. apply in_or_app. right. left. reflexivity. Qed.

(** ** what a successfully built object is: its tag is the name it was asked for by, its parameters are the entries of the section that its type knows,
    all required ones among them *)
Theorem C95_built : forall f name o, parse f name = Some (Ok o) ->
  exists sect ty args opts, pmatch cfg name = Ok (sect, ty) /\ dget execmeta ty = Some (args, opts) /\ o_tag o = name /\ o_type o = ty /\
  (forall k, dget (o_paras o) k <> None <-> In k (args ++ opts) /\ In k (map fst sect)) /\ (forall k, In k args -> In k (map fst sect)).
Proof.
  intros f name o H. destruct (parse_inv _ _ _ _ _ _ H) as [(e & _ & E)|[(sect & ty & _ & _ & E)|(sect & ty & args & opts & g & -> & P & D & [(e & _ & E)|(kw & E & Er)])]]; try discriminate.
  exists sect, ty, args, opts. split; [exact P|]. split; [exact D|]. assert (K := entries_keys _ _ _ _ _ E). assert (W : wf kw) by (unfold wf, dkeys; rewrite K; apply (sect_wf _ _ _ P)).
  destruct (execute_fresh (fun D => if accepts ty D then Some (Obj name ty D) else None) args opts kw W) as [(_ & E')|(A & Dd & WD & GD & E')]; assert (Er' := eq_trans Er E'); clear Er; rename Er' into Er; [discriminate|].
  destruct (accepts ty Dd); [|discriminate]. assert (o = Obj name ty Dd) by congruence. subst o. cbn [o_tag o_type o_paras]. split; [reflexivity|]. split; [reflexivity|].
  assert (Hk : forall k, dget kw k <> None <-> In k (map fst sect)) by (intros k; rewrite <- K; change (map fst kw) with (dkeys kw); rewrite dget_Some_In; destruct (dget kw k); split; [eauto|congruence|congruence|intros (v & Hv); congruence]).
  split.
  - intros k. rewrite GD. destruct (memb k (args ++ opts)) eqn:M.
    + apply memb_In in M. rewrite Hk. tauto.
    + split; [congruence|]. intros (Q & _). apply memb_In in Q. congruence.
  - intros k Hin. apply Hk, A, Hin.
Qed.

(** ** the parameters are read from their entries: a reference to a variable, a number, or else text as it stands *)
Theorem C95_values : forall f name o sect ty k text v, parse f name = Some (Ok o) -> pmatch cfg name = Ok (sect, ty) -> In (k, text) sect -> k <> S_ "components" ->
  dget (o_paras o) k = Some v ->
  (forall tag, refers text tag -> exists e, dget vd (match tag with [] => k | _ => tag end) = Some e /\ v = match e with Num x => VNum x | Ref t => VVar t end) /\
  ((forall tag, ~ refers text tag) -> v = match pyfloat text with Ok x => VNum x | Err _ => VText text end).
Proof.
  intros f name o sect ty k text v H P Hin Nk Gv. destruct (parse_inv _ _ _ _ _ _ H) as [(e & _ & E)|[(s & t & _ & _ & E)|(s & t & args & opts & g & -> & P' & D & [(e & _ & E)|(kw & E & Er)])]]; try discriminate.
  rewrite P in P'. assert (s = sect) by congruence. assert (t = ty) by congruence. subst s t. assert (K := entries_keys _ _ _ _ _ E). assert (Ns := sect_wf _ _ _ P). assert (W : wf kw) by (unfold wf, dkeys; rewrite K; exact Ns).
  destruct (execute_fresh (fun D => if accepts ty D then Some (Obj name ty D) else None) args opts kw W) as [(_ & E')|(A & Dd & WD & GD & E')]; assert (Er' := eq_trans Er E'); clear Er; rename Er' into Er; [discriminate|].
  destruct (accepts ty Dd); [|discriminate]. assert (o = Obj name ty Dd) by congruence. subst o. cbn [o_paras] in Gv. rewrite GD in Gv. destruct (memb k (args ++ opts)); [|discriminate].
  apply dget_In in Gv; [|exact W]. destruct (entries_in _ _ _ _ _ _ _ E Gv) as (text' & Ht & _ & Q).
  assert (text' = text). { apply (dget_In (K:=str) (V:=str)) in Hin; [|exact Ns]. apply (dget_In (K:=str) (V:=str)) in Ht; [|exact Ns]. congruence. } subst text'.
  destruct (eqb k (S_ "components")) eqn:Ek; [apply eqb_eq in Ek; contradiction|]. unfold plain in Q. split.
  - intros tag Rt. destruct (ref_yes _ _ Rt) as (c & Ec & Gc). rewrite Ec, Gc in Q. assert (Z : (match given tag with Some ((_ :: _) as t) => t | _ => k end) = match tag with [] => k | _ => tag end) by (destruct tag; reflexivity).
    change (match given tag with Some [] => k | Some (a :: l) => a :: l | None => k end) with (match given tag with Some ((_ :: _) as t) => t | _ => k end) in Q. rewrite Z in Q. destruct (dget vd (match tag with [] => k | _ => tag end)) as [e|]; [|discriminate].
    exists e. split; [reflexivity|]. unfold of_entry in Q. destruct e; congruence.
  - intros Nr. destruct (refmatch text) eqn:Er'; [exfalso; destruct (ref_no text) as (tag & Rt); [congruence|]; exact (Nr tag Rt)|]. destruct (pyfloat text); congruence.
Qed.
(** ** a component list builds each named component in turn *)
Theorem C95_components : forall f name o sect ty text v, parse f name = Some (Ok o) -> pmatch cfg name = Ok (sect, ty) -> In (S_ "components", text) sect ->
  dget (o_paras o) (S_ "components") = Some v ->
  exists os g, v = VObjs os /\ Forall2 (fun n c => parse g n = Some (Ok c)) (parse_list text) os /\ map o_tag os = parse_list text.
Proof.
  intros f name o sect ty text v H P Hin Gv. destruct (parse_inv _ _ _ _ _ _ H) as [(e & _ & E)|[(s & t & _ & _ & E)|(s & t & args & opts & g & -> & P' & D & [(e & _ & E)|(kw & E & Er)])]]; try discriminate.
  rewrite P in P'. assert (s = sect) by congruence. assert (t = ty) by congruence. subst s t. assert (K := entries_keys _ _ _ _ _ E). assert (Ns := sect_wf _ _ _ P). assert (W : wf kw) by (unfold wf, dkeys; rewrite K; exact Ns).
  destruct (execute_fresh (fun D => if accepts ty D then Some (Obj name ty D) else None) args opts kw W) as [(_ & E')|(A & Dd & WD & GD & E')]; assert (Er' := eq_trans Er E'); clear Er; rename Er' into Er; [discriminate|].
  destruct (accepts ty Dd); [|discriminate]. assert (o = Obj name ty Dd) by congruence. subst o. cbn [o_paras] in Gv. rewrite GD in Gv. destruct (memb (S_ "components") (args ++ opts)); [|discriminate].
  apply dget_In in Gv; [|exact W]. destruct (entries_in _ _ _ _ _ _ _ E Gv) as (text' & Ht & _ & Q).
  assert (text' = text). { apply (dget_In (K:=str) (V:=str)) in Hin; [|exact Ns]. apply (dget_In (K:=str) (V:=str)) in Ht; [|exact Ns]. congruence. } subst text'.
  rewrite eqb_refl in Q. destruct Q as (os & Q & ->). apply seq_res_ok in Q. exists os, g. split; [reflexivity|]. split; [exact Q|]. clear - Q keys_distinct.
  induction Q as [|n c l os Hc Q IH]; [reflexivity|]. cbn [map]. rewrite IH. f_equal. destruct (C95_built _ _ _ Hc) as (? & ? & ? & ? & _ & _ & T & _). exact T.
Qed.

(** ** failures *)
Theorem C95_failures : forall f name sect ty, 
  (forall e, pmatch cfg name = Err e -> parse (S f) name = Some (Err NoSectionError)) /\
  (pmatch cfg name = Ok (sect, ty) -> ~ In ty (map fst execmeta) -> parse (S f) name = Some (Err TypeError)) /\
  (forall args opts k, pmatch cfg name = Ok (sect, ty) -> dget execmeta ty = Some (args, opts) -> In k args -> ~ In k (map fst sect) -> forall o, parse f name <> Some (Ok o)) /\
  (forall k text, pmatch cfg name = Ok (sect, ty) -> In (k, text) sect -> spaces text -> forall o, parse f name <> Some (Ok o)) /\
  (forall k text tag, pmatch cfg name = Ok (sect, ty) -> In (k, text) sect -> k <> S_ "components" -> refers text tag -> dget vd (match tag with [] => k | _ => tag end) = None -> forall o, parse f name <> Some (Ok o)).
Proof.
  intros f name sect ty. split; [|split; [|split; [|split]]].
  - intros e H. cbn [parse_sub]. rewrite H. apply pmatch_err in H. destruct H as (-> & _). reflexivity.
  - intros P N. cbn [parse_sub]. rewrite P. assert (D : dget execmeta ty = None) by (apply dget_None; exact N). rewrite D. reflexivity.
  - intros args opts k P D Ha Hn o H. destruct (C95_built _ _ _ H) as (s & t & a & op & P' & D' & _ & _ & _ & R0). rewrite P in P'. assert (t = ty) by congruence. assert (s = sect) by congruence. subst. rewrite D in D'. assert (a = args) by congruence. subst. apply Hn, R0, Ha.
  - intros k text P Hin Hs o H. destruct (parse_inv _ _ _ _ _ _ H) as [(e & _ & E)|[(s & t & _ & _ & E)|(s & t & args & opts & g & -> & P' & D & [(e & _ & E)|(kw & E & Er)])]]; try discriminate.
    rewrite P in P'. assert (s = sect) by congruence. subst s. assert (K := entries_keys _ _ _ _ _ E). assert (Hk : In k (map fst kw)) by (rewrite K; apply (in_map fst) in Hin; exact Hin).
    apply in_map_iff in Hk. destruct Hk as ([k' v] & Ek & Hv). cbn in Ek. subst k'. destruct (entries_in _ _ _ _ _ _ _ E Hv) as (text' & Ht & B & _). assert (Ns := sect_wf _ _ _ P).
    assert (text' = text). { apply (dget_In (K:=str) (V:=str)) in Hin; [|exact Ns]. apply (dget_In (K:=str) (V:=str)) in Ht; [|exact Ns]. congruence. } subst text'. apply blank_iff in Hs. congruence.
  - intros k text tag P Hin Nk Rt G o H. destruct (parse_inv _ _ _ _ _ _ H) as [(e & _ & E)|[(s & t & _ & _ & E)|(s & t & args & opts & g & -> & P' & D & [(e & _ & E)|(kw & E & Er)])]]; try discriminate.
    rewrite P in P'. assert (s = sect) by congruence. subst s. assert (K := entries_keys _ _ _ _ _ E). assert (Hk : In k (map fst kw)) by (rewrite K; apply (in_map fst) in Hin; exact Hin).
    apply in_map_iff in Hk. destruct Hk as ([k' v] & Ek & Hv). cbn in Ek. subst k'. destruct (entries_in _ _ _ _ _ _ _ E Hv) as (text' & Ht & B & Q). assert (Ns := sect_wf _ _ _ P).
    assert (text' = text). { apply (dget_In (K:=str) (V:=str)) in Hin; [|exact Ns]. apply (dget_In (K:=str) (V:=str)) in Ht; [|exact Ns]. congruence. } subst text'.
    destruct (eqb k (S_ "components")) eqn:Ek'; [apply eqb_eq in Ek'; contradiction|]. unfold plain in Q. destruct (ref_yes _ _ Rt) as (c & Ec & Gc). rewrite Ec, Gc in Q. destruct tag; cbn [given] in Q; rewrite G in Q; discriminate.
Qed.

(** ** the first entry that is blank or refers to an undefined variable is reported as ValueError *)
Theorem C95_bad_entry : forall f name pre k text post ty, pmatch cfg name = Ok (pre ++ (k, text) :: post, ty) -> In ty (map fst execmeta) ->
  (forall k' t, In (k', t) pre -> k' <> S_ "components" /\ readable (map fst vd) k' t) ->
  (spaces text \/ (k <> S_ "components" /\ exists tag, refers text tag /\ dget vd (match tag with [] => k | _ => tag end) = None)) ->
  parse (S f) name = Some (Err ValueError).
Proof.
  intros f name pre k text post ty P T Hp Hb. cbn [parse_sub]. rewrite P. change (map fst execmeta) with (dkeys execmeta) in T. apply dget_Some_In in T. destruct T as ((args, opts) & ET). rewrite ET.
  rewrite (entries_bad pyfloat vd); [reflexivity|exact Hp|exact Hb].
Qed.
(** ** a section of any type but DEBYE succeeds once its required entries are there and every entry can be read *)
Theorem C95_succeeds : forall f name sect ty args opts, pmatch cfg name = Ok (sect, ty) -> dget execmeta ty = Some (args, opts) -> ty <> S_ "DEBYE" ->
  (forall k, In k args -> In k (map fst sect)) -> ~ In (S_ "components") (map fst sect) -> (forall k t, In (k, t) sect -> readable (map fst vd) k t) ->
  exists o, parse (S f) name = Some (Ok o).
Proof.
  intros f name sect ty args opts P D N A Nc Rd. cbn [parse_sub]. rewrite P, D.
  destruct (entries_succeed pyfloat vd (seq_res (parse f)) sect) as (kw & E); [intros k t H _; apply Rd; exact H|intros t H; exfalso; apply Nc; apply (in_map fst) in H; exact H|]. rewrite E.
  assert (K := entries_keys _ _ _ _ _ E). assert (W : wf kw) by (unfold wf, dkeys; rewrite K; apply (sect_wf _ _ _ P)).
  destruct (execute_fresh (fun D => if accepts ty D then Some (Obj name ty D) else None) args opts kw W) as [((k & Hk & Gk) & _)|(A' & Dd & WD & GD & E')].
  - exfalso. apply A in Hk. rewrite <- K in Hk. change (map fst kw) with (dkeys kw) in Hk. apply dget_Some_In in Hk. destruct Hk. congruence.
  - exists (Obj name ty Dd). f_equal. etransitivity; [exact E'|]. rewrite (accepts_ok ty args opts Dd D N); [reflexivity| |].
    + intros k Hk. rewrite GD. assert (M : memb k (args ++ opts) = true) by (apply memb_In, in_or_app; left; exact Hk). rewrite M. apply A', Hk.
    + intros k Hk. rewrite GD. destruct (memb k (args ++ opts)) eqn:M; [apply memb_In in M; contradiction|reflexivity].
Qed.
(** ** a DEBYE section whose entries and components can all be built succeeds exactly if no component is listed twice and one of them is a scattering
    mechanism; otherwise it is refused *)
Theorem C95_debye : forall f name sect text os, pmatch cfg name = Ok (sect, S_ "DEBYE") -> In (S_ "vs") (map fst sect) -> In (S_ "td") (map fst sect) ->
  In (S_ "components", text) sect -> ~ spaces text -> (forall k t, In (k, t) sect -> k <> S_ "components" -> readable (map fst vd) k t) ->
  Forall2 (fun n o => parse f n = Some (Ok o)) (parse_list text) os ->
  ((exists o, parse (S f) name = Some (Ok o)) <-> NoDup (parse_list text) /\ exists o, In o os /\ In (o_type o) scattering_types) /\
  ((~ exists o, parse (S f) name = Some (Ok o)) -> parse (S f) name = Some (Err RuntimeError)).
Proof.
  intros f name sect text os P Hv Ht Hc Nb Rd F. assert (Ns := sect_wf _ _ _ P).
  assert (Tags : map o_tag os = parse_list text). { clear - F keys_distinct. induction F as [|n c l os Hc F IH]; [reflexivity|]. cbn [map]. rewrite IH. f_equal. destruct (C95_built _ _ _ Hc) as (? & ? & ? & ? & _ & _ & T & _). exact T. }
  assert (Known : forall o, In o os -> In (o_type o) (map fst execmeta)).
  { clear - F keys_distinct. induction F as [|n c l os Hc F IH]; intros o Ho; [destruct Ho|]. destruct Ho as [->|Ho]; [|apply IH, Ho]. destruct (C95_built _ _ _ Hc) as (s & t & a & op & _ & D & _ & T & _). rewrite T. change (map fst execmeta) with (dkeys execmeta). apply dget_Some_In. eauto. }
  assert (Inj : forall o o', In o os -> In o' os -> o_tag o = o_tag o' -> o = o').
  { intros o o' Ho Ho' E. assert (Q : forall c, In c os -> parse f (o_tag c) = Some (Ok c)). { clear - F keys_distinct. induction F as [|n c l os Hc F IH]; intros o Ho; [destruct Ho|]. destruct Ho as [->|Ho]; [|apply IH, Ho]. destruct (C95_built _ _ _ Hc) as (? & ? & ? & ? & _ & _ & T & _). rewrite T. exact Hc. }
    assert (X := Q _ Ho). rewrite E, (Q _ Ho') in X. congruence. }
  destruct (entries_succeed pyfloat vd (seq_res (parse f)) sect) as (kw & E); [exact Rd| |].
  { intros t Hin. assert (t = text). { apply (dget_In (K:=str) (V:=str)) in Hin; [|exact Ns]. apply (dget_In (K:=str) (V:=str)) in Hc; [|exact Ns]. congruence. } subst t. split; [exact Nb|]. exists os. apply seq_res_ok. exact F. }
  assert (K := entries_keys _ _ _ _ _ E). assert (W : wf kw) by (unfold wf, dkeys; rewrite K; exact Ns).
  assert (Gc : dget kw (S_ "components") = Some (VObjs os)).
  { assert (Hk : In (S_ "components") (map fst kw)) by (rewrite K; apply (in_map fst) in Hc; exact Hc). change (map fst kw) with (dkeys kw) in Hk. apply dget_Some_In in Hk. destruct Hk as (v & Gv). assert (Gv' := Gv). apply dget_In in Gv'; [|exact W].
    destruct (entries_in _ _ _ _ _ _ _ E Gv') as (t' & Hin & _ & Q). assert (t' = text). { apply (dget_In (K:=str) (V:=str)) in Hin; [|exact Ns]. apply (dget_In (K:=str) (V:=str)) in Hc; [|exact Ns]. congruence. } subst t'.
    rewrite eqb_refl in Q. destruct Q as (os' & Q & ->). apply seq_res_ok in Q. assert (os' = os); [|subst; exact Gv]. clear - F Q. revert os' Q. induction F; intros os' Q; inversion Q; subst; [reflexivity|]. f_equal; [congruence|auto]. }
  assert (In' : forall k, In k (map fst sect) -> dget kw k <> None) by (intros k Hk; rewrite <- K in Hk; change (map fst kw) with (dkeys kw) in Hk; apply dget_Some_In in Hk; destruct Hk; congruence).
  destruct (execute_fresh (fun D => if accepts (S_ "DEBYE") D then Some (Obj name (S_ "DEBYE") D) else None) (names ["vs"; "td"; "components"]%string) [] kw W) as [((k & Hk & Gk) & _)|(A' & Dd & WD & GD & E')].
  { exfalso. cbn [names map In] in Hk. destruct Hk as [<-|[<-|[<-|[]]]]; [apply (In' _ Hv Gk)|apply (In' _ Ht Gk)|congruence]. }
  assert (Acc : accepts (S_ "DEBYE") Dd = true <-> NoDup (parse_list text) /\ exists o, In o os /\ In (o_type o) scattering_types).
  { rewrite (accepts_debye Dd os); [|intros k Hk; rewrite GD; destruct Hk as [<-|[<-|[]]]; [change (dget kw (S_ "vs") <> None); apply In', Hv|change (dget kw (S_ "td") <> None); apply In', Ht]|rewrite GD; exact Gc].
    rewrite (nodup_split os Inj), andb_true_iff, nodupb_iff, Tags. assert (X : negb (List.length (filter (fun o => negb (is_model (o_type o))) os) =? 0) = true <-> exists o, In o os /\ In (o_type o) scattering_types); [|rewrite X; reflexivity].
    rewrite negb_true_iff, Nat.eqb_neq. split.
    - intros L. destruct (filter (fun o => negb (is_model (o_type o))) os) as [|o l] eqn:Ef; [cbn in L; congruence|]. assert (Ho : In o (filter (fun o => negb (is_model (o_type o))) os)) by (rewrite Ef; left; reflexivity). apply filter_In in Ho. destruct Ho as (Ho & M).
      exists o. split; [exact Ho|]. apply (model_or_scattering _ (Known o Ho)). destruct (is_model (o_type o)); [discriminate|reflexivity].
    - intros (o & Ho & M) L. apply (model_or_scattering _ (Known o Ho)) in M. assert (Hf : In o (filter (fun o => negb (is_model (o_type o))) os)) by (apply filter_In; rewrite M; split; [exact Ho|reflexivity]). destruct (filter (fun o => negb (is_model (o_type o))) os); [exact Hf|discriminate L]. }
  assert (Ep : parse (S f) name = Some (if accepts (S_ "DEBYE") Dd then Ok (Obj name (S_ "DEBYE") Dd) else Err RuntimeError)).
  { cbn [parse_sub]. rewrite P. change (dget execmeta (S_ "DEBYE")) with (Some (names ["vs"; "td"; "components"]%string, @nil str)). rewrite E. f_equal. etransitivity; [exact E'|]. destruct (accepts (S_ "DEBYE") Dd); reflexivity. }
  rewrite Ep. destruct (accepts (S_ "DEBYE") Dd) eqn:Ea; split.
  - split; [intros _; apply Acc; reflexivity|intros _; eauto].
  - intros X. exfalso. apply X. eauto.
  - split; [intros (o & Ho); discriminate|intros X; apply Acc in X; discriminate].
  - intros _. reflexivity.
Qed.
(** ** sections that never lead back to themselves through their component lists are read in finitely many steps; *)
Theorem C95_ends : forall rank : str -> nat,
  (forall name sect ty text m, pmatch cfg name = Ok (sect, ty) -> In (S_ "components", text) sect -> In m (parse_list text) -> rank m < rank name) ->
  forall name, exists r, parse (S (rank name)) name = Some r.
Proof.
  intros rank H name. assert (G : forall n name, rank name <= n -> parse (S n) name <> None).
  { induction n as [|n IH]; intros nm Hn; cbn [parse_sub]; destruct (pmatch cfg nm) as [[sect ty]|] eqn:P; try discriminate; destruct (dget execmeta ty) as [[args opts]|]; try discriminate.
    - assert (X : entries pyfloat vd (seq_res (parse 0)) sect <> None). { apply entries_some. intros t Ht. apply seq_some. intros x Hx. exfalso. assert (Q := H _ _ _ _ _ P Ht Hx). lia. } change (parse 0) with (fun _ : str => @None (res obj)) in X. destruct (entries pyfloat vd _ sect) as [[|]|]; [intros Z; discriminate Z|intros Z; discriminate Z|exfalso; apply X; reflexivity].
    - assert (X : entries pyfloat vd (seq_res (parse (S n))) sect <> None). { apply entries_some. intros t Ht. apply seq_some. intros x Hx. apply IH. assert (Q := H _ _ _ _ _ P Ht Hx). lia. } cbn [parse_sub] in X. destruct (entries pyfloat vd _ sect) as [[|]|]; [intros Z; discriminate Z|intros Z; discriminate Z|exfalso; apply X; reflexivity]. }
  assert (X := G (rank name) name (le_n _)). destruct (parse (S (rank name)) name) as [r|]; [eauto|congruence].
Qed.
(** a section that leads back to itself is read without end: no number of steps suffices (in Python, a RecursionError) *)
Theorem C95_loops : forall C : str -> Prop,
  (forall name, C name -> exists pre text post ty a m b, pmatch cfg name = Ok (pre ++ (S_ "components", text) :: post, ty) /\ In ty (map fst execmeta) /\
     (forall k t, In (k, t) pre -> readable (map fst vd) k t) /\ ~ spaces text /\ parse_list text = a ++ m :: b /\ C m /\ (forall x f e, In x a -> parse f x <> Some (Err e))) ->
  forall f name, C name -> parse f name = None.
Proof.
  intros C H f. induction f as [|f IH]; intros name Hc; [reflexivity|]. destruct (H name Hc) as (pre & text & post & ty & a & m & b & P & K & Rd & Nb & El & Cm & Na).
  cbn [parse_sub]. rewrite P. change (map fst execmeta) with (dkeys execmeta) in K. apply dget_Some_In in K. destruct K as ([args opts] & ->).
  rewrite (entries_none pyfloat vd); [reflexivity| |exact Nb|].
  - intros k t Hin. split; [|apply Rd; exact Hin]. intros ->. assert (Ns := sect_wf _ _ _ P). rewrite map_app in Ns. cbn [map fst] in Ns. apply NoDup_remove_2 in Ns. apply Ns, in_or_app. left. apply (in_map fst) in Hin. exact Hin.
  - rewrite El. apply seq_none; [intros x Hx e; apply Na, Hx|apply IH, Cm].
Qed.
End P.
Print Assumptions C95_bad_entry.
Print Assumptions C95_built.
Print Assumptions C95_values.
Print Assumptions C95_components.
Print Assumptions C95_failures.
Print Assumptions C95_succeeds.
Print Assumptions C95_debye.
Print Assumptions C95_ends.
Print Assumptions C95_loops.
(** a configuration in which every theorem's premises are met: a Debye model of two mechanisms, one parameter to be fitted, one constant reference, one misspelt keyword *)
Definition case_cfg : list (str * list (str * str)) := [
  (S_ "M.DEBYE", [(S_ "vs", S_ "3"); (S_ "td", S_ "@"); (S_ "components", S_ "u, g")]);
  (S_ "u.PHX", [(S_ "coef", S_ "@ c")]);
  (S_ "g.GB", [(S_ "vs", S_ "3"); (S_ "L", S_ "long"); (S_ "alhpa", S_ "9")]);
  (S_ "x.DEBYE", [(S_ "vs", S_ "3"); (S_ "td", S_ "4"); (S_ "components", S_ "u x")]);
  (S_ "y.DEBYE", [(S_ "vs", S_ "3"); (S_ "td", S_ "4"); (S_ "components", S_ "u g u")])].
Definition case_float (s : str) : res R := if eqb s (S_ "3") then Ok 3%R else if eqb s (S_ "9") then Ok 9%R else Err ValueError.
Definition case_vd : list (str * entry) := [(S_ "td", Num 200%R); (S_ "c", Ref (S_ "c"))].
Example C95_case : parse_sub case_float case_vd case_cfg 2 (S_ "M") = Some (Ok (Obj (S_ "M") (S_ "DEBYE") [(S_ "vs", VNum 3); (S_ "td", VNum 200); (S_ "components",
  VObjs [Obj (S_ "u") (S_ "PHX") [(S_ "coef", VVar (S_ "c"))]; Obj (S_ "g") (S_ "GB") [(S_ "vs", VNum 3); (S_ "L", VText (S_ "long"))]])])) /\
  parse_sub case_float case_vd case_cfg 5 (S_ "x") = None /\ parse_sub case_float case_vd case_cfg 5 (S_ "y") = Some (Err RuntimeError) /\ parse_sub case_float case_vd case_cfg 5 (S_ "z") = Some (Err NoSectionError).
Proof. repeat split; lazy; reflexivity. Qed.
Example C95_case_keys : forall n s, In (n, s) case_cfg -> NoDup (map fst s).
Proof. intros n s H. apply nodupb_iff. cbn [case_cfg In] in H. repeat destruct H as [H|H]; try contradiction; assert (E := f_equal snd H); cbn [snd] in E; subst s; reflexivity. Qed.
Lemma spaces_no c t : is_space c = false -> ~ spaces (c :: t).
Proof. intros H Q. inversion Q. congruence. Qed.
Lemma nonref_readable vars k c t : is_space c = false -> c <> "@"%char -> readable vars k (c :: t).
Proof.
  intros H N. split; [apply spaces_no, H|]. intros tag (w0 & w1 & w2 & E & S0 & _). destruct w0 as [|d w0]; cbn in E; [exfalso; apply N; congruence|]. inversion S0. assert (d = c) by congruence. subst. congruence.
Qed.
Example C95_case_loops : forall f, parse_sub case_float case_vd case_cfg f (S_ "x") = None.
Proof.
  intros f. apply (C95_loops case_float case_vd case_cfg C95_case_keys (eq (S_ "x"))); [|reflexivity]. intros name <-.
  exists [(S_ "vs", S_ "3"); (S_ "td", S_ "4")], (S_ "u x"), [], (S_ "DEBYE"), [S_ "u"], (S_ "x"), []. split; [reflexivity|]. split; [left; reflexivity|].
  split; [intros k t [H|[H|[]]]; assert (E := f_equal snd H); cbn [snd] in E; subst t; apply nonref_readable; [reflexivity|discriminate|reflexivity|discriminate]|].
  split; [apply spaces_no; reflexivity|]. split; [reflexivity|]. split; [reflexivity|]. intros x [|f'] e [<-|[]]; [discriminate|]. lazy. discriminate.
Qed.
Example C95_case_succeeds : exists o, parse_sub case_float case_vd case_cfg 1 (S_ "g") = Some (Ok o).
Proof.
  apply (C95_succeeds case_float case_vd case_cfg C95_case_keys 0 (S_ "g") [(S_ "vs", S_ "3"); (S_ "L", S_ "long"); (S_ "alhpa", S_ "9")] (S_ "GB") (names ["vs"; "L"]%string) (names ["alpha"]%string)); try reflexivity; try discriminate.
  - intros k H. cbn in H |- *. tauto.
  - intros H. repeat destruct H as [H|H]; try discriminate H; exact H.
  - intros k t H. repeat destruct H as [H|H]; try contradiction; assert (E := f_equal snd H); cbn [snd] in E; subst t; apply nonref_readable; solve [reflexivity|discriminate].
Qed.
