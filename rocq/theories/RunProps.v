(** C116-C119: the band and kappa commands and the dispatch of commands. *)
From Coq Require Import ZArith Reals Lra String Ascii Permutation.
From Verif Require Import Py PyStr PyDict RUtil CfgSpec CfgModel DataModel SubsModel Regex RetainModel RetainSpec RetainProofs RetainProps ExecModel ExecSpec ExecProofs ExecProps KvarSpec InstrSpec TxtSpec TxtModel TxtProofs TxtProps FmtSpec CliSpec CliModel CliProofs CliProps MonoModel InterpModel ZtModel EngModel CmdSpec CmdModel CmdProofs CmdProps RunSpec RunModel RunProofs.
Local Open Scope list_scope.
Local Open Scope R_scope.

(** ** C116: band --modelling *)
(** what a valuation is called with *)
Definition fed (get : str -> option (list R)) (gap : option R) (D : dict str value) : Prop :=
  wf D
  /\ (forall q, In q quantities -> dget D (S_ "data" ++ q) = match get q with Some v => Some (Arr (map Rabs v)) | None => None end)
  /\ dget D (S_ "Eg") = match gap with Some g => Some (Num g) | None => None end
  /\ (forall k, k <> S_ "Eg" -> (forall q, In q quantities -> k <> S_ "data" ++ q) -> dget D k = None).
Definition only_gap (m : model) (gap : option R) : option R := match m with SKB => gap | _ => None end.
Lemma dget_renamed {V W} (f : str -> str) (g : V -> W) : (forall a b, f a = f b -> a = b) -> forall (d : dict str V) q, dget (map (fun kv => (f (fst kv), g (snd kv))) d) (f q) = match dget d q with Some v => Some (g v) | None => None end.
Proof.
  intros Hf d q. induction d as [|[k v] d IH]; [reflexivity|]. cbn [map dget fst snd]. rewrite IH. destruct (eqb q k) eqn:E.
  - apply eqb_eq in E. subst. rewrite eqb_refl. reflexivity.
  - apply eqb_neq in E. destruct (eqb (f q) (f k)) eqn:F; [|reflexivity]. apply eqb_eq, Hf in F. congruence.
Qed.
Section Band.
Variables (stamp : str) (valuate : model -> dict str value -> option (dict str (list R))) (visit : dict str (list R) -> list str -> list str) (num4 : R -> str).
Notation run := (run_call stamp valuate visit num4).
Notation past := (after_calls stamp valuate visit num4).

Theorem C116_gap : forall ws fs c, c_model c = SKB ->
  (c_gap c = None -> run ws fs c = (ws, (fs, Err RuntimeError))) /\ (forall g, c_gap c = Some g -> g <= 0 -> run ws fs c = (ws, (fs, Err ValueError))).
Proof.
  intros ws fs c Hm. unfold run_call, modelling. rewrite Hm. split.
  - intros ->. reflexivity.
  - intros g -> Hg. destruct (Rle_dec g 0) as [_|N]; [reflexivity|contradiction].
Qed.

Definition kws (get : str -> option (list R)) : dict str value := map (fun kv => (dname (fst kv), Arr (map Rabs (snd kv)))) (inputs get).
Lemma kws_get_data get q : In q quantities -> dget (kws get) (S_ "data" ++ q) = match get q with Some v => Some (Arr (map Rabs v)) | None => None end.
Proof.
  intros Hq. unfold kws. rewrite inputs_columns. refine (eq_trans (dget_renamed dname (fun v => Arr (map Rabs v)) (fun a b => app_inv_head (S_ "data") a b) _ q) _).
  destruct (get q) as [v|] eqn:E.
  - assert (X : dget (columns_of get quantities) q = Some v) by (apply columns_get; auto). rewrite X. reflexivity.
  - destruct (dget (columns_of get quantities) q) as [v|] eqn:X; [|reflexivity]. apply columns_get in X as (_ & X). congruence.
Qed.
Lemma kws_get_other get k : (forall q, In q quantities -> k <> S_ "data" ++ q) -> dget (kws get) k = None.
Proof.
  intros H. apply dget_None. unfold kws, dkeys. rewrite map_map. cbn [fst]. intros Hi. apply in_map_iff in Hi as ((q & v) & Hk & Hi). cbn [fst] in Hk. rewrite inputs_columns in Hi. apply (in_map fst) in Hi. cbn [fst] in Hi. assert (Q := columns_keys get quantities). unfold dkeys in Q. rewrite Q in Hi. apply filter_In in Hi as (Hi & _). exact (H q Hi (eq_sym Hk)).
Qed.
Lemma kws_wf get : wf (kws get).
Proof.
  unfold wf, kws, dkeys. rewrite map_map. cbn [fst]. rewrite inputs_columns. pose proof (columns_wf get) as W. unfold wf, dkeys in W. rewrite <- (map_map fst dname). apply FinFun.Injective_map_NoDup; [|exact W]. intros a b E. exact (app_inv_head _ _ _ E).
Qed.
Lemma Eg_not_data q : S_ "Eg" <> S_ "data" ++ q. Proof. discriminate. Qed.

(** the wrapper used by a command, and its history *)
Lemma wrapper_of h c get : (c_model c = SKB -> exists g, c_gap c = Some g /\ 0 < g) -> c_data c = Ok get ->
  exists ops ws', Forall gap_ops ops /\ latest ops (S_ "Eg") = match only_gap (c_model c) (c_gap c) with Some g => Some (Num g) | None => None end
  /\ forall fs, run (past h) fs c = (ws', save fs (suffixed (c_output c) (c_input c) (c_suffix c) None)
       (let! out := snd (execute (valuate (c_model c)) (after (required (c_model c)) (optional (c_model c)) ops) (kws get)) in
        let! out := match c_props c with
                    | None => Ok out
                    | Some t => match retain (visit out (words t)) out (RetainModel.Seq (words t)) true with (d, Ok _) => Ok d | (_, Err e) => Err e end
                    end in
        dict_text num4 stamp (c_bare c) (c_headers c) (S_ "Modeling carrier transport") (if c_bare c then out else with_inputs out (inputs get)))).
Proof.
  intros Hg Hd. destruct (calls_after stamp valuate visit num4 h (c_model c)) as (ops & A & B & E). unfold run_call, modelling. rewrite Hd. destruct (c_model c) eqn:Em.
  1,2: exists ops; eexists; split; [exact A|]; split; [rewrite (B ltac:(discriminate)); reflexivity|]; intros fs; cbv beta iota delta [rbind only_gap]; rewrite E; reflexivity.
  destruct (Hg eq_refl) as (g & Eg & Pg). rewrite Eg. destruct (Rle_dec g 0) as [N|_]; [exfalso; lra|]. exists (ops ++ [Update [(S_ "Eg", Num g)]]). eexists. split; [apply Forall_app; split; [exact A|constructor; [exists g; reflexivity|constructor]]|]. split; [rewrite latest_snoc; reflexivity|]. intros fs. cbv beta iota delta [rbind only_gap]. rewrite after_snoc, <- E. reflexivity.
Qed.
Lemma names_of m k : memb k (required m ++ optional m) = true -> In k (map (app (S_ "data")) quantities) \/ k = S_ "Eg" \/ In k [S_ "hall"; S_ "Kmass"; S_ "delta"].
Proof. intros H. apply memb_In in H. destruct m; cbn in H; cbn; intuition (subst; auto 20). Qed.
Lemma data_names m q : In q quantities -> memb (S_ "data" ++ q) (required m ++ optional m) = true.
Proof. intros H. cbn in H. destruct m; repeat destruct H as [<-|H]; try contradiction; reflexivity. Qed.

Theorem C116_missing : forall h fs c get, (c_model c = SKB -> exists g, c_gap c = Some g /\ 0 < g) -> c_data c = Ok get ->
  get (S_ "S") = None \/ (c_model c = SKB /\ get (S_ "T") = None) -> snd (run (past h) fs c) = (fs, Err ValueError).
Proof.
  intros h fs c get Hg Hd Hm. destruct (wrapper_of h c get Hg Hd) as (ops & ws' & A & L & E). rewrite E. cbn [snd].
  rewrite (C05_execute_missing _ _ _ _ (valuate (c_model c)) (required (c_model c)) (optional (c_model c)) ops (kws get) (gap_ok _ A) (kws_wf get)); [reflexivity|].
  assert (G : forall q, In q quantities -> get q = None -> effective ops (kws get) (S_ "data" ++ q) = None). { intros q Hq Hn. unfold effective. rewrite kws_get_data by exact Hq. rewrite Hn. apply gap_latest; [exact A|discriminate]. }
  destruct Hm as [Hs|(Hk & Ht)].
  - exists (S_ "data" ++ S_ "S"). split; [destruct (c_model c); left; reflexivity|]. apply G; [left; reflexivity|exact Hs].
  - exists (S_ "data" ++ S_ "T"). rewrite Hk. split; [right; left; reflexivity|]. apply G; [right; left; reflexivity|exact Ht].
Qed.
Theorem C116_unread : forall ws fs c e, (c_model c = SKB -> exists g, c_gap c = Some g /\ 0 < g) -> c_data c = Err e -> snd (run ws fs c) = (fs, Err e).
Proof.
  intros ws fs c e Hg Hd. unfold run_call, modelling. rewrite Hd. destruct (c_model c); [reflexivity|reflexivity|]. destruct (Hg eq_refl) as (g & -> & Pg). destruct (Rle_dec g 0); [exfalso; lra|reflexivity].
Qed.

(** the results kept by -p *)
Definition kept_by (properties : option str) (results kept : dict str (list R)) : Prop :=
  match properties with
  | None => kept = results
  | Some t => exists listed, tokens is_space t listed /\ (forall k v, In (k, v) kept <-> In (k, v) results /\ In k listed) /\ ordered_like listed kept /\ wf kept
  end.
Hypothesis Hstamp : stamp <> [] /\ one_line stamp.
Hypothesis Hvisit : forall d l, wf d -> set_difference_order (visit d l) d l.
Hypothesis Hresult : forall m D r, valuate m D = Some r -> wf r /\ Forall one_line (dkeys r).
Lemma retained t results : wf results -> exists kept popped, retain (visit results (words t)) results (RetainModel.Seq (words t)) true = (kept, Ok popped) /\ kept_by (Some t) results kept.
Proof.
  intros W. destruct (C02_retain_match_order _ _ _ (visit results (words t)) results (words t) W (Hvisit _ _ W)) as (kept & popped & E & P & E2 & I & O). exists kept, popped. split; [exact E|]. exists (words t). split; [apply words_iff; reflexivity|]. split; [exact I|]. split; [exact O|].
  destruct (C01_retain_keeps_listed_in_order _ _ _ (visit results (words t)) results (RetainModel.Seq (words t)) W ltac:(discriminate) (Hvisit _ _ W)) as (d2 & p2 & F & _ & _ & _ & W2 & _). rewrite F in P. unfold wf, dkeys.
  exact (Permutation_NoDup (Permutation_map fst (Permutation_sym P)) W2).
Qed.
Lemma dict_text_ok bare headers title (d : dict str (list R)) n : one_line title -> Forall one_line (dkeys d) -> d <> [] -> Forall (fun kv => List.length (snd kv) = n) d ->
  exists rows, by_columns n (map snd d) rows /\ dict_text num4 stamp bare headers title d = Ok (file_text num4 stamp bare headers title (map fst d) rows).
Proof.
  clear Hvisit Hresult. intros Ht Hl N Hn. destruct (to_rows_ok (map snd d) n) as (rows & E & B).
  - destruct d; [congruence|discriminate].
  - apply Forall_forall. intros c Hc. apply in_map_iff in Hc as (kv & <- & Hi). rewrite Forall_forall in Hn. apply Hn, Hi.
  - exists rows. split; [exact B|]. unfold dict_text. rewrite E. cbv beta iota delta [rbind]. f_equal. apply to_file_text; [apply Hstamp|apply Hstamp|exact Ht|exact Hl].
Qed.
Lemma dict_text_bad bare headers title (d : dict str (list R)) : d = [] \/ (exists a b, In a d /\ In b d /\ List.length (snd a) <> List.length (snd b)) -> dict_text num4 stamp bare headers title d = Err ValueError.
Proof.
  clear Hvisit Hresult Hstamp. intros [->|(a & b & Ha & Hb & Hn)]; [reflexivity|]. unfold dict_text. rewrite (to_rows_ragged _ (snd a) (snd b)); [reflexivity|apply in_map, Ha|apply in_map, Hb|exact Hn].
Qed.
Theorem C116_result : forall h fs c get, (c_model c = SKB -> exists g, c_gap c = Some g /\ 0 < g) -> c_data c = Ok get ->
  get (S_ "S") <> None -> (c_model c = SKB -> get (S_ "T") <> None) ->
  exists D, fed get (only_gap (c_model c) (c_gap c)) D
  /\ match valuate (c_model c) D with
     | None => snd (run (past h) fs c) = (fs, Err RuntimeError)
     | Some results => exists kept, kept_by (c_props c) results kept
         /\ let cols := if c_bare c then kept else columns_of get quantities ++ filter (fun kv => match dget (columns_of get quantities) (fst kv) with Some _ => false | None => true end) kept in
            let out := suffixed (c_output c) (c_input c) (c_suffix c) None in
            (forall n, cols <> [] -> Forall (fun kv => List.length (snd kv) = n) cols ->
               exists fs' rows, snd (run (past h) fs c) = (fs', Ok tt) /\ by_columns n (map snd cols) rows
               /\ fs' out = Some (file_text num4 stamp (c_bare c) (c_headers c) (S_ "Modeling carrier transport") (map fst cols) rows) /\ same_except fs fs' out)
            /\ (cols = [] \/ (exists a b, In a cols /\ In b cols /\ List.length (snd a) <> List.length (snd b)) -> snd (run (past h) fs c) = (fs, Err ValueError))
     end.
Proof.
  intros h fs c get Hg Hd Hs Ht. destruct (wrapper_of h c get Hg Hd) as (ops & ws' & A & L & E).
  assert (G : forall q, In q quantities -> effective ops (kws get) (S_ "data" ++ q) = match get q with Some v => Some (Arr (map Rabs v)) | None => None end). { intros q Hq. unfold effective. rewrite kws_get_data by exact Hq. destruct (get q); [reflexivity|]. apply gap_latest; [exact A|discriminate]. }
  destruct (C05_execute _ _ _ _ (valuate (c_model c)) (required (c_model c)) (optional (c_model c)) ops (kws get) (gap_ok _ A) (kws_wf get)) as (D & W & DG & X).
  { intros k Hk. assert (C : k = S_ "data" ++ S_ "S" \/ (c_model c = SKB /\ k = S_ "data" ++ S_ "T")). { clear -Hk. destruct (c_model c); cbn in Hk; intuition. }
    destruct C as [->|(Hm & ->)]; rewrite G by (cbn; auto).
    - destruct (get (S_ "S")); [discriminate|congruence].
    - specialize (Ht Hm). destruct (get (S_ "T")); [discriminate|congruence]. }
  exists D. split.
  { split; [exact W|]. split; [|split].
    - intros q Hq. rewrite DG, data_names by exact Hq. apply G, Hq.
    - rewrite DG. unfold effective. rewrite (kws_get_other get (S_ "Eg")) by (intros; apply Eg_not_data). rewrite L. destruct (c_model c); reflexivity.
    - intros k Hk Hn. rewrite DG. destruct (memb k _); [|reflexivity]. unfold effective. rewrite kws_get_other by exact Hn. apply gap_latest; assumption. }
  rewrite E, X. cbn [snd]. destruct (valuate (c_model c) D) as [results|] eqn:V; [|reflexivity]. cbv beta iota delta [rbind]. destruct (Hresult _ _ _ V) as (Wr & Or).
  assert (K : exists kept, kept_by (c_props c) results kept /\ wf kept /\ Forall one_line (dkeys kept) /\
     match c_props c with None => Ok results | Some t => match retain (visit results (words t)) results (RetainModel.Seq (words t)) true with (d, Ok _) => Ok d | (_, Err e) => Err e end end = Ok kept).
  { destruct (c_props c) as [t|]; [|exists results; repeat split; assumption]. destruct (retained t results Wr) as (kept & popped & R1 & K). exists kept. split; [exact K|]. destruct K as (listed & _ & I & _ & Wk). split; [exact Wk|]. split; [|rewrite R1; reflexivity].
    apply Forall_forall. intros k Hk. apply in_map_iff in Hk as ((k' & v) & <- & Hi). apply I in Hi as (Hi & _). rewrite Forall_forall in Or. apply Or. exact (in_map fst _ _ Hi). }
  destruct K as (kept & Kb & Wk & Ok_ & K). exists kept. split; [exact Kb|]. unfold rbind in K. rewrite K. clear K.
  set (out := suffixed (c_output c) (c_input c) (c_suffix c) None). set (cols := if c_bare c then kept else columns_of get quantities ++ filter (fun kv => match dget (columns_of get quantities) (fst kv) with Some _ => false | None => true end) kept).
  assert (Ec : (if c_bare c then kept else with_inputs kept (inputs get)) = cols).
  { unfold cols. destruct (c_bare c); [reflexivity|]. rewrite with_inputs_eq by exact Wk. f_equal. apply filter_ext. intros [k v]. cbn [fst]. destruct (dget (columns_of get quantities) k) as [x|] eqn:Q.
    - apply columns_get in Q as (Hq & Q). assert (M : memb k (filter (present get) quantities) = true) by (apply memb_In, filter_In; split; [exact Hq|unfold present; rewrite Q; reflexivity]). rewrite M. reflexivity.
    - apply dget_None in Q. assert (M : memb k (filter (present get) quantities) = false) by (apply memb_nIn; rewrite <- columns_keys; exact Q). rewrite M. reflexivity. }
  rewrite Ec. assert (Oc : Forall one_line (dkeys cols)).
  { unfold cols. destruct (c_bare c); [exact Ok_|]. apply Forall_forall. intros k Hk. unfold dkeys in Hk. rewrite map_app in Hk. apply in_app_or in Hk as [Hk|Hk].
    - assert (Q := columns_keys get quantities). unfold dkeys in Q. rewrite Q in Hk. apply filter_In in Hk as (Hk & _). cbn in Hk. clear -Hk. repeat destruct Hk as [<-|Hk]; try contradiction; intros [H|[]]; discriminate.
    - apply in_map_iff in Hk as (kv & <- & Hi). apply filter_In in Hi as (Hi & _). rewrite Forall_forall in Ok_. apply Ok_. exact (in_map fst _ _ Hi). }
  clearbody cols. split.
  - intros n N Hn. destruct (dict_text_ok (c_bare c) (c_headers c) (S_ "Modeling carrier transport") cols n) as (rows & B & T); [intros H; cbn in H; repeat destruct H as [H|H]; try discriminate; contradiction|exact Oc|exact N|exact Hn|].
    rewrite T. do 2 eexists. split; [reflexivity|]. split; [exact B|]. split; [apply write_same|apply write_other].
  - intros Hb. rewrite (dict_text_bad _ _ _ _ Hb). reflexivity.
Qed.
End Band.
Print Assumptions C116_gap.
Print Assumptions C116_missing.
Print Assumptions C116_unread.
Print Assumptions C116_result.
(** Seebeck coefficients of both signs and temperatures, the model SPB, -p "Lor UWT none" *)
Definition band_case : call :=
  {| c_model := SPB; c_gap := None; c_data := Ok (fun q => if eqb q (S_ "S") then Some [100; - (50)] else if eqb q (S_ "T") then Some [300; 400] else None); c_props := Some (S_ "Lor UWT none");
     c_bare := false; c_headers := true; c_input := S_ "a.dat"; c_output := None; c_suffix := S_ "band" |}.
Definition results_case : dict str (list R) := [(S_ "UWT", [1; 2]); (S_ "U", [3; 4]); (S_ "Lor", [5; 6])].
Example C116_case : forall num : R -> str,
  let valuate (m : model) (D : dict str value) := if dmem D (S_ "dataS") then Some results_case else None in
  let visit (d : dict str (list R)) (l : list str) := filter (fun k => negb (memb k l)) (dkeys d) in
  (forall d l, wf d -> set_difference_order (visit d l) d l) /\ (forall m D r, valuate m D = Some r -> wf r /\ Forall one_line (dkeys r))
  /\ fst (snd (run_call (S_ "now") valuate visit num fresh (fun _ => None) band_case)) (S_ "a_band.dat")
     = Some (text_of [S_ "S  T  Lor  UWT"; number_line num [100; 300; 5; 1]; number_line num [- (50); 400; 6; 2]]).
Proof.
  intros num. cbn zeta. split; [|split].
  - intros d l W. split; [apply NoDup_filter, W|]. intros k. rewrite filter_In, negb_true_iff, memb_nIn. tauto.
  - intros m D r. destruct (dmem D _); [|discriminate]. intros [= <-]. split; [repeat constructor; cbn; intuition discriminate|]. repeat constructor; intros H; cbn in H; intuition discriminate.
  - assert (E : fst (snd (run_call (S_ "now") (fun (m : model) (D : dict str value) => if dmem D (S_ "dataS") then Some results_case else None) (fun (d : dict str (list R)) (l : list str) => filter (fun k => negb (memb k l)) (dkeys d)) num fresh (fun _ => None) band_case)) (S_ "a_band.dat")
      = Some (to_file num (S_ "now") false true (S_ "Modeling carrier transport") [S_ "S"; S_ "T"; S_ "Lor"; S_ "UWT"] [[100; 300; 5; 1]; [- (50); 400; 6; 2]])) by reflexivity.
    rewrite E. f_equal. apply C113_headers; [discriminate|intros H; cbn in H; intuition discriminate|intros H; cbn in H; intuition discriminate|]. repeat constructor; intros H; cbn in H; intuition discriminate.
Qed.

(** ** C117: band simulations *)
Lemma distinct_columns {V} (f : str -> V) props : forall names, dupdate (map (fun p => (p, f p)) names) (map (fun p => (p, f p)) props) = map (fun p => (p, f p)) (names ++ filter (fun p => negb (memb p names)) (firsts props)).
Proof.
  induction props as [|a r IH]; intros names; [cbn; rewrite app_nil_r; reflexivity|].
  assert (Step : dupdate (map (fun p => (p, f p)) names) (map (fun p => (p, f p)) (a :: r)) = dupdate (dset (map (fun p => (p, f p)) names) a (f a)) (map (fun p => (p, f p)) r)) by reflexivity. rewrite Step. clear Step.
  assert (Ks : dkeys (map (fun p => (p, f p)) names) = names) by (unfold dkeys; rewrite map_map; apply map_id).
  destruct (memb a names) eqn:E.
  - assert (Q : dset (map (fun p => (p, f p)) names) a (f a) = map (fun p => (p, f p)) names).
    { apply memb_In in E. clear -E. induction names as [|b l IH]; [destruct E|]. cbn [map dset]. destruct (eqb a b) eqn:F; [apply eqb_eq in F; subst; reflexivity|]. apply eqb_neq in F. destruct E as [E|E]; [congruence|]. rewrite (IH E). reflexivity. }
    rewrite Q, IH. f_equal. f_equal. cbn [firsts filter]. rewrite E. cbn [negb]. rewrite filter_filter. apply filter_ext. intros b. destruct (eqb b a) eqn:F; cbn [negb]; [apply eqb_eq in F; subst; rewrite E; reflexivity|rewrite ?andb_true_r; reflexivity].
  - assert (Q : dset (map (fun p => (p, f p)) names) a (f a) = map (fun p => (p, f p)) (names ++ [a])). { rewrite dset_keys_notin; [rewrite map_app; reflexivity|]. rewrite Ks. apply memb_nIn, E. }
    rewrite Q, IH. f_equal. rewrite <- app_assoc. f_equal. cbn [firsts filter app]. rewrite E. cbn [negb]. f_equal. rewrite filter_filter. apply filter_ext. intros b. unfold memb. rewrite existsb_app. cbn [existsb]. rewrite orb_false_r, negb_orb. apply andb_comm.
Qed.
Lemma distinct_columns0 {V} (f : str -> V) props : dupdate [] (map (fun p => (p, f p)) props) = map (fun p => (p, f p)) (firsts props).
Proof. refine (eq_trans (distinct_columns f props []) _). cbn [app]. f_equal. apply filter_true. intros; reflexivity. Qed.
Lemma firsts_in l k : In k (firsts l) -> In k l.
Proof. induction l as [|a l IH]; [intros []|]. intros [<-|H]; [left; reflexivity|]. apply filter_In in H as (H & _). right. apply IH, H. Qed.

Section Simulation.
Variables (stamp : str) (num6e : R -> str).
Hypothesis Hstamp : stamp <> [] /\ one_line stamp.
Theorem C117_result : forall fs parse given input output suffix bare headers,
  let out := suffixed output input suffix (Some (S_ ".txt")) in
  let result := do_simulation stamp num6e fs parse given input output suffix bare headers in
  exists settings, wf settings /\ (forall k, dget settings k = given_last given k)
  /\ match parse settings with
     | Err e => result = (fs, Err e)
     | Ok (_, None) => result = (fs, Err RuntimeError)
     | Ok (model, Some props) =>
         (forall p, In p props -> (exists e, model p = Err e) -> exists q e, In q props /\ model q = Err e /\ result = (fs, Err e))
         /\ forall value, (forall p, In p props -> one_line p /\ model p = Ok (value p)) ->
            (forall n, props <> [] -> (forall p, In p props -> List.length (value p) = n) ->
               exists fs' rows, result = (fs', Ok tt) /\ by_columns n (map value (firsts props)) rows
               /\ fs' out = Some (file_text num6e stamp bare headers (S_ "Simulating carrier transport") (firsts props) rows) /\ same_except fs fs' out)
            /\ (props = [] \/ (exists p q, In p props /\ In q props /\ List.length (value p) <> List.length (value q)) -> result = (fs, Err ValueError))
     end.
Proof.
  intros fs parse given input output suffix bare headers out result. exists (stored given). split; [apply stored_wf|]. split; [intros k; apply stored_get|]. unfold result, do_simulation. clear result.
  unfold simulation. destruct (parse (stored given)) as [[model [props|]]|e]; [|reflexivity|reflexivity]. cbv beta iota delta [rbind]. cbn [fst snd].
  change (fun p : str => match model p with Ok a => Ok (p, a) | Err e => Err e end) with (fun p : str => let! v := model p in Ok (p, v)). set (cell := fun p : str => let! v := model p in Ok (p, v)). split.
  - intros p Hp He. assert (G : exists q e, In q props /\ model q = Err e /\ mapM cell props = Err e).
    { induction props as [|a r IH]; [destruct Hp|]. cbn [mapM]. unfold cell at 1. destruct (model a) as [v|e] eqn:Ea.
      - destruct Hp as [->|Hp]; [destruct He as (e & He); congruence|]. destruct (IH Hp) as (q & e & Hq & Hm & Hr). exists q, e. split; [right; exact Hq|]. split; [exact Hm|]. cbv beta iota delta [rbind]. cbv beta iota delta [rbind] in Hr. rewrite Hr. reflexivity.
      - exists a, e. split; [left; reflexivity|]. split; [exact Ea|reflexivity]. }
    destruct G as (q & e & Hq & Hm & Hr). exists q, e. rewrite Hr. auto.
  - intros value Hv. assert (G : mapM cell props = Ok (map (fun p => (p, value p)) props)).
    { clear out. induction props as [|a r IH]; [reflexivity|]. cbn [mapM map]. unfold cell at 1. rewrite (proj2 (Hv a (or_introl eq_refl))). cbv beta iota delta [rbind]. cbv beta iota delta [rbind] in IH. rewrite IH; [reflexivity|]. intros p Hp. apply Hv. right. exact Hp. }
    rewrite G, distinct_columns0. assert (F1 : map fst (map (fun p => (p, value p)) (firsts props)) = firsts props) by (rewrite map_map; apply map_id). assert (F2 : map snd (map (fun p => (p, value p)) (firsts props)) = map value (firsts props)) by (rewrite map_map; reflexivity). split.
    + intros n N Hn. destruct (dict_text_ok stamp num6e Hstamp bare headers (S_ "Simulating carrier transport") (map (fun p => (p, value p)) (firsts props)) n) as (rows & B & T).
      * intros H. cbn in H. intuition discriminate.
      * unfold dkeys. rewrite F1. apply Forall_forall. intros k Hk. apply firsts_in in Hk. apply (Hv k Hk).
      * destruct props; [congruence|discriminate].
      * apply Forall_forall. intros kv Hi. apply in_map_iff in Hi as (k & <- & Hk). apply firsts_in in Hk. exact (Hn k Hk).
      * rewrite T, F1. rewrite F2 in B. do 2 eexists. split; [reflexivity|]. split; [exact B|]. split; [apply write_same|apply write_other].
    + intros Hb. rewrite dict_text_bad; [reflexivity|]. destruct Hb as [->|(p & q & Hp & Hq & Hn)]; [left; reflexivity|]. right. exists (p, value p), (q, value q).
      assert (I : forall k l, In k l -> In k (firsts l)). { clear. intros k l. induction l as [|a l IH]; [intros []|]. intros [->|H]; [left; reflexivity|]. cbn [firsts]. destruct (eqb k a) eqn:E; [apply eqb_eq in E; subst; left; reflexivity|]. right. apply filter_In. split; [apply IH, H|rewrite E; reflexivity]. }
      split; [apply in_map_iff; exists p; split; [reflexivity|apply I, Hp]|]. split; [apply in_map_iff; exists q; split; [reflexivity|apply I, Hq]|exact Hn].
Qed.
End Simulation.
Print Assumptions C117_result.
Example C117_case : forall num : R -> str,
  given_last [(S_ "T", S_ "300"); (S_ "EF", S_ "0"); (S_ "T", S_ "400")] (S_ "T") = Some (S_ "400") /\ firsts [S_ "S"; S_ "C"; S_ "S"; S_ "K"; S_ "C"] = [S_ "S"; S_ "C"; S_ "K"]
  /\ fst (do_simulation (S_ "now") num (fun _ => None) (fun s => Ok (fun p => Ok (if eqb p (S_ "S") then [1; 2] else [3; 4]), match dget s (S_ "T") with Some _ => Some [S_ "S"; S_ "C"; S_ "S"] | None => None end))
       [(S_ "T", S_ "300")] (S_ "m.cfg") None (S_ "band") true false) (S_ "m_band.txt") = Some (text_of [number_line num [1; 3]; number_line num [2; 4]]).
Proof.
  intros num. split; [reflexivity|]. split; [reflexivity|].
  assert (E : fst (do_simulation (S_ "now") num (fun _ => None) (fun s => Ok (fun p => Ok (if eqb p (S_ "S") then [1; 2] else [3; 4]), match dget s (S_ "T") with Some _ => Some [S_ "S"; S_ "C"; S_ "S"] | None => None end))
       [(S_ "T", S_ "300")] (S_ "m.cfg") None (S_ "band") true false) (S_ "m_band.txt") = Some (to_file num (S_ "now") true false (S_ "Simulating carrier transport") [S_ "S"; S_ "C"] [[1; 3]; [2; 4]])) by reflexivity.
  rewrite E, C113_bare. reflexivity.
Qed.

(** ** C118: the kappa command *)
Lemma switches_false d k : dget (fold_left (fun d k => dset d k (S_ "false")) [S_ "splitkappa"; S_ "scattering"; S_ "spectral"; S_ "cumulate"] d) k
  = if existsb (eqb k) [S_ "splitkappa"; S_ "scattering"; S_ "spectral"; S_ "cumulate"] then Some (S_ "false") else dget d k.
Proof.
  cbn [fold_left]. rewrite !dget_dset. cbn [existsb]. destruct (eqb k (S_ "splitkappa")), (eqb k (S_ "scattering")), (eqb k (S_ "spectral")), (eqb k (S_ "cumulate")); reflexivity.
Qed.
Lemma settings_wf given so q : wf (kappa_settings given so q).
Proof.
  unfold kappa_settings. assert (W : wf (if so then dset (stored given) (S_ "substituted") (S_ "true") else stored given)) by (destruct so; [apply dset_wf|]; apply stored_wf).
  destruct q; [|exact W]. cbn [fold_left]. repeat apply dset_wf. exact W.
Qed.
Lemma settings_get (entry : dict str str) given so q k : wf entry -> dget (dupdate entry (kappa_settings given so q)) k = kappa_setting (dget entry) given so q k.
Proof.
  intros We. rewrite dget_dupdate, last_val_wf by apply settings_wf. unfold kappa_settings, kappa_setting. cbv zeta.
  assert (A : dget (if so then dset (stored given) (S_ "substituted") (S_ "true") else stored given) k = if (so && eqb k (S_ "substituted"))%bool then Some (S_ "true") else given_last given k). { destruct so; [rewrite dget_dset|]; rewrite stored_get; reflexivity. }
  destruct q.
  - rewrite switches_false. cbn [andb]. destruct (existsb _ _); [reflexivity|]. rewrite A. destruct (so && _)%bool; [reflexivity|]. destruct (given_last given k); reflexivity.
  - cbn [andb]. rewrite A. destruct (so && _)%bool; [reflexivity|]. destruct (given_last given k); reflexivity.
Qed.
Lemma getboolean_ok entry k d v : switch (dget entry k) d v -> getboolean entry k d = Ok v.
Proof.
  unfold getboolean, switch. destruct (dget entry k) as [w|]; [|intros ->; reflexivity]. rewrite folded_lower. set (m := map lower w). clearbody m.
  intros [(-> & H)|(-> & H)]; cbn in H; repeat destruct H as [<-|H]; try contradiction; reflexivity.
Qed.
Lemma getboolean_bad entry k d : unreadable (dget entry k) -> getboolean entry k d = Err ValueError.
Proof.
  intros (w & Hw & H). unfold getboolean. rewrite Hw. rewrite folded_lower in H. set (m := map lower w) in *. clearbody m.
  assert (G : forall l, (forall x, In x l -> m <> x) -> existsb (eqb m) l = false). { intros l Hl. destruct (existsb (eqb m) l) eqn:E; [|reflexivity]. apply existsb_exists in E as (x & Hx & E). apply eqb_eq in E. destruct (Hl x Hx E). }
  rewrite !G; [reflexivity| |]; intros x Hx ->; apply H; cbn in Hx |- *; tauto.
Qed.
Lemma getboolean_total (entry : dict str str) (k : str) (d : bool) : (exists v, switch (dget entry k) d v) \/ unreadable (dget entry k).
Proof.
  unfold switch, unreadable. destruct (dget entry k) as [w|]; [|left; exists d; reflexivity].
  destruct (in_dec eq_dec (folded w) [S_ "1"; S_ "yes"; S_ "true"; S_ "on"]) as [H|H]; [left; exists true; auto|].
  destruct (in_dec eq_dec (folded w) [S_ "0"; S_ "no"; S_ "false"; S_ "off"]) as [H2|H2]; [left; exists false; auto|]. right. exists w. split; [reflexivity|]. intros Hi. cbn in Hi, H, H2. tauto.
Qed.

Section Kappa.
Variables (stamp : str) (num6 : R -> str).
Hypothesis Hstamp : stamp <> [] /\ one_line stamp.
Definition sound_table (t : list R * list (str * list R)) : Prop := Forall (fun kv => one_line (fst kv) /\ List.length (snd kv) = List.length (fst t)) (snd t).
(** a file holds a table under a title *)
Definition holds (bare headers : bool) (title first : str) (t : list R * list (str * list R)) (content : option str) : Prop :=
  exists rows, by_columns (List.length (fst t)) (fst t :: map snd (snd t)) rows /\ content = Some (file_text num6 stamp bare headers title (first :: map fst (snd t)) rows).
Lemma table_text_ok bare headers title first t : one_line title -> one_line first -> sound_table t -> exists x, table_text stamp num6 bare headers title first t = Ok x /\ holds bare headers title first t (Some x).
Proof.
  intros Ht Hf Hs. destruct (to_rows_ok (fst t :: map snd (snd t)) (List.length (fst t))) as (rows & E & B); [discriminate| |].
  - constructor; [reflexivity|]. apply Forall_forall. intros c Hc. apply in_map_iff in Hc as (kv & <- & Hi). unfold sound_table in Hs. rewrite Forall_forall in Hs. apply (Hs kv Hi).
  - unfold table_text. rewrite E. cbv beta iota delta [rbind]. eexists. split; [reflexivity|]. exists rows. split; [exact B|]. f_equal. apply to_file_text; [apply Hstamp|apply Hstamp|exact Ht|]. constructor; [exact Hf|]. apply Forall_forall. intros k Hk. apply in_map_iff in Hk as (kv & <- & Hi). unfold sound_table in Hs. rewrite Forall_forall in Hs. apply (Hs kv Hi).
Qed.
(** one optional table *)
Lemma write_table_ok bare headers name title first (t : option _) fs : one_line title -> one_line first -> (forall u, t = Some u -> sound_table u) ->
  exists fs', write_table stamp num6 bare headers name title first t (fs, Ok tt) = (fs', Ok tt) /\ same_except fs fs' name /\ match t with Some u => holds bare headers title first u (fs' name) | None => fs' name = fs name end.
Proof.
  intros Ht Hf Hs. unfold write_table. cbn [fst snd]. destruct t as [u|]; [|exists fs; split; [reflexivity|split; [intros m _; reflexivity|reflexivity]]].
  destruct (table_text_ok bare headers title first u Ht Hf (Hs u eq_refl)) as (x & E & H). rewrite E. eexists. split; [reflexivity|]. split; [apply write_other|]. rewrite write_same. exact H.
Qed.

(** the switches of an entry, for a model of the Debye kind or another one *)
Record switches := { w_split : bool; w_rate : bool; w_spec : bool; w_cumu : bool; w_subs : bool }.
Definition switched (e : dict str str) (k : kmodel) (s : switches) : Prop :=
  (if k_debye k then switch (dget e (S_ "splitkappa")) true (w_split s) /\ switch (dget e (S_ "scattering")) true (w_rate s) /\ switch (dget e (S_ "spectral")) true (w_spec s) /\ switch (dget e (S_ "cumulate")) true (w_cumu s)
   else w_split s = false /\ w_rate s = false /\ w_spec s = false /\ w_cumu s = false)
  /\ (if k_fit k then switch (dget e (S_ "substituted")) false (w_subs s) else w_subs s = false).
Definition misspelt (e : dict str str) (k : kmodel) : Prop :=
  (k_debye k = true /\ exists n, In n [S_ "splitkappa"; S_ "scattering"; S_ "spectral"; S_ "cumulate"] /\ unreadable (dget e n)) \/ (k_fit k = true /\ unreadable (dget e (S_ "substituted"))).
Definition result_of (k : kmodel) (s : switches) : kresult :=
  {| r_pred := k_pred k (w_split s); r_rate := if w_rate s then Some (k_rate k) else None; r_spec := if w_spec s then Some (k_spec k) else None; r_cumu := if w_cumu s then Some (k_cumu k) else None; r_subs := if w_subs s then Some (k_subs k) else None |}.
Lemma parse_ok e k s : switched e k s -> parse_kappa e k = Ok (result_of k s).
Proof.
  clear. intros (A & B). unfold parse_kappa. assert (X : (if k_fit k then getboolean e (S_ "substituted") false else Ok false) = Ok (w_subs s)) by (destruct (k_fit k); [apply getboolean_ok, B|rewrite B; reflexivity]). rewrite X. cbv beta iota delta [rbind]. unfold result_of. destruct (k_debye k).
  - destruct A as (A1 & A2 & A3 & A4). rewrite (getboolean_ok _ _ _ _ A1), (getboolean_ok _ _ _ _ A2), (getboolean_ok _ _ _ _ A3), (getboolean_ok _ _ _ _ A4). reflexivity.
  - destruct A as (-> & -> & -> & ->). reflexivity.
Qed.
Lemma parse_bad e k : misspelt e k -> parse_kappa e k = Err ValueError.
Proof.
  clear. intros H. unfold parse_kappa. assert (T : forall n d, (exists v, getboolean e n d = Ok v) \/ getboolean e n d = Err ValueError). { intros n d. destruct (getboolean_total e n d) as [(v & Hv)|Hu]; [left; exists v; apply getboolean_ok, Hv|right; apply getboolean_bad, Hu]. }
  destruct H as [(-> & n & Hn & Hu)|(-> & Hu)].
  - destruct (k_fit k); [destruct (T (S_ "substituted") false) as [(v & ->)| ->]; [|reflexivity]|]; cbv beta iota delta [rbind].
    all: cbn in Hn; destruct (T (S_ "splitkappa") true) as [(v1 & E1)|E1]; rewrite E1; [|reflexivity]; destruct (T (S_ "scattering") true) as [(v2 & E2)|E2]; rewrite E2; [|reflexivity]; destruct (T (S_ "spectral") true) as [(v3 & E3)|E3]; rewrite E3; [|reflexivity]; destruct (T (S_ "cumulate") true) as [(v4 & E4)|E4]; rewrite E4; [|reflexivity].
    all: exfalso; apply (getboolean_bad e n true) in Hu; repeat destruct Hn as [<-|Hn]; try contradiction; first [discriminate (eq_trans (eq_sym Hu) E1)|discriminate (eq_trans (eq_sym Hu) E2)|discriminate (eq_trans (eq_sym Hu) E3)|discriminate (eq_trans (eq_sym Hu) E4)].
  - rewrite (getboolean_bad _ _ _ Hu). reflexivity.
Qed.

(** the settings in force *)
Theorem C118_settings : forall (entry : dict str str) given so q, wf entry ->
  wf (dupdate entry (kappa_settings given so q)) /\ forall k, dget (dupdate entry (kappa_settings given so q)) k = kappa_setting (dget entry) given so q k.
Proof. clear. intros entry given so q We. split; [apply dupdate_wf, We|]. intros k. apply settings_get, We. Qed.
Theorem C118_failures : forall build fs input output suffix entry given so q bare headers,
  let e := dupdate entry (kappa_settings given so q) in
  (forall x, build e = Err x -> kappa stamp num6 build fs input output suffix entry given so q bare headers = (fs, Err x))
  /\ (forall k, build e = Ok k -> misspelt e k -> kappa stamp num6 build fs input output suffix entry given so q bare headers = (fs, Err ValueError)).
Proof.
  clear. intros build fs input output suffix entry given so q bare headers e. unfold kappa. fold e. split; [intros x Hx; rewrite Hx; reflexivity|].
  intros k Hk Hm. rewrite Hk. cbv beta iota delta [rbind]. rewrite (parse_bad _ _ Hm). reflexivity.
Qed.
Theorem C118_files : forall build fs input output suffix entry given so q bare headers k s n,
  let e := dupdate entry (kappa_settings given so q) in
  build e = Ok k -> switched e k s -> path_of (suffixed output input suffix (Some (S_ ".txt"))) n ->
  sound_table (k_pred k (w_split s)) -> sound_table (k_rate k) -> sound_table (k_spec k) -> sound_table (k_cumu k) ->
  let o := suffixed output input suffix (Some (S_ ".txt")) in
  let rate := suffixed None o (S_ "rate") None in let spec := suffixed None o (S_ "spec") None in let cumu := suffixed None o (S_ "cumu") None in let subs := suffixed None o (S_ "subs") (Some (S_ ".cfg")) in
  exists fs', kappa stamp num6 build fs input output suffix entry given so q bare headers = (fs', Ok tt)
  /\ holds bare headers (S_ "Predict kappa") (S_ "Xcolumn") (k_pred k (w_split s)) (fs' o)
  /\ (if w_rate s then holds bare headers (S_ "Scattering rate") (S_ "freq") (k_rate k) (fs' rate) else fs' rate = fs rate)
  /\ (if w_spec s then holds bare headers (S_ "Spectral kappa") (S_ "freq") (k_spec k) (fs' spec) else fs' spec = fs spec)
  /\ (if w_cumu s then holds bare headers (S_ "Cumulative kappa") (S_ "mfp") (k_cumu k) (fs' cumu) else fs' cumu = fs cumu)
  /\ fs' subs = (match w_subs s, k_subs k with true, (_ :: _) as l => Some (concat l) | _, _ => fs subs end)
  /\ (forall m, ~ In m [o; rate; spec; cumu; subs] -> fs' m = fs m).
Proof.
  intros build fs input output suffix entry given so q bare headers k s n e Hk Hs Hp S1 S2 S3 S4. unfold kappa. fold e.
  pose proof (C104_kappa output input suffix n Hp) as N. unfold kappa_files in N. set (o := suffixed output input suffix (Some (S_ ".txt"))) in *. clearbody o. cbv zeta. rewrite Hk. cbv beta iota delta [rbind]. rewrite (parse_ok _ _ _ Hs). unfold result_of. cbn [r_pred r_rate r_spec r_cumu r_subs].
    set (rate := suffixed None o (S_ "rate") None) in *. set (spec := suffixed None o (S_ "spec") None) in *. set (cumu := suffixed None o (S_ "cumu") None) in *. set (subs := suffixed None o (S_ "subs") (Some (S_ ".cfg"))) in *. clearbody rate spec cumu subs.
    assert (TL : forall t : str, (forall c, In c t -> c <> lf) -> one_line t) by (intros t Ht Hi; exact (Ht lf Hi eq_refl)).
    assert (D : forall t : str, existsb (fun c => ch_eq c lf) t = false -> one_line t). { intros t Ht. apply TL. intros c Hc ->. assert (X : existsb (fun c => ch_eq c lf) t = true) by (apply existsb_exists; exists lf; split; [exact Hc|reflexivity]). congruence. }
    destruct (write_table_ok bare headers o (S_ "Predict kappa") (S_ "Xcolumn") (Some (k_pred k (w_split s))) fs (D (S_ "Predict kappa") eq_refl) (D (S_ "Xcolumn") eq_refl)) as (f1 & E1 & O1 & H1); [intros u [= <-]; exact S1|]. rewrite E1. clear E1.
    destruct (write_table_ok bare headers rate (S_ "Scattering rate") (S_ "freq") (if w_rate s then Some (k_rate k) else None) f1 (D (S_ "Scattering rate") eq_refl) (D (S_ "freq") eq_refl)) as (f2 & E2 & O2 & H2); [destruct (w_rate s); intros u [= <-]; exact S2|]. rewrite E2. clear E2.
    destruct (write_table_ok bare headers spec (S_ "Spectral kappa") (S_ "freq") (if w_spec s then Some (k_spec k) else None) f2 (D (S_ "Spectral kappa") eq_refl) (D (S_ "freq") eq_refl)) as (f3 & E3 & O3 & H3); [destruct (w_spec s); intros u [= <-]; exact S3|]. rewrite E3. clear E3.
    destruct (write_table_ok bare headers cumu (S_ "Cumulative kappa") (S_ "mfp") (if w_cumu s then Some (k_cumu k) else None) f3 (D (S_ "Cumulative kappa") eq_refl) (D (S_ "mfp") eq_refl)) as (f4 & E4 & O4 & H4); [destruct (w_cumu s); intros u [= <-]; exact S4|]. rewrite E4. clear E4 D TL.
    cbn [fst snd].
    assert (L : exists f5, match (if w_subs s then Some (k_subs k) else None) with Some ((_ :: _) as l) => (write f4 subs (concat l), Ok tt) | _ => (f4, Ok tt) end = (f5, Ok tt) /\ same_except f4 f5 subs /\ f5 subs = (match w_subs s, k_subs k with true, (_ :: _) as l => Some (concat l) | _, _ => f4 subs end)).
    { destruct (w_subs s); [destruct (k_subs k) as [|a l]|].
      - exists f4. split; [reflexivity|]. split; [intros m _; reflexivity|reflexivity].
      - eexists. split; [reflexivity|]. split; [apply write_other|apply write_same].
      - exists f4. split; [reflexivity|]. split; [intros m _; reflexivity|reflexivity]. }
    destruct L as (f5 & E5 & O5 & H5). exists f5. split; [exact E5|]. clear E5.
    inversion N as [|? ? N1 N']; subst. inversion N' as [|? ? N2 N'']; subst. inversion N'' as [|? ? N3 N3']; subst. inversion N3' as [|? ? N4 N4']; subst. cbn [In] in N1, N2, N3, N4.
    assert (Eo : f5 o = f1 o) by (rewrite O5, O4, O3, O2; [reflexivity|intuition..]). assert (Er : f5 rate = f2 rate) by (rewrite O5, O4, O3; [reflexivity|intuition..]). assert (Es : f5 spec = f3 spec) by (rewrite O5, O4; [reflexivity|intuition..]). assert (Ec : f5 cumu = f4 cumu) by (rewrite O5; [reflexivity|intuition..]).
    assert (Br : f1 rate = fs rate) by (apply O1; intuition). assert (Bs : f2 spec = fs spec) by (rewrite O2, O1; [reflexivity|intuition..]). assert (Bc : f3 cumu = fs cumu) by (rewrite O3, O2, O1; [reflexivity|intuition..]). assert (Bu : f4 subs = fs subs) by (rewrite O4, O3, O2, O1; [reflexivity|intuition..]).
    rewrite Eo, Er, Es, Ec. split; [exact H1|]. split; [destruct (w_rate s); congruence|]. split; [destruct (w_spec s); congruence|]. split; [destruct (w_cumu s); congruence|]. split; [rewrite H5, Bu; reflexivity|].
    intros m Hm. cbn [In] in Hm. rewrite O5, O4, O3, O2, O1; [reflexivity|intuition..].
Qed.
(** with -Q the detailed tables are not written, whatever the file says *)
Theorem C118_quiet : forall build fs input output suffix entry given so bare headers k n, wf entry ->
  build (dupdate entry (kappa_settings given so true)) = Ok k -> (forall t, kappa_setting (dget entry) given so true (S_ "substituted") = Some t -> ~ unreadable (Some t)) ->
  path_of (suffixed output input suffix (Some (S_ ".txt"))) n -> sound_table (k_pred k false) -> sound_table (k_rate k) -> sound_table (k_spec k) -> sound_table (k_cumu k) ->
  let o := suffixed output input suffix (Some (S_ ".txt")) in
  exists fs', kappa stamp num6 build fs input output suffix entry given so true bare headers = (fs', Ok tt)
  /\ holds bare headers (S_ "Predict kappa") (S_ "Xcolumn") (k_pred k false) (fs' o) /\ forall m, m <> o -> m <> suffixed None o (S_ "subs") (Some (S_ ".cfg")) -> fs' m = fs m.
Proof.
  intros build fs input output suffix entry given so bare headers k n We Hk Hu Hp S1 S2 S3 S4 o. set (e := dupdate entry (kappa_settings given so true)) in *.
  assert (G : forall x, dget e x = kappa_setting (dget entry) given so true x) by (intros x; apply settings_get, We).
  assert (Sub : exists v, if k_fit k then switch (dget e (S_ "substituted")) false v else v = false).
  { destruct (k_fit k); [|exists false; reflexivity]. destruct (getboolean_total e (S_ "substituted") false) as [H|H]; [exact H|]. exfalso. rewrite G in H. destruct H as (w & Hw & H). apply (Hu w Hw). exists w. auto. }
  destruct Sub as (v & Hv). set (s := {| w_split := false; w_rate := false; w_spec := false; w_cumu := false; w_subs := v |}).
  assert (Sw : switched e k s). { split; [|exact Hv]. destruct (k_debye k); [|repeat split]. rewrite !G. unfold s. cbn [w_split w_rate w_spec w_cumu]. assert (F : forall x, In x [S_ "splitkappa"; S_ "scattering"; S_ "spectral"; S_ "cumulate"] -> switch (kappa_setting (dget entry) given so true x) true false). { intros x Hx. unfold kappa_setting. assert (E : existsb (eqb x) [S_ "splitkappa"; S_ "scattering"; S_ "spectral"; S_ "cumulate"] = true) by (apply existsb_exists; exists x; split; [exact Hx|apply eqb_refl]). rewrite E. right. split; [reflexivity|]. right. right. left. reflexivity. }
    split; [apply F; cbn; auto|]. split; [apply F; cbn; auto|]. split; apply F; cbn; auto. }
  destruct (C118_files build fs input output suffix entry given so true bare headers k s n Hk Sw Hp S1 S2 S3 S4) as (fs' & E & H1 & H2 & H3 & H4 & _ & H6). fold o in H1, H2, H3, H4, H6. unfold s in H1, H2, H3, H4. cbn [w_split w_rate w_spec w_cumu] in H1, H2, H3, H4.
  exists fs'. split; [exact E|]. split; [exact H1|]. intros m M1 M2. destruct (eq_dec m (suffixed None o (S_ "rate") None)) as [->|M3]; [exact H2|]. destruct (eq_dec m (suffixed None o (S_ "spec") None)) as [->|M4]; [exact H3|]. destruct (eq_dec m (suffixed None o (S_ "cumu") None)) as [->|M5]; [exact H4|].
  apply H6. cbn [In]. intros [H|[H|[H|[H|[H|[]]]]]]; congruence.
Qed.
End Kappa.
Print Assumptions C118_settings.
Print Assumptions C118_failures.
Print Assumptions C118_files.
Print Assumptions C118_quiet.

Definition kappa_case : kmodel :=
  {| k_fit := true; k_debye := true; k_pred := fun b => ([300; 400], (S_ "Kappa-Total", [2; 1]) :: if b then [(S_ "PU", [3; 2])] else []); k_rate := ([0; 1], [(S_ "Total", [0; 4])]); k_spec := ([0; 1], [(S_ "Total", [0; 5])]); k_cumu := ([0; 1], [(S_ "Total", [0; 6])]);
     k_subs := [S_ "[entry]"; S_ "x=1"] |}.
Example C118_case : let e := [(S_ "scattering", S_ "Off"); (S_ "substituted", S_ "maybe"); (S_ "npoints", S_ "11")] in
  wf e /\ misspelt e kappa_case /\ switched [(S_ "scattering", S_ "Off"); (S_ "substituted", S_ "true")] kappa_case {| w_split := true; w_rate := false; w_spec := true; w_cumu := true; w_subs := true |}
  /\ kappa_setting (dget e) [(S_ "npoints", S_ "21"); (S_ "npoints", S_ "31")] false false (S_ "npoints") = Some (S_ "31") /\ kappa_setting (dget e) [] true true (S_ "substituted") = Some (S_ "true")
  /\ kappa_setting (dget e) [] true true (S_ "scattering") = Some (S_ "false") /\ path_of (suffixed None (S_ "d/m.cfg") (S_ "kappa") (Some (S_ ".txt"))) (S_ "m_kappa.txt")
  /\ sound_table (k_pred kappa_case true) /\ sound_table (k_rate kappa_case).
Proof.
  cbn zeta. split; [repeat constructor; cbn; intuition discriminate|]. split; [right; split; [reflexivity|]; exists (S_ "maybe"); split; [reflexivity|]; cbn; intuition discriminate|]. split.
  { split; [|left; split; [reflexivity|cbn; auto]]. split; [reflexivity|]. split; [right; split; [reflexivity|cbn; auto]|]. split; reflexivity. }
  split; [reflexivity|]. split; [reflexivity|]. split; [reflexivity|]. split; [split; [split; [discriminate|split; [discriminate|cbn; intuition discriminate]]|left; reflexivity]|].
  split; repeat constructor; intros H; cbn in H; intuition discriminate.
Qed.

(** ** C119: which command runs *)
Definition commands : list (str * task) :=
  [(S_ "band", Band); (S_ "cutoff", Cutoff); (S_ "engout", Engout); (S_ "format", Format); (S_ "interp", Interp); (S_ "kappa", Kappa); (S_ "mixing", Mixing); (S_ "refine", Refine); (S_ "ztdev", Ztdev)].
Lemma commands_tasks n t : In (n, t) commands <-> In (n, t) tasks.
Proof. unfold commands, tasks. cbn [In]. tauto. Qed.
Lemma begins_startswith w n : startswith (map lower w) n = true <-> begins_with w n.
Proof. unfold begins_with. rewrite folded_lower. apply startswith_spec. Qed.
Theorem C119_command : forall w rest argv n t, In (n, t) commands -> begins_with w n -> main (Some (w :: rest)) argv = Run t rest.
Proof.
  intros w rest argv n t Hn Hb. apply commands_tasks in Hn. apply begins_startswith in Hb. unfold main. destruct (chain tasks (map lower w)) as [u|] eqn:E.
  - apply chain_some in E as (m & Hm & Hs). rewrite (two_names _ _ _ _ _ Hn Hm Hb Hs). reflexivity.
  - rewrite chain_none in E. specialize (E n t Hn). congruence.
Qed.
Theorem C119_help : forall w rest argv, (forall n t, In (n, t) commands -> ~ begins_with w n) -> main (Some (w :: rest)) argv = Help.
Proof.
  intros w rest argv H. unfold main. assert (E : chain tasks (map lower w) = None). { apply chain_none. intros n t Hn. destruct (startswith (map lower w) n) eqn:E; [|reflexivity]. exfalso. apply begins_startswith in E. apply commands_tasks in Hn. exact (H n t Hn E). }
  rewrite E. reflexivity.
Qed.
Theorem C119_unique : forall w n t m u, In (n, t) commands -> In (m, u) commands -> begins_with w n -> begins_with w m -> n = m /\ t = u.
Proof.
  intros w n t m u Hn Hm A B. apply commands_tasks in Hn, Hm. assert (E : t = u) by (apply begins_startswith in A, B; exact (two_names _ _ _ _ _ Hn Hm A B)). split; [|exact E]. subst u. clear -Hn Hm. cbn in Hn, Hm. repeat destruct Hn as [[= <- <-]|Hn]; repeat destruct Hm as [Q|Hm]; try contradiction; try discriminate Q; congruence.
Qed.
Theorem C119_arguments : forall argv, main None argv = main (Some []) argv /\ (argv <> [] -> main None argv = main (Some argv) []) /\ main None [] = Platform.
Proof. intros argv. split; [reflexivity|]. split; [|reflexivity]. destruct argv; [congruence|reflexivity]. Qed.
Print Assumptions C119_command.
Print Assumptions C119_help.
Print Assumptions C119_unique.
Print Assumptions C119_arguments.
Example C119_case : begins_with (S_ "Interpolate") (S_ "interp") /\ main (Some [S_ "Interpolate"; S_ "a.txt"]) [] = Run Interp [S_ "a.txt"] /\ main None [S_ "help"] = Help /\ (forall n t, In (n, t) commands -> ~ begins_with (S_ "inter") n).
Proof.
  split; [exists (S_ "olate"); reflexivity|]. split; [reflexivity|]. split; [reflexivity|]. intros n t H (x & E). cbn in H. repeat destruct H as [[= <- <-]|H]; try contradiction; discriminate E.
Qed.
