(** C135: a command that is killed while it writes, and is run again. *)
From Coq Require Import ZArith Reals Lia Lra String Ascii.
From Verif Require Import Py PyStr PyDict RetainModel ExecModel CliModel ZtModel EngModel RUtil CfgSpec CfgModel CfgProofs KvarSpec KvarModel KvarProofs DataModel SubsModel SubsProofs Regex InstrSpec InstrModel InstrProofs MonoModel InterpSpec InterpModel TxtSpec TxtModel TxtProofs TxtProps FmtSpec FmtModel CmdSpec CmdModel CmdProofs CmdProps CliSpec RunModel CrashSpec CrashModel CrashProofs.
Local Open Scope list_scope.

(** ** what a killed command leaves behind *)
Lemma nd_left {A} (a b : list A) : NoDup (a ++ b) -> NoDup a.
Proof. induction a as [|x a IH]; intros N; [constructor|]. cbn in N. inversion N as [|? ? N1 N2]; subst. constructor; [|exact (IH N2)]. intros H. apply N1, in_or_app. left. exact H. Qed.
Lemma killed_run fs before after d : (exists h, steps (Proc fs None (before ++ after)) (Proc d h after)) -> killed fs (before ++ after) d.
Proof. intros (h & H). exists h, after. exact H. Qed.
Theorem C135_left_behind : forall fs w d, NoDup (map fst w) -> killed fs w d -> left_behind fs w d.
Proof.
  intros fs w d N K. split; [intros m Hm; exact (killed_other _ _ _ _ K Hm)|].
  destruct (killed_iff _ _ _ K) as (before & [(after & -> & D)|(n & p & q & after & -> & D)]).
  - exists before, after. split; [reflexivity|]. rewrite map_app in N. pose proof (nd_left _ _ N) as Nb. split.
    + apply Forall_forall. intros [n t] Hi. cbn [fst snd]. rewrite D. apply written_at; assumption.
    + assert (O : Forall (fun nt => d (fst nt) = fs (fst nt)) after).
      { apply Forall_forall. intros nt Hi. rewrite D. apply written_other. intros Hj. clear -N Hi Hj. induction (map fst before) as [|a l IH]; [destruct Hj|]. cbn in N. inversion N as [|? ? N1 N2]; subst. destruct Hj as [E|Hj]; [|exact (IH N2 Hj)]. apply N1. apply in_or_app. right. rewrite E. apply in_map. exact Hi. }
      destruct after as [|[n t] rest]; [exact I|]. inversion O as [|? ? O1 O2]; subst. split; [left; exact O1|exact O2].
  - exists before, ((n, p ++ q) :: after). split; [reflexivity|]. rewrite map_app in N. cbn [map fst] in N.
    assert (Nb : NoDup (map fst (before ++ [(n, p)]))).
    { rewrite map_app. cbn [map fst]. rewrite <- (app_nil_r (map fst before ++ [n])), <- app_assoc. cbn [app]. clear -N. induction (map fst before) as [|a l IH]; [repeat constructor; intros []|]. cbn in N |- *. inversion N as [|? ? N1 N2]; subst. constructor; [|exact (IH N2)]. intros H. apply N1. apply in_app_or in H as [H|[H|[]]]; apply in_or_app; [left; exact H|right; left; exact H]. }
    assert (Dj : forall m, In m (map fst after) -> ~ In m (map fst (before ++ [(n, p)]))).
    { intros m Hm Hj. rewrite map_app in Hj. cbn [map fst] in Hj. clear -N Hm Hj. induction (map fst before) as [|a l IH].
      - destruct Hj as [<-|[]]. inversion N as [|? ? N1 N2]; subst. exact (N1 Hm).
      - cbn in N. inversion N as [|? ? N1 N2]; subst. destruct Hj as [<-|Hj]; [|exact (IH N2 Hj)]. apply N1. apply in_or_app. right. right. exact Hm. }
    split; [|split].
    + apply Forall_forall. intros [m t] Hi. cbn [fst snd]. rewrite D. apply written_at; [exact Nb|]. apply in_or_app. left. exact Hi.
    + right. exists p. split; [rewrite D; apply written_at; [exact Nb|]; apply in_or_app; right; left; reflexivity|exists q; reflexivity].
    + apply Forall_forall. intros nt Hi. rewrite D. apply written_other. apply Dj. apply in_map. exact Hi.
Qed.
(** each of these states can come about *)
Theorem C135_reached : forall fs before n p t after, prefix_of p t ->
  (exists d, killed fs (before ++ (n, t) :: after) d /\ forall m, d m = written fs before m) /\
  exists d, killed fs (before ++ (n, t) :: after) d /\ forall m, d m = written fs (before ++ [(n, p)]) m.
Proof.
  intros fs before n p t after (q & ->). destruct (run_before before fs ((n, p ++ q) :: after)) as (d & S1 & E1). split.
  - exists d. split; [exists None, ((n, p ++ q) :: after); exact S1|exact E1].
  - exists (append_to (write d n []) n p). split.
    + exists (Some (n, q)), after. eapply steps_trans; [exact S1|]. eapply steps_trans; [apply steps1, s_open|apply steps1, s_flush].
    + intros m. rewrite written_app. cbn [written]. unfold append_to, write. rewrite (proj2 (eqb_eq n n) eq_refl). destruct (eqb m n) eqn:Em; [reflexivity|exact (E1 m)].
Qed.
(** the finding: what an output file held before is gone as soon as it is opened *)
Theorem C135_old_lost : forall fs n t w, exists d, killed fs ((n, t) :: w) d /\ d n = Some [] /\ forall m, m <> n -> d m = fs m.
Proof.
  intros fs n t w. exists (write fs n []). split; [exists (Some (n, t)), w; apply steps1, s_open|]. unfold write. split; [rewrite (proj2 (eqb_eq n n) eq_refl); reflexivity|]. intros m Hm. destruct (eqb m n) eqn:E; [apply eqb_eq in E; contradiction|reflexivity].
Qed.
(** the command that is not killed *)
Theorem C135_finished : forall fs w, exists d, steps (Proc fs None w) (Proc d None []) /\ forall m, d m = written fs w m.
Proof. intros fs w. destruct (run_before w fs []) as (d & S1 & E). rewrite app_nil_r in S1. exists d. split; [exact S1|exact E]. Qed.

(** ** running it again *)
Theorem C135_rerun : forall (A : Type) (c : disk -> disk * A) inputs fs w r d, plan c inputs fs w r -> (forall n, In n inputs -> ~ In n (map fst w)) -> attempts w fs d ->
  snd (c d) = r /\ snd (c fs) = r /\ forall m, fst (c d) m = fst (c fs) m.
Proof.
  intros A c inputs fs w r d P O K. assert (Hi : forall n, In n inputs -> d n = fs n) by (intros n Hn; apply (attempts_other _ _ _ _ K), O, Hn).
  destruct (P d Hi) as (W1 & R1). destruct (P fs (fun _ _ => eq_refl)) as (W2 & R2). split; [exact R1|]. split; [exact R2|].
  intros m. rewrite W1, W2. apply written_agree. intros k Hk. exact (attempts_other _ _ _ _ K Hk).
Qed.
(** an attempt that is killed before it is complete keeps the inputs, so that the next attempt writes the same: [attempts] is the right history *)
Theorem C135_same_attempt : forall (A : Type) (c : disk -> disk * A) inputs fs w r d, plan c inputs fs w r -> (forall n, In n inputs -> ~ In n (map fst w)) -> attempts w fs d -> plan c inputs d w r.
Proof.
  intros A c inputs fs w r d P O K fs' H. destruct (P fs') as (W & R0); [|split; [exact W|exact R0]].
  intros n Hn. rewrite (H n Hn). exact (attempts_other _ _ _ _ K (O n Hn)).
Qed.

(** ** the commands have such plans *)
Lemma io_refl {A} (l : list A) : in_order l l. Proof. induction l; constructor; assumption. Qed.
Lemma plan_save (f : files -> res str) (g : files -> res unit) name inputs fs :
  (forall fs', (forall n, In n inputs -> fs' n = fs n) -> f fs' = f fs /\ g fs' = g fs) ->
  exists w r, plan (fun fs' => (match f fs' with Ok t => write fs' name t | Err _ => fs' end, g fs')) inputs fs w r /\ in_order (map fst w) [name].
Proof.
  intros H. exists (match f fs with Ok t => [(name, t)] | Err _ => [] end), (g fs). split.
  - intros fs' Hi. destruct (H fs' Hi) as (E1 & E2). cbn [fst snd]. rewrite E1, E2. split; [|reflexivity]. intros m. destruct (f fs) as [t|e]; [|reflexivity]. unfold write. cbn [written]. destruct (eqb m name); reflexivity.
  - destruct (f fs); [apply io_refl|constructor; constructor].
Qed.
Lemma plan_ext {A} (c c' : disk -> disk * A) inputs fs w r : (forall fs', c fs' = c' fs') -> plan c inputs fs w r -> plan c' inputs fs w r.
Proof. intros H P fs' Hi. rewrite <- H. exact (P fs' Hi). Qed.
Lemma plan_save' {B} (c : files -> files * res unit) (f : files -> res B) (t : B -> str) (g : B -> res unit) name inputs fs :
  (forall fs', c fs' = match f fs' with Ok b => (write fs' name (t b), g b) | Err e => (fs', Err e) end) ->
  (forall fs', (forall n, In n inputs -> fs' n = fs n) -> f fs' = f fs) ->
  exists w r, plan c inputs fs w r /\ in_order (map fst w) [name].
Proof.
  intros Hc Hf. destruct (plan_save (fun fs' => match f fs' with Ok b => Ok (t b) | Err e => Err e end) (fun fs' => match f fs' with Ok b => g b | Err e => Err e end) name inputs fs) as (w & r & P & O).
  - intros fs' Hi. rewrite (Hf fs' Hi). split; reflexivity.
  - exists w, r. split; [|exact O]. eapply plan_ext; [|exact P]. intros fs'. rewrite Hc. cbv beta. destruct (f fs'); reflexivity.
Qed.
Lemma one_input (fs fs' : files) input : (forall n, In n [input] -> fs' n = fs n) -> fs' input = fs input.
Proof. intros H. apply H. left. reflexivity. Qed.
Theorem C135_refine : forall pyint stamp input output suffix bare column fs, exists w r,
  plan (fun fs => refine pyint stamp fs input output suffix bare column) [input] fs w r /\ in_order (map fst w) [suffixed output input suffix None].
Proof.
  intros. set (cl := match column with Some ((_ :: _) as c) => let! l := mapM (as_int pyint) (words c) in Ok (Some l) | _ => Ok None end).
  apply (plan_save' _ (fun fs' => match fs' input with None => Err FileNotFoundError | Some text => match cl with Err e => Err e | Ok cols => Ok (write_rows cols (rows_of text)) end end)
    (fun b => (if bare then [] else S_ "# Refined data - " ++ stamp ++ nl) ++ to_text (fst b)) (fun b => snd b)).
  - intros fs'. unfold refine. destruct (fs' input) as [text|]; [|reflexivity]. unfold cl. destruct (match column with Some ((_ :: _) as c) => let! l := mapM (as_int pyint) (words c) in Ok (Some l) | _ => Ok None end) as [cols|e]; [|reflexivity].
    destruct (write_rows cols (rows_of text)) as [ls r]. reflexivity.
  - intros fs' Hi. rewrite (one_input _ _ _ Hi). reflexivity.
Qed.
Theorem C135_extend : forall stamp inputs output bare raw padding labels fs, exists w r,
  plan (fun fs => extend stamp fs inputs output bare raw padding labels) inputs fs w r /\ in_order (map fst w) [output].
Proof.
  intros. set (head := if bare then [] else (S_ "# Extend datafiles - " ++ stamp) :: match labels with [] => [] | _ => [S_ "# " ++ jn [sp_c] labels] end).
  apply (plan_save' _ (fun fs' => read_all fs' inputs) (fun texts => to_text (head ++ extend_rows raw padding texts)) (fun _ => Ok tt)).
  - intros fs'. unfold extend. destruct (read_all fs' inputs); reflexivity.
  - intros fs'. unfold read_all. induction inputs as [|n l IH]; intros Hi; [reflexivity|]. cbn [mapM]. rewrite (Hi n) by (left; reflexivity). rewrite IH; [reflexivity|]. intros m Hm. apply Hi. right. exact Hm.
Qed.
Theorem C135_cutoff : forall pyint stamp load_rows save_rows input output suffix bare method column tc width fs, exists w r,
  plan (fun fs => cutoff pyint stamp load_rows save_rows fs input output suffix bare method column tc width) [input] fs w r /\ in_order (map fst w) [suffixed output input suffix None].
Proof.
  intros. apply (plan_save' _ (fun fs' => match fs' input with None => Err FileNotFoundError | Some text => cut_data pyint load_rows text bare method column tc width end)
    (fun rows => save_rows (if bare then None else Some (S_ "Cut-off data - " ++ stamp)) rows) (fun _ => Ok tt)).
  - intros fs'. unfold cutoff. destruct (fs' input) as [text|]; [|reflexivity]. destruct (cut_data _ _ _ _ _ _ _ _); reflexivity.
  - intros fs' Hi. rewrite (one_input _ _ _ Hi). reflexivity.
Qed.
Theorem C135_ztdev : forall load num stamp minimize input output suffix bare yita fs, exists w r,
  plan (fun fs => ztdev load num stamp minimize fs input output suffix bare yita) [input] fs w r /\ in_order (map fst w) [suffixed output input suffix None].
Proof.
  intros. apply (plan_save' _ (fun fs' => match fs' input with None => Err FileNotFoundError | Some text => ztdev_rows load minimize yita text end)
    (fun rows => savetxt num (S_ "# ") (if bare then [] else ztdev_head stamp) rows) (fun _ => Ok tt)).
  - intros fs'. unfold ztdev. destruct (fs' input) as [text|]; [|reflexivity]. destruct (ztdev_rows _ _ _ _); reflexivity.
  - intros fs' Hi. rewrite (one_input _ _ _ Hi). reflexivity.
Qed.
Theorem C135_engout : forall load num stamp ltext input output suffix bare pair resistivity length fs, exists w r,
  plan (fun fs => engout load num stamp ltext fs input output suffix bare pair resistivity length) [input] fs w r /\ in_order (map fst w) [suffixed output input suffix None].
Proof.
  intros. apply (plan_save' _ (fun fs' => match fs' input with None => Err FileNotFoundError | Some text => engout_rows load pair resistivity length text end)
    (fun rows => savetxt (fun x => num (Some x)) (S_ "# ") (if bare then [] else engout_head stamp ltext) rows) (fun _ => Ok tt)).
  - intros fs'. unfold engout. destruct (fs' input) as [text|]; [|reflexivity]. destruct (engout_rows _ _ _ _ _); reflexivity.
  - intros fs' Hi. rewrite (one_input _ _ _ Hi). reflexivity.
Qed.
(** the band command, in both forms: what is read from the input files is a function of them *)
Theorem C135_simulation : forall stamp num6e (parse : files -> dict str str -> res ((str -> res (list R)) * option (list str))) inputs given input output suffix bare headers fs,
  (forall fs', (forall n, In n inputs -> fs' n = fs n) -> parse fs' = parse fs) -> exists w r,
  plan (fun fs => do_simulation stamp num6e fs (parse fs) given input output suffix bare headers) inputs fs w r /\ in_order (map fst w) [suffixed output input suffix (Some (S_ ".txt"))].
Proof.
  intros stamp num6e parse inputs given input output suffix bare headers fs Hp. apply (plan_save' _ (fun fs' => simulation stamp num6e (parse fs') given bare headers) (fun t => t) (fun _ => Ok tt)).
  - intros fs'. reflexivity.
  - intros fs' Hi. rewrite (Hp fs' Hi). reflexivity.
Qed.
Theorem C135_modelling : forall stamp valuate visit num4 ws m gap (data : files -> res (str -> option (list R))) inputs props bare headers input output suffix fs,
  (forall fs', (forall n, In n inputs -> fs' n = fs n) -> data fs' = data fs) -> exists w r,
  plan (fun fs => snd (run_call stamp valuate visit num4 ws fs {| c_model := m; c_gap := gap; c_data := data fs; c_props := props; c_bare := bare; c_headers := headers; c_input := input; c_output := output; c_suffix := suffix |})) inputs fs w r
  /\ in_order (map fst w) [suffixed output input suffix None].
Proof.
  intros until fs. intros Hp. apply (plan_save' _ (fun fs' => snd (modelling stamp valuate visit num4 ws m gap (data fs') props bare headers)) (fun t => t) (fun _ => Ok tt)).
  - intros fs'. unfold run_call. cbn [c_model c_gap c_data c_props c_bare c_headers c_input c_output c_suffix]. destruct (modelling _ _ _ _ _ _ _ _ _ _ _) as [ws' r]. reflexivity.
  - intros fs' Hi. rewrite (Hp fs' Hi). reflexivity.
Qed.
(** the kappa command: its files in order; an error while the second, third or fourth table is made leaves the first ones *)
Lemma table_writes_spec stamp num6 bare headers l : forall fs,
  let st := fold_left (fun st q => match q with (n, title, first, t) => write_table stamp num6 bare headers n title first t st end) l (fs, Ok tt) in
  let p := table_writes stamp num6 bare headers l in
  (forall m, fst st m = written fs (fst p) m) /\ snd st = snd p /\ in_order (map fst (fst p)) (map (fun q => fst (fst (fst q))) l).
Proof.
  induction l as [|[[[n title] first] [t|]] l IH]; intros fs; cbn [fold_left table_writes map fst snd].
  - split; [reflexivity|]. split; [reflexivity|constructor].
  - unfold write_table at 2. unfold write_table at 3. cbn [fst snd]. destruct (table_text stamp num6 bare headers title first t) as [x|e] eqn:Et.
    + specialize (IH (write fs n x)). cbv zeta in IH. destruct (table_writes stamp num6 bare headers l) as [w e]. cbn [fst snd] in IH |- *. destruct IH as (A & B & C). split; [|split; [exact B|cbn [map]; apply io_take; exact C]].
      intros m. rewrite A. cbn [written]. apply written_agree. intros k _. reflexivity.
    + assert (St : forall l s, snd s = Err e -> fold_left (fun st q => match q with (n, title, first, t) => write_table stamp num6 bare headers n title first t st end) l s = s).
      { clear. induction l as [|[[[n title] first] t] l IH]; intros [f r] H; cbn in H; [reflexivity|]. cbn [fold_left]. unfold write_table at 2. cbn [fst snd]. subst r. apply IH. reflexivity. }
      rewrite St by reflexivity. cbn [fst snd map]. split; [reflexivity|]. split; [reflexivity|constructor].
  - unfold write_table at 2. unfold write_table at 3. cbn [fst snd]. destruct (IH fs) as (A & B & C). split; [exact A|]. split; [exact B|]. apply io_skip. exact C.
Qed.
Lemma io_app {A} (a b l k : list A) : in_order a l -> in_order b k -> in_order (a ++ b) (l ++ k).
Proof. intros H1 H2. induction H1; cbn; [induction l; [exact H2|apply io_skip; assumption]|apply io_take; assumption|apply io_skip; assumption]. Qed.
Theorem C135_kappa : forall stamp num6 (build : files -> dict str str -> res kmodel) inputs input output suffix entry given substituted less_output bare headers fs,
  (forall fs', (forall n, In n inputs -> fs' n = fs n) -> build fs' = build fs) -> exists w r,
  plan (fun fs => kappa stamp num6 (build fs) fs input output suffix entry given substituted less_output bare headers) inputs fs w r /\ in_order (map fst w) (kappa_files output input suffix).
Proof.
  intros stamp num6 build inputs input output suffix entry given substituted less_output bare headers fs Hb.
  set (k := kappa_writes stamp num6 (build fs) input output suffix entry given substituted less_output bare headers). exists (fst k), (snd k).
  unfold kappa_files. cbv zeta. set (o := suffixed output input suffix (Some (S_ ".txt"))).
  assert (G : forall fs', (forall m, fst (kappa stamp num6 (build fs) fs' input output suffix entry given substituted less_output bare headers) m = written fs' (fst k) m)
      /\ snd (kappa stamp num6 (build fs) fs' input output suffix entry given substituted less_output bare headers) = snd k
      /\ in_order (map fst (fst k)) [o; suffixed None o (S_ "rate") None; suffixed None o (S_ "spec") None; suffixed None o (S_ "cumu") None; suffixed None o (S_ "subs") (Some (S_ ".cfg"))]).
  { intros fs'. unfold k, kappa, kappa_writes. cbv zeta. fold o. set (e := dupdate entry (kappa_settings given substituted less_output)). clearbody e. set (pk := let! k := build fs e in parse_kappa e k). clearbody pk. destruct pk as [r|x].
    - set (tl := [(o, S_ "Predict kappa", S_ "Xcolumn", Some (r_pred r)); (suffixed None o (S_ "rate") None, S_ "Scattering rate", S_ "freq", r_rate r); (suffixed None o (S_ "spec") None, S_ "Spectral kappa", S_ "freq", r_spec r); (suffixed None o (S_ "cumu") None, S_ "Cumulative kappa", S_ "mfp", r_cumu r)]).
      pose proof (table_writes_spec stamp num6 bare headers tl fs') as Sp. cbv zeta in Sp.
      change (fold_left (fun st q => match q with (n, title, first, t) => write_table stamp num6 bare headers n title first t st end) tl (fs', Ok tt)) with
        (write_table stamp num6 bare headers (suffixed None o (S_ "cumu") None) (S_ "Cumulative kappa") (S_ "mfp") (r_cumu r) (write_table stamp num6 bare headers (suffixed None o (S_ "spec") None) (S_ "Spectral kappa") (S_ "freq") (r_spec r) (write_table stamp num6 bare headers (suffixed None o (S_ "rate") None) (S_ "Scattering rate") (S_ "freq") (r_rate r) (write_table stamp num6 bare headers o (S_ "Predict kappa") (S_ "Xcolumn") (Some (r_pred r)) (fs', Ok tt))))) in Sp.
      set (st := write_table stamp num6 bare headers (suffixed None o (S_ "cumu") None) _ _ _ _) in *. clearbody st. destruct (table_writes stamp num6 bare headers tl) as [w s]. cbn [fst snd] in Sp |- *. destruct Sp as (A & B & C). cbn [map fst tl] in C.
      assert (C2 : in_order (map fst w) [o; suffixed None o (S_ "rate") None; suffixed None o (S_ "spec") None; suffixed None o (S_ "cumu") None; suffixed None o (S_ "subs") (Some (S_ ".cfg"))]).
      { pose proof (io_app _ _ _ [suffixed None o (S_ "subs") (Some (S_ ".cfg"))] C (io_nil _)) as Q. rewrite app_nil_r in Q. exact Q. }
      rewrite B. destruct s as [u|e1].
      + destruct (r_subs r) as [[|x l]|]; cbn [fst snd]; [split; [exact A|split; [exact B|exact C2]]| |split; [exact A|split; [exact B|exact C2]]].
        split; [|split; [reflexivity|rewrite map_app; exact (io_app _ _ _ _ C (io_refl _))]]. intros m. rewrite written_app. cbn [written]. unfold write. destruct (eqb m (suffixed None o (S_ "subs") (Some (S_ ".cfg")))); [reflexivity|exact (A m)].
      + cbn [fst snd]. split; [exact A|split; [exact B|exact C2]].
    - cbn [fst snd]. split; [reflexivity|]. split; [reflexivity|constructor]. }
  split; [|apply (G fs)]. intros fs' Hi. cbv beta. rewrite (Hb fs' Hi). destruct (G fs') as (A & B & _). split; assumption.
Qed.
(** interp and format read their own output file, if there is one: it counts as an input *)
Theorem C135_interp : forall load save pyfloat stamp interpolate input output suffix bare method extrapolate range npoints fs, let out := suffixed output input suffix None in exists w r,
  plan (fun fs => interp load save pyfloat stamp interpolate fs input output suffix bare method extrapolate range npoints) [input; out] fs w r /\ in_order (map fst w) [out].
Proof.
  intros. apply (plan_save' _ (fun fs' => match fs' input with None => Err FileNotFoundError | Some text => interp_data load pyfloat interpolate fs' text out bare method extrapolate range npoints end)
    (fun cols => save (if bare then None else Some (S_ "Interpolate via " ++ method ++ S_ " method - " ++ stamp)) cols) (fun _ => Ok tt)).
  - intros fs'. unfold interp. fold out. destruct (fs' input) as [text|]; [|reflexivity]. destruct (interp_data _ _ _ _ _ _ _ _ _ _ _); reflexivity.
  - intros fs' Hi. rewrite (Hi input) by (left; reflexivity). destruct (fs input) as [text|]; [|reflexivity]. unfold interp_data, points. rewrite (Hi out) by (right; left; reflexivity). reflexivity.
Qed.
Theorem C135_format : forall load save interpolate lorenz input output suffix (data : files -> dataset) inputs tstep tmax no_rt method calculate gap fs, let out := suffixed output input suffix (Some (S_ ".txt")) in
  (forall fs', (forall n, In n inputs -> fs' n = fs n) -> data fs' = data fs) -> exists w r,
  plan (fun fs => format load save interpolate lorenz fs input output suffix (data fs) tstep tmax no_rt method calculate gap) (out :: inputs) fs w r /\ in_order (map fst w) [out].
Proof.
  intros until out. intros Hd. apply (plan_save' _ (fun fs' => let! T := format_temps load fs' out (data fs') tstep tmax no_rt in table interpolate lorenz (data fs') T method calculate gap)
    (fun cols => save (map fst cols) (map snd cols)) (fun _ => Ok tt)).
  - intros fs'. unfold format. fold out. destruct (rbind _ _); reflexivity.
  - intros fs' Hi. rewrite (Hd fs') by (intros n Hn; apply Hi; right; exact Hn). unfold format_temps. rewrite (Hi out) by (left; reflexivity). reflexivity.
Qed.
(** so after a kill they sample at what is left of their output: an unreadable rest makes them fail for ever, a readable one replaces the points that were asked for *)
Theorem C135_interp_after_kill : forall load save pyfloat stamp interpolate input output suffix bare method extrapolate range npoints d text cols p, let out := suffixed output input suffix None in
  d input = Some text -> load text = Ok cols -> cols <> [] -> d out = Some p ->
  (forall e, load p = Err e -> interp load save pyfloat stamp interpolate d input output suffix bare method extrapolate range npoints = (d, Err e)) /\
  (load p = Ok [] -> interp load save pyfloat stamp interpolate d input output suffix bare method extrapolate range npoints = (d, Err ValueError)) /\
  (forall q rest, load p = Ok (q :: rest) -> forall range npoints x, sampling load pyfloat d out range npoints x q).
Proof.
  intros until out. intros Hi Hl Hc Ho. destruct cols as [|x y]; [congruence|]. split; [|split].
  - intros e He. unfold interp. rewrite Hi. fold out. unfold interp_data. rewrite Hl. cbv beta iota delta [rbind]. unfold points. rewrite Ho, He. reflexivity.
  - intros He. unfold interp. rewrite Hi. fold out. unfold interp_data. rewrite Hl. cbv beta iota delta [rbind]. unfold points. rewrite Ho, He. reflexivity.
  - intros q rest He r n x'. eapply by_output; [exact Ho|exact He].
Qed.
Theorem C135_format_after_kill : forall load save interpolate lorenz input output suffix ds tstep tmax no_rt method calculate gap d p, let out := suffixed output input suffix (Some (S_ ".txt")) in
  d out = Some p ->
  (forall e, load p = Err e -> format load save interpolate lorenz d input output suffix ds tstep tmax no_rt method calculate gap = (d, Err e)) /\
  (load p = Ok [] -> format load save interpolate lorenz d input output suffix ds tstep tmax no_rt method calculate gap = (d, Err ValueError)) /\
  (forall q rest, load p = Ok (q :: rest) -> forall d', format load save interpolate lorenz d input output suffix ds tstep tmax no_rt method calculate gap = (d', Ok tt) -> exists names cols, d' out = Some (save (S_ "T" :: names) (q :: cols))).
Proof.
  intros until out. intros Ho. split; [|split].
  - intros e He. unfold format. fold out. unfold format_temps. rewrite Ho, He. reflexivity.
  - intros He. unfold format. fold out. unfold format_temps. rewrite Ho, He. reflexivity.
  - intros q rest He d' R0. unfold format in R0. fold out in R0. unfold format_temps in R0. rewrite Ho, He in R0. cbv beta iota delta [rbind] in R0. destruct (table interpolate lorenz ds q method calculate gap) as [cs|e] eqn:T; [|discriminate]. injection R0 as <-.
    assert (H : exists rest', cs = (S_ "T", q) :: rest').
    { unfold table in T. destruct (three_methods method) as [ms|e]; [|discriminate]. cbv beta iota delta [rbind] in T. destruct (column interpolate ds q _) as [oC|e]; [|discriminate]. destruct (column interpolate ds q _) as [oS|e]; [|discriminate]. destruct (column interpolate ds q _) as [oK|e]; [|discriminate].
      destruct calculate; [|injection T as <-; eexists; reflexivity]. destruct oC, oS, oK; try discriminate. destruct (calculated _ _ _ _ _ _ _ _ _) as [m|e]; [|discriminate]. injection T as <-. eexists. reflexivity. }
    destruct H as (r & ->). cbn [map fst snd]. exists (map fst r), (map snd r). apply write_same.
Qed.
(** removing what was left behind repairs it, if the outputs were not there before *)
Theorem C135_removed : forall (A : Type) (c : disk -> disk * A) inputs fs w r d, plan c inputs fs w r -> (forall n, In n inputs -> In n (map fst w) -> fs n = None) -> attempts w fs d ->
  forall d', (forall m, (In m (map fst w) -> d' m = None) /\ (~ In m (map fst w) -> d' m = d m)) -> snd (c d') = r /\ snd (c fs) = r /\ forall m, fst (c d') m = fst (c fs) m.
Proof.
  intros A c inputs fs w r d P O K d' H. assert (Out : forall k, ~ In k (map fst w) -> d' k = fs k) by (intros k Hk; rewrite (proj2 (H k) Hk); exact (attempts_other _ _ _ _ K Hk)).
  assert (Hi : forall n, In n inputs -> d' n = fs n). { intros n Hn. destruct (in_dec (list_eq_dec ascii_dec) n (map fst w)) as [J|J]; [rewrite (O n Hn J); exact (proj1 (H n) J)|exact (Out n J)]. }
  destruct (P d' Hi) as (W1 & R1). destruct (P fs (fun _ _ => eq_refl)) as (W2 & R2). split; [exact R1|]. split; [exact R2|].
  intros m. rewrite W1, W2. apply written_agree. exact Out.
Qed.

(** ** what a file that was cut says *)
(** what the commands write: comment lines, and lines of numbers *)
Definition printed {X} (num : X -> str) (rows : list (list X)) (text : str) : Prop :=
  exists comments, Forall one_line comments /\ text = text_of (map (cons "#"%char) comments ++ map (number_line num) rows).
Theorem C135_tables : forall (X : Type) (num : X -> str) rows,
  (forall stamp title labels headers bare, stamp <> [] -> one_line stamp -> one_line title -> Forall one_line labels -> bare = true \/ headers = false -> printed num rows (to_file num stamp bare headers title labels rows)) /\
  forall header, printed num rows (savetxt num (S_ "# ") header rows).
Proof.
  intros X num rows. split.
  - intros stamp title labels headers bare N Hs Ht Hl Hb. assert (Hc := caption_clean _ _ Ht Hs). assert (Hk := label_clean _ Hl).
    destruct Hb as [-> | ->]; [exists []; split; [constructor|exact (C113_bare X num stamp title labels headers rows)]|]. destruct bare; [exists []; split; [constructor|exact (C113_bare X num stamp title labels false rows)]|].
    assert (Y := C113_default X num stamp title labels rows N Hs Ht Hl). exists (caption title stamp :: match label_line labels with [] => [] | l => [l] end). split.
    + constructor; [exact Hc|]. destruct (label_line labels); [constructor|constructor; [exact Hk|constructor]].
    + rewrite Y. destruct (label_line labels); reflexivity.
  - intros header. destruct header as [|c h]; [exists []; split; [constructor|exact (savetxt_bare num (S_ "# ") rows)]|].
    set (ls := split_each (is_ch newline) [] (c :: h)). assert (Hls : has_lines (c :: h) ls) by (apply has_lines_iff; reflexivity).
    exists (map (cons " "%char) ls). split.
    + destruct Hls as (_ & F & _). apply Forall_forall. intros l Hl. apply in_map_iff in Hl as (k & <- & Hk). rewrite Forall_forall in F. intros [E|E]; [discriminate|exact (F k Hk E)].
    + rewrite (savetxt_text num (S_ "# ") (c :: h) ls rows ltac:(discriminate) Hls). rewrite map_map. reflexivity.
Qed.
Theorem C135_cut : forall (X : Type) (num : X -> str) rows text p, (forall x, plain (num x)) -> Forall (fun r => r <> []) rows -> printed num rows text -> prefix_of p text ->
  exists k, (k <= List.length rows)%nat /\ (data_rows p (map (map num) (firstn k rows)) \/
    exists r j x u v, nth_error rows k = Some r /\ nth_error r j = Some x /\ num x = u ++ v /\ u <> [] /\ data_rows p (map (map num) (firstn k rows) ++ [map num (firstn j r) ++ [u]])).
Proof.
  intros X num rows text p Hn Hr (hs & Hh & Q) (q & E). rewrite Q in E. destruct (cut_text num Hn hs rows p q Hh Hr E) as (k & Lk & [D|(r & j & x & u & v & A & B & C & F & D)]); exists k; (split; [exact Lk|]).
  - left. apply rows_iff. exact D.
  - right. exists r, j, x, u, v. repeat (split; [assumption|]). apply rows_iff. exact D.
Qed.
(** read back as numbers: an error, or the first rows, or the first rows and one whose last number was cut; such a row is complete, except if it is the only one *)
Theorem C135_cut_load : forall (X Y : Type) (num : X -> str) (pyfloat : str -> res Y) (value : X -> Y) rows w text p,
  (forall x, plain (num x)) -> (forall x, pyfloat (num x) = Ok (value x)) -> Forall (fun r => r <> [] /\ List.length r = w) rows -> printed num rows text -> prefix_of p text ->
  (exists e, loadtxt pyfloat p = Err e) \/
  exists k, (k <= List.length rows)%nat /\ (loadtxt pyfloat p = Ok (map (map value) (firstn k rows)) \/
    exists r j x u v y, nth_error rows k = Some r /\ nth_error r j = Some x /\ num x = u ++ v /\ u <> [] /\ pyfloat u = Ok y /\ (k = 0%nat \/ S j = w) /\
      loadtxt pyfloat p = Ok (map (map value) (firstn k rows) ++ [map value (firstn j r) ++ [y]])).
Proof.
  intros X Y num pyfloat value rows w text p Hn Hv Hr Hb Hp.
  assert (R1 : Forall (fun r => r <> []) rows) by (eapply Forall_impl; [|exact Hr]; intros r (A & _); exact A).
  assert (R2 : forall r, In r rows -> List.length r = w) by (rewrite Forall_forall in Hr; intros r Hi; apply (Hr r Hi)).
  assert (M1 : forall r, mapM pyfloat (map num r) = Ok (map value r)) by (induction r as [|a r IH]; [reflexivity|]; cbn [map mapM]; rewrite Hv; cbv beta iota delta [rbind]; rewrite IH; reflexivity).
  assert (M2 : forall rs tl vs, mapM (mapM pyfloat) tl = Ok vs -> mapM (mapM pyfloat) (map (map num) rs ++ tl) = Ok (map (map value) rs ++ vs)).
  { intros rs tl vs Et. induction rs as [|r rs IH]; [exact Et|]. cbn [map app mapM]. rewrite M1. cbv beta iota delta [rbind]. rewrite IH. reflexivity. }
  assert (M3 : forall rs tl e, mapM (mapM pyfloat) tl = Err e -> mapM (mapM pyfloat) (map (map num) rs ++ tl) = Err e).
  { intros rs tl e Et. induction rs as [|r rs IH]; [exact Et|]. cbn [map app mapM]. rewrite M1. cbv beta iota delta [rbind]. rewrite IH. reflexivity. }
  assert (M4 : forall r tl, mapM pyfloat (map num r ++ tl) = match mapM pyfloat tl with Ok vs => Ok (map value r ++ vs) | Err e => Err e end).
  { intros r tl. induction r as [|a r IH]; [cbn; destruct (mapM pyfloat tl); reflexivity|]. cbn [map app mapM]. rewrite Hv. cbv beta iota delta [rbind]. rewrite IH. destruct (mapM pyfloat tl); reflexivity. }
  destruct (C135_cut X num rows text p Hn R1 Hb Hp) as (k & Lk & [D|(r & j & x & u & v & A & B & C & F & D)]); apply rows_iff in D.
  - right. exists k. split; [exact Lk|]. left. unfold loadtxt. rewrite D. rewrite <- (app_nil_r (map (map num) (firstn k rows))). rewrite (M2 _ [] [] eq_refl), app_nil_r. cbv beta iota delta [rbind].
    assert (R3 : forall r, In r (firstn k rows) -> List.length r = w) by (intros r Hi; apply R2; rewrite <- (firstn_skipn k); apply in_or_app; left; exact Hi).
    destruct (firstn k rows) as [|r0 rs]; [reflexivity|]. cbn [map]. assert (Fb : forallb (fun q => Nat.eqb (List.length q) (List.length (map value r0))) (map (map value) rs) = true); [|rewrite Fb; reflexivity].
    apply forallb_forall. intros z Hz. apply in_map_iff in Hz as (b & <- & Hb2). apply Nat.eqb_eq. rewrite !map_length. rewrite (R3 b) by (right; exact Hb2). rewrite (R3 r0) by (left; reflexivity). reflexivity.
  - destruct (pyfloat u) as [y|e] eqn:Eu.
    2:{ left. exists e. unfold loadtxt. rewrite D. rewrite (M3 _ _ e); [reflexivity|]. cbn [mapM]. rewrite M4. cbn [mapM]. rewrite Eu. reflexivity. }
    assert (Ej : (j < List.length r)%nat) by (apply nth_error_Some; congruence). assert (Hrw : List.length r = w) by (apply R2; exact (nth_error_In _ _ A)).
    assert (MM : mapM (mapM pyfloat) (map (map num) (firstn k rows) ++ [map num (firstn j r) ++ [u]]) = Ok (map (map value) (firstn k rows) ++ [map value (firstn j r) ++ [y]])).
    { apply M2. cbn [mapM]. rewrite M4. cbn [mapM]. rewrite Eu. reflexivity. }
    assert (R3 : forall r, In r (firstn k rows) -> List.length r = w) by (intros z Hi; apply R2; rewrite <- (firstn_skipn k); apply in_or_app; left; exact Hi).
    assert (Ll : List.length (map value (firstn j r) ++ [y]) = S j) by (rewrite app_length, map_length, firstn_length; cbn; lia).
    remember (firstn k rows) as fk eqn:Ef. symmetry in Ef. destruct fk as [|r0 rs].
    + right. exists k. split; [exact Lk|]. right. exists r, j, x, u, v, y. repeat (split; [assumption|]). split.
      * left. destruct k as [|k]; [reflexivity|]. destruct rows as [|r1 rows]; [cbn in Lk; lia|cbn in Ef; discriminate Ef].
      * rewrite ?Ef. unfold loadtxt. rewrite D, MM. reflexivity.
    + destruct (Nat.eq_dec (S j) w) as [Ew|Ew].
      * right. exists k. split; [exact Lk|]. right. exists r, j, x, u, v, y. repeat (split; [assumption|]). split; [right; exact Ew|]. rewrite ?Ef. unfold loadtxt. rewrite D, MM. cbv beta iota delta [rbind]. cbn [map app].
        assert (Fb : forallb (fun q => Nat.eqb (List.length q) (List.length (map value r0))) (map (map value) rs ++ [map value (firstn j r) ++ [y]]) = true); [|rewrite Fb; reflexivity].
        apply forallb_forall. intros z Hz. apply Nat.eqb_eq. rewrite map_length, (R3 r0) by (left; reflexivity). apply in_app_or in Hz as [Hz|[<-|[]]].
        -- apply in_map_iff in Hz as (b & <- & Hb2). rewrite map_length. apply R3. right. exact Hb2.
        -- rewrite Ll. exact Ew.
      * left. exists ValueError. unfold loadtxt. rewrite D, MM. cbv beta iota delta [rbind]. cbn [map app].
        assert (Fb : forallb (fun q => Nat.eqb (List.length q) (List.length (map value r0))) (map (map value) rs ++ [map value (firstn j r) ++ [y]]) = false); [|rewrite Fb; reflexivity].
        rewrite forallb_app. cbn [forallb]. rewrite Ll, map_length, (R3 r0) by (left; reflexivity). replace (Nat.eqb (S j) w) with false by (symmetry; apply Nat.eqb_neq; exact Ew). rewrite andb_false_l, andb_false_r. reflexivity.
Qed.
(** cases: two files; the second is cut after one letter *)
Example C135_case : let w := [(S_ "a", S_ "one"); (S_ "b", S_ "two")] in let fs : disk := fun m => if eqb m (S_ "b") then Some (S_ "old") else None in
  NoDup (map fst w) /\ exists d, killed fs w d /\ d (S_ "a") = Some (S_ "one") /\ d (S_ "b") = Some (S_ "t") /\ left_behind fs w d.
Proof.
  cbv zeta. assert (N : NoDup (map fst [(S_ "a", S_ "one"); (S_ "b", S_ "two")])) by (repeat constructor; cbn; intuition discriminate). split; [exact N|].
  destruct (C135_reached (fun m => if eqb m (S_ "b") then Some (S_ "old") else None) [(S_ "a", S_ "one")] (S_ "b") (S_ "t") (S_ "two") [] (ex_intro _ (S_ "wo") eq_refl)) as (_ & d & K & D).
  exists d. split; [exact K|]. split; [rewrite D; reflexivity|]. split; [rewrite D; reflexivity|]. exact (C135_left_behind _ _ _ N K).
Qed.
Example C135_case_rerun : let fs : disk := fun m => if eqb m (S_ "in.txt") then Some (S_ "1 2") else None in forall d w r,
  plan (fun fs => refine (fun _ => None) (S_ "now") fs (S_ "in.txt") None (S_ "refine") true None) [S_ "in.txt"] fs w r -> attempts w fs d -> (forall n, In n [S_ "in.txt"] -> ~ In n (map fst w)) ->
  fst (refine (fun _ => None) (S_ "now") d (S_ "in.txt") None (S_ "refine") true None) (S_ "in_refine.txt") = Some (S_ "1 2" ++ [lf]).
Proof. cbv zeta. intros d w r P K O. destruct (C135_rerun _ _ _ _ _ _ _ P O K) as (_ & _ & E). rewrite E. reflexivity. Qed.
Example C135_case_cut : exists p, prefix_of p (to_file (fun b : bool => if b then S_ "1.0" else S_ "2.5") (S_ "now") false false (S_ "Mixed") [S_ "T"; S_ "C"] [[true; false]; [false; false]]) /\ data_rows p [[S_ "1.0"; S_ "2.5"]; [S_ "2.5"; S_ "2"]].
Proof.
  set (t := to_file _ _ _ _ _ _ _). exists (firstn (List.length t - 3) t). split; [exists (skipn (List.length t - 3) t); symmetry; apply firstn_skipn|]. apply rows_iff. vm_compute. reflexivity.
Qed.
Print Assumptions C135_left_behind.
Print Assumptions C135_reached.
Print Assumptions C135_old_lost.
Print Assumptions C135_finished.
Print Assumptions C135_rerun.
Print Assumptions C135_same_attempt.
Print Assumptions C135_refine.
Print Assumptions C135_extend.
Print Assumptions C135_cutoff.
Print Assumptions C135_ztdev.
Print Assumptions C135_engout.
Print Assumptions C135_simulation.
Print Assumptions C135_modelling.
Print Assumptions C135_kappa.
Print Assumptions C135_interp.
Print Assumptions C135_format.
Print Assumptions C135_interp_after_kill.
Print Assumptions C135_format_after_kill.
Print Assumptions C135_removed.
Print Assumptions C135_tables.
Print Assumptions C135_cut.
Print Assumptions C135_cut_load.
