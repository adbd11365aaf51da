(** C110, C111, C112: tef-format (src/teflow/interface.py). *)
From Coq Require Import ZArith Reals Lra String Ascii Permutation Sorted.
From Verif Require Import Py PyStr RUtil CfgSpec CfgModel CfgProofs KvarSpec KvarModel KvarProofs DataModel SubsModel SubsProofs Regex InstrSpec InstrModel InstrProofs MonoModel InterpSpec InterpModel InterpProofs InterpProps ZtModel EngModel TxtSpec TxtModel TxtProofs TxtProps CliSpec CliModel CliProofs CliProps FmtSpec FmtModel FmtProofs.
Local Open Scope list_scope.
Local Open Scope R_scope.
(** an order as used by the interpolation *)
Lemma arranged_ordering : ordering_by_T arranged.
Proof.
  intros t. split; [apply arranged_perm|]. split; [apply arranged_nondecr|]. intros M. unfold arranged. destruct (any_decrease t) eqn:E; [|reflexivity]. apply any_decrease_iff in E as (i & Li & D). specialize (M i Li). lra.
Qed.
Section Format.
Variable load : str -> res (list (list R)).
Variable save : list str -> list (list R) -> str.
Variable interpolate : str -> list R -> list R -> list R -> res (list R).
Variable lorenz : option R -> list R -> list R -> list R -> list R -> res (list R * list R * list R).
Notation run := (format load save interpolate lorenz).

(** ** C110: temperatures *)
(** the temperatures of the output: those of an existing output file, else an automatic series *)
Inductive temperatures (fs : str -> option str) (out : str) (temps : list (list R)) (tstep : R) (tmax : option R) (no_rt : bool) : list R -> Prop :=
| t_output text T rest : fs out = Some text -> load text = Ok (T :: rest) -> temperatures fs out temps tstep tmax no_rt T
| t_auto m T : fs out = None -> 0 < tstep -> temps <> [] -> Forall (fun t => t <> []) temps -> highest tmax temps m -> auto_series tstep m no_rt T -> T <> [] -> temperatures fs out temps tstep tmax no_rt T.
Lemma auto_ok tstep m no_rt T : auto_series tstep m no_rt T -> T <> [] -> auto_temps tstep m no_rt = Ok T.
Proof.
  intros (n & H & E) N. unfold auto_temps. unfold series_start in *. destruct (Rlt_dec 23 tstep) as [L|L].
  - assert (X := nearest_unique _ _ _ H (round_even_nearest _)). rewrite <- X. destruct no_rt; cbn [app] in E; unfold progression in E; rewrite <- E; destruct T; congruence.
  - assert (X := nearest_unique _ _ _ H (round_even_nearest _)). rewrite <- X. cbn [app] in E; unfold progression in E; rewrite <- E; destruct T; congruence.
Qed.
Lemma temps_ok fs out d tstep tmax no_rt T : temperatures fs out (ds_temps d) tstep tmax no_rt T -> format_temps load fs out d tstep tmax no_rt = Ok T.
Proof.
  intros [text T' rest E L|m T' E P N F H A Ne]; unfold format_temps; rewrite E.
  - rewrite L. reflexivity.
  - rewrite (t_max_ok _ _ _ N F H). cbn [rbind]. apply auto_ok; assumption.
Qed.
(** the automatic series: it exists and is unique, increases in constant steps (after room temperature), ends within half a step of the maximum *)
Theorem C110_series : forall tstep m no_rt, 0 < tstep ->
  (exists T, auto_series tstep m no_rt T /\ forall T', auto_series tstep m no_rt T' -> T' = T) /\
  forall T, auto_series tstep m no_rt T -> StronglySorted Rlt T /\
    (series_start tstep - tstep / 2 < m -> T <> [] /\ Rabs (last T 0 - m) <= tstep / 2) /\
    (m < series_start tstep - tstep / 2 -> T = (if Rlt_dec 23 tstep then (if no_rt then [] else [300]) else [])).
Proof.
  clear load save interpolate lorenz. intros tstep m no_rt P. split.
  - eexists. split; [eexists; split; [apply round_even_nearest|reflexivity]|]. intros T' (n & H & ->). rewrite (nearest_unique _ _ _ H (round_even_nearest _)). reflexivity.
  - intros T (n & (H & _) & ->). apply abs_inv in H.
    assert (I : forall a k, StronglySorted Rlt (map (fun i => a + INR i * tstep) (seq k (Z.to_nat (n + 1))))).
    { intros a. induction (Z.to_nat (n + 1)) as [|j IH]; intros k; cbn [seq map]; constructor; [apply IH|]. apply Forall_forall. intros x Hx. apply in_map_iff in Hx as (i & <- & Hi). apply in_seq in Hi. assert (L : INR k < INR i) by (apply lt_INR; lia). apply Rplus_lt_compat_l, Rmult_lt_compat_r; assumption. }
    set (s := series_start tstep) in *. set (q := (m - s) / tstep) in *. assert (Eq : m = s + q * tstep) by (unfold q; field; lra).
    split; [|split].
    + specialize (I s 0%nat). fold (progression s tstep (Z.to_nat (n + 1))) in I. destruct (Rlt_dec 23 tstep) as [L|L]; [|exact I]. destruct no_rt; [exact I|]. cbn [app]. constructor; [exact I|]. assert (Es : s = 323) by (unfold s, series_start; destruct (Rlt_dec 23 tstep); [reflexivity|contradiction]). apply Forall_forall. intros x Hx. apply in_map_iff in Hx as (i & <- & Hi). assert (0 <= INR i) by apply pos_INR. rewrite Es. assert (0 <= INR i * tstep) by (apply Rmult_le_pos; lra). lra.
    + intros L. assert (Lq : - (1 / 2) < q). { apply (Rmult_lt_reg_r tstep); [exact P|]. lra. } assert (Ln : (- 1 < n)%Z) by (apply lt_IZR; lra). replace (Z.to_nat (n + 1)) with (S (Z.to_nat n)) by lia. unfold progression. rewrite seq_S, map_app. cbn [map]. rewrite app_assoc. split; [intros X; apply app_eq_nil in X as (_ & X); discriminate|]. rewrite last_last. rewrite Nat.add_0_l, INR_IZR_INZ, Z2Nat.id by lia. rewrite Eq. replace (s + IZR n * tstep - (s + q * tstep)) with (- (q - IZR n) * tstep) by ring. rewrite Rabs_mult, Rabs_Ropp. rewrite (Rabs_pos_eq tstep) by lra. replace (tstep / 2) with (1 / 2 * tstep) by lra. apply Rmult_le_compat_r; [lra|]. apply Rabs_le. lra.
    + intros L. assert (Lq : q < - (1 / 2)). { apply (Rmult_lt_reg_r tstep); [exact P|]. lra. } assert (Ln : (n < 0)%Z) by (apply lt_IZR; lra). replace (Z.to_nat (n + 1)) with 0%nat by lia. cbn [progression seq map]. apply app_nil_r.
Qed.
(** the series may go beyond the data *)
Theorem C110_beyond : auto_series 25 337 false [300; 323; 348].
Proof.
  clear load save interpolate lorenz. exists 1%Z. unfold series_start. destruct (Rlt_dec 23 25) as [_|N]; [|lra]. split.
  - split; [|intros E]; replace ((337 - 323) / 25) with (14 / 25) in * by lra; rewrite ?Rabs_left in * by lra; lra.
  - unfold progression. change (Z.to_nat (1 + 1)) with 2%nat. cbn [seq map app]. cbn [INR]. repeat f_equal; lra.
Qed.
(** an automatic series without any temperature *)
Theorem C110_empty : forall fs input output suffix d tstep tmax m no_rt method calculate gap, fs (suffixed output input suffix (Some (S_ ".txt"))) = None -> 0 < tstep -> ds_temps d <> [] -> Forall (fun t => t <> []) (ds_temps d) -> highest tmax (ds_temps d) m -> auto_series tstep m no_rt [] ->
  run fs input output suffix d tstep tmax no_rt method calculate gap = (fs, Err IndexError).
Proof.
  intros until gap. intros Hf P N F H (n & X & E). unfold format, format_temps. rewrite Hf, (t_max_ok _ _ _ N F H). cbn [rbind]. unfold auto_temps. unfold series_start, progression in *. destruct (Rlt_dec 23 tstep) as [L|L]; assert (Y := nearest_unique _ _ _ X (round_even_nearest _)); rewrite <- Y; [destruct no_rt|]; cbn [app] in E; try rewrite <- E; try reflexivity. discriminate.
Qed.
(** whatever the other options, the first column written holds these temperatures *)
Theorem C110_used : forall fs input output suffix d tstep tmax no_rt method calculate gap fs' T, let out := suffixed output input suffix (Some (S_ ".txt")) in
  temperatures fs out (ds_temps d) tstep tmax no_rt T -> run fs input output suffix d tstep tmax no_rt method calculate gap = (fs', Ok tt) ->
  exists names cols, fs' out = Some (save (S_ "T" :: names) (T :: cols)).
Proof.
  intros until T. intros out Ht. unfold format. fold out. rewrite (temps_ok _ _ _ _ _ _ _ Ht). cbn [rbind]. destruct (table _ _ _ _ _ _ _) as [cols|e] eqn:E; [|intros H; discriminate H]. intros H.
  assert (Hf : fs' = write fs out (save (map fst cols) (map snd cols))) by congruence. subst fs'. clear H.
  assert (X : exists r, cols = (S_ "T", T) :: r).
  { unfold table in E. destruct (three_methods method) as [ms|]; [|discriminate]. cbn [rbind] in E. destruct (column _ _ _ (S_ "C", _)) as [oC|]; [|discriminate]. cbn [rbind] in E.
    destruct (column _ _ _ (S_ "S", _)) as [oS|]; [|discriminate]. cbn [rbind] in E. destruct (column _ _ _ (S_ "K", _)) as [oK|]; [|discriminate]. cbn [rbind] in E.
    destruct calculate; [|eexists; symmetry; injection E as E; exact E]. destruct oC as [vC|]; [|discriminate]. destruct oS as [vS|]; [|discriminate]. destruct oK as [vK|]; [|discriminate].
    destruct (calculated _ _ _ _ _ _ _ _ _) as [more|]; [|discriminate]. cbn [rbind] in E. eexists. injection E as E. rewrite <- E. reflexivity. }
  destruct X as (r & ->). exists (map fst r), (map snd r). unfold write. rewrite eqb_refl. reflexivity.
Qed.
Theorem C110_no_data : forall fs input output suffix d tstep tmax no_rt method calculate gap, fs (suffixed output input suffix (Some (S_ ".txt"))) = None -> tmax = None \/ tmax = Some 0 ->
  ds_temps d = [] \/ In [] (ds_temps d) -> run fs input output suffix d tstep tmax no_rt method calculate gap = (fs, Err ValueError).
Proof.
  intros until gap. intros Hf Ht Hd. unfold format, format_temps. rewrite Hf.
  assert (E : t_max tmax d = Err ValueError).
  { unfold t_max. assert (Et : (match tmax with Some t => if Req_EM_T t 0 then None else Some t | None => None end) = None) by (destruct Ht as [->| ->]; [reflexivity|destruct (Req_EM_T 0 0); [reflexivity|congruence]]). rewrite Et. destruct Hd as [Hd|Hd]; [rewrite Hd; reflexivity|].
    assert (M : mapM max_list (ds_temps d) = Err ValueError); [|rewrite M; reflexivity]. revert Hd. generalize (ds_temps d). intros l. induction l as [|x l IH]; intros Hd; [destruct Hd|]. cbn [mapM]. destruct x as [|r x]; [reflexivity|]. cbn [max_list rbind]. destruct Hd as [Hd|Hd]; [discriminate|]. rewrite (IH Hd). reflexivity. }
  rewrite E. reflexivity.
Qed.

(** ** C111: methods and columns *)
Lemma interp1_ok m tp T v : resampled interpolate arranged m tp T v -> interp1 interpolate m tp T = Ok v.
Proof.
  destruct tp as (t, p). intros (L & E & H). cbn [fst snd] in *. unfold interp1. cbn [fst snd]. assert (Lt : (List.length t <? 2)%nat = false) by (apply Nat.ltb_ge; exact L). rewrite Lt. rewrite vinterp_ok.
  - cbn [rbind map]. rewrite !vals_some. exact H.
  - intros r [<-|[]]. rewrite !map_length. exact E.
  - apply finite_some.
  - intros r [<-|[]]. apply finite_some.
  - apply finite_some.
Qed.
Lemma column_ok d T n m v : resampled_if interpolate arranged m (ds_get d n) T v -> column interpolate d T (n, m) = Ok v.
Proof.
  unfold resampled_if, column. cbn [fst snd]. destruct (ds_get d n) as [tp|], v as [x|]; try contradiction; [|reflexivity]. intros H. rewrite (interp1_ok _ _ _ _ H). reflexivity.
Qed.
Theorem C111_result : exists ordering, ordering_by_T ordering /\
  forall fs input output suffix d tstep tmax no_rt method gap T mC mS mK vC vS vK,
  let out := suffixed output input suffix (Some (S_ ".txt")) in
  temperatures fs out (ds_temps d) tstep tmax no_rt T -> method_choice method mC mS mK ->
  resampled_if interpolate ordering mC (ds_get d (S_ "C")) T vC -> resampled_if interpolate ordering mS (ds_get d (S_ "S")) T vS -> resampled_if interpolate ordering mK (ds_get d (S_ "K")) T vK ->
  exists fs', run fs input output suffix d tstep tmax no_rt method false gap = (fs', Ok tt) /\ same_except fs fs' out /\
    let cols := (S_ "T", T) :: named (S_ "C") vC ++ named (S_ "S") vS ++ named (S_ "K") vK in fs' out = Some (save (map fst cols) (map snd cols)).
Proof.
  exists arranged. split; [apply arranged_ordering|]. intros until vK. intros out HT Hm HC HS HK. unfold format. fold out. rewrite (temps_ok _ _ _ _ _ _ _ HT). cbn [rbind]. unfold table. rewrite (three_ok _ _ _ _ Hm). cbn [rbind nth]. rewrite (column_ok _ _ _ _ _ HC). cbn [rbind]. rewrite (column_ok _ _ _ _ _ HS). cbn [rbind]. rewrite (column_ok _ _ _ _ _ HK). cbv beta iota zeta delta [rbind].
  eexists. split; [reflexivity|]. split; [apply write_other|]. apply write_same.
Qed.
Theorem C111_all_or_nothing : forall fs input output suffix d tstep tmax no_rt method calculate gap fs' e, run fs input output suffix d tstep tmax no_rt method calculate gap = (fs', Err e) -> fs' = fs.
Proof. intros until e. unfold format. destruct (let! T := format_temps load fs (suffixed output input suffix (Some (S_ ".txt"))) d tstep tmax no_rt in table interpolate lorenz d T method calculate gap) as [c|]; [discriminate|intros [= <- _]; reflexivity]. Qed.
(** wrong methods: none, two, or one that is unknown *)
Theorem C111_bad_method : forall fs input output suffix d tstep tmax no_rt method calculate gap T ws, temperatures fs (suffixed output input suffix (Some (S_ ".txt"))) (ds_temps d) tstep tmax no_rt T -> tokens is_space method ws ->
  List.length ws = 0%nat \/ List.length ws = 2%nat \/ (List.length ws <> 2%nat /\ exists w, In w (firstn 3 ws) /\ forall m, ~ method_word w m) ->
  run fs input output suffix d tstep tmax no_rt method calculate gap = (fs, Err ValueError).
Proof.
  intros until ws. intros HT Tk H. assert (NE : Forall (fun w => w <> []) ws) by (clear -Tk; induction Tk; constructor; assumption).
  unfold format. rewrite (temps_ok _ _ _ _ _ _ _ HT). cbn [rbind]. unfold table. assert (E : three_methods method = Err ValueError).
  { unfold three_methods. apply words_iff in Tk. rewrite Tk. clear Tk HT. assert (Y : forall l, Forall (fun w => w <> []) l -> (exists w, In w l /\ forall m, ~ method_word w m) -> mapM one_method l = Err ValueError).
    { clear. intros l F (w & Hin & Hw). induction F as [|v l Hv F IH]; [destruct Hin|]. cbn [mapM]. destruct (one_method v) as [m|e] eqn:E.
      - destruct Hin as [->|Hin]; [exfalso; apply (Hw m), one_method_iff, E|]. cbn [rbind]. rewrite (IH Hin). reflexivity.
      - assert (X : one_method v = Err ValueError) by (apply one_method_err; [exact Hv|]; intros m Hm; apply one_method_iff in Hm; congruence). rewrite X in E. injection E as <-. reflexivity. }
    destruct ws as [|a [|b [|c rest]]]; [reflexivity| |reflexivity|].
    - destruct H as [H|[H|(_ & w & Hin & Hw)]]; [discriminate|discriminate|]. cbn [rbind]. inversion NE; subst. apply Y; [repeat constructor; assumption|]. exists w. split; [destruct Hin as [->|[]]; left; reflexivity|exact Hw].
    - destruct H as [H|[H|(_ & w & Hin & Hw)]]; [discriminate|discriminate|]. cbn [rbind]. apply Y; [|exists w; split; [exact Hin|exact Hw]]. inversion NE as [|? ? A NE2]; subst. inversion NE2 as [|? ? B NE3]; subst. inversion NE3; subst. repeat constructor; assumption. }
  rewrite E. reflexivity.
Qed.
(** method names: any word that starts with the right letter will do; only the last character of a polynomial counts *)
Theorem C111_method_names :
  method_word (S_ "cubic") (S_ "cubic") /\ method_word (S_ "polynomial3") (S_ "poly3") /\ method_word (S_ "poly12") (S_ "poly2") /\ method_word (S_ "37") (S_ "poly3") /\ method_word (S_ "pchi") (S_ "pchip") /\ method_word (S_ "poly") (S_ "polyY") /\ method_word (S_ "lagrange") (S_ "linear") /\
  (forall w m m', method_word w m -> method_word w m' -> m = m') /\ (forall m, ~ method_word (S_ "spline") m) /\ (forall m, ~ method_word (S_ "0") m).
Proof.
  clear load save interpolate lorenz. repeat match goal with |- _ /\ _ => split end; try (apply one_method_iff; reflexivity).
  - intros w m m' A B. apply one_method_iff in A, B. congruence.
  - intros m A. apply one_method_iff in A. discriminate.
  - intros m A. apply one_method_iff in A. discriminate.
Qed.
(** asking for calculated quantities without C, S or K *)
Theorem C111_missing : exists ordering, ordering_by_T ordering /\
  forall fs input output suffix d tstep tmax no_rt method gap T mC mS mK vC vS vK,
  temperatures fs (suffixed output input suffix (Some (S_ ".txt"))) (ds_temps d) tstep tmax no_rt T -> method_choice method mC mS mK ->
  resampled_if interpolate ordering mC (ds_get d (S_ "C")) T vC -> resampled_if interpolate ordering mS (ds_get d (S_ "S")) T vS -> resampled_if interpolate ordering mK (ds_get d (S_ "K")) T vK ->
  vC = None \/ vS = None \/ vK = None -> run fs input output suffix d tstep tmax no_rt method true gap = (fs, Err ValueError).
Proof.
  exists arranged. split; [apply arranged_ordering|]. intros until vK. intros HT Hm HC HS HK Hn. unfold format. rewrite (temps_ok _ _ _ _ _ _ _ HT). cbn [rbind]. unfold table. rewrite (three_ok _ _ _ _ Hm). cbn [rbind nth]. rewrite (column_ok _ _ _ _ _ HC). cbn [rbind]. rewrite (column_ok _ _ _ _ _ HS). cbn [rbind]. rewrite (column_ok _ _ _ _ _ HK). cbv beta iota zeta delta [rbind].
  destruct vC, vS, vK; try reflexivity. intuition discriminate.
Qed.

(** ** C112: calculated quantities *)
Lemma calc_ZTave_ok Cv Sv Kv T n : List.length Cv = n -> List.length Sv = n -> List.length Kv = n -> List.length T = n -> valued n (mean_merit Cv Sv Kv T) (calc_ZTave Cv Sv Kv T (calc_ZT (calc_PF Cv Sv) Kv T)).
Proof.
  clear load save interpolate lorenz. intros LC LS LK LT. destruct (calc_ZT_ok Cv Sv Kv T n LC LS LK LT) as (_ & VZ). unfold calc_ZTave. split; [rewrite map_length, seq_length; exact LT|]. intros i L.
  match goal with |- nth i (map ?f _) 0 = _ => rewrite (nth_indep _ 0 (f 0%nat)) by (rewrite map_length, seq_length; lia); rewrite (map_nth f) end. rewrite seq_nth by lia. rewrite Nat.add_0_l. cbv zeta beta. unfold mean_merit. rewrite !ctrapz_nth by (rewrite ?map_length; lia). cbv zeta. rewrite VZ by exact L.
  destruct (Rlt_dec 1e-3 (Rabs (trapezoid T Kv i))) as [G|G]; [|reflexivity]. rewrite (nth_indep _ 0 ((fun t => (nth 0 T 0 + t) / 2) 0)) by (rewrite map_length; lia). rewrite (map_nth (fun t => (nth 0 T 0 + t) / 2)). reflexivity.
Qed.
Lemma calc_CF_ok Cv Sv Kv T n : List.length Cv = n -> List.length Sv = n -> List.length Kv = n -> List.length T = n -> valued n (compatibility Cv Sv Kv T) (calc_CF (calc_ZT (calc_PF Cv Sv) Kv T) Sv T).
Proof.
  clear load save interpolate lorenz. intros LC LS LK LT. destruct (calc_ZT_ok Cv Sv Kv T n LC LS LK LT) as (LZ & VZ). unfold calc_CF. eapply valued_ext; [|apply (zip2_valued (fun zs t => 1e6 * (sqrt (1 + fst zs) - 1) / (snd zs * t)) (combine (calc_ZT (calc_PF Cv Sv) Kv T) Sv) T (0, 0) 0 n); [rewrite combine_length; lia|exact LT]].
  intros i L. cbv beta. rewrite combine_nth by congruence. cbn [fst snd]. rewrite VZ by exact L. reflexivity.
Qed.
(** L, Ke and Kp: from the band model; if the data have a column L, from the K data *)
Definition lorenz_columns (ordering : list R -> list nat) (d : dataset) (mS : str) (gap : option R) (T Cv Sv Kv L Ke Kp : list R) : Prop :=
  if ds_has d (S_ "L") then
    exists tp, ds_get d (S_ "K") = Some tp /\ resampled interpolate ordering mS tp T L /\ List.length L = List.length T /\ valued (List.length T) (fun i => 1e-6 * nth i L 0 * nth i Cv 0 * nth i T 0) Ke /\ valued (List.length T) (fun i => nth i Kv 0 - nth i Ke 0) Kp
  else lorenz gap (map Rabs T) (map Rabs Cv) (map Rabs Sv) (map Rabs Kv) = Ok (L, Ke, Kp).
Theorem C112_result : exists ordering, ordering_by_T ordering /\
  forall fs input output suffix d tstep tmax no_rt method gap T mC mS mK vC vS vK L Ke Kp,
  let out := suffixed output input suffix (Some (S_ ".txt")) in let n := List.length T in
  temperatures fs out (ds_temps d) tstep tmax no_rt T -> method_choice method mC mS mK ->
  resampled_if interpolate ordering mC (ds_get d (S_ "C")) T (Some vC) -> resampled_if interpolate ordering mS (ds_get d (S_ "S")) T (Some vS) -> resampled_if interpolate ordering mK (ds_get d (S_ "K")) T (Some vK) ->
  List.length vC = n -> List.length vS = n -> List.length vK = n -> lorenz_columns ordering d mS gap T vC vS vK L Ke Kp ->
  exists fs' PF ZT ZTave CF, run fs input output suffix d tstep tmax no_rt method true gap = (fs', Ok tt) /\ same_except fs fs' out /\
    fs' out = Some (save [S_ "T"; S_ "C"; S_ "S"; S_ "K"; S_ "L"; S_ "Ke"; S_ "Kp"; S_ "PF"; S_ "ZT"; S_ "ZTave"; S_ "CF"] [T; vC; vS; vK; L; Ke; Kp; PF; ZT; ZTave; CF]) /\
    valued n (power_factor vC vS) PF /\ valued n (merit vC vS vK T) ZT /\ valued n (mean_merit vC vS vK T) ZTave /\ valued n (compatibility vC vS vK T) CF.
Proof.
  exists arranged. split; [apply arranged_ordering|]. intros until Kp. intros out n HT Hm HC HS HK LC LS LK HL. unfold format. fold out. rewrite (temps_ok _ _ _ _ _ _ _ HT). cbn [rbind]. unfold table. rewrite (three_ok _ _ _ _ Hm). cbn [rbind nth]. rewrite (column_ok _ _ _ _ _ HC). cbn [rbind]. rewrite (column_ok _ _ _ _ _ HS). cbn [rbind]. rewrite (column_ok _ _ _ _ _ HK). cbv beta iota zeta delta [rbind].
  assert (E : calculated interpolate lorenz d [mC; mS; mK] gap T vC vS vK = let PF := calc_PF vC vS in let ZT := calc_ZT PF vK T in
    Ok [(S_ "L", L); (S_ "Ke", Ke); (S_ "Kp", Kp); (S_ "PF", PF); (S_ "ZT", ZT); (S_ "ZTave", calc_ZTave vC vS vK T ZT); (S_ "CF", calc_CF ZT vS T)]).
  { unfold calculated. unfold lorenz_columns in HL. destruct (ds_has d (S_ "L")).
    - destruct HL as (tp & Hk & HL & LL & VKe & VKp). rewrite Hk. cbn [nth]. rewrite (interp1_ok _ _ _ _ HL). cbv beta iota zeta delta [rbind].
      assert (EKe : zip2 (fun lc t => lc * t) (zip2 (fun l c => 1e-6 * l * c) L vC) T = Ke). { assert (A := zip2_valued (fun l c => 1e-6 * l * c) L vC 0 0 n LL LC). destruct A as (A & A'). eapply valued_unique; [|exact VKe]. eapply valued_ext; [|apply (zip2_valued (fun lc t => lc * t) _ T 0 0 n A eq_refl)]. intros i Hi. cbv beta. rewrite A' by exact Hi. reflexivity. }
      rewrite EKe. assert (EKp : zip2 Rminus vK Ke = Kp). { eapply valued_unique; [|exact VKp]. eapply valued_ext; [|apply (zip2_valued Rminus vK Ke 0 0 n LK (proj1 VKe))]. reflexivity. }
      rewrite EKp. reflexivity.
    - rewrite HL. reflexivity. }
  rewrite E. cbv beta iota zeta delta [rbind]. do 5 eexists. split; [reflexivity|]. split; [apply write_other|]. split; [apply write_same|]. split; [apply calc_PF_ok; assumption|]. split; [apply calc_ZT_ok; (assumption || reflexivity)|]. split; [apply calc_ZTave_ok; (assumption || reflexivity)|apply calc_CF_ok; (assumption || reflexivity)].
Qed.
(** relations between the calculated quantities *)
Lemma nth_rep (c : R) n i : (i < n)%nat -> nth i (repeat c n) 0 = c.
Proof. clear. revert i. induction n as [|n IH]; intros i L; [lia|]. destruct i as [|i]; [reflexivity|]. cbn [repeat nth]. apply IH. lia. Qed.
Lemma trapezoid_const T c i : (i < List.length T)%nat -> trapezoid T (repeat c (List.length T)) i = c * (nth i T 0 - nth 0 T 0).
Proof.
  clear. induction i as [|i IH]; intros L; [cbn; lra|]. cbn [trapezoid]. rewrite IH by lia. rewrite !nth_rep by lia. lra.
Qed.
Theorem C112_relations : forall Cv Sv Kv T i, (i < List.length T)%nat -> nth i Kv 0 <> 0 -> nth i Sv 0 <> 0 -> 0 < nth i T 0 -> 0 < nth i Kv 0 -> 0 <= nth i Cv 0 ->
  merit Cv Sv Kv T i = 1e-4 * power_factor Cv Sv i * nth i T 0 / nth i Kv 0 /\ 0 <= merit Cv Sv Kv T i /\ mean_merit Cv Sv Kv T 0 = merit Cv Sv Kv T 0 /\
  (1 + 1e-6 * compatibility Cv Sv Kv T i * nth i Sv 0 * nth i T 0) ^ 2 = 1 + merit Cv Sv Kv T i.
Proof.
  clear. intros Cv Sv Kv T i L NK NS PT PK PC. assert (E1 : merit Cv Sv Kv T i = 1e-4 * power_factor Cv Sv i * nth i T 0 / nth i Kv 0). { unfold merit, power_factor, Rdiv. set (k := / nth i Kv 0). clearbody k. lra. }
  assert (P : 0 <= merit Cv Sv Kv T i). { unfold merit. apply Rmult_le_pos; [|lra]. apply Rmult_le_pos; [|left; apply Rinv_0_lt_compat; exact PK]. apply Rmult_le_pos; [apply Rmult_le_pos; lra|apply pow2_ge_0]. }
  split; [exact E1|]. split; [exact P|]. split.
  - unfold mean_merit. cbn [trapezoid]. cbv zeta. rewrite Rabs_R0. destruct (Rlt_dec 1e-3 0); [lra|reflexivity].
  - unfold compatibility. set (z := merit Cv Sv Kv T i) in *. clearbody z. set (r := sqrt (1 + z)). assert (Er : r * r = 1 + z) by (apply sqrt_sqrt; lra). set (s := nth i Sv 0) in *. set (t := nth i T 0) in *. clearbody s t r. assert (Ht : t <> 0) by lra.
    assert (X : 1e-6 * (1e6 * (r - 1) / (s * t)) * s * t = r - 1). { assert (D : forall w, w / (s * t) * (s * t) = w) by (intros w; field; split; assumption). specialize (D (1e6 * (r - 1))). set (q := 1e6 * (r - 1) / (s * t)) in *. clearbody q. lra. }
    rewrite X. replace (1 + (r - 1)) with r by lra. cbn [pow]. lra.
Qed.
(** constant properties: the average is the figure of merit at the mean of the lowest and the current temperature *)
Theorem C112_constant : forall c s k T i, (i < List.length T)%nat -> 0 < c -> 0 < k -> nth 0 T 0 < nth i T 0 -> let n := List.length T in let Cv := repeat c n in let Sv := repeat s n in let Kv := repeat k n in
  1e-3 < k * (nth i T 0 - nth 0 T 0) -> mean_merit Cv Sv Kv T i = 1e-10 * c * s ^ 2 / k * ((nth 0 T 0 + nth i T 0) / 2).
Proof.
  clear. intros c s k T i L Pc Pk LT n Cv Sv Kv H. unfold mean_merit. assert (EC : map (fun c => 1e4 / c) Cv = repeat (1e4 / c) n). { unfold Cv. clear. induction n as [|n IH]; [reflexivity|]. cbn [repeat map]. rewrite IH. reflexivity. }
  rewrite EC. unfold Kv, Sv, n in *. rewrite !trapezoid_const by exact L. cbv zeta. set (t0 := nth 0 T 0) in *. set (t := nth i T 0) in *. clearbody t0 t.  rewrite Rabs_pos_eq by lra. destruct (Rlt_dec 1e-3 (k * (t - t0))) as [_|N]; [|lra].
  set (u := t - t0) in *. assert (Pu : 0 < u) by (unfold u; lra). clearbody u. set (a := (t0 + t) / 2). clearbody a. assert (A := Rinv_r c ltac:(lra)). assert (B := Rinv_r k ltac:(lra)). assert (U := Rinv_r u ltac:(lra)).
  set (ic := / c) in *. set (ik := / k) in *. assert (Hic : ic <> 0) by (apply Rinv_neq_0_compat; lra). replace (1e4 / c) with (1e4 * ic) by reflexivity. assert (D : forall w v, v <> 0 -> w / v = w * / v) by reflexivity.
  assert (Nz : 1e4 * ic * u * (k * u) <> 0). { assert (Pi : 0 < ic) by (apply Rinv_0_lt_compat; exact Pc). apply Rgt_not_eq. apply Rmult_lt_0_compat; [apply Rmult_lt_0_compat; [lra|exact Pu]|apply Rmult_lt_0_compat; assumption]. }
  apply (Rmult_eq_reg_r (1e4 * ic * u * (k * u))); [|exact Nz]. assert (G : forall w, w / (1e4 * ic * u * (k * u)) * (1e4 * ic * u * (k * u)) = w) by (intros w; set (v := 1e4 * ic * u * (k * u)) in *; clearbody v; field; exact Nz). rewrite G.
  replace (1e-10 * c * s ^ 2 / k) with (1e-10 * c * s ^ 2 * ik) by reflexivity. replace (1e-10 * c * s ^ 2 * ik * a * (1e4 * ic * u * (k * u))) with (1e-6 * (s * u) ^ 2 * a * ((c * ic) * (k * ik))) by lra. rewrite A, B. lra.
Qed.
(** finding: with data of L in the input, the column L holds the values of K (resampled with the method of S); if both methods are the same, L equals K *)
Theorem C112_L_is_K : forall ordering d m T vK gap vC vS L Ke Kp, ds_has d (S_ "L") = true -> resampled_if interpolate ordering m (ds_get d (S_ "K")) T (Some vK) -> lorenz_columns ordering d m gap T vC vS vK L Ke Kp -> L = vK.
Proof.
  intros ordering d m T vK gap vC vS L Ke Kp Hh HK HL. unfold lorenz_columns in HL. rewrite Hh in HL. destruct HL as (tp & Hk & (_ & _ & E) & _). rewrite Hk in HK. destruct HK as (_ & _ & E'). congruence.
Qed.
End Format.
Print Assumptions C110_series.
Print Assumptions C110_beyond.
Print Assumptions C110_empty.
Print Assumptions C110_no_data.
Print Assumptions C110_used.
Print Assumptions C111_result.
Print Assumptions C111_all_or_nothing.
Print Assumptions C111_bad_method.
Print Assumptions C111_method_names.
Print Assumptions C111_missing.
Print Assumptions C112_result.
Print Assumptions C112_relations.
Print Assumptions C112_constant.
Print Assumptions C112_L_is_K.
(** conductivity only, measured at 300, 400 and 500 K, default steps of 50 K *)
Example C110_case : forall load, temperatures load (fun _ => None) (S_ "a_format.txt") [[300; 400; 500]] 50 None false [300; 323; 373; 423; 473; 523].
Proof.
  intros load. apply (t_auto load _ _ _ _ _ _ 500); [reflexivity|lra|discriminate|repeat constructor; discriminate| |  |discriminate].
  - right. split; [left; reflexivity|]. cbn [List.concat app]. split; [cbn; tauto|]. intros t [<-|[<-|[<-|[]]]]; lra.
  - exists 4%Z. unfold series_start. destruct (Rlt_dec 23 50) as [_|N]; [|lra]. split.
    + split; [|intros E]; replace ((500 - 323) / 50) with (354 / 100) in * by lra; rewrite ?Rabs_left in * by lra; lra.
    + unfold progression. change (Z.to_nat (4 + 1)) with 5%nat. cbn [seq map app]. cbn [INR]. repeat f_equal; lra.
Qed.
Example C111_case : forall load save lorenz, let d := {| ds_temps := [[300; 400; 500]]; ds_get := fun n => if eqb n (S_ "C") then Some ([300; 400; 500], [1; 2; 3]) else None; ds_has := fun n => eqb n (S_ "C") |} in
  let interpolate := fun (m : str) (x y p : list R) => if eqb m (S_ "pchip") then Ok (map (fun t => t / 100 - 2) p) else Err ValueError in
  exists fs', format load save interpolate lorenz (fun _ => None) (S_ "a.dat") None (S_ "format") d 50 None false (S_ " pchip ") false None = (fs', Ok tt) /\
    fs' (S_ "a_format.txt") = Some (save [S_ "T"; S_ "C"] [[300; 323; 373; 423; 473; 523]; map (fun t => t / 100 - 2) [300; 323; 373; 423; 473; 523]]) /\
    format load save interpolate lorenz (fun _ => None) (S_ "a.dat") None (S_ "format") d 50 None false (S_ " pchip ") true None = (fun _ => None, Err ValueError).
Proof.
  intros load save lorenz d interpolate.
  assert (HT := C110_case load). assert (Hm : method_choice (S_ " pchip ") (S_ "pchip") (S_ "pchip") (S_ "pchip")) by (apply (mc_one _ (S_ "pchip")); [apply words_iff; reflexivity|apply one_method_iff; reflexivity]).
  assert (P : forall o, resampled_if interpolate o (S_ "pchip") (ds_get d (S_ "C")) [300; 323; 373; 423; 473; 523] (Some (map (fun t => t / 100 - 2) [300; 323; 373; 423; 473; 523]))) by (intros o; split; [cbn; lia|]; split; reflexivity).
  assert (Q : forall o, resampled_if interpolate o (S_ "pchip") (ds_get d (S_ "S")) [300; 323; 373; 423; 473; 523] None) by (intros o; exact I). assert (Q' : forall o, resampled_if interpolate o (S_ "pchip") (ds_get d (S_ "K")) [300; 323; 373; 423; 473; 523] None) by (intros o; exact I).
  destruct (C111_result load save interpolate lorenz) as (o & _ & H). destruct (H (fun _ => None) (S_ "a.dat") None (S_ "format") d 50 None false (S_ " pchip ") None _ _ _ _ _ _ _ HT Hm (P o) (Q o) (Q' o)) as (fs' & E & _ & W). exists fs'. split; [exact E|]. split; [exact W|].
  destruct (C111_missing load save interpolate lorenz) as (o' & _ & H'). exact (H' (fun _ => None) (S_ "a.dat") None (S_ "format") d 50 None false (S_ " pchip ") None _ _ _ _ _ _ _ HT Hm (P o') (Q o') (Q' o') (or_intror (or_introl eq_refl))).
Qed.
(** constant properties 1000 S/cm, 200 uV/K, 2 W/m/K at the temperatures of an existing output file *)
Example C112_case : forall save, let d := {| ds_temps := [[300; 500]]; ds_get := fun n => if eqb n (S_ "C") then Some ([300; 500], [1000; 1000]) else if eqb n (S_ "S") then Some ([300; 500], [200; 200]) else if eqb n (S_ "K") then Some ([300; 500], [2; 2]) else None; ds_has := fun _ => false |} in
  let interpolate := fun (m : str) (x y p : list R) => Ok (map (fun _ => nth 0 y 0) p) in let fs := fun n => if eqb n (S_ "a_format.txt") then Some (S_ "300 400") else None in
  exists fs' ZT ZTave rest, format (fun _ => Ok [[300; 400]]) save interpolate (fun _ _ _ _ _ => Ok ([2; 2], [1; 1], [1; 1])) fs (S_ "a.dat") None (S_ "format") d 25 None false (S_ "cubic") true None = (fs', Ok tt) /\
    fs' (S_ "a_format.txt") = Some (save [S_ "T"; S_ "C"; S_ "S"; S_ "K"; S_ "L"; S_ "Ke"; S_ "Kp"; S_ "PF"; S_ "ZT"; S_ "ZTave"; S_ "CF"] ([300; 400] :: [1000; 1000] :: [200; 200] :: [2; 2] :: [2; 2] :: [1; 1] :: [1; 1] :: fst rest :: ZT :: ZTave :: snd rest)) /\
    nth 0 ZT 0 = 0.6 /\ nth 1 ZT 0 = 0.8 /\ nth 0 ZTave 0 = 0.6 /\ nth 1 ZTave 0 = 0.7.
Proof.
  intros save d interpolate fs.
  assert (HT : temperatures (fun _ => Ok [[300; 400]]) fs (S_ "a_format.txt") [[300; 500]] 25 None false [300; 400]) by (eapply t_output; reflexivity). assert (Hm : method_choice (S_ "cubic") (S_ "cubic") (S_ "cubic") (S_ "cubic")) by (apply (mc_one _ (S_ "cubic")); [apply words_iff; reflexivity|apply one_method_iff; reflexivity]).
  destruct (C112_result (fun _ => Ok [[300; 400]]) save interpolate (fun _ _ _ _ _ => Ok ([2; 2], [1; 1], [1; 1]))) as (o & Ho & H).
  assert (P : forall n c, resampled_if interpolate o n (Some ([300; 500], [c; c])) [300; 400] (Some [c; c])).
  { intros n c. split; [cbn; lia|]. split; [reflexivity|]. destruct (Ho [300; 500]) as (_ & _ & E). cbn [fst snd]. rewrite E; [reflexivity|]. intros [|[|i]] Hi; cbn in *; try lia; lra. }
  destruct (H fs (S_ "a.dat") None (S_ "format") d 25 None false (S_ "cubic") None [300; 400] (S_ "cubic") (S_ "cubic") (S_ "cubic") [1000; 1000] [200; 200] [2; 2] [2; 2] [1; 1] [1; 1] HT Hm (P _ _) (P _ _) (P _ _) eq_refl eq_refl eq_refl eq_refl) as (fs' & PF & ZT & ZTave & CF & E & _ & W & _ & (_ & VZ) & (_ & VA) & _).
  exists fs', ZT, ZTave, (PF, [CF]). split; [exact E|]. split; [exact W|]. rewrite (VZ 0%nat), (VZ 1%nat), (VA 0%nat), (VA 1%nat) by (cbn; lia). unfold merit. cbn [nth]. split; [lra|]. split; [lra|].
  split; [unfold mean_merit; cbn [trapezoid]; cbv zeta; rewrite Rabs_R0; destruct (Rlt_dec 1e-3 0); [lra|]; unfold merit; cbn [nth]; lra|].
  change [1000; 1000] with (repeat 1000 (List.length [300; 400])). change [200; 200] with (repeat 200 (List.length [300; 400])). change [2; 2] with (repeat 2 (List.length [300; 400])). rewrite C112_constant; cbn [nth]; [lra|cbn; lia|lra..].
Qed.
