(** C108, C109: tef-interp and tef-cutoff (src/teflow/interface.py). *)
From Coq Require Import ZArith Reals Lra String Ascii Permutation Sorted.
From Verif Require Import Py PyStr RUtil CfgSpec CfgModel CfgProofs KvarSpec KvarModel KvarProofs DataModel SubsModel SubsProofs Regex InstrSpec InstrModel InstrProofs MonoModel InterpSpec InterpModel InterpProofs InterpProps FuncModel FuncProps TxtSpec TxtModel TxtProofs TxtProps CliSpec CliModel CliProofs.
Local Open Scope list_scope.
Local Open Scope R_scope.
Section Commands.
Variable load : str -> res (list (list R)).
Variable save : option str -> list (list R) -> str.
Variable pyfloat : str -> res R.
Variable pyint : str -> option Z.
Variable stamp : str.
Variable interpolate : str -> option R -> list R -> list R -> list R -> res (list R).
Notation run := (interp load save pyfloat stamp interpolate).

(** ** C108: tef-interp *)
Lemma cells_colon r a b c : cells ":"%char r [a; b; c] -> split_each (is_ch colon) [] (strip r) = [a; b; c].
Proof. intros (N & F & T). apply strip_iff in T. rewrite T. apply (split_each_join colon); assumption. Qed.
Lemma points_ok fs out range npoints x p : sampling load pyfloat fs out range npoints x p -> points load pyfloat fs out range npoints x = Ok p.
Proof.
  intros [text p' rest E L|r a b c start step stop l E -> C A B C' P|l E N Hx Hn Hl]; unfold points; rewrite E.
  - rewrite L. reflexivity.
  - assert (Hr : r <> []). { intros ->. assert (X := cells_colon _ _ _ _ C). discriminate. } destruct r as [|r0 r]; [congruence|]. rewrite (cells_colon _ _ _ _ C). rewrite A, B, C'. cbn [rbind]. destruct (arange_points start step stop (proj1 P)) as (l' & E' & P'). rewrite E'. f_equal. apply (range_points_unique start step stop); assumption.
  - assert (X : (match range with Some ((_ :: _) as r) => match split_each (is_ch colon) [] (strip r) with [a; b; c] => let! start := pyfloat a in let! step := pyfloat b in let! stop := pyfloat c in arange start (stop + 0.001 * step) step | _ => Err ValueError end | _ => let! a := first x in let! b := lst x in linspace a b npoints end) = (let! a := first x in let! b := lst x in linspace a b npoints)) by (destruct N; subst; reflexivity).
    rewrite X. destruct (exists_last Hx) as (x' & xl & Ex). rewrite Ex, lst_ok, last_last in *. destruct (linspace_evenly (hd 0 (x' ++ [xl])) xl npoints Hn) as (l' & E' & P'). assert (F : first (x' ++ [xl]) = Ok (hd 0 (x' ++ [xl]))) by (destruct x'; reflexivity). rewrite F. cbn [rbind]. rewrite E'. f_equal. apply (evenly_unique (hd 0 (x' ++ [xl])) xl (Z.to_nat npoints)); assumption.
Qed.
Lemma mapM_id_ok {A} (l : list (res A)) ys : Forall2 (fun r y => r = Ok y) l ys -> mapM (fun r => r) l = Ok ys.
Proof. apply mapM_forall2. Qed.
Lemma vals_some l : vals (map Some l) = l.
Proof. unfold vals. rewrite map_map. apply map_id. Qed.
Lemma finite_some l : all_finite (map Some l).
Proof. intros o Ho. apply in_map_iff in Ho as (v & <- & _). discriminate. Qed.

Definition sel (l : list R) (idx : list nat) : list R := map (fun i => nth i l 0) idx.
Lemma interp_columns_ok method fill x ys p : (2 <= List.length x)%nat -> ys <> [] -> Forall (fun y => List.length y = List.length x) ys ->
  exists idx, Permutation idx (seq 0 (List.length x)) /\ StronglySorted Rle (sel x idx) /\ ((forall i, (S i < List.length x)%nat -> nth i x 0 <= nth (S i) x 0) -> forall l, List.length l = List.length x -> sel l idx = l) /\
    forall zs, Forall2 (fun y z => interpolate method fill (sel x idx) (sel y idx) p = Ok z) ys zs -> interp_columns interpolate method fill x ys p = Ok zs.
Proof.
  intros L N F. exists (arranged x). split; [apply arranged_perm|]. split; [apply arranged_nondecr|]. split.
  - intros M l El. unfold arranged. destruct (any_decrease x) eqn:E.
    + apply any_decrease_iff in E as (i & Li & D). specialize (M i Li). lra.
    + rewrite <- El. apply take_seq.
  - intros zs H. unfold interp_columns. destruct ys as [|y0 ys0] eqn:Ey; [congruence|]. rewrite <- Ey in *. assert (Lt : (List.length x <? 2)%nat = false) by (apply Nat.ltb_ge; exact L). rewrite Lt.
    rewrite vinterp_ok.
    + cbn [rbind]. rewrite !vals_some, map_map. apply mapM_id_ok. clear -H. induction H as [|y z ys zs E _ IH]; constructor; [rewrite vals_some; exact E|exact IH].
    + intros r Hr. apply in_map_iff in Hr as (y & <- & Hy). rewrite !map_length. rewrite Forall_forall in F. apply F, Hy.
    + apply finite_some.
    + intros r Hr. apply in_map_iff in Hr as (y & <- & Hy). apply finite_some.
    + apply finite_some.
Qed.
Lemma is_linear m : (eqb m (S_ "linear") || eqb m (S_ "line"))%bool = true <-> linear_method m.
Proof. rewrite orb_true_iff, !eqb_eq. reflexivity. Qed.
Lemma method_in m : In m allowed_methods -> existsb (eqb m) methods = true.
Proof. intros H. apply existsb_exists. exists m. split; [exact H|]. apply eqb_refl. Qed.
Definition header (bare : bool) (method : str) : option str := if bare then None else Some (S_ "Interpolate via " ++ method ++ S_ " method - " ++ stamp).
Theorem C108_result : forall fs input output suffix bare method extrapolate range npoints text x ys p fill,
  fs input = Some text -> load text = Ok (x :: ys) -> (2 <= List.length x)%nat -> ys <> [] -> Forall (fun y => List.length y = List.length x) ys ->
  let out := suffixed output input suffix None in
  sampling load pyfloat fs out range npoints x p -> In method allowed_methods -> fill_value pyfloat method extrapolate fill ->
  exists idx, Permutation idx (seq 0 (List.length x)) /\ StronglySorted Rle (sel x idx) /\ ((forall i, (S i < List.length x)%nat -> nth i x 0 <= nth (S i) x 0) -> forall l, List.length l = List.length x -> sel l idx = l) /\
    forall zs, Forall2 (fun y z => interpolate method fill (sel x idx) (sel y idx) p = Ok z) ys zs ->
      exists fs', run fs input output suffix bare method extrapolate range npoints = (fs', Ok tt) /\ same_except fs fs' out /\
        fs' out = Some (save (header bare method) (if bare then zs else p :: zs)).
Proof.
  intros fs input output suffix bare method extrapolate range npoints text x ys p fill Hf Hl Hx Hy Hrect out Hp Hm Hfill. destruct (interp_columns_ok method fill x ys p Hx Hy Hrect) as (idx & P & So & Id & H). exists idx. split; [exact P|]. split; [exact So|]. split; [exact Id|]. intros zs Hz. specialize (H zs Hz).
  unfold interp. rewrite Hf. fold out. assert (E : interp_data load pyfloat interpolate fs text out bare method extrapolate range npoints = Ok (if bare then zs else p :: zs)).
  { unfold interp_data. rewrite Hl. cbn [rbind]. rewrite (points_ok _ _ _ _ _ _ Hp). cbn [rbind]. rewrite (method_in _ Hm). cbn [negb]. destruct Hfill as [(NL & ->)|(Li & e & v & -> & He & Hv & ->)].
    - destruct (eqb method (S_ "linear") || eqb method (S_ "line"))%bool eqn:B; [exfalso; apply NL, is_linear, B|]. rewrite H. reflexivity.
    - apply is_linear in Li. rewrite Li. destruct e as [|c e]; [congruence|]. rewrite Hv. cbn [rbind]. rewrite H. reflexivity. }
  rewrite E. eexists. split; [reflexivity|]. split; [apply write_other|apply write_same].
Qed.
(** whatever fails, no file is touched *)
Theorem C108_all_or_nothing : forall fs input output suffix bare method extrapolate range npoints fs' e, run fs input output suffix bare method extrapolate range npoints = (fs', Err e) -> fs' = fs.
Proof. intros until e. unfold interp. destruct (fs input) as [t|]; [|intros [= <- _]; reflexivity]. destruct (interp_data _ _ _ _ _ _ _ _ _ _ _) as [c|]; [discriminate|intros [= <- _]; reflexivity]. Qed.
(** the default method without a fill value never works *)
Theorem C108_linear_needs_value : forall fs input output suffix bare method extrapolate range npoints, linear_method method -> absent extrapolate ->
  (exists e, run fs input output suffix bare method extrapolate range npoints = (fs, Err e)) /\
  forall text x ys p zs, fs input = Some text -> load text = Ok (x :: ys) -> (2 <= List.length x)%nat -> ys <> [] -> Forall (fun y => List.length y = List.length x) ys ->
    sampling load pyfloat fs (suffixed output input suffix None) range npoints x p -> (forall i, (S i < List.length x)%nat -> nth i x 0 <= nth (S i) x 0) ->
    Forall2 (fun y z => interpolate method None x y p = Ok z) ys zs ->
    run fs input output suffix bare method extrapolate range npoints = (fs, Err TypeError).
Proof.
  intros fs input output suffix bare method extrapolate range npoints Li Ab. split.
  - destruct (run fs input output suffix bare method extrapolate range npoints) as [fs' [u|e]] eqn:E.
    + exfalso. unfold interp in E. destruct (fs input) as [text|]; [|discriminate]. unfold interp_data in E. destruct (load text) as [[|x y]|]; try discriminate. cbn [rbind] in E. destruct (points _ _ _ _ _ _ _) as [x2|]; [|discriminate]. cbn [rbind] in E. destruct (negb _); [discriminate|].
      apply is_linear in Li. rewrite Li in E. assert (X : (match extrapolate with Some ((_ :: _) as e) => let! v := pyfloat e in Ok (Some v) | _ => Ok None end) = Ok None) by (destruct Ab; subst; reflexivity). rewrite X in E. cbn [rbind] in E. destruct (interp_columns _ _ _ _ _ _); discriminate.
    + rewrite (C108_all_or_nothing _ _ _ _ _ _ _ _ _ _ _ E). exists e. reflexivity.
  - intros text x ys p zs Hf Hl Hx Hy Hrect Hp Mono Hz. unfold interp. rewrite Hf. set (out := suffixed output input suffix None) in *. assert (E : interp_data load pyfloat interpolate fs text out bare method extrapolate range npoints = Err TypeError); [|rewrite E; reflexivity].
    unfold interp_data. rewrite Hl. cbn [rbind]. rewrite (points_ok _ _ _ _ _ _ Hp). cbn [rbind]. assert (Hm : In method allowed_methods) by (destruct Li; subst; cbn; auto). rewrite (method_in _ Hm). cbn [negb]. apply is_linear in Li. rewrite Li. assert (X : (match extrapolate with Some ((_ :: _) as e) => let! v := pyfloat e in Ok (Some v) | _ => Ok None end) = Ok None) by (destruct Ab; subst; reflexivity). rewrite X. cbn [rbind].
    destruct (interp_columns_ok method None x ys p Hx Hy Hrect) as (idx' & _ & _ & Id & H). rewrite (H zs); [reflexivity|]. rewrite Forall_forall in Hrect. clear -Hz Id Mono Hrect. specialize (Id Mono). revert Hrect. induction Hz as [|y z ys zs E _ IH]; intros Hrect; constructor; [rewrite !Id by (try reflexivity; apply Hrect; left; reflexivity); exact E|apply IH; intros v Hv; apply Hrect; right; exact Hv].
Qed.
(** an unknown method *)
Theorem C108_unknown_method : forall fs input output suffix bare method extrapolate range npoints text x ys p, fs input = Some text -> load text = Ok (x :: ys) -> sampling load pyfloat fs (suffixed output input suffix None) range npoints x p -> ~ In method allowed_methods ->
  run fs input output suffix bare method extrapolate range npoints = (fs, Err ValueError).
Proof.
  intros until p. intros Hf Hl Hp Hm. unfold interp. rewrite Hf. unfold interp_data. rewrite Hl. cbn [rbind]. rewrite (points_ok _ _ _ _ _ _ Hp). cbn [rbind]. destruct (existsb (eqb method) methods) eqn:E; [|reflexivity]. exfalso. apply Hm. apply existsb_exists in E as (m & Hin & Q). apply eqb_eq in Q. subst. exact Hin.
Qed.
(** the range option: a range that hits its end has all points, the end included; two or four numbers are refused *)
Theorem C108_range : forall start step stop l, range_points start step stop l ->
  (forall n, stop = start + INR n * step -> l = progression start step (S n)) /\ (forall i, (i < List.length l)%nat -> nth i l 0 = start + INR i * step).
Proof.
  intros start step stop l (Hs & n & -> & H). split.
  - intros k ->. f_equal. replace ((start + INR k * step - start) / step) with (INR k) in H by (field; exact Hs). assert (A : (k < n)%nat) by (apply H; lra). assert (B : ~ (S k < n)%nat) by (rewrite H, S_INR; lra). lia.
  - intros i L. unfold progression in *. rewrite map_length, seq_length in L. rewrite (nth_indep _ 0 (start + INR 0 * step)) by (rewrite map_length, seq_length; exact L). rewrite (map_nth (fun i => start + INR i * step) (seq 0 n) 0%nat). rewrite seq_nth by exact L. reflexivity.
Qed.
Theorem C108_bad_range : forall fs input output suffix bare method extrapolate r npoints text x ys fields, fs input = Some text -> load text = Ok (x :: ys) -> fs (suffixed output input suffix None) = None -> r <> [] -> cells ":"%char r fields -> List.length fields <> 3%nat ->
  run fs input output suffix bare method extrapolate (Some r) npoints = (fs, Err ValueError).
Proof.
  intros until fields. intros Hf Hl Ho Hr (N & F & T) Hn. unfold interp. rewrite Hf. unfold interp_data. rewrite Hl. cbn [rbind]. unfold points. rewrite Ho. destruct r as [|c r]; [congruence|]. apply strip_iff in T. rewrite T. change (join [":"%char] fields) with (join [colon] fields). rewrite (split_each_join colon fields N F). destruct fields as [|a [|b [|d [|e fields]]]]; try reflexivity. cbn in Hn. congruence.
Qed.
(** running the command again: the points are those of the first output, whatever the options say; with --bare they are its first property column *)
Theorem C108_again : forall fs fs' input output suffix bare method extrapolate range npoints zs p rnd range' npoints' x', input <> suffixed output input suffix None ->
  let out := suffixed output input suffix None in
  run fs input output suffix bare method extrapolate range npoints = (fs', Ok tt) -> fs' out = Some (save (header bare method) (if bare then zs else p :: zs)) -> zs <> [] ->
  (forall h cols, load (save h cols) = Ok (map (map rnd) cols)) ->
  fs' input = fs input /\ sampling load pyfloat fs' out range' npoints' x' (map rnd (if bare then hd [] zs else p)).
Proof.
  intros until x'. intros Hne out Hrun Hout Hz Hrt. split.
  - unfold interp in Hrun. destruct (fs input) as [t|] eqn:Ei; [|discriminate]. destruct (interp_data _ _ _ _ _ _ _ _ _ _ _) as [c|]; [|discriminate]. injection Hrun as <-. rewrite <- Ei. apply write_other. exact Hne.
  - destruct zs as [|z zs]; [congruence|]. destruct bare; (eapply by_output; [exact Hout|rewrite Hrt; reflexivity]).
Qed.
End Commands.
Print Assumptions C108_result.
Print Assumptions C108_all_or_nothing.
Print Assumptions C108_linear_needs_value.
Print Assumptions C108_unknown_method.
Print Assumptions C108_range.
Print Assumptions C108_bad_range.
Print Assumptions C108_again.

Definition demo_load (t : str) : res (list (list R)) := Ok [[0; 1; 2]; [0; 10; 20]].
Definition demo_float (t : str) : res R := if eqb t (S_ "0") then Ok 0 else if eqb t (S_ "0.5") then Ok 0.5 else if eqb t (S_ "2") then Ok 2 else Err ValueError.
Definition demo_interp (m : str) (fill : option R) (x y p : list R) : res (list R) := Ok (map (fun v => v * 10) p).
Example C108_case : forall save stamp, let fs := fun n => if eqb n (S_ "d/a.txt") then Some (S_ "data") else None in
  let p := [0 + INR 0 * 0.5; 0 + INR 1 * 0.5; 0 + INR 2 * 0.5; 0 + INR 3 * 0.5; 0 + INR 4 * 0.5] in
  sampling demo_load demo_float fs (S_ "a_interp.txt") (Some (S_ "0:0.5:2")) 101 [0; 1; 2] p /\
  (exists fs', interp demo_load save demo_float stamp demo_interp fs (S_ "d/a.txt") None (S_ "interp") false (S_ "cubic") None (Some (S_ "0:0.5:2")) 101 = (fs', Ok tt) /\
    fs' (S_ "a_interp.txt") = Some (save (Some (S_ "Interpolate via cubic method - " ++ stamp)) [p; map (fun v => v * 10) p])) /\
  interp demo_load save demo_float stamp demo_interp fs (S_ "d/a.txt") None (S_ "interp") false (S_ "linear") None (Some (S_ "0:0.5:2")) 101 = (fs, Err TypeError).
Proof.
  intros save stamp fs p. assert (Hs : sampling demo_load demo_float fs (S_ "a_interp.txt") (Some (S_ "0:0.5:2")) 101 [0; 1; 2] p).
  { apply (by_range _ _ _ _ _ _ _ (S_ "0:0.5:2") (S_ "0") (S_ "0.5") (S_ "2") 0 0.5 2); try reflexivity.
    - apply cells_iff. reflexivity.
    - destruct (arange_points 0 0.5 2) as (l & _ & H); [lra|]. destruct (C108_range 0 0.5 2 l H) as (A & _). rewrite (A 4%nat) in H; [exact H|]. simpl INR. lra. }
  split; [exact Hs|]. split.
  - destruct (C108_result demo_load save demo_float stamp demo_interp fs (S_ "d/a.txt") None (S_ "interp") false (S_ "cubic") None (Some (S_ "0:0.5:2")) 101 (S_ "data") [0; 1; 2] [[0; 10; 20]] p None) as (idx & _ & _ & _ & H).
    + reflexivity.
    + reflexivity.
    + cbn. lia.
    + discriminate.
    + repeat constructor.
    + exact Hs.
    + cbn. auto.
    + left. split; [intros [X|X]; discriminate|reflexivity].
    + destruct (H [map (fun v => v * 10) p]) as (fs' & E & _ & W); [constructor; [reflexivity|constructor]|]. exists fs'. split; [exact E|exact W].
  - refine (proj2 (C108_linear_needs_value demo_load save demo_float stamp demo_interp fs (S_ "d/a.txt") None (S_ "interp") false (S_ "linear") None (Some (S_ "0:0.5:2")) 101 (or_introl eq_refl) (or_introl eq_refl)) (S_ "data") [0; 1; 2] [[0; 10; 20]] p [map (fun v => v * 10) p] eq_refl eq_refl _ _ _ Hs _ _).
    + cbn. lia.
    + discriminate.
    + repeat constructor.
    + intros [|[|i]] L; cbn in *; [lra|lra|lia].
    + constructor; [reflexivity|constructor].
Qed.

(** ** C109: tef-cutoff *)
Section Cutoff.
Variable pyint : str -> option Z.
Variable stamp : str.
Variable load_rows : str -> res (list (list R)).
Variable save_rows : option str -> list (list R) -> str.
Notation cut := (cutoff pyint stamp load_rows save_rows).
Lemma small_lower c : small c = lower c.
Proof. destruct c as [[] [] [] [] [] [] [] []]; vm_compute; reflexivity. Qed.
Lemma folded_lower m : folded m = map lower m. Proof. apply map_ext, small_lower. Qed.
(** the factor of a row at temperature [x] *)
Inductive factor (m : str) (tc width : R) : (R -> R) -> Prop :=
| factor_fd : fd_name m -> factor m tc width (fun x => 1 / (1 + exp (10 * (x - tc) / width)))
| factor_ss : ss_name m -> factor m tc width (fun x => let u := 1 / 2 - (x - tc) / width in if Rle_dec u 0 then 0 else if Rle_dec 1 u then 1 else 3 * u ^ 2 - 2 * u ^ 3).
(** the places of the chosen columns in rows of [n] numbers *)
Definition column_places (column : option str) (n : nat) (js : list nat) : Prop :=
  match column with
  | None => js = seq 1 (n - 1)
  | Some c => exists ws zs, tokens is_space c ws /\ Forall2 (fun w z => pyint w = Some z) ws zs /\ Forall2 (fun z j => (j < n)%nat /\ (z = Z.of_nat j \/ z = Z.of_nat j - Z.of_nat n)%Z) zs js
  end.
Lemma index_of_iff n z j : index_of n z = Some j <-> (j < n)%nat /\ (z = Z.of_nat j \/ z = Z.of_nat j - Z.of_nat n)%Z.
Proof.
  unfold index_of. split.
  - destruct ((0 <=? z) && (z <? Z.of_nat n))%Z eqn:A; [|destruct ((- Z.of_nat n <=? z) && (z <? 0))%Z eqn:B; [|discriminate]]; intros [= <-].
    + apply andb_true_iff in A as (A1 & A2). apply Z.leb_le in A1. apply Z.ltb_lt in A2. lia.
    + apply andb_true_iff in B as (B1 & B2). apply Z.leb_le in B1. apply Z.ltb_lt in B2. lia.
  - intros (L & [->| ->]).
    + assert (A : ((0 <=? Z.of_nat j) && (Z.of_nat j <? Z.of_nat n))%Z = true) by (apply andb_true_iff; split; [apply Z.leb_le|apply Z.ltb_lt]; lia). rewrite A. f_equal. lia.
    + assert (A : ((0 <=? Z.of_nat j - Z.of_nat n) && (Z.of_nat j - Z.of_nat n <? Z.of_nat n))%Z = false) by (apply andb_false_iff; left; apply Z.leb_gt; lia). assert (B : ((- Z.of_nat n <=? Z.of_nat j - Z.of_nat n) && (Z.of_nat j - Z.of_nat n <? 0))%Z = true) by (apply andb_true_iff; split; [apply Z.leb_le|apply Z.ltb_lt]; lia). rewrite A, B. f_equal. lia.
Qed.
Lemma places_ok column n js : (1 <= n)%nat -> column_places column n js -> exists zs, cut_columns pyint column n = Ok zs /\ mapM (place n) zs = Ok js.
Proof.
  intros Hn. unfold column_places, cut_columns. destruct column as [c|].
  - intros (ws & zs & T & F & G). exists zs. apply words_iff in T. rewrite T. split; [apply mapM_forall2; eapply forall2_mono; [|exact F]; intros w z E; unfold as_int; rewrite E; reflexivity|]. apply mapM_forall2. eapply forall2_mono; [|exact G]. intros z j H. unfold place. apply index_of_iff in H. rewrite H. reflexivity.
  - intros ->. eexists. split; [reflexivity|]. apply mapM_forall2. assert (B : forall j, In j (seq 1 (n - 1)) -> (j < n)%nat) by (intros j Hj; apply in_seq in Hj; lia). induction (seq 1 (n - 1)) as [|j l IH]; constructor; [|apply IH; intros; apply B; right; assumption]. unfold place. assert (X : index_of n (Z.of_nat j) = Some j) by (apply index_of_iff; split; [apply B; left; reflexivity|left; reflexivity]). rewrite X. reflexivity.
Qed.
Lemma is_fd m : existsb (eqb (map lower m)) [S_ "fd"; S_ "fermi-dirac"; S_ "fermidirac"] = true <-> fd_name m.
Proof. unfold fd_name. rewrite !folded_lower. cbn [existsb]. rewrite !orb_true_iff, !eqb_eq. intuition discriminate. Qed.
Lemma is_ss m : existsb (eqb (map lower m)) [S_ "ss"; S_ "smoothstep"] = true <-> ss_name m.
Proof. unfold ss_name. rewrite !folded_lower. cbn [existsb]. rewrite !orb_true_iff, !eqb_eq. intuition discriminate. Qed.
Lemma factor_ok m tc width f : width <> 0 -> factor m tc width f -> exists g, cut_factor m tc width = Ok g /\ forall x, g x = f x.
Proof.
  intros Hw [H|H]; unfold cut_factor.
  - apply is_fd in H. rewrite H. eexists. split; [reflexivity|]. intros x. cbv beta. rewrite (proj1 C14_fermidirac). do 3 f_equal. field. exact Hw.
  - assert (F : existsb (eqb (map lower m)) [S_ "fd"; S_ "fermi-dirac"; S_ "fermidirac"] = false). { apply not_true_is_false. intros X. apply is_fd in X. unfold fd_name, ss_name in *. destruct H as [H|H]; rewrite H in X; intuition discriminate. }
    rewrite F. apply is_ss in H. rewrite H. eexists. split; [reflexivity|]. intros x. cbv beta zeta. destruct (C15_smoothstep_values ((x - tc) / (width / 2))) as (_ & _ & _ & _ & _ & E). rewrite E. replace ((1 - (x - tc) / (width / 2)) / 2) with (1 / 2 - (x - tc) / width) by (field; exact Hw). set (u := 1 / 2 - (x - tc) / width). destruct (C15_smoothstep_values u) as (A & B & C & _). destruct (Rle_dec u 0) as [L|L]; [apply A, L|]. destruct (Rle_dec 1 u) as [G|G]; [apply B, G|]. apply C. lra.
Qed.
Definition cut_header (bare : bool) : option str := if bare then None else Some (S_ "Cut-off data - " ++ stamp).
Definition chosen (js : list nat) (i : nat) : bool := existsb (Nat.eqb i) js.
(** the rows written: all columns with the chosen ones multiplied once, or with --bare only the chosen ones, in the given order *)
Definition cut_rows (bare : bool) (js : list nat) (f : R -> R) (rows out : list (list R)) : Prop :=
  Forall2 (fun r o => if bare then o = map (fun j => nth j r 0 * f (nth 0 r 0)) js
                      else List.length o = List.length r /\ forall i, (i < List.length r)%nat -> nth i o 0 = if in_dec Nat.eq_dec i js then nth i r 0 * f (nth 0 r 0) else nth i r 0) rows out.
Lemma cut_row_ok js f g row : (forall x, g x = f x) -> List.length (cut_row false js g row) = List.length row /\ forall i, (i < List.length row)%nat -> nth i (cut_row false js g row) 0 = if in_dec Nat.eq_dec i js then nth i row 0 * f (nth 0 row 0) else nth i row 0.
Proof.
  intros E. unfold cut_row. rewrite E. set (k := f (nth 0 row 0)). clearbody k. split; [rewrite map_length, combine_length, seq_length, Nat.min_id; reflexivity|]. intros i L.
  rewrite (nth_indep _ 0 ((fun iv => if existsb (Nat.eqb (fst iv)) js then snd iv * k else snd iv) (0%nat, 0))) by (rewrite map_length, combine_length, seq_length, Nat.min_id; exact L). rewrite (map_nth (fun iv : nat * R => if existsb (Nat.eqb (fst iv)) js then snd iv * k else snd iv)). rewrite combine_nth by (rewrite seq_length; reflexivity). cbn [fst snd]. rewrite seq_nth by exact L. rewrite Nat.add_0_l.
  destruct (in_dec Nat.eq_dec i js) as [I|I].
  - assert (X : existsb (Nat.eqb i) js = true) by (apply existsb_exists; exists i; split; [exact I|apply Nat.eqb_refl]). rewrite X. reflexivity.
  - destruct (existsb (Nat.eqb i) js) eqn:X; [exfalso; apply I; apply existsb_exists in X as (j & Hj & Q); apply Nat.eqb_eq in Q; subst; exact Hj|reflexivity].
Qed.
Theorem C109_result : forall fs input output suffix bare method column tc width text rows n js f, fs input = Some text -> load_rows text = Ok rows -> rows <> [] -> (1 <= n)%nat -> Forall (fun r => List.length r = n) rows -> width <> 0 ->
  factor method tc width f -> column_places column n js ->
  let out := suffixed output input suffix None in
  exists fs' new, cut fs input output suffix bare method column tc width = (fs', Ok tt) /\ fs' out = Some (save_rows (cut_header bare) new) /\ cut_rows bare js f rows new /\ same_except fs fs' out.
Proof.
  intros until f. intros Hf Hl Hr Hn Hrect Hw Hm Hc out. destruct (factor_ok _ _ _ _ Hw Hm) as (g & Eg & Vg). destruct (places_ok _ _ _ Hn Hc) as (zs & Ez & Ej).
  assert (En : List.length (hd [] rows) = n) by (destruct Hrect; [congruence|assumption]).
  assert (E : cut_data pyint load_rows text bare method column tc width = Ok (map (cut_row bare js g) rows)) by (unfold cut_data; rewrite Hl; cbn [rbind]; rewrite Eg; cbn [rbind]; rewrite En, Ez; cbn [rbind]; rewrite Ej; reflexivity).
  unfold cutoff. rewrite Hf, E. do 2 eexists. split; [reflexivity|]. split; [apply write_same|]. split; [|apply write_other]. unfold cut_rows. clear -Vg. induction rows as [|r rows IH]; constructor; [|exact IH]. destruct bare; [unfold cut_row; rewrite Vg; reflexivity|]. apply cut_row_ok, Vg.
Qed.
Theorem C109_all_or_nothing : forall fs input output suffix bare method column tc width fs' e, cut fs input output suffix bare method column tc width = (fs', Err e) -> fs' = fs.
Proof. intros until e. unfold cutoff. destruct (fs input) as [t|]; [|intros [= <- _]; reflexivity]. destruct (cut_data _ _ _ _ _ _ _ _) as [c|]; [discriminate|intros [= <- _]; reflexivity]. Qed.
(** every other method name is refused; in particular the default "bz" *)
Theorem C109_method : forall fs input output suffix bare method column tc width text rows, fs input = Some text -> load_rows text = Ok rows -> ~ fd_name method -> ~ ss_name method ->
  cut fs input output suffix bare method column tc width = (fs, Err ValueError).
Proof.
  intros until rows. intros Hf Hl H1 H2. unfold cutoff. rewrite Hf. unfold cut_data. rewrite Hl. cbn [rbind]. unfold cut_factor. destruct (existsb (eqb (map lower method)) [S_ "fd"; S_ "fermi-dirac"; S_ "fermidirac"]) eqn:E1; [exfalso; apply H1, is_fd, E1|]. destruct (existsb (eqb (map lower method)) [S_ "ss"; S_ "smoothstep"]) eqn:E2; [exfalso; apply H2, is_ss, E2|]. reflexivity.
Qed.
Theorem C109_default_fails : forall fs input output suffix bare column tc width text rows, fs input = Some text -> load_rows text = Ok rows -> cut fs input output suffix bare (S_ "bz") column tc width = (fs, Err ValueError).
Proof. intros until rows. intros Hf Hl. apply (C109_method _ _ _ _ _ _ _ _ _ text rows); [exact Hf|exact Hl|unfold fd_name; cbn; intuition discriminate|unfold ss_name; cbn; intuition discriminate]. Qed.
(** the shape of the cut *)
Theorem C109_factor : forall m tc width f, 0 < width -> factor m tc width f ->
  f tc = 1 / 2 /\ (forall x, 0 <= f x <= 1) /\ (forall x y, x <= y -> f y <= f x) /\
  (ss_name m -> (forall x, x <= tc - width / 2 -> f x = 1) /\ (forall x, tc + width / 2 <= x -> f x = 0)) /\
  (fd_name m -> (forall x, 0 < f x < 1) /\ f (tc + width / 2) = 1 / (1 + exp 5) /\ f (tc - width / 2) = 1 - 1 / (1 + exp 5)).
Proof.
  clear pyint stamp load_rows save_rows. intros m tc width f Hw H. assert (Iw : 0 < / width) by (apply Rinv_0_lt_compat; exact Hw). assert (Nw : width <> 0) by lra. destruct H as [H|H].
  - assert (E : forall x, 1 / (1 + exp (10 * (x - tc) / width)) = fermidirac (10 * (x - tc) / width)) by (intros x; rewrite (proj1 C14_fermidirac); reflexivity). destruct C14_fermidirac as (A & B & C & D).
    split; [replace (10 * (tc - tc) / width) with 0 by (field; exact Nw); rewrite exp_0; lra|]. split; [intros x; rewrite E; specialize (B (10 * (x - tc) / width)); lra|]. split.
    + intros x y L. rewrite !E. destruct (Req_EM_T x y) as [->|Ne]; [lra|]. apply Rlt_le, C. unfold Rdiv. apply Rmult_lt_compat_r; [exact Iw|]. lra.
    + split; [intros X; exfalso; unfold fd_name, ss_name in *; destruct X as [X|X]; rewrite X in H; intuition discriminate|]. intros _. split; [intros x; rewrite E; apply B|]. split; [do 3 f_equal; field; exact Nw|]. rewrite E. replace (10 * (tc - width / 2 - tc) / width) with (Ropp 5) by (field; exact Nw). rewrite D, A. reflexivity.
  - cbv zeta. set (g := fun u => if Rle_dec u 0 then 0 else if Rle_dec 1 u then 1 else 3 * u ^ 2 - 2 * u ^ 3).
    assert (E : forall u, g u = smoothstep false u). { intros u. unfold g. destruct (C15_smoothstep_values u) as (A & B & C & _). destruct (Rle_dec u 0) as [L|L]; [symmetry; apply A, L|]. destruct (Rle_dec 1 u) as [G|G]; [symmetry; apply B, G|]. symmetry. apply C. lra. }
    change (g (1 / 2 - (tc - tc) / width) = 1 / 2 /\ (forall x, 0 <= g (1 / 2 - (x - tc) / width) <= 1) /\ (forall x y, x <= y -> g (1 / 2 - (y - tc) / width) <= g (1 / 2 - (x - tc) / width)) /\ (ss_name m -> (forall x, x <= tc - width / 2 -> g (1 / 2 - (x - tc) / width) = 1) /\ (forall x, tc + width / 2 <= x -> g (1 / 2 - (x - tc) / width) = 0)) /\ (fd_name m -> (forall x, 0 < g (1 / 2 - (x - tc) / width) < 1) /\ g (1 / 2 - (tc + width / 2 - tc) / width) = 1 / (1 + exp 5) /\ g (1 / 2 - (tc - width / 2 - tc) / width) = 1 - 1 / (1 + exp 5))).
    assert (Mu : forall x y, x <= y -> x / width <= y / width) by (intros x y L; unfold Rdiv; apply Rmult_le_compat_r; lra). assert (Hh : width / 2 / width = 1 / 2) by (field; exact Nw).
    split; [replace (1 / 2 - (tc - tc) / width) with (1 / 2) by (field; exact Nw); unfold g; destruct (Rle_dec (1 / 2) 0); [lra|]; destruct (Rle_dec 1 (1 / 2)); lra|].
    split; [intros x; rewrite E; apply (C15_smoothstep_values (1 / 2 - (x - tc) / width))|]. split; [intros x y L; rewrite !E; apply (C15_smoothstep_values (1 / 2 - (y - tc) / width)); assert (X := Mu (x - tc) (y - tc)); lra|]. split.
    + intros _. split; intros x L; rewrite E.
      * apply (C15_smoothstep_values (1 / 2 - (x - tc) / width)). assert (X := Mu (x - tc) (- (width / 2))). replace (- (width / 2) / width) with (- (1 / 2)) in X by (field; exact Nw). lra.
      * apply (C15_smoothstep_values (1 / 2 - (x - tc) / width)). assert (X := Mu (width / 2) (x - tc)). lra.
    + intros X. exfalso. unfold fd_name, ss_name in *. destruct H as [H|H]; rewrite H in X; intuition discriminate.
Qed.
(** columns that do not exist, or are no numbers *)
Theorem C109_bad_columns : forall fs input output suffix bare method c tc width text rows n f ws, fs input = Some text -> load_rows text = Ok rows -> rows <> [] -> Forall (fun r => List.length r = n) rows -> factor method tc width f -> tokens is_space c ws ->
  ((exists w, In w ws /\ pyint w = None) -> cut fs input output suffix bare method (Some c) tc width = (fs, Err ValueError)) /\
  (forall zs, Forall2 (fun w z => pyint w = Some z) ws zs -> (exists z, In z zs /\ (z < - Z.of_nat n \/ Z.of_nat n <= z)%Z) -> cut fs input output suffix bare method (Some c) tc width = (fs, Err IndexError)).
Proof.
  intros until ws. intros Hf Hl Hr Hrect Hm T. assert (En : List.length (hd [] rows) = n) by (destruct Hrect; [congruence|assumption]). assert (Hg : exists g, cut_factor method tc width = Ok g). { unfold cut_factor. destruct Hm as [H|H]; [apply is_fd in H; rewrite H; eauto|]. destruct (existsb (eqb (map lower method)) [S_ "fd"; S_ "fermi-dirac"; S_ "fermidirac"]); [eauto|]. apply is_ss in H. rewrite H. eauto. }
  destruct Hg as (g & Eg). apply words_iff in T. split.
  - intros (w & Hin & Hw). assert (E : mapM (as_int pyint) ws = Err ValueError). { clear T. induction ws as [|v ws IH]; [destruct Hin|]. cbn [mapM]. unfold as_int at 1. destruct (pyint v) as [z|] eqn:E; [|reflexivity]. destruct Hin as [->|Hin]; [congruence|]. cbn [rbind]. rewrite (IH Hin). reflexivity. }
    unfold cutoff. rewrite Hf. unfold cut_data. rewrite Hl. cbn [rbind]. rewrite Eg. cbn [rbind cut_columns]. rewrite T, E. reflexivity.
  - intros zs F (z & Hin & Hz). assert (E : mapM (place n) zs = Err IndexError). { clear F. induction zs as [|v zs IH]; [destruct Hin|]. cbn [mapM]. unfold place at 1. destruct (index_of n v) as [j|] eqn:E; [|reflexivity]. destruct Hin as [->|Hin]; [apply index_of_iff in E; lia|]. cbn [rbind]. rewrite (IH Hin). reflexivity. }
    assert (E1 : mapM (as_int pyint) ws = Ok zs) by (apply mapM_forall2; eapply forall2_mono; [|exact F]; intros w v H; unfold as_int; rewrite H; reflexivity).
    unfold cutoff. rewrite Hf. unfold cut_data. rewrite Hl. cbn [rbind]. rewrite Eg. cbn [rbind cut_columns]. rewrite T, E1. cbn [rbind]. rewrite En, E. reflexivity.
Qed.
End Cutoff.
Print Assumptions C109_result.
Print Assumptions C109_all_or_nothing.
Print Assumptions C109_method.
Print Assumptions C109_default_fails.
Print Assumptions C109_factor.
Print Assumptions C109_bad_columns.
Example C109_case : forall save stamp pyint, let fs := fun n => if eqb n (S_ "a.txt") then Some (S_ "data") else None in let rows := [[300; 5; 7]; [400; 6; 8]; [500; 7; 9]] in
  exists fs' new, cutoff pyint stamp (fun _ => Ok rows) save fs (S_ "a.txt") None (S_ "cutoff") false (S_ "SS") None 400 50 = (fs', Ok tt) /\ fs' (S_ "a_cutoff.txt") = Some (save (Some (S_ "Cut-off data - " ++ stamp)) new) /\
    nth 1 (nth 0 new []) 0 = 5 /\ nth 0 (nth 1 new []) 0 = 400 /\ nth 2 (nth 1 new []) 0 = 4 /\ nth 2 (nth 2 new []) 0 = 0.
Proof.
  intros save stamp pyint fs rows. assert (Hf : exists f, factor (S_ "SS") 400 50 f) by (eexists; apply factor_ss; left; reflexivity). destruct Hf as (f & Hf). destruct (C109_result pyint stamp (fun _ => Ok rows) save fs (S_ "a.txt") None (S_ "cutoff") false (S_ "SS") None 400 50 (S_ "data") rows 3%nat [1%nat; 2%nat] f eq_refl eq_refl) as (fs' & new & E & W & C & _); [discriminate|lia|repeat constructor|lra|exact Hf|reflexivity|].
  exists fs', new. split; [exact E|]. split; [exact W|]. destruct (C109_factor (S_ "SS") 400 50 f ltac:(lra) Hf) as (A & _ & _ & B & _). destruct (B (or_introl eq_refl)) as (B1 & B2). inversion C as [|? o1 ? l1 (_ & C1) D1]; subst. inversion D1 as [|? o2 ? l2 (_ & C2) D2]; subst. inversion D2 as [|? o3 ? l3 (_ & C3) D3]; subst. cbn [nth].
  assert (X1 := C1 1%nat ltac:(cbn; lia)). assert (X2 := C2 0%nat ltac:(cbn; lia)). assert (X3 := C2 2%nat ltac:(cbn; lia)). assert (X4 := C3 2%nat ltac:(cbn; lia)). cbn [nth] in *. rewrite X1, X2, X3, X4. cbn. rewrite (B1 300) by lra. rewrite A, (B2 500) by lra. repeat split; lra.
Qed.
