(** C97: predictions and outputs of a conductivity fit. *)
From Coq Require Import Reals Lra String Ascii.
From Coquelicot Require Import Coquelicot.
From Verif Require Import Py PyStr PyDict RUtil Regex KvarProofs ScatModel ScatSpec DebyeModel SubsProofs KoutModel KoutSpec.
Local Open Scope R_scope.

Lemma amin_spec x r : (forall y, In y (x :: r) -> amin x r <= y) /\ In (amin x r) (x :: r).
Proof.
  unfold amin. revert x. induction r as [|z r IH]; intros x; cbn [fold_left]; [split; [intros y [<-|[]]; lra|left; reflexivity]|]. destruct (IH (Rmin x z)) as (A & B). split.
  - intros y [<-|[<-|H]]; [assert (Q := A _ (or_introl eq_refl)); assert (M := Rmin_l x z); lra|assert (Q := A _ (or_introl eq_refl)); assert (M := Rmin_r x z); lra|apply A; right; exact H].
  - destruct B as [<-|B]; [unfold Rmin; destruct (Rle_dec x z); [left|right; left]; reflexivity|right; right; exact B].
Qed.
Lemma amax_spec x r : (forall y, In y (x :: r) -> y <= amax x r) /\ In (amax x r) (x :: r).
Proof.
  unfold amax. revert x. induction r as [|z r IH]; intros x; cbn [fold_left]; [split; [intros y [<-|[]]; lra|left; reflexivity]|]. destruct (IH (Rmax x z)) as (A & B). split.
  - intros y [<-|[<-|H]]; [assert (Q := A _ (or_introl eq_refl)); assert (M := Rmax_l x z); lra|assert (Q := A _ (or_introl eq_refl)); assert (M := Rmax_r x z); lra|apply A; right; exact H].
  - destruct B as [<-|B]; [unfold Rmax; destruct (Rle_dec x z); [right; left|left]; reflexivity|right; right; exact B].
Qed.
(** ** sample points: those asked for; else evenly spaced over the range of the data, widened at both ends by the margin (whatever its sign) *)
Theorem C97_points : forall n predict margin data,
  (forall p, predict = Some p -> p <> [] -> grid n predict margin data = Ok p) /\
  (predict = None \/ predict = Some [] -> data = None -> grid n predict margin data = Err RuntimeError) /\
  (predict = None \/ predict = Some [] -> forall d lo hi, data = Some d -> In lo d -> In hi d -> (forall y, In y d -> lo <= y <= hi) ->
     exists pts, grid n predict margin data = Ok pts /\ List.length pts = Z.abs_nat n /\
     (forall i x, nth_error pts i = Some x -> x = (lo - Rabs margin * (hi - lo)) + INR i * ((1 + 2 * Rabs margin) * (hi - lo)) / INR (List.length pts - 1)) /\
     (forall x, In x pts -> lo - Rabs margin * (hi - lo) <= x <= hi + Rabs margin * (hi - lo))).
Proof.
  intros n predict margin data. split; [|split].
  - intros p -> Hp. destruct p as [|a p]; [congruence|reflexivity].
  - intros [->| ->] ->; reflexivity.
  - intros Hp d lo hi -> Hlo Hhi Hb. destruct d as [|x r]; [destruct Hlo|].
    assert (E : grid n predict margin (Some (x :: r)) = Ok (linspace ((1 + Rabs margin) * amin x r - Rabs margin * amax x r) ((1 + Rabs margin) * amax x r - Rabs margin * amin x r) (Z.abs_nat n))) by (destruct Hp as [->| ->]; reflexivity).
    destruct (amin_spec x r) as (A1 & A2). destruct (amax_spec x r) as (B1 & B2).
    assert (Em : amin x r = lo) by (apply Rle_antisym; [apply A1, Hlo|apply Hb, A2]). assert (EM : amax x r = hi) by (apply Rle_antisym; [apply Hb, B2|apply B1, Hhi]). rewrite Em, EM in E. clear A1 A2 B1 B2 Em EM.
    assert (Hm := Rabs_pos margin). assert (Hd : lo <= hi) by (apply Hb, Hlo). set (m := Rabs margin) in *. clearbody m. set (N := Z.abs_nat n) in *. clearbody N.
    eexists. split; [exact E|]. unfold linspace. rewrite map_length, seq_length. split; [reflexivity|].
    assert (G : forall i y, nth_error (List.map (fun k => (1 + m) * lo - m * hi + INR k * (((1 + m) * hi - m * lo - ((1 + m) * lo - m * hi)) / INR (N - 1))) (seq 0 N)) i = Some y -> (i < N)%nat /\ y = lo - m * (hi - lo) + INR i * ((1 + 2 * m) * (hi - lo)) / INR (N - 1)).
    { intros i y H. assert (Hi : (i < N)%nat) by (rewrite <- (seq_length N 0), <- (map_length (fun k => (1 + m) * lo - m * hi + INR k * (((1 + m) * hi - m * lo - ((1 + m) * lo - m * hi)) / INR (N - 1)))); apply nth_error_Some; congruence). split; [exact Hi|].
      rewrite nth_error_map in H. assert (Es : nth_error (seq 0 N) i = Some i) by (rewrite (nth_error_nth' _ 0%nat); [rewrite seq_nth by exact Hi; reflexivity|rewrite seq_length; exact Hi]). rewrite Es in H. cbn [option_map] in H. assert (y = (1 + m) * lo - m * hi + INR i * (((1 + m) * hi - m * lo - ((1 + m) * lo - m * hi)) / INR (N - 1))) by congruence. subst y. unfold Rdiv. ring. }
    split; [intros i y H; apply (G i y H)|]. intros y H. apply In_nth_error in H. destruct H as (i & H). destruct (G i y H) as (Hi & ->).
    assert (W : 0 <= (1 + 2 * m) * (hi - lo)) by (apply Rmult_le_pos; lra). set (w := (1 + 2 * m) * (hi - lo)) in *. assert (Q : 0 <= INR i * w / INR (N - 1) <= w).
    { destruct (Nat.eq_dec N 1) as [->|N1].
      - assert (i = 0%nat) by lia. subst i. cbn [INR]. unfold Rdiv. rewrite !Rmult_0_l. lra.
      - assert (P : 0 < INR (N - 1)) by (apply lt_0_INR; lia). assert (Li : INR i <= INR (N - 1)) by (apply le_INR; lia). assert (Pi := pos_INR i). split; [apply Rmult_le_pos; [apply Rmult_le_pos; assumption|left; apply Rinv_0_lt_compat, P]|]. apply Rmult_le_reg_r with (INR (N - 1)); [exact P|]. unfold Rdiv. rewrite Rmult_assoc, Rinv_l by lra. rewrite Rmult_1_r, Rmult_comm. apply Rmult_le_compat_l; assumption. }
    unfold w in Q at 3. lra.
Qed.
Print Assumptions C97_points.
(** ** a Debye model called DEBYE: the total, the mechanisms accumulated, the additional models; the last accumulated row and the additional rows make up the total *)
Lemma nth_map_eq {A B} (f g : A -> B) l : List.map f l = List.map g l -> forall x, In x l -> f x = g x.
Proof. induction l as [|a l IH]; intros E x H; [destruct H|]. cbn [List.map] in E. destruct H as [<-|H]; [congruence|]. apply IH; [congruence|exact H]. Qed.
Theorem C97_rows : forall whole td vs s a pts, s <> [] ->
  exists total mechs adds, rows (S_ "DEBYE") whole (Some (td, vs, s, a)) pts true = Ok (total :: mechs ++ adds) /\
  List.length mechs = List.length s /\ List.length adds = List.length a /\ List.map fst adds = List.map fst a /\
  (forall r, In r (total :: mechs ++ adds) -> List.length (snd r) = List.length pts) /\
  (forall i r, nth_error mechs i = Some r -> snd r = List.map (fun T => kappa_n td vs (firstn (S i) s) T 0) pts /\ fst r = join (S_ "+") (List.map fst (firstn (S i) s))) /\
  (forall j T, nth_error pts j = Some T -> exists lastrow, last mechs total = lastrow /\
     nth j (snd total) 0 = kappa td vs s a T /\ nth j (snd total) 0 = nth j (snd lastrow) 0 + sumR (List.map (fun r => nth j (snd r) 0) adds)).
Proof.
  intros whole td vs s a pts Hs. exists (S_ "Kappa-Total", List.map (kappa td vs s a) pts), (mech_rows td vs s pts), (add_rows a pts). split; [reflexivity|].
  assert (L : List.length (mech_rows td vs s pts) = List.length s) by (unfold mech_rows; rewrite map_length, seq_length; reflexivity).
  split; [exact L|]. split; [unfold add_rows; apply map_length|]. split; [unfold add_rows; rewrite map_map; apply map_ext; reflexivity|].
  assert (M : forall i r, nth_error (mech_rows td vs s pts) i = Some r -> r = (join (S_ "+") (List.map fst (firstn (i + 1) s)), List.map (fun T => kappa_n td vs s T (i + 1)) pts)).
  { intros i r H. assert (Hi : (i < List.length s)%nat) by (rewrite <- L; apply nth_error_Some; congruence). unfold mech_rows in H. rewrite nth_error_map in H. assert (Es : nth_error (seq 0 (List.length s)) i = Some i) by (rewrite (nth_error_nth' _ 0%nat); [rewrite seq_nth by exact Hi; reflexivity|rewrite seq_length; exact Hi]). rewrite Es in H. cbn [option_map] in H. congruence. }
  split; [|split].
  - intros r [<-|H]; [cbn; apply map_length|]. apply in_app_or in H. destruct H as [H|H]; [apply In_nth_error in H; destruct H as (i & H); rewrite (M i r H); cbn; apply map_length|]. unfold add_rows in H. apply in_map_iff in H. destruct H as (m & <- & _). cbn. apply map_length.
  - intros i r H. rewrite (M i r H). cbn [fst snd]. rewrite Nat.add_1_r. split; reflexivity.
  - intros j T HT. exists (last (mech_rows td vs s pts) (S_ "Kappa-Total", List.map (kappa td vs s a) pts)). split; [reflexivity|]. cbn [snd].
    assert (N : forall f : R -> R, nth j (List.map f pts) 0 = f T) by (intros f; apply nth_error_nth; rewrite nth_error_map, HT; reflexivity).
    split; [apply N|]. rewrite N. assert (El : last (mech_rows td vs s pts) (S_ "Kappa-Total", List.map (kappa td vs s a) pts) = (join (S_ "+") (List.map fst s), List.map (fun T => kappa_n td vs s T (List.length s)) pts)).
    { destruct (exists_last (l := mech_rows td vs s pts)) as (q & r & Eq); [intros Z; rewrite Z in L; destruct s; [congruence|discriminate]|]. assert (Lq : (List.length q + 1 = List.length s)%nat) by (rewrite <- L, Eq, app_length; reflexivity).
      assert (Hr : nth_error (mech_rows td vs s pts) (List.length q) = Some r) by (rewrite Eq; apply nth_at). rewrite Eq, last_last, (M _ _ Hr), Lq, firstn_all. reflexivity. }
    rewrite El. cbn [snd]. rewrite N. unfold kappa. f_equal.
    + destruct s as [|m s]; [congruence|]. assert (Ef : firstn (S (List.length s)) (m :: s) = m :: s) by apply (firstn_all (m :: s)). unfold kappa_n. apply RInt_ext. intros w _. unfold spectral_sum. cbn [List.length]. rewrite Ef. reflexivity.
    + unfold add_rows. rewrite map_map. apply sumR_ext. intros m _. cbn [snd]. symmetry. apply N.
Qed.
Print Assumptions C97_rows.
(** ** but an object of any other name gives a single row, even if it is a Debye model; and one called DEBYE that is none makes the run fail *)
Theorem C97_only_by_name : forall name whole debye pts split,
  (name <> S_ "DEBYE" -> rows name whole debye pts split = Ok [(S_ "Kappa-" ++ name, List.map whole pts)]) /\
  (debye = None -> rows (S_ "DEBYE") whole debye pts split = Err AttributeError).
Proof.
  intros name whole debye pts split. unfold rows. split; [|intros ->; reflexivity]. intros N. destruct (eqb name (S_ "DEBYE")) eqn:E; [apply eqb_eq in E; contradiction|reflexivity].
Qed.
Print Assumptions C97_only_by_name.
(** without split there is the total only, and with it the total comes first *)
Theorem C97_whole : forall whole td vs s a pts,
  rows (S_ "DEBYE") whole (Some (td, vs, s, a)) pts false = Ok [(S_ "Kappa-DEBYE", List.map (fun T => kappa td vs s a T) pts)] /\
  exists rest, rows (S_ "DEBYE") whole (Some (td, vs, s, a)) pts true = Ok ((S_ "Kappa-Total", List.map (fun T => kappa td vs s a T) pts) :: rest).
Proof. intros whole td vs s a pts. split; [reflexivity|]. eexists. reflexivity. Qed.
Print Assumptions C97_whole.
(** ** units of frequency *)
Lemma lower_iff : forall a, In a (S_ letters ++ S_ "_") -> forall c, ich a c = true <-> same_letter c a.
Proof.
  assert (D : forallb (fun a => forallb (fun n => Bool.eqb (ich a (ascii_of_nat n)) (ch_eq (ascii_of_nat n) a || existsb (fun p => ch_eq (ascii_of_nat n) (fst p) && ch_eq a (snd p)) (List.combine (S_ capitals) (S_ letters)))) (seq 0 256)) (S_ letters ++ S_ "_") = true) by (vm_compute; reflexivity).
  intros a Ha c. rewrite forallb_forall in D. assert (Da := D a Ha). rewrite forallb_forall in Da. assert (Dc := Da (nat_of_ascii c)). rewrite ascii_nat_embedding in Dc. assert (Hc : In (nat_of_ascii c) (seq 0 256)) by (apply in_seq; split; [lia|apply nat_ascii_bounded]). apply Dc in Hc. apply eqb_prop in Hc. rewrite Hc, orb_true_iff, existsb_exists.
  unfold same_letter, ch_eq. rewrite Ascii.eqb_eq. split; (intros [H|H]; [left; exact H|right]).
  - destruct H as ([x y] & H1 & H2). apply andb_prop in H2. destruct H2 as (Q1 & Q2). cbn in Q1, Q2. apply Ascii.eqb_eq in Q1, Q2. subst. exact H1.
  - exists (c, a). split; [exact H|]. cbn. rewrite !Ascii.eqb_refl. reflexivity.
Qed.
Lemma starts_iff w : Forall (fun a => In a (S_ letters ++ S_ "_")) (S_ w) -> forall s, starts (ilit (S_ w)) s = true <-> begins s w.
Proof.
  intros Fw s. unfold starts, begins. assert (G : (if re_match (ilit (S_ w)) s then true else false) = true <-> re_match (ilit (S_ w)) s <> None) by (destruct (re_match (ilit (S_ w)) s); split; congruence). rewrite G, re_match_iff. clear G.
  assert (L : forall u, lang (ilit (S_ w)) u <-> Forall2 same_letter u (S_ w)).
  { induction Fw as [|a w' Ha Fw IH]; intros u; cbn [ilit fold_right lang].
    - split; [intros F; destruct F; [constructor|discriminate]|intros F; inversion F; constructor].
    - split.
      + intros (u1 & u2 & -> & (c & -> & Pc) & Lr). cbn [app]. constructor; [apply (lower_iff a Ha); exact Pc|apply IH, Lr].
      + intros F. inversion F as [|c ? u' ? Hc Hr]; subst. exists [c], u'. split; [reflexivity|]. split; [exists c; split; [reflexivity|apply (lower_iff a Ha), Hc]|apply IH, Hr]. }
  split; intros (u & t & E & H); exists u, t; (split; [exact E|apply L, H]).
Qed.
Lemma starts_wd s : starts pat_wd s = true <-> begins s "wd" \/ begins s "w_d".
Proof.
  unfold starts, begins. assert (G : (if re_match pat_wd s then true else false) = true <-> re_match pat_wd s <> None) by (destruct (re_match pat_wd s); split; congruence). rewrite G, re_match_iff. clear G.
  assert (W := lower_iff "w" ltac:(cbn; tauto)). assert (D := lower_iff "d" ltac:(cbn; tauto)). assert (U := lower_iff "_" ltac:(cbn; tauto)). unfold pat_wd. cbn [lang]. split.
  - intros (u & t & E & u1 & r & -> & (c & -> & Pc) & u2 & r2 & -> & H & d & -> & Pd). apply W in Pc. apply D in Pd. destruct H as [->|(e & -> & Pe)].
    + left. exists [c; d], t. split; [exact E|]. repeat (constructor; [assumption|]). constructor.
    + apply U in Pe. right. exists [c; e; d], t. split; [exact E|]. repeat (constructor; [assumption|]). constructor.
  - intros [(u & t & E & F)|(u & t & E & F)].
    + inversion F as [|c ? u1 ? Hc F1]; subst. inversion F1 as [|d ? u2 ? Hd F2]; subst. inversion F2; subst. exists [c; d], t. split; [reflexivity|]. exists [c], [d]. split; [reflexivity|]. split; [exists c; split; [reflexivity|apply W, Hc]|]. exists [], [d]. split; [reflexivity|]. split; [left; reflexivity|]. exists d. split; [reflexivity|apply D, Hd].
    + inversion F as [|c ? u1 ? Hc F1]; subst. inversion F1 as [|e ? u2 ? He F2]; subst. inversion F2 as [|d ? u3 ? Hd F3]; subst. inversion F3; subst. exists [c; e; d], t. split; [reflexivity|]. exists [c], [e; d]. split; [reflexivity|]. split; [exists c; split; [reflexivity|apply W, Hc]|]. exists [e], [d]. split; [reflexivity|]. split; [right; exists e; split; [reflexivity|apply U, He]|]. exists d. split; [reflexivity|apply D, Hd].
Qed.
Lemma begins_head s w a r : S_ w = a :: r -> begins s w -> exists c t, s = c :: t /\ same_letter c a.
Proof. intros E (u & t & -> & F). rewrite E in F. inversion F; subst. eexists _, _. split; [reflexivity|assumption]. Qed.
Lemma lower_fun c a b : same_letter c a -> same_letter c b -> In a (S_ letters) -> In b (S_ letters) -> a = b.
Proof.
  intros Ha Hb Ia Ib. apply lower_iff in Ha; [|apply in_or_app; left; exact Ia]. apply lower_iff in Hb; [|apply in_or_app; left; exact Ib]. unfold ich in Ha, Hb. apply is_ch_eq in Ha, Hb. congruence.
Qed.
Theorem C97_unit : forall pyfloat td T s,
  (forall x, pyfloat s = Ok x -> funit pyfloat td T s = x) /\
  (forall e, pyfloat s = Err e ->
    (begins s "thz" -> funit pyfloat td T s = 2 * PI) /\
    (begins s "omega_d" \/ begins s "wd" \/ begins s "w_d" \/ begins s "norm" -> funit pyfloat td T s = wd td) /\
    (begins s "reduce" \/ begins s "x" -> funit pyfloat td T s = T / hbar_kB) /\
    (begins s "mev" -> funit pyfloat td T s = 1.602176634 / 1.054571817) /\
    (~ (begins s "thz" \/ begins s "omega_d" \/ begins s "wd" \/ begins s "w_d" \/ begins s "norm" \/ begins s "reduce" \/ begins s "x" \/ begins s "mev") -> funit pyfloat td T s = 1)).
Proof.
  intros pf td T s. unfold funit. split; [intros x ->; reflexivity|]. intros e ->.
  assert (B1 := starts_iff "thz" ltac:(repeat (constructor; [cbn; tauto|]); constructor) s). assert (B2 := starts_iff "omega_d" ltac:(repeat (constructor; [cbn; tauto|]); constructor) s).
  assert (B3 := starts_wd s). assert (B4 := starts_iff "norm" ltac:(repeat (constructor; [cbn; tauto|]); constructor) s). assert (B5 := starts_iff "reduce" ltac:(repeat (constructor; [cbn; tauto|]); constructor) s).
  assert (B6 := starts_iff "x" ltac:(repeat (constructor; [cbn; tauto|]); constructor) s). assert (B7 := starts_iff "mev" ltac:(repeat (constructor; [cbn; tauto|]); constructor) s).
  assert (X : forall w w' a r a' r', S_ w = a :: r -> S_ w' = a' :: r' -> In a (S_ letters) -> In a' (S_ letters) -> a <> a' -> begins s w -> begins s w' -> False).
  { intros w w' a r a' r' E E' Ia Ia' Na Hw Hw'. destruct (begins_head _ _ _ _ E Hw) as (c & t & Es & Hc). destruct (begins_head _ _ _ _ E' Hw') as (c' & t' & Es' & Hc'). assert (c' = c) by congruence. subst c'. apply Na. apply (lower_fun c); assumption. }
  assert (D : forall w w', (match S_ w, S_ w' with a :: _, a' :: _ => existsb (ch_eq a) (S_ letters) && existsb (ch_eq a') (S_ letters) && negb (ch_eq a a') | _, _ => false end) = true -> begins s w -> begins s w' -> False).
  { intros w w' H. destruct (S_ w) as [|a r] eqn:E; [discriminate|]. destruct (S_ w') as [|a' r'] eqn:E'; [discriminate|]. apply andb_prop in H. destruct H as (H & N). apply andb_prop in H. destruct H as (H1 & H2). apply existsb_exists in H1, H2. destruct H1 as (z & Z1 & Z2). destruct H2 as (z' & Z1' & Z2'). apply Ascii.eqb_eq in Z2, Z2'. subst z z'.
    apply (X w w' a r a' r' E E' Z1 Z1'). intros ->. unfold ch_eq in N. rewrite Ascii.eqb_refl in N. discriminate. }
  split; [|split; [|split; [|split]]].
  - intros H. apply B1 in H. rewrite H. reflexivity.
  - intros H. assert (N1 : starts (ilit (S_ "thz")) s = false) by (destruct (starts (ilit (S_ "thz")) s) eqn:Q; [|reflexivity]; exfalso; assert (Q' := proj1 B1 eq_refl); destruct H as [H|[H|[H|H]]]; revert Q' H; apply D; reflexivity). rewrite N1.
    replace (starts (ilit (S_ "omega_d")) s || starts pat_wd s || starts (ilit (S_ "norm")) s) with true; [reflexivity|]. symmetry. rewrite !orb_true_iff. tauto.
  - intros H. assert (N1 : starts (ilit (S_ "thz")) s = false) by (destruct (starts (ilit (S_ "thz")) s) eqn:Q; [|reflexivity]; exfalso; assert (Q' := proj1 B1 eq_refl); destruct H as [H|H]; revert Q' H; apply D; reflexivity). rewrite N1.
    replace (starts (ilit (S_ "omega_d")) s || starts pat_wd s || starts (ilit (S_ "norm")) s) with false.
    + replace (starts (ilit (S_ "reduce")) s || starts (ilit (S_ "x")) s) with true; [reflexivity|]. symmetry. rewrite orb_true_iff. tauto.
    + symmetry. destruct (starts (ilit (S_ "omega_d")) s || starts pat_wd s || starts (ilit (S_ "norm")) s) eqn:Q; [|reflexivity]. exfalso. rewrite !orb_true_iff in Q. assert (Q' : begins s "omega_d" \/ begins s "wd" \/ begins s "w_d" \/ begins s "norm") by tauto. destruct H as [H|H]; destruct Q' as [Q'|[Q'|[Q'|Q']]]; revert Q' H; apply D; reflexivity.
  - intros H. assert (N1 : starts (ilit (S_ "thz")) s = false) by (destruct (starts (ilit (S_ "thz")) s) eqn:Q; [|reflexivity]; exfalso; assert (Q' := proj1 B1 eq_refl); revert Q' H; apply D; reflexivity). rewrite N1.
    replace (starts (ilit (S_ "omega_d")) s || starts pat_wd s || starts (ilit (S_ "norm")) s) with false.
    + replace (starts (ilit (S_ "reduce")) s || starts (ilit (S_ "x")) s) with false; [apply B7 in H; rewrite H; reflexivity|]. symmetry. destruct (starts (ilit (S_ "reduce")) s || starts (ilit (S_ "x")) s) eqn:Q; [|reflexivity]. exfalso. rewrite orb_true_iff in Q. assert (Q' : begins s "reduce" \/ begins s "x") by tauto. destruct Q' as [Q'|Q']; revert Q' H; apply D; reflexivity.
    + symmetry. destruct (starts (ilit (S_ "omega_d")) s || starts pat_wd s || starts (ilit (S_ "norm")) s) eqn:Q; [|reflexivity]. exfalso. rewrite !orb_true_iff in Q. assert (Q' : begins s "omega_d" \/ begins s "wd" \/ begins s "w_d" \/ begins s "norm") by tauto. destruct Q' as [Q'|[Q'|[Q'|Q']]]; revert Q' H; apply D; reflexivity.
  - intros H. destruct (starts (ilit (S_ "thz")) s); [exfalso; apply H; left; apply B1; reflexivity|]. destruct (starts (ilit (S_ "omega_d")) s); [exfalso; apply H; right; left; apply B2; reflexivity|]. destruct (starts pat_wd s); [exfalso; apply H; assert (Q := proj1 B3 eq_refl); tauto|].
    destruct (starts (ilit (S_ "norm")) s); [exfalso; apply H; assert (Q := proj1 B4 eq_refl); tauto|]. destruct (starts (ilit (S_ "reduce")) s); [exfalso; apply H; assert (Q := proj1 B5 eq_refl); tauto|]. destruct (starts (ilit (S_ "x")) s); [exfalso; apply H; assert (Q := proj1 B6 eq_refl); tauto|]. destruct (starts (ilit (S_ "mev")) s); [exfalso; apply H; assert (Q := proj1 B7 eq_refl); tauto|]. reflexivity.
Qed.
Print Assumptions C97_unit.
(** what the units mean, for an angular frequency w in rad/ps: cycles per ps, fraction of the cut-off, hbar w/(kB T) to 1e-14, energy in meV *)
Theorem C97_unit_meaning : forall w td T, 0 < td -> 0 < T ->
  2 * PI * (w / (2 * PI)) = w /\ w / wd td = hbar_kB * w / td /\
  (exists e, Rabs (e - 1) < / 10 ^ 14 /\ w / (T / hbar_kB) = e * (c_hbar * (w * 10 ^ 12) / (c_kB * T))) /\
  w / (1.602176634 / 1.054571817) = c_hbar * (w * 10 ^ 12) / c_q * 10 ^ 3.
Proof.
  intros w td T Ht HT. assert (P := PI_RGT_0). split; [field; lra|]. split; [unfold wd; assert (Hh : 0 < hbar_kB) by (unfold hbar_kB; lra); field; split; lra|]. split.
  - exists (hbar_kB * 1.380649 / 10.54571817). split; [unfold hbar_kB; apply Rabs_def1; lra|]. unfold c_hbar, c_kB. assert (Hh : 0 < hbar_kB) by (unfold hbar_kB; lra). revert Hh. generalize hbar_kB. intros h Hh.
    assert (Q : forall t a b, 0 < t -> 0 < a -> 0 < b -> t = 10 -> w / (T / h) = h * a / (10 * b) * (b * / t ^ 34 * (w * t ^ 12) / (a * / t ^ 23 * T))).
    { intros t a b H1 H2 H3 E. rewrite <- E at 1. field. repeat split; lra. }
    replace 10.54571817 with (10 * 1.054571817) by lra. apply Q; lra.
  - unfold c_hbar, c_q. assert (Q : forall t a b, 0 < t -> 0 < a -> 0 < b -> w / (a / b) = b * / t ^ 34 * (w * t ^ 12) / (a * / t ^ 19) * t ^ 3) by (intros t a b H1 H2 H3; field; repeat split; lra). apply Q; lra.
Qed.
Print Assumptions C97_unit_meaning.
(** ** the unit leaves the area under the spectral curve as it is *)
Theorem C97_area : forall f l, f <> 0 -> area (in_unit f l) = area l.
Proof.
  intros f l Hf. induction l as [|p l IH]; [reflexivity|]. destruct l as [|q l]; [reflexivity|]. change (area (in_unit f (p :: q :: l))) with ((fst q / f - fst p / f) * (snd p * f + snd q * f) / 2 + area (in_unit f (q :: l))). rewrite IH.
  change (area (p :: q :: l)) with ((fst q - fst p) * (snd p + snd q) / 2 + area (q :: l)). field. exact Hf.
Qed.
Print Assumptions C97_area.
Example C97_case : exists pts, grid (-3) None (-0.5) (Some [300; 100; 500]) = Ok pts /\ List.length pts = 3%nat /\ nth_error pts 0 = Some (-100) /\ nth_error pts 2 = Some 700.
Proof.
  assert (Em : amin 300 [100; 500] = 100) by (unfold amin; cbn [fold_left]; rewrite (Rmin_right 300 100) by lra; apply Rmin_left; lra). assert (EM : amax 300 [100; 500] = 500) by (unfold amax; cbn [fold_left]; rewrite (Rmax_left 300 100) by lra; apply Rmax_right; lra).
  eexists. unfold grid. rewrite Em, EM. split; [reflexivity|]. split; [reflexivity|]. assert (Ea : Rabs (-0.5) = 0.5) by (rewrite Rabs_left; lra). rewrite Ea. unfold linspace. change (Z.abs_nat (-3)) with 3%nat. cbn [seq List.map nth_error Nat.sub INR]. split; (match goal with |- Some ?a = Some ?b => assert (E : a = b) by (replace (1 + 1) with 2 by lra; lra); rewrite E; reflexivity end).
Qed.
Example C97_case_unit : forall td T, funit (fun _ => Err ValueError) td T (S_ "meV") = 1.602176634 / 1.054571817 /\ funit (fun _ => Err ValueError) td T (S_ "Omega_D") = wd td /\ funit (fun _ => Err ValueError) td T (S_ "2pi.THz") = 1.
Proof. intros td T. unfold funit. repeat split. Qed.
