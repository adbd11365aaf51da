(** Further proofs for numbers in files: texts are determined by their numbers. *)
From Coq Require Import ZArith QArith Reals Qreals String Ascii Lra Lia.
From Verif Require Import Py PyStr CfgModel CfgSpec DataModel CompModel SubsModel NumModel NumSpec InstrSpec InstrProofs NumProofs.
Local Open Scope list_scope.
Local Open Scope Z_scope.

(** ** rows of digits *)
Lemma dchar_0 : dchar 0 = "0"%char. Proof. reflexivity. Qed.
Lemma dval_inj c c' : is_digit c = true -> is_digit c' = true -> dval c = dval c' -> c = c'.
Proof. intros H H' E. apply is_digit_inv in H, H'. destruct H as [_ ->], H' as [_ ->]. rewrite E. reflexivity. Qed.
Lemma same_digits s : forall s', all_digits s -> all_digits s' -> List.length s = List.length s' -> value s = value s' -> s = s'.
Proof.
  induction s as [|c s IH]; intros [|c' s'] A A' L V; try discriminate; [reflexivity|]. inversion A as [|? ? Hc As]; subst. inversion A' as [|? ? Hc' As']; subst. injection L as L.
  rewrite !value_cons, L in V. pose proof (value_bound s As) as B. pose proof (value_bound s' As') as B'. rewrite L in B. set (w := 10 ^ Z.of_nat (List.length s')) in *.
  assert (dval c = dval c') by nia. f_equal; [apply dval_inj; assumption|]. apply IH; [assumption..|lia].
Qed.
Lemma head_nonzero c s : all_digits (c :: s) -> 10 ^ Z.of_nat (List.length s) <= value (c :: s) -> c <> "0"%char.
Proof.
  intros A L ->. inversion A as [|? ? _ As]; subst. rewrite value_cons in L. pose proof (value_bound s As). change (dval "0") with 0 in L. lia.
Qed.
Lemma head_least c s : all_digits (c :: s) -> c <> "0"%char -> 10 ^ Z.of_nat (List.length s) <= value (c :: s).
Proof.
  intros A N. inversion A as [|? ? Hc As]; subst. rewrite value_cons. pose proof (value_bound s As). apply is_digit_inv in Hc. destruct Hc as [B E].
  assert (dval c <> 0) by (intros Z0; rewrite Z0 in E; apply N; exact E). assert (P : 0 < 10 ^ Z.of_nat (List.length s)) by (apply Z.pow_pos_nonneg; lia). nia.
Qed.
Lemma pow_inj_len (a b : nat) m : 10 ^ Z.of_nat a <= m < 10 ^ Z.of_nat (S a) -> 10 ^ Z.of_nat b <= m < 10 ^ Z.of_nat (S b) -> a = b.
Proof.
  intros [A1 A2] [B1 B2]. destruct (Nat.lt_trichotomy a b) as [H|[H|H]]; [|exact H|]; exfalso.
  - pose proof (Z.pow_le_mono_r 10 (Z.of_nat (S a)) (Z.of_nat b) ltac:(lia) ltac:(lia)). lia.
  - pose proof (Z.pow_le_mono_r 10 (Z.of_nat (S b)) (Z.of_nat a) ltac:(lia) ltac:(lia)). lia.
Qed.
(** the length of a row without padding is determined by its value *)
Lemma width_bounds w s : no_padding (S w) s -> all_digits s ->
  (List.length s = S w /\ value s < 10 ^ Z.of_nat (S w)) \/ (10 ^ Z.of_nat (List.length s - 1) <= value s < 10 ^ Z.of_nat (S (List.length s - 1)) /\ (S w <= List.length s)%nat).
Proof.
  intros [L [E|(c & r & -> & N)]] A.
  - left. split; [exact E|]. pose proof (value_bound s A) as B. rewrite E in B. lia.
  - right. cbn [List.length] in *. replace (S (List.length r) - 1)%nat with (List.length r) by lia. pose proof (head_least c r A N). pose proof (value_bound _ A) as B. cbn [List.length] in B. split; [lia|exact L].
Qed.
Lemma nopad_length w s s' : no_padding (S w) s -> no_padding (S w) s' -> all_digits s -> all_digits s' -> value s = value s' -> List.length s = List.length s'.
Proof.
  intros P P' A A' V. destruct (width_bounds w s P A) as [(L & B)|(B & L)], (width_bounds w s' P' A') as [(L' & B')|(B' & L')].
  - congruence.
  - rewrite <- V in B'. destruct (Nat.eq_dec (List.length s') (S w)) as [H|H]; [congruence|]. exfalso. pose proof (Z.pow_le_mono_r 10 (Z.of_nat (S w)) (Z.of_nat (List.length s' - 1)) ltac:(lia) ltac:(lia)). lia.
  - rewrite V in B. destruct (Nat.eq_dec (List.length s) (S w)) as [H|H]; [congruence|]. exfalso. pose proof (Z.pow_le_mono_r 10 (Z.of_nat (S w)) (Z.of_nat (List.length s - 1)) ltac:(lia) ltac:(lia)). lia.
  - rewrite V in B. pose proof (pow_inj_len _ _ _ B B'). lia.
Qed.
Lemma nopad_same w s s' : no_padding (S w) s -> no_padding (S w) s' -> all_digits s -> all_digits s' -> value s = value s' -> s = s'.
Proof. intros P P' A A' V. apply same_digits; [assumption..| |assumption]. apply (nopad_length w); assumption. Qed.
(** the same with [d] digits behind *)
Lemma nopad_app d i f : no_padding 1 i -> List.length f = d -> no_padding (S d) (i ++ f).
Proof.
  intros [L N] <-. split; [rewrite app_length; lia|]. destruct N as [N|(c & r & -> & N)]; [left; rewrite app_length; lia|right]. exists c, (r ++ f). split; [reflexivity|exact N].
Qed.
Lemma pad_nopad w n : 0 <= n -> (1 <= w)%nat -> no_padding w (pad w (digits n)).
Proof.
  intros H Hw. destruct (digits_spec n H) as (A & V & N & L). destruct (pad_spec w (digits n) A) as (A' & V' & L'). split; [lia|].
  destruct (le_lt_dec (List.length (digits n)) w) as [C|C]; [left; lia|right]. unfold pad. replace (w - List.length (digits n))%nat with O by lia. cbn [repeat app].
  destruct (digits n) as [|c r] eqn:E; [congruence|]. exists c, r. split; [reflexivity|]. apply (head_nonzero c r A). rewrite V. rewrite <- V in L. cbn [List.length] in *.
  destruct (Z.eq_dec n 0) as [->|Hn]; [exfalso; change (digits 0) with [dchar 0] in E; injection E as _ E; subst r; cbn in C; lia|]. specialize (L ltac:(lia)). replace (Z.of_nat (S (List.length r)) - 1) with (Z.of_nat (List.length r)) in L by lia. lia.
Qed.
Lemma cut_nopad d s : no_padding (S d) s -> no_padding 1 (firstn (List.length s - d) s).
Proof.
  intros [L N]. split; [rewrite firstn_length; lia|]. destruct N as [N|(c & r & -> & N)]; [left; rewrite firstn_length; lia|right].
  cbn [List.length] in *. replace (S (List.length r) - d)%nat with (S (List.length r - d)) by lia. cbn [firstn]. exists c, (firstn (List.length r - d) r). split; [reflexivity|exact N].
Qed.
(** ** printed texts *)
Lemma minus_text q : minus_sign (Q2R q) (minus q).
Proof.
  unfold minus_sign, minus. assert (P : (0 < / IZR (Zpos (Qden q)))%R) by (apply Rinv_0_lt_compat, (IZR_lt 0); lia). unfold Q2R. destruct (Z.ltb_spec (Qnum q) 0) as [H|H].
  - left. split; [|reflexivity]. apply (IZR_lt _ 0) in H. nra.
  - right. split; [|reflexivity]. apply (IZR_le 0) in H. nra.
Qed.
Lemma minus_unique x s s' : minus_sign x s -> minus_sign x s' -> s = s'.
Proof. intros [[A ->]|[A ->]] [[B ->]|[B ->]]; try reflexivity; lra. Qed.
Lemma abs_Z k : 0 <= k -> IZR k = IZR (Z.abs k). Proof. intros H. rewrite Z.abs_eq by exact H. reflexivity. Qed.
Lemma rounds_abs q p : rounds p (Rabs (Q2R q)) (IZR (scaled q p) * p10 (- p)).
Proof.
  destruct (scaled_spec q p) as [A B]. exists (scaled q p). split; [reflexivity|]. pose proof (p10_pos (- p)) as P. pose proof (p10_opp p) as O.
  assert (E : (Rabs (Rabs (Q2R q) - IZR (scaled q p) * p10 (- p)) = Rabs (Rabs (Q2R q) * p10 p - IZR (scaled q p)) * p10 (- p))%R).
  { replace (Rabs (Q2R q) - IZR (scaled q p) * p10 (- p))%R with ((Rabs (Q2R q) * p10 p - IZR (scaled q p)) * p10 (- p))%R by (rewrite Rmult_minus_distr_r, Rmult_assoc, (Rmult_comm (p10 p)), O; ring).
    rewrite Rabs_mult, (Rabs_right (p10 (- p))) by lra. reflexivity. }
  rewrite E. split; [nra|]. intros H. apply B. nra.
Qed.
Lemma rounds_unique p x y y' : rounds p x y -> rounds p x y' -> y = y'.
Proof. intros A B. apply Rle_antisym; eapply rounds_mono; eauto; lra. Qed.
Lemma rounds_digits p x k k' : rounds p x (IZR k * p10 (- p)) -> rounds p x (IZR k' * p10 (- p)) -> k = k'.
Proof. intros A B. pose proof (rounds_unique _ _ _ _ A B) as E. apply eq_IZR. pose proof (p10_pos (- p)). nra. Qed.
Lemma fixed_printed d q : fixed_text d (Q2R q) (fmt_f d (Fin q)).
Proof.
  unfold fmt_f. set (m := scaled q (Z.of_nat d)). assert (Hm : 0 <= m) by apply scaled_nonneg. destruct (digits_spec m Hm) as (A & V & _). destruct (pad_spec (S d) (digits m) A) as (A' & V' & L).
  pose proof (pad_nopad (S d) m Hm ltac:(lia)) as NP. set (s := pad (S d) (digits m)) in *. destruct (cut_point d s A' ltac:(lia)) as (A1 & A2 & E & L2 & N1).
  exists (minus q), (firstn (List.length s - d) s), (skipn (List.length s - d) s), m. split; [apply minus_text|]. split; [apply cut_nopad, NP|]. split; [exact L2|].
  split; [rewrite E; apply denotes_value; split; [exact A'|congruence]|]. split; [apply rounds_abs|].
  f_equal. f_equal. destruct d as [|d]; [destruct (skipn (List.length s - 0) s); [reflexivity|discriminate]|]. destruct (skipn (List.length s - S d) s); [discriminate|reflexivity].
Qed.
Lemma app_inj_len {A} (a a' b b' : list A) : a ++ b = a' ++ b' -> List.length b = List.length b' -> a = a' /\ b = b'.
Proof.
  intros E L. assert (La : List.length a = List.length a') by (apply (f_equal (@List.length A)) in E; rewrite !app_length in E; lia). revert a' E La. induction a as [|x a IH]; intros [|x' a'] E La; try discriminate; [split; [reflexivity|exact E]|].
  cbn [app] in E. injection E as -> E. injection La as La. destruct (IH a' E La) as [-> ->]. split; reflexivity.
Qed.
Lemma fixed_unique d x t t' : fixed_text d x t -> fixed_text d x t' -> t = t'.
Proof.
  intros (sg & i & f & k & S1 & N1 & L1 & D1 & R1 & ->) (sg' & i' & f' & k' & S2 & N2 & L2 & D2 & R2 & ->). pose proof (rounds_digits _ _ _ _ R1 R2) as <-. apply denotes_value in D1, D2. destruct D1 as [A1 V1], D2 as [A2 V2].
  assert (E : i ++ f = i' ++ f') by (apply (nopad_same d); [apply nopad_app; assumption..|exact A1|exact A2|congruence]). apply app_inj_len in E; [|congruence]. destruct E as [-> ->]. rewrite (minus_unique _ _ _ S1 S2). reflexivity.
Qed.

(** ** scientific texts *)
Lemma rounds_opp p x y : rounds p x y -> rounds p (- x) (- y).
Proof.
  intros (k & -> & L & T). exists (- k). rewrite opp_IZR. split; [ring|]. replace (- x - - (IZR k * p10 (- p)))%R with (- (x - IZR k * p10 (- p)))%R by ring. rewrite Rabs_Ropp, Z.even_opp. split; assumption.
Qed.
Lemma magnitude_opp x e : magnitude x e -> magnitude (- x) e.
Proof. unfold magnitude. rewrite Rabs_Ropp. auto. Qed.
Lemma sig_opp d x y : rounds_sig d x y -> rounds_sig d (- x) (- y).
Proof. intros [[-> ->]|(e & M & H)]; [left; split; ring|right]. exists e. split; [apply magnitude_opp, M|apply rounds_opp, H]. Qed.
(** a power of ten is not rounded *)
Lemma rounds_exact p k : rounds p (IZR k * p10 (- p)) (IZR k * p10 (- p)).
Proof. exists k. split; [reflexivity|]. rewrite Rminus_diag_eq, Rabs_R0 by reflexivity. pose proof (p10_pos (- p)). split; [lra|]. lra. Qed.
Lemma rounds_p10 p e : - p <= e -> rounds p (p10 e) (p10 e).
Proof.
  intros H. replace (p10 e) with (IZR (10 ^ (e + p)) * p10 (- p))%R; [apply rounds_exact|]. rewrite <- p10_z by lia. rewrite <- p10_add. f_equal. lia.
Qed.
Lemma rounds_between (d : nat) x y e : (0 < x)%R -> magnitude x e -> rounds (Z.of_nat d - e) x y -> (p10 e <= y <= p10 (e + 1))%R.
Proof.
  intros Px [L U] H. rewrite Rabs_right in L, U by lra. split.
  - apply (rounds_mono (Z.of_nat d - e) (p10 e) x); [apply rounds_p10; lia|exact H|exact L].
  - apply (rounds_mono (Z.of_nat d - e) x (p10 (e + 1))); [exact H|apply rounds_p10; lia|lra].
Qed.
Lemma magnitude_nonzero x e : magnitude x e -> x <> 0%R.
Proof. intros [L _] ->. rewrite Rabs_R0 in L. pose proof (p10_pos e). lra. Qed.
Lemma rounds_sign p x y : (0 <= x)%R -> rounds p x y -> (0 <= y)%R.
Proof. intros Hx H. apply (rounds_mono p 0 x); [|exact H|exact Hx]. pose proof (rounds_exact p 0) as E. rewrite Rmult_0_l in E. exact E. Qed.
Lemma sig_sign d x y : rounds_sig d x y -> ((0 <= x)%R -> (0 <= y)%R) /\ ((x <= 0)%R -> (y <= 0)%R).
Proof.
  intros [[-> ->]|(e & _ & H)]; [lra|]. split; intros Hx; [exact (rounds_sign _ _ _ Hx H)|]. apply rounds_opp in H. pose proof (rounds_sign _ (- x)%R (- y)%R ltac:(lra) H). lra.
Qed.
Lemma sig_mono_pos d x x' y y' : (0 < x)%R -> rounds_sig d x y -> rounds_sig d x' y' -> (x <= x')%R -> (y <= y')%R.
Proof.
  intros Px [[A _]|(e & M & H)] [[A' _]|(e' & M' & H')] L; try lra. destruct (Z.lt_trichotomy e e') as [C|[C|C]].
  - pose proof (rounds_between d x y e Px M H). pose proof (rounds_between d x' y' e' ltac:(lra) M' H'). pose proof (p10_le (e + 1) e' ltac:(lia)). lra.
  - subst e'. exact (rounds_mono _ _ _ _ _ H H' L).
  - exfalso. destruct M as [M1 _], M' as [_ M2]. rewrite Rabs_right in M1, M2 by lra. pose proof (p10_le (e' + 1) e ltac:(lia)). lra.
Qed.
Lemma sig_mono d x x' y y' : rounds_sig d x y -> rounds_sig d x' y' -> (x <= x')%R -> (y <= y')%R.
Proof.
  intros H H' L. destruct (Rlt_le_dec 0 x) as [P|P]; [exact (sig_mono_pos d x x' y y' P H H' L)|]. destruct (Rlt_le_dec x' 0) as [P'|P'].
  - apply sig_opp in H, H'. pose proof (sig_mono_pos d (- x') (- x) (- y') (- y) ltac:(lra) H' H ltac:(lra)). lra.
  - pose proof (proj2 (sig_sign _ _ _ H) P). pose proof (proj1 (sig_sign _ _ _ H') P'). lra.
Qed.
Lemma sig_unique d x y y' : rounds_sig d x y -> rounds_sig d x y' -> y = y'.
Proof. intros A B. apply Rle_antisym; eapply sig_mono; eauto; lra. Qed.
Lemma sig_abs d q : Qnum q <> 0 -> rounds_sig d (Rabs (Q2R q)) (IZR (fst (mant d q)) * p10 (snd (mant d q) - Z.of_nat d)).
Proof.
  intros N. destruct (mant_spec d q N) as (_ & E & _). rewrite E. right. exists (exponent q). split; [|apply rounds_abs]. pose proof (exponent_spec q N) as [A B]. split; rewrite Rabs_Rabsolu; assumption.
Qed.
Lemma mant_zero d q : Qnum q = 0 -> mant d q = (0, 0).
Proof. intros H. unfold mant. rewrite H. reflexivity. Qed.
Lemma sci_printed d q : scientific_text d (Q2R q) (fmt_E d (Fin q)).
Proof.
  unfold fmt_E. fold (mant d q). pose proof (mant_range d q) as B. pose proof (sig_abs d q) as SA. pose proof (mant_zero d q) as MZ. pose proof (mant_spec d q) as MS. cbv zeta in MS. destruct (mant d q) as [m e] eqn:Em. cbn [fst snd] in *.
  destruct (digits_spec m ltac:(lia)) as (A & V & N & Lm). destruct (pad_spec (S d) (digits m) A) as (A' & V' & L). set (s := pad (S d) (digits m)) in *.
  assert (Ls : List.length s = S d).
  { rewrite L. apply Nat.max_l. destruct (Z.eq_dec m 0) as [->|Hm]; [change (List.length (digits 0)) with 1%nat; lia|]. specialize (Lm Hm). destruct (le_lt_dec (List.length (digits m)) (S d)) as [H|H]; [exact H|]. exfalso.
    pose proof (Z.pow_le_mono_r 10 (Z.of_nat d + 1) (Z.of_nat (List.length (digits m)) - 1) ltac:(lia) ltac:(lia)). lia. }
  destruct s as [|c f] eqn:Es; [discriminate|]. injection Ls as Ls. cbn [firstn skipn].
  exists (minus q), c, f, m, e, (if e <? 0 then S_ "-" else S_ "+"), (pad 2 (digits (Z.abs e))). split; [apply minus_text|]. split; [exact Ls|]. split; [apply denotes_value; split; [exact A'|congruence]|].
  split.
  { destruct (Z.eq_dec (Qnum q) 0) as [H|H].
    - left. specialize (MZ H). injection MZ as -> ->. split; [apply zero_real, H|split; reflexivity].
    - right. split; [intros Z0; apply H, zero_real, Z0|]. split; [|exact (SA H)]. destruct (MS H) as (Bm & _). apply (head_nonzero c f A'). rewrite Ls. lia. }
  split; [reflexivity|]. destruct (digits_spec (Z.abs e) ltac:(lia)) as (Ae & Ve & _). destruct (pad_spec 2 (digits (Z.abs e)) Ae) as (Ae' & Ve' & _).
  split; [apply denotes_value; split; [exact Ae'|congruence]|]. split; [apply pad_nopad; lia|].
  f_equal. cbn [app]. f_equal. destruct d, f; try discriminate; reflexivity.
Qed.
Lemma sci_unique d x t t' : scientific_text d x t -> scientific_text d x t' -> t = t'.
Proof.
  intros (sg & c & f & k & e & esg & ed & S1 & L1 & D1 & C1 & E1 & F1 & N1 & ->) (sg' & c' & f' & k' & e' & esg' & ed' & S2 & L2 & D2 & C2 & E2 & F2 & N2 & ->).
  apply denotes_value in D1, D2, F1, F2. destruct D1 as [A1 V1], D2 as [A2 V2], F1 as [B1 W1], F2 as [B2 W2].
  assert (K : k = k' /\ e = e').
  { destruct C1 as [(Z1 & -> & ->)|(Z1 & H1 & R1)], C2 as [(Z2 & -> & ->)|(Z2 & H2 & R2)]; try contradiction; [split; reflexivity|].
    pose proof (sig_unique _ _ _ _ R1 R2) as E. assert (T : forall c f k e, List.length f = d -> all_digits (c :: f) -> value (c :: f) = k -> c <> "0"%char -> magnitude (IZR k * p10 (e - Z.of_nat d)) e).
    { intros c0 f0 k0 e0 Lf Al Vl Nl. pose proof (head_least c0 f0 Al Nl) as P1. pose proof (value_bound _ Al) as P2. cbn [List.length] in P2. rewrite Vl, Lf in *. destruct P2 as [_ P2].
      apply IZR_le in P1. apply IZR_lt in P2. rewrite <- p10_z in P1, P2 by lia. pose proof (p10_pos (e0 - Z.of_nat d)) as P. pose proof (p10_pos (Z.of_nat d)) as Pd. unfold magnitude. rewrite Rabs_right by nra.
      replace (p10 e0) with (p10 (Z.of_nat d) * p10 (e0 - Z.of_nat d))%R by (rewrite <- p10_add; f_equal; lia). replace (p10 (e0 + 1)) with (p10 (Z.of_nat (S d)) * p10 (e0 - Z.of_nat d))%R by (rewrite <- p10_add; f_equal; lia). nra. }
    pose proof (T c f k e L1 A1 V1 H1) as M1. pose proof (T c' f' k' e' L2 A2 V2 H2) as M2. rewrite <- E in M2. pose proof (magnitude_unique _ _ _ M1 M2) as <-. split; [|reflexivity]. apply eq_IZR. pose proof (p10_pos (e - Z.of_nat d)). nra. }
  destruct K as [-> ->]. assert (E : c :: f = c' :: f') by (apply same_digits; [assumption..|cbn [List.length]; congruence|congruence]). injection E as -> ->.
  assert (Ed : ed = ed') by (apply (nopad_same 1); [assumption..|congruence]). rewrite Ed, E1, E2, (minus_unique _ _ _ S1 S2). reflexivity.
Qed.

(** ** printing what was read *)
Lemma near_Z a b : (2 * Rabs (IZR a - IZR b) <= 1)%R -> a = b.
Proof.
  intros H. rewrite <- minus_IZR, <- abs_IZR in H. change 2%R with (IZR 2) in H. rewrite <- mult_IZR in H. apply le_IZR in H. lia.
Qed.
Lemma rounds_point p k y : rounds p (IZR k * p10 (- p)) y -> y = (IZR k * p10 (- p))%R.
Proof. intros H. exact (rounds_unique _ _ _ _ H (rounds_exact p k)). Qed.
Lemma rounds_again p x y : rounds p x y -> rounds p y y.
Proof. intros (k & -> & _). apply rounds_exact. Qed.
Lemma rounds_Rabs p x y : rounds p x y -> rounds p (Rabs x) (Rabs y).
Proof.
  intros H. destruct (Rle_lt_dec 0 x) as [P|P].
  - pose proof (rounds_sign _ _ _ P H). rewrite !Rabs_right by lra. exact H.
  - apply rounds_opp in H. pose proof (rounds_sign _ (- x)%R (- y)%R ltac:(lra) H). rewrite Rabs_left by lra. rewrite Rabs_left1 by lra. exact H.
Qed.
Lemma sig_magnitude d x y : rounds_sig d x y -> x <> 0%R -> exists e, magnitude y e /\ rounds (Z.of_nat d - e) y y.
Proof.
  intros [[-> _]|(e & M & H)] N; [contradiction|]. pose proof (rounds_Rabs _ _ _ H) as Ha. assert (Ma : magnitude (Rabs x) e) by (destruct M; split; rewrite Rabs_Rabsolu; assumption).
  pose proof (rounds_between d _ _ e (Rabs_pos_lt _ N) Ma Ha) as [B1 B2]. destruct (Rle_lt_or_eq_dec _ _ B2) as [B|B].
  - exists e. split; [split; assumption|]. exact (rounds_again _ _ _ H).
  - exists (e + 1). split; [split; [lra|rewrite B; apply p10_lt; lia]|].
    assert (P : rounds (Z.of_nat d - (e + 1)) (Rabs y) (Rabs y)) by (rewrite B; apply rounds_p10; lia). destruct (Rle_lt_dec 0 y) as [Y|Y].
    + rewrite Rabs_right in P by lra. exact P.
    + rewrite Rabs_left in P by lra. apply rounds_opp in P. rewrite Ropp_involutive in P. exact P.
Qed.
Lemma sig_again d x y : rounds_sig d x y -> rounds_sig d y y.
Proof.
  intros H. destruct (Req_EM_T x 0) as [->|N].
  - destruct H as [[_ ->]|(e & M & _)]; [left; split; reflexivity|]. exfalso. exact (magnitude_nonzero _ _ M eq_refl).
  - destruct (sig_magnitude d x y H N) as (e & M & R). right. exists e. split; assumption.
Qed.
Lemma sig_error d x y : rounds_sig d x y -> (2 * Rabs (x - y) <= Rabs x * p10 (- Z.of_nat d))%R.
Proof.
  intros [[-> ->]|(e & [M _] & k & _ & L & _)]; [rewrite Rminus_0_r, Rabs_R0; lra|]. replace (- (Z.of_nat d - e)) with (e + - Z.of_nat d) in L by lia. rewrite p10_add in L. pose proof (p10_pos (- Z.of_nat d)). nra.
Qed.
