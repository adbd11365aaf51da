(** Proofs for numbers in files. *)
From Coq Require Import ZArith QArith Reals Qreals String Ascii Lra Lia.
From Verif Require Import Py PyStr CfgModel DataModel CompModel SubsModel NumModel NumSpec InstrSpec InstrProofs.
Local Open Scope list_scope.
Local Open Scope Z_scope.

(** ** powers of ten *)
Lemma p10_pos e : (0 < p10 e)%R. Proof. apply powerRZ_lt. lra. Qed.
Lemma p10_add a b : p10 (a + b) = (p10 a * p10 b)%R. Proof. apply powerRZ_add. lra. Qed.
Lemma p10_0 : p10 0 = 1%R. Proof. reflexivity. Qed.
Lemma p10_1 : p10 1 = 10%R. Proof. unfold p10. simpl. lra. Qed.
Lemma p10_opp e : (p10 (- e) * p10 e = 1)%R. Proof. rewrite <- p10_add. replace (- e + e) with 0 by lia. reflexivity. Qed.
Lemma p10_nat n : p10 (Z.of_nat n) = IZR (10 ^ Z.of_nat n).
Proof.
  induction n as [|n IH]; [reflexivity|]. rewrite Nat2Z.inj_succ. unfold Z.succ. rewrite p10_add, IH. rewrite Z.pow_add_r by lia. rewrite mult_IZR. rewrite p10_1. f_equal.
Qed.
Lemma p10_z e : 0 <= e -> p10 e = IZR (10 ^ e).
Proof. intros H. rewrite <- (Z2Nat.id e H). apply p10_nat. Qed.
Lemma p10_inv e : p10 (- e) = (/ p10 e)%R.
Proof. apply (Rmult_eq_reg_r (p10 e)); [|apply Rgt_not_eq, p10_pos]. rewrite p10_opp. field. apply Rgt_not_eq, p10_pos. Qed.
Lemma p10_lt a b : a < b -> (p10 a < p10 b)%R.
Proof.
  intros H. replace b with (a + (b - a)) by lia. rewrite p10_add. rewrite (p10_z (b - a)) by lia. pose proof (p10_pos a).
  assert (1 < IZR (10 ^ (b - a)))%R. { apply (IZR_lt 1). apply (Z.pow_gt_1 10); lia. } nra.
Qed.
Lemma p10_le a b : a <= b -> (p10 a <= p10 b)%R.
Proof. intros H. destruct (Z.eq_dec a b) as [->|N]; [lra|]. left. apply p10_lt. lia. Qed.
Lemma real_Z z : Q2R (inject_Z z) = IZR z.
Proof. unfold Q2R, inject_Z. cbn. lra. Qed.
Lemma ten_real e : Q2R (ten e) = p10 e.
Proof.
  unfold ten. destruct (0 <=? e) eqn:E.
  - apply Z.leb_le in E. rewrite real_Z. symmetry. apply p10_z, E.
  - apply Z.leb_gt in E. assert (P : 0 < 10 ^ (- e)) by (apply Z.pow_pos_nonneg; lia). rewrite Q2R_inv.
    + rewrite real_Z. rewrite <- p10_z by lia. rewrite <- p10_inv. f_equal. lia.
    + intros H. apply Qeq_eqR in H. rewrite real_Z in H. unfold Q2R in H. cbn in H. apply (IZR_lt 0) in P. lra.
Qed.
Lemma real_abs q : Rabs (Q2R q) = (IZR (Z.abs (Qnum q)) / IZR (Zpos (Qden q)))%R.
Proof. unfold Q2R, Rdiv. rewrite Rabs_mult, abs_IZR. f_equal. apply Rabs_right. apply Rle_ge, Rlt_le, Rinv_0_lt_compat, (IZR_lt 0). lia. Qed.

(** ** rounding *)
Lemma round_even_spec a b : 0 < b -> let m := round_even a b in - b <= 2 * (a - m * b) <= b /\ (Z.abs (2 * (a - m * b)) = b -> Z.even m = true).
Proof.
  intros B. unfold round_even. pose proof (Z.div_mod a b ltac:(lia)) as E. pose proof (Z.mod_pos_bound a b B) as M. set (q := a / b) in *. set (r := a mod b) in *.
  destruct (2 * r <? b) eqn:E1; [apply Z.ltb_lt in E1|apply Z.ltb_ge in E1].
  - cbv zeta. split; [nia|]. intros H. nia.
  - destruct (b <? 2 * r) eqn:E2; [apply Z.ltb_lt in E2|apply Z.ltb_ge in E2].
    + cbv zeta. split; [nia|]. intros H. nia.
    + destruct (Z.even q) eqn:E3; cbv zeta; (split; [nia|]); intros _; [exact E3|]. replace (q + 1) with (Z.succ q) by lia. rewrite Z.even_succ. rewrite <- Z.negb_even, E3. reflexivity.
Qed.
Lemma round_even_nonneg a b : 0 <= a -> 0 < b -> 0 <= round_even a b.
Proof. intros A B. unfold round_even. pose proof (Z.div_pos a b A B). repeat match goal with |- context [if ?c then _ else _] => destruct c end; lia. Qed.
Lemma round_real a b (X : R) : 0 < b -> (X * IZR b = IZR a)%R -> let m := IZR (round_even a b) in (2 * Rabs (X - m) <= 1)%R /\ ((2 * Rabs (X - m) = 1)%R -> Z.even (round_even a b) = true).
Proof.
  intros B H. destruct (round_even_spec a b B) as [[L1 L2] T]. set (m := round_even a b) in *. cbv zeta in *.
  assert (Bp : (0 < IZR b)%R) by (apply (IZR_lt 0); exact B).
  assert (E : (IZR (2 * (a - m * b)) = 2 * (X - IZR m) * IZR b)%R) by (rewrite mult_IZR, minus_IZR, mult_IZR, <- H; ring).
  apply IZR_le in L1, L2. rewrite opp_IZR in L1. rewrite E in L1, L2. split.
  - unfold Rabs. destruct (Rcase_abs (X - IZR m)); nra.
  - intros Q. apply T. apply eq_IZR. rewrite abs_IZR, E. rewrite Rabs_mult. rewrite (Rabs_right (IZR b)) by lra. rewrite Rabs_mult. rewrite (Rabs_right 2) by lra. rewrite Q. ring.
Qed.
Lemma scaled_spec q p : let m := IZR (scaled q p) in (2 * Rabs (Rabs (Q2R q) * p10 p - m) <= 1)%R /\ ((2 * Rabs (Rabs (Q2R q) * p10 p - m) = 1)%R -> Z.even (scaled q p) = true).
Proof.
  unfold scaled. rewrite real_abs. assert (D : (IZR (Zpos (Qden q)) <> 0)%R) by (apply Rgt_not_eq; apply (IZR_lt 0); lia). destruct (0 <=? p) eqn:E.
  - apply Z.leb_le in E. apply round_real; [lia|]. rewrite mult_IZR, (p10_z p E). field. exact D.
  - apply Z.leb_gt in E. apply round_real; [pose proof (Z.pow_pos_nonneg 10 (- p) ltac:(lia) ltac:(lia)); lia|]. rewrite mult_IZR, <- p10_z by lia. rewrite p10_inv. field. split; [apply Rgt_not_eq, p10_pos|exact D].
Qed.
Lemma scaled_nonneg q p : 0 <= scaled q p.
Proof.
  unfold scaled. destruct (0 <=? p) eqn:E; [apply Z.leb_le in E|apply Z.leb_gt in E]; apply round_even_nonneg; try lia; pose proof (Z.pow_pos_nonneg 10 (Z.abs p) ltac:(lia) ltac:(lia)) as H; rewrite ?(Z.abs_eq p), ?(Z.abs_neq p) in H by lia; nia.
Qed.
(** the signed value *)
Definition sgn (q : Q) : Z := if Qnum q <? 0 then -1 else 1.
Lemma real_sgn q : Q2R q = (IZR (sgn q) * Rabs (Q2R q))%R.
Proof.
  unfold sgn. destruct (Qnum q <? 0) eqn:E.
  - apply Z.ltb_lt in E. rewrite Rabs_left; [ring|]. unfold Q2R. apply (IZR_lt) in E. apply Ropp_lt_cancel. rewrite Ropp_0. rewrite Ropp_mult_distr_l. apply Rmult_lt_0_compat; [lra|]. apply Rinv_0_lt_compat, (IZR_lt 0). lia.
  - apply Z.ltb_ge in E. rewrite Rabs_right; [ring|]. unfold Q2R. apply IZR_le in E. apply Rle_ge, Rmult_le_pos; [lra|]. left. apply Rinv_0_lt_compat, (IZR_lt 0). lia.
Qed.
Lemma rounds_scaled q p : rounds p (Q2R q) (IZR (sgn q) * IZR (scaled q p) * p10 (- p)).
Proof.
  destruct (scaled_spec q p) as [L T]. set (m := scaled q p) in *. exists (sgn q * m). rewrite mult_IZR. split; [reflexivity|]. pose proof (p10_pos (- p)) as P.
  assert (S : (Rabs (IZR (sgn q)) = 1)%R) by (unfold sgn; destruct (Qnum q <? 0); [rewrite Rabs_left; lra|rewrite Rabs_right; lra]).
  assert (E : (Rabs (Q2R q - IZR (sgn q) * IZR m * p10 (- p)) = Rabs (Rabs (Q2R q) * p10 p - IZR m) * p10 (- p))%R).
  { rewrite (real_sgn q) at 1. replace (IZR (sgn q) * Rabs (Q2R q) - IZR (sgn q) * IZR m * p10 (- p))%R with (IZR (sgn q) * ((Rabs (Q2R q) * p10 p - IZR m) * p10 (- p)))%R.
    - rewrite !Rabs_mult, S. rewrite (Rabs_right (p10 (- p))) by lra. ring.
    - pose proof (p10_opp p) as O. transitivity (IZR (sgn q) * (Rabs (Q2R q) * (p10 (- p) * p10 p) - IZR m * p10 (- p)))%R; [ring|rewrite O; ring]. }
  rewrite E. split; [nra|]. intros H. rewrite Z.even_mul. rewrite (T ltac:(nra)). apply orb_true_r.
Qed.
(** ** rounding is monotone *)
Lemma rounds_mono p x x' y y' : rounds p x y -> rounds p x' y' -> (x <= x')%R -> (y <= y')%R.
Proof.
  intros (k & -> & L & T) (k' & -> & L' & T') Hx. pose proof (p10_pos (- p)) as P. set (u := p10 (- p)) in *.
  destruct (Z_le_gt_dec k k') as [H|H]; [apply IZR_le in H; nra|]. exfalso.
  assert (L1 : (2 * (IZR k * u - x) <= u)%R) by (pose proof (Rle_abs (- (x - IZR k * u))) as A; rewrite Rabs_Ropp in A; lra).
  assert (L2 : (2 * (x' - IZR k' * u) <= u)%R) by (pose proof (Rle_abs (x' - IZR k' * u)) as A; lra).
  assert (K : k = k' + 1 \/ k' + 2 <= k) by lia. destruct K as [->|K].
  - rewrite plus_IZR in *. assert (E1 : (2 * Rabs (x - (IZR k' + 1) * u) = u)%R) by (rewrite Rabs_left1; lra). assert (E2 : (2 * Rabs (x' - IZR k' * u) = u)%R) by (rewrite Rabs_right; lra).
    specialize (T E1). specialize (T' E2). replace (k' + 1) with (Z.succ k') in T by lia. rewrite Z.even_succ, <- Z.negb_even, T' in T. discriminate.
  - apply IZR_le in K. rewrite plus_IZR in K. nra.
Qed.

(** ** digits *)
Lemma nat_of_dchar n : 0 <= n < 10 -> nat_of_ascii (dchar n) = (48 + Z.to_nat n)%nat.
Proof. intros H. unfold dchar. apply nat_ascii_embedding. lia. Qed.
Lemma dval_dchar n : 0 <= n < 10 -> dval (dchar n) = n.
Proof. intros H. unfold dval. rewrite nat_of_dchar by exact H. lia. Qed.
Lemma is_digit_dchar n : 0 <= n < 10 -> is_digit (dchar n) = true.
Proof. intros H. unfold is_digit. rewrite nat_of_dchar by exact H. apply andb_true_intro. split; apply Nat.leb_le; lia. Qed.
Lemma is_digit_inv c : is_digit c = true -> digit_of c (dval c).
Proof.
  unfold is_digit, digit_of, dval. intros H. apply andb_prop in H. destruct H as [A B]. apply Nat.leb_le in A, B. split; [lia|]. rewrite <- (ascii_nat_embedding c) at 1. f_equal. lia.
Qed.
Lemma digit_of_inv c n : digit_of c n -> is_digit c = true /\ dval c = n.
Proof. intros [H ->]. change (ascii_of_nat (48 + Z.to_nat n)) with (dchar n). split; [apply is_digit_dchar, H|apply dval_dchar, H]. Qed.
Definition all_digits (s : str) : Prop := Forall (fun c => is_digit c = true) s.
Lemma value_from s : forall v, fold_left (fun v c => 10 * v + dval c) s v = v * 10 ^ Z.of_nat (List.length s) + value s.
Proof.
  induction s as [|c s IH]; intros v; [cbn; unfold value; cbn; lia|]. unfold value. cbn [fold_left]. rewrite IH. rewrite (IH (10 * 0 + dval c)). cbn [List.length]. rewrite Nat2Z.inj_succ, Z.pow_succ_r by lia. ring.
Qed.
Lemma value_app a b : value (a ++ b) = value a * 10 ^ Z.of_nat (List.length b) + value b.
Proof. unfold value at 1. rewrite fold_left_app. apply value_from. Qed.
Lemma value_cons c s : value (c :: s) = dval c * 10 ^ Z.of_nat (List.length s) + value s.
Proof. change (c :: s) with ([c] ++ s). rewrite value_app. reflexivity. Qed.
Lemma denotes_value s v : denotes s v <-> all_digits s /\ value s = v.
Proof.
  split.
  - induction 1 as [|c n r v D H [A IH]]; [split; [constructor|reflexivity]|]. destruct (digit_of_inv c n D) as [I E]. split; [constructor; assumption|]. rewrite value_cons, E, IH. reflexivity.
  - intros [A <-]. induction A as [|c s I A IH]; [constructor|]. rewrite value_cons. constructor; [apply is_digit_inv, I|exact IH].
Qed.
Lemma value_bound s : all_digits s -> 0 <= value s < 10 ^ Z.of_nat (List.length s).
Proof.
  induction 1 as [|c s I A IH]; [cbn; lia|]. rewrite value_cons. cbn [List.length]. rewrite Nat2Z.inj_succ, Z.pow_succ_r by lia. destruct (is_digit_inv c I) as [B _]. nia.
Qed.
(** the digits end in the accumulator; a number below 10^k with k steps is used up *)
Lemma digits_acc_spec k : forall n acc, 0 <= n < 2 ^ Z.of_nat k -> exists s, digits_acc k n acc = s ++ acc /\ all_digits s /\ value s = n /\ (n <> 0 -> 10 ^ (Z.of_nat (List.length s) - 1) <= n /\ s <> []) /\ (n = 0 -> s = []).
Proof.
  induction k as [|k IH]; intros n acc H; cbn [digits_acc].
  - exists []. change (2 ^ Z.of_nat 0) with 1 in H. assert (n = 0) by lia. subst n. split; [reflexivity|]. split; [constructor|]. split; [reflexivity|]. split; [intros X; lia|reflexivity].
  - destruct (n =? 0) eqn:E.
    + apply Z.eqb_eq in E. subst n. exists []. split; [reflexivity|]. split; [constructor|]. split; [reflexivity|]. split; [intros X; lia|reflexivity].
    + apply Z.eqb_neq in E. rewrite Nat2Z.inj_succ, Z.pow_succ_r in H by lia. pose proof (Z.div_mod n 10 ltac:(lia)) as D. pose proof (Z.mod_pos_bound n 10 ltac:(lia)) as M.
      destruct (IH (n / 10) (dchar (n mod 10) :: acc)) as (s & Es & A & V & L & Z0); [split; [apply Z.div_pos; lia|]; apply Z.div_lt_upper_bound; lia|].
      exists (s ++ [dchar (n mod 10)]). split; [rewrite Es, <- app_assoc; reflexivity|]. split; [apply Forall_app; split; [exact A|constructor; [apply is_digit_dchar, M|constructor]]|].
      split; [rewrite value_app, V; change (value [dchar (n mod 10)]) with (10 * 0 + dval (dchar (n mod 10))); rewrite dval_dchar by exact M; cbn [List.length]; change (10 ^ Z.of_nat 1) with 10; lia|].
      split; [|intros X; contradiction]. intros _. split; [|destruct s; discriminate]. rewrite app_length. cbn [List.length].
      destruct (Z.eq_dec (n / 10) 0) as [N0|N0].
      * rewrite (Z0 N0). cbn. lia.
      * destruct (L N0) as [L1 L2]. replace (Z.of_nat (List.length s + 1) - 1) with (Z.succ (Z.of_nat (List.length s) - 1)) by lia.
        rewrite Z.pow_succ_r; [lia|]. destruct s; [contradiction|]. cbn [List.length]. lia.
Qed.
Lemma digits_spec n : 0 <= n -> all_digits (digits n) /\ value (digits n) = n /\ digits n <> [] /\ (n <> 0 -> 10 ^ (Z.of_nat (List.length (digits n)) - 1) <= n).
Proof.
  intros H. unfold digits. destruct (digits_acc_spec (S (Z.to_nat (Z.log2 n))) n []) as (s & E & A & V & L & Z0).
  { split; [exact H|]. rewrite Nat2Z.inj_succ, Z2Nat.id by apply Z.log2_nonneg. destruct (Z.eq_dec n 0) as [->|N]; [cbn; lia|]. apply Z.log2_spec. lia. }
  rewrite app_nil_r in E. rewrite E. destruct s as [|c s].
  - assert (n = 0) by (destruct (Z.eq_dec n 0); [assumption|]; destruct (L n0) as [_ X]; congruence). subst n.
    split; [constructor; [reflexivity|constructor]|]. split; [reflexivity|]. split; [discriminate|]. intros X. lia.
  - split; [exact A|]. split; [exact V|]. split; [discriminate|]. intros X. apply (L X).
Qed.
Lemma pad_spec w s : all_digits s -> all_digits (pad w s) /\ value (pad w s) = value s /\ List.length (pad w s) = Nat.max w (List.length s).
Proof.
  intros A. unfold pad. split; [|split].
  - apply Forall_app. split; [|exact A]. generalize (w - List.length s)%nat. intros k. induction k; constructor; [reflexivity|assumption].
  - rewrite value_app. assert (E : forall k, value (repeat (dchar 0) k) = 0) by (induction k as [|k IH]; [reflexivity|]; cbn [repeat]; rewrite value_cons, IH; reflexivity). rewrite E. lia.
  - rewrite app_length, repeat_length. lia.
Qed.

(** ** reading *)
Lemma span_digits s r : all_digits s -> match r with c :: _ => is_digit c = false | [] => True end -> span is_digit (s ++ r) = (s, r).
Proof.
  intros A R. induction A as [|c s I A IH]; cbn [app].
  - destruct r as [|c r]; [reflexivity|]. cbn [span]. rewrite R. reflexivity.
  - cbn [span]. rewrite I, IH. reflexivity.
Qed.
Lemma no_underscore b s : ~ In "_"%char s -> plain_digits b s = Some s.
Proof.
  revert b. induction s as [|c s IH]; intros b H; [reflexivity|]. cbn [plain_digits]. destruct (ch_eq c "_") eqn:E; [apply Ascii.eqb_eq in E; subst; exfalso; apply H; left; reflexivity|].
  rewrite IH; [reflexivity|]. intros Hi. apply H. right. exact Hi.
Qed.
Definition okc (c : ascii) : Prop := is_space c = false /\ c <> "_"%char /\ c <> "#"%char.
Lemma strip_word s : Forall okc s -> strip s = s.
Proof.
  intros H. pose proof (strip_tight [] s [] (Forall_nil _) (Forall_nil _)) as T. rewrite app_nil_r in T. apply T. destruct s as [|c s]; [left; reflexivity|]. right. split.
  - exists c, s. split; [reflexivity|]. inversion H; subst. apply H2.
  - destruct (exists_last (l := c :: s)) as (r & d & E); [discriminate|]. exists r, d. split; [exact E|]. rewrite E in H. apply Forall_app in H. destruct H as [_ H]. inversion H; subst. apply H2.
Qed.
Lemma digit_range c : is_digit c = true -> (48 <= nat_of_ascii c <= 57)%nat.
Proof. unfold is_digit. intros H. apply andb_prop in H. destruct H as [A B]. apply Nat.leb_le in A, B. lia. Qed.
Lemma digit_neq c d : is_digit c = true -> is_digit d = false -> c <> d.
Proof. intros H K ->. congruence. Qed.
Lemma digit_okc c : is_digit c = true -> okc c.
Proof.
  intros H. pose proof (digit_range c H) as R. split; [|split; apply (digit_neq c _ H); reflexivity]. unfold is_space.
  repeat match goal with |- context [(?a <=? ?b)%nat] => destruct (Nat.leb_spec a b) end; repeat match goal with |- context [(?a =? ?b)%nat] => destruct (Nat.eqb_spec a b) end; try lia; reflexivity.
Qed.
Lemma digits_okc s : all_digits s -> Forall okc s.
Proof. apply Forall_impl. exact digit_okc. Qed.
Lemma low_digit c : is_digit c = true -> low c = c.
Proof. intros H. pose proof (digit_range c H) as R. unfold low. destruct (Nat.leb_spec 65 (nat_of_ascii c)); [lia|reflexivity]. Qed.
(** signs in front of something that is no sign *)
Definition signed (sg : str) (neg : bool) : Prop := (sg = S_ "-" /\ neg = true) \/ ((sg = [] \/ sg = S_ "+") /\ neg = false).
Lemma sign_spec sg neg c t : signed sg neg -> is_digit c = true \/ c = dot -> sign (sg ++ c :: t) = (neg, c :: t).
Proof.
  intros H D. assert (D1 : ch_eq c "-" = false) by (apply Ascii.eqb_neq; destruct D as [D| ->]; [apply (digit_neq c _ D); reflexivity|discriminate]).
  assert (D2 : ch_eq c "+" = false) by (apply Ascii.eqb_neq; destruct D as [D| ->]; [apply (digit_neq c _ D); reflexivity|discriminate]).
  destruct H as [[-> ->]|[[->| ->] ->]]; cbn [app S_ list_ascii_of_string]; unfold sign; rewrite ?D1, ?D2; reflexivity.
Qed.
(** exponents *)
Definition expo (ex : str) (e : Z) : Prop := (ex = [] /\ e = 0) \/ exists c sg d neg, low c = "e"%char /\ okc c /\ is_digit c = false /\ c <> dot /\ signed sg neg /\ all_digits d /\ d <> [] /\ ex = c :: sg ++ d /\ e = opp neg (value d).
Lemma signed_okc sg neg : signed sg neg -> Forall okc sg.
Proof. intros [[-> _]|[[->| ->] _]]; repeat constructor; discriminate. Qed.
Lemma expo_okc ex e : expo ex e -> Forall okc ex.
Proof.
  intros [[-> _]|(c & sg & d & neg & L & O & _ & _ & Sg & A & _ & -> & _)]; [constructor|]. constructor; [exact O|]. apply Forall_app. split; [apply (signed_okc sg neg Sg)|apply digits_okc, A].
Qed.
Lemma expo_head ex e : expo ex e -> match ex with c :: _ => is_digit c = false | [] => True end.
Proof. intros [[-> _]|(c & sg & d & neg & L & O & I & _ & _ & _ & _ & -> & _)]; [exact Logic.I|exact I]. Qed.
Lemma read_number sg neg i f pf ex e : signed sg neg -> all_digits i -> all_digits f -> i ++ f <> [] -> ((pf = [] /\ f = []) \/ pf = dot :: f) -> expo ex e ->
  py_float (sg ++ i ++ pf ++ ex) = Ok (Fin (inject_Z (opp neg (value (i ++ f))) * ten (e - Z.of_nat (List.length f)))%Q) /\ Forall okc (sg ++ i ++ pf ++ ex).
Proof.
  intros Sg Ai Af Ne Pf Ex.
  assert (Op : Forall okc pf) by (destruct Pf as [[-> _]| ->]; [constructor|constructor; [repeat split; discriminate|apply digits_okc, Af]]).
  assert (Oa : Forall okc (sg ++ i ++ pf ++ ex)) by (rewrite !Forall_app; split; [apply (signed_okc _ _ Sg)|split; [apply digits_okc, Ai|split; [exact Op|apply (expo_okc _ _ Ex)]]]).
  split; [|exact Oa]. unfold py_float. rewrite (strip_word _ Oa). rewrite no_underscore by (intros H; apply (proj1 (Forall_forall _ _) Oa) in H; destruct H as (_ & H & _); congruence).
  assert (Hd : exists c t, i ++ pf ++ ex = c :: t /\ (is_digit c = true \/ c = dot)).
  { destruct i as [|c i]; [|exists c; eexists; split; [reflexivity|left; inversion Ai; assumption]]. cbn [app] in *. destruct Pf as [[-> ->]| ->]; [congruence|]. exists dot. eexists. split; [reflexivity|right; reflexivity]. }
  destruct Hd as (c & t & Et & Hc). rewrite Et at 1. rewrite (sign_spec sg neg c t Sg Hc).
  assert (Lc : low c = c) by (destruct Hc as [Hc| ->]; [apply low_digit, Hc|reflexivity]).
  assert (Hx : forall d r, is_digit d = false -> d <> dot -> eqb (List.map low (c :: t)) (d :: r) = false).
  { intros d r Hd Hdot. destruct (eqb (List.map low (c :: t)) (d :: r)) eqn:E; [|reflexivity]. apply eqb_eq in E. cbn [List.map] in E. assert (c = d) by congruence. subst d. destruct Hc as [Hc|Hc]; congruence. }
  rewrite (Hx "i"%char (S_ "nf") eq_refl ltac:(discriminate) : eqb (List.map low (c :: t)) (S_ "inf") = false).
  rewrite (Hx "i"%char (S_ "nfinity") eq_refl ltac:(discriminate) : eqb (List.map low (c :: t)) (S_ "infinity") = false).
  rewrite (Hx "n"%char (S_ "an") eq_refl ltac:(discriminate) : eqb (List.map low (c :: t)) (S_ "nan") = false). cbn [orb]. rewrite <- Et. unfold decimal.
  assert (X : (let! e0 := match ex with
                   | [] => Ok 0
                   | c :: r' => if ch_eq (low c) "e" then
                                  let (eneg, t) := sign r' in let (ed, rest) := span is_digit t in
                                  match ed, rest with _ :: _, [] => Ok (opp eneg (value ed)) | _, _ => Err ValueError end
                                else Err ValueError
                   end in Ok (Fin (inject_Z (opp neg (value (i ++ f))) * ten (e0 - Z.of_nat (List.length f)))%Q)) = Ok (Fin (inject_Z (opp neg (value (i ++ f))) * ten (e - Z.of_nat (List.length f)))%Q)).
  { destruct Ex as [[-> ->]|(ce & sg' & d & neg' & L & _ & _ & _ & Sg' & Ad & Nd & -> & ->)]; [reflexivity|]. rewrite L. change (ch_eq "e" "e") with true. cbv iota.
    destruct d as [|cd d]; [congruence|]. rewrite (sign_spec sg' neg' cd d Sg' (or_introl (Forall_inv Ad))). pose proof (span_digits (cd :: d) [] Ad Logic.I) as Sp. rewrite app_nil_r in Sp. rewrite Sp. reflexivity. }
  destruct Pf as [[-> ->]| ->].
  - cbn [app]. rewrite (span_digits i ex Ai (expo_head _ _ Ex)). rewrite app_nil_r in *.
    assert (E2 : (match ex with c0 :: r' => if ch_eq c0 dot then span is_digit r' else ([], ex) | [] => ([], ex) end) = ([], ex)).
    { destruct Ex as [[-> _]|(ce & sg' & d & neg' & _ & _ & _ & Nd & _ & _ & _ & -> & _)]; [reflexivity|]. destruct (ch_eq ce dot) eqn:E; [apply Ascii.eqb_eq in E; congruence|reflexivity]. }
    rewrite E2. rewrite app_nil_r. destruct i as [|c0 i]; [congruence|]. exact X.
  - cbn [app]. rewrite (span_digits i (dot :: f ++ ex) Ai eq_refl). change (ch_eq dot dot) with true. cbv iota. rewrite (span_digits f ex Af (expo_head _ _ Ex)).
    destruct (i ++ f) as [|c0 m]; [congruence|]. exact X.
Qed.
Lemma opp_real neg z : IZR (opp neg z) = ((if neg then -1 else 1) * IZR z)%R.
Proof. destruct neg; unfold opp; rewrite ?opp_IZR; ring. Qed.
Lemma read_real neg v e : Q2R (inject_Z (opp neg v) * ten e) = ((if neg then -1 else 1) * IZR v * p10 e)%R.
Proof. rewrite Q2R_mult, real_Z, ten_real, opp_real. reflexivity. Qed.

(** ** printing *)
Definition negative (q : Q) : bool := Qnum q <? 0.
Lemma minus_signed q : signed (minus q) (negative q).
Proof. unfold minus, negative, signed. destruct (Qnum q <? 0); auto. Qed.
Lemma negative_sgn q : (if negative q then -1 else 1)%R = IZR (sgn q).
Proof. unfold negative, sgn. destruct (Qnum q <? 0); reflexivity. Qed.
Lemma cut_point d s : all_digits s -> (d < List.length s)%nat -> let n := (List.length s - d)%nat in
  all_digits (firstn n s) /\ all_digits (skipn n s) /\ firstn n s ++ skipn n s = s /\ List.length (skipn n s) = d /\ firstn n s <> [].
Proof.
  intros A L n. assert (E := firstn_skipn n s). rewrite <- E in A. apply Forall_app in A. destruct A as [A1 A2]. split; [exact A1|]. split; [exact A2|]. split; [exact E|].
  split; [rewrite skipn_length; lia|]. intros H. apply (f_equal (@List.length ascii)) in H. rewrite firstn_length in H. cbn in H. lia.
Qed.
Definition reading (neg : bool) (m e : Z) : Q := (inject_Z (opp neg m) * ten e)%Q.
Lemma fixed_shape d q : exists i f, fmt_f d (Fin q) = minus q ++ i ++ match d with O => [] | S _ => dot :: f end /\ all_digits i /\ all_digits f /\ i <> [] /\ List.length f = d /\ value (i ++ f) = scaled q (Z.of_nat d).
Proof.
  unfold fmt_f. set (m := scaled q (Z.of_nat d)). destruct (digits_spec m (scaled_nonneg _ _)) as (A & V & N & _). destruct (pad_spec (S d) (digits m) A) as (A' & V' & L).
  set (s := pad (S d) (digits m)) in *. destruct (cut_point d s A' ltac:(lia)) as (A1 & A2 & E & L2 & N1). exists (firstn (List.length s - d) s), (skipn (List.length s - d) s).
  split; [destruct d; reflexivity|]. rewrite E. split; [exact A1|]. split; [exact A2|]. split; [exact N1|]. split; [exact L2|congruence].
Qed.
Lemma fixed_reads d q : py_float (fmt_f d (Fin q)) = Ok (Fin (reading (negative q) (scaled q (Z.of_nat d)) (- Z.of_nat d))) /\ Forall okc (fmt_f d (Fin q)).
Proof.
  destruct (fixed_shape d q) as (i & f & E & Ai & Af & Ni & Lf & V). rewrite E.
  destruct (read_number (minus q) (negative q) i f (match d with O => [] | S _ => dot :: f end) [] 0 (minus_signed q) Ai Af) as [P O].
  - destruct i; [congruence|discriminate].
  - destruct d; [left; split; [reflexivity|destruct f; [reflexivity|discriminate]]|right; reflexivity].
  - left. split; reflexivity.
  - rewrite app_nil_r in P, O. split; [|exact O]. rewrite P, V, Lf. reflexivity.
Qed.
Lemma digits_len n : 0 < n -> let l := Z.of_nat (List.length (digits n)) in 10 ^ (l - 1) <= n < 10 ^ l.
Proof. intros H. destruct (digits_spec n ltac:(lia)) as (A & V & N & L). split; [apply L; lia|]. pose proof (value_bound _ A) as B. rewrite V in B. apply B. Qed.
Lemma exponent_spec q : Qnum q <> 0 -> magnitude (Q2R q) (exponent q).
Proof.
  intros N. unfold magnitude. rewrite real_abs. set (a := Z.abs (Qnum q)). set (b := Zpos (Qden q)). assert (Ha : 0 < a) by lia. assert (Hb : 0 < b) by lia.
  pose proof (digits_len a Ha) as [A1 A2]. pose proof (digits_len b Hb) as [B1 B2]. unfold exponent. fold a b.
  assert (La : (0 < List.length (digits a))%nat) by (destruct (digits_spec a ltac:(lia)) as (_ & _ & X & _); destruct (digits a); [congruence|cbn; lia]).
  assert (Lb : (0 < List.length (digits b))%nat) by (destruct (digits_spec b ltac:(lia)) as (_ & _ & X & _); destruct (digits b); [congruence|cbn; lia]).
  set (la := Z.of_nat (List.length (digits a))) in *. set (lb := Z.of_nat (List.length (digits b))) in *. set (e := la - lb).
  apply IZR_le in A1, B1. apply IZR_lt in A2, B2. rewrite <- p10_z in A1, A2, B1, B2 by lia. assert (Ra : (0 < IZR a)%R) by (apply (IZR_lt 0); lia). assert (Rb : (0 < IZR b)%R) by (apply (IZR_lt 0); lia).
  set (x := (IZR a / IZR b)%R). assert (Ex : (x * IZR b = IZR a)%R) by (unfold x; field; lra). assert (Px : (0 < x)%R) by (unfold x; apply Rdiv_lt_0_compat; lra).
  assert (Up : (x < p10 (e + 1))%R).
  { replace la with (e + 1 + (lb - 1)) in A2 by lia. rewrite p10_add in A2. pose proof (p10_pos (e + 1)). pose proof (p10_pos (lb - 1)). destruct (Rlt_le_dec x (p10 (e + 1))); [assumption|]. nra. }
  assert (Lo : (p10 (e - 1) < x)%R).
  { replace (la - 1) with (e - 1 + lb) in A1 by lia. rewrite p10_add in A1. pose proof (p10_pos (e - 1)). pose proof (p10_pos lb). destruct (Rlt_le_dec (p10 (e - 1)) x); [assumption|]. nra. }
  assert (T : (if 0 <=? e then b * 10 ^ e <=? a else b <=? a * 10 ^ (- e)) = true <-> (p10 e <= x)%R).
  { destruct (0 <=? e) eqn:E; [apply Z.leb_le in E|apply Z.leb_gt in E]; rewrite Z.leb_le; split.
    - intros H. apply IZR_le in H. rewrite mult_IZR, <- p10_z in H by exact E. nra.
    - intros H. apply le_IZR. rewrite mult_IZR, <- p10_z by exact E. nra.
    - intros H. apply IZR_le in H. rewrite mult_IZR, <- p10_z in H by lia. pose proof (p10_opp e) as O. pose proof (p10_pos (- e)). pose proof (p10_pos e).
      assert (IZR b * 1 <= IZR b * (x * p10 (- e)))%R by nra. assert (1 <= x * p10 (- e))%R by nra. nra.
    - intros H. apply le_IZR. rewrite mult_IZR, <- p10_z by lia. pose proof (p10_opp e) as O. pose proof (p10_pos (- e)). assert (1 <= x * p10 (- e))%R by nra. nra. }
  destruct (if 0 <=? e then b * 10 ^ e <=? a else b <=? a * 10 ^ (- e)) eqn:Et.
  - split; [apply T; reflexivity|exact Up].
  - replace (e - 1 + 1) with e by lia. split; [lra|]. destruct (Rlt_le_dec x (p10 e)); [assumption|]. apply T in r. discriminate.
Qed.
Lemma magnitude_unique x e e' : magnitude x e -> magnitude x e' -> e = e'.
Proof.
  intros [A B] [C D]. destruct (Z.lt_trichotomy e e') as [H|[H|H]]; [|exact H|].
  - pose proof (p10_le (e + 1) e' ltac:(lia)). lra.
  - pose proof (p10_le (e' + 1) e ltac:(lia)). lra.
Qed.
(** mantissa and exponent that are printed *)
Definition mant (d : nat) (q : Q) : Z * Z :=
  if Qnum q =? 0 then (0, 0)
  else let e := exponent q in let m := scaled q (Z.of_nat d - e) in if m =? 10 ^ (Z.of_nat d + 1) then (10 ^ Z.of_nat d, e + 1) else (m, e).
Lemma mant_spec d q : Qnum q <> 0 -> let e := exponent q in let m := scaled q (Z.of_nat d - e) in
  10 ^ Z.of_nat d <= fst (mant d q) < 10 ^ (Z.of_nat d + 1) /\ (IZR (fst (mant d q)) * p10 (snd (mant d q) - Z.of_nat d) = IZR m * p10 (- (Z.of_nat d - e)))%R /\
  (p10 (snd (mant d q)) <= IZR (fst (mant d q)) * p10 (snd (mant d q) - Z.of_nat d) < p10 (snd (mant d q) + 1))%R.
Proof.
  intros N. cbv zeta. pose proof (exponent_spec q N) as [L U]. destruct (scaled_spec q (Z.of_nat d - exponent q)) as [Sp _]. unfold mant. rewrite (proj2 (Z.eqb_neq _ _) N). cbv zeta.
  set (e := exponent q) in *. set (m := scaled q (Z.of_nat d - e)) in *. set (D := Z.of_nat d) in *. set (x := Rabs (Q2R q)) in *.
  assert (B1 : (p10 D <= x * p10 (D - e))%R) by (replace D with (e + (D - e)) at 1 by lia; rewrite p10_add; pose proof (p10_pos (D - e)); nra).
  assert (B2 : (x * p10 (D - e) < p10 (D + 1))%R) by (replace (D + 1) with (e + 1 + (D - e)) by lia; rewrite p10_add; pose proof (p10_pos (D - e)); nra).
  set (X := (x * p10 (D - e))%R) in *. rewrite (p10_z D) in B1 by lia. rewrite (p10_z (D + 1)) in B2 by lia.
  assert (R1 : (2 * (X - IZR m) <= 1 /\ 2 * (IZR m - X) <= 1)%R) by (pose proof (Rle_abs (X - IZR m)) as P1; pose proof (Rle_abs (- (X - IZR m))) as P2; rewrite Rabs_Ropp in P2; lra).
  assert (M1 : 10 ^ D <= m) by (destruct (Z_le_gt_dec (10 ^ D) m) as [H|H]; [exact H|]; assert (H' : m + 1 <= 10 ^ D) by lia; apply IZR_le in H'; rewrite plus_IZR in H'; lra).
  assert (M2 : m <= 10 ^ (D + 1)) by (destruct (Z_le_gt_dec m (10 ^ (D + 1))) as [H|H]; [exact H|]; assert (H' : 10 ^ (D + 1) + 1 <= m) by lia; apply IZR_le in H'; rewrite plus_IZR in H'; lra).
  assert (Pw : 10 ^ (D + 1) = 10 * 10 ^ D) by (rewrite Z.pow_add_r by lia; change (10 ^ 1) with 10; lia). assert (Pp : 0 < 10 ^ D) by (apply Z.pow_pos_nonneg; lia).
  destruct (m =? 10 ^ (D + 1)) eqn:E; cbn [fst snd].
  - apply Z.eqb_eq in E. split; [lia|]. rewrite E. rewrite <- !p10_z by lia. rewrite <- !p10_add. split; [f_equal; lia|]. replace (D + (e + 1 - D)) with (e + 1) by lia. split; [lra|apply p10_lt; lia].
  - apply Z.eqb_neq in E. split; [lia|]. split; [f_equal; f_equal; lia|].
    assert (H1 : (p10 D <= IZR m)%R) by (rewrite p10_z by lia; apply IZR_le; lia). assert (H2 : (IZR m < p10 (D + 1))%R) by (rewrite p10_z by lia; apply IZR_lt; lia). pose proof (p10_pos (e - D)).
    split; [replace (p10 e) with (p10 D * p10 (e - D))%R by (rewrite <- p10_add; f_equal; lia); nra|replace (p10 (e + 1)) with (p10 (D + 1) * p10 (e - D))%R by (rewrite <- p10_add; f_equal; lia); nra].
Qed.
Lemma mant_range d q : 0 <= fst (mant d q) < 10 ^ (Z.of_nat d + 1).
Proof.
  destruct (Z.eq_dec (Qnum q) 0) as [H|H]; [unfold mant; rewrite H; cbn [Z.eqb fst]; split; [lia|]; apply Z.pow_pos_nonneg; lia|].
  destruct (mant_spec d q H) as [B _]. pose proof (Z.pow_pos_nonneg 10 (Z.of_nat d) ltac:(lia) ltac:(lia)). lia.
Qed.
Definition exp_part (e : Z) : str := S_ "E" ++ (if e <? 0 then S_ "-" else S_ "+") ++ pad 2 (digits (Z.abs e)).
Lemma exp_part_spec e : expo (exp_part e) e.
Proof.
  right. destruct (digits_spec (Z.abs e) ltac:(lia)) as (A & V & N & _). destruct (pad_spec 2 (digits (Z.abs e)) A) as (A' & V' & L').
  exists "E"%char, (if e <? 0 then S_ "-" else S_ "+"), (pad 2 (digits (Z.abs e))), (e <? 0). split; [reflexivity|]. split; [repeat split; discriminate|]. split; [reflexivity|]. split; [discriminate|].
  split; [destruct (e <? 0); [left|right]; auto|]. split; [exact A'|]. split; [intros H; rewrite H in L'; cbn [List.length] in L'; lia|]. split; [reflexivity|]. rewrite V', V. destruct (e <? 0) eqn:E; [apply Z.ltb_lt in E|apply Z.ltb_ge in E]; cbn [opp]; lia.
Qed.
Lemma sci_shape d q : exists i f, fmt_E d (Fin q) = minus q ++ i ++ (match d with O => [] | S _ => dot :: f end) ++ exp_part (snd (mant d q)) /\
  all_digits i /\ all_digits f /\ List.length i = 1%nat /\ List.length f = d /\ value (i ++ f) = fst (mant d q).
Proof.
  unfold fmt_E. fold (mant d q). destruct (mant d q) as [m e] eqn:Em. pose proof (mant_range d q) as B. rewrite Em in B. cbn [fst snd] in *.
  destruct (digits_spec m ltac:(lia)) as (A & V & N & Lm). destruct (pad_spec (S d) (digits m) A) as (A' & V' & L). set (s := pad (S d) (digits m)) in *.
  assert (Ld : (List.length (digits m) <= S d)%nat).
  { destruct (Z.eq_dec m 0) as [->|Hm]; [vm_compute; lia|]. specialize (Lm Hm). destruct (le_lt_dec (List.length (digits m)) (S d)) as [H|H]; [exact H|]. exfalso.
    pose proof (Z.pow_le_mono_r 10 (Z.of_nat d + 1) (Z.of_nat (List.length (digits m)) - 1) ltac:(lia) ltac:(lia)). lia. }
  destruct (cut_point d s A' ltac:(lia)) as (A1 & A2 & E & L2 & N1). replace (List.length s - d)%nat with 1%nat in * by lia.
  exists (firstn 1 s), (skipn 1 s). split; [unfold exp_part; destruct d; reflexivity|]. rewrite E. split; [exact A1|]. split; [exact A2|]. split; [rewrite firstn_length; lia|]. split; [exact L2|congruence].
Qed.
Lemma sci_reads d q : py_float (fmt_E d (Fin q)) = Ok (Fin (reading (negative q) (fst (mant d q)) (snd (mant d q) - Z.of_nat d))) /\ Forall okc (fmt_E d (Fin q)).
Proof.
  destruct (sci_shape d q) as (i & f & E & Ai & Af & Li & Lf & V). rewrite E.
  destruct (read_number (minus q) (negative q) i f (match d with O => [] | S _ => dot :: f end) (exp_part (snd (mant d q))) (snd (mant d q)) (minus_signed q) Ai Af) as [P O].
  - destruct i; [discriminate|discriminate].
  - destruct d; [left; split; [reflexivity|destruct f; [reflexivity|discriminate]]|right; reflexivity].
  - apply exp_part_spec.
  - split; [|exact O]. rewrite P, V, Lf. reflexivity.
Qed.
Lemma fixed_rounds d q : rounds (Z.of_nat d) (Q2R q) (Q2R (reading (negative q) (scaled q (Z.of_nat d)) (- Z.of_nat d))).
Proof. unfold reading. rewrite read_real, negative_sgn. apply rounds_scaled. Qed.
Lemma zero_real q : Qnum q = 0 <-> Q2R q = 0%R.
Proof.
  unfold Q2R. split; [intros ->; ring|]. intros H. apply eq_IZR. assert (P : (/ IZR (Zpos (Qden q)) <> 0)%R) by (apply Rgt_not_eq, Rinv_0_lt_compat, (IZR_lt 0); lia). destruct (Rmult_integral _ _ H) as [X|X]; [exact X|contradiction].
Qed.
Lemma sci_rounds d q : rounds_sig d (Q2R q) (Q2R (reading (negative q) (fst (mant d q)) (snd (mant d q) - Z.of_nat d))).
Proof.
  unfold reading. rewrite read_real, negative_sgn. destruct (Z.eq_dec (Qnum q) 0) as [H|H].
  - left. split; [apply zero_real, H|]. unfold mant. rewrite H. cbn [Z.eqb fst]. ring.
  - right. exists (exponent q). split; [apply exponent_spec, H|]. destruct (mant_spec d q H) as (_ & E & _). rewrite Rmult_assoc, E, <- Rmult_assoc. apply rounds_scaled.
Qed.
