(** C134: numbers in the files of the commands: the printed texts, what they are read as. *)
From Coq Require Import ZArith QArith Reals Qreals String Ascii Lra Lia.
From Verif Require Import Py PyStr CfgModel CfgSpec KvarSpec DataModel CompModel SubsModel NumModel NumSpec InstrSpec InstrProofs CmdSpec CmdModel CmdProps NumProofs NumProofs2.
Local Open Scope list_scope.
Local Open Scope Z_scope.

(** ** the texts *)
Theorem C134_fixed_text : forall d q t, fmt_f d (Fin q) = t <-> fixed_text d (Q2R q) t.
Proof. intros d q t. split; [intros <-; apply fixed_printed|intros H; exact (fixed_unique _ _ _ _ (fixed_printed d q) H)]. Qed.
Print Assumptions C134_fixed_text.
Theorem C134_scientific_text : forall d q t, fmt_E d (Fin q) = t <-> scientific_text d (Q2R q) t.
Proof. intros d q t. split; [intros <-; apply sci_printed|intros H; exact (sci_unique _ _ _ _ (sci_printed d q) H)]. Qed.
Print Assumptions C134_scientific_text.
Theorem C134_special : forall d neg,
  fmt_f d NaN = S_ "nan" /\ fmt_f d (Inf neg) = (if neg then S_ "-inf" else S_ "inf") /\ fmt_E d NaN = S_ "NAN" /\ fmt_E d (Inf neg) = (if neg then S_ "-INF" else S_ "INF") /\
  py_float (fmt_f d NaN) = Ok NaN /\ py_float (fmt_f d (Inf neg)) = Ok (Inf neg) /\ py_float (fmt_E d NaN) = Ok NaN /\ py_float (fmt_E d (Inf neg)) = Ok (Inf neg).
Proof. intros d neg. destruct neg; repeat split. Qed.
Print Assumptions C134_special.

(** ** reading *)
Lemma ch_eq_true a b : ch_eq a b = true -> a = b. Proof. apply Ascii.eqb_eq. Qed.
Lemma span_spec f s : forall a b, span f s = (a, b) -> s = a ++ b /\ Forall (fun c => f c = true) a.
Proof.
  induction s as [|c s IH]; intros a b H; cbn [span] in H; [injection H as <- <-; split; [reflexivity|constructor]|]. destruct (f c) eqn:Ec.
  - destruct (span f s) as [x y] eqn:E. injection H as <- <-. destruct (IH x y eq_refl) as [-> F]. split; [reflexivity|constructor; assumption].
  - injection H as <- <-. split; [reflexivity|constructor].
Qed.
Lemma low_e c : low c = "e"%char -> c = "e"%char \/ c = "E"%char.
Proof. intros H. destruct c as [[] [] [] [] [] [] [] []]; try (vm_compute in H; discriminate H); auto. Qed.
Lemma sign_inv s : forall neg t, sign s = (neg, t) -> exists sg, s = sg ++ t /\ (if neg then sg = S_ "-" else sg = [] \/ sg = S_ "+").
Proof.
  intros neg t H. destruct s as [|c r]; cbn [sign] in H; [injection H as <- <-; exists []; split; [reflexivity|left; reflexivity]|].
  destruct (ch_eq c "-") eqn:E1; [injection H as <- <-; apply ch_eq_true in E1; subst c; exists (S_ "-"); split; reflexivity|].
  destruct (ch_eq c "+") eqn:E2; injection H as <- <-; [apply ch_eq_true in E2; subst c; exists (S_ "+"); split; [reflexivity|right; reflexivity]|exists []; split; [reflexivity|left; reflexivity]].
Qed.
Lemma decimal_literal (sg : str) (neg : bool) t y : (if neg then sg = S_ "-" else sg = [] \/ sg = S_ "+") -> decimal neg t = Ok (Fin y) -> literal (sg ++ t) (Q2R y).
Proof.
  intros Sg H. unfold decimal in H. destruct (span is_digit t) as [i r] eqn:E1. destruct (span_spec _ _ _ _ E1) as [-> Ai].
  destruct (match r with c :: r' => if ch_eq c dot then span is_digit r' else (@nil ascii, r) | [] => (@nil ascii, r) end) as [f r0] eqn:E2.
  assert (P : exists pf, r = pf ++ r0 /\ all_digits f /\ ((pf = [] /\ f = []) \/ pf = "."%char :: f)).
  { destruct r as [|c r']; [injection E2 as <- <-; exists []; repeat split; [constructor|left; split; reflexivity]|]. destruct (ch_eq c dot) eqn:Ec.
    - apply ch_eq_true in Ec. subst c. destruct (span_spec _ _ _ _ E2) as [-> Af]. exists (dot :: f). repeat split; [exact Af|right; reflexivity].
    - injection E2 as <- <-. exists []. repeat split; [constructor|left; split; reflexivity]. }
  destruct P as (pf & -> & Af & Pf). destruct (i ++ f) as [|m0 m] eqn:Em; [discriminate|]. rewrite <- Em in H.
  match type of H with rbind ?E _ = _ => set (ee := E) in H end. assert (X : forall e, ee = Ok e -> exp_text r0 e).
  { intros e He. unfold ee in He. destruct r0 as [|c r']; [injection He as <-; left; split; reflexivity|]. destruct (ch_eq (low c) "e") eqn:Ec; [|discriminate]. apply ch_eq_true in Ec. apply low_e in Ec.
    destruct (sign r') as [eneg u] eqn:Es. destruct (sign_inv _ _ _ Es) as (sg' & -> & Q). destruct (span is_digit u) as [ed rest] eqn:Eu. destruct (span_spec _ _ _ _ Eu) as [-> Ad]. destruct ed as [|d0 dd]; [discriminate|]. destruct rest; [|discriminate].
    injection He as <-. right. exists sg', (d0 :: dd), (value (d0 :: dd)). split; [discriminate|]. split; [apply denotes_value; split; [exact Ad|reflexivity]|]. rewrite app_nil_r. split; [destruct Ec as [-> | ->]; [left|right]; reflexivity|].
    destruct eneg; [left; split; [exact Q|reflexivity]|right; split; [exact Q|reflexivity]]. }
  destruct ee as [e|]; [|discriminate]. cbv beta iota delta [rbind] in H. injection H as <-. specialize (X e eq_refl).
  exists sg, (if neg then -1 else 1)%R, i, f, pf, (value (i ++ f)), r0, e. split; [destruct neg; [right; right; split; [exact Sg|reflexivity]|destruct Sg as [-> | ->]; [left; split; reflexivity|right; left; split; reflexivity]]|].
  split; [rewrite Em; discriminate|]. split; [apply denotes_value; split; [apply Forall_app; split; assumption|reflexivity]|]. split; [exact Pf|]. split; [exact X|]. split; [reflexivity|]. rewrite read_real. reflexivity.
Qed.
(** a text without underscores is read as a finite number exactly when it is a decimal literal with blanks around it, and as the number it denotes *)
Theorem C134_reads : forall t x, ~ In "_"%char t -> (exists y, py_float t = Ok (Fin y) /\ Q2R y = x) <-> exists a s b, spaces a /\ spaces b /\ t = a ++ s ++ b /\ literal s x.
Proof.
  intros t x Nu. split.
  - intros (y & H & <-). destruct (strip_trimmed t) as (T & a & b & E & Fa & Fb). exists a, (strip t), b. split; [exact Fa|]. split; [exact Fb|]. split; [exact E|].
    unfold py_float in H. rewrite no_underscore in H by (intros X; apply Nu; rewrite E; apply in_or_app; right; apply in_or_app; left; exact X).
    destruct (sign (strip t)) as [neg u] eqn:Es. destruct (sign_inv _ _ _ Es) as (sg & -> & Q). cbv zeta in H. destruct (eqb (map low u) (S_ "inf") || eqb (map low u) (S_ "infinity"))%bool; [discriminate|].
    destruct (eqb (map low u) (S_ "nan")); [discriminate|]. exact (decimal_literal sg neg u y Q H).
  - intros (a & s & b & Fa & Fb & -> & (sg & sx & i & f & pf & v & ex & e & S1 & N1 & D1 & P1 & X1 & -> & ->)). apply denotes_value in D1. destruct D1 as [A V]. apply Forall_app in A. destruct A as [Ai Af].
    assert (G : exists neg, signed sg neg /\ sx = (if neg then -1 else 1)%R).
    { destruct S1 as [[-> ->]|[[-> ->]|[-> ->]]]; [exists false|exists false|exists true]; (split; [|reflexivity]); [right|right|left]; split; auto. }
    destruct G as (neg & Sg & ->).
    assert (Ex : expo ex e).
    { destruct X1 as [X1|(sg' & dd & w & Nd & Dd & T & Q)]; [left; exact X1|]. right. apply denotes_value in Dd. destruct Dd as [Ad <-].
      assert (C : exists c, (c = "e" \/ c = "E")%char /\ ex = c :: sg' ++ dd) by (destruct T as [-> | ->]; [exists "e"%char|exists "E"%char]; split; auto). destruct C as (c & C & ->).
      assert (G : exists n, signed sg' n /\ e = opp n (value dd)) by (destruct Q as [[-> ->]|[Q ->]]; [exists true|exists false]; (split; [|reflexivity]); [left|right]; split; auto). destruct G as (n & Sn & ->).
      exists c, sg', dd, n. destruct C as [-> | ->]; (split; [reflexivity|]); (split; [repeat split; discriminate|]); (split; [reflexivity|]); (split; [discriminate|]); (split; [exact Sn|]); (split; [exact Ad|]); (split; [exact Nd|]); split; reflexivity. }
    destruct (read_number sg neg i f pf ex e Sg Ai Af N1 P1 Ex) as [R O]. exists (inject_Z (opp neg (value (i ++ f))) * ten (e - Z.of_nat (List.length f)))%Q. split; [|rewrite read_real, V; reflexivity].
    assert (St : strip (a ++ (sg ++ i ++ pf ++ ex) ++ b) = strip (sg ++ i ++ pf ++ ex)).
    { pose proof (strip_trimmed (sg ++ i ++ pf ++ ex)) as Tr. rewrite (strip_word _ O) in *. apply strip_tight; [exact Fa|exact Fb|apply Tr]. }
    unfold py_float in R |- *. rewrite St. exact R.
Qed.
Print Assumptions C134_reads.
(** underscores between digits are ignored; any other underscore is an error *)
Lemma digit_of_iff c : is_digit c = true <-> exists n, digit_of c n.
Proof. split; [intros H; exists (dval c); apply is_digit_inv, H|intros (n & H); apply (digit_of_inv c n H)]. Qed.
(** [p] is what was read before *)
Definition grouped_after (p s : str) : Prop := forall a b, s = a ++ "_"%char :: b -> (exists a' c n, p ++ a = a' ++ [c] /\ digit_of c n) /\ (exists c b' n, b = c :: b' /\ digit_of c n).
Definition ends_digit (p : str) : bool := match rev p with c :: _ => is_digit c | [] => false end.
Lemma ends_digit_iff p : ends_digit p = true <-> exists a c n, p = a ++ [c] /\ digit_of c n.
Proof.
  unfold ends_digit. split.
  - intros H. destruct (rev p) as [|c r] eqn:E; [discriminate|]. apply digit_of_iff in H. destruct H as [n H]. exists (rev r), c, n. split; [|exact H]. apply (f_equal (@rev ascii)) in E. rewrite rev_involutive in E. exact E.
  - intros (a & c & n & -> & H). rewrite rev_app_distr. cbn [rev app]. apply digit_of_iff. exists n. exact H.
Qed.
Lemma ends_digit_last p c : ends_digit (p ++ [c]) = is_digit c.
Proof. unfold ends_digit. rewrite rev_app_distr. reflexivity. Qed.
Lemma grouped_step p c s : grouped_after p (c :: s) <-> (c = "_"%char -> ends_digit p = true /\ exists c' b' n, s = c' :: b' /\ digit_of c' n) /\ grouped_after (p ++ [c]) s.
Proof.
  split.
  - intros H. split.
    + intros ->. destruct (H [] s eq_refl) as [A B]. rewrite app_nil_r in A. split; [apply ends_digit_iff, A|exact B].
    + intros a b E. destruct (H (c :: a) b) as [A B]; [rewrite E; reflexivity|]. rewrite <- app_assoc. split; assumption.
  - intros [A B] [|x a] b E; cbn [app] in E; injection E as -> ->.
    + destruct (A eq_refl) as [A1 A2]. rewrite app_nil_r. split; [apply ends_digit_iff, A1|exact A2].
    + destruct (B a b eq_refl) as [B1 B2]. rewrite <- app_assoc in B1. split; assumption.
Qed.
Lemma plain_digits_spec s : forall p t, plain_digits (ends_digit p) s = Some t <-> grouped_after p s /\ t = ungrouped s.
Proof.
  induction s as [|c r IH]; intros p t; cbn [plain_digits].
  - split; [intros H; injection H as <-; split; [|reflexivity]; intros a b E; destruct a; discriminate|intros [_ ->]; reflexivity].
  - rewrite grouped_step. unfold ungrouped. cbn [filter]. unfold ch_eq. destruct (Ascii.eqb_spec c "_"%char) as [->|N]; cbn [negb].
    + specialize (IH (p ++ ["_"%char]) t). rewrite ends_digit_last in IH. change (is_digit "_") with false in IH. destruct r as [|n r'].
      * split; [discriminate|]. intros [[A _] _]. destruct (A eq_refl) as [_ (c' & b' & n & E & _)]. discriminate.
      * destruct (ends_digit p) eqn:Ep; cbn [andb].
        -- destruct (is_digit n) eqn:En.
           ++ rewrite IH. split.
              ** intros [A B]. split; [|exact B]. split; [|exact A]. intros _. split; [reflexivity|]. apply digit_of_iff in En. destruct En as [v Hv]. exists n, r', v. split; [reflexivity|exact Hv].
              ** intros [[_ A] B]. split; [exact A|exact B].
           ++ split; [discriminate|]. intros [[A _] _]. destruct (A eq_refl) as [_ (c' & b' & v & E & Hv)]. injection E as <- <-. assert (is_digit n = true) by (apply digit_of_iff; exists v; exact Hv). congruence.
        -- split; [discriminate|]. intros [[A _] _]. destruct (A eq_refl) as [X _]. discriminate.
    + specialize (IH (p ++ [c])). rewrite ends_digit_last in IH. destruct (plain_digits (is_digit c) r) as [u|] eqn:E.
      * destruct (proj1 (IH u) eq_refl) as [A ->]. split.
        -- intros H. injection H as <-. split; [|reflexivity]. split; [intros H; contradiction|exact A].
        -- intros [_ ->]. reflexivity.
      * split; [discriminate|]. intros [[_ A] ->]. assert (X : None = Some (ungrouped r)) by (apply IH; split; [exact A|reflexivity]). discriminate.
Qed.
Lemma no_under_ungrouped s : ~ In "_"%char (ungrouped s).
Proof. unfold ungrouped. intros H. apply filter_In in H. destruct H as [_ H]. discriminate. Qed.
Theorem C134_underscores : forall t, (forall s, trimmed t s -> grouped s -> py_float t = py_float (ungrouped s)) /\ (forall s, trimmed t s -> ~ grouped s -> py_float t = Err ValueError).
Proof.
  assert (G : forall s, grouped s <-> grouped_after [] s) by (intros s; split; intros H a b E; exact (H a b E)).
  intros t. split; intros s T H; apply strip_iff in T.
  - unfold py_float at 1. rewrite T. destruct (plain_digits false s) as [u|] eqn:E; pose proof (plain_digits_spec s []) as P; change (ends_digit []) with false in P.
    + apply P in E. destruct E as [_ ->].
      assert (St : strip (ungrouped s) = ungrouped s).
      { apply strip_iff. split; [|exists [], []; rewrite app_nil_r; repeat split; constructor]. pose proof (strip_trimmed t) as [Tt _]. rewrite T in Tt. destruct Tt as [->|[(c & r & Ec & Sc) (r' & c' & Ec' & Sc')]]; [left; reflexivity|right].
        assert (K : forall c, is_digit c = true -> is_space c = false) by (intros c0 D; apply digit_okc in D; apply D).
        split.
        - destruct (Ascii.eqb_spec c "_"%char) as [->|N].
          + exfalso. destruct (H [] r Ec) as [(a' & c0 & n & X & _) _]. destruct a'; discriminate.
          + exists c, (ungrouped r). split; [|exact Sc]. rewrite Ec. unfold ungrouped. cbn [filter]. destruct (Ascii.eqb_spec c "_"%char); [contradiction|reflexivity].
        - destruct (Ascii.eqb_spec c' "_"%char) as [->|N].
          + exfalso. destruct (H r' [] Ec') as [_ (c0 & b & n & X & _)]. discriminate.
          + exists (ungrouped r'), c'. split; [|exact Sc']. rewrite Ec'. unfold ungrouped. rewrite filter_app. cbn [filter]. destruct (Ascii.eqb_spec c' "_"%char); [contradiction|reflexivity]. }
      unfold py_float. rewrite St, (no_underscore false _ (no_under_ungrouped s)). reflexivity.
    + exfalso. assert (X : plain_digits false s = Some (ungrouped s)) by (apply P; split; [apply G, H|reflexivity]). congruence.
  - unfold py_float. rewrite T. destruct (plain_digits false s) as [u|] eqn:E; [|reflexivity]. exfalso. pose proof (plain_digits_spec s [] u) as P. change (ends_digit []) with false in P. apply P in E. apply H, G. apply E.
Qed.
Print Assumptions C134_underscores.
Example C134_case_underscores : py_float (S_ " 1_000.5 ") = Ok (Fin (10005 # 10)) /\ py_float (S_ "1__0") = Err ValueError /\ grouped (S_ "1_000.5") /\ ~ grouped (S_ "1__0").
Proof.
  split; [vm_compute; reflexivity|]. split; [vm_compute; reflexivity|]. pose proof (plain_digits_spec (S_ "1_000.5") [] (S_ "1000.5")) as P. split.
  - intros a b E. apply (proj1 (proj1 P eq_refl) a b E).
  - intros H. destruct (H (S_ "1") (S_ "_0") eq_refl) as [_ (c & b & n & E & D)]. injection E as <- _. assert (is_digit "_" = true) by (apply digit_of_iff; exists n; exact D). discriminate.
Qed.
Theorem C134_errors : forall t e, py_float t = Err e -> e = ValueError.
Proof.
  intros t e H. unfold py_float in H. destruct (plain_digits false (strip t)) as [u|]; [|congruence]. destruct (sign u) as [neg v]. cbv zeta in H.
  destruct (eqb (map low v) (S_ "inf") || eqb (map low v) (S_ "infinity"))%bool; [discriminate|]. destruct (eqb (map low v) (S_ "nan")); [discriminate|]. unfold decimal in H.
  destruct (span is_digit v) as [i r]. destruct (match r with c :: r' => if ch_eq c dot then span is_digit r' else (@nil ascii, r) | [] => (@nil ascii, r) end) as [f r0]. destruct (i ++ f); [congruence|].
  destruct r0 as [|c r']; [discriminate|]. destruct (ch_eq (low c) "e"); [|cbn in H; congruence]. destruct (sign r') as [en u']. destruct (span is_digit u') as [ed rest]. destruct ed; [cbn in H; congruence|]. destruct rest; [discriminate|cbn in H; congruence].
Qed.
Print Assumptions C134_errors.

(** ** printing and reading *)
Theorem C134_fixed : forall d x, exists y, py_float (fmt_f d x) = Ok y /\ reread (rounds (Z.of_nat d)) x y.
Proof.
  intros d [q|neg|]; [|exists (Inf neg); destruct (C134_special d neg) as (_ & _ & _ & _ & _ & H & _); split; [exact H|reflexivity]|exists NaN; split; [reflexivity|exact I]].
  eexists. split; [apply fixed_reads|]. apply fixed_rounds.
Qed.
Print Assumptions C134_fixed.
Theorem C134_scientific : forall d x, exists y, py_float (fmt_E d x) = Ok y /\ reread (rounds_sig d) x y.
Proof.
  intros d [q|neg|]; [|exists (Inf neg); destruct (C134_special d neg) as (_ & _ & _ & _ & _ & _ & _ & H); split; [exact H|reflexivity]|exists NaN; split; [reflexivity|exact I]].
  eexists. split; [apply sci_reads|]. apply sci_rounds.
Qed.
Print Assumptions C134_scientific.
(** at most half a unit of the last place; at most half of 10^-d of the number itself *)
Theorem C134_errors_of_rounding : forall d x y, (rounds (Z.of_nat d) x y -> (Rabs (x - y) <= / 2 * p10 (- Z.of_nat d))%R) /\ (rounds_sig d x y -> (Rabs (x - y) <= / 2 * p10 (- Z.of_nat d) * Rabs x)%R).
Proof.
  intros d x y. split; [intros (k & _ & H & _); lra|]. intros H. pose proof (sig_error d x y H). lra.
Qed.
Print Assumptions C134_errors_of_rounding.
(** order is kept, the rounded number is unique and not changed by rounding again *)
Theorem C134_order : forall d x x' y y', (x <= x')%R -> (rounds (Z.of_nat d) x y -> rounds (Z.of_nat d) x' y' -> (y <= y')%R) /\ (rounds_sig d x y -> rounds_sig d x' y' -> (y <= y')%R).
Proof. intros d x x' y y' H. split; intros A B; [exact (rounds_mono _ _ _ _ _ A B H)|exact (sig_mono _ _ _ _ _ A B H)]. Qed.
Print Assumptions C134_order.
Theorem C134_unique : forall d x y y', (rounds (Z.of_nat d) x y -> rounds (Z.of_nat d) x y' -> y = y') /\ (rounds_sig d x y -> rounds_sig d x y' -> y = y') /\
  (rounds (Z.of_nat d) x y -> rounds (Z.of_nat d) y y) /\ (rounds_sig d x y -> rounds_sig d y y).
Proof. intros d x y y'. split; [apply rounds_unique|]. split; [apply sig_unique|]. split; [apply rounds_again|apply sig_again]. Qed.
Print Assumptions C134_unique.
(** printing what was read gives the same text again, except that the minus sign of a number rounded to zero is lost *)
Theorem C134_again : forall d q y,
  (py_float (fmt_f d (Fin q)) = Ok y -> (0 <= Q2R q \/ exists z, y = Fin z /\ Q2R z <> 0)%R -> fmt_f d y = fmt_f d (Fin q)) /\
  (py_float (fmt_E d (Fin q)) = Ok y -> fmt_E d y = fmt_E d (Fin q)).
Proof.
  intros d q y. split.
  - intros H C. destruct (C134_fixed d (Fin q)) as (y' & H' & R). rewrite H in H'. injection H' as <-. destruct y as [z| |]; try contradiction. cbn [reread] in R.
    apply C134_fixed_text. destruct (fixed_printed d q) as (sg & i & f & k & S1 & N1 & L1 & D1 & R1 & T). rewrite T. exists sg, i, f, k. pose proof (rounds_Rabs _ _ _ R) as Ra.
    split; [|split; [exact N1|split; [exact L1|split; [exact D1|split; [|reflexivity]]]]].
    + destruct S1 as [[P ->]|[P ->]]; [left|right]; (split; [|reflexivity]).
      * destruct C as [C|(z' & Ez & C)]; [lra|]. injection Ez as <-. apply rounds_opp in R. pose proof (rounds_sign _ (- Q2R q)%R (- Q2R z)%R ltac:(lra) R). lra.
      * exact (rounds_sign _ _ _ P R).
    + pose proof (rounds_unique _ _ _ _ Ra R1) as E. rewrite E. apply rounds_exact.
  - intros H. destruct (C134_scientific d (Fin q)) as (y' & H' & R). rewrite H in H'. injection H' as <-. destruct y as [z| |]; try contradiction. cbn [reread] in R.
    apply C134_scientific_text. destruct (sci_printed d q) as (sg & c & f & k & e & esg & ed & S1 & L1 & D1 & C1 & E1 & F1 & N1 & T). rewrite T. exists sg, c, f, k, e, esg, ed.
    assert (Nz : (Q2R q <> 0 -> Q2R z <> 0)%R) by (intros Nq Hz; destruct (sig_magnitude _ _ _ R Nq) as (e0 & M & _); exact (magnitude_nonzero _ _ M Hz)).
    assert (Zz : (Q2R q = 0 -> Q2R z = 0)%R) by (intros Hq; destruct R as [[_ X]|(e0 & M & _)]; [exact X|destruct (magnitude_nonzero _ _ M Hq)]).
    destruct (sig_sign _ _ _ R) as [Sp Sn].
    split; [destruct S1 as [[P ->]|[P ->]]; [left|right]; (split; [|reflexivity]); [specialize (Sn ltac:(lra)); specialize (Nz ltac:(apply Rlt_not_eq; exact P)); lra|exact (Sp P)]|].
    split; [exact L1|]. split; [exact D1|]. split; [|split; [exact E1|split; [exact F1|split; [exact N1|reflexivity]]]].
    destruct C1 as [(C1 & K1)|(C1 & K1 & R1)]; [left; split; [exact (Zz C1)|exact K1]|right; split; [exact (Nz C1)|split; [exact K1|]]].
    assert (Ra : rounds_sig d (Rabs (Q2R q)) (Rabs (Q2R z))).
    { destruct (Rle_lt_dec 0 (Q2R q)) as [P|P]; [specialize (Sp P); rewrite !Rabs_right by lra; exact R|]. specialize (Sn ltac:(lra)). apply sig_opp in R. rewrite (Rabs_left (Q2R q)) by lra. rewrite (Rabs_left1 (Q2R z)) by lra. exact R. }
    pose proof (sig_unique _ _ _ _ Ra R1) as E. rewrite E in *. exact (sig_again _ _ _ Ra).
Qed.
Print Assumptions C134_again.

(** ** the files *)
Lemma okc_plain s : s <> [] -> Forall okc s -> plain s.
Proof.
  intros N F. split; [exact N|]. split; [eapply Forall_impl; [|exact F]; intros c H; apply H|]. intros H. rewrite Forall_forall in F. destruct (F _ H) as (_ & _ & X). congruence.
Qed.
Theorem C134_word : forall d x, plain (fmt_f d x) /\ plain (fmt_E d x).
Proof.
  intros d [q|neg|].
  - split; apply okc_plain.
    + destruct (fixed_shape d q) as (i & f & E & _ & _ & N & _). rewrite E. intros H. apply app_eq_nil in H. destruct H as [_ H]. apply app_eq_nil in H. destruct H. contradiction.
    + apply fixed_reads.
    + destruct (sci_shape d q) as (i & f & E & _ & _ & N & _). rewrite E. intros H. apply app_eq_nil in H. destruct H as [_ H]. apply app_eq_nil in H. destruct H as [H _]. subst i. discriminate.
    + apply sci_reads.
  - destruct neg; split; apply okc_plain; try discriminate; repeat constructor; discriminate.
  - split; apply okc_plain; try discriminate; repeat constructor; discriminate.
Qed.
Print Assumptions C134_word.
Lemma choose_rows (num : fl -> str) (rel : fl -> fl -> Prop) : (forall x, exists y, py_float (num x) = Ok y /\ rel x y) -> exists v : fl -> fl, forall x, py_float (num x) = Ok (v x) /\ rel x (v x).
Proof.
  intros H. exists (fun x => match py_float (num x) with Ok y => y | Err _ => NaN end). intros x. destruct (H x) as (y & E & R). rewrite E. split; [reflexivity|exact R].
Qed.
Lemma forall2_map {A B} (r : A -> B -> Prop) (v : A -> B) l : (forall x, r x (v x)) -> Forall2 r l (map v l).
Proof. intros H. induction l; constructor; auto. Qed.
(** every file written with one of the formats (bare, or without the row of labels) is read back as the table of the rounded numbers *)
Theorem C134_files : forall d (scientific : bool) stamp title labels headers bare rows w,
  stamp <> [] -> one_line stamp -> one_line title -> Forall one_line labels -> Forall (fun r : list fl => r <> [] /\ List.length r = w) rows -> bare = true \/ headers = false ->
  exists tab, loadtxt py_float (to_file (if scientific then fmt_E d else fmt_f d) stamp bare headers title labels rows) = Ok tab /\
              Forall2 (Forall2 (reread (if scientific then rounds_sig d else rounds (Z.of_nat d)))) rows tab.
Proof.
  intros d sc stamp title labels headers bare rows w N Hs Ht Hl Hr Hb. set (num := if sc then fmt_E d else fmt_f d). set (rel := if sc then rounds_sig d else rounds (Z.of_nat d)).
  assert (H : forall x, exists y, py_float (num x) = Ok y /\ reread rel x y) by (intros x; unfold num, rel; destruct sc; [apply C134_scientific|apply C134_fixed]).
  destruct (choose_rows num (reread rel) H) as (v & Hv). assert (Hp : forall x, plain (num x)) by (intros x; unfold num; destruct sc; apply C134_word).
  exists (map (map v) rows). split; [exact (proj2 (C113_reload fl fl num py_float v stamp title labels headers bare rows w Hp (fun x => proj1 (Hv x)) N Hs Ht Hl Hr Hb))|].
  apply (forall2_map (Forall2 (reread rel)) (map v)). intros r. apply forall2_map. intros x. apply Hv.
Qed.
Print Assumptions C134_files.

(** ** findings *)
Theorem C134_small : forall d q, (2 * Rabs (Q2R q) <= p10 (- Z.of_nat d))%R -> exists y, py_float (fmt_f d (Fin q)) = Ok (Fin y) /\ Q2R y = 0%R.
Proof.
  intros d q H. destruct (C134_fixed d (Fin q)) as ([y| |] & E & R); try contradiction. cbn [reread] in R. exists y. split; [exact E|].
  apply (rounds_unique (Z.of_nat d) (Q2R q) _ _ R). exists 0. split; [ring|]. rewrite Rminus_0_r. split; [exact H|]. intros _. reflexivity.
Qed.
Print Assumptions C134_small.
Theorem C134_distinct : forall d q q', (p10 (- Z.of_nat d) < Q2R q' - Q2R q)%R -> exists y y', py_float (fmt_f d (Fin q)) = Ok (Fin y) /\ py_float (fmt_f d (Fin q')) = Ok (Fin y') /\ (Q2R y < Q2R y')%R.
Proof.
  intros d q q' H. destruct (C134_fixed d (Fin q)) as ([y| |] & E & R); try contradiction. destruct (C134_fixed d (Fin q')) as ([y'| |] & E' & R'); try contradiction. cbn [reread] in R, R'.
  exists y, y'. split; [exact E|]. split; [exact E'|]. destruct R as (k & _ & L & _), R' as (k' & _ & L' & _). revert L L'. unfold Rabs. destruct (Rcase_abs (Q2R q - Q2R y)), (Rcase_abs (Q2R q' - Q2R y')); lra.
Qed.
Print Assumptions C134_distinct.
(** closer numbers may become the same, and a negative one may be printed as a zero with a sign *)
Theorem C134_collapse : exists q q', (Q2R q < Q2R q')%R /\ fmt_f 4 (Fin q) = fmt_f 4 (Fin q').
Proof.
  exists (300 # 1)%Q, (3000000049 # 10000000)%Q. split; [apply Qlt_Rlt; reflexivity|vm_compute; reflexivity].
Qed.
Print Assumptions C134_collapse.
Theorem C134_zero_sign : exists q, fmt_f 4 (Fin q) = S_ "-0.0000" /\ exists y, py_float (fmt_f 4 (Fin q)) = Ok y /\ fmt_f 4 y = S_ "0.0000".
Proof. exists (-1 # 100000)%Q. split; [vm_compute; reflexivity|]. eexists. split; [vm_compute; reflexivity|vm_compute; reflexivity]. Qed.
Print Assumptions C134_zero_sign.

(** ** cases *)
Example C134_case_texts : fmt_f 4 (Fin (3141592653 # 1000000000)) = S_ "3.1416" /\ fmt_f 4 (Fin (1 # 32)) = S_ "0.0312" /\ fmt_f 4 (Fin (-12345 # 10)) = S_ "-1234.5000" /\
  fmt_E 6 (Fin (3141592653 # 1000000000)) = S_ "3.141593E+00" /\ fmt_E 6 (Fin (99999999 # 10)) = S_ "1.000000E+07" /\ fmt_E 6 (Fin 0) = S_ "0.000000E+00".
Proof. repeat split; vm_compute; reflexivity. Qed.
Example C134_case_reads : exists y, py_float (S_ " -1.5e2 ") = Ok (Fin y) /\ Q2R y = (-150)%R.
Proof.
  apply (C134_reads (S_ " -1.5e2 ") (-150)); [intros H; repeat (destruct H as [H|H]; [discriminate|]); destruct H|]. exists (S_ " "), (S_ "-1.5e2"), (S_ " "). split; [repeat constructor|]. split; [repeat constructor|]. split; [reflexivity|].
  assert (D : forall s v, value s = v -> forallb is_digit s = true -> denotes s v) by (intros s v E F; apply denotes_value; split; [apply Forall_forall; intros c Hc; apply (proj1 (forallb_forall is_digit s) F c Hc)|exact E]).
  exists (S_ "-"), (-1)%R, (S_ "1"), (S_ "5"), (S_ ".5"), 15, (S_ "e2"), 2. split; [right; right; split; reflexivity|]. split; [discriminate|]. split; [apply D; reflexivity|]. split; [right; reflexivity|].
  split; [right; exists [], (S_ "2"), 2; split; [discriminate|]; split; [apply D; reflexivity|]; split; [left; reflexivity|]; right; split; [left; reflexivity|reflexivity]|]. split; [reflexivity|]. cbn [List.length S_ String.list_ascii_of_string]. change (2 - Z.of_nat 1) with 1. rewrite p10_1. lra.
Qed.
Example C134_case_file : exists tab, loadtxt py_float (to_file (fmt_f 4) (S_ "2026 TEflow") false false (S_ "title") [S_ "T"; S_ "ZT"] [[Fin 300; Fin (1 # 3)]; [Fin (-1 # 3); NaN]]) = Ok tab /\
  Forall2 (Forall2 (reread (rounds 4))) [[Fin 300; Fin (1 # 3)]; [Fin (-1 # 3); NaN]] tab.
Proof.
  assert (O : forall s, forallb (fun c => negb (ch_eq c lf)) s = true -> one_line s) by (intros s F H; pose proof (proj1 (forallb_forall _ s) F _ H) as X; discriminate).
  apply (C134_files 4 false (S_ "2026 TEflow") (S_ "title") [S_ "T"; S_ "ZT"] false false [[Fin 300; Fin (1 # 3)]; [Fin (-1 # 3); NaN]] 2); [discriminate|apply O; reflexivity|apply O; reflexivity|repeat constructor; apply O; reflexivity|repeat constructor; discriminate|right; reflexivity].
Qed.
