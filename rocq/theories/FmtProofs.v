(** Lemmas for FmtProps. *)
From Coq Require Import ZArith Reals Lra String Ascii Permutation Sorted.
From Verif Require Import Py PyStr RUtil CfgSpec CfgModel CfgProofs KvarSpec KvarModel KvarProofs DataModel SubsModel SubsProofs Regex InstrSpec InstrModel InstrProofs MonoModel InterpSpec InterpModel InterpProofs InterpProps ZtModel EngModel TxtSpec TxtModel TxtProofs TxtProps CliSpec CliModel CliProofs CliProps FmtSpec FmtModel.
Local Open Scope list_scope.
Local Open Scope R_scope.
(** ** rounding *)
Lemma round_even_nearest x : nearest x (round_even x).
Proof.
  unfold nearest, round_even. destruct (base_Int_part x) as (A & B). set (f := Int_part x) in *. clearbody f. cbv zeta. destruct (Rlt_dec (x - IZR f) (1 / 2)) as [L|L].
  - rewrite Rabs_pos_eq by lra. split; lra.
  - destruct (Rlt_dec (1 / 2) (x - IZR f)) as [G|G].
    + rewrite plus_IZR. rewrite Rabs_left1 by lra. split; lra.
    + destruct (Z.even f) eqn:E.
      * rewrite Rabs_pos_eq by lra. split; [lra|auto].
      * rewrite plus_IZR. rewrite Rabs_left1 by lra. split; [lra|]. intros _. rewrite Z.even_add, E. reflexivity.
Qed.
Lemma abs_inv a b : Rabs a <= b -> - b <= a <= b.
Proof. unfold Rabs. destruct (Rcase_abs a); lra. Qed.
Lemma nearest_unique x n m : nearest x n -> nearest x m -> n = m.
Proof.
  intros (A & A') (B & B'). assert (X : forall a b, Rabs (x - IZR a) <= 1 / 2 -> (Rabs (x - IZR a) = 1 / 2 -> Z.even a = true) -> Rabs (x - IZR b) <= 1 / 2 -> (Rabs (x - IZR b) = 1 / 2 -> Z.even b = true) -> (a < b)%Z -> False).
  { clear. intros a b A A' B B' L. assert (L1 : IZR a + 1 <= IZR b) by (rewrite <- plus_IZR; apply IZR_le; lia). apply abs_inv in A as A2. apply abs_inv in B as B2. assert (Ea : x - IZR a = 1 / 2) by lra. assert (Eb : IZR b = IZR (a + 1)) by (rewrite plus_IZR; lra). apply eq_IZR in Eb. subst b. rewrite plus_IZR in *. specialize (A' ltac:(rewrite Ea; apply Rabs_pos_eq; lra)). specialize (B' ltac:(replace (x - (IZR a + 1)) with (- (1 / 2)) by lra; rewrite Rabs_Ropp; apply Rabs_pos_eq; lra)). rewrite Z.even_add, A' in B'. discriminate. }
  destruct (Z.lt_trichotomy n m) as [L|[E|L]]; [destruct (X n m A A' B B' L)|exact E|destruct (X m n B B' A A' L)].
Qed.
(** ** the highest temperature *)
Lemma maxR_spec l : forall a, (maxR a l = a \/ In (maxR a l) l) /\ a <= maxR a l /\ forall t, In t l -> t <= maxR a l.
Proof.
  induction l as [|b l IH]; intros a; cbn [maxR].
  - split; [left; reflexivity|]. split; [lra|intros t []].
  - destruct (IH (Rmax a b)) as (A & B & C). split; [|split].
    + destruct A as [A|A]; [|right; right; exact A]. rewrite A. destruct (Rle_dec a b) as [L|L]; [rewrite Rmax_right by exact L; right; left; reflexivity|rewrite Rmax_left by lra; left; reflexivity].
    + eapply Rle_trans; [apply Rmax_l|exact B].
    + intros t [<-|H]; [eapply Rle_trans; [apply Rmax_r|exact B]|apply C, H].
Qed.
Lemma max_list_ok l : l <> [] -> exists m, max_list l = Ok m /\ In m l /\ forall t, In t l -> t <= m.
Proof.
  destruct l as [|a l]; [congruence|]. intros _. cbn [max_list]. destruct (maxR_spec l a) as (A & B & C). eexists. split; [reflexivity|]. split; [destruct A as [A|A]; [left; symmetry; exact A|right; exact A]|]. intros t [<-|H]; [exact B|apply C, H].
Qed.
Lemma t_max_ok tmax d m : ds_temps d <> [] -> Forall (fun t => t <> []) (ds_temps d) -> highest tmax (ds_temps d) m -> t_max tmax d = Ok m.
Proof.
  intros N F H. unfold t_max. destruct H as [(-> & H)|(H & I & M)].
  - destruct (Req_EM_T m 0); [contradiction|reflexivity].
  - assert (E : (match tmax with Some t => if Req_EM_T t 0 then None else Some t | None => None end) = None). { destruct H as [->| ->]; [reflexivity|]. destruct (Req_EM_T 0 0); [reflexivity|congruence]. }
    rewrite E. assert (G : exists ms, mapM max_list (ds_temps d) = Ok ms /\ Forall2 (fun l v => In v l /\ forall t, In t l -> t <= v) (ds_temps d) ms).
    { clear -F. induction F as [|l ls Hl _ (ms & E & G)]; [exists []; split; [reflexivity|constructor]|]. destruct (max_list_ok l Hl) as (v & Ev & Iv & Mv). exists (v :: ms). cbn [mapM]. rewrite Ev. cbn [rbind]. rewrite E. split; [reflexivity|]. constructor; [split; assumption|exact G]. }
    destruct G as (ms & Em & G). rewrite Em. cbn [rbind]. assert (Nm : ms <> []) by (intros ->; inversion G; congruence). destruct (max_list_ok ms Nm) as (v & Ev & Iv & Mv). rewrite Ev. f_equal. apply Rle_antisym.
    + apply M. clear -G Iv. apply in_concat. induction G as [|l w ls ms (A & _) G IH]; [destruct Iv|]. destruct Iv as [->|Iv]; [exists l; split; [left; reflexivity|exact A]|]. destruct (IH Iv) as (l' & ? & ?). exists l'. split; [right|]; assumption.
    + apply in_concat in I as (l & Hl & I). clear -G Hl I Mv. induction G as [|l' w ls ms (A & B) G IH]; [destruct Hl|]. destruct Hl as [->|Hl]; [eapply Rle_trans; [apply B, I|apply Mv; left; reflexivity]|]. apply IH; [exact Hl|]. intros t Ht. apply Mv. right. exact Ht.
Qed.
(** ** methods *)
Lemma capital_upper w : capitals w = map upper w. Proof. reflexivity. Qed.
Lemma poly_iff w : startswith (map upper w) (S_ "POLY") = true <-> poly_word w.
Proof. apply (startswith_spec (map upper w) (S_ "POLY")). Qed.

Lemma upper_char_eq c d : d <> ascii_of_nat 0 -> upper c = d -> upper d = d.
Proof.
  intros _ <-. unfold upper. destruct ((97 <=? nat_of_ascii c)%nat && (nat_of_ascii c <=? 122)%nat)%bool eqn:E; [|rewrite E; reflexivity]. apply andb_true_iff in E as (A & B). apply Nat.leb_le in A, B. rewrite nat_ascii_embedding by lia. assert (X : (97 <=? nat_of_ascii c - 32)%nat && (nat_of_ascii c - 32 <=? 122)%nat = false) by (apply andb_false_iff; left; apply Nat.leb_gt; lia). rewrite X. reflexivity.
Qed.
Lemma upper_digit c d : In d ["1"; "2"; "3"; "4"; "5"; "6"; "7"; "8"; "9"]%char -> upper c = d <-> c = d.
Proof.
  intros H. split.
  - unfold upper. destruct ((97 <=? nat_of_ascii c)%nat && (nat_of_ascii c <=? 122)%nat)%bool eqn:E; [|auto]. apply andb_true_iff in E as (A & B). apply Nat.leb_le in A, B. intros X. apply (f_equal nat_of_ascii) in X. rewrite nat_ascii_embedding in X by lia. exfalso. cbn [In] in H. intuition (subst d; cbn in X; lia).
  - intros ->. cbn [In] in H. intuition (subst d; reflexivity).
Qed.
Lemma table_of_iff c m : table_of c = Some m <-> (c = "L"%char /\ m = S_ "linear") \/ (c = "C"%char /\ m = S_ "cubic") \/ (c = "P"%char /\ m = S_ "pchip") \/ (c = "A"%char /\ m = S_ "Akima") \/ (In c ["1"; "2"; "3"; "4"; "5"; "6"; "7"; "8"; "9"]%char /\ m = S_ "poly" ++ [c]).
Proof.
  unfold table_of. destruct (is_ch "L" c) eqn:E1; [apply is_ch_eq in E1; subst c; split; [intros [= <-]; auto 10|intros [(_ & ->)|[(X & _)|[(X & _)|[(X & _)|(X & _)]]]]; [reflexivity|discriminate|discriminate|discriminate|cbn [In] in X; intuition discriminate]]|].
  destruct (is_ch "C" c) eqn:E2; [apply is_ch_eq in E2; subst c; split; [intros [= <-]; auto 10|intros [(X & _)|[(_ & ->)|[(X & _)|[(X & _)|(X & _)]]]]; [discriminate|reflexivity|discriminate|discriminate|cbn [In] in X; intuition discriminate]]|].
  destruct (is_ch "P" c) eqn:E3; [apply is_ch_eq in E3; subst c; split; [intros [= <-]; auto 10|intros [(X & _)|[(X & _)|[(_ & ->)|[(X & _)|(X & _)]]]]; [discriminate|discriminate|reflexivity|discriminate|cbn [In] in X; intuition discriminate]]|].
  destruct (is_ch "A" c) eqn:E4; [apply is_ch_eq in E4; subst c; split; [intros [= <-]; auto 10|intros [(X & _)|[(X & _)|[(X & _)|[(_ & ->)|(X & _)]]]]; [discriminate|discriminate|discriminate|reflexivity|cbn [In] in X; intuition discriminate]]|].
  assert (NE : forall d, is_ch d c = false -> c <> d) by (intros d E Q; rewrite Q, is_ch_refl in E; discriminate). apply NE in E1, E2, E3, E4. split.
  - destruct (digit c) as [[|n]|] eqn:D; try discriminate. intros [= <-]. do 4 right. split; [|reflexivity]. apply digit_iff in D as (L & ->). assert (X : (n < 9)%nat) by lia. do 9 (destruct n as [|n]; [cbn; tauto|]). lia.
  - intros [(X & _)|[(X & _)|[(X & _)|[(X & _)|(X & ->)]]]]; try contradiction. cbn [In] in X. intuition (subst c; reflexivity).
Qed.
Lemma one_method_iff w m : one_method w = Ok m <-> method_word w m.
Proof.
  unfold one_method. destruct (startswith (map upper w) (S_ "POLY")) eqn:E.
  - apply poly_iff in E. assert (Nn : map upper w <> []) by (destruct E as (r & E); rewrite <- capital_upper, E; discriminate). destruct (exists_last Nn) as (a & c & Ec). rewrite Ec, rev_app_distr. cbn [rev app]. split.
    + intros [= <-]. apply (m_poly w a c E). rewrite capital_upper. exact Ec.
    + destruct E as (r & E). intros [a' c' P Q|r' Q|r' Q|r' Q|r' N Q|c' r' I Q]; try (rewrite Q in E; discriminate).
      * rewrite capital_upper, Ec in Q. apply app_inj_tail in Q as (_ & ->). reflexivity.
      * exfalso. apply N. exists r. exact E.
      * subst w. cbn [In] in I. unfold capitals in E. cbn [map] in E. assert (X : capital c' = c') by (intuition (subst c'; reflexivity)). rewrite X in E. injection E as E _. subst c'. intuition discriminate.
  - assert (NP : ~ poly_word w) by (intros X; apply poly_iff in X; congruence). destruct w as [|c w].
    + cbn [map]. split; [discriminate|]. intros [a' c' P Q|r' Q|r' Q|r' Q|r' N Q|c' r' I Q]; try discriminate. contradiction.
    + cbn [map]. destruct (table_of (upper c)) as [r|] eqn:T.
      * apply table_of_iff in T. split.
        -- intros [= <-]. destruct T as [(A & ->)|[(A & ->)|[(A & ->)|[(A & ->)|(A & ->)]]]].
           ++ apply (m_linear _ (capitals w)). rewrite capital_upper. cbn [map]. rewrite A. reflexivity.
           ++ apply (m_cubic _ (capitals w)). rewrite capital_upper. cbn [map]. rewrite A. reflexivity.
           ++ apply (m_pchip _ (capitals w)); [exact NP|]. rewrite capital_upper. cbn [map]. rewrite A. reflexivity.
           ++ apply (m_akima _ (capitals w)). rewrite capital_upper. cbn [map]. rewrite A. reflexivity.
           ++ assert (X : c = upper c) by (apply upper_digit; [exact A|reflexivity]). apply (m_degree _ (upper c) w A). rewrite <- X. reflexivity.
        -- assert (F : forall d q r', capitals (c :: w) = d :: r' -> table_of d = Some q -> Ok r = Ok q) by (intros d q r' Q Td; rewrite capital_upper in Q; cbn [map] in Q; injection Q as Q _; apply table_of_iff in T; rewrite Q in T; congruence).
           intros [a' c' P Q|r' Q|r' Q|r' Q|r' N Q|c' r' I Q]; [contradiction|eapply F; [exact Q|reflexivity]..|]. injection Q as -> ->. assert (X : upper c' = c') by (apply upper_digit; [exact I|reflexivity]). apply (F c' _ (capitals r')); [rewrite capital_upper; cbn [map]; rewrite X; reflexivity|]. apply table_of_iff. do 4 right. split; [exact I|reflexivity].
      * split; [discriminate|]. assert (F : forall d q r', capitals (c :: w) = d :: r' -> table_of d = Some q -> Err ValueError = Ok q) by (intros d q r' Q Td; rewrite capital_upper in Q; cbn [map] in Q; injection Q as Q _; rewrite Q in T; congruence).
        intros [a' c' P Q|r' Q|r' Q|r' Q|r' N Q|c' r' I Q]; [contradiction|eapply F; [exact Q|reflexivity]..|]. injection Q as -> ->. assert (X : upper c' = c') by (apply upper_digit; [exact I|reflexivity]). apply (F c' _ (capitals r')); [rewrite capital_upper; cbn [map]; rewrite X; reflexivity|]. apply table_of_iff. do 4 right. split; [exact I|reflexivity].
Qed.
Lemma three_ok text a b c : method_choice text a b c -> three_methods text = Ok [a; b; c].
Proof.
  intros [w m T H|x y z rest mx my mz T H1 H2 H3]; unfold three_methods; apply words_iff in T; rewrite T; cbn [rbind mapM].
  - apply one_method_iff in H. rewrite H. reflexivity.
  - apply one_method_iff in H1, H2, H3. rewrite H1, H2, H3. reflexivity.
Qed.
Lemma one_method_err w : w <> [] -> (forall m, ~ method_word w m) -> one_method w = Err ValueError.
Proof.
  intros Hw H. destruct (one_method w) as [m|e] eqn:E; [exfalso; apply (H m), one_method_iff, E|]. unfold one_method in E. destruct (startswith (map upper w) (S_ "POLY")); [discriminate|]. destruct w as [|c w]; [congruence|]. cbn [map] in E. destruct (table_of (upper c)); congruence.
Qed.
(** ** sums *)
Lemma trap_length y : forall acc x, List.length (cumtrapz_from acc (combine x y)) = List.length (combine x y).
Proof. intros acc x. generalize (combine x y). intros l. revert acc. induction l as [|p [|q l] IH]; intros acc; [reflexivity|reflexivity|]. cbn [cumtrapz_from List.length]. f_equal. apply IH. Qed.
Fixpoint ptrap (l : list (R * R)) (i : nat) : R := match i with 0%nat => 0 | S k => ptrap l k + (fst (nth (S k) l (0, 0)) - fst (nth k l (0, 0))) * (snd (nth (S k) l (0, 0)) + snd (nth k l (0, 0))) / 2 end.
Lemma ptrap_cons p q l i : ptrap (p :: q :: l) (S i) = (fst q - fst p) * (snd q + snd p) / 2 + ptrap (q :: l) i.
Proof. induction i as [|i IH]; [cbn; lra|]. cbn [ptrap] in *. rewrite IH. cbn [nth]. lra. Qed.
Lemma cum_nth l : forall acc i, (i < List.length l)%nat -> snd (nth i (cumtrapz_from acc l) (0, 0)) = acc + ptrap l i.
Proof.
  induction l as [|p [|q l] IH]; intros acc i L; [cbn in L; lia| |].
  - assert (i = 0)%nat by (cbn in L; lia). subst i. cbn. lra.
  - destruct i as [|i]; [cbn; lra|]. change (cumtrapz_from acc (p :: q :: l)) with ((fst p, acc) :: cumtrapz_from (acc + (fst q - fst p) * (snd q + snd p) / 2) (q :: l)). cbn [nth]. rewrite IH by (cbn [List.length] in *; lia). rewrite ptrap_cons. lra.
Qed.
Lemma ptrap_trapezoid T y i : List.length y = List.length T -> (i < List.length T)%nat -> ptrap (combine T y) i = trapezoid T y i.
Proof.
  intros E. induction i as [|i IH]; intros L; [reflexivity|]. cbn [ptrap trapezoid]. rewrite IH by lia. rewrite !combine_nth by (symmetry; exact E). cbn [fst snd]. lra.
Qed.
Lemma ctrapz_nth y T i : List.length y = List.length T -> (i < List.length T)%nat -> nth i (ctrapz y T) 0 = trapezoid T y i.
Proof.
  intros E L. unfold ctrapz. change 0 with (snd (0, 0)) at 1. rewrite map_nth. unfold cumtrapz. rewrite cum_nth by (rewrite combine_length; lia). rewrite ptrap_trapezoid by assumption. lra.
Qed.
Lemma zip2_valued {A B} (f : A -> B -> R) (a : list A) (b : list B) da db n : List.length a = n -> List.length b = n -> valued n (fun i => f (nth i a da) (nth i b db)) (zip2 f a b).
Proof.
  intros La Lb. unfold zip2. split; [rewrite map_length, combine_length; lia|]. intros i L. rewrite (nth_indep _ 0 ((fun p => f (fst p) (snd p)) (da, db))) by (rewrite map_length, combine_length; lia). rewrite (map_nth (fun p : A * B => f (fst p) (snd p))). rewrite combine_nth by congruence. reflexivity.
Qed.
Lemma valued_ext n f g l : (forall i, (i < n)%nat -> f i = g i) -> valued n f l -> valued n g l.
Proof. intros E (L & V). split; [exact L|]. intros i Hi. rewrite V, E by exact Hi. reflexivity. Qed.
Lemma valued_unique n f l l' : valued n f l -> valued n f l' -> l = l'.
Proof. intros (L & V) (L' & V'). apply (nth_ext _ _ 0 0); [congruence|]. intros i Hi. rewrite V, V' by congruence. reflexivity. Qed.
Lemma calc_PF_ok C s n : List.length C = n -> List.length s = n -> valued n (power_factor C s) (calc_PF C s).
Proof. intros A B. eapply valued_ext; [|apply (zip2_valued (fun c s => 1e-6 * c * s * s) C s 0 0 n A B)]. intros i _. cbv beta. unfold power_factor. ring. Qed.
Lemma calc_ZT_ok C s K T n : List.length C = n -> List.length s = n -> List.length K = n -> List.length T = n -> valued n (merit C s K T) (calc_ZT (calc_PF C s) K T).
Proof.
  intros A B D E. destruct (calc_PF_ok C s n A B) as (Lp & Vp). unfold calc_ZT. eapply valued_ext; [|apply (zip2_valued (fun pk t => fst pk / snd pk * t) (combine (map (fun p => 1e-4 * p) (calc_PF C s)) K) T (1e-4 * 0, 0) 0 n); [rewrite combine_length, map_length; lia|exact E]].
  intros i L. cbv beta. rewrite combine_nth by (rewrite map_length; congruence). cbn [fst snd]. rewrite (map_nth (fun p => 1e-4 * p)). rewrite Vp by exact L. unfold merit, power_factor, Rdiv. set (k := / nth i K 0). clearbody k. lra.
Qed.
