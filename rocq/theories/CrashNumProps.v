(** C135, numbers: what the last, cut number of a file says. *)
From Coq Require Import ZArith QArith Reals Qreals Lia Lra String Ascii.
From Verif Require Import Py PyStr RUtil CfgSpec CfgModel CfgProofs KvarSpec KvarModel KvarProofs DataModel CompModel SubsModel SubsProofs InstrSpec InstrModel InstrProofs TxtSpec TxtModel TxtProofs FmtSpec CmdSpec CmdModel CmdProofs NumModel NumSpec NumProofs NumProofs2 NumProps CrashSpec CrashModel CrashProofs CrashProps.
Local Open Scope list_scope.
Local Open Scope Z_scope.
Lemma sign_alone q y : py_float (minus q) = Ok y -> False.
Proof. unfold minus. destruct (Qnum q <? 0); intros H; vm_compute in H; discriminate. Qed.
Lemma value_nonneg s : all_digits s -> 0 <= value s. Proof. intros H. apply (value_bound s H). Qed.
(** fixed point: the cut number has the sign of the full one and is not larger *)
Theorem C135_cut_fixed : forall d q u v y, fmt_f d (Fin q) = u ++ v -> py_float u = Ok y ->
  exists z x, y = Fin z /\ py_float (fmt_f d (Fin q)) = Ok (Fin x) /\ (0 <= Q2R z * Q2R x)%R /\ (Rabs (Q2R z) <= Rabs (Q2R x))%R.
Proof.
  intros d q u v y E Hy. destruct (fixed_shape d q) as (i & f & S & Ai & Af & Ni & Lf & V). rewrite S in E.
  assert (K : forall i1 f1 pf rest, u = minus q ++ i1 ++ pf -> all_digits i1 -> all_digits f1 -> i1 ++ f1 <> [] -> ((pf = [] /\ f1 = []) \/ pf = dot :: f1) -> i ++ f = (i1 ++ f1) ++ rest -> all_digits rest ->
    (- Z.of_nat (List.length f1) <= Z.of_nat (List.length rest) - Z.of_nat d) ->
    exists z x, y = Fin z /\ py_float (fmt_f d (Fin q)) = Ok (Fin x) /\ (0 <= Q2R z * Q2R x)%R /\ (Rabs (Q2R z) <= Rabs (Q2R x))%R).
  { intros i1 f1 pf rest Eu A1 A2 N1 P1 Er Ar Le. destruct (fixed_reads d q) as [Rd _].
    destruct (read_number (minus q) (negative q) i1 f1 pf [] 0 (minus_signed q) A1 A2 N1 P1 (or_introl (conj eq_refl eq_refl))) as [P _]. rewrite app_nil_r in P. rewrite Eu, P in Hy. injection Hy as <-.
    do 2 eexists. split; [reflexivity|]. split; [exact Rd|]. unfold reading. rewrite !read_real. rewrite <- V, Er, (value_app (i1 ++ f1) rest), ?Z.sub_0_l.
    assert (A12 : all_digits (i1 ++ f1)) by (apply Forall_app; split; assumption). pose proof (IZR_le _ _ (value_nonneg _ A12)) as B1. pose proof (IZR_le _ _ (value_nonneg _ Ar)) as B2.
    rewrite plus_IZR, mult_IZR, <- p10_nat. set (a := IZR (value (i1 ++ f1))) in *. set (b := IZR (value rest)) in *. clearbody a b.
    pose proof (p10_pos (- Z.of_nat (List.length f1))) as Q1. pose proof (p10_pos (- Z.of_nat d)) as Q2. pose proof (p10_pos (Z.of_nat (List.length rest))) as Q3.
    assert (Q : (p10 (- Z.of_nat (List.length f1)) <= p10 (Z.of_nat (List.length rest)) * p10 (- Z.of_nat d))%R) by (rewrite <- p10_add; apply p10_le; lia).
    set (e1 := p10 (- Z.of_nat (List.length f1))) in *. set (e2 := p10 (- Z.of_nat d)) in *. set (e3 := p10 (Z.of_nat (List.length rest))) in *. clearbody e1 e2 e3.
    assert (G : (0 <= a * e1 <= (a * e3 + b) * e2)%R).
    { split; [apply Rmult_le_pos; [exact B1|left; exact Q1]|]. apply Rle_trans with (a * (e3 * e2))%R; [apply Rmult_le_compat_l; [exact B1|exact Q]|]. pose proof (Rmult_le_pos _ _ B2 (Rlt_le _ _ Q2)). lra. }
    assert (G2 : (0 <= (a * e1) * ((a * e3 + b) * e2))%R) by (apply Rmult_le_pos; lra).
    destruct (negative q); (split; [match goal with |- (0 <= ?t)%R => replace t with ((a * e1) * ((a * e3 + b) * e2))%R by ring; exact G2 end|]).
    - replace (-1 * a * e1)%R with (- (a * e1))%R by ring. replace (-1 * (a * e3 + b) * e2)%R with (- ((a * e3 + b) * e2))%R by ring. rewrite !Rabs_Ropp, !Rabs_pos_eq by lra. lra.
    - rewrite !Rmult_1_l, !Rabs_pos_eq by lra. lra. }
  assert (Emp : u <> minus q) by (intros ->; exact (sign_alone _ _ Hy)).
  destruct (prefix_split _ _ _ _ E) as [(x & Eu & Ex)|(x & Eu & Ex)].
  2:{ exfalso. unfold minus in Eu. destruct (Qnum q <? 0).
      - destruct u as [|c u]; [vm_compute in Hy; discriminate|]. cbn in Eu. injection Eu as <- Eu. destruct u; [|discriminate]. vm_compute in Hy. discriminate.
      - destruct u; [|discriminate]. vm_compute in Hy. discriminate. }
  assert (Nx : x <> []) by (intros ->; rewrite app_nil_r in Eu; contradiction).
  destruct (prefix_split _ _ _ _ Ex) as [(w & Ew & Ew2)|(w & Ew & Ew2)].
  - (* the integer digits are complete *)
    assert (H : (w = [] /\ True) \/ exists f1, w = dot :: f1 /\ exists f2, f = f1 ++ f2).
    { destruct w as [|c w]; [left; split; [reflexivity|exact I]|]. destruct d as [|d]; [discriminate|]. cbn in Ew2. injection Ew2 as <- Ef. right. exists w. split; [reflexivity|]. exists v. exact Ef. }
    destruct H as [[-> _]|(f1 & -> & f2 & Ef)].
    + rewrite app_nil_r in Ew. subst x. apply (K i [] [] f).
      * rewrite Eu. f_equal. symmetry. apply app_nil_r.
      * exact Ai.
      * constructor.
      * rewrite app_nil_r. exact Ni.
      * left. split; reflexivity.
      * rewrite app_nil_r. reflexivity.
      * exact Af.
      * cbn [List.length]. lia.
    + rewrite Ef in Af. apply Forall_app in Af. destruct Af as [F1 F2]. apply (K i f1 (dot :: f1) f2).
      * rewrite Eu, Ew. reflexivity.
      * exact Ai.
      * exact F1.
      * destruct i; [congruence|discriminate].
      * right. reflexivity.
      * rewrite Ef. apply app_assoc.
      * exact F2.
      * rewrite <- Lf, Ef, app_length. lia.
  - rewrite Ew in Ai. pose proof Ai as Ai'. apply Forall_app in Ai'. destruct Ai' as [I1 I2]. apply (K x [] [] (w ++ f)).
    + rewrite Eu. f_equal. symmetry. apply app_nil_r.
    + exact I1.
    + constructor.
    + rewrite app_nil_r. exact Nx.
    + left. split; reflexivity.
    + rewrite app_nil_r, Ew. symmetry. apply app_assoc.
    + apply Forall_app. split; [exact I2|exact Af].
    + cbn [List.length]. rewrite app_length, <- Lf. lia.
Qed.
(** scientific: without its exponent, or with a part of it, a number may become larger; the reader accepts it without a word *)
Theorem C135_cut_scientific : exists q u v z x, fmt_E 6 (Fin q) = u ++ v /\ py_float u = Ok (Fin z) /\ py_float (fmt_E 6 (Fin q)) = Ok (Fin x) /\ Q2R z = 1%R /\ Q2R x = (1 / 100000)%R /\
  exists p, prefix_of p (to_file (fmt_E 6) (S_ "now") false false (S_ "t") [S_ "T"; S_ "C"] [[Fin 300; Fin q]]) /\ exists a, loadtxt py_float p = Ok [[Fin a; Fin z]] /\ Q2R a = 300%R.
Proof.
  exists (1 # 100000)%Q, (S_ "1.000000E-0"), (S_ "5"). eexists. eexists. split; [vm_compute; reflexivity|]. split; [vm_compute; reflexivity|]. split; [vm_compute; reflexivity|].
  split; [unfold Q2R; cbn; lra|]. split; [unfold Q2R; cbn; lra|].
  set (t := to_file _ _ _ _ _ _ _). exists (firstn (List.length t - 2) t). split; [exists (skipn (List.length t - 2) t); symmetry; apply firstn_skipn|]. eexists. split; [vm_compute; reflexivity|]. unfold Q2R. cbn. lra.
Qed.
Print Assumptions C135_cut_fixed.
Print Assumptions C135_cut_scientific.
