(** C57: writing an alloy as text and reading it back (src/teflow/loader.py:431-486). *)
From Coq Require Import ZArith String.
From Verif Require Import Py PyDict PyStr RUtil DataModel DataSpec DataProofs CompModel CompSpec CompProofs CompProps AlloyProofs AlloyProps.
Local Open Scope list_scope.
Local Open Scope R_scope.

(** the amounts of a composition divided by its total *)
Definition fractions (c : compound) : compound := map (fun q => (fst q, snd q / total c)) c.
(** compositions that a format can write: distinct plain names, decimal numbers *)
Definition writable (fmt : R -> str) (c : compound) : Prop :=
  total c <> 0 /\ natom c = total c /\ plain_format fmt (total c)
  /\ NoDup (map fst c) /\ Forall (fun p => name_like (fst p) /\ firstn 8 (fst p) <> S_ "Jalloyed" /\ plain_format fmt (snd p / total c)) c.

Definition part_of (fmt : R -> str) (c : compound) : part :=
  let num := if eqb (fmt (total c)) (S_ "1") then [] else fmt (total c) in
  match c with
  | [p] => Elem (fst p) num
  | _ => Group (comp_to_string fmt Join true (fractions c)) num
  end.
Lemma join_concat l : join_with [] l = concat l.
Proof. induction l as [|x l IH]; [reflexivity|]. destruct l as [|y l]; [cbn; rewrite app_nil_r; reflexivity|]. cbn [join_with concat] in *. rewrite IH. reflexivity. Qed.
Lemma token_chars fmt p : name_like (fst p) -> number_text (fmt (snd p)) ->
  Forall (fun c => c <> "("%char /\ c <> ")"%char /\ c <> ascii_of_nat 10) (comp_token fmt Join true p).
Proof.
  intros Hn Hf. assert (A : Forall (fun c => c <> "("%char /\ c <> ")"%char /\ c <> ascii_of_nat 10) (fst p)).
  { destruct Hn as (c & r & -> & Hc & Hr). constructor; [repeat split; intros ->; classes; cbn in Hc; lia|].
    eapply Forall_impl; [|exact Hr]. intros d Hd. repeat split; intros ->; classes; cbn in Hd; lia. }
  unfold comp_token. destruct (true && _)%bool; [exact A|]. apply Forall_app. split; [exact A|apply number_plain; exact Hf].
Qed.
Lemma natom_fractions c : total c <> 0 -> total (fractions c) = 1.
Proof.
  intros H. unfold total, fractions. rewrite map_map. cbn [snd]. fold (total c).
  replace (map (fun x : str * R => snd x / total c) c) with (map (fun x => / total c * snd x) c) by (apply map_ext; intros; unfold Rdiv; ring).
  assert (G : forall l : compound, sumR (map (fun x => / total c * snd x) l) = / total c * total l).
  { induction l as [|a l IH]; unfold total in *; cbn; [ring|]. rewrite IH. ring. }
  rewrite G. field. exact H.
Qed.
Lemma determined c : total c = 1 -> undetermined c = false.
Proof.
  intros H. unfold undetermined. destruct (Nat.ltb_spec 1 (length c)) as [Hl|]; [|reflexivity]. cbn.
  destruct (forallb (fun p => near_one (snd p)) c) eqn:E; [exfalso|reflexivity].
  assert (G : forall l : compound, forallb (fun p => near_one (snd p)) l = true -> INR (length l) * 0.9 <= total l).
  { clear. induction l as [|p l IH]; intros H; [unfold total; cbn; lra|]. cbn in H. apply andb_true_iff in H as (H1 & H2). specialize (IH H2).
    unfold near_one in H1. destruct (Rlt_dec (Rabs (snd p - 1)) 1e-8) as [H|]; [|discriminate]. apply Rabs_def2 in H.
    unfold total in *. cbn [map sumR]. change (length (p :: l)) with (S (length l)). rewrite S_INR. lra. }
  specialize (G c E). rewrite H in G. assert (2 <= INR (length c)) by (change 2 with (INR 2); apply le_INR; lia). lra.
Qed.
Lemma fractions_one c : total c = 1 -> fractions c = c.
Proof. intros H. unfold fractions. rewrite H. rewrite <- (map_id c) at 2. apply map_ext. intros [k v]. cbn. f_equal. field. Qed.
Lemma regularised c : natom c = total c -> total c <> 0 -> regularise c = Ok (fractions c).
Proof.
  intros H H0. unfold regularise. rewrite H. destruct (Req_EM_T (total c) 1) as [E|E]; [rewrite fractions_one by exact E; reflexivity|].
  destruct (Req_EM_T (total c) 0); [contradiction|reflexivity].
Qed.
Lemma sites_plain fmt (l : list (str * compound)) : Forall (fun p => writable fmt (snd p)) l -> forall pc,
  all_sites true (map (fun p => (fst p, SComp (snd p))) l) pc
  = Ok (map (fun p => (fst p, fractions (snd p), total (snd p))) l, map (fun p => (fst p, SComp (snd p))) l).
Proof.
  induction 1 as [|[n c] l (H0 & H1 & _) _ IH]; intros pc; [reflexivity|]. cbn [map all_sites fst snd] in *. cbn [rbind].
  rewrite (regularised c H1 H0). cbn [rbind]. rewrite IH. cbn [rbind fst snd]. rewrite H1. reflexivity.
Qed.
Lemma writable_read fmt c : writable fmt c -> comp_from_string (comp_to_string fmt Join true (fractions c)) false false = Ok (fractions c).
Proof.
  intros (_ & _ & _ & Hd & Hf). apply C51_roundtrip.
  - unfold fractions. rewrite map_map. exact Hd.
  - unfold fractions. apply Forall_map. eapply Forall_impl; [|exact Hf]. cbn. tauto.
  - unfold fractions. apply Forall_map. eapply Forall_impl; [|exact Hf]. cbn. tauto.
Qed.
Lemma single_key fmt p : fmt 1 = S_ "1" -> writable fmt [p] -> comp_to_string fmt Join true (fractions [p]) = fst p.
Proof.
  intros H1 (H0 & _). unfold fractions, comp_to_string. cbn [map join_with]. unfold comp_token. cbn [fst snd].
  replace (snd p / total [p]) with 1; [rewrite H1; reflexivity|]. unfold total in *. cbn in *. field. intros E. apply H0. lra.
Qed.
Lemma key_text fmt c : fmt 1 = S_ "1" -> writable fmt c ->
  part_text (part_of fmt c) = comp_token fmt Join true (site_key fmt Join true (fractions c), total c).
Proof.
  intros H1 Hw. unfold comp_token. cbn [fst snd andb]. change ["1"%char] with (S_ "1"). unfold site_key.
  assert (L : length (fractions c) = length c) by (unfold fractions; apply map_length). rewrite L.
  destruct c as [|p [|q c]]; [destruct Hw as (H & _); exfalso; apply H; reflexivity| |].
  - change (Nat.eqb (length [p]) 1) with true. cbv iota. rewrite single_key by assumption. unfold part_of. destruct (eqb _ _); cbn [part_text]; [rewrite app_nil_r|]; reflexivity.
  - change (Nat.eqb (length (p :: q :: c)) 1) with false. cbv iota. unfold part_of. set (t := comp_to_string fmt Join true (fractions (p :: q :: c))). destruct (eqb _ _); cbn [part_text]; change (S_ "(" ++ t ++ S_ ")") with ("("%char :: t ++ [")"%char]); [reflexivity|]. cbn [app]. rewrite <- app_assoc. reflexivity.
Qed.
Lemma tochars fmt c : writable fmt c -> Forall (fun k => k <> "("%char /\ k <> ")"%char /\ k <> ascii_of_nat 10) (comp_to_string fmt Join true (fractions c)).
Proof.
  intros (_ & _ & _ & _ & Hf). unfold comp_to_string. rewrite join_concat. unfold fractions. rewrite map_map. set (T := total c) in *. clearbody T. induction Hf as [|p l (Hn & _ & Hp) _ IH]; [constructor|].
  cbn [map concat]. apply Forall_app. split; [|exact IH]. apply token_chars; [exact Hn|apply Hp].
Qed.
Lemma part_good fmt c : fmt 1 = S_ "1" -> writable fmt c -> good_part (part_of fmt c).
Proof.
  intros H1 Hw. pose proof (tochars fmt c Hw) as Ht. pose proof (writable_read fmt c Hw) as Hr. destruct Hw as (H0 & Hna & (_ & Hp & _) & Hd & Hf).
  assert (N : number_text (if eqb (fmt (total c)) (S_ "1") then [] else fmt (total c))).
  { destruct (eqb _ _); [exists []; split; [constructor|left; reflexivity]|exact Hp]. }
  unfold part_of. destruct c as [|p [|q c]]; [exfalso; apply H0; reflexivity| |].
  - split; [exact N|]. inversion Hf as [|? ? (A & B & _)]; subst. split; assumption.
  - split; [exact N|]. split; [|exact Ht]. intros E. rewrite E in Hr. cbn in Hr. discriminate.
Qed.
Lemma part_amount fmt c : writable fmt c -> amount (part_num (part_of fmt c)) (total c).
Proof.
  intros (H0 & _ & (_ & _ & Ha) & _). set (num := if eqb (fmt (total c)) (S_ "1") then [] else fmt (total c)).
  assert (E : part_num (part_of fmt c) = num) by (unfold part_of; destruct c as [|p [|q c]]; reflexivity). rewrite E. unfold num.
  destruct (eqb (fmt (total c)) (S_ "1")) eqn:B; [|exact Ha]. apply eqb_eq in B. rewrite B in Ha.
  replace (total c) with 1; [apply amount_one|]. apply (amount_unique (S_ "1")); [|exact Ha].
  right; left. split; [discriminate|]. exists 1%Z. split; [|reflexivity]. exact (whole_snoc [] 0 1 whole_nil ltac:(lia)).
Qed.
Lemma part_reads fmt c : fmt 1 = S_ "1" -> writable fmt c -> comp_from_string (part_source (part_of fmt c)) false false = Ok (fractions c).
Proof.
  intros H1 Hw. rewrite <- (writable_read fmt c Hw). f_equal. unfold part_of. destruct c as [|p [|q c]]; [reflexivity| |reflexivity].
  cbn [part_source]. symmetry. apply single_key; assumption.
Qed.
Lemma source_nodup fmt l : fmt 1 = S_ "1" -> Forall (writable fmt) l -> NoDup (map fractions l) ->
  NoDup (contents (map (part_of fmt) l)) /\ NoDup (elem_names (map (part_of fmt) l)).
Proof.
  intros H1 Hw Hd.
  assert (C : forall c l, writable fmt c -> Forall (writable fmt) l -> ~ In (fractions c) (map fractions l) ->
     (In (part_source (part_of fmt c)) (contents (map (part_of fmt) l)) \/ In (part_source (part_of fmt c)) (elem_names (map (part_of fmt) l))) -> False).
  { clear l Hw Hd. intros c l Hc Hl Hn Hin. apply Hn. clear Hn. induction Hl as [|d l Hd _ IH]; [destruct Hin as [[]|[]]|].
    assert (K : part_source (part_of fmt c) = part_source (part_of fmt d) -> fractions c = fractions d).
    { intros E. pose proof (part_reads fmt c H1 Hc) as A. rewrite E, (part_reads fmt d H1 Hd) in A. congruence. }
    cbn [map] in *. destruct (part_of fmt d) as [n m|x m]; cbn [contents elem_names part_source] in *.
    - destruct Hin as [H|[H|H]]; [right; apply IH; left; exact H|left; symmetry; apply K; congruence|right; apply IH; right; exact H].
    - destruct Hin as [[H|H]|H]; [left; symmetry; apply K; congruence|right; apply IH; left; exact H|right; apply IH; right; exact H]. }
  induction Hw as [|c l Hc Hl IH]; [split; constructor|]. cbn [map] in *. inversion Hd as [|? ? Hn Hd']; subst. destruct (IH Hd') as (A & B).
  specialize (C c l Hc Hl Hn). destruct (part_of fmt c) as [n m|x m] eqn:E; cbn [contents elem_names part_source] in *; split; try assumption; constructor; auto.
Qed.
(** every site becomes one part of the formula *)
Lemma text_parts fmt l : fmt 1 = S_ "1" -> Forall (writable fmt) l ->
  comp_to_string fmt Join true (map (fun c => (site_key fmt Join true (fractions c), total c)) l) = flat_map part_text (map (part_of fmt) l).
Proof.
  intros H1 Hw. unfold comp_to_string. rewrite join_concat, map_map. induction Hw as [|c l Hc _ IH]; [reflexivity|]. cbn [map concat flat_map].
  rewrite IH, (key_text fmt c H1 Hc). reflexivity.
Qed.
Lemma key_inj fmt c d : fmt 1 = S_ "1" -> writable fmt c -> writable fmt d -> site_key fmt Join true (fractions c) = site_key fmt Join true (fractions d) -> fractions c = fractions d.
Proof.
  intros H1 Hc Hd E. pose proof (writable_read fmt c Hc) as A. pose proof (writable_read fmt d Hd) as B. pose proof (tochars fmt c Hc) as Tc. pose proof (tochars fmt d Hd) as Td.
  unfold site_key in E. destruct (Nat.eqb (length (fractions c)) 1), (Nat.eqb (length (fractions d)) 1).
  - rewrite E, B in A. congruence.
  - exfalso. rewrite E in Tc. inversion Tc as [|? ? (X & _)]; subst. apply X; reflexivity.
  - exfalso. rewrite <- E in Td. inversion Td as [|? ? (X & _)]; subst. apply X; reflexivity.
  - assert (E' : comp_to_string fmt Join true (fractions c) = comp_to_string fmt Join true (fractions d)).
    { apply (f_equal (fun s => skipn 1 s)) in E. cbn [skipn app S_ list_ascii_of_string] in E. change (S_ ")") with [")"%char] in E.
      apply app_inj_tail in E. apply E. }
    rewrite E', B in A. congruence.
Qed.
Theorem C57_roundtrip :
  forall (fmt : R -> str) (l : list (str * compound)),
  fmt 1 = S_ "1" -> (length l <= 26)%nat -> Forall (fun p => writable fmt (snd p)) l -> NoDup (map (fun p => fractions (snd p)) l) ->
  exists text, alloy_to_string fmt Join true (map (fun p => (fst p, SComp (snd p))) l) = Ok text
  /\ alloy_from_string text None false false = Ok (combine (map letter (seq 0 (length l))) (map (fun p => SComp (snd p)) l)).
Proof.
  intros fmt l H1 Hlen Hw Hd. unfold alloy_to_string. rewrite (sites_plain fmt l Hw). cbn [rbind fst]. rewrite map_map. cbn [fst snd].
  eexists. split; [reflexivity|].
  assert (Hw' : Forall (writable fmt) (map snd l)) by (apply Forall_map; exact Hw).
  replace (map (fun x : str * compound => (site_key fmt Join true (fractions (snd x)), total (snd x))) l)
     with (map (fun c => (site_key fmt Join true (fractions c), total c)) (map snd l)) by (rewrite map_map; reflexivity).
  rewrite dupdate_self.
  2:{ cbn [map app]. rewrite map_map. cbn [fst]. replace (map (fun p : str * compound => fractions (snd p)) l) with (map fractions (map snd l)) in Hd by (rewrite map_map; reflexivity).
      clear -H1 Hw' Hd. induction Hw' as [|c m Hc Hm IH]; [constructor|]. cbn [map] in *. inversion Hd as [|? ? Hn Hd']; subst. constructor; [|apply IH; exact Hd'].
      intros Hin. apply in_map_iff in Hin as (d & E & Hin). apply Hn. apply in_map_iff. exists d. split; [|exact Hin].
      rewrite Forall_forall in Hm. apply (key_inj fmt d c H1 (Hm d Hin) Hc). exact E. }
  cbn [app]. rewrite text_parts by assumption.
  assert (Hd2 : NoDup (map fractions (map snd l))) by (rewrite map_map; exact Hd).
  destruct (source_nodup fmt (map snd l) H1 Hw' Hd2) as (Hc & He).
  replace (map (fun p : str * compound => SComp (snd p)) l) with (map SComp (map snd l)) by (rewrite map_map; reflexivity).
  rewrite <- (map_length snd l) in Hlen |- *. set (m := map snd l) in *. clearbody m. clear Hw Hd l.
  rewrite (C56_formula false false (map (part_of fmt) m) (map total m) (map fractions m)).
  - rewrite map_length. do 2 f_equal. clear -Hw'. induction Hw' as [|c m (H0 & _) _ IH]; [reflexivity|]. cbn [map combine fst snd]. f_equal; [|exact IH]. f_equal.
    unfold times, fractions. rewrite map_map. etransitivity; [|apply map_id]. apply map_ext. intros [k v]. cbn [fst snd]. f_equal. field. exact H0.
  - apply Forall_map. eapply Forall_impl; [|exact Hw']. intros c Hcw. apply part_good; assumption.
  - exact Hc.
  - exact He.
  - rewrite map_length. exact Hlen.
  - clear -Hw'. induction Hw' as [|c m Hcw _ IH]; constructor; [apply part_amount; exact Hcw|exact IH].
  - clear -Hw' H1. induction Hw' as [|c m Hcw _ IH]; constructor; [|exact IH]. pose proof (natom_fractions c (proj1 Hcw)) as T.
    split; [apply part_reads; assumption|]. split; [apply determined; exact T|]. rewrite (natom_int _ 1) by exact T. lra.
Qed.
Print Assumptions C57_roundtrip.
(** with omit_one=False the amount of a single-element site is written behind the fraction "1" *)
Theorem C57_omit_one_false :
  forall (fmt : R -> str) (st : style) (site name : str) (x : R), natom [(name, x)] = x -> x <> 0 -> st <> Origin ->
  alloy_to_string fmt st false [(site, SComp [(name, x)])] = Ok (name ++ fmt 1 ++ fmt x).
Proof.
  intros fmt st site name x Hn Hx Hst. unfold alloy_to_string. cbn [all_sites rbind]. unfold regularise. rewrite Hn.
  assert (E : (if Req_EM_T x 1 then Ok [(name, x)] else if Req_EM_T x 0 then (match [(name, x)] with [] => Ok [] | _ => Err ZeroDivisionError end)
     else Ok (map (fun p : str * R => (fst p, snd p / x)) [(name, x)])) = Ok [(name, 1)]).
  { destruct (Req_EM_T x 1) as [->|]; [reflexivity|]. destruct (Req_EM_T x 0); [contradiction|]. cbn. do 3 f_equal. field. exact Hx. }
  rewrite E. cbn [rbind fst snd map]. unfold site_key. cbn [length Nat.eqb dupdate fold_left dset]. unfold comp_to_string. cbn [map join_with]. unfold comp_token. cbn [fst snd andb].
  destruct st; [rewrite <- app_assoc; reflexivity|rewrite <- app_assoc; reflexivity|congruence].
Qed.
Print Assumptions C57_omit_one_false.
(** two sites with the same fractions are merged and only the second amount is written *)
Theorem C57_equal_sites_merged :
  forall (fmt : R -> str) (st : style) (omit_one : bool) (s1 s2 : str) (c d : compound),
  natom c = total c -> natom d = total d -> total c <> 0 -> total d <> 0 -> fractions c = fractions d ->
  alloy_to_string fmt st omit_one [(s1, SComp c); (s2, SComp d)] = alloy_to_string fmt st omit_one [(s2, SComp d)].
Proof.
  intros fmt st omit s1 s2 c d Hc Hd Hc0 Hd0 E. unfold alloy_to_string. cbn [all_sites rbind]. rewrite !regularised by assumption. cbn [rbind fst snd map].
  rewrite E. cbn [dupdate fold_left]. unfold dset. cbn [dset]. rewrite eqb_refl. reflexivity.
Qed.
Print Assumptions C57_equal_sites_merged.

(** non-vacuity: Bi2(Te0.9Se0.1)3 written and read back; fmt is a (partial) decimal notation *)
Definition fmt_case (x : R) : str :=
  if Req_EM_T x 1 then S_ "1" else if Req_EM_T x 2 then S_ "2" else if Req_EM_T x 3 then S_ "3"
  else if Req_EM_T x 0.9 then S_ "0.9" else if Req_EM_T x 0.1 then S_ "0.1" else S_ "?".
Lemma fmt_case_values : fmt_case 1 = S_ "1" /\ fmt_case 2 = S_ "2" /\ fmt_case 3 = S_ "3" /\ fmt_case 0.9 = S_ "0.9" /\ fmt_case 0.1 = S_ "0.1".
Proof. unfold fmt_case. repeat split; repeat (destruct (Req_EM_T _ _); try lra; try reflexivity). Qed.
Lemma plain_digit k : (k < 10)%nat -> forall fmt, fmt (INR k) = [ascii_of_nat (48 + k)] -> plain_format fmt (INR k).
Proof.
  intros Hk fmt E. unfold plain_format. rewrite E. split; [discriminate|]. split.
  - exists [ascii_of_nat (48 + k)]. split; [|left; reflexivity]. constructor; [|constructor]. unfold digit. apply in_map. apply in_seq. lia.
  - right; left. split; [discriminate|]. exists (Z.of_nat k). split; [|apply INR_IZR_INZ]. exact (whole_snoc [] 0 k whole_nil Hk).
Qed.
Lemma plain_tenth k : (k < 10)%nat -> forall fmt x, x = INR k / 10 -> fmt x = S_ "0." ++ [ascii_of_nat (48 + k)] -> plain_format fmt x.
Proof.
  intros Hk fmt x Hx E. unfold plain_format. rewrite E. split; [discriminate|]. split.
  - exists (S_ "0"). split; [constructor; [apply case_digit; cbn; tauto|constructor]|]. right. exists [ascii_of_nat (48 + k)]. split; [|reflexivity].
    constructor; [|constructor]. unfold digit. apply in_map. apply in_seq. lia.
  - right; right. exists (S_ "0"), [ascii_of_nat (48 + k)], (Z.of_nat k). split; [reflexivity|]. split; [discriminate|]. split.
    + pose proof (whole_snoc (S_ "0") 0 k (whole_snoc [] 0 0 whole_nil ltac:(lia)) Hk) as W. replace (10 * 0 + Z.of_nat k)%Z with (Z.of_nat k) in W by lia. exact W.
    + rewrite Hx, INR_IZR_INZ. simpl. field.
Qed.
Lemma name_case a b : capital a -> lower_letter b -> name_like [a; b].
Proof. intros Ha Hb. exists a, [b]. repeat split; [exact Ha|constructor; [exact Hb|constructor]]. Qed.
Example C57_case : exists text, alloy_to_string fmt_case Join true [(S_ "cation", SComp [(S_ "Bi", 2)]); (S_ "anion", SComp [(S_ "Te", 2.7); (S_ "Se", 0.3)])] = Ok text
  /\ alloy_from_string text None false false = Ok [(S_ "A", SComp [(S_ "Bi", 2)]); (S_ "B", SComp [(S_ "Te", 2.7); (S_ "Se", 0.3)])].
Proof.
  destruct fmt_case_values as (F1 & F2 & F3 & F9 & F01).
  apply (C57_roundtrip fmt_case [(S_ "cation", [(S_ "Bi", 2)]); (S_ "anion", [(S_ "Te", 2.7); (S_ "Se", 0.3)])] F1); [cbn; lia| |].
  - assert (T1 : total [(S_ "Bi", 2)] = 2) by (unfold total; cbn; lra). assert (T2 : total [(S_ "Te", 2.7); (S_ "Se", 0.3)] = 3) by (unfold total; cbn; lra).
    assert (P1 : plain_format fmt_case 1) by (apply (plain_digit 1 ltac:(lia)); exact F1).
    assert (P2 : plain_format fmt_case 2) by (pose proof (plain_digit 2 ltac:(lia) fmt_case) as H; replace (INR 2) with 2 in H by (simpl; lra); exact (H F2)).
    assert (P3 : plain_format fmt_case 3) by (pose proof (plain_digit 3 ltac:(lia) fmt_case) as H; replace (INR 3) with 3 in H by (simpl; lra); exact (H F3)).
    assert (P9 : plain_format fmt_case 0.9) by (apply (plain_tenth 9 ltac:(lia)); [simpl; lra|exact F9]).
    assert (P01 : plain_format fmt_case 0.1) by (apply (plain_tenth 1 ltac:(lia)); [simpl; lra|exact F01]).
    constructor; [|constructor; [|constructor]]; cbn [snd]; unfold writable; [rewrite T1|rewrite T2].
    + split; [lra|]. split; [apply (natom_int _ 2); exact T1|]. split; [exact P2|]. split; [constructor; [intros []|constructor]|].
      constructor; [|constructor]. cbn [fst snd]. split; [apply name_case; [unfold capital|unfold lower_letter]; cbn; tauto|]. split; [discriminate|].
      replace (2 / 2) with 1 by field. exact P1.
    + split; [lra|]. split; [apply (natom_int _ 3); exact T2|]. split; [exact P3|]. split; [constructor; [intros [H|[]]; discriminate|constructor; [intros []|constructor]]|].
      constructor; [|constructor; [|constructor]]; cbn [fst snd]; (split; [apply name_case; [unfold capital|unfold lower_letter]; cbn; tauto|]; split; [discriminate|]).
      * replace (2.7 / 3) with 0.9 by lra. exact P9.
      * replace (0.3 / 3) with 0.1 by lra. exact P01.
  - cbn [map snd]. constructor; [intros [H|[]]; discriminate|constructor; [intros []|constructor]].
Qed.
Example C57_case_omit : alloy_to_string fmt_case Join false [(S_ "A", SComp [(S_ "Bi", 2)])] = Ok (S_ "Bi12").
Proof.
  destruct fmt_case_values as (F1 & F2 & _). rewrite C57_omit_one_false; [rewrite F1, F2; reflexivity| |lra|discriminate].
  apply (natom_int _ 2). unfold total; cbn; lra.
Qed.
