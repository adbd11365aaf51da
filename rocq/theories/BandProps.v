(** C60-C65: compiling, transport identities, several bands, bipolar conduction (src/teflow/bandlib.py:121-641). *)
From Coq Require Import Reals Lra.
From Verif Require Import Py PyStr RUtil RombModel RombProps BandModel BandSpec BandProofs.
Local Open Scope R_scope.

(** the one property that a band without a Hall function answers with Python's None *)
Definition prop_is_CCRH (p : prop) : bool := match p with PCCRH => true | _ => false end.
(** ** C60: compiling one band *)
Theorem C60_compile_transparent :
  forall (b : band) (EF T : R) (nlev : nat) (p : prop) (a1 a2 : option R), (levels p <= nlev)%nat ->
  method (self_band (compile_band b EF T nlev)) p a1 a2 = method (self_band (clear_band b)) p (Some EF) (Some T).
Proof.
  intros b EF T nlev p a1 a2 H. apply method_ext.
  - reflexivity.
  - reflexivity.
  - intros n Hn. rewrite compiled_K by lia. reflexivity.
  - intros _. unfold fetch_H. cbn [self_band compile_band clear_band o_cache b_cache raw_cache c_H o_H b_raw b_sign]. destruct (r_H (b_raw b)); reflexivity.
  - reflexivity.
Qed.
Print Assumptions C60_compile_transparent.
(** the default max_level = 2 is enough for every property; with fewer levels IndexError *)
Theorem C60_levels :
  (forall p, (levels p <= 3)%nat) /\
  forall (b : band) (EF T : R) (nlev : nat) (p : prop) (a1 a2 : option R), (nlev < levels p)%nat ->
  method (self_band (compile_band b EF T nlev)) p a1 a2 = Err IndexError.
Proof.
  split; [intros p; destruct p; cbn; lia|]. intros b EF T nlev p a1 a2 H.
  assert (KE : forall n, (nlev <= n)%nat -> fetch_K (self_band (compile_band b EF T nlev)) n a1 a2 = Err IndexError).
  { intros n Hn. unfold fetch_K. cbn [self_band compile_band o_cache b_cache raw_cache c_K]. apply py_nth_short. rewrite map_length, seq_length. exact Hn. }
  assert (KO : forall n, (n < nlev)%nat -> fetch_K (self_band (compile_band b EF T nlev)) n a1 a2 = Ok (r_K (b_raw b) n EF T)) by (intros; apply compiled_K; assumption).
  destruct nlev as [|[|[|k]]]; destruct p; cbn [levels] in H; try lia; cbn [method];
    repeat (first [rewrite KO by lia | rewrite KE by lia]; cbn [rbind]); try reflexivity.
Qed.
Print Assumptions C60_levels.
Theorem C60_getitem :
  forall (b : band) (EF T : R) (nlev : nat) (p : prop),
  getitem (self_band (compile_band b EF T nlev)) KEF = Ok (Some EF)
  /\ getitem (self_band (compile_band b EF T nlev)) KT = Ok (Some T)
  /\ ((levels p <= nlev)%nat -> getitem (self_band (compile_band b EF T nlev)) (KProp p) = method (self_band (clear_band b)) p (Some EF) (Some T))
  /\ getitem (self_band (compile_band b EF T nlev)) KOther = Err KeyError
  /\ forall k, getitem (self_band (clear_band b)) k = Err RuntimeError.
Proof.
  intros b EF T nlev p. split; [reflexivity|]. split; [reflexivity|]. split; [|split; reflexivity].
  intros H. apply C60_compile_transparent. exact H.
Qed.
Print Assumptions C60_getitem.
(** without compile both arguments are needed *)
Theorem C60_missing_argument :
  forall (b : band) (p : prop) (EF T : option R), EF = None \/ T = None ->
  method (self_band (clear_band b)) p EF T = (if prop_is_CCRH p then match r_H (b_raw b) with None => Ok None | Some _ => Err TypeError end else Err TypeError).
Proof.
  intros b p EF T H.
  assert (HN : forall f, both f EF T = Err TypeError) by (intros f; destruct H as [-> | ->]; [|destruct EF]; reflexivity).
  destruct p; cbn [method prop_is_CCRH]; unfold fetch_N, fetch_K, fetch_H, fetch_T; cbn [self_band clear_band o_cache b_cache o_N o_K o_H b_raw]; rewrite ?HN; try reflexivity;
    destruct (r_H (b_raw b)); cbv beta iota delta [rbind]; rewrite ?HN; reflexivity.
Qed.
Print Assumptions C60_missing_argument.
(** compiling and clearing leave nothing behind, and recompiling forgets the previous state *)
Theorem C60_clear_recompile :
  forall (b : band) (EF T EF' T' : R) (n n' : nat),
  clear_band (compile_band b EF T n) = clear_band b
  /\ compile_band (compile_band b EF T n) EF' T' n' = compile_band b EF' T' n'
  /\ (b_cache b = None -> clear_band b = b).
Proof. intros [w s c] EF T EF' T' n n'. repeat split. cbn. intros ->. reflexivity. Qed.
Print Assumptions C60_clear_recompile.
(** changing the sign afterwards (as MultiBands.append does) leaves the compiled Hall integral with the old sign *)
Theorem C60_stale_sign :
  forall (b : band) (EF T : R) (nlev : nat) (f : R -> R -> R), r_H (b_raw b) = Some f -> f EF T <> 0 -> b_sign b = 1 ->
  let b' := sign_band (compile_band b EF T nlev) (-1) in
  value (method (self_band b') PCCRH None None) (f EF T)
  /\ value (method (self_band (clear_band b')) PCCRH (Some EF) (Some T)) (- f EF T).
Proof.
  intros b EF T nlev f Hf Hne Hs b'. split; unfold value, b', method, fetch_H; cbn [self_band sign_band compile_band clear_band o_cache b_cache raw_cache c_H o_H b_raw b_sign]; rewrite Hf.
  - rewrite Hs. do 2 f_equal. lra.
  - cbn [both rbind]. do 2 f_equal. lra.
Qed.
Print Assumptions C60_stale_sign.

(** ** C61: a compiled object ignores its arguments; solve_EF *)
Theorem C61_arguments_ignored :
  forall (o : obj) (c : cache) (p : prop) (a1 a2 b1 b2 : option R), o_cache o = Some c ->
  method o p a1 a2 = method o p b1 b2.
Proof.
  intros o c p a1 a2 b1 b2 H. apply method_ext; [reflexivity| | | |].
  - unfold fetch_N. rewrite H. reflexivity.
  - intros n _. unfold fetch_K. rewrite H. reflexivity.
  - intros _. unfold fetch_H. rewrite H. reflexivity.
  - unfold fetch_T. rewrite H. reflexivity.
Qed.
Print Assumptions C61_arguments_ignored.
(** the solver is handed a constant: what it returns does not depend on how the property varies with EF *)
Theorem C61_solve_compiled :
  forall (root : (R -> res R) -> res (R * bool)) (o : obj) (c : cache) (p : prop) (v T x : R),
  (forall f g, (forall y, f y = g y) -> root f = root g) ->
  o_cache o = Some c -> method o p None None = Ok (Some x) ->
  solve_EF root o p v T = (let! (y, converged) := root (fun _ => Ok (x - v)) in Ok (if converged then Some (y * kB * T) else None)).
Proof.
  intros root o c p v T x Hext Hc Hx. unfold solve_EF. rewrite (Hext (residual o p v T) (fun _ => Ok (x - v))); [reflexivity|].
  intros y. unfold residual. rewrite (C61_arguments_ignored o c p _ _ None None Hc), Hx. reflexivity.
Qed.
Print Assumptions C61_solve_compiled.
(** what solve_EF promises: a converged root makes the residual as good as the solver promises, otherwise nan *)
Theorem C61_solve :
  forall (root : (R -> res R) -> res (R * bool)) (good : R -> Prop) (o : obj) (p : prop) (v T : R),
  (forall f x, root f = Ok (x, true) -> exists y, f x = Ok y /\ good y) ->
  (forall EF, solve_EF root o p v T = Ok (Some EF) -> exists y, value (method o p (Some EF) (Some T)) y /\ good (y - v))
  /\ (forall x, root (residual o p v T) = Ok (x, false) -> solve_EF root o p v T = Ok None)
  /\ (forall e, root (residual o p v T) = Err e -> solve_EF root o p v T = Err e).
Proof.
  intros root good o p v T Hr. unfold solve_EF. split; [|split].
  - intros EF H. destruct (root (residual o p v T)) as [(x, cv)|e] eqn:E; cbn [rbind] in H; [|discriminate].
    destruct cv; [|discriminate]. injection H as <-. destruct (Hr _ _ E) as (y & Hy & G). unfold residual in Hy. unfold value.
    destruct (method o p (Some (x * kB * T)) (Some T)) as [[z|]|e]; cbn [rbind num] in Hy; try discriminate. injection Hy as <-. exists z. split; [reflexivity|exact G].
  - intros x ->. reflexivity.
  - intros e ->. reflexivity.
Qed.
Print Assumptions C61_solve.

(** ** C62: identities between the reported quantities, for one band or several, compiled or not *)
(** run every method on one set of fetched integrals *)
Ltac run := unfold value; cbn [method];
  repeat match goal with
  | |- context[fetch_K ?o ?n ?a ?b] => destruct (fetch_K o n a b); cbn [rbind]
  | |- context[fetch_N ?o ?a ?b] => destruct (fetch_N o a b); cbn [rbind]
  | |- context[fetch_H ?o ?a ?b] => destruct (fetch_H o a b) as [[?|]|]; cbn [rbind num]
  | |- context[num (fetch_T ?o ?a)] => destruct (num (fetch_T o a)) eqn:?; cbn [rbind]
  end; try discriminate.
Theorem C62_power_factor :
  forall (o : obj) (a1 a2 : option R) (s c pf cs : R), (o_sign o = 1 \/ o_sign o = -1) ->
  value (method o PS a1 a2) s -> value (method o PC a1 a2) c -> value (method o PPF a1 a2) pf -> value (method o PCS a1 a2) cs -> c <> 0 ->
  pf = 1e-6 * s ^ 2 * c /\ cs = c * s.
Proof.
  intros o a1 a2 s c pf cs Hs. run. intros [= <-] [= <-] [= <-] [= <-] Hc.
  assert (E0 : S0 = 1e6 * kB) by (unfold S0, kB; lra). rewrite E0. generalize kB. intros k.
  split; [|field; exact Hc]. destruct Hs as [-> | ->]; field; exact Hc.
Qed.
Print Assumptions C62_power_factor.
Lemma lorenz_close c p1 p2 : c <> 0 ->
  Rabs (1e-6 * (L0 * (p2 / c - (p1 / c) ^ 2)) * c - 1e2 * kB * kB * (p2 - p1 ^ 2 / c)) <= 1e-15 * Rabs (1e2 * kB * kB * (p2 - p1 ^ 2 / c)).
Proof.
  intros Hc. assert (E1 : 1e-6 * (L0 * (p2 / c - (p1 / c) ^ 2)) * c = 1e-6 * L0 * (p2 - p1 ^ 2 / c)).
  { generalize 1e-6 L0. intros u v. field. exact Hc. }
  rewrite E1. clear E1. generalize (p2 - p1 ^ 2 / c). intros pr.
  replace (1e-6 * L0 * pr - 1e2 * kB * kB * pr) with ((1e-6 * L0 - 1e2 * kB * kB) * pr) by (generalize 1e-6 1e2 kB L0; intros; ring).
  rewrite (Rabs_mult (1e2 * kB * kB)), (Rabs_mult (1e-6 * L0 - _)), <- Rmult_assoc. apply Rmult_le_compat_r; [apply Rabs_pos|].
  rewrite (Rabs_pos_eq (1e2 * kB * kB)) by (unfold kB; lra). apply Rabs_le. unfold L0, kB. lra.
Qed.
Theorem C62_thermal :
  forall (o : obj) (a1 a2 : option R) (T : R) (c cl l ke : R), (o_cache o = None /\ a2 = Some T) \/ getitem o KT = Ok (Some T) ->
  value (method o PC a1 a2) c -> value (method o PCL a1 a2) cl -> value (method o PL a1 a2) l ->
  value (method o PKe a1 a2) ke -> c <> 0 ->
  ke = cl * T /\ Rabs (1e-6 * l * c - cl) <= 1e-15 * Rabs cl.
Proof.
  intros o a1 a2 T c cl l ke Ho. assert (FT : num (fetch_T o a2) = Ok T).
  { unfold fetch_T. destruct Ho as [(Ho & ->)|Ho]; [rewrite Ho; reflexivity|]. unfold getitem in Ho. destruct (o_cache o) as [k|]; [|discriminate]. injection Ho as ->. reflexivity. }
  unfold value; cbn [method]. rewrite FT. destruct (fetch_K o 0 _ _) as [p0|]; [cbn [rbind]|discriminate]. destruct (fetch_K o 1 _ _) as [p1|]; [cbn [rbind]|discriminate]. destruct (fetch_K o 2 _ _) as [p2|]; [cbn [rbind]|discriminate].
  intros [= <-] [= <-] [= <-] [= <-] Hc. rename p0 into c. split; [reflexivity|].
  exact (lorenz_close c p1 p2 Hc).
Qed.
Print Assumptions C62_thermal.
Theorem C62_mobility :
  forall (o : obj) (a1 a2 : option R) (c n u : R), (o_sign o = 1 \/ o_sign o = -1) ->
  value (method o PC a1 a2) c -> value (method o PN a1 a2) n -> value (method o PU a1 a2) u -> n <> 0 ->
  o_sign o * qe * (n * 1e19) * u = c.
Proof.
  intros o a1 a2 c n u Hs. run. intros [= <-] [= <-] [= <-] Hn. assert (Q : qe <> 0) by (unfold qe; lra). generalize dependent qe. intros k Q.
  assert (N19 : 1e19 <> 0) by lra. generalize dependent 1e19. intros N1 N19. destruct Hs as [-> | ->]; field; auto.
Qed.
Print Assumptions C62_mobility.
Theorem C62_hall :
  forall (o : obj) (a1 a2 : option R) (c h rh uh nh : R), (o_sign o = 1 \/ o_sign o = -1) ->
  value (method o PC a1 a2) c -> value (method o PCCRH a1 a2) h ->
  value (method o PRH a1 a2) rh -> value (method o PUH a1 a2) uh -> value (method o PNH a1 a2) nh -> c <> 0 -> h <> 0 ->
  uh = rh * c /\ h = rh * c ^ 2 /\ o_sign o * qe * (nh * 1e19) * rh = 1 /\ o_sign o * qe * (nh * 1e19) * uh = c.
Proof.
  intros o a1 a2 c h rh uh nh Hs. run. intros [= <-] [= <-] [= <-] [= <-] [= <-] Hc Hh.
  assert (Q : qe <> 0) by (unfold qe; lra). generalize dependent qe. intros k Q.
  replace 1e-19 with (/ 1e19) by lra. assert (N19 : 1e19 <> 0) by lra. generalize dependent 1e19. intros N1 N19.
  destruct Hs as [-> | ->]; repeat split; field; auto.
Qed.
Print Assumptions C62_hall.

(** ** C64: several bands *)
Lemma map_sum m f : Sum m f = sumR (map (fun id => f (fst id) (snd id)) (m_items m)). Proof. reflexivity. Qed.
Lemma multi_N_sum h m EF T f :
  (forall i d, In (i, d) (m_items m) -> fetch_N (self_band (h i)) (Some (-1 * b_sign (h i) * (EF - d))) T = Ok (f i d)) ->
  multi_N h (m_items m) (Some EF) T = Ok (Sum m f).
Proof. intros H. unfold multi_N. apply total_ok. intros i d Hin. cbn [reduced need]. apply H. exact Hin. Qed.
Lemma multi_K_sum h m n EF T f :
  (forall i d, In (i, d) (m_items m) -> fetch_K (self_band (h i)) n (Some (-1 * b_sign (h i) * (EF - d))) T = Ok (f i d)) ->
  multi_K h (m_items m) n (Some EF) T = Ok (Sum m (fun i d => b_sign (h i) ^ n * f i d)).
Proof.
  intros H. unfold multi_K. apply (total_ok _ _ (fun i d => b_sign (h i) ^ n * f i d)). intros i d Hin. cbn [reduced need]. rewrite (H i d Hin). reflexivity.
Qed.
Lemma multi_H_sum h m EF T f :
  (forall i d, In (i, d) (m_items m) -> fetch_H (self_band (h i)) (Some (-1 * b_sign (h i) * (EF - d))) T = Ok (Some (f i d))) ->
  multi_H h (m_items m) (Some EF) T = Ok (Sum m f).
Proof. intros H. unfold multi_H. apply total_ok. intros i d Hin. cbn [reduced need]. rewrite (H i d Hin). reflexivity. Qed.

(** carrier concentration, conductivity, conductivity times Seebeck coefficient and Hall integral are sums over the bands,
    each at the Fermi level measured from its own edge *)
Theorem C64_additive :
  forall (h : heap) (m : multi) (p : prop) (EF T : R) (f : nat -> R -> R),
  m_cache m = None -> signs_ok h -> In p [PN; PC; PCS; PCCRH] ->
  (forall i d, In (i, d) (m_items m) -> value (method (self_band (h i)) p (Some (seen h EF i d)) (Some T)) (f i d)) ->
  value (method (self_multi h m) p (Some EF) (Some T)) (Sum m f).
Proof.
  intros h m p EF T f Hm Hs Hp Hf. cbn [In] in Hp.
  assert (Hf' : forall i d, In (i, d) (m_items m) -> value (method (self_band (h i)) p (Some (-1 * b_sign (h i) * (EF - d))) (Some T)) (f i d)).
  { intros i d Hin. rewrite seen_reduced by exact Hs. apply Hf. exact Hin. }
  clear Hf. unfold value in *. destruct Hp as [<-|[<-|[<-|[<-|[]]]]]; cbn [method] in *.
  - unfold fetch_N at 1. cbn [self_multi o_cache o_N]. rewrite Hm. rewrite (multi_N_sum h m EF (Some T) f); [reflexivity|].
    intros i d Hin. specialize (Hf' i d Hin). destruct (fetch_N _ _ _); cbn [rbind] in Hf'; congruence.
  - unfold fetch_K at 1. cbn [self_multi o_cache o_K]. rewrite Hm. rewrite (multi_K_sum h m 0 EF (Some T) f).
    + cbn [rbind]. do 2 f_equal. apply sumR_ext. intros x Hx. cbn [pow]. lra.
    + intros i d Hin. specialize (Hf' i d Hin). destruct (fetch_K _ _ _ _); cbn [rbind] in Hf'; congruence.
  - unfold fetch_K at 1. cbn [self_multi o_cache o_K o_sign]. rewrite Hm.
    assert (C0 : 1e6 * kB <> 0) by (unfold kB; lra).
    rewrite (multi_K_sum h m 1 EF (Some T) (fun i d => f i d / (1e6 * kB) * b_sign (h i))).
    + cbn [rbind]. do 2 f_equal. rewrite Rmult_1_l. unfold Sum. rewrite <- (sumR_scal (1e6 * kB) (fun id => b_sign (h (fst id)) ^ 1 * (f (fst id) (snd id) / (1e6 * kB) * b_sign (h (fst id))))).
      apply sumR_ext. intros x Hx. set (k := 1e6 * kB) in *. clearbody k. destruct (Hs (fst x)) as [E|E]; rewrite E; field; exact C0.
    + intros i d Hin. specialize (Hf' i d Hin). cbn [self_band o_sign] in Hf'. destruct (fetch_K _ _ _ _) as [k1|]; cbn [rbind] in Hf'; [|congruence].
      f_equal. injection Hf' as <-. set (k := 1e6 * kB) in *. replace (b_sign (h i) * 1e6 * kB * k1) with (b_sign (h i) * k * k1) by (unfold k; ring). clearbody k. destruct (Hs i) as [E|E]; rewrite E; field; exact C0.
  - unfold fetch_H at 1. cbn [self_multi o_cache o_H]. rewrite Hm. rewrite (multi_H_sum h m EF (Some T) f); [reflexivity|].
    intros i d Hin. apply (Hf' i d Hin).
Qed.
Print Assumptions C64_additive.

Definition all_hall (h : heap) (m : multi) : Prop := forall i d, In (i, d) (m_items m) -> r_H (b_raw (h i)) <> None.
(** compiled values in general: every entry of a band uses the offset of its LAST entry *)
Section Compiled.
Variables (h : heap) (m : multi) (EF T : R) (nlev : nat).
Hypothesis Hall : all_hall h m.
Let g := compile_items (m_items m) h EF T nlev.
Definition ld (i : nat) : R := match last_delta i (m_items m) with Some d => d | None => 0 end.
Lemma g_at i d : In (i, d) (m_items m) -> g i = compile_band (h i) (-1 * b_sign (h i) * (EF - ld i)) T nlev.
Proof. intros Hin. unfold g, ld. rewrite compile_items_at. destruct (last_delta_some i d _ Hin) as (x & ->). reflexivity. Qed.
Definition hv (i : nat) (e : R) : R := match r_H (b_raw (h i)) with Some f => b_sign (h i) * f e T | None => 0 end.
Lemma cN : multi_N g (m_items m) (Some EF) (Some T) = Ok (Sum m (fun i d => r_N (b_raw (h i)) (-1 * b_sign (h i) * (EF - ld i)) T)).
Proof. apply multi_N_sum. intros i d Hin. rewrite (g_at i d Hin). reflexivity. Qed.
Lemma cK n : (n < nlev)%nat -> multi_K g (m_items m) n (Some EF) (Some T) = Ok (Sum m (fun i d => b_sign (h i) ^ n * r_K (b_raw (h i)) n (-1 * b_sign (h i) * (EF - ld i)) T)).
Proof.
  intros Hn. rewrite (multi_K_sum g m n EF (Some T) (fun i _ => r_K (b_raw (h i)) n (-1 * b_sign (h i) * (EF - ld i)) T)).
  - f_equal. apply sumR_ext. intros (i, d) Hin. cbn [fst snd]. rewrite (g_at i d Hin). reflexivity.
  - intros i d Hin. rewrite (g_at i d Hin). apply compiled_K. exact Hn.
Qed.
Lemma cH : multi_H g (m_items m) (Some EF) (Some T) = Ok (Sum m (fun i d => hv i (-1 * b_sign (h i) * (EF - ld i)))).
Proof.
  apply multi_H_sum. intros i d Hin. rewrite (g_at i d Hin). unfold fetch_H, hv. cbn [self_band compile_band o_cache b_cache raw_cache c_H].
  specialize (Hall i d Hin). destruct (r_H (b_raw (h i))); [reflexivity|congruence].
Qed.
Lemma compile_multi_ok : compile_multi h m EF T nlev = (g, Ok {| m_items := m_items m; m_cache := Some
   {| c_EF := EF; c_T := T; c_N := Sum m (fun i d => r_N (b_raw (h i)) (-1 * b_sign (h i) * (EF - ld i)) T);
      c_K := map (fun n => Sum m (fun i d => b_sign (h i) ^ n * r_K (b_raw (h i)) n (-1 * b_sign (h i) * (EF - ld i)) T)) (seq 0 nlev);
      c_H := Some (Sum m (fun i d => hv i (-1 * b_sign (h i) * (EF - ld i)))) |} |}).
Proof.
  unfold compile_multi. fold g. f_equal. unfold make_cache. cbn [self_multi o_N o_K o_H]. rewrite cN. cbn [rbind].
  rewrite (mapM_ok _ (fun n => Sum m (fun i d => b_sign (h i) ^ n * r_K (b_raw (h i)) n (-1 * b_sign (h i) * (EF - ld i)) T))).
  - cbn [rbind]. rewrite cH. reflexivity.
  - intros n Hn. apply in_seq in Hn. apply cK. lia.
Qed.
End Compiled.
(** uncompiled (cleared) values *)
Section Cleared.
Variables (h : heap) (m : multi) (EF T : R).
Hypothesis Hall : all_hall h m.
Let g := fst (clear_multi h m).
Lemma uN : multi_N g (m_items m) (Some EF) (Some T) = Ok (Sum m (fun i d => r_N (b_raw (h i)) (-1 * b_sign (h i) * (EF - d)) T)).
Proof. apply multi_N_sum. intros i d Hin. unfold g. rewrite (clear_at h m i d Hin). reflexivity. Qed.
Lemma uK n : multi_K g (m_items m) n (Some EF) (Some T) = Ok (Sum m (fun i d => b_sign (h i) ^ n * r_K (b_raw (h i)) n (-1 * b_sign (h i) * (EF - d)) T)).
Proof.
  rewrite (multi_K_sum g m n EF (Some T) (fun i d => r_K (b_raw (h i)) n (-1 * b_sign (h i) * (EF - d)) T)).
  - f_equal. apply sumR_ext. intros (i, d) Hin. cbn [fst snd]. unfold g. rewrite (clear_at h m i d Hin). reflexivity.
  - intros i d Hin. unfold g. rewrite (clear_at h m i d Hin). reflexivity.
Qed.
Lemma uH : multi_H g (m_items m) (Some EF) (Some T) = Ok (Sum m (fun i d => hv h T i (-1 * b_sign (h i) * (EF - d)))).
Proof.
  apply multi_H_sum. intros i d Hin. unfold g. rewrite (clear_at h m i d Hin). unfold fetch_H, hv. cbn [self_band clear_band o_cache b_cache o_H b_raw b_sign both].
  specialize (Hall i d Hin). destruct (r_H (b_raw (h i))); [reflexivity|congruence].
Qed.
End Cleared.
Lemma Sum_ext m f g : (forall i d, In (i, d) (m_items m) -> f i d = g i d) -> Sum m f = Sum m g.
Proof. intros H. unfold Sum. apply sumR_ext. intros (i, d) Hin. apply H. exact Hin. Qed.
Lemma ld_nodup m i d : NoDup (map fst (m_items m)) -> In (i, d) (m_items m) -> ld m i = d.
Proof. intros ND Hin. unfold ld. rewrite (last_delta_nodup i d _ ND Hin). reflexivity. Qed.

(** with distinct band objects compiling changes nothing but the speed, whatever was compiled before *)
Theorem C64_compile_transparent :
  forall (h : heap) (m : multi) (EF T : R) (nlev : nat),
  NoDup (map fst (m_items m)) -> all_hall h m ->
  exists g m', compile_multi h m EF T nlev = (g, Ok m') /\ m_items m' = m_items m /\
  forall (p : prop) (a1 a2 : option R), (levels p <= nlev)%nat ->
  method (self_multi g m') p a1 a2
  = method (self_multi (fst (clear_multi h m)) (snd (clear_multi h m))) p (Some EF) (Some T).
Proof.
  intros h m EF T nlev ND Hall. eexists. eexists. split; [apply compile_multi_ok; exact Hall|]. split; [reflexivity|].
  intros p a1 a2 Hp. apply method_ext.
  - reflexivity.
  - unfold fetch_N. cbn [self_multi o_cache m_cache c_N snd clear_multi o_N m_items]. rewrite uN. f_equal. apply Sum_ext. intros i d Hin. rewrite (ld_nodup m i d ND Hin). reflexivity.
  - intros n Hn. unfold fetch_K. cbn [self_multi o_cache m_cache c_K snd clear_multi o_K m_items].
    rewrite (py_nth_seq (fun n => Sum m (fun i d => b_sign (h i) ^ n * r_K (b_raw (h i)) n (-1 * b_sign (h i) * (EF - ld m i)) T)) n nlev) by lia.
    rewrite uK. f_equal. apply Sum_ext. intros i d Hin. rewrite (ld_nodup m i d ND Hin). reflexivity.
  - intros _. unfold fetch_H. cbn [self_multi o_cache m_cache c_H snd clear_multi o_H m_items]. rewrite uH by exact Hall. cbn [rbind]. do 2 f_equal. apply Sum_ext. intros i d Hin. rewrite (ld_nodup m i d ND Hin). reflexivity.
  - reflexivity.
Qed.
Print Assumptions C64_compile_transparent.
(** the same band object under two offsets: the compiled concentration counts it twice at the second offset *)
Theorem C64_shared_band_refuted :
  forall (h : heap) (i : nat) (d1 d2 EF T : R) (nlev : nat), signs_ok h -> r_H (b_raw (h i)) <> None ->
  let m := {| m_items := [(i, d1); (i, d2)]; m_cache := None |} in
  let N d := r_N (b_raw (h i)) (seen h EF i d) T in
  (exists g m', compile_multi h m EF T nlev = (g, Ok m') /\ value (method (self_multi g m') PN None None) (2 * N d2))
  /\ value (method (self_multi (fst (clear_multi h m)) m) PN (Some EF) (Some T)) (N d1 + N d2).
Proof.
  intros h i d1 d2 EF T nlev Hs Hi m N. assert (Hall : all_hall h m) by (intros j d [[= <- _]|[[= <- _]|[]]]; exact Hi).
  assert (L : ld m i = d2) by (unfold ld, m; cbn [m_items last_delta]; rewrite Nat.eqb_refl; reflexivity).
  split.
  - eexists. eexists. split; [apply compile_multi_ok; exact Hall|]. unfold value, method, fetch_N. cbn [self_multi o_cache m_cache c_N rbind]. do 2 f_equal.
    unfold Sum. cbn [map m m_items sumR fst]. fold m. rewrite L. unfold N. rewrite <- (seen_reduced h EF i d2 Hs). ring.
  - unfold value, method, fetch_N. cbn [self_multi o_cache m_cache m o_N]. fold m. rewrite uN. cbn [rbind]. do 2 f_equal.
    unfold Sum. cbn [map m m_items sumR fst snd]. unfold N. rewrite <- !(seen_reduced h EF i _ Hs). ring.
Qed.
Print Assumptions C64_shared_band_refuted.
(** an uncompiled MultiBands whose bands were compiled elsewhere reports the same number for every Fermi level and temperature *)
Theorem C64_stale_subbands :
  forall (h : heap) (m : multi) (p : prop) (EF T EF' : R),
  (forall i d, In (i, d) (m_items m) -> b_cache (h i) <> None) ->
  method (self_multi h m) p (Some EF) (Some T) = method (self_multi h m) p (Some EF') (Some T)
  /\ (p <> PKe -> forall T', method (self_multi h m) p (Some EF) (Some T) = method (self_multi h m) p (Some EF') (Some T')).
Proof.
  intros h m p EF T EF' Hc.
  assert (A : forall T', fetch_N (self_multi h m) (Some EF) (Some T) = fetch_N (self_multi h m) (Some EF') (Some T')).
  { intros T'. unfold fetch_N. cbn [self_multi o_cache o_N]. destruct (m_cache m); [reflexivity|]. apply total_ext. intros i d Hin. cbn [reduced need]. unfold fetch_N. cbn [self_band o_cache].
    specialize (Hc i d Hin). destruct (b_cache (h i)); [reflexivity|congruence]. }
  assert (B : forall n T', fetch_K (self_multi h m) n (Some EF) (Some T) = fetch_K (self_multi h m) n (Some EF') (Some T')).
  { intros n T'. unfold fetch_K. cbn [self_multi o_cache o_K]. destruct (m_cache m); [reflexivity|]. apply total_ext. intros i d Hin. cbn [reduced need]. unfold fetch_K. cbn [self_band o_cache].
    specialize (Hc i d Hin). destruct (b_cache (h i)); [reflexivity|congruence]. }
  assert (C : forall T', fetch_H (self_multi h m) (Some EF) (Some T) = fetch_H (self_multi h m) (Some EF') (Some T')).
  { intros T'. unfold fetch_H. cbn [self_multi o_cache o_H]. destruct (m_cache m); [reflexivity|]. f_equal. apply total_ext. intros i d Hin. cbn [reduced need]. unfold fetch_H. cbn [self_band o_cache].
    specialize (Hc i d Hin). destruct (b_cache (h i)); [reflexivity|congruence]. }
  split.
  - apply method_ext; auto.
  - intros Hp T'. destruct p; try congruence; cbn [method]; rewrite ?(A T'), ?(fun n => B n T'), ?(C T'); reflexivity.
Qed.
Print Assumptions C64_stale_subbands.
(** a LinearBand among the bands makes compile raise TypeError, leaving the sub-bands compiled *)
Theorem C64_missing_level :
  forall (h : heap) (i : nat) (d : R) (l : list (nat * R)) (p : prop) (T : option R),
  method (self_multi h {| m_items := (i, d) :: l; m_cache := None |}) p None T = Err TypeError.
Proof. intros h i d l p T. destruct p; reflexivity. Qed.
Print Assumptions C64_missing_level.
Theorem C64_no_hall :
  forall (h : heap) (m : multi) (EF T : R) (nlev : nat) (j : nat) (e : R), In (j, e) (m_items m) -> r_H (b_raw (h j)) = None ->
  exists g, compile_multi h m EF T nlev = (g, Err TypeError)
            /\ forall i d, In (i, d) (m_items m) -> b_cache (g i) <> None.
Proof.
  intros h m EF T nlev j e Hj Hn. set (g := compile_items (m_items m) h EF T nlev). exists g. split.
  - unfold compile_multi. fold g. f_equal. unfold make_cache. cbn [self_multi o_N o_K o_H]. unfold g. rewrite cN. cbn [rbind].
    rewrite (mapM_ok _ (fun n => Sum m (fun i d => b_sign (h i) ^ n * r_K (b_raw (h i)) n (-1 * b_sign (h i) * (EF - ld m i)) T))) by (intros n Hin; apply in_seq in Hin; apply cK; lia).
    cbn [rbind]. fold g. unfold multi_H.
    set (F := fun i d => need (reduced g (Some EF) i d) (fun x => let! y := fetch_H (self_band (g i)) (Some x) (Some T) in num y)).
    assert (FV : forall i d, In (i, d) (m_items m) -> F i d = match r_H (b_raw (h i)) with Some f => Ok (b_sign (h i) * f (-1 * b_sign (h i) * (EF - ld m i)) T) | None => Err TypeError end).
    { intros i d Hin. unfold F. cbn [reduced need]. unfold fetch_H, g. rewrite (g_at h m EF T nlev i d Hin). cbn [self_band o_cache compile_band b_cache raw_cache c_H rbind]. destruct (r_H (b_raw (h i))); reflexivity. }
    assert (E : forall l, In (j, e) l -> (forall i d, In (i, d) l -> In (i, d) (m_items m)) -> total l F = Err TypeError).
    { induction l as [|(i, d) l IH]; intros Hin Hsub; [destruct Hin|]. cbn [total]. rewrite (FV i d (Hsub i d (or_introl eq_refl))).
      destruct (r_H (b_raw (h i))) as [f|] eqn:Ef; [|reflexivity]. cbn [rbind]. destruct Hin as [[= -> ->]|Hin]; [congruence|].
      rewrite IH; [reflexivity|exact Hin|]. intros i' d' H'. apply Hsub. right. exact H'. }
    rewrite E; [reflexivity|exact Hj|auto].
  - intros i d Hin. unfold g. rewrite (g_at h m EF T nlev i d Hin). discriminate.
Qed.
Print Assumptions C64_no_hall.

(** ** C65: bipolar thermal conductivity *)
Lemma part_in h c m i d : In (i, d) (m_items (part h c m)) <-> In (i, d) (m_items m) /\ is_c h (i, d) = c.
Proof. cbn [part m_items]. rewrite filter_In, Bool.eqb_true_iff. reflexivity. Qed.
Lemma fresh_part h c m : fresh h m -> fresh h (part h c m).
Proof. intros (_ & H). split; [reflexivity|]. intros i d Hin. apply part_in in Hin. apply (H i d). apply Hin. Qed.
Lemma Sum_split h m f : Sum m f = Sum (part h true m) f + Sum (part h false m) f.
Proof.
  unfold Sum, part. cbn [m_items]. induction (m_items m) as [|id l IH]; cbn [filter map sumR]; [lra|].
  destruct (is_c h id); cbn [Bool.eqb map sumR]; rewrite IH; lra.
Qed.
Lemma sign_c h i d : signs_ok h -> is_c h (i, d) = true -> b_sign (h i) = -1.
Proof. intros Hs. unfold is_c. cbn [fst]. destruct (Rlt_dec (b_sign (h i)) 0) as [L|]; [|discriminate]. intros _. destruct (Hs i) as [E|E]; lra. Qed.
Lemma sign_v h i d : signs_ok h -> is_c h (i, d) = false -> b_sign (h i) = 1.
Proof. intros Hs. unfold is_c. cbn [fst]. destruct (Rlt_dec (b_sign (h i)) 0) as [L|L]; [discriminate|]. intros _. destruct (Hs i) as [E|E]; lra. Qed.
Lemma fresh_K h m n EF T : fresh h m -> signs_ok h -> fetch_K (self_multi h m) n (Some EF) (Some T) = Ok (Sum m (fun i d => b_sign (h i) ^ n * K_of h n i (seen h EF i d) T)).
Proof.
  intros (Hm & Hf) Hs. unfold fetch_K. cbn [self_multi o_cache o_K]. rewrite Hm. apply (multi_K_sum h m n EF (Some T) (fun i d => K_of h n i (seen h EF i d) T)).
  intros i d Hin. unfold fetch_K. cbn [self_band o_cache o_K]. rewrite (Hf i d Hin). rewrite seen_reduced by exact Hs. reflexivity.
Qed.
Lemma quad (a b c d a' b' c' d' : R) : a = a' -> b = b' -> c = c' -> d = d' -> Ok (a, b, c, d) = Ok (a', b', c', d').
Proof. intros -> -> -> ->. reflexivity. Qed.
Lemma bip_gen h m EF T (k0 k1 : nat -> R -> R) :
  (forall i d, In (i, d) (m_items m) -> let e := match EF with None => None | Some x => Some (if Rlt_dec (b_sign (h i)) 0 then x - d else d - x) end in
     fetch_K (self_band (h i)) 0 e T = Ok (k0 i d) /\ fetch_K (self_band (h i)) 1 e T = Ok (k1 i d)) ->
  bip_totals h (m_items m) EF T = Ok (Sum (part h true m) k0, - Sum (part h true m) k1, Sum (part h false m) k0, Sum (part h false m) k1).
Proof.
  unfold Sum, part. cbn [m_items]. induction (m_items m) as [|(i, d) l IH]; intros H; cbn [bip_totals filter map sumR].
  - apply quad; lra.
  - destruct (H i d (or_introl eq_refl)) as (H0 & H1). rewrite H0, H1. cbn [rbind]. rewrite IH by (intros; apply H; right; assumption). cbn [rbind].
    change (is_c h (i, d)) with (if Rlt_dec (b_sign (h i)) 0 then true else false). destruct (Rlt_dec (b_sign (h i)) 0); cbn [Bool.eqb map sumR fst snd]; apply quad; lra.
Qed.
Lemma bip_fresh h m EF T : fresh h m -> bip_totals h (m_items m) (Some EF) (Some T)
  = Ok (Sum (part h true m) (fun i d => K_of h 0 i (seen h EF i d) T), - Sum (part h true m) (fun i d => K_of h 1 i (seen h EF i d) T),
        Sum (part h false m) (fun i d => K_of h 0 i (seen h EF i d) T), Sum (part h false m) (fun i d => K_of h 1 i (seen h EF i d) T)).
Proof.
  intros (_ & Hf). apply bip_gen. intros i d Hin e. unfold e, fetch_K. cbn [self_band o_cache o_K]. rewrite (Hf i d Hin). split; reflexivity.
Qed.
Lemma both_kinds h m : (m_items (part h true m) <> [] /\ m_items (part h false m) <> []) ->
  (existsb (is_c h) (m_items m) && existsb (fun id => negb (is_c h id)) (m_items m))%bool = true.
Proof.
  intros (A & B). apply andb_true_iff. split; apply existsb_exists.
  - destruct (m_items (part h true m)) as [|(i, d) r] eqn:E; [congruence|]. assert (In (i, d) (m_items (part h true m))) as H by (rewrite E; left; reflexivity).
    apply part_in in H as (H1 & H2). exists (i, d). auto.
  - destruct (m_items (part h false m)) as [|(i, d) r] eqn:E; [congruence|]. assert (In (i, d) (m_items (part h false m))) as H by (rewrite E; left; reflexivity).
    apply part_in in H as (H1 & H2). exists (i, d). rewrite H2. auto.
Qed.
Lemma bip_id c k0 k1 k2 l0 l1 l2 T : k0 <> 0 -> l0 <> 0 -> k0 + l0 <> 0 ->
  c * (k2 + l2 - (- k1 + l1) ^ 2 / (k0 + l0)) * T
  = c * (k2 - (- k1) ^ 2 / k0) * T + c * (l2 - l1 ^ 2 / l0) * T + c * ((- k1) ^ 2 / k0 + l1 ^ 2 / l0 - (- k1 + l1) ^ 2 / (k0 + l0)) * T.
Proof. intros. field. auto. Qed.
Lemma bip_sq k0 k1 l0 l1 : 0 < k0 -> 0 < l0 -> 0 <= k1 ^ 2 / k0 + l1 ^ 2 / l0 - (k1 + l1) ^ 2 / (k0 + l0).
Proof.
  intros H1 H2. replace (k1 ^ 2 / k0 + l1 ^ 2 / l0 - (k1 + l1) ^ 2 / (k0 + l0)) with ((k1 * l0 - l1 * k0) ^ 2 / (k0 * l0 * (k0 + l0))) by (field; repeat split; lra).
  apply div_nonneg; [apply pow2_ge_0|]. apply Rmult_lt_0_compat; [apply Rmult_lt_0_compat; lra|lra].
Qed.
(** total electronic thermal conductivity = conduction part + valence part + bipolar part; the latter is never negative *)
Theorem C65_decomposition :
  forall (h : heap) (m : multi) (EF T c v kc kv : R), fresh h m -> signs_ok h ->
  m_items (part h true m) <> [] -> m_items (part h false m) <> [] ->
  value (method (self_multi h (part h true m)) PC (Some EF) (Some T)) c -> value (method (self_multi h (part h false m)) PC (Some EF) (Some T)) v ->
  value (method (self_multi h (part h true m)) PKe (Some EF) (Some T)) kc -> value (method (self_multi h (part h false m)) PKe (Some EF) (Some T)) kv ->
  0 < c -> 0 < v -> 0 <= T ->
  exists kb, Kbip h m (Some EF) (Some T) = Ok kb /\ 0 <= kb /\ value (method (self_multi h m) PKe (Some EF) (Some T)) (kc + kv + kb).
Proof.
  intros h m EF T c v kc kv Hf Hs Nc Nv. unfold value. cbn [method].
  rewrite !(fun n => fresh_K h m n EF T Hf Hs), !(fun b n => fresh_K h (part h b m) n EF T (fresh_part h b m Hf) Hs).
  unfold fetch_T. cbn [self_multi o_cache part m_cache]. rewrite (proj1 Hf). cbn [num rbind]. unfold Kbip. rewrite (bip_fresh h m EF T Hf). cbn [rbind].
  rewrite (both_kinds h m (conj Nc Nv)). unfold fetch_T. cbn [self_multi o_cache]. rewrite (proj1 Hf). cbn [num rbind].
  set (k0 := Sum (part h true m) (fun i d => K_of h 0 i (seen h EF i d) T)). set (k1 := Sum (part h true m) (fun i d => K_of h 1 i (seen h EF i d) T)). set (k2 := Sum (part h true m) (fun i d => K_of h 2 i (seen h EF i d) T)).
  set (l0 := Sum (part h false m) (fun i d => K_of h 0 i (seen h EF i d) T)). set (l1 := Sum (part h false m) (fun i d => K_of h 1 i (seen h EF i d) T)). set (l2 := Sum (part h false m) (fun i d => K_of h 2 i (seen h EF i d) T)).
  assert (C0 : Sum (part h true m) (fun i d => b_sign (h i) ^ 0 * K_of h 0 i (seen h EF i d) T) = k0) by (apply Sum_ext; intros; cbn [pow]; lra).
  assert (C2 : Sum (part h true m) (fun i d => b_sign (h i) ^ 2 * K_of h 2 i (seen h EF i d) T) = k2).
  { apply Sum_ext; intros i d Hin; apply part_in in Hin as (_ & Hc). rewrite (sign_c h i d Hs Hc). cbn [pow]; lra. }
  assert (C1 : Sum (part h true m) (fun i d => b_sign (h i) ^ 1 * K_of h 1 i (seen h EF i d) T) = - k1).
  { transitivity (Sum (part h true m) (fun i d => -1 * K_of h 1 i (seen h EF i d) T)).
    - apply Sum_ext; intros i d Hin; apply part_in in Hin as (_ & Hc). rewrite (sign_c h i d Hs Hc). cbn [pow]; lra.
    - unfold Sum, k1. rewrite (sumR_scal (-1) (fun id => K_of h 1 (fst id) (seen h EF (fst id) (snd id)) T)). unfold Sum. lra. }
  assert (V0 : Sum (part h false m) (fun i d => b_sign (h i) ^ 0 * K_of h 0 i (seen h EF i d) T) = l0) by (apply Sum_ext; intros; cbn [pow]; lra).
  assert (V1 : Sum (part h false m) (fun i d => b_sign (h i) ^ 1 * K_of h 1 i (seen h EF i d) T) = l1).
  { apply Sum_ext; intros i d Hin; apply part_in in Hin as (_ & Hc). rewrite (sign_v h i d Hs Hc). cbn [pow]; lra. }
  assert (V2 : Sum (part h false m) (fun i d => b_sign (h i) ^ 2 * K_of h 2 i (seen h EF i d) T) = l2).
  { apply Sum_ext; intros i d Hin; apply part_in in Hin as (_ & Hc). rewrite (sign_v h i d Hs Hc). cbn [pow]; lra. }
  rewrite !(Sum_split h m), C0, C1, C2, V0, V1, V2. clearbody k0 k1 k2 l0 l1 l2. clear C0 C1 C2 V0 V1 V2.
  intros Ec Ev Ekc Ekv Hc Hv HT. assert (Hk0 : k0 = c) by congruence. assert (Hl0 : l0 = v) by congruence. subst c v. clear Ec Ev.
  eexists. split; [reflexivity|]. split.
  - apply Rmult_le_pos; [|exact HT]. apply Rmult_le_pos; [unfold kB; lra|]. apply bip_sq; assumption.
  - do 2 f_equal. rewrite bip_id by lra. assert (X : forall a b : R, Ok (Some a) = Ok (Some b) -> a = b) by (intros; congruence). apply X in Ekc. apply X in Ekv. rewrite <- Ekc, <- Ekv. reflexivity.
Qed.
Print Assumptions C65_decomposition.
Theorem C65_one_kind :
  forall (h : heap) (m : multi) (EF T : R), fresh h m -> (m_items (part h true m) = [] \/ m_items (part h false m) = []) ->
  Kbip h m (Some EF) (Some T) = Ok 0.
Proof.
  intros h m EF T Hf Hn. unfold Kbip. rewrite (bip_fresh h m EF T Hf). cbn [rbind].
  assert (E : (existsb (is_c h) (m_items m) && existsb (fun id => negb (is_c h id)) (m_items m))%bool = false).
  { destruct (_ && _)%bool eqn:E; [exfalso|reflexivity]. apply andb_true_iff in E as (A & B). apply existsb_exists in A as ((i, d) & A1 & A2). apply existsb_exists in B as ((j, e) & B1 & B2). apply Bool.negb_true_iff in B2.
    assert (In (i, d) (m_items (part h true m))) by (apply part_in; auto). assert (In (j, e) (m_items (part h false m))) by (apply part_in; auto). destruct Hn as [Hn|Hn]; rewrite Hn in *; contradiction. }
  rewrite E. reflexivity.
Qed.
Print Assumptions C65_one_kind.
Lemma is_c_ext g h i d : b_sign (g i) = b_sign (h i) -> is_c g (i, d) = is_c h (i, d).
Proof. intros E. unfold is_c. cbn [fst]. rewrite E. reflexivity. Qed.
Lemma filter_ext_in' {A} (f g : A -> bool) l : (forall x, In x l -> f x = g x) -> filter f l = filter g l.
Proof. induction l as [|x l IH]; intros H; cbn [filter]; [reflexivity|]. rewrite (H x) by (left; reflexivity). rewrite IH by (intros; apply H; right; assumption). reflexivity. Qed.
Lemma existsb_ext_in {A} (f g : A -> bool) l : (forall x, In x l -> f x = g x) -> existsb f l = existsb g l.
Proof. induction l as [|x l IH]; intros H; cbn [existsb]; [reflexivity|]. rewrite (H x) by (left; reflexivity). rewrite IH by (intros; apply H; right; assumption). reflexivity. Qed.
(** Kbip() after compiling is Kbip(EF, T) uncompiled *)
Theorem C65_compile_transparent :
  forall (h : heap) (m : multi) (EF T : R) (nlev : nat) (a : option R),
  NoDup (map fst (m_items m)) -> all_hall h m -> signs_ok h -> (2 <= nlev)%nat ->
  exists g m', compile_multi h m EF T nlev = (g, Ok m') /\
  Kbip g m' None a = Kbip (fst (clear_multi h m)) (snd (clear_multi h m)) (Some EF) (Some T).
Proof.
  intros h m EF T nlev a ND Hall Hs Hl. eexists. eexists. split; [apply compile_multi_ok; exact Hall|].
  set (g := compile_items (m_items m) h EF T nlev). set (u := fst (clear_multi h m)).
  assert (Hu : forall i d, In (i, d) (m_items m) -> u i = clear_band (h i)) by (intros i d Hin; apply (clear_at h m i d Hin)).
  assert (Hg : forall i d, In (i, d) (m_items m) -> g i = compile_band (h i) (-1 * b_sign (h i) * (EF - d)) T nlev).
  { intros i d Hin. unfold g. rewrite (g_at h m EF T nlev i d Hin), (ld_nodup m i d ND Hin). reflexivity. }
  unfold Kbip. cbn [snd clear_multi m_items].
  assert (Fu : fresh u m -> True) by auto. clear Fu.
  rewrite (bip_gen u m (Some EF) (Some T) (fun i d => K_of h 0 i (seen h EF i d) T) (fun i d => K_of h 1 i (seen h EF i d) T)).
  2:{ intros i d Hin e. unfold e. rewrite (Hu i d Hin). split; reflexivity. }
  rewrite (bip_gen g m None a (fun i d => K_of h 0 i (seen h EF i d) T) (fun i d => K_of h 1 i (seen h EF i d) T)).
  2:{ intros i d Hin e. unfold e. rewrite (Hg i d Hin), !compiled_K by lia. rewrite seen_reduced by exact Hs. split; reflexivity. }
  cbn [rbind].
  assert (P : forall c, part g c m = part u c m).
  { intros c. unfold part. f_equal. apply filter_ext_in'. intros (i, d) Hin. f_equal. apply is_c_ext. rewrite (Hg i d Hin), (Hu i d Hin). reflexivity. }
  rewrite !P. rewrite (existsb_ext_in (is_c g) (is_c u)), (existsb_ext_in (fun id => negb (is_c g id)) (fun id => negb (is_c u id))).
  - reflexivity.
  - intros (i, d) Hin. f_equal. apply is_c_ext. rewrite (Hg i d Hin), (Hu i d Hin). reflexivity.
  - intros (i, d) Hin. apply is_c_ext. rewrite (Hg i d Hin), (Hu i d Hin). reflexivity.
Qed.
Print Assumptions C65_compile_transparent.

(** ** C63: positivity *)
Lemma cs_bands {A} (l : list A) (s k0 k1 k2 : A -> R) :
  (forall x, In x l -> (s x = 1 \/ s x = -1) /\ 0 <= k0 x /\ 0 <= k2 x /\ k1 x ^ 2 <= k0 x * k2 x) ->
  sumR (map (fun x => s x * k1 x) l) ^ 2 <= sumR (map k0 l) * sumR (map k2 l).
Proof.
  intros H. set (f := fun x => sqrt (k0 x)). set (g := fun x => sqrt (k2 x)).
  pose proof (cs2 f g l) as CS.
  rewrite (sumR_ext (fun x => f x ^ 2) k0) in CS by (intros x Hx; unfold f; apply pow2_sqrt; apply H; exact Hx).
  rewrite (sumR_ext (fun x => g x ^ 2) k2) in CS by (intros x Hx; unfold g; apply pow2_sqrt; apply H; exact Hx).
  refine (Rle_trans _ _ _ _ CS).
  assert (B : forall x, In x l -> - (f x * g x) <= s x * k1 x <= f x * g x).
  { intros x Hx. destruct (H x Hx) as (Hs & A0 & A2 & A1). unfold f, g. rewrite <- sqrt_mult by assumption.
    assert (AB : Rabs (s x * k1 x) <= sqrt (k0 x * k2 x)).
    { rewrite <- sqrt_Rsqr_abs. apply sqrt_le_1_alt. unfold Rsqr. destruct Hs as [-> | ->]; cbn [pow] in A1; lra. }
    apply Rabs_le_between in AB || (unfold Rabs in AB; destruct (Rcase_abs _) in AB; lra); lra. }
  assert (U : sumR (map (fun x => s x * k1 x) l) <= sumR (map (fun x => f x * g x) l)) by (apply sumR_le; intros x Hx; apply B; exact Hx).
  assert (L : - sumR (map (fun x => f x * g x) l) <= sumR (map (fun x => s x * k1 x) l)).
  { replace (- sumR (map (fun x => f x * g x) l)) with (-1 * sumR (map (fun x => f x * g x) l)) by ring. rewrite <- sumR_scal. apply sumR_le. intros x Hx. destruct (B x Hx). lra. }
  set (a := sumR (map (fun x => s x * k1 x) l)) in *. set (b := sumR (map (fun x => f x * g x) l)) in *. clearbody a b.
  assert (0 <= (b - a) * (b + a)) by (apply Rmult_le_pos; lra). lra.
Qed.
(** every band has a transport function that is positive above its edge *)
Definition positive_bands (h : heap) (m : multi) (T : R) : Prop :=
  forall i d, In (i, d) (m_items m) -> exists idos trs hall, b_raw (h i) = spectral idos trs hall /\ forall E, 0 < E -> 0 < trs E T.
Lemma three_pos k0 k1 k2 : 0 < k0 -> k1 ^ 2 <= k0 * k2 -> 0 <= k2 - k1 ^ 2 / k0 /\ 0 <= k2 / k0 - (k1 / k0) ^ 2.
Proof.
  intros H0 H. assert (A : 0 <= k2 - k1 ^ 2 / k0).
  { replace (k2 - k1 ^ 2 / k0) with ((k0 * k2 - k1 ^ 2) / k0) by (field; lra). apply div_nonneg; lra. }
  split; [exact A|]. replace (k2 / k0 - (k1 / k0) ^ 2) with ((k2 - k1 ^ 2 / k0) / k0) by (field; lra). apply div_nonneg; assumption.
Qed.
Theorem C63_positive :
  forall (h : heap) (m : multi) (EF T : R), fresh h m -> signs_ok h -> positive_bands h m T -> m_items m <> [] -> 0 < T ->
  exists c cl l ke, value (method (self_multi h m) PC (Some EF) (Some T)) c /\ value (method (self_multi h m) PCL (Some EF) (Some T)) cl
    /\ value (method (self_multi h m) PL (Some EF) (Some T)) l /\ value (method (self_multi h m) PKe (Some EF) (Some T)) ke
    /\ 0 < c /\ 0 <= cl /\ 0 <= l /\ 0 <= ke.
Proof.
  intros h m EF T Hf Hs Hp Hn HT. unfold value. cbn [method]. rewrite !(fun n => fresh_K h m n EF T Hf Hs).
  unfold fetch_T. cbn [self_multi o_cache]. rewrite (proj1 Hf). cbn [num rbind].
  do 4 eexists. split; [reflexivity|]. split; [reflexivity|]. split; [reflexivity|]. split; [reflexivity|].
  assert (E : forall i d, In (i, d) (m_items m) -> 0 < K_of h 0 i (seen h EF i d) T /\ 0 <= K_of h 2 i (seen h EF i d) T /\ K_of h 1 i (seen h EF i d) T ^ 2 <= K_of h 0 i (seen h EF i d) T * K_of h 2 i (seen h EF i d) T).
  { intros i d Hin. destruct (Hp i d Hin) as (idos & trs & hall & Hr & Ht). unfold K_of. rewrite Hr. cbn [spectral r_K].
    destruct (C58_positive trs (seen h EF i d) T HT) as (A & B). destruct A as (A0 & A2 & A1); [intros; apply Rlt_le, Ht; assumption|]. split; [apply B; exact Ht|]. split; [exact A2|exact A1]. }
  assert (K0 : 0 < Sum m (fun i d => b_sign (h i) ^ 0 * K_of h 0 i (seen h EF i d) T)).
  { unfold Sum. destruct (m_items m) as [|(i, d) r]; [congruence|]. cbn [map sumR fst snd pow].
    destruct (E i d (or_introl eq_refl)) as (P & _). assert (0 <= sumR (map (fun id : nat * R => 1 * K_of h 0 (fst id) (seen h EF (fst id) (snd id)) T) r)); [|lra].
    apply sumR_nonneg. apply Forall_forall. intros x Hx. apply in_map_iff in Hx as ((j, e) & <- & Hj). destruct (E j e (or_intror Hj)) as (Q & _). cbn [fst snd]. lra. }
  assert (CS : Sum m (fun i d => b_sign (h i) ^ 1 * K_of h 1 i (seen h EF i d) T) ^ 2
               <= Sum m (fun i d => b_sign (h i) ^ 0 * K_of h 0 i (seen h EF i d) T) * Sum m (fun i d => b_sign (h i) ^ 2 * K_of h 2 i (seen h EF i d) T)).
  { unfold Sum. rewrite (sumR_ext (fun id => b_sign (h (fst id)) ^ 1 * K_of h 1 (fst id) (seen h EF (fst id) (snd id)) T) (fun id => b_sign (h (fst id)) * K_of h 1 (fst id) (seen h EF (fst id) (snd id)) T)) by (intros; cbn [pow]; ring).
    apply (cs_bands (m_items m) (fun id => b_sign (h (fst id)))). intros (i, d) Hin. cbn [fst snd]. destruct (E i d Hin) as (P0 & P2 & P1).
    split; [apply Hs|]. assert (b_sign (h i) ^ 2 = 1) as S2 by (destruct (Hs i) as [-> | ->]; lra). rewrite S2. cbn [pow] in *. rewrite !Rmult_1_l in *. split; [lra|]. split; [lra|]. exact P1. }
  destruct (three_pos _ _ _ K0 CS) as (Q1 & Q2). split; [exact K0|].
  assert (KB : 0 <= 1e2 * kB * kB) by (unfold kB; lra). assert (LB : 0 <= L0) by (unfold L0; lra).
  split; [apply Rmult_le_pos; assumption|]. split; [apply Rmult_le_pos; assumption|]. apply Rmult_le_pos; [apply Rmult_le_pos; assumption|lra].
Qed.
Print Assumptions C63_positive.
Theorem C63_single :
  forall (b : band) (idos trs hall : R -> R -> R) (EF T : R), b_raw b = spectral idos trs hall -> b_cache b = None ->
  (forall E, 0 < E -> 0 < trs E T) -> 0 < T ->
  exists c cl l ke, value (method (self_band b) PC (Some EF) (Some T)) c /\ value (method (self_band b) PCL (Some EF) (Some T)) cl
    /\ value (method (self_band b) PL (Some EF) (Some T)) l /\ value (method (self_band b) PKe (Some EF) (Some T)) ke
    /\ 0 < c /\ 0 <= cl /\ 0 <= l /\ 0 <= ke.
Proof.
  intros b idos trs hall EF T Hr Hc Ht HT. unfold value. cbn [method]. unfold fetch_K, fetch_T. cbn [self_band o_cache o_K both]. rewrite Hc, Hr. cbn [both num rbind spectral r_K].
  do 4 eexists. split; [reflexivity|]. split; [reflexivity|]. split; [reflexivity|]. split; [reflexivity|].
  destruct (C58_positive trs EF T HT) as (A & B). destruct A as (A0 & A2 & A1); [intros; apply Rlt_le, Ht; assumption|]. specialize (B Ht).
  destruct (three_pos _ _ _ B A1) as (Q1 & Q2). split; [exact B|].
  assert (KB : 0 <= 1e2 * kB * kB) by (unfold kB; lra). assert (LB : 0 <= L0) by (unfold L0; lra).
  split; [apply Rmult_le_pos; assumption|]. split; [apply Rmult_le_pos; assumption|]. apply Rmult_le_pos; [apply Rmult_le_pos; assumption|lra].
Qed.
Print Assumptions C63_single.
