(** C128, C129: the GPR interpolation with the built-in kernels is well posed (src/teflow/mathext.py:271-329, 402-496, 574-575). *)
From Coq Require Import Reals String Ascii Lra.
From Verif Require Import Py PyStr RUtil InterpModel FuncModel FuncProps GprModel GprSpec GprProofs GprProps CliSpec CliModel CliProps GposModel GposSpec GposProofs.
Local Open Scope list_scope.
Local Open Scope R_scope.

(** The names of the built-in kernels, in any case, and what they stand for. *)
Inductive builtin (name : str) : (R -> R -> R -> R) -> Prop :=
| b_rbf : folded name = S_ "rbf" -> builtin name gaussian
| b_dfx : folded name = S_ "dfx" -> builtin name fermi_window.

Lemma kernel_builtin name k : builtin name k -> exists K, kernel_of name = Ok K /\ (forall u v s, s <> 0 -> K false u v s = k u v s) /\
  (forall u v s, s <> 0 -> derivable_pt_lim (fun t => k t v s) u (K true u v s)).
Proof.
  intros [E|E]; rewrite folded_lower in E; unfold kernel_of; change GposModel.lower with CliModel.lower; rewrite E.
  - exists kernel_rbf. split; [reflexivity|]. assert (X : forall u v s, s <> 0 -> kernel_rbf false u v s = gaussian u v s) by (intros u v s Hs; destruct (C16_kernels u v s Hs) as (_ & _ & _ & H & _); exact H).
    split; [exact X|]. intros u v s Hs. destruct (C16_gradients u v s Hs) as (H & _). apply derivable_pt_lim_ext with (2 := H). intros t. apply X, Hs.
  - exists kernel_dfx. split; [reflexivity|]. assert (X : forall u v s, s <> 0 -> kernel_dfx false u v s = fermi_window u v s) by (intros u v s Hs; destruct (C16_kernels u v s Hs) as (_ & _ & _ & _ & H); exact H).
    split; [exact X|]. intros u v s Hs. destruct (C16_gradients u v s Hs) as (_ & H). apply derivable_pt_lim_ext with (2 := H). intros t. apply X, Hs.
Qed.
Lemma kernel_unknown name : folded name <> S_ "rbf" -> folded name <> S_ "dfx" -> kernel_of name = Err ValueError.
Proof.
  rewrite folded_lower. change CliModel.lower with GposModel.lower. intros A B. unfold kernel_of. cbv zeta. destruct (eqb (List.map GposModel.lower name) (S_ "rbf")) eqn:E; [apply eqb_eq in E; contradiction|]. destruct (eqb (List.map GposModel.lower name) (S_ "dfx")) eqn:E2; [apply eqb_eq in E2; contradiction|]. reflexivity.
Qed.
Lemma distinct_nth (l : list R) i j : NoDup l -> (i < List.length l)%nat -> (j < List.length l)%nat -> i <> j -> nth i l 0 <> nth j l 0.
Proof. intros H Hi Hj N E. apply N. apply (proj1 (NoDup_nth l 0) H i j Hi Hj E). Qed.
Lemma builtin_pd name k n (x y : nat -> R) sx sy : builtin name k -> sx <> 0 -> sy <> 0 ->
  (forall i j, (i < n)%nat -> (j < n)%nat -> i <> j -> x i <> x j \/ y i <> y j) -> positive_definite n (fun i j => k (x j) (x i) sx * k (y j) (y i) sy).
Proof. intros [E|E] Hx Hy D; [apply gauss_pd|apply window_pd]; assumption. Qed.
Lemma builtin_self name k u s : builtin name k -> s <> 0 -> k u u s = 1.
Proof. intros [E|E] H; [apply gauss_self|apply window_self]; exact H. Qed.
Lemma builtin_psd name k n (x : nat -> R) s w : builtin name k -> s <> 0 -> 0 <= form n (fun i j => k (x j) (x i) s) w.
Proof. intros [E|E] H; [apply gauss_psd|apply window_psd]; exact H. Qed.
Lemma builtin_pd1 name k n (x : nat -> R) s : builtin name k -> s <> 0 -> (forall i j, (i < n)%nat -> (j < n)%nat -> i <> j -> x i <> x j) -> positive_definite n (fun i j => k (x j) (x i) s).
Proof.
  intros B Hs D. apply (pd_ext n (fun i j => k (x j) (x i) s * k 0 0 1)).
  - intros i j _ _. rewrite (builtin_self _ _ 0 1 B) by lra. ring.
  - apply (builtin_pd name k n x (fun _ => 0) s 1 B Hs); [lra|]. intros i j Hi Hj N. left. apply D; assumption.
Qed.
Lemma builtin_sym name k u v s : builtin name k -> s <> 0 -> k u v s = k v u s.
Proof.
  intros B Hs. destruct B as [E|E]; destruct (C16_kernels u v s Hs) as (_ & (A1 & A2) & _ & F1 & F2); destruct (C16_kernels v u s Hs) as (_ & _ & _ & G1 & G2).
  - unfold gaussian. rewrite <- F1, <- G1. exact A1.
  - unfold fermi_window. rewrite <- F2, <- G2. exact A2.
Qed.
(** a positive definite system: coefficients and predictions *)
Lemma system lsolve n (A : mat) (y : nat -> R) : pos_solver lsolve -> positive_definite n A ->
  exists c, (forall i, (i < n)%nat -> sumn n (fun j => A i j * c j) = y i) /\ (forall c', (forall i, (i < n)%nat -> sumn n (fun j => A i j * c' j) = y i) -> forall i, (i < n)%nat -> c' i = c i) /\
  (forall m B, exists W, lsolve n A m B = Ok W /\ forall p, (p < m)%nat -> sumn n (fun i => y i * W i p) = sumn n (fun i => c i * B i p)).
Proof.
  intros (Hex & Hs) PD. destruct (Hs n A 1%nat (fun i _ => y i) PD) as (C & EC). assert (SC := Hex _ _ _ _ _ EC). exists (fun i => C i 0%nat).
  assert (E : forall i, (i < n)%nat -> sumn n (fun j => A i j * C j 0%nat) = y i) by (intros i Hi; apply (SC i 0%nat Hi); lia).
  split; [exact E|]. split.
  - intros c' H i Hi. assert (Z : c' i - C i 0%nat = 0); [|lra]. apply (pd_regular n A PD (fun i => c' i - C i 0%nat)); [|exact Hi]. intros k Hk.
    rewrite (sumn_ext n _ (fun j => A k j * c' j - A k j * C j 0%nat)) by (intros; ring). rewrite sumn_minus, (H k Hk), (E k Hk). ring.
  - intros m B. destruct (Hs n A m B PD) as (W & EW). exists W. split; [exact EW|]. intros p Hp. apply (dual n A m B W y _ p (proj1 PD) (Hex _ _ _ _ _ EW) Hp E).
Qed.
Lemma map_seq_nth (F : R -> R) (l : list R) : List.map (fun p => F (nth p l 0)) (seq 0 (List.length l)) = List.map F l.
Proof.
  apply nth_ext with (d := 0) (d' := 0); [rewrite !map_length, seq_length; reflexivity|]. intros p Hp. rewrite !map_length, seq_length in Hp.
  rewrite (nth_map_seq (fun p => F (nth p l 0))) by exact Hp. rewrite (nth_indep (List.map F l) 0 (F 0)) by (rewrite map_length; exact Hp). rewrite map_nth. reflexivity.
Qed.
Lemma derivable_sum n (f : nat -> R -> R) (d : nat -> R) (c : nat -> R) t : (forall i, (i < n)%nat -> derivable_pt_lim (f i) t (d i)) ->
  derivable_pt_lim (fun t => sumn n (fun i => c i * f i t)) t (sumn n (fun i => c i * d i)).
Proof.
  induction n as [|n IH]; intros H; [apply (derivable_pt_lim_const 0)|]. rewrite sumn_S. apply derivable_pt_lim_ext with (f := fun t => sumn n (fun i => c i * f i t) + c n * f n t); [intros; rewrite sumn_S; reflexivity|].
  apply (derivable_pt_lim_plus (fun t => sumn n (fun i => c i * f i t)) (fun t => c n * f n t)); [apply IH; intros; apply H; lia|]. apply derivable_pt_lim_scal, H. lia.
Qed.
(** what one solve returns *)
Lemma raw_predict lsolve (K0 K : kern) k x y xp s r A c : s <> 0 ->
  add_reg (List.length x) (fun i j => K0 (nth j x 0) (nth i x 0) s) r = Ok A ->
  (forall B, exists W, lsolve (List.length x) A (List.length xp) B = Ok W /\ forall p, (p < List.length xp)%nat -> sumn (List.length x) (fun i => nth i y 0 * W i p) = sumn (List.length x) (fun i => c i * B i p)) ->
  (forall u v, K u v s = k u v) ->
  interp_gpr_raw lsolve K0 K x y xp (Sc s) r = Ok (List.map (fun t => sumn (List.length x) (fun i => c i * k t (nth i x 0))) xp).
Proof.
  intros Hs EA HW EK. rewrite raw_sc, EA. cbn [rbind]. destruct (HW (fun i p => K (nth p xp 0) (nth i x 0) s)) as (W & -> & E). cbn [rbind]. f_equal.
  rewrite <- (map_seq_nth (fun t => sumn (List.length x) (fun i => c i * k t (nth i x 0)))). apply map_ext_in. intros p Hp. apply in_seq in Hp. rewrite E by lia. apply sumn_ext. intros i _. rewrite EK. reflexivity.
Qed.

(** ** C128 interp_gpr *)
Theorem C128_prediction : forall lsolve name k x y s r rho, let n := List.length x in
  pos_solver lsolve -> builtin name k -> s <> 0 -> List.length y = n -> per_point n r rho ->
  (NoDup x /\ (forall i, (i < n)%nat -> 0 <= rho i)) \/ (forall i, (i < n)%nat -> 0 < rho i) ->
  exists c : nat -> R, let f t := sumn n (fun i => c i * k t (nth i x 0) s) in
    (forall i, (i < n)%nat -> f (nth i x 0) = nth i y 0 - rho i * c i) /\
    (forall c' : nat -> R, (forall i, (i < n)%nat -> sumn n (fun j => c' j * k (nth i x 0) (nth j x 0) s) = nth i y 0 - rho i * c' i) -> forall i, (i < n)%nat -> c' i = c i) /\
    (forall xp, interp_named lsolve name x y xp (Sc s) r false = Ok (List.map f xp)) /\
    (forall xp, exists ds, interp_named lsolve name x y xp (Sc s) r true = Ok ds /\ List.length ds = List.length xp /\
       forall p, (p < List.length xp)%nat -> derivable_pt_lim f (nth p xp 0) (nth p ds 0)).
Proof.
  intros lsolve name k x y s r rho n HL B Hs _ PP HR. destruct (kernel_builtin name k B) as (K & EK & KV & KD).
  assert (Ed : exists d, diag_reg n r = Ok (RMat d) /\ forall i j, (i < n)%nat -> d i j = if (i =? j)%nat then rho i else 0).
  { destruct PP as [v|l Hl|v]; cbn [diag_reg]; [eexists; split; reflexivity|rewrite Hl, Nat.eqb_refl; eexists; split; reflexivity|].
    cbn [List.length]. destruct (Nat.eqb_spec 1 n) as [E|E]; [|eexists; split; reflexivity]. eexists; split; [reflexivity|]. intros i j Hi. cbv beta. assert (i = 0)%nat by lia. subst i. reflexivity. }
  destruct Ed as (d & Ed & Hd). set (A := fun i j => K false (nth j x 0) (nth i x 0) s + d i j).
  assert (EA : add_reg n (fun i j => K false (nth j x 0) (nth i x 0) s) (RMat d) = Ok A) by reflexivity.
  assert (PD : positive_definite n A).
  { apply (pd_ext n (fun i j => k (nth j x 0) (nth i x 0) s + (if (i =? j)%nat then rho i else 0))); [intros i j Hi Hj; unfold A; rewrite (KV _ _ s Hs), Hd by assumption; reflexivity|].
    destruct HR as [(ND & R0)|R0].
    - apply pd_plus; [apply (builtin_pd1 name k n (fun i => nth i x 0) s B Hs); intros i j Hi Hj N; apply distinct_nth; assumption|apply diag_sym|].
      intros w. rewrite form_diag. apply sumn_pos. intros i Hi. apply Rmult_le_pos; [apply R0, Hi|apply Rle_0_sqr].
    - split; [intros i j Hi Hj; rewrite (builtin_sym _ _ (nth i x 0) (nth j x 0) s B Hs), (diag_sym n rho i j Hi Hj); reflexivity|]. intros w (m & Hm & Nw). rewrite form_plus, form_diag. assert (P := builtin_psd name k n (fun i => nth i x 0) s w B Hs).
      assert (Q : rho m * (w m * w m) <= sumn n (fun i => rho i * (w i * w i))) by (apply (sumn_one n (fun i => rho i * (w i * w i))); [intros i Hi; apply Rmult_le_pos; [apply Rlt_le, R0, Hi|apply Rle_0_sqr]|exact Hm]).
      assert (0 < rho m * (w m * w m)) by (apply Rmult_lt_0_compat; [apply R0, Hm|apply Rsqr_pos_lt, Nw]). lra. }
  destruct (system lsolve n A (fun i => nth i y 0) HL PD) as (c & Ec & Uc & Pc). exists c. intros f.
  assert (Row : forall c' i, (i < n)%nat -> sumn n (fun j => A i j * c' j) = sumn n (fun j => c' j * k (nth i x 0) (nth j x 0) s) + rho i * c' i).
  { intros c' i Hi. rewrite (sumn_ext n _ (fun j => c' j * k (nth i x 0) (nth j x 0) s + (if (i =? j)%nat then rho i * c' i else 0))).
    - rewrite sumn_plus. f_equal. rewrite (sumn_single n _ i Hi); [rewrite Nat.eqb_refl; reflexivity|]. intros j _ N. destruct (Nat.eqb_spec i j); [congruence|reflexivity].
    - intros j Hj. unfold A. rewrite (KV _ _ s Hs), Hd by exact Hi. rewrite (builtin_sym _ _ (nth j x 0) (nth i x 0) s B Hs). destruct (Nat.eqb_spec i j) as [->|N]; ring. }
  split; [|split; [|split]].
  - intros i Hi. specialize (Ec i Hi). rewrite (Row c i Hi) in Ec. unfold f. lra.
  - intros c' H. apply Uc. intros i Hi. rewrite (Row c' i Hi), (H i Hi). ring.
  - intros xp. unfold interp_named. fold n. rewrite Ed. cbn [rbind]. rewrite EK. cbn [rbind].
    apply (raw_predict lsolve (K false) (K false) (fun u v => k u v s) x y xp s (RMat d) A c Hs EA); [intros B0; apply Pc|intros u v; apply KV, Hs].
  - intros xp. unfold interp_named. fold n. rewrite Ed. cbn [rbind]. rewrite EK. cbn [rbind].
    rewrite (raw_predict lsolve (K false) (K true) (fun u v => K true u v s) x y xp s (RMat d) A c Hs EA); [|intros B0; apply Pc|reflexivity].
    eexists. split; [reflexivity|]. split; [apply map_length|]. intros p Hp. rewrite (nth_indep (List.map _ xp) 0 (sumn n (fun i => c i * K true 0 (nth i x 0) s))) by (rewrite map_length; exact Hp).
    rewrite (map_nth (fun t => sumn n (fun i => c i * K true t (nth i x 0) s))). apply (derivable_sum n (fun i t => k t (nth i x 0) s) (fun i => K true (nth p xp 0) (nth i x 0) s)). intros i _. apply KD, Hs.
Qed.
Print Assumptions C128_prediction.

(** Without regularisation the data are reproduced. *)
Theorem C128_reproduces : forall lsolve name k x y s r, pos_solver lsolve -> builtin name k -> s <> 0 -> NoDup x -> List.length y = List.length x ->
  r = RSc 0 \/ r = RVec (repeat 0 (List.length x)) -> interp_named lsolve name x y x (Sc s) r false = Ok y.
Proof.
  intros lsolve name k x y s r HL B Hs ND Ly Hr.
  assert (X : exists rho, per_point (List.length x) r rho /\ forall i, (i < List.length x)%nat -> rho i = 0).
  { destruct Hr as [->| ->]; [exists (fun _ => 0); split; [constructor|reflexivity]|]. eexists. split; [apply pp_array, repeat_length|]. intros i Hi. cbv beta. apply nth_repeat. }
  destruct X as (rho & PP & R0). destruct (C128_prediction lsolve name k x y s r rho HL B Hs Ly PP) as (c & E1 & _ & E2 & _); [left; split; [exact ND|intros i Hi; rewrite (R0 i Hi); lra]|].
  rewrite E2. f_equal. apply nth_ext with (d := 0) (d' := 0); [rewrite map_length; symmetry; exact Ly|]. intros i Hi. rewrite map_length in Hi.
  pose (f := fun t => sumn (List.length x) (fun i => c i * k t (nth i x 0) s)). change (nth i (List.map f x) 0 = nth i y 0). rewrite (nth_indep (List.map f x) 0 (f 0)) by (rewrite map_length; exact Hi). rewrite map_nth. transitivity (nth i y 0 - rho i * c i); [exact (E1 i Hi)|]. rewrite (R0 i Hi). ring.
Qed.
Print Assumptions C128_reproduces.
(** The kernel matrices themselves. *)
Theorem C128_positive_definite : forall name k (x : list R) s, builtin name k -> s <> 0 -> let n := List.length x in
  (NoDup x -> positive_definite n (fun i j => k (nth j x 0) (nth i x 0) s)) /\ (~ NoDup x -> ~ regular_mat n (fun i j => k (nth j x 0) (nth i x 0) s)).
Proof.
  intros name k x s B Hs n. split; [intros ND; apply (builtin_pd1 name k n (fun i => nth i x 0) s B Hs); intros i j Hi Hj N; apply distinct_nth; assumption|].
  intros ND Hr. apply ND. apply (NoDup_nth x 0). intros i j Hi Hj E. destruct (Nat.eq_dec i j) as [Ij|Ij]; [exact Ij|]. exfalso.
  assert (Z : (if (i =? i)%nat then 1 else if (i =? j)%nat then -1 else 0) = 0).
  { apply (Hr (fun m => if (m =? i)%nat then 1 else if (m =? j)%nat then -1 else 0)); [|exact Hi]. intros a Ha.
    rewrite (sumn_ext n _ (fun m => k (nth m x 0) (nth a x 0) s * (if (m =? i)%nat then 1 else 0) - k (nth m x 0) (nth a x 0) s * (if (m =? j)%nat then 1 else 0))).
    - rewrite sumn_minus, !(sumn_delta n (fun m => k (nth m x 0) (nth a x 0) s)) by assumption. rewrite E. ring.
    - intros m _. destruct (Nat.eqb_spec m i) as [->|N]; [destruct (Nat.eqb_spec i j); [contradiction|ring]|]. destruct (Nat.eqb_spec m j); ring. }
  rewrite Nat.eqb_refl in Z. lra.
Qed.
Print Assumptions C128_positive_definite.
(** What is refused. *)
Theorem C128_refused : forall lsolve logdet name (x y xp : list R) s r g zs px py sx sy,
  (folded name <> S_ "rbf" -> folded name <> S_ "dfx" ->
     (forall v, interp_named lsolve name x y xp s (RSc v) g = Err ValueError) /\ vect_named lsolve name x y xp s r g = Err ValueError /\
     mapping_named lsolve logdet name x y zs px py sx sy r = Err ValueError) /\
  (forall l, List.length l <> List.length x -> List.length l <> 1%nat -> interp_named lsolve name x y xp s (RVec l) g = Err ValueError).
Proof.
  intros. split.
  - intros N1 N2. unfold interp_named, vect_named, mapping_named. rewrite (kernel_unknown name N1 N2). repeat split.
  - intros l L1 L2. unfold interp_named. cbn [diag_reg]. destruct (Nat.eqb_spec (List.length l) (List.length x)); [contradiction|]. destruct (Nat.eqb_spec (List.length l) 1); [contradiction|]. reflexivity.
Qed.
Print Assumptions C128_refused.

(** ** C129 vinterp and mapping add the regularisation to every entry *)
Lemma everywhere_row n (A : nat -> nat -> R) (c : nat -> R) r i : sumn n (fun j => (A i j + r) * c j) = sumn n (fun j => c j * A i j) + r * sumn n c.
Proof. rewrite <- sumn_scal, <- sumn_plus. apply sumn_ext. intros j _. ring. Qed.
Lemma everywhere_pd n A r : positive_definite n A -> 0 <= r -> positive_definite n (fun i j => A i j + r).
Proof. intros P Hr. apply (pd_plus n A (fun _ _ => r) P); [intros i j _ _; reflexivity|]. intros w. rewrite form_const. apply Rmult_le_pos; [exact Hr|apply Rle_0_sqr]. Qed.
Theorem C129_vinterp : forall lsolve name k x y s r, let n := List.length x in
  pos_solver lsolve -> builtin name k -> s <> 0 -> List.length y = n -> NoDup x -> 0 <= r ->
  exists (c : nat -> R), let f t := sumn n (fun i => c i * k t (nth i x 0) s) in
    (forall i, (i < n)%nat -> f (nth i x 0) = nth i y 0 - r * sumn n c) /\
    (forall c' : nat -> R, (forall i, (i < n)%nat -> sumn n (fun j => c' j * k (nth i x 0) (nth j x 0) s) = nth i y 0 - r * sumn n c') -> forall i, (i < n)%nat -> c' i = c i) /\
    (forall xp, vect_named lsolve name x y xp (Sc s) (RSc r) false = Ok (List.map f xp)) /\
    (forall xp, exists ds, vect_named lsolve name x y xp (Sc s) (RSc r) true = Ok ds /\ List.length ds = List.length xp /\
       forall p, (p < List.length xp)%nat -> derivable_pt_lim f (nth p xp 0) (nth p ds 0)).
Proof.
  intros lsolve name k x y s r n HL B Hs _ ND Hr. destruct (kernel_builtin name k B) as (K & EK & KV & KD). set (A := fun i j => K false (nth j x 0) (nth i x 0) s + r).
  assert (PD : positive_definite n A).
  { apply (pd_ext n (fun i j => k (nth j x 0) (nth i x 0) s + r)); [intros i j _ _; unfold A; rewrite (KV _ _ s Hs); reflexivity|]. apply everywhere_pd; [|exact Hr].
    apply (builtin_pd1 name k n (fun i => nth i x 0) s B Hs). intros i j Hi Hj N. apply distinct_nth; assumption. }
  destruct (system lsolve n A (fun i => nth i y 0) HL PD) as (c & Ec & Uc & Pc). exists c. intros f.
  assert (Row : forall c' i, sumn n (fun j => A i j * c' j) = sumn n (fun j => c' j * k (nth i x 0) (nth j x 0) s) + r * sumn n c').
  { intros c' i. unfold A. rewrite (everywhere_row n (fun i j => K false (nth j x 0) (nth i x 0) s) c' r i). f_equal. apply sumn_ext. intros j _. rewrite (KV _ _ s Hs), (builtin_sym _ _ (nth j x 0) (nth i x 0) s B Hs). reflexivity. }
  assert (EA : add_reg n (fun i j => K false (nth j x 0) (nth i x 0) s) (RSc r) = Ok A) by reflexivity.
  split; [|split; [|split]].
  - intros i Hi. specialize (Ec i Hi). rewrite (Row c i) in Ec. unfold f. lra.
  - intros c' H. apply Uc. intros i Hi. rewrite (Row c' i), (H i Hi). ring.
  - intros xp. unfold vect_named. rewrite EK. cbn [rbind gpr_vect].
    apply (raw_predict lsolve (K false) (K false) (fun u v => k u v s) x y xp s (RSc r) A c Hs EA); [intros B0; apply Pc|intros u v; apply KV, Hs].
  - intros xp. unfold vect_named. rewrite EK. cbn [rbind gpr_vect].
    rewrite (raw_predict lsolve (K false) (K true) (fun u v => K true u v s) x y xp s (RSc r) A c Hs EA); [|intros B0; apply Pc|reflexivity].
    eexists. split; [reflexivity|]. split; [apply map_length|]. intros p Hp. rewrite (nth_indep (List.map _ xp) 0 (sumn n (fun i => c i * K true 0 (nth i x 0) s))) by (rewrite map_length; exact Hp).
    rewrite (map_nth (fun t => sumn n (fun i => c i * K true t (nth i x 0) s))). apply (derivable_sum n (fun i t => k t (nth i x 0) s) (fun i => K true (nth p xp 0) (nth i x 0) s)). intros i _. apply KD, Hs.
Qed.
Print Assumptions C129_vinterp.
Theorem C129_mapping : forall lsolve logdet name k xs ys zs sx sy r, let n := List.length xs in
  pos_solver lsolve -> builtin name k -> sx <> 0 -> sy <> 0 -> List.length ys = n -> List.length zs = n -> NoDup (combine xs ys) -> 0 <= r ->
  exists (c : nat -> R), let f t u := sumn n (fun i => c i * (k t (nth i xs 0) sx * k u (nth i ys 0) sy)) in
    (forall i, (i < n)%nat -> f (nth i xs 0) (nth i ys 0) = nth i zs 0 - r * sumn n c) /\
    0 <= sumn n (fun i => nth i zs 0 * c i) /\
    (forall px py, List.length px = List.length py ->
       exists A, mapping_named lsolve logdet name xs ys zs px py sx sy (RSc r) =
         Ok (List.map (fun q => f (fst q) (snd q)) (combine px py), - (1 / 2) * sumn n (fun i => nth i zs 0 * c i) - 1 / 2 * logdet n A - INR n / 2 * ln (2 * PI)) /\
       mat_eq n n A (fun i j => k (nth i xs 0) (nth j xs 0) sx * k (nth i ys 0) (nth j ys 0) sy + r)).
Proof.
  intros lsolve logdet name k xs ys zs sx sy r n HL B Hx Hy Ly Lz ND Hr. destruct (kernel_builtin name k B) as (K & EK & KV & _).
  set (A := fun i j => K false (nth j xs 0) (nth i xs 0) sx * K false (nth j ys 0) (nth i ys 0) sy + r).
  assert (EAk : forall i j, A i j = k (nth i xs 0) (nth j xs 0) sx * k (nth i ys 0) (nth j ys 0) sy + r).
  { intros i j. unfold A. rewrite (KV _ _ sx Hx), (KV _ _ sy Hy), (builtin_sym _ _ (nth j xs 0) (nth i xs 0) sx B Hx), (builtin_sym _ _ (nth j ys 0) (nth i ys 0) sy B Hy). reflexivity. }
  assert (PD : positive_definite n A).
  { apply (pd_ext n (fun i j => k (nth j xs 0) (nth i xs 0) sx * k (nth j ys 0) (nth i ys 0) sy + r)); [intros i j _ _; unfold A; rewrite (KV _ _ sx Hx), (KV _ _ sy Hy); reflexivity|]. apply everywhere_pd; [|exact Hr].
    apply (builtin_pd name k n (fun i => nth i xs 0) (fun i => nth i ys 0) sx sy B Hx Hy). intros i j Hi Hj N.
    destruct (Req_EM_T (nth i xs 0) (nth j xs 0)) as [E1|E1]; [|left; exact E1]. destruct (Req_EM_T (nth i ys 0) (nth j ys 0)) as [E2|E2]; [|right; exact E2]. exfalso. apply N.
    assert (Lc : List.length (combine xs ys) = n) by (rewrite combine_length, Ly; apply Nat.min_id). apply (proj1 (NoDup_nth (combine xs ys) (0, 0)) ND i j); try (rewrite Lc; assumption). rewrite !combine_nth by (symmetry; exact Ly). congruence. }
  destruct (system lsolve n A (fun i => nth i zs 0) HL PD) as (c & Ec & Uc & Pc). exists c. intros f.
  split; [|split].
  - intros i Hi. specialize (Ec i Hi). rewrite (sumn_ext n _ (fun j => (k (nth i xs 0) (nth j xs 0) sx * k (nth i ys 0) (nth j ys 0) sy + r) * c j)) in Ec by (intros j _; rewrite EAk; reflexivity).
    rewrite (everywhere_row n (fun i j => k (nth i xs 0) (nth j xs 0) sx * k (nth i ys 0) (nth j ys 0) sy) c r i) in Ec. unfold f. lra.
  - assert (P : 0 <= form n A c).
    { destruct PD as (_ & P). assert (Q : forall m, (forall i, (i < m)%nat -> c i = 0) \/ exists i, (i < m)%nat /\ c i <> 0).
      { induction m as [|m [IH|(i & Hi & Ni)]]; [left; intros; lia| |right; exists i; split; [lia|exact Ni]]. destruct (Req_EM_T (c m) 0) as [E|E]; [left|right; exists m; split; [lia|exact E]]. intros i Hi. destruct (Nat.eq_dec i m) as [->|]; [exact E|apply IH; lia]. }
      destruct (Q n) as [Z|Z]; [|apply Rlt_le, P, Z]. unfold form. rewrite sumn_zero; [lra|]. intros i Hi. apply sumn_zero. intros j _. rewrite (Z i Hi). ring. }
    unfold form in P. erewrite sumn_ext; [exact P|]. intros i Hi. cbv beta. rewrite <- (Ec i Hi), Rmult_comm, <- sumn_scal. apply sumn_ext. intros j _. ring.
  - intros px py Lp. exists A. split; [|intros i j _ _; apply EAk]. unfold mapping_named. rewrite EK. cbn [rbind]. fold n. unfold mapping. fold n. cbn [add_reg rbind]. fold A.
    destruct (Pc (List.length px) (fun i p => K false (nth p px 0) (nth i xs 0) sx * K false (nth p py 0) (nth i ys 0) sy)) as (W & -> & EW). cbn [rbind].
    destruct (Pc 1%nat (fun i _ => nth i zs 0)) as (C & HC & EC). rewrite HC. cbn [rbind]. f_equal. f_equal.
    + apply nth_ext with (d := 0) (d' := 0); [rewrite !map_length, seq_length, combine_length, <- Lp, Nat.min_id; reflexivity|]. intros p Hp. rewrite map_length, seq_length in Hp.
      rewrite (nth_map_seq (fun p => sumn n (fun i => nth i zs 0 * W i p))) by exact Hp. rewrite (EW p Hp).
      rewrite (nth_indep (List.map _ (combine px py)) 0 (f (fst (0, 0)) (snd (0, 0)))) by (rewrite map_length, combine_length, <- Lp, Nat.min_id; exact Hp). rewrite (map_nth (fun q => f (fst q) (snd q))), combine_nth by exact Lp. cbn [fst snd].
      unfold f. apply sumn_ext. intros i _. rewrite (KV _ _ sx Hx), (KV _ _ sy Hy). reflexivity.
    + rewrite (EC 0%nat) by lia. rewrite (sumn_ext n (fun i => c i * nth i zs 0) (fun i => nth i zs 0 * c i)) by (intros; ring). rewrite Lz. field.
Qed.
Print Assumptions C129_mapping.
(** An array of regularisations goes to the columns of the matrix, which then is not symmetric. *)
Theorem C129_array : forall lsolve name k x y xp s l, let n := List.length x in builtin name k -> s <> 0 -> List.length l = n ->
  exists A B, vect_named lsolve name x y xp (Sc s) (RVec l) false =
    rbind (lsolve n A (List.length xp) B) (fun W => Ok (List.map (fun p => sumn n (fun i => nth i y 0 * W i p)) (seq 0 (List.length xp)))) /\
  mat_eq n n A (fun i j => k (nth i x 0) (nth j x 0) s + nth j l 0) /\
  (symmetric n A <-> forall i j, (i < n)%nat -> (j < n)%nat -> nth i l 0 = nth j l 0).
Proof.
  intros lsolve name k x y xp s l n B Hs Ll. destruct (kernel_builtin name k B) as (K & EK & KV & _). set (A := fun i j => K false (nth j x 0) (nth i x 0) s + nth j l 0).
  assert (EA : forall i j, A i j = k (nth i x 0) (nth j x 0) s + nth j l 0) by (intros i j; unfold A; rewrite (KV _ _ s Hs), (builtin_sym _ _ (nth j x 0) (nth i x 0) s B Hs); reflexivity).
  exists A. eexists. split; [unfold vect_named; rewrite EK; cbn [rbind gpr_vect]; rewrite raw_sc; cbn [add_reg]; fold n; rewrite Ll, Nat.eqb_refl; cbn [rbind]; reflexivity|].
  split; [intros i j _ _; apply EA|]. split.
  - intros S i j Hi Hj. assert (E := S i j Hi Hj). rewrite !EA, (builtin_sym _ _ (nth j x 0) (nth i x 0) s B Hs) in E. lra.
  - intros H i j Hi Hj. rewrite !EA, (builtin_sym _ _ (nth j x 0) (nth i x 0) s B Hs), (H i j Hi Hj). reflexivity.
Qed.
Print Assumptions C129_array.
(** one regularisation in an array is the same as the number, any other number of them than the number of points is refused *)
Theorem C129_array_lengths : forall lsolve logdet name k x y xp ys zs px py s sx sy r l, builtin name k -> List.length x <> 1%nat ->
  vect_named lsolve name x y xp (Sc s) (RVec [r]) false = vect_named lsolve name x y xp (Sc s) (RSc r) false /\
  mapping_named lsolve logdet name x ys zs px py sx sy (RVec [r]) = mapping_named lsolve logdet name x ys zs px py sx sy (RSc r) /\
  (List.length l <> List.length x -> List.length l <> 1%nat ->
     vect_named lsolve name x y xp (Sc s) (RVec l) false = Err ValueError /\ mapping_named lsolve logdet name x ys zs px py sx sy (RVec l) = Err ValueError).
Proof.
  intros lsolve logdet name k x y xp ys zs px py s sx sy r l B N1. destruct (kernel_builtin name k B) as (K & EK & _ & _).
  assert (AR : forall A r, add_reg (List.length x) A (RVec [r]) = add_reg (List.length x) A (RSc r)).
  { intros A r'. unfold add_reg. cbn [List.length]. destruct (Nat.eqb_spec 1 (List.length x)) as [E|_]; [exfalso; apply N1; symmetry; exact E|]. reflexivity. }
  split; [|split].
  - unfold vect_named. rewrite EK. cbn [rbind gpr_vect]. rewrite !raw_sc, AR. reflexivity.
  - unfold mapping_named, mapping. rewrite EK. cbn [rbind]. cbv zeta. rewrite !AR. reflexivity.
  - intros L1 L2. assert (AE : forall A, add_reg (List.length x) A (RVec l) = Err ValueError).
    { intros A. unfold add_reg. destruct (Nat.eqb_spec (List.length l) (List.length x)) as [E|_]; [contradiction|]. destruct (Nat.eqb_spec (List.length l) 1) as [E|_]; [contradiction|]. reflexivity. }
    split.
    + unfold vect_named. rewrite EK. cbn [rbind gpr_vect]. rewrite raw_sc, AE. reflexivity.
    + unfold mapping_named, mapping. rewrite EK. cbn [rbind]. cbv zeta. rewrite AE. reflexivity.
Qed.
Print Assumptions C129_array_lengths.
(** The hypotheses can be met: a solver as promised exists, and with it these data are reproduced and extrapolated. *)
Example C128_case : pos_solver eliminate /\ builtin (S_ "RBF") gaussian /\ builtin (S_ "dFx") fermi_window /\
  interp_named eliminate (S_ "Rbf") [300; 400; 350] [1; 3; 2] [300; 400; 350] (Sc 20) (RSc 0) false = Ok [1; 3; 2].
Proof.
  assert (B : builtin (S_ "Rbf") gaussian) by (apply b_rbf; reflexivity). split; [exact eliminate_solver|]. split; [apply b_rbf; reflexivity|]. split; [apply b_dfx; reflexivity|].
  apply (C128_reproduces eliminate (S_ "Rbf") gaussian); [exact eliminate_solver|exact B|lra| |reflexivity|left; reflexivity].
  repeat constructor; cbn; intros H; repeat (destruct H as [H|H]; [lra|]); exact H.
Qed.
(** vinterp with regularisation 1 on two points of value 1: the same wrong value at both *)
Example C129_case : exists v, v <> 1 /\ vect_named eliminate (S_ "rbf") [300; 400] [1; 1] [300; 400] (Sc 20) (RSc 1) false = Ok [v; v].
Proof.
  assert (B : builtin (S_ "rbf") gaussian) by (apply b_rbf; reflexivity).
  destruct (C129_vinterp eliminate (S_ "rbf") gaussian [300; 400] [1; 1] 20 1 eliminate_solver B) as (c & E1 & _ & E2 & _); [lra|reflexivity| |lra|].
  { repeat constructor; cbn; intros H; repeat (destruct H as [H|H]; [lra|]); exact H. }
  assert (A0 := E1 0%nat ltac:(cbn; lia)). assert (A1 := E1 1%nat ltac:(cbn; lia)). rewrite E2. cbn [List.map List.length nth] in *.
  exists (1 - 1 * sumn 2 c). split; [|rewrite A0, A1; reflexivity]. intros E. rewrite E in A0, A1. unfold sumn in *. cbn [seq List.map sumR nth] in *.
  rewrite (gauss_self 300 20) in A0 by lra. rewrite (gauss_self 400 20) in A1 by lra. rewrite (builtin_sym _ _ 400 300 20 B ltac:(lra)) in A1. set (k := gaussian 300 400 20) in *.
  assert (X : c 1%nat = - c 0%nat) by lra. rewrite X in A0, A1. lra.
Qed.
