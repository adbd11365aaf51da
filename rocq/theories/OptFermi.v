(** Lemmas for OptProps: the Fermi integrals of the parabolic band in closed form. *)
From Coq Require Import Reals Lra Lia.
From Coquelicot Require Import Coquelicot.
From Verif Require Import Py RUtil FuncModel RombModel RconvSpec RconvFermi SpbModel OptProofs OptNum.
Local Open Scope R_scope.
(** the Fermi integrals of a linear transport distribution *)
Lemma kB_pos : 0 < kB. Proof. unfold kB. lra. Qed.
Lemma by_primitive (f A g : R -> R) EF T k B : 0 < T ->
  (forall u, is_derive A u (g u)) -> (forall u, continuous g u) ->
  (forall E, f E * ((E - EF) / (kB * T)) ^ k * fermi_window EF T E = g ((E - EF) / (kB * T)) / (kB * T)) ->
  (forall u, 0 <= u -> Rabs (A u) <= B / (1 + u)) -> fermi_integral f EF T k (- A (- (EF / (kB * T)))).
Proof.
  intros HT HA Hg Hf HB. unfold fermi_integral. pose proof kB_pos as PB. assert (PK : 0 < kB * T) by (apply Rmult_lt_0_compat; lra). revert Hf PK. generalize (kB * T). intros q Hf PK.
  set (G := fun E : R => A ((E - EF) / q)).
  assert (DG : forall E, is_derive G E (g ((E - EF) / q) / q)).
  { intros E. unfold G. pose proof (is_derive_comp A (fun E => (E - EF) / q) E (g ((E - EF) / q)) (/ q) (HA _)) as D. unfold scal in D; cbn in D. unfold mult in D; cbn in D.
    replace (g ((E - EF) / q) / q) with (/ q * g ((E - EF) / q)) by (unfold Rdiv; ring). apply D. auto_derive; [exact I|]. field. lra. }
  apply (is_lim_ext (fun M => G M - G 0)).
  - intros M. symmetry. rewrite (RInt_ext _ (fun E => g ((E - EF) / q) / q)) by (intros; apply Hf). apply is_RInt_unique. change (G M - G 0) with (minus (G M) (G 0)). apply (is_RInt_derive G).
    + intros E _. apply DG.
    + intros E _. unfold Rdiv at 1. apply (continuous_mult (fun E => g ((E - EF) * / q)) (fun _ => / q)); [|apply continuous_const].
      apply (continuous_comp (fun E => (E - EF) * / q) g); [|apply Hg]. apply (ex_derive_continuous (fun E => (E - EF) * / q)). auto_derive. exact I.
  - replace (- A (- (EF / q))) with (0 - G 0) by (unfold G; replace ((0 - EF) / q) with (- (EF / q)) by (field; lra); ring).
    apply is_lim_minus'; [|apply is_lim_const]. apply is_lim_spec. intros e. pose proof (cond_pos e) as Pe. exists (q * ((Rabs B + 1) / e) + EF). intros M HM. rewrite Rminus_0_r. unfold G.
    pose proof (Rabs_pos B) as PA. assert (PQ : 0 < (Rabs B + 1) / e) by (apply Rdiv_lt_0_compat; lra).
    assert (U : (Rabs B + 1) / e < (M - EF) / q) by (apply (proj1 (Rlt_div_r _ _ _ PK)); lra). set (u := (M - EF) / q) in *.
    eapply Rle_lt_trans; [apply HB; lra|]. assert (P1 : 0 < 1 + u) by lra. apply (proj2 (Rlt_div_l _ _ _ P1)).
    assert (V : Rabs B + 1 < u * e). { apply (Rmult_lt_compat_r e) in U; [|exact Pe]. unfold Rdiv in U. rewrite Rmult_assoc, Rinv_l, Rmult_1_r in U by lra. exact U. }
    pose proof (Rle_abs B). nra.
Qed.
(** primitives *)
Definition win (u : R) : R := exp u / (1 + exp u) ^ 2.
Lemma win_occ u : win u = occ (- u) * (1 - occ (- u)).
Proof. unfold win, occ. rewrite exp_Ropp. pose proof (exp_pos u). field. split; lra. Qed.
Lemma negd (f : R -> R) u l : is_derive f (- u) l -> is_derive (fun u => f (- u)) u (- l).
Proof.
  intros D. pose proof (is_derive_comp f Ropp u l (-1) D) as C. unfold scal in C; cbn in C. unfold mult in C; cbn in C. replace (- l) with (-1 * l) by ring. apply C. auto_derive; [exact I|ring].
Qed.
Definition A0 (eta u : R) : R := - (u + eta) * occ (- u) - F0 (- u).
Definition A1 (eta u : R) : R := - (u + eta) * u * occ (- u) - (2 * u + eta) * F0 (- u) - 2 * F1 (- u).
Lemma on_D u : Derive (fun u => occ (- u)) u = - (occ (- u) * (1 - occ (- u))). Proof. apply is_derive_unique, negd, occ_derive. Qed.
Lemma on_ex u : ex_derive (fun u => occ (- u)) u. Proof. eexists. apply negd, occ_derive. Qed.
Lemma fn_D u : Derive (fun u => F0 (- u)) u = - occ (- u). Proof. apply is_derive_unique, negd, F0_derive. Qed.
Lemma fn_ex u : ex_derive (fun u => F0 (- u)) u. Proof. eexists. apply negd, F0_derive. Qed.
Lemma gn_D u : Derive (fun u => F1 (- u)) u = - F0 (- u). Proof. apply is_derive_unique, negd, F1_derive. Qed.
Lemma gn_ex u : ex_derive (fun u => F1 (- u)) u. Proof. eexists. apply negd, F1_derive. Qed.
Definition lind (a : R) (f : R -> R) (u : R) : R := (u + a) * f u.
Lemma muld (f g : R -> R) u a b : is_derive f u a -> is_derive g u b -> is_derive (fun u => f u * g u) u (a * g u + f u * b).
Proof. intros A B. apply is_derive_Reals in A. apply is_derive_Reals in B. apply is_derive_Reals. exact (derivable_pt_lim_mult f g u a b A B). Qed.
Lemma A0_derive eta u : is_derive (A0 eta) u ((u + eta) * win u).
Proof.
  unfold A0. replace ((u + eta) * win u) with (((-1) * occ (- u) + (- (u + eta)) * (- (occ (- u) * (1 - occ (- u))))) - (- occ (- u))) by (rewrite win_occ; ring).
  apply (subd (fun u => - (u + eta) * occ (- u)) (fun u => F0 (- u))); [|apply negd, F0_derive]. apply (muld (fun u => - (u + eta)) (fun u => occ (- u))); [auto_derive; [exact I|ring]|apply negd, occ_derive].
Qed.
Lemma A1_derive eta u : is_derive (A1 eta) u ((u + eta) * u * win u).
Proof.
  unfold A1. replace ((u + eta) * u * win u) with ((((- (2 * u + eta)) * occ (- u) + (- (u + eta) * u) * (- (occ (- u) * (1 - occ (- u))))) - (2 * F0 (- u) + (2 * u + eta) * (- occ (- u)))) - 2 * (- F0 (- u))) by (rewrite win_occ; ring).
  apply (subd (fun u => - (u + eta) * u * occ (- u) - (2 * u + eta) * F0 (- u)) (fun u => 2 * F1 (- u))); [|apply scald, negd, F1_derive].
  apply (subd (fun u => - (u + eta) * u * occ (- u)) (fun u => (2 * u + eta) * F0 (- u))).
  - apply (muld (fun u => - (u + eta) * u) (fun u => occ (- u))); [auto_derive; [exact I|ring]|apply negd, occ_derive].
  - apply (muld (fun u => 2 * u + eta) (fun u => F0 (- u))); [auto_derive; [exact I|ring]|apply negd, F0_derive].
Qed.
Lemma occ_le x : occ x <= exp x.
Proof. unfold occ. pose proof (exp_pos x). apply (proj2 (Rle_div_l _ _ _ (expp x))). nra. Qed.
Lemma small_n u : 0 <= u -> 0 < occ (- u) <= exp (- u) /\ 0 < F0 (- u) <= exp (- u) /\ 0 < F1 (- u) <= 2 * exp (- u).
Proof.
  intros H. pose proof (occ_range (- u)). pose proof (occ_le (- u)). pose proof (F0_pos (- u)). pose proof (F0_le (- u)) as L. pose proof (F1_bounds (- u)) as B. pose proof (exp_pos (- u)).
  assert (E1 : exp (- u) <= 1) by (rewrite <- exp_0; destruct H as [H|<-]; [left; apply exp_increasing; lra|rewrite Ropp_0; lra]). repeat split; try lra. nra.
Qed.
Lemma decay : exists K, 0 < K /\ forall u, 0 <= u -> (1 + u) ^ 2 * exp (- u) <= K / (1 + u).
Proof.
  destruct (exp_dominates 3) as (K & PK & H). exists (K * exp 1). split; [apply Rmult_lt_0_compat; [exact PK|apply exp_pos]|]. intros u Hu. specialize (H (1 + u) ltac:(lra)). rewrite exp_plus in H.
  assert (P1 : 0 < 1 + u) by lra. apply (proj1 (Rle_div_r _ _ _ P1)). replace ((1 + u) ^ 2 * exp (- u) * (1 + u)) with ((1 + u) ^ 3 * exp (- u)) by ring.
  assert (E : exp u * exp (- u) = 1) by (rewrite <- exp_plus, <- exp_0; f_equal; ring). replace (K * exp 1) with (K * (exp 1 * exp u) * exp (- u)) by (rewrite !Rmult_assoc, E; ring).
  apply Rmult_le_compat_r; [left; apply exp_pos|exact H].
Qed.
Lemma A0_small eta : exists B, forall u, 0 <= u -> Rabs (A0 eta u) <= B / (1 + u).
Proof.
  destruct decay as (K & PK & D). exists ((2 + Rabs eta) * K). intros u Hu. destruct (small_n u Hu) as (On & Fn & _). specialize (D u Hu). pose proof (exp_pos (- u)) as Pe. pose proof (Rabs_pos eta). pose proof (Rle_abs eta). pose proof (Rle_abs (- eta)) as N. rewrite Rabs_Ropp in N.
  apply Rle_trans with ((2 + Rabs eta) * ((1 + u) ^ 2 * exp (- u))).
  - assert (B1 : Rabs (u + eta) <= u + Rabs eta) by (apply Rabs_le; lra). unfold A0. eapply Rle_trans; [apply Rabs_triang|]. rewrite Rabs_Ropp, Rabs_mult, Rabs_Ropp, (Rabs_pos_eq (occ _)), (Rabs_pos_eq (F0 _)) by lra.
    apply Rle_trans with ((u + Rabs eta) * exp (- u) + exp (- u)); [apply Rplus_le_compat; [|lra]; apply Rmult_le_compat; try apply Rabs_pos; lra|]. pose proof (Rmult_le_pos _ _ Hu H). pose proof (pow2_ge_0 u). assert (Q : (u + Rabs eta) + 1 <= (2 + Rabs eta) * (1 + u) ^ 2) by nra. nra.
  - unfold Rdiv. rewrite Rmult_assoc. apply Rmult_le_compat_l; [lra|exact D].
Qed.
Lemma A1_small eta : exists B, forall u, 0 <= u -> Rabs (A1 eta u) <= B / (1 + u).
Proof.
  destruct decay as (K & PK & D). exists ((7 + 3 * Rabs eta) * K). intros u Hu. destruct (small_n u Hu) as (On & Fn & Gn). specialize (D u Hu). pose proof (exp_pos (- u)) as Pe. pose proof (Rabs_pos eta) as Pt. pose proof (Rle_abs eta). pose proof (Rle_abs (- eta)) as N. rewrite Rabs_Ropp in N.
  apply Rle_trans with ((7 + 3 * Rabs eta) * ((1 + u) ^ 2 * exp (- u))).
  - assert (B1 : Rabs ((u + eta) * u) <= (u + Rabs eta) * u) by (rewrite Rabs_mult, (Rabs_pos_eq u) by lra; apply Rmult_le_compat_r; [exact Hu|apply Rabs_le; lra]).
    assert (B2 : Rabs (2 * u + eta) <= 2 * u + Rabs eta) by (apply Rabs_le; lra).
    unfold A1. eapply Rle_trans; [apply Rabs_triang|]. eapply Rle_trans; [apply Rplus_le_compat_r, Rabs_triang|]. rewrite !Rabs_Ropp. replace (- (u + eta) * u * occ (- u)) with (- (((u + eta) * u) * occ (- u))) by ring. rewrite Rabs_Ropp, (Rabs_mult _ (occ _)), (Rabs_mult _ (F0 _)), (Rabs_pos_eq (occ _)), (Rabs_pos_eq (F0 _)), (Rabs_pos_eq (2 * _)) by lra.
    apply Rle_trans with ((u + Rabs eta) * u * exp (- u) + (2 * u + Rabs eta) * exp (- u) + 4 * exp (- u)).
    + apply Rplus_le_compat; [|lra]. apply Rplus_le_compat; apply Rmult_le_compat; try apply Rabs_pos; lra.
    + pose proof (Rmult_le_pos _ _ Hu Pt) as P1. pose proof (pow2_ge_0 u). assert (P2 : 0 <= u ^ 2 * Rabs eta) by (apply Rmult_le_pos; [apply pow2_ge_0|exact Pt]). assert (Q : (u + Rabs eta) * u + (2 * u + Rabs eta) + 4 <= (7 + 3 * Rabs eta) * (1 + u) ^ 2) by nra. nra.
  - unfold Rdiv. rewrite Rmult_assoc. apply Rmult_le_compat_l; [lra|exact D].
Qed.
Lemma win_cont u : continuous win u.
Proof. apply (ex_derive_continuous win). unfold win. pose proof (exp_pos u). auto_derive. apply Rgt_not_eq. nra. Qed.
Lemma K0_integral s EF T : 0 < T -> fermi_integral (fun E => spb_trs s E T) EF T 0 (s * F0 (EF / (kB * T))).
Proof.
  intros HT. pose proof kB_pos as PB. assert (PK : 0 < kB * T) by (apply Rmult_lt_0_compat; lra). set (eta := EF / (kB * T)).
  destruct (A0_small eta) as (B & HB). replace (s * F0 eta) with (- (fun u => s * A0 eta u) (- eta)) by (unfold A0; rewrite Ropp_involutive; ring).
  apply (by_primitive _ (fun u => s * A0 eta u) (fun u => s * ((u + eta) * win u)) EF T 0 (Rabs s * B) HT).
  - intros u. apply scald, A0_derive.
  - intros u. apply (continuous_mult (fun _ => s) (fun u => (u + eta) * win u)); [apply continuous_const|]. apply (continuous_mult (fun u => u + eta) win); [|apply win_cont]. apply (ex_derive_continuous (fun u => u + eta)). auto_derive. exact I.
  - intros E. unfold spb_trs, fermi_window, win, eta. cbn [pow]. pose proof (exp_pos ((E - EF) / (kB * T))). field. split; lra.
  - intros u Hu. rewrite Rabs_mult. unfold Rdiv. rewrite Rmult_assoc. apply Rmult_le_compat_l; [apply Rabs_pos|]. apply HB, Hu.
Qed.
Lemma K1_integral s EF T : 0 < T -> fermi_integral (fun E => spb_trs s E T) EF T 1 (s * hh (EF / (kB * T))).
Proof.
  intros HT. pose proof kB_pos as PB. assert (PK : 0 < kB * T) by (apply Rmult_lt_0_compat; lra). set (eta := EF / (kB * T)).
  destruct (A1_small eta) as (B & HB). replace (s * hh eta) with (- (fun u => s * A1 eta u) (- eta)) by (unfold A1, hh; rewrite Ropp_involutive; ring).
  apply (by_primitive _ (fun u => s * A1 eta u) (fun u => s * ((u + eta) * u * win u)) EF T 1 (Rabs s * B) HT).
  - intros u. apply scald, A1_derive.
  - intros u. apply (continuous_mult (fun _ => s) (fun u => (u + eta) * u * win u)); [apply continuous_const|]. apply (continuous_mult (fun u => (u + eta) * u) win); [|apply win_cont]. apply (ex_derive_continuous (fun u => (u + eta) * u)). auto_derive. exact I.
  - intros E. unfold spb_trs, fermi_window, win, eta. cbn [pow]. pose proof (exp_pos ((E - EF) / (kB * T))). field. split; lra.
  - intros u Hu. rewrite Rabs_mult. unfold Rdiv. rewrite Rmult_assoc. apply Rmult_le_compat_l; [apply Rabs_pos|]. apply HB, Hu.
Qed.
