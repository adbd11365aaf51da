(** C130: refining the Fermi quadrature converges to the Fermi integral. *)
From Coq Require Import Reals Lra Lia.
From Coquelicot Require Import Coquelicot.
From Verif Require Import Py RUtil FuncModel RombModel RombProofs RombProps BandModel SpbModel RconvSpec RconvProofs RconvFermi RconvBands.
Local Open Scope R_scope.

(** For every integrand continuous on [0, oo) and bounded there by a power, the values returned for ndiv = 0, 1, 2, ...
    converge, and their limit is the improper integral of func(E,T) * ((E-EF)/kT)^k * (-df/dE) over all energies E > 0. *)
Theorem C130_converges :
  forall (func : R -> R -> R) (EF T : R) (k : nat), 0 < T ->
  continuous_up (fun E => func E T) -> power_bounded (fun E => func E T) ->
  exists L : R, is_lim_seq (fun ndiv => romb_dfx func EF T k ndiv) L /\ fermi_integral (fun E => func E T) EF T k L.
Proof.
  intros func EF T k HT Hc Hp. set (f := fun E => func E T) in *. pose proof (width_range EF T) as W. exists (RInt (F f EF T k) 0 (width EF T)). split; [|apply energy_lim; assumption].
  unfold romb_dfx, nbins.
  apply (romb_lim (F f EF T k) (width EF T) (f (kT T * (- (EF / kT T) + eps) + EF) * ((- (EF / kT T) + eps) ^ k * weight0 (width EF T)))); [lra|intros; apply F_cont; assumption| |].
  - intros n j Hj. destruct (Nat.eq_dec j 0) as [->|N0].
    + unfold sample, F, tp. change (INR 0) with 0. rewrite !Rmult_0_l. destruct (Rle_dec 0 0); [|lra]. unfold weight0. rewrite Rmult_0_l. rewrite pow_i by lia. rewrite Rmult_0_r. unfold Rdiv. rewrite Rmult_0_l, !Rmult_0_r. reflexivity.
    + pose proof (tp_inner EF T n j ltac:(lia)) as I. unfold sample, energy, xp. assert (Eb : (Nat.eqb j 0 || Nat.eqb j (nbins n))%bool = false).
      { unfold nbins. destruct (Nat.eqb_spec j 0); [lia|]. destruct (Nat.eqb_spec j (2 ^ n)); [lia|reflexivity]. } rewrite Eb.
      change (INR j * (width EF T / INR (2 ^ n))) with (tp EF T n j). unfold F. destruct (Rle_dec (tp EF T n j) 0); [lra|]. rewrite Rmin_left by lra. unfold J, fp.
      destruct (C59_range EF T (tp EF T n j) HT ltac:(lra)) as (R1 & _). rewrite Rmax_left; [reflexivity|]. apply Rlt_le, R1. lra.
  - intros n. unfold sample, energy, xp. unfold nbins. rewrite Nat.eqb_refl, Bool.orb_true_r. unfold tp, nbins. fold (f (kT T * (- (EF / kT T) + eps) + EF)).
    replace (INR (2 ^ n) * (width EF T / INR (2 ^ n))) with (width EF T); [reflexivity|]. field. apply not_0_INR. apply Nat.pow_nonzero. lia.
Qed.

(** Every spectral function of the parabolic, Kane and linear band qualifies, whatever its parameters. *)
Theorem C130_bands :
  forall (m_d sigma0 Kmass Eg vF EF T : R) (k : nat), 0 < T -> 0 < Eg ->
  forall func : R -> R -> R,
  List.In func [ (fun E _ => spb_idos m_d E); spb_trs sigma0; spb_hall m_d sigma0 Kmass;
                 (fun E _ => skb_idos m_d Eg E); skb_trs sigma0 Eg; skb_hall m_d sigma0 Eg Kmass;
                 (fun E _ => lin_idos vF E); lin_trs sigma0 ] ->
  exists L : R, is_lim_seq (fun ndiv => romb_dfx func EF T k ndiv) L /\ fermi_integral (fun E => func E T) EF T k L.
Proof.
  intros m_d sigma0 Kmass Eg vF EF T k HT HE func H.
  assert (G : good (fun E => func E T)).
  { destruct H as [<-|[<-|[<-|[<-|[<-|[<-|[<-|[<-|[]]]]]]]]].
    - apply good_spb_idos. - apply good_spb_trs. - apply good_spb_hall. - apply good_skb_idos. - apply good_skb_trs; exact HE. - apply good_skb_hall; exact HE. - apply good_lin_idos. - apply good_lin_trs. }
  destruct G. apply C130_converges; assumption.
Qed.

(** In closed form for a constant integrand: the limit is the constant times the Fermi-Dirac occupation of the band edge. *)
Theorem C130_constant :
  forall (c EF T : R), 0 < T -> is_lim_seq (fun ndiv => romb_dfx (fun _ _ => c) EF T 0 ndiv) (c * fermidirac (- EF / (kB * T))).
Proof.
  intros c EF T HT. destruct (C130_converges (fun _ _ => c) EF T 0 HT) as (L & HL & HF).
  - apply cont_up. intros. apply c_const.
  - apply pb_const.
  - replace (c * fermidirac (- EF / (kB * T))) with L; [exact HL|]. pose proof kB_pos as PB. assert (PK : 0 < kB * T) by (apply Rmult_lt_0_compat; lra). revert HF PK. unfold fermi_integral, fermi_window. generalize (kB * T). intros q HF PK.
    apply (f_equal real (x := Finite L) (y := Finite (c * fermidirac (- EF / q)))). rewrite <- (is_lim_unique _ _ _ HF). apply is_lim_unique.
    set (G := fun E : R => - c * (1 / (1 + exp ((E - EF) / q)))).
    apply (is_lim_ext_loc (fun M => G M - G 0)).
    + exists 0. intros M HM. symmetry. apply is_RInt_unique. change (G M - G 0) with (minus (G M) (G 0)). apply (is_RInt_derive G).
      * intros E _. unfold G. pose proof (exp_pos ((E - EF) / q)) as Q. auto_derive; [apply Rgt_not_eq; unfold Rdiv, Rminus in Q; lra|]. unfold Rdiv, Rminus in *. cbn [pow]. field. split; apply Rgt_not_eq; lra.
      * intros E _. apply (ex_derive_continuous (fun E => c * ((E - EF) / q) ^ 0 * (exp ((E - EF) / q) / (1 + exp ((E - EF) / q)) ^ 2 / q))). pose proof (exp_pos ((E - EF) / q)) as Q. cbn [pow]. auto_derive. unfold Rdiv, Rminus in Q. repeat split; apply Rgt_not_eq; try lra; nra.
    + replace (c * fermidirac (- EF / q)) with (0 - G 0).
      * apply is_lim_minus'; [|apply is_lim_const]. unfold G. apply is_lim_spec. intros e. pose proof (cond_pos e) as Pe. exists (q * ((Rabs c + 1) / e) + EF). intros M HM. rewrite Rminus_0_r.
        pose proof (exp_pos ((M - EF) / q)) as Q. rewrite Rabs_mult, Rabs_Ropp, (Rabs_pos_eq (1 / _)) by (apply Rdiv_le_0_compat; lra).
        assert (X : (Rabs c + 1) / e < (M - EF) / q) by (apply (Rlt_div_r ((Rabs c + 1) / e) (M - EF) q); [lra|]; rewrite Rmult_comm; lra). pose proof (exp_ineq1_le ((M - EF) / q)) as X1. pose proof (Rabs_pos c).
        replace (Rabs c * (1 / (1 + exp ((M - EF) / q)))) with (Rabs c / (1 + exp ((M - EF) / q))) by (unfold Rdiv; ring). apply (Rlt_div_l (Rabs c) e (1 + exp ((M - EF) / q))); [lra|]. apply (Rmult_lt_compat_l e) in X; [|exact Pe]. replace (e * ((Rabs c + 1) / e)) with (Rabs c + 1) in X by (field; lra). apply (Rmult_le_compat_l e) in X1; lra.
      * unfold G, fermidirac, expit. rewrite Ropp_involutive. replace ((0 - EF) / q) with (- EF / q) by (field; lra). ring.
Qed.
Example C130_case : exists L : R, is_lim_seq (fun ndiv => romb_dfx (fun E _ => spb_idos 1 E) (1 / 10) 300 0 ndiv) L /\ fermi_integral (spb_idos 1) (1 / 10) 300 0 L.
Proof. apply (C130_bands 1 1 1 1 1 (1 / 10) 300 0 ltac:(lra) ltac:(lra) (fun E _ => spb_idos 1 E)). left. reflexivity. Qed.
Print Assumptions C130_converges.
Print Assumptions C130_bands.
Print Assumptions C130_constant.
