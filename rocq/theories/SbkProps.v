(** C138: the Seebeck coefficient of the parabolic band and the Fermi level. *)
From Coq Require Import Reals Lra Lia.
From Coquelicot Require Import Coquelicot.
From Verif Require Import Py RUtil FuncModel RombModel BandModel SpbModel RconvSpec RconvProps OptProofs OptNum OptFermi OptProps SbkSpec SbkProofs.
Local Open Scope R_scope.

Lemma transport_iff s EF T K0 K1 K2 : 0 < s -> 0 < T -> let x := EF / (kB * T) in
  transport (spb_trs s) EF T K0 K1 K2 <-> K0 = s * F0 x /\ K1 = s * hh x /\ K2 = s * k2 x.
Proof.
  intros Hs HT x. pose proof (K0_integral s EF T HT) as I0. pose proof (K1_integral s EF T HT) as I1. pose proof (K2_integral s EF T HT) as I2. fold x in I0, I1, I2. split.
  - intros (H0 & H1 & H2 & _). split; [|split]; eapply fermi_unique; eassumption.
  - intros (-> & -> & ->). split; [exact I0|]. split; [exact I1|]. split; [exact I2|]. apply Rmult_lt_0_compat; [exact Hs|apply F0_pos].
Qed.
Lemma seebeck_iff s EF T S : 0 < s -> 0 < T -> (reduced_seebeck (spb_trs s) EF T S <-> S = sb (EF / (kB * T))).
Proof.
  intros Hs HT. set (x := EF / (kB * T)). pose proof (F0_pos x) as P. assert (E : s * hh x / (s * F0 x) = sb x) by (unfold sb; field; lra). split.
  - intros (K0 & K1 & K2 & H & ->). apply (transport_iff s EF T K0 K1 K2 Hs HT) in H. fold x in H. destruct H as (-> & -> & _). exact E.
  - intros ->. exists (s * F0 x), (s * hh x), (s * k2 x). split; [apply (transport_iff s EF T _ _ _ Hs HT); fold x; auto|]. symmetry. exact E.
Qed.
Lemma lorenz_iff s EF T L : 0 < s -> 0 < T -> (reduced_lorenz (spb_trs s) EF T L <-> L = lz (EF / (kB * T))).
Proof.
  intros Hs HT. set (x := EF / (kB * T)). pose proof (F0_pos x) as P. assert (E : s * k2 x / (s * F0 x) - (s * hh x / (s * F0 x)) ^ 2 = lz x) by (unfold lz, sb; field; lra). split.
  - intros (K0 & K1 & K2 & H & ->). apply (transport_iff s EF T K0 K1 K2 Hs HT) in H. fold x in H. destruct H as (-> & -> & ->). exact E.
  - intros ->. exists (s * F0 x), (s * hh x), (s * k2 x). split; [apply (transport_iff s EF T _ _ _ Hs HT); fold x; auto|]. symmetry. exact E.
Qed.

(** the band with [ndiv] refinements of its quadrature; the code's is [ndiv = 6] *)
Definition refined (ndiv : nat) (trs : R -> R -> R) (sign : R) : obj :=
  self_band {| b_raw := {| r_N := fun _ _ => 0; r_K := fun n EF T => romb_dfx trs EF T n ndiv; r_H := None |}; b_sign := sign; b_cache := None |}.

(** C138: the theory gives one Seebeck coefficient and one Lorenz number, which the methods [S] and [L] approach as the quadrature is refined *)
Theorem C138_methods :
  forall sigma0 EF T sign : R, 0 < sigma0 -> 0 < T ->
  exists S L : R, reduced_seebeck (spb_trs sigma0) EF T S /\ (forall S', reduced_seebeck (spb_trs sigma0) EF T S' -> S' = S)
    /\ reduced_lorenz (spb_trs sigma0) EF T L /\ (forall L', reduced_lorenz (spb_trs sigma0) EF T L' -> L' = L)
    /\ (exists s l : nat -> R, (forall n, method (refined n (spb_trs sigma0) sign) PS (Some EF) (Some T) = Ok (Some (s n)))
          /\ (forall n, method (refined n (spb_trs sigma0) sign) PL (Some EF) (Some T) = Ok (Some (l n)))
          /\ (forall idos hall, let code := self_band {| b_raw := spectral idos (spb_trs sigma0) hall; b_sign := sign; b_cache := None |} in
                method code PS (Some EF) (Some T) = Ok (Some (s 6%nat)) /\ method code PL (Some EF) (Some T) = Ok (Some (l 6%nat)))
          /\ is_lim_seq s (sign * 86.17333262145179 * S) /\ is_lim_seq l (0.7425843255087367 * L)).
Proof.
  intros s EF T sg Hs HT. set (x := EF / (kB * T)). exists (sb x), (lz x). split; [apply seebeck_iff; auto|]. split; [intros S' H; apply (seebeck_iff s EF T S' Hs HT); exact H|]. split; [apply lorenz_iff; auto|]. split; [intros S' H; apply (lorenz_iff s EF T S' Hs HT); exact H|].
  pose proof (F0_pos x) as P0. assert (Q : 0 < s * F0 x) by (apply Rmult_lt_0_compat; assumption).
  assert (G : forall k v, fermi_integral (fun E => spb_trs s E T) EF T k v -> is_lim_seq (fun n => romb_dfx (spb_trs s) EF T k n) v).
  { intros k v I. destruct (C130_bands 1 s 1 1 1 EF T k HT Rlt_0_1 (spb_trs s)) as (L & HL & HF); [right; left; reflexivity|]. cbv beta in HF. rewrite (fermi_unique _ _ _ _ _ _ I HF). exact HL. }
  pose proof (G _ _ (K0_integral s EF T HT)) as G0. pose proof (G _ _ (K1_integral s EF T HT)) as G1. pose proof (G _ _ (K2_integral s EF T HT)) as G2'. fold x in G0, G1, G2'. clear G.
  set (p := fun k n => romb_dfx (spb_trs s) EF T k n) in *.
  exists (fun n => sg * S0 * p 1%nat n / p 0%nat n), (fun n => L0 * (p 2%nat n / p 0%nat n - (p 1%nat n / p 0%nat n) ^ 2)). split; [reflexivity|]. split; [reflexivity|]. split; [intros idos hall; split; reflexivity|].
  assert (D1 : is_lim_seq (fun n => p 1%nat n / p 0%nat n) (sb x)). { replace (sb x) with (s * hh x / (s * F0 x)) by (unfold sb; field; lra). apply is_lim_seq_div'; [exact G1|exact G0|lra]. }
  assert (D2 : is_lim_seq (fun n => p 2%nat n / p 0%nat n) (k2 x / F0 x)). { replace (k2 x / F0 x) with (s * k2 x / (s * F0 x)) by (field; lra). apply is_lim_seq_div'; [exact G2'|exact G0|lra]. }
  split.
  - apply (is_lim_seq_ext (fun n => sg * 86.17333262145179 * (p 1%nat n / p 0%nat n))); [intros n; unfold S0, Rdiv; ring|]. apply (is_lim_seq_scal_l _ _ (Finite (sb x))). exact D1.
  - apply (is_lim_seq_scal_l _ 0.7425843255087367 (Finite (lz x))). unfold lz. apply is_lim_seq_minus'; [exact D2|]. cbn [pow]. apply (is_lim_seq_ext (fun n => p 1%nat n / p 0%nat n * (p 1%nat n / p 0%nat n * 1))); [reflexivity|]. apply is_lim_seq_mult'; [exact D1|]. apply is_lim_seq_mult'; [exact D1|apply is_lim_seq_const].
Qed.

(** C138: it is positive and falls as the Fermi level rises, and each positive value belongs to exactly one Fermi level *)
Theorem C138_level :
  forall sigma0 T : R, 0 < sigma0 -> 0 < T ->
  (forall EF S, reduced_seebeck (spb_trs sigma0) EF T S -> 0 < S)
  /\ (forall EF EF' S S', EF < EF' -> reduced_seebeck (spb_trs sigma0) EF T S -> reduced_seebeck (spb_trs sigma0) EF' T S' -> S' < S)
  /\ (forall S, 0 < S -> exists! EF, reduced_seebeck (spb_trs sigma0) EF T S).
Proof.
  intros s T Hs HT. pose proof kB_pos as PB. assert (PK : 0 < kB * T) by (apply Rmult_lt_0_compat; lra).
  assert (M : forall EF EF' S S', EF < EF' -> reduced_seebeck (spb_trs s) EF T S -> reduced_seebeck (spb_trs s) EF' T S' -> S' < S).
  { intros EF EF' S S' L H H'. apply (seebeck_iff s EF T S Hs HT) in H. apply (seebeck_iff s EF' T S' Hs HT) in H'. subst. apply sb_decr. unfold Rdiv. apply Rmult_lt_compat_r; [apply Rinv_0_lt_compat; exact PK|exact L]. }
  split; [|split; [exact M|]].
  - intros EF S H. apply (seebeck_iff s EF T S Hs HT) in H. subst. apply sb_pos.
  - intros S HS. destruct (sb_onto S HS) as (x & Ex). exists (x * (kB * T)). assert (E : x * (kB * T) / (kB * T) = x) by (field; lra). split; [apply seebeck_iff; [exact Hs|exact HT|rewrite E; auto]|].
    intros EF' H'. assert (H : reduced_seebeck (spb_trs s) (x * (kB * T)) T S) by (apply seebeck_iff; [exact Hs|exact HT|rewrite E; auto]). destruct (Rtotal_order (x * (kB * T)) EF') as [L|[Q|L]]; [|exact Q|]; [pose proof (M _ _ _ _ L H H')|pose proof (M _ _ _ _ L H' H)]; lra.
Qed.

(** C138: the Seebeck coefficient alone gives the reduced Fermi level and the Lorenz number, whatever the temperature and the transport coefficient *)
Theorem C138_determines :
  forall sigma0 sigma0' EF EF' T T' S L L' : R, 0 < sigma0 -> 0 < sigma0' -> 0 < T -> 0 < T' ->
  reduced_seebeck (spb_trs sigma0) EF T S -> reduced_seebeck (spb_trs sigma0') EF' T' S ->
  reduced_lorenz (spb_trs sigma0) EF T L -> reduced_lorenz (spb_trs sigma0') EF' T' L' ->
  EF / T = EF' / T' /\ L = L'.
Proof.
  intros s s' EF EF' T T' S L L' Hs Hs' HT HT' H H' J J'. pose proof kB_pos as PB. apply (seebeck_iff s EF T S Hs HT) in H. apply (seebeck_iff s' EF' T' S Hs' HT') in H'. apply (lorenz_iff s EF T L Hs HT) in J. apply (lorenz_iff s' EF' T' L' Hs' HT') in J'. subst.
  assert (E : EF / (kB * T) = EF' / (kB * T')). { destruct (Rtotal_order (EF / (kB * T)) (EF' / (kB * T'))) as [Q|[Q|Q]]; [|exact Q|]; apply sb_decr in Q; lra. }
  split; [|rewrite E; reflexivity]. replace (EF / T) with (EF / (kB * T) * kB) by (field; lra). rewrite E. field. lra.
Qed.

(** C138: below the band edge both tend to the classical 2 - EF/kT and 2 with an error of the order of exp(EF/kT); far above it the Seebeck coefficient tends to 0 *)
Theorem C138_limits :
  forall sigma0 EF T S L : R, 0 < sigma0 -> 0 < T -> let x := EF / (kB * T) in
  reduced_seebeck (spb_trs sigma0) EF T S -> reduced_lorenz (spb_trs sigma0) EF T L ->
  0 <= S - (2 - x) <= exp x
  /\ - (4 * exp x + exp x ^ 2) <= L - 2 <= 4.5 * exp x + exp x ^ 2
  /\ (0 < EF -> S <= 9 / x).
Proof.
  intros s EF T S L Hs HT x H J. pose proof kB_pos as PB. apply (seebeck_iff s EF T S Hs HT) in H. apply (lorenz_iff s EF T L Hs HT) in J. fold x in H, J. subst S L. split; [apply sb_nondeg|]. split; [pose proof (lz_nondeg x); lra|].
  intros HE. apply sb_deg. unfold x. apply Rdiv_lt_0_compat; [exact HE|apply Rmult_lt_0_compat; lra].
Qed.

(** 300 uV/K needs a Fermi level between 1.482 kT and 1.15 kT below the band edge, and there is one *)
Example C138_case : forall EF, reduced_seebeck (spb_trs 1000) EF 300 (300 / 86.17333262145179) -> - 1.482 <= EF / (kB * 300) <= - 1.15.
Proof.
  intros EF H. assert (N : 3.4813 <= 300 / 86.17333262145179 <= 3.4814) by (split; [apply (proj1 (Rle_div_r 3.4813 300 86.17333262145179 ltac:(lra)))|apply (proj2 (Rle_div_l 300 3.4814 86.17333262145179 ltac:(lra)))]; lra). apply (seebeck_iff 1000 EF 300 _ ltac:(lra) ltac:(lra)) in H. set (x := EF / (kB * 300)) in *. pose proof (sb_nondeg x) as B. rewrite <- H in B. split; [lra|]. apply Rnot_lt_le. intros L. pose proof (sb_decr _ _ L) as D. rewrite <- H in D.
  pose proof (sb_nondeg (- (1.15))) as B2. assert (E : exp (- (1.15)) <= / 3.06). { rewrite exp_Ropp. apply Rinv_le_contravar; [lra|]. pose proof (exp_low 3 1.15 ltac:(lra)) as T. eapply Rle_trans; [|exact T]. tayx. clear. lra. } replace (- (1.15)) with (-1.15) in * by lra. assert (E3 : / 3.06 <= 0.327) by lra. set (q := 300 / 86.17333262145179) in *. lra.
Qed.
Example C138_case_exists : exists EF, reduced_seebeck (spb_trs 1000) EF 300 (300 / 86.17333262145179).
Proof. destruct (C138_level 1000 300 ltac:(lra) ltac:(lra)) as (_ & _ & X). assert (P : 0 < 300 / 86.17333262145179) by (apply Rdiv_lt_0_compat; lra). destruct (X _ P) as (EF & H & _). exists EF. exact H. Qed.
Print Assumptions C138_methods.
Print Assumptions C138_level.
Print Assumptions C138_determines.
Print Assumptions C138_limits.
