(** C131: the two ways of counting carriers agree. *)
From Coq Require Import Reals Lra Lia FunctionalExtensionality.
From Coquelicot Require Import Coquelicot.
From Verif Require Import Py RUtil FuncModel RombModel RombProofs RombProps BandModel SpbModel SpbProps RconvSpec RconvProofs RconvFermi RconvBands RconvProps NdosModel NdosSpec NdosProofs.
Local Open Scope R_scope.

(** For a density of states [dos] with integral [idos], both continuous from the band edge up and [idos] bounded by a power:
    the quadrature of [idos] converges, its limit n is the number of occupied states, and the second branch returns exactly n when its integrator is exact. *)
Theorem C131_two_counts :
  forall (dos idos : R -> R) (EF T : R), 0 < T -> continuous_up dos -> continuous_up idos -> power_bounded idos -> antiderivative idos dos ->
  exists n : R, is_lim_seq (fun ndiv => romb_dfx (fun E _ => idos E) EF T 0 ndiv) n
    /\ occupied dos EF T n
    /\ forall quad, exact_quad quad -> count_dos quad dos EF T = n.
Proof.
  intros dos idos EF T HT Hd Hi Hp Ha. destruct (C130_converges (fun E _ => idos E) EF T 0 HT Hi Hp) as (n & H1 & H2). exists n. split; [exact H1|].
  assert (O : occupied dos EF T n) by (apply (count_lim dos idos); assumption). split; [exact O|]. intros quad HQ. apply (exact_count dos EF T HT Hd quad n HQ O).
Qed.
(** The three band models qualify. *)
Theorem C131_bands :
  forall (m_d Eg vF EF T : R), 0 < T -> 0 < m_d -> 0 < Eg -> vF <> 0 ->
  forall dos idos : R -> R, List.In (dos, idos) [(spb_dos m_d, spb_idos m_d); (skb_dos m_d Eg, skb_idos m_d Eg); (lin_dos vF, lin_idos vF)] ->
  exists n : R, is_lim_seq (fun ndiv => romb_dfx (fun E _ => idos E) EF T 0 ndiv) n
    /\ occupied dos EF T n
    /\ forall quad, exact_quad quad -> count_dos quad dos EF T = n.
Proof.
  intros m_d Eg vF EF T HT Hm He Hv dos idos H.
  assert (G : good dos /\ good idos /\ antiderivative idos dos).
  { destruct H as [E|[E|[E|[]]]]; injection E as <- <-.
    - destruct (C69_spb_idos m_d Hm) as (Z & D). split; [apply good_spb_dos|]. split; [apply good_spb_idos|]. split; [exact Z|]. intros E HE. apply D. exact HE.
    - destruct (C69_skb_idos m_d Eg Hm He) as (Z & D). split; [apply good_skb_dos|]. split; [apply good_skb_idos|]. split; [exact Z|]. intros E HE. apply D. exact HE.
    - destruct (C69_linear_idos vF Hv) as (Z & D). split; [apply good_lin_dos|]. split; [apply good_lin_idos|]. split; [exact Z|]. intros E HE. apply D. }
  destruct G as ((Hd & _) & (Hi & Hp) & Ha). apply C131_two_counts; assumption.
Qed.
(** Which way is taken: the quadrature exactly when [use_idos] is set and the class has [idos]; otherwise the two integrals of dos times occupation. *)
Theorem C131_branch :
  forall quad (use_idos : bool) (idos : option (R -> R -> R)) dos EF T,
  (forall f, use_idos = true -> idos = Some f -> count quad use_idos idos dos EF T = romb_dfx f EF T 0 6)
  /\ (use_idos = false \/ idos = None ->
      let occupied_dos := fun E => dos E * (1 / (1 + exp ((E - EF) / (kB * T)))) in
      count quad use_idos idos dos EF T = quad occupied_dos 0 (Finite (Rmax 0 EF)) + quad occupied_dos (Rmax 0 EF) p_infty).
Proof.
  intros quad u i dos EF T. split; [intros f -> ->; reflexivity|]. intros H. cbv zeta.
  assert (E : count quad u i dos EF T = count_dos quad dos EF T) by (destruct H as [->| ->]; [reflexivity|destruct u; reflexivity]). rewrite E. unfold count_dos. cbv zeta.
  assert (K : kernel dos EF T = fun E => dos E * (1 / (1 + exp ((E - EF) / (kB * T))))) by (apply FunctionalExtensionality.functional_extensionality; intros e; unfold kernel, fermidirac, expit; rewrite Ropp_involutive; reflexivity).
  rewrite K. reflexivity.
Qed.

(** such an integrator exists *)
Example C131_case_quad : exists quad, exact_quad quad.
Proof.
  exists (fun h a b => match b with Finite b => RInt h a b | _ => real (Lim (fun M => RInt h a M) p_infty) end). split; [reflexivity|].
  intros h a l _ _ H. rewrite (is_lim_unique _ _ _ H). reflexivity.
Qed.
Example C131_case : exists n : R, is_lim_seq (fun ndiv => romb_dfx (fun E _ => spb_idos 1 E) (1 / 10) 300 0 ndiv) n /\ occupied (spb_dos 1) (1 / 10) 300 n
  /\ forall quad, exact_quad quad -> count_dos quad (spb_dos 1) (1 / 10) 300 = n.
Proof. apply (C131_bands 1 1 1 (1 / 10) 300); try lra. left. reflexivity. Qed.
Print Assumptions C131_two_counts.
Print Assumptions C131_bands.
Print Assumptions C131_branch.
