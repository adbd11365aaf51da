From Coq Require Import ZArith List Reals Lra Lia.
From Flocq Require Import Core IEEE754.BinarySingleNaN.
From Verif Require Import FloatSeqModel FloatSeqProofs FloatSeqProps.
Import ListNotations.
Local Open Scope R_scope.

Lemma b53 : bpow radix2 53 = 9007199254740992. Proof. change (bpow radix2 53) with (IZR (Z.pow_pos 2 53)). replace (Z.pow_pos 2 53) with 9007199254740992%Z by reflexivity. reflexivity. Qed.
Lemma b54 : bpow radix2 54 = 18014398509481984. Proof. change (bpow radix2 54) with (IZR (Z.pow_pos 2 54)). replace (Z.pow_pos 2 54) with 18014398509481984%Z by reflexivity. reflexivity. Qed.
#[local] Instance fx_valid : Valid_exp fx. Proof. apply fexp_correct; exact prec53. Qed.
#[local] Instance fx_mono : Monotone_exp fx. Proof. apply fexp_monotone. Qed.

Lemma finite_inj (a b : f64) : is_finite a = true -> is_finite b = true -> B2R a <> 0 -> B2R a = B2R b -> a = b.
Proof.
  intros Fa Fb N E. apply B2R_inj; [| |exact E].
  - destruct a; try discriminate; [cbn in N; exfalso; apply N; reflexivity|reflexivity].
  - destruct b; try discriminate; [exfalso; apply N; rewrite E; reflexivity|reflexivity].
Qed.
Definition rd (x : R) : R := round radix2 fx ZnearestE x.
Lemma rd_le x y : x <= y -> rd x <= rd y.
Proof. apply round_le; [apply fx_valid|apply valid_rnd_N]. Qed.
Lemma rd_id x : generic_format radix2 fx x -> rd x = x.
Proof. apply round_generic; apply valid_rnd_N. Qed.
Lemma gf_bpow e : (0 <= e <= 1000)%Z -> generic_format radix2 fx (bpow radix2 e).
Proof. intros H. apply generic_format_bpow. unfold SpecFloat.fexp, SpecFloat.emin. lia. Qed.
Lemma gf_opp x : generic_format radix2 fx x -> generic_format radix2 fx (- x).
Proof. apply generic_format_opp. Qed.

(** adding one, when the result is below 2^1000 *)
Lemma step_val (a : f64) : is_finite a = true -> Rabs (B2R a + 1) <= bpow radix2 1000 ->
  is_finite (fadd a one64) = true /\ B2R (fadd a one64) = rd (B2R a + 1).
Proof.
  intros Fa Ha. pose proof (Bplus_correct 53 1024 prec53 emax1024 mode_NE a one64 Fa eq_refl) as H. rewrite B2R_one in H. cbn [round_mode] in H.
  rewrite Rlt_bool_true in H.
  - destruct H as (H1 & H2 & _). split; [exact H2|exact H1].
  - apply Rle_lt_trans with (bpow radix2 1000); [|apply bpow_lt; lia]. apply abs_round_le_generic; [apply fx_valid|apply valid_rnd_N|apply gf_bpow; lia|exact Ha].
Qed.
Lemma big_small x : Rabs x <= 100000000000000000000 -> Rabs x <= bpow radix2 1000.
Proof.
  intros H. eapply Rle_trans; [exact H|]. apply Rle_trans with (bpow radix2 100); [|apply bpow_le; lia].
  change (bpow radix2 100) with (IZR (Z.pow_pos 2 100)). apply IZR_le. vm_compute. discriminate.
Qed.
Lemma two53_val : B2R two53 = 9007199254740992.
Proof. unfold two53, B2R, F2R; cbn [Fnum Fexp cond_Zopp]. change (bpow radix2 1) with 2. lra. Qed.
Lemma two53_stuck : fadd two53 one64 = two53.
Proof. apply B2SF_inj. vm_compute. reflexivity. Qed.
Lemma Rabs_inv x y : Rabs x <= y -> - y <= x <= y.
Proof. intros H. unfold Rabs in H. destruct (Rcase_abs x); lra. Qed.
Lemma ulp_small x : Rabs x < bpow radix2 53 -> ulp radix2 fx x <= 1.
Proof.
  intros H. destruct (Req_dec x 0) as [->|N].
  - apply Rle_trans with (ulp radix2 fx 1); [apply ulp_le; [apply fx_valid|apply fx_mono|rewrite Rabs_R0; apply Rabs_pos]|].
    change 1 with (bpow radix2 0). rewrite ulp_bpow. apply bpow_le. vm_compute. discriminate.
  - rewrite ulp_neq_0 by exact N. change 1 with (bpow radix2 0). apply bpow_le. unfold cexp. change 0%Z with (fx 53). apply fx_mono. apply mag_le_bpow; assumption.
Qed.
(** up to 2^53 a step advances by at least one half (or reaches 2^53) and does not pass 2^53 *)
Lemma step_small (a : f64) : is_finite a = true -> Rabs (B2R a) <= bpow radix2 53 ->
  is_finite (fadd a one64) = true /\ Rabs (B2R (fadd a one64)) <= bpow radix2 53 /\
  (B2R a + / 2 <= B2R (fadd a one64) \/ bpow radix2 53 <= B2R (fadd a one64)).
Proof.
  intros Fa Ha. assert (Ha' := Rabs_inv _ _ Ha). rewrite b53 in Ha'.
  destruct (Req_dec (B2R a) 9007199254740992) as [E53|N53].
  { assert (E : a = two53) by (apply finite_inj; [exact Fa|reflexivity|rewrite E53; lra|rewrite two53_val; exact E53]).
    subst a. rewrite two53_stuck. split; [reflexivity|]. split; [exact Ha|]. right. rewrite two53_val, b53. lra. }
  assert (B : Rabs (B2R a + 1) <= bpow radix2 1000) by (apply big_small; apply Rabs_le; lra).
  destruct (step_val a Fa B) as (F & E). split; [exact F|]. rewrite E.
  assert (G53 : generic_format radix2 fx (bpow radix2 53)) by (apply gf_bpow; lia).
  assert (P : B2R a <= bpow radix2 53 - 1).
  { assert (P : pred radix2 fx (bpow radix2 53) = bpow radix2 53 - 1) by (rewrite pred_bpow; reflexivity).
    rewrite <- P. apply pred_ge_gt; [apply fx_valid|apply generic_format_B2R|exact G53|rewrite b53; lra]. }
  split.
  - apply Rabs_le. split; [rewrite <- (rd_id _ (gf_opp _ G53)); apply rd_le; rewrite b53; lra|rewrite <- (rd_id _ G53); apply rd_le; lra].
  - destruct (Rlt_le_dec (B2R a + 1) (bpow radix2 53)) as [L|L].
    + left. pose proof (error_le_half_ulp radix2 fx (fun x => negb (Z.even x)) (B2R a + 1)) as H. fold (rd (B2R a + 1)) in H. apply Rabs_inv in H.
      assert (U : ulp radix2 fx (B2R a + 1) <= 1) by (apply ulp_small; apply Rabs_def1; [exact L|rewrite b53; lra]). lra.
    + right. rewrite <- (rd_id _ G53). apply rd_le. exact L.
Qed.
(** comparisons *)
Lemma flt_pos_inf (s : f64) : is_finite s = true -> flt s (B754_infinity false) = true.
Proof. destruct s as [[|]|[|]| |[|]]; try discriminate; reflexivity. Qed.
Lemma flt_below (s e : f64) : is_finite s = true -> B2R s <= B2R two53 -> flt two53 e = true -> flt s e = true.
Proof.
  intros Fs L H. destruct e as [b|[|]| |b m x B] eqn:Ee; try discriminate H.
  - apply flt_pos_inf. exact Fs.
  - rewrite <- Ee in *. assert (Fe : is_finite e = true) by (rewrite Ee; reflexivity). unfold flt in *. rewrite Bltb_correct in * by (assumption || reflexivity).
    apply Rlt_bool_true. destruct (Rlt_bool_spec (B2R two53) (B2R e)); [lra|discriminate].
Qed.
Lemma flt_under (s e : f64) : is_finite s = true -> flt s e = true -> flt two53 e = false -> B2R s < B2R two53.
Proof.
  intros Fs H N. assert (G : is_finite e = true -> B2R s < B2R two53).
  { intros Fe. unfold flt in *. rewrite Bltb_correct in * by (assumption || reflexivity). destruct (Rlt_bool_spec (B2R s) (B2R e)); [|discriminate].
    destruct (Rlt_bool_spec (B2R two53) (B2R e)); [discriminate|lra]. }
  destruct e as [b|[|]| |b m x B]; try (apply G; reflexivity).
  - destruct s as [[|]|[|]| |[|]]; discriminate.
  - discriminate N.
  - destruct s as [[|]|[|]| |[|]]; discriminate.
Qed.
(** the loop while it runs *)
Lemma loop_state (a e : f64) : is_finite a = true -> Rabs (B2R a) <= bpow radix2 53 -> forall n s l, loop_after n a e = Some (s, l) ->
  is_finite s = true /\ Rabs (B2R s) <= bpow radix2 53 /\ flt s e = true /\ length l = n /\ (B2R a + INR n * / 2 <= B2R s \/ bpow radix2 53 <= B2R s).
Proof.
  intros Fa Ha. induction n as [|n IH]; intros s l; cbn [loop_after].
  - destruct (flt a e) eqn:Ef; [|discriminate]. intros [= <- <-]. split; [exact Fa|]. split; [exact Ha|]. split; [exact Ef|]. split; [reflexivity|]. left. cbn [INR]. lra.
  - destruct (loop_after n a e) as [[s0 l0]|] eqn:E0; [|discriminate]. destruct (IH _ _ eq_refl) as (F0 & B0 & L0 & N0 & P0).
    cbv zeta. destruct (flt (fadd s0 one64) e) eqn:Ef; [|discriminate]. intros [= <- <-]. destruct (step_small s0 F0 B0) as (F1 & B1 & P1).
    split; [exact F1|]. split; [exact B1|]. split; [exact Ef|]. split; [rewrite app_length; cbn; lia|].
    destruct P1 as [P1|P1]; [|right; exact P1]. rewrite S_INR. destruct P0 as [P0|P0]; [left; lra|]. right. apply Rabs_inv in B1. lra.
Qed.
Lemma loop_forever (a e : f64) : is_finite a = true -> Rabs (B2R a) <= bpow radix2 53 -> flt two53 e = true -> forall n, exists s l, loop_after n a e = Some (s, l).
Proof.
  intros Fa Ha Ee. assert (Le : forall s : f64, Rabs (B2R s) <= bpow radix2 53 -> B2R s <= B2R two53) by (intros s H; apply Rabs_inv in H; rewrite two53_val, <- b53; lra).
  induction n as [|n (s & l & IH)]; cbn [loop_after].
  - rewrite (flt_below a e Fa (Le a Ha) Ee). eauto.
  - rewrite IH. destruct (loop_state a e Fa Ha n s l IH) as (F0 & B0 & _). destruct (step_small s F0 B0) as (F1 & B1 & _). cbv zeta.
    rewrite (flt_below _ e F1 (Le _ B1) Ee). eauto.
Qed.
Lemma loop_ends (a e : f64) : is_finite a = true -> Rabs (B2R a) <= bpow radix2 53 -> flt two53 e = false -> exists n, loop_after n a e = None.
Proof.
  intros Fa Ha Ee. destruct (archimed_cor1 (/ (2 * (bpow radix2 53 - B2R a) + 1))) as (N & HN & PN).
  { apply Rinv_0_lt_compat. apply Rabs_inv in Ha. lra. }
  exists N. destruct (loop_after N a e) as [[s l]|] eqn:E; [exfalso|reflexivity]. destruct (loop_state a e Fa Ha N s l E) as (F0 & B0 & L0 & _ & P0).
  pose proof (flt_under s e F0 L0 Ee) as U. rewrite two53_val in U. rewrite b53 in *.
  assert (HN' : 2 * (9007199254740992 - B2R a) + 1 < INR N).
  { apply Rnot_le_lt. intros C. apply (Rinv_le_contravar _ _ (lt_0_INR _ PN)) in C. lra. }
  destruct P0; lra.
Qed.
(** an infinite end *)
Lemma step_finite (a : f64) : is_finite a = true -> is_finite (fadd a one64) = true.
Proof.
  intros Fa. destruct (Rle_lt_dec (bpow radix2 54) (B2R a)) as [L|L]; [rewrite fadd_one_absorbed by assumption; exact Fa|].
  destruct (Rle_lt_dec (B2R a) (- 1)) as [L1|L1].
  - pose proof (Bplus_correct 53 1024 prec53 emax1024 mode_NE a one64 Fa eq_refl) as H. rewrite B2R_one in H. cbn [round_mode] in H. rewrite Rlt_bool_true in H; [exact (proj1 (proj2 H))|].
    apply Rle_lt_trans with (Rabs (B2R a)); [|apply abs_B2R_lt_emax].
    apply abs_round_le_generic; [apply fx_valid|apply valid_rnd_N|apply generic_format_abs, generic_format_B2R|]. rewrite !Rabs_left1 by lra. lra.
  - apply step_val; [exact Fa|]. apply big_small. rewrite b54 in L. apply Rabs_le. lra.
Qed.
Lemma loop_inf (a : f64) : is_finite a = true -> forall n, exists s l, loop_after n a (B754_infinity false) = Some (s, l) /\ is_finite s = true /\ length l = n.
Proof.
  intros Fa. induction n as [|n (s & l & IH & Fs & Ll)]; cbn [loop_after].
  - rewrite flt_pos_inf by exact Fa. exists a, []. auto.
  - rewrite IH. cbv zeta. rewrite flt_pos_inf by (apply step_finite; exact Fs). do 2 eexists. split; [reflexivity|]. split; [apply step_finite; exact Fs|]. rewrite app_length. cbn. lia.
Qed.
(** beyond 2^53: even multiples of two stay, odd ones advance once *)
Lemma step_mid (a : f64) (m : Z) : is_finite a = true -> B2R a = 2 * IZR m -> bpow radix2 53 <= Rabs (2 * IZR m + 1) < bpow radix2 54 ->
  is_finite (fadd a one64) = true /\ B2R (fadd a one64) = 2 * IZR (if Z.even m then m else m + 1).
Proof.
  intros Fa Ea Hm. assert (Hm' := Hm). rewrite b53, b54 in Hm'. destruct (step_val a Fa) as (F & E); [apply big_small; rewrite Ea; lra|]. split; [exact F|]. rewrite E, Ea. unfold rd, round.
  assert (C : cexp radix2 fx (2 * IZR m + 1) = 1%Z) by (unfold cexp; rewrite (mag_unique radix2 _ 54); [reflexivity|exact Hm]).
  unfold scaled_mantissa. rewrite C. unfold F2R. cbn [Fnum Fexp]. change (bpow radix2 1) with 2. change (bpow radix2 (- (1))) with (/ 2).
  replace ((2 * IZR m + 1) * / 2) with (IZR m + / 2) by field. unfold Znearest.
  assert (Fl : Zfloor (IZR m + / 2) = m) by (apply Zfloor_imp; rewrite plus_IZR; lra).
  assert (Ce : Zceil (IZR m + / 2) = (m + 1)%Z) by (apply Zceil_imp; replace (m + 1 - 1)%Z with m by lia; rewrite plus_IZR; lra).
  rewrite Fl, Ce. rewrite Rcompare_Eq by lra. destruct (Z.even m); cbn; lra.
Qed.
Lemma mid_form (a : f64) : bpow radix2 53 <= Rabs (B2R a) < bpow radix2 54 -> exists m, B2R a = 2 * IZR m.
Proof.
  intros H. assert (G : generic_format radix2 fx (B2R a)) by apply generic_format_B2R. unfold generic_format in G.
  assert (C : cexp radix2 fx (B2R a) = 1%Z) by (unfold cexp; rewrite (mag_unique radix2 _ 54); [reflexivity|exact H]).
  rewrite C in G. unfold F2R in G. cbn [Fnum Fexp] in G. change (bpow radix2 1) with 2 in G. eexists. rewrite G at 1. apply Rmult_comm.
Qed.
Lemma absorbed_neg (a : f64) : is_finite a = true -> B2R a <= - bpow radix2 54 -> fadd a one64 = a.
Proof.
  intros Fa Ha. destruct (Rle_lt_or_eq_dec _ _ Ha) as [L|E54].
  - assert (G : generic_format radix2 fx (B2R a)) by apply generic_format_B2R.
    assert (R0 : rd (B2R a + 1) = B2R a).
    { replace (B2R a + 1) with (- (- B2R a - 1)) by ring. unfold rd. rewrite round_NE_opp.
      assert (E : round radix2 fx ZnearestE (- B2R a - 1) = - B2R a); [|rewrite E; ring].
      assert (G' : generic_format radix2 fx (- B2R a)) by (apply gf_opp; exact G). apply Rle_antisym.
      - rewrite <- (rd_id _ G') at 2. apply rd_le. lra.
      - apply round_N_ge_midp; [apply fx_valid|exact G'|].
        assert (P : pred radix2 fx (- B2R a) <= - B2R a - 4).
        { assert (B54 : bpow radix2 54 <= pred radix2 fx (- B2R a)) by (apply pred_ge_gt; [apply fx_valid|apply gf_bpow; lia|exact G'|lra]).
          assert (U : 4 <= ulp radix2 fx (pred radix2 fx (- B2R a))).
          { apply Rle_trans with (ulp radix2 fx (bpow radix2 54)); [rewrite ulp_bpow; change (fx (54 + 1)) with 2%Z; change (bpow radix2 2) with 4; lra|].
            apply ulp_le_pos; [apply fx_valid|apply fx_mono|apply bpow_ge_0|exact B54]. }
          assert (S : pred radix2 fx (- B2R a) + ulp radix2 fx (pred radix2 fx (- B2R a)) = - B2R a).
          { apply pred_plus_ulp; [apply fx_valid|rewrite b54 in L; lra|exact G']. }
          lra. }
        lra. }
    pose proof (Bplus_correct 53 1024 prec53 emax1024 mode_NE a one64 Fa eq_refl) as H. rewrite B2R_one in H. cbn [round_mode] in H. fold (rd (B2R a + 1)) in H. rewrite R0 in H.
    rewrite Rlt_bool_true in H by apply abs_B2R_lt_emax. destruct H as (HR & HF & _). symmetry. apply finite_inj; [exact Fa|exact HF|rewrite b54 in L; lra|symmetry; exact HR].
  - assert (E : a = @B754_finite 53 1024 true 4503599627370496 2 eq_refl).
    { apply finite_inj; [exact Fa|reflexivity|rewrite E54, b54; lra|]. rewrite E54, b54. unfold B2R, F2R; cbn [Fnum Fexp cond_Zopp Z.opp]. change (bpow radix2 2) with 4. lra. }
    subst a. apply B2SF_inj. vm_compute. reflexivity.
Qed.
(** after one step at most the value stays for ever *)
Lemma large_stuck (a : f64) : is_finite a = true -> bpow radix2 53 <= B2R a \/ B2R a <= - bpow radix2 53 - 4 -> fadd (fadd a one64) one64 = fadd a one64.
Proof.
  intros Fa H. destruct (Rle_lt_dec (bpow radix2 54) (B2R a)) as [L|L]; [rewrite (fadd_one_absorbed a Fa L); exact (fadd_one_absorbed a Fa L)|].
  destruct (Rle_lt_dec (B2R a) (- bpow radix2 54)) as [L'|L']; [rewrite (absorbed_neg a Fa L'); exact (absorbed_neg a Fa L')|].
  assert (Ab : bpow radix2 53 <= Rabs (B2R a) < bpow radix2 54).
  { rewrite b53, b54 in *. destruct H as [H|H]; [rewrite Rabs_pos_eq by lra; lra|rewrite Rabs_left1 by lra; lra]. }
  destruct (mid_form a Ab) as (m & Em). rewrite Em in *. rewrite b53, b54 in *.
  assert (Zm : (4503599627370496 <= m < 9007199254740992 \/ - 9007199254740992 < m <= - 4503599627370498)%Z).
  { destruct H as [H|H]; [left|right]; split; (apply le_IZR || apply lt_IZR); lra. }
  assert (M : bpow radix2 53 <= Rabs (2 * IZR m + 1) < bpow radix2 54).
  { rewrite b53, b54. destruct Zm as [(Z1 & Z2)|(Z1 & Z2)].
    - assert (m <= 9007199254740991)%Z by lia. apply IZR_le in Z1. apply IZR_le in H0. rewrite Rabs_pos_eq by lra. lra.
    - assert (-9007199254740991 <= m)%Z by lia. apply IZR_le in Z2. apply IZR_le in H0. rewrite Rabs_left1 by lra. lra. }
  destruct (step_mid a m Fa Em M) as (F1 & E1). set (m' := if Z.even m then m else (m + 1)%Z) in *.
  assert (Ev : Z.even m' = true) by (unfold m'; destruct (Z.even m) eqn:E; [exact E|rewrite Z.even_add, E; reflexivity]).
  assert (Rg : (4503599627370496 <= m' <= 9007199254740992 \/ - 9007199254740992 < m' <= - 4503599627370498)%Z).
  { assert (m' = m \/ m' = m + 1)%Z by (unfold m'; destruct (Z.even m); auto).
    destruct Zm as [(Z1 & Z2)|(Z1 & Z2)]; [left; lia|right]. destruct (Z.eq_dec m (- 4503599627370498)) as [Em'|Nm]; [|lia].
    assert (m' = m) by (unfold m'; rewrite Em'; reflexivity). lia. }
  destruct (Z.eq_dec m' 9007199254740992) as [E54|N54]; [apply fadd_one_absorbed; [exact F1|rewrite E1, E54, b54; lra]|].
  assert (M' : bpow radix2 53 <= Rabs (2 * IZR m' + 1) < bpow radix2 54).
  { rewrite b53, b54. destruct Rg as [(Z1 & Z2)|(Z1 & Z2)].
    - assert (m' <= 9007199254740991)%Z by lia. apply IZR_le in Z1. apply IZR_le in H0. rewrite Rabs_pos_eq by lra. lra.
    - assert (-9007199254740991 <= m')%Z by lia. apply IZR_le in Z2. apply IZR_le in H0. rewrite Rabs_left1 by lra. lra. }
  destruct (step_mid _ m' F1 E1 M') as (F2 & E2). rewrite Ev in E2. apply finite_inj; [exact F2|exact F1| |rewrite E1; exact E2].
  rewrite E2. intros E0. assert (IZR m' = 0) by lra. apply eq_IZR in H0. lia.
Qed.
