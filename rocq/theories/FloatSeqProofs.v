From Coq Require Import ZArith List Reals Lra Lia.
From Flocq Require Import Core IEEE754.BinarySingleNaN.
From Verif Require Import FloatSeqModel.
Import ListNotations.
Local Open Scope R_scope.

Notation fx := (SpecFloat.fexp 53 1024).

Lemma B2R_one : B2R one64 = 1.
Proof.
  unfold one64, B2R, F2R; cbn [Fnum Fexp cond_Zopp].
  change (bpow radix2 (-52)) with (/ IZR (Z.pow_pos 2 52)). 
  replace (Z.pow_pos 2 52) with 4503599627370496%Z by reflexivity. lra.
Qed.

Lemma fadd_one_absorbed (a : f64) :
  is_finite a = true -> bpow radix2 54 <= B2R a -> fadd a one64 = a.
Proof.
  intros Hf Ha. assert (Hpos : 0 <= bpow radix2 54) by apply bpow_ge_0.
  assert (Hgf : generic_format radix2 fx (B2R a)) by apply generic_format_B2R.
  assert (Hv : Valid_exp fx) by (apply fexp_correct; exact prec53).
  assert (Hmono : Monotone_exp fx) by (apply fexp_monotone).
  assert (Hulp : 4 <= ulp radix2 fx (B2R a)).
  { apply Rle_trans with (ulp radix2 fx (bpow radix2 54)).
    - rewrite ulp_bpow. change (fx (54 + 1)) with 2%Z. change (bpow radix2 2) with 4. lra.
    - apply ulp_le_pos; try assumption. }
  assert (Hround : round radix2 fx ZnearestE (B2R a + 1) = B2R a).
  { apply Rle_antisym.
    - apply round_N_le_midp; try assumption. rewrite succ_eq_pos by lra. lra.
    - rewrite <- (round_generic radix2 fx ZnearestE (B2R a)) at 1 by exact Hgf.
      apply round_le; [exact Hv|apply valid_rnd_N|lra]. }
  pose proof (Bplus_correct 53 1024 prec53 emax1024 mode_NE a one64 Hf eq_refl) as H.
  rewrite B2R_one in H. cbn [round_mode] in H. rewrite Hround in H.
  rewrite Rlt_bool_true in H by apply abs_B2R_lt_emax.
  destruct H as (HR & Hfin & _). fold (fadd a one64) in HR, Hfin.
  assert (H1 : 1 <= bpow radix2 54) by (change 1 with (bpow radix2 0); apply bpow_le; lia).
  apply B2R_inj; [| |exact HR].
  - destruct (fadd a one64); try discriminate; [cbn in HR; exfalso; cbn in *; lra|reflexivity].
  - destruct a; try discriminate; [cbn in Ha; exfalso; lra|reflexivity].
Qed.

Lemma repeat_snoc {A} (x : A) n : repeat x n ++ [x] = repeat x (S n).
Proof. induction n as [|n IH]; cbn; [reflexivity|rewrite IH; reflexivity]. Qed.

Lemma loop_stuck a e : fadd a one64 = a -> flt a e = true ->
  forall n, loop_after n a e = Some (a, repeat a n).
Proof.
  intros Ha He n; induction n as [|n IH]; cbn [loop_after]; [rewrite He; reflexivity|].
  rewrite IH, Ha, He, repeat_snoc; reflexivity.
Qed.
