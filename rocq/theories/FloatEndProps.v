(** C09: exactly when 'a:b' terminates in floating point (src/teflow/utils.py:385-390). *)
From Coq Require Import ZArith List Reals Lra Lia.
From Flocq Require Import Core IEEE754.BinarySingleNaN.
From Verif Require Import FloatSeqModel FloatSeqProofs FloatSeqProps FloatEndProofs.
Import ListNotations.
Local Open Scope R_scope.

(** the constants of the loop: 1 exactly, and the double nearest to 0.0001 (no double is closer) *)
Theorem C09_constants : B2R one64 = 1 /\ is_finite eps64 = true /\ forall x : f64, is_finite x = true -> Rabs (B2R eps64 - / 10000) <= Rabs (B2R x - / 10000).
Proof.
  split; [exact B2R_one|]. split; [reflexivity|]. intros x Fx.
  assert (E : B2R eps64 = rd (/ 10000)).
  { assert (V : B2R eps64 = 7378697629483821 / 73786976294838206464).
    { unfold eps64, B2R, F2R; cbn [Fnum Fexp cond_Zopp]. change (bpow radix2 (-66)) with (/ IZR (Z.pow_pos 2 66)).
      replace (Z.pow_pos 2 66) with 73786976294838206464%Z by reflexivity. reflexivity. }
    rewrite V. unfold rd, round.
    assert (C : cexp radix2 fx (/ 10000) = (- 66)%Z).
    { unfold cexp. rewrite (mag_unique radix2 _ (- 13)); [reflexivity|]. rewrite Rabs_pos_eq by lra.
      change (bpow radix2 (-13 - 1)) with (/ IZR (Z.pow_pos 2 14)). change (bpow radix2 (-13)) with (/ IZR (Z.pow_pos 2 13)).
      replace (Z.pow_pos 2 14) with 16384%Z by reflexivity. replace (Z.pow_pos 2 13) with 8192%Z by reflexivity. lra. }
    unfold scaled_mantissa. rewrite C. change (bpow radix2 (- - 66)) with (IZR (Z.pow_pos 2 66)). replace (Z.pow_pos 2 66) with 73786976294838206464%Z by reflexivity.
    rewrite (Znearest_imp _ _ 7378697629483821). 2:{ apply Rabs_def1; lra. }
    unfold F2R. cbn [Fnum Fexp]. change (bpow radix2 (-66)) with (/ IZR (Z.pow_pos 2 66)). replace (Z.pow_pos 2 66) with 73786976294838206464%Z by reflexivity. reflexivity. }
  rewrite E. unfold rd. destruct (round_N_pt radix2 fx (fun t => negb (Z.even t)) (/ 10000)) as (_ & H). apply H. apply generic_format_B2R.
Qed.
Print Assumptions C09_constants.

(** For every start up to 2^53 in magnitude and every end: the loop terminates exactly if the end is not above 2^53. *)
Theorem C09_terminates_exactly : forall a e : f64, is_finite a = true -> Rabs (B2R a) <= bpow radix2 53 ->
  ((exists n, loop_after n a e = None) <-> flt two53 e = false).
Proof.
  intros a e Fa Ha. split; [|exact (loop_ends a e Fa Ha)]. intros (n & Hn). destruct (flt two53 e) eqn:E; [|reflexivity].
  destruct (loop_forever a e Fa Ha E n) as (s & l & H). rewrite Hn in H. discriminate.
Qed.
Print Assumptions C09_terminates_exactly.

(** For every other finite start except -2^53-2: exactly if the start or its successor is not below the end; the successor then repeats. *)
Theorem C09_large_starts : forall a e : f64, is_finite a = true -> bpow radix2 53 <= B2R a \/ B2R a <= - bpow radix2 53 - 4 ->
  let a1 := fadd a one64 in
  ((exists n, loop_after n a e = None) <-> flt a e = false \/ flt a1 e = false) /\
  (flt a e = true -> flt a1 e = true -> forall n, loop_after (S n) a e = Some (a1, a :: repeat a1 n)).
Proof.
  intros a e Fa H a1. assert (St : fadd a1 one64 = a1) by (exact (large_stuck a Fa H)).
  assert (Run : flt a e = true -> flt a1 e = true -> forall n, loop_after (S n) a e = Some (a1, a :: repeat a1 n)).
  { intros E0 E1. induction n as [|n IH].
    - cbn [loop_after]. rewrite E0. cbv zeta. fold a1. rewrite E1. reflexivity.
    - change (loop_after (S (S n)) a e) with (match loop_after (S n) a e with None => None | Some (s, acc) => let s' := fadd s one64 in if flt s' e then Some (s', acc ++ [s]) else None end).
      rewrite IH. cbv zeta. rewrite St, E1. cbn [app]. rewrite repeat_snoc. reflexivity. }
  split; [|exact Run]. split.
  - intros (n & Hn). destruct (flt a e) eqn:E0; [|left; reflexivity]. destruct (flt a1 e) eqn:E1; [|right; reflexivity]. exfalso.
    destruct n as [|n]; [cbn in Hn; rewrite E0 in Hn; discriminate|]. rewrite (Run eq_refl eq_refl n) in Hn. discriminate.
  - intros [E0|E1]; [exists 0%nat; cbn [loop_after]; rewrite E0; reflexivity|]. exists 1%nat. cbn [loop_after]. destruct (flt a e); [|reflexivity]. cbv zeta. fold a1. rewrite E1. reflexivity.
Qed.
Print Assumptions C09_large_starts.

(** An infinite end ('1:inf'): from every finite start the list grows for ever. *)
Theorem C09_infinite_end : forall (a : f64) (n : nat), is_finite a = true -> exists s l, loop_after n a (fadd (B754_infinity false) eps64) = Some (s, l) /\ length l = n.
Proof.
  intros a n Fa. change (fadd (B754_infinity false) eps64) with (@B754_infinity 53 1024 false). destruct (loop_inf a Fa n) as (s & l & E & _ & L). exists s, l. auto.
Qed.
Print Assumptions C09_infinite_end.
(** the cases are met: -3 to 10 ends, 0 to 2^54 does not, 2^53+2 advances once *)
Definition two53_2 : f64 := @B754_finite 53 1024 false 4503599627370497 1 eq_refl.
Example C09_exact_case : flt two53 two54 = true /\ flt two53 (fadd one64 one64) = false /\ fadd two53_2 one64 <> two53_2 /\ bpow radix2 53 <= B2R two53_2.
Proof.
  split; [vm_compute; reflexivity|]. split; [vm_compute; reflexivity|]. split.
  - intros E. apply (f_equal (@B2SF 53 1024)) in E. vm_compute in E. discriminate.
  - rewrite b53. unfold two53_2, B2R, F2R; cbn [Fnum Fexp cond_Zopp]. change (bpow radix2 1) with 2. lra.
Qed.
