(** C09: 'a:b' never terminates for large floats (src/teflow/utils.py:385-390). *)
From Coq Require Import ZArith List Reals.
From Flocq Require Import Core IEEE754.BinarySingleNaN.
From Verif Require Import FloatSeqModel FloatSeqProofs.
Import ListNotations.

(** Every finite start a >= 2^54 and every end b (possibly infinite) for which the loop is
    entered: after any number n of iterations the loop is still running, [start] is still a
    and the result holds n copies of a. *)
Theorem C09_never_terminates :
  forall (a b : f64) (n : nat),
  is_finite a = true -> (bpow radix2 54 <= B2R a)%R -> flt a (fadd b eps64) = true ->
  loop_after n a (fadd b eps64) = Some (a, repeat a n).
Proof. intros a b n Hf Ha Hb. exact (loop_stuck _ _ (fadd_one_absorbed a Hf Ha) Hb n). Qed.
Print Assumptions C09_never_terminates.

(** The smallest such start, 2^53. *)
Definition two53 : f64 := @B754_finite 53 1024 false 4503599627370496 1 eq_refl.
Theorem C09_never_terminates_2_53 :
  forall (b : f64) (n : nat),
  flt two53 (fadd b eps64) = true -> loop_after n two53 (fadd b eps64) = Some (two53, repeat two53 n).
Proof.
  intros b n Hb. apply loop_stuck; [|exact Hb].
  assert (E : B2SF (fadd two53 one64) = B2SF two53) by (vm_compute; reflexivity).
  apply B2SF_inj in E; exact E.
Qed.
Print Assumptions C09_never_terminates_2_53.

(** Non-vacuity: a = 2^54, b = a + 4; and 0:3 does terminate in the model. *)
Definition two54 : f64 := @B754_finite 53 1024 false 4503599627370496 2 eq_refl.
Definition two54_4 : f64 := @B754_finite 53 1024 false 4503599627370497 2 eq_refl.
Example C09_case : flt two54 (fadd two54_4 eps64) = true /\ is_finite two54 = true.
Proof. split; vm_compute; reflexivity. Qed.
Example C09_terminates : loop_after 4 (B754_zero false) (fadd (fadd one64 (fadd one64 one64)) eps64) = None.
Proof. vm_compute. reflexivity. Qed.
