(** The two-number branch of [CfgParser.parse_seq] on IEEE binary64
    (src/teflow/utils.py:385-390), with Flocq's [binary_float 53 1024]. *)
From Coq Require Import ZArith List.
From Flocq Require Import Core IEEE754.BinarySingleNaN.
Import ListNotations.
Local Open Scope Z_scope.

#[global] Instance prec53 : Prec_gt_0 53 := eq_refl.
#[global] Instance emax1024 : Prec_lt_emax 53 1024 := eq_refl.
Definition f64 := binary_float 53 1024.

(** Python's [+] on floats: round to nearest, ties to even. *)
Definition fadd : f64 -> f64 -> f64 := Bplus mode_NE.
Definition flt : f64 -> f64 -> bool := Bltb.

Definition one64 : f64 := @B754_finite 53 1024 false 4503599627370496 (-52) eq_refl.
(** The double nearest to 1E-4: 7378697629483821 * 2^-66. *)
Definition eps64 : f64 := @B754_finite 53 1024 false 7378697629483821 (-66) eq_refl.

(** The loop of lines 388-390 after [n] iterations: [Some (start, result)] while
    still running, [None] once the loop has been left. [e] is [end + 1E-4]. *)
Fixpoint loop_after (n : nat) (start e : f64) : option (f64 * list f64) :=
  match n with
  | O => if flt start e then Some (start, []) else None
  | S m => match loop_after m start e with
           | None => None
           | Some (s, acc) =>
               let s' := fadd s one64 in                       (* start += 1 *)
               if flt s' e then Some (s', acc ++ [s]) else None
           end
  end.
