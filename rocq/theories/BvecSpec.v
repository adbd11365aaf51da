(** Vocabulary for band properties on arrays; no reference to the formulas of the model. *)
From Coq Require Import ZArith Reals.
From Verif Require Import Py PyStr RUtil RombModel BandModel SpbModel ArrModel ArrSpec VecModel VecSpec BvecModel.
Local Open Scope list_scope.

(** [C] has the given shape and at every index the value that [f] gives for what [A] and [B] show there *)
Definition pointwise {X} (f : X -> X -> X -> Prop) (A B C : nd X) (s : list nat) : Prop :=
  array C /\ shape C = s /\ forall i a b, index s i -> sees A i a -> sees B i b -> exists c, f a b c /\ elem C i c.
(** a spectral function of arrays that broadcasts the function [f] of numbers, for an array of energies not smaller than that of temperatures *)
Definition broadcasts {X} (func : nd X -> nd X -> res (nd X)) (f : X -> X -> res X) : Prop :=
  (forall e t, exists c, f e t = Ok c)
  /\ forall E T, array E -> array T -> fits (shape T) (shape E) -> exists C, func E T = Ok C /\ pointwise (fun e t c => f e t = Ok c) E T C (shape E).
(** a band on arrays and the band on numbers *)
Definition same_band {X} (B : vband X (nd X)) (b : vband X X) : Prop :=
  vb_sign B = vb_sign b /\ broadcasts (vb_idos B) (vb_idos b) /\ broadcasts (vb_trs B) (vb_trs b)
  /\ match vb_hall B, vb_hall b with Some F, Some f => broadcasts F f | None, None => True | _, _ => False end.
Definition same_bands {X} (L : list (vband X (nd X) * X)) (l : list (vband X X * X)) : Prop := Forall2 (fun Bd bd => same_band (fst Bd) (fst bd) /\ snd Bd = snd bd) L l.
(** properties that need the Hall integral *)
Definition hall_prop (p : prop) : Prop := p = PCCRH \/ p = PRH \/ p = PUH \/ p = PNH.
(** all sub-bands have a Hall function *)
Definition all_hall {X Y} (l : list (vband X Y * X)) : Prop := forall b d, In (b, d) l -> vb_hall b <> None.
(** the real numbers as the arithmetic, with scipy's Romberg rule on 65 samples *)
Definition real_fa : farith R :=
  {| f_ar := {| a_lit := fun r => r; a_add := Rplus; a_sub := Rminus; a_mul := Rmult; a_div := Rdiv; a_sqrt := sqrt |};
     f_neg := Ropp; f_exp := exp; f_ln := ln; f_pow := pow; f_pow32 := pow32; f_lin := fun w n j => (INR j * (w / INR n))%R; f_romb := fun l => rombR (fun i => nth i l 0%R) 6 |}.
(** the integrals of a band of real functions, as BandModel has them *)
Definition as_raw (b : vband R R) : raw :=
  let f g := fun e t => val R 0%R (g e t) in
  {| r_N := fun EF T => romb_dfx (f (vb_idos b)) EF T 0 6; r_K := fun n EF T => romb_dfx (f (vb_trs b)) EF T n 6;
     r_H := match vb_hall b with Some g => Some (fun EF T => romb_dfx (f g) EF T 0 6) | None => None end |}.
Definition as_band (b : vband R R) : band := {| b_raw := as_raw b; b_sign := vb_sign b; b_cache := None |}.
Definition as_items (h : heap) (l : list (vband R R * R)) (its : list (nat * R)) : Prop := Forall2 (fun bd id => h (fst id) = as_band (fst bd) /\ snd id = snd bd) l its.
Definition neg_real (x : R) : bool := if Rlt_dec x 0 then true else false.
