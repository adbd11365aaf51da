(** Vocabulary for lattice thermal conductivity on arrays; no reference to the formulas of the model on arrays. *)
From Coq Require Import ZArith Reals String.
From Verif Require Import Py PyDict PyStr RUtil ScatModel DebyeModel ArrModel ArrSpec VecModel VecSpec BvecSpec KvecModel.
Local Open Scope list_scope.

(** [F] broadcasts the function [f] of two numbers: the result has the common shape and, at every index, the value of [f] at the numbers there *)
Definition bcast2 {X} (F : nd X -> nd X -> res (nd X)) (f : X -> X -> res X) : Prop :=
  (forall a b, exists c, f a b = Ok c)
  /\ forall A B s, array A -> array B -> common [shape A; shape B] s -> exists C, F A B = Ok C /\ pointwise (fun a b c => f a b = Ok c) A B C s.
(** [F] applies [f] to every element *)
Definition bcast1 {X} (F : nd X -> res (nd X)) (f : X -> res X) : Prop :=
  forall A, array A -> exists C, F A = Ok C /\ array C /\ shape C = shape A /\ forall i a, elem A i a -> exists c, f a = Ok c /\ elem C i c.
(** mechanisms on arrays and on numbers, under the same tags *)
Definition same_mechs {X} (L : list (str * (nd X -> nd X -> res (nd X)))) (l : list (str * (X -> X -> res X))) : Prop := Forall2 (fun M m => fst M = fst m /\ bcast2 (snd M) (snd m)) L l.
Definition same_models {X} (L : list (str * (nd X -> res (nd X)))) (l : list (str * (X -> res X))) : Prop := Forall2 (fun M m => fst M = fst m /\ bcast1 (snd M) (snd m)) L l.
(** a dictionary of arrays of shape [s] that shows at every index the dictionary [f] gives for the numbers there *)
Definition shows {X} (f : X -> X -> res (list (str * X))) (A B : nd X) (D : list (str * nd X)) (s : list nat) : Prop :=
  Forall (fun E => array (snd E) /\ shape (snd E) = s) D
  /\ forall i a b, index s i -> sees A i a -> sees B i b -> exists d, f a b = Ok d /\ Forall2 (fun E e => fst E = fst e /\ elem (snd E) i (snd e)) D d.
(** running trapezoids of [Y] along axis [ax]; [x p k q]: the abscissa at position [k] of the axis, at the other coordinates [p] and [q] *)
Definition running {X} (ar : arith X) (Y C : nd X) (ax : nat) (x : list nat -> nat -> list nat -> X -> Prop) : Prop :=
  array C /\ shape C = shape Y /\
  forall p q, List.length p = ax ->
    (forall c, elem C (p ++ 0%nat :: q) c -> c = a_lit ar 0)
    /\ forall k c' x0 x1 y0 y1, elem C (p ++ S k :: q) c' -> x p k q x0 -> x p (S k) q x1 -> elem Y (p ++ k :: q) y0 -> elem Y (p ++ S k :: q) y1 ->
         let t := a_div ar (a_mul ar (a_sub ar x1 x0) (a_add ar y1 y0)) (a_lit ar 2) in
         match k with O => c' = t | _ => exists c, elem C (p ++ k :: q) c /\ c' = a_add ar c t end.
(** one axis of frequencies, or as many axes as the result *)
Definition freq_at {X} (w : nd X) (p : list nat) (k : nat) (q : list nat) (x : X) : Prop :=
  match shape w with [_] => elem w [k] x | _ => sees w (p ++ k :: q) x end.
(** real numbers *)
Definition real_ka : karith R :=
  {| k_ar := {| a_lit := fun r => r; a_add := Rplus; a_sub := Rminus; a_mul := Rmult; a_div := Rdiv; a_sqrt := sqrt |};
     k_neg := Ropp; k_exp := exp; k_ln := ln; k_abs := Rabs; k_atan := atan; k_pow := pow; k_rpow := Rpower; k_max := Rmax; k_min := Rmin; k_sum := sumR;
     k_le := fun a b => if Rle_dec a b then true else false; k_lt := fun a b => if Rlt_dec a b then true else false; k_zero := fun a => if Req_EM_T a 0 then true else false |}.
(** the rates of ScatModel *)
Definition rate_of (m : mechanism R) (w T : R) : res R :=
  match m with
  | MPH gm vs Va Ma A Theta => Ok (ph_rate (PHfull gm vs Va Ma A Theta) w T)
  | MPHX coef Theta => Ok (ph_rate (PHcoef coef Theta) w T)
  | MPD vs Va G => Ok (pd_rate (PDfull vs Va G) w T)
  | MPDX coef => Ok (pd_rate (PDcoef coef) w T)
  | MGB vs L alpha => Ok (gb_rate vs L alpha w T)
  | MNP N1 vs r D0 D1 Y0 Y1 alpha => Ok (np_rate {| np_frac := false; np_N1_or_phi := N1; np_vs := vs; np_R := r; np_D0 := D0; np_D1 := D1; np_Y0 := Y0; np_Y1 := Y1; np_alpha := alpha |} w T)
  | MNPX phi vs r D0 D1 Y0 Y1 alpha => Ok (np_rate {| np_frac := true; np_N1_or_phi := phi; np_vs := vs; np_R := r; np_D0 := D0; np_D1 := D1; np_Y0 := Y0; np_Y1 := Y1; np_alpha := alpha |} w T)
  | MDL Nl vs Va Bd gm F alpha => Ok (dl_rate Nl vs Va Bd gm F alpha w T)
  | MSF Nsf vs Va gm alpha => Ok (sf_rate Nsf vs Va gm alpha w T)
  | MEP vs md EF Ed D0 Rep coef => ep_rate {| e_vs := vs; e_md := md; e_EF := EF; e_Ed := Ed; e_D0 := D0; e_Rep := Rep; e_coef := coef |} w T
  | MCAHILL alpha => Ok (cahill_rate alpha w T)
  end.
Definition as_mechs (l : list (str * (R -> R -> R))) : list (str * (R -> R -> res R)) := List.map (fun m => (fst m, fun w T => Ok (snd m w T))) l.
