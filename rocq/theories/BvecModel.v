(** Model of the band properties of src/teflow/bandlib.py on numpy arrays of Fermi levels and temperatures: [romb_dfx] (69-118), [BaseBand] (208-424), [MultiBands] (557-641), the spectral functions of
    APSSPB (749-818), APSSKB (1042-1075) and LinearBand (1234-1269), over any arithmetic.
    The formulas are written once, over any kind of operand [Y], as in VecModel.  Left out: compiled bands (BandModel), bands without [idos] (their carrier concentration is [vquad], ArrModel);
    a sub-band of a [MultiBands] is a simple band. *)
From Coq Require Import ZArith Reals.
From Verif Require Import Py PyStr RUtil RombModel BandModel SpbModel ArrModel VecModel.
Local Open Scope list_scope.

(** more functions of numbers: [np.power] with a natural exponent and with 3/2, the points of [np.linspace(0, w, n+1)] ([f_lin w n j]), [scipy.integrate.romb] of samples *)
Record farith (X : Type) := { f_ar : arith X; f_neg : X -> X; f_exp : X -> X; f_ln : X -> X; f_pow : X -> nat -> X; f_pow32 : X -> X; f_lin : X -> nat -> nat -> X; f_romb : list X -> X }.
Arguments f_ar {X}. Arguments f_neg {X}. Arguments f_exp {X}. Arguments f_ln {X}. Arguments f_pow {X}. Arguments f_pow32 {X}. Arguments f_lin {X}. Arguments f_romb {X}.

(** a band: [_q_sign] and [idos], [trs], [hall]; LinearBand has no Hall function *)
Record vband (X Y : Type) := { vb_sign : X; vb_idos : Y -> Y -> res Y; vb_trs : Y -> Y -> res Y; vb_hall : option (Y -> Y -> res Y) }.
Arguments vb_sign {X Y}. Arguments vb_idos {X Y}. Arguments vb_trs {X Y}. Arguments vb_hall {X Y}.

Section Formulas.
Variable X : Type.
Variable fa : farith X.
Let ar := f_ar fa.
Variable Y : Type.
Variable o1 : (X -> X) -> Y -> Y.
Variable o2 : (X -> X -> X) -> Y -> Y -> res Y.
Variable con : X -> Y.
Let lift2 f (a b : res Y) : res Y := let! x := a in let! y := b in o2 f x y.
Let lift1 f (a : res Y) : res Y := let! x := a in Ok (o1 f x).
Let lit (r : R) : res Y := Ok (con (a_lit ar r)).
Let num (x : X) : res Y := Ok (con x).
Let v (y : Y) : res Y := Ok y.
Let pw (a : res Y) (n : nat) : res Y := lift1 (fun x => f_pow fa x n) a.
Notation "a ⊕ b" := (lift2 (a_add ar) a b) (at level 50, left associativity).
Notation "a ⊖ b" := (lift2 (a_sub ar) a b) (at level 50, left associativity).
Notation "a ⊗ b" := (lift2 (a_mul ar) a b) (at level 40, left associativity).
Notation "a ⊘ b" := (lift2 (a_div ar) a b) (at level 40, left associativity).

(** ** spectral functions of the band classes *)
(** APSSPB: [idos] (762-773), [trs] (775-784), [hall] (786-804) with [Kstar] (807-818) *)
Definition v_spb_idos (m_d : X) (E T : Y) : res Y :=
  let! g := lift1 (f_pow32 fa) (lit 2 ⊗ num m_d ⊗ lit m_e ⊗ lit qe ⊗ v E) ⊘ (lit 3 ⊗ lit PI ⊗ lit PI ⊗ pw (lit hbar) 3) in lit 1e-25 ⊗ v g.
Definition v_spb_trs (sigma0 : X) (E T : Y) : res Y := num sigma0 ⊗ v E ⊘ (lit kB ⊗ v T).
Definition v_Kstar (Kmass : X) : res Y := lit 3 ⊗ num Kmass ⊗ (num Kmass ⊕ lit 2) ⊘ pw (lit 2 ⊗ num Kmass ⊕ lit 1) 2.
Definition v_hall_factor (m_d sigma0 : X) (T : Y) : res Y :=
  let! n0 := lift1 (f_pow32 fa) (lit 2 ⊗ num m_d ⊗ lit m_e ⊗ lit kB ⊗ lit qe ⊗ v T) ⊘ (lit 2 ⊗ lit PI ⊗ lit PI ⊗ pw (lit hbar) 3) in
  pw (num sigma0) 2 ⊘ (lit (2 / 3) ⊗ lit 1e-6 ⊗ v n0 ⊗ lit qe).
Definition v_spb_hall (m_d sigma0 Kmass : X) (E T : Y) : res Y :=
  let! f := v_hall_factor m_d sigma0 T in
  v_Kstar Kmass ⊗ v f ⊗ lift1 (a_sqrt ar) (v E ⊘ (lit kB ⊗ v T)).
Definition v_spb (sign m_d sigma0 Kmass : X) : vband X Y :=
  {| vb_sign := sign; vb_idos := v_spb_idos m_d; vb_trs := v_spb_trs sigma0; vb_hall := Some (v_spb_hall m_d sigma0 Kmass) |}.
(** APSSKB (1050-1071) *)
Definition v_skb_idos (m_d Eg : X) (E T : Y) : res Y :=
  lit 1e-25 ⊗ lift1 (f_pow32 fa) (lit 2 ⊗ num m_d ⊗ lit m_e ⊗ lit qe ⊗ v E ⊗ (lit 1 ⊕ v E ⊘ num Eg)) ⊘ (lit 3 ⊗ lit PI ⊗ lit PI ⊗ pw (lit hbar) 3).
Definition v_skb_trs (sigma0 Eg : X) (E T : Y) : res Y :=
  let! kane := lit 3 ⊗ (lit 1 ⊕ v E ⊘ num Eg) ⊘ (pw (lit 1 ⊕ lit 2 ⊗ v E ⊘ num Eg) 2 ⊕ lit 2) in
  num sigma0 ⊗ v E ⊘ (lit kB ⊗ v T) ⊗ v kane.
Definition v_skb_hall (m_d sigma0 Eg Kmass : X) (E T : Y) : res Y :=
  let! f := v_hall_factor m_d sigma0 T in
  let! kane := lit 9 ⊗ lift1 (a_sqrt ar) (lit 1 ⊕ v E ⊘ num Eg) ⊘ pw (pw (lit 1 ⊕ lit 2 ⊗ v E ⊘ num Eg) 2 ⊕ lit 2) 2 in
  v_Kstar Kmass ⊗ v f ⊗ lift1 (a_sqrt ar) (v E ⊘ (lit kB ⊗ v T)) ⊗ v kane.
Definition v_skb (sign m_d sigma0 Eg Kmass : X) : vband X Y :=
  {| vb_sign := sign; vb_idos := v_skb_idos m_d Eg; vb_trs := v_skb_trs sigma0 Eg; vb_hall := Some (v_skb_hall m_d sigma0 Eg Kmass) |}.
(** LinearBand (1250-1261); [vF] is positive; [sigma0 * np.ones(np.broadcast(E, T).shape)] *)
Definition v_lin_idos (vF : X) (E T : Y) : res Y := pw (lit qe ⊗ v E ⊘ (num vF ⊗ lit hbar)) 3 ⊘ (lit 3e40 ⊗ pw (lit PI) 2).
Definition v_lin_trs (sigma0 : X) (E T : Y) : res Y := num sigma0 ⊗ o2 (fun _ _ => a_lit ar 1) E T.
Definition v_lin (sign vF sigma0 : X) : vband X Y := {| vb_sign := sign; vb_idos := v_lin_idos vF; vb_trs := v_lin_trs sigma0; vb_hall := None |}.

(** ** integrals and properties; [dfx func EF T k] is [romb_dfx] with ndiv = 6 *)
Variable dfx : (Y -> Y -> res Y) -> Y -> Y -> nat -> res Y.
(** [_N], [_K_n], [_CCRH] of a band (208-227, 1267-1269) *)
Definition band_N (b : vband X Y) (EF T : Y) : res Y := dfx (vb_idos b) EF T 0.
Definition band_K (b : vband X Y) (n : nat) (EF T : Y) : res Y := dfx (vb_trs b) EF T n.
Definition band_H (b : vband X Y) (EF T : Y) : res (option Y) :=
  match vb_hall b with None => Ok None | Some f => let! h := num (vb_sign b) ⊗ dfx f EF T 0 in Ok (Some h) end.
(** what the properties use of an object *)
Record vobj := { vo_sign : X; vo_N : Y -> Y -> res Y; vo_K : nat -> Y -> Y -> res Y; vo_H : Y -> Y -> res (option Y) }.
Definition obj_band (b : vband X Y) : vobj := {| vo_sign := vb_sign b; vo_N := band_N b; vo_K := band_K b; vo_H := band_H b |}.
(** MultiBands (557-584): bands with offsets; [self._q_sign] is 1 *)
Definition efr (b : vband X Y) (delta : X) (EF : Y) : res Y := lit (-1) ⊗ num (vb_sign b) ⊗ (v EF ⊖ num delta).
Definition v_total (f : vband X Y -> Y -> res Y) (l : list (vband X Y * X)) (EF : Y) : res Y :=
  fold_left (fun acc bd => acc ⊕ (let! e := efr (fst bd) (snd bd) EF in f (fst bd) e)) l (lit 0).
Definition some (o : option Y) : res Y := match o with Some y => Ok y | None => Err TypeError end.
Definition obj_multi (l : list (vband X Y * X)) : vobj :=
  {| vo_sign := a_lit ar 1;
     vo_N := fun EF T => v_total (fun b e => band_N b e T) l EF;
     vo_K := fun n EF T => v_total (fun b e => num (f_pow fa (vb_sign b) n) ⊗ band_K b n e T) l EF;
     vo_H := fun EF T => let! h := v_total (fun b e => let! h := band_H b e T in some h) l EF in Ok (Some h) |}.
(** the public properties (297-387) of an uncompiled object *)
Definition v_method (o : vobj) (p : prop) (EF T : Y) : res (option Y) :=
  let K n := vo_K o n EF T in
  let sg := num (vo_sign o) in
  let hall (f : res Y -> res Y) : res (option Y) := let! h := vo_H o EF T in let! y := f (some h) in Ok (Some y) in
  let ok (r : res Y) : res (option Y) := let! y := r in Ok (Some y) in
  match p with
  | PN => ok (vo_N o EF T)
  | PK0 | PC => ok (K 0%nat)
  | PK1 => ok (K 1%nat)
  | PK2 => ok (K 2%nat)
  | PCCRH => vo_H o EF T
  | PCS => ok (sg ⊗ lit 1e6 ⊗ lit kB ⊗ K 1%nat)
  | PS => ok (sg ⊗ lit S0 ⊗ K 1%nat ⊘ K 0%nat)
  | PPF => ok (lit 1e6 ⊗ lit kB ⊗ lit kB ⊗ (pw (K 1%nat) 2 ⊘ K 0%nat))
  | PCL => ok (lit 1e2 ⊗ lit kB ⊗ lit kB ⊗ (K 2%nat ⊖ pw (K 1%nat) 2 ⊘ K 0%nat))
  | PL => ok (lit L0 ⊗ (K 2%nat ⊘ K 0%nat ⊖ pw (K 1%nat ⊘ K 0%nat) 2))
  | PKe => ok (lit 1e2 ⊗ lit kB ⊗ lit kB ⊗ (K 2%nat ⊖ pw (K 1%nat) 2 ⊘ K 0%nat) ⊗ v T)
  | PU => ok (K 0%nat ⊘ (sg ⊗ lit qe ⊗ vo_N o EF T ⊗ lit 1e19))
  | PRH => hall (fun h => let! k := K 0%nat in h ⊘ pw (v k) 2)
  | PUH => hall (fun h => let! k := K 0%nat in h ⊘ v k)
  | PNH => hall (fun h => lit 1e-19 ⊗ pw (K 0%nat) 2 ⊘ h ⊘ (sg ⊗ lit qe))
  end.
(** [Kbip] (612-641): totals of the conduction bands (sign below 0, [neg]) and of the valence bands *)
Definition bip_step (neg : X -> bool) (T EF : Y) (acc : res (Y * Y * Y * Y)) (bd : vband X Y * X) : res (Y * Y * Y * Y) :=
  let! (c0, c1, v0, v1) := acc in
  let (b, d) := bd in
  if neg (vb_sign b) then
    let! e := v EF ⊖ num d in
    let! x := v c0 ⊕ band_K b 0 e T in let! y := v c1 ⊖ band_K b 1 e T in Ok (x, y, v0, v1)
  else
    let! e := num d ⊖ v EF in
    let! x := v v0 ⊕ band_K b 0 e T in let! y := v v1 ⊕ band_K b 1 e T in Ok (c0, c1, x, y).
Definition v_Kbip (neg : X -> bool) (l : list (vband X Y * X)) (EF T : Y) : res Y :=
  let o := con (a_lit ar 0) in
  let! (c0, c1, v0, v1) := fold_left (bip_step neg T EF) l (Ok (o, o, o, o)) in
  match existsb (fun bd => neg (vb_sign (fst bd))) l, existsb (fun bd => negb (neg (vb_sign (fst bd)))) l with
  | false, false => Ok o
  | false, true => Ok (o1 (fun _ => a_lit ar 0) v0)
  | true, false => Ok (o1 (fun _ => a_lit ar 0) c0)
  | true, true =>
      let! pr := (pw (v c1) 2 ⊘ v c0 ⊕ pw (v v1) 2 ⊘ v v0) ⊖ pw (v c1 ⊕ v v1) 2 ⊘ (v c0 ⊕ v v0) in
      lit 1e2 ⊗ lit kB ⊗ lit kB ⊗ v pr ⊗ v T
  end.
End Formulas.

(** ** numpy arrays *)
(** [np.linspace(0, W, n+1)] for an array [W]: a new first axis (111) *)
Definition nd_lin {X : Type} (lin : X -> nat -> nat -> X) (n : nat) (W : nd X) : nd X :=
  Nd (S n :: shape W) (flat_map (fun j => List.map (fun w => lin w n j) (flat W)) (seq 0 (S n))).
(** [A[1:-1] = B[1:-1]] (116); [B] is computed here on all rows *)
Definition set_inner {X : Type} (x0 : X) (n : nat) (A B : nd X) : nd X :=
  Nd (shape A) (List.map (fun k => let j := (k / size (tl (shape A)))%nat in nth k (if (Nat.eqb j 0 || Nat.eqb j n)%bool then flat A else flat B) x0) (seq 0 (size (shape A)))).
(** [romb(A, axis=0)] *)
Definition romb0 {X : Type} (x0 : X) (rm : list X -> X) (n : nat) (A : nd X) : nd X :=
  let s := tl (shape A) in
  Nd s (List.map (fun k => rm (List.map (fun j => nth (j * size s + k) (flat A) x0) (seq 0 (S n)))) (seq 0 (size s))).

Section Arrays.
Variable X : Type.
Variable fa : farith X.
Let ar := f_ar fa.
Let z := a_lit ar 0%R.
Let lift2 f (a b : res (nd X)) : res (nd X) := let! x := a in let! y := b in u2 z f x y.
Let lift1 f (a : res (nd X)) : res (nd X) := let! x := a in Ok (u1 f x).
Let lit (r : R) : res (nd X) := Ok (con0 (a_lit ar r)).
Let v (y : nd X) : res (nd X) := Ok y.
Let pw (a : res (nd X)) (n : nat) : res (nd X) := lift1 (fun x => f_pow fa x n) a.
Notation "a ⊕ b" := (lift2 (a_add ar) a b) (at level 50, left associativity).
Notation "a ⊖ b" := (lift2 (a_sub ar) a b) (at level 50, left associativity).
Notation "a ⊗ b" := (lift2 (a_mul ar) a b) (at level 40, left associativity).
Notation "a ⊘ b" := (lift2 (a_div ar) a b) (at level 40, left associativity).
(** [romb_dfx] (105-123): first the reduced Fermi level and the width of the window, then the samples, then the sum *)
Definition nd_width (EF T : nd X) : res (nd X * nd X * nd X) :=
  let! kT := lit kB ⊗ v T in
  let! y := v EF ⊘ v kT in
  let! w := lit 1 ⊘ (lit 1 ⊕ lift1 (f_exp fa) (lift1 (f_neg fa) (v y) ⊘ lit 3)) in
  Ok (kT, y, w).
Definition nd_samples (func : nd X -> nd X -> res (nd X)) (EF T : nd X) (k n : nat) (kT y w : nd X) : res (nd X) :=
  let tp := nd_lin (f_lin fa) n w in
  let! x0 := v (u1 (fun _ => z) tp) ⊖ v y ⊕ lit 1e-10 in
  let! x1 := lit 3 ⊗ lift1 (f_ln fa) (lit 1 ⊘ v tp ⊖ lit 1) in
  let xp := set_inner z n x0 x1 in
  let! e := v kT ⊗ v xp ⊕ v EF in
  let! fp := func e T in
  let! wt := pw (v xp) k ⊗ lit 3 ⊗ pw (v tp ⊗ (lit 1 ⊖ v tp)) 2 ⊘ pw (pw (v tp) 3 ⊕ pw (lit 1 ⊖ v tp) 3) 2 in
  v fp ⊗ v wt.
Definition nd_dfx (func : nd X -> nd X -> res (nd X)) (EF T : nd X) (k : nat) : res (nd X) :=
  let n := 64%nat in
  let! (kT, y, w) := nd_width EF T in
  let! a := nd_samples func EF T k n kT y w in
  v (romb0 z (f_romb fa) n a) ⊗ v w ⊘ lit (INR n).

(** [solve_EF] (389-424): [np.vectorize(_solve)(value, T)]: it needs an element, tries the first ones, then broadcasts *)
Variable solve : X -> X -> res X.
Definition nd_solve (value T : nd X) : res (nd X) :=
  match flat value, flat T with
  | x :: _, t :: _ =>
      let! _ := solve x t in
      let! s := broadcast_shape [shape value; shape T] in
      let! l := mapM (fun k => solve (bc_get z value (unravel s k)) (bc_get z T (unravel s k))) (seq 0 (size s)) in
      Ok (Nd s l)
  | _, _ => Err ValueError
  end.
(** the properties of one band and of several *)
Definition nd_band (b : vband X (nd X)) (p : prop) (EF T : nd X) : res (option (nd X)) := v_method X fa (nd X) u1 (u2 z) con0 (obj_band X fa (nd X) (u2 z) con0 nd_dfx b) p EF T.
Definition nd_multi (items : list (vband X (nd X) * X)) (p : prop) (EF T : nd X) : res (option (nd X)) := v_method X fa (nd X) u1 (u2 z) con0 (obj_multi X fa (nd X) (u2 z) con0 nd_dfx items) p EF T.
Definition nd_Kbip (neg : X -> bool) (items : list (vband X (nd X) * X)) (EF T : nd X) : res (nd X) := v_Kbip X fa (nd X) u1 (u2 z) con0 nd_dfx neg items EF T.
End Arrays.

(** ** single numbers *)
Section Single.
Variable X : Type.
Variable fa : farith X.
Let ar := f_ar fa.
Let z := a_lit ar 0%R.
Let s1 (f : X -> X) (x : X) := f x.
Let s2 (f : X -> X -> X) (x y : X) : res X := Ok (f x y).
Let c (x : X) := x.
Let add := a_add ar. Let sub := a_sub ar. Let mul := a_mul ar. Let div := a_div ar. Let lit := a_lit ar.
Definition one_kT (T : X) : X := mul (lit kB) T.
Definition one_width (EF T : X) : X := div (lit 1) (add (lit 1) (f_exp fa (div (f_neg fa (div EF (one_kT T))) (lit 3)))).
Definition one_xp (EF T : X) (n j : nat) : X :=
  if (Nat.eqb j 0 || Nat.eqb j n)%bool then add (sub z (div EF (one_kT T))) (lit 1e-10)
  else mul (lit 3) (f_ln fa (sub (div (lit 1) (f_lin fa (one_width EF T) n j)) (lit 1))).
Definition one_sample (f : X -> X -> X) (EF T : X) (k n j : nat) : X :=
  let t := f_lin fa (one_width EF T) n j in
  let x := one_xp EF T n j in
  let p a m := f_pow fa a m in
  mul (f (add (mul (one_kT T) x) EF) T)
      (div (mul (mul (p x k) (lit 3)) (p (mul t (sub (lit 1) t)) 2%nat)) (p (add (p t 3%nat) (p (sub (lit 1) t) 3%nat)) 2%nat)).
Definition one_dfx (f : X -> X -> X) (EF T : X) (k : nat) : X :=
  let n := 64%nat in
  div (mul (f_romb fa (List.map (one_sample f EF T k n) (seq 0 (S n)))) (one_width EF T)) (lit (INR n)).
(** total spectral functions only *)
Definition val (d : X) (r : res X) : X := match r with Ok x => x | Err _ => d end.
Definition s_dfx (func : X -> X -> res X) (EF T : X) (k : nat) : res X := Ok (one_dfx (fun e t => val z (func e t)) EF T k).
Definition one_band (b : vband X X) (p : prop) (EF T : X) : res (option X) := v_method X fa X s1 s2 c (obj_band X fa X s2 c s_dfx b) p EF T.
Definition one_multi (items : list (vband X X * X)) (p : prop) (EF T : X) : res (option X) := v_method X fa X s1 s2 c (obj_multi X fa X s2 c s_dfx items) p EF T.
Definition one_Kbip (neg : X -> bool) (items : list (vband X X * X)) (EF T : X) : res X := v_Kbip X fa X s1 s2 c s_dfx neg items EF T.
Definition one_spb := v_spb X fa X s1 s2 c.
Definition one_skb := v_skb X fa X s1 s2 c.
Definition one_lin := v_lin X fa X s1 s2 c.
End Single.
Section Arrays2.
Variable X : Type.
Variable fa : farith X.
Let z := a_lit (f_ar fa) 0%R.
Definition nd_spb := v_spb X fa (nd X) u1 (u2 z) con0.
Definition nd_skb := v_skb X fa (nd X) u1 (u2 z) con0.
Definition nd_linear := v_lin X fa (nd X) u1 (u2 z) con0.
End Arrays2.
