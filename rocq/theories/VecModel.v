(** Model of the generator formulas of src/teflow/engout.py on numpy arrays of temperatures, ratios and currents (52-265, 273-330, 372-498), over any arithmetic.
    The formulas are written once, over any kind of operand [Y] with element-wise operations that may fail ([o2]) or not ([o1]); they are used for numpy arrays (operations with broadcasting) and for single numbers.
    Left out: logging; I_r = 'scan' (EngModel); dtype conversions; the data tables, which enter through the functions interpolated from them. *)
From Coq Require Import ZArith Reals.
From Verif Require Import Py PyStr RUtil EngModel ArrModel.
Local Open Scope list_scope.

(** any arithmetic: doubles with their rounding, inf and nan, or real numbers *)
Record arith (X : Type) := { a_lit : R -> X; a_add : X -> X -> X; a_sub : X -> X -> X; a_mul : X -> X -> X; a_div : X -> X -> X; a_sqrt : X -> X }.
Arguments a_lit {X}. Arguments a_add {X}. Arguments a_sub {X}. Arguments a_mul {X}. Arguments a_div {X}. Arguments a_sqrt {X}.
(** functions of temperature made from the data: S itself, and the cumulated integrals of Rho, S, K, T*Rho, T*S (154-183) *)
Record tables (X : Type) := { t_S : X -> X; t_iRho : X -> X; t_iS : X -> X; t_iK : X -> X; t_iRhoT : X -> X; t_iST : X -> X }.
Arguments t_S {X}. Arguments t_iRho {X}. Arguments t_iS {X}. Arguments t_iK {X}. Arguments t_iRhoT {X}. Arguments t_iST {X}.

Record vitgs (Y : Type) := VItgs { vTc : Y; vTh : Y; vDT : Y; vSc : Y; vSh : Y; vRho : Y; vS : Y; vK : Y; vRhoT : Y; vST : Y }.
Arguments VItgs {Y}. Arguments vTc {Y}. Arguments vTh {Y}. Arguments vDT {Y}. Arguments vSc {Y}. Arguments vSh {Y}. Arguments vRho {Y}. Arguments vS {Y}. Arguments vK {Y}. Arguments vRhoT {Y}. Arguments vST {Y}.
Record vmdfs (Y : Type) := VMdfs { nRho : Y; nS : Y; nRhoW : Y; nSW : Y; nRhoT : Y; nST : Y; n0 : Y; n1 : Y; n2 : Y }.
Arguments VMdfs {Y}. Arguments nRho {Y}. Arguments nS {Y}. Arguments nRhoW {Y}. Arguments nSW {Y}. Arguments nRhoT {Y}. Arguments nST {Y}. Arguments n0 {Y}. Arguments n1 {Y}. Arguments n2 {Y}.
Record vwgts (Y : Type) := VWgts { wgJ : Y; wgT : Y; wg0 : Y; wg1 : Y; wg2 : Y }.
Arguments VWgts {Y}. Arguments wgJ {Y}. Arguments wgT {Y}. Arguments wg0 {Y}. Arguments wg1 {Y}. Arguments wg2 {Y}.
Record vprfs (Y : Type) := VPrfs { vpDT : Y; vpPFeng : Y; vpZeng : Y; vpZTeng : Y; vpZTp : Y; vpm : Y; vpVoc : Y; vpIsc : Y; vpQx : Y; vpitgs : vitgs Y; vpmdfs : vmdfs Y; vpwgts : option (vwgts Y) }.
Arguments VPrfs {Y}. Arguments vpDT {Y}. Arguments vpPFeng {Y}. Arguments vpZeng {Y}. Arguments vpZTeng {Y}. Arguments vpZTp {Y}. Arguments vpm {Y}. Arguments vpVoc {Y}. Arguments vpIsc {Y}. Arguments vpQx {Y}. Arguments vpitgs {Y}. Arguments vpmdfs {Y}. Arguments vpwgts {Y}.
Record vouts (Y : Type) := VOuts { voI : Y; voVout : Y; voPout : Y; voQhot : Y; voYita : Y }.
Arguments VOuts {Y}. Arguments voI {Y}. Arguments voVout {Y}. Arguments voPout {Y}. Arguments voQhot {Y}. Arguments voYita {Y}.

Section Formulas.
Variable X : Type.
Variable ar : arith X.
Variable Y : Type.
(** element-wise functions of one and two operands, and constants *)
Variable o1 : (X -> X) -> Y -> Y.
Variable o2 : (X -> X -> X) -> Y -> Y -> res Y.
Variable con : X -> Y.
(** operators on expressions, evaluated from left to right *)
Let lift2 f (a b : res Y) : res Y := let! x := a in let! y := b in o2 f x y.
Let lit (r : R) : res Y := Ok (con (a_lit ar r)).
Let v (y : Y) : res Y := Ok y.
Notation "a ⊕ b" := (lift2 (a_add ar) a b) (at level 50, left associativity).
Notation "a ⊖ b" := (lift2 (a_sub ar) a b) (at level 50, left associativity).
Notation "a ⊗ b" := (lift2 (a_mul ar) a b) (at level 40, left associativity).
Notation "a ⊘ b" := (lift2 (a_div ar) a b) (at level 40, left associativity).

(** [_get_itgs] (142-192) *)
Definition v_itgs (t : tables X) (Tc Th : Y) : res (vitgs Y) :=
  let dif f := v (o1 f Th) ⊖ v (o1 f Tc) in
  let! dt := v Th ⊖ v Tc in
  let! rho := dif (t_iRho t) in
  let! s := dif (t_iS t) in
  let! k := dif (t_iK t) in
  let! rhot := dif (t_iRhoT t) in
  let! st := dif (t_iST t) in
  Ok (VItgs Tc Th dt (o1 (t_S t) Tc) (o1 (t_S t) Th) rho s k rhot st).
(** [_get_mdfs] (194-211) *)
Definition v_mdfs (i : vitgs Y) : res (vmdfs Y) :=
  let! rho := v (vRhoT i) ⊘ v (vRho i) in
  let! s := v (vST i) ⊘ v (vS i) in
  let! rhow := v (vRhoT i) ⊖ v (vTc i) ⊗ v (vRho i) in
  let! sw := lit 2 ⊗ v (vST i) ⊖ v (vTc i) ⊗ v (vS i) in
  let! rhot := v rho ⊖ v (vTc i) in
  let! st := lit 2 ⊗ v s ⊖ v (vTc i) in
  let! m1 := v st ⊖ v rhot in
  let! m2 := v m1 ⊖ v rhot in
  Ok (VMdfs rho s rhow sw rhot st st m1 m2).
(** [_get_prfs] (236-265); [L] and [A] are numbers *)
Definition v_prfs (L A : X) (i : vitgs Y) (m : vmdfs Y) : res (vprfs Y) :=
  let! pf := lit 1e-6 ⊗ v (vS i) ⊗ v (vS i) ⊘ v (vRho i) in
  let! z := v pf ⊘ v (vK i) in
  let! zt := v z ⊗ v (vDT i) in
  let! ztp := v z ⊗ v (n1 m) in
  let! mo := lit 1 ⊕ v ztp in
  let! voc := lit 1e-3 ⊗ v (vS i) in
  let! isc := lit 1e-3 ⊗ v (vDT i) ⊗ v (vS i) ⊘ (v (vRho i) ⊗ v (con L)) ⊗ v (con A) in
  let! qx := lit 1e-3 ⊗ v pf ⊗ v (vDT i) ⊘ v (con L) ⊗ v (con A) in
  Ok (VPrfs (vDT i) pf z zt ztp (o1 (a_sqrt ar) mo) voc isc qx i m None).
(** [_get_wgts] (213-234) *)
Definition v_wgts (i : vitgs Y) (m : vmdfs Y) : res (vwgts Y) :=
  let! tsc := v (vTc i) ⊗ v (vSc i) in
  let! tsh := v (vTh i) ⊗ v (vSh i) in
  let! tau := (v tsh ⊗ v (vDT i) ⊖ v (nSW m)) ⊘ (v tsh ⊖ v tsc ⊖ v (vS i)) in
  let! j := v (nRho m) ⊘ v (vDT i) in
  let! t := v tau ⊘ v (vDT i) in
  let! a := v (n0 m) ⊘ v (vSh i) in
  let! b := v (n1 m) ⊘ v (vSh i) in
  let! c := v (n2 m) ⊘ v (vSh i) in
  Ok (VWgts j t a b c).
(** [_build] (65-84) *)
Definition v_build (L A : X) (calWeights : bool) (i : vitgs Y) : res (vprfs Y) :=
  let! m := v_mdfs i in
  let! p := v_prfs L A i m in
  if calWeights then
    let! w := v_wgts i m in
    Ok (VPrfs (vpDT p) (vpPFeng p) (vpZeng p) (vpZTeng p) (vpZTp p) (vpm p) (vpVoc p) (vpIsc p) (vpQx p) i m (Some w))
  else Ok p.
(** [I_r] (97-115): 'YitaMax' | array ('PowerMax' is the array [1/2]) *)
Definition v_current (p : vprfs Y) : res Y := lit 1 ⊘ (lit 1 ⊕ v (vpm p)).
(** outputs (131-139) *)
Definition v_outs (p : vprfs Y) (Ir : Y) : res (vouts Y) :=
  let! vr := lit 1 ⊖ v Ir in
  let! pr := v Ir ⊗ v vr in
  let! qr := lit 1 ⊘ v (vpZeng p) ⊕ v (nST (vpmdfs p)) ⊗ v Ir ⊖ v (nRhoT (vpmdfs p)) ⊗ v Ir ⊗ v Ir in
  let! i := v (vpIsc p) ⊗ v Ir in
  let! vo := v (vpVoc p) ⊗ v vr in
  let! po := v (vpQx p) ⊗ v pr in
  let! qh := v (vpQx p) ⊗ v qr ⊘ v (vpDT p) in
  let! y := lit 100 ⊗ v po ⊘ v qh in
  Ok (VOuts i vo po qh y).
(** ratios (458-482): the area ratio asked for *)
Inductive vratio := VZ | VP | VNum (r : Y).
Definition v_ratio (rL : Y) (rA : vratio) (p n : vitgs Y) : res Y :=
  match rA with
  | VZ => let! x := v (vRho p) ⊘ v (vRho n) ⊗ v (vK n) ⊘ v (vK p) in v rL ⊗ v (o1 (a_sqrt ar) x)
  | VP => let! x := v rL ⊗ v (vRho p) ⊘ v (vRho n) in v (o1 (a_sqrt ar) x)
  | VNum r => Ok r
  end.
(** equivalent integrals of a pair (484-498) *)
Definition v_merge (rL rA : Y) (p n : vitgs Y) : res (vitgs Y) :=
  let fx_t f := (v (f p) ⊕ v (f n)) ⊘ lit 2 in
  let fx_s f := v (f p) ⊖ v (f n) in
  let fx_r f := v (f p) ⊗ (lit 1 ⊕ v rA) ⊕ v (f n) ⊗ v rL ⊘ v rA ⊗ (lit 1 ⊕ v rA) in
  let fx_k f := v (f p) ⊘ (lit 1 ⊕ v rA) ⊕ v (f n) ⊘ (lit 1 ⊕ v rA) ⊗ v rA ⊘ v rL in
  let! tc := fx_t (@vTc Y) in let! th := fx_t (@vTh Y) in let! dt := fx_t (@vDT Y) in
  let! sc := fx_s (@vSc Y) in let! sh := fx_s (@vSh Y) in let! s := fx_s (@vS Y) in let! st := fx_s (@vST Y) in
  let! rho := fx_r (@vRho Y) in let! rhot := fx_r (@vRhoT Y) in let! k := fx_k (@vK Y) in
  Ok (VItgs tc th dt sc sh rho s k rhot st).

(** a leg, a pair: profiles and outputs; [GenPair.build] hands over its options, hence always the weight factors (434) *)
Definition leg (t : tables X) (L A : X) (calWeights : bool) (Tc Th : Y) : res (vprfs Y) := let! i := v_itgs t Tc Th in v_build L A calWeights i.
Definition pair (tp tn : tables X) (L A : X) (Tc Th rL : Y) (rA : vratio) : res (Y * vprfs Y) :=
  let! p := v_itgs tp Tc Th in let! n := v_itgs tn Tc Th in
  let! r := v_ratio rL rA p n in
  let! i := v_merge rL r p n in
  let! q := v_build L A true i in Ok (r, q).
(** [simulate]: at assigned currents ([Some]), or at those of the greatest efficiency *)
Definition outs_at (p : vprfs Y) (Ir : option Y) : res (vouts Y) :=
  let! r := match Ir with Some r => Ok r | None => v_current p end in v_outs p r.
End Formulas.
Arguments VZ {Y}. Arguments VP {Y}. Arguments VNum {Y}.

(** ** numpy arrays *)
Definition u1 {X : Type} (f : X -> X) (A : nd X) : nd X := Nd (shape A) (List.map f (flat A)).
Definition u2 {X : Type} (x0 : X) (f : X -> X -> X) (A B : nd X) : res (nd X) :=
  let! s := broadcast_shape [shape A; shape B] in
  Ok (Nd s (List.map (fun k => f (bc_get x0 A (unravel s k)) (bc_get x0 B (unravel s k))) (seq 0 (size s)))).
Definition con0 {X : Type} (x : X) : nd X := Nd [] [x].
(** [np.atleast_1d] *)
Definition atleast_1d {X : Type} (A : nd X) : nd X := match shape A with [] => Nd [1%nat] (flat A) | _ => A end.

(** [Tc[0]] and [Tc[-1]] for the log (288-299): IndexError when the first axis is empty *)
Definition peek {X : Type} (A : nd X) : res unit := match shape A with O :: _ => Err IndexError | _ => Ok tt end.

Section Arrays.
Variable X : Type.
Variable ar : arith X.
Let z := a_lit ar 0%R.
(** [GenLeg(datas, Tc, Th, L, A).build(calWeights)] *)
Definition nd_leg (t : tables X) (L A : X) (calWeights : bool) (Tc Th : nd X) : res (vprfs (nd X)) :=
  let Tc := atleast_1d Tc in let! _ := peek Tc in
  let Th := atleast_1d Th in let! _ := peek Th in
  leg X ar (nd X) u1 (u2 z) con0 t L A calWeights Tc Th.
(** [GenPair(p, n, Tc, Th, L, A).build(rL, rA)]: the area ratio and the profiles *)
Definition nd_pair (tp tn : tables X) (L A : X) (Tc Th rL : nd X) (rA : vratio (nd X)) : res (nd X * vprfs (nd X)) :=
  let Tc := atleast_1d Tc in let! _ := peek Tc in
  let Th := atleast_1d Th in let! _ := peek Th in
  pair X ar (nd X) u1 (u2 z) con0 tp tn L A Tc Th rL rA.
(** [.simulate(I_r)] with the profiles of the object *)
Definition nd_outs (p : vprfs (nd X)) (Ir : option (nd X)) : res (vouts (nd X)) := outs_at X ar (nd X) (u2 z) con0 p (match Ir with Some r => Some (atleast_1d r) | None => None end).
End Arrays.
(** ** single numbers *)
Section Single.
Variable X : Type.
Variable ar : arith X.
Let s1 (f : X -> X) (x : X) := f x.
Let s2 (f : X -> X -> X) (x y : X) : res X := Ok (f x y).
Let c (x : X) := x.
Definition one_leg (t : tables X) (L A : X) (calWeights : bool) (Tc Th : X) : res (vprfs X) := leg X ar X s1 s2 c t L A calWeights Tc Th.
Definition one_pair (tp tn : tables X) (L A Tc Th rL : X) (rA : vratio X) : res (X * vprfs X) := pair X ar X s1 s2 c tp tn L A Tc Th rL rA.
Definition one_outs (p : vprfs X) (Ir : option X) : res (vouts X) := outs_at X ar X s2 c p Ir.
End Single.
