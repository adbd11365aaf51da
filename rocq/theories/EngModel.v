(** Model of src/teflow/engout.py for one pair of temperatures (arrays of Tc, Th are treated
    elementwise).  Real numbers; divisions are total here (x/0 = 0 in Coq), the theorems assume
    the denominators to be non-zero. *)
From Coq Require Import ZArith.
From Verif Require Import Py PyStr RUtil MonoModel InterpModel ZtModel.
Local Open Scope R_scope.

(** Integrals collected by [_get_itgs]. *)
Record itgs := Itgs { iTc : R; iTh : R; iDT : R; iSc : R; iSh : R; iRho : R; iS : R; iK : R; iRhoT : R; iST : R }.

(** ** Tabulated data (engout.py:172-191) *)
(** [scipy.integrate.cumulative_trapezoid(y, x, initial=0)], as nodes (x_i, integral up to x_i). *)
Fixpoint cumtrapz_from (acc : R) (l : list (R * R)) : list (R * R) :=
  match l with
  | [] => []
  | p :: r =>
      (fst p, acc) ::
      match r with
      | [] => []
      | q :: _ => cumtrapz_from (acc + (fst q - fst p) * (snd q + snd p) / 2) r
      end
  end.
Definition cumtrapz (l : list (R * R)) : list (R * R) := cumtrapz_from 0 l.

(** [interp(P_itg, t)]: [np.interp], constant outside the table (183) *)
Definition tab_interp (l : list (R * R)) (t : R) : R := np_interp l None None t.
(** [interp(P_itg, Th) - interp(P_itg, Tc)] *)
Definition tab_int (f : tp -> R) (d : list tp) (Tc Th : R) : R :=
  let c := cumtrapz (map (fun p => (tT p, f p)) d) in tab_interp c Th - tab_interp c Tc.

Definition rho_of (p : tp) : R := 1e4 / tC p.                       (* 174: S/cm to uOhm.m *)
Definition itgs_tab (d : list tp) (Tc Th : R) : itgs :=
  let sc := tab_interp (map (fun p => (tT p, tS p)) d) in
  Itgs Tc Th (Th - Tc) (sc Tc) (sc Th)
    (tab_int rho_of d Tc Th) (tab_int tS d Tc Th) (tab_int tK d Tc Th)
    (tab_int (fun p => tT p * rho_of p) d Tc Th) (tab_int (fun p => tT p * tS p) d Tc Th).

(** ** Polynomial data (engout.py:154-171); coefficient lists, lowest degree first, default domain
    and window (other domains make [T * Rho] raise TypeError). *)
Definition poly := list R.
Fixpoint peval (p : poly) (x : R) : R := match p with [] => 0 | a :: r => a + x * peval r x end.
Definition pmulT (p : poly) : poly := 0 :: p.                       (* Polynomial([0,1]) * p *)
Fixpoint pinteg_from (k : nat) (p : poly) : poly :=
  match p with [] => [] | a :: r => a / INR (S k) :: pinteg_from (S k) r end.
Definition pinteg (p : poly) : poly := 0 :: pinteg_from 0 p.        (* Polynomial.integ *)

Definition itgs_poly (Rho S K : poly) (Tc Th : R) : itgs :=
  let RhoT := pmulT Rho in
  let ST := pmulT Rho in                                             (* 158: sic *)
  let int p := peval (pinteg p) Th - peval (pinteg p) Tc in
  Itgs Tc Th (Th - Tc) (peval S Tc) (peval S Th) (int Rho) (int S) (int K) (int RhoT) (int ST).

(** ** Modification factors (194-211) *)
Record mdfs := Mdfs { mRho : R; mS : R; mRhoW : R; mSW : R; mRhoT : R; mST : R; m0 : R; m1 : R; m2 : R }.
Definition get_mdfs (i : itgs) : mdfs :=
  let rho := iRhoT i / iRho i in
  let s := iST i / iS i in
  let rhoT := rho - iTc i in
  let sT := 2 * s - iTc i in
  Mdfs rho s (iRhoT i - iTc i * iRho i) (2 * iST i - iTc i * iS i) rhoT sT sT (sT - rhoT) (sT - rhoT - rhoT).

(** ** Weight factors (213-234) *)
Record wgts := Wgts { wJ : R; wT : R; wa0 : R; wa1 : R; wa2 : R }.
Definition get_wgts (i : itgs) (m : mdfs) : wgts :=
  let TSc := iTc i * iSc i in let TSh := iTh i * iSh i in
  let tau := (TSh * iDT i - mSW m) / (TSh - TSc - iS i) in
  Wgts (mRho m / iDT i) (tau / iDT i) (m0 m / iSh i) (m1 m / iSh i) (m2 m / iSh i).

(** ** Profiles of the device (236-265) *)
Record prfs := Prfs { pDT : R; pPFeng : R; pZeng : R; pZTeng : R; pZTp : R; pm_opt : R;
                      pVoc : R; pIsc : R; pQx : R; pitgs : itgs; pmdfs : mdfs; pwgts : option wgts }.
Definition get_prfs (L A : R) (i : itgs) (m : mdfs) : prfs :=
  let PFeng := 1e-6 * iS i * iS i / iRho i in
  let Zeng := PFeng / iK i in
  let ZTp := Zeng * m1 m in
  Prfs (iDT i) PFeng Zeng (Zeng * iDT i) ZTp (sqrt (1 + ZTp))
    (1e-3 * iS i) (1e-3 * iDT i * iS i / (iRho i * L) * A) (1e-3 * PFeng * iDT i / L * A) i m None.

(** [GenCore._build] (65-84) once the integrals are known *)
Definition build (L A : R) (calWeights : bool) (i : itgs) : prfs :=
  let m := get_mdfs i in
  let p := get_prfs L A i m in
  if calWeights then Prfs (pDT p) (pPFeng p) (pZeng p) (pZTeng p) (pZTp p) (pm_opt p) (pVoc p) (pIsc p) (pQx p) i m (Some (get_wgts i m))
  else p.

(** ** Outputs at one reduced current (117-140) *)
Record outs := Outs { oI : R; oVout : R; oPout : R; oQhot : R; oYita : R }.
Definition outputs (p : prfs) (r : R) : outs :=
  let Vr := 1 - r in
  let Pr := r * Vr in
  let Qr := 1 / pZeng p + mST (pmdfs p) * r - mRhoT (pmdfs p) * r * r in
  let Pout := pQx p * Pr in
  let Qhot := pQx p * Qr / pDT p in
  Outs (pIsc p * r) (pVoc p * Vr) Pout Qhot (100 * Pout / Qhot).

(** Element type of the temperature arrays, relevant only to ['scan']. *)
Inductive temps := FloatT | IntT (DT : list Z).    (* IntT: the integer temperature differences *)

(** [np.linspace(0, 1, n)] *)
Definition linspace01 (n : nat) : list R := map (fun k => INR k / INR (n - 1)) (seq 0 n).

(** [ndarray.reshape] of n elements to integer dimensions: the resulting dimensions. *)
Definition zprod (l : list Z) : Z := fold_right Z.mul 1%Z l.
Definition reshape (n : nat) (dims : list Z) : res (list Z) :=
  let known := filter (fun d => negb (Z.eqb d (-1))) dims in
  let unknown := (length dims - length known)%nat in
  if existsb (fun d => Z.ltb d 0) known then Err ValueError
  else match unknown with
       | O => if Z.eqb (zprod dims) (Z.of_nat n) then Ok dims else Err ValueError
       | S O => let k := zprod known in
                if Z.eqb k 0 then Err ValueError
                else if Z.eqb (Z.of_nat n mod k) 0 then Ok (map (fun d => if Z.eqb d (-1) then (Z.of_nat n / k)%Z else d) dims)
                else Err ValueError
       | _ => Err ValueError
       end.

(** The [I_r] argument (97-115). *)
Inductive current := CStr (s : str) | CVals (l : list R).
Definition first_lower (s : str) (c : ascii) : bool :=          (* I_r.lower().startswith(c) *)
  match s with x :: _ => ch_eq (upper x) (upper c) | [] => false end.

(** [_simulate] (86-140): the reduced currents used, and one output per current.  For ['scan'],
    [[-1,] + [1,]*deltaT] adds and multiplies elementwise because deltaT is an array of rank one. *)
Definition reduced_currents (p : prfs) (t : temps) (c : current) (numPoints : nat) : res (list R) :=
  match c with
  | CVals l => Ok l
  | CStr s =>
      if first_lower s "y" then Ok [1 / (1 + pm_opt p)]
      else if first_lower s "p" then Ok [1 / 2]
      else if first_lower s "s" then
        match t with
        | FloatT => Err TypeError
        | IntT DT => let! _ := reshape numPoints (map (fun d => (-1 + 1 * d)%Z) DT) in Ok (linspace01 numPoints)
        end
      else Err ValueError
  end.
Definition simulate_built (p : prfs) (t : temps) (c : current) (numPoints : nat) : res (list outs) :=
  let! rs := reduced_currents p t c numPoints in Ok (map (outputs p) rs).

(** ** The object and its calls *)
(** [GenCore]: [profiles] is None (empty AttrDict) until the first successful build. *)
Definition simulate (profiles : option prfs) (t : temps) (c : current) (numPoints : nat) : res (list outs) :=
  match profiles with
  | None => Err RuntimeError
  | Some p => simulate_built p t c numPoints
  end.

(** ** p-n pair (369-498) *)
Inductive ratio := RStr (s : str) | RNum (r : R).
(** [GenPair._get_itgs] (450-477): the area ratio *)
Definition ratio_area (rL : R) (rA : ratio) (p n : itgs) : res R :=
  match rA with
  | RNum r => Ok r
  | RStr s =>
      if first_lower s "z" then Ok (rL * sqrt (iRho p / iRho n * iK n / iK p))          (* 466 *)
      else if first_lower s "p" then Ok (sqrt (rL * iRho p / iRho n))                    (* 469 *)
      else Err ValueError
  end.
(** (484-498) equivalent integrals of the pair *)
Definition merge (rL rA : R) (p n : itgs) : itgs :=
  let fx_t a b := (a + b) / 2 in
  let fx_s a b := a - b in
  let fx_r a b := a * (1 + rA) + b * rL / rA * (1 + rA) in
  let fx_k a b := a / (1 + rA) + b / (1 + rA) * rA / rL in
  Itgs (fx_t (iTc p) (iTc n)) (fx_t (iTh p) (iTh n)) (fx_t (iDT p) (iDT n))
       (fx_s (iSc p) (iSc n)) (fx_s (iSh p) (iSh n)) (fx_r (iRho p) (iRho n))
       (fx_s (iS p) (iS n)) (fx_k (iK p) (iK n)) (fx_r (iRhoT p) (iRhoT n)) (fx_s (iST p) (iST n)).

(** [GenPair.build] (421-436): [_build(options)] hands over the (non-empty, hence true) dictionary
    as [calWeights]. *)
Definition pair_build (L A : R) (p n : itgs) (rL : R) (rA : ratio) (calWeights : bool) : res (R * prfs) :=
  let! r := ratio_area rL rA p n in
  Ok (r, build L A true (merge rL r p n)).
(** [GenLeg.build] (309-318) *)
Definition leg_build (L A : R) (i : itgs) (calWeights : bool) : prfs := build L A calWeights i.

(** Calls on one object: state = current profiles. *)
Inductive call :=
| BuildLeg (calWeights : bool)
| BuildPair (rL : R) (rA : ratio) (calWeights : bool)
| Simulate (c : current) (numPoints : nat).
Inductive device := Leg (i : itgs) | Pair (p n : itgs).
Inductive answer := AProf (p : prfs) | AOut (o : list outs).
Section Obj.
Variables (L A : R) (dev : device) (t : temps).
Definition exec (st : option prfs) (c : call) : option prfs * res answer :=
  match c with
  | BuildLeg w => match dev with
      | Leg i => let p := leg_build L A i w in (Some p, Ok (AProf p))
      | Pair p n => match pair_build L A p n 1 (RStr ["Z"%char]) w with      (* defaults *)
                    | Ok (_, q) => (Some q, Ok (AProf q)) | Err e => (st, Err e) end
      end
  | BuildPair rL rA w => match dev with
      | Leg _ => (st, Err TypeError)                                      (* unexpected keyword *)
      | Pair p n => match pair_build L A p n rL rA w with
                    | Ok (_, q) => (Some q, Ok (AProf q)) | Err e => (st, Err e) end
      end
  | Simulate c n => (st, rmap AOut (simulate st t c n))
  end.
Fixpoint run (st : option prfs) (h : list call) : option prfs * list (res answer) :=
  match h with
  | [] => (st, [])
  | c :: r => let (st1, a) := exec st c in let (st2, l) := run st1 r in (st2, a :: l)
  end.
End Obj.
