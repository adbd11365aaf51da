(** Model of the band models APSSPB (src/teflow/bandlib.py:691-995), APSSKB (998-1210) and LinearBand (1213-1269)
    over exact reals, for one energy, Fermi level and temperature.  [np.power(x, 3/2)] is [x * sqrt x] and the powers 2/3 and 1/3
    are [Rpower], both meant for the arguments numpy accepts (non-negative, resp. positive; otherwise numpy gives nan). *)
From Coq Require Import Reals.
From Verif Require Import Py RUtil RombModel BandModel.
Local Open Scope R_scope.

(** [m_e], [hbar] (64-65) *)
Definition m_e : R := 9.1093837015e-31.
Definition hbar : R := 1.054571817e-34.
Definition pow32 (x : R) : R := x * sqrt x.

(** ** APSSPB *)
(** [dos] (749-760), [idos] (762-773), [trs] (775-784), [hall] (786-804), [Kstar] (807-818) *)
Definition spb_dos (m_d E : R) : R := 1e-25 * (pow32 (2 * m_d * m_e * qe) / (2 * PI * PI * hbar ^ 3)) * sqrt E.
Definition spb_idos (m_d E : R) : R := 1e-25 * (pow32 (2 * m_d * m_e * qe * E) / (3 * PI * PI * hbar ^ 3)).
Definition spb_trs (sigma0 E T : R) : R := sigma0 * E / (kB * T).
Definition hall_N0 (m_d T : R) : R := pow32 (2 * m_d * m_e * kB * qe * T) / (2 * PI * PI * hbar ^ 3).
Definition hall_factor (m_d sigma0 T : R) : R := sigma0 ^ 2 / (2 / 3 * 1e-6 * hall_N0 m_d T * qe).
Definition Kstar (Kmass : R) : R := 3 * Kmass * (Kmass + 2) / (2 * Kmass + 1) ^ 2.
Definition spb_hall (m_d sigma0 Kmass E T : R) : R := Kstar Kmass * hall_factor m_d sigma0 T * sqrt (E / (kB * T)).
(** the band object (739-742); use_idos = True *)
Definition spb (m_d sigma0 Kmass : R) : raw :=
  spectral (fun E _ => spb_idos m_d E) (spb_trs sigma0) (spb_hall m_d sigma0 Kmass).

(** ** APSSKB: [dos] (1042-1048), [idos] (1050-1056), [trs] (1058-1062), [hall] (1064-1071), [__init__] (1028-1035) *)
Definition skb_dos (m_d Eg E : R) : R :=
  1e-25 * (pow32 (2 * m_d * m_e * qe) / (2 * PI * PI * hbar ^ 3)) * sqrt E * (sqrt (1 + E / Eg) * (1 + 2 * E / Eg)).
Definition skb_idos (m_d Eg E : R) : R :=
  1e-25 * pow32 (2 * m_d * m_e * qe * E * (1 + E / Eg)) / (3 * PI * PI * hbar ^ 3).
Definition skb_trs (sigma0 Eg E T : R) : R :=
  sigma0 * E / (kB * T) * (3 * (1 + E / Eg) / ((1 + 2 * E / Eg) ^ 2 + 2)).
Definition skb_hall (m_d sigma0 Eg Kmass E T : R) : R :=
  Kstar Kmass * hall_factor m_d sigma0 T * sqrt (E / (kB * T)) * (9 * sqrt (1 + E / Eg) / ((1 + 2 * E / Eg) ^ 2 + 2) ^ 2).
Definition skb (m_d sigma0 Eg Kmass : R) : res raw :=
  if Rlt_dec 0 Eg
  then Ok (spectral (fun E _ => skb_idos m_d Eg E) (skb_trs sigma0 Eg) (skb_hall m_d sigma0 Eg Kmass))
  else Err ValueError.

(** ** LinearBand: [__init__] (1234-1236), [dos] (1243-1248), [idos] (1250-1256), [trs] (1258-1261), no Hall function (1263-1269) *)
Definition lin_dos (vF E : R) : R := 1e-25 * ((1 / PI) ^ 2 * (qe / (Rabs vF * 1e5 * hbar)) ^ 3) * E ^ 2.
Definition lin_idos (vF E : R) : R := (qe * E / (Rabs vF * hbar)) ^ 3 / (3e40 * PI ^ 2).
Definition lin_trs (sigma0 : R) (E T : R) : R := sigma0.
Definition linear (vF sigma0 : R) : raw :=
  {| r_N := fun EF T => romb_dfx (fun E _ => lin_idos vF E) EF T 0 6;
     r_K := fun n EF T => romb_dfx (lin_trs sigma0) EF T n 6; r_H := None |}.

(** ** derived parameters: [UWT] (821-837), [PFmax] (840-842), [EFopt] (844-846), [from_DP] (849-881, 1085-1114), [from_UWT] (884-907, 1117-1137) *)
Definition UWT_to_sigma0 : R := 4.020521639724753.
Definition sigma0_to_PFmax : R := 0.03015137550508442.
Definition Yita_opt : R := 0.66812.
Definition UWT (sigma0 : R) : R := sigma0 / UWT_to_sigma0.
Definition PFmax (sigma0 : R) : R := sigma0 * sigma0_to_PFmax.
Definition EFopt (T : R) : R := Yita_opt * kB * T.
Definition sigma0_from_UWT (u : R) : R := UWT_to_sigma0 * u.
(** [m2 or m1]: None and 0 are falsy; result (m_d, sigma0, Kmass) *)
Definition cbrt (x : R) : R := Rpower x (1 / 3).
Definition from_DP (m1 : R) (m2 : option R) (Nv Cii Ed : R) : R * R * R :=
  let m2 := match m2 with Some x => if Req_EM_T x 0 then m1 else x | None => m1 end in
  let m_c := 3 / (1 / m1 + 2 / m2) in
  (cbrt (Nv * Nv * m1 * m2 * m2), 245.66655370009886 * (Nv * Cii) / (m_c * Ed * Ed), m1 / m2).

(** ** valuate: APSSPB (910-995) and APSSKB (1140-1210).
    [root] is the root finder of [solve_EF]; a nan Fermi level makes every reported number nan ([VNan]). *)
Record report := { v_L : R; v_Ke : option R; v_Kp : option R; v_sigma0 : option R; v_UWT : option R; v_PFmax : option R;
                   v_md : option R; v_Nopt : option R }.
Inductive valuation := VNan | VRep (r : report).
Definition plain (w : raw) : obj := self_band {| b_raw := w; b_sign := 1; b_cache := None |}.
(** a property of the uncompiled band: always a number here *)
Definition get (w : raw) (p : prop) (EF T : R) : R :=
  match method (plain w) p (Some EF) (Some T) with Ok (Some x) => x | _ => 0 end.
Definition opt_map {A B} (f : A -> B) (a : option A) : option B := match a with Some x => Some (f x) | None => None end.
Section Valuate.
Variable root : (R -> res R) -> res (R * bool).
Definition valuate_gen (w : raw) (opt : bool) (dataS T : R) (dataC dataN dataK : option R) (hall : bool) : res valuation :=
  let! EF := solve_EF root (plain w) PS dataS T in
  match EF with
  | None => Ok VNan
  | Some EF =>
    let L := get w PL EF T in
    let P := if hall then PNH else PN in
    let ke c := 1e-6 * L * (c * T) in
    let s0 c := c / get w PC EF T in
    let ratio n := n / get w P EF T in
    Ok (VRep {| v_L := L;
      v_Ke := opt_map ke dataC;
      v_Kp := match dataC, dataK with Some c, Some k => Some (k - ke c) | _, _ => None end;
      v_sigma0 := opt_map s0 dataC;
      v_UWT := opt_map (fun c => s0 c / UWT_to_sigma0) dataC;
      v_PFmax := if opt then opt_map (fun c => s0 c * sigma0_to_PFmax) dataC else None;
      v_md := opt_map (fun n => Rpower (ratio n) (2 / 3)) dataN;
      v_Nopt := if opt then opt_map (fun n => ratio n * get w P (EFopt T) T) dataN else None |})
  end.
(** without dataT everything but L is dropped (960-962) *)
Definition valuate_spb (Kmass dataS : R) (dataT dataC dataN dataK : option R) (hall : bool) : res valuation :=
  match dataT with
  | Some T => valuate_gen (spb 1 1 Kmass) true dataS T dataC dataN dataK hall
  | None => valuate_gen (spb 1 1 Kmass) false dataS (1 / kB) None None None hall
  end.
Definition valuate_skb (Eg Kmass dataS T : R) (dataC dataN dataK : option R) (hall : bool) : res valuation :=
  let! w := skb 1 1 Eg Kmass in valuate_gen w false dataS T dataC dataN dataK hall.
End Valuate.
