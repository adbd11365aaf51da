(** Model of the restructured parabolic band RSPB (src/teflow/bandlib.py:1272-1445) and of the lines
    [bandline] (1448-1481) and [dosline] (1484-1518), over exact reals, for one data point.
    [None] is a result that is not a finite number (nan or inf); numpy's way of computing on with an infinity is not modelled,
    the theorems say where no such value arises.  Powers with fractional exponent are defined for a positive base only. *)
From Coq Require Import Reals.
From Verif Require Import Py RUtil BandModel SpbModel.
Local Open Scope R_scope.

Definition obind {A B} (a : option A) (k : A -> option B) : option B := match a with Some x => k x | None => None end.
Notation "'let?' x ':=' r 'in' k" := (obind r (fun x => k)) (at level 200, x name, r at level 100, k at level 200).
(** np.power with fractional exponent, division, np.log *)
Definition npow (x y : R) : option R := if Rlt_dec 0 x then Some (Rpower x y) else None.
Definition ndiv (x y : R) : option R := if Req_EM_T y 0 then None else Some (x / y).
Definition nlog (x : R) : option R := if Rlt_dec 0 x then Some (ln x) else None.

(** class constants (1294-1303); S0, L0 are those of [BandModel], C0 and _UWT_to_sigma0 that of [SpbModel] *)
Definition N0 : R := 2.5094122298407914.
Definition PF0 : R := 0.029855763500282857.
Definition Nr_opt : R := 1.255.
Definition PFr_max : R := 4.017850558247082.
Definition UWT_to_PFmax : R := 0.11995599604650432.
Definition C0 : R := UWT_to_sigma0.

(** [Nmr] (1306-1308), [Sr] (1311-1313), [iSr] (1316-1318), [Ur] (1321-1323), [iUr] (1326-1328), [Lr] (1331-1334), [iLr] (1337-1340) *)
Definition Nmr (N factor m_d T : R) : option R := let? s := npow (m_d * T / 300) (3 / 2) in Some (factor * s * N).
Definition Sr (N factor delta : R) : option R :=
  let? q := ndiv (exp 2) N in let? l := nlog (1 + delta + q) in Some (factor * l).
Definition iSr (x factor delta : R) : option R :=
  let? s := ndiv x factor in ndiv (exp 2) (exp s - 1 - delta).
Definition Ur (N factor : R) : option R := let? u := npow (1 + N / 2) (- (1 / 3)) in Some (factor * u).
Definition iUr (x factor : R) : option R := let? u := ndiv factor x in Some (2 * (u ^ 3 - 1)).
Definition Lr (N factor : R) : option R :=
  let? a := npow (N / PI / 2) (- (3 / 2)) in let? scale := npow (1 + a) (2 / 3) in
  let? d := ndiv (PI * PI / 3 - 2) scale in Some (factor * (2 + d)).
Definition iLr (x factor : R) : option R :=
  let? l := ndiv x factor in let? scale := ndiv (PI * PI / 3 - 2) (l - 2) in
  let? a := npow scale (3 / 2) in let? b := npow (a - 1) (- (2 / 3)) in Some (2 * PI * b).
(** [LxS] (1343-1360); [dt = None] is the parabolic model *)
Definition LxS (x S_factor L_factor : R) (dt : option R) (delta : R) : option R :=
  let? s := ndiv x S_factor in
  let? l := match dt with
            | None => let? n := iSr s 1 delta in Lr n 1
            | Some dt =>
                let? ksi := ndiv 1 (2 / 3 * dt + 1) in
                let p := - 0.33 + 6.90 * ksi - 7.78 * ksi ^ 2 + 2.75 * ksi ^ 3 in
                let q := - 0.14 + 4.08 * ksi - 2.13 * ksi ^ 2 in
                let l0 := 2 - 2 * ksi + ksi ^ 2 in
                ndiv (PI * PI / 3 + p * s + l0 * s ^ 2) (1 + q * s + s ^ 2)
            end in
  Some (l * L_factor).
(** [Cr] (1363-1368), [PFr] (1371-1376) *)
Definition Cr (N factor UWT : R) : option R := let? u := Ur N 1 in Some (factor * UWT * N * u).
Definition PFr (N factor UWT delta : R) : option R := let? c := Cr N 1 UWT in let? s := Sr N 1 delta in Some (factor * c * s ^ 2).

(** [valuate] (1379-1445): a missing key is [None], a value that is not a finite number is [Some None] *)
Record rspb_report := { q_L : option R; q_UWT : option (option R); q_PFmax : option (option R); q_sigma0 : option (option R);
  q_Ke : option (option R); q_Kp : option (option R); q_meff : option (option R); q_Nopt : option (option R) }.
Definition rspb_valuate (dataS : R) (dataC dataT dataN dataK : option R) (delta : R) : rspb_report :=
  let Nr := iSr dataS S0 delta in
  let L := let? n := Nr in Lr n L0 in
  let uwt c := let? n := Nr in let? r := Cr n C0 1 in ndiv c r in
  let all3 := match dataC, dataT, dataN with Some c, Some t, Some n => Some (c, t, n) | _, _, _ => None end in
  let ke c t := let? l := L in Some (1e-6 * l * c * t) in
  {| q_L := L;
     q_UWT := opt_map uwt dataC;
     q_PFmax := opt_map (fun c => let? u := uwt c in Some (u * UWT_to_PFmax)) dataC;
     q_sigma0 := opt_map (fun c => let? u := uwt c in Some (u * UWT_to_sigma0)) dataC;
     q_Ke := opt_map (fun '(c, t, n) => ke c t) all3;
     q_Kp := match all3, dataK with Some (c, t, n), Some k => Some (let? x := ke c t in Some (k - x)) | _, _ => None end;
     q_meff := opt_map (fun '(c, t, n) => let? r := Nr in let? a := ndiv n r in let? b := npow a (2 / 3) in ndiv (b * 300) t) all3;
     q_Nopt := opt_map (fun '(c, t, n) => let? r := Nr in ndiv (Nr_opt * N0 * n) r) all3 |}.

(** [bandline] (1448-1481) for m_b other than 0 and Eg > 0 *)
Definition COEF_BAND : R := 7.619964222971923.
Definition parabolic (k m_b k0 : R) : R := COEF_BAND * (k - k0) ^ 2 / m_b / 2.
Definition bandline (k m_b k0 E0 : R) (Eg : option R) : R :=
  let p := parabolic k m_b k0 in
  match Eg with
  | None => p + E0
  | Some g => p / (sqrt (0.25 + Rabs p / g) + 0.5) + E0
  end.
(** [dosline] (1484-1518); a negative argument of np.sqrt gives nan; [sgn] is np.sign *)
Definition COEF_DOS : R := 146.7959743657925.
Definition sgn (x : R) : R := if Rlt_dec 0 x then 1 else if Rlt_dec x 0 then -1 else 0.
Definition nsqrt (x : R) : option R := if Rlt_dec x 0 then None else Some (sqrt x).
Definition dosline (E m_d E0 Vcell : R) (Eg : option R) : option R :=
  let energy := Rmax (sgn m_d * (E - E0)) 0 in
  let coef := Vcell / COEF_DOS * pow32 (Rabs m_d) in
  match Eg with
  | None => let? s := nsqrt energy in Some (coef * s)
  | Some g => let? s := nsqrt (E * (1 + E / g)) in Some (coef * s * (1 + 2 * E / g))
  end.
