(** Model of src/teflow/anisotro.py. *)
From Verif Require Import Py PyStr RUtil.
Local Open Scope R_scope.

(** 3x3 arrays of floats; [x23 m] is [m[1, 2]]. *)
Record M3 := mk3 { x11 : R; x12 : R; x13 : R; x21 : R; x22 : R; x23 : R; x31 : R; x32 : R; x33 : R }.
(** Voigt sequence (C11, C22, C33, C23, C13, C12). *)
Record V6 := mk6 { v11 : R; v22 : R; v33 : R; v23 : R; v13 : R; v12 : R }.
Definition vec := (R * R * R)%type.

(** [tens2seq] (anisotro.py:18-54); [use_upper] is None, True or False. *)
Definition tens2seq (m : M3) (use_upper : option bool) : V6 :=
  match use_upper with
  | None => mk6 (x11 m) (x22 m) (x33 m) ((x23 m + x32 m) / 2) ((x13 m + x31 m) / 2) ((x12 m + x21 m) / 2)
  | Some true => mk6 (x11 m) (x22 m) (x33 m) (x23 m) (x13 m) (x12 m)
  | Some false => mk6 (x11 m) (x22 m) (x33 m) (x32 m) (x31 m) (x21 m)
  end.

(** [seq2tens] (anisotro.py:56-82). *)
Definition seq2tens (c : V6) : M3 :=
  mk3 (v11 c) (v12 c) (v13 c)
      (v12 c) (v22 c) (v23 c)
      (v13 c) (v23 c) (v33 c).

(** [A @ B] *)
Definition matmul (a b : M3) : M3 :=
  mk3 (x11 a * x11 b + x12 a * x21 b + x13 a * x31 b) (x11 a * x12 b + x12 a * x22 b + x13 a * x32 b) (x11 a * x13 b + x12 a * x23 b + x13 a * x33 b)
      (x21 a * x11 b + x22 a * x21 b + x23 a * x31 b) (x21 a * x12 b + x22 a * x22 b + x23 a * x32 b) (x21 a * x13 b + x22 a * x23 b + x23 a * x33 b)
      (x31 a * x11 b + x32 a * x21 b + x33 a * x31 b) (x31 a * x12 b + x32 a * x22 b + x33 a * x32 b) (x31 a * x13 b + x32 a * x23 b + x33 a * x33 b).

(** [comb_rotations] (anisotro.py:84-109). *)
Definition comb_rotations (theta_y theta_z : R) : M3 :=
  let R_y := mk3 (cos theta_y) 0 (sin theta_y)
                 0 1 0
                 (- sin theta_y) 0 (cos theta_y) in
  let R_z := mk3 (cos theta_z) (- sin theta_z) 0
                 (sin theta_z) (cos theta_z) 0
                 0 0 1 in
  matmul R_z R_y.

(** [project3d] (anisotro.py:111-144) for scalar angles and components. *)
Definition project3d (theta_rad phi_rad : R) (c : V6) : R :=
  let cx := sin phi_rad * cos theta_rad in
  let cy := sin phi_rad * sin theta_rad in
  let cz := cos phi_rad in
  cx * cx * v11 c + cy * cy * v22 c + cz * cz * v33 c
  + 2 * (cy * cz * v23 c + cz * cx * v13 c + cx * cy * v12 c).

(** The arguments [rotation] and [orient] of [rotate3d]: a matrix ([orient=None]), an axis name with
    an angle, or an axis vector with an angle.  Not modelled: a matrix-valued [rotation] together
    with an axis (numpy would broadcast it), arrays of angles or of components. *)
Inductive rot_arg := ByMatrix (m : M3) | ByName (orient : str) (theta : R) | ByVector (orient : vec) (theta : R).

(** ASCII [str.lower] of one character. *)
Definition lower_ch (c : ascii) : ascii :=
  let n := nat_of_ascii c in if (Nat.leb 65 n && Nat.leb n 90)%bool then ascii_of_nat (n + 32) else c.

(** The matrix elements [R11..R33] bound in lines 225-261.  [None] stands for NaN components
    (zero axis vector: 0/0). *)
Definition rot_matrix (a : rot_arg) : res (option M3) :=
  match a with
  | ByMatrix m => Ok (Some m)                                                        (* 225-229 *)
  | ByName orient theta =>
      match orient with
      | [] => Err IndexError                                                         (* 231: ''[0] *)
      | ch :: _ =>
          let axis := lower_ch ch in
          let R11 := 1 in let R12 := 0 in let R13 := 0 in                            (* 233 *)
          let R21 := 0 in let R22 := cos theta in let R23 := - sin theta in          (* 234 *)
          let R31 := 0 in let R32 := sin theta in let R33 := cos theta in            (* 235 *)
          if ch_eq axis "x" then Ok (Some (mk3 R11 R12 R13 R21 R22 R23 R31 R32 R33))
          else if ch_eq axis "y" then
            let '(R11, R22, R33) := (R33, R11, R22) in                               (* 240 *)
            let '(R12, R23, R31) := (R31, R12, R23) in                               (* 241 *)
            let '(R13, R21, R32) := (R32, R13, R21) in                               (* 242 *)
            Ok (Some (mk3 R11 R12 R13 R21 R22 R23 R31 R32 R33))
          else if ch_eq axis "z" then
            let '(R11, R22, R33) := (R22, R33, R11) in                               (* 244 *)
            let '(R12, R23, R31) := (R23, R31, R12) in                               (* 245 *)
            let '(R13, R21, R32) := (R21, R32, R13) in                               (* 246 *)
            Ok (Some (mk3 R11 R12 R13 R21 R22 R23 R31 R32 R33))
          else Err ValueError                                                        (* 248 *)
      end
  | ByVector (ox, oy, oz) theta =>
      let nrm := sqrt (ox * ox + oy * oy + oz * oz) in
      if Req_EM_T nrm 0 then Ok None else
      let ux := ox / nrm in let uy := oy / nrm in let uz := oz / nrm in              (* 251 *)
      let vcos := cos theta in let vsin := sin theta in                              (* 252 *)
      Ok (Some (mk3 (vcos + ux ^ 2 * (1 - vcos)) (ux * uy * (1 - vcos) - uz * vsin) (ux * uz * (1 - vcos) + uy * vsin)
                    (uy * ux * (1 - vcos) + uz * vsin) (vcos + uy ^ 2 * (1 - vcos)) (uy * uz * (1 - vcos) - ux * vsin)
                    (uz * ux * (1 - vcos) - uy * vsin) (uz * uy * (1 - vcos) + ux * vsin) (vcos + uz ^ 2 * (1 - vcos))))
  end.

(** Lines 263-287: the six components, written out. *)
Definition rotate_with (m : M3) (c : V6) : V6 :=
  let '(mk3 R11 R12 R13 R21 R22 R23 R31 R32 R33) := m in
  let '(mk6 C11 C22 C33 C23 C13 C12) := c in
  let rot_C11 := R11 * R11 * C11 + R12 * R12 * C22 + R13 * R13 * C33 + 2 * (R11 * R12 * C12 + R11 * R13 * C13 + R12 * R13 * C23) in
  let rot_C22 := R21 ^ 2 * C11 + R22 ^ 2 * C22 + R23 ^ 2 * C33 + 2 * (R21 * R22 * C12 + R21 * R23 * C13 + R22 * R23 * C23) in
  let rot_C33 := R31 ^ 2 * C11 + R32 ^ 2 * C22 + R33 ^ 2 * C33 + 2 * (R31 * R32 * C12 + R31 * R33 * C13 + R32 * R33 * C23) in
  let rot_C12 := R11 * R21 * C11 + R12 * R22 * C22 + R13 * R23 * C33
                 + (R11 * R22 + R12 * R21) * C12 + (R11 * R23 + R13 * R21) * C13 + (R12 * R23 + R13 * R22) * C23 in
  let rot_C13 := R11 * R31 * C11 + R12 * R32 * C22 + R13 * R33 * C33
                 + (R11 * R32 + R12 * R31) * C12 + (R11 * R33 + R13 * R31) * C13 + (R12 * R33 + R13 * R32) * C23 in
  let rot_C23 := R21 * R31 * C11 + R22 * R32 * C22 + R23 * R33 * C33
                 + (R21 * R32 + R22 * R31) * C12 + (R21 * R33 + R23 * R31) * C13 + (R22 * R33 + R23 * R32) * C23 in
  mk6 rot_C11 rot_C22 rot_C33 rot_C23 rot_C13 rot_C12.

(** [rotate3d] (anisotro.py:146-287). *)
Definition rotate3d (a : rot_arg) (c : V6) : res (option V6) :=
  let! m := rot_matrix a in Ok (option_map (fun m => rotate_with m c) m).

(** ** [anilay] (anisotro.py:289-333) *)
(** Python values for [widths]: None, a number, a list of numbers, or a one-dimensional numpy
    array (which differs from a list in its truth value). *)
Inductive widths_arg := WNone | WNum (x : R) | WList (l : list R) | WArr (l : list R).
(** Numbers and one-dimensional arrays; higher ranks are not modelled. *)
Inductive arr := Sc (x : R) | Ar (l : list R).

(** [widths or 1.0] (325): Python truth values; an array of two or more elements has none. *)
Definition widths_or (w : widths_arg) : res arr :=
  match w with
  | WNone => Ok (Sc 1)
  | WNum x => Ok (Sc (if Req_EM_T x 0 then 1 else x))
  | WList [] => Ok (Sc 1)
  | WList l => Ok (Ar l)
  | WArr [] => Ok (Sc 1)
  | WArr [x] => Ok (if Req_EM_T x 0 then Sc 1 else Ar [x])
  | WArr _ => Err ValueError
  end.

(** [np.broadcast_arrays] of numbers and rank-one arrays: the common length ([None]: all scalars). *)
Definition bc_len (a : option nat) (x : arr) : res (option nat) :=
  match x with
  | Sc _ => Ok a
  | Ar l => match a with
            | None => Ok (Some (length l))
            | Some n => if Nat.eqb n (length l) then Ok (Some n)
                        else if Nat.eqb n 1 then Ok (Some (length l))
                        else if Nat.eqb (length l) 1 then Ok (Some n) else Err ValueError
            end
  end.
Definition bc_to (n : nat) (x : arr) : list R :=
  match x with
  | Sc x => repeat x n
  | Ar l => if Nat.eqb (length l) 1 then repeat (hd 0 l) n else l
  end.

(** One layer. *)
Record layer := Layer { lC : R; lS : R; lK : R; lw : R }.
Fixpoint zip4 (c s k w : list R) : list layer :=
  match c, s, k, w with
  | a :: c, b :: s, d :: k, e :: w => Layer a b d e :: zip4 c s k w
  | _, _, _, _ => []
  end.
Definition tot (f : layer -> R) (l : list layer) : R := sumR (map f l).
Record eff := Eff { C_vert : R; C_para : R; S_vert : R; S_para : R; K_vert : R; K_para : R }.

(** The six sums (326-333). *)
Definition effective (l : list layer) : eff :=
  Eff (tot lw l / tot (fun x => lw x / lC x) l)
      (tot (fun x => lw x * lC x) l / tot lw l)
      (tot (fun x => lw x / lK x * lS x) l / tot (fun x => lw x / lK x) l)
      (tot (fun x => lw x * lC x * lS x) l / tot (fun x => lw x * lC x) l)
      (tot lw l / tot (fun x => lw x / lK x) l)
      (tot (fun x => lw x * lK x) l / tot lw l).

Definition anilay (C S K : arr) (widths : widths_arg) : res eff :=
  let! w := widths_or widths in
  let! n := bc_len None C in
  let! n := bc_len n S in
  let! n := bc_len n K in
  let! n := bc_len n w in
  let n := match n with None => 1%nat | Some n => n end in       (* all scalars: sums of one element *)
  Ok (effective (zip4 (bc_to n C) (bc_to n S) (bc_to n K) (bc_to n w))).
