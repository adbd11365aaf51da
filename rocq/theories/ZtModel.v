(** Model of src/teflow/ztdev.py.  Real numbers for floats; [None] stands for a value that is not
    a finite real (nan after the square root of a negative number, or a division by zero). *)
From Verif Require Import Py RUtil.
Local Open Scope R_scope.

(** One temperature point of the data [T, C, S, K] (K, S/cm, uV/K, W/(m.K)). *)
Record tp := TP { tT : R; tC : R; tS : R; tK : R }.

(** [1/x] *)
Definition inv_opt (x : R) : option R := if Req_EM_T x 0 then None else Some (/ x).

(** [cal_Phi] (ztdev.py:25-44) *)
Definition cal_Phi (u S T : R) : option R :=
  match inv_opt u with Some w => Some (1e-6 * S * T + w) | None => None end.

(** Loop body of [cal_Yita] (73-76): the next relative current density from the previous one.
    [C = 1E2*C], [S = 1E-6*S] (67-68). *)
Definition next_u (a b : tp) (u : R) : option R :=
  let p_sqrt := 1 - u ^ 2 * (tK b / (1e2 * tC b) + tK a / (1e2 * tC a)) * (tT b - tT a) in
  let p_last := (tT b + tT a) / 2 * (1e-6 * tS b - 1e-6 * tS a) in
  if Rlt_dec p_sqrt 0 then None
  else if Req_EM_T u 0 then None
  else inv_opt (sqrt p_sqrt / u - p_last).

(** [1 - Phi_0/Phi_i] (77-78), then [100 *] (79) *)
Definition yita_i (Phi0 : option R) (b : tp) (u : option R) : option R :=
  match Phi0, u with
  | Some P0, Some u =>
      match cal_Phi u (tS b) (tT b) with
      | Some Pi => if Req_EM_T Pi 0 then None else Some (100 * (1 - P0 / Pi))
      | None => None
      end
  | _, _ => None
  end.

Fixpoint yita_loop (Phi0 : option R) (a : tp) (u : option R) (rest : list tp) : list (option R) :=
  match rest with
  | [] => []
  | b :: r =>
      let u' := match u with Some u => next_u a b u | None => None end in
      yita_i Phi0 b u' :: yita_loop Phi0 b u' r
  end.

(** [cal_Yita(u, datas, allTemp=True)] (46-81); [datas] as the list of its points. *)
Definition cal_Yita_all (u : R) (d : list tp) : res (list (option R)) :=
  match d with
  | [] => Err IndexError                                        (* S[0] *)
  | a :: r => Ok (Some (100 * 0) :: yita_loop (cal_Phi u (tS a) (tT a)) a (Some u) r)
  end.
(** [cal_Yita(u, datas)] *)
Definition cal_Yita (u : R) (d : list tp) : res (option R) :=
  let! l := cal_Yita_all u d in Ok (last l None).

(** [cal_ZTdev] (83-108), one element. *)
Definition cal_ZTdev (Yita Tc Th : R) : R :=
  let sub_1 := Th - Tc * (1 - Yita / 100) in
  let sub_2 := Th * (1 - Yita / 100) - Tc in
  let sub := if Rlt_dec 1e-3 (Rabs sub_2) then sub_1 / sub_2 else 1 in
  sub ^ 2 - 1.

(** Result of [scipy.optimize.minimize_scalar]: position, value, success flag. *)
Record opt_res := OR { ox : R; ofun : option R; osuccess : bool }.

Section Optim.
(** [minimize_scalar(fun, bounds=(lo, hi), method='bounded')]. *)
Variable minimize : (R -> option R) -> R -> R -> res opt_res.

Definition neg_opt (o : option R) : option R := option_map (fun y => (-1) * y) o.

(** bounds of [optim_u] (134-139), from the first data point *)
Definition u_bounds (a : tp) : R * R :=
  if Rlt_dec 0 (tS a) then (1e-2, 1e-4 * tS a * tC a / tK a)
  else (1e-4 * tS a * tC a / tK a, -1e-2).

(** objective (140) *)
Definition nega_Yita (d : list tp) (u : R) : option R :=
  match cal_Yita u d with Ok y => neg_opt y | Err _ => None end.

(** [optim_u] (110-159) with [details=False]: position and efficiency, [None] on failure. *)
Definition optim_u (d : list tp) : res (option (R * option R)) :=
  match d with
  | [] => Err IndexError
  | a :: _ =>
      let (lo, hi) := u_bounds a in
      let! r := minimize (nega_Yita d) lo hi in
      Ok (if osuccess r then Some (ox r, neg_opt (ofun r)) else None)
  end.

(** [optim_Yita(datas, allTemp=True)] (161-183): [None] passed on as u raises TypeError. *)
Definition optim_Yita (d : list tp) : res (list (option R)) :=
  let! o := optim_u d in
  match o with
  | Some (x, _) => cal_Yita_all x d
  | None => Err TypeError
  end.

(** [valuate(datas, allTemp)] (185-221): list of (Tc, Th, ZTdev) per temperature and the efficiency
    (one per temperature, or only the last one, which then is broadcast against all Th, 218). *)
Definition valuate (d : list tp) (allTemp : bool) : res (list (option R) * list (R * R * option R)) :=
  match d with
  | [] => Err IndexError
  | a :: _ =>
      let! ys := optim_Yita d in
      let row := fun (p : tp) (y : option R) => (tT a, tT p, option_map (fun y => cal_ZTdev y (tT a) (tT p)) y) in
      if allTemp then Ok (ys, map (fun q => row (fst q) (snd q)) (combine d ys))
      else let y := last ys None in Ok ([y], map (fun p => row p y) d)
  end.
End Optim.
