(** Model of [do_format] (src/teflow/interface.py 630-870) after the data have been read: temperatures (741-770), methods (772-807), table (809-816) and calculated quantities (819-865).
    Numbers are reals; [np.loadtxt] and [np.savetxt] are parameters; letters are those of ASCII; a temperature step of zero is outside the model (numpy and Python divide differently). *)
From Coq Require Import ZArith Reals String Ascii.
From Verif Require Import Py PyStr RUtil CfgModel DataModel SubsModel Regex MonoModel InterpModel ZtModel EngModel TxtModel.
Local Open Scope list_scope.
Local Open Scope R_scope.

(** [round(x)]: to the nearest integer, halves to the even one *)
Definition round_even (x : R) : Z :=
  let f := Int_part x in let d := x - IZR f in
  if Rlt_dec d (1 / 2) then f else if Rlt_dec (1 / 2) d then (f + 1)%Z else if Z.even f then f else (f + 1)%Z.

(** the data: the temperatures of every stored property; [get(prop, None)] (a property may be derived from others); [in] *)
Record dataset := { ds_temps : list (list R); ds_get : str -> option (list R * list R); ds_has : str -> bool }.

Fixpoint maxR (a : R) (l : list R) : R := match l with [] => a | b :: r => maxR (Rmax a b) r end.
Definition max_list (l : list R) : res R := match l with [] => Err ValueError | a :: r => Ok (maxR a r) end.

(** ** temperatures (interface.py 748-764) *)
Definition auto_temps (tstep tmax : R) (no_rt : bool) : res (list R) :=
  let l := if Rlt_dec 23 tstep then
             let num := (round_even ((tmax - 323) / tstep) + 1)%Z in
             let T := List.map (fun i => 323 + INR i * tstep) (seq 0 (Z.to_nat num)) in
             if no_rt then T else 300 :: T
           else
             let num := (round_even ((tmax - 300) / tstep) + 1)%Z in
             List.map (fun i => 300 + INR i * tstep) (seq 0 (Z.to_nat num)) in
  (* [T[-1]] of the log messages *)
  match l with [] => Err IndexError | _ => Ok l end.
(** [options.tmax or max(T.max() for T, *_ in TEdatax.values())] *)
Definition t_max (tmax : option R) (d : dataset) : res R :=
  match (match tmax with Some t => if Req_EM_T t 0 then None else Some t | None => None end) with
  | Some t => Ok t
  | None => let! ms := mapM max_list (ds_temps d) in max_list ms
  end.

(** ** methods: METHOD_DICT (772-778) *)
Definition table_of (c : ascii) : option str :=
  if is_ch "L" c then Some (S_ "linear") else if is_ch "C" c then Some (S_ "cubic") else if is_ch "P" c then Some (S_ "pchip") else if is_ch "A" c then Some (S_ "Akima")
  else match digit c with Some (S n) => Some (S_ "poly" ++ [c]) | _ => None end.
(** one word (796-807) *)
Definition one_method (w : str) : res str :=
  let m := List.map upper w in
  if startswith m (S_ "POLY") then Ok (S_ "poly" ++ match rev m with c :: _ => [c] | [] => [] end)
  else match m with c :: _ => match table_of c with Some r => Ok r | None => Err ValueError end | [] => Err IndexError end.
(** the option (779-794) *)
Definition three_methods (text : str) : res (list str) :=
  let ws := words text in
  let! l := match ws with
            | [] => Err ValueError
            | [w] => Ok [w; w; w]
            | [_; _] => Err ValueError
            | a :: b :: c :: _ => Ok [a; b; c]
            end in
  mapM one_method l.

Section Format.
Variable load : str -> res (list (list R)).
Variable save : list str -> list (list R) -> str.
Variable interpolate : str -> list R -> list R -> list R -> res (list R).
(** [Model.valuate] of the parabolic band, or with a gap of the Kane band: absolute values of T, C, S, K; the results L, Ke, Kp *)
Variable lorenz : option R -> list R -> list R -> list R -> list R -> res (list R * list R * list R).

(** [vinterp(tx, px, T, method)] for one property: a single point is no vector *)
Definition interp1 (m : str) (d : list R * list R) (T : list R) : res (list R) :=
  if (List.length (fst d) <? 2)%nat then Err ValueError
  else let! rs := vinterp (interpolate m) (List.map Some (fst d)) [List.map Some (snd d)] (List.map Some T) true in
       match rs with r :: _ => r | [] => Err ValueError end.
(** one property of the table (810-816) *)
Definition column (d : dataset) (T : list R) (pm : str * str) : res (option (list R)) :=
  match ds_get d (fst pm) with None => Ok None | Some tp => let! v := interp1 (snd pm) tp T in Ok (Some v) end.
Definition zip2 {A B C : Type} (f : A -> B -> C) (a : list A) (b : list B) : list C := List.map (fun p => f (fst p) (snd p)) (combine a b).
Definition ctrapz (y x : list R) : list R := List.map snd (cumtrapz (combine x y)).
(** the calculated columns (846-865), for data without zeros in K, C, S, T *)
Definition calc_PF (C S : list R) : list R := zip2 (fun c s => 1e-6 * c * s * s) C S.
Definition calc_ZT (PF K T : list R) : list R := zip2 (fun pk t => fst pk / snd pk * t) (combine (List.map (fun p => 1e-4 * p) PF) K) T.
Definition calc_ZTave (C S K T ZT : list R) : list R :=
  let RTh := ctrapz (List.map (fun c => 1e4 / c) C) T in
  let STh := ctrapz S T in
  let KTh := ctrapz K T in
  let TTh := List.map (fun t => (nth 0 T 0 + t) / 2) T in
  List.map (fun i => let k := nth i KTh 0 in
    if Rlt_dec 1e-3 (Rabs k) then 1e-6 * nth i STh 0 ^ 2 * nth i TTh 0 / (nth i RTh 0 * k) else nth i ZT 0) (seq 0 (List.length T)).
Definition calc_CF (ZT S T : list R) : list R := zip2 (fun zs t => 1e6 * (sqrt (1 + fst zs) - 1) / (snd zs * t)) (combine ZT S) T.
(** 819-865 *)
Definition calculated (d : dataset) (ms : list str) (gap : option R) (T C S K : list R) : res (list (str * list R)) :=
  let! lkk := (if ds_has d (S_ "L") then
     (* the loop variable [prop] is left over from the table: 'K' (826) *)
     match ds_get d (S_ "K") with
     | None => Err TypeError
     | Some tp =>
         let! L := interp1 (nth 1 ms []) tp T in
         let Ke := zip2 (fun lc t => lc * t) (zip2 (fun l c => 1e-6 * l * c) L C) T in
         Ok (L, Ke, zip2 Rminus K Ke)
     end
   else lorenz gap (List.map Rabs T) (List.map Rabs C) (List.map Rabs S) (List.map Rabs K)) in
  let '(L, Ke, Kp) := lkk in
  let PF := calc_PF C S in let ZT := calc_ZT PF K T in
  Ok [(S_ "L", L); (S_ "Ke", Ke); (S_ "Kp", Kp); (S_ "PF", PF); (S_ "ZT", ZT); (S_ "ZTave", calc_ZTave C S K T ZT); (S_ "CF", calc_CF ZT S T)].
Definition present (n : str) (o : option (list R)) : list (str * list R) := match o with Some v => [(n, v)] | None => [] end.
(** 809-865 *)
Definition table (d : dataset) (T : list R) (method : str) (calculate : bool) (gap : option R) : res (list (str * list R)) :=
  let! ms := three_methods method in
  let! oC := column d T (S_ "C", nth 0 ms []) in
  let! oS := column d T (S_ "S", nth 1 ms []) in
  let! oK := column d T (S_ "K", nth 2 ms []) in
  let base := (S_ "T", T) :: present (S_ "C") oC ++ present (S_ "S") oS ++ present (S_ "K") oK in
  if calculate then
    match oC, oS, oK with
    | Some Cv, Some Sv, Some Kv => let! more := calculated d ms gap T Cv Sv Kv in Ok (base ++ more)
    | _, _, _ => Err ValueError
    end
  else Ok base.
(** 741-770 *)
Definition format_temps (fs : files) (out : str) (d : dataset) (tstep : R) (tmax : option R) (no_rt : bool) : res (list R) :=
  match fs out with
  | Some t => let! cols := load t in match cols with T :: _ => Ok T | [] => Err ValueError end
  | None => let! m := t_max tmax d in auto_temps tstep m no_rt
  end.
(** the whole command after reading the input (737-870) *)
Definition format (fs : files) (input : str) (output : option str) (suffix : str) (d : dataset) (tstep : R) (tmax : option R) (no_rt : bool) (method : str) (calculate : bool) (gap : option R) : files * res unit :=
  let out := suffixed output input suffix (Some (S_ ".txt")) in
  match (let! T := format_temps fs out d tstep tmax no_rt in table d T method calculate gap) with
  | Err e => (fs, Err e)
  | Ok cols => (write fs out (save (List.map fst cols) (List.map snd cols)), Ok tt)
  end.
End Format.
