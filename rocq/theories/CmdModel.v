(** Model of the text written by [np.savetxt] and [_to_file] (src/teflow/interface.py 186-208), and of the commands [do_ztdev] (472-532) and [do_engout] (535-627) with
    [GenLeg.valuate] and [GenPair.valuate] (src/teflow/engout.py 332-367, 500-539).  Numbers are reals ([None]: nan); [minimize_scalar] and number formatting are parameters. *)
From Coq Require Import ZArith Reals String Ascii.
From Verif Require Import Py PyStr RUtil CfgModel DataModel SubsModel Regex MonoModel InterpModel ZtModel EngModel TxtModel.
Local Open Scope list_scope.
Local Open Scope R_scope.

(** ** files of numbers *)
(** [np.savetxt(name, rows, fmt, header=header, comments=comments)]: the text; [num] formats one number *)
Definition savetxt {X : Type} (num : X -> str) (comments header : str) (rows : list (list X)) : str :=
  (match header with [] => [] | _ => to_text [comments ++ jn (newline :: comments) (split_each (is_ch newline) [] header)] end)
  ++ to_text (List.map (fun r => jn [sp_c] (List.map num r)) rows).
(** the text written by [_to_file] (interface.py 186-206; labels of a dictionary are its keys, 190-192; the name of the file is left to the caller); [stamp] is time and program *)
Definition to_file {X : Type} (num : X -> str) (stamp : str) (bare headers : bool) (header : str) (labels : list str) (rows : list (list X)) : str :=
  if bare then savetxt num (S_ "# ") [] rows
  else
    let h := match header with [] => stamp | _ => header ++ S_ " - " ++ stamp end in
    let l := jn (S_ "  ") labels in
    if headers then savetxt num [] (match l with [] => h | _ => l end) rows
    else savetxt num (S_ "#") (match l with [] => h | _ => h ++ newline :: l end) rows.
(** [np.loadtxt(text)]: the rows; every word has to be a number, the rows have to be equally long *)
Definition loadtxt {X : Type} (pyfloat : str -> res X) (text : str) : res (list (list X)) :=
  let! rows := mapM (mapM pyfloat) (rows_of text) in
  match rows with
  | [] => Ok []
  | r :: rest => if forallb (fun q => Nat.eqb (List.length q) (List.length r)) rest then Ok rows else Err ValueError
  end.

Section Commands.
Variable load : str -> res (list (list R)).
Variable num : option R -> str.
Variable stamp : str.

(** ** do_ztdev *)
Variable minimize : (R -> option R) -> R -> R -> res opt_res.
(** the columns T, C, S, K as points (ztdev.py 185-221 gets them as rows of an array) *)
Fixpoint points4 (T C S K : list R) : list tp :=
  match T, C, S, K with
  | t :: T', c :: C', s :: S', k :: K' => {| tT := t; tC := c; tS := s; tK := k |} :: points4 T' C' S' K'
  | _, _, _, _ => []
  end.
(** rows of Tc, Th, Yita (interface.py 510) *)
Fixpoint rows3 (a b y : list R) : list (R * R * R) :=
  match a, b, y with x :: a', z :: b', v :: y' => (x, z, v) :: rows3 a' b' y' | _, _, _ => [] end.
(** the rows of results (interface.py 507-526) *)
Definition ztdev_rows (yita : bool) (text : str) : res (list (list (option R))) :=
  let! cols := load text in
  if yita then
    match cols with
    | a :: b :: y :: _ =>
        match y with
        | [] => Err ValueError                                   (* np.max *)
        | _ => Ok (List.map (fun q => match q with (tc, th, v) => [Some tc; Some th; Some v; Some (cal_ZTdev v tc th)] end) (rows3 a b y))
        end
    | _ => Err ValueError
    end
  else
    match firstn 4 cols with
    | [t; c; s; k] => let! r := valuate minimize (points4 t c s k) true in
                      Ok (List.map (fun q => match q with ((tc, th, z), y) => [Some tc; Some th; y; z] end) (combine (snd r) (fst r)))
    | (_ :: _) :: _ => Err ValueError
    | _ => Err IndexError                                        (* Th[0] *)
    end.
(** interface.py 528-530 *)
Definition ztdev_head : str := S_ "Calculate ZTdev - " ++ stamp ++ newline :: S_ "Tc     Th       Yita   ZTdev".
(** [do_ztdev] (interface.py 472-532) *)
Definition ztdev (fs : files) (input : str) (output : option str) (suffix : str) (bare yita : bool) : files * res unit :=
  match fs input with
  | None => (fs, Err FileNotFoundError)
  | Some text =>
      match ztdev_rows yita text with
      | Err e => (fs, Err e)
      | Ok rows => (write fs (suffixed output input suffix None) (savetxt num (S_ "# ") (if bare then [] else ztdev_head) rows), Ok tt)
      end
  end.

(** ** do_engout *)
(** one output of [simulate] (engout.py 86-140), for one temperature *)
Definition one (p : prfs) (how : str) : res outs :=
  let! l := simulate (Some p) FloatT (CStr how) 101 in match l with o :: _ => Ok o | [] => Err ValueError end.
(** [GenLeg.valuate] (engout.py 333-367) at one temperature of the hot side *)
Definition leg_row (L : R) (d : list tp) (Tc Th : R) : res (list R) :=
  let p := leg_build L 100 (itgs_tab d Tc Th) false in
  let! o1 := one p (S_ "PowerMax") in
  let! o2 := one p (S_ "YitaMax") in
  Ok [Tc; Th; pPFeng p; pZTeng p; oPout o1; oYita o2].
(** [GenPair.valuate] (engout.py 501-539) at one temperature *)
Definition pair_row (L : R) (dp dn : list tp) (Tc Th : R) : res (list R) :=
  let ip := itgs_tab dp Tc Th in let i_n := itgs_tab dn Tc Th in
  let! z := pair_build L 100 ip i_n 1 (RStr (S_ "ZTengMax")) false in
  let! o1 := one (snd z) (S_ "YitaMax") in
  let! q := pair_build L 100 ip i_n 1 (RStr (S_ "PFengMax")) false in
  let! o2 := one (snd q) (S_ "PowerMax") in
  Ok [Tc; Th; pPFeng (snd q); pZTeng (snd z); oPout o2; oYita o1].
(** the temperatures (engout.py 338-339, 506-507): the first is that of the cold side ([Th[0]] of the constructor's message fails without any other) *)
Definition over_temps (row : R -> R -> res (list R)) (T : list R) : res (list (list R)) :=
  match T with Tc :: ((_ :: _) as Ths) => mapM (row Tc) Ths | _ => Err IndexError end.
(** interface.py 593-595 *)
Definition invert (l : list R) : list R := List.map (fun x => 1e4 / x) l.
(** [ndarray.mean] (interface.py 609) *)
Definition mean (l : list R) : R := sumR l / INR (List.length l).
(** the rows of results (interface.py 582-619) *)
Definition engout_rows (pair resistivity : bool) (length : R) (text : str) : res (list (list R)) :=
  let! cols := load text in
  if (pair && (List.length cols <? 7)%nat)%bool then Err ValueError
  else if (List.length cols <? 4)%nat then Err ValueError
  else
    let cond i := let c := nth i cols [] in if resistivity then invert c else c in
    if Rle_dec length 0 then Err ValueError
    else
      let T := nth 0 cols [] in
      if pair then
        let a := points4 T (cond 1%nat) (nth 2 cols []) (nth 3 cols []) in
        let b := points4 T (cond 4%nat) (nth 5 cols []) (nth 6 cols []) in
        if Rlt_dec (mean (nth 2 cols [])) (mean (nth 5 cols [])) then over_temps (pair_row length b a) T
        else over_temps (pair_row length a b) T
      else
        match T with
        | [] => Err IndexError
        | _ => if (4 <? List.length cols)%nat then Err ValueError                (* T, C, S, K = TEdatas *)
               else over_temps (leg_row length (points4 T (cond 1%nat) (nth 2 cols []) (nth 3 cols []))) T
        end.
(** interface.py 618, 622-624 *)
Definition engout_head (ltext : str) : str := S_ "Engineering performance (L=" ++ ltext ++ S_ "mm, A=100mm^2) - " ++ stamp ++ newline :: S_ "Tc     Th       PFeng  ZTeng  Pout   Yita".
(** [do_engout] (interface.py 535-627); [ltext]: the length as a text *)
Definition engout (ltext : str) (fs : files) (input : str) (output : option str) (suffix : str) (bare pair resistivity : bool) (length : R) : files * res unit :=
  match fs input with
  | None => (fs, Err FileNotFoundError)
  | Some text =>
      match engout_rows pair resistivity length text with
      | Err e => (fs, Err e)
      | Ok rows => (write fs (suffixed output input suffix None) (savetxt (fun x => num (Some x)) (S_ "# ") (if bare then [] else engout_head ltext) rows), Ok tt)
      end
  end.
End Commands.
