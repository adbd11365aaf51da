(** Model of two numeric commands of src/teflow/interface.py: [do_interp] (214-314) and [do_cutoff] (873-963).  Numbers are reals (files with nan or inf are outside), a file is a text;
    [np.loadtxt] and [np.savetxt] are parameters; the logger is left out where it cannot fail. *)
From Coq Require Import ZArith Reals String Ascii.
From Verif Require Import Py PyStr RUtil CfgModel DataModel SubsModel Regex MonoModel InterpModel FuncModel TxtModel.
Local Open Scope list_scope.
Local Open Scope R_scope.

(** the smallest integer not below [x] *)
Definition ceil (x : R) : Z := (- Int_part (- x))%Z.
(** [np.arange(start, stop, step)]; a zero step of Python numbers raises *)
Definition arange (start stop step : R) : res (list R) :=
  if Req_EM_T step 0 then Err ZeroDivisionError else Ok (List.map (fun i => start + INR i * step) (seq 0 (Z.to_nat (ceil ((stop - start) / step))))).
(** [np.linspace(a, b, num=n)] *)
Definition linspace (a b : R) (n : Z) : res (list R) :=
  if (n <? 0)%Z then Err ValueError
  else Ok (List.map (fun i => if Nat.eqb i 0 then a else a + INR i * ((b - a) / INR (Z.to_nat n - 1))) (seq 0 (Z.to_nat n))).
Definition first (l : list R) : res R := match l with [] => Err IndexError | a :: _ => Ok a end.
Definition lst (l : list R) : res R := match rev l with [] => Err IndexError | a :: _ => Ok a end.

Section Commands.
(** [np.loadtxt(text, unpack=True, ndmin=2)]: the columns *)
Variable load : str -> res (list (list R)).
(** [np.savetxt(name, columns.T, fmt='%.4f', header=...)]: the text it writes; None: no header given *)
Variable save : option str -> list (list R) -> str.
Variable pyfloat : str -> res R.
Variable pyint : str -> option Z.
Variable stamp : str.

(** ** do_interp *)
(** [_interp_vect] for a method, the fill value of [left] and [right]: nodes, values, points *)
Variable interpolate : str -> option R -> list R -> list R -> list R -> res (list R).
Definition methods : list str :=
  [S_ "linear"; S_ "line"; S_ "cubic"; S_ "pchip"; S_ "Akima"; S_ "poly1"; S_ "poly2"; S_ "poly3"; S_ "poly4"; S_ "poly5"; S_ "poly6"; S_ "poly7"; S_ "poly8"; S_ "poly9"].
(** the sampling points (258-286) *)
Definition points (fs : files) (out : str) (range : option str) (npoints : Z) (x : list R) : res (list R) :=
  match fs out with
  | Some t => let! cols := load t in match cols with x2 :: _ => Ok x2 | [] => Err ValueError end
  | None =>
      match range with
      | Some ((_ :: _) as r) =>
          match split_each (is_ch colon) [] (strip r) with
          | [a; b; c] => let! start := pyfloat a in let! step := pyfloat b in let! stop := pyfloat c in arange start (stop + 0.001 * step) step
          | _ => Err ValueError
          end
      | _ => let! a := first x in let! b := lst x in linspace a b npoints
      end
  end.
(** [vinterp(x, y, x2, method, left=value, right=value)] (299-307): [y] has to be non-empty, and a single number is no vector after [squeeze] *)
Definition interp_columns (method : str) (fill : option R) (x : list R) (y : list (list R)) (x2 : list R) : res (list (list R)) :=
  match y with
  | [] => Err ValueError
  | _ => if (List.length x <? 2)%nat then Err ValueError
         else let! rs := vinterp (interpolate method fill) (List.map Some x) (List.map (List.map Some) y) (List.map Some x2) true in mapM (fun r => r) rs
  end.
Definition interp_data (fs : files) (text out : str) (bare : bool) (method : str) (extrapolate range : option str) (npoints : Z) : res (list (list R)) :=
  let! cols := load text in
  match cols with
  | [] => Err ValueError
  | x :: y =>
      let! x2 := points fs out range npoints x in
      if negb (existsb (eqb method) methods) then Err ValueError
      else
        let! datas :=
          (if (eqb method (S_ "linear") || eqb method (S_ "line"))%bool then
             let! value := match extrapolate with Some ((_ :: _) as e) => let! v := pyfloat e in Ok (Some v) | _ => Ok None end in
             let! d := interp_columns method value x y x2 in
             (* [f'{value:.6g}'] of the log message *)
             match value with Some _ => Ok d | None => Err TypeError end
           else interp_columns method None x y x2) in
        Ok (if bare then datas else x2 :: datas)
  end.
Definition interp (fs : files) (input : str) (output : option str) (suffix : str) (bare : bool) (method : str) (extrapolate range : option str) (npoints : Z) : files * res unit :=
  match fs input with
  | None => (fs, Err FileNotFoundError)
  | Some text =>
      let out := suffixed output input suffix None in
      match interp_data fs text out bare method extrapolate range npoints with
      | Err e => (fs, Err e)
      | Ok cols => (write fs out (save (if bare then None else Some (S_ "Interpolate via " ++ method ++ S_ " method - " ++ stamp)) cols), Ok tt)
      end
  end.

(** ** do_cutoff *)
(** [np.loadtxt(name, ndmin=2)]: the rows, all of the same length, at least one *)
Variable load_rows : str -> res (list (list R)).
Variable save_rows : option str -> list (list R) -> str.
Definition lower (c : ascii) : ascii := let n := nat_of_ascii c in if ((65 <=? n)%nat && (n <=? 90)%nat)%bool then ascii_of_nat (n + 32) else c.
(** the cut-off function (917-935) *)
Definition cut_factor (method : str) (tc width : R) : res (R -> R) :=
  let wd := width / 2 in let m := List.map lower method in
  if existsb (eqb m) [S_ "fd"; S_ "fermi-dirac"; S_ "fermidirac"] then Ok (fun x => fermidirac (5 * (x - tc) / wd))
  else if existsb (eqb m) [S_ "ss"; S_ "smoothstep"] then Ok (fun x => smoothstep true ((x - tc) / wd))
  else Err ValueError.
(** the columns (945-950) and their places in a row of [n] numbers *)
Definition cut_columns (column : option str) (n : nat) : res (list Z) :=
  match column with
  | None => Ok (List.map Z.of_nat (seq 1 (n - 1)))
  | Some c => mapM (as_int pyint) (words c)
  end.
Definition place (n : nat) (i : Z) : res nat := match index_of n i with Some k => Ok k | None => Err IndexError end.
(** one row (952-957) *)
Definition cut_row (bare : bool) (js : list nat) (f : R -> R) (row : list R) : list R :=
  let k := f (nth 0 row 0) in
  if bare then List.map (fun j => nth j row 0 * k) js
  else List.map (fun iv => if existsb (Nat.eqb (fst iv)) js then snd iv * k else snd iv) (combine (seq 0 (List.length row)) row).
Definition cut_data (text : str) (bare : bool) (method : str) (column : option str) (tc width : R) : res (list (list R)) :=
  let! rows := load_rows text in
  let! f := cut_factor method tc width in
  let n := List.length (hd [] rows) in
  let! zs := cut_columns column n in
  let! js := mapM (place n) zs in
  Ok (List.map (cut_row bare js f) rows).
Definition cutoff (fs : files) (input : str) (output : option str) (suffix : str) (bare : bool) (method : str) (column : option str) (tc width : R) : files * res unit :=
  match fs input with
  | None => (fs, Err FileNotFoundError)
  | Some text =>
      match cut_data text bare method column tc width with
      | Err e => (fs, Err e)
      | Ok rows => (write fs (suffixed output input suffix None) (save_rows (if bare then None else Some (S_ "Cut-off data - " ++ stamp)) rows), Ok tt)
      end
  end.
End Commands.
