(** Model of [vquad] (src/teflow/mathext.py 650-720), [_interp_vect] (547-577), the shapes of [vinterp] (579-648) and the checks of [interpx] (511-545) on numpy arrays,
    and of [CfgParser.parse_array] (src/teflow/utils.py 353-362).
    An array is its shape and its elements in C order.  numpy's limits on the number of operands and dimensions are left out; numbers are reals ([None]: nan or infinite). *)
From Coq Require Import ZArith Reals String Ascii.
From Verif Require Import Py PyStr RUtil CfgModel SubsModel Regex InterpModel TxtModel CliModel CmdModel.
Local Open Scope list_scope.

Record nd (X : Type) := Nd { shape : list nat; flat : list X }.
Arguments Nd {X}. Arguments shape {X}. Arguments flat {X}.
(** number of elements *)
Fixpoint size (s : list nat) : nat := match s with [] => 1 | d :: r => d * size r end.

(** ** broadcasting: [np.broadcast(...)] *)
(** two shapes, read from the last axis: equal dimensions, or one of them is 1 (or absent) *)
Fixpoint bc_rev (s t : list nat) : res (list nat) :=
  match s, t with
  | [], _ => Ok t
  | _, [] => Ok s
  | a :: s', b :: t' =>
      let! r := bc_rev s' t' in
      if Nat.eqb a b then Ok (a :: r) else if Nat.eqb a 1 then Ok (b :: r) else if Nat.eqb b 1 then Ok (a :: r) else Err ValueError
  end.
Fixpoint bc_all (s : list nat) (ts : list (list nat)) : res (list nat) :=
  match ts with [] => Ok s | t :: r => let! s' := bc_rev s (rev t) in bc_all s' r end.
(** the attribute [.shape]; incompatible shapes: ValueError *)
Definition broadcast_shape (ts : list (list nat)) : res (list nat) := let! r := bc_all [] ts in Ok (rev r).

(** the coordinates of the [k]-th position of the iterator *)
Fixpoint unravel (s : list nat) (k : nat) : list nat :=
  match s with [] => [] | _ :: r => (k / size r)%nat :: unravel r (k mod size r) end.
(** steps through the elements of an operand: none along axes of length 1 *)
Fixpoint strides (t : list nat) : list nat :=
  match t with [] => [] | d :: r => (if Nat.eqb d 1 then 0%nat else size r) :: strides r end.
Fixpoint dot (i s : list nat) : nat := match i, s with a :: i', b :: s' => (a * b + dot i' s')%nat | _, _ => 0%nat end.
(** the element of an operand at coordinates of the broadcast shape: axes are matched from the last one *)
Definition bc_get {X : Type} (x0 : X) (A : nd X) (idx : list nat) : X :=
  nth (dot (skipn (List.length idx - List.length (shape A)) idx) (strides (shape A))) (flat A) x0.
(** [np.ndindex(shape)] *)
Fixpoint ndindex (s : list nat) : list (list nat) :=
  match s with [] => [[]] | d :: r => flat_map (fun i => List.map (cons i) (ndindex r)) (seq 0 d) end.

(** ** vquad (650-720) *)
Section Vquad.
(** [quad(func, a, b, args, **kwargs)]: value and error, or an exception *)
Variable quad : R -> R -> list R -> res (R * R).
(** an array under construction ([None]: not assigned, as [np.empty] leaves it) *)
Notation part := (list nat -> option R).
Definition idx_eqb (a b : list nat) : bool := if list_eq_dec Nat.eq_dec a b then true else false.
Definition assign (p : part) (idx : list nat) (v : R) : part := fun j => if idx_eqb j idx then Some v else p j.
(** the loop (712-716) over positions [(idx, k)] of [zip(indexed, broadcasted)] *)
Fixpoint quads (a b fill : nd R) (whr : nd bool) (args : list (nd R)) (s : list nat) (l : list (list nat * nat)) (itg err : part) : res (part * part) :=
  match l with
  | [] => Ok (itg, err)
  | (idx, k) :: r =>
      let at_ A := bc_get 0%R A (unravel s k) in
      if bc_get false whr (unravel s k) then
        let! (v, e) := quad (at_ a) (at_ b) (List.map at_ args) in
        quads a b fill whr args s r (assign itg idx v) (assign err idx e)
      else quads a b fill whr args s r (assign itg idx (at_ fill)) (assign err idx 0%R)
  end.
Definition vquad (a b : nd R) (args : list (nd R)) (whr : nd bool) (fill : nd R) : res (list nat * part * part) :=
  let! s := broadcast_shape (shape a :: shape b :: shape whr :: shape fill :: List.map shape args) in
  let! (itg, err) := quads a b fill whr args s (combine (ndindex s) (seq 0 (size s))) (fun _ => None) (fun _ => None) in
  Ok (s, itg, err).
End Vquad.

(** ** _interp_vect (547-577): which routine a method name selects *)
Inductive routine := Linear | Line | Poly (degree : nat) | Cubic | Pchip | Akima | Spline | Gpr.
(** [int(method[-1])] *)
Definition last_digit (m : str) : res nat := match rev m with c :: _ => match digit c with Some n => Ok n | None => Err ValueError end | [] => Err IndexError end.
Definition choose (method : str) : res routine :=
  let m := List.map lower method in
  if eqb method (S_ "linear") then Ok Linear
  else if eqb method (S_ "line") then Ok Line
  else if startswith m (S_ "poly") then let! d := last_digit method in Ok (Poly d)
  else if eqb method (S_ "cubic") then Ok Cubic
  else if eqb method (S_ "pchip") then Ok Pchip
  else if eqb m (S_ "akima") then Ok Akima
  else if eqb method (S_ "spline") then Ok Spline
  else if eqb m (S_ "gpr") then Ok Gpr
  else Err ValueError.

(** ** vinterp on arrays *)
(** [squeeze()]: axes of length 1 disappear *)
Definition squeeze {X : Type} (A : nd X) : nd X := Nd (filter (fun d => negb (Nat.eqb d 1)) (shape A)) (flat A).
(** pieces of length [n] *)
Fixpoint pieces {X : Type} (n m : nat) (l : list X) : list (list X) :=
  match m with 0%nat => [] | S m' => firstn n l :: pieces n m' (skipn n l) end.

Section Vinterp.
(** [run r x y xp]: the routine [r] on nodes, values and points given as arrays of numbers in C order; it may fail; [scalar] says that [xp] is a 0-dimensional array *)
Variable run : routine -> bool -> list R -> list R -> list R -> res (list R).

(** [_interp_vect] on one row *)
Definition interp_vect (method : str) (scalar : bool) (x y xp : list R) : res (list R) := let! r := choose method in run r scalar x y xp.
(** [np.apply_along_axis] fails on arrays without any row; its result has the leading axes of [y] and those of [xp] *)
Definition vinterp_nd (x y xp : nd (option R)) (method : str) (reorder : bool) : res (nd R) :=
  let x := squeeze x in let y := squeeze y in
  match shape x with
  | [n] =>
      match rev (shape y) with
      | [] => Err IndexError                                               (* y.shape[-1] *)
      | m :: lead =>
          if negb (Nat.eqb m n) then Err ValueError                        (* 629 *)
          else
            let! rows := vinterp (interp_vect method (match shape xp with [] => true | _ => false end)) (flat x) (pieces m (size (rev lead)) (flat y)) (flat xp) reorder in
            match rows with
            | [] => Err ValueError
            | _ => let! outs := mapM (fun r => r) rows in Ok (Nd (rev lead ++ shape xp) (List.concat outs))
            end
      end
  | _ => Err ValueError                                                    (* 626 *)
  end.
End Vinterp.

(** ** interpx (511-545) on arrays *)
Local Open Scope R_scope.
(** [_interpx(x, y, xp, left, right)] (498-509): [np.interp] of a 0-dimensional array is a number, to which no item can be assigned;
    different lengths and empty data are refused by [np.interp]; a single node has no neighbour to extrapolate with *)
Definition interpx_vect (left right : option R) (scalar : bool) (x y xp : list R) : res (list R) :=
  let l := combine x y in
  if negb (Nat.eqb (List.length x) (List.length y)) then Err ValueError
  else match l with
       | [] => Err ValueError
       | _ =>
           let outside := existsb (fun t => match left with None => if Rlt_dec t (fst (first_pt l)) then true else false | Some _ => false end) xp
                       || existsb (fun t => match right with None => if Rlt_dec (fst (last_pt l)) t then true else false | Some _ => false end) xp in
           if outside && (List.length x <? 2)%nat then Err IndexError
           else if outside && scalar then Err TypeError
           else Ok (List.map (interpx l left right) xp)
       end.
Definition interpx_nd (x y xp : nd R) (left right : option R) : res (nd R) :=
  let x := squeeze x in let y := squeeze y in
  match shape x, shape y with
  | [n], [_] => if (n <? 2)%nat then Err ValueError
                else let! v := interpx_vect left right (match shape xp with [] => true | _ => false end) (flat x) (flat y) (flat xp) in Ok (Nd (shape xp) v)
  | _, _ => Err ValueError
  end.

(** ** parse_array (utils.py 353-362) *)
Section Array.
Variable X : Type.
Variable x0 : X.
Variable pyfloat : str -> res X.
(** [np.loadtxt(text, unpack=True, ndmin=2)]: the columns.  (A text without any row gives an array without elements; here: no column.) *)
Definition columns (text : str) : res (list (list X)) :=
  let! rows := loadtxt pyfloat text in
  match rows with
  | [] => Ok []
  | r :: _ => Ok (List.map (fun j => List.map (fun q => nth j q x0) rows) (seq 0 (List.length r)))
  end.
Definition parse_array (fs : str -> option str) (text : str) : res (list (list X)) :=
  let t := strip text in
  if startswith t (S_ "file:") then match fs (strip (skipn 5 t)) with Some c => columns c | None => Err FileNotFoundError end
  else if startswith t (S_ "array:") then columns (strip (skipn 6 t))
  else columns t.
End Array.
