(** Model of the predictions and outputs of [parse_KappaFit] (src/teflow/kappa.py 1617-1707): sample points, rows of conductivities with their labels,
    unit of frequency. *)
From Coq Require Import Reals String Ascii.
From Coquelicot Require Import Coquelicot.
From Verif Require Import Py PyStr PyDict RUtil Regex ScatModel DebyeModel.
Local Open Scope R_scope.

(** [np.linspace(a, b, n)] *)
Definition linspace (a b : R) (n : nat) : list R := List.map (fun k => a + INR k * ((b - a) / INR (n - 1))) (seq 0 n).
(** [dataX.min()], [dataX.max()] of a non-empty array *)
Definition amin (x : R) (r : list R) : R := fold_left Rmin r x.
Definition amax (x : R) (r : list R) : R := fold_left Rmax r x.
(** sample points (kappa.py 1618-1632); [data]: the temperatures of the experiment, present only if there is something to fit *)
Definition grid (npoints : Z) (predict : option (list R)) (margin : R) (data : option (list R)) : res (list R) :=
  match predict with
  | Some ((_ :: _) as p) => Ok p
  | _ => match data with
         | None => Err RuntimeError
         | Some [] => Err ValueError
         | Some (x :: r) => let m := Rabs margin in
             let xmin := (1 + m) * amin x r - m * amax x r in
             let xmax := (1 + m) * amax x r - m * amin x r in Ok (linspace xmin xmax (Z.abs_nat npoints))
         end
  end.
(** [sep.join(l)] *)
Fixpoint join (sep : str) (l : list str) : str := match l with [] => [] | [x] => x | x :: r => x ++ sep ++ join sep r end.
(** rows and labels of a Debye model with [splitkappa] (kappa.py 1633-1660); [td], [vs], mechanisms [s], additional models [a] *)
Definition mech_rows (td vs : R) (s : list mech) (pts : list R) : list (str * list R) :=
  List.map (fun i => (join (S_ "+") (List.map fst (firstn (i + 1) s)), List.map (fun T => kappa_n td vs s T (i + 1)) pts)) (seq 0 (List.length s)).
Definition add_rows (a : list subm) (pts : list R) : list (str * list R) := List.map (fun m => (fst m, List.map (snd m) pts)) a.
Definition debye_rows (td vs : R) (s : list mech) (a : list subm) (pts : list R) (split : bool) : list (str * list R) :=
  if split then (S_ "Kappa-Total", List.map (kappa td vs s a) pts) :: mech_rows td vs s pts ++ add_rows a pts
  else [(S_ "Kappa-DEBYE", List.map (kappa td vs s a) pts)].
(** the rows of an object named [name] (kappa.py 1633-1648): [whole] is its function, [debye] its parts if it is a Debye model.  Only an object called DEBYE is
    looked into; one that is no Debye model has no such parts (AttributeError) *)
Definition rows (name : str) (whole : R -> R) (debye : option (R * R * list mech * list subm)) (pts : list R) (split : bool) : res (list (str * list R)) :=
  if eqb name (S_ "DEBYE") then
    match debye with Some (td, vs, s, a) => Ok (debye_rows td vs s a pts split) | None => Err AttributeError end
  else Ok [(S_ "Kappa-" ++ name, List.map whole pts)].

(** ** unit of frequency (kappa.py 1661-1687) *)
Definition lower (c : ascii) : ascii := let n := nat_of_ascii c in if (65 <=? n)%nat && (n <=? 90)%nat then ascii_of_nat (n + 32) else c.
Definition ich (a c : ascii) : bool := is_ch a (lower c).
Definition ilit (s : str) : re := fold_right (fun c r => Sq (Cls (ich c)) r) (Many (fun _ => false)) s.
Definition starts (p : re) (s : str) : bool := match re_match p s with Some _ => true | None => false end.
Definition pat_wd : re := Sq (Cls (ich "w")) (Sq (Opt (Cls (ich "_"))) (Cls (ich "d"))).
Section Unit.
Variable pyfloat : str -> res R.
Definition funit (td T : R) (s : str) : R :=
  match pyfloat s with
  | Ok x => x
  | Err _ =>
      if starts (ilit (S_ "thz")) s then 2 * PI
      else if starts (ilit (S_ "omega_d")) s || starts pat_wd s || starts (ilit (S_ "norm")) s then wd td
      else if starts (ilit (S_ "reduce")) s || starts (ilit (S_ "x")) s then T / hbar_kB
      else if starts (ilit (S_ "mev")) s then 1.602176634 / 1.054571817
      else 1
  end.
End Unit.
(** frequencies and spectral values in that unit (kappa.py 1690-1703) *)
Definition in_unit (f : R) (l : list (R * R)) : list (R * R) := List.map (fun p => (fst p / f, snd p * f)) l.
