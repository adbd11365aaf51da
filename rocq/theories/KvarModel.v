(** Model of the [variables] section of a fitting configuration (src/teflow/kappa.py 1489-1514, in [parse_KappaFit]). *)
From Coq Require Import Reals String Ascii.
From Verif Require Import Py PyStr PyDict Regex VarModel.
Local Open Scope R_scope.

Definition qmark : ascii := "?"%char.
Definition lt_c : ascii := "<"%char.
Definition gt_c : ascii := ">"%char.
Definition at_c : ascii := "@"%char.
(** [varbpat] (kappa.py 1495-1496), in three pieces: bounds, scale and bounds, the whole *)
Definition pat_bounds : re :=
  Opt (Sq (Cls (is_ch lt_c)) (Sq (Many is_space) (Sq (Opt (Cap (S_ "lower") (Many1 non_space))) (Sq (Many is_space) (Sq (Cls (is_ch comma))
      (Sq (Many is_space) (Sq (Opt (Cap (S_ "upper") (Many1 non_space))) (Sq (Many is_space) (Cls (is_ch gt_c)))))))))).
Definition scale_char (c : ascii) : bool := non_space c && negb (is_ch lt_c c) && negb (is_ch at_c c).
Definition pat_scale : re := Sq (Many is_space) (Sq (Opt (Cap (S_ "scale") (Many1 scale_char))) (Sq (Many is_space) pat_bounds)).
Definition varbpat : re :=
  Sq (Many is_space) (Sq (Opt (Cap (S_ "initial") (Many1 non_space))) (Sq (Many is_space) (Sq (Cls (is_ch qmark)) pat_scale))).
(** the four groups of a match (kappa.py 1497-1500) *)
Record setting := { t_initial : option str; t_scale : option str; t_lower : option str; t_upper : option str }.
Definition varb (v : str) : option setting :=
  match re_match varbpat v with
  | Some (c, _) => Some {| t_initial := group c (S_ "initial"); t_scale := group c (S_ "scale"); t_lower := group c (S_ "lower"); t_upper := group c (S_ "upper") |}
  | None => None
  end.

Section Vars.
(** Python's [float] on text; nan and infinities are not modelled *)
Variable pyfloat : str -> res R.
Definition num (o : option str) (dflt : R) : res R := match o with Some ((_ :: _) as t) => pyfloat t | _ => Ok dflt end.
(** what a parsed entry is: a number or a variable (to be fitted) *)
Definition entry := arg.
(** kappa.py 1497-1511, one entry; defaults of [Variable] (kappa.py 43) *)
Definition read_var (w : world) (tag val : str) : world * res entry :=
  match varb val with
  | Some s =>
      match (let! i := num (t_initial s) 1 in let! sc := num (t_scale s) 1 in let! l := num (t_lower s) 0 in let! u := num (t_upper s) 1000 in Ok (i, sc, l, u)) with
      | Err e => (w, Err e)
      | Ok (i, sc, l, u) => match new_var w tag i l u sc CNone [] with (w', None) => (w', Ok (Ref tag)) | (w', Some e) => (w', Err e) end
      end
  | None => match pyfloat val with Ok x => (w, Ok (Num x)) | Err _ => (w, Err ValueError) end
  end.
(** the loop (kappa.py 1497-1512): [varbdict] and, in order, the variables to fit *)
Fixpoint read_vars (w : world) (items : list (str * str)) : world * res (list (str * entry)) :=
  match items with
  | [] => (w, Ok [])
  | (tag, val) :: r =>
      match read_var w tag val with
      | (w', Err e) => (w', Err e)
      | (w', Ok a) => match read_vars w' r with (w'', Ok d) => (w'', Ok ((tag, a) :: d)) | (w'', Err e) => (w'', Err e) end
      end
  end.
Definition fitting (d : list (str * entry)) : list str := flat_map (fun te => match snd te with Ref t => [t] | Num _ => [] end) d.
End Vars.
