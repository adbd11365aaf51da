(** Vocabulary for the command line, the band and the kappa commands; no reference to the model. *)
From Coq Require Import ZArith Reals String Ascii.
From Verif Require Import Py PyStr CfgSpec KvarSpec InstrSpec TxtSpec FmtSpec CmdSpec CliSpec.
Local Open Scope list_scope.
Local Open Scope R_scope.
(** [w] begins with [n], capital letters counting as small ones *)
Definition begins_with (w n : str) : Prop := exists x, folded w = n ++ x.
(** the value given last for [k] *)
Fixpoint given_last {V} (l : list (str * V)) (k : str) : option V :=
  match l with [] => None | (n, v) :: r => match given_last r k with Some x => Some x | None => if eqb n k then Some v else None end end.
(** the first occurrences of the elements of a list *)
Fixpoint firsts (l : list str) : list str := match l with [] => [] | a :: r => a :: filter (fun b => negb (eqb b a)) (firsts r) end.
(** [n] rows whose column number [j] is [cols] number [j] *)
Definition by_columns (n : nat) (cols rows : list (list R)) : Prop :=
  List.length rows = n /\ forall i r, nth_error rows i = Some r -> List.length r = List.length cols /\ forall j c, nth_error cols j = Some c -> nth_error r j = nth_error c i.
(** what is written for rows of numbers under labels *)
Definition file_text (num : R -> str) (stamp : str) (bare headers : bool) (title : str) (labels : list str) (rows : list (list R)) : str :=
  text_of ((if bare then [] else if headers then [match label_line labels with [] => caption title stamp | l => l end]
            else ("#"%char :: caption title stamp) :: match label_line labels with [] => [] | l => ["#"%char :: l] end) ++ map (number_line num) rows).
(** a text meaning yes or no; the default if absent *)
Definition switch (t : option str) (default v : bool) : Prop :=
  match t with
  | None => v = default
  | Some w => (v = true /\ In (folded w) [S_ "1"; S_ "yes"; S_ "true"; S_ "on"]) \/ (v = false /\ In (folded w) [S_ "0"; S_ "no"; S_ "false"; S_ "off"])
  end.
Definition unreadable (t : option str) : Prop := exists w, t = Some w /\ ~ In (folded w) [S_ "1"; S_ "yes"; S_ "true"; S_ "on"; S_ "0"; S_ "no"; S_ "false"; S_ "off"].
(** a setting of the kappa command: -Q, -S, the other options, the file *)
Definition kappa_setting (entry : str -> option str) (given : list (str * str)) (S_option Q_option : bool) (k : str) : option str :=
  if (Q_option && existsb (eqb k) [S_ "splitkappa"; S_ "scattering"; S_ "spectral"; S_ "cumulate"])%bool then Some (S_ "false")
  else if (S_option && eqb k (S_ "substituted"))%bool then Some (S_ "true")
  else match given_last given k with Some v => Some v | None => entry k end.
(** the five measured quantities *)
Definition quantities : list str := [S_ "S"; S_ "T"; S_ "C"; S_ "N"; S_ "K"].
Definition columns_of (get : str -> option (list R)) (l : list str) : list (str * list R) := flat_map (fun k => match get k with Some v => [(k, v)] | None => [] end) l.
