(** Model of a command that is killed while it writes its files: how [open(name, 'w')], [fp.write], [np.savetxt] and closing act on the disk
    (src/teflow/interface.py 186-208 and 297-314, 434-436, 461, 526-532, 621-627, 869, 959-963, 1004-1016, 1101, 1147, 1215-1246), and the files of [do_kappa] in the order
    in which they are written (1207-1247).  Everything is read and computed before the first file is opened.  Simplifications: killing the process loses only what is still
    in its buffer, and what was handed to the system stays (no power failure); the buffer is emptied at any time, by any amount. *)
From Coq Require Import ZArith Reals String Ascii.
From Verif Require Import Py PyStr PyDict RUtil CfgModel DataModel SubsModel Regex RetainModel ExecModel TxtModel CliModel MonoModel InterpModel ZtModel EngModel CmdModel RunModel.
Local Open Scope list_scope.

(** the disk, the open file with the text that has not reached it yet, the files still to be written *)
Record proc := Proc { p_disk : files; p_open : option (str * str); p_todo : list (str * str) }.
Definition append_to (fs : files) (name text : str) : files := write fs name (match fs name with Some t => t ++ text | None => text end).
Inductive step : proc -> proc -> Prop :=
| s_open d n t r : step (Proc d None ((n, t) :: r)) (Proc (write d n []) (Some (n, t)) r)
| s_flush d n a b r : step (Proc d (Some (n, a ++ b)) r) (Proc (append_to d n a) (Some (n, b)) r)
| s_close d n r : step (Proc d (Some (n, [])) r) (Proc d None r).
Inductive steps : proc -> proc -> Prop :=
| steps_refl s : steps s s
| steps_snoc a b c : steps a b -> step b c -> steps a c.
(** the disk that a killed process may leave behind, when it was to write the files [w] *)
Definition killed (fs : files) (w : list (str * str)) (d : files) : Prop := exists h r, steps (Proc fs None w) (Proc d h r).
(** any number of killed attempts, one after the other *)
Inductive attempts (w : list (str * str)) (fs : files) : files -> Prop :=
| att_none : attempts w fs fs
| att_more d d' : attempts w fs d -> killed d w d' -> attempts w fs d'.

(** do_kappa (1207-1247): the files in order, up to the first table that cannot be formatted *)
Section Kappa.
Variable stamp : str.
Variable num6 : R -> str.
Fixpoint table_writes (bare headers : bool) (l : list (str * str * str * option (list R * list (str * list R)))) : list (str * str) * res unit :=
  match l with
  | [] => ([], Ok tt)
  | (n, title, first, None) :: r => table_writes bare headers r
  | (n, title, first, Some t) :: r =>
      match table_text stamp num6 bare headers title first t with
      | Ok x => let (w, e) := table_writes bare headers r in ((n, x) :: w, e)
      | Err e => ([], Err e)
      end
  end.
Definition kappa_writes (build : dict str str -> res kmodel) (input : str) (output : option str) (suffix : str) (entry : dict str str) (given : list (str * str)) (substituted less_output bare headers : bool) : list (str * str) * res unit :=
  let e := dupdate entry (kappa_settings given substituted less_output) in
  match (let! k := build e in parse_kappa e k) with
  | Err x => ([], Err x)
  | Ok r =>
      let o := suffixed output input suffix (Some (S_ ".txt")) in
      let (w, s) := table_writes bare headers
        [(o, S_ "Predict kappa", S_ "Xcolumn", Some (r_pred r));
         (suffixed None o (S_ "rate") None, S_ "Scattering rate", S_ "freq", r_rate r);
         (suffixed None o (S_ "spec") None, S_ "Spectral kappa", S_ "freq", r_spec r);
         (suffixed None o (S_ "cumu") None, S_ "Cumulative kappa", S_ "mfp", r_cumu r)] in
      match s, r_subs r with
      | Ok _, Some ((_ :: _) as l) => (w ++ [(suffixed None o (S_ "subs") (Some (S_ ".cfg")), List.concat l)], Ok tt)
      | _, _ => (w, s)
      end
  end.
End Kappa.
