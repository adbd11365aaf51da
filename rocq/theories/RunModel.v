(** Model of [_do_main] (src/teflow/interface.py 123-157), of the options remembered by [_StoreDict] (116-121), and of the commands [do_band] (1019-1148) and [do_kappa] (1151-1247).
    Reading data and configuration files, the band models and the thermal models are parameters; arrays are one-dimensional. *)
From Coq Require Import ZArith Reals String Ascii.
From Verif Require Import Py PyStr PyDict RUtil CfgModel DataModel SubsModel Regex RetainModel ExecModel TxtModel CliModel MonoModel InterpModel ZtModel EngModel CmdModel.
Local Open Scope list_scope.
Local Open Scope R_scope.

(** ** _do_main (interface.py 132-157) *)
Inductive task := Interp | Mixing | Ztdev | Engout | Format | Cutoff | Refine | Band | Kappa.
Inductive action := Run (t : task) (args : list str) | Help | Platform.
Definition tasks : list (str * task) :=
  [(S_ "interp", Interp); (S_ "mixing", Mixing); (S_ "ztdev", Ztdev); (S_ "engout", Engout); (S_ "format", Format); (S_ "cutoff", Cutoff); (S_ "refine", Refine); (S_ "band", Band); (S_ "kappa", Kappa)].
(** the chain of [elif task.startswith(...)] *)
Fixpoint chain (l : list (str * task)) (w : str) : option task :=
  match l with [] => None | (n, t) :: r => if startswith w n then Some t else chain r w end.
(** [args or sys.argv[1:]]: an empty list counts as absent *)
Definition main (args : option (list str)) (argv : list str) : action :=
  let a := match args with Some ((_ :: _) as l) => l | _ => argv end in
  match a with
  | [] => Platform
  | w :: rest => match chain tasks (List.map lower w) with Some t => Run t rest | None => Help end
  end.

(** ** _StoreDict: the options given on the command line, in their order *)
Definition stored (given : list (str * str)) : dict str str := fold_left (fun d kv => dset d (fst kv) (snd kv)) given [].

(** ** tables of named columns ([_to_file] 190-192: [np.vstack(...).T]) *)
Definition to_rows {X : Type} (x0 : X) (cols : list (list X)) : res (list (list X)) :=
  match cols with
  | [] => Err ValueError
  | c :: r => if forallb (fun q => Nat.eqb (List.length q) (List.length c)) r
              then Ok (List.map (fun i => List.map (fun q => nth i q x0) cols) (seq 0 (List.length c)))
              else Err ValueError
  end.
Definition dict_text (num : R -> str) (stamp : str) (bare headers : bool) (title : str) (d : dict str (list R)) : res str :=
  let! rows := to_rows 0 (List.map snd d) in Ok (to_file num stamp bare headers title (dkeys d) rows).

Section Commands.
Variable stamp : str.

(** ** do_band with --modelling (interface.py 1105-1148) *)
Inductive model := SPB | RSPB | SKB.
Inductive value := Arr (l : list R) | Num (x : R).
Definition dname (p : str) : str := S_ "data" ++ p.
Definition letters : list str := [S_ "S"; S_ "T"; S_ "C"; S_ "N"; S_ "K"].
(** EXECMETA (bandlib.py 1543-1554): required and optional names *)
Definition required (m : model) : list str := match m with SKB => [S_ "dataS"; S_ "dataT"] | _ => [S_ "dataS"] end.
Definition optional (m : model) : list str :=
  match m with
  | SPB => [S_ "dataT"; S_ "dataC"; S_ "dataN"; S_ "dataK"; S_ "hall"; S_ "Kmass"]
  | RSPB => [S_ "dataC"; S_ "dataT"; S_ "dataN"; S_ "dataK"; S_ "delta"]
  | SKB => [S_ "dataC"; S_ "dataN"; S_ "dataK"; S_ "Eg"; S_ "hall"; S_ "Kmass"]
  end.
(** the wrappers of one process; [do_band] changes the one of SKB for good (1118) *)
Notation wrappers := (model -> wrapper str value).
Definition fresh : wrappers := fun m => init (required m) (optional m).
Definition model_eqb (a b : model) : bool := match a, b with SPB, SPB | RSPB, RSPB | SKB, SKB => true | _, _ => false end.
Definition set_wrapper (ws : wrappers) (m : model) (w : wrapper str value) : wrappers := fun n => if model_eqb n m then w else ws n.
(** the models: [None] if they raise *)
Variable valuate : model -> dict str value -> option (dict str (list R)).
(** an order in which Python visits a set of names *)
Variable visit : dict str (list R) -> list str -> list str.
Variable num4 : R -> str.                                        (* '%.4f' *)

(** [move_to_end(k, last=False)] *)
Definition to_front {V : Type} (d : dict str V) (k : str) : dict str V := match dget d k with Some v => (k, v) :: dremove d k | None => d end.
(** 1142-1146 *)
Definition with_inputs (out inp : dict str (list R)) : dict str (list R) :=
  fold_left (fun d k => if dmem inp k then to_front d k else d) (rev letters) (dupdate out inp).
(** 1130-1131; [get]: property of the data file *)
Definition inputs (get : str -> option (list R)) : dict str (list R) :=
  flat_map (fun k => match get k with Some v => [(k, v)] | None => [] end) letters.
(** [data]: what the input file holds *)
Definition modelling (ws : wrappers) (m : model) (gap : option R) (data : res (str -> option (list R))) (properties : option str) (bare headers : bool) : wrappers * res str :=
  match (match m, gap with
         | SKB, None => Err RuntimeError
         | SKB, Some g => if Rle_dec g 0 then Err ValueError else Ok (update (ws SKB) [(S_ "Eg", Num g)])
         | _, _ => Ok (ws m)
         end) with
  | Err e => (ws, Err e)
  | Ok w =>
      let ws' := set_wrapper ws m w in
      (ws',
       let! get := data in
       let inp := inputs get in
       let! out := snd (execute (valuate m) w (List.map (fun kv => (dname (fst kv), Arr (List.map Rabs (snd kv)))) inp)) in
       let! out := match properties with
                   | None => Ok out
                   | Some t => match retain (visit out (words t)) out (RetainModel.Seq (words t)) true with (d, Ok _) => Ok d | (_, Err e) => Err e end
                   end in
       dict_text num4 stamp bare headers (S_ "Modeling carrier transport") (if bare then out else with_inputs out inp))
  end.
(** a table is written, or nothing if something was raised before *)
Definition save (fs : files) (name : str) (r : res str) : files * res unit := match r with Ok t => (write fs name t, Ok tt) | Err e => (fs, Err e) end.
(** one such command: the options and what its input file holds *)
Record call := { c_model : model; c_gap : option R; c_data : res (str -> option (list R)); c_props : option str; c_bare : bool; c_headers : bool; c_input : str; c_output : option str; c_suffix : str }.
Definition run_call (ws : wrappers) (fs : files) (c : call) : wrappers * (files * res unit) :=
  let (ws', r) := modelling ws (c_model c) (c_gap c) (c_data c) (c_props c) (c_bare c) (c_headers c) in
  (ws', save fs (suffixed (c_output c) (c_input c) (c_suffix c) None) r).
(** the wrappers after a sequence of such commands in one process *)
Definition after_calls (h : list call) : wrappers := fold_left (fun ws c => fst (run_call ws (fun _ => None) c)) h fresh.

(** ** do_band without --modelling (1085-1103): the model and the names of the properties, or no names; [parse] is [parse_Bands] of the input file *)
Variable num6e : R -> str.                                       (* '%.6E' *)
Definition simulation (parse : dict str str -> res ((str -> res (list R)) * option (list str))) (given : list (str * str)) (bare headers : bool) : res str :=
  let! mp := parse (stored given) in
  match snd mp with
  | None => Err RuntimeError
  | Some props =>
      let! cols := mapM (fun p => let! v := fst mp p in Ok (p, v)) props in
      dict_text num6e stamp bare headers (S_ "Simulating carrier transport") (dupdate [] cols)
  end.

Definition do_simulation (fs : files) (parse : dict str str -> res ((str -> res (list R)) * option (list str))) (given : list (str * str)) (input : str) (output : option str) (suffix : str) (bare headers : bool) : files * res unit :=
  save fs (suffixed output input suffix (Some (S_ ".txt"))) (simulation parse given bare headers).

(** ** do_kappa (1151-1247) *)
Variable num6 : R -> str.                                        (* '%.6f' *)
(** the settings handed to [parse_KappaFit] (1198-1203) *)
Definition kappa_settings (given : list (str * str)) (substituted less_output : bool) : dict str str :=
  let d := stored given in
  let d := if substituted then dset d (S_ "substituted") (S_ "true") else d in
  if less_output then fold_left (fun d k => dset d k (S_ "false")) [S_ "splitkappa"; S_ "scattering"; S_ "spectral"; S_ "cumulate"] d else d.
(** [getboolean] of configparser *)
Definition getboolean (entry : dict str str) (k : str) (fallback : bool) : res bool :=
  match dget entry k with
  | None => Ok fallback
  | Some t => let w := List.map lower t in
              if existsb (eqb w) [S_ "1"; S_ "yes"; S_ "true"; S_ "on"] then Ok true
              else if existsb (eqb w) [S_ "0"; S_ "no"; S_ "false"; S_ "off"] then Ok false
              else Err ValueError
  end.
(** a table: abscissa, labelled rows *)
Notation table := (list R * list (str * list R))%type.
(** what [parse_KappaFit] finds in the file and computes from an entry: is there something to fit, is the model of the Debye kind, conductivities (split or not), the three
    detailed tables, the substituted file as lines *)
Record kmodel := { k_fit : bool; k_debye : bool; k_pred : bool -> table; k_rate : table; k_spec : table; k_cumu : table; k_subs : list str }.
Record kresult := { r_pred : table; r_rate : option table; r_spec : option table; r_cumu : option table; r_subs : option (list str) }.
(** kappa.py 1583-1707.  Simplification: everything that may fail except reading the switches is part of [build], so it is reported first *)
Definition parse_kappa (entry : dict str str) (k : kmodel) : res kresult :=
  let! subs := if k_fit k then getboolean entry (S_ "substituted") false else Ok false in
  let s := if subs then Some (k_subs k) else None in
  if k_debye k then
    let! split := getboolean entry (S_ "splitkappa") true in
    let! a := getboolean entry (S_ "scattering") true in
    let! b := getboolean entry (S_ "spectral") true in
    let! c := getboolean entry (S_ "cumulate") true in
    Ok {| r_pred := k_pred k split; r_rate := if a then Some (k_rate k) else None; r_spec := if b then Some (k_spec k) else None; r_cumu := if c then Some (k_cumu k) else None; r_subs := s |}
  else Ok {| r_pred := k_pred k false; r_rate := None; r_spec := None; r_cumu := None; r_subs := s |}.
(** the text of one table (1209-1239) *)
Definition table_text (bare headers : bool) (title first : str) (t : table) : res str :=
  let! rows := to_rows 0 (fst t :: List.map snd (snd t)) in Ok (to_file num6 stamp bare headers title (first :: List.map fst (snd t)) rows).
(** one optional file; the sequence of writes stops at the first failure *)
Definition write_table (bare headers : bool) (name title first : str) (t : option table) (st : files * res unit) : files * res unit :=
  match snd st, t with
  | Ok _, Some t => match table_text bare headers title first t with Ok x => (write (fst st) name x, Ok tt) | Err e => (fst st, Err e) end
  | _, _ => st
  end.
(** [entry] is the entry section of the configuration file; [build] reads the rest of the configuration with the final entry *)
Definition kappa (build : dict str str -> res kmodel) (fs : files) (input : str) (output : option str) (suffix : str) (entry : dict str str) (given : list (str * str)) (substituted less_output bare headers : bool) : files * res unit :=
  let e := dupdate entry (kappa_settings given substituted less_output) in
  match (let! k := build e in parse_kappa e k) with
  | Err x => (fs, Err x)
  | Ok r =>
      let o := suffixed output input suffix (Some (S_ ".txt")) in
      let st := write_table bare headers o (S_ "Predict kappa") (S_ "Xcolumn") (Some (r_pred r)) (fs, Ok tt) in
      let st := write_table bare headers (suffixed None o (S_ "rate") None) (S_ "Scattering rate") (S_ "freq") (r_rate r) st in
      let st := write_table bare headers (suffixed None o (S_ "spec") None) (S_ "Spectral kappa") (S_ "freq") (r_spec r) st in
      let st := write_table bare headers (suffixed None o (S_ "cumu") None) (S_ "Cumulative kappa") (S_ "mfp") (r_cumu r) st in
      match snd st, r_subs r with
      | Ok _, Some ((_ :: _) as l) => (write (fst st) (suffixed None o (S_ "subs") (Some (S_ ".cfg"))) (List.concat l), Ok tt)
      | _, _ => st
      end
  end.
End Commands.
