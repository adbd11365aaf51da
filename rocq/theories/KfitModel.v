(** Model of the construction of a thermal-conductivity model from a configuration: [EXECMETA] (src/teflow/kappa.py 1404-1472) and [parse_submodel]
    inside [parse_KappaFit] (kappa.py 1522-1563).  The configuration is given as what [CfgParser.items()] yields: sections with their entries, the
    defaults merged in, after interpolation.  An object is what decides its behaviour: its tag, its type and the keyword arguments of its constructor. *)
From Coq Require Import Reals String Ascii.
From Verif Require Import Py PyStr PyDict Regex CfgModel ExecModel ScatModel KvarModel VarModel.
Local Open Scope string_scope.
Local Open Scope list_scope.
Local Open Scope nat_scope.

(** values in keyword arguments (kappa.py 1534-1558) *)
Inductive value := VNum (x : R) | VText (s : str) | VVar (tag : str) | VObjs (l : list obj)
with obj := Obj (tag type : str) (paras : list (str * value)).
Definition o_tag (o : obj) : str := let 'Obj t _ _ := o in t.
Definition o_type (o : obj) : str := let 'Obj _ t _ := o in t.
Definition o_paras (o : obj) : list (str * value) := let 'Obj _ _ p := o in p.

Definition names (l : list String.string) : list str := map S_ l.
(** [EXECMETA] (kappa.py 1404-1472): type, required and optional keywords *)
Definition execmeta : list (str * (list str * list str)) := map (fun e => (S_ (fst e), (names (fst (snd e)), names (snd (snd e))))) [
  ("DEBYE", (["vs"; "td"; "components"], []));
  ("PH", (["gm"; "vs"; "Va"; "Ma"], ["A"; "Theta"]));
  ("PHX", (["coef"], ["Theta"]));
  ("PD", (["vs"; "Va"; "G"], []));
  ("PDX", (["coef"], []));
  ("GB", (["vs"; "L"], ["alpha"]));
  ("NP", (["vs"; "R"; "N1"; "D0"; "D1"], ["Y0"; "Y1"; "alpha"]));
  ("NPX", (["vs"; "R"; "phi"; "D0"; "D1"], ["Y0"; "Y1"; "alpha"]));
  ("DL", (["Nd"; "vs"; "Va"; "Bd"; "gm"], ["F"; "alpha"]));
  ("SF", (["Nsf"; "vs"; "Va"; "gm"], ["alpha"]));
  ("EP", (["vs"; "md"; "EF"; "Ed"; "D0"], []));
  ("EPR", (["vs"; "md"; "Ed"; "D0"; "Rep"], []));
  ("EPX", (["vs"; "md"; "EF"; "coef"], []));
  ("EPRX", (["Rep"; "coef"], []));
  ("CAHILL", ([], ["alpha"]));
  ("SLACK", (["td"; "gm"; "Ma"; "Va"; "A"], ["N"]));
  ("BIPOLAR", (["Kbp"; "Eg"], ["p"]));
  ("POWERLAW", (["Kamb"], ["n"; "K0"]));
  ("KLEMENS", (["Kpure"; "vs"; "td"; "G0"; "Va"], []))]%string.
(** the class behind a type: [BaseKappaModel] or [BaseScattering] (kappa.py 295, 590-1219) *)
Definition is_model (ty : str) : bool := existsb (eqb ty) (names ["DEBYE"; "SLACK"; "BIPOLAR"; "POWERLAW"; "KLEMENS"]%string).
Definition okb {A} (r : res A) : bool := match r with Ok _ => true | Err _ => false end.
Fixpoint nodupb (l : list str) : bool := match l with [] => true | a :: r => negb (existsb (eqb a) r) && nodupb r end.
(** whether the constructor accepts the keywords.  Values given in a configuration are never None, so only presence matters; text in place of a number is
    stored and only fails on evaluation.  DEBYE: kappa.py 308-342; the others: ThreePhonon 603-633, PointDefect 662-685, Nanoparticles 762-793,
    FreeElectrons 962-1002, the remaining constructors accept everything once their required arguments are there *)
Definition accepts (ty : str) (kw : list (str * value)) : bool :=
  let has k := match dget kw (S_ k) with Some _ => Some 1%R | None => None end in
  let all l := forallb (fun k => dmem kw (S_ k)) l in
  if eqb ty (S_ "DEBYE") then
    match dget kw (S_ "components") with
    | Some (VObjs l) => let mechs := filter (fun o => negb (is_model (o_type o))) l in let mods := filter (fun o => is_model (o_type o)) l in
        all ["vs"; "td"]%string && nodupb (map o_tag mechs) && nodupb (map o_tag mods) && negb (List.length mechs =? 0)
    | _ => false
    end
  else if existsb (eqb ty) (names ["PH"; "PHX"]%string) then okb (ph_init (has "gm") (has "vs") (has "Va") (has "Ma") (Some 1%R) (Some 0%R) (has "coef"))
  else if existsb (eqb ty) (names ["PD"; "PDX"]%string) then okb (pd_init (has "vs") (has "Va") (has "G") (has "coef"))
  else if existsb (eqb ty) (names ["NP"; "NPX"]%string) then okb (np_init (has "N1") (has "vs") (has "R") (has "D0") (has "D1") (Some 1%R) (Some 1%R) (Some 1%R) (has "phi"))
  else if existsb (eqb ty) (names ["EP"; "EPR"; "EPX"; "EPRX"]%string) then okb (ep_init (has "vs") (has "md") (has "EF") (has "Ed") (has "D0") (has "Rep") (has "coef"))
  else if eqb ty (S_ "GB") then all ["vs"; "L"]%string
  else if eqb ty (S_ "DL") then all ["Nd"; "vs"; "Va"; "Bd"; "gm"]%string
  else if eqb ty (S_ "SF") then all ["Nsf"; "vs"; "Va"; "gm"]%string
  else if eqb ty (S_ "SLACK") then all ["td"; "gm"; "Ma"; "Va"]%string
  else if eqb ty (S_ "BIPOLAR") then all ["Kbp"; "Eg"]%string
  else if eqb ty (S_ "POWERLAW") then all ["Kamb"]%string
  else if eqb ty (S_ "KLEMENS") then all ["Kpure"; "vs"; "td"; "G0"; "Va"]%string
  else true.

(** [refpat] (kappa.py 1522) with its end anchor; the values are stripped, so there is no trailing newline *)
Definition refpat : re := Sq (Many is_space) (Sq (Cls (is_ch at_c)) (Sq (Many is_space) (Sq (Opt (Cap (S_ "tag") (Many1 non_space))) (Many is_space)))).
Definition refmatch (val : str) : option caps := rmatch refpat val [] (fun t c => match t with [] => Some c | _ => None end).
(** [val.strip()] is empty (kappa.py 1530) *)
Definition blank (val : str) : bool := forallb is_space val.

Section Parse.
Variable pyfloat : str -> res R.
Variable varbdict : list (str * entry).
Variable cfg : list (str * list (str * str)).
Definition of_entry (e : entry) : value := match e with Num x => VNum x | Ref t => VVar t end.
(** one entry other than components (kappa.py 1540-1558) *)
Definition plain (key val : str) : res value :=
  match refmatch val with
  | Some c => let tag := match group c (S_ "tag") with Some ((_ :: _) as t) => t | _ => key end in
      match dget varbdict tag with Some e => Ok (of_entry e) | None => Err ValueError end
  | None => match pyfloat val with Ok x => Ok (VNum x) | Err _ => Ok (VText val) end
  end.
(** [parse_submodel] (kappa.py 1523-1563): [None] is a recursion that has not come to an end after [fuel] levels *)
Fixpoint entries (sub : list str -> option (res (list obj))) (l : list (str * str)) : option (res (list (str * value))) :=
  match l with
  | [] => Some (Ok [])
  | (key, val) :: r =>
      if blank val then Some (Err ValueError) else
      match (if eqb key (S_ "components") then match sub (parse_list val) with Some (Ok os) => Some (Ok (VObjs os)) | Some (Err e) => Some (Err e) | None => None end
             else Some (plain key val)) with
      | None => None
      | Some (Err e) => Some (Err e)
      | Some (Ok v) => match entries sub r with Some (Ok d) => Some (Ok ((key, v) :: d)) | x => x end
      end
  end.
Fixpoint seq_res {A} (f : str -> option (res A)) (l : list str) : option (res (list A)) :=
  match l with
  | [] => Some (Ok [])
  | a :: r => match f a with
              | None => None | Some (Err e) => Some (Err e)
              | Some (Ok x) => match seq_res f r with Some (Ok xs) => Some (Ok (x :: xs)) | y => y end
              end
  end.
Fixpoint parse_sub (fuel : nat) (name : str) : option (res obj) :=
  match fuel with
  | O => None
  | S f =>
      match pmatch cfg name with
      | Err e => Some (Err e)
      | Ok (sect, ty) =>
          match dget execmeta ty with
          | None => Some (Err TypeError)
          | Some (args, opts) =>
              match entries (seq_res (parse_sub f)) sect with
              | None => None
              | Some (Err e) => Some (Err e)
              | Some (Ok kw) => Some (snd (execute (fun D => if accepts ty D then Some (Obj name ty D) else None) (ExecModel.init args opts) kw))
              end
          end
      end
  end.
End Parse.
