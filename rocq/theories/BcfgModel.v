(** Model of [parse_Bands] (src/teflow/bandlib.py 1521-1652): a MultiBands from a configuration.  Fermi energies and temperatures are lists of numbers (no nan); [MultiBands] and
    its compilation at one pair of numbers are those of [BandModel], numpy applying them element by element. *)
From Coq Require Import Reals String Ascii.
From Verif Require Import Py PyStr PyDict RUtil CfgModel Regex KvarModel SubsModel ExecModel BandModel.
Local Open Scope list_scope.
Local Open Scope R_scope.

(** EXECMETA (1521-1557): required and optional arguments *)
Definition bandmeta : list (str * (list str * list str)) :=
  [(S_ "APSSPB", ([], [S_ "m_d"; S_ "sigma0"; S_ "Kmass"]));
   (S_ "APSSPB_UWT", ([], [S_ "m_d"; S_ "UWT"; S_ "Kmass"]));
   (S_ "APSSPB_DP", ([], [S_ "m1"; S_ "m2"; S_ "Nv"; S_ "Cii"; S_ "Ed"]));
   (S_ "APSSKB", ([], [S_ "m_d"; S_ "sigma0"; S_ "Eg"; S_ "Kmass"]));
   (S_ "APSSKB_UWT", ([], [S_ "m_d"; S_ "UWT"; S_ "Eg"; S_ "Kmass"]));
   (S_ "APSSKB_DP", ([], [S_ "m1"; S_ "m2"; S_ "Nv"; S_ "Cii"; S_ "Ed"; S_ "Eg"]));
   (S_ "LinearBand", ([], [S_ "vF"; S_ "sigma0"]));
   (S_ "valuate.APSSPB", ([S_ "dataS"], [S_ "dataT"; S_ "dataC"; S_ "dataN"; S_ "dataK"; S_ "hall"; S_ "Kmass"]));
   (S_ "valuate.APSSKB", ([S_ "dataS"; S_ "dataT"], [S_ "dataC"; S_ "dataN"; S_ "dataK"; S_ "Eg"; S_ "hall"; S_ "Kmass"]));
   (S_ "valuate.RSPB", ([S_ "dataS"], [S_ "dataC"; S_ "dataT"; S_ "dataN"; S_ "dataK"; S_ "delta"]))].

Section Bcfg.
(** [float(text)]; [getseq], see C08-C11; what a constructor does with its keyword arguments (None: it raises; Some None: an object that is no band) *)
Variable pyfloat : str -> res R.
Variable pyseq : str -> res (list R).
Variable run : str -> dict str R -> option (option band).
(** [model.solve_EF(solver, value, T, near=initial)] for one value *)
Variable solve : heap -> multi -> str -> R -> R -> R -> res R.

(** {k: float(v) for k, v in content.items()} (1583) *)
Definition numbers_of (content : dict str str) : res (dict str R) := mapM (fun kv => let! x := pyfloat (snd kv) in Ok (fst kv, x)) content.
(** one band (1581-1585); only the stored arguments of a wrapper could add more, and nothing stores any for bands *)
Definition make_band (items : dict str (dict str str)) (name : str) : res (option band) :=
  let! x := pmatch items name in let '(content, xtype) := x in
  let! kw := numbers_of content in
  match dget bandmeta xtype with
  | None => Err KeyError
  | Some (args, opts) => snd (execute (run xtype) (init args opts) kw)
  end.
Definition no_band : band := {| b_raw := {| r_N := fun _ _ => 0; r_K := fun _ _ _ => 0; r_H := None |}; b_sign := 0; b_cache := None |}.
(** fresh objects, numbered as created *)
Definition heap_of (bs : list (option band)) : heap := fun i => match nth_error bs i with Some (Some b) => b | _ => no_band end.
Definition refs (bs : list (option band)) : list (option nat) := List.map (fun p => match snd p with Some _ => Some (fst p) | None => None end) (combine (seq 0 (List.length bs)) bs).
(** offsets and types (1588-1598).  The text logged for missing or empty btypes evaluates [guess_btypes], which may raise *)
Definition offsets (entry : dict str str) (n : nat) : res (list R) :=
  match dget entry (S_ "deltas") with Some t => mapM pyfloat (parse_list t) | None => Ok (repeat 0 n) end.
Definition types (entry : dict str str) : option (list str) := match dget entry (S_ "btypes") with Some t => Some (parse_list t) | None => None end.
Definition logged (ts : option (list str)) (ds : list R) : res unit :=
  match ts with Some (_ :: _) => Ok tt | _ => let! _ := guess_btypes ds in Ok tt end.
Definition build (items : dict str (dict str str)) (entry : dict str str) : res (heap * multi) :=
  match dget entry (S_ "bands") with
  | None => Err ValueError
  | Some t =>
      let! bs := mapM (make_band items) (parse_list t) in
      let! ds := offsets entry (List.length bs) in
      let! _ := logged (types entry) ds in
      let (h, r) := new_multi (heap_of bs) (refs bs) (List.map DNum ds) (match types entry with Some l => Some (List.map Some l) | None => None end) in
      let! m := r in Ok (h, m)
  end.

(** [np.broadcast_arrays] of two one-dimensional arrays *)
Definition broadcast (a b : list R) : res (list (R * R)) :=
  if Nat.eqb (List.length a) (List.length b) then Ok (combine a b)
  else match a, b with
       | [x], _ => Ok (List.map (fun y => (x, y)) b)
       | _, [y] => Ok (List.map (fun x => (x, y)) a)
       | _, _ => Err ValueError
       end.
(** [s.split('@')[0]], [s.split('@')[-1]]; [None] without @ *)
Fixpoint first_part (s : str) : str := match s with c :: r => if is_ch "@"%char c then [] else c :: first_part r | [] => [] end.
Fixpoint last_part (s : str) : option str :=
  match s with [] => None | c :: r => match last_part r with Some t => Some t | None => if is_ch "@"%char c then Some r else None end end.
(** pairs of Fermi energy and temperature (1607-1640) *)
Definition fermi (h : heap) (m : multi) (entry : dict str str) (ef : str) (T : list R) : res (list (R * R)) :=
  match last_part ef with
  | Some s =>
      let! ref := pyseq (strip (first_part ef)) in
      let! pairs := broadcast ref T in
      match (let! initial := match dget entry (S_ "initial") with Some t => pyfloat t | None => Ok 0 end in
             mapM (fun p => let! e := solve h m (strip s) (fst p) (snd p) initial in Ok (e, snd p)) pairs) with
      | Ok l => Ok l
      | Err _ => Err RuntimeError
      end
  | None => let! EF := pyseq ef in broadcast EF T
  end.
Definition props_default : list str := [S_ "T"; S_ "EF"; S_ "N"; S_ "C"; S_ "S"; S_ "PF"; S_ "L"; S_ "Ke"].
Record result := { r_heap : heap; r_model : multi; r_compiled : option (list (R * R * (heap * multi)) * list str) }.
(** compiled: one compilation per pair; whether it raises does not depend on the numbers, so the pair (0, 1) decides it also for empty arrays *)
Definition compile_at (h : heap) (m : multi) (p : R * R) : res (R * R * (heap * multi)) :=
  match compile_multi h m (fst p) (snd p) 3 with (g, Ok m') => Ok (p, (g, m')) | (_, Err e) => Err e end.
Definition parse_Bands (config : dict str (dict str str)) (specify : list (str * str)) : res result :=
  let! entry := dgetitem config (S_ "entry") in
  let e := dupdate entry specify in
  let items := dset config (S_ "entry") e in
  let! hm := build items e in let '(h, m) := hm in
  let uncompiled := {| r_heap := h; r_model := m; r_compiled := None |} in
  match dget e (S_ "T") with
  | None => Ok uncompiled
  | Some tx =>
      let! T := pyseq tx in
      match dget e (S_ "EF") with
      | None => Ok uncompiled
      | Some ef =>
          let! pairs := fermi h m e ef T in
          let! _ := compile_at h m (0, 1) in
          let! cs := mapM (compile_at h m) pairs in
          Ok {| r_heap := h; r_model := m; r_compiled := Some (cs, match dget e (S_ "properties") with Some t => parse_list t | None => props_default end) |}
      end
  end.
End Bcfg.
