(** Model of the scattering mechanisms and of [KappaDebye] as objects with live parameters (src/teflow/kappa.py 205-553, 558-1069): the constructors with their
    defaults store numbers and variables in a [Parameters] container, every evaluation reads the numbers found there at that moment.
    The formulas are those of ScatModel and DebyeModel, the containers and variables those of VarModel.
    Simplifications: arguments are passed by keyword and never as an explicit None; when a constructor raises, the half-made object is discarded
    (its subscriptions to variables write into a container nobody can read). *)
From Coq Require Import Reals String.
From Verif Require Import Py PyDict PyStr RUtil ScatModel DebyeModel VarModel.
Local Open Scope R_scope.

(** the eight classes derived from [BaseScattering] (kappa.py 558-588): ThreePhonon (590), PointDefect (653), GrainBoundary (703), Nanoparticles (729),
    Dislocations (822), StackingFaults (900), FreeElectrons (939), CahillScattering (1051) *)
Inductive cls := PH | PD | GB | NP | DL | SF | EP | CA.
(** a parameter of a constructor: without default, default None, default number *)
Inductive dflt := Required | NoneDefault | Default (x : R).
(** the signatures of [__init__]: kappa.py 603, 664, 711, 762, 870, 914, 962, 1058 *)
Definition signature (c : cls) : list (str * dflt) :=
  match c with
  | PH => [(S_ "gm", NoneDefault); (S_ "vs", NoneDefault); (S_ "Va", NoneDefault); (S_ "Ma", NoneDefault); (S_ "A", Default 1); (S_ "Theta", Default 0); (S_ "coef", NoneDefault)]
  | PD => [(S_ "vs", NoneDefault); (S_ "Va", NoneDefault); (S_ "G", NoneDefault); (S_ "coef", NoneDefault)]
  | GB => [(S_ "vs", Required); (S_ "L", Required); (S_ "alpha", Default 1)]
  | NP => [(S_ "N1", NoneDefault); (S_ "vs", NoneDefault); (S_ "R", NoneDefault); (S_ "D0", NoneDefault); (S_ "D1", NoneDefault); (S_ "Y0", Default 1); (S_ "Y1", Default 1);
           (S_ "alpha", Default 1); (S_ "phi", NoneDefault)]
  | DL => [(S_ "Nd", Required); (S_ "vs", Required); (S_ "Va", Required); (S_ "Bd", Required); (S_ "gm", Required); (S_ "F", Default 1); (S_ "alpha", Default 0.55)]
  | SF => [(S_ "Nsf", Required); (S_ "vs", Required); (S_ "Va", Required); (S_ "gm", Required); (S_ "alpha", Default 0.7)]
  | EP => [(S_ "vs", NoneDefault); (S_ "md", NoneDefault); (S_ "EF", NoneDefault); (S_ "Ed", NoneDefault); (S_ "D0", NoneDefault); (S_ "Rep", NoneDefault); (S_ "coef", NoneDefault)]
  | CA => [(S_ "alpha", Default 1)]
  end.
(** Python's binding of keyword arguments to the signatures of kappa.py 603, 664, 711, 762, 870, 914, 962, 1058; the result gives the parameters that are not None *)
Definition bind (c : cls) (kw : list (str * arg)) : res (str -> option arg) :=
  if existsb (fun ka => negb (dmem (signature c) (fst ka))) kw then Err TypeError
  else if existsb (fun nd => match snd nd with Required => negb (dmem kw (fst nd)) | _ => false end) (signature c) then Err TypeError
  else Ok (fun n => match dget kw n with
                    | Some a => Some a
                    | None => match dget (signature c) n with Some (Default x) => Some (Num x) | _ => None end
                    end).
(** what the constructors hand to [super().__init__] (kappa.py 624-630, 679-684, 722, 785-790, 890, 930, 985-1002, 1065), and the flag [_direct_coef] or [_direct_phi] *)
Definition stored (c : cls) (given : str -> bool) : bool * list str :=
  match c with
  | PH => if given (S_ "coef") then (true, [S_ "coef"; S_ "Theta"]) else (false, [S_ "gm"; S_ "vs"; S_ "Va"; S_ "Ma"; S_ "A"; S_ "Theta"])
  | PD => if given (S_ "coef") then (true, [S_ "coef"]) else (false, [S_ "vs"; S_ "Va"; S_ "G"])
  | GB => (false, [S_ "vs"; S_ "L"; S_ "alpha"])
  | NP => (given (S_ "phi"), [(if given (S_ "phi") then S_ "phi" else S_ "N1"); S_ "vs"; S_ "R"; S_ "D0"; S_ "D1"; S_ "Y0"; S_ "Y1"; S_ "alpha"])
  | DL => (false, [S_ "Nd"; S_ "vs"; S_ "Va"; S_ "Bd"; S_ "gm"; S_ "F"; S_ "alpha"])
  | SF => (false, [S_ "Nsf"; S_ "vs"; S_ "Va"; S_ "gm"; S_ "alpha"])
  | EP => (false, if given (S_ "coef") then (if given (S_ "Rep") then [S_ "Rep"; S_ "coef"] else [S_ "vs"; S_ "md"; S_ "EF"; S_ "coef"])
                  else (if given (S_ "Rep") then [S_ "vs"; S_ "md"; S_ "Ed"; S_ "D0"; S_ "Rep"] else [S_ "vs"; S_ "md"; S_ "EF"; S_ "Ed"; S_ "D0"]))
  | CA => (false, [S_ "alpha"])
  end.
(** the checks for None (kappa.py 631-633, 685-687, 791-793, 986-987, 990-991, 995-996) *)
Fixpoint collect (b : str -> option arg) (names : list str) : option (list (key * arg)) :=
  match names with
  | [] => Some []
  | n :: r => match b n, collect b r with Some a, Some l => Some ((KName n, a) :: l) | _, _ => None end
  end.
(** [BaseScattering.__init__] (kappa.py 571-581): the object is its class, the flag and its container *)
Record obj := { o_cls : cls; o_direct : bool; o_par : nat }.
Definition construct (w : world) (c : cls) (kw : list (str * arg)) : world * res obj :=
  match bind c kw with
  | Err e => (w, Err e)
  | Ok b =>
      let '(direct, names) := stored c (fun n => match b n with Some _ => true | None => false end) in
      match collect b names with
      | None => (w, Err ValueError)
      | Some l => let '(w', p) := new_params w l in (w', Ok {| o_cls := c; o_direct := direct; o_par := p |})
      end
  end.
(** [__call__] of the classes (kappa.py 635-650, 689-700, 724-726, 795-819, 892-897, 932-936, 1004-1048, 1067-1069), reading [self.paras] *)
Definition rate_of (c : cls) (direct : bool) (g : str -> option R) (om T : R) : res R :=
  match c with
  | PH => let! th := need (g (S_ "Theta")) in
          if direct then let! cf := need (g (S_ "coef")) in Ok (ph_rate (PHcoef cf th) om T)
          else let! gm := need (g (S_ "gm")) in let! vs := need (g (S_ "vs")) in let! Va := need (g (S_ "Va")) in let! Ma := need (g (S_ "Ma")) in let! A := need (g (S_ "A")) in
               Ok (ph_rate (PHfull gm vs Va Ma A th) om T)
  | PD => if direct then let! cf := need (g (S_ "coef")) in Ok (pd_rate (PDcoef cf) om T)
          else let! vs := need (g (S_ "vs")) in let! Va := need (g (S_ "Va")) in let! G := need (g (S_ "G")) in Ok (pd_rate (PDfull vs Va G) om T)
  | GB => let! vs := need (g (S_ "vs")) in let! L := need (g (S_ "L")) in let! al := need (g (S_ "alpha")) in Ok (gb_rate vs L al om T)
  | NP => let! n := need (g (if direct then S_ "phi" else S_ "N1")) in let! vs := need (g (S_ "vs")) in let! r := need (g (S_ "R")) in
          let! D0 := need (g (S_ "D0")) in let! D1 := need (g (S_ "D1")) in let! Y0 := need (g (S_ "Y0")) in let! Y1 := need (g (S_ "Y1")) in let! al := need (g (S_ "alpha")) in
          Ok (np_rate {| np_frac := direct; np_N1_or_phi := n; np_vs := vs; np_R := r; np_D0 := D0; np_D1 := D1; np_Y0 := Y0; np_Y1 := Y1; np_alpha := al |} om T)
  | DL => let! Nd := need (g (S_ "Nd")) in let! vs := need (g (S_ "vs")) in let! Va := need (g (S_ "Va")) in let! Bd := need (g (S_ "Bd")) in let! gm := need (g (S_ "gm")) in
          let! F := need (g (S_ "F")) in let! al := need (g (S_ "alpha")) in Ok (dl_rate Nd vs Va Bd gm F al om T)
  | SF => let! Nsf := need (g (S_ "Nsf")) in let! vs := need (g (S_ "vs")) in let! Va := need (g (S_ "Va")) in let! gm := need (g (S_ "gm")) in let! al := need (g (S_ "alpha")) in
          Ok (sf_rate Nsf vs Va gm al om T)
  | EP => ep_rate {| e_vs := g (S_ "vs"); e_md := g (S_ "md"); e_EF := g (S_ "EF"); e_Ed := g (S_ "Ed"); e_D0 := g (S_ "D0"); e_Rep := g (S_ "Rep"); e_coef := g (S_ "coef") |} om T
  | CA => let! al := need (g (S_ "alpha")) in Ok (cahill_rate al om T)
  end.
(** [self.paras[name]] (kappa.py 189-203) *)
Definition para (w : world) (p : nat) (n : str) : option R := dget (w_pars w p) (KName n).
Definition rate_now (w : world) (o : obj) (om T : R) : res R := rate_of (o_cls o) (o_direct o) (para w (o_par o)) om T.

(** ** KappaDebye (kappa.py 295-474) *)
(** the class attributes [tag] (kappa.py 602, 663, 710, 761, 869, 913, 961, 1057) *)
Definition tag_of (c : cls) : str :=
  match c with PH => S_ "PH" | PD => S_ "PD" | GB => S_ "GB" | NP => S_ "NP" | DL => S_ "DL" | SF => S_ "SF" | EP => S_ "EP" | CA => S_ "CAHILL" end.
(** components: a mechanism; another kappa model with its tag, its container and its formula over the parameters (any class that reads [self.paras] only); anything else *)
Inductive lcomp := LScat (o : obj) | LSub (tag : str) (p : nat) (f : (str -> option R) -> R -> R) | LOther.
(** a component as it computes in the present state; an exception of a mechanism (C84) would end the evaluation: here 0, outside the theorems' hypotheses *)
Definition ok0 (r : res R) : R := match r with Ok x => x | Err _ => 0 end.
Definition present (w : world) (c : lcomp) : comp :=
  match c with
  | LScat o => Scat (tag_of (o_cls o)) (fun om T => ok0 (rate_now w o om T))
  | LSub t p f => Sub t (fun T => f (para w p) T)
  | LOther => Other
  end.
(** [KappaDebye.__init__] (kappa.py 308-342): container first, then the loop over the components, which looks at types and tags only *)
Record live := { l_par : nat; l_comps : list lcomp }.
Definition new_debye (w : world) (vs td : arg) (comps : list lcomp) : world * res live :=
  let '(w', p) := new_params w [(KName (S_ "vs"), vs); (KName (S_ "td"), td)] in
  match debye_init (map (present w') comps) with Ok _ => (w', Ok {| l_par := p; l_comps := comps |}) | Err e => (w', Err e) end.
(** [scattering] (353-360), [spectral] (362-395), [__call__] (471-474) in the present state *)
Definition with_now {X} (w : world) (m : live) (k : R -> R -> list mech -> list subm -> X) : res X :=
  let! vs := need (para w (l_par m) (S_ "vs")) in let! td := need (para w (l_par m) (S_ "td")) in
  let! sa := debye_init (map (present w) (l_comps m)) in Ok (k vs td (fst sa) (snd sa)).
Definition live_scattering (w : world) (m : live) (om T : R) : res (list (str * R)) := with_now w m (fun _ _ s _ => scattering s om T true).
Definition live_spectral (w : world) (m : live) (om T : R) (accumulate : bool) : res (list (str * R)) := with_now w m (fun vs td s _ => spectral td vs s om T accumulate).
Definition live_kappa (w : world) (m : live) (T : R) : res R := with_now w m (fun vs td s a => kappa td vs s a T).
(** [_cal] (kappa.py 244-264): assign, sync, evaluate *)
Definition model_cal (w : world) (m : live) (vars ders : list str) (args : list R) (T : R) : world * res R :=
  match cal w vars ders args with (w', None) => (w', live_kappa w' m T) | (w', Some e) => (w', Err e) end.
