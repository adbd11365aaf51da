(** Specification vocabulary for live models: the number an argument stands for, objects made earlier, and the mechanisms with plain numbers. *)
From Coq Require Import Reals String.
From Verif Require Import Py PyDict PyStr ScatModel DebyeModel VarModel VarSpec LiveModel.
Local Open Scope R_scope.

(** the number an argument stands for in a state: itself, or the variable's true value times its scale *)
Definition stands (w : world) (a : arg) (x : R) : Prop :=
  match a with
  | Num y => x = y
  | Ref t => exists v y, ready w t = Some v /\ true_value w t y /\ x = y * v_scale v
  end.
(** the arguments with numbers in place of variables *)
Definition in_numbers (w : world) (kw : list (str * arg)) (nums : list (str * R)) : Prop :=
  Forall2 (fun ka kx => fst kx = fst ka /\ stands w (snd ka) (snd kx)) kw nums.
(** [o] was constructed as c( ** kw) some time before the state [w], and no container was written to directly since *)
Definition made (w : world) (o : obj) (c : cls) (kw : list (str * arg)) : Prop :=
  exists wa wb, reach false wa /\ NoDup (map fst kw) /\ args_ok wa (map snd kw) /\ construct wa c kw = (wb, Ok o) /\ after false wb w.
(** the variables among the arguments are free, or constrained and among those just brought up to date *)
Definition current (w : world) (ders : list str) (l : list arg) : Prop := forall t, In (Ref t) l -> constrained w t = false \/ In t ders.

(** the documented constructors with plain numbers: [kw] gives the keyword arguments *)
Definition or_default (o : option R) (d : R) : option R := match o with Some x => Some x | None => Some d end.
Definition parameters (c : cls) : list str * list str :=   (* required, optional *)
  match c with
  | PH => ([], [S_ "gm"; S_ "vs"; S_ "Va"; S_ "Ma"; S_ "A"; S_ "Theta"; S_ "coef"])
  | PD => ([], [S_ "vs"; S_ "Va"; S_ "G"; S_ "coef"])
  | GB => ([S_ "vs"; S_ "L"], [S_ "alpha"])
  | NP => ([], [S_ "N1"; S_ "vs"; S_ "R"; S_ "D0"; S_ "D1"; S_ "Y0"; S_ "Y1"; S_ "alpha"; S_ "phi"])
  | DL => ([S_ "Nd"; S_ "vs"; S_ "Va"; S_ "Bd"; S_ "gm"], [S_ "F"; S_ "alpha"])
  | SF => ([S_ "Nsf"; S_ "vs"; S_ "Va"; S_ "gm"], [S_ "alpha"])
  | EP => ([], [S_ "vs"; S_ "md"; S_ "EF"; S_ "Ed"; S_ "D0"; S_ "Rep"; S_ "coef"])
  | CA => ([], [S_ "alpha"])
  end.
Definition get0 (o : option R) : R := match o with Some x => x | None => 0 end.
Definition plain_rate (c : cls) (k : str -> option R) : res (R -> R -> res R) :=
  match c with
  | PH => let! p := ph_init (k (S_ "gm")) (k (S_ "vs")) (k (S_ "Va")) (k (S_ "Ma")) (or_default (k (S_ "A")) 1) (or_default (k (S_ "Theta")) 0) (k (S_ "coef")) in
          Ok (fun om T => Ok (ph_rate p om T))
  | PD => let! p := pd_init (k (S_ "vs")) (k (S_ "Va")) (k (S_ "G")) (k (S_ "coef")) in Ok (fun om T => Ok (pd_rate p om T))
  | GB => Ok (fun om T => Ok (gb_rate (get0 (k (S_ "vs"))) (get0 (k (S_ "L"))) (get0 (or_default (k (S_ "alpha")) 1)) om T))
  | NP => let! p := np_init (k (S_ "N1")) (k (S_ "vs")) (k (S_ "R")) (k (S_ "D0")) (k (S_ "D1")) (or_default (k (S_ "Y0")) 1) (or_default (k (S_ "Y1")) 1)
                            (or_default (k (S_ "alpha")) 1) (k (S_ "phi")) in
          Ok (fun om T => Ok (np_rate p om T))
  | DL => Ok (fun om T => Ok (dl_rate (get0 (k (S_ "Nd"))) (get0 (k (S_ "vs"))) (get0 (k (S_ "Va"))) (get0 (k (S_ "Bd"))) (get0 (k (S_ "gm")))
                                      (get0 (or_default (k (S_ "F")) 1)) (get0 (or_default (k (S_ "alpha")) 0.55)) om T))
  | SF => Ok (fun om T => Ok (sf_rate (get0 (k (S_ "Nsf"))) (get0 (k (S_ "vs"))) (get0 (k (S_ "Va"))) (get0 (k (S_ "gm"))) (get0 (or_default (k (S_ "alpha")) 0.7)) om T))
  | EP => let! p := ep_init (k (S_ "vs")) (k (S_ "md")) (k (S_ "EF")) (k (S_ "Ed")) (k (S_ "D0")) (k (S_ "Rep")) (k (S_ "coef")) in Ok (fun om T => ep_rate p om T)
  | CA => Ok (fun om T => Ok (cahill_rate (get0 (or_default (k (S_ "alpha")) 1)) om T))
  end.
(** c( ** nums) with plain numbers: TypeError for an unknown or a missing required name *)
Definition plain (c : cls) (nums : list (str * R)) : res (R -> R -> res R) :=
  let '(req, opt) := parameters c in
  if existsb (fun kx => negb (memb (fst kx) (req ++ opt))) nums then Err TypeError
  else if existsb (fun n => negb (memb n (map fst nums))) req then Err TypeError
  else plain_rate c (dget nums).

(** the documented tags, the keys of the results *)
Definition key_of (c : cls) : str :=
  match c with PH => S_ "PH" | PD => S_ "PD" | GB => S_ "GB" | NP => S_ "NP" | DL => S_ "DL" | SF => S_ "SF" | EP => S_ "EP" | CA => S_ "CAHILL" end.
(** a component of a live model and the same component computing with plain numbers: a mechanism made as c( ** kw) and the mechanism made with the numbers,
    another kappa model with its container made from [kw] and its formula applied to the numbers; [ders] are the constrained variables just brought up to date *)
Inductive in_plain (w : world) (ders : list str) : lcomp -> comp -> Prop :=
| ip_scat o c kw nums f g : made w o c kw -> current w ders (map snd kw) -> in_numbers w kw nums -> plain c nums = Ok f -> (forall om T, f om T = Ok (g om T)) ->
    in_plain w ders (LScat o) (Scat (key_of c) g)
| ip_sub tag p kw nums f wa wb : reach false wa -> NoDup (map fst kw) -> args_ok wa (map snd kw) -> new_params wa (map (fun ka => (KName (fst ka), snd ka)) kw) = (wb, p) ->
    after false wb w -> current w ders (map snd kw) -> in_numbers w kw nums -> in_plain w ders (LSub tag p f) (Sub tag (f (dget nums)))
| ip_other : in_plain w ders LOther Other.
(** [m] was constructed as KappaDebye(vs, td, comps) some time before the state [w] *)
Definition made_debye (w : world) (m : live) (vs td : arg) (comps : list lcomp) : Prop :=
  exists wa wb, reach false wa /\ args_ok wa [vs; td] /\ new_debye wa vs td comps = (wb, Ok m) /\ after false wb w.
