(** Vocabulary for bands described in a configuration. *)
From Coq Require Import Reals String Ascii.
From Verif Require Import Py PyStr PyDict CfgSpec.
Local Open Scope list_scope.
(** the types of bands and the entries they know (required ones first; all entries of real band types are optional) *)
Definition words (l : list String.string) : list str := map S_ l.
Definition band_types : list (str * (list str * list str)) :=
  map (fun p => (S_ (fst p), (words (fst (snd p)), words (snd (snd p)))))
   [("APSSPB", ([], ["m_d"; "sigma0"; "Kmass"]));
    ("APSSPB_UWT", ([], ["m_d"; "UWT"; "Kmass"]));
    ("APSSPB_DP", ([], ["m1"; "m2"; "Nv"; "Cii"; "Ed"]));
    ("APSSKB", ([], ["m_d"; "sigma0"; "Eg"; "Kmass"]));
    ("APSSKB_UWT", ([], ["m_d"; "UWT"; "Eg"; "Kmass"]));
    ("APSSKB_DP", ([], ["m1"; "m2"; "Nv"; "Cii"; "Ed"; "Eg"]));
    ("LinearBand", ([], ["vF"; "sigma0"]));
    ("valuate.APSSPB", (["dataS"], ["dataT"; "dataC"; "dataN"; "dataK"; "hall"; "Kmass"]));
    ("valuate.APSSKB", (["dataS"; "dataT"], ["dataC"; "dataN"; "dataK"; "Eg"; "hall"; "Kmass"]));
    ("valuate.RSPB", (["dataS"], ["dataC"; "dataT"; "dataN"; "dataK"; "delta"]))]%string.
(** the first section called [name] or [name].type *)
Definition section_of (items : list (str * dict str str)) (name : str) (content : dict str str) (ty : str) : Prop :=
  exists pre nm post, items = pre ++ (nm, content) :: post /\ (forall m, In m (map fst pre) -> ~ section_matches m name) /\
    ((nm = name /\ ty = nm) \/ ((exists t, nm = name ++ dot :: t) /\ after_dot nm ty)).
Definition no_section (items : list (str * dict str str)) (name : str) : Prop := forall m, In m (map fst items) -> ~ section_matches m name.
Definition blank_comma (c : ascii) : bool := (is_space c || Ascii.eqb c comma)%bool.
(** the words of a text separated by blanks and commas *)
Definition has_words (t : str) (ws : list str) : Prop := tokens blank_comma t ws.
(** two lists paired number by number; a list of length one is repeated *)
Inductive paired : list R -> list R -> list (R * R) -> Prop :=
| pr_same a b : List.length a = List.length b -> paired a b (combine a b)
| pr_left x b : paired [x] b (map (fun y => (x, y)) b)
| pr_right a y : paired a [y] (map (fun x => (x, y)) a).
