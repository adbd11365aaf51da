(** Specification vocabulary for chemical formulas. *)
From Coq Require Import ZArith String.
From Verif Require Import Py PyDict PyStr RUtil DataModel DataSpec CompModel.
Local Open Scope list_scope.
Local Open Scope R_scope.

Definition lower_letter (c : ascii) : Prop := In c (map ascii_of_nat (seq 97 26)).
Definition digit (c : ascii) : Prop := In c (map ascii_of_nat (seq 48 10)).
(** a name: a capital letter and lower-case letters *)
Definition name_like (s : str) : Prop := exists c r, s = c :: r /\ capital c /\ Forall lower_letter r.
(** what may stand between a name and its number *)
Definition filler (c : ascii) : Prop := In c (list_ascii_of_string " _-(\").
Definition fill_text (s : str) : Prop := Forall filler s.
(** digits, possibly with one point *)
Definition number_text (s : str) : Prop :=
  exists d1, Forall digit d1 /\ (s = d1 \/ exists d2, Forall digit d2 /\ s = d1 ++ "."%char :: d2).
Record item := Item { i_name : str; i_fill : str; i_num : str; i_gap : str }.
Definition item_text (i : item) : str := i_name i ++ i_fill i ++ i_num i ++ i_gap i.
(** [c] right after the number would still belong to the item *)
Definition extends (i : item) (c : ascii) : Prop :=
  match i_num i with
  | [] => (i_fill i = [] /\ lower_letter c) \/ filler c \/ digit c \/ c = "."%char
  | _ => digit c \/ (c = "."%char /\ ~ In "."%char (i_num i))
  end.
Definition good_item (i : item) : Prop :=
  name_like (i_name i) /\ fill_text (i_fill i) /\ number_text (i_num i)
  /\ Forall (fun c => ~ capital c) (i_gap i) /\ (forall c r, i_gap i = c :: r -> ~ extends i c).

(** decimal notation of a natural number, leading zeros allowed *)
Inductive whole : str -> Z -> Prop :=
| whole_nil : whole [] 0
| whole_snoc s v k : whole s v -> (k < 10)%nat -> whole (s ++ [ascii_of_nat (48 + k)]) (10 * v + Z.of_nat k).
(** the amount written: nothing means one *)
Definition amount (s : str) (x : R) : Prop :=
  (s = [] /\ x = 1) \/ (s <> [] /\ exists v, whole s v /\ x = IZR v)
  \/ (exists d1 d2 v, s = d1 ++ "."%char :: d2 /\ d1 ++ d2 <> [] /\ whole (d1 ++ d2) v /\ x = IZR v / 10 ^ length d2).
(** the element symbols, by the periods of the periodic table *)
Fixpoint words_at (w : str) (s : str) : list str :=
  match s with
  | [] => match w with [] => [] | _ => [w] end
  | c :: r => if eqb c " "%char then match w with [] => words_at [] r | _ => w :: words_at [] r end else words_at (w ++ [c]) r
  end.
Definition periods : list str :=
  [S_ "H He";
   S_ "Li Be B C N O F Ne";
   S_ "Na Mg Al Si P S Cl Ar";
   S_ "K Ca Sc Ti V Cr Mn Fe Co Ni Cu Zn Ga Ge As Se Br Kr";
   S_ "Rb Sr Y Zr Nb Mo Tc Ru Rh Pd Ag Cd In Sn Sb Te I Xe";
   S_ "Cs Ba La Ce Pr Nd Pm Sm Eu Gd Tb Dy Ho Er Tm Yb Lu Hf Ta W Re Os Ir Pt Au Hg Tl Pb Bi Po At Rn";
   S_ "Fr Ra Ac Th Pa U Np Pu Am Cm Bk Cf Es Fm Md No Lr Rf Db Sg Bh Hs Mt Ds Rg Cn Nh Fl Mc Lv Ts Og"].
Definition symbols : list str := flat_map (words_at []) periods.
(** the check made by from_string: the first two letters are an element symbol *)
Definition accepted (name : str) : Prop := In (firstn 2 name) elements.

(** ** Alloy formulas *)
(** a part of an alloy formula: an element or a parenthesised composition, with its amount *)
Inductive part := Elem (name num : str) | Group (content num : str).
Definition part_text (p : part) : str :=
  match p with Elem name num => name ++ num | Group x num => "("%char :: x ++ ")"%char :: num end.
Definition part_num (p : part) : str := match p with Elem _ n => n | Group _ n => n end.
(** the text that determines the composition of the part *)
Definition part_source (p : part) : str := match p with Elem name _ => name | Group x _ => x end.
Definition good_part (p : part) : Prop :=
  number_text (part_num p) /\
  match p with
  | Elem name _ => name_like name /\ firstn 8 name <> S_ "Jalloyed"
  | Group x _ => x <> [] /\ Forall (fun c => c <> "("%char /\ c <> ")"%char /\ c <> ascii_of_nat 10) x
  end.
Fixpoint contents (l : list part) : list str :=
  match l with [] => [] | Elem _ _ :: r => contents r | Group x _ :: r => x :: contents r end.
Fixpoint elem_names (l : list part) : list str :=
  match l with [] => [] | Elem n _ :: r => n :: elem_names r | Group _ _ :: r => elem_names r end.
(** [x] times the composition [c] *)
Definition times (x : R) (c : compound) : compound := map (fun q => (fst q, snd q * x)) c.
Definition letter (i : nat) : str := [ascii_of_nat (65 + i)].
