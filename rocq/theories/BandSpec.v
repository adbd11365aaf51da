(** Vocabulary of the statements about bands (C60-C68). *)
From Coq Require Import Reals.
From Verif Require Import Py PyStr RUtil RombModel BandModel.
Local Open Scope R_scope.

(** how many transport integrals K_0, K_1, ... a property is made of *)
Definition levels (p : prop) : nat :=
  match p with
  | PN | PCCRH => 0
  | PK0 | PC | PU | PRH | PUH | PNH => 1
  | PK1 | PCS | PS | PPF => 2
  | PK2 | PCL | PL | PKe => 3
  end.
(** properties made from the Hall integral *)
Definition uses_hall (p : prop) : bool := match p with PCCRH | PRH | PUH | PNH => true | _ => false end.
(** every band is a valence (+1) or a conduction (-1) band *)
Definition signs_ok (h : heap) : Prop := forall i, b_sign (h i) = 1 \/ b_sign (h i) = -1.
(** no sub-band of [m] is compiled *)
Definition fresh (h : heap) (m : multi) : Prop := m_cache m = None /\ forall i d, In (i, d) (m_items m) -> b_cache (h i) = None.
(** the Fermi level seen by band [i] shifted by [d]: measured from its edge into the band *)
Definition seen (h : heap) (EF : R) (i : nat) (d : R) : R := if Rlt_dec (b_sign (h i)) 0 then EF - d else d - EF.
(** the offset in the last entry of band [i] *)
Fixpoint last_delta (i : nat) (l : list (nat * R)) : option R :=
  match l with
  | [] => None
  | (j, d) :: r => match last_delta i r with Some x => Some x | None => if Nat.eqb i j then Some d else None end
  end.
(** a sum over all entries *)
Definition Sum (m : multi) (f : nat -> R -> R) : R := sumR (map (fun id => f (fst id) (snd id)) (m_items m)).
(** conduction and valence part *)
Definition part (h : heap) (c : bool) (m : multi) : multi :=
  {| m_items := filter (fun id => Bool.eqb (is_c h id) c) (m_items m); m_cache := None |}.
(** integrals of a band uncompiled *)
Definition K_of (h : heap) (n i : nat) (EF T : R) : R := r_K (b_raw (h i)) n EF T.
Definition value (r : res (option R)) (x : R) : Prop := r = Ok (Some x).
