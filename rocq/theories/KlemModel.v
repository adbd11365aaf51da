(** Model of the remaining thermal-conductivity models of src/teflow/kappa.py: [KappaSlack] (1072-1157), [KappaBipolar] (1160-1187),
    [KappaPowerLaw] (1190-1216), [KappaKlemens] (1219-1401), at one temperature or composition (numpy applies them elementwise). *)
From Coq Require Import Reals String Ascii.
From Verif Require Import Py PyStr RUtil.
Local Open Scope R_scope.

(** *** [KappaSlack] *)
(** [_coef_model] and the stored [A] (kappa.py 1085-1112) *)
Inductive slackA := ANum (a : R) | AName (s : str).
(** [coef_Julian] (kappa.py 1127-1136), [coef_Qin] (1139-1148) *)
Definition julian (gm : R) : R := 2.43 * / 10 ^ 6 / (1 - 0.514 / gm + 0.228 / gm / gm).
Definition qin (gm : R) : R := 1 / (1 + 1 / gm + 8.3 * 10 ^ 5 / Rpower gm 2.4).
(** [coef] (kappa.py 1120-1124): getattr(self, 'coef_' + name); 'Constant' names [coef_Constant] (1151-1157), which reads the parameter A that was not stored.
    Other names are looked up among the attributes of the class, of which only these three begin with coef_ *)
Definition slack_coef (A : slackA) (gm : R) : res R :=
  match A with
  | ANum a => Ok a
  | AName s => if eqb s (S_ "Julian") then Ok (julian gm) else if eqb s (S_ "Qin") then Ok (qin gm)
               else if eqb s (S_ "Constant") then Err KeyError else Err AttributeError
  end.
(** [__call__] (kappa.py 1114-1117) *)
Definition slack (A : slackA) (td gm Ma Va N T : R) : res R :=
  let! c := slack_coef A gm in Ok (c * Ma * Rpower Va (1 / 3) * td ^ 3 / gm ^ 2 / Rpower N (2 / 3) / T).

(** *** [KappaBipolar.__call__] (kappa.py 1183-1187) and [KappaPowerLaw.__call__] (1214-1216); T > 0 *)
Definition kB_eV : R := 8.617333262145179e-05.
Definition bipolar (Kbp Eg p T : R) : R := Kbp * Rpower (T / 300) p * exp (- Eg / (2 * kB_eV * T)).
Definition powerlaw (Kamb n K0 T : R) : R := Kamb * Rpower (T / 300) n + K0.

(** *** [KappaKlemens] *)
(** [u2] (kappa.py 1249-1261) *)
Definition u2 (Kpure vs td G0 Va X : R) : R :=
  let hbar := 105.4571817 in PI * td * Va / (2 * hbar * vs ^ 2) * Kpure * G0 * X * (1 - X).
(** [__call__] (kappa.py 1386-1388) *)
Definition klemens (Kpure vs td G0 Va X : R) : R :=
  let u := sqrt (Rmax (u2 Kpure vs td G0 Va X) (/ 10 ^ 12)) in Kpure * atan u / u.

(** *** [fluctuation] (kappa.py 1264-1384), for as many sublattices of masses (and radii) as of occupations *)
(** [np.pad(o, (0, nsubs - np.size(o)))]: a row longer than [n] is a ValueError *)
Definition pad (n : nat) (v : R) (l : list R) : res (list R) :=
  if (n <? List.length l)%nat then Err ValueError else Ok (l ++ repeat v (n - List.length l)).
Fixpoint map2 {A B C} (f : A -> B -> C) (l : list A) (l' : list B) : list C :=
  match l, l' with a :: r, b :: r' => f a b :: map2 f r r' | _, _ => [] end.
(** the longest row; of an empty list max() is a ValueError *)
Definition nmax (l : list (list R)) : nat := fold_right Nat.max 0%nat (map (@List.length R) l).
(** [np.allclose(op, 1)] *)
Definition close1 (x : R) : bool := if Rle_dec (Rabs (x - 1)) (/ 10 ^ 8 + / 10 ^ 5 * 1) then true else false.
(** the disorder sum over one row (1363, 1371): masses (or radii) relative to their mean *)
Definition disorder (c m : list R) (mp : R) : R := sumR (map2 (fun c m => c * (1 - m / mp) ^ 2) c m).
Definition mean (c m : list R) : R := sumR (map2 Rmult c m).
(** the sum over the sublattices (1364, 1372) *)
Definition total (op mp g : list R) : R :=
  let mave := sumR (map2 Rmult op mp) / sumR op in
  sumR (map2 Rmult (map2 (fun o m => o * (m / mave) ^ 2) op mp) g) / sumR op.
Definition gamma (oc ms vals : list (list R)) (op : list R) : R :=
  let mp := map2 mean oc ms in total op mp (map2 (fun c v => disorder c v (mean c v)) oc vals).
(** kappa.py 1378 *)
Definition Sconf (oc : list (list R)) : R := -1 * sumR (map (fun c => sumR (map (fun x => x * ln (Rmax x (/ 10 ^ 12))) c)) oc).
Definition fluctuation (occ masses : list (list R)) (radii : list (list R)) (alpha : R) (renorm : bool) : res (R * R * R * R) :=
  match occ with
  | [] => Err ValueError
  | _ =>
      let n := nmax occ in
      let! oc0 := mapM (pad n 0) occ in
      let op0 := map sumR oc0 in
      let! oo := if forallb close1 op0 then Ok (oc0, op0)
                 else if renorm then Ok (map2 (fun c o => map (fun x => x / o) c) oc0 op0, map (fun _ => 1) op0) else Err ValueError in
      let '(oc, op) := oo in
      let! ms := mapM (pad n 1) masses in
      let gm := gamma oc ms ms op in
      let! gr := match radii with [] => Ok 0 | _ => let! ra := mapM (pad n 1) radii in Ok (gamma oc ms ra op) end in
      Ok (gm + alpha * gr, gm, gr, Sconf oc)
  end.
