(** Model of [KappaDebye] (src/teflow/kappa.py 295-553) at one temperature.  A mechanism or submodel is its tag and its function; the
    adaptive quadrature (vquad, scipy) is the integral; divisions by a zero total rate (inf in numpy) are outside the theorems' hypotheses. *)
From Coq Require Import Reals String.
From Coquelicot Require Import Coquelicot.
From Verif Require Import Py PyDict PyStr RUtil ScatModel EngModel.
Local Open Scope R_scope.

(** components: a scattering mechanism, a kappa model, anything else *)
Inductive comp := Scat (tag : str) (f : R -> R -> R) | Sub (tag : str) (k : R -> R) | Other.
Notation mech := (str * (R -> R -> R))%type.
Notation subm := (str * (R -> R))%type.
(** the loop of [__init__] (kappa.py 322-339); tags are added to OrderedDicts *)
Fixpoint load (s : list mech) (a : list subm) (l : list comp) : res (list mech * list subm) :=
  match l with
  | [] => Ok (s, a)
  | Scat t f :: r => if dmem s t then Err ValueError else load (dset s t f) a r
  | Sub t k :: r => if dmem a t then Err ValueError else load s (dset a t k) r
  | Other :: _ => Err NotImplementedError
  end.
(** [__init__] (kappa.py 308-342) *)
Definition debye_init (l : list comp) : res (list mech * list subm) :=
  let! sa := load [] [] l in match fst sa with [] => Err ValueError | _ => Ok sa end.

Definition EPS : R := / 10 ^ 6.
(** [wd] (kappa.py 345-351) *)
Definition wd (td : R) : R := td / hbar_kB.
(** [_spectral_factor] (kappa.py 455-460) *)
Definition sfactor (vs w T : R) : R :=
  let x := w / T * hbar_kB in
  (w / PI) ^ 2 / (2 * vs) * (x ^ 2 * exp x / (exp x - 1) ^ 2 * 0.01380649).
(** [scattering] (kappa.py 353-360): tags with rates, then the total *)
Definition scattering (s : list mech) (w T : R) (with_total : bool) : list (str * R) :=
  let d := map (fun m => (fst m, snd m w T)) s in
  if with_total then dset d (S_ "total") (sumR (map snd d)) else d.
(** the accumulation loop of [spectral] (kappa.py 387-390): label and rate are added to those of the entry before *)
Fixpoint accum (prev : option (str * R)) (l : list (str * R)) : list (str * R) :=
  match l with
  | [] => []
  | e :: r => let e' := match prev with None => e | Some p => (fst p ++ S_ "+" ++ fst e, snd p + snd e) end in e' :: accum (Some e') r
  end.
(** [spectral] (kappa.py 362-395) at one frequency; the pairs go into a dict *)
Definition spectral (td vs : R) (s : list mech) (w T : R) (accumulate : bool) : list (str * R) :=
  let w := Rmax EPS w in
  let out := map (fun m => (fst m, snd m w T)) s in
  let out := if accumulate then accum None out else out in
  let factor := if Rle_dec w (wd td) then sfactor vs w T else 0 in
  dupdate [] (map (fun e => (fst e, factor / snd e)) out).
(** [cumulative] (kappa.py 397-409): scipy's cumtrapz over the given frequencies, for one of the entries [spec] *)
Definition cumulative (spec : R -> R) (ws : list R) : list R := map snd (cumtrapz (map (fun w => (w, spec w)) ws)).
(** [_spectral_sum] (kappa.py 462-469) *)
Definition spectral_sum (vs : R) (s : list mech) (w T : R) (n : nat) : R :=
  let s' := match n with O => s | _ => firstn n s end in
  sfactor vs w T / sumR (map (fun m => snd m w T) s').
(** [__call__] (kappa.py 471-474) *)
Definition kappa_n (td vs : R) (s : list mech) (T : R) (n : nat) : R := RInt (fun w => spectral_sum vs s w T n) EPS (wd td).
Definition kappa (td vs : R) (s : list mech) (a : list subm) (T : R) : R := kappa_n td vs s T 0 + sumR (map (fun m => snd m T) a).

(** [cumulative_mfp_t] (kappa.py 411-453), one entry: rate at the bin edges, weight per bin *)
Definition edges (td : R) (nbatch i : nat) : R * R * R :=
  let dw := wd td / INR nbatch in
  let l := INR i * dw in
  ((match i with O => EPS | _ => l end), l + dw, (l + (l + dw)) / 2).
Definition ramp (mfp ave w_d w : R) : R := w / w_d * Rmin (Rmax (mfp - ave - w_d / 2) 0) w_d.
Definition bin (vs : R) (rate : R -> R) (lr : R * R) : R * R :=
  let ml := vs / rate (fst lr) in let mr := vs / rate (snd lr) in ((ml + mr) / 2, Rmax (Rabs (ml - mr)) (10 * EPS)).
Definition cum_mfp (vs : R) (rate spec : R -> R) (td : R) (nbatch : nat) (mfp : R) : R :=
  sumR (map (fun i => let '(l, r, c) := edges td nbatch i in
                      let '(ave, w_d) := bin vs rate (l, r) in
                      ramp mfp ave w_d (wd td / INR nbatch * spec c)) (seq 0 nbatch)).
(** the checks (kappa.py 422-428): one temperature, not too many bins; [nbatch] positive *)
Definition mfp_check (nT : nat) (td : R) (nbatch : nat) : option exn :=
  if negb (nT =? 1)%nat then Some ValueError else if Rlt_dec (wd td / INR nbatch) (10 * EPS) then Some ValueError else None.

(** [vs_to_td] (kappa.py 477-497), [vs_to_gm] (500-525), [vs_mean] (528-553, numbers; numpy's mean of the three velocities) *)
Definition vs_to_td (vs Va : R) : R := hbar_kB * 10 * Rpower (6 * PI * PI / Va) (1 / 3) * vs.
Definition vs_to_gm (v1 v2 : R) : R := let r := (v1 / v2) ^ 2 in 3 / 2 * (3 * r - 4) / (r + 2).
Definition vs_mean (v1 v2 : R) (p : Z) : R :=
  if (p =? 0)%Z then Rpower (v1 * v2 * v2) (1 / 3)
  else Rpower ((powerRZ v1 p + powerRZ v2 p + powerRZ v2 p) / 3) (1 / IZR p).
(** [vs_mean] on arrays of velocities: the mean runs over all of them, so one number comes out *)
Definition vs_mean_arr (v : list (R * R)) (p : Z) : R :=
  let all := flat_map (fun ab => [fst ab; snd ab; snd ab]) v in
  if (p =? 0)%Z then Rpower (fold_right Rmult 1 all) (1 / 3)
  else Rpower (sumR (map (fun x => powerRZ x p) all) / INR (List.length all)) (1 / IZR p).
