(** Model of the lattice thermal conductivity of src/teflow/kappa.py on numpy arrays of frequencies, temperatures, mean free paths and compositions, over any arithmetic: the scattering mechanisms
    (635-1069), [KappaDebye] (353-474, 477-525) and the other models (1114-1117, 1183-1187, 1214-1216, 1249-1261, 1386-1388).
    The formulas are written once, over any kind of operand [Y], as in VecModel.  Parameters are single numbers.  Left out: Python lists in place of arrays; construction (ScatModel, DebyeModel). *)
From Coq Require Import ZArith Reals String.
From Verif Require Import Py PyDict PyStr RUtil ScatModel DebyeModel KlemModel ArrModel VecModel.
Local Open Scope list_scope.

(** the functions of numbers: [np.power] with a natural and with any exponent, [np.sum] of the elements along an axis, [<=], comparison with 0 (for [x or ...]) *)
Record karith (X : Type) := { k_ar : arith X; k_neg : X -> X; k_exp : X -> X; k_ln : X -> X; k_abs : X -> X; k_atan : X -> X; k_pow : X -> nat -> X; k_rpow : X -> X -> X; k_max : X -> X -> X; k_min : X -> X -> X;
  k_sum : list X -> X; k_le : X -> X -> bool; k_lt : X -> X -> bool; k_zero : X -> bool }.
Arguments k_ar {X}. Arguments k_neg {X}. Arguments k_exp {X}. Arguments k_ln {X}. Arguments k_abs {X}. Arguments k_atan {X}. Arguments k_pow {X}. Arguments k_rpow {X}. Arguments k_max {X}. Arguments k_min {X}.
Arguments k_sum {X}. Arguments k_le {X}. Arguments k_lt {X}. Arguments k_zero {X}.

(** a mechanism with its parameters; for the free electrons what is stored ([None]: nothing) *)
Inductive mechanism (X : Type) :=
| MPH (gm vs Va Ma A Theta : X) | MPHX (coef Theta : X) | MPD (vs Va G : X) | MPDX (coef : X) | MGB (vs L alpha : X)
| MNP (N1 vs r D0 D1 Y0 Y1 alpha : X) | MNPX (phi vs r D0 D1 Y0 Y1 alpha : X) | MDL (Nl vs Va Bd gm F alpha : X) | MSF (Nsf vs Va gm alpha : X)
| MEP (vs md EF Ed D0 Rep coef : option X) | MCAHILL (alpha : X).
Arguments MPH {X}. Arguments MPHX {X}. Arguments MPD {X}. Arguments MPDX {X}. Arguments MGB {X}. Arguments MNP {X}. Arguments MNPX {X}. Arguments MDL {X}. Arguments MSF {X}. Arguments MEP {X}. Arguments MCAHILL {X}.

Section Formulas.
Variable X : Type.
Variable ka : karith X.
Let ar := k_ar ka.
(** ** numbers *)
Let c (r : R) : X := a_lit ar r.
Notation "a .+ b" := (a_add ar a b) (at level 50, left associativity).
Notation "a .- b" := (a_sub ar a b) (at level 50, left associativity).
Notation "a .* b" := (a_mul ar a b) (at level 40, left associativity).
Notation "a ./ b" := (a_div ar a b) (at level 40, left associativity).
Notation "a .^ n" := (k_pow ka a n) (at level 30).
(** coefficients (641-650, 692-700, 812-819) *)
Definition x_ph_coef (gm vs Va Ma A : X) : X := c 1.380649 ./ c 1.67492749804 .* c (/ 10 ^ 15) .* A .* k_rpow ka Va (c 1 ./ c 3) .* gm .^ 2 ./ (Ma .* vs .^ 3).
Definition x_pd_coef (vs Va G : X) : X := c (/ 10 ^ 39) .* Va .* G ./ (c 4 .* c PI .* vs .^ 3).
Definition x_np_phi (N1 r : X) : X := c (/ 10 ^ 6) .* N1 .* c 4 ./ c 3 .* c PI .* r .^ 3.
(** stored parameters of the free electrons (1008-1023): a stored 0 counts as absent *)
Definition x_need (o : option X) : res X := match o with Some x => Ok x | None => Err KeyError end.
Definition x_coef (md vs Ed D0 coef : option X) : res X :=
  let cal := let! Ed := x_need Ed in let! md := x_need md in let! D0 := x_need D0 in let! vs := x_need vs in Ok (c (2.89061617105021 * / 10 ^ 3) .* (Ed .* md) .^ 2 ./ (D0 .* vs)) in
  match coef with Some x => if k_zero ka x then cal else Ok x | None => cal end.
(** Debye frequency (345-351), [vs_to_td] and [vs_to_gm] are below *)
Definition x_wd (td : X) : X := td ./ c hbar_kB.
Definition x_EPS : X := c EPS.

Variable Y : Type.
Variable o1 : (X -> X) -> Y -> Y.
Variable o2 : (X -> X -> X) -> Y -> Y -> res Y.
Variable con : X -> Y.
Let lift2 f (a b : res Y) : res Y := let! x := a in let! y := b in o2 f x y.
Let lift1 f (a : res Y) : res Y := let! x := a in Ok (o1 f x).
Let lit (r : R) : res Y := Ok (con (a_lit ar r)).
Let num (x : X) : res Y := Ok (con x).
Let v (y : Y) : res Y := Ok y.
Let pw (a : res Y) (n : nat) : res Y := lift1 (fun x => k_pow ka x n) a.
Notation "a ⊕ b" := (lift2 (a_add ar) a b) (at level 50, left associativity).
Notation "a ⊖ b" := (lift2 (a_sub ar) a b) (at level 50, left associativity).
Notation "a ⊗ b" := (lift2 (a_mul ar) a b) (at level 40, left associativity).
Notation "a ⊘ b" := (lift2 (a_div ar) a b) (at level 40, left associativity).

(** ** scattering mechanisms; [np.broadcast_arrays] first *)
Definition v_ph (coef Theta : X) (w T : Y) : res Y :=
  let! e := lift1 (k_exp ka) (num (k_neg ka Theta) ⊘ (lit 3 ⊗ v T)) in lit (10 ^ 12) ⊗ num coef ⊗ pw (v w) 2 ⊗ v T ⊗ v e.
Definition v_np (phi vs r D0 D1 Y0 Y1 alpha : X) (w : Y) : res Y :=
  let geom := c 3 ./ c 2 .* vs .* phi ./ r in
  let Gm := c 1 ./ c 4 .* alpha .^ 2 .* (c 1 .- D1 ./ D0) .^ 2 in
  let Gy := c 3 .* alpha .^ 8 .* (c 1 .- Y1 ./ Y0) .^ 2 in
  let! w4 := pw (v w ⊗ num r ⊘ num vs) 4 in
  let! ratio := num (c 8 ./ c 9 .* (Gm .+ Gy)) ⊗ v w4 in
  num geom ⊗ v ratio ⊘ (lit 1 ⊕ v ratio).
Definition v_dl (Nl vs Va Bd gm F alpha : X) (w : Y) : res Y :=
  let! DC := num (c (/ 10 ^ 8) .* k_rpow ka Va (c 4 ./ c 3) ./ vs) ⊗ pw (v w) 3 in
  let! DS := num (c (/ 10 ^ 6) .* (Bd .* gm) .^ 2) ⊗ v w in
  num (alpha .* Nl) ⊗ (v DC ⊕ num (c dl_C .* F) ⊗ v DS).
Definition v_rep (md vs EF : X) (w T : Y) : res Y :=
  let w := o1 (fun x => k_max ka x (c (/ 10 ^ 6))) w in
  let! w' := o2 (fun a _ => a) w T in
  let! T' := o2 (fun _ b => b) w T in
  let! x := lit hbar_kB ⊗ v w' ⊘ v T' in
  let Tele := EF ./ c 8.617333262145179e-05 in
  let Tmv := c 0.03298949878462954 .* (md .* vs .^ 2) in
  let! Thw := lit 3.6464123068230276 ⊗ pw (v w') 2 in
  let! Tph := v Thw ⊘ num Tmv ⊕ num Tmv in
  let! p := lift1 (fun y => k_exp ka (k_min ka y (c 23))) ((v Tph ⊖ num Tele) ⊘ v T') in
  lift1 (k_ln ka) ((lift1 (k_exp ka) (v x ⊘ lit 2) ⊕ v p) ⊘ (lift1 (k_exp ka) (lift1 (k_neg ka) (v x) ⊘ lit 2) ⊕ v p)) ⊘ v x.
Definition v_ep (vs md EF Ed D0 Rep coef : option X) (w T : Y) : res Y :=
  let! k := x_coef md vs Ed D0 coef in
  let cal := let! md := x_need md in let! vs := x_need vs in let! EF := x_need EF in v_rep md vs EF w T in
  let! r := match Rep with Some x => if k_zero ka x then cal else Ok (con x) | None => cal end in
  num k ⊗ v r ⊗ v w.
Definition v_rate (m : mechanism X) (w T : Y) : res Y :=
  let! w' := o2 (fun a _ => a) w T in
  let! T' := o2 (fun _ b => b) w T in
  match m with
  | MPH gm vs Va Ma A Theta => v_ph (x_ph_coef gm vs Va Ma A) Theta w' T'
  | MPHX coef Theta => v_ph coef Theta w' T'
  | MPD vs Va G => lit (10 ^ 36) ⊗ num (x_pd_coef vs Va G) ⊗ pw (v w') 4
  | MPDX coef => lit (10 ^ 36) ⊗ num coef ⊗ pw (v w') 4
  | MGB vs L alpha => num (c (/ 10 ^ 3) .* alpha .* vs) ⊘ o2 (fun _ _ => L) w T
  | MNP N1 vs r D0 D1 Y0 Y1 alpha => v_np (x_np_phi N1 r) vs r D0 D1 Y0 Y1 alpha w'
  | MNPX phi vs r D0 D1 Y0 Y1 alpha => v_np phi vs r D0 D1 Y0 Y1 alpha w'
  | MDL Nl vs Va Bd gm F alpha => v_dl Nl vs Va Bd gm F alpha w'
  | MSF Nsf vs Va gm alpha => num (c (/ 10 ^ 5) .* alpha .* Nsf .* k_rpow ka Va (c 2 ./ c 3) ./ vs) ⊗ pw (num gm ⊗ v w') 2
  | MEP vs md EF Ed D0 Rep coef => v_ep vs md EF Ed D0 Rep coef w' T'
  | MCAHILL alpha => num alpha ⊗ v w' ⊘ lit PI
  end.

(** ** KappaDebye; a mechanism is its tag and its function *)
Notation vmechs := (list (str * (Y -> Y -> res Y))).
Definition rates (s : vmechs) (w T : Y) : res (list (str * Y)) := mapM (fun m => let! y := snd m w T in Ok (fst m, y)) s.
(** [scattering] (353-360) *)
Definition v_scattering (s : vmechs) (w T : Y) (with_total : bool) : res (list (str * Y)) :=
  let! d := rates s w T in
  if with_total then let! t := fold_left (fun acc e => acc ⊕ v (snd e)) d (lit 0) in Ok (dset d (S_ "total") t) else Ok d.
(** [_spectral_factor] (455-460) *)
Definition v_factor (vs : X) (w T : Y) : res Y :=
  let! x := v w ⊘ v T ⊗ lit hbar_kB in
  let! wt := pw (v x) 2 ⊗ lift1 (k_exp ka) (v x) ⊘ pw (lift1 (k_exp ka) (v x) ⊖ lit 1) 2 ⊗ lit 0.01380649 in
  pw (v w ⊘ lit PI) 2 ⊘ num (c 2 .* vs) ⊗ v wt.
(** the accumulation of [spectral] (387-390) *)
Fixpoint v_accum (prev : option (str * Y)) (l : list (str * Y)) : res (list (str * Y)) :=
  match l with
  | [] => Ok []
  | e :: r => let! e' := match prev with None => Ok e | Some p => let! y := v (snd p) ⊕ v (snd e) in Ok (fst p ++ S_ "+" ++ fst e, y) end in
              let! r' := v_accum (Some e') r in Ok (e' :: r')
  end.
(** [spectral] (362-395) *)
Definition v_spectral (td vs : X) (s : vmechs) (w T : Y) (accumulate : bool) : res (list (str * Y)) :=
  let w := o1 (k_max ka x_EPS) w in
  let! w' := o2 (fun a _ => a) w T in
  let! T' := o2 (fun _ b => b) w T in
  let! out := rates s w' T' in
  let! out := if accumulate then v_accum None out else Ok out in
  let! f := v_factor vs w' T' in
  let! factor := o2 (fun w f => if k_le ka w (x_wd td) then f else c 0) w' f in
  let! out := mapM (fun e => let! y := v factor ⊘ v (snd e) in Ok (fst e, y)) out in
  Ok (dupdate [] out).
(** [vs_to_td] (477-497), [vs_to_gm] (500-525) *)
Definition v_vs_to_td (vs Va : Y) : res Y := num (c hbar_kB .* c 10) ⊗ lift1 (fun x => k_rpow ka x (c 1 ./ c 3)) (num (c 6 .* c PI .* c PI) ⊘ v Va) ⊗ v vs.
Definition v_vs_to_gm (v1 v2 : Y) : res Y :=
  let! r := pw (v v1 ⊘ v v2) 2 in num (c 3 ./ c 2) ⊗ (lit 3 ⊗ v r ⊖ lit 4) ⊘ (v r ⊕ lit 2).

(** ** the other models: [KappaSlack] with a number as coefficient (1114-1117), [KappaBipolar] (1183-1187), [KappaPowerLaw] (1214-1216), [KappaKlemens] (1249-1261, 1386-1388) *)
Definition v_slack (A td gm Ma Va N : X) (T : Y) : res Y := num (A .* Ma .* k_rpow ka Va (c 1 ./ c 3) .* td .^ 3 ./ gm .^ 2 ./ k_rpow ka N (c 2 ./ c 3)) ⊘ v T.
Definition v_bipolar (Kbp Eg p : X) (T : Y) : res Y :=
  let! r := v T ⊘ lit 300 in
  let! e := lift1 (k_exp ka) (num (k_neg ka Eg) ⊘ (num (c 2 .* c kB_eV) ⊗ v T)) in
  num Kbp ⊗ lift1 (fun x => k_rpow ka x p) (v r) ⊗ v e.
Definition v_powerlaw (Kamb n K0 : X) (T : Y) : res Y := num Kamb ⊗ lift1 (fun x => k_rpow ka x n) (v T ⊘ lit 300) ⊕ num K0.
Definition v_klemens (Kpure vs td G0 Va : X) (W : Y) : res Y :=
  let factor := c PI .* td .* Va ./ (c 2 .* c 105.4571817 .* vs .^ 2) .* Kpure .* G0 in
  let! u2 := num factor ⊗ v W ⊗ (lit 1 ⊖ v W) in
  let u := o1 (fun x => a_sqrt ar (k_max ka x (c (/ 10 ^ 12)))) u2 in
  num Kpure ⊗ v (o1 (k_atan ka) u) ⊘ v u.
End Formulas.

(** ** numpy arrays *)
Section Arrays.
Variable X : Type.
Variable ka : karith X.
Let ar := k_ar ka.
Let z := a_lit ar 0%R.
Notation "a .+ b" := (a_add ar a b) (at level 50, left associativity).
Notation "a .- b" := (a_sub ar a b) (at level 50, left associativity).
Notation "a .* b" := (a_mul ar a b) (at level 40, left associativity).
Notation "a ./ b" := (a_div ar a b) (at level 40, left associativity).
Notation amechs := (list (str * (nd X -> nd X -> res (nd X)))).
Definition nd_rate := v_rate X ka (nd X) u1 (u2 z) con0.
Definition nd_scattering := v_scattering X ka (nd X) (u2 z) con0.
Definition nd_spectral := v_spectral X ka (nd X) u1 (u2 z) con0.
Definition nd_vs_to_td := v_vs_to_td X ka (nd X) u1 (u2 z) con0.
Definition nd_vs_to_gm := v_vs_to_gm X ka (nd X) u1 (u2 z) con0.
Definition nd_slack := v_slack X ka (nd X) (u2 z) con0.
Definition nd_bipolar := v_bipolar X ka (nd X) u1 (u2 z) con0.
Definition nd_powerlaw := v_powerlaw X ka (nd X) u1 (u2 z) con0.
Definition nd_klemens := v_klemens X ka (nd X) u1 (u2 z) con0.

(** scipy's [cumulative_trapezoid(y, x, initial=0, axis=ax)]; [ax] counts from 0.  [x] has one axis or as many as [y] *)
Definition upd (ax k : nat) (i : list nat) : list nat := firstn ax i ++ k :: skipn (S ax) i.
(** [np.cumsum] of the first [k] terms, 0 in front *)
Definition csum (l : list X) : X := match l with [] => z | t :: r => fold_left (a_add ar) r t end.
Definition cum_nd (y x : nd X) (ax : nat) : res (nd X) :=
  let at_ A i := bc_get z A i in
  match nth_error (shape y) ax with
  | None => Err IndexError
  | Some m =>
      let go (n : nat) (X_ : list nat -> nat -> X) :=
        if negb (Z.of_nat (n - 1) =? Z.of_nat m - 1)%Z then Err ValueError
        else Ok (Nd (shape y) (List.map (fun p => let i := unravel (shape y) p in
                  csum (List.map (fun j => (X_ i (S j) .- X_ i j) .* (at_ y (upd ax (S j) i) .+ at_ y (upd ax j i)) ./ a_lit ar 2) (seq 0 (nth ax i 0%nat)))) (seq 0 (size (shape y))))) in
      match shape x with
      | [n] => go n (fun _ j => nth j (flat x) z)
      | sx => if negb (Nat.eqb (List.length sx) (List.length (shape y))) then Err ValueError
              else match nth_error sx ax with None => Err ValueError | Some n => go n (fun i j => at_ x (upd ax j i)) end
      end
  end.
(** [cumulative] (397-409) *)
Definition nd_cumulative (td vs : X) (s : amechs) (w T : nd X) (accumulate : bool) (ax : nat) : res (list (str * nd X)) :=
  let! spec := nd_spectral td vs s w T accumulate in
  mapM (fun e => let! y := cum_nd (snd e) w ax in Ok (fst e, y)) spec.

(** [cumulative_mfp_t] (411-453); [nbatch] positive *)
Definition last_axis (A : nd X) : nd X := Nd (shape A ++ [1%nat]) (flat A).
Definition sum_last (A : nd X) : nd X :=
  let s := removelast (shape A) in let n := last (shape A) 0%nat in
  Nd s (List.map (fun p => k_sum ka (List.map (fun j => nth (p * n + j) (flat A) z) (seq 0 n))) (seq 0 (size s))).
Let lift2 f (a b : res (nd X)) : res (nd X) := let! x := a in let! y := b in u2 z f x y.
Let lift1 f (a : res (nd X)) : res (nd X) := let! x := a in Ok (u1 f x).
Let lit (r : R) : res (nd X) := Ok (con0 (a_lit ar r)).
Let num (x : X) : res (nd X) := Ok (con0 x).
Let v (y : nd X) : res (nd X) := Ok y.
Notation "a ⊕ b" := (lift2 (a_add ar) a b) (at level 50, left associativity).
Notation "a ⊖ b" := (lift2 (a_sub ar) a b) (at level 50, left associativity).
Notation "a ⊗ b" := (lift2 (a_mul ar) a b) (at level 40, left associativity).
Notation "a ⊘ b" := (lift2 (a_div ar) a b) (at level 40, left associativity).
Definition x_dw (td : X) (n : nat) : X := x_wd X ka td ./ a_lit ar (INR n).
Definition x_left0 (dw : X) (i : nat) : X := a_lit ar (INR i) .* dw.
Definition x_left (dw : X) (i : nat) : X := match i with O => x_EPS X ka | _ => x_left0 dw i end.
Definition x_right (dw : X) (i : nat) : X := x_left0 dw i .+ dw.
Definition x_centre (dw : X) (i : nat) : X := (x_left0 dw i .+ x_right dw i) ./ a_lit ar 2.
Definition bins (n : nat) (f : nat -> X) : nd X := Nd [n] (List.map f (seq 0 n)).
(** one entry: the mean free paths at both ends of the bins, the shares of the bins *)
Definition nd_mfp_cum (vs dw : X) (mfp spec fl fr : nd X) : res (nd X) :=
  let! w := num dw ⊗ v spec in
  let! ml := num vs ⊘ v fl in
  let! mr := num vs ⊘ v fr in
  let! ave := (v ml ⊕ v mr) ⊘ lit 2 in
  let! wid := lift1 (fun x => k_max ka x (a_lit ar 10 .* x_EPS X ka)) (lift1 (k_abs ka) (v ml ⊖ v mr)) in
  let! ramp := lift2 (k_min ka) (lift1 (fun x => k_max ka x z) (v (last_axis mfp) ⊖ v ave ⊖ v wid ⊘ lit 2)) (v wid) in
  v w ⊘ v wid ⊗ v ramp.
Definition nd_mfp_entry (vs dw : X) (mfp spec fl fr : nd X) : res (nd X) := let! cum := nd_mfp_cum vs dw mfp spec fl fr in Ok (sum_last cum).
Fixpoint entries3 (f : nd X -> nd X -> nd X -> res (nd X)) (spec : list (str * nd X)) (l r : list (nd X)) : res (list (str * nd X)) :=
  match spec, l, r with
  | e :: spec', a :: l', b :: r' => let! y := f (snd e) a b in let! out := entries3 f spec' l' r' in Ok ((fst e, y) :: out)
  | _, _, _ => Ok []
  end.
Definition nd_cum_mfp (td vs : X) (s : amechs) (mfp T : nd X) (accumulate : bool) (n : nat) : res (list (str * nd X)) :=
  let T := atleast_1d T in
  if negb (Nat.eqb (size (shape T)) 1) then Err ValueError
  else let dw := x_dw td n in
  if k_lt ka dw (a_lit ar 10 .* x_EPS X ka) then Err ValueError
  else
    let! spec := nd_spectral td vs s (bins n (x_centre dw)) T accumulate in
    let! fl := rates (nd X) s (bins n (x_left dw)) T in
    let! fr := rates (nd X) s (bins n (x_right dw)) T in
    let! fl := if accumulate then v_accum X ka (nd X) (u2 z) None fl else Ok fl in
    let! fr := if accumulate then v_accum X ka (nd X) (u2 z) None fr else Ok fr in
    entries3 (nd_mfp_entry vs dw mfp) spec (List.map snd fl) (List.map snd fr).
End Arrays.

(** ** single numbers *)
Section Single.
Variable X : Type.
Variable ka : karith X.
Let ar := k_ar ka.
Let z := a_lit ar 0%R.
Let s1 (f : X -> X) (x : X) := f x.
Let s2 (f : X -> X -> X) (x y : X) : res X := Ok (f x y).
Let c (x : X) := x.
Notation "a .+ b" := (a_add ar a b) (at level 50, left associativity).
Notation "a .- b" := (a_sub ar a b) (at level 50, left associativity).
Notation "a .* b" := (a_mul ar a b) (at level 40, left associativity).
Notation "a ./ b" := (a_div ar a b) (at level 40, left associativity).
Notation mechs := (list (str * (X -> X -> res X))).
Definition one_rate := v_rate X ka X s1 s2 c.
Definition one_scattering := v_scattering X ka X s2 c.
Definition one_spectral := v_spectral X ka X s1 s2 c.
Definition one_vs_to_td := v_vs_to_td X ka X s1 s2 c.
Definition one_vs_to_gm := v_vs_to_gm X ka X s1 s2 c.
Definition one_slack := v_slack X ka X s2 c.
Definition one_bipolar := v_bipolar X ka X s1 s2 c.
Definition one_powerlaw := v_powerlaw X ka X s1 s2 c.
Definition one_klemens := v_klemens X ka X s1 s2 c.
(** the rates at an end of a bin (431-435) *)
Definition one_ends (s : mechs) (w T : X) (accumulate : bool) : res (list (str * X)) := let! d := rates X s w T in if accumulate then v_accum X ka X s2 None d else Ok d.
(** one mean free path, with the numbers of the bins *)
Definition one_share (vs dw mfp spec fl fr : X) : X :=
  let ml := vs ./ fl in let mr := vs ./ fr in
  let ave := (ml .+ mr) ./ a_lit ar 2 in
  let wid := k_max ka (k_abs ka (ml .- mr)) (a_lit ar 10 .* x_EPS X ka) in
  dw .* spec ./ wid .* k_min ka (k_max ka (mfp .- ave .- wid ./ a_lit ar 2) z) wid.
End Single.

(** ** the conductivity (462-474), over the real numbers: [vquad] with scipy's [quad] *)
Section Kappa.
(** [quad n T]: the integral of [_spectral_sum] from EPS to wd at one temperature, or an exception *)
Variable quad : R -> R -> list R -> res (R * R).
Definition of_part (s : list nat) (p : list nat -> option R) : nd R := Nd s (List.map (fun i => match p i with Some x => x | None => 0%R end) (ndindex s)).
Definition nd_kappa_n (td : R) (T nscat : nd R) : res (nd R) :=
  let! (s, itg, _) := vquad quad (con0 EPS) (con0 (wd td)) [T; nscat] (con0 true) (con0 0%R) in Ok (of_part s itg).
Definition nd_kappa (td : R) (a : list (str * (nd R -> res (nd R)))) (T : nd R) : res (nd R) :=
  let! k := nd_kappa_n td T (con0 0%R) in
  let! t := fold_left (fun acc m => let! x := acc in let! y := snd m T in u2 0%R Rplus x y) a (Ok (con0 0%R)) in
  u2 0%R Rplus k t.
End Kappa.
