(** Model of the band classes of src/teflow/bandlib.py: [BaseBand] (121-424) and [MultiBands] (427-688).
    Simplifications: one pair (EF, T) instead of broadcast arrays; exact reals; a division by zero (numpy: inf/nan) is
    Coq's totalised division, so theorems about quotients assume the denominator non-zero; a sub-band of a [MultiBands]
    is a simple band, not another [MultiBands], and a [MultiBands] keeps the class attribute [_q_sign = 1]. *)
From Coq Require Import Reals.
From Verif Require Import Py PyStr RUtil RombModel.
Local Open Scope R_scope.

(** [q], [_S0], [_L0] (66, 156, 157) *)
Definition qe : R := 1.602176634e-19.
Definition S0 : R := 86.17333262145179.
Definition L0 : R := 0.7425843255087367.

(** The values computed by [_N], [_K_n] and, before the sign, [_CCRH] of a band (208-227).
    [r_H] is [None] where [_CCRH] returns Python's None (LinearBand, 1267-1269). *)
Record raw := { r_N : R -> R -> R; r_K : nat -> R -> R -> R; r_H : option (R -> R -> R) }.
(** [_K_n] and [_CCRH] of a band given by its spectral functions, and [_N] with [use_idos] (208-227) *)
Definition spectral (idos trs hall : R -> R -> R) : raw :=
  {| r_N := fun EF T => romb_dfx idos EF T 0 6;
     r_K := fun n EF T => romb_dfx trs EF T n 6;
     r_H := Some (fun EF T => romb_dfx hall EF T 0 6) |}.

(** the dict [_caching] (235-241) *)
Record cache := { c_EF : R; c_T : R; c_N : R; c_K : list R; c_H : option R }.

(** What the methods of [BaseBand] use of [self]; arguments may be Python's None *)
Notation arg := (option R).
Record obj := {
  o_sign : R; o_cache : option cache;
  o_N : arg -> arg -> res R; o_K : nat -> arg -> arg -> res R; o_H : arg -> arg -> res (option R) }.

(** a number where Python's None is a TypeError *)
Definition num (a : option R) : res R := match a with Some x => Ok x | None => Err TypeError end.

(** [fetch] (247-285) for the keys in use *)
Definition fetch_N (o : obj) (EF T : arg) : res R :=
  match o_cache o with Some c => Ok (c_N c) | None => o_N o EF T end.
Definition fetch_K (o : obj) (n : nat) (EF T : arg) : res R :=
  match o_cache o with Some c => py_nth (c_K c) n | None => o_K o n EF T end.
Definition fetch_H (o : obj) (EF T : arg) : res (option R) :=
  match o_cache o with Some c => Ok (c_H c) | None => o_H o EF T end.
Definition fetch_T (o : obj) (T : arg) : arg :=
  match o_cache o with Some c => Some (c_T c) | None => T end.

(** The public properties (297-387); all of them are in [cacheable] (160-165) *)
Inductive prop := PN | PK0 | PK1 | PK2 | PCCRH | PC | PCS | PS | PPF | PCL | PL | PKe | PU | PRH | PUH | PNH.
Definition method (o : obj) (p : prop) (EF T : arg) : res (option R) :=
  let K n := fetch_K o n EF T in
  let sg := o_sign o in
  match p with
  | PN => let! x := fetch_N o EF T in Ok (Some x)
  | PK0 => let! x := K 0%nat in Ok (Some x)
  | PK1 => let! x := K 1%nat in Ok (Some x)
  | PK2 => let! x := K 2%nat in Ok (Some x)
  | PCCRH => fetch_H o EF T
  | PC => let! p0 := K 0%nat in Ok (Some p0)
  | PCS => let! p1 := K 1%nat in Ok (Some (sg * 1e6 * kB * p1))
  | PS => let! p0 := K 0%nat in let! p1 := K 1%nat in Ok (Some (sg * S0 * p1 / p0))
  | PPF => let! p0 := K 0%nat in let! p1 := K 1%nat in Ok (Some (1e6 * kB * kB * (p1 ^ 2 / p0)))
  | PCL => let! p0 := K 0%nat in let! p1 := K 1%nat in let! p2 := K 2%nat in
           Ok (Some (1e2 * kB * kB * (p2 - p1 ^ 2 / p0)))
  | PL => let! p0 := K 0%nat in let! p1 := K 1%nat in let! p2 := K 2%nat in
          Ok (Some (L0 * (p2 / p0 - (p1 / p0) ^ 2)))
  | PKe => let! p0 := K 0%nat in let! p1 := K 1%nat in let! p2 := K 2%nat in
           let! pT := num (fetch_T o T) in Ok (Some (1e2 * kB * kB * (p2 - p1 ^ 2 / p0) * pT))
  | PU => let! pC := K 0%nat in let! pN := fetch_N o EF T in Ok (Some (pC / (sg * qe * pN * 1e19)))
  | PRH => let! h := fetch_H o EF T in let! p0 := K 0%nat in let! x := num h in Ok (Some (x / p0 ^ 2))
  | PUH => let! h := fetch_H o EF T in let! p0 := K 0%nat in let! x := num h in Ok (Some (x / p0))
  | PNH => let! p0 := K 0%nat in let! h := fetch_H o EF T in let! x := num h in
           Ok (Some (1e-19 * p0 ^ 2 / x / (sg * qe)))
  end.

(** [compile]: the new [_caching] (235-241); [nlev] is max_level+1, default 3 *)
Definition make_cache (o : obj) (EF T : R) (nlev : nat) : res cache :=
  let! n := o_N o (Some EF) (Some T) in
  let! ks := mapM (fun i => o_K o i (Some EF) (Some T)) (seq 0 nlev) in
  let! h := o_H o (Some EF) (Some T) in
  Ok {| c_EF := EF; c_T := T; c_N := n; c_K := ks; c_H := h |}.

(** [__getitem__] (287-295); [KOther] is any other key *)
Inductive key := KEF | KT | KProp (p : prop) | KOther.
Definition getitem (o : obj) (k : key) : res (option R) :=
  match o_cache o with
  | None => Err RuntimeError
  | Some c => match k with
              | KEF => Ok (Some (c_EF c)) | KT => Ok (Some (c_T c))
              | KProp p => method o p None None
              | KOther => Err KeyError
              end
  end.

(** ** simple bands *)
Record band := { b_raw : raw; b_sign : R; b_cache : option cache }.
Definition both (f : R -> R -> R) (EF T : arg) : res R :=
  match EF, T with Some e, Some t => Ok (f e t) | _, _ => Err TypeError end.
(** a band as [self]: [_N], [_K_n], [_CCRH] (208-227) *)
Definition self_band (b : band) : obj :=
  {| o_sign := b_sign b; o_cache := b_cache b;
     o_N := both (r_N (b_raw b)); o_K := fun n => both (r_K (b_raw b) n);
     o_H := fun EF T => match r_H (b_raw b) with
                        | None => Ok None
                        | Some f => let! x := both f EF T in Ok (Some (b_sign b * x))
                        end |}.
(** [compile] and [clear] of a simple band (229-245); such a compile cannot fail *)
Definition raw_cache (b : band) (EF T : R) (nlev : nat) : cache :=
  {| c_EF := EF; c_T := T; c_N := r_N (b_raw b) EF T;
     c_K := map (fun n => r_K (b_raw b) n EF T) (seq 0 nlev);
     c_H := match r_H (b_raw b) with None => None | Some f => Some (b_sign b * f EF T) end |}.
Definition compile_band (b : band) (EF T : R) (nlev : nat) : band :=
  {| b_raw := b_raw b; b_sign := b_sign b; b_cache := Some (raw_cache b EF T nlev) |}.
Definition clear_band (b : band) : band := {| b_raw := b_raw b; b_sign := b_sign b; b_cache := None |}.
Definition sign_band (b : band) (s : R) : band := {| b_raw := b_raw b; b_sign := s; b_cache := b_cache b |}.

(** ** the heap of band objects *)
Definition heap := nat -> band.
Definition upd (h : heap) (i : nat) (b : band) : heap := fun j => if Nat.eqb j i then b else h j.

(** ** MultiBands: [bands] and [deltas] zipped (a list of references and offsets), and its own cache *)
Record multi := { m_items : list (nat * R); m_cache : option cache }.
Definition reduced (h : heap) (EF : arg) (i : nat) (delta : R) : arg :=
  match EF with Some e => Some (-1 * b_sign (h i) * (e - delta)) | None => None end.
(** a sum over the sub-bands; [EF-delta] with EF = None is a TypeError *)
Fixpoint total (l : list (nat * R)) (f : nat -> R -> res R) : res R :=
  match l with
  | [] => Ok 0
  | (i, d) :: r => let! x := f i d in let! s := total r f in Ok (x + s)
  end.
Definition need (a : arg) {A} (k : R -> res A) : res A := match a with Some x => k x | None => Err TypeError end.
(** [_N], [_K_n], [_CCRH] (557-584) *)
Definition multi_N (h : heap) (l : list (nat * R)) (EF T : arg) : res R :=
  total l (fun i d => need (reduced h EF i d) (fun e => fetch_N (self_band (h i)) (Some e) T)).
Definition multi_K (h : heap) (l : list (nat * R)) (n : nat) (EF T : arg) : res R :=
  total l (fun i d => need (reduced h EF i d) (fun e =>
    let! x := fetch_K (self_band (h i)) n (Some e) T in Ok (b_sign (h i) ^ n * x))).
Definition multi_H (h : heap) (l : list (nat * R)) (EF T : arg) : res R :=
  total l (fun i d => need (reduced h EF i d) (fun e =>
    let! x := fetch_H (self_band (h i)) (Some e) T in num x)).
Definition self_multi (h : heap) (m : multi) : obj :=
  {| o_sign := 1; o_cache := m_cache m;
     o_N := multi_N h (m_items m); o_K := multi_K h (m_items m);
     o_H := fun EF T => let! x := multi_H h (m_items m) EF T in Ok (Some x) |}.
(** [compile] (586-600): first the sub-bands in order, then its own cache; the heap changes even when it raises *)
Definition compile_items (l : list (nat * R)) (h : heap) (EF T : R) (nlev : nat) : heap :=
  fold_left (fun g id => upd g (fst id) (compile_band (g (fst id)) (-1 * b_sign (g (fst id)) * (EF - snd id)) T nlev)) l h.
Definition compile_multi (h : heap) (m : multi) (EF T : R) (nlev : nat) : heap * res multi :=
  let g := compile_items (m_items m) h EF T nlev in
  (g, let! c := make_cache (self_multi g m) EF T nlev in Ok {| m_items := m_items m; m_cache := Some c |}).
(** [clear] (602-610) *)
Definition clear_multi (h : heap) (m : multi) : heap * multi :=
  (fold_left (fun g id => upd g (fst id) (clear_band (g (fst id)))) (m_items m) h,
   {| m_items := m_items m; m_cache := None |}).
(** [Kbip] (612-641): totals (p0_c, p1_c, p0_v, p1_v) over the conduction and valence bands *)
Fixpoint bip_totals (h : heap) (l : list (nat * R)) (EF T : arg) : res (R * R * R * R) :=
  match l with
  | [] => Ok (0, 0, 0, 0)
  | (i, d) :: r =>
      let e := match EF with None => None
               | Some x => Some (if Rlt_dec (b_sign (h i)) 0 then x - d else d - x) end in
      let! k0 := fetch_K (self_band (h i)) 0 e T in
      let! k1 := fetch_K (self_band (h i)) 1 e T in
      let! (c0, c1, v0, v1) := bip_totals h r EF T in
      if Rlt_dec (b_sign (h i)) 0 then Ok (c0 + k0, c1 - k1, v0, v1) else Ok (c0, c1, v0 + k0, v1 + k1)
  end.
Definition is_c (h : heap) (id : nat * R) : bool := if Rlt_dec (b_sign (h (fst id))) 0 then true else false.
Definition Kbip (h : heap) (m : multi) (EF T : arg) : res R :=
  let! (c0, c1, v0, v1) := bip_totals h (m_items m) EF T in
  if (existsb (is_c h) (m_items m) && existsb (fun id => negb (is_c h id)) (m_items m))%bool
  then let! pT := num (fetch_T (self_multi h m) T) in
       Ok (1e2 * kB * kB * (c1 ^ 2 / c0 + v1 ^ 2 / v0 - (c1 + v1) ^ 2 / (c0 + v0)) * pT)
  else Ok 0.

(** [dos], [trs], [hall] of a MultiBands (529-555) for one energy, from the spectral functions of the sub-bands *)
Definition multi_spectral (h : heap) (f : nat -> R -> R) (m : multi) (E : R) : R :=
  sumR (map (fun id => f (fst id) (Rmax (-1 * b_sign (h (fst id)) * (E - snd id)) 0)) (m_items m)).

(** ** building a MultiBands *)
(** [guess_btypes] (644-688) *)
Inductive btag := TC | TV | TX.
Definition tag (d : R) : btag := if Rlt_dec (Rabs d) 1e-6 then TX else if Rlt_dec 0 d then TC else TV.
Definition has (t : btag) (l : list R) : bool :=
  existsb (fun d => match t, tag d with TC, TC => true | TV, TV => true | TX, TX => true | _, _ => false end) l.
Definition letter (t : btag) : str := [match t with TC => "C"%char | TV => "V"%char | TX => "X"%char end].
Definition guess_btypes (deltas : list R) : res (list str) :=
  match has TC deltas, has TV deltas, has TX deltas with
  | false, false, true | true, true, true => Err ValueError
  | true, false, true => Ok (repeat (letter TC) (length deltas))
  | false, true, true => Ok (repeat (letter TV) (length deltas))
  | _, _, _ => Ok (map (fun d => letter (tag d)) deltas)
  end.
(** a delta as given by the caller: a number, a text or object that float() accepts although it is not a number, or neither *)
Inductive delta_in := DNum (d : R) | DText (d : R) | DBad.
Definition as_float (d : delta_in) : res R :=
  match d with DNum x | DText x => Ok x | DBad => Err ValueError end.
(** the deltas as numbers for [abs(delta)] in [guess_btypes]: anything else is a TypeError *)
Definition as_num (d : delta_in) : res R := match d with DNum x => Ok x | _ => Err TypeError end.
(** [append] (467-503): a band reference ([None]: not a BaseBand), a delta and an optional type name *)
Definition append (h : heap) (l : list (nat * R)) (b : option nat) (d : delta_in) (t : option str) : heap * res (list (nat * R)) :=
  match b with
  | None => (h, Err ValueError)
  | Some i =>
    match as_float d with
    | Err e => (h, Err e)
    | Ok x =>
      match (match t with Some s => Ok s | None => let! g := guess_btypes [x] in py_nth g 0 end) with
      | Err e => (h, Err e)
      | Ok [] => (h, Err IndexError)
      | Ok (c :: _) =>
          if (ch_eq c "v" || ch_eq c "V")%bool then (upd h i (sign_band (h i) 1), Ok (l ++ [(i, x)]))
          else if (ch_eq c "c" || ch_eq c "C")%bool then (upd h i (sign_band (h i) (-1)), Ok (l ++ [(i, x)]))
          else (h, Err ValueError)
      end
    end
  end.
Fixpoint append_all (h : heap) (l : list (nat * R)) (todo : list (option nat * delta_in * option str)) : heap * res (list (nat * R)) :=
  match todo with
  | [] => (h, Ok l)
  | (b, d, t) :: r => match append h l b d t with
                      | (g, Ok l') => append_all g l' r
                      | (g, Err e) => (g, Err e)
                      end
  end.
(** Python's [zip] of three sequences *)
Fixpoint zip3 {A B C} (a : list A) (b : list B) (c : list C) : list (A * B * C) :=
  match a, b, c with x :: a', y :: b', z :: c' => (x, y, z) :: zip3 a' b' c' | _, _, _ => [] end.
(** [__init__] (435-465); [btypes] is a sequence of type names or None (a text is the sequence of its letters) *)
Definition new_multi (h : heap) (bands : list (option nat)) (deltas : list delta_in) (btypes : option (list (option str)))
  : heap * res multi :=
  if negb (Nat.eqb (length bands) (length deltas)) then (h, Err ValueError) else
  match (match btypes with
         | None => let! ds := mapM as_num deltas in let! g := guess_btypes ds in Ok (map Some g)
         | Some [t] => Ok (repeat t (length bands))
         | Some ts => Ok ts
         end) with
  | Err e => (h, Err e)
  | Ok ts => let (g, r) := append_all h [] (zip3 bands deltas ts) in
             (g, let! l := r in Ok {| m_items := l; m_cache := None |})
  end.
(** [extend] (505-518) with another MultiBands *)
Definition extend_step (h : heap) (l : list (nat * R)) (id : nat * R) : heap * res (list (nat * R)) :=
  append h l (Some (fst id)) (DNum (snd id)) (Some (if Rlt_dec 0 (b_sign (h (fst id))) then letter TV else letter TC)).
Fixpoint extend_list (h : heap) (l other : list (nat * R)) : heap * res (list (nat * R)) :=
  match other with
  | [] => (h, Ok l)
  | id :: r => match extend_step h l id with (g, Ok l') => extend_list g l' r | (g, Err e) => (g, Err e) end
  end.
Definition extend (h : heap) (m other : multi) : heap * res multi :=
  let (g, r) := extend_list h (m_items m) (m_items other) in
  (g, let! l := r in Ok {| m_items := l; m_cache := m_cache m |}).
(** [m.extend(m)]: the loop reads item [pos] of the very list it appends to; [fuel] iterations, [None] = still running *)
Fixpoint extend_self (fuel : nat) (h : heap) (l : list (nat * R)) (pos : nat) : option (heap * res (list (nat * R))) :=
  match fuel with
  | O => None
  | S k => match nth_error l pos with
           | None => Some (h, Ok l)
           | Some id => match extend_step h l id with
                        | (g, Ok l') => extend_self k g l' (S pos)
                        | (g, Err e) => Some (g, Err e)
                        end
           end
  end.

(** ** solve_EF (389-424) for one value and temperature: [root] is scipy.optimize.root_scalar with the caller's options,
    returning (root, converged) or raising whatever the residual raises *)
Section Solve.
Variable root : (R -> res R) -> res (R * bool).
Definition residual (o : obj) (p : prop) (value T x : R) : res R :=
  let! a := method o p (Some (x * kB * T)) (Some T) in let! y := num a in Ok (y - value).
(** [None] is nan *)
Definition solve_EF (o : obj) (p : prop) (value T : R) : res (option R) :=
  let! (x, converged) := root (residual o p value T) in
  Ok (if converged then Some (x * kB * T) else None).
End Solve.
