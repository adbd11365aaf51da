(** C06, C07, C08, C11: [CfgParser] (src/teflow/utils.py:340-401). *)
From Coq Require Import String QArith Qround.
From Verif Require Import Py PyStr CfgModel CfgSpec CfgProofs.
Local Open Scope nat_scope.

(** ** C06 *)
(** [items] lists the sections as [ConfigParser.items()] yields them (DEFAULT first). *)
Theorem C06_pmatch_found :
  forall (C : Type) (items : list (str * C)) (section : str) (c : C) (ty : str),
  pmatch items section = Ok (c, ty) <->
  exists pre name post,
    items = pre ++ (name, c) :: post
    /\ (forall m, In m (map fst pre) -> ~ section_matches m section)
    /\ ((name = section /\ ty = name)
        \/ ((exists t, name = section ++ dot :: t) /\ after_dot name ty)).
Proof. exact (@pmatch_ok). Qed.
Print Assumptions C06_pmatch_found.

Theorem C06_pmatch_missing :
  forall (C : Type) (items : list (str * C)) (section : str) (e : exn),
  pmatch items section = Err e <->
  e = NoSectionError /\ forall m, In m (map fst items) -> ~ section_matches m section.
Proof. exact (@pmatch_err). Qed.
Print Assumptions C06_pmatch_missing.

Theorem C06_type_right_iff_undotted :
  forall section t ty : str,
  after_dot (section ++ dot :: t) ty -> (ty = t <-> ~ In dot section).
Proof. exact type_correct_iff. Qed.
Print Assumptions C06_type_right_iff_undotted.

Example C06_case :
  pmatch [(S_ "DEFAULT", 0); (S_ "band", 1); (S_ "a.b.SPB", 2); (S_ "a.b", 3)] (S_ "a.b") = Ok (2, S_ "b.SPB")
  /\ pmatch [(S_ "DEFAULT", 0); (S_ "band.SPB", 1)] (S_ "band") = Ok (1, S_ "SPB").
Proof. split; reflexivity. Qed.

(** ** C07 *)
Theorem C07_parse_list_tokens :
  forall (t : str) (ws : list str),
  parse_list t = ws <-> tokens (fun c => is_space c || Ascii.eqb c comma) t ws.
Proof. exact (split_class_iff sep_list). Qed.
Print Assumptions C07_parse_list_tokens.

(** [join s ws]: [s.join(ws)]. *)
Theorem C07_parse_list_join :
  forall (s : str) (ws : list str),
  s <> [] -> Forall (fun c => is_space c || Ascii.eqb c comma = true) s ->
  Forall (fun w => w <> [] /\ Forall (fun c => is_space c || Ascii.eqb c comma = false) w) ws ->
  parse_list (join s ws) = ws.
Proof. exact parse_list_join. Qed.
Print Assumptions C07_parse_list_join.

(** Any separators, different from place to place, and any leading or trailing ones: the text is
    [s0] followed by the items, the i-th one followed by the separators [snd p_i], which may be empty
    only behind the last item. *)
Theorem C07_parse_list_separators :
  forall (s0 : str) (ps : list (str * str)),
  let separators := Forall (fun c => is_space c = true \/ c = comma) in
  separators s0 ->
  Forall (fun p => fst p <> [] /\ Forall (fun c => is_space c = false /\ c <> comma) (fst p) /\ separators (snd p)) ps ->
  (forall a p b, ps = a ++ p :: b -> b <> [] -> snd p <> []) ->
  parse_list (s0 ++ flat_map (fun p => fst p ++ snd p) ps) = map fst ps.
Proof.
  intros s0 ps separators. set (sep := fun c => is_space c || Ascii.eqb c comma).
  assert (T : forall s, separators s -> Forall (fun c => sep c = true) s).
  { intros s H. eapply Forall_impl; [|exact H]. intros c [A|A]; unfold sep; [rewrite A; reflexivity|subst c; destruct (is_space comma); reflexivity]. }
  intros H0 H1 H2. apply C07_parse_list_tokens. apply T in H0. fold sep. revert s0 H0. induction ps as [|[w s] ps IH]; intros s0 H0.
  - cbn. rewrite app_nil_r. constructor. exact H0.
  - apply Forall_inv in H1 as Hw. apply Forall_inv_tail in H1. cbn [fst snd flat_map map] in *. destruct Hw as (Hw & Fw & Hs).
    rewrite <- app_assoc. apply tok_word.
    + exact H0.
    + exact Hw.
    + eapply Forall_impl; [|exact Fw]. intros c (A & B). unfold sep. rewrite A. destruct (Ascii.eqb_spec c comma); [contradiction|reflexivity].
    + destruct s as [|c s].
      * destruct ps as [|q ps]; [left; reflexivity|]. exfalso. apply (H2 [] (w, []) (q :: ps)); [reflexivity|discriminate|reflexivity].
      * right. exists c. eexists. split; [reflexivity|]. apply T in Hs. exact (Forall_inv Hs).
    + apply IH; [exact H1| |apply T, Hs]. intros a p b E. apply (H2 ((w, s) :: a) p b). rewrite E. reflexivity.
Qed.
Print Assumptions C07_parse_list_separators.

Example C07_case : parse_list (S_ " a, b ,,c3 ") = [S_ "a"; S_ "b"; S_ "c3"].
Proof. reflexivity. Qed.

(** ** C08 *)
Local Open Scope Q_scope.

(** 'a:b': terminates, and contributes exactly a, a+1, ... below b + 1e-4.
    [fuel] bounds the number of loop tests of the model; every fuel above [N] gives the result. *)
Theorem C08_range :
  forall (pyfloat : str -> res Q) (a b : str) (x y : Q),
  pyfloat a = Ok x -> pyfloat b = Ok y -> word a -> word b ->
  exists N : nat, forall fuel, (N < fuel)%nat ->
    exists l, parse_seq pyfloat fuel (a ++ colon :: b) = Some (Ok l) /\
    forall k : nat,
      (x + inject_Z (Z.of_nat k) < y + (1#10000) ->
         exists v, nth_error l k = Some v /\ v == x + inject_Z (Z.of_nat k))
      /\ (y + (1#10000) <= x + inject_Z (Z.of_nat k) -> nth_error l k = None).
Proof. exact parse_part_range. Qed.
Print Assumptions C08_range.

(** 'a:s:b' *)
Theorem C08_step :
  forall (pyfloat : str -> res Q) (a s b : str) (x st y : Q) (fuel : nat),
  pyfloat a = Ok x -> pyfloat s = Ok st -> pyfloat b = Ok y -> word a -> word s -> word b ->
  let text := a ++ colon :: s ++ colon :: b in
  (st == 0 -> parse_seq pyfloat fuel text = Some (Err ZeroDivisionError))
  /\ (~ st == 0 -> (y - x) / st < 0 -> parse_seq pyfloat fuel text = Some (Ok []))
  /\ (~ st == 0 -> 0 <= (y - x) / st ->
      exists l, parse_seq pyfloat fuel text = Some (Ok l)
        /\ length l = S (Z.to_nat (Qfloor ((y - x) / st + (1#10000))))
        /\ (forall k v, nth_error l k = Some v -> v == x + inject_Z (Z.of_nat k) * st)
        /\ (forall v, In v l -> (0 < st -> x <= v /\ v <= y + (1#10000) * st)
                             /\ (st < 0 -> v <= x /\ y + (1#10000) * st <= v))).
Proof.
  intros pyfloat a s b x st y fuel Hx Hs Hy Ha Hsw Hb text. unfold text.
  rewrite (parse_part_step pyfloat a s b x st y) by assumption.
  destruct (step_range_spec x st y) as (H0 & H1 & H2). split; [|split].
  - intros H; rewrite H0 by exact H; reflexivity.
  - intros Hn H; rewrite H1 by assumption; reflexivity.
  - intros Hn H. destruct (H2 Hn H) as (l & Hl & Hlen & Hk & _). exists l.
    split; [rewrite Hl; reflexivity|]. split; [exact Hlen|]. split.
    + intros k v Hv; exact (proj1 (Hk k v Hv)).
    + intros v Hv. exact (step_range_bounds _ _ _ _ _ Hl Hv).
Qed.
Print Assumptions C08_step.

(** four or more numbers *)
Theorem C08_too_many :
  forall (pyfloat : str -> res Q) (ws : list str) (fuel : nat),
  (3 < length ws)%nat -> Forall word ws ->
  parse_seq pyfloat fuel (join [colon] ws) = Some (Err ValueError).
Proof. exact parse_seq_many. Qed.
Print Assumptions C08_too_many.

(** a single number *)
Theorem C08_single :
  forall (pyfloat : str -> res Q) (a : str) (fuel : nat), word a ->
  parse_seq pyfloat fuel a = Some (match pyfloat a with Ok x => Ok [x] | Err e => Err e end).
Proof.
  intros pyfloat a fuel Ha. unfold parse_seq. rewrite seq_parts_nonsep.
  - cbn [parse_parts]. unfold parse_part.
    pose proof (inner_one [] a [] (Forall_nil _) Ha (Forall_nil _)) as E. rewrite app_nil_r in E. cbn [app] in E. rewrite E.
    destruct (pyfloat a) as [x|e]; reflexivity.
  - apply Ha.
  - destruct Ha as (_ & Ha). eapply Forall_impl; [|exact Ha]. intros c (H1 & H2 & _). unfold sep_list, ch_eq.
    rewrite H1. apply Ascii.eqb_neq in H2. rewrite H2. reflexivity.
Qed.
Print Assumptions C08_single.

(** successive parts are concatenated; each part is a text without separators that does
    not begin or end with a colon *)
Theorem C08_concat :
  forall (pyfloat : str -> res Q) (fuel : nat) (ps : list str) (rs : list (list Q)) (sp : str),
  sp <> [] -> Forall (fun c => is_space c || Ascii.eqb c comma = true) sp ->
  Forall2 (fun p r => p <> [] /\ Forall (fun c => is_space c || Ascii.eqb c comma = false) p /\
             (forall c u, p = c :: u -> c <> colon) /\ (forall c u, p = u ++ [c] -> c <> colon) /\
             parse_seq pyfloat fuel p = Some (Ok r)) ps rs ->
  parse_seq pyfloat fuel (join sp ps) = Some (Ok (concat rs)).
Proof.
  intros pyfloat fuel ps rs sp Hne Hsp H. apply parse_seq_concat; [exact Hne|exact Hsp|].
  induction H as [|p r ps rs (H1 & H2 & H3 & H4 & H5) H IH]; constructor; [|exact IH].
  repeat split; try assumption.
  unfold parse_seq in H5. rewrite seq_parts_nonsep in H5 by assumption. cbn [parse_parts] in H5.
  destruct (parse_part pyfloat fuel p) as [[l|]|]; try discriminate.
  rewrite app_nil_r in H5; exact H5.
Qed.
Print Assumptions C08_concat.

(** ** C11 *)
(** [float] rejects any text with a colon, and fails only with ValueError. *)
Theorem C11_blanks_around_colon :
  forall (pyfloat : str -> res Q) (fuel : nat),
  (forall s, In colon s -> pyfloat s = Err ValueError) ->
  (forall s e, pyfloat s = Err e -> e = ValueError) ->
  forall a ws1 ws2 b : str,
  word a -> word b -> blanks ws1 -> blanks ws2 ->
  parse_seq pyfloat fuel (a ++ ws1 ++ colon :: ws2 ++ b) =
  if ((length ws1 <=? 1) && (length ws2 <=? 1))%nat
  then parse_seq pyfloat fuel (a ++ colon :: b)
  else Some (Err ValueError).
Proof. exact seq_blanks. Qed.
Print Assumptions C11_blanks_around_colon.

Theorem C11_split_without_loose_colon :
  forall (pyfloat : str -> res Q) (fuel : nat) (t : str),
  no_loose_colon t -> parse_seq pyfloat fuel t = parse_parts pyfloat fuel (parse_list t).
Proof. intros pyfloat fuel t H. unfold parse_seq. rewrite seq_parts_plain by exact H. reflexivity. Qed.
Print Assumptions C11_split_without_loose_colon.

(** Non-vacuity: a [float] for one-digit literals. *)
Definition digit_float (s : str) : res Q :=
  match s with
  | [c] => let n := nat_of_ascii c in
           if ((48 <=? n) && (n <=? 57))%nat then Ok (inject_Z (Z.of_nat (n - 48))) else Err ValueError
  | _ => Err ValueError
  end.
Example C08_case : parse_seq digit_float 10 (S_ "7 1:3, 0:2:5") = Some (Ok [7; 1; 2; 3; 0; 2; 4]).
Proof. reflexivity. Qed.
Example C11_case :
  (forall s, In colon s -> digit_float s = Err ValueError)
  /\ (forall s e, digit_float s = Err e -> e = ValueError)
  /\ word (S_ "1") /\ blanks (S_ "  ")
  /\ parse_seq digit_float 10 (S_ "1 : 3") = Some (Ok [1; 2; 3])
  /\ parse_seq digit_float 10 (S_ "1  :3") = Some (Err ValueError).
Proof.
  assert (W : word (S_ "1")).
  { split; [discriminate|]. repeat constructor; discriminate. }
  split; [|split; [|split; [exact W|]]].
  - intros s Hs. destruct s as [|c [|d s]]; cbn in Hs; [contradiction| |reflexivity].
    destruct Hs as [->|[]]; reflexivity.
  - intros s e. unfold digit_float. destruct s as [|c [|d s]]; try congruence.
    destruct (_ && _); congruence.
  - split; [repeat constructor|]. split; reflexivity.
Qed.
