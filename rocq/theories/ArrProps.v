(** * C120-C123: broadcasting quadrature, interpolation methods and shapes, arrays in configuration files *)
From Coq Require Import ZArith Reals String Ascii Permutation Sorted Lia Lra.
From Verif Require Import Py PyStr RUtil CfgModel CfgSpec InstrSpec InstrProofs SubsModel Regex InterpModel InterpSpec InterpProofs InterpProps TxtModel CliModel CmdModel TxtSpec CliSpec RunSpec TxtProofs TxtProps CliProps CmdProps RunProps ArrModel ArrSpec ArrProofs.
Local Open Scope list_scope.
Local Open Scope nat_scope.

(** ** C120 vquad *)
Theorem C120_shape : forall ts s, broadcast_shape ts = Ok s <-> common ts s.
Proof. exact broadcast_common. Qed.
Print Assumptions C120_shape.
(** dimension by dimension, counted from the last one *)
Theorem C120_dimensions : forall ts s, broadcast_shape ts = Ok s ->
  List.length s = fold_right Nat.max 0 (map (@List.length nat) ts)
  /\ forall k n, nth_error (rev s) k = Some n ->
       (forall t d, In t ts -> nth_error (rev t) k = Some d -> d = 1 \/ d = n) /\ (n = 1 \/ exists t, In t ts /\ nth_error (rev t) k = Some n).
Proof.
  intros ts s H.
  assert (G : forall ts r0 r, bc_all r0 ts = Ok r -> List.length r = Nat.max (List.length r0) (fold_right Nat.max 0 (map (@List.length nat) ts))
    /\ forall k n, nth_error r k = Some n -> (forall d, nth_error r0 k = Some d -> d = 1 \/ d = n) /\ (forall t d, In t ts -> nth_error (rev t) k = Some d -> d = 1 \/ d = n)
         /\ (n = 1 \/ nth_error r0 k = Some n \/ exists t, In t ts /\ nth_error (rev t) k = Some n)).
  { clear. 
    assert (B : forall s t r, bc_rev s t = Ok r -> List.length r = Nat.max (List.length s) (List.length t)
      /\ forall k n, nth_error r k = Some n -> (forall d, nth_error s k = Some d -> d = 1 \/ d = n) /\ (forall d, nth_error t k = Some d -> d = 1 \/ d = n) /\ (nth_error s k = Some n \/ nth_error t k = Some n)).
    { induction s as [|a s IH]; intros [|b t] r; cbn [bc_rev].
      - intros [= <-]. split; [reflexivity|]. intros [|k] n; discriminate.
      - intros [= <-]. split; [reflexivity|]. intros k n E. split; [intros d; destruct k; discriminate|]. split; [intros d E'; right; congruence|]. right; exact E.
      - intros [= <-]. split; [cbn; lia|]. intros k n E. split; [intros d E'; right; congruence|]. split; [intros d; destruct k; discriminate|]. left; exact E.
      - destruct (bc_rev s t) as [q|] eqn:Q; cbv beta iota delta [rbind]; [|discriminate]. destruct (IH _ _ Q) as (L & D).
        assert (T : forall m, (m = a \/ m = b) -> (a = 1 \/ a = m) -> (b = 1 \/ b = m) -> Ok (m :: q) = Ok r -> List.length r = Nat.max (List.length (a :: s)) (List.length (b :: t))
          /\ forall k n, nth_error r k = Some n -> (forall d, nth_error (a :: s) k = Some d -> d = 1 \/ d = n) /\ (forall d, nth_error (b :: t) k = Some d -> d = 1 \/ d = n) /\ (nth_error (a :: s) k = Some n \/ nth_error (b :: t) k = Some n)).
        { intros m M1 M2 M3 [= <-]. split; [cbn [List.length]; rewrite L; lia|]. intros [|k] n E; cbn in *; [|exact (D k n E)]. injection E as <-.
          split; [intros d [= <-]; exact M2|]. split; [intros d [= <-]; exact M3|]. destruct M1; subst; auto. }
        destruct (Nat.eqb_spec a b); [|destruct (Nat.eqb_spec a 1); [|destruct (Nat.eqb_spec b 1); [|discriminate]]].
        + apply T; auto.
        + apply T; auto.
        + apply T; auto. }
    induction ts as [|t ts IH]; intros r0 r; cbn [bc_all].
    - intros [= <-]. split; [cbn; lia|]. intros k n E. split; [intros d E'; right; congruence|]. split; [intros t d []|]. right; left; exact E.
    - destruct (bc_rev r0 (rev t)) as [q|] eqn:Q; cbv beta iota delta [rbind]; [|discriminate]. intros H. destruct (IH _ _ H) as (L & D). destruct (B _ _ _ Q) as (L' & D').
      split; [cbn [map fold_right]; rewrite L, L', rev_length; lia|]. intros k n E. destruct (D k n E) as (D1 & D2 & D3).
      assert (Z : forall d, nth_error q k = Some d -> d = 1 \/ d = n) by exact D1.
      assert (len : forall d, nth_error r0 k = Some d \/ nth_error (rev t) k = Some d -> exists m, nth_error q k = Some m).
      { intros d Hd. destruct (nth_error q k) as [m|] eqn:Em; [exists m; reflexivity|]. exfalso. apply nth_error_None in Em. destruct Hd as [Hd|Hd]; apply (f_equal (fun o => match o with Some _ => true | None => false end)) in Hd;
          (destruct (nth_error r0 k) eqn:E1 || idtac); [apply nth_error_Some in E1 as Hx || idtac|..]; try discriminate; try (apply nth_error_None in E1; rewrite L' in Em); try lia.
        - assert (nth_error r0 k <> None) as Hx by (rewrite E1; discriminate). apply nth_error_Some in Hx. lia.
        - destruct (nth_error (rev t) k) eqn:E2; [|discriminate]. assert (nth_error (rev t) k <> None) as Hx by (rewrite E2; discriminate). apply nth_error_Some in Hx. lia.
        - destruct (nth_error (rev t) k) eqn:E2; [|discriminate]. assert (nth_error (rev t) k <> None) as Hx by (rewrite E2; discriminate). apply nth_error_Some in Hx. lia. }
      split; [|split].
      + intros d Hd. destruct (len d (or_introl Hd)) as (m & Hm). destruct (D' k m Hm) as (X & _ & _). destruct (X d Hd) as [->| ->]; [left; reflexivity|]. exact (Z m Hm).
      + intros t' d [<-|Ht'] Hd; [|exact (D2 t' d Ht' Hd)]. destruct (len d (or_intror Hd)) as (m & Hm). destruct (D' k m Hm) as (_ & X & _). destruct (X d Hd) as [->| ->]; [left; reflexivity|]. exact (Z m Hm).
      + destruct D3 as [->|[D3|(t' & Ht' & E')]]; [left; reflexivity| |right; right; exists t'; split; [right; exact Ht'|exact E']].
        destruct (D' k n D3) as (_ & _ & [X|X]); [right; left; exact X|]. right; right. exists t. split; [left; reflexivity|exact X]. }
  unfold broadcast_shape in H. destruct (bc_all [] ts) as [r|] eqn:E; cbv beta iota delta [rbind] in H; [|discriminate]. injection H as <-. destruct (G _ _ _ E) as (L & D).
  split; [rewrite rev_length, L; reflexivity|]. intros k n. rewrite rev_involutive. intros Hk. destruct (D k n Hk) as (_ & D2 & [D3|[D3|D3]]); (split; [exact D2|]).
  - left; exact D3.
  - destruct k; discriminate.
  - right; exact D3.
Qed.
Print Assumptions C120_dimensions.

Section Vquad.
Variable quad : R -> R -> list R -> res (R * R).
Variables (a b fill : nd R) (whr : nd bool) (args : list (nd R)).
(** the operands at one position of the result *)
Definition sees_all (i : list nat) (xa xb : R) (xs : list R) (m : bool) (f : R) : Prop :=
  sees a i xa /\ sees b i xb /\ Forall2 (fun A x => sees A i x) args xs /\ sees whr i m /\ sees fill i f.
Definition operand_shapes : list (list nat) := shape a :: shape b :: shape whr :: shape fill :: map (@shape R) args.
Definition operands_ok : Prop := array a /\ array b /\ array whr /\ array fill /\ Forall (@array R) args.
(** the model's operands at one position *)
Let at_ i (A : nd R) := bc_get 0%R A i.
Let out i : res (R * R) := if bc_get false whr i then quad (at_ i a) (at_ i b) (map (at_ i) args) else Ok (at_ i fill, 0%R).
Lemma sees_all_at s i : operands_ok -> common operand_shapes s -> index s i -> sees_all i (at_ i a) (at_ i b) (map (at_ i) args) (bc_get false whr i) (at_ i fill).
Proof.
  clear out. intros (Ha & Hb & Hw & Hf & Hargs) (F & _) I. unfold operand_shapes in F.
  apply Forall_inv in F as F1; apply Forall_inv_tail in F. apply Forall_inv in F as F2; apply Forall_inv_tail in F. apply Forall_inv in F as F3; apply Forall_inv_tail in F. apply Forall_inv in F as F4; apply Forall_inv_tail in F.
  split; [eapply bc_get_sees; eassumption|]. split; [eapply bc_get_sees; eassumption|]. split; [|split; eapply bc_get_sees; eassumption].
  rewrite Forall_map in F. clear - F Hargs I. induction args as [|A l IH]; [constructor|]. cbn. constructor; [eapply bc_get_sees; [exact (Forall_inv Hargs)|exact (Forall_inv F)|exact I]|].
  apply IH; [exact (Forall_inv_tail Hargs)|exact (Forall_inv_tail F)].
Qed.
Lemma sees_all_fun i xa xb xs m f xa' xb' xs' m' f' : sees_all i xa xb xs m f -> sees_all i xa' xb' xs' m' f' -> xa = xa' /\ xb = xb' /\ xs = xs' /\ m = m' /\ f = f'.
Proof.
  clear at_ out. intros (A & B & Cc & D & E) (A' & B' & C' & D' & E'). split; [eapply sees_fun; eassumption|]. split; [eapply sees_fun; eassumption|]. split; [|split; eapply sees_fun; eassumption].
  revert xs' C'. clear - Cc. induction Cc as [|X x l l' H F IH]; intros xs' C'; inversion C' as [|X' x' k k' H' F']; subst; [reflexivity|]. f_equal; [eapply sees_fun; eassumption|apply IH, F'].
Qed.
Lemma quads_ok s g : forall ks itg err, (forall k, In k ks -> out (unravel s k) = Ok (g (unravel s k))) ->
  exists itg' err', quads quad a b fill whr args s (map (fun k => (unravel s k, k)) ks) itg err = Ok (itg', err')
  /\ (forall i, In i (map (unravel s) ks) -> itg' i = Some (fst (g i)) /\ err' i = Some (snd (g i)))
  /\ (forall i, ~ In i (map (unravel s) ks) -> itg' i = itg i /\ err' i = err i).
Proof.
  induction ks as [|k ks IH]; intros itg err H; cbn [quads map].
  - exists itg, err. split; [reflexivity|]. split; [intros i []|]. intros; split; reflexivity.
  - assert (E := H k (or_introl eq_refl)). unfold out, at_ in E.
    assert (Step : forall v e, g (unravel s k) = (v, e) -> exists itg' err',
      quads quad a b fill whr args s (map (fun k => (unravel s k, k)) ks) (assign itg (unravel s k) v) (assign err (unravel s k) e) = Ok (itg', err')
      /\ (forall i, In i (map (unravel s) (k :: ks)) -> itg' i = Some (fst (g i)) /\ err' i = Some (snd (g i)))
      /\ (forall i, ~ In i (map (unravel s) (k :: ks)) -> itg' i = itg i /\ err' i = err i)).
    { intros v e G. destruct (IH (assign itg (unravel s k) v) (assign err (unravel s k) e)) as (itg' & err' & Q & P1 & P2); [intros k' Hk'; apply H; right; exact Hk'|].
      exists itg', err'. split; [exact Q|]. split.
      - intros i Hi. destruct (in_dec (list_eq_dec Nat.eq_dec) i (map (unravel s) ks)) as [Y|N]; [apply P1, Y|]. destruct Hi as [<-|Hi]; [|contradiction].
        destruct (P2 _ N) as (-> & ->). unfold assign, idx_eqb. destruct (list_eq_dec Nat.eq_dec (unravel s k) (unravel s k)); [|contradiction]. rewrite G. split; reflexivity.
      - intros i Hi. cbn [map In] in Hi. destruct (P2 i) as (-> & ->); [tauto|]. unfold assign, idx_eqb. destruct (list_eq_dec Nat.eq_dec i (unravel s k)) as [->|]; [tauto|]. split; reflexivity. }
    cbv zeta. destruct (bc_get false whr (unravel s k)).
    + rewrite E. destruct (g (unravel s k)) as [v e] eqn:G. cbv beta iota delta [rbind]. exact (Step v e eq_refl).
    + injection E as E. apply Step. symmetry. exact E.
Qed.
Lemma quads_err s e : forall ks1 k ks2 itg err, (forall k, In k ks1 -> exists v, out (unravel s k) = Ok v) -> out (unravel s k) = Err e ->
  quads quad a b fill whr args s (map (fun k => (unravel s k, k)) (ks1 ++ k :: ks2)) itg err = Err e.
Proof.
  induction ks1 as [|k1 ks1 IH]; intros k ks2 itg err H E; cbn [app map quads]; cbv zeta.
  - unfold out, at_ in E. destruct (bc_get false whr (unravel s k)); [|discriminate]. rewrite E. reflexivity.
  - destruct (H k1 (or_introl eq_refl)) as ((v & x) & E1). unfold out, at_ in E1.
    assert (T : forall itg err, quads quad a b fill whr args s (map (fun k => (unravel s k, k)) (ks1 ++ k :: ks2)) itg err = Err e) by (intros; apply IH; [intros k' Hk'; apply H; right; exact Hk'|exact E]).
    destruct (bc_get false whr (unravel s k1)); [rewrite E1; cbv beta iota delta [rbind]|]; apply T.
Qed.

(** every unmasked position gets value and error of the quadrature of its own operands, every masked one the fill value and 0 *)
Theorem C120_result : forall s, operands_ok -> common operand_shapes s ->
  (forall i, index s i -> exists xa xb xs m f, sees_all i xa xb xs m f)
  /\ ((forall i xa xb xs f, index s i -> sees_all i xa xb xs true f -> exists v e, quad xa xb xs = Ok (v, e)) ->
      exists itg err, vquad quad a b args whr fill = Ok (s, itg, err)
      /\ forall i xa xb xs m f, index s i -> sees_all i xa xb xs m f ->
         if m then exists v e, quad xa xb xs = Ok (v, e) /\ itg i = Some v /\ err i = Some e else itg i = Some f /\ err i = Some 0%R).
Proof.
  intros s Hok Hc. split; [intros i Hi; do 5 eexists; exact (sees_all_at s i Hok Hc Hi)|]. intros H.
  set (g := fun i => match out i with Ok v => v | Err _ => (0%R, 0%R) end).
  assert (O : forall i, index s i -> out i = Ok (g i)).
  { intros i Hi. pose proof (sees_all_at s i Hok Hc Hi) as Sa. unfold g, out in *. destruct (bc_get false whr i); [|reflexivity].
    destruct (H i _ _ _ _ Hi Sa) as (v & e & ->). reflexivity. }
  apply broadcast_common in Hc as Hs. unfold vquad. fold operand_shapes. rewrite Hs. cbv beta iota delta [rbind]. rewrite visited.
  destruct (quads_ok s g (seq 0 (size s)) (fun _ => None) (fun _ => None)) as (itg & err & Q & P & _).
  { intros k Hk. apply in_seq in Hk. apply O, unravel_index. lia. }
  rewrite Q. exists itg, err. split; [reflexivity|]. intros i xa xb xs m f Hi Hs1. pose proof (sees_all_at s i Hok Hc Hi) as Sa.
  destruct (sees_all_fun _ _ _ _ _ _ _ _ _ _ _ Hs1 Sa) as (-> & -> & -> & -> & ->). clear Hs1.
  destruct (P i) as (P1 & P2).
  { rewrite <- (unravel_place s i Hi). apply in_map, in_seq. pose proof (place_lt s i Hi). lia. }
  rewrite P1, P2. pose proof (O i Hi) as Oi. unfold out in Oi. destruct (bc_get false whr i).
  - exists (fst (g i)), (snd (g i)). rewrite Oi. destruct (g i). auto.
  - injection Oi as <-. auto.
Qed.
(** the first unmasked position, the last coordinate running fastest, at which the quadrature fails decides *)
Theorem C120_failure : forall s i xa xb xs f e, operands_ok -> common operand_shapes s -> index s i -> sees_all i xa xb xs true f -> quad xa xb xs = Err e ->
  (forall j ya yb ys g, index s j -> before j i -> sees_all j ya yb ys true g -> exists v, quad ya yb ys = Ok v) ->
  vquad quad a b args whr fill = Err e.
Proof.
  intros s i xa xb xs f e Hok Hc Hi Hs1 E Hb. pose proof (sees_all_at s i Hok Hc Hi) as Sa.
  destruct (sees_all_fun _ _ _ _ _ _ _ _ _ _ _ Hs1 Sa) as (-> & -> & -> & M & ->). clear Hs1.
  apply broadcast_common in Hc as Hs. unfold vquad. fold operand_shapes. rewrite Hs. cbv beta iota delta [rbind]. rewrite visited.
  pose proof (place_lt s i Hi) as L. replace (size s) with (place s i + S (size s - place s i - 1)) by lia. rewrite seq_app. cbn [seq].
  rewrite (quads_err s e); [reflexivity| |].
  - intros k Hk. apply in_seq in Hk. destruct (unravel_index s k) as (I & P); [lia|]. pose proof (sees_all_at s _ Hok Hc I) as Sj. unfold out.
    destruct (bc_get false whr (unravel s k)) eqn:W; [|eexists; reflexivity]. eapply Hb; [exact I| |exact Sj]. apply (place_before s); [exact I|exact Hi|lia].
  - rewrite Nat.add_0_l, (unravel_place s i Hi). unfold out. rewrite <- M. exact E.
Qed.
Theorem C120_incompatible : (forall s, ~ Forall (fun t => fits t s) operand_shapes) -> vquad quad a b args whr fill = Err ValueError.
Proof. intros H. unfold vquad. fold operand_shapes. apply broadcast_none in H. rewrite H. reflexivity. Qed.
(** the integrand is not touched at masked positions *)
Theorem C120_masked : forall quad' s, operands_ok -> common operand_shapes s ->
  (forall i xa xb xs f, index s i -> sees_all i xa xb xs true f -> quad xa xb xs = quad' xa xb xs) ->
  vquad quad a b args whr fill = vquad quad' a b args whr fill.
Proof.
  intros quad' s Hok Hc H. apply broadcast_common in Hc as Hs. unfold vquad. fold operand_shapes. rewrite Hs. cbv beta iota delta [rbind]. rewrite visited.
  assert (T : forall ks itg err, (forall k, In k ks -> k < size s) -> quads quad a b fill whr args s (map (fun k => (unravel s k, k)) ks) itg err = quads quad' a b fill whr args s (map (fun k => (unravel s k, k)) ks) itg err).
  { induction ks as [|k ks IH]; intros itg err Hk; [reflexivity|]. cbn [map quads]. cbv zeta. destruct (unravel_index s k (Hk k (or_introl eq_refl))) as (I & _).
    pose proof (sees_all_at s _ Hok Hc I) as Sj. unfold at_ in Sj. destruct (bc_get false whr (unravel s k)).
    - rewrite (H _ _ _ _ _ I Sj). destruct (quad' _ _ _) as [[v e]|]; [|reflexivity]. cbv beta iota delta [rbind]. apply IH. intros k' Hk'; apply Hk; right; exact Hk'.
    - apply IH. intros k' Hk'; apply Hk; right; exact Hk'. }
  rewrite T; [reflexivity|]. intros k Hk. apply in_seq in Hk. lia.
Qed.
End Vquad.
Print Assumptions C120_result.
Print Assumptions C120_failure.
Print Assumptions C120_incompatible.
Print Assumptions C120_masked.

(** ** C121 interpolation methods; vinterp on arrays *)
Lemma last_digit_ok m d : last_digit m = Ok d <-> d <= 9 /\ exists q, m = q ++ [ascii_of_nat (48 + d)].
Proof.
  unfold last_digit. split.
  - destruct (rev m) as [|c r] eqn:E; [discriminate|]. destruct (digit c) as [n|] eqn:D; [|discriminate]. intros [= <-]. apply digit_iff in D as (L & ->). split; [exact L|]. exists (rev r).
    apply (f_equal (@rev ascii)) in E. rewrite rev_involutive in E. exact E.
  - intros (L & q & ->). rewrite rev_app_distr. cbn [rev app]. rewrite (proj2 (digit_iff (ascii_of_nat (48 + d)) d) (conj L eq_refl)). reflexivity.
Qed.
Lemma last_digit_err m : m <> [] -> (forall d, last_digit m <> Ok d) -> last_digit m = Err ValueError.
Proof.
  unfold last_digit. intros N H. destruct (rev m) as [|c r] eqn:E; [destruct N; apply (f_equal (@rev ascii)) in E; rewrite rev_involutive in E; exact E|]. destruct (digit c) as [n|]; [exfalso; exact (H n eq_refl)|reflexivity].
Qed.
Lemma eqb_str (a b : str) : eqb a b = true <-> a = b. Proof. apply eqb_eq. Qed.
(** the tests exclude each other *)
Lemma choose_sel m r : selects m r -> choose m = Ok r.
Proof.
  destruct 1 as [| | | | |m H|m H|m q d H E L]; try reflexivity; unfold choose; cbv zeta.
  - unfold in_any_case in H. rewrite folded_lower in H. rewrite H.
    destruct (eqb m (S_ "linear")) eqn:E; [apply eqb_str in E; subst m; discriminate H|]. destruct (eqb m (S_ "line")) eqn:E1; [apply eqb_str in E1; subst m; discriminate H|].
    change (startswith (S_ "akima") (S_ "poly")) with false. cbv iota.
    destruct (eqb m (S_ "cubic")) eqn:E2; [apply eqb_str in E2; subst m; discriminate H|]. destruct (eqb m (S_ "pchip")) eqn:E3; [apply eqb_str in E3; subst m; discriminate H|]. reflexivity.
  - unfold in_any_case in H. rewrite folded_lower in H. rewrite H.
    destruct (eqb m (S_ "linear")) eqn:E; [apply eqb_str in E; subst m; discriminate H|]. destruct (eqb m (S_ "line")) eqn:E1; [apply eqb_str in E1; subst m; discriminate H|].
    change (startswith (S_ "gpr") (S_ "poly")) with false. cbv iota.
    destruct (eqb m (S_ "cubic")) eqn:E2; [apply eqb_str in E2; subst m; discriminate H|]. destruct (eqb m (S_ "pchip")) eqn:E3; [apply eqb_str in E3; subst m; discriminate H|].
    destruct (eqb m (S_ "spline")) eqn:E4; [apply eqb_str in E4; subst m; discriminate H|]. reflexivity.
  - apply begins_startswith in H as B. rewrite B.
    destruct (eqb m (S_ "linear")) eqn:E0; [apply eqb_str in E0; rewrite E0 in B; discriminate B|]. destruct (eqb m (S_ "line")) eqn:E1; [apply eqb_str in E1; rewrite E1 in B; discriminate B|].
    rewrite (proj2 (last_digit_ok m d)); [reflexivity|]. split; [exact L|exists q; exact E].
Qed.
Theorem C121_methods : forall m r, choose m = Ok r <-> selects m r.
Proof.
  intros m r. split; [|apply choose_sel]. unfold choose; cbv zeta.
  destruct (eqb m (S_ "linear")) eqn:E0; [apply eqb_str in E0; subst m; intros [= <-]; constructor|]. destruct (eqb m (S_ "line")) eqn:E1; [apply eqb_str in E1; subst m; intros [= <-]; constructor|].
  destruct (startswith (map lower m) (S_ "poly")) eqn:B.
  { destruct (last_digit m) as [d|] eqn:D; cbv beta iota delta [rbind]; [|discriminate]. intros [= <-]. apply last_digit_ok in D as (L & q & ->). apply begins_startswith in B. eapply sel_poly; [exact B|reflexivity|exact L]. }
  destruct (eqb m (S_ "cubic")) eqn:E2; [apply eqb_str in E2; subst m; intros [= <-]; constructor|]. destruct (eqb m (S_ "pchip")) eqn:E3; [apply eqb_str in E3; subst m; intros [= <-]; constructor|].
  destruct (eqb (map lower m) (S_ "akima")) eqn:E4; [intros [= <-]; apply sel_akima; apply eqb_str in E4; unfold in_any_case; rewrite folded_lower; exact E4|].
  destruct (eqb m (S_ "spline")) eqn:E5; [apply eqb_str in E5; subst m; intros [= <-]; constructor|].
  destruct (eqb (map lower m) (S_ "gpr")) eqn:E6; [intros [= <-]; apply sel_gpr; apply eqb_str in E6; unfold in_any_case; rewrite folded_lower; exact E6|]. discriminate.
Qed.
Print Assumptions C121_methods.
Theorem C121_unknown : forall m, (forall r, ~ selects m r) -> choose m = Err ValueError.
Proof.
  intros m H. assert (N : forall r, choose m <> Ok r) by (intros r E; apply (H r), C121_methods, E). unfold choose in *; cbv zeta in *.
  repeat match goal with |- context [if ?b then Ok _ else _] => destruct b; [exfalso; eapply N; reflexivity|] end.
  destruct (startswith (map lower m) (S_ "poly")) eqn:B.
  { rewrite last_digit_err; [reflexivity| |]; [intros ->; discriminate B|]. intros d E. rewrite E in N. eapply N; reflexivity. }
  repeat match goal with |- context [if ?b then Ok _ else _] => destruct b; [exfalso; eapply N; reflexivity|] end. reflexivity.
Qed.
Print Assumptions C121_unknown.
(** only the last character is read as the degree *)
Theorem C121_degree : forall p q d, begins_with p (S_ "poly") -> d <= 9 -> choose (p ++ q ++ [ascii_of_nat (48 + d)]) = Ok (Poly d).
Proof.
  intros p q d (x & E) L. apply C121_methods. apply (sel_poly _ (p ++ q)); [|rewrite app_assoc; reflexivity|exact L]. exists (x ++ folded (q ++ [ascii_of_nat (48 + d)])). unfold folded in *. rewrite map_app, E, <- app_assoc. reflexivity.
Qed.
Print Assumptions C121_degree.
Example C121_methods_case : choose (S_ "poly2") = Ok (Poly 2) /\ choose (S_ "poly10") = Ok (Poly 0) /\ choose (S_ "POLY12") = Ok (Poly 2) /\ choose (S_ "polynomial") = Err ValueError
  /\ choose (S_ "Akima") = Ok Akima /\ choose (S_ "Linear") = Err ValueError /\ choose (S_ "GPR") = Ok Gpr.
Proof. repeat split; reflexivity. Qed.

Lemma vals_some v : vals (map Some v) = v.
Proof. unfold vals. rewrite map_map, map_id. reflexivity. Qed.
Lemma finite_some v : all_finite (map Some v).
Proof. intros o H. apply in_map_iff in H as (x & <- & _). discriminate. Qed.
Lemma pieces_map {A B} (f : A -> B) n : forall m l, pieces n m (map f l) = map (map f) (pieces n m l).
Proof. induction m as [|m IH]; intros l; [reflexivity|]. cbn [pieces map]. rewrite firstn_map, skipn_map, IH. reflexivity. Qed.
Lemma mapM_id_err {A} (l1 : list (res A)) e l2 : Forall (fun r => exists v, r = Ok v) l1 -> mapM (fun r => r) (l1 ++ Err e :: l2) = Err e.
Proof. induction 1 as [|r l (v & ->) F IH]; [reflexivity|]. cbn [app mapM]. cbv beta iota delta [rbind]. rewrite IH. reflexivity. Qed.

Section Arrays.
Variable run : routine -> bool -> list R -> list R -> list R -> res (list R).
Variables (x y xp x' y' : nd (option R)) (method : str) (n : nat) (lead : list nat) (xv yv pv : list R).
Let sc := match shape xp with [] => true | _ => false end.
(** the arrays of numbers x, y and xp; without their axes of length 1, x has the axis n, and y the axes lead and n *)
Definition vinterp_data : Prop :=
  array x /\ array y /\ array xp /\ bare x x' /\ bare y y' /\ shape x' = [n] /\ shape y' = lead ++ [n] /\ numbers (flat x') xv /\ numbers (flat y') yv /\ numbers (flat xp) pv.
Let yrows := pieces n (size lead) yv.
Let F idx row := interp_vect run method sc (take 0%R xv idx) (take 0%R row idx) pv.
Lemma nd_rows (Hd : vinterp_data) : exists idx, Permutation idx (seq 0 n) /\ StronglySorted Rle (take 0%R xv idx)
  /\ vinterp_nd run x y xp method true = match yrows with [] => Err ValueError | _ => let! outs := mapM (fun r => r) (map (F idx) yrows) in Ok (Nd (lead ++ shape xp) (List.concat outs)) end.
Proof.
  destruct Hd as (Hx & Hy & Hp & Bx & By & Sx & Sy & Nx & Ny & Np). rewrite (bare_squeeze _ _ Hx Bx) in Sx, Nx. rewrite (bare_squeeze _ _ Hy By) in Sy, Ny. clear Bx By.
  destruct (squeeze_bare x Hx) as (_ & Ax & _). destruct (squeeze_bare y Hy) as (_ & Ay & _). unfold array in Ax, Ay. rewrite <- size_count, Sx, Nx, map_length in Ax. rewrite <- size_count, Sy, Ny, map_length, size_app in Ay. cbn [size] in Ax, Ay.
  assert (Lx : List.length xv = n) by lia. assert (Ly : List.length yv = size lead * n) by nia.
  destruct (C18_sorted_data _ (interp_vect run method sc) (map Some xv) (map (map Some) yrows) (map Some pv)) as (idx & P & S & E).
  - intros r Hr. apply in_map_iff in Hr as (q & <- & Hq). rewrite !map_length, Lx. apply In_nth_error in Hq as (p & Hq). destruct (pieces_spec n (size lead) yv Ly) as (_ & G). exact (proj1 (G p q Hq)).
  - apply finite_some.
  - intros r Hr. apply in_map_iff in Hr as (q & <- & _). apply finite_some.
  - apply finite_some.
  - exists idx. rewrite map_length, Lx in P. rewrite vals_some in S, E. split; [exact P|]. split; [exact S|].
    unfold vinterp_nd. cbv zeta. rewrite Sx, Sy, rev_app_distr. cbn [rev app]. rewrite Nat.eqb_refl. cbn [negb]. rewrite rev_involutive. rewrite Nx, Ny, Np, pieces_map. fold yrows. fold sc. rewrite E, map_map. cbv beta iota delta [rbind].
    assert (Q : map (fun z => interp_vect run method sc (take 0%R xv idx) (take 0%R (vals (map Some z)) idx) (vals (map Some pv))) yrows = map (F idx) yrows) by (apply map_ext; intros z; rewrite !vals_some; reflexivity).
    rewrite Q. destruct yrows; reflexivity.
Qed.
Lemma nd_rows_sorted (Hd : vinterp_data) reorder : StronglySorted Rle xv ->
  vinterp_nd run x y xp method reorder = match yrows with [] => Err ValueError | _ => let! outs := mapM (fun r => r) (map (F (seq 0 n)) yrows) in Ok (Nd (lead ++ shape xp) (List.concat outs)) end.
Proof.
  intros S. destruct Hd as (Hx & Hy & Hp & Bx & By & Sx & Sy & Nx & Ny & Np). rewrite (bare_squeeze _ _ Hx Bx) in Sx, Nx. rewrite (bare_squeeze _ _ Hy By) in Sy, Ny. clear Bx By.
  destruct (squeeze_bare x Hx) as (_ & Ax & _). destruct (squeeze_bare y Hy) as (_ & Ay & _). unfold array in Ax, Ay. rewrite <- size_count, Sx, Nx, map_length in Ax. rewrite <- size_count, Sy, Ny, map_length, size_app in Ay. cbn [size] in Ax, Ay.
  assert (Lx : List.length xv = n) by lia. assert (Ly : List.length yv = size lead * n) by nia.
  assert (Rl : forall q, In q yrows -> List.length q = n) by (intros q Hq; apply In_nth_error in Hq as (p & Hq); destruct (pieces_spec n (size lead) yv Ly) as (_ & G); exact (proj1 (G p q Hq))).
  assert (E : vinterp (interp_vect run method sc) (map Some xv) (map (map Some) yrows) (map Some pv) reorder = Ok (map (F (seq 0 n)) yrows)).
  { unfold vinterp.
    rewrite (proj2 (rows_ok_iff _ _)); [|intros r Hr; apply in_map_iff in Hr as (q & <- & Hq); rewrite !map_length, Lx; apply Rl, Hq]. cbn [negb].
    rewrite !(proj2 (finite_all_iff _) (finite_some _)). assert (Q : forallb finite_all (map (map Some) yrows) = true) by (apply forallb_forall; intros r Hr; apply in_map_iff in Hr as (q & <- & _); apply finite_all_iff, finite_some).
    rewrite Q. cbn [andb negb]. rewrite !vals_some. destruct (any_decrease xv) eqn:Ed.
    - exfalso. clear - S Ed. induction S as [|a l S IH Fa]; [discriminate|]. destruct l as [|b l]; [discriminate|]. cbn [any_decrease] in Ed. apply Forall_inv in Fa. destruct (Rlt_dec b a); [lra|]. exact (IH Ed).
    - rewrite !map_map. f_equal. apply map_ext_in. intros q Hq. unfold F. rewrite vals_some. rewrite <- Lx at 1. rewrite take_seq. rewrite <- (Rl q Hq). rewrite take_seq. reflexivity. }
  unfold vinterp_nd. cbv zeta. rewrite Sx, Sy, rev_app_distr. cbn [rev app]. rewrite Nat.eqb_refl. cbn [negb]. rewrite rev_involutive. rewrite Nx, Ny, Np, pieces_map. fold yrows. fold sc. rewrite E. cbv beta iota delta [rbind].
  destruct yrows; reflexivity.
Qed.
Lemma yrows_len (Hd : vinterp_data) : List.length xv = n /\ List.length yv = size lead * n /\ List.length yrows = size lead.
Proof.
  destruct Hd as (Hx & Hy & Hp & (_ & Ax & _) & (_ & Ay & _) & Sx & Sy & Nx & Ny & Np). unfold array in Ax, Ay. rewrite <- size_count, Sx, Nx, map_length in Ax. rewrite <- size_count, Sy, Ny, map_length, size_app in Ay. cbn [size] in Ax, Ay.
  assert (Ly : List.length yv = size lead * n) by nia. split; [lia|]. split; [exact Ly|]. exact (proj1 (pieces_spec n (size lead) yv Ly)).
Qed.
Lemma yrows_row (Hd : vinterp_data) i row : row_of y' lead n i (map Some row) -> index lead i /\ nth_error yrows (place lead i) = Some row.
Proof.
  intros (_ & I & L & E). split; [exact I|]. destruct (yrows_len Hd) as (Lx & Ly & Lr). destruct (pieces_spec n (size lead) yv Ly) as (_ & G). fold yrows in G.
  destruct (nth_error yrows (place lead i)) as [q|] eqn:Q; [|apply nth_error_None in Q; apply place_lt in I; lia]. destruct (G _ _ Q) as (Lq & Gq). f_equal. apply nth_error_ext. intros k.
  rewrite map_length in L. destruct (Nat.lt_ge_cases k n) as [K|K]; [|rewrite !(proj2 (nth_error_None _ _)) by lia; reflexivity].
  rewrite (Gq k K). destruct (nth_error row k) as [v|] eqn:Ev; [|apply nth_error_None in Ev; lia].
  destruct (E k (Some v)) as (I' & E'); [rewrite nth_error_map, Ev; reflexivity|]. destruct Hd as (Hx & Hy & Hp & _ & _ & Sx & Sy & Nx & Ny & Np). rewrite Sy in E'. rewrite place_app in E' by (try reflexivity; eapply index_length; exact I).
  replace (place [n] [k]) with k in E' by reflexivity. cbn [size] in E'. rewrite Nat.mul_1_r in E'. rewrite Ny, nth_error_map in E'. destruct (nth_error yv (place lead i * n + k)); [injection E' as ->; reflexivity|discriminate].
Qed.
Lemma yrows_ex (Hd : vinterp_data) p row : nth_error yrows p = Some row -> p < size lead /\ row_of y' lead n (unravel lead p) (map Some row).
Proof.
  intros Q. destruct (yrows_len Hd) as (Lx & Ly & Lr). destruct (pieces_spec n (size lead) yv Ly) as (_ & G). fold yrows in G. destruct (G _ _ Q) as (Lq & Gq).
  assert (P : p < size lead) by (rewrite <- Lr; apply nth_error_Some; rewrite Q; discriminate). split; [exact P|]. destruct (unravel_index lead p P) as (I & Pp). destruct Hd as (Hx & Hy & Hp & _ & _ & Sx & Sy & Nx & Ny & Np).
  split; [exact Sy|]. split; [exact I|]. split; [rewrite map_length; exact Lq|]. intros k v Ek. rewrite nth_error_map in Ek. destruct (nth_error row k) as [w|] eqn:Ew; [|discriminate]. injection Ek as <-.
  assert (K : k < n) by (rewrite <- Lq; apply nth_error_Some; rewrite Ew; discriminate). split.
  - rewrite Sy. apply index_app; [exact I|]. constructor; [exact K|constructor].
  - rewrite Sy, place_app by (try reflexivity; eapply index_length; exact I). rewrite Pp. replace (place [n] [k]) with k by reflexivity. cbn [size]. rewrite Nat.mul_1_r, Ny, nth_error_map, <- (Gq k K), Ew. reflexivity.
Qed.
Lemma results (Hd : vinterp_data) (f : list R -> list R * list R) r :
  selects method r -> 0 < count lead -> (forall s a b c o, run r s a b c = Ok o -> List.length o = List.length c) ->
  (forall i row, row_of y' lead n i (map Some row) -> exists o, run r sc (fst (f row)) (snd (f row)) pv = Ok o) ->
  exists Z, match yrows with [] => Err ValueError | _ => let! outs := mapM (fun r => r) (map (fun row => interp_vect run method sc (fst (f row)) (snd (f row)) pv) yrows) in Ok (Nd (lead ++ shape xp) (List.concat outs)) end = Ok Z
  /\ array Z /\ shape Z = lead ++ shape xp
  /\ forall i j row, row_of y' lead n i (map Some row) -> index (shape xp) j -> exists o v, run r sc (fst (f row)) (snd (f row)) pv = Ok o /\ nth_error o (place (shape xp) j) = Some v /\ elem Z (i ++ j) v.
Proof.
  intros Hs Hc Hl Hr. destruct (yrows_len Hd) as (Lx & Ly & Lr). assert (Lp : List.length pv = size (shape xp)).
  { destruct Hd as (_ & _ & Hp & _ & _ & _ & _ & _ & _ & Np). unfold array in Hp. rewrite <- size_count, Np, map_length in Hp. exact Hp. }
  rewrite <- size_count in Hc.
  assert (O : exists outs, Forall2 (fun row o => run r sc (fst (f row)) (snd (f row)) pv = Ok o) yrows outs).
  { assert (A : forall row, In row yrows -> exists o, run r sc (fst (f row)) (snd (f row)) pv = Ok o) by (intros row Hrow; apply In_nth_error in Hrow as (p & Q); destruct (yrows_ex Hd p row Q) as (_ & W); exact (Hr _ _ W)).
    clear - A. induction yrows as [|row l IH]; [exists []; constructor|]. destruct (A row (or_introl eq_refl)) as (o & E). destruct IH as (os & G); [intros q Hq; apply A; right; exact Hq|]. exists (o :: os). constructor; assumption. }
  destruct O as (outs & O). exists (Nd (lead ++ shape xp) (List.concat outs)).
  assert (M : mapM (fun r => r) (map (fun row => interp_vect run method sc (fst (f row)) (snd (f row)) pv) yrows) = Ok outs).
  { apply mapM_forall2. apply C121_methods in Hs. unfold interp_vect. rewrite Hs. clear - O. induction O; cbn; constructor; assumption. }
  assert (Lo : Forall (fun o => List.length o = size (shape xp)) outs) by (rewrite <- Lp; clear - O Hl; induction O; constructor; eauto).
  assert (L2 : List.length outs = size lead) by (rewrite <- Lr; clear - O; induction O; cbn; congruence).
  split; [|split; [|split; [reflexivity|]]].
  - rewrite M. destruct yrows; [cbn in Lr; lia|reflexivity].
  - unfold array. cbn [shape flat]. rewrite <- size_count, size_app, (concat_length _ _ Lo), L2. reflexivity.
  - intros i j row Hrow J. destruct (yrows_row Hd i row Hrow) as (I & Q).
    assert (W : exists o, nth_error outs (place lead i) = Some o /\ run r sc (fst (f row)) (snd (f row)) pv = Ok o).
    { clear - O Q. revert Q. generalize (place lead i). intros p. revert p. induction O as [|a b l l' H F' IH]; intros [|p] Q; try discriminate; cbn in *; [injection Q as ->; exists b; auto|exact (IH p Q)]. }
    destruct W as (o & Wo & Ro). exists o. apply place_lt in J as Lj. destruct (nth_error o (place (shape xp) j)) as [v|] eqn:V.
    + exists v. split; [exact Ro|]. split; [reflexivity|]. split; [apply index_app; assumption|]. cbn [shape flat]. rewrite place_app by (eapply index_length; eassumption). rewrite (concat_nth _ _ _ o _ Lo Wo Lj). exact V.
    + exfalso. apply nth_error_None in V. rewrite (Hl _ _ _ _ _ Ro) in V. lia.
Qed.

(** with reordering: every element of the result is what the routine gives for the row, rearranged together with x *)
Theorem C121_result : forall r, vinterp_data -> selects method r -> 0 < count lead ->
  (forall s a b c o, run r s a b c = Ok o -> List.length o = List.length c) ->
  (forall i row x2 y2, row_of y' lead n i (map Some row) -> by_x xv row x2 y2 -> exists o, run r (match shape xp with [] => true | _ => false end) x2 y2 pv = Ok o) ->
  exists Z, vinterp_nd run x y xp method true = Ok Z /\ array Z /\ shape Z = lead ++ shape xp
  /\ forall i j row, row_of y' lead n i (map Some row) -> index (shape xp) j ->
       exists x2 y2 o v, by_x xv row x2 y2 /\ run r (match shape xp with [] => true | _ => false end) x2 y2 pv = Ok o /\ nth_error o (place (shape xp) j) = Some v /\ elem Z (i ++ j) v.
Proof.
  fold sc. intros r Hd Hs Hc Hl Hr. destruct (nd_rows Hd) as (idx & P & S & E). rewrite E. destruct (yrows_len Hd) as (Lx & _).
  assert (B : forall row, by_x xv row (take 0%R xv idx) (take 0%R row idx)) by (intros row; exists idx; rewrite Lx; auto).
  destruct (results Hd (fun row => (take 0%R xv idx, take 0%R row idx)) r Hs Hc Hl) as (Z & EZ & AZ & SZ & GZ); [intros i row W; eapply Hr; [exact W|apply B]|].
  exists Z. split; [exact EZ|]. split; [exact AZ|]. split; [exact SZ|]. intros i j row W J. destruct (GZ i j row W J) as (o & v & G1 & G2 & G3). do 4 eexists. split; [apply B|]. split; [exact G1|]. split; [exact G2|exact G3].
Qed.
(** x in increasing order: the rows reach the routine as they are, whether reordering is switched on or not *)
Theorem C121_in_order : forall r reorder, vinterp_data -> selects method r -> 0 < count lead -> StronglySorted Rle xv ->
  (forall s a b c o, run r s a b c = Ok o -> List.length o = List.length c) ->
  (forall i row, row_of y' lead n i (map Some row) -> exists o, run r (match shape xp with [] => true | _ => false end) xv row pv = Ok o) ->
  exists Z, vinterp_nd run x y xp method reorder = Ok Z /\ array Z /\ shape Z = lead ++ shape xp
  /\ forall i j row, row_of y' lead n i (map Some row) -> index (shape xp) j ->
       exists o v, run r (match shape xp with [] => true | _ => false end) xv row pv = Ok o /\ nth_error o (place (shape xp) j) = Some v /\ elem Z (i ++ j) v.
Proof.
  fold sc. intros r reorder Hd Hs Hc S Hl Hr. rewrite (nd_rows_sorted Hd reorder S). destruct (yrows_len Hd) as (Lx & Ly & Lr).
  destruct (results Hd (fun row => (xv, row)) r Hs Hc Hl Hr) as (Z & EZ & AZ & SZ & GZ). exists Z. split; [|split; [exact AZ|split; [exact SZ|exact GZ]]].
  rewrite <- EZ. cbn [fst snd]. assert (Q : map (F (seq 0 n)) yrows = map (fun row => interp_vect run method sc xv row pv) yrows); [|rewrite Q; reflexivity].
  apply map_ext_in. intros q Hq. unfold F. rewrite <- Lx at 1. rewrite take_seq. apply In_nth_error in Hq as (p & Hq). destruct (pieces_spec n (size lead) yv Ly) as (_ & G). rewrite <- (proj1 (G p q Hq)), take_seq. reflexivity.
Qed.
Lemma yrows_empty (Hd : vinterp_data) : count lead = 0 -> yrows = [].
Proof. intros H. destruct (yrows_len Hd) as (_ & _ & L). rewrite <- size_count in H. rewrite H in L. destruct yrows; [reflexivity|discriminate]. Qed.
Lemma nd_decrease (Hd : vinterp_data) : any_decrease xv = true -> vinterp_nd run x y xp method false = Err ValueError.
Proof.
  intros D. destruct Hd as (Hx & Hy & Hp & Bx & By & Sx & Sy & Nx & Ny & Np). rewrite (bare_squeeze _ _ Hx Bx) in Sx, Nx. rewrite (bare_squeeze _ _ Hy By) in Sy, Ny. clear Bx By.
  unfold vinterp_nd. cbv zeta. rewrite Sx, Sy, rev_app_distr. cbn [rev app]. rewrite Nat.eqb_refl. cbn [negb]. rewrite rev_involutive. rewrite Nx, Ny, Np.
  assert (E : vinterp (interp_vect run method sc) (map Some xv) (pieces n (size lead) (map Some yv)) (map Some pv) false = Err ValueError).
  { apply C18_errors. right; right. split; [reflexivity|]. apply any_decrease_iff in D. rewrite map_length, vals_some. exact D. }
  fold sc. rewrite E. reflexivity.
Qed.
(** unknown method; no row at all *)
Theorem C121_no_result : forall reorder, vinterp_data -> count lead = 0 \/ (forall r, ~ selects method r) -> vinterp_nd run x y xp method reorder = Err ValueError.
Proof.
  intros reorder Hd H. assert (G : forall idx, match yrows with [] => Err ValueError | _ => let! outs := mapM (fun r => r) (map (F idx) yrows) in Ok (Nd (lead ++ shape xp) (List.concat outs)) end = Err ValueError).
  { intros idx. destruct H as [H|H]; [rewrite (yrows_empty Hd H); reflexivity|]. apply C121_unknown in H. destruct yrows as [|q l]; [reflexivity|]. cbn [map mapM]. unfold F at 1, interp_vect. rewrite H. reflexivity. }
  destruct reorder; [destruct (nd_rows Hd) as (idx & P & S & E); rewrite E; apply G|].
  destruct (any_decrease xv) eqn:D; [apply nd_decrease; assumption|]. apply any_decrease_nondecr in D. rewrite (nd_rows_sorted Hd false D). apply G.
Qed.
Lemma fails (Hd : vinterp_data) (f : list R -> list R * list R) r i row e : selects method r -> row_of y' lead n i (map Some row) -> run r sc (fst (f row)) (snd (f row)) pv = Err e ->
  (forall j q, before j i -> row_of y' lead n j (map Some q) -> exists o, run r sc (fst (f q)) (snd (f q)) pv = Ok o) ->
  match yrows with [] => Err ValueError | _ => let! outs := mapM (fun r => r) (map (fun row => interp_vect run method sc (fst (f row)) (snd (f row)) pv) yrows) in Ok (Nd (lead ++ shape xp) (List.concat outs)) end = Err e.
Proof.
  intros Hs W E Hb. destruct (yrows_len Hd) as (Lx & Ly & Lr). destruct (yrows_row Hd i row W) as (I & Q).
  apply C121_methods in Hs. apply nth_error_split in Q as (l1 & l2 & El & L1). rewrite El, map_app. cbn [map]. unfold interp_vect at 2. rewrite Hs. cbv beta iota delta [rbind]. rewrite E.
  rewrite mapM_id_err; [destruct l1; reflexivity|]. apply Forall_forall. intros z Hz. apply in_map_iff in Hz as (q & <- & Hq). apply In_nth_error in Hq as (p & Hp).
  assert (Pl : p < place lead i) by (rewrite <- L1; apply nth_error_Some; rewrite Hp; discriminate).
  destruct (yrows_ex Hd p q) as (P & Wq); [rewrite El, nth_error_app1 by lia; exact Hp|]. unfold interp_vect. rewrite Hs. cbv beta iota delta [rbind].
  apply (Hb (unravel lead p)); [|exact Wq]. apply (place_before lead); [apply unravel_index, P|exact I|]. rewrite (proj2 (unravel_index lead p P)). exact Pl.
Qed.
(** the first row, the last coordinate running fastest, on which the routine fails decides *)
Theorem C121_failure : forall r i row e, vinterp_data -> selects method r -> row_of y' lead n i (map Some row) ->
  (forall x2 y2, by_x xv row x2 y2 -> run r (match shape xp with [] => true | _ => false end) x2 y2 pv = Err e) ->
  (forall j q x2 y2, before j i -> row_of y' lead n j (map Some q) -> by_x xv q x2 y2 -> exists o, run r (match shape xp with [] => true | _ => false end) x2 y2 pv = Ok o) ->
  vinterp_nd run x y xp method true = Err e.
Proof.
  fold sc. intros r i row e Hd Hs W E Hb. destruct (nd_rows Hd) as (idx & P & S & En). rewrite En. destruct (yrows_len Hd) as (Lx & _).
  assert (B : forall row, by_x xv row (take 0%R xv idx) (take 0%R row idx)) by (intros q; exists idx; rewrite Lx; auto).
  apply (fails Hd (fun row => (take 0%R xv idx, take 0%R row idx)) r i row e Hs W); cbn [fst snd]; [apply E, B|]. intros j q Bj Wq. eapply Hb; [exact Bj|exact Wq|apply B].
Qed.
Theorem C121_failure_in_order : forall r reorder i row e, vinterp_data -> selects method r -> StronglySorted Rle xv ->
  row_of y' lead n i (map Some row) -> run r (match shape xp with [] => true | _ => false end) xv row pv = Err e ->
  (forall j q, before j i -> row_of y' lead n j (map Some q) -> exists o, run r (match shape xp with [] => true | _ => false end) xv q pv = Ok o) ->
  vinterp_nd run x y xp method reorder = Err e.
Proof.
  fold sc. intros r reorder i row e Hd Hs S W E Hb. rewrite (nd_rows_sorted Hd reorder S). destruct (yrows_len Hd) as (Lx & Ly & Lr).
  etransitivity; [|exact (fails Hd (fun row => (xv, row)) r i row e Hs W E Hb)]. cbn [fst snd].
  assert (Q : map (F (seq 0 n)) yrows = map (fun row => interp_vect run method sc xv row pv) yrows); [|rewrite Q; reflexivity].
  apply map_ext_in. intros q Hq. unfold F. rewrite <- Lx at 1. rewrite take_seq. apply In_nth_error in Hq as (p & Hq). destruct (pieces_spec n (size lead) yv Ly) as (_ & G). rewrite <- (proj1 (G p q Hq)), take_seq. reflexivity.
Qed.
End Arrays.
Print Assumptions C121_result.
Print Assumptions C121_in_order.
Print Assumptions C121_no_result.
Print Assumptions C121_failure.
Print Assumptions C121_failure_in_order.
(** refused data *)
Theorem C121_refused : forall run (x y xp x' y' : nd (option R)) method reorder, array x -> array y -> bare x x' -> bare y y' ->
  ((forall n, shape x' <> [n]) -> vinterp_nd run x y xp method reorder = Err ValueError)
  /\ (forall n, shape x' = [n] ->
      (shape y' = [] -> vinterp_nd run x y xp method reorder = Err IndexError)
      /\ (forall lead m, shape y' = lead ++ [m] ->
           (m <> n -> vinterp_nd run x y xp method reorder = Err ValueError)
           /\ (In None (flat x) \/ In None (flat xp) \/ In None (flat y) -> vinterp_nd run x y xp method reorder = Err ValueError)
           /\ (forall k a b, reorder = false -> nth_error (flat x') k = Some (Some a) -> nth_error (flat x') (S k) = Some (Some b) -> (b < a)%R -> vinterp_nd run x y xp method reorder = Err ValueError))).
Proof.
  intros run x y xp x' y' method reorder Hx Hy Bx By. rewrite (bare_squeeze _ _ Hx Bx). rewrite (bare_squeeze _ _ Hy By). clear x' y' Bx By. unfold vinterp_nd. cbv zeta. split.
  - intros H. destruct (shape (squeeze x)) as [|n [|? ?]]; try reflexivity. destruct (H n eq_refl).
  - intros n Sx. rewrite Sx. split; [intros ->; reflexivity|]. intros lead m Sy. rewrite Sy, rev_app_distr. cbn [rev app]. rewrite rev_involutive. destruct (Nat.eqb_spec m n) as [->|N]; cbn [negb]; [|repeat split; reflexivity].
    split; [congruence|].
    destruct (squeeze_bare x Hx) as (_ & Ax & _). destruct (squeeze_bare y Hy) as (_ & Ay & _). unfold array in Ax, Ay. rewrite <- size_count, Sx in Ax. rewrite <- size_count, Sy, size_app in Ay. cbn [size] in Ax, Ay.
    assert (Ly : List.length (flat (squeeze y)) = size lead * n) by nia. destruct (pieces_spec n (size lead) _ Ly) as (Lr & G).
    set (sc := match shape xp with [] => true | _ => false end).
    assert (T : forall e, vinterp (interp_vect run method sc) (flat (squeeze x)) (pieces n (size lead) (flat (squeeze y))) (flat xp) reorder = Err e ->
      match vinterp (interp_vect run method sc) (flat (squeeze x)) (pieces n (size lead) (flat (squeeze y))) (flat xp) reorder with Ok a => match a with [] => Err ValueError | _ => let! outs := mapM (fun r => r) a in Ok (Nd (lead ++ shape xp) (List.concat outs)) end | Err e => Err e end = Err e).
    { intros e ->. reflexivity. }
    split.
    + intros H. apply T. apply C18_errors. right; left. intros (A & B & C'). destruct H as [H|[H|H]]; [exact (A None H eq_refl)|exact (C' None H eq_refl)|].
      apply In_nth_error in H as (k & Hk). assert (K : k < size lead * n) by (rewrite <- Ly; apply nth_error_Some; cbn [squeeze flat]; rewrite Hk; discriminate).
      assert (n <> 0) by lia. pose proof (Nat.div_mod k n H). pose proof (Nat.mod_upper_bound k n H).
      assert (D : k / n < size lead) by (apply Nat.div_lt_upper_bound; lia).
      destruct (nth_error (pieces n (size lead) (flat (squeeze y))) (k / n)) as [r|] eqn:Er; [|apply nth_error_None in Er; lia]. destruct (G _ _ Er) as (_ & Gr). specialize (Gr (k mod n) H1).
      apply (B r (nth_error_In _ _ Er) None); [|reflexivity]. apply (nth_error_In r (k mod n)). rewrite Gr. replace (k / n * n + k mod n) with k by lia. exact Hk.
    + intros k a b -> Ea Eb L. apply T. apply C18_errors. right; right. split; [reflexivity|]. exists k. split; [apply nth_error_Some; rewrite Eb; discriminate|].
      unfold vals. assert (Q : forall k v, nth_error (flat (squeeze x)) k = Some (Some v) -> nth k (map (fun o : option R => match o with Some v => v | None => 0%R end) (flat (squeeze x))) 0%R = v).
      { intros k' v E'. apply nth_error_nth. rewrite nth_error_map, E'. reflexivity. }
      rewrite (Q _ _ Ea), (Q _ _ Eb). exact L.
Qed.
Print Assumptions C121_refused.
(** every array has exactly one form without axes of length 1 *)
Theorem C121_squeezed : forall (X : Type) (A : nd X), array A -> exists B, bare A B /\ forall B', bare A B' -> B' = B.
Proof. intros X A HA. exists (squeeze A). split; [apply squeeze_bare, HA|]. intros B' HB. apply bare_squeeze; assumption. Qed.
Print Assumptions C121_squeezed.
(** column vectors of nodes, points in a table, one row: the routine sees the rows in the order of x *)
Example C121_case : let x := Nd [2; 1] [Some 2; Some 1]%R in let y := Nd [1; 2] [Some 20; Some 10]%R in let xp := Nd [2; 1] [Some 1; Some 2]%R in
  vinterp_data x y xp (Nd [2] (flat x)) (Nd [2] (flat y)) 2 [] [2; 1]%R [20; 10]%R [1; 2]%R
  /\ vinterp_nd (fun _ _ a b c => Ok b) x y xp (S_ "line") true = Ok (Nd [2; 1] [10; 20]%R)
  /\ vinterp_nd (fun _ _ a b c => Ok b) (Nd [1] [Some 2%R]) (Nd [1] [Some 2%R]) xp (S_ "line") true = Err ValueError
  /\ vinterp_nd (fun _ _ a b c => Ok b) x (Nd [1] [Some 2%R]) xp (S_ "line") true = Err IndexError.
Proof.
  cbv zeta. split; [|split].
  - split; [reflexivity|]. split; [reflexivity|]. split; [reflexivity|]. split; [exact (squeeze_bare (Nd [2; 1] [Some 2; Some 1]%R) eq_refl)|]. split; [exact (squeeze_bare (Nd [1; 2] [Some 20; Some 10]%R) eq_refl)|]. repeat split; reflexivity.
  - unfold vinterp_nd, vinterp, interp_vect, argsort. cbn -[Rlt_dec]. destruct (Rlt_dec 1 2); [|lra]. cbn -[Rlt_dec]. destruct (Rlt_dec 1 2); [|lra]. reflexivity.
  - split; reflexivity.
Qed.

(** ** C122 interpx on arrays *)
(** beyond the first (last) node on a side without a value of its own *)
Definition beyond (x : list R) (left right : option R) (t : R) : Prop :=
  (left = None /\ exists a r, x = a :: r /\ (t < a)%R) \/ (right = None /\ exists r a, x = r ++ [a] /\ (a < t)%R).
Lemma first_combine (x y : list R) : List.length x = List.length y -> x <> [] -> exists r, x = fst (first_pt (combine x y)) :: r.
Proof. destruct x as [|a x], y as [|b y]; try discriminate; try congruence. intros _ _. exists x. reflexivity. Qed.
Lemma last_combine (x y : list R) : List.length x = List.length y -> x <> [] -> exists r, x = r ++ [fst (last_pt (combine x y))].
Proof.
  intros L N. destruct (exists_last N) as (r & a & E). exists r. etransitivity; [exact E|]. f_equal. f_equal. unfold last_pt. replace (List.length (combine x y)) with (List.length x) by (rewrite combine_length; lia).
  replace (fst (nth (List.length x - 1) (combine x y) (0, 0)%R)) with (nth (List.length x - 1) x 0%R) by (rewrite combine_nth by exact L; reflexivity).
  rewrite E, app_length. cbn [List.length]. rewrite app_nth2 by lia. replace (List.length r + 1 - 1 - List.length r) with 0 by lia. reflexivity.
Qed.
Lemma outside_iff (x y xp : list R) left right : List.length x = List.length y -> x <> [] ->
  (existsb (fun t => match left with None => if Rlt_dec t (fst (first_pt (combine x y))) then true else false | Some _ => false end) xp
   || existsb (fun t => match right with None => if Rlt_dec (fst (last_pt (combine x y))) t then true else false | Some _ => false end) xp)%bool = true <-> exists t, In t xp /\ beyond x left right t.
Proof.
  intros L N. rewrite orb_true_iff, !existsb_exists. destruct (first_combine x y L N) as (r1 & E1). destruct (last_combine x y L N) as (r2 & E2). split.
  - intros [(t & Ht & D)|(t & Ht & D)]; exists t; (split; [exact Ht|]).
    + left. destruct left; [discriminate|]. split; [reflexivity|]. do 2 eexists. split; [exact E1|]. destruct (Rlt_dec t (fst (first_pt (combine x y)))); [assumption|discriminate].
    + right. destruct right; [discriminate|]. split; [reflexivity|]. do 2 eexists. split; [exact E2|]. destruct (Rlt_dec (fst (last_pt (combine x y))) t); [assumption|discriminate].
  - intros (t & Ht & [(-> & a & r & E & Lt)|(-> & r & a & E & Lt)]); [left|right]; exists t; (split; [exact Ht|]).
    + rewrite E1 in E. injection E as <- _. destruct (Rlt_dec t (fst (first_pt (combine x y)))); [reflexivity|contradiction].
    + rewrite E2 in E. apply app_inj_tail in E as (_ & <-). destruct (Rlt_dec (fst (last_pt (combine x y))) t); [reflexivity|contradiction].
Qed.
Lemma interpx_nd_eq (x y xp x' y' : nd R) n left right : array x -> array y -> bare x x' -> bare y y' -> shape x' = [n] -> shape y' = [n] -> 2 <= n ->
  List.length (flat x') = n /\ List.length (flat y') = n /\
  interpx_nd x y xp left right = let! v := interpx_vect left right (match shape xp with [] => true | _ => false end) (flat x') (flat y') (flat xp) in Ok (Nd (shape xp) v).
Proof.
  intros Hx Hy Bx By Sx Sy N. assert (A1 := proj1 (proj2 Bx)). assert (A1' := proj1 (proj2 By)).
  unfold array in A1, A1'. rewrite <- size_count, Sx in A1. rewrite <- size_count, Sy in A1'. cbn [size] in A1, A1'. split; [lia|]. split; [lia|].
  rewrite (bare_squeeze _ _ Hx Bx) in Sx |- *. rewrite (bare_squeeze _ _ Hy By) in Sy |- *. unfold interpx_nd. cbv zeta. rewrite Sx, Sy. replace (n <? 2) with false by (symmetry; apply Nat.ltb_ge; exact N). reflexivity.
Qed.
(** at every point the chord of its interval, its extension, or the value of that side; the shape is that of the points *)
Theorem C122_result : forall (x y xp x' y' : nd R) n left right, array x -> array y -> array xp -> bare x x' -> bare y y' -> shape x' = [n] -> shape y' = [n] -> 2 <= n ->
  incr (combine (flat x') (flat y')) ->
  shape xp <> [] \/ (forall t, In t (flat xp) -> ~ beyond (flat x') left right t) ->
  exists Z, interpx_nd x y xp left right = Ok Z /\ array Z /\ shape Z = shape xp
  /\ forall j t, elem xp j t -> exists v, elem Z j v
     /\ (forall pre p q post, combine (flat x') (flat y') = pre ++ p :: q :: post -> (fst p <= t <= fst q)%R -> v = chord p q t)
     /\ (forall p q r, combine (flat x') (flat y') = p :: q :: r -> (t < fst p)%R -> v = match left with None => chord p q t | Some w => w end)
     /\ (forall pre p q, combine (flat x') (flat y') = pre ++ [p; q] -> (fst q < t)%R -> v = match right with None => chord p q t | Some w => w end).
Proof.
  intros x y xp x' y' n left right Hx Hy Hp Bx By Sx Sy N Hi Ho. destruct (interpx_nd_eq x y xp x' y' n left right Hx Hy Bx By Sx Sy N) as (L1 & L2 & E). rewrite E. clear E.
  set (l := combine (flat x') (flat y')) in *. assert (Ll : List.length l = n) by (unfold l; rewrite combine_length, L1, L2; lia).
  exists (Nd (shape xp) (map (interpx l left right) (flat xp))). split; [|split; [|split; [reflexivity|]]].
  - unfold interpx_vect. rewrite L1, L2, Nat.eqb_refl. cbn [negb]. cbv zeta. fold l. destruct l as [|p0 l0] eqn:El; [cbn in Ll; lia|]. rewrite <- El in *. clear El.
    match goal with |- context [?o && (n <? 2)] => set (out := o) end. replace (n <? 2) with false by (symmetry; apply Nat.ltb_ge; exact N). rewrite andb_false_r.
    destruct out eqn:O; [|reflexivity]. unfold out in O. apply outside_iff in O; [|congruence|intros Q; rewrite Q in L1; cbn in L1; lia]. destruct O as (t & Ht & B).
    destruct Ho as [Ho|Ho]; [|destruct (Ho t Ht B)]. destruct (shape xp); [congruence|reflexivity].
  - unfold array in *. cbn [shape flat]. rewrite map_length. exact Hp.
  - intros j t (J & Et). exists (interpx l left right t). split; [split; [exact J|cbn [shape flat]; rewrite nth_error_map, Et; reflexivity]|]. split; [|apply C17_outside, Hi].
    intros pre p q post El Ht. destruct (C17_inside l left right Hi) as (_ & G); [lia|]. exact (proj1 (G _ _ _ _ _ El Ht)).
Qed.
Print Assumptions C122_result.
(** a single number cannot be extrapolated *)
Theorem C122_single : forall (x y xp x' y' : nd R) n left right t, array x -> array y -> bare x x' -> bare y y' -> shape x' = [n] -> shape y' = [n] -> 2 <= n ->
  shape xp = [] -> flat xp = [t] -> beyond (flat x') left right t -> interpx_nd x y xp left right = Err TypeError.
Proof.
  intros x y xp x' y' n left right t Hx Hy Bx By Sx Sy N Sp Fp B. destruct (interpx_nd_eq x y xp x' y' n left right Hx Hy Bx By Sx Sy N) as (L1 & L2 & E). rewrite E. clear E.
  unfold interpx_vect. rewrite L1, L2, Nat.eqb_refl. cbn [negb]. cbv zeta. rewrite (proj2 (outside_iff (flat x') (flat y') (flat xp) left right ltac:(congruence) ltac:(intros Q; rewrite Q in L1; cbn in L1; lia))); [|exists t; split; [rewrite Fp; left; reflexivity|exact B]].
  replace (n <? 2) with false by (symmetry; apply Nat.ltb_ge; exact N). rewrite Sp. destruct (combine (flat x') (flat y')) eqn:El; [|reflexivity].
  apply (f_equal (@List.length _)) in El. rewrite combine_length, L1, L2 in El. cbn in El. lia.
Qed.
Print Assumptions C122_single.
Theorem C122_refused : forall (x y xp x' y' : nd R) left right, array x -> array y -> bare x x' -> bare y y' ->
  (forall n, 2 <= n -> ~ (shape x' = [n] /\ shape y' = [n])) <-> interpx_nd x y xp left right = Err ValueError.
Proof.
  intros x y xp x' y' left right Hx Hy Bx By. split.
  - intros H. destruct (squeeze_bare x Hx) as (_ & Ax & _). destruct (squeeze_bare y Hy) as (_ & Ay & _). rewrite (bare_squeeze _ _ Hx Bx) in H. rewrite (bare_squeeze _ _ Hy By) in H.
    unfold interpx_nd. cbv zeta. destruct (shape (squeeze x)) as [|n [|? ?]] eqn:Sx; try reflexivity. destruct (shape (squeeze y)) as [|m [|? ?]] eqn:Sy; try reflexivity.
    destruct (Nat.ltb_spec n 2) as [L|L]; [reflexivity|]. unfold interpx_vect, array in *. rewrite <- size_count, Sx in Ax. rewrite <- size_count, Sy in Ay. cbn [size] in Ax, Ay. rewrite Ax, Ay.
    destruct (Nat.eqb_spec (n * 1) (m * 1)) as [E|E]; [|reflexivity]. exfalso. apply (H n L). split; [reflexivity|]. f_equal. lia.
  - intros E n L (Sx & Sy). destruct (interpx_nd_eq x y xp x' y' n left right Hx Hy Bx By Sx Sy L) as (L1 & L2 & Q). rewrite Q in E. unfold interpx_vect in E. rewrite L1, L2, Nat.eqb_refl in E. cbn [negb] in E. cbv zeta in E.
    destruct (combine (flat x') (flat y')) as [|p0 l0] eqn:El; [apply (f_equal (@List.length _)) in El; rewrite combine_length, L1, L2 in El; cbn in El; lia|].
    replace (n <? 2) with false in E by (symmetry; apply Nat.ltb_ge; exact L). rewrite andb_false_r in E. match type of E with context [if ?b then _ else _] => destruct b end; discriminate.
Qed.
Print Assumptions C122_refused.
Example C122_case : let x := Nd [1; 3] [0; 2; 3]%R in let y := Nd [3; 1] [1; 5; 4]%R in
  incr (combine (flat x) (flat y)) /\ beyond (flat x) None (Some 0)%R (-1) /\ ~ beyond (flat x) (Some 7)%R None 2
  /\ interpx_nd x y (Nd [] [4%R]) None None = Err TypeError
  /\ interpx_nd x y (Nd [1] [4%R]) None None = Ok (Nd [1] [3%R])
  /\ interpx_nd x y (Nd [] [4%R]) None (Some 0)%R = Ok (Nd [] [0%R]).
Proof.
  cbv zeta. split; [unfold incr; cbn; repeat constructor; cbn; lra|]. split; [left; split; [reflexivity|]; do 2 eexists; split; [reflexivity|lra]|].
  split; [intros [(D & _)|(_ & r & a & E & L)]; [discriminate|]; assert (Q : [0; 2; 3]%R = [0; 2]%R ++ [3%R]) by reflexivity; cbn [flat] in E; rewrite Q in E; apply app_inj_tail in E as (_ & <-); lra|].
  unfold interpx_nd, interpx_vect. cbn -[Rlt_dec interpx]. destruct (Rlt_dec 4 0); [lra|]. destruct (Rlt_dec 3 4); [|lra]. cbn -[Rlt_dec interpx]. split; [reflexivity|]. split; do 2 f_equal; unfold interpx, np_interp, first_pt, last_pt; cbn -[Rlt_dec];
    destruct (Rlt_dec 4 0); try lra; destruct (Rlt_dec 3 4); try lra; [f_equal; lra|reflexivity].
Qed.

(** ** C123 arrays in configuration files *)
Section Arr.
Variable X : Type.
Variable x0 : X.
Variable pyfloat : str -> res X.
Variable fs : str -> option str.
Lemma parse_array_source text c : source fs text c -> parse_array X x0 pyfloat fs text = columns X x0 pyfloat c.
Proof.
  intros [p q c' H1 H2 E|p q H1 H2|t H N1 N2]; unfold parse_array; cbv zeta.
  - apply strip_iff in H1, H2. rewrite H1. rewrite (proj2 (startswith_spec _ _)) by (exists p; reflexivity). replace (skipn 5 (S_ "file:" ++ p)) with p by reflexivity. rewrite H2, E. reflexivity.
  - apply strip_iff in H1, H2. rewrite H1. replace (startswith (S_ "array:" ++ p) (S_ "file:")) with false by reflexivity. rewrite (proj2 (startswith_spec _ _)) by (exists p; reflexivity). replace (skipn 6 (S_ "array:" ++ p)) with p by reflexivity. rewrite H2. reflexivity.
  - apply strip_iff in H. rewrite H. destruct (startswith t (S_ "file:")) eqn:A; [apply startswith_spec in A as (p & E); destruct (N1 p E)|].
    destruct (startswith t (S_ "array:")) eqn:B; [apply startswith_spec in B as (p & E); destruct (N2 p E)|]. reflexivity.
Qed.
(** the columns of the numbers *)
Theorem C123_columns : forall text c rows vals w, source fs text c -> data_rows c rows -> Forall2 (Forall2 (fun s v => pyfloat s = Ok v)) rows vals -> rows <> [] -> Forall (fun r => List.length r = w) rows ->
  exists cols, parse_array X x0 pyfloat fs text = Ok cols /\ List.length cols = w /\ Forall (fun col => List.length col = List.length rows) cols /\ columns_are vals cols.
Proof.
  intros text c rows vs w Hs Hr Hv N Hw. rewrite (parse_array_source _ _ Hs). unfold columns, loadtxt. apply rows_iff in Hr. rewrite Hr.
  rewrite (mapM_forall2 _ rows vs) by (clear - Hv; induction Hv; constructor; [apply mapM_forall2; assumption|assumption]). cbv beta iota delta [rbind].
  assert (Hw' : Forall (fun r => List.length r = w) vs).
  { clear - Hv Hw. induction Hv as [|a b l l' H F IH]; [constructor|]. constructor; [|apply IH; exact (Forall_inv_tail Hw)]. rewrite <- (Forall_inv Hw). clear - H. induction H; cbn; congruence. }
  assert (L : List.length vs = List.length rows) by (clear - Hv; induction Hv; cbn; congruence).
  destruct vs as [|v rest]; [destruct rows; [congruence|discriminate L]|]. 
  assert (G : forallb (fun q => List.length q =? List.length v) rest = true).
  { apply forallb_forall. intros q Hq. apply Nat.eqb_eq. rewrite (Forall_inv Hw'). rewrite Forall_forall in Hw'. apply Hw'. right. exact Hq. }
  rewrite G. cbv beta iota delta [rbind]. set (all := v :: rest) in *. assert (Lv : List.length v = w) by exact (Forall_inv Hw'). rewrite Lv. clearbody all. clear G Lv v rest.
  eexists. split; [reflexivity|]. split; [rewrite map_length, seq_length; reflexivity|]. split.
  - apply Forall_forall. intros col Hc. apply in_map_iff in Hc as (j & <- & _). rewrite map_length. exact L.
  - intros j k x. rewrite nth_error_map. split.
    + intros (r & Ek & Ej). assert (J : j < w) by (rewrite Forall_forall in Hw'; rewrite <- (Hw' r (nth_error_In _ _ Ek)); apply nth_error_Some; rewrite Ej; discriminate).
      assert (Sq : nth_error (seq 0 w) j = Some j) by (rewrite (nth_error_nth' _ 0) by (rewrite seq_length; exact J); rewrite seq_nth by exact J; reflexivity). rewrite Sq. cbn [option_map].
      eexists. split; [reflexivity|]. rewrite nth_error_map, Ek. cbn [option_map]. f_equal. apply nth_error_nth, Ej.
    + intros (col & Ec & Ek). destruct (nth_error (seq 0 w) j) as [j'|] eqn:Sq; [|discriminate]. cbn [option_map] in Ec. injection Ec as <-. rewrite nth_error_map in Ek. destruct (nth_error all k) as [r|] eqn:Er; [|discriminate].
      assert (J : j < w) by (rewrite <- (seq_length w 0); apply nth_error_Some; rewrite Sq; discriminate). rewrite (nth_error_nth' _ 0) in Sq by (rewrite seq_length; exact J). rewrite seq_nth in Sq by exact J. injection Sq as <-.
      exists r. split; [reflexivity|]. cbn [option_map] in Ek. injection Ek as <-. apply nth_error_nth'. rewrite Forall_forall in Hw'. rewrite (Hw' r (nth_error_In _ _ Er)). exact J.
Qed.
(** rows of different length, or something that is not a number *)
Theorem C123_bad : forall text c rows, source fs text c -> data_rows c rows -> (forall t e, pyfloat t = Err e -> e = ValueError) ->
  (exists a b, In a rows /\ In b rows /\ List.length a <> List.length b) \/ (exists r s, In r rows /\ In s r /\ pyfloat s = Err ValueError) ->
  parse_array X x0 pyfloat fs text = Err ValueError.
Proof.
  intros text c rows Hs Hr He H. rewrite (parse_array_source _ _ Hs). unfold columns. assert (E : loadtxt pyfloat c = Err ValueError); [|rewrite E; reflexivity].
  destruct H as [(a & b & Ha & Hb & Hn)|(r & s & Hin & Hsr & Hf)]; [exact (C113_ragged X pyfloat c rows a b He Hr Ha Hb Hn)|]. unfold loadtxt. apply rows_iff in Hr. rewrite Hr. clear Hr Hs.
  assert (M : forall l, (exists s, In s l /\ pyfloat s = Err ValueError) -> mapM pyfloat l = Err ValueError).
  { clear - He. induction l as [|a l IH]; intros (s & Hs & E); [destruct Hs|]. cbn [mapM]. destruct (pyfloat a) as [v|e] eqn:Ea; cbv beta iota delta [rbind]; [|rewrite (He _ _ Ea); reflexivity].
    destruct Hs as [->|Hs]; [congruence|]. rewrite IH by (exists s; auto). reflexivity. }
  assert (M' : forall l e, mapM pyfloat l = Err e -> e = ValueError).
  { clear - He. induction l as [|a l IH]; intros e; [discriminate|]. cbn [mapM]. destruct (pyfloat a) as [v|u] eqn:Ea; cbv beta iota delta [rbind]; [|intros [= <-]; exact (He _ _ Ea)]. destruct (mapM pyfloat l) as [ys|u]; [discriminate|]. intros [= <-]. apply IH. reflexivity. }
  assert (G : mapM (mapM pyfloat) rows = Err ValueError); [|rewrite G; reflexivity].
  clear - M M' Hin Hsr Hf. induction rows as [|q rows IH]; [destruct Hin|]. cbn [mapM]. destruct (mapM pyfloat q) as [v|e] eqn:Eq; cbv beta iota delta [rbind]; [|rewrite (M' _ _ Eq); reflexivity].
  destruct Hin as [->|Hin]; [rewrite (M r) in Eq by (exists s; auto); discriminate|]. rewrite (IH Hin). reflexivity.
Qed.
(** a file that does not exist *)
Theorem C123_missing : forall text p q, trimmed text (S_ "file:" ++ p) -> trimmed p q -> fs q = None -> parse_array X x0 pyfloat fs text = Err FileNotFoundError.
Proof.
  clear. intros text p q H1 H2 E. apply strip_iff in H1, H2. unfold parse_array. cbv zeta. rewrite H1. rewrite (proj2 (startswith_spec _ _)) by (exists p; reflexivity). replace (skipn 5 (S_ "file:" ++ p)) with p by reflexivity. rewrite H2, E. reflexivity.
Qed.
(** every text is one of these *)
Theorem C123_all : forall text, (exists c, source fs text c) \/ exists p q, trimmed text (S_ "file:" ++ p) /\ trimmed p q /\ fs q = None.
Proof.
  clear. intros text. assert (T : forall s, trimmed s (strip s)) by (intros s; apply strip_iff; reflexivity).
  destruct (startswith (strip text) (S_ "file:")) eqn:A.
  - apply startswith_spec in A as (p & E). pose proof (T text) as Tt. rewrite E in Tt. destruct (fs (strip p)) as [c|] eqn:F; [left; exists c; eapply src_file; eauto|right; exists p, (strip p); auto].
  - left. destruct (startswith (strip text) (S_ "array:")) eqn:B.
    + apply startswith_spec in B as (p & E). pose proof (T text) as Tt. rewrite E in Tt. exists (strip p). eapply src_array; eauto.
    + exists (strip text). apply src_bare; [apply T| |]; intros p E; assert (Z := proj2 (startswith_spec (strip text) _) (ex_intro _ p E)); congruence.
Qed.
End Arr.
Print Assumptions C123_columns.
Print Assumptions C123_bad.
Print Assumptions C123_missing.
Print Assumptions C123_all.
Example C123_case : let pf (s : str) : res nat := match s with [c] => match digit c with Some n => Ok n | None => Err ValueError end | _ => Err ValueError end in
  let two := S_ "1 2" ++ lf :: S_ "3 4 # remark" in
  let fs (p : str) := if eqb p (S_ "t.dat") then Some two else None in
  parse_array nat 0 pf fs two = Ok [[1; 3]; [2; 4]] /\ parse_array nat 0 pf fs (S_ " array: " ++ two) = Ok [[1; 3]; [2; 4]] /\ parse_array nat 0 pf fs (S_ "file: t.dat ") = Ok [[1; 3]; [2; 4]]
  /\ parse_array nat 0 pf fs (S_ "file: u.dat") = Err FileNotFoundError /\ parse_array nat 0 pf fs (S_ "File: t.dat") = Err ValueError
  /\ source fs (S_ "file: t.dat ") two /\ data_rows two [[S_ "1"; S_ "2"]; [S_ "3"; S_ "4"]].
Proof.
  cbv zeta. split; [reflexivity|]. split; [reflexivity|]. split; [reflexivity|]. split; [reflexivity|]. split; [reflexivity|]. split.
  - apply (src_file _ _ (S_ " t.dat") (S_ "t.dat")); [apply strip_iff; reflexivity|apply strip_iff; reflexivity|reflexivity].
  - apply rows_iff. reflexivity.
Qed.
(** the example of the documentation *)
Example C120_case : let a := Nd [2] [-1; -2]%R in let b := Nd [2] [1; 2]%R in let args := [Nd [] [3%R]; Nd [3; 1] [4; 8; 12]%R] in let whr := Nd [] [true] in let fill := Nd [] [0%R] in
  operands_ok a b fill whr args /\ common (operand_shapes a b fill whr args) [3; 2] /\ sees_all a b fill whr args [2; 1] (-2) 2 [3; 12]%R true 0
  /\ exists itg err, vquad (fun x y zs => Ok (x + y + nth 1 zs 0, 0)%R) a b args whr fill = Ok ([3; 2], itg, err) /\ itg [2; 1] = Some (-2 + 2 + 12)%R.
Proof.
  cbv zeta. assert (Ho : operands_ok (Nd [2] [-1; -2]%R) (Nd [2] [1; 2]%R) (Nd [] [0%R]) (Nd [] [true]) [Nd [] [3%R]; Nd [3; 1] [4; 8; 12]%R]) by (repeat split; repeat constructor).
  assert (Hc : common (operand_shapes (Nd [2] [-1; -2]%R) (Nd [2] [1; 2]%R) (Nd [] [0%R]) (Nd [] [true]) [Nd [] [3%R]; Nd [3; 1] [4; 8; 12]%R]) [3; 2]) by (apply C120_shape; reflexivity).
  assert (I : index [3; 2] [2; 1]) by (repeat constructor).
  assert (Hs : sees_all (Nd [2] [-1; -2]%R) (Nd [2] [1; 2]%R) (Nd [] [0%R]) (Nd [] [true]) [Nd [] [3%R]; Nd [3; 1] [4; 8; 12]%R] [2; 1] (-2) 2 [3; 12]%R true 0).
  { destruct (C120_result (fun x y zs => Ok (0, 0)%R) _ _ _ _ _ _ Ho Hc) as (S & _). exact (sees_all_at _ _ _ _ _ _ _ Ho Hc I). }
  split; [exact Ho|]. split; [exact Hc|]. split; [exact Hs|].
  destruct (C120_result (fun x y zs => Ok (x + y + nth 1 zs 0, 0)%R) _ _ _ _ _ _ Ho Hc) as (_ & G). destruct G as (itg & err & E & P); [intros; do 2 eexists; reflexivity|].
  exists itg, err. split; [exact E|]. destruct (P _ _ _ _ _ _ I Hs) as (v & e & [= <- <-] & Q & _). exact Q.
Qed.
