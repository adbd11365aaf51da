(** C20: [interp_gpr], [vinterp(method='gpr')], [mapping] (src/teflow/mathext.py). *)
From Verif Require Import Py RUtil InterpModel GprModel GprSpec GprProofs.
Local Open Scope R_scope.

(** With [regular=0], at a query point equal to the data point x_j the value is y_j, for every
    kernel whose matrix is non-singular and every linear solver that is exact when it returns. *)
Theorem C20_reproduces_data :
  forall lsolve (K : kern) (x y xp : list R) (s : R) (out : list R),
  exact_solver lsolve ->
  regular_mat (length x) (fun i j => K (nth j x 0) (nth i x 0) s) ->
  (interp_gpr lsolve K K x y xp (Sc s) (RSc 0) = Ok out
   \/ gpr_vect lsolve (Some (K, K), Sc s, RSc 0) x y xp = Ok out) ->
  length out = length xp /\
  forall p j, (p < length xp)%nat -> (j < length x)%nat -> nth p xp 0 = nth j x 0 -> nth p out 0 = nth j y 0.
Proof.
  intros lsolve K x y xp s out Hex Hr [H|H].
  - unfold interp_gpr in H. cbn [diag_reg rbind] in H. eapply raw_nodes; [exact Hex| | |exact Hr|exact H]; [reflexivity|].
    intros i j _ _. cbv beta. destruct (i =? j)%nat; ring.
  - unfold gpr_vect in H. eapply raw_nodes; [exact Hex| | |exact Hr|exact H]; [reflexivity|].
    intros i j _ _. cbv beta. ring.
Qed.
Print Assumptions C20_reproduces_data.

Theorem C20_mapping_reproduces_data :
  forall lsolve (K : kern) (xs ys zs px py : list R) (sx sy : R) (out : list R),
  exact_solver lsolve ->
  regular_mat (length xs) (fun i j => K (nth j xs 0) (nth i xs 0) sx * K (nth j ys 0) (nth i ys 0) sy) ->
  mapping lsolve K xs ys zs px py sx sy (RSc 0) = Ok out ->
  length out = length px /\
  forall p j, (p < length px)%nat -> (j < length xs)%nat ->
    nth p px 0 = nth j xs 0 -> nth p py 0 = nth j ys 0 -> nth p out 0 = nth j zs 0.
Proof.
  intros lsolve K xs ys zs px py sx sy out Hex Hr. unfold mapping. cbn [add_reg rbind].
  destruct (lsolve _ _ _ _) as [W|] eqn:EW; cbn [rbind]; [|discriminate]. intros [= <-].
  split; [rewrite map_length, seq_length; reflexivity|]. intros p j Hp Hj Ex Ey.
  rewrite nth_map_seq by exact Hp. apply Hex in EW.
  rewrite (sumn_ext _ _ (fun i => nth i zs 0 * (if (i =? j)%nat then 1 else 0))).
  - apply (sumn_delta (length xs) (fun i => nth i zs 0)). exact Hj.
  - intros i Hi. erewrite (solve_unit _ _ _ _ _ p j EW); [reflexivity| |exact Hp|exact Hj| |exact Hi].
    + eapply regular_ext; [|exact Hr]. intros a b _ _. cbv beta. ring.
    + intros k Hk. cbv beta. rewrite Ex, Ey. ring.
Qed.
Print Assumptions C20_mapping_reproduces_data.

(** Which matrix is solved: [interp_gpr] adds r on the diagonal, the two other entry points add
    r to every entry; the matrices agree only for r = 0 or at most one data point. *)
Theorem C20_matrix_solved :
  forall lsolve (K : kern) (x y xp : list R) (s r : R),
  let n := length x in
  let k := fun i j => K (nth j x 0) (nth i x 0) s in
  let documented := fun i j => k i j + (if (i =? j)%nat then r else 0) in
  let everywhere := fun i j => k i j + r in
  let predict A := rbind (lsolve n A (length xp) (fun i p => K (nth p xp 0) (nth i x 0) s))
     (fun W => Ok (map (fun p => sumn n (fun i => nth i y 0 * W i p)) (seq 0 (length xp)))) in
  interp_gpr lsolve K K x y xp (Sc s) (RSc r) = predict documented
  /\ gpr_vect lsolve (Some (K, K), Sc s, RSc r) x y xp = predict everywhere
  /\ (mat_eq n n documented everywhere <-> r = 0 \/ (n <= 1)%nat).
Proof.
  intros lsolve K x y xp s r n k documented everywhere predict. split; [|split].
  - unfold interp_gpr. cbn [diag_reg rbind]. rewrite raw_sc. reflexivity.
  - unfold gpr_vect. rewrite raw_sc. reflexivity.
  - unfold mat_eq, documented, everywhere. split.
    + intros H. destruct (le_lt_dec n 1) as [Hn|Hn]; [right; exact Hn|left].
      specialize (H 0%nat 1%nat ltac:(lia) Hn). cbn in H. lra.
    + intros [->|Hn] i j Hi Hj; [destruct (i =? j)%nat; ring|].
      assert (i = j) as -> by lia. rewrite Nat.eqb_refl. ring.
Qed.
Print Assumptions C20_matrix_solved.

Theorem C20_mapping_matrix :
  forall lsolve (K : kern) (xs ys zs px py : list R) (sx sy r : R),
  let n := length xs in
  mapping lsolve K xs ys zs px py sx sy (RSc r) =
  rbind (lsolve n (fun i j => K (nth j xs 0) (nth i xs 0) sx * K (nth j ys 0) (nth i ys 0) sy + r) (length px)
           (fun i p => K (nth p px 0) (nth i xs 0) sx * K (nth p py 0) (nth i ys 0) sy))
    (fun W => Ok (map (fun p => sumn n (fun i => nth i zs 0 * W i p)) (seq 0 (length px)))).
Proof. reflexivity. Qed.
Print Assumptions C20_mapping_matrix.

(** The difference is visible in the values: for every exact solver that returns, the two entry
    points give 1/2 and 1/3 on the same two points. *)
Theorem C20_values_differ :
  let K : kern := fun u v _ => if Req_EM_T u v then 1 else 0 in
  forall lsolve o1 o2, exact_solver lsolve ->
  interp_gpr lsolve K K [0; 1] [1; 1] [0] (Sc 1) (RSc 1) = Ok o1 ->
  gpr_vect lsolve (Some (K, K), Sc 1, RSc 1) [0; 1] [1; 1] [0] = Ok o2 ->
  o1 = [1 / 2] /\ o2 = [1 / 3].
Proof.
  intros K lsolve o1 o2 Hex.
  destruct (C20_matrix_solved lsolve K [0; 1] [1; 1] [0] 1 1) as (E1 & E2 & _). rewrite E1, E2. clear E1 E2.
  assert (K00 : K 0 0 1 = 1) by (unfold K; destruct (Req_EM_T 0 0); lra).
  assert (K11 : K 1 1 1 = 1) by (unfold K; destruct (Req_EM_T 1 1); lra).
  assert (K01 : K 0 1 1 = 0) by (unfold K; destruct (Req_EM_T 0 1); lra).
  assert (K10 : K 1 0 1 = 0) by (unfold K; destruct (Req_EM_T 1 0); lra).
  clearbody K. unfold rbind.
  destruct (lsolve _ _ _ _) as [W|] eqn:EW; [|discriminate]. intros [= <-].
  destruct (lsolve _ (fun i j => _ + 1) _ _) as [W'|] eqn:EW'; [|discriminate]. intros [= <-].
  apply Hex in EW, EW'. unfold solves, sumn in *.
  pose proof (EW 0%nat 0%nat ltac:(cbn; lia) ltac:(cbn; lia)) as A1. pose proof (EW 1%nat 0%nat ltac:(cbn; lia) ltac:(cbn; lia)) as A2.
  pose proof (EW' 0%nat 0%nat ltac:(cbn; lia) ltac:(cbn; lia)) as B1. pose proof (EW' 1%nat 0%nat ltac:(cbn; lia) ltac:(cbn; lia)) as B2.
  cbn in A1, A2, B1, B2 |- *. rewrite ?K00, ?K01, ?K10, ?K11 in *. split; f_equal; lra.
Qed.
Print Assumptions C20_values_differ.

(** [vinterp(..., method='gpr')] needs [kernel=...]. *)
Theorem C20_vinterp_needs_kernel :
  forall lsolve s r (x y xp : list R), gpr_vect lsolve (None, s, r) x y xp = Err TypeError.
Proof. reflexivity. Qed.
Print Assumptions C20_vinterp_needs_kernel.

(** The documented one-dimensional [scale] "matching the length of x" never yields a result
    unless there are as many query points as data points. *)
Theorem C20_array_scale :
  forall lsolve (K0 K : kern) (x y xp l : list R) (r : reg),
  length l = length x -> (2 <= length x)%nat -> length xp <> length x ->
  forall out, interp_gpr lsolve K0 K x y xp (SVec l) r <> Ok out.
Proof.
  intros lsolve K0 K x y xp l r Hl Hn Hp out. unfold interp_gpr, interp_gpr_raw, rbind.
  destruct (diag_reg _ _) as [d|]; [|discriminate]. cbn [kern_grid]. rewrite Hl, Nat.eqb_refl, Nat.eqb_refl. cbn [negb].
  destruct (add_reg _ _ _) as [A|]; [|discriminate].
  destruct (Nat.eqb_spec (length x) (length xp)); [lia|]. destruct (Nat.eqb_spec (length x) 1); [lia|].
  destruct (Nat.eqb_spec (length xp) 1) as [E|]; [|discriminate].
  destruct (lsolve _ _ _ _); [|discriminate]. destruct (Nat.eqb_spec (length x) (length xp)); [lia|discriminate].
Qed.
Print Assumptions C20_array_scale.

(** Non-vacuity: an exact solver for two unknowns (Cramer's rule) that returns on this data. *)
Definition cramer (n : nat) (A : mat) (c : nat) (B : mat) : res mat :=
  match n with
  | 2%nat => let d := A 0%nat 0%nat * A 1%nat 1%nat - A 0%nat 1%nat * A 1%nat 0%nat in
         if Req_EM_T d 0 then Err ValueError
         else Ok (fun j p => match j with
                  | 0%nat => (B 0%nat p * A 1%nat 1%nat - A 0%nat 1%nat * B 1%nat p) / d
                  | _ => (A 0%nat 0%nat * B 1%nat p - B 0%nat p * A 1%nat 0%nat) / d end)
  | _ => Err ValueError
  end.
Example C20_cramer_exact : exact_solver cramer.
Proof.
  intros n A c B W H. destruct n as [|[|[|n]]]; try discriminate. cbn [cramer] in H.
  destruct (Req_EM_T _ 0) as [|Hd]; [discriminate|]. injection H as <-. intros i p Hi Hp.
  unfold sumn. destruct i as [|[|i]]; [| |lia]; cbn; field; exact Hd.
Qed.
Example C20_case :
  let K : kern := fun u v _ => if Req_EM_T u v then 1 else 1 / 2 in
  regular_mat 2 (fun i j => K (nth j [0; 1] 0) (nth i [0; 1] 0) 1)
  /\ exists out, interp_gpr cramer K K [0; 1] [5; 7] [1; 3] (Sc 1) (RSc 0) = Ok out /\ nth 0 out 0 = 7.
Proof.
  intros K.
  assert (K00 : K 0 0 1 = 1) by (unfold K; destruct (Req_EM_T 0 0); lra).
  assert (K11 : K 1 1 1 = 1) by (unfold K; destruct (Req_EM_T 1 1); lra).
  assert (K01 : K 0 1 1 = 1 / 2) by (unfold K; destruct (Req_EM_T 0 1); lra).
  assert (K10 : K 1 0 1 = 1 / 2) by (unfold K; destruct (Req_EM_T 1 0); lra).
  assert (Hr : regular_mat 2 (fun i j => K (nth j [0; 1] 0) (nth i [0; 1] 0) 1)).
  { intros w H j Hj. pose proof (H 0%nat ltac:(lia)) as H0. pose proof (H 1%nat ltac:(lia)) as H1.
    unfold sumn in *. cbn in H0, H1. rewrite ?K00, ?K01, ?K10, ?K11 in *. destruct j as [|[|j]]; [lra|lra|lia]. }
  split; [exact Hr|].
  destruct (interp_gpr cramer K K [0; 1] [5; 7] [1; 3] (Sc 1) (RSc 0)) as [out|] eqn:E.
  - exists out; split; [reflexivity|].
    destruct (C20_reproduces_data cramer K [0; 1] [5; 7] [1; 3] 1 out C20_cramer_exact Hr (or_introl E)) as (_ & Hn).
    rewrite (Hn 0%nat 1%nat); [reflexivity|cbn; lia|cbn; lia|reflexivity].
  - exfalso. unfold interp_gpr in E. cbn [diag_reg rbind] in E. rewrite raw_sc in E. cbn [add_reg rbind length cramer] in E.
    destruct (Req_EM_T _ 0) as [Hd|Hd]; [|discriminate]. cbn in Hd. rewrite K00, K01, K10, K11 in Hd. lra.
Qed.
