(** C34-C39, C42: src/teflow/anisotro.py. *)
From Coq Require Import String Permutation.
From Verif Require Import Py PyStr RUtil AniModel AniSpec AniProofs.
Local Open Scope R_scope.

(** ** C34 *)
Theorem C34_seq_roundtrip : forall (c : V6) (u : option bool), tens2seq (seq2tens c) u = c.
Proof. intros [] [[]|]; cbn; f_equal; field. Qed.
Print Assumptions C34_seq_roundtrip.

Theorem C34_matrix_roundtrip : forall (m : M3) (u : option bool), seq2tens (tens2seq m u) = m <-> symmetric m.
Proof.
  intros m u. split.
  - intros E. intros i j. rewrite <- E. generalize (tens2seq m u) as c. intros [].
    destruct i as [|[|[|[|i]]]], j as [|[|[|[|j]]]]; reflexivity.
  - intros H. pose proof (H 1%nat 2%nat) as H12. pose proof (H 1%nat 3%nat) as H13. pose proof (H 2%nat 3%nat) as H23. cbn in *.
    destruct m as [a b c d e f g h k]; cbn in *. subst. destruct u as [[]|]; cbn; try reflexivity. unfold seq2tens; cbn. f_equal; field.
Qed.
Print Assumptions C34_matrix_roundtrip.

Theorem C34_symmetric_part : forall (m : M3) (i j : nat), In i idx -> In j idx ->
  ent (seq2tens (tens2seq m None)) i j = (ent m i j + ent m j i) / 2.
Proof. intros [] i j [<-|[<-|[<-|[]]]] [<-|[<-|[<-|[]]]]; cbn; field. Qed.
Print Assumptions C34_symmetric_part.

(** [seq2tens] places the components where their indices say. *)
Theorem C34_entries : forall (c : V6) (i j : nat), In i idx -> In j idx -> ent (seq2tens c) i j = sym_ent c i j.
Proof. intros [] i j [<-|[<-|[<-|[]]]] [<-|[<-|[<-|[]]]]; reflexivity. Qed.
Print Assumptions C34_entries.

(** ** C35 *)
Theorem C35_RCRt : forall (m : M3) (c : V6), exists c',
  rotate3d (ByMatrix m) c = Ok (Some c') /\
  forall i j, In i idx -> In j idx ->
    sym_ent c' i j = sum3 (fun k => sum3 (fun l => ent m i k * sym_ent c k l * ent m j l)).
Proof. intros m c. exists (rotate_with m c). split; [reflexivity|]. intros; apply rotate_entries; assumption. Qed.
Print Assumptions C35_RCRt.

Theorem C35_compose : forall (m1 m2 m21 : M3) (c c1 c2 : V6),
  (forall i j, In i idx -> In j idx -> ent m21 i j = sum3 (fun k => ent m2 i k * ent m1 k j)) ->
  rotate3d (ByMatrix m1) c = Ok (Some c1) -> rotate3d (ByMatrix m2) c1 = Ok (Some c2) ->
  rotate3d (ByMatrix m21) c = Ok (Some c2).
Proof.
  intros m1 m2 m21 c c1 c2 H. rewrite !rot_by_matrix. intros [= <-] [= <-]. do 2 f_equal.
  rewrite rotate_compose. f_equal. apply m3_ext. intros i j Hi Hj. rewrite H, matmul_ent by assumption. reflexivity.
Qed.
Print Assumptions C35_compose.

Theorem C35_identity : forall c, rotate3d (ByMatrix identity3) c = Ok (Some c).
Proof. intros c. rewrite rot_by_matrix, rotate_id. reflexivity. Qed.
Print Assumptions C35_identity.

Theorem C35_inverse : forall (m : M3) (c c1 : V6), orthogonal m ->
  rotate3d (ByMatrix m) c = Ok (Some c1) -> rotate3d (ByMatrix (transpose m)) c1 = Ok (Some c).
Proof.
  intros m c c1 Ho. rewrite !rot_by_matrix. intros [= <-]. rewrite rotate_compose, matmul_transpose, rotate_id by exact Ho. reflexivity.
Qed.
Print Assumptions C35_inverse.

(** ** C36 *)
Theorem C36_invariants : forall (m : M3) (c c' : V6), orthogonal m -> rotate3d (ByMatrix m) c = Ok (Some c') ->
  trace c' = trace c /\ second_invariant c' = second_invariant c /\ det_sym c' = det_sym c
  /\ (positive_definite c <-> positive_definite c').
Proof.
  intros m c c' Ho. rewrite rot_by_matrix. intros [= <-].
  split; [apply inv_trace; exact Ho|]. split; [|split; [apply inv_det; exact Ho|]].
  - rewrite !second_by_trace, square_rotate, !inv_trace by exact Ho. reflexivity.
  - assert (H : forall m c, orthogonal m -> positive_definite c -> positive_definite (rotate_with m c)).
    { clear. intros m c Ho H v Hv. rewrite rotate_quad. apply H. apply apply_nonzero; assumption. }
    split; [apply H; exact Ho|]. intros Hp. apply (H (transpose m)) in Hp; [|apply orth_rows; exact Ho].
    rewrite rotate_compose, matmul_transpose, rotate_id in Hp by exact Ho. exact Hp.
Qed.
Print Assumptions C36_invariants.

(** ** C37 *)
Definition unit_of (o : vec) : vec := (comp o 1 / norm3 o, comp o 2 / norm3 o, comp o 3 / norm3 o).

Lemma sc2 t : sin t * sin t = 1 - cos t * cos t.
Proof. pose proof (sin2_cos2 t) as H. unfold Rsqr in H. lra. Qed.

Section Axis.
Variables (x y z t : R).
Hypothesis Hu : x * x + y * y + z * z = 1.
Let c := cos t. Let s := sin t.
Let m := mk3 (c + x ^ 2 * (1 - c)) (x * y * (1 - c) - z * s) (x * z * (1 - c) + y * s)
             (y * x * (1 - c) + z * s) (c + y ^ 2 * (1 - c)) (y * z * (1 - c) - x * s)
             (z * x * (1 - c) - y * s) (z * y * (1 - c) + x * s) (c + z ^ 2 * (1 - c)).
Lemma axis_rod v i : In i idx -> apply_mat m v i = rodrigues (x, y, z) t v i.
Proof.
  destruct v as [[p q] r]. unfold apply_mat, rodrigues, dot3, sum3, cross. fold c s.
  intros [<-|[<-|[<-|[]]]]; cbn; ring.
Qed.
Lemma axis_fix : apply_mat m (x, y, z) 1 = x /\ apply_mat m (x, y, z) 2 = y /\ apply_mat m (x, y, z) 3 = z.
Proof.
  assert (E : forall w, w * c + w * (1 - c) = w) by (intros; ring).
  unfold apply_mat, sum3; cbn. repeat split.
  - transitivity (x * c + x * (x*x+y*y+z*z) * (1 - c)); [ring|rewrite Hu; ring].
  - transitivity (y * c + y * (x*x+y*y+z*z) * (1 - c)); [ring|rewrite Hu; ring].
  - transitivity (z * c + z * (x*x+y*y+z*z) * (1 - c)); [ring|rewrite Hu; ring].
Qed.
Lemma axis_orth : orthogonal m.
Proof.
  pose proof (sc2 t) as Hs. fold s c in Hs.
  assert (Hz : z * z = 1 - x * x - y * y) by lra.
  intros i j [<-|[<-|[<-|[]]]] [<-|[<-|[<-|[]]]]; unfold sum3, delta; cbn; ring_simplify [Hs Hz]; try reflexivity; nra.
Qed.
Lemma axis_det : det3 (ent m) = 1.
Proof.
  pose proof (sc2 t) as Hs. fold s c in Hs. assert (Hz : z * z = 1 - x * x - y * y) by lra.
  unfold det3; cbn. ring [Hs Hz].
Qed.
End Axis.

Lemma dot_pos o : o <> (0, 0, 0) -> 0 < norm3 o /\ norm3 o * norm3 o = comp o 1 * comp o 1 + comp o 2 * comp o 2 + comp o 3 * comp o 3.
Proof.
  destruct o as [[x y] z]. intros Ho. unfold norm3, dot3, sum3; cbn.
  assert (H : 0 < x * x + y * y + z * z).
  { pose proof (Rle_0_sqr x) as Hx. pose proof (Rle_0_sqr y) as Hy. pose proof (Rle_0_sqr z) as Hz. unfold Rsqr in *.
    destruct (Req_dec x 0) as [E|E]; [|apply Rsqr_pos_lt in E; unfold Rsqr in E; lra].
    destruct (Req_dec y 0) as [E'|E']; [|apply Rsqr_pos_lt in E'; unfold Rsqr in E'; lra].
    destruct (Req_dec z 0) as [E''|E'']; [|apply Rsqr_pos_lt in E''; unfold Rsqr in E''; lra]. subst. congruence. }
  split; [apply sqrt_lt_R0; exact H|apply sqrt_sqrt; lra].
Qed.
Lemma unit_norm o : o <> (0, 0, 0) -> let '(x, y, z) := unit_of o in x * x + y * y + z * z = 1.
Proof.
  intros Ho. destruct (dot_pos o Ho) as (Hp & E). unfold unit_of.
  set (n := norm3 o) in *. transitivity ((comp o 1 * comp o 1 + comp o 2 * comp o 2 + comp o 3 * comp o 3) / (n * n)); [field; lra|].
  rewrite <- E. field. lra.
Qed.

Definition axis_m (x y z t : R) : M3 :=
  mk3 (cos t + x ^ 2 * (1 - cos t)) (x * y * (1 - cos t) - z * sin t) (x * z * (1 - cos t) + y * sin t)
      (y * x * (1 - cos t) + z * sin t) (cos t + y ^ 2 * (1 - cos t)) (y * z * (1 - cos t) - x * sin t)
      (z * x * (1 - cos t) - y * sin t) (z * y * (1 - cos t) + x * sin t) (cos t + z ^ 2 * (1 - cos t)).

(** Rotation about an arbitrary non-zero axis vector: proper, fixes the axis, Rodrigues' formula. *)
Theorem C37_axis_vector : forall (o : vec) (t : R), o <> (0, 0, 0) ->
  exists m : M3,
    (forall c, rotate3d (ByVector o t) c = rotate3d (ByMatrix m) c)
    /\ orthogonal m /\ det3 (ent m) = 1
    /\ (forall i, In i idx -> apply_mat m o i = comp o i)
    /\ (forall v i, In i idx -> apply_mat m v i = rodrigues (unit_of o) t v i).
Proof.
  intros o t Ho. destruct (dot_pos o Ho) as (Hp & E). pose proof (unit_norm o Ho) as HU.
  destruct o as [[x y] z]. cbn in E.
  assert (En : sqrt (x * x + y * y + z * z) = norm3 (x, y, z)) by reflexivity.
  unfold unit_of in *. cbn [comp] in *. set (n := norm3 (x, y, z)) in *.
  exists (axis_m (x / n) (y / n) (z / n) t). split; [|split; [|split; [|split]]].
  - intros c. unfold rotate3d, rot_matrix. rewrite En. destruct (Req_EM_T n 0) as [E0|_]; [lra|]. reflexivity.
  - apply (axis_orth (x / n) (y / n) (z / n) t HU).
  - apply (axis_det (x / n) (y / n) (z / n) t HU).
  - destruct (axis_fix (x / n) (y / n) (z / n) t HU) as (F1 & F2 & F3).
    fold (axis_m (x / n) (y / n) (z / n) t) in F1, F2, F3. generalize dependent (axis_m (x / n) (y / n) (z / n) t). intros m F1 F2 F3.
    unfold apply_mat, sum3 in *. cbn [comp] in *.
    assert (G : forall a b c w, a * (x / n) + b * (y / n) + c * (z / n) = w / n -> a * x + b * y + c * z = w).
    { intros a b c w H. apply (f_equal (fun q => q * n)) in H. field_simplify in H; [lra|lra|lra]. }
    intros i [<-|[<-|[<-|[]]]]; apply G; assumption.
  - intros v i Hi. apply (axis_rod (x / n) (y / n) (z / n) t v i Hi).
Qed.
Print Assumptions C37_axis_vector.

(** Scaling the axis: a positive factor changes nothing, a negative one reverses the rotation. *)
Theorem C37_axis_scaling : forall (x y z k t : R) (c : V6),
  (0 < k -> rotate3d (ByVector (k * x, k * y, k * z) t) c = rotate3d (ByVector (x, y, z) t) c)
  /\ (k < 0 -> rotate3d (ByVector (k * x, k * y, k * z) t) c = rotate3d (ByVector (x, y, z) (- t)) c).
Proof.
  intros x y z k t c.
  assert (En : sqrt (k * x * (k * x) + k * y * (k * y) + k * z * (k * z)) = Rabs k * sqrt (x * x + y * y + z * z)).
  { replace (k * x * (k * x) + k * y * (k * y) + k * z * (k * z)) with (k * k * (x * x + y * y + z * z)) by ring.
    rewrite sqrt_mult_alt by apply Rle_0_sqr. f_equal. exact (sqrt_Rsqr_abs k). }
  split; intros Hk; unfold rotate3d, rot_matrix; rewrite En; set (n := sqrt (x * x + y * y + z * z)).
  - rewrite Rabs_right by lra. destruct (Req_EM_T (k * n) 0) as [E|E], (Req_EM_T n 0) as [E'|E']; try reflexivity.
    + exfalso. apply Rmult_integral in E. lra.
    + exfalso. apply E. rewrite E'. ring.
    + assert (forall w, k * w / (k * n) = w / n) as Hw by (intros; field; lra). rewrite !Hw. reflexivity.
  - rewrite Rabs_left by lra. destruct (Req_EM_T (- k * n) 0) as [E|E], (Req_EM_T n 0) as [E'|E']; try reflexivity.
    + exfalso. apply Rmult_integral in E. lra.
    + exfalso. apply E. rewrite E'. ring.
    + assert (forall w, k * w / (- k * n) = - (w / n)) as Hw by (intros; field; lra). rewrite !Hw, cos_neg, sin_neg.
      cbn [rbind option_map]. do 2 f_equal. f_equal. f_equal; ring.
Qed.
Print Assumptions C37_axis_scaling.

(** Axis names: the first letter, in either case, decides. *)
Theorem C37_axis_names : forall (s : str) (ch : ascii) (t : R) (c : V6),
  (ch = "x"%char \/ ch = "X"%char -> rotate3d (ByName (ch :: s) t) c = rotate3d (ByVector (1, 0, 0) t) c)
  /\ (ch = "y"%char \/ ch = "Y"%char -> rotate3d (ByName (ch :: s) t) c = rotate3d (ByVector (0, 1, 0) t) c)
  /\ (ch = "z"%char \/ ch = "Z"%char -> rotate3d (ByName (ch :: s) t) c = rotate3d (ByVector (0, 0, 1) t) c)
  /\ (~ In ch ["x"; "X"; "y"; "Y"; "z"; "Z"]%char -> rotate3d (ByName (ch :: s) t) c = Err ValueError)
  /\ rotate3d (ByName [] t) c = Err IndexError.
Proof.
  intros s ch t c.
  assert (B : forall x y z m, x * x + y * y + z * z = 1 -> axis_m x y z t = m -> rotate3d (ByVector (x, y, z) t) c = rotate3d (ByMatrix m) c).
  { intros x y z m E Em. rewrite <- Em. unfold rotate3d, rot_matrix. rewrite E, sqrt_1. destruct (Req_EM_T 1 0); [lra|].
    assert (D : forall w, w / 1 = w) by (intros; field). rewrite !D. reflexivity. }
  split; [|split; [|split; [|split]]].
  - intros H. rewrite (B 1 0 0 (mk3 1 0 0 0 (cos t) (- sin t) 0 (sin t) (cos t))); [destruct H as [-> | ->]; reflexivity|ring|unfold axis_m; f_equal; ring].
  - intros H. rewrite (B 0 1 0 (mk3 (cos t) 0 (sin t) 0 1 0 (- sin t) 0 (cos t))); [destruct H as [-> | ->]; reflexivity|ring|unfold axis_m; f_equal; ring].
  - intros H. rewrite (B 0 0 1 (mk3 (cos t) (- sin t) 0 (sin t) (cos t) 0 0 0 1)); [destruct H as [-> | ->]; reflexivity|ring|unfold axis_m; f_equal; ring].
  - intros H. unfold rotate3d, rot_matrix.
    assert (Hl : ch_eq (lower_ch ch) "x" = false /\ ch_eq (lower_ch ch) "y" = false /\ ch_eq (lower_ch ch) "z" = false).
    { revert H. destruct ch as [[] [] [] [] [] [] [] []]; cbn; intros H; auto; exfalso; apply H; tauto. }
    destruct Hl as (-> & -> & ->). reflexivity.
  - reflexivity.
Qed.
Print Assumptions C37_axis_names.

(** [comb_rotations(a, b)]: about y by a, then about z by b. *)
Theorem C37_combined : forall (a b : R) (c c1 : V6),
  rotate3d (ByName (S_ "y") a) c = Ok (Some c1) ->
  rotate3d (ByMatrix (comb_rotations a b)) c = rotate3d (ByName (S_ "z") b) c1.
Proof.
  intros a b c c1 H. unfold rotate3d, rot_matrix in H. cbn in H. injection H as <-.
  unfold rotate3d, rot_matrix. cbn [rbind option_map ch_eq lower_ch S_ String.list_ascii_of_string].
  change (ch_eq (lower_ch "z") "x") with false. change (ch_eq (lower_ch "z") "y") with false. change (ch_eq (lower_ch "z") "z") with true.
  cbn [rbind option_map]. unfold comb_rotations. rewrite <- rotate_compose. reflexivity.
Qed.
Print Assumptions C37_combined.

(** ** C38 *)
Definition direction (theta phi : R) : vec := (sin phi * cos theta, sin phi * sin theta, cos phi).
Theorem C38_projection : forall (theta phi : R) (c : V6), project3d theta phi c = quad c (direction theta phi).
Proof. intros theta phi []. unfold project3d, quad, direction, sum3, sym_ent; cbn. ring. Qed.
Print Assumptions C38_projection.

Lemma direction_unit theta phi : dot3 (direction theta phi) (direction theta phi) = 1.
Proof.
  unfold direction, dot3, sum3; cbn. pose proof (sc2 theta) as H1. pose proof (sc2 phi) as H2.
  transitivity (sin phi * sin phi * (cos theta * cos theta + sin theta * sin theta) + cos phi * cos phi); [ring|]. rewrite H1, H2. ring.
Qed.

(** A rotation that carries the direction to the x axis makes the 11 component the projected value. *)
Theorem C38_rotated : forall (theta phi : R) (m : M3) (c c' : V6), orthogonal m ->
  (forall i, In i idx -> apply_mat m (direction theta phi) i = comp (1, 0, 0) i) ->
  rotate3d (ByMatrix m) c = Ok (Some c') -> v11 c' = project3d theta phi c.
Proof.
  intros theta phi m c c' Ho H. rewrite rot_by_matrix. intros [= <-]. rewrite C38_projection.
  assert (E : forall i, In i idx -> comp (direction theta phi) i = ent m 1 i).
  { pose proof (gram m Ho) as (G1 & G2 & G3 & G4 & G5 & G6).
    assert (A1 := H 1%nat). assert (A2 := H 2%nat). assert (A3 := H 3%nat).
    destruct (direction theta phi) as [[p q] r]. unfold apply_mat, sum3 in *. cbn [comp ent] in *.
    assert (I1 : In 1%nat idx) by (cbn; tauto). assert (I2 : In 2%nat idx) by (cbn; tauto). assert (I3 : In 3%nat idx) by (cbn; tauto).
    specialize (A1 I1). specialize (A2 I2). specialize (A3 I3).
    set (a := x11 m) in *. set (b := x12 m) in *. set (d := x13 m) in *. set (e := x21 m) in *. set (f := x22 m) in *.
    set (g := x23 m) in *. set (h := x31 m) in *. set (k := x32 m) in *. set (l := x33 m) in *.
    intros i [<-|[<-|[<-|[]]]]; cbn.
    - transitivity (p * (a*a+e*e+h*h) + q * (a*b+e*f+h*k) + r * (a*d+e*g+h*l)); [rewrite G1, G4, G5; ring|].
      transitivity (a * (a*p+b*q+d*r) + e * (e*p+f*q+g*r) + h * (h*p+k*q+l*r)); [ring|rewrite A1, A2, A3; ring].
    - transitivity (p * (a*b+e*f+h*k) + q * (b*b+f*f+k*k) + r * (b*d+f*g+k*l)); [rewrite G2, G4, G6; ring|].
      transitivity (b * (a*p+b*q+d*r) + f * (e*p+f*q+g*r) + k * (h*p+k*q+l*r)); [ring|rewrite A1, A2, A3; ring].
    - transitivity (p * (a*d+e*g+h*l) + q * (b*d+f*g+k*l) + r * (d*d+g*g+l*l)); [rewrite G3, G5, G6; ring|].
      transitivity (d * (a*p+b*q+d*r) + g * (e*p+f*q+g*r) + l * (h*p+k*q+l*r)); [ring|rewrite A1, A2, A3; ring]. }
  unfold quad, sum3. rewrite !E by (cbn; tauto). destruct m, c. cbn. ring.
Qed.
Print Assumptions C38_rotated.

Theorem C38_bounds : forall (theta phi : R) (c : V6), positive_semidefinite c -> 0 <= project3d theta phi c <= trace c.
Proof.
  intros theta phi c H. rewrite C38_projection. split; [apply H|].
  pose proof (H (cos phi * cos theta, cos phi * sin theta, - sin phi)) as H1. pose proof (H (- sin theta, cos theta, 0)) as H2.
  assert (E : quad c (direction theta phi) + quad c (cos phi * cos theta, cos phi * sin theta, - sin phi) + quad c (- sin theta, cos theta, 0) = trace c).
  { pose proof (sc2 theta) as E1. pose proof (sc2 phi) as E2. destruct c. unfold quad, direction, trace, sum3; cbn. ring [E1 E2]. }
  lra.
Qed.
Print Assumptions C38_bounds.

(** ** C39: layered composites.  [stack l w]: the call [anilay] makes for explicit layers. *)
Definition call_layers (l : list layer) : res eff :=
  anilay (Ar (map lC l)) (Ar (map lS l)) (Ar (map lK l)) (WList (map lw l)).

Theorem C39_bounds : forall (l : list layer), l <> [] -> Forall good_layer l ->
  exists e, call_layers l = Ok e
  /\ (forall lo hi, between lo hi lC l -> lo <= C_vert e <= hi /\ lo <= C_para e <= hi)
  /\ (forall lo hi, between lo hi lK l -> lo <= K_vert e <= hi /\ lo <= K_para e <= hi)
  /\ (forall lo hi, between lo hi lS l -> lo <= S_vert e <= hi /\ lo <= S_para e <= hi)
  /\ C_vert e <= C_para e /\ K_vert e <= K_para e
  /\ (C_vert e = C_para e <-> forall x y, In x l -> In y l -> lC x = lC y)
  /\ (K_vert e = K_para e <-> forall x y, In x l -> In y l -> lK x = lK y).
Proof.
  intros l Hl Hg. rewrite Forall_forall in Hg. exists (effective l). split; [apply anilay_layers; exact Hl|].
  assert (HC : forall x, In x l -> 0 < lC x) by (intros x Hx; apply (Hg x Hx)).
  assert (HK : forall x, In x l -> 0 < lK x) by (intros x Hx; apply (Hg x Hx)).
  assert (HW : forall x, In x l -> 0 < lw x) by (intros x Hx; apply (Hg x Hx)).
  cbn [effective C_vert C_para S_vert S_para K_vert K_para]. repeat match goal with |- _ /\ _ => split end.
  - intros lo hi Hb. split; [apply series_bounds|apply (parallel_bounds lC)]; assumption.
  - intros lo hi Hb. split; [apply series_bounds|apply (parallel_bounds lK)]; assumption.
  - intros lo hi Hb. split.
    + apply (wmean (fun x => lw x / lK x) lS); [assumption| |assumption]. intros x Hx. apply Rdiv_lt_0_compat; auto.
    + apply (wmean (fun x => lw x * lC x) lS); [assumption| |assumption]. intros x Hx. apply Rmult_lt_0_compat; auto.
  - apply series_le_parallel; assumption.
  - apply series_le_parallel; assumption.
  - apply series_eq_parallel; assumption.
  - apply series_eq_parallel; assumption.
Qed.
Print Assumptions C39_bounds.

Theorem C39_order_irrelevant : forall (l l' : list layer), Permutation l l' -> call_layers l = call_layers l'.
Proof.
  intros l l' H. destruct l as [|a l]; [apply Permutation_nil in H; subst; reflexivity|].
  unfold call_layers. rewrite !anilay_layers; [|intros ->; apply Permutation_sym, Permutation_nil in H; discriminate|discriminate].
  unfold effective. rewrite (tot_perm lw _ _ H), (tot_perm (fun x => lw x / lC x) _ _ H), (tot_perm (fun x => lw x * lC x) _ _ H),
    (tot_perm (fun x => lw x / lK x * lS x) _ _ H), (tot_perm (fun x => lw x / lK x) _ _ H), (tot_perm (fun x => lw x * lC x * lS x) _ _ H), (tot_perm (fun x => lw x * lK x) _ _ H).
  reflexivity.
Qed.
Print Assumptions C39_order_irrelevant.

(** Only the ratios of the widths matter. *)
Theorem C39_width_scaling : forall (l : list layer) (k : R), k <> 0 ->
  Forall (fun x => lC x <> 0 /\ lK x <> 0) l -> tot lw l <> 0 -> tot (fun x => lw x / lC x) l <> 0 -> tot (fun x => lw x / lK x) l <> 0 ->
  tot (fun x => lw x * lC x) l <> 0 ->
  call_layers (map (fun x => Layer (lC x) (lS x) (lK x) (k * lw x)) l) = call_layers l.
Proof.
  intros l k Hk Hn HW H1 H2 H3. destruct l as [|a l]; [reflexivity|]. unfold call_layers. rewrite !anilay_layers by discriminate.
  set (d := a :: l) in *. clearbody d. f_equal. unfold effective.
  assert (E : forall f g, (forall x, In x d -> f (Layer (lC x) (lS x) (lK x) (k * lw x)) = k * g x) ->
     tot f (map (fun x => Layer (lC x) (lS x) (lK x) (k * lw x)) d) = k * tot g d).
  { intros f g H. rewrite <- tot_scal. unfold tot. rewrite map_map. apply sumR_ext. exact H. }
  rewrite (E lw lw) by reflexivity.
  rewrite Forall_forall in Hn.
  rewrite (E (fun x => lw x / lC x) (fun x => lw x / lC x)) by (intros x Hx; cbn; destruct (Hn x Hx); field; assumption).
  rewrite (E (fun x => lw x * lC x) (fun x => lw x * lC x)) by (intros x Hx; cbn; ring).
  rewrite (E (fun x => lw x / lK x) (fun x => lw x / lK x)) by (intros x Hx; cbn; destruct (Hn x Hx); field; assumption).
  rewrite (E (fun x => lw x / lK x * lS x) (fun x => lw x / lK x * lS x)) by (intros x Hx; cbn; destruct (Hn x Hx); field; assumption).
  rewrite (E (fun x => lw x * lC x * lS x) (fun x => lw x * lC x * lS x)) by (intros x Hx; cbn; ring).
  rewrite (E (fun x => lw x * lK x) (fun x => lw x * lK x)) by (intros x Hx; cbn; ring).
  assert (Q : forall p q, q <> 0 -> k * p / (k * q) = p / q) by (intros; field; auto). rewrite !Q by assumption. reflexivity.
Qed.
Print Assumptions C39_width_scaling.

(** Widths are weights: cutting a layer into two of the same material changes nothing, nor does a layer of width 0. *)
Theorem C39_weights : forall (l : list layer) (c s k w1 w2 : R),
  call_layers (Layer c s k (w1 + w2) :: l) = call_layers (Layer c s k w1 :: Layer c s k w2 :: l)
  /\ (l <> [] -> call_layers (Layer c s k 0 :: l) = call_layers l).
Proof.
  intros l c s k w1 w2.
  assert (E : forall f x y z r, f x = f y + f z -> tot f (x :: r) = tot f (y :: z :: r)) by (intros f x y z r H; unfold tot; cbn; rewrite H; ring).
  assert (Z : forall f x r, f x = 0 -> tot f (x :: r) = tot f r) by (intros f x r H; unfold tot; cbn; rewrite H; ring).
  split.
  - unfold call_layers. rewrite !anilay_layers by discriminate. f_equal. unfold effective.
    rewrite !(E _ (Layer c s k (w1 + w2)) (Layer c s k w1) (Layer c s k w2)) by (cbn [lC lS lK lw]; unfold Rdiv; ring). reflexivity.
  - intros Hl. unfold call_layers. rewrite !anilay_layers by (discriminate || exact Hl). f_equal. unfold effective.
    rewrite !(Z _ (Layer c s k 0)) by (cbn [lC lS lK lw]; unfold Rdiv; ring). reflexivity.
Qed.
Print Assumptions C39_weights.

(** The default, 0 and empty widths all mean equal widths; arrays of two or more elements are rejected. *)
Theorem C39_widths_argument : forall (C S K : arr),
  (forall w, In w [WNone; WNum 0; WList []; WArr []; WArr [0]] -> anilay C S K w = anilay C S K (WNum 1))
  /\ (forall a b l, anilay C S K (WArr (a :: b :: l)) = Err ValueError).
Proof.
  intros C S K. split; [|reflexivity].
  assert (E1 : widths_or (WNum 1) = Ok (Sc 1)). { cbn. destruct (Req_EM_T 1 0); reflexivity. }
  assert (E2 : widths_or (WNum 0) = Ok (Sc 1)). { cbn. destruct (Req_EM_T 0 0); [reflexivity|congruence]. }
  assert (E3 : widths_or (WArr [0]) = Ok (Sc 1)). { cbn. destruct (Req_EM_T 0 0); [reflexivity|congruence]. }
  intros w [<-|[<-|[<-|[<-|[<-|[]]]]]]; unfold anilay; rewrite ?E1, ?E2, ?E3; reflexivity.
Qed.
Print Assumptions C39_widths_argument.

Theorem C39_equal_widths : forall (c : list (R * R * R)), c <> [] ->
  anilay (Ar (map (fun x => fst (fst x)) c)) (Ar (map (fun x => snd (fst x)) c)) (Ar (map snd c)) WNone
  = call_layers (map (fun x => Layer (fst (fst x)) (snd (fst x)) (snd x) 1) c).
Proof.
  intros c Hc. unfold call_layers. set (l := map (fun x => Layer (fst (fst x)) (snd (fst x)) (snd x) 1) c).
  assert (Hl : l <> []) by (unfold l; destruct c; [congruence|discriminate]).
  rewrite anilay_layers by exact Hl.
  replace (map (fun x => fst (fst x)) c) with (map lC l) by (unfold l; rewrite map_map; reflexivity).
  replace (map (fun x => snd (fst x)) c) with (map lS l) by (unfold l; rewrite map_map; reflexivity).
  replace (map snd c) with (map lK l) by (unfold l; rewrite map_map; reflexivity).
  unfold anilay. cbn [widths_or rbind bc_len]. rewrite !map_length, !Nat.eqb_refl. cbn [rbind]. rewrite !Nat.eqb_refl. cbn [rbind].
  rewrite !bc_same by exact Hl. do 2 f_equal. cbn [bc_to].
  replace (repeat 1 (length l)) with (map lw l); [apply zip4_layers|].
  unfold l. rewrite map_map, map_length. cbn. clear. induction c as [|a c IH]; [reflexivity|]. cbn. rewrite IH. reflexivity.
Qed.
Print Assumptions C39_equal_widths.

(** Arrays of different lengths, neither of them 1, are refused. *)
Theorem C39_lengths : forall (C S K : arr) (W : widths_arg) (a b : list R),
  (In (Ar a) [C; S; K] \/ (a <> [] /\ W = WList a)) -> (In (Ar b) [C; S; K] \/ (b <> [] /\ W = WList b)) -> length a <> 1%nat -> length b <> 1%nat -> length a <> length b ->
  anilay C S K W = Err ValueError.
Proof.
  intros C S K W a b Ha Hb Na Nb Nab. unfold anilay.
  assert (Ew : widths_or W = Err ValueError \/ exists w, widths_or W = Ok w /\ forall l, l <> [] -> W = WList l -> w = Ar l).
  { destruct W as [|x|[|x l]|[|x [|y l]]]; cbn [widths_or]; try (destruct (Req_EM_T _ _)); try (left; reflexivity); right; eexists; (split; [reflexivity|]); intros l' N E; try discriminate; [injection E as <-; contradiction|injection E as <-; reflexivity]. }
  destruct Ew as [->|(w & -> & Ew)]; [reflexivity|]. cbn [rbind].
  assert (X : forall x (n : option nat), (exists r, bc_len n x = Ok r /\ (forall m, n = Some m -> m <> 1%nat -> r = Some m) /\ (forall l, x = Ar l -> length l <> 1%nat -> r = Some (length l))) \/ bc_len n x = Err ValueError).
  { intros [s|l] n; cbn [bc_len]; [left; eexists; split; [reflexivity|]; split; [congruence|discriminate]|]. destruct n as [n|]; [|left; eexists; split; [reflexivity|]; split; congruence].
    destruct (Nat.eqb_spec n (length l)) as [E|E]; [left; eexists; split; [reflexivity|]; split; congruence|]. destruct (Nat.eqb_spec n 1) as [E1|E1]; [left; eexists; split; [reflexivity|]; split; congruence|].
    destruct (Nat.eqb_spec (length l) 1) as [E2|E2]; [left; eexists; split; [reflexivity|]; split; congruence|right; reflexivity]. }
  destruct (X C None) as [(n1 & -> & _ & P1)| ->]; [|reflexivity]. cbn [rbind]. destruct (X S n1) as [(n2 & -> & Q2 & P2)| ->]; [|reflexivity]. cbn [rbind].
  destruct (X K n2) as [(n3 & -> & Q3 & P3)| ->]; [|reflexivity]. cbn [rbind]. destruct (X w n3) as [(n4 & -> & Q4 & P4)| ->]; [|reflexivity]. cbn [rbind]. exfalso.
  assert (Y : forall l, (In (Ar l) [C; S; K] \/ (l <> [] /\ W = WList l)) -> length l <> 1%nat -> n4 = Some (length l)).
  { intros l [[H|[H|[H|[]]]]|(H1 & H2)] N; [apply Q4; [apply Q3; [apply Q2; [apply P1; assumption|assumption]|assumption]|assumption]|apply Q4; [apply Q3; [apply P2; assumption|assumption]|assumption]|apply Q4; [apply P3; assumption|assumption]|apply P4; [apply Ew; assumption|assumption]]. }
  assert (E1 := Y a Ha Na). assert (E2 := Y b Hb Nb). congruence.
Qed.
Print Assumptions C39_lengths.
Example C39_case_lengths : anilay (Ar [1; 2]) (Sc 3) (Ar [1; 2; 3]) (WList [1; 1]) = Err ValueError.
Proof. apply (C39_lengths _ _ _ _ [1; 2] [1; 2; 3]); cbn; auto; lia. Qed.

(** ** C42: a composite never beats its best layer (figure of merit C*S^2/K, up to units) *)
Definition zeta (x : layer) : R := lC x * (lS x * lS x) / lK x.
Theorem C42_figure_of_merit : forall (l : list layer) (z : R) (e : eff), l <> [] -> Forall good_layer l ->
  (forall x, In x l -> zeta x <= z) -> call_layers l = Ok e ->
  C_vert e * (S_vert e * S_vert e) / K_vert e <= z /\ C_para e * (S_para e * S_para e) / K_para e <= z.
Proof.
  intros l z e Hl Hg Hz. unfold call_layers. rewrite anilay_layers by exact Hl. intros [= <-].
  rewrite Forall_forall in Hg.
  assert (HC : forall x, In x l -> 0 < lC x) by (intros x Hx; apply (Hg x Hx)).
  assert (HK : forall x, In x l -> 0 < lK x) by (intros x Hx; apply (Hg x Hx)).
  assert (HW : forall x, In x l -> 0 < lw x) by (intros x Hx; apply (Hg x Hx)).
  cbn [effective C_vert C_para S_vert S_para K_vert K_para].
  set (W := tot lw l). set (q := tot (fun x => lw x / lC x) l). set (P := tot (fun x => lw x * lC x) l).
  set (G := tot (fun x => lw x / lK x) l). set (Q := tot (fun x => lw x * lK x) l).
  set (A := tot (fun x => lw x / lK x * lS x) l). set (B := tot (fun x => lw x * lC x * lS x) l).
  assert (W0 : 0 < W) by (apply tot_pos; assumption).
  assert (q0 : 0 < q) by (apply tot_pos; [assumption|intros; apply Rdiv_lt_0_compat; auto]).
  assert (P0 : 0 < P) by (apply tot_pos; [assumption|intros; apply Rmult_lt_0_compat; auto]).
  assert (G0 : 0 < G) by (apply tot_pos; [assumption|intros; apply Rdiv_lt_0_compat; auto]).
  assert (Q0 : 0 < Q) by (apply tot_pos; [assumption|intros; apply Rmult_lt_0_compat; auto]).
  split.
  - replace (W / q * (A / G * (A / G)) / (W / G)) with (A * A / (q * G)) by (field; lra).
    (* A = sum (w/C) * (C S/K) *)
    set (f := fun x => lC x * lS x / lK x).
    assert (EA : A = tot (fun x => lw x / lC x * f x) l).
    { apply tot_ext. intros x Hx. unfold f. field. specialize (HC x Hx). specialize (HK x Hx). lra. }
    assert (H1 : A * A <= q * tot (fun x => lw x / lC x * (f x * f x)) l).
    { rewrite EA. apply wcs; [exact Hl|]. intros; apply Rdiv_lt_0_compat; auto. }
    assert (H2 : tot (fun x => lw x / lC x * (f x * f x)) l <= z * G).
    { unfold G. rewrite <- tot_scal. apply tot_le. intros x Hx. specialize (HC x Hx). specialize (HK x Hx). specialize (HW x Hx).
      replace (lw x / lC x * (f x * f x)) with (lw x / lK x * zeta x) by (unfold f, zeta; field; lra).
      rewrite (Rmult_comm z). apply Rmult_le_compat_l; [left; apply Rdiv_lt_0_compat; assumption|apply Hz; exact Hx]. }
    apply Rmult_le_reg_r with (q * G); [apply Rmult_lt_0_compat; assumption|]. unfold Rdiv. rewrite Rmult_assoc, Rinv_l, Rmult_1_r by nra.
    apply Rle_trans with (q * (z * G)); [|right; ring]. eapply Rle_trans; [exact H1|]. apply Rmult_le_compat_l; lra.
  - replace (P / W * (B / P * (B / P)) / (Q / W)) with (B * B / (P * Q)) by (field; lra).
    assert (H1 : B * B <= P * tot (fun x => lw x * lC x * (lS x * lS x)) l).
    { apply (wcs (fun x => lw x * lC x) lS); [exact Hl|]. intros; apply Rmult_lt_0_compat; auto. }
    assert (H2 : tot (fun x => lw x * lC x * (lS x * lS x)) l <= z * Q).
    { unfold Q. rewrite <- tot_scal. apply tot_le. intros x Hx. specialize (HC x Hx). specialize (HK x Hx). specialize (HW x Hx).
      replace (lw x * lC x * (lS x * lS x)) with (lw x * lK x * zeta x) by (unfold zeta; field; lra).
      rewrite (Rmult_comm z). apply Rmult_le_compat_l; [left; apply Rmult_lt_0_compat; assumption|apply Hz; exact Hx]. }
    apply Rmult_le_reg_r with (P * Q); [apply Rmult_lt_0_compat; assumption|]. unfold Rdiv. rewrite Rmult_assoc, Rinv_l, Rmult_1_r by nra.
    apply Rle_trans with (P * (z * Q)); [|right; ring]. eapply Rle_trans; [exact H1|]. apply Rmult_le_compat_l; lra.
Qed.
Print Assumptions C42_figure_of_merit.

(** ** Non-vacuity *)
Example C35_case : exists m, orthogonal m /\ m <> identity3.
Proof.
  exists (mk3 0 (-1) 0 1 0 0 0 0 1). split; [|intros H; injection H; intros; lra].
  intros i j [<-|[<-|[<-|[]]]] [<-|[<-|[<-|[]]]]; unfold sum3, delta; cbn; ring.
Qed.
Example C36_case : positive_definite (mk6 1 2 4 0 0 0).
Proof.
  intros [[x y] z] Hv. unfold quad, sum3; cbn. destruct (dot_pos _ Hv) as (Hp & E). cbn in E.
  assert (0 < norm3 (x, y, z) * norm3 (x, y, z)) by (apply Rmult_lt_0_compat; exact Hp). nra.
Qed.
Example C37_case : rotate3d (ByName (S_ "z") (PI / 2)) (mk6 1 2 4 0 0 0) = Ok (Some (mk6 2 1 4 0 0 0)).
Proof.
  unfold rotate3d, rot_matrix. change (ch_eq (lower_ch "z") "x") with false. change (ch_eq (lower_ch "z") "y") with false. change (ch_eq (lower_ch "z") "z") with true.
  cbn [S_ String.list_ascii_of_string rbind option_map]. change (ch_eq (lower_ch "z") "x") with false. change (ch_eq (lower_ch "z") "y") with false. change (ch_eq (lower_ch "z") "z") with true.
  cbn [rbind option_map]. rewrite sin_PI2, cos_PI2. do 2 f_equal. cbn. f_equal; ring.
Qed.
Example C39_case : exists e, call_layers [Layer 1 100 1 1; Layer 3 (-50) 2 1] = Ok e /\ C_vert e = 3 / 2 /\ C_para e = 2 /\ S_vert e = 50.
Proof. eexists. split; [apply anilay_layers; discriminate|]. cbn. unfold tot; cbn. repeat split; field. Qed.
Example C39_case_good : Forall good_layer [Layer 1 100 1 1; Layer 3 (-50) 2 1].
Proof. repeat constructor; cbn; lra. Qed.
