(** Auxiliary lemmas for AniProps. *)
From Coq Require Import Permutation.
From Verif Require Import Py PyStr RUtil AniModel AniSpec.
Local Open Scope R_scope.

Ltac cases3 := let H := fresh in
  match goal with |- In ?i idx -> _ => intros [<-|[<-|[<-|[]]]] end.

Lemma sum3_ext f g : (forall k, In k idx -> f k = g k) -> sum3 f = sum3 g.
Proof. intros H. unfold sum3. rewrite !H by (cbn; tauto). reflexivity. Qed.
Lemma rot_by_matrix m c : rotate3d (ByMatrix m) c = Ok (Some (rotate_with m c)).
Proof. reflexivity. Qed.

Lemma rotate_entries m c i j : In i idx -> In j idx ->
  sym_ent (rotate_with m c) i j = sum3 (fun k => sum3 (fun l => ent m i k * sym_ent c k l * ent m j l)).
Proof. destruct m, c. intros [<-|[<-|[<-|[]]]] [<-|[<-|[<-|[]]]]; unfold sum3; cbn; ring. Qed.

Lemma v6_ext c c' : (forall i j, In i idx -> In j idx -> sym_ent c i j = sym_ent c' i j) -> c = c'.
Proof.
  intros H. destruct c, c'.
  assert (H11 := H 1%nat 1%nat). assert (H22 := H 2%nat 2%nat). assert (H33 := H 3%nat 3%nat).
  assert (H12 := H 1%nat 2%nat). assert (H13 := H 1%nat 3%nat). assert (H23 := H 2%nat 3%nat).
  cbn in *. f_equal; auto.
Qed.
Lemma m3_ext m m' : (forall i j, In i idx -> In j idx -> ent m i j = ent m' i j) -> m = m'.
Proof.
  intros H. destruct m, m'.
  assert (H11 := H 1%nat 1%nat). assert (H22 := H 2%nat 2%nat). assert (H33 := H 3%nat 3%nat).
  assert (H12 := H 1%nat 2%nat). assert (H13 := H 1%nat 3%nat). assert (H23 := H 2%nat 3%nat).
  assert (H21 := H 2%nat 1%nat). assert (H31 := H 3%nat 1%nat). assert (H32 := H 3%nat 2%nat).
  cbn in *. f_equal; auto.
Qed.
Lemma matmul_ent a b i j : In i idx -> In j idx -> ent (matmul a b) i j = sum3 (fun k => ent a i k * ent b k j).
Proof. destruct a, b. intros [<-|[<-|[<-|[]]]] [<-|[<-|[<-|[]]]]; reflexivity. Qed.

Lemma rotate_compose m2 m1 c : rotate_with m2 (rotate_with m1 c) = rotate_with (matmul m2 m1) c.
Proof. destruct m2, m1, c. cbn. f_equal; ring. Qed.
Lemma rotate_id c : rotate_with identity3 c = c.
Proof. destruct c. cbn. f_equal; ring. Qed.

Section Orth.
Variable m : M3.
Hypothesis Ho : orthogonal m.
Lemma gram : x11 m * x11 m + x21 m * x21 m + x31 m * x31 m = 1 /\ x12 m * x12 m + x22 m * x22 m + x32 m * x32 m = 1
  /\ x13 m * x13 m + x23 m * x23 m + x33 m * x33 m = 1 /\ x11 m * x12 m + x21 m * x22 m + x31 m * x32 m = 0
  /\ x11 m * x13 m + x21 m * x23 m + x31 m * x33 m = 0 /\ x12 m * x13 m + x22 m * x23 m + x32 m * x33 m = 0.
Proof.
  assert (I1 : In 1%nat idx) by (cbn; tauto). assert (I2 : In 2%nat idx) by (cbn; tauto). assert (I3 : In 3%nat idx) by (cbn; tauto).
  pose proof (Ho 1%nat 1%nat I1 I1). pose proof (Ho 2%nat 2%nat I2 I2). pose proof (Ho 3%nat 3%nat I3 I3).
  pose proof (Ho 1%nat 2%nat I1 I2). pose proof (Ho 1%nat 3%nat I1 I3). pose proof (Ho 2%nat 3%nat I2 I3).
  unfold sum3, delta in *. cbn in *. repeat split; assumption.
Qed.
Lemma det_sq : (det3 (ent m)) * (det3 (ent m)) = 1.
Proof.
  destruct gram as (G1 & G2 & G3 & G4 & G5 & G6). unfold det3; cbn [ent].
  set (a := x11 m) in *. set (b := x12 m) in *. set (c := x13 m) in *. set (d := x21 m) in *. set (e := x22 m) in *.
  set (f := x23 m) in *. set (g := x31 m) in *. set (h := x32 m) in *. set (k := x33 m) in *.
  transitivity ((a*a+d*d+g*g) * ((b*b+e*e+h*h) * (c*c+f*f+k*k) - (b*c+e*f+h*k) * (b*c+e*f+h*k))
    - (a*b+d*e+g*h) * ((a*b+d*e+g*h) * (c*c+f*f+k*k) - (b*c+e*f+h*k) * (a*c+d*f+g*k))
    + (a*c+d*f+g*k) * ((a*b+d*e+g*h) * (b*c+e*f+h*k) - (b*b+e*e+h*h) * (a*c+d*f+g*k))); [ring|].
  rewrite G1, G2, G3, G4, G5, G6. ring.
Qed.
(** rows are orthonormal too *)
Lemma orth_rows : orthogonal (transpose m).
Proof.
  destruct gram as (G1 & G2 & G3 & G4 & G5 & G6). pose proof det_sq as HD. unfold det3 in HD. cbn [ent] in HD.
  unfold orthogonal, transpose. 
  set (a := x11 m) in *. set (b := x12 m) in *. set (c := x13 m) in *. set (d := x21 m) in *. set (e := x22 m) in *.
  set (f := x23 m) in *. set (g := x31 m) in *. set (h := x32 m) in *. set (k := x33 m) in *.
  set (D := a * (e * k - f * h) - b * (d * k - f * g) + c * (d * h - e * g)) in *.
  assert (A1 : a * D = e * k - f * h).
  { transitivity ((a*a+d*d+g*g) * (e*k - f*h) + (a*b+d*e+g*h) * (f*g - d*k) + (a*c+d*f+g*k) * (d*h - e*g)); [unfold D; ring|rewrite G1, G4, G5; ring]. }
  assert (A2 : b * D = f * g - d * k).
  { transitivity ((a*b+d*e+g*h) * (e*k - f*h) + (b*b+e*e+h*h) * (f*g - d*k) + (b*c+e*f+h*k) * (d*h - e*g)); [unfold D; ring|rewrite G4, G2, G6; ring]. }
  assert (A3 : c * D = d * h - e * g).
  { transitivity ((a*c+d*f+g*k) * (e*k - f*h) + (b*c+e*f+h*k) * (f*g - d*k) + (c*c+f*f+k*k) * (d*h - e*g)); [unfold D; ring|rewrite G5, G6, G3; ring]. }
  assert (B1 : d * D = c * h - b * k).
  { transitivity ((a*a+d*d+g*g) * (c*h - b*k) + (a*b+d*e+g*h) * (a*k - c*g) + (a*c+d*f+g*k) * (b*g - a*h)); [unfold D; ring|rewrite G1, G4, G5; ring]. }
  assert (B2 : e * D = a * k - c * g).
  { transitivity ((a*b+d*e+g*h) * (c*h - b*k) + (b*b+e*e+h*h) * (a*k - c*g) + (b*c+e*f+h*k) * (b*g - a*h)); [unfold D; ring|rewrite G4, G2, G6; ring]. }
  assert (B3 : f * D = b * g - a * h).
  { transitivity ((a*c+d*f+g*k) * (c*h - b*k) + (b*c+e*f+h*k) * (a*k - c*g) + (c*c+f*f+k*k) * (b*g - a*h)); [unfold D; ring|rewrite G5, G6, G3; ring]. }
  assert (C1 : g * D = b * f - c * e).
  { transitivity ((a*a+d*d+g*g) * (b*f - c*e) + (a*b+d*e+g*h) * (c*d - a*f) + (a*c+d*f+g*k) * (a*e - b*d)); [unfold D; ring|rewrite G1, G4, G5; ring]. }
  assert (C2 : h * D = c * d - a * f).
  { transitivity ((a*b+d*e+g*h) * (b*f - c*e) + (b*b+e*e+h*h) * (c*d - a*f) + (b*c+e*f+h*k) * (a*e - b*d)); [unfold D; ring|rewrite G4, G2, G6; ring]. }
  assert (C3 : k * D = a * e - b * d).
  { transitivity ((a*c+d*f+g*k) * (b*f - c*e) + (b*c+e*f+h*k) * (c*d - a*f) + (c*c+f*f+k*k) * (a*e - b*d)); [unfold D; ring|rewrite G5, G6, G3; ring]. }
  assert (HD0 : D <> 0) by (intros E; rewrite E in HD; lra).
  assert (R11 : a*a + b*b + c*c = 1). { apply Rmult_eq_reg_r with D; [|exact HD0]. replace ((a*a+b*b+c*c)*D) with (a*(a*D) + b*(b*D) + c*(c*D)) by ring. rewrite A1, A2, A3. unfold D; ring. }
  assert (R22 : d*d + e*e + f*f = 1). { apply Rmult_eq_reg_r with D; [|exact HD0]. replace ((d*d+e*e+f*f)*D) with (d*(d*D) + e*(e*D) + f*(f*D)) by ring. rewrite B1, B2, B3. unfold D; ring. }
  assert (R33 : g*g + h*h + k*k = 1). { apply Rmult_eq_reg_r with D; [|exact HD0]. replace ((g*g+h*h+k*k)*D) with (g*(g*D) + h*(h*D) + k*(k*D)) by ring. rewrite C1, C2, C3. unfold D; ring. }
  assert (R12 : a*d + b*e + c*f = 0). { apply Rmult_eq_reg_r with D; [|exact HD0]. replace ((a*d+b*e+c*f)*D) with (a*(d*D) + b*(e*D) + c*(f*D)) by ring. rewrite B1, B2, B3. ring. }
  assert (R13 : a*g + b*h + c*k = 0). { apply Rmult_eq_reg_r with D; [|exact HD0]. replace ((a*g+b*h+c*k)*D) with (a*(g*D) + b*(h*D) + c*(k*D)) by ring. rewrite C1, C2, C3. ring. }
  assert (R23 : d*g + e*h + f*k = 0). { apply Rmult_eq_reg_r with D; [|exact HD0]. replace ((d*g+e*h+f*k)*D) with (d*(g*D) + e*(h*D) + f*(k*D)) by ring. rewrite C1, C2, C3. ring. }
  intros i j [<-|[<-|[<-|[]]]] [<-|[<-|[<-|[]]]]; unfold sum3, delta; cbn; lra.
Qed.
Lemma matmul_transpose : matmul (transpose m) m = identity3.
Proof. destruct gram as (G1 & G2 & G3 & G4 & G5 & G6). unfold matmul, transpose, identity3; cbn. f_equal; lra. Qed.
End Orth.

Lemma rotate_quad m c v : quad (rotate_with m c) v
  = quad c (apply_mat (transpose m) v 1, apply_mat (transpose m) v 2, apply_mat (transpose m) v 3).
Proof. destruct m, c, v as [[a b] d]. unfold quad, apply_mat, sum3, sym_ent. cbn. ring. Qed.

Lemma apply_nonzero m v : orthogonal m -> v <> (0, 0, 0) ->
  (apply_mat (transpose m) v 1, apply_mat (transpose m) v 2, apply_mat (transpose m) v 3) <> (0, 0, 0).
Proof.
  intros Ho Hv E. injection E as E1 E2 E3. apply Hv. pose proof (orth_rows m Ho) as Hr. apply gram in Hr. cbn in Hr.
  destruct Hr as (G1 & G2 & G3 & G4 & G5 & G6). destruct v as [[p q] r]. unfold apply_mat, sum3 in *. cbn in E1, E2, E3.
  set (a := x11 m) in *. set (b := x12 m) in *. set (c := x13 m) in *. set (d := x21 m) in *. set (e := x22 m) in *.
  set (f := x23 m) in *. set (g := x31 m) in *. set (h := x32 m) in *. set (k := x33 m) in *.
  assert (P : p = 0).
  { transitivity (p * (a*a+b*b+c*c) + q * (a*d+b*e+c*f) + r * (a*g+b*h+c*k)); [rewrite G1, G4, G5; ring|].
    transitivity (a * (a*p+d*q+g*r) + b * (b*p+e*q+h*r) + c * (c*p+f*q+k*r)); [ring|rewrite E1, E2, E3; ring]. }
  assert (Q : q = 0).
  { transitivity (p * (a*d+b*e+c*f) + q * (d*d+e*e+f*f) + r * (d*g+e*h+f*k)); [rewrite G2, G4, G6; ring|].
    transitivity (d * (a*p+d*q+g*r) + e * (b*p+e*q+h*r) + f * (c*p+f*q+k*r)); [ring|rewrite E1, E2, E3; ring]. }
  assert (S : r = 0).
  { transitivity (p * (a*g+b*h+c*k) + q * (d*g+e*h+f*k) + r * (g*g+h*h+k*k)); [rewrite G3, G5, G6; ring|].
    transitivity (g * (a*p+d*q+g*r) + h * (b*p+e*q+h*r) + k * (c*p+f*q+k*r)); [ring|rewrite E1, E2, E3; ring]. }
  congruence.
Qed.

(** Invariants through the Gram matrix. *)
Lemma inv_trace m c : orthogonal m -> trace (rotate_with m c) = trace c.
Proof.
  intros Ho. destruct (gram m Ho) as (G1 & G2 & G3 & G4 & G5 & G6). destruct m as [a b d e f g h k l], c as [p q r s t u]. cbn in *. unfold trace; cbn.
  transitivity (p * (a*a+e*e+h*h) + q * (b*b+f*f+k*k) + r * (d*d+g*g+l*l) + 2 * u * (a*b+e*f+h*k) + 2 * t * (a*d+e*g+h*l) + 2 * s * (b*d+f*g+k*l)); [ring|].
  rewrite G1, G2, G3, G4, G5, G6. ring.
Qed.
Definition square_seq (c : V6) : V6 :=      (* C^2 *)
  let '(mk6 p q r s t u) := c in
  mk6 (p*p+u*u+t*t) (u*u+q*q+s*s) (t*t+s*s+r*r) (u*t+q*s+s*r) (p*t+u*s+t*r) (p*u+u*q+t*s).
Lemma second_by_trace c : second_invariant c = (trace c * trace c - trace (square_seq c)) / 2.
Proof. destruct c. unfold second_invariant, trace; cbn. field. Qed.
Lemma square_rotate m c : orthogonal m -> square_seq (rotate_with m c) = rotate_with m (square_seq c).
Proof.
  intros Ho. destruct (gram m Ho) as (G1 & G2 & G3 & G4 & G5 & G6).
  (* (R C R^T)(R C R^T) = R C (R^T R) C R^T *)
  set (G := mk3 1 0 0 0 1 0 0 0 1).
  assert (H : forall i j, In i idx -> In j idx -> sym_ent (square_seq (rotate_with m c)) i j
     = sum3 (fun k => sum3 (fun l => ent m i k * sum3 (fun p => sum3 (fun q => sym_ent c k p * sum3 (fun z => ent m z p * ent m z q) * sym_ent c q l)) * ent m j l))).
  { clear. destruct m, c. intros i j [<-|[<-|[<-|[]]]] [<-|[<-|[<-|[]]]]; unfold sum3; cbn; ring. }
  apply v6_ext. intros i j Hi Hj. rewrite H, rotate_entries by assumption.
  assert (H2 : forall k l, In k idx -> In l idx ->
     sum3 (fun p => sum3 (fun q => sym_ent c k p * sum3 (fun z => ent m z p * ent m z q) * sym_ent c q l)) = sym_ent (square_seq c) k l).
  { intros k l Hk Hl.
    assert (E : forall p q, In p idx -> In q idx -> sum3 (fun z => ent m z p * ent m z q) = delta p q) by exact Ho.
    transitivity (sum3 (fun p => sum3 (fun q => sym_ent c k p * delta p q * sym_ent c q l))).
    - apply sum3_ext; intros p Hp. apply sum3_ext; intros q Hq. rewrite (E p q Hp Hq). reflexivity.
    - clear - Hk Hl. destruct c. destruct Hk as [<-|[<-|[<-|[]]]], Hl as [<-|[<-|[<-|[]]]]; unfold sum3, delta; cbn; ring. }
  apply sum3_ext; intros k Hk. apply sum3_ext; intros l Hl. rewrite H2 by assumption. reflexivity.
Qed.
Lemma det3_mul (f g : nat -> nat -> R) : det3 (fun i j => sum3 (fun k => f i k * g k j)) = det3 f * det3 g.
Proof. unfold det3, sum3. ring. Qed.
Lemma inv_det m c : orthogonal m -> det_sym (rotate_with m c) = det_sym c.
Proof.
  intros Ho. unfold det_sym.
  assert (E : det3 (sym_ent (rotate_with m c)) = det3 (fun i j => sum3 (fun k => ent m i k * sum3 (fun l => sym_ent c k l * ent m j l)))).
  { assert (I1 : In 1%nat idx) by (cbn; tauto). assert (I2 : In 2%nat idx) by (cbn; tauto). assert (I3 : In 3%nat idx) by (cbn; tauto).
    unfold det3 at 1. rewrite !rotate_entries by assumption. unfold det3, sum3. ring. }
  rewrite E, (det3_mul (ent m) (fun k j => sum3 (fun l => sym_ent c k l * ent m j l))).
  rewrite (det3_mul (sym_ent c) (fun l j => ent m j l)).
  assert (Et : det3 (fun l j => ent m j l) = det3 (ent m)) by (unfold det3; ring).
  rewrite Et. transitivity (det3 (sym_ent c) * (det3 (ent m) * det3 (ent m))); [ring|]. rewrite det_sq by exact Ho. ring.
Qed.

(** ** Weighted means *)
Lemma tot_ext f g l : (forall x, In x l -> f x = g x) -> tot f l = tot g l.
Proof. apply sumR_ext. Qed.
Lemma tot_scal c f l : tot (fun x => c * f x) l = c * tot f l.
Proof. apply sumR_scal. Qed.
Lemma tot_plus f g l : tot (fun x => f x + g x) l = tot f l + tot g l.
Proof. apply sumR_plus. Qed.
Lemma tot_pos f l : l <> [] -> (forall x, In x l -> 0 < f x) -> 0 < tot f l.
Proof.
  intros Hl H. destruct l as [|a l]; [congruence|]. unfold tot. cbn.
  assert (0 <= sumR (map f l)). { apply sumR_nonneg, Forall_map, Forall_forall. intros x Hx. left. apply H. right; exact Hx. }
  pose proof (H a (or_introl eq_refl)). lra.
Qed.
Lemma tot_nonneg f l : (forall x, In x l -> 0 <= f x) -> 0 <= tot f l.
Proof. intros H. apply sumR_nonneg, Forall_map, Forall_forall. exact H. Qed.
Lemma tot_le f g l : (forall x, In x l -> f x <= g x) -> tot f l <= tot g l.
Proof. apply sumR_le. Qed.
Lemma tot_perm f l l' : Permutation l l' -> tot f l = tot f l'.
Proof. unfold tot. induction 1; cbn; lra. Qed.

Lemma wmean (g f : layer -> R) l lo hi : l <> [] -> (forall x, In x l -> 0 < g x) -> between lo hi f l ->
  lo <= tot (fun x => g x * f x) l / tot g l <= hi.
Proof.
  intros Hl Hg Hb. pose proof (tot_pos g l Hl Hg) as HG. split.
  - apply Rmult_le_reg_r with (tot g l); [exact HG|]. unfold Rdiv. rewrite Rmult_assoc, Rinv_l, Rmult_1_r by lra.
    rewrite <- tot_scal. apply tot_le. intros x Hx. specialize (Hg x Hx). destruct (Hb x Hx). nra.
  - apply Rmult_le_reg_r with (tot g l); [exact HG|]. unfold Rdiv. rewrite Rmult_assoc, Rinv_l, Rmult_1_r by lra.
    rewrite <- tot_scal. apply tot_le. intros x Hx. specialize (Hg x Hx). destruct (Hb x Hx). nra.
Qed.

(** weighted variance *)
Lemma wvar (g f : layer -> R) l : tot g l <> 0 ->
  let mu := tot (fun x => g x * f x) l / tot g l in
  tot (fun x => g x * (f x - mu) ^ 2) l = tot (fun x => g x * (f x * f x)) l - tot (fun x => g x * f x) l * mu.
Proof.
  intros HG mu.
  rewrite (tot_ext (fun x => g x * (f x - mu) ^ 2) (fun x => g x * (f x * f x) + ((-2 * mu) * (g x * f x) + (mu * mu) * g x))) by (intros; ring).
  rewrite tot_plus, tot_plus, !tot_scal. unfold mu. field. exact HG.
Qed.

(** weighted Cauchy-Schwarz *)
Lemma wcs (g f : layer -> R) l : l <> [] -> (forall x, In x l -> 0 < g x) ->
  tot (fun x => g x * f x) l * tot (fun x => g x * f x) l <= tot g l * tot (fun x => g x * (f x * f x)) l.
Proof.
  intros Hl Hg. pose proof (tot_pos g l Hl Hg) as HG.
  assert (Hn : tot g l <> 0) by lra. pose proof (wvar g f l Hn) as E. cbv zeta in E.
  assert (H0 : 0 <= tot (fun x => g x * (f x - tot (fun x => g x * f x) l / tot g l) ^ 2) l).
  { apply tot_nonneg. intros x Hx. apply Rmult_le_pos; [left; apply Hg; exact Hx|apply pow2_ge_0]. }
  rewrite E in H0. set (A := tot (fun x => g x * (f x * f x)) l) in *. set (B := tot (fun x => g x * f x) l) in *. set (G := tot g l) in *.
  apply Rmult_le_compat_l with (r := G) in H0; [|lra]. rewrite Rmult_0_r in H0.
  replace (G * (A - B * (B / G))) with (G * A - B * B) in H0 by (field; lra). lra.
Qed.

(** series <= parallel, with equality iff all values agree *)
Section Series.
Variables (f : layer -> R) (l : list layer).
Hypothesis (Hl : l <> []) (Hf : forall x, In x l -> 0 < f x) (Hw : forall x, In x l -> 0 < lw x).
Let q := tot (fun x => lw x / f x) l.
Let W := tot lw l.
Let P := tot (fun x => lw x * f x) l.
Lemma q_pos : 0 < q. Proof. apply tot_pos; [exact Hl|]. intros x Hx. apply Rdiv_lt_0_compat; auto. Qed.
Lemma W_pos : 0 < W. Proof. apply tot_pos; [exact Hl|exact Hw]. Qed.
Lemma W_as : W = tot (fun x => lw x / f x * f x) l.
Proof. apply tot_ext. intros x Hx. field. specialize (Hf x Hx). lra. Qed.
Lemma P_as : P = tot (fun x => lw x / f x * (f x * f x)) l.
Proof. apply tot_ext. intros x Hx. field. specialize (Hf x Hx). lra. Qed.
Lemma series_bounds lo hi : between lo hi f l -> lo <= W / q <= hi.
Proof. intros H. rewrite W_as. apply (wmean (fun x => lw x / f x)); [exact Hl| |exact H]. intros x Hx. apply Rdiv_lt_0_compat; auto. Qed.
Lemma parallel_bounds lo hi : between lo hi f l -> lo <= P / W <= hi.
Proof. intros H. apply (wmean lw); [exact Hl|exact Hw|exact H]. Qed.
Lemma series_var : P / W - W / q = tot (fun x => lw x / f x * (f x - W / q) ^ 2) l / W.
Proof.
  pose proof q_pos as Hq. pose proof W_pos as HW.
  assert (Hn : tot (fun x => lw x / f x) l <> 0) by (fold q; lra).
  pose proof (wvar (fun x => lw x / f x) f l Hn) as E. cbv beta zeta in E. rewrite <- W_as, <- P_as in E. fold q in E. rewrite E. field. lra.
Qed.
Lemma series_le_parallel : W / q <= P / W.
Proof.
  pose proof W_pos. assert (0 <= P / W - W / q); [|lra]. rewrite series_var.
  apply Rmult_le_pos; [|left; apply Rinv_0_lt_compat; assumption].
  apply tot_nonneg. intros x Hx. apply Rmult_le_pos; [left; apply Rdiv_lt_0_compat; auto|apply pow2_ge_0].
Qed.
Lemma series_eq_parallel : W / q = P / W <-> (forall x y, In x l -> In y l -> f x = f y).
Proof.
  pose proof W_pos as HW. split.
  - intros E. assert (E0 : tot (fun x => lw x / f x * (f x - W / q) ^ 2) l = 0).
    { pose proof series_var as V. apply (f_equal (fun z => z * W)) in V. unfold Rdiv at 3 in V. rewrite Rmult_assoc, Rinv_l, Rmult_1_r in V by lra. rewrite <- V. rewrite E. ring. }
    unfold tot in E0. apply sumR_zero in E0.
    + assert (Hx : forall x, In x l -> f x = W / q).
      { intros x Hx. rewrite Forall_map, Forall_forall in E0. specialize (E0 x Hx). cbn beta in E0.
        apply Rmult_integral in E0 as [E0|E0].
        - pose proof (Rdiv_lt_0_compat _ _ (Hw x Hx) (Hf x Hx)). lra.
        - replace ((f x - W / q) ^ 2) with ((f x - W / q) * (f x - W / q)) in E0 by ring. apply Rmult_integral in E0. lra. }
      intros x y Hx' Hy'. rewrite (Hx x Hx'), (Hx y Hy'). reflexivity.
    + apply Forall_map, Forall_forall. intros x Hx. apply Rmult_le_pos; [left; apply Rdiv_lt_0_compat; auto|apply pow2_ge_0].
  - intros H. assert (Ha : exists a, In a l) by (destruct l as [|a r]; [congruence|exists a; left; reflexivity]). destruct Ha as (a & Ha).
    assert (Hb : between (f a) (f a) f l). { intros x Hx. rewrite (H x a Hx Ha). lra. }
    pose proof (series_bounds _ _ Hb). pose proof (parallel_bounds _ _ Hb). lra.
Qed.
End Series.

Lemma zip4_layers l : zip4 (map lC l) (map lS l) (map lK l) (map lw l) = l.
Proof. induction l as [|[a b c d] l IH]; [reflexivity|]. cbn. rewrite IH. reflexivity. Qed.
Lemma bc_same f (l : list layer) : l <> [] -> bc_to (length l) (Ar (map f l)) = map f l.
Proof.
  intros Hl. unfold bc_to. rewrite map_length. destruct (Nat.eqb_spec (length l) 1) as [E|E]; [|reflexivity].
  destruct l as [|a [|b l]]; cbn in *; [congruence|reflexivity|discriminate].
Qed.
Lemma anilay_layers l : l <> [] -> anilay (Ar (map lC l)) (Ar (map lS l)) (Ar (map lK l)) (WList (map lw l)) = Ok (effective l).
Proof.
  intros Hl. unfold anilay. assert (E : widths_or (WList (map lw l)) = Ok (Ar (map lw l))) by (destruct l; [congruence|reflexivity]).
  rewrite E. cbn [rbind bc_len]. rewrite !map_length. rewrite !Nat.eqb_refl. cbn [rbind]. rewrite ?map_length, ?Nat.eqb_refl. cbn [rbind]. rewrite ?map_length, ?Nat.eqb_refl. cbn [rbind]. rewrite !bc_same, zip4_layers by exact Hl. reflexivity.
Qed.
