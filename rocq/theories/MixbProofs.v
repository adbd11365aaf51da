(** Lemmas for MixbProps: weighted means and Cauchy's inequality over lists. *)
From Coq Require Import Reals Lra List.
From Verif Require Import Py RUtil.
Import ListNotations.
Local Open Scope R_scope.
Section L.
Context {A : Type}.
Variables (a b c : A -> R).
Lemma sum_pos l : (forall x, In x l -> 0 < a x) -> l <> [] -> 0 < sumR (map a l).
Proof.
  intros H Hl. destruct l as [|y l]; [congruence|]. assert (N : 0 <= sumR (map a l)). { apply sumR_nonneg, Forall_forall. intros z Hz. apply in_map_iff in Hz as (x & <- & Hx). left. apply H. right. exact Hx. }
  cbn [map sumR]. pose proof (H y (or_introl eq_refl)). lra.
Qed.
Lemma sum_le l : (forall x, In x l -> a x <= b x) -> sumR (map a l) <= sumR (map b l).
Proof. induction l as [|y l IH]; intros H; cbn [map sumR]; [lra|]. pose proof (H y (or_introl eq_refl)). specialize (IH (fun x Hx => H x (or_intror Hx))). lra. Qed.
Lemma sum_scal_r l k : sumR (map (fun x => k * a x) l) = k * sumR (map a l).
Proof. apply sumR_scal. Qed.
(** the sum of b^2/a is at least (sum b)^2 / sum a *)
Lemma sum_cauchy l : (forall x, In x l -> 0 < a x) -> l <> [] -> sumR (map b l) ^ 2 / sumR (map a l) <= sumR (map (fun x => b x ^ 2 / a x) l).
Proof.
  induction l as [|y l IH]; intros H Hl; [congruence|]. pose proof (H y (or_introl eq_refl)) as Y. destruct l as [|z l].
  - cbn [map sumR]. rewrite !Rplus_0_r. lra.
  - pose proof (sum_pos (z :: l) (fun x Hx => H x (or_intror Hx)) ltac:(discriminate)) as P. specialize (IH (fun x Hx => H x (or_intror Hx)) ltac:(discriminate)). revert P IH. set (m := z :: l). intros P IH. change (map a (y :: m)) with (a y :: map a m). change (map b (y :: m)) with (b y :: map b m). change (map (fun x => b x ^ 2 / a x) (y :: m)) with (b y ^ 2 / a y :: map (fun x => b x ^ 2 / a x) m). cbn [sumR].
    set (u := sumR (map a m)) in *. set (v := sumR (map b m)) in *. set (s := sumR (map (fun x => b x ^ 2 / a x) m)) in *.
    apply Rle_trans with (b y ^ 2 / a y + v ^ 2 / u); [|lra]. apply Rminus_le.
    replace ((b y + v) ^ 2 / (a y + u) - (b y ^ 2 / a y + v ^ 2 / u)) with (- ((b y * u - v * a y) ^ 2 / (a y * u * (a y + u)))) by (field; repeat split; lra).
    assert (0 <= (b y * u - v * a y) ^ 2 / (a y * u * (a y + u))); [|lra]. apply Rmult_le_pos; [apply pow2_ge_0|]. left. apply Rinv_0_lt_compat. apply Rmult_lt_0_compat; [apply Rmult_lt_0_compat; lra|lra].
Qed.
End L.
