From Coq Require Import Reals Lra Lia.
From Verif Require Import Py RUtil ScatSpec KlemModel KlemSpec.
Local Open Scope R_scope.

Lemma map2_map {X A B C} (f : A -> B -> C) (g : X -> A) (h : X -> B) l : map2 f (map g l) (map h l) = map (fun x => f (g x) (h x)) l.
Proof. induction l; cbn; congruence. Qed.
Lemma map2_app {A B C} (f : A -> B -> C) l1 l2 : forall k1 k2, List.length l1 = List.length k1 -> map2 f (l1 ++ l2) (k1 ++ k2) = map2 f l1 k1 ++ map2 f l2 k2.
Proof. induction l1 as [|a l1 IH]; intros [|b k1] k2 H; cbn in *; try discriminate; [reflexivity|]. rewrite IH by lia. reflexivity. Qed.
Lemma map2_repeat {A B C} (f : A -> B -> C) a b n : map2 f (repeat a n) (repeat b n) = repeat (f a b) n.
Proof. induction n; cbn; congruence. Qed.
Lemma sum_zeros n : sumR (repeat 0 n) = 0.
Proof. induction n; cbn; lra. Qed.
Definition padrow {X} (n : nat) (v : R) (g : X -> R) (s : list X) : list R := map g s ++ repeat v (n - List.length s).
Lemma nmax_ge l x : In x l -> (List.length x <= nmax l)%nat.
Proof. unfold nmax. induction l as [|y l IH]; cbn; [intros []|]. intros [->|H]; [lia|]. specialize (IH H). lia. Qed.
Lemma nmax_map {X} (g : X -> R) d : nmax (map (map g) d) = fold_right Nat.max 0%nat (map (@List.length X) d).
Proof. unfold nmax. rewrite map_map. f_equal. apply map_ext. intros s. apply map_length. Qed.
Lemma pads {X} (g : X -> R) v n d : (forall s, In s d -> (List.length s <= n)%nat) -> mapM (pad n v) (map (map g) d) = Ok (map (padrow n v g) d).
Proof.
  induction d as [|s d IH]; intros H; [reflexivity|]. cbn [map mapM]. unfold pad at 1. rewrite map_length.
  assert (L := H s (or_introl eq_refl)). assert (E : (n <? List.length s)%nat = false) by (apply Nat.ltb_ge; exact L). rewrite E. cbv beta iota delta [rbind].
  rewrite IH by (intros t Ht; apply H; right; exact Ht). reflexivity.
Qed.
Lemma row2 {X} (f : R -> R -> R) (g h : X -> R) n a b s : f a b = 0 ->
  sumR (map2 f (padrow n a g s) (padrow n b h s)) = sumR (map (fun p => f (g p) (h p)) s).
Proof.
  intros H. unfold padrow. rewrite map2_app by (rewrite !map_length; reflexivity). rewrite map2_map, map2_repeat, sumR_app, H, sum_zeros. lra.
Qed.
Lemma row_sum {X} (g : X -> R) n s : sumR (padrow n 0 g s) = sumR (map g s).
Proof. unfold padrow. rewrite sumR_app, sum_zeros. lra. Qed.
Lemma map_fst_sub {X} (g h : X -> R) (s : list X) : map (fun p => fst p * snd p) (map (fun x => (g x, h x)) s) = map (fun x => g x * h x) s.
Proof. rewrite map_map. reflexivity. Qed.
(** the means and sums computed on padded rows *)
Lemma mean_row (h : species -> R) n s : mean (padrow n 0 s_occ s) (padrow n 1 h s) = wmean (map (fun p => (s_occ p, h p)) s).
Proof. unfold mean, wmean. rewrite row2 by lra. rewrite map_map. reflexivity. Qed.
Lemma disorder_row (h : species -> R) n s : wmean (map (fun p => (s_occ p, h p)) s) <> 0 ->
  disorder (padrow n 0 s_occ s) (padrow n 1 h s) (wmean (map (fun p => (s_occ p, h p)) s)) = spread (map (fun p => (s_occ p, h p)) s).
Proof.
  intros H. unfold disorder, spread. set (w := wmean _) in *. rewrite row2 by ring. rewrite map_map. apply sumR_ext. intros p _. cbn [fst snd]. field. exact H.
Qed.
Lemma disorder_row0 (h : species -> R) n s w : disorder (padrow n 0 s_occ s) (padrow n 1 h s) w = sumR (map (fun p => s_occ p * (1 - h p / w) ^ 2) s).
Proof. unfold disorder. rewrite row2 by ring. reflexivity. Qed.
Lemma close1_iff x : close1 x = true <-> nearly1 x.
Proof. unfold close1, nearly1. rewrite Rmult_1_r. destruct (Rle_dec _ _); split; intros; try assumption; try reflexivity; try discriminate; contradiction. Qed.
Definition nn (d : list (list species)) : nat := fold_right Nat.max 0%nat (map (@List.length _) d).
Lemma nn_ge d s : In s d -> (List.length s <= nn d)%nat.
Proof. unfold nn. induction d as [|y l IH]; cbn; [intros []|]. intros [->|H]; [lia|]. specialize (IH H). lia. Qed.
Lemma total_doc {X} (op mp g : X -> R) d : total (map op d) (map mp d) (map g d) = doc_Gamma (map (fun s => (op s, mp s, g s)) d).
Proof. unfold total, doc_Gamma. rewrite !map2_map, !map_map. cbn [fst snd]. reflexivity. Qed.
Definition gam (op : list species -> R) (h : species -> R) (d : list (list species)) : R :=
  doc_Gamma (map (fun s => (op s, wmean (with_mass s), sumR (map (fun p => s_occ p * (1 - h p / wmean (map (fun p => (s_occ p, h p)) s)) ^ 2) s))) d).
Lemma gamma_doc (op : list species -> R) h n d :
  gamma (map (padrow n 0 s_occ) d) (map (padrow n 1 s_mass) d) (map (padrow n 1 h) d) (map op d) = gam op h d.
Proof.
  unfold gamma, gam. rewrite !map2_map.
  assert (E : map (fun s => mean (padrow n 0 s_occ s) (padrow n 1 s_mass s)) d = map (fun s => wmean (with_mass s)) d) by (apply map_ext; intros s; apply mean_row).
  rewrite E. erewrite (map_ext (fun s => disorder _ _ _)); [apply total_doc|]. intros s. cbn beta. rewrite mean_row. apply disorder_row0.
Qed.
Lemma fl_head d : d <> [] -> exists x r, occs d = x :: r.
Proof. destruct d; [congruence|]. intros _. cbn. eauto. Qed.
(** closed form of [fluctuation] *)
Definition sc (d : list (list species)) : R := -1 * sumR (map (fun s => sumR (map (fun p => s_occ p * ln (Rmax (s_occ p) (/ 10 ^ 12))) s)) d).
Lemma Sconf_row n d : Sconf (map (padrow n 0 s_occ) d) = sc d.
Proof.
  unfold Sconf, sc. f_equal. rewrite map_map. apply sumR_ext. intros s _. unfold padrow. rewrite map_app, sumR_app, map_map.
  assert (Z : sumR (map (fun x => x * ln (Rmax x (/ 10 ^ 12))) (repeat 0 (n - List.length s))) = 0) by (induction (n - List.length s)%nat as [|k IH]; cbn [repeat map sumR]; [reflexivity|rewrite IH; ring]).
  rewrite Z. ring.
Qed.
Definition frad (d : list (list species)) (r : bool) : list (list R) := if r then radiil d else [].
Lemma fl_close d alpha renorm r : d <> [] -> (forall s, In s d -> nearly1 (occ_total s)) ->
  fluctuation (occs d) (massesl d) (frad d r) alpha renorm =
  Ok (let gm := gam occ_total s_mass d in let gr := if r then gam occ_total s_rad d else 0 in (gm + alpha * gr, gm, gr, sc d)).
Proof.
  intros Hd Hc. destruct (fl_head d Hd) as (x & t & E). unfold fluctuation. rewrite E, <- E. clear x t E. assert (En : nmax (occs d) = nn d) by (unfold occs; apply nmax_map). rewrite !En. clear En.
  unfold occs. rewrite (pads s_occ 0 (nn d) d (nn_ge d)). cbv beta iota delta [rbind]. rewrite map_map.
  assert (Eo : map (fun s => sumR (padrow (nn d) 0 s_occ s)) d = map occ_total d) by (apply map_ext; intros s; apply row_sum). rewrite Eo.
  assert (Ec : forallb close1 (map occ_total d) = true). { apply forallb_forall. intros x Hx. apply in_map_iff in Hx. destruct Hx as (s & <- & Hs). apply close1_iff, Hc, Hs. }
  rewrite Ec. cbv beta iota delta [rbind]. unfold massesl. rewrite (pads s_mass 1 (nn d) d (nn_ge d)). cbv beta iota delta [rbind]. rewrite gamma_doc, Sconf_row.
  unfold frad. destruct r; [|reflexivity]. unfold radiil. rewrite (pads s_rad 1 (nn d) d (nn_ge d)). cbv beta iota delta [rbind]. rewrite gamma_doc.
  destruct d; [congruence|]. reflexivity.
Qed.
Lemma fl_far d alpha renorm r : d <> [] -> ~ (forall s, In s d -> nearly1 (occ_total s)) -> (forall s, In s d -> occ_total s <> 0) ->
  fluctuation (occs d) (massesl d) (frad d r) alpha renorm =
  if renorm then fluctuation (occs (normalise d)) (massesl (normalise d)) (frad (normalise d) r) alpha true else Err ValueError.
Proof.
  intros Hd Hc Hs. destruct (fl_head d Hd) as (x & t & E). unfold fluctuation at 1. rewrite E, <- E. clear x t E. assert (En : nmax (occs d) = nn d) by (unfold occs; apply nmax_map). rewrite !En. clear En.
  unfold occs at 1. rewrite (pads s_occ 0 (nn d) d (nn_ge d)). cbv beta iota delta [rbind]. rewrite map_map.
  assert (Eo : map (fun s => sumR (padrow (nn d) 0 s_occ s)) d = map occ_total d) by (apply map_ext; intros s; apply row_sum). rewrite Eo.
  assert (Ec : forallb close1 (map occ_total d) = false).
  { destruct (forallb close1 (map occ_total d)) eqn:F; [|reflexivity]. exfalso. apply Hc. intros s H. rewrite forallb_forall in F. apply close1_iff, F, in_map, H. }
  rewrite Ec. destruct renorm; [|reflexivity]. cbv beta iota delta [rbind].
  assert (Nd : normalise d <> []) by (destruct d; [congruence|discriminate]).
  assert (Hn : forall s, In s (normalise d) -> occ_total s = 1).
  { intros s H. unfold normalise in H. apply in_map_iff in H. destruct H as (s0 & <- & H). unfold occ_total at 1. rewrite map_map. unfold s_occ at 1. cbn [fst].
    erewrite map_ext; [|intros p; unfold Rdiv; rewrite Rmult_comm; reflexivity]. rewrite sumR_scal. fold (occ_total s0). field. apply Hs, H. }
  rewrite fl_close; [|exact Nd|intros s H; rewrite (Hn s H); unfold nearly1; rewrite Rminus_eq_0, Rabs_R0; assert (0 < / 10 ^ 8) by (apply Rinv_0_lt_compat, pow_lt; lra); assert (0 < / 10 ^ 5) by (apply Rinv_0_lt_compat, pow_lt; lra); lra].
  unfold massesl. rewrite (pads s_mass 1 (nn d) d (nn_ge d)). cbv beta iota delta [rbind].
  assert (Er : map2 (fun c o => map (fun x => x / o) c) (map (padrow (nn d) 0 s_occ) d) (map occ_total d) = map (padrow (nn d) 0 s_occ) (normalise d)).
  { rewrite map2_map. unfold normalise. rewrite map_map. apply map_ext. intros s. unfold padrow. rewrite map_app, !map_map, map_length. f_equal.
    induction (nn d - List.length s)%nat as [|k IH]; cbn; [reflexivity|]. rewrite IH. f_equal. unfold Rdiv. ring. }
  assert (Em : forall h : species -> R, (forall a b c e, h (a, b, c) = h (e, b, c)) -> map (padrow (nn d) 1 h) d = map (padrow (nn d) 1 h) (normalise d)).
  { intros h Hh. unfold normalise. rewrite map_map. apply map_ext. intros s. unfold padrow. rewrite map_map, map_length. f_equal. apply map_ext. intros [[a b] c]. apply Hh. }
  assert (Ep : map (fun _ => 1) (map occ_total d) = map occ_total (normalise d)).
  { transitivity (map (fun _ => 1) (normalise d)); [unfold normalise; rewrite !map_map; reflexivity|]. apply map_ext_in. intros s H. symmetry. apply Hn, H. }
  rewrite Er, Ep, (Em s_mass) by reflexivity. rewrite gamma_doc, Sconf_row.
  unfold frad. destruct r; [|reflexivity]. unfold radiil. rewrite (pads s_rad 1 (nn d) d (nn_ge d)). cbv beta iota delta [rbind]. rewrite (Em s_rad) by reflexivity. rewrite gamma_doc.
  destruct d; [congruence|]. reflexivity.
Qed.
