(** C127: cumulative conductivities and the conductivity itself on arrays. *)
From Coq Require Import ZArith Reals String Ascii Lra Lia.
From Verif Require Import Py PyDict PyStr RUtil ScatModel EngModel DebyeModel ArrModel ArrSpec ArrProofs ArrProps VecModel VecSpec VecProofs VecProps BvecSpec BvecProofs KvecModel KvecSpec KvecProofs KcumProofs KvecProps.
Local Open Scope list_scope.
Local Open Scope nat_scope.

Section C127.
Variable X : Type.
Variable ka : karith X.
Let ar := k_ar ka.
Let z := a_lit ar 0%R.
(** ** [cumulative] *)
Theorem C127_cumulative td vs L l W T s acc ax m n : array W -> array T -> common [shape W; shape T] s -> same_mechs L l -> nth_error s ax = Some m -> Nat.max 1 n = m ->
  shape W = [n] \/ (List.length (shape W) = List.length s /\ nth_error (shape W) ax = Some n) ->
  exists D D', nd_spectral X ka td vs L W T acc = Ok D /\ nd_cumulative X ka td vs L W T acc ax = Ok D' /\ Forall2 (fun E E' => fst E' = fst E /\ running ar (snd E) (snd E') ax (freq_at W)) D D'.
Proof.
  intros HW HT Hs HL Em Hn Hw. destruct (C126_spectral X ka td vs L l W T s acc HW HT Hs HL) as (D & ED & Sh & _). exists D. unfold nd_cumulative. rewrite ED. cbv beta iota delta [rbind].
  assert (G : exists D', mapM (fun e : str * nd X => match cum_nd X ka (snd e) W ax with Ok y => Ok (fst e, y) | Err e0 => Err e0 end) D = Ok D' /\ Forall2 (fun E E' => fst E' = fst E /\ running ar (snd E) (snd E') ax (freq_at W)) D D').
  { clear ED. induction D as [|E D IH]; [exists []; split; [reflexivity|constructor]|]. destruct (Forall_inv Sh) as (AE & SE). destruct (IH (Forall_inv_tail Sh)) as (D' & E1 & H1). cbn [mapM]. 
    destruct (cum_running X ka (snd E) W ax m n AE HW) as (C & EC & HC); [rewrite SE; exact Em|exact Hn| |].
    - destruct Hw as [Hw|(Hw1 & Hw2)]; [left; exact Hw|]. right. rewrite SE. split; [exact Hw1|]. split; [exact Hw2|]. exact (Forall_inv (proj1 Hs)).
    - rewrite EC. unfold rbind. rewrite E1. eexists. split; [reflexivity|]. constructor; [split; [reflexivity|exact HC]|exact H1]. }
  destruct G as (D' & E' & H'). exists D'. auto.
Qed.
Theorem C127_cumulative_refused td vs L l W T acc ax :
  (no_common [shape W; shape T] -> nd_cumulative X ka td vs L W T acc ax = Err ValueError)
  /\ (forall s m, array W -> array T -> common [shape W; shape T] s -> same_mechs L l -> L <> [] -> nth_error s ax = Some m ->
      (exists n, shape W = [n] /\ Nat.max 1 n <> m) \/ (List.length (shape W) <> 1 /\ List.length (shape W) <> List.length s) \/ (List.length (shape W) = List.length s /\ exists n, nth_error (shape W) ax = Some n /\ Nat.max 1 n <> m) ->
      nd_cumulative X ka td vs L W T acc ax = Err ValueError).
Proof.
  split.
  - intros N. unfold nd_cumulative. assert (E : nd_spectral X ka td vs L W T acc = Err ValueError). { unfold nd_spectral, v_spectral. cbv zeta. fold ar z. rewrite (u2_none X z _ _ T); [reflexivity|]. intros s. exact (nocommon2 X W T N s). } rewrite E. reflexivity.
  - intros s m HW HT Hs HL Hne Em H. destruct (C126_spectral X ka td vs L l W T s acc HW HT Hs HL) as (D & ED & Sh & _). unfold nd_cumulative. rewrite ED. cbv beta iota delta [rbind].
    destruct D as [|E D]; [destruct (spectral_nonempty X ka td vs L W T acc [] ED Hne eq_refl)|]. cbn [mapM]. rewrite (cum_refused X ka (snd E) W ax m); [reflexivity|rewrite (proj2 (Forall_inv Sh)); exact Em|rewrite (proj2 (Forall_inv Sh)); exact H].
Qed.
(** ** [cumulative_mfp_t] *)
(** at one bin [j]: the arrays and the numbers *)
Lemma bin_walk td vs L l acc n (T : nd X) rl t j : same_mechs L l -> array T -> shape T = rl ++ [1] -> flat T = [t] ->
  let dw := x_dw X ka td n in let c := rl ++ [n] in let ic := repeat 0 (List.length rl) ++ [j] in
  (exists D d, nd_spectral X ka td vs L (bins X n (x_centre X ka dw)) T acc = Ok D /\ one_spectral X ka td vs l (x_centre X ka dw j) t acc = Ok d /\ drel X c ic D d)
  /\ forall f, exists D d, (let! d := rates (nd X) L (bins X n f) T in if acc then v_accum X ka (nd X) (u2 z) None d else Ok d) = Ok D /\ one_ends X ka l (f j) t acc = Ok d /\ drel X c ic D d.
Proof.
  intros HL HT Sh Fl dw c ic. assert (Lst : least (fun q => [n] = q \/ shape T = q) c). { intros r Hr. apply (proj2 (bins_common rl n)). constructor; [apply Hr; auto|constructor; [apply Hr; rewrite Sh; auto|constructor]]. }
  split.
  - apply (spectral_walk X ka c ic (eq [n]) (eq (shape T)) L l td vs acc _ T _ _ HL); [apply bins_rel|apply temp_rel; assumption|exact Lst].
  - intros f. apply (ends_walk X ka c ic (eq [n]) (eq (shape T)) L l acc _ T _ _ HL); [apply bins_rel|apply temp_rel; assumption|exact Lst].
Qed.
Theorem C127_mfp td vs L l (mfp T : nd X) t s acc n : let dw := x_dw X ka td n in
  array mfp -> array T -> flat T = [t] -> 0 < n -> k_lt ka dw (a_mul ar (a_lit ar 10) (x_EPS X ka)) = false -> same_mechs L l -> common [shape mfp; removelast (dims T)] s ->
  exists out, nd_cum_mfp X ka td vs L mfp T acc n = Ok out
    /\ (forall j, j < n -> exists d, one_spectral X ka td vs l (x_centre X ka dw j) t acc = Ok d /\ List.map fst out = List.map fst d)
    /\ forall k e, nth_error out k = Some e -> array (snd e) /\ shape (snd e) = s
       /\ exists sp fl fr : nat -> X,
            (forall j, j < n -> (exists d, one_spectral X ka td vs l (x_centre X ka dw j) t acc = Ok d /\ nth_error d k = Some (fst e, sp j))
               /\ (exists d key, one_ends X ka l (x_left X ka dw j) t acc = Ok d /\ nth_error d k = Some (key, fl j)) /\ (exists d key, one_ends X ka l (x_right X ka dw j) t acc = Ok d /\ nth_error d k = Some (key, fr j)))
            /\ forall i x, index s i -> sees mfp i x -> elem (snd e) i (k_sum ka (List.map (fun j => one_share X ka vs dw x (sp j) (fl j) (fr j)) (seq 0 n))).
Proof.
  intros dw HM HT Fl Hn Hd HL Hs. set (T1 := atleast_1d T). assert (AT : array T1) by (apply atleast_array, HT). assert (Fl1 : flat T1 = [t]) by (unfold T1, atleast_1d; destruct (shape T); exact Fl).
  assert (Sh : shape T1 = dims T) by apply dims_atleast. assert (Nn : dims T <> []) by (unfold dims; destruct (shape T); discriminate).
  assert (Cn : count (dims T) = 1). { rewrite <- Sh. unfold array in AT. rewrite Fl1 in AT. symmetry. exact AT. }
  assert (On := count_one _ Cn). set (rl := removelast (dims T)) in *. assert (Ed : dims T = rl ++ [1]).
  { unfold rl. rewrite (app_removelast_last 1 Nn) at 1. f_equal. f_equal. rewrite Forall_forall in On. symmetry. apply On. rewrite (app_removelast_last 1 Nn) at 2. apply in_or_app. right. left. reflexivity. }
  assert (Or : Forall (eq 1) rl). { rewrite Ed in On. apply Forall_app in On. apply On. } rewrite <- Sh in Ed.
  pose proof (fun j => bin_walk td vs L l acc n T1 rl t j HL AT Ed Fl1) as BW. cbv zeta in BW. fold dw in BW.
  destruct (proj1 (BW 0)) as (D & d0 & ED & _ & HD0). destruct (proj2 (BW 0) (x_left X ka dw)) as (DL & l0 & EL & _ & HL0). destruct (proj2 (BW 0) (x_right X ka dw)) as (DR & r0 & ER & _ & HR0).
  assert (Bs : forall j, exists d, one_spectral X ka td vs l (x_centre X ka dw j) t acc = Ok d /\ drel X (rl ++ [n]) (repeat 0 (List.length rl) ++ [j]) D d).
  { intros j. destruct (proj1 (BW j)) as (D' & d & E1 & E2 & H). rewrite ED in E1. injection E1 as <-. eauto. }
  assert (Bl : forall j, exists d, one_ends X ka l (x_left X ka dw j) t acc = Ok d /\ drel X (rl ++ [n]) (repeat 0 (List.length rl) ++ [j]) DL d).
  { intros j. destruct (proj2 (BW j) (x_left X ka dw)) as (D' & d & E1 & E2 & H). rewrite EL in E1. injection E1 as <-. eauto. }
  assert (Br : forall j, exists d, one_ends X ka l (x_right X ka dw j) t acc = Ok d /\ drel X (rl ++ [n]) (repeat 0 (List.length rl) ++ [j]) DR d).
  { intros j. destruct (proj2 (BW j) (x_right X ka dw)) as (D' & d & E1 & E2 & H). rewrite ER in E1. injection E1 as <-. eauto. }
  clear BW HD0 HL0 HR0 d0 l0 r0.
  (* lengths *)
  assert (LD := spectral_length X ka td vs L _ T1 acc D ED).
  assert (Len : forall f Q, (let! d := rates (nd X) L (bins X n f) T1 in if acc then v_accum X ka (nd X) (u2 z) None d else Ok d) = Ok Q -> List.length Q = List.length L).
  { intros f Q H. unfold rbind in H. destruct (rates (nd X) L (bins X n f) T1) as [q|] eqn:Eq; [|discriminate]. apply mapM_length in Eq. destruct acc; [apply accum_length in H; congruence|injection H as <-; exact Eq]. }
  assert (LL := Len _ _ EL). assert (LR := Len _ _ ER). clear Len.
  assert (Cm := mfp_common _ _ _ n Hs). assert (Fc : fits (rl ++ [n]) (s ++ [n])) by exact (Forall_inv (Forall_inv_tail (proj1 Cm))).
  assert (Up : forall i j, index (s ++ [n]) (i ++ [j]) -> index (rl ++ [n]) (repeat 0 (List.length rl) ++ [j]) /\ proj (rl ++ [n]) (i ++ [j]) = repeat 0 (List.length rl) ++ [j]).
  { intros i j I. apply index_snoc in I as (I & Hj). assert (Lr : List.length rl <= List.length i) by (rewrite (index_length _ _ I); apply fits_length; exact (Forall_inv (Forall_inv_tail (proj1 Hs)))).
    split; [apply index_snoc; split; [apply ones_index, Or|exact Hj]|]. rewrite proj_snoc by exact Lr. rewrite (ones_proj rl Or i Lr). f_equal. f_equal. destruct (Nat.eqb_spec n 1); lia. }
  assert (Ls : least (fun q => shape mfp ++ [1] = q \/ rl ++ [n] = q) (s ++ [n])). { intros r Hr. apply (proj2 Cm). constructor; [apply Hr; auto|constructor; [apply Hr; auto|constructor]]. }
  (* the arrays of one entry *)
  assert (En : forall k E A B, nth_error D k = Some E -> nth_error DL k = Some A -> nth_error DR k = Some B -> forall i j x, (index s i -> sees mfp i x) ->
    exists C sp kl fl kr fr, nd_mfp_cum X ka vs dw mfp (snd E) (snd A) (snd B) = Ok C /\ (exists d, one_spectral X ka td vs l (x_centre X ka dw j) t acc = Ok d /\ nth_error d k = Some (fst E, sp))
      /\ (exists d, one_ends X ka l (x_left X ka dw j) t acc = Ok d /\ nth_error d k = Some (kl, fl)) /\ (exists d, one_ends X ka l (x_right X ka dw j) t acc = Ok d /\ nth_error d k = Some (kr, fr))
      /\ rel X (s ++ [n]) (i ++ [j]) (eq (s ++ [n])) C (one_share X ka vs dw x sp fl fr)).
  { intros k E A B HE HA HB i j x Hx. destruct (Bs j) as (d1 & E1 & R1). destruct (Bl j) as (d2 & E2 & R2). destruct (Br j) as (d3 & E3 & R3).
    destruct (drel_nth _ _ _ _ _ k E R1 HE) as ([k1 v1] & N1 & K1 & V1). destruct (drel_nth _ _ _ _ _ k A R2 HA) as ([k2 v2] & N2 & K2 & V2). destruct (drel_nth _ _ _ _ _ k B R3 HB) as ([k3 v3] & N3 & K3 & V3). cbn [fst snd] in *.
    destruct (mfp_walk X ka (s ++ [n]) (i ++ [j]) (eq (shape mfp ++ [1])) (eq (rl ++ [n])) vs dw mfp x (snd E) v1 (snd A) v2 (snd B) v3) as (C & EC & HC).
    - apply last_rel; [exact HM|exact (Forall_inv (proj1 Hs))|exact Hx].
    - exact (rel_into X _ _ _ _ _ _ _ V1 Fc (Up i j)).
    - exact (rel_into X _ _ _ _ _ _ _ V2 Fc (Up i j)).
    - exact (rel_into X _ _ _ _ _ _ _ V3 Fc (Up i j)).
    - exists C, v1, k2, v2, k3, v3. split; [exact EC|]. split; [exists d1; split; [exact E1|rewrite K1; exact N1]|]. split; [eauto|]. split; [eauto|]. exact (rel_least X _ _ _ _ _ HC Ls). }
  assert (N0 : ~ index s (0 :: s)) by (intros I; apply index_length in I; cbn in I; lia).
  destruct (entries3_ok X (nd_mfp_entry X ka vs dw mfp) D (List.map snd DL) (List.map snd DR)) as (out & Eo & Ko & Go); [rewrite map_length; lia|rewrite map_length; lia| |].
  { intros k E a b HE Ha Hb. rewrite nth_error_map in Ha, Hb. destruct (nth_error DL k) as [A|] eqn:EA; [|discriminate]. destruct (nth_error DR k) as [B|] eqn:EB; [|discriminate]. injection Ha as <-. injection Hb as <-.
    destruct (En k E A B HE EA EB (0 :: s) 0 z (fun I => False_ind _ (N0 I))) as (C & ? & ? & ? & ? & ? & EC & _). unfold nd_mfp_entry. rewrite EC. eexists. reflexivity. }
  exists out. split; [|split].
  - unfold nd_cum_mfp. cbv zeta. fold T1. assert (Sz : size (shape T1) = 1) by (rewrite size_count, Sh; exact Cn). rewrite Sz. cbn [Nat.eqb negb]. fold dw ar. rewrite Hd. fold z. unfold rbind in EL, ER |- *. rewrite ED.
    destruct (rates (nd X) L (bins X n (x_left X ka dw)) T1) as [ql|]; [|discriminate]. destruct (rates (nd X) L (bins X n (x_right X ka dw)) T1) as [qr|]; [|discriminate]. rewrite EL, ER. exact Eo.
  - intros j _. destruct (Bs j) as (d & E1 & R1). exists d. split; [exact E1|]. rewrite Ko. clear - R1. induction R1 as [|E e D d (HK & _) HD IH]; [reflexivity|]. cbn [List.map]. rewrite HK, IH. reflexivity.
  - intros k e He. destruct (Go k e He) as (E & a & b & HE & Ha & Hb & Ef & Ek). rewrite nth_error_map in Ha, Hb. destruct (nth_error DL k) as [A|] eqn:EA; [|discriminate]. destruct (nth_error DR k) as [B|] eqn:EB; [|discriminate]. injection Ha as <-. injection Hb as <-.
    unfold nd_mfp_entry in Ef. destruct (nd_mfp_cum X ka vs dw mfp (snd E) (snd A) (snd B)) as [C|] eqn:EC; [|discriminate]. cbv beta iota delta [rbind] in Ef. injection Ef as Ef.
    assert (SC : array C /\ shape C = s ++ [n]). { destruct (En k E A B HE EA EB (0 :: s) 0 z (fun I => False_ind _ (N0 I))) as (C' & ? & ? & ? & ? & ? & EC' & _ & _ & _ & HC). rewrite EC in EC'. injection EC' as <-. exact (rel_shape X _ _ _ _ _ HC eq_refl). }
    destruct (sum_last_shape X ka C s n (proj2 SC)) as (AS & SS). rewrite <- Ef. split; [exact AS|]. split; [exact SS|].
    set (pick := fun (r : res (list (str * X))) => match r with Ok d => match nth_error d k with Some v => snd v | None => z end | Err _ => z end).
    exists (fun j => pick (one_spectral X ka td vs l (x_centre X ka dw j) t acc)), (fun j => pick (one_ends X ka l (x_left X ka dw j) t acc)), (fun j => pick (one_ends X ka l (x_right X ka dw j) t acc)). split.
    + intros j Hj. destruct (En k E A B HE EA EB (0 :: s) j z (fun I => False_ind _ (N0 I))) as (C' & sp & kl & fl & kr & fr & _ & (d1 & E1 & N1) & (d2 & E2 & N2) & (d3 & E3 & N3) & _).
      rewrite E1, E2, E3. unfold pick. rewrite N1, N2, N3. cbn [snd]. rewrite Ek. split; [eauto|]. split; eauto.
    + intros i x I Sx. apply (sum_last_elem X ka C s n i); [apply SC|apply SC|exact I|]. intros j Hj.
      destruct (En k E A B HE EA EB i j x (fun _ => Sx)) as (C' & sp & kl & fl & kr & fr & EC' & (d1 & E1 & N1) & (d2 & E2 & N2) & (d3 & E3 & N3) & HC). rewrite EC in EC'. injection EC' as <-.
      rewrite E1, E2, E3. unfold pick. rewrite N1, N2, N3. cbn [snd]. apply (rel_elem X _ _ _ _ _ HC (proj2 SC)). apply index_snoc. auto.
Qed.
Theorem C127_mfp_refused td vs L (mfp T : nd X) acc n : array T ->
  (List.length (flat T) <> 1 -> nd_cum_mfp X ka td vs L mfp T acc n = Err ValueError)
  /\ (k_lt ka (x_dw X ka td n) (a_mul ar (a_lit ar 10) (x_EPS X ka)) = true -> nd_cum_mfp X ka td vs L mfp T acc n = Err ValueError).
Proof.
  intros HT. unfold nd_cum_mfp. cbv zeta. fold ar. assert (Sz : size (shape (atleast_1d T)) = List.length (flat T)). { rewrite size_count. pose proof (atleast_array X T HT) as A. unfold array in A. rewrite <- A. unfold atleast_1d. destruct (shape T); reflexivity. }
  rewrite Sz. split; intros H.
  - apply Nat.eqb_neq in H. rewrite H. reflexivity.
  - rewrite H. destruct (negb _); reflexivity.
Qed.
End C127.

(** ** over the real numbers *)
Section Real.
(** one axis of frequencies at one temperature: the list of DebyeModel *)
Lemma cumtrapz_run : forall (ws : list R) (f : R -> R) (C : list R) a, List.length C = List.length ws -> (forall c, nth_error C 0 = Some c -> c = a) ->
  (forall k c c' w0 w1, nth_error C k = Some c -> nth_error C (S k) = Some c' -> nth_error ws k = Some w0 -> nth_error ws (S k) = Some w1 -> c' = (c + (w1 - w0) * (f w1 + f w0) / 2)%R) ->
  C = List.map snd (cumtrapz_from a (List.map (fun w => (w, f w)) ws)).
Proof.
  induction ws as [|w ws IH]; intros f C a L H0 Hk; [destruct C; [reflexivity|discriminate]|]. destruct C as [|c C]; [discriminate|]. rewrite (H0 c eq_refl) in *. cbn [List.map cumtrapz_from snd fst]. f_equal.
  destruct ws as [|w1 ws]; [destruct C; [reflexivity|discriminate]|]. destruct C as [|c1 C]; [discriminate|]. cbn [List.map fst snd] in *. apply (IH f).
  - cbn in L |- *. congruence.
  - intros c' E. injection E as <-. exact (Hk 0 a c1 w w1 eq_refl eq_refl eq_refl eq_refl).
  - intros k c2 c3 v0 v1. exact (Hk (S k) c2 c3 v0 v1).
Qed.
Lemma elem_1d (l : list R) (A : nd R) k x : shape A = [List.length l] -> flat A = l -> (elem A [k] x <-> nth_error l k = Some x).
Proof.
  intros Sh Fl. unfold elem. rewrite Sh, Fl. unfold place. cbn [combine fold_left fst snd plus Nat.mul]. split; [intros (_ & H); exact H|]. intros H. split; [|exact H]. constructor; [|constructor]. apply nth_error_Some. congruence.
Qed.
Theorem C127_single_cumulative td vs l (ws : list R) (t : R) acc : ws <> [] ->
  exists D, nd_cumulative R real_ka td vs (List.map (fun m => (fst m, fun W T => u2 0%R (snd m) W T)) l) (Nd [List.length ws] ws) (con0 t) acc 0 = Ok D
    /\ forall k e, nth_error D k = Some e -> shape (snd e) = [List.length ws]
       /\ flat (snd e) = cumulative (fun w => match nth_error (spectral td vs l w t acc) k with Some v => snd v | None => 0%R end) ws.
Proof.
  intros Hw. set (L := List.map _ l). set (W := Nd [List.length ws] ws).
  assert (HW : array W) by (unfold array, W; cbn; lia). assert (HT : array (con0 t)) by reflexivity.
  assert (HL : same_mechs L (as_mechs l)).
  { unfold L, as_mechs. clear. induction l as [|m l IH]; [constructor|]. constructor; [|exact IH]. cbn [fst snd]. split; [reflexivity|]. split; [intros; eexists; reflexivity|]. intros A B s HA HB Hs.
    destruct (begin2 R A B s HA HB Hs) as (Ls & R1 & R2 & Q1 & Q2). destruct (u2_rel R 0%R _ _ _ _ (snd m) A B _ _ (Q1 0%R) (Q2 0%R)) as (C & EC & HC). exists C. split; [exact EC|].
    destruct (rel_shape R s _ (eq s) C _ (rel_least R _ _ _ _ _ HC Ls) eq_refl) as (AC & SC). split; [exact AC|]. split; [exact SC|]. intros i a b I Sa Sb. eexists. split; [reflexivity|].
    destruct (u2_rel R 0%R _ _ _ _ (snd m) A B _ _ (R1 i a (fun _ => Sa)) (R2 i b (fun _ => Sb))) as (C' & EC' & HC'). rewrite EC in EC'. injection EC' as <-. exact (rel_elem R _ _ _ _ _ HC' SC I). }
  assert (Hs : common [shape W; shape (con0 t)] [List.length ws]).
  { split; [constructor; [apply fits_refl|constructor; [apply fits_nil|constructor]]|]. intros r H. exact (Forall_inv H). }
  destruct (C126_spectral R real_ka td vs L (as_mechs l) W (con0 t) _ acc HW HT Hs HL) as (D0 & E0 & Sh & Vals).
  destruct (C127_cumulative R real_ka td vs L (as_mechs l) W (con0 t) _ acc 0 (List.length ws) (List.length ws) HW HT Hs HL eq_refl) as (D & D' & ED & ED' & Fo).
  { destruct ws; [congruence|cbn; lia]. } { left. reflexivity. }
  rewrite E0 in ED. injection ED as <-. exists D'. split; [exact ED'|]. intros k e He.
  assert (G : exists E, nth_error D0 k = Some E /\ running (k_ar real_ka) (snd E) (snd e) 0 (freq_at W)).
  { clear - Fo He. revert k He. induction Fo as [|E e0 D D' (_ & H) Fo IH]; intros [|k] He; try discriminate; [injection He as <-; exists E; split; [reflexivity|exact H]|exact (IH k He)]. }
  destruct G as (E & HE & AC & SC & Run). assert (SE : array (snd E) /\ shape (snd E) = [List.length ws]). { rewrite Forall_forall in Sh. apply Sh. apply nth_error_In with k. exact HE. } destruct SE as (AE & SE).
  rewrite SE in SC. split; [exact SC|]. set (f := fun w => match nth_error (spectral td vs l w t acc) k with Some v => snd v | None => 0%R end).
  assert (Ve : forall j w, nth_error ws j = Some w -> elem (snd E) [j] (f w)).
  { intros j w Hj. assert (I : index [List.length ws] [j]) by (constructor; [apply nth_error_Some; congruence|constructor]).
    destruct (Vals [j] w t I) as (d & Ed & Fd); [apply sees_1d, Hj|exists [j], []; split; [reflexivity|]; split; [split; [constructor|reflexivity]|reflexivity]|].
    rewrite C126_single_spectral in Ed. injection Ed as <-. assert (G : exists v, nth_error (spectral td vs l w t acc) k = Some v /\ elem (snd E) [j] (snd v)).
    { clear - Fd HE. revert k HE. induction Fd as [|E0 e0 D d (_ & H) Fd IH]; intros [|k] HE; try discriminate; [injection HE as <-; exists e0; split; [reflexivity|exact H]|exact (IH k HE)]. }
    destruct G as (v & Ev & Hv). unfold f. rewrite Ev. exact Hv. }
  assert (LC : List.length (flat (snd e)) = List.length ws) by (unfold array in AC; rewrite SC in AC; cbn in AC; lia).
  assert (EC : forall j c, nth_error (flat (snd e)) j = Some c -> elem (snd e) [j] c).
  { intros j c Hc. apply (elem_1d (flat (snd e)) (snd e)); [rewrite SC, LC; reflexivity|reflexivity|exact Hc]. }
  unfold cumulative, cumtrapz. apply cumtrapz_run; [exact LC| |].
  - intros c Hc. destruct (Run [] [] eq_refl) as (R0 & _). exact (R0 c (EC 0 c Hc)).
  - intros j c c' w0 w1 Hc Hc' H0 H1. destruct (Run [] [] eq_refl) as (R0 & RS). 
    assert (Q := RS j c' w0 w1 (f w0) (f w1) (EC _ _ Hc')). cbn [app] in Q.
    assert (Fw : forall j w, nth_error ws j = Some w -> freq_at W [] j [] w). { intros j' w Hw'. unfold freq_at, W. cbn [shape]. apply (elem_1d ws); [reflexivity|reflexivity|exact Hw']. }
    specialize (Q (Fw _ _ H0) (Fw _ _ H1) (Ve _ _ H0) (Ve _ _ H1)). cbv zeta in Q. cbn [real_ka k_ar a_div a_mul a_sub a_add a_lit] in Q.
    destruct j as [|j].
    + assert (c = 0%R) as -> by exact (R0 c (EC 0 c Hc)). rewrite Q. ring.
    + destruct Q as (c2 & E2 & ->). rewrite (elem_fun _ _ _ _ E2 (EC _ _ Hc)); reflexivity.
Qed.
(** the shares of the bins add up to the sum of DebyeModel *)
Theorem C127_single_mfp vs (rate spec : R -> R) td n x : let dw := x_dw R real_ka td n in
  k_sum real_ka (List.map (fun j => one_share R real_ka vs dw x (spec (x_centre R real_ka dw j)) (rate (x_left R real_ka dw j)) (rate (x_right R real_ka dw j))) (seq 0 n)) = cum_mfp vs rate spec td n x.
Proof. reflexivity. Qed.
(** ** the conductivity *)
Variable quad : R -> R -> list R -> res (R * R).
Variable td : R.
Lemma args_common (T N : nd R) s : common [shape T; shape N] s -> common (operand_shapes (con0 EPS) (con0 (wd td)) (con0 0%R) (con0 true) [T; N]) s.
Proof.
  intros (F & M). unfold operand_shapes. cbn [List.map shape con0]. split; [repeat (constructor; [apply fits_nil|]); exact F|]. intros r H. apply M. do 4 apply Forall_inv_tail in H. exact H.
Qed.
Lemma sees_con {Y} (c : Y) i : sees (con0 c) i c.
Proof. exists i, []. split; [symmetry; apply app_nil_r|]. split; [split; [constructor|reflexivity]|reflexivity]. Qed.
Lemma of_part_elem s p i v : index s i -> p i = Some v -> elem (of_part s p) i v.
Proof.
  intros I H. split; [exact I|]. unfold of_part. cbn [flat shape]. rewrite ndindex_unravel, map_map, nth_error_map. assert (Lt := place_lt _ _ I).
  destruct (nth_error (seq 0 (size s)) (place s i)) as [r|] eqn:Er; [|apply nth_error_None in Er; rewrite seq_length in Er; lia]. apply nth_error_nth with (d := 0) in Er. rewrite seq_nth in Er by exact Lt. cbn in Er. subst r. cbn [option_map]. rewrite (unravel_place _ _ I), H. reflexivity.
Qed.
Lemma of_part_array s p : array (of_part s p).
Proof. unfold array, of_part. cbn [flat shape]. rewrite ndindex_unravel, !map_length, seq_length. apply size_count. Qed.
Theorem C127_kappa_n T N s : array T -> array N -> common [shape T; shape N] s ->
  (forall i t n, index s i -> sees T i t -> sees N i n -> exists v e, quad EPS (wd td) [t; n] = Ok (v, e)) ->
  exists C, nd_kappa_n quad td T N = Ok C /\ pointwise (fun t n c => exists e, quad EPS (wd td) [t; n] = Ok (c, e)) T N C s.
Proof.
  intros HT HN Hs Q. assert (Hok : operands_ok (con0 EPS) (con0 (wd td)) (con0 0%R) (con0 true) [T; N]). { repeat match goal with |- operands_ok _ _ _ _ _ => unfold operands_ok | |- _ /\ _ => split end; try reflexivity. constructor; [exact HT|constructor; [exact HN|constructor]]. }
  destruct (C120_result quad _ _ _ _ _ s Hok (args_common T N s Hs)) as (_ & G).
  destruct G as (itg & err & E & P).
  - intros i xa xb xs f I (Sa & Sb & Sx & _). rewrite (sees_fun _ _ _ _ Sa (sees_con EPS i)), (sees_fun _ _ _ _ Sb (sees_con (wd td) i)). inversion Sx as [|? t ? r St Sr]; subst. inversion Sr as [|? n ? r' Sn Sr']; subst. inversion Sr'; subst. exact (Q i t n I St Sn).
  - exists (of_part s itg). unfold nd_kappa_n. rewrite E. split; [reflexivity|]. split; [apply of_part_array|]. split; [reflexivity|]. intros i t n I St Sn.
    assert (SA : sees_all (con0 EPS) (con0 (wd td)) (con0 0%R) (con0 true) [T; N] i EPS (wd td) [t; n] true 0%R). { split; [apply sees_con|]. split; [apply sees_con|]. split; [constructor; [exact St|constructor; [exact Sn|constructor]]|]. split; apply sees_con. }
    destruct (P i _ _ _ _ _ I SA) as (v & e & E1 & E2 & _). exists v. split; [exists e; exact E1|]. apply of_part_elem; assumption.
Qed.
Theorem C127_kappa_fails T N s i t n e : array T -> array N -> common [shape T; shape N] s -> index s i -> sees T i t -> sees N i n -> quad EPS (wd td) [t; n] = Err e ->
  (forall j t' n', index s j -> before j i -> sees T j t' -> sees N j n' -> exists v, quad EPS (wd td) [t'; n'] = Ok v) -> nd_kappa_n quad td T N = Err e.
Proof.
  intros HT HN Hs I St Sn Eq Bef. assert (Hok : operands_ok (con0 EPS) (con0 (wd td)) (con0 0%R) (con0 true) [T; N]). { repeat match goal with |- operands_ok _ _ _ _ _ => unfold operands_ok | |- _ /\ _ => split end; try reflexivity. constructor; [exact HT|constructor; [exact HN|constructor]]. }
  assert (SA : sees_all (con0 EPS) (con0 (wd td)) (con0 0%R) (con0 true) [T; N] i EPS (wd td) [t; n] true 0%R). { split; [apply sees_con|]. split; [apply sees_con|]. split; [constructor; [exact St|constructor; [exact Sn|constructor]]|]. split; apply sees_con. }
  unfold nd_kappa_n. rewrite (C120_failure quad _ _ _ _ _ s i _ _ _ _ e Hok (args_common T N s Hs) I SA Eq); [reflexivity|].
  intros j ya yb ys g J Bj (Sa & Sb & Sx & _). rewrite (sees_fun _ _ _ _ Sa (sees_con EPS j)), (sees_fun _ _ _ _ Sb (sees_con (wd td) j)). inversion Sx as [|? t' ? r St' Sr]; subst. inversion Sr as [|? n' ? r' Sn' Sr']; subst. inversion Sr'; subst. exact (Bef j t' n' J Bj St' Sn').
Qed.
Theorem C127_kappa_refused T N : no_common [shape T; shape N] -> nd_kappa_n quad td T N = Err ValueError.
Proof.
  intros H. unfold nd_kappa_n. rewrite C120_incompatible; [reflexivity|]. intros s F. apply (H s). unfold operand_shapes in F. do 4 apply Forall_inv_tail in F. exact F.
Qed.
Lemma models_sum (T : nd R) : array T -> forall A a, same_models A a -> forall B, array B -> (shape B = shape T \/ shape B = []) -> exists C, fold_left (fun acc m => let! x := acc in let! y := snd m T in u2 0%R Rplus x y) A (Ok B) = Ok C
  /\ array C /\ (shape C = shape T \/ shape C = []) /\ forall i t, elem T i t -> exists vals, mapM (fun m => snd m t) a = Ok vals /\ forall b, sees B i b -> sees C i (b + sumR vals)%R.
Proof.
  intros HT. induction 1 as [|M m A a (_ & HM) HA IH]; intros B HB SB; [exists B; split; [reflexivity|]; split; [exact HB|]; split; [exact SB|]; intros i t _; exists []; split; [reflexivity|]; intros b Hb; cbn [sumR]; rewrite Rplus_0_r; exact Hb|].
  destruct (HM T HT) as (Y & EY & AY & SY & VY). cbn [fold_left]. cbv beta iota delta [rbind]. rewrite EY.
  assert (FB : fits (shape B) (shape T)) by (destruct SB as [->| ->]; [apply fits_refl|apply fits_nil]).
  assert (U : forall i b y, (index (shape T) i -> sees B i b) -> (index (shape T) i -> elem Y i y) -> exists C, u2 0%R Rplus B Y = Ok C /\ rel R (shape T) i (fun l => shape B = l \/ shape T = l) C (b + y)%R).
  { intros i b y Sb Sy. apply (u2_rel R 0%R (shape T) i (eq (shape B)) (eq (shape T)) Rplus B Y b y); [apply plain_rel; assumption|apply exact_rel; assumption]. }
  assert (N : ~ index (shape T) (0 :: shape T)) by (intros I; apply index_length in I; cbn in I; lia).
  destruct (U (0 :: shape T) 0%R 0%R (fun I => False_ind _ (N I)) (fun I => False_ind _ (N I))) as (C & EC & HC). rewrite EC.
  destruct (rel_shape R _ _ _ _ _ HC (or_intror eq_refl)) as (AC & SC). destruct (IH C AC (or_introl SC)) as (C2 & E2 & A2 & S2 & V2). unfold rbind in E2. exists C2. split; [exact E2|]. split; [exact A2|]. split; [exact S2|].
  intros i t Ht. destruct (V2 i t Ht) as (vals & Ev & Hv). destruct (VY i t Ht) as (y & Ey & Hy). exists (y :: vals). cbn [mapM]. rewrite Ey, Ev. split; [reflexivity|]. intros b Sb. cbn [sumR]. rewrite <- Rplus_assoc. apply Hv.
  destruct (U i b y (fun _ => Sb) (fun _ => Hy)) as (C' & EC' & HC'). rewrite EC in EC'. injection EC' as <-. exact (proj2 (proj2 (proj2 HC')) (proj1 Ht)).
Qed.
Theorem C127_kappa (A : list (str * (nd R -> res (nd R)))) a T : array T -> same_models A a -> (forall i t, elem T i t -> exists v e, quad EPS (wd td) [t; 0%R] = Ok (v, e)) ->
  exists C, nd_kappa quad td A T = Ok C /\ array C /\ shape C = shape T
    /\ forall i t, elem T i t -> exists v e vals, quad EPS (wd td) [t; 0%R] = Ok (v, e) /\ mapM (fun m => snd m t) a = Ok vals /\ elem C i (v + sumR vals)%R.
Proof.
  intros HT HA Q. assert (Hs : common [shape T; shape (con0 0%R)] (shape T)). { split; [constructor; [apply fits_refl|constructor; [apply fits_nil|constructor]]|]. intros r H. exact (Forall_inv H). }
  assert (At : forall i t, index (shape T) i -> sees T i t -> elem T i t). { intros i t I S. apply (rel_elem R (shape T) i (eq (shape T)) T t); [apply plain_rel; [exact HT|apply fits_refl|intros _; exact S]|reflexivity|exact I]. }
  destruct (C127_kappa_n T (con0 0%R) (shape T) HT eq_refl Hs) as (K & EK & AK & SK & VK).
  { intros i t n I St Sn. rewrite (sees_fun _ _ _ _ Sn (sees_con 0%R i)). exact (Q i t (At i t I St)). }
  destruct (models_sum T HT A a HA (con0 0%R) eq_refl (or_intror eq_refl)) as (B & EB & AB & SB & VB). unfold nd_kappa. rewrite EK. cbv beta iota delta [rbind] in EB |- *. rewrite EB.
  assert (FB : fits (shape B) (shape T)) by (destruct SB as [->| ->]; [apply fits_refl|apply fits_nil]).
  assert (U : forall i b y, (index (shape T) i -> sees B i b) -> (index (shape T) i -> elem K i y) -> exists C, u2 0%R Rplus K B = Ok C /\ rel R (shape T) i (fun l => shape T = l \/ shape B = l) C (y + b)%R).
  { intros i b y Sb Sy. apply (u2_rel R 0%R (shape T) i (eq (shape T)) (eq (shape B)) Rplus K B y b); [apply exact_rel; assumption|apply plain_rel; assumption]. }
  assert (N : ~ index (shape T) (0 :: shape T)) by (intros I; apply index_length in I; cbn in I; lia).
  destruct (U (0 :: shape T) 0%R 0%R (fun I => False_ind _ (N I)) (fun I => False_ind _ (N I))) as (C & EC & HC). exists C. split; [exact EC|].
  destruct (rel_shape R _ _ _ _ _ HC (or_introl eq_refl)) as (AC & SC). split; [exact AC|]. split; [exact SC|]. intros i t Ht. assert (I := proj1 Ht).
  assert (St : sees T i t) by exact (proj2 (proj2 (proj2 (exact_rel R (shape T) i T t HT eq_refl (fun _ => Ht)))) I).
  destruct (VK i t 0%R I St (sees_con 0%R i)) as (v & (e & Ev) & Kv). destruct (VB i t Ht) as (vals & Em & Hv). specialize (Hv 0%R (sees_con 0%R i)). rewrite Rplus_0_l in Hv. exists v, e, vals. split; [exact Ev|]. split; [exact Em|].
  destruct (U i (sumR vals) v (fun _ => Hv) (fun _ => Kv)) as (C' & EC' & HC'). rewrite EC in EC'. injection EC' as <-. exact (rel_elem R _ _ _ _ _ HC' SC I).
Qed.
(** when the quadrature returns the integral: the conductivity of DebyeModel at every temperature *)
Theorem C127_single_kappa vs l (a : list (str * (R -> R))) A T : (forall t, exists e, quad EPS (wd td) [t; 0%R] = Ok (kappa_n td vs l t 0, e)) -> array T -> same_models A (List.map (fun m => (fst m, fun t => Ok (snd m t))) a) ->
  exists C, nd_kappa quad td A T = Ok C /\ array C /\ shape C = shape T /\ forall i t, elem T i t -> elem C i (kappa td vs l a t).
Proof.
  intros Q HT HA. destruct (C127_kappa A _ T HT HA) as (C & EC & AC & SC & V); [intros i t _; destruct (Q t) as (e & E); eauto|]. exists C. split; [exact EC|]. split; [exact AC|]. split; [exact SC|]. intros i t Ht.
  destruct (V i t Ht) as (v & e & vals & Ev & Em & Hc). destruct (Q t) as (e' & E'). rewrite Ev in E'. injection E' as -> _. unfold kappa.
  assert (G : mapM (fun m : str * (R -> res R) => snd m t) (List.map (fun m => (fst m, fun t => Ok (snd m t))) a) = Ok (List.map (fun m => snd m t) a)) by (clear; induction a as [|m a IH]; [reflexivity|]; cbn [List.map mapM fst snd]; rewrite IH; reflexivity).
  rewrite G in Em. injection Em as <-. exact Hc.
Qed.
End Real.
Example C127_case : let L := [(S_ "GB", nd_rate R real_ka (MGB 3%R 2%R 1%R))] in let W := Nd [3%nat] [1; 2; 4]%R in let T := Nd [2; 1]%nat [300; 400]%R in
  (exists D D', nd_spectral R real_ka 300%R 3%R L W T true = Ok D /\ nd_cumulative R real_ka 300%R 3%R L W T true 1 = Ok D' /\ D <> [] /\ Forall2 (fun E E' => fst E' = fst E /\ running (k_ar real_ka) (snd E) (snd E') 1 (freq_at W)) D D')
  /\ nd_cumulative R real_ka 300%R 3%R L W T true 0 = Err ValueError
  /\ (exists out e, nd_cum_mfp R real_ka 300%R 3%R L (Nd [4%nat] [1; 10; 100; 1000]%R) (con0 300%R) true 50 = Ok out /\ nth_error out 0 = Some e /\ fst e = S_ "GB" /\ shape (snd e) = [4%nat])
  /\ nd_cum_mfp R real_ka 300%R 3%R L (Nd [4%nat] [1; 10; 100; 1000]%R) T true 50 = Err ValueError
  /\ (exists C, nd_kappa (fun _ _ xs => Ok (hd 0%R xs, 0%R)) 300%R [(S_ "PL", nd_powerlaw R real_ka 1%R 1%R 2%R)] (Nd [2%nat] [300; 600]%R) = Ok C /\ shape C = [2%nat] /\ nth_error (flat C) 1 = Some (600 + (Rpower (600 / 300) 1 + 2))%R).
Proof.
  cbv zeta. set (L := [(S_ "GB", nd_rate R real_ka (MGB 3%R 2%R 1%R))]). set (W := Nd [3%nat] [1; 2; 4]%R). set (T := Nd [2; 1]%nat [300; 400]%R).
  assert (HL : same_mechs L [(S_ "GB", one_rate R real_ka (MGB 3%R 2%R 1%R))]) by (constructor; [split; [reflexivity|exact (rate_ok (MGB 3%R 2%R 1%R) ltac:(intros; discriminate))]|constructor]).
  assert (Hs : common [shape W; shape T] [2; 3]%nat) by (apply broadcast_common; reflexivity).
  split; [|split; [|split; [|split]]].
  - destruct (C127_cumulative R real_ka 300%R 3%R L _ W T _ true 1 3 3 eq_refl eq_refl Hs HL eq_refl eq_refl (or_introl eq_refl)) as (D & D' & E & E' & F). exists D, D'. split; [exact E|]. split; [exact E'|]. split; [|exact F]. exact (spectral_nonempty R real_ka _ _ _ _ _ _ D E ltac:(discriminate)).
  - apply (proj2 (C127_cumulative_refused R real_ka 300%R 3%R L _ W T true 0) _ 2 eq_refl eq_refl Hs HL ltac:(discriminate) eq_refl). left. exists 3. split; [reflexivity|discriminate].
  - assert (Hd : k_lt real_ka (x_dw R real_ka 300%R 50) (10 * EPS)%R = false). { cbn [real_ka k_lt]. change (x_dw R real_ka 300%R 50) with (wd 300 / INR 50)%R. replace (INR 50) with 50%R by (cbn; lra). unfold wd, EPS, hbar_kB. destruct (Rlt_dec _ _) as [H|H]; [|reflexivity]. exfalso. lra. }
    destruct (C127_mfp R real_ka 300%R 3%R L _ (Nd [4%nat] [1; 10; 100; 1000]%R) (con0 300%R) 300%R [4%nat] true 50 eq_refl eq_refl eq_refl ltac:(lia) Hd HL) as (out & E & K & V); [apply broadcast_common; reflexivity|].
    destruct (K 0 ltac:(lia)) as (d & Ed & Kd). destruct out as [|e out]; [exfalso; revert Ed Kd; destruct d as [|? ?]; [|discriminate]; intros Ed _; discriminate Ed|]. exists (e :: out), e. split; [exact E|]. split; [reflexivity|]. split.
    + assert (Q : one_spectral R real_ka 300%R 3%R [(S_ "GB", one_rate R real_ka (MGB 3%R 2%R 1%R))] (x_centre R real_ka (x_dw R real_ka 300%R 50) 0) 300%R true = Ok d) by exact Ed. injection Q as <-. cbn in Kd. injection Kd as Kd _. exact Kd.
    + exact (proj1 (proj2 (V 0 e eq_refl))).
  - apply (proj1 (C127_mfp_refused R real_ka 300%R 3%R L (Nd [4%nat] [1; 10; 100; 1000]%R) T true 50 eq_refl)). discriminate.
  - destruct (C127_kappa (fun _ _ xs => Ok (hd 0%R xs, 0%R)) 300%R [(S_ "PL", nd_powerlaw R real_ka 1%R 1%R 2%R)] [(S_ "PL", one_powerlaw R real_ka 1%R 1%R 2%R)] (Nd [2%nat] [300; 600]%R) eq_refl) as (C & E & AC & SC & V).
    + constructor; [split; [reflexivity|exact (proj1 (proj2 (proj2 (C126_models R real_ka))) 1%R 1%R 2%R)]|constructor].
    + intros; do 2 eexists; reflexivity.
    + exists C. split; [exact E|]. split; [exact SC|]. destruct (V [1%nat] 600%R) as (v & e & vals & Ev & Em & (_ & Q)); [split; [repeat constructor|reflexivity]|]. injection Ev as <- <-. injection Em as <-. rewrite SC in Q. change (place [2%nat] [1%nat]) with 1%nat in Q. etransitivity; [exact Q|]. f_equal. cbn [sumR hd]. cbn [real_ka k_ar a_mul a_add a_div a_lit k_rpow]. ring.
Qed.
Print Assumptions C127_cumulative.
Print Assumptions C127_cumulative_refused.
Print Assumptions C127_mfp.
Print Assumptions C127_mfp_refused.
Print Assumptions C127_kappa_n.
Print Assumptions C127_kappa_fails.
Print Assumptions C127_kappa_refused.
Print Assumptions C127_kappa.
Print Assumptions C127_single_cumulative.
Print Assumptions C127_single_mfp.
Print Assumptions C127_single_kappa.
