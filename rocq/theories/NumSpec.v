(** Specification vocabulary for numbers in files: decimal literals, rounding to decimal places, printed texts. Of the model only the type [fl] of the values (a rational, an infinity, not a number) occurs, in the last definition. *)
From Coq Require Import ZArith QArith Reals Qreals String Ascii.
From Verif Require Import Py PyStr NumModel.
Local Open Scope list_scope.
Local Open Scope R_scope.

(** powers of ten *)
Definition p10 (e : Z) : R := powerRZ 10 e.
(** the digit characters, their values, and the number a row of digits denotes *)
Definition digit_of (c : ascii) (n : Z) : Prop := (0 <= n < 10)%Z /\ c = ascii_of_nat (48 + Z.to_nat n).
Inductive denotes : str -> Z -> Prop :=
| dn_nil : denotes [] 0
| dn_cons c n r v : digit_of c n -> denotes r v -> denotes (c :: r) (n * 10 ^ Z.of_nat (List.length r) + v)%Z.
(** an optional sign and the sign it means *)
Definition sign_text (s : str) (x : R) : Prop := (s = [] /\ x = 1) \/ (s = S_ "+" /\ x = 1) \/ (s = S_ "-" /\ x = -1).
(** an optional exponent *)
Definition exp_text (s : str) (e : Z) : Prop :=
  (s = [] /\ e = 0%Z) \/
  exists sg d v, d <> [] /\ denotes d v /\ (s = S_ "e" ++ sg ++ d \/ s = S_ "E" ++ sg ++ d) /\ ((sg = S_ "-" /\ e = (- v)%Z) \/ ((sg = [] \/ sg = S_ "+") /\ e = v)).
(** a decimal literal: sign, digits before and after the point, exponent *)
Definition literal (t : str) (x : R) : Prop :=
  exists sg s i f pf v ex e, sign_text sg s /\ i ++ f <> [] /\ denotes (i ++ f) v /\ ((pf = [] /\ f = []) \/ pf = "."%char :: f) /\ exp_text ex e /\
    t = sg ++ i ++ pf ++ ex /\ x = s * IZR v * p10 (e - Z.of_nat (List.length f)).
(** [y] is the multiple of 10^-p nearest to [x]; of two equally near ones the even one *)
Definition rounds (p : Z) (x y : R) : Prop :=
  exists k : Z, y = IZR k * p10 (- p) /\ 2 * Rabs (x - y) <= p10 (- p) /\ (2 * Rabs (x - y) = p10 (- p) -> Z.even k = true).
(** [e] is the decimal exponent of [x] *)
Definition magnitude (x : R) (e : Z) : Prop := p10 e <= Rabs x < p10 (e + 1).
(** [y] is [x] rounded to d digits behind the point of its scientific notation *)
Definition rounds_sig (d : nat) (x y : R) : Prop := (x = 0 /\ y = 0) \/ exists e, magnitude x e /\ rounds (Z.of_nat d - e) x y.
(** digits without superfluous zeros in front, at least [w] of them *)
Definition no_padding (w : nat) (s : str) : Prop := (w <= List.length s)%nat /\ (List.length s = w \/ exists c r, s = c :: r /\ c <> "0"%char).
Definition minus_sign (x : R) (sg : str) : Prop := (x < 0 /\ sg = S_ "-") \/ (0 <= x /\ sg = []).
Definition behind_point (f : str) : str := match f with [] => [] | _ => "."%char :: f end.
(** the fixed-point text of [x] with [d] digits behind the point *)
Definition fixed_text (d : nat) (x : R) (t : str) : Prop :=
  exists sg i f k, minus_sign x sg /\ no_padding 1 i /\ List.length f = d /\ denotes (i ++ f) k /\ rounds (Z.of_nat d) (Rabs x) (IZR k * p10 (- Z.of_nat d)) /\ t = sg ++ i ++ behind_point f.
(** the scientific text of [x] with [d] digits behind the point: the digit before it is 0 for zero only, the exponent has a sign and at least two digits *)
Definition scientific_text (d : nat) (x : R) (t : str) : Prop :=
  exists sg c f k e esg ed, minus_sign x sg /\ List.length f = d /\ denotes (c :: f) k /\
    ((x = 0 /\ k = 0%Z /\ e = 0%Z) \/ (x <> 0 /\ c <> "0"%char /\ rounds_sig d (Rabs x) (IZR k * p10 (e - Z.of_nat d)))) /\
    esg = (if (e <? 0)%Z then S_ "-" else S_ "+") /\ denotes ed (Z.abs e) /\ no_padding 2 ed /\ t = sg ++ (c :: behind_point f) ++ S_ "E" ++ esg ++ ed.
(** what a value becomes by printing and reading it with the rounding [rel] *)
Definition reread (rel : R -> R -> Prop) (x y : fl) : Prop :=
  match x, y with Fin q, Fin q' => rel (Q2R q) (Q2R q') | Inf a, Inf b => a = b | NaN, NaN => True | _, _ => False end.
(** every underscore stands between two digits *)
Definition grouped (s : str) : Prop :=
  forall a b, s = a ++ "_"%char :: b -> (exists a' c n, a = a' ++ [c] /\ digit_of c n) /\ (exists c b' n, b = c :: b' /\ digit_of c n).
Definition ungrouped (s : str) : str := filter (fun c => negb (Ascii.eqb c "_"%char)) s.
