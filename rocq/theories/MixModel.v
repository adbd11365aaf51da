(** Model of [mixing] (src/teflow/mathext.py:230-269) on one-dimensional float arrays. *)
From Verif Require Import Py RUtil.
Local Open Scope R_scope.

(** [data += scale*w*d] (line 268) *)
Fixpoint add_scaled (c : R) (data d : list R) : list R :=
  match data, d with
  | x :: data', y :: d' => (x + c * y) :: add_scaled c data' d'
  | _, _ => []
  end.

(** Lines 271-277; [n] is the common shape. *)
Fixpoint mix_loop (scale : R) (n : nat) (dw : list (list R * R)) (data : list R) : res (list R) :=
  match dw with
  | [] => Ok data
  | (d, w) :: r => if Nat.eqb (length d) n then mix_loop scale n r (add_scaled (scale * w) data d)
                   else Err ValueError
  end.

(** [1/np.sum(weight)] is written [/ sumR weight]; numpy yields inf/nan for a zero sum
    (every theorem that uses the value assumes a non-zero sum).  Integer input arrays
    (for which numpy's in-place addition raises) are not modelled. *)
Definition mixing (datas : list (list R)) (weight : option (list R)) (scale : option R) : res (list R) :=
  let num := length datas in
  let! ws := match weight with
             | None => Ok (repeat 1 num)                                   (* 252-253 *)
             | Some ws => if Nat.eqb (length ws) num then Ok ws else Err ValueError
             end in
  let sc := match scale with None => / sumR ws | Some s => s end in        (* 258-259 *)
  match datas with
  | [] => Err IndexError                                                   (* datas[0] *)
  | d0 :: _ => mix_loop sc (length d0) (combine datas ws) (repeat 0 (length d0))
  end.
