(** Vocabulary for the construction of models from a configuration. *)
From Coq Require Import Reals String Ascii.
From Verif Require Import Py PyStr KvarSpec.
Local Open Scope list_scope.
(** the value text refers to a variable: an at sign, and the name of the variable unless it is that of the entry itself *)
Definition refers (text tag : str) : Prop := exists w0 w1 w2, text = w0 ++ "@"%char :: w1 ++ tag ++ w2 /\ spaces w0 /\ spaces w1 /\ spaces w2 /\ Forall (fun c => is_space c = false) tag.
Definition scattering_types : list str := map S_ ["PH"; "PHX"; "PD"; "PDX"; "GB"; "NP"; "NPX"; "DL"; "SF"; "EP"; "EPR"; "EPX"; "EPRX"; "CAHILL"]%string.
(** an entry other than a component list can be read: it is not blank, and the variable it refers to, if any, is there *)
Definition readable (vars : list str) (key text : str) : Prop :=
  ~ spaces text /\ forall tag, refers text tag -> In (match tag with [] => key | _ => tag end) vars.
