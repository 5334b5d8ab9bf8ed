(** Vocabulary for the score equations. *)
From Verif Require Import Base RBase M_Data M_Logit M_Lik M_Est S_Logit S_Lik S_Est S_Suff.
Import List.
Local Open Scope R_scope.

(** The weighted sum score the model expects at [t], over the items answered in [row]. *)
Definition expected_total (p : list R -> nat -> nat -> R) (w : nat -> nat -> nat -> R) (cats : list nat) (row : list cell) (t : list R) (d : nat) : R :=
  sumn (length row) (fun i => match answer (nth i row None) with None => 0 | Some _ => sumn (nth i cats O) (fun k => w i k d * p t i k) end).
