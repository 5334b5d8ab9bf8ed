(** Vocabulary for the choice between models. *)
From Verif Require Import Base RBase M_Data M_Lik M_Est.
Local Open Scope R_scope.

(** Both losses are numbers and the first is lower. *)
Definition better (a b : result fl) : Prop := exists x y, a = Ok (Some (Fin x)) /\ b = Ok (Some (Fin y)) /\ x < y.
