(** Vocabulary for comparing models of different classes. *)
From Verif Require Import Base RBase M_Data M_Lik M_Est M_Jml S_Lik S_Est S_Flex.
Import List.
Local Open Scope R_scope.

(** The model gives every item a positive distribution over its categories, and the loss of joint estimation is that of these probabilities. *)
Definition jointly_by (m : emodel) (p : list R -> nat -> nat -> R) : Prop := distributions (em_lv m) (em_cats m) p /\
  forall thetas data, data <> [] -> Forall (fun t => length t = em_lv m) thetas -> length thetas = length data -> legal_data (em_cats m) data ->
    jml_loss m (Wide (em_items m) data) thetas = Ok (Some (Fin (- sumn (length data) (fun n => ln (likelihood p (nth n thetas []) (nth n data [])))))).
