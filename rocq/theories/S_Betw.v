(** Vocabulary for comparing losses. *)
From Verif Require Import Base RBase M_Data M_Lik M_Est S_Logit S_Lik S_Est S_Eap S_Flex.
Import List.
Local Open Scope R_scope.

(** The model gives every item a positive distribution over its categories, and is estimated and scored by it. *)
Definition estimated_by (m : emodel) (p : list R -> nat -> nat -> R) : Prop := distributions (em_lv m) (em_cats m) p /\ scored_by m p.
(** [data'] is [data] with any of the answers made missing (NaN or -1). *)
Definition fewer_answers (data data' : list (list cell)) : Prop := Forall2 (Forall2 (fun c c' => c' = c \/ c' = None \/ c' = Some (-1)%Z)) data data'.
