(** Vocabulary for short forms of a test. *)
From Verif Require Import Base RBase M_Data M_Logit M_Lik M_Est S_Logit S_Lik S_Est S_Sym.
Import List.
Local Open Scope R_scope.

(** The items [keep], in that order, with the parameters they have in [x]. *)
Definition short (keep : list nat) (x : irt) : irt :=
  match x with Opl m => Opl {| opl_items := length keep; opl_b := pick keep (opl_b m) 0 |} | _ => reorder keep x end.
(** Some of [n] items, in any order, none twice. *)
Definition selection (keep : list nat) (n : nat) : Prop := keep <> [] /\ NoDup keep /\ forall i, In i keep -> (i < n)%nat.
(** The items not kept are all missing, NaN or -1. *)
Definition only (keep : list nat) (data : list (list cell)) : Prop :=
  Forall (fun row => forall i, ~ In i keep -> nth i row None = None \/ nth i row None = Some (-1)%Z) data.
