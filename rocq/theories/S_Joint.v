(** Vocabulary for mixes in joint estimation. *)
From Verif Require Import Base RBase M_Data M_Logit M_Lik M_Est S_Lik S_Est S_Betw.
Import List.
Local Open Scope R_scope.

(** The output of a part for [thetas] is a matrix with max_item_responses columns for each of its items. *)
Definition flat_part (thetas : list (list R)) (s : sub) (w : wide ext) : Prop :=
  sb_forward s thetas = T2 w /\ w_cols w = (sb_max s * sb_items s)%nat /\ rect (length thetas) (sb_max s * sb_items s) (w_rows w).
(** The part [s] of a mix is the model [m], which has such an output for every batch that is not empty. *)
Definition part_is (m : emodel) (s : sub) : Prop :=
  sb_lv s = em_lv m /\ sb_cats s = em_cats m /\
  (forall red data out mask, sb_ll s red (w_rows data) out (option_map w_rows mask) = em_ll m red data out mask) /\
  forall thetas, thetas <> [] -> Forall (fun t => length t = em_lv m) thetas -> em_forward m thetas = Ok (sb_forward s thetas) /\ exists w, flat_part thetas s w.
(** The probabilities of all parts, with their items in order. *)
Fixpoint joined (parts : list (nat * (list R -> nat -> nat -> R))) (t : list R) (i k : nat) : R :=
  match parts with
  | [] => 0
  | (items, p) :: rest => if (i <? items)%nat then p t i k else joined rest t (i - items) k
  end.
(** Numbers of items and probabilities of the parts. *)
Definition parts_of (parts : list (emodel * (list R -> nat -> nat -> R))) := map (fun mp => (em_items (fst mp), snd mp)) parts.
(** The parts of a mix have one number of latent variables, are the models given, and these are estimated by the probabilities given. *)
Definition made_of (lv : nat) (parts : list (emodel * (list R -> nat -> nat -> R))) (subs : list sub) : Prop :=
  subs <> [] /\ Forall2 (fun mp s => part_is (fst mp) s /\ em_lv (fst mp) = lv /\ estimated_by (fst mp) (snd mp)) parts subs.
