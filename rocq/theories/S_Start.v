(** Vocabulary for the starting point of the bit scale. *)
From Verif Require Import Base RBase M_Logit M_Est S_Est.
Import List.
Local Open Scope R_scope.

(** How a respondent who knows nothing answers an item: [x] is the probability of the correct category [z]. *)
Definition guesser (K : nat) (z : nat) (x : R) (w : list R) : Prop :=
  length w = K /\ (forall k, (k < K)%nat -> chance w k = if (k =? z)%nat then x else (1 - x) / (INR K - 1)).
(** Number of entries at most, and at least, [m]. *)
Definition at_most (m : R) (l : list R) : nat := length (filter (fun x => if Rle_dec x m then true else false) l).
Definition at_least (m : R) (l : list R) : nat := length (filter (fun x => if Rle_dec m x then true else false) l).
(** [its]: the positions meant by the argument items. *)
Definition means_items (n : nat) (items : option (list Z)) (its : list nat) : Prop :=
  (items = None \/ items = Some []) /\ its = seq 0 n \/
  items = Some (map Z.of_nat its) /\ its <> [] /\ Forall (fun i => (i < n)%nat) its.
