(** Vocabulary for the rate of change of bit scores. *)
From Verif Require Import Base RBase S_Grid.
Local Open Scope R_scope.

(** A category of an item: impossible throughout or possible throughout, with a continuous derivative [d]. *)
Definition smooth_category (Q d : R -> R) : Prop :=
  (forall t, derivable_pt_lim Q t (d t)) /\ continuity d /\ ((forall t, Q t = 0) \/ (forall t, 0 < Q t)).
(** A test: the categories of each item with their derivatives; the probabilities of an item sum to one. *)
Definition smooth_items (P D : list (list (R -> R))) : Prop :=
  Forall2 (fun ps ds => Forall2 smooth_category ps ds /\ forall t, rsum (map (fun Q => Q t) ps) = 1) P D.
(** All functions at one score. *)
Definition at_score (t : R) (P : list (list (R -> R))) : list (list R) := map (map (fun Q => Q t)) P.
(** Entropies in bits of the items. *)
Definition test_bits (P : list (list (R -> R))) (t : list R) : list R := map bits (at_score (nth 0 t 0) P).
(** One dichotomous item with the logistic function. *)
Definition logistic_item : list (list (R -> R)) := [[(fun t => 1 - logistic t); logistic]].
Definition logistic_item_slopes : list (list (R -> R)) := [[(fun t => - (logistic t * (1 - logistic t))); (fun t => logistic t * (1 - logistic t))]].
