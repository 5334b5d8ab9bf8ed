(** Vocabulary for nested models. *)
From Verif Require Import Base RBase S_Logit.
Import List.
Local Open Scope R_scope.

(** On batches that are not empty a model's table is, respondent by respondent and item by item, the numbers [p] for [M] categories. *)
Definition tabulates (lv items M : nat) (probs : list (list R) -> result (list (list (list (option R))))) (p : list R -> nat -> nat -> R) : Prop :=
  forall thetas, thetas <> [] -> Forall (fun t => length t = lv) thetas ->
    probs thetas = Ok (map (fun t => map (fun i => map (fun k => Some (p t i k)) (seq 0 M)) (seq 0 items)) thetas).
(** Position of category [k] among the wrong answers when [c] is the right one. *)
Definition among_wrong (c k : nat) : nat := if (k <? c)%nat then k else (k - 1)%nat.
(** The right answer has the chance of a right answer; a wrong one has the chance of a wrong answer times its share of them. *)
Definition nested_chances (key : list nat) (c q : list R -> nat -> nat -> R) (t : list R) (i k : nat) : R :=
  if (k =? nth i key O)%nat then c t i 1%nat else c t i 0%nat * q t i (among_wrong (nth i key O) k).
