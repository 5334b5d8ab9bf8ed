(** Vocabulary for scores as predictions: averages over a population of respondents and their answers. *)
From Verif Require Import Base RBase M_Data M_Lik M_Est S_Lik S_Est S_True.
Import List.
Local Open Scope R_scope.

(** Average of [f t row] when latent variables [t] are drawn from [points] in proportion to [density] and the items
    marked in [seen] are then answered according to the model. *)
Definition on_population (points : list (list R)) (density : list R -> R) (p : list R -> nat -> nat -> R) (cats : list nat) (seen : list bool) (f : list R -> list cell -> R) : R :=
  rsum (map (fun t => density t * rsum (map (fun row => likelihood p t row * f t row) (possible_rows cats seen))) points) / rsum (map density points).
(** Mean squared error of [score] as a prediction of latent variable [d]. *)
Definition squared_error (points : list (list R)) (density : list R -> R) (p : list R -> nat -> nat -> R) (cats : list nat) (seen : list bool) (d : nat) (score : list cell -> R) : R :=
  on_population points density p cats seen (fun t row => (nth d t 0 - score row) ^ 2).
(** No other function of the answers has a smaller squared error, and only the same function has the same. *)
Definition best_prediction (points : list (list R)) (density : list R -> R) (p : list R -> nat -> nat -> R) (cats : list nat) (seen : list bool) (d : nat) (score : list cell -> R) : Prop :=
  forall other, squared_error points density p cats seen d score <= squared_error points density p cats seen d other /\
    (squared_error points density p cats seen d other <= squared_error points density p cats seen d score ->
     forall row, In row (possible_rows cats seen) -> other row = score row).
(** Scores are right on average, their errors unrelated to anything computed from the answers, and they vary less than the
    latent variable by their squared error. *)
Definition calibrated (points : list (list R)) (density : list R -> R) (p : list R -> nat -> nat -> R) (cats : list nat) (seen : list bool) (d : nat) (score : list cell -> R) : Prop :=
  let mean f := on_population points density p cats seen f in
  mean (fun _ row => score row) = mean (fun t _ => nth d t 0) /\
  (forall f : list cell -> R, mean (fun t row => (nth d t 0 - score row) * f row) = 0) /\
  mean (fun t _ => (nth d t 0 - mean (fun u _ => nth d u 0)) ^ 2) = mean (fun _ row => (score row - mean (fun _ other => score other)) ^ 2) + squared_error points density p cats seen d score.
(** Answers to more items never make the squared error larger. *)
Definition helped_by_answers (points : list (list R)) (density : list R -> R) (p : list R -> nat -> nat -> R) (cats : list nat) (d : nat) (score : list cell -> R) : Prop :=
  forall seen more, length seen = length cats -> length more = length cats -> (forall i, nth i seen false = true -> nth i more false = true) ->
    squared_error points density p cats more d score <= squared_error points density p cats seen d score.
