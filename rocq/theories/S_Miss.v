(** Vocabulary for missing answers as averages. *)
From Verif Require Import Base RBase M_Data S_Est.
Local Open Scope R_scope.

(** All rows that agree with [row] on what was answered, and have an answer to every item marked in [fill]; the other missing answers
    stay missing. *)
Fixpoint completions (cats : list nat) (fill : list bool) (row : list cell) : list (list cell) :=
  match cats, fill, row with
  | K :: cats, f :: fill, c :: row =>
      match answer c, f with
      | None, true => concat (map (fun k => map (cons (Some (Z.of_nat k))) (completions cats fill row)) (seq 0 K))
      | _, _ => map (cons c) (completions cats fill row)
      end
  | _, _, _ => [row]
  end.
(** The probability the model and the population give the answers [full], for a respondent of whom [row] is known. *)
Definition predicted (p : list R -> nat -> nat -> R) (grid : list (list R)) (prior : list R -> R) (row full : list cell) : R :=
  rsum (map (fun t => prior t * likelihood p t full) grid) / rsum (map (fun t => prior t * likelihood p t row) grid).
