(** Vocabulary for comparing ML and MAP scores. *)
From Verif Require Import Base RBase M_Data M_Logit M_Lik M_Est M_Opt S_Lik S_Est S_Opt.
Import List.
Local Open Scope R_scope.

(** The table of scores [thetas] has the least loss: ML scores without, MAP scores with a prior. *)
Definition least_loss (m : emodel) (prior : option (list R -> R)) (data : list (list cell)) (thetas : list (list R)) : Prop :=
  rect (length data) (em_lv m) thetas /\
  forall thetas', rect (length data) (em_lv m) thetas' ->
    exists a b, scoring_loss m prior (Wide (em_items m) data) thetas = Ok (Some (Fin a)) /\
      scoring_loss m prior (Wide (em_items m) data) thetas' = Ok (Some (Fin b)) /\ a <= b.
(** Squared distance of a score from the mean of the prior, in units of the prior. *)
Definition distance (lv : nat) (P : nat -> nat -> R) (t : list R) : R := quad lv P (fun d => nth d t 0).
(** The answers of a respondent who skipped everything. *)
Definition no_answers (row : list cell) : Prop := forall i, answer (nth i row None) = None.
