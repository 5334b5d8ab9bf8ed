(** Vocabulary for how well scores can do: averages over the answers of one respondent. *)
From Verif Require Import Base RBase M_Data M_Lik M_Est S_Logit S_Lik S_Est S_True.
Import List.
Local Open Scope R_scope.

(** Average of [f] over the answers to the items marked in [seen] of a respondent with latent variables [t]. *)
Definition on_answers (cats : list nat) (seen : list bool) (p : list R -> nat -> nat -> R) (t : list R) (f : list cell -> R) : R :=
  rsum (map (fun row => likelihood p t row * f row) (possible_rows cats seen)).
(** Variance of [f] over those answers. *)
Definition answers_variance (cats : list nat) (seen : list bool) (p : list R -> nat -> nat -> R) (t : list R) (f : list cell -> R) : R :=
  on_answers cats seen p t (fun row => (f row - on_answers cats seen p t f) ^ 2).
(** All items are answered. *)
Definition all_seen (cats : list nat) : list bool := map (fun _ => true) cats.
(** The log-odds of the categories of every item are linear in the latent variables, with weights [w i k d]. *)
Definition linear_logits (lv : nat) (cats : list nat) (p : list R -> nat -> nat -> R) (w : nat -> nat -> nat -> R) : Prop :=
  exists b : nat -> nat -> R, forall t i k, length t = lv -> (k < nth i cats O)%nat ->
    p t i k = category_probability (nth i cats O) (fun k => sumn lv (fun d => w i k d * nth d t 0) + b i k) k.
