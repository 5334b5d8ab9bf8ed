(** Vocabulary for comparing respondents: scores that better answers never lower. *)
From Verif Require Import Base RBase M_Data M_Lik M_Est S_Logit S_Lik S_Est S_True S_Suff S_Rao.
Import List.
Local Open Scope R_scope.

(** Better answers never lower the score [f], which is computed from the answers to the items marked in [seen]. *)
Definition rises (cats : list nat) (seen : list bool) (f : list cell -> R) : Prop :=
  forall row row', In row (possible_rows cats seen) -> In row' (possible_rows cats seen) -> all_no_worse cats row row' -> f row <= f row'.
(** It is not the same for all answers. *)
Definition varies (cats : list nat) (seen : list bool) (f : list cell -> R) : Prop :=
  exists row row', In row (possible_rows cats seen) /\ In row' (possible_rows cats seen) /\ f row <> f row'.
(** Probability that the score [f] of a respondent with latent variable [z] is at least [c]. *)
Definition reaches (cats : list nat) (seen : list bool) (p : list R -> nat -> nat -> R) (z : R) (f : list cell -> R) (c : R) : R :=
  on_answers cats seen p [z] (fun row => if Rle_dec c (f row) then 1 else 0).
(** Sum over a population of respondents: pairs of a weight and a value of the latent variable. *)
Definition in_population (people : list (R * R)) (h : R -> R) : R := rsum (map (fun x => fst x * h (snd x)) people).
(** The sum of the answers. *)
Definition row_total (row : list cell) : nat := list_sum (map (fun c => match answer c with None => O | Some k => k end) row).
(** The score on item [i]. *)
Definition score_on (i : nat) (row : list cell) : R := match answer (nth i row None) with None => 0 | Some k => INR k end.
