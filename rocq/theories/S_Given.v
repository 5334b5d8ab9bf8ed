(** Vocabulary for what answers tell beyond the sum score. *)
From Verif Require Import Base RBase M_Data M_Logit M_Lik M_Est S_Logit S_Lik S_Est S_True S_Rao S_Suff.
Import List.
Local Open Scope R_scope.

(** The rows have the same weighted sum scores on all latent variables. *)
Definition same_totals (lv : nat) (w : nat -> nat -> nat -> R) (row row' : list cell) : Prop :=
  forall d, (d < lv)%nat -> total w row d = total w row' d.
(** The weighted sum scores of the row are [s]. *)
Definition scores (lv : nat) (w : nat -> nat -> nat -> R) (s : nat -> R) (row : list cell) : bool :=
  forallb (fun d => if Req_EM_T (total w row d) (s d) then true else false) (seq 0 lv).
(** Mean, times total weight, over respondents given as weights and latent variables. *)
Definition among (people : list (R * list R)) (h : list R -> R) : R := rsum (map (fun x => fst x * h (snd x)) people).
(** Two tables in which respondents answer the same items and have the same weighted sum scores. *)
Definition same_scores (lv : nat) (w : nat -> nat -> nat -> R) (data data' : list (list cell)) : Prop :=
  Forall2 (fun row row' => same_items row row' /\ same_totals lv w row row') data data'.
(** [v] is the ratio of the probability that item [i] is answered in category 1 and [j] in category 0 to the probability
    of the opposite, for respondent [r] of a table of probabilities. *)
Definition preference (probs : list (list (list (option R)))) (r i j : nat) (v : R) : Prop :=
  exists right_i wrong_i right_j wrong_j,
    at3 probs r i 1 = Some (Some right_i) /\ at3 probs r i 0 = Some (Some wrong_i) /\
    at3 probs r j 1 = Some (Some right_j) /\ at3 probs r j 0 = Some (Some wrong_j) /\
    0 < right_j * wrong_i /\ v = (right_i * wrong_j) / (right_j * wrong_i).
