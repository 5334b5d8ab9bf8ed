(** Vocabulary of the statements about gradients and information of the item models. *)
From Verif Require Import Base RBase M_Logit S_Logit M_Stat S_Stat M_Info.
Local Open Scope R_scope.

(** The probability table of a model: category [k] of item [i] has probability [p t i k] for a respondent with
    scores [t], whoever else is in the batch. *)
Definition reads (lv items M : nat) (probs : list (list R) -> list (list (list (option R)))) (p : list R -> nat -> nat -> R) : Prop :=
  forall thetas r t i k, Forall (fun t => length t = lv) thetas -> nth_error thetas r = Some t -> (i < items)%nat -> (k < M)%nat ->
    at3 (probs thetas) r i k = Some (Some (p t i k)).
(** [D i k d] are the partial derivatives of the probabilities at [t]. *)
Definition partials (lv items M : nat) (p : list R -> nat -> nat -> R) (t : list R) (D : nat -> nat -> nat -> R) : Prop :=
  forall i k d, (i < items)%nat -> (k < M)%nat -> (d < lv)%nat -> derivable_pt_lim (fun x => p (upd d x t) i k) (nth d t 0) (D i k d).
(** A category either has positive probability or never occurs near [t]. *)
Definition supported (lv items M : nat) (p : list R -> nat -> nat -> R) (t : list R) (D : nat -> nat -> nat -> R) : Prop :=
  forall i k, (i < items)%nat -> (k < M)%nat -> 0 < p t i k \/ (p t i k = 0 /\ forall d, (d < lv)%nat -> D i k d = 0).

(** Mean and covariance of category values under the probabilities [p] of [K] categories. *)
Definition category_mean (K : nat) (p s : nat -> R) : R := sumn K (fun k => p k * s k).
Definition category_covariance (K : nat) (p s u : nat -> R) : R :=
  sumn K (fun k => p k * (s k - category_mean K p s) * (u k - category_mean K p u)).
(** The information reported for item [i] of respondent [r]: the matrix with entries [I d e]. *)
Definition item_matrix_is (lv : nat) (out : result (list info)) (r i : nat) (I : nat -> nat -> R) : Prop :=
  exists infos Ms Mi, out = Ok infos /\ nth_error infos r = Some (Matrices Ms) /\ nth_error Ms i = Some Mi /\
    forall d e, (d < lv)%nat -> (e < lv)%nat -> entry Mi d e (I d e).
(** The information reported for the test as a whole. *)
Definition test_matrix_is (lv : nat) (out : result (list info)) (r : nat) (I : nat -> nat -> R) : Prop :=
  exists infos Mt, out = Ok infos /\ nth_error infos r = Some (Matrices [Mt]) /\
    forall d e, (d < lv)%nat -> (e < lv)%nat -> entry Mt d e (I d e).
(** Decreasing intercepts of every item. *)
Definition ordered (m : poly) : Prop := forall i k, (i < length (p_cats m))%nat -> (1 <= k)%nat -> (S k < nth i (p_cats m) O)%nat ->
  intercept (p_cats m) (p_b m) i (S k) < intercept (p_cats m) (p_b m) i k.
