(** Vocabulary of the statements about derivatives of splines. *)
From Coq Require Import String.
From Verif Require Import Base RBase M_Logit M_Mono M_BSpl S_BSpl M_BGrad.
Import List.
Local Open Scope R_scope.

(** The score is no knot, or the degree is at least two and the score is one of the knots only once. *)
Definition smooth_at (degree : nat) (knots : list R) (theta : R) : Prop :=
  ~ In theta knots \/ ((2 <= degree)%nat /\ forall i j, nth_error knots i = Some theta -> nth_error knots j = Some theta -> i = j).
(** Slope of [spline_value]: the derivatives of the basis functions with the cumulated coefficients, times the
    derivative of the logistic function. *)
Definition spline_slope (p : nat) (knots : list R) (c : nat -> R) (theta : R) : R :=
  logistic theta * (1 - logistic theta) *
  sumn (n_bases p knots) (fun b => bbasis_derivative (fun j => nth j knots 0) p b (logistic theta) * sumn (S b) (fun j => softplus (c j))).
(** Slope of [bspline_logit] in latent variable [d]. *)
Definition logit_slope (m : bspl) (t : list R) (i k d : nat) : R :=
  if bs_by_item m then INR k * spline_slope (bs_degree m) (bs_knots m) (shared_increment m d i) (nth d t 0)
  else sumn k (fun c => spline_slope (bs_degree m) (bs_knots m) (own_increment m i (S c)) (nth 0 t 0)).
(** The probability table of a spline model, empty when it raises. *)
Definition bs_table (m : bspl) (rows : list (list R)) : list (list (list (option R))) :=
  match bs_probabilities m rows with Ok p => p | Err _ => [] end.
