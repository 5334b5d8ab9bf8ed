(** Vocabulary for the level of the tests of local independence: data and simulated data from the same model. *)
From Verif Require Import Base RBase M_Data M_Lik M_Est M_Eval M_Stat S_Stat S_Lik S_Est S_Eval S_True S_Rao S_Fit.
Import List.
Local Open Scope R_scope.

(** All [N] respondents answer all items. *)
Definition everybody (cats : list nat) (N : nat) : list (list bool) := repeat (all_seen cats) N.
(** Average over [n] independent draws, [mean] the average over one. *)
Fixpoint draws {A} (mean : (A -> R) -> R) (n : nat) (f : list A -> R) : R :=
  match n with
  | O => f []
  | S n' => mean (fun a => draws mean n' (fun l => f (a :: l)))
  end.
(** Probability of [event data simulated] when the data and [samples] simulated data sets of complete answers are drawn
    independently of each other from the model. *)
Definition chance (cats : list nat) (N : nat) (probs : list (list (list R))) (samples : nat) (event : list (list cell) -> list (list (list cell)) -> bool) : R :=
  draws (on_average cats (everybody cats N) probs) (S samples)
    (fun l => match l with data :: simulated => if event data simulated then 1 else 0 | [] => 0 end).
(** The p-value reported for items [i] and [j] is a number no larger than [alpha]. *)
Definition significant (alpha : R) (i j : nat) (r : result (list (list (option R)))) : bool :=
  match r with
  | Ok m => match nth j (nth i m []) None with Some p => if Rle_dec p alpha then true else false | None => false end
  | Err _ => false
  end.
(** Some simulated statistic is neither above nor below that of the data (equal, or one of them is NaN). *)
Definition reported (r : result (list (list fl))) (i j : nat) : fl := match r with Ok m => nth j (nth i m []) None | Err _ => None end.
Definition tied (statistic : list (list cell) -> result (list (list fl))) (i j : nat) (data : list (list cell)) (simulated : list (list (list cell))) : bool :=
  existsb (fun s => negb (below_nan (reported (statistic s) i j) (reported (statistic data) i j) || below_nan (reported (statistic data) i j) (reported (statistic s) i j))) simulated.
(** All respondents answer item [i] with the probabilities [p], and did answer it alike. *)
Definition alike (N i : nat) (probs : list (list (list R))) (rows : list (list cell)) : Prop :=
  exists p c, c <> None /\ c <> Some (-1)%Z /\ forall n, (n < N)%nat -> at2 probs n i = Some p /\ at2 rows n i = Some c.
