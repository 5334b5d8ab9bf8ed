(** Vocabulary for what the fit statistics aim at: their values on average over answers generated by the model. *)
From Verif Require Import Base RBase M_Data M_Lik M_Est M_Eval S_Lik S_Est S_Eval S_True.
Import List.
Local Open Scope R_scope.

(** The rows of [probs] are probabilities of [M] categories, zero for the categories the item does not have. *)
Definition answers_as (M : nat) (cats : list nat) (probs : list (list (list R))) : Prop :=
  forall n i p, at2 probs n i = Some p ->
    length p = M /\ (nth i cats O <= M)%nat /\ (forall k, 0 <= nth k p 0) /\ (forall k, (nth i cats O <= k)%nat -> nth k p 0 = 0) /\ rsum p = 1.
(** Respondent [n] is asked item [i]. *)
Definition asked (pattern : list (list bool)) (n i : nat) : bool := nth i (nth n pattern []) false.
(** Probability that respondent [n] gives the answers [row], one item independent of the other. *)
Definition answering (probs : list (list (list R))) (n : nat) (row : list cell) : R :=
  likelihood (fun _ i k => nth k (nth i (nth n probs []) []) 0) [] row.
(** Average of [f] over all tables of answers to the items asked. *)
Definition on_average (cats : list nat) (pattern : list (list bool)) (probs : list (list (list R))) (f : list (list cell) -> R) : R :=
  rsum (map (fun data => table_probability (answering probs) data * f data) (possible_data cats pattern)).
(** [f] has a value for all tables, [v] on average. *)
Definition expected (cats : list nat) (pattern : list (list bool)) (probs : list (list (list R))) (f : list (list cell) -> option R) (v : R) : Prop :=
  exists x, (forall data, In data (possible_data cats pattern) -> f data = Some (x data)) /\ on_average cats pattern probs x = v.
(** Mean of [f] over the elements of [l] marked by [b]. *)
Definition mean_where {A} (b : A -> bool) (f : A -> R) (l : list A) : R := rsum (map f (filter b l)) / INR (length (filter b l)).
(** Entries of the reported vectors. *)
Definition real_entry (l : list nanr) (j : nat) : option R := match nth_error l j with Some (Some x) => Some x | _ => None end.
Definition fl_entry (l : list fl) (j : nat) : option R := match nth_error l j with Some (Some (Fin x)) => Some x | _ => None end.
Definition vec_entry (r : result stat) (j : nat) : option R := match r with Ok (Vec l) => real_entry l j | _ => None end.
Definition one_entry (r : result stat) : option R := match r with Ok (One x) => x | _ => None end.
Definition infit_entry (r : result (list fl * list fl)) (j : nat) : option R := match r with Ok (a, _) => fl_entry a j | _ => None end.
Definition outfit_entry (r : result (list fl * list fl)) (j : nat) : option R := match r with Ok (_, b) => fl_entry b j | _ => None end.
Definition group_entry (r : result (list (list (list fl)) * list nanr)) (g i k : nat) : option R :=
  match r with Ok (a, _) => match at3 a g i k with Some (Some (Fin x)) => Some x | _ => None end | _ => None end.
(** Probabilities of the categories of cell (n, i); chance that two answers to it agree. *)
Definition probs_at (probs : list (list (list R))) (n i : nat) : list R := nth i (nth n probs []) [].
Definition agreement (p : list R) : R := sumn (length p) (fun k => nth k p 0 * nth k p 0).
(** Expected residual of a cell: 0 without a key; with a key residuals are one minus the probability of the answer. *)
Definition usual_residual (mc : option (list Z)) (p : list R) : R := match mc with None => 0 | Some _ => 1 - agreement p end.
(** A key: the correct option of each item. *)
Definition usable_key (M I : nat) (mc : option (list Z)) : Prop :=
  forall key, mc = Some key -> (2 <= M)%nat /\ length key = I /\ (0 < I)%nat /\ forall z, In z key -> (0 <= z < Z.of_nat M)%Z.
(** Two respondents with probabilities 1/4 and 3/4 of being right on one item. *)
Definition two_people (theta : list R) : list (list R) := [[1 - nth 0 theta 0; nth 0 theta 0]].
Definition two_thetas : list (list R) := [[1 / 4]; [3 / 4]].
