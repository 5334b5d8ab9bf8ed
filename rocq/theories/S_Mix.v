(** Specification vocabulary for mixtures and integration weights. *)
From Verif Require Import Base RBase M_Lik.
Local Open Scope R_scope.

(** [f] is the normal density with mean [mu] and variance [v], as a log density. *)
Definition normal_log_density (mu v x : R) : R := - (x - mu) ^ 2 / (2 * v) - ln (sqrt (2 * PI * v)).
(** Weighted sums over the rows of a data set. *)
Definition wsum (ws : list R) (f : list R -> R) (data : list (list R)) : R := rsum (zip_with (fun w x => w * f x) ws data).
(** A discrete distribution. *)
Definition weights_ok (ws : list R) : Prop := Forall (fun w => 0 <= w) ws /\ rsum ws = 1.
(** All folds but one, in order. *)
Definition other_folds {A} (folds : list (list A)) (i : nat) : list A := concat (firstn i folds ++ skipn (S i) folds).
Definition sample_sd (l : list R) : R := sqrt (rsum (map (fun a => (a - rsum l / INR (length l)) ^ 2) l) / (INR (length l) - 1)).
(** Least and largest value of a list. *)
Definition least (l : list R) (x : R) : Prop := In x l /\ forall y, In y l -> x <= y.
Definition largest (l : list R) (x : R) : Prop := In x l /\ forall y, In y l -> y <= x.
(** Starting means of the shape the mixture draws for itself: one per component. *)
Definition starts_ok (draw : nat -> nat -> list (list R)) (last : Z -> list (list R)) : Prop :=
  (forall c i k, nth_error [2; 3; 4; 5; 10]%Z c = Some k -> length (draw c i) = Z.to_nat k) /\ (forall k, length (last k) = Z.to_nat k).
