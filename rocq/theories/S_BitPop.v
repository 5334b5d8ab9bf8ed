(** Vocabulary for bit scores relative to a population. *)
From Verif Require Import Base RBase.
Local Open Scope R_scope.

(** Scores in another unit and origin: variable [j] is multiplied by [a_j], of either sign, and [b_j] is added. *)
Definition convert (a b theta : list R) : list R := zip_with Rplus (zip_with Rmult theta a) b.
(** The quantity moves strictly with variable [j], whatever the values of the others. *)
Definition rises (total : list R -> R) (lv j : nat) : Prop :=
  forall t x y, length t = lv -> x < y -> total (upd j x t) < total (upd j y t).
Definition falls (total : list R -> R) (lv j : nat) : Prop :=
  forall t x y, length t = lv -> x < y -> total (upd j y t) < total (upd j x t).
