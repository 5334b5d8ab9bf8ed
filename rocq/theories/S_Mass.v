(** Vocabulary for the mass of the density a flow is trained with. *)
From Verif Require Import Base RBase M_Spline.
Local Open Scope R_scope.

(** The integral of [f] from [a] to [b] is [v] (Newton's integral: [antiderivative] is the standard library's). *)
Definition area (f : R -> R) (a b v : R) : Prop := exists Q, antiderivative f Q a b /\ v = Q b - Q a.
(** [g] is a positive density with distribution function [G]. *)
Record distribution (g G : R -> R) : Prop := {
  di_deriv : forall x, derivable_pt_lim G x (g x);
  di_pos : forall x, 0 < g x;
  di_below : forall eps, 0 < eps -> exists B, forall x, x < - B -> Rabs (G x) < eps;
  di_above : forall eps, 0 < eps -> exists B, forall x, B < x -> Rabs (G x - 1) < eps }.
(** [D] is the density whose logarithm the flow with base density [g] reports. *)
Definition reported_density (m : rqs) (g D : R -> R) : Prop := forall x, 0 < D x /\ flow_log_prob m (fun y => ln (g y)) x = Ok (ln (D x)).
(** The integral of [D] over the whole line is [T]. *)
Definition total_mass (D : R -> R) (T : R) : Prop :=
  forall eps, 0 < eps -> exists B, forall a b, a < - B -> B < b -> exists v, area D a b v /\ Rabs (v - T) < eps.
