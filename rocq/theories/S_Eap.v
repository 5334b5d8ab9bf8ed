(** Vocabulary for the integration grid of EAP scores. *)
From Verif Require Import Base RBase.
Import List.
Local Open Scope R_scope.

(** The scores on latent variable [d] range from [lo] to [hi]. *)
Definition ranges (scores : list (list R)) (d : nat) (lo hi : R) : Prop :=
  (forall t, In t scores -> lo <= nth d t 0 <= hi) /\ (exists t, In t scores /\ nth d t 0 = lo) /\ exists t, In t scores /\ nth d t 0 = hi.
(** Points per latent variable when none are asked for: fewer, the more latent variables. *)
Definition usual_points (lv : nat) : nat := match lv with 1 => 200 | 2 => 15 | 3 => 7 | 4 => 5 | _ => 15 end%nat.
(** [g] equally spaced points from a quarter of the range below the lowest score to a quarter above the highest. *)
Definition eap_point (lo hi : R) (g j : nat) : R := (lo - (hi - lo) / 4) + INR j * ((hi - lo) * (3 / 2) / INR (g - 1)).
(** All combinations of such points. *)
Definition eap_grid (lv g : nat) (scores grid : list (list R)) : Prop :=
  length grid = (g ^ lv)%nat /\
  forall lo hi, (forall d, (d < lv)%nat -> ranges scores d (lo d) (hi d)) ->
  forall t, In t grid <-> length t = lv /\ forall d, (d < lv)%nat -> exists j, (j < g)%nat /\ nth d t 0 = eap_point (lo d) (hi d) g j.
