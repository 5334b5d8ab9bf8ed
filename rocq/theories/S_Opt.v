(** Vocabulary for scores found by optimisation. *)
From Verif Require Import Base RBase M_Data M_Logit M_Lik M_Est S_Logit S_Lik S_Est.
Import List.
Local Open Scope R_scope.

(** Partial derivative of [f] in coordinate [d] at [t]. *)
Definition partial_is (f : list R -> R) (t : list R) (d : nat) (l : R) : Prop := derivable_pt_lim (fun x => f (upd d x t)) (nth d t 0) l.
(** The plane through (t, f t) with slopes [g], at [t']. *)
Definition plane (lv : nat) (f : list R -> R) (t : list R) (g : nat -> R) (t' : list R) : R :=
  f t + sumn lv (fun d => g d * (nth d t' 0 - nth d t 0)).
(** [g] is the gradient of [f] at [t], and [f] lies below its tangent plane there. *)
Definition below_tangent (lv : nat) (f : list R -> R) (t : list R) (g : nat -> R) : Prop :=
  (forall d, (d < lv)%nat -> partial_is f t d (g d)) /\ forall t', length t' = lv -> f t' <= plane lv f t g t'.
(** [t] is a maximum of [f] among the vectors of [lv] numbers. *)
Definition maximum (lv : nat) (f : list R -> R) (t : list R) : Prop := forall t', length t' = lv -> f t' <= f t.
(** Every answer's log-probability lies below its tangents, and touches one again only where all the probabilities of
    that item are the same. *)
Definition log_concave (lv : nat) (cats : list nat) (p : list R -> nat -> nat -> R) : Prop :=
  forall t i k, length t = lv -> (k < nth i cats O)%nat -> exists g,
    below_tangent lv (fun t => ln (p t i k)) t g /\
    forall t', length t' = lv -> ln (p t' i k) = plane lv (fun t => ln (p t i k)) t g t' -> forall k', (k' < nth i cats O)%nat -> p t' i k' = p t i k'.
(** A row with [x] in place (n, d) of a table of scores. *)
Definition set_score (n d : nat) (x : R) (thetas : list (list R)) : list (list R) := upd n (upd d x (nth n thetas [])) thetas.
(** Log density of a normal distribution with mean zero, precision matrix [P] and normalising constant [c]. *)
Definition quad (lv : nat) (P : nat -> nat -> R) (x : nat -> R) : R := sumn lv (fun d => sumn lv (fun e => P d e * x d * x e)).
Definition normal_prior (lv : nat) (c : R) (P : nat -> nat -> R) (t : list R) : R := c - quad lv P (fun d => nth d t 0) / 2.
Definition precision (lv : nat) (P : nat -> nat -> R) : Prop :=
  (forall d e, (d < lv)%nat -> (e < lv)%nat -> P d e = P e d) /\ forall x, (exists d, (d < lv)%nat /\ x d <> 0) -> 0 < quad lv P x.
