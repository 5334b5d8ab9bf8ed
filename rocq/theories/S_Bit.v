(** Vocabulary for bit scores as integrals. *)
From Verif Require Import Base RBase S_Mass S_Grid.
Local Open Scope R_scope.

(** The [n] coordinates of [f] have the derivatives [h], continuous on [lo, hi]. *)
Definition smooth_on (n : nat) (f : R -> list R) (h : nat -> R -> R) (lo hi : R) : Prop :=
  (forall v, length (f v) = n) /\
  forall i, (i < n)%nat -> forall v, lo <= v <= hi -> derivable_pt_lim (fun u => nth i (f u) 0) v (h i v) /\ continuity_pt (h i) v.
(** The integral, from [s] to [x], of the sum of the absolute derivatives. *)
Definition absolute_integral (n : nat) (h : nat -> R -> R) (s x v : R) : Prop := area (fun u => sumn n (fun i => Rabs (h i u))) s x v.
(** Entropies in bits of the items of a one-parameter logistic model with intercepts [b]. *)
Definition opl_bits (b : list R) (t : list R) : list R := map (fun d => bits [1 - logistic (nth 0 t 0 + d); logistic (nth 0 t 0 + d)]) b.
