(** Vocabulary for the variational autoencoder's loss as a bound on the marginal likelihood. *)
From Verif Require Import Base RBase M_Logit M_Data M_Lik M_Est S_Est.
Local Open Scope R_scope.

(** [A f] is the average of [f] over noise rows of [lv] numbers: positive, linear, and 1 for the constant 1. *)
Record averaging (lv : nat) (A : (list R -> R) -> R) : Prop := {
  av_mono : forall f g, (forall z, length z = lv -> f z <= g z) -> A f <= A g;
  av_pos : forall f, (forall z, length z = lv -> 0 < f z) -> 0 < A f;
  av_plus : forall f g, A (fun z => f z + g z) = A f + A g;
  av_scal : forall c f, A (fun z => c * f z) = c * A f;
  av_one : A (fun _ => 1) = 1 }.
(** Coordinates of the noise have mean 0 and variance 1. *)
Definition standardised (lv : nat) (A : (list R -> R) -> R) : Prop :=
  forall d, (d < lv)%nat -> A (fun z => nth d z 0) = 0 /\ A (fun z => nth d z 0 ^ 2) = 1.
(** The average of [F] over [n] independent noise rows. *)
Fixpoint expected (A : (list R -> R) -> R) (n : nat) (F : list (list R) -> R) : R :=
  match n with O => F [] | S n' => A (fun z => expected A n' (fun l => F (z :: l))) end.
(** Average of [f] over finitely many equally likely noise rows. *)
Definition over (rows : list (list R)) (f : list R -> R) : R := rsum (map f rows) / INR (length rows).
(** The number a loss function returned. *)
Definition loss_value (r : result fl) : R := match r with Ok (Some (Fin v)) => v | _ => 0 end.
(** The average importance weight of a respondent's draws, the full ratio of densities being used. *)
Definition average_weight (A : (list R -> R) -> R) (p : list R -> nat -> nat -> R) (mean logvar : list R) (row : list cell) : R :=
  A (fun z => importance_weight p 1 mean logvar (draw mean logvar z) row).

(** Training a variational autoencoder by gradient descent on a respondent who answered nothing: the state is the number
    of iterations and the encoder's mean, a batch is the noise drawn; the loss is then the annealed divergence. *)
Definition silent_batch (m : emodel) (anneal : bool) (iterations : nat) (w : nat * R) (z : R) : result fl :=
  vae_batch m anneal (fst w) iterations 1 (Wide (em_items m) [repeat None (em_items m)]) [[snd w]] [[0]] [[z]].
Definition silent_loss (m : emodel) (iterations : nat) (z : R) (w : nat * R) : fl :=
  match silent_batch m true iterations w z with Ok l => l | Err _ => None end.
Definition silent_step (iterations : nat) (z rate : R) (w : nat * R) : nat * R :=
  (S (fst w), snd w - rate * (Rmin 1 (INR (fst w) / INR iterations) * snd w)).
