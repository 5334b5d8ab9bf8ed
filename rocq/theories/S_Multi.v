(** Vocabulary for fitting several models in a pool of processes. *)
From Verif Require Import Base.
Import List.

(** The state of an algorithm after it has fitted [models] one after the other, if [g] is what a fit makes of the model and
    of the algorithm. *)
Definition after {M A} (g : M -> A -> M * A) (start : A) (models : list M) : A := fold_left (fun a m => snd (g m a)) models start.
(** The models of the batch of [c] that model [i] is in, and those of them before model [i]. *)
Definition batch {M} (c i : nat) (models : list M) : list M := firstn c (skipn (i / c * c) models).
Definition earlier {M} (c i : nat) (models : list M) : list M := firstn (i mod c) (batch c i models).
