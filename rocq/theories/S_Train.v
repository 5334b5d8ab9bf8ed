(** Vocabulary of the statements about training. *)
From Verif Require Import Base RBase M_Lik.
Local Open Scope R_scope.

(** Order of losses: NaN is lower than nothing and nothing is lower than NaN. *)
Definition lower (a b : fl) : Prop :=
  match a, b with
  | Some (Fin x), Some (Fin y) => x < y
  | Some NInf, Some (Fin _) | Some NInf, Some PInf | Some (Fin _), Some PInf => True
  | _, _ => False
  end.
(** Lower by the relative threshold [t]. *)
Definition clearly_lower (t : R) (a b : fl) : Prop :=
  match a, b with
  | Some (Fin x), Some (Fin y) => x < y * (1 - t)
  | _, _ => lower a b
  end.
(** [m] is the last time before [n] at which [E] happened; it has not happened before [n]. *)
Definition last_before (E : nat -> Prop) (n m : nat) : Prop := (m < n)%nat /\ E m /\ forall k, (m < k < n)%nat -> ~ E k.
Definition none_before (E : nat -> Prop) (n : nat) : Prop := forall k, (k < n)%nat -> ~ E k.
(** The plateau rule for the losses [l]: [I n] when loss [n] is clearly below the loss of the last improvement; [A n]
    when the waiting time is over, that is, nothing happened in the [patience] preceding steps either. *)
Definition plateau_rule (t : R) (patience : nat) (l : nat -> fl) (I A : nat -> Prop) : Prop :=
  (forall n, I n <-> (exists m, last_before I n m /\ clearly_lower t (l n) (l m)) \/
                     (none_before I n /\ clearly_lower t (l n) (Some PInf))) /\
  (forall n, A n <-> ~ I n /\ ((exists m, last_before (fun k => I k \/ A k) n m /\ n = m + patience + 1)%nat \/
                               (none_before (fun k => I k \/ A k) n /\ n = patience))).
(** Learning rates: multiplied by [factor] when the waiting time is over (unless that changes them by 1e-8 or less). *)
Definition rates_follow (factor t : R) (patience : nat) (lr : R) (l : nat -> fl) (rate : nat -> R) : Prop :=
  rate 0%nat = lr /\
  exists I A, plateau_rule t patience l I A /\
    forall n, (A n /\ / 100000000 < rate n * (1 - factor) -> rate (S n) = rate n * factor) /\
              (~ (A n /\ / 100000000 < rate n * (1 - factor)) -> rate (S n) = rate n).
(** How often the rate changed in the first [n] steps. *)
Definition drops (rate : nat -> R) (n : nat) : nat :=
  length (filter (fun m => if Req_EM_T (rate (S m)) (rate m) then false else true) (seq 0 n)).
(** [b] is the first of [0 .. n-1] with the lowest loss. *)
Definition first_lowest (l : nat -> fl) (n b : nat) : Prop :=
  (b < n)%nat /\ lower (l b) (Some PInf) /\ (forall m, (m < n)%nat -> ~ lower (l m) (l b)) /\
  (forall m, (m < b)%nat -> l m = None \/ lower (l b) (l m)).
(** Evaluations after every [interval] iterations, except that the first iteration is never one: how many there are in
    the first [n] iterations, after how many iterations evaluation [k] takes place, and the mean it looks at. *)
Definition evaluated (interval n : nat) : nat := if (interval =? 1)%nat then (n - 1)%nat else (n / interval)%nat.
Definition evaluation_time (interval k : nat) : nat := if (interval =? 1)%nat then (k + 2)%nat else ((k + 1) * interval)%nat.
(** Training on the batches [bs] one after the other: [w n] is the state before batch [n], [l n] the loss found there and
    [rate n] the learning rate used; [N] batches are used before [limit] reductions of the rate have been made. *)
Definition run_of {W B} (loss : B -> W -> fl) (update : B -> R -> W -> W) (factor t : R) (patience : nat) (lr : R) (limit : Z)
    (w0 : W) (bs : list B) (N : nat) (w : nat -> W) (rate : nat -> R) (l : nat -> fl) : Prop :=
  (N <= length bs)%nat /\ w 0%nat = w0 /\
  (forall n b, nth_error bs n = Some b -> l n = loss b (w n) /\ w (S n) = update b (rate n) (w n)) /\
  rates_follow factor t patience lr l rate /\
  (forall n, (n < N)%nat -> (Z.of_nat (drops rate n) < limit)%Z) /\
  ((N < length bs)%nat -> Z.of_nat (drops rate N) = limit).
(** What is kept of [N] batches, [per] of them in an epoch: the state after the update which follows the first lowest
    loss, and the epoch of that loss; the last state if no loss is below +inf. *)
Definition kept {W} (w : nat -> W) (rate : nat -> R) (l : nat -> fl) (N per : nat) (final : W) (final_rate : R) (epoch : nat) : Prop :=
  (exists i, first_lowest l N i /\ final = w (S i) /\ final_rate = rate (S i) /\ epoch = (i / per)%nat) \/
  ((forall m, (m < N)%nat -> ~ lower (l m) (Some PInf)) /\ final = w N /\ final_rate = rate N /\ epoch = 0%nat).
(** [m] is the mean of the losses [xs]. *)
Definition mean_of (xs : list fl) (m : fl) : Prop :=
  (forall rs, xs = map (fun r => Some (Fin r)) rs -> m = Some (Fin (rsum rs / INR (length rs)))) /\
  ((forall x, In x xs -> x <> None /\ x <> Some NInf) -> In (Some PInf) xs -> m = Some PInf).
(** Training in intervals: rates depend on the means [m k] of the losses in the interval before evaluation [k]; training
    also ends when a loss is NaN. *)
Definition interval_run_of {W B} (loss : B -> W -> fl) (update : B -> R -> W -> W) (factor t : R) (patience : nat) (lr : R) (limit : Z)
    (interval : nat) (w0 : W) (bs : list B) (N : nat) (w : nat -> W) (rate : nat -> R) (l m : nat -> fl) : Prop :=
  (N <= length bs)%nat /\ w 0%nat = w0 /\
  (forall n b, nth_error bs n = Some b -> l n = loss b (w n) /\ w (S n) = update b (rate (evaluated interval n)) (w n)) /\
  (forall k, mean_of (map l (seq (evaluation_time interval k - interval) interval)) (m k)) /\
  rates_follow factor t patience lr m rate /\
  (forall n, (n < N)%nat -> l n <> None /\ (Z.of_nat (drops rate (evaluated interval n)) < limit)%Z) /\
  ((N < length bs)%nat -> l N = None \/ Z.of_nat (drops rate (evaluated interval N)) = limit).
