(** Specification vocabulary for log-likelihoods. *)
From Verif Require Import Base RBase M_Data M_Logit M_Lik.
Local Open Scope R_scope.

(** [l] is an [N] x [I] table. *)
Definition rect {A} (N I : nat) (l : list (list A)) : Prop := length l = N /\ Forall (fun r => length r = I) l.
Definition rect_opt {A} (N I : nat) (o : option (list (list A))) : Prop :=
  match o with None => True | Some l => rect N I l end.
(** Cell (n, i) is marked missing. *)
Definition masked (mask : option (list (list bool))) (n i : nat) : bool :=
  match mask with None => false | Some m => nth i (nth n m []) false end.
(** The two data matrices agree on every cell that is not marked missing. *)
Definition agree_observed (mask : option (list (list bool))) (d d' : list (list cell)) : Prop :=
  forall n i, masked mask n i = false -> at2 d n i = at2 d' n i.
(** Every cell that is not marked missing holds a category number below [M], given by [x]. *)
Definition responses (N I M : nat) (mask : option (list (list bool))) (d : list (list cell)) (x : nat -> nat -> nat) : Prop :=
  forall n i, (n < N)%nat -> (i < I)%nat -> masked mask n i = false ->
    at2 d n i = Some (Some (Z.of_nat (x n i))) /\ (x n i < M)%nat.
(** The sum over the observed cells. *)
Definition observed_sum (N I : nat) (mask : option (list (list bool))) (v : nat -> nat -> R) : R :=
  sumn N (fun n => sumn I (fun i => if masked mask n i then 0 else v n i)).
(** Columns [lo .. lo+k-1]. *)
Definition columns {A} (lo k : nat) (rows : list (list A)) : list (list A) := map (fun r => firstn k (skipn lo r)) rows.

(** Table entry with "no entry" read as NaN. *)
Definition prob_at (probs : list (list (list (option R)))) (n i k : nat) : option R :=
  match at3 probs n i k with Some p => p | None => None end.
(** [N] x [I] x [M] probability table. *)
Definition table_shape (N I M : nat) (probs : list (list (list (option R)))) : Prop :=
  rect N I probs /\ forall n i r, at2 probs n i = Some r -> length r = M.
(** The observed responses [x] have the positive probabilities [p] in the table. *)
Definition observed_probability (N I : nat) (mask : option (list (list bool))) (probs : list (list (list (option R))))
    (x : nat -> nat -> nat) (p : nat -> nat -> R) : Prop :=
  forall n i, (n < N)%nat -> (i < I)%nat -> masked mask n i = false ->
    at3 probs n i (x n i) = Some (Some (p n i)) /\ 0 < p n i.

(** What a user may expect of a sub-model at the points [thetas]: a two-dimensional output of
    max_item_responses columns per item, a probability table, and log-likelihoods that are the
    logarithms of that table's entries (C26). *)
Definition honest_sub (thetas : list (list R)) (s : sub) (w : wide ext) (P : list (list (list (option R)))) : Prop :=
  let N := length thetas in let I := sb_items s in let M := sb_max s in
  sb_forward s thetas = T2 w /\ w_cols w = (M * I)%nat /\ rect N (M * I) (w_rows w) /\
  sb_probs s (T2 w) = Ok (Cube I M P) /\ table_shape N I M P /\
  (forall data mask x p, rect N I data -> rect_opt N I mask -> responses N I M mask data x ->
     observed_probability N I mask P x p ->
     sb_ll s RSum data (T2 w) mask = Ok (Scalar (Some (Fin (observed_sum N I mask (fun n i => ln (p n i))))))) /\
  (forall data mask x, rect N I data -> rect_opt N I mask -> responses N I M mask data x ->
     exists l, sb_ll s RNone data (T2 w) mask = Ok (Cells l) /\ length l = (N * I)%nat /\
       forall n i, (n < N)%nat -> (i < I)%nat ->
         nth_error l (n * I + i) = Some (if masked mask n i then None else flog (prob_at P n i (x n i)))).

(** Every observed response is one of its item's categories. *)
Definition legal_responses (N : nat) (cats : list nat) (mask : option (list (list bool))) (d : list (list cell))
    (x : nat -> nat -> nat) : Prop :=
  forall n i K, (n < N)%nat -> nth_error cats i = Some K -> masked mask n i = false ->
    at2 d n i = Some (Some (Z.of_nat (x n i))) /\ (x n i < K)%nat.
(** [ll] is the log-likelihood that the probability table [probs] assigns to the responses [x]: the sum of
    the log-probabilities of the observed cells, and cell by cell with NaN for the missing ones. *)
Definition loglik_of (N I : nat) (mask : option (list (list bool))) (probs : list (list (list (option R))))
    (x : nat -> nat -> nat) (ll : reduction -> result llout) : Prop :=
  exists p, observed_probability N I mask probs x p /\
    ll RSum = Ok (Scalar (Some (Fin (observed_sum N I mask (fun n i => ln (p n i)))))) /\
    exists l, ll RNone = Ok (Cells l) /\ length l = (N * I)%nat /\
      forall n i, (n < N)%nat -> (i < I)%nat ->
        nth_error l (n * I + i) = Some (if masked mask n i then None else Some (Fin (ln (p n i)))).

(** A non-empty mix of honest sub-models; [ws] and [Ps] are the sub-models' own outputs and tables. *)
Definition honest_mix (thetas : list (list R)) (subs : list sub) (ws : list (wide ext))
    (Ps : list (list (list (list (option R))))) : Prop :=
  subs <> [] /\ length ws = length subs /\ length Ps = length subs /\
  forall k s w P, nth_error subs k = Some s -> nth_error ws k = Some w -> nth_error Ps k = Some P -> honest_sub thetas s w P.
(** First item of sub-model [k] and number of items of the mix. *)
Definition first_item (subs : list sub) (k : nat) : nat := list_sum (firstn k (map sb_items subs)).
Definition mix_items (subs : list sub) : nat := list_sum (map sb_items subs).

(** The classes a user can put into a mix, and those among them whose output is not max_item_responses
    columns per item. *)
Definition documented_part (s : sub) : Prop :=
  (exists nanl lv cats fwd, s = logit_sub nanl lv cats fwd) \/ (exists nanl m, s = grm_sub nanl m) \/
  (exists nanl m, s = thpl_sub nanl m) \/
  (exists nanl lv cats fwd, s = table_sub nanl lv cats fwd /\ Forall (fun K => (1 <= K)%nat) cats).
Definition unsupported_part (s : sub) : Prop :=
  (exists nanl m, s = thpl_sub nanl m /\ (0 < thpl_items m)%nat) \/
  (exists nanl lv cats fwd, s = table_sub nanl lv cats fwd /\ (0 < length cats)%nat /\ (2 <= list_max cats)%nat).
