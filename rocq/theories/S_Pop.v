(** Vocabulary of the statements about populations: directions, least squares, samples, averages. *)
From Verif Require Import Base RBase M_Scale S_Scale M_Logit S_Logit M_Lik.
Local Open Scope R_scope.

(** A reported direction agrees with a change of the expected score from [e] to [e'] when the latent
    variable increases: up for 1, down for -1, no change for 0; there are no other codes. *)
Definition follows (z : Z) (e e' : R) : Prop :=
  (z = 1%Z /\ e < e') \/ (z = (-1)%Z /\ e' < e) \/ (z = 0%Z /\ e = e').
(** The same without strictness. *)
Definition follows_weakly (z : Z) (e e' : R) : Prop :=
  (z = 1%Z /\ e <= e') \/ (z = (-1)%Z /\ e' <= e) \/ (z = 0%Z /\ e = e').

(** torch.inverse over the reals: the inverse matrix if there is one, an error otherwise. *)
Definition inverse_exact (n : nat) (inv : list (list R) -> result (list (list R))) : Prop :=
  forall A, is_matrix n n A ->
    (exists W, inv A = Ok W /\ inverse_matrix n A W) \/
    ((exists e, inv A = Err e) /\ forall B, ~ inverse_matrix n A B).
(** Sum of squared errors of the linear prediction with intercept [w 0] and slopes [w 1 .. w lv]. *)
Definition squared_error (lv : nat) (x : list (list R)) (y : list R) (w : nat -> R) : R :=
  sumn (length x) (fun r => (nth r y 0 - (w O + sumn lv (fun d => w (S d) * nth d (nth r x []) 0))) ^ 2).

(** The mean of [f] over the rows of a population. *)
Definition population_mean {A} (f : A -> R) (l : list A) : R := rsum (map f l) / INR (length l).
(** Every score moved by [h] in latent variable [d]. *)
Definition shifted (d : nat) (h : R) (thetas : list (list R)) : list (list R) :=
  map (fun t => upd d (nth d t 0 + h) t) thetas.
(** A table of item distributions: one row per respondent, one cell per item; [p r i] is a distribution over
    the [M] columns with all its mass, all positive, on the item's categories. *)
Definition table (cats : list nat) (M : nat) (probs : list (list (list (option R)))) (p : nat -> nat -> nat -> R) : Prop :=
  forall r row, nth_error probs r = Some row -> length row = length cats /\
    forall i K c, nth_error cats i = Some K -> nth_error row i = Some c ->
      (1 <= K <= M)%nat /\ length c = M /\ (forall k, (k < M)%nat -> nth_error c k = Some (Some (p r i k))) /\ valid_distribution K M (p r i).
(** The model answers each row of [lv] scores on its own, with the item distributions [p t]. *)
Definition row_model (lv : nat) (cats : list nat) (M : nat) (probs : list (list R) -> list (list (list (option R))))
  (p : list R -> nat -> nat -> R) : Prop :=
  forall thetas, Forall (fun t => length t = lv) thetas ->
    length (probs thetas) = length thetas /\ table cats M (probs thetas) (fun r => p (nth r thetas [])).
(** One correct category of every item, or no answer key. *)
Definition valid_key (cats : list nat) (mc : option (list Z)) : Prop :=
  match mc with
  | None | Some [] => True
  | Some key => length key = length cats /\ forall i z, nth_error key i = Some z -> (0 <= z < Z.of_nat (nth i cats O))%Z
  end.
(** Expected share of the maximum score of item [i], which has [K] categories with probabilities [p i]: the
    probability of the correct category when there is a key, the expected score over K - 1 otherwise. *)
Definition expected_share (M : nat) (mc : option (list Z)) (K : nat) (p : nat -> nat -> R) (i : nat) : R :=
  match mc with
  | Some (z :: key) => p i (Z.to_nat (nth i (z :: key) 0%Z))
  | _ => sumn M (fun k => INR k * p i k) / (INR K - 1)
  end.

(** [erf] is increasing and odd, and [erfinv] inverts it on (-1, 1), is infinite at the ends and NaN beyond. *)
Definition inverse_erf (erf : R -> R) (erfinv : R -> fl) : Prop :=
  (forall x y, x < y -> erf x < erf y) /\ (forall x, erf (- x) = - erf x) /\
  (forall x, -1 < x < 1 -> exists z, erfinv x = Some (Fin z) /\ erf z = x) /\
  erfinv (-1) = Some NInf /\ erfinv 1 = Some PInf /\ (forall x, x < -1 \/ 1 < x -> erfinv x = None).
(** Normal distribution function with mean [mu] and standard deviation [s]. *)
Definition normal_cdf (erf : R -> R) (mu s x : R) : R := (1 + erf ((x - mu) / (s * sqrt 2))) / 2.
(** Two tables of numbers of one shape. *)
Definition same_shape (a b : list (list R)) : Prop :=
  length a = length b /\ forall r u v, nth_error a r = Some u -> nth_error b r = Some v -> length u = length v.
