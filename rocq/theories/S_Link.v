(** Vocabulary of the statements about linking by common items. *)
From Verif Require Import Base RBase M_Scale.
Local Open Scope R_scope.

(** Kullback-Leibler divergence of [q] from [p] over [M] categories; categories with [p k = 0] add nothing. *)
Definition kl_divergence (M : nat) (p q : nat -> R) : R :=
  sumn M (fun k => if Req_EM_T (p k) 0 then 0 else p k * (ln (p k) - ln (q k))).
(** Squared Hellinger distance. *)
Definition hellinger2 (M : nat) (p q : nat -> R) : R := sumn M (fun k => (sqrt (p k) - sqrt (q k)) ^ 2).
(** Mean of [f r j] over [n] respondents and [J] common items. *)
Definition mean2 (n J : nat) (f : nat -> nat -> R) : R := sumn n (fun r => sumn J (f r)) / INR (n * J).
(** The item a Python index names among [items] items. *)
Definition item_named (items : nat) (z : Z) : Prop := (- Z.of_nat items <= z < Z.of_nat items)%Z.
Definition named (items : nat) (idx : list Z) (j : nat) : nat :=
  let z := nth j idx 0%Z in Z.to_nat (if (z <? 0)%Z then z + Z.of_nat items else z).
(** The mean over respondents and common items of the divergence of the second model's distribution at the
    linked score from the first model's distribution at the score, with [e] added to the former. *)
Definition mean_divergence (M : nat) (e : R) (items_from items_to : nat) (p q : list R -> nat -> nat -> R) (idx_from idx_to : list Z) (thetas linked : list (list R)) : R :=
  mean2 (length thetas) (length idx_from) (fun r j =>
    kl_divergence M (p (nth r thetas []) (named items_from idx_from j)) (fun k => q (nth r linked []) (named items_to idx_to j) k + e)).
(** The common items' curves agree at the scores and the linked scores. *)
Definition curves_agree (M : nat) (items_from items_to : nat) (p q : list R -> nat -> nat -> R) (idx_from idx_to : list Z) (thetas linked : list (list R)) : Prop :=
  forall r j k, (r < length thetas)%nat -> (j < length idx_from)%nat -> (k < M)%nat ->
    q (nth r linked []) (named items_to idx_to j) k = p (nth r thetas []) (named items_from idx_from j) k.
(** Two equally long, non-empty lists of common items, named by position in either model. *)
Definition common_items (cats cats' : list nat) (idx idx' : list Z) : Prop :=
  Forall (item_named (length cats)) idx /\ Forall (item_named (length cats')) idx' /\ length idx' = length idx /\ idx <> [].
(** Scores of at least one respondent on a single latent variable. *)
Definition one_column (thetas : list (list R)) : Prop := thetas <> [] /\ Forall (fun t => length t = 1%nat) thetas.
