(** Vocabulary for estimates from many respondents. *)
From Verif Require Import Base RBase M_Data M_Logit M_Lik M_Est S_Logit S_Lik S_Est S_Item S_True.
Import List.
Local Open Scope R_scope.

(** Probability that a table has the property [good]. *)
Definition chance_of (cats : list nat) (seen : list (list bool)) (q : nat -> list cell -> R) (good : list (list cell) -> bool) : R :=
  rsum (map (fun data => if good data then table_probability q data else 0) (possible_data cats seen)).
(** The first loss is a number that is not above the second. *)
Definition not_worse (a b : result fl) : Prop := exists x y, a = Ok (Some (Fin x)) /\ b = Ok (Some (Fin y)) /\ x <= y.
(** [claim N data] holds for the tables of [N] respondents who answer the items marked in [s], except for tables of as
    small a probability as wanted, if [N] is large. *)
Definition eventually (cats : list nat) (s : list bool) (q : list cell -> R) (claim : list (list cell) -> Prop) : Prop :=
  forall delta, 0 < delta -> exists N0, forall N, (N0 <= N)%nat ->
    exists good, (forall data, In data (possible_data cats (repeat s N)) -> good data = true -> claim data) /\
      1 - delta < chance_of cats (repeat s N) (fun _ => q) good.
