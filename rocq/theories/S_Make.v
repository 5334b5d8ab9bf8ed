(** Vocabulary for models built from data. *)
From Verif Require Import Base RBase M_Data S_Data.
Local Open Scope R_scope.

(** The answers coded as the documentation asks: 0, 1, ..., a missing answer as NaN or -1. *)
Definition coded (d : mat) : Prop := forall r c z, at_ (m_rows d) r c = Some (Some z) -> (-1 <= z)%Z.
(** Somebody answered item [c]. *)
Definition answered (d : mat) (c : nat) : Prop := exists r z, at_ (m_rows d) r c = Some (Some z) /\ (0 <= z)%Z.
(** [K] is one more than the largest answer to item [c]. *)
Definition one_more (d : mat) (c K : nat) : Prop :=
  (forall r z, at_ (m_rows d) r c = Some (Some z) -> (z < Z.of_nat K)%Z) /\ exists r, at_ (m_rows d) r c = Some (Some (Z.of_nat K - 1)%Z).
(** Data of at least one respondent and item. *)
Definition proper (d : mat) : Prop := rectangular d /\ m_rows d <> [] /\ (0 < m_cols d)%nat /\ coded d.
