(** Vocabulary for what estimation aims at: answers generated by a model, and averages over them. *)
From Verif Require Import Base RBase M_Data M_Logit M_Lik M_Est S_Logit S_Lik S_Est S_Item.
Import List.
Local Open Scope R_scope.

(** All rows with answers to exactly the items marked in [seen]. *)
Fixpoint possible_rows (cats : list nat) (seen : list bool) : list (list cell) :=
  match cats, seen with
  | K :: cats', b :: seen' => if b then flat_map (fun k => map (cons (Some (Z.of_nat k))) (possible_rows cats' seen')) (seq 0 K) else map (cons None) (possible_rows cats' seen')
  | _, _ => [[]]
  end.
(** All tables in which respondent [r] answers exactly the items marked in [nth r seen []]. *)
Fixpoint possible_data (cats : list nat) (seen : list (list bool)) : list (list (list cell)) :=
  match seen with
  | [] => [[]]
  | s :: seen' => flat_map (fun row => map (cons row) (possible_data cats seen')) (possible_rows cats s)
  end.
(** Probability of a table when respondent [r] gives row [row] with probability [q r row], independently of the others. *)
Definition table_probability (q : nat -> list cell -> R) (data : list (list cell)) : R := rprod (mapi q data).
Definition loss_value (l : result fl) : R := match l with Ok (Some (Fin x)) => x | _ => 0 end.
(** The loss on average over all tables. *)
Definition average_loss (cats : list nat) (seen : list (list bool)) (q : nat -> list cell -> R) (loss : list (list cell) -> result fl) : R :=
  rsum (map (fun data => table_probability q data * loss_value (loss data)) (possible_data cats seen)).
Definition always_finite (cats : list nat) (seen : list (list bool)) (loss : list (list cell) -> result fl) : Prop :=
  forall data, In data (possible_data cats seen) -> exists x, loss data = Ok (Some (Fin x)).
(** A quadrature rule for models with [lv] latent variables. The weights need not add up to 1 (those of mml.py:303-316,
    the default, do not). *)
Definition rule (lv : nat) (points : list (list R)) (weights : list R) : Prop :=
  points <> [] /\ length weights = length points /\ Forall (fun t => length t = lv) points /\ Forall (fun w => 0 < w) weights.
Definition cell_dec (a b : cell) : {a = b} + {a <> b}.
Proof. decide equality; apply Z.eq_dec. Defined.
(** Number of respondents with the answers [row]. *)
Definition times (data : list (list cell)) (row : list cell) : nat := count_occ (list_eq_dec cell_dec) data row.
(** The two ways to have one of two items right. *)
Definition first_right : list cell := [Some 1%Z; Some 0%Z].
Definition second_right : list cell := [Some 0%Z; Some 1%Z].
