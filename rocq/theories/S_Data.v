(** Specification vocabulary for the data-preparation properties, written without the model's
    helper functions. *)
From Coq Require Import QArith.
From Verif Require Import Base M_Data.
Local Close Scope Q_scope.

Definition Missing (c : cell) : Prop := c = None \/ c = Some (-1)%Z.

(** The matrix is two-dimensional and rectangular. *)
Definition rectangular (d : mat) : Prop :=
  m_dim d = 2 /\ Forall (fun r => length r = m_cols d) (m_rows d).

(** Every cell is missing or a category 0..K-1 of its item. *)
Definition legal (cats : list nat) (d : mat) : Prop :=
  forall row i K c, In row (m_rows d) -> nth_error cats i = Some K -> nth_error row i = Some c ->
  Missing c \/ exists z, c = Some z /\ (0 <= z < Z.of_nat K)%Z.

(** [enc] is the one-hot code of [row]: right width, and in the block of every item, which starts
    after the categories of the earlier items, a one exactly at the response. *)
Definition is_one_hot (cats : list nat) (row : list cell) (enc : list Z) : Prop :=
  length enc = list_sum cats /\
  forall i K c k, nth_error cats i = Some K -> nth_error row i = Some c -> k < K ->
    exists x, nth_error enc (list_sum (firstn i cats) + k) = Some x /\
              ((c = Some (Z.of_nat k) /\ x = 1%Z) \/ (c <> Some (Z.of_nat k) /\ x = 0%Z)).

(** Reading a code back: in each block, the position of the first one. *)
Fixpoint first_one (k : nat) (l : list Z) : option nat :=
  match l with [] => None | x :: l' => if (x =? 1)%Z then Some k else first_one (S k) l' end.
Fixpoint decode (cats : list nat) (enc : list Z) : list (option nat) :=
  match cats with
  | [] => []
  | K :: cs => first_one 0 (firstn K enc) :: decode cs (skipn K enc)
  end.
(** The response a cell stands for. *)
Definition response (c : cell) : option nat :=
  match c with Some z => if (z =? -1)%Z then None else Some (Z.to_nat z) | None => None end.

(** Cell (r,c) of a list of rows. *)
Definition at_ {A} (m : list (list A)) (r c : nat) : option A :=
  match nth_error m r with Some row => nth_error row c | None => None end.

Definition same_shape {A B} (m : list (list A)) (m' : list (list B)) : Prop :=
  length m = length m' /\
  forall r row row', nth_error m r = Some row -> nth_error m' r = Some row' -> length row = length row'.

(** The observed responses of a column, and their sum and number. *)
Definition col_cells (d : mat) (c : nat) : list cell :=
  map (fun row => match nth_error row c with Some x => x | None => None end) (m_rows d).
Fixpoint obs_sum (l : list cell) : Z :=
  match l with
  | [] => 0
  | Some z :: l' => if (z =? -1)%Z then obs_sum l' else (z + obs_sum l')%Z
  | None :: l' => obs_sum l'
  end.
Fixpoint obs_count (l : list cell) : nat :=
  match l with
  | [] => 0
  | Some z :: l' => if (z =? -1)%Z then obs_count l' else S (obs_count l')
  | None :: l' => obs_count l'
  end.

(** Draws are uniform-range indices: the draw from [n > 0] values is one of 0..n-1. *)
Definition in_range (draw : nat -> nat -> nat -> nat) : Prop :=
  forall c r n, 0 < n -> draw c r n < n.

(** Observed cells are kept; a missing cell's new content satisfies [fill column]. *)
Definition fills (d : mat) (out : list (list qcell)) (fill : nat -> nat -> qcell -> Prop) : Prop :=
  same_shape (m_rows d) out /\
  forall r c x, at_ (m_rows d) r c = Some x ->
    exists y, at_ out r c = Some y /\
      ((~ Missing x /\ y = option_map inject_Z x) \/ (Missing x /\ fill r c y)).

(** The categories used by random-incorrect imputation: those given, or else largest observed + 1. *)
Definition cats_ok (d : mat) (cats : option (list Z)) (K : nat -> Z) : Prop :=
  match cats with
  | Some cs => forall c, c < m_cols d -> nth_error cs c = Some (K c)
  | None => m_rows d <> [] /\
            forall c, c < m_cols d ->
              (exists r, at_ (m_rows d) r c = Some (Some (K c - 1)%Z) /\ K c - 1 <> -1)%Z /\
              (forall r z, at_ (m_rows d) r c = Some (Some z) -> z <> (-1)%Z -> (z <= K c - 1)%Z)
  end.
