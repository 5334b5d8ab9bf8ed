(** Specification vocabulary for keys, histories of fits and flags. *)
From Coq Require Import Reals.
From Verif Require Import Base RBase M_Data M_State.
Local Open Scope Z_scope.

(** Every item has a key entry which is one of its categories. *)
Definition legal_key (cats key : list Z) : Prop :=
  length key = length cats /\
  forall i k K, nth_error key i = Some k -> nth_error cats i = Some K -> 0 <= k < K.
Definition legal_row (cats : list Z) (row : list cell) : Prop :=
  length row = length cats /\
  forall i c K, nth_error row i = Some c -> nth_error cats i = Some K ->
    c = None \/ c = Some (-1) \/ exists z, c = Some z /\ 0 <= z < K.
(** The attributes a user sees after construction. *)
Definition built (lv : nat) (cats : list Z) (key : option (list Z)) (a : attrs) : Prop :=
  at_lv a = lv /\ at_cats a = cats /\ at_items a = length cats /\ at_key a = key /\
  In (at_max a) cats /\ forall K, In K cats -> K <= at_max a.

(** The data handed to a call, and the calls made with data of [w] columns. *)
Definition call_data (c : fit_call) : mat :=
  match c with FitJoint d _ _ _ _ => d | FitMarginal d _ _ => d | FitEncoder d _ _ _ => d end.
Definition rows_of_call (c : fit_call) : list (list cell) := m_rows (call_data c).
(** The call ends without exception on every algorithm object whose data have its width. *)
Definition succeeds (c : fit_call) : Prop :=
  match c with
  | FitJoint d lv start _ t => (exists g, t = Ok g) /\
      match start with None => True | Some (n, x) => length x = length (m_rows d) /\ n = lv end
  | FitMarginal _ _ o => o = Ok tt
  | FitEncoder _ b i t => b = true /\ (exists x, i = Ok x) /\ exists g, t = Ok g
  end.
Definition stores_scores (c : fit_call) : Prop := match c with FitMarginal _ _ _ => False | _ => True end.

Definition all_true (l : list bool) : Prop := forall b, In b l -> b = true.
Definition all_false (l : list bool) : Prop := forall b, In b l -> b = false.
