(** Vocabulary for splines of several variables. *)
From Verif Require Import Base RBase M_Spline M_SplineT S_Spline.
Import List.
Local Open Scope R_scope.

(** The spline of variable [j]. *)
Definition variable (m : splines) (j : nat) : rqs := with_rows (sv_spline m) (nth j (sv_w m) []) (nth j (sv_h m) []) (nth j (sv_d m) []).
(** One row of parameters for each of [V] variables. *)
Definition variables (m : splines) (V : nat) : Prop := length (sv_w m) = V /\ length (sv_h m) = V /\ length (sv_d m) = V.
(** The bins fit. *)
Definition bins_fit (s : rqs) : Prop := rq_min_w s * INR (rq_bins s) <= 1 /\ rq_min_h s * INR (rq_bins s) <= 1.
(** A matrix of numbers with [V] columns. *)
Definition numbers (V : nat) (inputs : list (list (option R))) : Prop := Forall (fun row => length row = V /\ Forall (fun x => x <> None) row) inputs.
(** Column [j] transformed by [f j], cell by cell. *)
Definition cellwise (f : nat -> R -> R) (inputs : list (list (option R))) : list (list (option R)) := map (mapi (fun j x => option_map (f j) x)) inputs.
(** Some cell is between the bounds. *)
Definition some_inside (lb ub : R) (inputs : list (list (option R))) : Prop := exists row x, In row inputs /\ In (Some x) row /\ lb <= x <= ub.
