(** Vocabulary of the statements about interpolation, ranks, outliers and bit scores. *)
From Coq Require Import Sorted.
From Verif Require Import Base RBase.
Local Open Scope R_scope.

(** The line through two points. *)
Definition line (a ya b yb v : R) : R := ya + (yb - ya) / (b - a) * (v - a).
(** Numbers of values below and equal to [x]. *)
Definition below (x : R) (l : list R) : nat := length (filter (fun y => if Rlt_dec y x then true else false) l).
Definition equal_to (x : R) (l : list R) : nat := length (filter (fun y => if Req_EM_T y x then true else false) l).
(** Average rank of the values equal to [x] when the data are ranked 1 .. n. *)
Definition average_rank (x : R) (l : list R) : R := INR (below x l) + (INR (equal_to x l) + 1) / 2.
(** Sum over the coordinates of the absolute differences. *)
Definition gap (a b : list R) : R := rsum (zip_with (fun x y => Rabs (y - x)) a b).
(** Sum of the gaps of a vector-valued function along a sequence of points. *)
Fixpoint variation {A} (f : A -> list R) (pts : list A) : R :=
  match pts with
  | a :: ((b :: _) as rest) => gap (f a) (f b) + variation f rest
  | _ => 0
  end.
(** Every coordinate of [f] is nondecreasing or nonincreasing on [a, b]; [n] coordinates. *)
Definition coordinatewise_monotone (f : R -> list R) (n : nat) (a b : R) : Prop :=
  (forall x, a <= x <= b -> length (f x) = n) /\
  forall i, (i < n)%nat ->
    (forall x y, a <= x -> x <= y -> y <= b -> nth i (f x) 0 <= nth i (f y) 0) \/
    (forall x y, a <= x -> x <= y -> y <= b -> nth i (f y) 0 <= nth i (f x) 0).
(** Entropy in bits with 0 log 0 = 0. *)
Definition bits (p : list R) : R := rsum (map (fun x => if Req_EM_T x 0 then 0 else - x * (ln x / ln 2)) p).
(** Points of the grid of one variable: the start, the other grid points moved up to the start where below it, and the
    scores of the batch likewise. *)
Definition grid_value (gp : nat) (lo hi start : R) (col : list R) (y : R) : Prop :=
  y = start \/ (exists k, (0 < k < gp)%nat /\ y = Rmax ((1 - INR k / INR (gp - 1)) * lo + INR k / INR (gp - 1) * hi) start) \/ exists c, In c col /\ y = Rmax c start.
(** A category is either empty for every score or has positive probability at [t]. *)
Definition regular_category (t : R) (P : R -> R) (d : R) : Prop :=
  derivable_pt_lim P t d /\ ((forall x, P x = 0) \/ 0 < P t).
