(** Vocabulary of the statements about figures. *)
From Verif Require Import Base RBase M_Data M_Scale M_Plot S_Eval.
Import List.
Local Open Scope R_scope.

(** [n] equally spaced numbers from [lo] to [hi]; number [k]. *)
Definition spaced (lo hi : R) (n k : nat) : R := lo + INR k / INR (n - 1) * (hi - lo).
(** The score row with [x] for latent variable [i] (from zero) and [fix j] for every other variable [j]. *)
Definition axis_row (D i : nat) (fix_ : nat -> R) (x : R) : list R := map (fun j => if (j =? i)%nat then x else fix_ j) (seq 0 D).
Definition axis_row2 (D i j : nat) (fix_ : nat -> R) (x y : R) : list R :=
  map (fun d => if (d =? j)%nat then y else if (d =? i)%nat then x else fix_ d) (seq 0 D).
(** The latent variables that are not plotted, in order. *)
Definition others (D : nat) (idx : list nat) : list nat := filter (fun j => negb (existsb (Nat.eqb j) idx)) (seq 0 D).
(** Column [j] of the scores of several respondents. *)
Definition scores_on (j : nat) (rows : list (list R)) : list R := map (fun r => nth j r 0) rows.
(** Smallest and largest of several numbers. *)
Definition is_extent (l : list R) (lo hi : R) : Prop := In lo l /\ In hi l /\ forall x, In x l -> lo <= x <= hi.
(** The lower median: fewer than half of the numbers lie below it, at least half at or below it. *)
Definition below (m : R) (l : list R) : nat := length (filter (fun x => if Rlt_dec x m then true else false) l).
Definition upto (m : R) (l : list R) : nat := length (filter (fun x => if Rle_dec x m then true else false) l).
Definition is_lower_median (l : list R) (m : R) : Prop := In m l /\ (2 * below m l < length l)%nat /\ (length l <= 2 * upto m l)%nat.

(** The range of an axis: as given; otherwise the extent of the scores [src]; without any, -3 to 3. *)
Definition range_is (src : option (list (list R))) (j : nat) (given : option (list R)) (lo hi : R) : Prop :=
  match given with
  | Some r => r = [lo; hi]
  | None => match src with Some rows => is_extent (scores_on j rows) lo hi | None => lo = -3 /\ hi = 3 end
  end.
(** The values of the other variables: as given, in order; otherwise the medians of [src]; without any, 0. *)
Definition fixed_are (src : option (list (list R))) (D : nat) (idx : list nat) (given : option (list R)) (fix_ : nat -> R) : Prop :=
  match given with
  | Some f => f = map fix_ (others D idx)
  | None => match src with
            | Some rows => rows <> [] /\ forall j, In j (others D idx) -> is_lower_median (scores_on j rows) (fix_ j)
            | None => forall j, In j (others D idx) -> fix_ j = 0
            end
  end.
(** Both axes are on the transformed scale: every attached scale is invertible, rescaling is asked for and there are
    stored training scores. *)
Definition on_transformed_scale (m : pmodel) (rescale : bool) : Prop :=
  pl_scales m <> [] /\ Forall (fun s => fst s = true) (pl_scales m) /\ rescale = true /\ pl_training m <> None.
(** The attached scales act on every score row of the model by [T]. *)
Definition transforms_by (m : pmodel) (T : list R -> list R) : Prop :=
  (forall t, length t = pl_dim m -> length (T t) = pl_dim m) /\
  forall thetas, Forall (fun t => length t = pl_dim m) thetas -> pl_transform m thetas = Ok (map T thetas).
Definition inverts_by (m : pmodel) (U : list R -> list R) : Prop :=
  (forall t, length t = pl_dim m -> length (U t) = pl_dim m) /\
  forall thetas, Forall (fun t => length t = pl_dim m) thetas -> pl_inverse m thetas = Ok (map U thetas).
(** The curve is a function of the scores (of at least one row). *)
Definition drawn_by {V} (m : pmodel) (curve : list (list R) -> result (list V)) (f : list R -> V) : Prop :=
  forall thetas, thetas <> [] -> Forall (fun t => length t = pl_dim m) thetas -> curve thetas = Ok (map f thetas).
(** Where the defaults come from: the stored training scores, transformed when the axes are. *)
Definition scores_source (m : pmodel) (rescale : bool) (src : option (list (list R))) : Prop :=
  match pl_training m with
  | None => src = None
  | Some t => (on_transformed_scale m rescale -> exists t', pl_transform m t = Ok t' /\ src = Some t') /\
              (~ on_transformed_scale m rescale -> src = Some t)
  end.
(** The scores on the axes: the transformed ones when rescaling is asked for and there is a scale. *)
Definition shows (m : pmodel) (rescale : bool) (T : list R -> list R) : Prop :=
  (rescale = true /\ pl_scales m <> [] /\ transforms_by m T) \/
  ((rescale = false \/ pl_scales m = []) /\ forall t, T t = t).
(** Numbers increase strictly along 0, ..., n - 1. *)
Definition increasing (n : nat) (x : nat -> R) : Prop := forall a b, (a < b < n)%nat -> x a < x b.
Definition decreasing (n : nat) (x : nat -> R) : Prop := forall a b, (a < b < n)%nat -> x b < x a.
Definition nondecreasing (n : nat) (x : nat -> R) : Prop := forall a b, (a < b < n)%nat -> x a <= x b.
(** Number of steps: as given, otherwise the default. *)
Definition steps_are (given : option nat) (default n : nat) : Prop := match given with Some k => n = k | None => n = default end.
(** A given range has two values. *)
Definition two_values (r : option (list R)) : Prop := match r with Some l => length l = 2%nat | None => True end.
(** A line figure of [n] candidate points (x k, y k): consecutive ones are drawn, all of them when x increases; when x
    never decreases and is not constant, only repetitions of the lowest x are left out. *)
Definition draws {V} (n : nat) (x : nat -> R) (y : nat -> V) (fig : result (figure V)) : Prop :=
  exists a b, (a + b <= n)%nat /\ fig = Ok (Line (map (fun k => (x k, y k)) (seq a b))) /\
    (increasing n x -> a = O /\ b = n) /\
    (nondecreasing n x -> x O < x (n - 1)%nat -> (a + b = n)%nat /\ forall k, (k < a)%nat -> x k = x a).
(** Items numbered from one; those named, each once, in the order of the test. *)
Definition items_named (I : nat) (chosen : list Z) : Prop := Forall (fun v => (1 <= v <= Z.of_nat I)%Z) chosen.
Definition named (I : nat) (chosen : option (list Z)) : list nat :=
  match chosen with None => seq 0 I | Some l => filter (fun j => existsb (Z.eqb (Z.of_nat j + 1)) l) (seq 0 I) end.
(** Every one of the items is answered; the log-likelihood of the answers to the items at scores [t] (an answer of
    probability zero counts -30). *)
Definition all_seen (data : list cell) (items : list nat) : bool := forallb (fun i => seen [data] 0 i) items.
Definition pattern_loglik (p : list R -> nat -> nat -> R) (data : list cell) (items : list nat) (t : list R) : R :=
  rsum (map (fun i => cell_loglik p [t] [data] 0 i) items).
