(** Vocabulary for integration rules. *)
From Verif Require Import Base RBase.
Import List.
Local Open Scope R_scope.

(** Moments of the standard normal distribution: 1, 0, 1, 0, 3, 0, 15, ... *)
Fixpoint normal_moment (k : nat) : R := match k with O => 1 | S O => 0 | S (S k' as m) => INR m * normal_moment k' end.
(** A one-dimensional Gauss-Hermite rule that is exact up to degree [D]: with weight function exp(-x^2), total sqrt(pi), the
    moments of sqrt(2) x are those of the standard normal distribution. *)
Definition exact_to (D : nat) (nodes ws : list R) : Prop :=
  length ws = length nodes /\ forall k, (k <= D)%nat -> rsum (zip_with (fun x w => w * (sqrt 2 * x) ^ k) nodes ws) = sqrt PI * normal_moment k.
(** The integral of [f] by a rule. *)
Definition integral (rule : list (list R) * list R) (f : list R -> R) : R := rsum (zip_with (fun y w => w * f y) (fst rule) (snd rule)).
(** Polynomials of [d] variables of total degree at most [n]. *)
Inductive polynomial (d : nat) : nat -> (list R -> R) -> Prop :=
| poly_const n c : polynomial d n (fun _ => c)
| poly_coord n k : (k < d)%nat -> polynomial d (S n) (fun y => nth k y 0)
| poly_plus n f g : polynomial d n f -> polynomial d n g -> polynomial d n (fun y => f y + g y)
| poly_mult n m f g : polynomial d n f -> polynomial d m g -> polynomial d (n + m) (fun y => f y * g y).
(** Products of powers. *)
Definition power (e : list nat) (z : list R) : R := fold_right Rmult 1 (zip_with (fun k x => x ^ k) e z).
(** Expectations of functions of [d] independent standard normal variables, as far as degree [D]. *)
Record standard_normal (d D : nat) (E : (list R -> R) -> R) : Prop := {
  sn_ext : forall f g, (forall z, length z = d -> f z = g z) -> E f = E g;
  sn_plus : forall f g, E (fun z => f z + g z) = E f + E g;
  sn_scale : forall c f, E (fun z => c * f z) = c * E f;
  sn_power : forall e, length e = d -> (list_sum e <= D)%nat -> E (power e) = fold_right Rmult 1 (map normal_moment e) }.
(** The vector mean + L z. *)
Definition affine (d : nat) (mean : list R) (L : nat -> nat -> R) (z : list R) : list R := map (fun i => nth i mean 0 + sumn d (fun k => L i k * nth k z 0)) (seq 0 d).
(** L is a factor of the covariance matrix. *)
Definition factor (d : nat) (L s : nat -> nat -> R) : Prop := forall i j, (i < d)%nat -> (j < d)%nat -> sumn d (fun k => L i k * L j k) = s i j.
Definition symmetric_matrix (d : nat) (s : nat -> nat -> R) : Prop := forall i j, (i < d)%nat -> (j < d)%nat -> s i j = s j i.
Definition positive_definite (d : nat) (s : nat -> nat -> R) : Prop :=
  forall v : nat -> R, (exists i, (i < d)%nat /\ v i <> 0) -> 0 < sumn d (fun i => sumn d (fun j => v i * s i j * v j)).
