(** Model of the backward pass of the spline basis, torch_modules/b_spline.py:4-58.
    Definitions only.  Simplification throughout: floats are reals. *)
From Verif Require Import Base RBase M_BSpl.
Import List.
Local Open Scope R_scope.

(** splinetorch.b_spline_basis_derivative(x, knots, degree, order=1), b_spline.py:34, is outside the repository; it is
    taken to evaluate the derivative by the usual recursion (0/0 = 0). *)
Definition bbasis_derivative (t : nat -> R) (p i : nat) (x : R) : R :=
  match p with
  | O => 0
  | S q => INR p * (ratio (bbasis t q i x) (t (i + p)%nat - t i) - ratio (bbasis t q (S i) x) (t (S i + p)%nat - t (S i)))
  end.
(** The row of derivatives of all basis functions at one point, b_spline.py:34. *)
Definition derivative_row (degree : nat) (knots : list R) (x : R) : list R :=
  map (fun i => bbasis_derivative (fun j => nth j knots 0) degree i x) (seq 0 (n_bases degree knots)).
(** backward, b_spline.py:21-58, for a cotangent of shape points x bases: (grad_output * d_basis_dx).sum(dim=-1);
    None when the points need no gradient (32).  Knots and degree get no gradient (58), which is why only the first
    component is modelled. *)
Definition basis_backward (needs : bool) (degree : nat) (knots xs : list R) (grad_output : list (list R)) : option (list R) :=
  if needs then Some (zip_with (fun g x => rsum (zip_with Rmult g (derivative_row degree knots x))) grad_output xs) else None.
(** A cotangent with a batch dimension (added by vmap): d_basis_dx gets a leading dimension 1 and is broadcast (46-53). *)
Definition basis_backward_batch (needs : bool) (degree : nat) (knots xs : list R) (grad_output : list (list (list R)))
  : option (list (list R)) :=
  if needs then Some (map (fun gs => zip_with (fun g x => rsum (zip_with Rmult g (derivative_row degree knots x))) gs xs) grad_output) else None.
