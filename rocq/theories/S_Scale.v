(** Vocabulary of the statements about scales: total derivatives on score rows, invertible scales. *)
From Verif Require Import Base RBase M_Scale.
Local Open Scope R_scope.

Definition vsub (a b : list R) : list R := zip_with Rminus a b.
Definition l1 (v : list R) : R := rsum (map Rabs v).
Definition is_matrix (m n : nat) (J : list (list R)) : Prop := length J = m /\ Forall (fun r => length r = n) J.

(** [J] is the total (Frechet) derivative of [f], from rows of [n] to rows of [m] numbers, at [x]. *)
Definition is_jacobian (n m : nat) (f : list R -> list R) (x : list R) (J : list (list R)) : Prop :=
  length x = n /\ is_matrix m n J /\ (forall y, length y = n -> length (f y) = m) /\
  forall eps, 0 < eps -> exists delta, 0 < delta /\
    forall y, length y = n -> l1 (vsub y x) < delta ->
      l1 (vsub (vsub (f y) (f x)) (mvec J (vsub y x))) <= eps * l1 (vsub y x).
(** [g] is the gradient of the number-valued [h] at [x]. *)
Definition is_gradient (n : nat) (h : list R -> R) (x g : list R) : Prop := is_jacobian n 1 (fun y => [h y]) x [g].

(** A scale acts on each score row of [n] numbers separately, by [f], with inverse [g]. *)
Definition acts_as (n : nat) (s : scale) (f : list R -> list R) : Prop :=
  (forall t, length t = n -> length (f t) = n) /\
  forall thetas, Forall (fun t => length t = n) thetas -> sc_transform s thetas = Ok (map f thetas).
Definition undone_by (n : nat) (s : scale) (f g : list R -> list R) : Prop :=
  acts_as n s f /\
  (forall t, length t = n -> length (g t) = n) /\
  (forall thetas, Forall (fun t => length t = n) thetas -> sc_inverse s thetas = Ok (map g thetas)) /\
  (forall t, length t = n -> g (f t) = t) /\ (forall t, length t = n -> f (g t) = t).
(** The round trip of a list of attached scales returns every batch of scores. *)
Definition round_trip (n : nat) (scales : list scale) : Prop :=
  forall thetas, Forall (fun t => length t = n) thetas ->
    bind (transform_theta scales thetas) (inverse_transform_theta scales) = Ok thetas.
(** The reported Jacobian of a scale is the derivative of its row function everywhere. *)
Definition reports_derivative (n : nat) (s : scale) (f : list R -> list R) : Prop :=
  forall thetas, Forall (fun t => length t = n) thetas ->
    exists js, sc_jacobian s thetas = Ok js /\ Forall2 (fun t J => is_jacobian n n f t J) thetas js.
(** Composition of row functions, the first of the list applied first. *)
Definition compose_all (fs : list (list R -> list R)) (t : list R) : list R := fold_left (fun x f => f x) fs t.
(** An autograd that returns derivatives where they exist. *)
Definition autograd_exact (grad : (R -> R) -> R -> R) : Prop := forall f x l, derivable_pt_lim f x l -> grad f x = l.
(** [B] is the inverse matrix of the [n] x [n] matrix [A]. *)
Definition inverse_matrix (n : nat) (A B : list (list R)) : Prop :=
  is_matrix n n A /\ is_matrix n n B /\
  (forall i j, (i < n)%nat -> (j < n)%nat ->
     sumn n (fun k => nth k (nth i A []) 0 * nth j (nth k B []) 0) = if (i =? j)%nat then 1 else 0) /\
  (forall i j, (i < n)%nat -> (j < n)%nat ->
     sumn n (fun k => nth k (nth i B []) 0 * nth j (nth k A []) 0) = if (i =? j)%nat then 1 else 0).
(** Every scale of the list reports the derivative of its row function at the scores that reach it. *)
Fixpoint derivatives_along (n : nat) (scales : list scale) (fs : list (list R -> list R)) (thetas : list (list R)) : Prop :=
  match scales, fs with
  | [], [] => True
  | s :: scales', f :: fs' =>
      (exists js, sc_jacobian s thetas = Ok js /\ Forall2 (fun t J => is_jacobian n n f t J) thetas js) /\
      derivatives_along n scales' fs' (map f thetas)
  | _, _ => False
  end.
(** Two row functions commute. *)
Definition commute (n : nat) (f g : list R -> list R) : Prop := forall t, length t = n -> f (g t) = g (f t).
(** torch.linalg.solve on invertible square systems. *)
Definition solve_exact (n : nat) (solve : list (list R) -> list R -> result (list (option ext))) : Prop :=
  forall A B b, inverse_matrix n A B -> length b = n ->
    exists v, solve A b = Ok (map (fun r => Some (Fin r)) v) /\ length v = n /\ mvec A v = b.
