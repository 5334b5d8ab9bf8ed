(** Real-number vocabulary: extended reals as torch produces them, finite sums, dot products.
    Definitions only; lemmas are in [RFacts.v]. *)
From Coq Require Export Reals Lra.
From Verif Require Import Base.
Local Open Scope R_scope.

(** A float that is finite or infinite (NaN is represented by [None : option R] where it occurs). *)
Inductive ext : Type := Fin (x : R) | NInf | PInf.

Definition is_pinf (e : ext) : bool := match e with PInf => true | _ => false end.
Definition is_ninf (e : ext) : bool := match e with NInf => true | _ => false end.

(** [x.sum()] of a list, and [torch.matmul] of two vectors. *)
Fixpoint rsum (l : list R) : R := match l with [] => 0 | x :: l' => x + rsum l' end.
Definition dot (a b : list R) : R := rsum (zip_with Rmult a b).

(** The finite sum of [f 0 .. f (n-1)], used in specifications. *)
Fixpoint sumn (n : nat) (f : nat -> R) : R := match n with O => 0 | S n' => sumn n' f + f n' end.

(** Logistic function; [torch.sigmoid] on extended reals. *)
Definition logistic (x : R) : R := / (1 + exp (- x)).
Definition sigmoid_ext (e : ext) : R := match e with Fin x => logistic x | NInf => 0 | PInf => 1 end.

(** [F.softmax] of one row: NaN everywhere when the row contains +inf or is all -inf
    ([None] = NaN). *)
Definition exp_ext (e : ext) : R := match e with Fin x => exp x | NInf => 0 | PInf => 0 end.
Definition softmax (l : list ext) : list (option R) :=
  if existsb is_pinf l || forallb is_ninf l then map (fun _ => None) l
  else map (fun e => Some (exp_ext e / rsum (map exp_ext l))) l.

(** Arithmetic with NaN. *)
Definition olift2 (f : R -> R -> R) (a b : option R) : option R :=
  match a, b with Some x, Some y => Some (f x y) | _, _ => None end.
Fixpoint osum (l : list (option R)) : option R :=
  match l with [] => Some 0 | x :: l' => olift2 Rplus x (osum l') end.

(** [out[mask] = v] with a scalar. *)
Definition set_mask {A} (m : list bool) (v : A) (l : list A) : list A :=
  zip_with (fun (b : bool) x => if b then v else x) m l.

(** Entries of nested lists. *)
Definition at2 {A} (x : list (list A)) (i j : nat) : option A :=
  match nth_error x i with Some r => nth_error r j | None => None end.
Definition at3 {A} (x : list (list (list A))) (i j k : nat) : option A :=
  match nth_error x i with Some r => at2 r j k | None => None end.

(** [mask.sum()]: the number of true entries. *)
Definition ctrue (l : list bool) : nat := length (filter (fun b : bool => b) l).
