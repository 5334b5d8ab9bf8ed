(** Common vocabulary of the model: results with exceptions as values, and the torch/Python list
    operations the modelled functions use.  Definitions only; lemmas are in [BaseFacts.v]. *)
From Coq Require Export List Arith ZArith Lia Bool.
Export ListNotations.

(** Python exception classes raised by the modelled code. *)
Inductive exn : Type :=
| ValueError | IndexError | RuntimeError | TypeError | UnboundLocalError
| NotImplementedError | ZeroDivisionError | AttributeError | KeyError | OtherError.

(** Outcome of a Python call: a value or a raised exception. *)
Inductive result (A : Type) : Type :=
| Ok : A -> result A
| Err : exn -> result A.
Arguments Ok {A} _.
Arguments Err {A} _.

Definition bind {A B} (r : result A) (f : A -> result B) : result B :=
  match r with Ok a => f a | Err e => Err e end.

Definition rmap {A B} (f : A -> B) (r : result A) : result B :=
  match r with Ok a => Ok (f a) | Err e => Err e end.

(** A Python loop whose body may raise: the first exception wins. *)
Fixpoint mapM {A B} (f : A -> result B) (l : list A) : result (list B) :=
  match l with
  | [] => Ok []
  | a :: l' => bind (f a) (fun b => bind (mapM f l') (fun bs => Ok (b :: bs)))
  end.

(** Indexed loop: [for i, x in enumerate(l)], starting at index [i]. *)
Fixpoint mapiM_from {A B} (i : nat) (f : nat -> A -> result B) (l : list A) : result (list B) :=
  match l with
  | [] => Ok []
  | a :: l' => bind (f i a) (fun b => bind (mapiM_from (S i) f l') (fun bs => Ok (b :: bs)))
  end.
Definition mapiM {A B} (f : nat -> A -> result B) (l : list A) : result (list B) := mapiM_from 0 f l.

Fixpoint mapi_from {A B} (i : nat) (f : nat -> A -> B) (l : list A) : list B :=
  match l with [] => [] | a :: l' => f i a :: mapi_from (S i) f l' end.
Definition mapi {A B} (f : nat -> A -> B) (l : list A) : list B := mapi_from 0 f l.

(** Replace element [n] of a list (no effect when [n] is out of range; callers check the range). *)
Fixpoint upd {A} (n : nat) (x : A) (l : list A) : list A :=
  match l, n with
  | [], _ => []
  | _ :: t, O => x :: t
  | h :: t, S n' => h :: upd n' x t
  end.

(** torch / Python indexing with wrap-around of negative indices; [None] = IndexError. *)
Definition norm_index (K : nat) (z : Z) : option nat :=
  if (0 <=? z)%Z && (z <? Z.of_nat K)%Z then Some (Z.to_nat z)
  else if (- Z.of_nat K <=? z)%Z && (z <? 0)%Z then Some (Z.to_nat (z + Z.of_nat K))
  else None.

(** [torch.split(l, n)] / [view(-1, n)]: consecutive blocks of [n], the last may be shorter. *)
Fixpoint blocks_fuel {A} (fuel n : nat) (l : list A) : list (list A) :=
  match fuel with
  | O => []
  | S f => match l with
           | [] => []
           | _ => firstn n l :: blocks_fuel f n (skipn n l)
           end
  end.
Definition blocks {A} (n : nat) (l : list A) : list (list A) := blocks_fuel (length l) n l.

(** [torch.chunk(l, k)], [k >= 1]: blocks of size ceil(n/k), hence possibly fewer than [k] blocks;
    on an empty tensor torch returns [k] empty chunks. *)
Definition ceil_div (n k : nat) : nat := (n + k - 1) / k.
Definition chunk {A} (k : nat) (l : list A) : list (list A) :=
  match l with
  | [] => repeat [] k
  | _ => blocks (ceil_div (length l) k) l
  end.

(** [split(sizes)]: consecutive pieces of the given sizes. *)
Fixpoint split_sizes {A} (sizes : list nat) (l : list A) : list (list A) :=
  match sizes with
  | [] => []
  | s :: ss => firstn s l :: split_sizes ss (skipn s l)
  end.

(** [x.repeat_interleave(k, dim=0)] and [x.repeat(k, 1)]. *)
Definition repeat_interleave {A} (k : nat) (l : list A) : list A := flat_map (fun x => repeat x k) l.
Definition tile {A} (k : nat) (l : list A) : list A := concat (repeat l k).

(** Python list slicing [l[:z]] and [l[z:]] for an integer [z] (negative counts from the end). *)
Definition slice_pos (n : nat) (z : Z) : nat :=
  if (z <? 0)%Z then Z.to_nat (Z.max 0 (z + Z.of_nat n)) else Nat.min (Z.to_nat z) n.
Definition take {A} (z : Z) (l : list A) : list A := firstn (slice_pos (length l) z) l.
Definition drop {A} (z : Z) (l : list A) : list A := skipn (slice_pos (length l) z) l.

(** Select positions where the mask is true: [x[mask]]. *)
Fixpoint mask_select {A} (m : list bool) (l : list A) : list A :=
  match m, l with
  | b :: m', x :: l' => if b then x :: mask_select m' l' else mask_select m' l'
  | _, _ => []
  end.

(** [out[mask] = vals]: write the values in order into the true positions. *)
Fixpoint mask_scatter {A} (m : list bool) (vals : list A) (l : list A) : list A :=
  match m, l with
  | b :: m', x :: l' =>
      if b then match vals with
                | v :: vs => v :: mask_scatter m' vs l'
                | [] => x :: mask_scatter m' [] l'
                end
      else x :: mask_scatter m' vals l'
  | _, _ => l
  end.

Fixpoint zip_with {A B C} (f : A -> B -> C) (la : list A) (lb : list B) : list C :=
  match la, lb with
  | a :: la', b :: lb' => f a b :: zip_with f la' lb'
  | _, _ => []
  end.
