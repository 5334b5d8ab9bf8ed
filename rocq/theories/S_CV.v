(** Specification vocabulary for splitting and cross-validation. *)
From Coq Require Import Permutation QArith String.
From Verif Require Import Base M_CV.
Local Close Scope Q_scope.
Local Open Scope list_scope.

(** A permutation of the row numbers 0..n-1. *)
Definition is_perm (perm : list nat) (n : nat) : Prop := Permutation perm (seq 0 n).

(** Position of the combination with digits [is] in a lexicographic enumeration with [ns] values
    per digit, the last digit running fastest. *)
Fixpoint lex_position (ns is : list nat) : nat :=
  match ns, is with
  | _ :: ns', i :: is' => i * fold_right Nat.mul 1 ns' + lex_position ns' is'
  | _, _ => 0
  end.

(** [is] picks one value from each list. *)
Definition picks {V} (ls : list (list V)) (is : list nat) (vs : list V) : Prop :=
  Forall2 (fun (li : list V * nat) v => nth_error (fst li) (snd li) = Some v) (combine ls is) vs /\
  length is = length ls.

(** A fitting procedure that just records the data it has been given. *)
Definition record_fit {A} (h : list A) (d : list A) : result (list A) := Ok (h ++ d).

(** Powers of a rational. *)
Fixpoint qpow (q : Q) (n : nat) : Q := match n with O => 1%Q | S n' => (q * qpow q n')%Q end.
