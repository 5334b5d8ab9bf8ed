(** Vocabulary for histograms of two latent variables. *)
From Verif Require Import Base RBase M_Hist.
Import List.
Local Open Scope R_scope.

(** [bins] bins of width [w] from [lo] on cover the values exactly: from the smallest to the largest one, or, if all are
    the same, a range of length one around it. *)
Definition spans (xs : list R) (bins : nat) (lo w : R) : Prop :=
  0 < w /\ (forall x, In x xs -> lo <= x <= lo + INR bins * w) /\
  (In lo xs /\ In (lo + INR bins * w) xs \/ INR bins * w = 1 /\ forall x, In x xs -> x = lo + / 2).
(** The value lies in bin [a]; the last bin contains its upper end. *)
Definition inside (bins : nat) (lo w : R) (a : nat) (x : R) : bool :=
  (if Rle_dec (lo + INR a * w) x then true else false) &&
  ((if Rlt_dec x (lo + INR (S a) * w) then true else false) || ((S a =? bins)%nat && (if Req_EM_T x (lo + INR bins * w) then true else false))).
(** Number of respondents in bin [a] of the first and bin [b] of the second variable. *)
Definition respondents_in (bins : nat) (lox wx loy wy : R) (scores : list (R * R)) (a b : nat) : nat :=
  length (filter (fun s => inside bins lox wx a (fst s) && inside bins loy wy b (snd s)) scores).
(** The middle of the bins. *)
Definition middles (bins : nat) (lo w : R) : list R := map (fun a => lo + (INR a + / 2) * w) (seq 0 bins).
(** Height of the figure over the [i]-th value of the first and the [j]-th value of the second variable. *)
Definition height (fig : contour) (i j : nat) : option R := nth i (nth j (c_z fig) []) None.
(** Not everybody has the same value. *)
Definition differ (xs : list R) : Prop := exists x y, In x xs /\ In y xs /\ x <> y.
(** Sturges' rule for [n] values: the logarithm to base 2, rounded up, plus one. *)
Definition sturges (n : nat) : nat := S (Nat.log2_up n).
