(** Vocabulary of the statements about score distributions, entropies, correlations and information. *)
From Verif Require Import Base RBase M_Lik M_Est M_Stat.
Local Open Scope R_scope.

(** Every way of answering items with the given numbers of categories. *)
Fixpoint response_patterns (cats : list nat) : list (list nat) :=
  match cats with
  | [] => [[]]
  | c :: cs => flat_map (fun k => map (cons k) (response_patterns cs)) (seq 0 c)
  end.
(** Probability of a pattern of independent answers, and of a total score. *)
Fixpoint pattern_probability (probs : list (list R)) (pat : list nat) : R :=
  match probs, pat with
  | p :: ps, k :: ks => nth k p 0 * pattern_probability ps ks
  | _, _ => 1
  end.
Definition score_probability (probs : list (list R)) (cats : list nat) (s : nat) : R :=
  rsum (map (fun pat => if (list_sum pat =? s)%nat then pattern_probability probs pat else 0) (response_patterns cats)).
(** One row of probabilities per item, at least as wide as the item's number of categories. *)
Definition fits (probs : list (list R)) (cats : list nat) : Prop :=
  Forall2 (fun p c => (1 <= c)%nat /\ (c <= length p)%nat) probs cats.
(** The first [c] entries are a probability distribution. *)
Definition is_distribution (p : list R) (c : nat) : Prop :=
  (forall k, (k < c)%nat -> 0 <= nth k p 0) /\ sumn c (fun k => nth k p 0) = 1.

(** Shannon entropy with 0 log 0 = 0. *)
Definition shannon (b : R) (p : list R) : R := rsum (map (fun x => if Req_EM_T x 0 then 0 else - x * (ln x / ln b)) p).

(** Relative frequencies of the distinct pairs in a list and their entropy. *)
Definition pair_eq_dec (p q : nat * nat) : {p = q} + {p <> q}.
Proof. decide equality; apply Nat.eq_dec. Defined.
Definition frequency (obs : list (nat * nat)) (p : nat * nat) : R := INR (count_occ pair_eq_dec obs p) / INR (length obs).
Definition joint_entropy (b : R) (obs : list (nat * nat)) : R := shannon b (map (frequency obs) (nodup pair_eq_dec obs)).
(** The jointly observed answers to items [i] and [j]. *)
Fixpoint joint_answers (i j : nat) (data : list (list (option nat))) : list (nat * nat) :=
  match data with
  | [] => []
  | row :: rest =>
      match nth i row None, nth j row None with
      | Some a, Some b => (a, b) :: joint_answers i j rest
      | _, _ => joint_answers i j rest
      end
  end.

(** Means, sums of squares and products about the mean, and Pearson's correlation coefficient. *)
Definition mean (l : list R) : R := rsum l / INR (length l).
Definition cross (a b : list R) : R := rsum (zip_with (fun u v => (u - mean a) * (v - mean b)) a b).
Definition pearson (a b : list R) : R := cross a b / sqrt (cross a a * cross b b).

(** Entries of a matrix of floats as finite numbers. *)
Definition entry (m : list (list fl)) (i j : nat) (r : R) : Prop := nth_error (nth i m []) j = Some (Some (Fin r)).
Definition quadratic_form (n : nat) (A : nat -> nat -> R) (v : nat -> R) : R := sumn n (fun i => sumn n (fun j => v i * A i j * v j)).
(** Every item has a probability distribution over its categories. *)
Definition all_distributions (probs : list (list R)) (cats : list nat) : Prop := Forall2 is_distribution probs cats.
(** Every correct option is one of the item's columns. *)
Definition key_ok (probs : list (list R)) (key : list nat) : Prop := Forall2 (fun p k => (k < length p)%nat) probs key.
(** (total - P(correct), P(correct)). *)
Definition collapse (p : list R) (k : nat) : list R := [rsum p - nth k p 0; nth k p 0].
(** Mixture of the conditional score distributions. *)
Definition mixture (weights : list R) (rows : list (list (list R))) (cats : list nat) (s : nat) : R :=
  rsum (zip_with (fun w probs => w * score_probability probs cats s) weights rows).
(** No missing answer to item [i]. *)
Definition answered (i : nat) (data : list (list (option nat))) : Prop := forall row, In row data -> nth i row None <> None.
(** Column [i] of complete data; the jointly observed values of two columns; the observed values of one. *)
Definition values (x : list (list (option R))) (i : nat) : list R := map (fun row => match nth i row None with Some r => r | None => 0 end) x.
Definition pairs_of (x : list (list (option R))) (i j : nat) : list (R * R) :=
  flat_map (fun row => match nth i row None, nth j row None with Some a, Some b => [(a, b)] | _, _ => [] end) x.
Definition answers_of (x : list (list (option R))) (i : nat) : list R :=
  flat_map (fun row => match nth i row None with Some a => [a] | None => [] end) x.
(** Order of the extended reals. *)
Definition ext_le (a b : ext) : Prop := match a, b with NInf, _ => True | _, PInf => True | Fin x, Fin y => x <= y | _, _ => False end.
(** Categories with positive probability, or padding: probability zero and zero gradient. *)
Definition regular (p : list R) (g : list (list R)) : Prop :=
  Forall2 (fun q d => 0 < q \/ (q = 0 /\ forall i, nth i d 0 = 0)) p g.
(** Sum over the categories of grad_i grad_j / p, for one item and for the test. *)
Definition item_info (p : list R) (g : list (list R)) (i j : nat) : R :=
  rsum (zip_with (fun q d => if Req_EM_T q 0 then 0 else nth i d 0 * nth j d 0 / q) p g).
Definition test_info (probs : list (list R)) (grads : list (list (list R))) (i j : nat) : R := rsum (zip_with (fun p g => item_info p g i j) probs grads).
Definition all_regular (probs : list (list R)) (grads : list (list (list R))) : Prop := Forall2 regular probs grads.
(** Average over the respondents of an item's category probabilities and of the product for two items. *)
Definition average_law (m : nat) (probs : list (list (list R))) (i : nat) : list R :=
  map (fun k => mean (map (fun r => nth k (nth i r []) 0) probs)) (seq 0 m).
Definition average_pair_law (m : nat) (probs : list (list (list R))) (i j : nat) : list R :=
  map (fun '(k, l) => mean (map (fun r => nth k (nth i r []) 0 * nth l (nth j r []) 0) probs)) (list_prod (seq 0 m) (seq 0 m)).
(** Order of the numbers and infinities; NaN is not comparable. *)
Definition below_nan (a b : option ext) : bool :=
  match a, b with
  | Some (Fin x), Some (Fin y) => if Rle_dec y x then false else true
  | Some NInf, Some (Fin _) | Some NInf, Some PInf | Some (Fin _), Some PInf => true
  | _, _ => false
  end.
Definition at_least_nan (a b : option ext) : bool :=
  match a, b with
  | Some (Fin x), Some (Fin y) => if Rle_dec y x then true else false
  | Some _, Some NInf | Some PInf, Some _ => true
  | _, _ => false
  end.
