(** Vocabulary for mutual information differences. *)
From Verif Require Import Base RBase S_Stat.
Local Open Scope R_scope.

(** Mutual information of the observed answers to two items, and of two items under the model averaged over respondents. *)
Definition observed_information (b : R) (data : list (list (option nat))) (i j : nat) : R :=
  joint_entropy b (joint_answers i i data) + joint_entropy b (joint_answers j j data) - joint_entropy b (joint_answers i j data).
Definition implied_information (b : R) (m : nat) (probs : list (list (list R))) (i j : nat) : R :=
  shannon b (average_law m probs i) + shannon b (average_law m probs j) - shannon b (average_pair_law m probs i j).
(** Average over the respondents of the probability of answers [k] and [l]. *)
Definition pair_probability (probs : list (list (list R))) (i j k l : nat) : R := mean (map (fun r => nth k (nth i r []) 0 * nth l (nth j r []) 0) probs).
(** Number of distinct answers (pairs of answers) observed. *)
Definition distinct (data : list (list (option nat))) (i j : nat) : R := INR (length (nodup pair_eq_dec (joint_answers i j data))).
(** What the constant inside the logarithm can amount to. *)
Definition slack (b : R) (m : nat) (data : list (list (option nat))) (i j : nat) : R :=
  (distinct data i i + distinct data j j + distinct data i j + 2 * INR m + INR (m * m)) * (/ 10000000000 / ln b).
