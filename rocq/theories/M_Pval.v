(** Model of the tests of local independence in irtorch/evaluator.py: the Q3 and AMID statistics of the data,
    the same statistics of data sets simulated from the model, and the tables of p-values.  Definitions only.
    The data frames' row and column names, rounding to three decimals and log messages are left out. *)
From Verif Require Import Base RBase M_Data M_Logit M_Lik M_Est M_Stat M_Eval M_Pop.
Import List.
Local Open Scope R_scope.

(** evaluator.py:886-888 and 904-911: correlations of the residuals of one data set, [M] the largest number of
    categories, [probs] the item probabilities at the scores used. *)
Definition q3_matrix (M : nat) (mc : option (list Z)) (probs : list (list (list R))) (data : wide cell) : result (list (list fl)) :=
  bind (fst (residuals M mc probs data AvOther)) (fun s =>
  match s with
  | Full r => Ok (correlation_matrix (w_cols data) r)
  | _ => Err RuntimeError (* not reached: average_over="none" *)
  end).
(** Category numbers as joint_entropy_matrix counts them, evaluator.py:724 and 764. *)
Definition counted (rows : list (list cell)) : list (list (option nat)) := map (map (option_map Z.to_nat)) rows.
(** evaluator.py:724-749 and 763-768: AMID of one data set. *)
Definition amid_matrix (log_base : R) (M : nat) (probs : list (list (list R))) (data : wide cell) : result (list (list fl)) :=
  bind (data_mutual_information log_base (w_cols data) (counted (w_rows data))) (fun d =>
  bind (expected_mutual_information log_base (w_cols data) M probs) (fun e => Ok (amid d e))).
(** Entry (i, j) of a table, evaluator.py:768, 770, 911 and 913. *)
Definition table_entry (m : list (list fl)) (i j : nat) : fl := nth j (nth i m []) None.
(** evaluator.py:758-778 and 900-920: the statistic of the data, that of every simulated data set, and for every
    pair of items the p-value [pv] from these. *)
Definition sampling_test (statistic : wide cell -> result (list (list fl))) (pv : nat -> nat -> list fl -> fl -> option R)
  (data : wide cell) (simulated : list (list (list cell))) : result (list (list (option R))) :=
  bind (statistic data) (fun obs =>
  bind (mapM (fun rows => statistic (Wide (w_cols data) rows)) simulated) (fun sims =>
  Ok (map (fun i => map (fun j => pv i j (map (fun m => table_entry m i j) sims) (table_entry obs i j)) (seq 0 (w_cols data))) (seq 0 (w_cols data))))).
(** The p-values of q3, evaluator.py:900-920. *)
Definition q3_test (M : nat) (mc : option (list Z)) (probs : list (list (list R))) (data : wide cell) (simulated : list (list (list cell)))
  : result (list (list (option R))) := sampling_test (q3_matrix M mc probs) q3_p_value data simulated.
(** The p-values of mutual_information_difference, evaluator.py:758-778. *)
Definition amid_test (log_base : R) (M : nat) (probs : list (list (list R))) (data : wide cell) (simulated : list (list (list cell)))
  : result (list (list (option R))) := sampling_test (amid_matrix log_base M probs) amid_p_value data simulated.
(** evaluator.py:761-763 and 902-904: [samples] data sets drawn by sample_test_data at the scores used, [q s] the
    random numbers of draw [s]. *)
Definition simulate (q : nat -> nat -> nat -> list R) (probs : list (list (list R))) (samples : nat) : result (list (list (list cell))) :=
  mapM (fun s => sample_test_data (q s) (some3 probs)) (seq 0 samples).
(** evaluator.py:874-928 with sample_hypothesis_test=True. *)
Definition q3_with_p_values (q : nat -> nat -> nat -> list R) (samples M : nat) (mc : option (list Z)) (probs : list (list (list R))) (data : wide cell)
  : result (list (list fl) * list (list (option R))) :=
  bind (q3_matrix M mc probs data) (fun m =>
  bind (simulate q probs samples) (fun simulated =>
  rmap (fun p => (m, p)) (q3_test M mc probs data simulated))).
