(** Property theorems C08-C12, C31, C61 (splitting and cross-validation). *)
From Coq Require Import Permutation QArith Qround String.
From Verif Require Import Base M_CV S_CV P_CV.
Local Close Scope Q_scope.
Local Open Scope list_scope.

(** C08 *)
Theorem C08_split_partitions : forall {A} perm (data : list A) ratio (sh : bool),
  (sh = true -> is_perm perm (length data)) -> (0 <= ratio)%Q -> (ratio <= 1)%Q ->
  Permutation (fst (split_data perm data ratio sh) ++ snd (split_data perm data ratio sh)) data /\
  Z.of_nat (length (fst (split_data perm data ratio sh))) =
    Qfloor (inject_Z (Z.of_nat (length data)) * ratio) /\
  (sh = false -> fst (split_data perm data ratio sh) ++ snd (split_data perm data ratio sh) = data).
Proof. exact @split_data_spec. Qed.
Print Assumptions C08_split_partitions.

Example C08_nonvacuous :
  is_perm [3;0;2;4;1] 5 /\ split_data [3;0;2;4;1] [10;11;12;13;14] (4 # 5) true = ([13;10;12;14],[11]).
Proof.
  split; [|reflexivity]. unfold is_perm.
  apply (Permutation_cons_app [0;1;2] [4] 3). cbn.
  apply (Permutation_cons_app [] [1;2;4] 0). cbn.
  apply (Permutation_cons_app [1] [4] 2). cbn.
  apply (Permutation_cons_app [1] [] 4). cbn. auto.
Qed.

(** C09 *)
Theorem C09_folds_partition : forall {A} perm (data : list A) k folds,
  is_perm perm (length data) -> prepare_folds perm data k = Ok folds ->
  Permutation (concat folds) data /\
  (forall i v tr, nth_error folds i = Some v -> train_of folds i = Ok tr -> Permutation (tr ++ v) data) /\
  (NoDup data -> forall x, In x data ->
     exists i v, nth_error folds i = Some v /\ In x v /\
       (forall tr, train_of folds i = Ok tr -> ~ In x tr) /\
       (forall j vj, nth_error folds j = Some vj -> j <> i ->
          ~ In x vj /\ forall tr, train_of folds j = Ok tr -> In x tr)).
Proof. exact @cv_partition. Qed.
Print Assumptions C09_folds_partition.

(** Every fold is evaluated once, after a fit on that fold's training part. *)
Theorem C09_every_fold_fitted_and_scored : forall {P A S} (fit : P -> list A -> result P)
  (score : P -> list A -> result S) folds p out pe,
  cv_param_combination fit score folds p = Ok (out, pe) ->
  length out = length folds /\
  forall j p' v s, nth_error out j = Some (p', v, s) ->
    nth_error folds j = Some v /\ score p' v = Ok s /\
    exists q tr, train_of folds j = Ok tr /\ fit q tr = Ok p'.
Proof.
  intros P A S fit score folds p out pe H.
  destruct (cv_loop_states fit score folds folds 0 p out pe H) as [H1 H2]. split; [exact H1|].
  intros j p' v s Hj. destruct (H2 j p' v s Hj) as (H3 & H4 & tr & H5 & H6).
  split; [exact H3|]. split; [exact H4|]. eexists; exists tr. split; [exact H5|exact H6].
Qed.
Print Assumptions C09_every_fold_fitted_and_scored.

Theorem C09_runs_with_two_folds : forall {P A S} (fit : P -> list A -> P) (score : P -> list A -> S) folds p,
  2 <= length folds ->
  exists out pe, cv_param_combination (fun p d => Ok (fit p d)) (fun p d => Ok (score p d)) folds p = Ok (out, pe)
    /\ length out = length folds.
Proof. exact @cv_total. Qed.
Print Assumptions C09_runs_with_two_folds.

Theorem C09_average_of_fold_scores : forall qs : list Q, qs <> [] ->
  exists a, average_pvals (map PNum qs) = Ok a /\
    (a * inject_Z (Z.of_nat (length qs)) == fold_right Qplus 0 qs)%Q.
Proof. exact average_scores. Qed.
Print Assumptions C09_average_of_fold_scores.

Example C09_nonvacuous :
  is_perm [2;1;0] 3 /\ prepare_folds [2;1;0] [7;8;9] 2 = Ok [[9;8];[7]] /\
  train_of [[9;8];[7]] 0 = Ok [7] /\ train_of [[9;8];[7]] 1 = Ok [9;8].
Proof.
  repeat split. unfold is_perm. apply (Permutation_cons_app [0;1] [] 2). cbn.
  apply (Permutation_cons_app [0] [] 1). cbn. auto.
Qed.

(** C10 *)
Theorem C10_fold_count_and_sizes : forall {A} perm (data : list A) k folds,
  is_perm perm (length data) -> data <> [] -> prepare_folds perm data k = Ok folds ->
  length folds = ceil_div (length data) (ceil_div (length data) k) /\
  length folds <= k /\
  ((exists q, length data = q * k) -> length folds = k) /\
  (forall i v, nth_error folds i = Some v ->
     0 < length v /\
     (S i < length folds -> length v = ceil_div (length data) k) /\
     length v <= ceil_div (length data) k).
Proof. exact @fold_count. Qed.
Print Assumptions C10_fold_count_and_sizes.

Theorem C10_requested_fold_count_refuted :
  exists (data : list nat) perm k folds, is_perm perm (length data) /\ k <= length data /\
    prepare_folds perm data k = Ok folds /\ length folds < k.
Proof. exact fold_count_refuted. Qed.
Print Assumptions C10_requested_fold_count_refuted.

(** No fold, a single fold and a single respondent (nothing left to train on) are refused. *)
Theorem C10_too_few_folds : forall {P A S} (fit : P -> list A -> result P) (score : P -> list A -> result S) perm (data : list A) p,
  is_perm perm (length data) -> data <> [] ->
  prepare_folds perm data 0 = Err RuntimeError /\
  forall k, 0 < k -> k = 1 \/ length data = 1 ->
    exists folds, prepare_folds perm data k = Ok folds /\ cv_param_combination fit score folds p = Err RuntimeError.
Proof.
  intros P A S fit score perm data p HP Hd. split; [reflexivity|]. intros k Hk H. destruct k as [|k]; [lia|].
  exists (chunk (Datatypes.S k) (index_rows perm data)). split; [reflexivity|].
  destruct (C10_fold_count_and_sizes perm data (Datatypes.S k) _ HP Hd eq_refl) as (L1 & L2 & _ & HS).
  destruct (C09_folds_partition perm data (Datatypes.S k) _ HP eq_refl) as [HC _].
  assert (L : length (chunk (Datatypes.S k) (index_rows perm data)) <= 1).
  { destruct H as [H|H]; [lia|]. destruct (chunk (Datatypes.S k) (index_rows perm data)) as [|f [|g folds]]; cbn [length]; try lia. exfalso.
    destruct (HS 0 f eq_refl) as [Q1 _]. destruct (HS 1 g eq_refl) as [Q2 _]. apply Permutation_length in HC. cbn [concat] in HC. rewrite !app_length in HC. lia. }
  destruct (chunk (Datatypes.S k) (index_rows perm data)) as [|f [|? ?]]; [|reflexivity|cbn in L; lia].
  exfalso. cbn in L1. apply Permutation_length in HC. cbn in HC. destruct data; [congruence|cbn in HC; lia].
Qed.
Print Assumptions C10_too_few_folds.
Example C10_nonvacuous :
  prepare_folds [0;1;2;3;4;5] [1;2;3;4;5;6] 3 = Ok [[1;2];[3;4];[5;6]] /\ is_perm [0;1;2;3;4;5] 6.
Proof. split; [reflexivity|apply Permutation_refl]. Qed.

(** C11 *)
Theorem C11_grid_is_full_product : forall {V} (grid : list (string * list V)) (kwargs : dict V),
  NoDup (map fst grid) -> NoDup (map fst kwargs) ->
  length (create_param_grid grid kwargs) = fold_right Nat.mul 1 (map (fun kv => length (snd kv)) grid) /\
  forall is vs, picks (map snd grid) is vs ->
    exists d, nth_error (create_param_grid grid kwargs)
                (lex_position (map (fun kv => length (snd kv)) grid) is) = Some d /\
      (forall k v, dict_get kwargs k = Some v -> dict_get d k = Some v) /\
      (forall k i v, dict_get kwargs k = None -> nth_error (map fst grid) i = Some k ->
                     nth_error vs i = Some v -> dict_get d k = Some v) /\
      (forall k, dict_get kwargs k = None -> ~ In k (map fst grid) -> dict_get d k = None).
Proof. exact @param_grid_spec. Qed.
Print Assumptions C11_grid_is_full_product.

Example C11_nonvacuous :
  let grid := [("lr"%string, [1;2]); ("ep"%string, [10;20;30])] in
  NoDup (map fst grid) /\ picks (map snd grid) [1;2] [2;30] /\
  lex_position [2;3] [1;2] = 5 /\
  nth_error (create_param_grid grid [("b"%string, 7)]) 5 = Some [("lr"%string, 2); ("ep"%string, 30); ("b"%string, 7)].
Proof.
  repeat split; cbn; try reflexivity.
  - repeat constructor; cbn; intuition discriminate.
  - repeat constructor.
Qed.

(** C12 *)
(** In the first fold the model has only seen that fold's training part... *)
Theorem C12_first_fold_clean_partial : forall {A S} (score : list A -> list A -> result S) folds out pe,
  cv_param_combination record_fit score folds [] = Ok (out, pe) ->
  forall h v s, nth_error out 0 = Some (h, v, s) -> train_of folds 0 = Ok h.
Proof. exact @cv_first_fold. Qed.
Print Assumptions C12_first_fold_clean_partial.

(** ...but in every later fold the model that is evaluated has already been trained on every
    respondent of that very fold, for every data set and fold split. *)
Theorem C12_held_out_refuted : forall {A S} (score : list A -> list A -> result S) folds out pe h0,
  cv_param_combination record_fit score folds h0 = Ok (out, pe) ->
  forall j h v s x, nth_error out (Datatypes.S j) = Some (h, v, s) -> In x v -> In x h.
Proof. exact @cv_leak. Qed.
Print Assumptions C12_held_out_refuted.

Example C12_nonvacuous :
  cv_param_combination record_fit (fun h v => Ok (length h)) [[1;2];[3]] [] =
    Ok ([([3], [1;2], 1); ([3;1;2], [3], 3)], [3;1;2]).
Proof. reflexivity. Qed.

(** C68 *)
Theorem C68_reported_parameter_is_the_tried_value : forall q n,
  0 < n -> exists a, average_pvals (repeat (PNum q) n) = Ok a /\ (a == q)%Q.
Proof. exact average_const. Qed.
Print Assumptions C68_reported_parameter_is_the_tried_value.

Theorem C68_non_numeric_parameter_refuted : forall s l, average_pvals (PStr s :: l) = Err TypeError.
Proof. exact average_str. Qed.
Print Assumptions C68_non_numeric_parameter_refuted.

Example C68_nonvacuous : average_pvals (repeat (PNum (1 # 2)) 3) = Ok (12 # 24)%Q.
Proof. reflexivity. Qed.

(** C31 *)
Theorem C31_grid_size : forall {X} (nodes : list X) d, length (gh_grid nodes d) = length nodes ^ d.
Proof. exact @gh_grid_length. Qed.
Print Assumptions C31_grid_size.

Theorem C31_total_weight : forall ws d,
  (fold_right Qplus 0 (gh_weights ws d) == qpow (fold_right Qplus 0 ws) d)%Q.
Proof. exact gh_weights_total. Qed.
Print Assumptions C31_total_weight.

Theorem C31_points_and_weights_aligned : forall {X} (nodes : list X) (ws : list Q) d is xs wv,
  length ws = length nodes -> length is = d ->
  Forall2 (fun i x => nth_error nodes i = Some x) is xs ->
  Forall2 (fun i w => nth_error ws i = Some w) is wv ->
  exists p, nth_error (gh_grid nodes d) p = Some xs /\ nth_error (gh_weights ws d) p = Some (qprod wv).
Proof. exact @gh_aligned. Qed.
Print Assumptions C31_points_and_weights_aligned.

Example C31_nonvacuous :
  gh_grid [1;2] 2 = [[1;1];[1;2];[2;1];[2;2]] /\
  gh_weights [1 # 1; 2 # 1]%Q 2 = [1 # 1; 2 # 1; 2 # 1; 4 # 1]%Q.
Proof. split; reflexivity. Qed.

(** C61 *)
Theorem C61_threads_restored : forall {R} threads cpus njobs cores start copy (pool : nat -> outcome R) sequential,
  snd (run_multiprocessing threads cpus njobs cores start copy pool sequential) = threads.
Proof. exact @threads_restored. Qed.
Print Assumptions C61_threads_restored.

Theorem C61_fallback_to_sequential : forall {R} threads cpus njobs cores start copy (pool : nat -> outcome R) sequential,
  fst (run_multiprocessing threads cpus njobs cores start copy pool sequential) =
    match start, copy with
    | Some (Exc _), _ | None, Some (Exc _) => sequential threads
    | Some BaseExc, _ | None, Some BaseExc => Raise BaseExc
    | None, None =>
        match (match cores with Some c => c | None => Nat.min cpus njobs end) with
        | O => sequential threads
        | S c => match pool (Nat.max 1 (threads / S c)) with
                 | Ret r => Ret r
                 | Raise (Exc _) => sequential threads
                 | Raise BaseExc => Raise BaseExc
                 end
        end
    end.
Proof. exact @multiprocessing_result. Qed.
Print Assumptions C61_fallback_to_sequential.

Example C61_nonvacuous :
  run_multiprocessing 8 4 2 None None None (fun _ => Raise (Exc RuntimeError)) (fun t => Ret (t + 1)) = (Ret 9, 8) /\
  run_multiprocessing 8 4 2 None None None (fun t => Ret t) (fun t => Ret 0) = (Ret 4, 8).
Proof. split; reflexivity. Qed.
