(** Property theorems C01-C06, C48 (data preparation). *)
From Coq Require Import QArith.
From Verif Require Import Base M_Data S_Data P_Data.
Local Close Scope Q_scope.

Definition ex_data : mat :=
  Mat 2 3 [[Some 0%Z; None; Some 2%Z]; [Some 1%Z; Some 0%Z; Some (-1)%Z]].
Definition ex_cats : list nat := [2; 2; 3].
Lemma ex_rect : rectangular ex_data.
Proof. split; [reflexivity|]. repeat constructor. Qed.
Lemma ex_legal : legal ex_cats ex_data.
Proof.
  intros row i K c Hin HK Hc. cbn in Hin.
  destruct Hin as [<-|[<-|[]]]; destruct i as [|[|[|[|i]]]]; cbn in HK, Hc; try discriminate;
    injection HK as <-; injection Hc as <-;
    try (right; eexists; split; [reflexivity|lia]); left; unfold Missing; auto.
Qed.

(** C01 *)
Theorem C01_one_hot_aligned : forall d cats,
  rectangular d -> m_cols d = length cats -> cats <> [] -> legal cats d ->
  exists enc, fst (one_hot_encode d cats) = Ok enc /\ Forall2 (is_one_hot cats) (m_rows d) enc.
Proof. exact one_hot_correct. Qed.
Print Assumptions C01_one_hot_aligned.

Theorem C01_one_hot_lossless : forall d cats,
  rectangular d -> m_cols d = length cats -> cats <> [] -> legal cats d ->
  exists enc, fst (one_hot_encode d cats) = Ok enc /\
    map (decode cats) enc = map (map response) (m_rows d).
Proof. exact one_hot_roundtrip. Qed.
Print Assumptions C01_one_hot_lossless.

Theorem C01_one_hot_rejects : forall d cats,
  (m_dim d <> 2 -> fst (one_hot_encode d cats) = Err ValueError) /\
  (m_dim d = 2 -> m_cols d <> length cats -> fst (one_hot_encode d cats) = Err ValueError) /\
  (rectangular d -> m_cols d = length cats ->
   (exists row i K z, In row (m_rows d) /\ nth_error cats i = Some K /\
                      nth_error row i = Some (Some z) /\ (Z.of_nat K <= z)%Z) ->
   fst (one_hot_encode d cats) = Err IndexError).
Proof. exact one_hot_errors. Qed.
Print Assumptions C01_one_hot_rejects.

Example C01_nonvacuous :
  rectangular ex_data /\ m_cols ex_data = length ex_cats /\ ex_cats <> [] /\ legal ex_cats ex_data /\
  fst (one_hot_encode ex_data ex_cats) = Ok [[1;0;0;0;0;0;1]; [0;1;1;0;0;0;0]]%Z.
Proof. repeat split; try apply ex_rect; try apply ex_legal; discriminate. Qed.
Example C01_rejects_nonvacuous :
  fst (one_hot_encode (Mat 2 1 [[Some 2%Z]]) [2]) = Err IndexError.
Proof. reflexivity. Qed.

(** C02 *)
Theorem C02_missing_mask_exact : forall d,
  same_shape (m_rows d) (get_missing_mask d) /\
  forall r c x, at_ (m_rows d) r c = Some x ->
    exists b, at_ (get_missing_mask d) r c = Some b /\ (b = true <-> Missing x).
Proof. exact missing_mask_spec. Qed.
Print Assumptions C02_missing_mask_exact.

Theorem C02_dataset_keeps_data_and_mask : forall d cats ds,
  fst (dataset_one_hot d (Some cats)) = Ok ds -> ds_data ds = d /\ ds_mask ds = get_missing_mask d.
Proof. exact dataset_clone. Qed.
Print Assumptions C02_dataset_keeps_data_and_mask.

Theorem C02_imputed_dataset_keeps_data_and_mask : forall draw d m mc cats ds,
  fst (dataset_impute draw d m mc cats) = Ok ds ->
  ds_data ds = d /\ ds_mask ds = get_missing_mask d /\ fst (impute_internal draw d m mc cats) = Ok (ds_input ds).
Proof. exact dataset_impute_clone. Qed.
Print Assumptions C02_imputed_dataset_keeps_data_and_mask.
Example C02_imputed_nonvacuous : exists ds,
  fst (dataset_impute (fun _ _ _ => 0) ex_data IZero None None) = Ok ds.
Proof. eexists; reflexivity. Qed.

Example C02_nonvacuous :
  get_missing_mask ex_data = [[false; true; false]; [false; false; true]] /\
  exists ds, fst (dataset_one_hot ex_data (Some ex_cats)) = Ok ds.
Proof. split; [reflexivity|]. eexists; reflexivity. Qed.

(** C03 *)
Theorem C03_impute_zero : forall draw d mc cats,
  exists out, fst (impute_internal draw d IZero mc cats) = Ok out /\
    fills d out (fun _ _ y => y = Some 0%Q).
Proof. exact impute_zero_spec. Qed.
Print Assumptions C03_impute_zero.

Theorem C03_impute_mean : forall draw d mc cats,
  rectangular d ->
  exists out, fst (impute_internal draw d IMean mc cats) = Ok out /\
    fills d out (fun _ c y =>
      (obs_count (col_cells d c) = 0 /\ y = None) \/
      (0 < obs_count (col_cells d c) /\
       exists q, y = Some q /\
         (q * inject_Z (Z.of_nat (obs_count (col_cells d c))) == inject_Z (obs_sum (col_cells d c)))%Q)).
Proof. exact impute_mean_spec. Qed.
Print Assumptions C03_impute_mean.

Theorem C03_impute_random_incorrect : forall draw d key cats (K : nat -> Z),
  rectangular d -> in_range draw -> length (m_rows d) <> 1 -> length key = m_cols d ->
  cats_ok d cats K -> (forall c, c < m_cols d -> (2 <= K c)%Z) ->
  exists out, fst (impute_internal draw d IRandomIncorrect (Some key) cats) = Ok out /\
    fills d out (fun _ c y =>
      exists k, y = Some (inject_Z k) /\ (0 <= k < K c)%Z /\ nth_error key c <> Some k).
Proof. exact impute_random_spec. Qed.
Print Assumptions C03_impute_random_incorrect.

(** With a single respondent and at least two items, random-incorrect imputation always raises. *)
Theorem C03_single_respondent_refuted : forall draw d key cats (K : nat -> Z),
  rectangular d -> length (m_rows d) = 1 -> 2 <= m_cols d -> length key = m_cols d ->
  cats_ok d cats K -> (forall c, c < m_cols d -> (2 <= K c)%Z) ->
  fst (impute_internal draw d IRandomIncorrect (Some key) cats) = Err IndexError.
Proof. exact impute_random_single. Qed.
Print Assumptions C03_single_respondent_refuted.

Theorem C03_impute_rejects : forall draw d cats mc,
  fst (impute_internal draw d IRandomIncorrect None cats) = Err ValueError /\
  fst (impute_internal draw d IUnknown mc cats) = Err ValueError /\
  fst (impute_missing draw d IRandomIncorrect None None cats) = Err ValueError /\
  fst (impute_missing draw d IUnknown None mc cats) = Err ValueError.
Proof. exact impute_errors. Qed.
Print Assumptions C03_impute_rejects.

(** An answer key, or a list of numbers of categories, shorter than the number of items raises, in both functions. *)
Theorem C03_short_lists : forall draw d key cs,
  Forall (fun k => (2 <= k)%Z) cs -> length cs < m_cols d \/ length key < m_cols d ->
  fst (impute_internal draw d IRandomIncorrect (Some key) (Some cs)) = Err IndexError /\
  fst (impute_missing draw d IRandomIncorrect None (Some key) (Some cs)) = Err IndexError.
Proof.
  intros draw d key cs HF Hs. cbn [impute_internal impute_missing fst bind].
  rewrite random_fill_short; [split; reflexivity| |now rewrite map_length].
  apply Forall_forall. intros K HK. apply in_map_iff in HK as (k & <- & Hk). rewrite Forall_forall in HF. eauto.
Qed.
Print Assumptions C03_short_lists.

Theorem C03_caller_unchanged : forall draw d m mc cats model,
  snd (impute_internal draw d m mc cats) = d /\ snd (impute_missing draw d m model mc cats) = d.
Proof. exact impute_caller. Qed.
Print Assumptions C03_caller_unchanged.

Example C03_nonvacuous :
  rectangular ex_data /\ in_range (fun _ _ n => n - 1) /\ length (m_rows ex_data) <> 1 /\
  cats_ok ex_data (Some [2;2;3]%Z) (fun c => nth c [2;2;3]%Z 0%Z) /\
  fst (impute_internal (fun _ _ n => n - 1) ex_data IRandomIncorrect (Some [1;1;2]%Z) (Some [2;2;3]%Z))
    = Ok [[Some (inject_Z 0); Some (inject_Z 0); Some (inject_Z 2)];
          [Some (inject_Z 1); Some (inject_Z 0); Some (inject_Z 1)]].
Proof.
  repeat split; try apply ex_rect; try (cbn; lia).
  - intros c r n Hn. lia.
  - intros c Hc. cbn in Hc. destruct c as [|[|[|c]]]; try reflexivity. lia.
Qed.
Example C03_inferred_nonvacuous :
  cats_ok (Mat 2 1 [[Some 2%Z]; [None]]) None (fun _ => 3%Z).
Proof.
  split; [discriminate|]. intros c Hc; cbn in Hc. assert (c = 0) by lia; subst. split.
  - exists 0. split; [reflexivity|lia].
  - intros [|[|r]] z H Hz; cbn in H; try discriminate; try (destruct r; discriminate); injection H as <-; lia.
Qed.
Example C03_single_nonvacuous :
  rectangular (Mat 2 2 [[None; Some 1%Z]]) /\
  cats_ok (Mat 2 2 [[None; Some 1%Z]]) (Some [2;2]%Z) (fun _ => 2%Z).
Proof.
  split; [split; [reflexivity|repeat constructor]|].
  intros c Hc; cbn in Hc. destruct c as [|[|c]]; try reflexivity. lia.
Qed.

(** C04 *)
Theorem C04_one_hot_caller_unchanged_iff : forall d cats,
  snd (one_hot_encode d cats) = d <->
  (m_dim d <> 2 \/ m_cols d <> length cats \/
   forall row c, In row (m_rows d) -> In c row -> c <> None).
Proof. exact one_hot_caller. Qed.
Print Assumptions C04_one_hot_caller_unchanged_iff.

Theorem C04_one_hot_effect_on_caller : forall d cats r c x,
  m_dim d = 2 -> m_cols d = length cats -> at_ (m_rows d) r c = Some x ->
  at_ (m_rows (snd (one_hot_encode d cats))) r c =
    Some (match x with None => Some (-1)%Z | Some z => Some z end).
Proof. exact one_hot_caller_content. Qed.
Print Assumptions C04_one_hot_effect_on_caller.

Theorem C04_dataset_effect_on_caller : forall d cats,
  snd (dataset_one_hot d (Some cats)) = snd (one_hot_encode d cats).
Proof. exact dataset_one_hot_caller. Qed.
Print Assumptions C04_dataset_effect_on_caller.

Theorem C04_imputed_dataset_caller_unchanged : forall draw d m mc cats,
  snd (dataset_impute draw d m mc cats) = d.
Proof. exact dataset_impute_caller. Qed.
Print Assumptions C04_imputed_dataset_caller_unchanged.

Theorem C04_caller_unchanged_refuted :
  exists d cats enc, rectangular d /\ legal cats d /\ fst (one_hot_encode d cats) = Ok enc /\
    snd (one_hot_encode d cats) <> d /\ snd (dataset_one_hot d (Some cats)) <> d.
Proof.
  exists ex_data, ex_cats. eexists. repeat split; try apply ex_rect; try apply ex_legal; discriminate.
Qed.
Print Assumptions C04_caller_unchanged_refuted.

(** C05 *)
Theorem C05_constructor_categories_cover : forall d K r c z,
  rectangular d -> infer_categories (m_cols d) (m_rows d) = Ok K ->
  at_ (m_rows d) r c = Some (Some z) ->
  exists k r', nth_error K c = Some (Some k) /\ (z < k)%Z /\ at_ (m_rows d) r' c = Some (Some (k - 1)%Z).
Proof. exact infer_categories_cover. Qed.
Print Assumptions C05_constructor_categories_cover.

Theorem C05_get_item_categories_complete_data : forall d K,
  rectangular d -> (forall row c, In row (m_rows d) -> In c row -> c <> None) ->
  get_item_categories d = Ok K -> m_rows d <> [] ->
  infer_categories (m_cols d) (m_rows d) = Ok (map Some K).
Proof. exact get_item_categories_complete. Qed.
Print Assumptions C05_get_item_categories_complete_data.

Theorem C05_get_item_categories_refuted :
  exists d K r c z k, rectangular d /\ get_item_categories d = Ok K /\
    at_ (m_rows d) r c = Some (Some z) /\ nth_error K c = Some k /\ (k <= z)%Z.
Proof.
  exists (Mat 2 2 [[Some 1%Z; Some 0%Z]; [Some 2%Z; None]]), [2;1]%Z, 1, 0, 2%Z, 2%Z.
  repeat split; try reflexivity; try lia. repeat constructor.
Qed.
Print Assumptions C05_get_item_categories_refuted.

(** When every respondent has a NaN there is no row left to count from. *)
Theorem C05_get_item_categories_no_complete_row : forall d,
  0 < m_cols d -> (forall row, In row (m_rows d) -> In None row) -> get_item_categories d = Err RuntimeError.
Proof.
  intros d Hc H. unfold get_item_categories.
  assert (E : filter (fun r => negb (existsb is_nan r)) (m_rows d) = []).
  { induction (m_rows d) as [|r l IH]; [reflexivity|]. cbn [filter]. replace (existsb is_nan r) with true.
    - apply IH. intros row Hr. apply H. now right.
    - symmetry. apply existsb_exists. exists None. split; [apply H; now left|reflexivity]. }
  rewrite E. destruct (m_cols d) as [|n]; [lia|]. reflexivity.
Qed.
Print Assumptions C05_get_item_categories_no_complete_row.

Example C05_nonvacuous :
  infer_categories 3 (m_rows ex_data) = Ok [Some 2%Z; Some 1%Z; Some 3%Z] /\
  get_item_categories (Mat 2 2 [[Some 1%Z; Some 0%Z]; [Some 0%Z; Some 2%Z]]) = Ok [2;3]%Z.
Proof. split; reflexivity. Qed.

(** C06 *)
Theorem C06_random_incorrect_without_model : forall draw d key cats (K : nat -> Z),
  rectangular d -> in_range draw -> length (m_rows d) <> 1 -> length key = m_cols d ->
  cats_ok d cats K -> (forall c, c < m_cols d -> (2 <= K c)%Z) ->
  exists out, fst (impute_missing draw d IRandomIncorrect None (Some key) cats) = Ok out /\
    fills d out (fun _ c y =>
      exists k, y = Some (inject_Z k) /\ (0 <= k < K c)%Z /\ nth_error key c <> Some k).
Proof. exact impute_missing_random_spec. Qed.
Print Assumptions C06_random_incorrect_without_model.

Theorem C06_prior_expected : forall draw d mi mc cats,
  mi_mc mi = None -> length (mi_prior mi) = m_cols d -> rectangular d ->
  exists out, fst (impute_missing draw d IPriorExpected (Some mi) mc cats) = Ok out /\
    fills d out (fun _ c y => y = option_map inject_Z (nth_error (mi_prior mi) c) /\ y <> None).
Proof. exact impute_missing_prior. Qed.
Print Assumptions C06_prior_expected.

(** The documented use, with a model, fails for every model and every matrix with items. *)
Theorem C06_random_incorrect_with_model_refuted : forall draw d mi mc cats,
  0 < m_cols d ->
  exists e, fst (impute_missing draw d IRandomIncorrect (Some mi) mc cats) = Err e.
Proof. exact impute_missing_model_fails. Qed.
Print Assumptions C06_random_incorrect_with_model_refuted.

Theorem C06_multiple_choice_model_rejected : forall draw d mi key mc cats,
  mi_mc mi = Some key ->
  fst (impute_missing draw d IRandomIncorrect (Some mi) mc cats) = Err ValueError.
Proof. exact impute_missing_mc_model. Qed.
Print Assumptions C06_multiple_choice_model_rejected.

(** "prior expected" needs a model, and one that is not for multiple choice data. *)
Theorem C06_prior_expected_rejects : forall draw d mi key mc cats,
  fst (impute_missing draw d IPriorExpected None mc cats) = Err ValueError /\
  (mi_mc mi = Some key -> fst (impute_missing draw d IPriorExpected (Some mi) mc cats) = Err ValueError).
Proof. intros draw d mi key mc cats. cbn [impute_missing fst]. split; [reflexivity|]. intro H. now rewrite H. Qed.
Print Assumptions C06_prior_expected_rejects.

Example C06_nonvacuous :
  fst (impute_missing (fun _ _ _ => 0) ex_data IRandomIncorrect None (Some [1;1;2]%Z) (Some [2;2;3]%Z))
    = Ok [[Some (inject_Z 0); Some (inject_Z 0); Some (inject_Z 2)];
          [Some (inject_Z 1); Some (inject_Z 0); Some (inject_Z 0)]].
Proof. reflexivity. Qed.
Example C06_prior_nonvacuous :
  fst (impute_missing (fun _ _ _ => 0) ex_data IPriorExpected
         (Some (ModelInfo None [2;2;3]%Z [0;1;1]%Z)) None None)
    = Ok [[Some (inject_Z 0); Some (inject_Z 1); Some (inject_Z 2)];
          [Some (inject_Z 1); Some (inject_Z 0); Some (inject_Z 1)]].
Proof. reflexivity. Qed.

(** C48 *)
Theorem C48_multiple_choice_sum_score : forall key r,
  length r = length key ->
  sum_score_row (Some key) r =
    Some (Z.of_nat (length (filter (fun i => match nth_error r i, nth_error key i with
                                   | Some (Some z), Some k => (z =? k)%Z
                                   | _, _ => false end) (seq 0 (length r))))).
Proof. exact sum_score_key. Qed.
Print Assumptions C48_multiple_choice_sum_score.

Theorem C48_sum_score_complete_data : forall r,
  (forall c, In c r -> ~ Missing c) -> sum_score_row None r = Some (obs_sum r).
Proof. exact sum_score_complete. Qed.
Print Assumptions C48_sum_score_complete_data.

(** Without a key, one NaN makes the sum NaN, and -1 is subtracted instead of being ignored. *)
Theorem C48_missing_counts_zero_refuted :
  (forall r, In None r -> sum_score_row None r = None) /\
  exists r, sum_score_row None r <> Some (obs_sum r) /\ ~ In None r.
Proof.
  split; [exact sum_score_nan|]. exists [Some (-1)%Z; Some 2%Z]. split; [cbn; congruence|].
  intros [H|[H|[]]]; discriminate.
Qed.
Print Assumptions C48_missing_counts_zero_refuted.

Example C48_nonvacuous :
  sum_score (Some [1;0;2]%Z) (m_rows ex_data) = [Some 1%Z; Some 2%Z] /\
  sum_score None [[Some 1%Z; Some 3%Z]] = [Some 4%Z].
Proof. split; reflexivity. Qed.
