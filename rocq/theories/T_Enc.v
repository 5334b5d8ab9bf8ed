(** C62: the encoders accept every batch of the right width and return one value per latent variable. *)
From Coq Require Import Reals String Lra.
From Verif Require Import Base BaseFacts RBase RFacts M_Data M_Enc S_Data S_Enc P_Enc1 P_Enc2 P_Enc3.
Import List.
Local Open Scope R_scope.

(** The standard encoder: whatever the hidden sizes, with or without normalisation, in training and in
    evaluation mode, the output is the network's. *)
Theorem C62_standard_encoder : forall f v training bn inp lv h xs,
  h <> [] -> Forall (fun r => List.length r = inp) xs -> (bn = true -> training = true -> List.length xs <> 1%nat) ->
  exists e out, standard_encoder bn inp lv h = Ok e /\ run_layers f v training e xs = Ok out /\
    encodes (List.length xs) lv (last h 0%nat) (p_weight v (numbered "linear" (List.length h + 1)))
      (p_bias v (numbered "linear" (List.length h + 1))) (fun y => y) (hidden_of f v training inp h (standard_name bn) xs) out.
Proof. exact standard_correct. Qed.
Print Assumptions C62_standard_encoder.

(** In evaluation mode the code of a respondent does not depend on the rest of the batch. *)
Theorem C62_respondents_separately : forall f v bn inp lv h xs, h <> [] -> Forall (fun r => List.length r = inp) xs ->
  exists e out, standard_encoder bn inp lv h = Ok e /\ run_layers f v false e xs = Ok out /\
    forall r x, nth_error xs r = Some x -> exists y, run_layers f v false e [x] = Ok [y] /\ nth_error out r = Some y.
Proof. exact standard_rowwise. Qed.
Print Assumptions C62_respondents_separately.

(** The two other encoders: without normalisation, or when the first and the last hidden layer have
    the same size. *)
Theorem C62_variational_encoder : forall f v training bn inp lv h xs,
  h <> [] -> (bn = true -> hd 0%nat h = last h 0%nat) ->
  Forall (fun r => List.length r = inp) xs -> (bn = true -> training = true -> List.length xs <> 1%nat) ->
  exists e mu lvar, variational_encoder bn inp lv h = Ok e /\ run_variational f v training e xs = Ok (mu, lvar) /\
    encodes (List.length xs) lv (last h 0%nat) (p_weight v "mu_layer") (p_bias v "mu_layer") (fun y => y)
      (hidden_of f v training inp h (only_first bn) xs) mu /\
    encodes (List.length xs) lv (last h 0%nat) (p_weight v "sigma_layer") (p_bias v "sigma_layer") (fun y => y)
      (hidden_of f v training inp h (only_first bn) xs) lvar.
Proof. exact variational_correct. Qed.
Print Assumptions C62_variational_encoder.

Theorem C62_bounded_encoder : forall f v training bn inp lv h xs,
  h <> [] -> (bn = true -> hd 0%nat h = last h 0%nat) ->
  Forall (fun r => List.length r = inp) xs -> (bn = true -> training = true -> List.length xs <> 1%nat) ->
  exists e out, bounded_encoder bn inp lv h = Ok e /\ run_layers f v training e xs = Ok out /\
    encodes (List.length xs) lv (last h 0%nat) (p_weight v (numbered "linear" (List.length h + 1)))
      (p_bias v (numbered "linear" (List.length h + 1))) tanh (hidden_of f v training inp h (only_first bn) xs) out /\
    forall r j y, at_ out r j = Some y -> -1 < y < 1.
Proof.
  intros f v training bn inp lv h xs H1 H2 H3 H4.
  destruct (bounded_correct f v training bn inp lv h xs H1 H2 H3 H4) as (e & out & E1 & E2 & E3).
  exists e, out. split; [exact E1|]. split; [exact E2|]. split; [exact E3|].
  intros r j y Hy. unfold at_ in Hy. destruct (nth_error out r) as [row|] eqn:Er; [|discriminate].
  assert (Hr : (r < List.length xs)%nat).
  { destruct E3 as (L & _). rewrite <- L. apply nth_error_Some. congruence. }
  rewrite (encodes_row _ _ _ _ _ _ _ _ r E3 Hr) in Er. injection Er as Er. subst row.
  rewrite nth_error_map in Hy. destruct (nth_error (seq 0 lv) j); [|discriminate]. cbn in Hy. injection Hy as Hy. subst y.
  apply tanh_bounds.
Qed.
Print Assumptions C62_bounded_encoder.

(** With normalisation and different first and last sizes both are built and fail on every batch:
    the normalisation of the first layer has been replaced by one of the last layer's size. *)
Theorem C62_batch_normalisation_refuted : forall f v training inp lv h xs,
  h <> [] -> hd 0%nat h <> last h 0%nat -> xs <> [] -> Forall (fun r => List.length r = inp) xs -> (training = true -> List.length xs <> 1%nat) ->
  (exists e, variational_encoder true inp lv h = Ok e /\ run_variational f v training e xs = Err RuntimeError) /\
  (exists e, bounded_encoder true inp lv h = Ok e /\ run_layers f v training e xs = Err RuntimeError).
Proof. exact renamed_fails. Qed.
Print Assumptions C62_batch_normalisation_refuted.

(** The standard encoder normalises every hidden layer, the two others one, however many there are. *)
Theorem C62_layers_normalised_refuted : forall inp lv h, h <> [] ->
  (exists e, standard_encoder true inp lv h = Ok e /\ norms e = List.length h) /\
  (exists e mu s, variational_encoder true inp lv h = Ok (e, mu, s) /\ norms e = 1%nat) /\
  (exists e, bounded_encoder true inp lv h = Ok e /\ norms e = 1%nat).
Proof. exact norm_counts. Qed.
Print Assumptions C62_layers_normalised_refuted.

(** A batch containing a row of another width is refused, and so is an empty list of hidden layers;
    normalisation cannot be trained on a single row. *)
Theorem C62_wrong_width : forall f v training bn inp lv h xs, h <> [] -> ~ Forall (fun r => List.length r = inp) xs ->
  (exists e, standard_encoder bn inp lv h = Ok e /\ run_layers f v training e xs = Err RuntimeError) /\
  (exists e, bounded_encoder bn inp lv h = Ok e /\ run_layers f v training e xs = Err RuntimeError) /\
  (exists e, variational_encoder bn inp lv h = Ok e /\ run_variational f v training e xs = Err RuntimeError).
Proof. exact wrong_width. Qed.
Print Assumptions C62_wrong_width.

Theorem C62_no_hidden_layers : forall bn inp lv, standard_encoder bn inp lv [] = Err IndexError /\
  bounded_encoder bn inp lv [] = Err IndexError /\ variational_encoder bn inp lv [] = Err IndexError.
Proof. exact no_hidden. Qed.
Print Assumptions C62_no_hidden_layers.

Theorem C62_single_row_in_training : forall f v inp lv h xs, h <> [] -> Forall (fun r => List.length r = inp) xs -> List.length xs = 1%nat ->
  (exists e, standard_encoder true inp lv h = Ok e /\ run_layers f v true e xs = Err ValueError) /\
  (exists e, bounded_encoder true inp lv h = Ok e /\ run_layers f v true e xs = Err ValueError) /\
  (exists e, variational_encoder true inp lv h = Ok e /\ run_variational f v true e xs = Err ValueError).
Proof. exact single_row. Qed.
Print Assumptions C62_single_row_in_training.

(** Latent scores of response data by the autoencoder and the variational autoencoder as built by
    [fit]: the encoder accepts the one-hot code of every legal data matrix. *)
Theorem C62_autoencoder_scores : forall f v bn lv hidden d cats, (forall h, hidden = Some h -> h <> []) ->
  rectangular d -> m_cols d = List.length cats -> cats <> [] -> legal cats d ->
  exists e enc out, ae_encoder true bn lv hidden cats = Ok e /\
    fst (one_hot_encode d cats) = Ok enc /\ Forall2 (is_one_hot cats) (m_rows d) enc /\
    ae_scores f v e d cats = Ok out /\
    let h := match hidden with Some h => h | None => [(2 * list_sum cats)%nat] end in
    encodes (List.length (m_rows d)) lv (last h 0%nat) (p_weight v (numbered "linear" (List.length h + 1)))
      (p_bias v (numbered "linear" (List.length h + 1))) (fun y => y)
      (hidden_of f v false (list_sum cats) h (standard_name bn) (map (map IZR) enc)) out.
Proof. exact ae_scores_correct. Qed.
Print Assumptions C62_autoencoder_scores.

Theorem C62_variational_scores : forall f v bn lv hidden d cats,
  (forall h, hidden = Some h -> h <> [] /\ (bn = true -> hd 0%nat h = last h 0%nat)) ->
  rectangular d -> m_cols d = List.length cats -> cats <> [] -> legal cats d ->
  exists e enc out, vae_encoder true bn lv hidden cats = Ok e /\
    fst (one_hot_encode d cats) = Ok enc /\ Forall2 (is_one_hot cats) (m_rows d) enc /\
    vae_scores f v e d cats = Ok out /\
    let h := match hidden with Some h => h | None => [(2 * list_sum cats)%nat] end in
    encodes (List.length (m_rows d)) lv (last h 0%nat) (p_weight v "mu_layer") (p_bias v "mu_layer") (fun y => y)
      (hidden_of f v false (list_sum cats) h (only_first bn) (map (map IZR) enc)) out.
Proof. exact vae_scores_correct. Qed.
Print Assumptions C62_variational_scores.

(** Concrete cases: three hidden layers of sizes 4, 3, 2 with normalisation, two respondents. *)
Definition ex_values : values :=
  Values (fun _ _ _ => 1) (fun _ _ => 0) (fun _ _ => 1) (fun _ _ => 0) (fun _ _ => 0) (fun _ _ => 1).
Example C62_nonvacuous :
  [4; 3; 2]%nat <> [] /\ hd 0%nat [4; 3; 2]%nat <> last [4; 3; 2]%nat 0%nat /\
  Forall (fun r : list R => List.length r = 2%nat) [[0; 1]; [1; 0]] /\ List.length [[0; 1]; [1; 0]] <> 1%nat /\
  ~ Forall (fun r : list R => List.length r = 2%nat) [[0; 1]; [1]] /\
  (exists e, standard_encoder true 2 1 [4; 3; 2]%nat = Ok e /\ List.length e = 10%nat) /\
  (exists e, variational_encoder true 2 1 [4; 3; 4]%nat = Ok (e, Linear 4 1, Linear 4 1) /\ List.length e = 7%nat) /\
  standard_encoder false 2 1 [1]%nat =
    Ok [("linear0"%string, Linear 2 1); ("nonlinear0"%string, Nonlinear); ("linear2"%string, Linear 1 1)] /\
  (exists d, rectangular d /\ m_cols d = 2%nat /\ legal [2; 3]%nat d /\ List.length (m_rows d) = 2%nat).
Proof.
  split; [discriminate|]. split; [discriminate|]. split; [repeat constructor|]. split; [discriminate|].
  split. { intros H. inversion H as [|a l Ha Hl]; subst. inversion Hl as [|a l Ha' Hl']; subst. discriminate Ha'. }
  split; [eexists; split; reflexivity|]. split; [eexists; split; reflexivity|]. split; [reflexivity|].
  exists (Mat 2 2 [[Some 1%Z; None]; [Some 0%Z; Some 2%Z]]).
  split; [split; [reflexivity | repeat constructor]|]. split; [reflexivity|]. split; [|reflexivity].
  intros row i K c Hrow Hi Hc. cbn in Hrow. destruct Hrow as [Hrow|[Hrow|[]]]; subst row;
  destruct i as [|[|[|i]]]; cbn in Hi, Hc; try discriminate;
  injection Hi as Hi; injection Hc as Hc; subst K c;
  first [left; left; reflexivity | right; eexists; split; [reflexivity | cbn; lia]].
Qed.
