(** Requests for latent scores: arguments and the encoder's input (C66), the caller's data (C85), standard
    errors (C87). *)
From Coq Require Import QArith Lia String Reals Lra.
From Verif Require Import Base BaseFacts RBase RFacts M_Data M_Lik M_Stat M_Score S_Data S_Stat S_Score P_Data P_Score1 P_Score2 P_Score3 P_Score4.
Import List.
Local Open Scope nat_scope.

(** ** C66 *)

(** Everything else than the four methods, standard errors for EAP or MAP, and the encoder's scores
    without encoder are refused with ValueError before the data are touched. *)
Theorem C66_refused : forall draw e a contiguous d standard_errors method rescale,
  ~ permitted (al_encoder a) standard_errors method ->
  latent_scores draw e a contiguous d standard_errors method rescale = (Err ValueError, d).
Proof. exact refused. Qed.
Print Assumptions C66_refused.

(** Every permitted request is answered once its parts are, with scores found as asked and put on the
    transformed scale if there is one and it is asked for. *)
Theorem C66_answered : forall draw e a contiguous d standard_errors method rescale t x u,
  permitted (al_encoder a) standard_errors method -> estimated draw e a (as_rows d) method t x -> on_scale e rescale t u ->
  (standard_errors = false -> fst (latent_scores draw e a contiguous d standard_errors method rescale) = Ok (u, None)) /\
  (standard_errors = true -> method = "ML"%string \/ al_mean_se a = false -> forall Is, e_information e rescale t = Ok Is ->
     fst (latent_scores draw e a contiguous d standard_errors method rescale) = Ok (u, Some (map (fun I => map info_se (diagonal I)) Is))) /\
  (standard_errors = true -> method = "NN"%string -> al_mean_se a = true -> forall mu s, e_mean_se e x = Ok (mu, s) ->
     (rescale && e_scaled e = false ->
        fst (latent_scores draw e a contiguous d standard_errors method rescale) = Ok (u, Some (map (map (option_map Fin)) s))) /\
     (rescale && e_scaled e = true -> forall J, e_jacobian e mu = Ok J ->
        fst (latent_scores draw e a contiguous d standard_errors method rescale) = Ok (u, Some (map (map (option_map Fin)) (zip_with delta_se J s))))).
Proof. exact answered. Qed.
Print Assumptions C66_answered.

(** Complete data reach the encoder as they are, or as their one-hot code, whatever the imputation method. *)
Theorem C66_complete_data : forall draw one_hot m cats d, complete d ->
  score_input draw one_hot m cats d =
  (if one_hot then rmap as_floats (fst (one_hot_encode d cats)) else Ok (map (map to_q) (m_rows d)), d).
Proof. exact input_complete. Qed.
Print Assumptions C66_complete_data.

(** An autoencoder fitted with zero or mean imputation, or with one-hot codes and none, gets in scoring
    the input which training built from the same data: its scores for the training data are the stored ones. *)
Theorem C66_autoencoder_input : forall draw draw' e key one_hot m d contiguous rescale a x,
  m = Some IZero \/ m = Some IMean \/ (m = None /\ one_hot = true) -> m_dim d = 2 -> al_encoder a = true ->
  fst (train_input draw' one_hot m key (e_cats e) d) = Ok x ->
  fst (score_input draw one_hot m (e_cats e) d) = Ok x /\
  (forall stored u, e_encode e x = Ok stored -> on_scale e rescale stored u ->
     fst (latent_scores draw e (ae_fitted one_hot m a) contiguous d false "NN" rescale) = Ok (u, None)).
Proof.
  intros draw draw' e key one_hot m d ct rs a x Hm Hd Ha Hx.
  rewrite (input_as_training draw draw' one_hot m key (e_cats e) d Hm). split; [exact Hx|].
  intros stored u Hs Hu.
  assert (Hp : permitted (al_encoder (ae_fitted one_hot m a)) false "NN"%string).
  { split; [left; reflexivity|]. split; [discriminate|]. intros _. exact Ha. }
  refine (proj1 (answered draw e (ae_fitted one_hot m a) ct d false "NN"%string rs stored x u Hp _ Hu) eq_refl).
  right. exists stored, (snd (train_input draw' one_hot m key (e_cats e) d)).
  assert (Er : as_rows d = d) by (unfold as_rows; rewrite Hd; reflexivity).
  split; [|left; auto]. unfold starts. cbn [ae_fitted al_one_hot al_imputation]. rewrite Er.
  rewrite (input_as_training draw draw' one_hot m key (e_cats e) d Hm). rewrite <- Hx.
  destruct (train_input draw' one_hot m key (e_cats e) d). auto.
Qed.
Print Assumptions C66_autoencoder_input.

(** What that input is: zeros or the means of the other respondents in the place of missing responses. *)
Theorem C66_imputed_input : forall draw cats d, rectangular d ->
  (exists x, fst (score_input draw false (Some IZero) cats d) = Ok x /\ fills d x (fun _ _ y => y = Some 0%Q)) /\
  (exists x, fst (score_input draw false (Some IMean) cats d) = Ok x /\
     fills d x (fun _ c y =>
       (obs_count (col_cells d c) = 0 /\ y = None) \/
       (0 < obs_count (col_cells d c) /\
        exists q, y = Some q /\ (q * inject_Z (Z.of_nat (obs_count (col_cells d c))) == inject_Z (obs_sum (col_cells d c)))%Q))).
Proof.
  intros draw cats d Hr.
  assert (H1 : exists x, fst (score_input draw false (Some IZero) cats d) = Ok x /\ fills d x (fun _ _ y => y = Some 0%Q)).
  { rewrite (input_as_training draw draw false (Some IZero) None cats d) by auto.
    destruct (impute_zero_spec draw d None (Some (map Z.of_nat cats))) as (x & E & F). exists x. split; [|exact F].
    unfold train_input. rewrite E. reflexivity. }
  split; [exact H1|]. rewrite (input_as_training draw draw false (Some IMean) None cats d) by auto.
  destruct (impute_mean_spec draw d None (Some (map Z.of_nat cats)) Hr) as (x & E & F). exists x. split; [|exact F].
  unfold train_input. rewrite E. reflexivity.
Qed.
Print Assumptions C66_imputed_input.

(** With one-hot codes and mean imputation a missing response is coded as the category nearest to the
    mean of the item's observed responses (the even one of two equally near), and as no category when
    there is none; an observed response as itself. *)
Theorem C66_mean_codes : forall draw cats d,
  rectangular d -> m_cols d = length cats -> cats <> [] -> legal cats d ->
  exists enc filled, fst (score_input draw true (Some IMean) cats d) = Ok (as_floats enc) /\
    Forall2 (is_one_hot cats) filled enc /\ same_shape (m_rows d) filled /\
    forall r c x, at_ (m_rows d) r c = Some x ->
      exists y, at_ filled r c = Some y /\
        ((~ Missing x /\ y = x) \/
         (Missing x /\ obs_count (col_cells d c) = 0 /\ y = None) \/
         (Missing x /\ 0 < obs_count (col_cells d c) /\
          exists z, y = Some z /\ nearest_mean (obs_sum (col_cells d c)) (Z.of_nat (obs_count (col_cells d c))) z)).
Proof. exact mean_codes. Qed.
Print Assumptions C66_mean_codes.
Example C66_mean_codes_nonvacuous :
  let d := Mat 2 1 [[Some 1%Z]; [Some 2%Z]; [None]] in
  rectangular d /\ legal [3] d /\ obs_count (col_cells d 0) = 2 /\ nearest_mean 3 2 2 /\ ~ nearest_mean 3 2 1 /\
  fst (score_input (fun _ _ _ => 0) true (Some IMean) [3] d) = Ok (as_floats [[0; 1; 0]; [0; 0; 1]; [0; 0; 1]]%Z).
Proof.
  split; [split; [reflexivity | repeat constructor]|].
  split.
  { intros row i K c [<-|[<-|[<-|[]]]] HK Hc; destruct i as [|i]; cbn in HK, Hc; try (destruct i; discriminate HK);
      assert (K = 3) by congruence; subst K.
    - right. exists 1%Z. split; [congruence | lia].
    - right. exists 2%Z. split; [congruence | lia].
    - left. left. congruence. }
  split; [reflexivity|]. split; [split; [cbn; lia | intros _; exists 1%Z; reflexivity]|].
  split; [intros [_ H]; destruct (H eq_refl) as (k & Hk); lia | reflexivity].
Qed.

(** Finding: a model trained with "random incorrect" imputation cannot score data with missing responses;
    the key is not passed on. *)
Theorem C66_random_incorrect_refuted : forall draw e a one_hot contiguous d standard_errors method rescale,
  some_missing d -> permitted (al_encoder a) standard_errors method -> method <> "EAP"%string ->
  fst (latent_scores draw e (ae_fitted one_hot (Some IRandomIncorrect) a) contiguous d standard_errors method rescale) = Err ValueError.
Proof.
  intros draw e a oh ct d se m rs Hd Hp Hm. eapply input_error; [exact Hp | exact Hm | reflexivity|].
  cbn [ae_fitted al_imputation]. apply input_random. destruct Hd as (r & c & x & H). exists r, c, x. rewrite as_rows_rows. exact H.
Qed.
Print Assumptions C66_random_incorrect_refuted.

(** Finding: the variational autoencoder does not store the method.  Trained on imputed responses it
    refuses to score data with missing ones. *)
Theorem C66_variational_refused_refuted : forall draw e m contiguous d standard_errors method rescale,
  some_missing d -> permitted true standard_errors method -> method <> "EAP"%string ->
  fst (latent_scores draw e (vae_fitted false m vae_new) contiguous d standard_errors method rescale) = Err ValueError.
Proof.
  intros draw e im ct d se m rs Hd Hp Hm. eapply input_error; [exact Hp | exact Hm | reflexivity|].
  cbn [vae_fitted al_imputation vae_new]. apply input_none. destruct Hd as (r & c & x & H). exists r, c, x. rewrite as_rows_rows. exact H.
Qed.
Print Assumptions C66_variational_refused_refuted.

(** Finding: trained on one-hot codes of zero-imputed responses it is given other codes in scoring, for
    every data set with a missing response. *)
Theorem C66_variational_input_refuted : forall draw draw' key cats d,
  rectangular d -> m_cols d = length cats -> legal cats d -> Forall (fun K => 0 < K) cats -> some_missing d ->
  let a := vae_fitted true (Some IZero) vae_new in
  exists x y, fst (score_input draw true (al_imputation a) cats d) = Ok x /\
    fst (train_input draw' true (Some IZero) key cats d) = Ok y /\ length x = length y /\ x <> y.
Proof. intros draw draw' key cats d Hr Hc Hl HK Hm. exact (inputs_differ draw draw' key cats d Hr Hc Hl HK Hm). Qed.
Print Assumptions C66_variational_input_refuted.

(** Finding: mean imputation in scoring uses the means of the data to be scored.  One new respondent's
    missing response becomes NaN. *)
Theorem C66_new_respondent_refuted : forall draw cats row cols i x, nth_error row i = Some x -> Missing x ->
  exists out, score_input draw false (Some IMean) cats (Mat 2 cols [row]) = (Ok out, Mat 2 cols [row]) /\ at_ out 0 i = Some None.
Proof. exact input_single_mean. Qed.
Print Assumptions C66_new_respondent_refuted.

Definition ex_engine : engine :=
  Engine 1 [2; 3] (fun x => Ok (map (fun _ => [Some 1%R]) x)) (fun x => Ok (map (fun _ => [Some 1%R]) x, map (fun _ => [Some 2%R]) x))
    (fun d => map (fun _ => [Some 0%R]) (m_rows d)) (fun _ d t => Ok t) (fun d => Ok (map (fun _ => [Some 0%R]) (m_rows d)))
    true (fun t => Ok (map (map (option_map (fun y => (3 * y)%R))) t)) (fun t => Ok (map (fun _ => [[Some (-3)%R]]) t))
    (fun _ t => Ok (map (fun _ => [[Some (Fin 4)]]) t)).
Definition ex_scored : mat := Mat 2 2 [[Some 1%Z; None]; [Some 0%Z; Some 2%Z]].
Example C66_nonvacuous :
  some_missing ex_scored /\ rectangular ex_scored /\ legal [2; 3] ex_scored /\ permitted true true "NN" /\
  ~ permitted true true "EAP" /\ ~ permitted false false "NN" /\ ~ permitted true false "nn" /\
  fst (train_input (fun _ _ _ => 0) true None None [2; 3] ex_scored) =
    Ok (as_floats [[0; 1; 0; 0; 0]; [1; 0; 0; 0; 1]])%Z /\
  fst (latent_scores (fun _ _ _ => 0) ex_engine (ae_fitted true None ae_new) true ex_scored false "NN" true) =
    Ok ([[Some (3 * 1)%R]; [Some (3 * 1)%R]], None).
Proof.
  split; [exists 0, 1, None; split; [reflexivity | left; reflexivity]|].
  split; [split; [reflexivity | repeat constructor]|].
  split.
  { intros row i K c [<-|[<-|[]]] HK Hc; destruct i as [|[|i]]; cbn in HK, Hc; try (destruct i; discriminate HK).
    - right. exists 1%Z. split; [congruence|]. assert (K = 2) by congruence. subst. lia.
    - left. left. congruence.
    - right. exists 0%Z. split; [congruence|]. assert (K = 2) by congruence. subst. lia.
    - right. exists 2%Z. split; [congruence|]. assert (K = 3) by congruence. subst. lia. }
  split; [split; [left; reflexivity|]; split; [intros _; right; reflexivity | reflexivity]|].
  split; [intros (_ & H & _); destruct (H eq_refl) as [H'|H']; discriminate H'|].
  split; [intros (_ & _ & H); specialize (H eq_refl); discriminate H|].
  split; [intros ([H|[H|[H|[H|[]]]]] & _); discriminate H|].
  split; reflexivity.
Qed.

(** ** C85 *)

(** The caller's tensor after the call, on every outcome: unchanged except in one case. *)
Theorem C85_unchanged : forall draw e a contiguous d standard_errors method rescale,
  contiguous = false \/ ~ permitted (al_encoder a) standard_errors method \/ method = "EAP"%string \/
  al_one_hot a <> Some true \/ al_imputation a <> None \/ ~ holds_nan d ->
  snd (latent_scores draw e a contiguous d standard_errors method rescale) = d.
Proof.
  intros draw e a ct d se m rs H. destruct (data_after draw e a ct d se m rs) as [H1 H2].
  destruct H as [H|[H|[H|[H|[H|H]]]]]; try (apply H2; intros (X1 & X2 & X3 & X4 & X5 & _); try congruence; contradiction).
  assert (F : fill_nan d = d).
  { apply fill_nan_id. intros row c Hr Hc ->. apply H. exists row. auto. }
  destruct (Classical_Prop.classic (overwrites e a ct d se m)) as [Ho|Ho]; [rewrite (H1 Ho); exact F | exact (H2 Ho)].
Qed.
Print Assumptions C85_unchanged.

(** Finding: with a model trained on one-hot codes without imputation every NaN in the caller's tensor is
    overwritten by -1, the other cells stay. *)
Theorem C85_overwritten_refuted : forall draw e a contiguous d standard_errors method rescale,
  contiguous = true -> permitted (al_encoder a) standard_errors method -> method <> "EAP"%string ->
  al_one_hot a = Some true -> al_imputation a = None -> (m_dim d = 1 \/ m_dim d = 2) -> m_cols d = length (e_cats e) -> holds_nan d ->
  let d' := snd (latent_scores draw e a contiguous d standard_errors method rescale) in
  d' <> d /\
  forall r c x, at_ (m_rows d) r c = Some x -> at_ (m_rows d') r c = Some (match x with None => Some (-1)%Z | Some z => Some z end).
Proof.
  intros draw e a ct d se m rs H1 H2 H3 H4 H5 H6 H7 H8 d'.
  assert (E : d' = fill_nan d).
  { apply data_after. unfold overwrites. auto 10. }
  rewrite E. split.
  - intros F. apply fill_nan_id in F. destruct H8 as (row & Hr & Hn). exact (F row None Hr Hn eq_refl).
  - intros r c x Hx. cbn [fill_nan m_rows]. rewrite at_map, Hx. destruct x; reflexivity.
Qed.
Print Assumptions C85_overwritten_refuted.

Example C85_nonvacuous :
  holds_nan ex_scored /\
  snd (latent_scores (fun _ _ _ => 0) ex_engine (ae_fitted true None ae_new) true ex_scored false "ML" true) =
    Mat 2 2 [[Some 1%Z; Some (-1)%Z]; [Some 0%Z; Some 2%Z]] /\
  snd (latent_scores (fun _ _ _ => 0) ex_engine (ae_fitted true (Some IZero) ae_new) true ex_scored false "ML" true) = ex_scored.
Proof. split; [exists [Some 1%Z; None]; cbn; auto|]. split; reflexivity. Qed.

(** ** C87 *)
Local Open Scope R_scope.

(** The reported error of score [i] of a respondent with information matrix [I] is 1 / sqrt(I_ii). *)
Theorem C87_reported : forall draw e a contiguous d rescale method t x u Is,
  permitted (al_encoder a) true method -> estimated draw e a (as_rows d) method t x -> on_scale e rescale t u ->
  method = "ML"%string \/ al_mean_se a = false -> e_information e rescale t = Ok Is ->
  exists se, fst (latent_scores draw e a contiguous d true method rescale) = Ok (u, Some se) /\ length se = length Is /\
    forall r M n I, nth_error Is r = Some M -> length M = n -> (forall i, (i < n)%nat -> entry M i i (I i i)) ->
      forall i, (i < n)%nat ->
        (0 < I i i -> at2 se r i = Some (Some (Fin (/ sqrt (I i i))))) /\ (I i i = 0 -> at2 se r i = Some (Some PInf)).
Proof.
  intros draw e a ct d rs m t x u Is Hp He Hu Hm HI.
  destruct (answered draw e a ct d true m rs t x u Hp He Hu) as (_ & H & _).
  eexists. split; [exact (H eq_refl Hm Is HI)|]. split; [apply map_length|].
  intros r M n I Hr HL HM i Hi. unfold at2. rewrite nth_error_map, Hr. cbn [option_map]. rewrite nth_error_map.
  rewrite (diagonal_entry n M I i HL HM Hi). cbn [option_map]. split.
  - intros Hpos. rewrite (info_se_pos _ Hpos). reflexivity.
  - intros ->. rewrite info_se_zero. reflexivity.
Qed.
Print Assumptions C87_reported.

(** With one latent variable, or when the information about score [i] is separate from that about the
    others, its square is the asymptotic variance. *)
Theorem C87_asymptotic : forall n I i x, positive_definite n I -> (i < n)%nat -> inverse_column n I i x ->
  (forall j, (j < n)%nat -> j <> i -> I i j = 0) -> / sqrt (I i i) * / sqrt (I i i) = x i.
Proof.
  intros n I i x HP Hi Hx Hz. rewrite (inv_sqrt_square _ (diagonal_positive n I i HP Hi)). symmetry.
  apply (inverse_diagonal n I i x HP Hi Hx). exact Hz.
Qed.
Print Assumptions C87_asymptotic.

(** Finding: otherwise it is smaller: the reciprocal of the diagonal is used, not the diagonal of the inverse. *)
Theorem C87_too_small_refuted : forall n I i x, positive_definite n I -> (i < n)%nat -> inverse_column n I i x ->
  (exists j, (j < n)%nat /\ j <> i /\ I i j <> 0) -> / sqrt (I i i) * / sqrt (I i i) < x i.
Proof.
  intros n I i x HP Hi Hx Hz. rewrite (inv_sqrt_square _ (diagonal_positive n I i HP Hi)).
  apply (inverse_diagonal n I i x HP Hi Hx). exact Hz.
Qed.
Print Assumptions C87_too_small_refuted.

(** Errors of the variational autoencoder on a transformed scale follow the delta method for independent scores. *)
Theorem C87_delta_method : forall J se,
  delta_se (map numbers J) (numbers se) =
    numbers (map (fun Ji => sqrt (rsum (zip_with (fun j s => j * j * (s * s)) Ji se))) J) /\
  (forall j s, 0 <= s -> delta_se [[Some j]] [Some s] = [Some (Rabs j * s)]).
Proof. intros J se. split; [apply delta_numbers | exact delta_one]. Qed.
Print Assumptions C87_delta_method.

(** On a transformed scale with derivative [J] the information about one latent variable is divided by
    [J^2] (C51_change_of_scale) and the error multiplied by [|J|]. *)
Theorem C87_change_of_scale : forall info info' J, 0 < info -> J <> 0 -> info = info' * (J * J) ->
  / sqrt info' = Rabs J * / sqrt info.
Proof.
  intros i i' J Hi HJ E. assert (HJ2 : 0 < J * J) by (apply Rsqr_pos_lt; exact HJ).
  assert (Hi' : 0 < i') by (destruct (Rlt_dec 0 i'); [assumption|]; exfalso; assert (i' * (J * J) <= 0) by nra; lra).
  rewrite E. rewrite sqrt_mult by lra. change (J * J) with (Rsqr J); rewrite (sqrt_Rsqr_abs J). field. split; [apply Rabs_no_R0; exact HJ|].
  apply Rgt_not_eq. apply sqrt_lt_R0. exact Hi'.
Qed.
Print Assumptions C87_change_of_scale.

Example C87_nonvacuous : let I := fun i j : nat => if (i =? j)%nat then 2 else 1 in
  positive_definite 2 I /\ inverse_column 2 I 0 (fun k => if (k =? 0)%nat then 2 / 3 else - 1 / 3) /\ (exists j, (j < 2)%nat /\ j <> 0%nat /\ I 0%nat j <> 0) /\
  exists s, fst (latent_scores (fun _ _ _ => 0%nat) ex_engine (ae_fitted true None ae_new) true ex_scored true "NN" false) =
    Ok ([[Some 1]; [Some 1]], Some [[Some (Fin s)]; [Some (Fin s)]]) /\ s = / sqrt 4.
Proof.
  cbv zeta. split; [split|split; [|split]].
  - intros i j _ _. rewrite Nat.eqb_sym. reflexivity.
  - intros v (i & Hi & Hv). cbn. assert (H : v 0%nat <> 0 \/ v 1%nat <> 0) by (destruct i as [|[|i]]; [left|right|lia]; exact Hv).
    assert (0 < v 0%nat * v 0%nat + v 1%nat * v 1%nat).
    { destruct H as [H|H]; apply Rsqr_pos_lt in H; unfold Rsqr in H; [pose proof (Rle_0_sqr (v 1%nat))|pose proof (Rle_0_sqr (v 0%nat))]; unfold Rsqr in *; lra. }
    pose proof (Rle_0_sqr (v 0%nat + v 1%nat)). unfold Rsqr in *. lra.
  - intros j Hj. destruct j as [|[|j]]; [| |lia]; cbn; lra.
  - exists 1%nat. cbn. repeat split; try lia; lra.
  - exists (/ sqrt 4). split; [|reflexivity].
    transitivity (Ok ([[Some 1]; [Some 1]], Some [[info_se (Some (Fin 4))]; [info_se (Some (Fin 4))]])); [reflexivity|].
    rewrite info_se_pos by lra. reflexivity.
Qed.
