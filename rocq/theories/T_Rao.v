(** Property C132: information as the variance of the score, and what standard errors say about scores. *)
From Verif Require Import Base BaseFacts RBase RFacts M_Data M_Logit S_Logit M_Lik M_Est M_Scale S_Scale S_Lik S_Est S_Stat S_True S_Pop S_Opt S_Suff S_Scoreq M_Stat M_Info S_Info M_Score S_Score P_Logit P_Est2 P_Spline4 P_True1 P_True2 P_Cons1 P_Fit P_Info1 P_Info2 P_Info3 P_Info4 P_Opt1 P_Opt3 P_Pop5 P_Pop6 P_Scoreq P_Row S_Rao P_Rao P_Max3 T_Info.
Import List.
Local Open Scope R_scope.

Lemma seen_all cats : length (all_seen cats) = length cats. Proof. apply map_length. Qed.
Lemma all_seen_sum (cats : list nat) (f : nat -> R) : sumn (length cats) (fun i => if nth i (all_seen cats) false then f i else 0) = sumn (length cats) f.
Proof. apply sumn_ext. intros i Hi. unfold all_seen. rewrite (nth_indep _ false ((fun _ : nat => true) 0%nat)) by now rewrite map_length. now rewrite (map_nth (fun _ : nat => true)). Qed.
Lemma row_of (lv : nat) (thetas : list (list R)) r t : Forall (fun t => length t = lv) thetas -> nth_error thetas r = Some t -> length t = lv.
Proof. intros HF Ht. rewrite Forall_forall in HF. apply HF. eapply nth_error_In; eauto. Qed.

(** The information reported for a respondent is the covariance, over the answers the model predicts for them, of the
    derivatives of the log-likelihood (whose averages are zero); it is the sum of those reported for the items. *)
Theorem C132_score : forall grad solve lv cats M probs p scales rescale thetas r t D,
  row_model lv cats M probs p -> partials lv (length cats) M p t D -> autograd_exact grad -> rescale = false \/ scales = [] ->
  Forall (fun t => length t = lv) thetas -> nth_error thetas r = Some t ->
  let inform := fun item => model_information grad solve probs (length cats) M lv scales rescale None item thetas in
  exists Ii U,
    (forall i, (i < length cats)%nat -> item_matrix_is lv (inform true) r i (Ii i)) /\
    test_matrix_is lv (inform false) r (fun d e => sumn (length cats) (fun i => Ii i d e)) /\
    (forall row d, legal_row cats row -> (d < lv)%nat -> partial_is (fun u => ln (likelihood p u row)) t d (U row d)) /\
    forall seen d e, length seen = length cats -> (d < lv)%nat -> (e < lv)%nat ->
      on_answers cats seen p t (fun row => U row d) = 0 /\
      on_answers cats seen p t (fun row => U row d * U row e) = sumn (length cats) (fun i => if nth i seen false then Ii i d e else 0).
Proof.
  intros grad solve lv cats M probs p scales rescale thetas r t D HR HD HG HP HF Ht inform. pose proof (row_of _ _ _ _ HF Ht) as Lt.
  pose proof (row_model_reads _ _ _ _ _ HR) as HR'. pose proof (model_supported lv cats M probs p HR t Lt D HD) as HS.
  exists (fun i => fisher M (p t i) (D i)), (answer_score p t D). split; [|split; [|split]].
  - intros i Hi. exact (plain_item grad solve probs (length cats) M lv p HR' HG scales rescale HP thetas HF r t Ht D HD HS i Hi).
  - exact (plain_test grad solve probs (length cats) M lv p HR' HG scales rescale HP thetas HF r t Ht D HD HS).
  - intros row d HL Hd. exact (score_partial lv cats M probs p HR t Lt D HD row d HL Hd).
  - intros seen d e Ls Hd He. split; [exact (score_mean lv cats M probs p HR t Lt D HD seen d Ls Hd)|exact (score_products lv cats M probs p HR t Lt D HD seen d e Ls Hd He)].
Qed.
Print Assumptions C132_score.

(** Any score computed from the answers to the items marked in [seen]: the square of the rate at which its mean changes
    with a latent variable is at most its variance times the information of those items. *)
Theorem C132_bound : forall grad solve lv cats M probs p scales rescale thetas r t D,
  row_model lv cats M probs p -> partials lv (length cats) M p t D -> autograd_exact grad -> rescale = false \/ scales = [] ->
  Forall (fun t => length t = lv) thetas -> nth_error thetas r = Some t ->
  let inform := fun item => model_information grad solve probs (length cats) M lv scales rescale None item thetas in
  exists Ii, (forall i, (i < length cats)%nat -> item_matrix_is lv (inform true) r i (Ii i)) /\
    test_matrix_is lv (inform false) r (fun d e => sumn (length cats) (fun i => Ii i d e)) /\
    forall seen (score : list cell -> R) d, length seen = length cats -> (d < lv)%nat ->
      exists rate, partial_is (fun u => on_answers cats seen p u score) t d rate /\
        rate ^ 2 <= answers_variance cats seen p t score * sumn (length cats) (fun i => if nth i seen false then Ii i d d else 0).
Proof.
  intros grad solve lv cats M probs p scales rescale thetas r t D HR HD HG HP HF Ht inform. pose proof (row_of _ _ _ _ HF Ht) as Lt.
  pose proof (row_model_reads _ _ _ _ _ HR) as HR'. pose proof (model_supported lv cats M probs p HR t Lt D HD) as HS.
  exists (fun i => fisher M (p t i) (D i)). split; [|split].
  - intros i Hi. exact (plain_item grad solve probs (length cats) M lv p HR' HG scales rescale HP thetas HF r t Ht D HD HS i Hi).
  - exact (plain_test grad solve probs (length cats) M lv p HR' HG scales rescale HP thetas HF r t Ht D HD HS).
  - intros seen score d Ls Hd. exact (rao lv cats M probs p HR t Lt D HD seen score d Ls Hd).
Qed.
Print Assumptions C132_bound.

Lemma root_le a b : 0 < b -> 1 <= a * b -> / sqrt b <= sqrt a.
Proof.
  intros Hb H. rewrite <- sqrt_inv by exact Hb. apply sqrt_le_1_alt. apply (Rmult_le_reg_r b); [exact Hb|]. rewrite Rinv_l by lra. exact H.
Qed.
(** The reported standard error of a respondent who answered every item is a lower limit of the standard deviation of
    every score whose mean moves one for one with the latent variable. *)
Theorem C132_standard_error : forall grad solve lv cats M probs p scales rescale thetas r t D,
  row_model lv cats M probs p -> partials lv (length cats) M p t D -> autograd_exact grad -> rescale = false \/ scales = [] ->
  Forall (fun t => length t = lv) thetas -> nth_error thetas r = Some t ->
  exists I, test_matrix_is lv (model_information grad solve probs (length cats) M lv scales rescale None false thetas) r I /\
    forall (score : list cell -> R) d, (d < lv)%nat -> partial_is (fun u => on_answers cats (all_seen cats) p u score) t d 1 ->
      exists se, info_se (Some (Fin (I d d))) = Some (Fin se) /\ 0 < se <= sqrt (answers_variance cats (all_seen cats) p t score).
Proof.
  intros grad solve lv cats M probs p scales rescale thetas r t D HR HD HG HP HF Ht.
  destruct (C132_bound grad solve lv cats M probs p scales rescale thetas r t D HR HD HG HP HF Ht) as (Ii & _ & HT & HB). cbv beta zeta in HT, HB.
  eexists. split; [exact HT|]. intros score d Hd H1. destruct (HB (all_seen cats) score d (seen_all cats) Hd) as (rate & Hr & Hb). rewrite (partial_unique _ _ _ _ _ Hr H1) in Hb.
  rewrite (all_seen_sum cats (fun i => Ii i d d)) in Hb. cbv beta. set (I := sumn (length cats) (fun i => Ii i d d)) in *. set (V := answers_variance _ _ _ _ _) in *.
  assert (HV : 0 <= V). { unfold V, answers_variance, on_answers. apply (over_nonneg (possible_rows cats (all_seen cats))). intros row Hrow. apply Rmult_le_pos; [|apply pow2_ge_0]. apply Rlt_le, (likelihood_pos lv cats M probs p HR); [eapply row_of; eassumption|]. apply (rows_legal cats (all_seen cats)); [apply seen_all|exact Hrow]. }
  assert (HI : 0 < I). { destruct (Rlt_le_dec 0 I) as [?|Hle]; [assumption|]. assert (V * I <= 0) by (rewrite <- (Rmult_0_r V); now apply Rmult_le_compat_l). lra. }
  exists (/ sqrt I). unfold info_se. destruct (Rlt_dec I 0); [lra|]. destruct (Req_EM_T I 0); [lra|]. split; [reflexivity|]. split; [apply Rinv_0_lt_compat, sqrt_lt_R0; exact HI|]. apply root_le; [exact HI|lra].
Qed.
Print Assumptions C132_standard_error.

(** Finding: it does not look at which items were answered.  With an informative item left out it is smaller than the
    standard deviation of every such score. *)
Theorem C132_missing_refuted : forall grad solve lv cats M probs p scales rescale thetas r t D,
  row_model lv cats M probs p -> partials lv (length cats) M p t D -> autograd_exact grad -> rescale = false \/ scales = [] ->
  Forall (fun t => length t = lv) thetas -> nth_error thetas r = Some t ->
  let inform := fun item => model_information grad solve probs (length cats) M lv scales rescale None item thetas in
  exists Ii I, (forall i, (i < length cats)%nat -> item_matrix_is lv (inform true) r i (Ii i)) /\ test_matrix_is lv (inform false) r I /\
    forall seen (score : list cell -> R) d skipped, length seen = length cats -> (d < lv)%nat ->
      partial_is (fun u => on_answers cats seen p u score) t d 1 ->
      (skipped < length cats)%nat -> nth skipped seen false = false -> 0 < Ii skipped d d ->
      exists se, info_se (Some (Fin (I d d))) = Some (Fin se) /\ se < sqrt (answers_variance cats seen p t score).
Proof.
  intros grad solve lv cats M probs p scales rescale thetas r t D HR HD HG HP HF Ht inform. pose proof (row_of _ _ _ _ HF Ht) as Lt.
  pose proof (row_model_reads _ _ _ _ _ HR) as HR'. pose proof (model_supported lv cats M probs p HR t Lt D HD) as HS.
  exists (fun i => fisher M (p t i) (D i)), (fun d e => sumn (length cats) (fun i => fisher M (p t i) (D i) d e)). split; [|split].
  { intros i Hi. exact (plain_item grad solve probs (length cats) M lv p HR' HG scales rescale HP thetas HF r t Ht D HD HS i Hi). }
  { exact (plain_test grad solve probs (length cats) M lv p HR' HG scales rescale HP thetas HF r t Ht D HD HS). }
  intros seen score d s Ls Hd H1 Hs Es Hpos. destruct (rao lv cats M probs p HR t Lt D HD seen score d Ls Hd) as (rate & Hr & Hb). rewrite (partial_unique _ _ _ _ _ Hr H1) in Hb.
  set (I := sumn (length cats) (fun i => fisher M (p t i) (D i) d d)). set (J := sumn (length cats) (fun i => if nth i seen false then fisher M (p t i) (D i) d d else 0)) in *. set (V := answers_variance _ _ _ _ _) in *.
  assert (HV : 0 <= V). { unfold V, answers_variance, on_answers. apply (over_nonneg (possible_rows cats seen)). intros row Hrow. apply Rmult_le_pos; [|apply pow2_ge_0]. apply Rlt_le, (likelihood_pos lv cats M probs p HR); [exact Lt|]. now apply (rows_legal cats seen). }
  assert (HF0 : forall i, (i < length cats)%nat -> 0 <= fisher M (p t i) (D i) d d).
  { intros i Hi. unfold fisher. apply sumn_nonneg. intros k Hk. destruct (model_dist lv cats M probs p HR t i Lt Hi) as (_ & V0 & _). destruct (Req_EM_T (p t i k) 0); [lra|]. pose proof (V0 k Hk). apply Rmult_le_pos; [|apply Rlt_le, Rinv_0_lt_compat; lra]. apply Rle_0_sqr. }
  assert (HJ : 0 < J). { destruct (Rlt_le_dec 0 J) as [?|Hle]; [assumption|]. assert (V * J <= 0) by (rewrite <- (Rmult_0_r V); now apply Rmult_le_compat_l). lra. }
  assert (HIJ : J < I). { enough (0 < I - J) by lra. unfold I, J. rewrite <- sumn_minus. apply (sumn_pos_one _ _ s); [|exact Hs|rewrite Es, Rminus_0_r; exact Hpos]. intros i Hi. pose proof (HF0 i Hi). destruct (nth i seen false); lra. }
  exists (/ sqrt I). unfold info_se. destruct (Rlt_dec I 0); [lra|]. destruct (Req_EM_T I 0); [lra|]. split; [reflexivity|].
  apply Rlt_le_trans with (/ sqrt J); [|apply root_le; lra]. apply Rinv_lt_contravar; [apply Rmult_lt_0_compat; apply sqrt_lt_R0; lra|]. apply sqrt_lt_1_alt. lra.
Qed.
Print Assumptions C132_missing_refuted.

(** With several latent variables, a score that moves one for one with the first and not with the others has at least
    the variance that the inverse of the information matrix has for it. *)
Theorem C132_inverse : forall grad solve lv cats M probs p scales rescale thetas r t D,
  row_model lv cats M probs p -> partials lv (length cats) M p t D -> autograd_exact grad -> rescale = false \/ scales = [] ->
  Forall (fun t => length t = lv) thetas -> nth_error thetas r = Some t ->
  exists I, test_matrix_is lv (model_information grad solve probs (length cats) M lv scales rescale None false thetas) r I /\
    forall (score : list cell -> R) d x, (d < lv)%nat -> inverse_column lv I d x ->
      (forall e, (e < lv)%nat -> partial_is (fun u => on_answers cats (all_seen cats) p u score) t e (if (e =? d)%nat then 1 else 0)) ->
      x d <= answers_variance cats (all_seen cats) p t score.
Proof.
  intros grad solve lv cats M probs p scales rescale thetas r t D HR HD HG HP HF Ht. pose proof (row_of _ _ _ _ HF Ht) as Lt.
  pose proof (row_model_reads _ _ _ _ _ HR) as HR'. pose proof (model_supported lv cats M probs p HR t Lt D HD) as HS.
  eexists. split; [exact (plain_test grad solve probs (length cats) M lv p HR' HG scales rescale HP thetas HF r t Ht D HD HS)|].
  intros score d x Hd HX H1. apply (rao_inverse lv cats M probs p HR t Lt D HD (all_seen cats) score d x (seen_all cats) Hd H1).
  intros e He. rewrite <- (HX e He). apply sumn_ext. intros k Hk. f_equal. apply all_seen_sum.
Qed.
Print Assumptions C132_inverse.

(** Where the log-odds are linear the limit is reached, by the weighted sum score divided by the information. *)
Theorem C132_attained : forall grad solve lv cats M probs p w scales rescale thetas r t,
  row_model lv cats M probs p -> linear_logits lv cats p w -> autograd_exact grad -> rescale = false \/ scales = [] ->
  Forall (fun t => length t = lv) thetas -> nth_error thetas r = Some t ->
  exists I, test_matrix_is lv (model_information grad solve probs (length cats) M lv scales rescale None false thetas) r I /\
    forall d, (d < lv)%nat -> 0 < I d d ->
      partial_is (fun u => on_answers cats (all_seen cats) p u (fun row => / I d d * total w row d)) t d 1 /\
      info_se (Some (Fin (I d d))) = Some (Fin (sqrt (answers_variance cats (all_seen cats) p t (fun row => / I d d * total w row d)))).
Proof.
  intros grad solve lv cats M probs p w scales rescale thetas r t HR HW HG HP HF Ht. pose proof (row_of _ _ _ _ HF Ht) as Lt.
  destruct (linear_partials lv cats M probs p w t HR HW Lt) as (D & HD).
  pose proof (row_model_reads _ _ _ _ _ HR) as HR'. pose proof (model_supported lv cats M probs p HR t Lt D HD) as HS.
  eexists. split; [exact (plain_test grad solve probs (length cats) M lv p HR' HG scales rescale HP thetas HF r t Ht D HD HS)|].
  intros d Hd HI. cbv beta in *. destruct (total_attains lv cats M probs p w HR HW t Lt D HD d (/ sumn (length cats) (fun i => fisher M (p t i) (D i) d d)) _ Hd eq_refl) as [A B].
  set (I := sumn (length cats) (fun i => fisher M (p t i) (D i) d d)) in *. rewrite Rinv_l in A by lra. split; [exact A|]. rewrite B. unfold info_se. destruct (Rlt_dec I 0); [lra|]. destruct (Req_EM_T I 0); [lra|].
  replace ((/ I) ^ 2 * I) with (/ I) by (field; lra). now rewrite sqrt_inv.
Qed.
Print Assumptions C132_attained.

Lemma tpl_linear m : tpl_wf m -> linear_logits (tpl_lv m) (repeat 2%nat (tpl_items m)) (P_Pop6.tpl_p m) (fun i k d => INR k * slope (tpl_free m) (tpl_w m) i d).
Proof.
  intro Hwf. exists (fun i k => INR k * nth i (tpl_b m) 0). intros t i k Lt Hk. assert (E2 := P_Max3.nth_repeat_two _ _ _ Hk). rewrite E2 in *. unfold P_Pop6.tpl_p. cbv zeta.
      transitivity (category_probability 2 (fun k => INR k * (predictor (tpl_lv m) (slope (tpl_free m) (tpl_w m) i) t + nth i (tpl_b m) 0)) k).
      - rewrite <- two_category by exact Hk. destruct k as [|[|k]]; [reflexivity|reflexivity|lia].
      - apply cp_ext; [exact Hk|]. intros j _. unfold predictor. rewrite Rmult_plus_distr_l, <- sumn_scal. f_equal. apply sumn_ext. intros; ring.
Qed.
(** The models meet the hypotheses. *)
Theorem C132_models :
  (forall m, tpl_wf m -> (0 < tpl_items m)%nat -> let cats := repeat 2%nat (tpl_items m) in exists p,
     row_model (tpl_lv m) cats 2 (tpl_probabilities m) p /\ linear_logits (tpl_lv m) cats p (fun i k d => INR k * slope (tpl_free m) (tpl_w m) i d) /\
     forall t, length t = tpl_lv m -> exists D, partials (tpl_lv m) (length cats) 2 p t D) /\
  (forall m, poly_wf m -> (0 < p_items m)%nat -> exists p,
     row_model (p_lv m) (p_cats m) (p_max m) (gpc_probabilities m) p /\ linear_logits (p_lv m) (p_cats m) p (fun i k d => INR k * slope (p_free m) (p_w m) i d) /\
     forall t, length t = p_lv m -> exists D, partials (p_lv m) (length (p_cats m)) (p_max m) p t D) /\
  (forall m, nrm_wf m -> (0 < length (nrm_cats m))%nat -> exists p,
     row_model (nrm_lv m) (nrm_cats m) (nrm_max m) (nrm_probabilities m) p /\ linear_logits (nrm_lv m) (nrm_cats m) p (nrm_slope m) /\
     forall t, length t = nrm_lv m -> exists D, partials (nrm_lv m) (length (nrm_cats m)) (nrm_max m) p t D) /\
  (forall m, thpl_wf m -> let cats := repeat 2%nat (thpl_items m) in exists p,
     row_model (thpl_lv m) cats 2 (fun thetas => some3 (thpl_probabilities m thetas)) p /\
     forall t, length t = thpl_lv m -> exists D, partials (thpl_lv m) (length cats) 2 p t D) /\
  (forall m, poly_wf m -> ordered m -> (0 < p_items m)%nat -> exists p,
     row_model (p_lv m) (p_cats m) (p_max m) (fun thetas => some3 (grm_probabilities m thetas)) p /\
     forall t, length t = p_lv m -> exists D, partials (p_lv m) (length (p_cats m)) (p_max m) p t D).
Proof.
  split; [|split; [|split; [|split]]].
  - intros m Hwf Hn cats. exists (P_Pop6.tpl_p m). pose proof (tpl_row_model m Hwf Hn) as HR.
    assert (HW : linear_logits (tpl_lv m) cats (P_Pop6.tpl_p m) (fun i k d => INR k * slope (tpl_free m) (tpl_w m) i d)) by exact (tpl_linear m Hwf).
    split; [exact HR|]. split; [exact HW|]. intros t Lt. exact (linear_partials _ _ _ _ _ _ t HR HW Lt).
  - intros m Hwf Hn. exists (soft (p_cats m) (gpc_z m)). pose proof (gpc_row_model m Hwf Hn) as HR.
    assert (HW : linear_logits (p_lv m) (p_cats m) (soft (p_cats m) (gpc_z m)) (fun i k d => INR k * slope (p_free m) (p_w m) i d)).
    { exists (fun i k => intercept (p_cats m) (p_b m) i k). intros t i k Lt Hk. unfold soft. rewrite (proj2 (Nat.ltb_lt _ _) Hk). apply cp_ext; [exact Hk|]. intros j _. unfold gpc_z, predictor. rewrite <- sumn_scal. f_equal. apply sumn_ext. intros; ring. }
    split; [exact HR|]. split; [exact HW|]. intros t Lt. exact (linear_partials _ _ _ _ _ _ t HR HW Lt).
  - intros m Hwf Hn. exists (soft (nrm_cats m) (nrm_z m)). pose proof (nrm_row_model m Hwf Hn) as HR.
    assert (HW : linear_logits (nrm_lv m) (nrm_cats m) (soft (nrm_cats m) (nrm_z m)) (nrm_slope m)).
    { exists (fun i k => nrm_intercept m i k). intros t i k Lt Hk. unfold soft. rewrite (proj2 (Nat.ltb_lt _ _) Hk). apply cp_ext; [exact Hk|]. intros j _. reflexivity. }
    split; [exact HR|]. split; [exact HW|]. intros t Lt. exact (linear_partials _ _ _ _ _ _ t HR HW Lt).
  - intros m Hwf cats. exists (P_Info3.thpl_p m). split; [exact (thpl_row_model m Hwf)|]. intros t Lt. exists (thpl_D m t). unfold cats. rewrite repeat_length. exact (thpl_partials m t Hwf Lt).
  - intros m Hwf Ho Hn. exists (P_Info4.grm_p m). split; [exact (grm_row_model m Hwf Ho Hn)|]. intros t Lt. exists (grm_D m t). exact (grm_partials m t Lt).
Qed.
Print Assumptions C132_models.

(** Two items with slope one, answered by somebody in the middle: information one half, and somebody who skipped the
    second item has a score that moves one for one. *)
Example C132_nonvacuous : let m := {| tpl_lv := 1; tpl_free := [[true]; [true]]; tpl_w := [1; 1]; tpl_b := [0; 0] |} in
  exists p D, row_model 1 [2; 2]%nat 2 (tpl_probabilities m) p /\ partials 1 2 2 p [0] D /\
    partial_is (fun u => on_answers [2; 2]%nat [true; false] p u (fun row => match row with Some k :: _ => 4 * IZR k | _ => 0 end)) [0] 0 1 /\
    (forall grad solve, autograd_exact grad -> exists I, test_matrix_is 1 (model_information grad solve (tpl_probabilities m) 2 2 1 [] false None false [[0]]) 0 I /\ I 0%nat 0%nat = 1 / 2) /\
    answers_variance [2; 2]%nat [true; false] p [0] (fun row => match row with Some k :: _ => 4 * IZR k | _ => 0 end) = 4.
Proof.
  intro m. assert (W : tpl_wf m) by (repeat split; cbn; auto; repeat constructor).
  assert (Q : forall x k, (k < 2)%nat -> P_Pop6.tpl_p m [x] 0 k = if (k =? 1)%nat then logistic x else 1 - logistic x).
  { intros x [|[|k]] Hk; [| |lia]; unfold P_Pop6.tpl_p; cbn; f_equal; f_equal; ring || (f_equal; ring). }
  destruct (linear_partials 1 (repeat 2%nat 2) 2 (tpl_probabilities m) (P_Pop6.tpl_p m) (fun i k d => INR k * slope (tpl_free m) (tpl_w m) i d) [0] (tpl_row_model m W ltac:(cbn; lia))) as (D & HD).
  { exact (tpl_linear m W). }
  { reflexivity. }
  exists (P_Pop6.tpl_p m), D. split; [exact (tpl_row_model m W ltac:(cbn; lia))|]. split; [exact HD|].
  assert (L0 : logistic 0 = / 2) by (unfold logistic; rewrite Ropp_0, exp_0; field).
  split; [|split].
  - unfold partial_is. cbn [upd nth]. apply (derivable_ext (fun x => 4 * logistic x)).
    + intro x. unfold on_answers. cbn [possible_rows seq flat_map map app rsum]. unfold likelihood. cbn -[P_Pop6.tpl_p logistic]. rewrite !Q by (cbn; lia). change (Pos.to_nat 1) with 1%nat. cbn [Nat.eqb]. ring.
    + replace 1 with (4 * (logistic 0 * (1 - logistic 0))) by (rewrite L0; field). apply derivable_pt_lim_scal, logistic_derivative.
  - intros grad solve HG. destruct (C97_two_parameter grad solve m [] false [[0]] 0 [0] W HG (or_introl eq_refl) ltac:(repeat constructor) eq_refl) as [_ H]. cbv zeta in H. eexists. split; [exact H|]. cbv beta. change (tpl_items m) with 2%nat.
    assert (E : forall i, (i < 2)%nat -> slope (tpl_free m) (tpl_w m) i 0 = 1) by (intros [|[|i]] Hi; [reflexivity|reflexivity|lia]).
    assert (EL : forall i, (i < 2)%nat -> logistic (predictor (tpl_lv m) (slope (tpl_free m) (tpl_w m) i) [0] + nth i (tpl_b m) 0) = / 2).
    { intros i Hi. rewrite <- L0. f_equal. unfold predictor. cbn [tpl_lv m sumn nth]. rewrite E by exact Hi. destruct i as [|[|i]]; [cbn; ring|cbn; ring|lia]. }
    cbn [sumn]. rewrite !E, !EL by lia. field.
  - unfold answers_variance, on_answers. cbn [possible_rows seq flat_map map app rsum]. unfold likelihood. cbn -[P_Pop6.tpl_p logistic]. rewrite !Q by (cbn; lia). change (Pos.to_nat 1) with 1%nat. cbn [Nat.eqb]. rewrite L0. field.
Qed.
