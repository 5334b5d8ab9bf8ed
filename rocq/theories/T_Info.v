(** Theorems: gradients and Fisher information of the fitted models. *)
From Verif Require Import Base BaseFacts RBase RFacts M_Logit S_Logit P_Logit P_Logit2 P_Logit3 P_Logit4 M_Lik P_Lik3 P_Lik5 M_Est M_Stat S_Stat P_Stat8 P_Spline4 M_Scale S_Scale P_Scale1 P_Scale2 P_Scale3 P_Scale4 P_Pop5 P_Pop6 M_Info S_Info P_Info1 P_Info2 P_Info3 P_Info4 P_Info5 T_Scale T_Stat.
Import List.
Local Open Scope R_scope.

(** ** C97 Gradients and information *)
(** Without attached scales (or with rescale=False) the gradients are the derivatives of the probabilities, one per
    row, item, category and latent variable. *)
Theorem C97_gradients : forall grad solve probs items M lv p scales rescale thetas r t D,
  reads lv items M probs p -> autograd_exact grad -> rescale = false \/ scales = [] -> Forall (fun t => length t = lv) thetas ->
  nth_error thetas r = Some t -> partials lv items M p t D ->
  exists gs g, probability_gradients grad solve probs items M lv scales rescale thetas = Ok gs /\ length gs = length thetas /\ nth_error gs r = Some g /\
    length g = items /\ forall i k d, (i < items)%nat -> (k < M)%nat -> (d < lv)%nat -> at3 g i k d = Some (D i k d).
Proof.
  intros grad solve probs items M lv p scales rescale thetas r t D HR HG HP HF Ht HD.
  assert (Lt : length t = lv) by (rewrite Forall_forall in HF; apply HF; eapply nth_error_In; eauto).
  exists (map (probability_gradient_at grad probs items M lv) thetas), (probability_gradient_at grad probs items M lv t).
  split; [now apply plain_gradients|]. split; [apply map_length|]. split; [now rewrite nth_error_map, Ht|]. rewrite (gradient_reads lv items M probs p grad t D HR HG Lt HD).
  split; [now rewrite map_length, seq_length|]. intros i k d Hi Hk Hd. unfold at3, at2. rewrite !nth_error_map, nth_error_seq by exact Hi. cbn [option_map Nat.add].
  rewrite !nth_error_map, nth_error_seq by exact Hk. cbn [option_map Nat.add]. now rewrite nth_error_map, nth_error_seq by exact Hd.
Qed.
Print Assumptions C97_gradients.
(** The gradients of the categories of an item cancel when the probabilities sum to one. *)
Theorem C97_gradients_cancel : forall lv items M p t D i d, partials lv items M p t D -> length t = lv ->
  (forall u, length u = lv -> sumn M (p u i) = 1) -> (i < items)%nat -> (d < lv)%nat -> sumn M (fun k => D i k d) = 0.
Proof.
  intros lv items M p t D i d HD Lt H1 Hi Hd.
  assert (A : derivable_pt_lim (fun x => sumn M (fun k => p (upd d x t) i k)) (nth d t 0) (sumn M (fun k => D i k d))).
  { apply derivable_sum. intros k Hk. now apply HD. }
  eapply uniqueness_limite; [exact A|]. apply (derivable_ext (fun _ => 1)); [|apply derivable_pt_lim_const].
  intro x. symmetry. apply H1. now rewrite upd_length.
Qed.
Print Assumptions C97_gradients_cancel.
(** Two parameter logistic: slopes times P (1 - P), for every pair of latent variables. *)
Theorem C97_two_parameter : forall grad solve m scales rescale thetas r t,
  tpl_wf m -> autograd_exact grad -> rescale = false \/ scales = [] -> Forall (fun t => length t = tpl_lv m) thetas -> nth_error thetas r = Some t ->
  let a := slope (tpl_free m) (tpl_w m) in
  let P := fun i => logistic (predictor (tpl_lv m) (a i) t + nth i (tpl_b m) 0) in
  let inform := model_information grad solve (tpl_probabilities m) (tpl_items m) 2 (tpl_lv m) scales rescale None in
  (forall i, (i < tpl_items m)%nat -> item_matrix_is (tpl_lv m) (inform true thetas) r i (fun d e => a i d * a i e * (P i * (1 - P i)))) /\
  test_matrix_is (tpl_lv m) (inform false thetas) r (fun d e => sumn (tpl_items m) (fun i => a i d * a i e * (P i * (1 - P i)))).
Proof.
  intros grad solve m scales rescale thetas r t Hwf HG HP HF Ht a P inform. pose (n := tpl_items m).
  assert (Hz : forall u i k d x, length u = tpl_lv m -> (i < length (repeat 2%nat n))%nat -> (k < nth i (repeat 2%nat n) O)%nat -> (d < tpl_lv m)%nat ->
    two_z (tpl_x m (upd d x u) i) k = two_z (tpl_x m u i) k + (if (k =? 0)%nat then 0 else a i d) * (x - nth d u 0)).
  { intros u i k d x Hu Hi Hk Hd. unfold tpl_x. rewrite predictor_upd by auto. rewrite <- two_affine. f_equal. unfold a. ring. }
  pose proof (soft_item grad solve (tpl_probabilities m) 2 (tpl_lv m) (repeat 2%nat n) (fun u i => two_z (tpl_x m u i)) (fun i k d => if (k =? 0)%nat then 0 else a i d)
    (tpl_reads m Hwf) HG scales rescale HP (twos_bounds n) Hz thetas HF r t Ht) as HI.
  pose proof (soft_test grad solve (tpl_probabilities m) 2 (tpl_lv m) (repeat 2%nat n) (fun u i => two_z (tpl_x m u i)) (fun i k d => if (k =? 0)%nat then 0 else a i d)
    (tpl_reads m Hwf) HG scales rescale HP (twos_bounds n) Hz thetas HF r t Ht) as HT.
  cbv beta in HI, HT. rewrite repeat_length in HI, HT. split.
  - intros i Hi. eapply matrix_ext; [apply HI; exact Hi|]. intros d e Hd He. now apply two_covariance.
  - eapply test_ext; [exact HT|]. intros d e Hd He. apply sumn_ext. intros i Hi. now apply two_covariance.
Qed.
Print Assumptions C97_two_parameter.
(** One parameter logistic: P (1 - P). *)
Theorem C97_one_parameter : forall grad solve m scales rescale thetas r x,
  length (opl_b m) = opl_items m -> autograd_exact grad -> rescale = false \/ scales = [] -> nth_error thetas r = Some x ->
  let P := fun i => logistic (x + nth i (opl_b m) 0) in
  let inform := fun item => model_information grad solve (fun rows => opl_probabilities m (map (fun t => nth 0 t 0) rows)) (opl_items m) 2 1 scales rescale None item (map (fun x => [x]) thetas) in
  (forall i, (i < opl_items m)%nat -> item_matrix_is 1 (inform true) r i (fun _ _ => P i * (1 - P i))) /\
  test_matrix_is 1 (inform false) r (fun _ _ => sumn (opl_items m) (fun i => P i * (1 - P i))).
Proof.
  intros grad solve m scales rescale thetas r x0 Hwf HG HP Ht P inform. pose (n := opl_items m).
  assert (HF : Forall (fun t => length t = 1%nat) (map (fun x : R => [x]) thetas)) by (apply Forall_forall; intros u Hu; apply in_map_iff in Hu as (y & <- & _); reflexivity).
  assert (Ht' : nth_error (map (fun x : R => [x]) thetas) r = Some [x0]) by (rewrite nth_error_map, Ht; reflexivity).
  assert (Hz : forall u i k d x, length u = 1%nat -> (i < length (repeat 2%nat n))%nat -> (k < nth i (repeat 2%nat n) O)%nat -> (d < 1)%nat ->
    two_z (nth 0 (upd d x u) 0 + nth i (opl_b m) 0) k = two_z (nth 0 u 0 + nth i (opl_b m) 0) k + (if (k =? 0)%nat then 0 else 1) * (x - nth d u 0)).
  { intros u i k d x Hu Hi Hk Hd. assert (d = O) by lia. subst d. destruct u as [|u0 [|? ?]]; try discriminate. cbn [upd nth]. rewrite <- two_affine. f_equal. ring. }
  pose proof (soft_item grad solve _ 2 1 (repeat 2%nat n) (fun u i => two_z (nth 0 u 0 + nth i (opl_b m) 0)) (fun i k d => if (k =? 0)%nat then 0 else 1)
    (opl_reads m Hwf) HG scales rescale HP (twos_bounds n) Hz _ HF r [x0] Ht') as HI.
  pose proof (soft_test grad solve _ 2 1 (repeat 2%nat n) (fun u i => two_z (nth 0 u 0 + nth i (opl_b m) 0)) (fun i k d => if (k =? 0)%nat then 0 else 1)
    (opl_reads m Hwf) HG scales rescale HP (twos_bounds n) Hz _ HF r [x0] Ht') as HT.
  cbv beta in HI, HT. rewrite repeat_length in HI, HT. split.
  - intros i Hi. eapply matrix_ext; [apply HI; exact Hi|]. intros d e Hd He. rewrite two_covariance by exact Hi. cbn [nth]. fold (P i). ring.
  - eapply test_ext; [exact HT|]. intros d e Hd He. apply sumn_ext. intros i Hi. rewrite two_covariance by exact Hi. cbn [nth]. fold (P i). ring.
Qed.
Print Assumptions C97_one_parameter.
(** Three parameter logistic, with guessing probability c. *)
Theorem C97_three_parameter : forall grad solve m scales rescale thetas r t,
  thpl_wf m -> autograd_exact grad -> rescale = false \/ scales = [] -> Forall (fun t => length t = thpl_lv m) thetas -> nth_error thetas r = Some t ->
  let a := slope (thpl_free m) (thpl_w m) in let c := fun i => logistic (nth i (thpl_g m) 0) in
  let P := fun i => c i + (1 - c i) * logistic (predictor (thpl_lv m) (a i) t + nth i (thpl_b m) 0) in
  let inform := model_information grad solve (fun thetas => some3 (thpl_probabilities m thetas)) (thpl_items m) 2 (thpl_lv m) scales rescale None in
  (forall i, (i < thpl_items m)%nat -> item_matrix_is (thpl_lv m) (inform true thetas) r i (fun d e => a i d * a i e * ((1 - P i) / P i * ((P i - c i) / (1 - c i)) ^ 2))) /\
  test_matrix_is (thpl_lv m) (inform false thetas) r (fun d e => sumn (thpl_items m) (fun i => a i d * a i e * ((1 - P i) / P i * ((P i - c i) / (1 - c i)) ^ 2))).
Proof.
  intros grad solve m scales rescale thetas r t Hwf HG HP HF Ht a c P inform.
  assert (Lt : length t = thpl_lv m) by (rewrite Forall_forall in HF; apply HF; eapply nth_error_In; eauto). split.
  - intros i Hi. eapply matrix_ext; [exact (plain_item grad solve _ _ 2 _ _ (thpl_reads m Hwf) HG scales rescale HP thetas HF r t Ht _ (thpl_partials m t Hwf Lt) (thpl_supported m t) i Hi)|].
    intros d e _ _. exact (thpl_fisher m t i d e).
  - eapply test_ext; [exact (plain_test grad solve _ _ 2 _ _ (thpl_reads m Hwf) HG scales rescale HP thetas HF r t Ht _ (thpl_partials m t Hwf Lt) (thpl_supported m t))|].
    intros d e _ _. apply sumn_ext. intros i Hi. exact (thpl_fisher m t i d e).
Qed.
Print Assumptions C97_three_parameter.
(** Generalized partial credit: slopes times the variance of the item score. *)
Theorem C97_gpc : forall grad solve m scales rescale thetas r t,
  poly_wf m -> autograd_exact grad -> rescale = false \/ scales = [] -> Forall (fun t => length t = p_lv m) thetas -> nth_error thetas r = Some t ->
  let a := slope (p_free m) (p_w m) in
  let q := fun i => category_probability (nth i (p_cats m) O) (fun k => INR k * predictor (p_lv m) (a i) t + intercept (p_cats m) (p_b m) i k) in
  let V := fun i => category_covariance (nth i (p_cats m) O) (q i) INR INR in
  let inform := model_information grad solve (gpc_probabilities m) (length (p_cats m)) (p_max m) (p_lv m) scales rescale None in
  (forall i, (i < length (p_cats m))%nat -> item_matrix_is (p_lv m) (inform true thetas) r i (fun d e => a i d * a i e * V i)) /\
  test_matrix_is (p_lv m) (inform false thetas) r (fun d e => sumn (length (p_cats m)) (fun i => a i d * a i e * V i)).
Proof.
  intros grad solve m scales rescale thetas r t Hwf HG HP HF Ht a q V inform. pose proof (proj1 (proj2 Hwf)) as HC. unfold V, q. split.
  - intros i Hi. eapply matrix_ext.
    + exact (soft_item grad solve (gpc_probabilities m) (p_max m) (p_lv m) (p_cats m) (gpc_z m) (fun i k d => INR k * a i d) (gpc_reads m Hwf) HG scales rescale HP
        (fun i Hi => cats_bounds (p_cats m) i HC Hi) (fun u i k d x Hu _ _ Hd => gpc_affine m u i k d x Hu Hd) thetas HF r t Ht i Hi).
    + intros d e Hd He. cbv beta. apply covariance_scaled.
  - eapply test_ext.
    + exact (soft_test grad solve (gpc_probabilities m) (p_max m) (p_lv m) (p_cats m) (gpc_z m) (fun i k d => INR k * a i d) (gpc_reads m Hwf) HG scales rescale HP
        (fun i Hi => cats_bounds (p_cats m) i HC Hi) (fun u i k d x Hu _ _ Hd => gpc_affine m u i k d x Hu Hd) thetas HF r t Ht).
    + intros d e Hd He. cbv beta. apply sumn_ext. intros i Hi. apply covariance_scaled.
Qed.
Print Assumptions C97_gpc.
(** Nominal response: the covariance of the slopes over the categories. *)
Theorem C97_nominal : forall grad solve m scales rescale thetas r t,
  nrm_wf m -> autograd_exact grad -> rescale = false \/ scales = [] -> Forall (fun t => length t = nrm_lv m) thetas -> nth_error thetas r = Some t ->
  let q := fun i => category_probability (nth i (nrm_cats m) O) (fun k => predictor (nrm_lv m) (nrm_slope m i k) t + nrm_intercept m i k) in
  let C := fun i d e => category_covariance (nth i (nrm_cats m) O) (q i) (fun k => nrm_slope m i k d) (fun k => nrm_slope m i k e) in
  let inform := model_information grad solve (nrm_probabilities m) (length (nrm_cats m)) (nrm_max m) (nrm_lv m) scales rescale None in
  (forall i, (i < length (nrm_cats m))%nat -> item_matrix_is (nrm_lv m) (inform true thetas) r i (C i)) /\
  test_matrix_is (nrm_lv m) (inform false thetas) r (fun d e => sumn (length (nrm_cats m)) (fun i => C i d e)).
Proof.
  intros grad solve m scales rescale thetas r t Hwf HG HP HF Ht q C inform. pose proof (proj1 (proj2 Hwf)) as HC. split.
  - intros i Hi. exact (soft_item grad solve (nrm_probabilities m) (nrm_max m) (nrm_lv m) (nrm_cats m) (nrm_z m) (fun i k d => nrm_slope m i k d) (nrm_reads m Hwf) HG scales rescale HP
        (fun i Hi => cats_bounds (nrm_cats m) i HC Hi) (fun u i k d x Hu _ _ Hd => nrm_affine m u i k d x Hu Hd) thetas HF r t Ht i Hi).
  - exact (soft_test grad solve (nrm_probabilities m) (nrm_max m) (nrm_lv m) (nrm_cats m) (nrm_z m) (fun i k d => nrm_slope m i k d) (nrm_reads m Hwf) HG scales rescale HP
        (fun i Hi => cats_bounds (nrm_cats m) i HC Hi) (fun u i k d x Hu _ _ Hd => nrm_affine m u i k d x Hu Hd) thetas HF r t Ht).
Qed.
Print Assumptions C97_nominal.
(** Graded response with decreasing intercepts, from the probabilities g of reaching each category. *)
Theorem C97_graded : forall grad solve m scales rescale thetas r t,
  poly_wf m -> ordered m -> autograd_exact grad -> rescale = false \/ scales = [] -> Forall (fun t => length t = p_lv m) thetas -> nth_error thetas r = Some t ->
  let a := slope (p_free m) (p_w m) in
  let g := fun i => geq_probability (nth i (p_cats m) O) (fun k => predictor (p_lv m) (a i) t + intercept (p_cats m) (p_b m) i k) in
  let V := fun i => sumn (nth i (p_cats m) O) (fun k => (g i k * (1 - g i k) - g i (S k) * (1 - g i (S k))) ^ 2 / (g i k - g i (S k))) in
  let inform := model_information grad solve (fun thetas => some3 (grm_probabilities m thetas)) (length (p_cats m)) (p_max m) (p_lv m) scales rescale None in
  (forall i, (i < length (p_cats m))%nat -> item_matrix_is (p_lv m) (inform true thetas) r i (fun d e => a i d * a i e * V i)) /\
  test_matrix_is (p_lv m) (inform false thetas) r (fun d e => sumn (length (p_cats m)) (fun i => a i d * a i e * V i)).
Proof.
  intros grad solve m scales rescale thetas r t Hwf HO HG HP HF Ht a g V inform.
  assert (Lt : length t = p_lv m) by (rewrite Forall_forall in HF; apply HF; eapply nth_error_In; eauto). split.
  - intros i Hi. eapply matrix_ext; [exact (plain_item grad solve _ _ (p_max m) _ _ (grm_reads m Hwf) HG scales rescale HP thetas HF r t Ht _ (grm_partials m t Lt) (grm_supported m t Hwf HO) i Hi)|].
    intros d e _ _. exact (grm_fisher m t i d e Hwf HO Hi).
  - eapply test_ext; [exact (plain_test grad solve _ _ (p_max m) _ _ (grm_reads m Hwf) HG scales rescale HP thetas HF r t Ht _ (grm_partials m t Lt) (grm_supported m t Hwf HO))|].
    intros d e _ _. apply sumn_ext. intros i Hi. exact (grm_fisher m t i d e Hwf HO Hi).
Qed.
Print Assumptions C97_graded.
(** One latent variable: a two parameter item has at most a quarter of the squared slope, reached exactly where both
    answers are equally likely. *)
Theorem C97_two_parameter_peak : forall grad solve m scales rescale thetas r t i,
  tpl_wf m -> tpl_lv m = 1%nat -> autograd_exact grad -> rescale = false \/ scales = [] -> Forall (fun t => length t = tpl_lv m) thetas -> nth_error thetas r = Some t ->
  (i < tpl_items m)%nat -> let a := slope (tpl_free m) (tpl_w m) i O in
  exists I, item_matrix_is 1 (model_information grad solve (tpl_probabilities m) (tpl_items m) 2 1 scales rescale None true thetas) r i (fun _ _ => I) /\
    0 <= I <= a ^ 2 / 4 /\ (a <> 0 -> 0 < I /\ (I = a ^ 2 / 4 <-> a * nth 0 t 0 + nth i (tpl_b m) 0 = 0)).
Proof.
  intros grad solve m scales rescale thetas r t i Hwf Hlv HG HP HF Ht Hi a.
  destruct (C97_two_parameter grad solve m scales rescale thetas r t Hwf HG HP HF Ht) as [H _]. specialize (H i Hi). cbv zeta in H. rewrite Hlv in H.
  set (x := predictor 1 (slope (tpl_free m) (tpl_w m) i) t + nth i (tpl_b m) 0) in *.
  assert (Lt : length t = 1%nat) by (rewrite <- Hlv; rewrite Forall_forall in HF; apply HF; eapply nth_error_In; eauto).
  assert (Ex : x = a * nth 0 t 0 + nth i (tpl_b m) 0) by (unfold x, predictor, a; rewrite sumn_S_first; cbn [sumn]; ring).
  exists (a * a * (logistic x * (1 - logistic x))). split.
  - eapply matrix_ext; [exact H|]. intros d e Hd He. assert (d = O) by lia. assert (e = O) by lia. subst. reflexivity.
  - destruct (logistic_product x) as [Q1 Q2]. pose proof (logistic_bounds x) as L. set (w := logistic x * (1 - logistic x)) in *.
    assert (W : 0 < w) by (unfold w; apply Rmult_lt_0_compat; lra). assert (A0 : 0 <= a * a) by apply Rle_0_sqr. split; [split; nra|]. intro Ha.
    assert (A : 0 < a * a) by (destruct (Rle_lt_or_eq_dec _ _ A0) as [A|A]; [exact A|symmetry in A; apply Rmult_integral in A; tauto]).
    split; [nra|]. rewrite <- Ex, <- Q2. split; intro E; nra.
Qed.
Print Assumptions C97_two_parameter_peak.
(** Guessing takes information away: at the same slope, intercept and scores, a three parameter item gives less
    than a two parameter item for every latent variable it measures. *)
Theorem C97_guessing : forall grad solve m scales rescale thetas r t i d,
  thpl_wf m -> autograd_exact grad -> rescale = false \/ scales = [] -> Forall (fun t => length t = thpl_lv m) thetas -> nth_error thetas r = Some t ->
  (i < thpl_items m)%nat -> (d < thpl_lv m)%nat -> slope (thpl_free m) (thpl_w m) i d <> 0 ->
  let m2 := {| tpl_lv := thpl_lv m; tpl_free := thpl_free m; tpl_w := thpl_w m; tpl_b := thpl_b m |} in
  exists I3 I2, item_matrix_is (thpl_lv m) (model_information grad solve (fun thetas => some3 (thpl_probabilities m thetas)) (thpl_items m) 2 (thpl_lv m) scales rescale None true thetas) r i I3 /\
    item_matrix_is (thpl_lv m) (model_information grad solve (tpl_probabilities m2) (tpl_items m2) 2 (tpl_lv m2) scales rescale None true thetas) r i I2 /\
    0 < I3 d d < I2 d d.
Proof.
  intros grad solve m scales rescale thetas r t i d Hwf HG HP HF Ht Hi Hd Ha m2.
  assert (W2 : tpl_wf m2) by (destruct Hwf as (W1 & W2 & W3 & W4 & _); unfold tpl_wf; cbn; repeat split; assumption).
  destruct (C97_three_parameter grad solve m scales rescale thetas r t Hwf HG HP HF Ht) as [H3 _]. destruct (C97_two_parameter grad solve m2 scales rescale thetas r t W2 HG HP HF Ht) as [H2 _].
  specialize (H3 i Hi). specialize (H2 i Hi). cbv zeta in H3, H2. eexists. eexists. split; [exact H3|]. split; [exact H2|]. cbn [tpl_lv tpl_free tpl_w tpl_b m2].
  cbv beta. set (l := logistic (predictor (thpl_lv m) (slope (thpl_free m) (thpl_w m) i) t + nth i (thpl_b m) 0)). set (c := logistic (nth i (thpl_g m) 0)). set (a := slope (thpl_free m) (thpl_w m) i d) in *.
  pose proof (logistic_bounds (predictor (thpl_lv m) (slope (thpl_free m) (thpl_w m) i) t + nth i (thpl_b m) 0)) as L. fold l in L.
  pose proof (logistic_bounds (nth i (thpl_g m) 0)) as C. fold c in C. pose proof (guessing_loss c l C L) as G. cbv zeta in G. set (P := c + (1 - c) * l) in *.
  assert (A : 0 < a * a) by (apply Rsqr_pos_lt; exact Ha).
  assert (P0 : 0 < P < 1) by (unfold P; split; nra). assert (E : (P - c) / (1 - c) = l) by (unfold P; field; lra).
  assert (X : 0 < (1 - P) / P * ((P - c) / (1 - c)) ^ 2) by (rewrite E; apply Rmult_lt_0_compat; [apply Rdiv_lt_0_compat; lra|apply pow_lt; lra]).
  split; [now apply Rmult_lt_0_compat|]. apply Rmult_lt_compat_l; assumption.
Qed.
Print Assumptions C97_guessing.
(** A partial credit item of K categories gives at most slope squared times (K - 1)^2 / 4. *)
Theorem C97_gpc_bound : forall grad solve m scales rescale thetas r t i d,
  poly_wf m -> autograd_exact grad -> rescale = false \/ scales = [] -> Forall (fun t => length t = p_lv m) thetas -> nth_error thetas r = Some t ->
  (i < length (p_cats m))%nat -> (d < p_lv m)%nat ->
  exists I, item_matrix_is (p_lv m) (model_information grad solve (gpc_probabilities m) (length (p_cats m)) (p_max m) (p_lv m) scales rescale None true thetas) r i I /\
    0 <= I d d <= (slope (p_free m) (p_w m) i d * (INR (nth i (p_cats m) O) - 1)) ^ 2 / 4.
Proof.
  intros grad solve m scales rescale thetas r t i d Hwf HG HP HF Ht Hi Hd.
  destruct (C97_gpc grad solve m scales rescale thetas r t Hwf HG HP HF Ht) as [H _]. specialize (H i Hi). cbv zeta in H. eexists. split; [exact H|].
  destruct (cats_bounds (p_cats m) i (proj1 (proj2 Hwf)) Hi) as [HK _]. set (z := fun k => _). set (K := nth i (p_cats m) O) in *. set (a := slope _ _ i d).
  assert (Pos : forall k, (k < K)%nat -> 0 <= category_probability K z k) by (intros; left; apply category_probability_pos; exact HK).
  pose proof (score_variance_bound K (category_probability K z) HK (category_probability_sum K z HK) Pos) as B.
  assert (V0 : 0 <= category_covariance K (category_probability K z) INR INR).
  { apply sumn_nonneg. intros k Hk. rewrite Rmult_assoc. apply Rmult_le_pos; [now apply Pos|apply Rle_0_sqr]. }
  assert (A0 : 0 <= a * a) by apply Rle_0_sqr. split; [now apply Rmult_le_pos|]. rewrite Rpow_mult_distr. nra.
Qed.
Print Assumptions C97_gpc_bound.
(** In a direction given by angles, the two parameter model has P (1 - P) times the squared slope along it. *)
Theorem C97_two_parameter_direction : forall grad solve m scales rescale ds thetas r t,
  tpl_wf m -> (1 < tpl_lv m)%nat -> length ds = tpl_lv m -> autograd_exact grad -> rescale = false \/ scales = [] -> Forall (fun t => length t = tpl_lv m) thetas -> nth_error thetas r = Some t ->
  let a := slope (tpl_free m) (tpl_w m) in
  let P := fun i => logistic (predictor (tpl_lv m) (a i) t + nth i (tpl_b m) 0) in
  let I := fun i => P i * (1 - P i) * (sumn (tpl_lv m) (fun d => a i d * cos (nth d ds 0 * PI / 180))) ^ 2 in
  exists infos xs, model_information grad solve (tpl_probabilities m) (tpl_items m) 2 (tpl_lv m) scales rescale (Some ds) true thetas = Ok infos /\
    nth_error infos r = Some (Numbers xs) /\ forall i, (i < tpl_items m)%nat -> nth_error xs i = Some (Some (Fin (I i))).
Proof.
  intros grad solve m scales rescale ds thetas r t Hwf Hlv HL HG HP HF Ht a P I. set (n := tpl_items m). set (lv := tpl_lv m) in *.
  set (z := fun u i => two_z (tpl_x m u i)). set (s := fun i k d => if (k =? 0)%nat then 0 else a i d).
  assert (Hz : forall u i k d x, length u = lv -> (i < length (repeat 2%nat n))%nat -> (k < nth i (repeat 2%nat n) O)%nat -> (d < lv)%nat -> z (upd d x u) i k = z u i k + s i k d * (x - nth d u 0)).
  { intros u i k d x Hu Hi Hk Hd. unfold z, s, tpl_x. rewrite predictor_upd by auto. rewrite <- two_affine. f_equal. unfold a. ring. }
  assert (Lt : length t = lv) by (rewrite Forall_forall in HF; apply HF; eapply nth_error_In; eauto).
  pose proof (soft_partials 2 lv (repeat 2%nat n) z s (twos_bounds n) Hz thetas HF r t Ht) as HD. pose proof (soft_supported 2 lv (repeat 2%nat n) z s (twos_bounds n) t) as HS.
  pose proof (fun i d e => soft_fisher 2 (repeat 2%nat n) z s (twos_bounds n) t i d e) as HFi.
  set (D := fun i k d => if (k <? nth i (repeat 2%nat n) O)%nat then _ else 0) in HD, HS. cbv beta in HFi.
  pose proof (tpl_reads m Hwf) as HR. fold n lv z in HR. rewrite repeat_length in HR, HD, HS.
  set (pr := map (fun i => map (fun k => soft (repeat 2%nat n) z t i k) (seq 0 2)) (seq 0 n)). set (gr := map (fun i => map (fun k => map (D i k) (seq 0 lv)) (seq 0 2)) (seq 0 n)).
  assert (AR : all_regular pr gr) by (apply all_regular_table; exact HS).
  destruct (C51_direction lv ds pr gr Hlv HL AR) as (E & _ & _). cbv zeta in E.
  assert (EG : nth_error (map (probability_gradient_at grad (tpl_probabilities m) n 2 lv) thetas) r = Some gr).
  { rewrite nth_error_map, Ht. cbn [option_map]. f_equal. now apply (gradient_reads lv n 2 _ _ grad t D HR). }
  unfold model_information. rewrite HL, Nat.eqb_refl. cbn [negb]. rewrite (plain_gradients _ _ _ _ _ _ _ _ _ HP). cbn [bind]. fold n lv.
  set (cs := map (fun d => cos (d * PI / 180)) ds).
  rewrite (mapM_total _ (fun '(r, gr) => Numbers (map (direction_information cs) (zip_with (item_information lv) (slice n 2 (tpl_probabilities m thetas) r) gr)))).
  2:{ intros [r' g'] _. unfold information. rewrite HL, Nat.eqb_refl. cbn [negb]. destruct (Nat.ltb_spec 1 lv); [reflexivity|lia]. }
  eexists. eexists. split; [reflexivity|].
  assert (Hr : (r < length thetas)%nat) by (apply nth_error_Some; congruence). rewrite nth_error_map.
  rewrite (nth_error_combine_some (seq 0 (length thetas)) (map (probability_gradient_at grad (tpl_probabilities m) n 2 lv) thetas) r r gr); [|now rewrite nth_error_seq by exact Hr|exact EG].
  cbn [option_map]. rewrite (slice_reads lv n 2 _ _ thetas r t HR HF Ht). fold pr.
  unfold information in E. rewrite HL, Nat.eqb_refl in E. cbn [negb] in E. destruct (Nat.ltb_spec 1 lv); [|lia]. fold cs in E.
  assert (EN : map (direction_information cs) (zip_with (item_information lv) pr gr) = zip_with (fun p g => Some (Fin (quadratic_form lv (item_info p g) (fun i => cos (nth i ds 0 * PI / 180))))) pr gr) by congruence.
  rewrite EN. split; [reflexivity|]. clear E EN EG AR.
  intros i Hi. unfold pr, gr. rewrite nth_error_zip_with, !nth_error_map, nth_error_seq by exact Hi. cbn [option_map Nat.add]. do 3 f_equal.
  unfold quadratic_form, I. rewrite <- (Rmult_1_r (P i * (1 - P i) * _)). 
  replace (P i * (1 - P i) * sumn lv (fun d => a i d * cos (nth d ds 0 * PI / 180)) ^ 2 * 1) with (P i * (1 - P i) * (sumn lv (fun d => a i d * cos (nth d ds 0 * PI / 180)) * sumn lv (fun d => a i d * cos (nth d ds 0 * PI / 180)))) by ring.
  rewrite sumn_mul, <- sumn_scal. apply sumn_ext. intros d Hd. rewrite <- sumn_scal. apply sumn_ext. intros e He.
  rewrite item_info_table by assumption.
  assert (EF : sumn 2 (fun k => if Req_EM_T (soft (repeat 2%nat n) z t i k) 0 then 0 else D i k d * D i k e / soft (repeat 2%nat n) z t i k) = a i d * a i e * (P i * (1 - P i))).
  { etransitivity; [apply (HFi i d e); rewrite repeat_length; exact Hi|]. now apply (two_covariance n i (tpl_x m t i) (a i d) (a i e)). }
  rewrite EF. ring.
Qed.
Print Assumptions C97_two_parameter_direction.
(** The number of angles must be the number of latent variables, whatever the scores. *)
Theorem C97_angles : forall grad solve probs items M lv scales rescale ds item thetas, length ds <> lv ->
  model_information grad solve probs items M lv scales rescale (Some ds) item thetas = Err ValueError.
Proof. intros grad solve probs items M lv scales rescale ds item thetas H. unfold model_information. destruct (Nat.eqb_spec (length ds) lv); [contradiction|reflexivity]. Qed.
Print Assumptions C97_angles.
(** Attached scales with invertible derivative J: the information matrix of the transformed scores and the one of the
    original scores determine each other, I = J^T I' J and I' = B^T I B with B the inverse of J. *)
Theorem C97_rescaled : forall grad solve probs items M lv p scales fs thetas r t D i,
  reads lv items M probs p -> autograd_exact grad -> scales <> [] -> (0 < lv)%nat -> (0 < M)%nat -> (0 < items)%nat ->
  solve_exact lv solve -> Forall2 (acts_as lv) scales fs -> Forall (fun t => length t = lv) thetas -> derivatives_along lv scales fs thetas ->
  (forall t J, In t thetas -> is_jacobian lv lv (compose_all fs) t J -> exists B, inverse_matrix lv J B) ->
  nth_error thetas r = Some t -> partials lv items M p t D -> supported lv items M p t D -> (i < items)%nat ->
  exists J B I I', is_jacobian lv lv (compose_all fs) t J /\ inverse_matrix lv J B /\
    item_matrix_is lv (model_information grad solve probs items M lv scales false None true thetas) r i I /\
    item_matrix_is lv (model_information grad solve probs items M lv scales true None true thetas) r i I' /\
    (forall d e, (d < lv)%nat -> (e < lv)%nat -> I d e = sumn lv (fun a => sumn lv (fun b => nth d (nth a J []) 0 * I' a b * nth e (nth b J []) 0))) /\
    (forall a b, (a < lv)%nat -> (b < lv)%nat -> I' a b = sumn lv (fun d => sumn lv (fun e => nth a (nth d B []) 0 * I d e * nth b (nth e B []) 0))).
Proof.
  intros grad solve probs items M lv p scales fs thetas r t D i HR HG Hne Hlv HM HI HSo HA HF HD Hinv Ht HP HS Hi.
  exact (scaled_item grad solve probs items M lv p HR HG scales fs Hne Hlv HM HI HSo HA thetas HF HD Hinv r t Ht D HP HS i Hi).
Qed.
Print Assumptions C97_rescaled.
(** One latent variable: the information is divided by the squared derivative of the scale. *)
Theorem C97_rescaled_one : forall grad solve probs items M p scales fs thetas r t D i,
  reads 1 items M probs p -> autograd_exact grad -> scales <> [] -> (0 < M)%nat ->
  solve_exact 1 solve -> Forall2 (acts_as 1) scales fs -> Forall (fun t => length t = 1%nat) thetas -> derivatives_along 1 scales fs thetas ->
  (forall t f, In t thetas -> is_jacobian 1 1 (compose_all fs) t [[f]] -> f <> 0) ->
  nth_error thetas r = Some t -> partials 1 items M p t D -> supported 1 items M p t D -> (i < items)%nat ->
  exists f I, is_jacobian 1 1 (compose_all fs) t [[f]] /\ f <> 0 /\
    item_matrix_is 1 (model_information grad solve probs items M 1 scales false None true thetas) r i (fun _ _ => I) /\
    item_matrix_is 1 (model_information grad solve probs items M 1 scales true None true thetas) r i (fun _ _ => I / f ^ 2).
Proof.
  intros grad solve probs items M p scales fs thetas r t D i HR HG Hne HM HSo HA HF HD Hinv Ht HP HS Hi.
  assert (Shape : forall J, is_matrix 1 1 J -> exists f, J = [[f]]).
  { intros J [L F]. destruct J as [|row [|? ?]]; try discriminate. inversion F as [|? ? Lr _]; subst. destruct row as [|f [|? ?]]; try discriminate. now exists f. }
  destruct (C97_rescaled grad solve probs items M 1 p scales fs thetas r t D i HR HG Hne ltac:(lia) HM ltac:(lia) HSo HA HF HD) as (J & B & I & I' & HJ & HB & H1 & H2 & H3 & _); auto.
  { intros u J Hu HJ. destruct (Shape J (proj1 (proj2 HJ))) as (f & ->). pose proof (Hinv u f Hu HJ) as Hf. exists [[/ f]].
    split; [split; [reflexivity|repeat constructor]|]. split; [split; [reflexivity|repeat constructor]|].
    split; intros x y Hx Hy; assert (x = O) by lia; assert (y = O) by lia; subst; cbn; field; exact Hf. }
  destruct (Shape J (proj1 (proj2 HJ))) as (f & ->). assert (Hf : f <> 0) by (apply (Hinv t f); [eapply nth_error_In; eauto|exact HJ]).
  exists f, (I O O). split; [exact HJ|]. split; [exact Hf|]. specialize (H3 O O ltac:(lia) ltac:(lia)). cbn in H3. split.
  - eapply matrix_ext; [exact H1|]. intros d e Hd He. assert (d = O) by lia. assert (e = O) by lia. now subst.
  - eapply matrix_ext; [exact H2|]. intros d e Hd He. assert (d = O) by lia. assert (e = O) by lia. subst. rewrite H3. field. exact Hf.
Qed.
Print Assumptions C97_rescaled_one.
(** Reversing latent variables changes the sign of the entries between a reversed and an unreversed variable and
    leaves every other entry. *)
Theorem C97_reversed : forall grad solve probs items M p flags thetas r t D i,
  reads (length flags) items M probs p -> autograd_exact grad -> (0 < M)%nat -> flags <> [] ->
  solve_exact (length flags) solve -> Forall (fun t => length t = length flags) thetas ->
  nth_error thetas r = Some t -> partials (length flags) items M p t D -> supported (length flags) items M p t D -> (i < items)%nat ->
  exists I, item_matrix_is (length flags) (model_information grad solve probs items M (length flags) [reverse_scale flags] false None true thetas) r i I /\
    item_matrix_is (length flags) (model_information grad solve probs items M (length flags) [reverse_scale flags] true None true thetas) r i
      (fun d e => if Bool.eqb (nth d flags false) (nth e flags false) then I d e else - I d e).
Proof.
  intros grad solve probs items M p flags thetas r t D i HR HG HM Hne HSo HF Ht HP HS Hi. set (n := length flags) in *.
  assert (Hn : (0 < n)%nat) by (unfold n; destruct flags; [congruence|cbn; lia]).
  assert (Diag : forall u J, length u = n -> is_jacobian n n (compose_all [reverse_row flags]) u J ->
    forall a b, (a < n)%nat -> (b < n)%nat -> nth b (nth a J []) 0 = if (a =? b)%nat then (if nth a flags false then -1 else 1) else 0).
  { intros u J Hu HJ. destruct (C38_reverse_jacobian flags [u] ltac:(constructor; [exact Hu|constructor])) as (js & _ & F).
    inversion F as [|? J' ? ? [HJ' HE] _]; subst. rewrite (C37_unique n _ _ _ _ HJ HJ'). exact HE. }
  destruct (C97_rescaled grad solve probs items M n p [reverse_scale flags] [reverse_row flags] thetas r t D i HR HG ltac:(discriminate) Hn HM ltac:(lia) HSo) as (J & B & I & I' & HJ & HB & H1 & H2 & H3 & _); auto.
  { constructor; [now apply reverse_acts|constructor]. }
  { apply reports_along; [constructor; [now apply reverse_acts|constructor]|constructor; [now apply reverse_derivative|constructor]|exact HF]. }
  { intros u J Hu HJ. assert (Lu : length u = n) by (rewrite Forall_forall in HF; now apply HF). exists J. pose proof (proj1 (proj2 HJ)) as MJ. pose proof (Diag u J Lu HJ) as DJ.
    assert (X : forall a b, (a < n)%nat -> (b < n)%nat -> sumn n (fun k => nth k (nth a J []) 0 * nth b (nth k J []) 0) = if (a =? b)%nat then 1 else 0).
    { intros a b Ha Hb. rewrite (sumn_single n a); [|exact Ha|intros k Hk Nk; rewrite (DJ a k Ha Hk); destruct (Nat.eqb_spec a k); [congruence|ring]].
      rewrite !DJ by assumption. rewrite Nat.eqb_refl. destruct (a =? b)%nat; destruct (nth a flags false); ring. }
    split; [exact MJ|]. split; [exact MJ|]. split; exact X. }
  assert (Lt : length t = n) by (rewrite Forall_forall in HF; apply HF; eapply nth_error_In; eauto). pose proof (Diag t J Lt HJ) as DJ.
  exists I. split; [exact H1|]. eapply matrix_ext; [exact H2|]. intros d e Hd He. rewrite (H3 d e Hd He).
  rewrite (sumn_single n d); [|exact Hd|intros k Hk Nk; rewrite (sumn_ext n _ (fun _ => 0)); [apply sumn_0|]; intros b Hb; rewrite (DJ k d Hk Hd); destruct (Nat.eqb_spec k d); [congruence|ring]].
  rewrite (sumn_single n e); [|exact He|intros k Hk Nk; rewrite (DJ k e Hk He); destruct (Nat.eqb_spec k e); [congruence|ring]].
  rewrite !DJ, !Nat.eqb_refl by assumption. destruct (nth d flags false), (nth e flags false); cbn [Bool.eqb]; ring.
Qed.
Print Assumptions C97_reversed.
(** A two-dimensional model with a negative slope, and one respondent: the information of the second item. *)
Definition ex_info : tpl := {| tpl_lv := 2; tpl_free := [[true; false]; [true; true]]; tpl_w := [1; 2; -1]; tpl_b := [0; 1] |}.
Definition ex_graded : poly := {| p_cats := [3%nat]; p_lv := 1; p_free := [[true]]; p_w := [1]; p_b := [1; 0] |}.
Example C97_nonvacuous : tpl_wf ex_info /\ poly_wf ex_graded /\ ordered ex_graded /\
  exists grad, autograd_exact grad /\
    item_matrix_is 2 (model_information grad (fun _ _ => Err RuntimeError) (tpl_probabilities ex_info) 2 2 2 [] true None true [[0; 0]; [0; 1]]) 1 1
      (fun d e => nth d [2; -1] 0 * nth e [2; -1] 0 * / 4).
Proof.
  assert (W : tpl_wf ex_info) by (unfold tpl_wf; cbn; repeat split; auto; repeat constructor).
  split; [exact W|]. split; [unfold poly_wf; cbn; repeat split; auto; repeat constructor|].
  split; [intros [|i] [|[|k]] Hi H1 H2; cbn in *; try lia; lra|].
  destruct autograd_exists as (grad & HG). exists grad. split; [exact HG|].
  destruct (C97_two_parameter grad (fun _ _ => Err RuntimeError) ex_info [] true [[0; 0]; [0; 1]] 1 [0; 1] W HG (or_intror eq_refl) ltac:(repeat constructor) eq_refl) as [H _].
  eapply matrix_ext; [apply (H 1%nat); cbn; lia|]. intros d e Hd He. cbv zeta.
  assert (Z : predictor (tpl_lv ex_info) (slope (tpl_free ex_info) (tpl_w ex_info) 1) [0; 1] + nth 1 (tpl_b ex_info) 0 = 0) by (unfold predictor, slope; cbn; ring).
  rewrite Z. unfold logistic. rewrite Ropp_0, exp_0.
  assert (S : forall k, (k < 2)%nat -> slope (tpl_free ex_info) (tpl_w ex_info) 1 k = nth k [2; -1] 0) by (intros [|[|k]] Hk; [reflexivity..|lia]).
  rewrite !S by assumption. field.
Qed.
(** The information of a one-dimensional item on a reversed scale. *)
Example C97_reversed_nonvacuous : exists grad I, autograd_exact grad /\ 0 < I /\
  item_matrix_is 1 (model_information grad ex_solve (fun rows => opl_probabilities {| opl_items := 1; opl_b := [0] |} (map (fun t => nth 0 t 0) rows)) 1 2 1 [reverse_scale [true]] true None true [[0]]) 0 0 (fun _ _ => I).
Proof.
  destruct autograd_exists as (grad & HG). exists grad, (/ 4). split; [exact HG|]. split; [lra|].
  set (m := {| opl_items := 1; opl_b := [0] |}). pose proof (opl_reads m eq_refl) as HR. cbn [length repeat opl_items m] in HR. fold m in HR.
  set (z := fun t i => two_z (nth 0 t 0 + nth i (opl_b m) 0)) in HR.
  assert (Hz : forall u i k d x, length u = 1%nat -> (i < length [2%nat])%nat -> (k < nth i [2%nat] O)%nat -> (d < 1)%nat -> z (upd d x u) i k = z u i k + (if (k =? 0)%nat then 0 else 1) * (x - nth d u 0)).
  { intros u i k d x Hu Hi Hk Hd. assert (d = O) by lia. subst d. destruct u as [|u0 [|? ?]]; try discriminate. unfold z. cbn [upd nth]. rewrite <- two_affine. f_equal. ring. }
  assert (HF : Forall (fun t => length t = 1%nat) [[0]]) by repeat constructor.
  pose proof (soft_partials 2 1 [2%nat] z (fun i k d => if (k =? 0)%nat then 0 else 1) (twos_bounds 1) Hz [[0]] HF 0 [0] eq_refl) as HD.
  pose proof (soft_supported 2 1 [2%nat] z (fun i k d => if (k =? 0)%nat then 0 else 1) (twos_bounds 1) [0]) as HS. cbv zeta in HD, HS.
  destruct (C97_reversed grad ex_solve _ 1 2 _ [true] [[0]] 0 [0] _ 0 HR HG ltac:(lia) ltac:(discriminate) ex_solve_exact HF eq_refl HD HS ltac:(lia)) as (I & H1 & H2).
  destruct (C97_one_parameter grad ex_solve m [reverse_scale [true]] false [0] 0 0 eq_refl HG (or_introl eq_refl) eq_refl) as [H0 _]. specialize (H0 O ltac:(cbn; lia)). cbv zeta in H0.
  destruct H0 as (i0 & M0 & N0 & A1 & A2 & A3 & A4). destruct H1 as (i1 & M1 & N1 & B1 & B2 & B3 & B4). cbn [map opl_items m] in A1. fold m in A1. cbn [length] in B1. rewrite A1 in B1.
  assert (i1 = i0) by congruence. subst i1. assert (M1 = M0) by congruence. subst M1. assert (N1 = N0) by congruence. subst N1.
  assert (EI : I O O = / 4).
  { specialize (A4 O O ltac:(lia) ltac:(lia)). specialize (B4 O O ltac:(cbn; lia) ltac:(cbn; lia)). unfold entry in A4, B4. rewrite A4 in B4.
    assert (L0 : logistic (0 + nth 0 (opl_b m) 0) = / 2) by (cbn [m opl_b nth]; unfold logistic; replace (- (0 + 0)) with 0 by ring; rewrite exp_0; lra). rewrite L0 in B4. injection B4 as B4. lra. }
  eapply matrix_ext; [exact H2|]. intros d e Hd He. cbn [length] in Hd, He. assert (d = O) by lia. assert (e = O) by lia. subst. cbn [nth Bool.eqb]. exact EI.
Qed.
