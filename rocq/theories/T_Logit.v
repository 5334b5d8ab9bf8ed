(** Property theorems C13-C19 and C25 (parametric item response models). *)
From Verif Require Import Base BaseFacts RBase RFacts M_Logit S_Logit P_Logit P_Logit2 P_Logit3 P_Logit4.
Local Open Scope R_scope.

(** ** C13: the category probabilities of each item are a distribution on the item's categories. *)
Theorem C13_softmax_distribution : forall items M out r row i K z,
  Forall (fun o => length o = (items * M)%nat) out ->
  nth_error out r = Some row -> (i < items)%nat -> (1 <= K <= M)%nat ->
  (forall k, (k < M)%nat -> nth_error row (i * M + k) = Some (if (k <? K)%nat then Fin (z k) else NInf)) ->
  exists p, (forall k, (k < M)%nat -> at3 (probabilities_from_output items M out) r i k = Some (Some (p k))) /\
    valid_distribution K M p.
Proof.
  intros items M out r row i K z HF Hr Hi HK H.
  exists (fun k => if (k <? K)%nat then category_probability K z k else 0). split.
  - intros k Hk. apply (probabilities_pattern items M out r row i K z); auto. lia.
  - now apply valid_category_distribution.
Qed.
Print Assumptions C13_softmax_distribution.

Theorem C13_gpc : forall m thetas r t i K,
  poly_wf m -> Forall (fun t => length t = p_lv m) thetas -> nth_error thetas r = Some t ->
  nth_error (p_cats m) i = Some K ->
  exists p, (forall k, (k < p_max m)%nat -> at3 (gpc_probabilities m thetas) r i k = Some (Some (p k))) /\
    valid_distribution K (p_max m) p.
Proof.
  intros m thetas r t i K Hwf HF Hr Hi. eexists. split.
  - intros k Hk. now apply (gpc_probs_spec m thetas r t i K k).
  - apply valid_category_distribution. destruct Hwf as (_ & Hc & _). now destruct (cats_pos_bound _ _ _ Hc Hi).
Qed.
Print Assumptions C13_gpc.

Theorem C13_nrm : forall m thetas r t i K,
  nrm_wf m -> Forall (fun t => length t = nrm_lv m) thetas -> nth_error thetas r = Some t ->
  nth_error (nrm_cats m) i = Some K ->
  exists p, (forall k, (k < nrm_max m)%nat -> at3 (nrm_probabilities m thetas) r i k = Some (Some (p k))) /\
    valid_distribution K (nrm_max m) p.
Proof.
  intros m thetas r t i K Hwf HF Hr Hi. eexists. split.
  - intros k Hk. now apply (nrm_probs_spec m Hwf thetas r t i K k).
  - apply valid_category_distribution. destruct Hwf as (_ & Hc & _). now destruct (cats_pos_bound _ _ _ Hc Hi).
Qed.
Print Assumptions C13_nrm.

Lemma two_distribution x : valid_distribution 2 2 (fun k => if (k =? 1)%nat then logistic x else 1 - logistic x).
Proof.
  pose proof (logistic_bounds x). repeat split.
  - intros k _. destruct (k =? 1)%nat; lra.
  - cbn. ring.
  - intros k _. destruct (k =? 1)%nat; lra.
  - intros; lia.
Qed.
Theorem C13_binary : forall m thetas r t i,
  tpl_wf m -> Forall (fun t => length t = tpl_lv m) thetas -> nth_error thetas r = Some t -> (i < tpl_items m)%nat ->
  exists p, (forall k, (k < 2)%nat -> at3 (tpl_probabilities m thetas) r i k = Some (Some (p k))) /\
    valid_distribution 2 2 p.
Proof.
  intros m thetas r t i Hwf HF Hr Hi. eexists. split; [|apply two_distribution].
  intros k Hk. now apply (tpl_probs_spec m thetas r t i k).
Qed.
Print Assumptions C13_binary.
(** The hypotheses are met by a freshly constructed model of two items with 3 and 2 categories. *)
Example C13_nonvacuous : exists m, gpc_init [3;2]%nat 2 None = Ok m /\ poly_wf m /\
  exists p, (forall k, (k < 3)%nat -> at3 (gpc_probabilities m [[1;2];[-1;0]]) 1 1 k = Some (Some (p k))) /\
    valid_distribution 2 3 p.
Proof.
  eexists; split; [reflexivity|].
  assert (W : poly_wf {| p_cats := [3;2]%nat; p_lv := 2; p_free := repeat (repeat true 2) 2;
     p_w := repeat 1 (ctrue (concat (repeat (repeat true 2) 2))); p_b := repeat 0 (list_sum [3;2]%nat - length [3;2]%nat) |}).
  { eapply gpc_init_wf with (cats := [3;2]%nat) (lv := 2%nat) (rel := None); [lia|repeat constructor|reflexivity]. }
  split; [exact W|]. exact (C13_gpc _ [[1;2];[-1;0]] 1%nat [-1;0] 1%nat 2%nat W ltac:(repeat constructor) eq_refl eq_refl).
Qed.

(** ** C14 *)
Theorem C14_opl : forall m thetas r t i,
  length (opl_b m) = opl_items m -> nth_error thetas r = Some t -> (i < opl_items m)%nat ->
  at3 (opl_probabilities m thetas) r i 1 = Some (Some (logistic (t + nth i (opl_b m) 0))) /\
  at3 (opl_probabilities m thetas) r i 0 = Some (Some (1 - logistic (t + nth i (opl_b m) 0))).
Proof.
  intros m thetas r t i Hb Hr Hi.
  split; [exact (opl_probs_spec m thetas r t i 1 Hb Hr Hi ltac:(lia))|exact (opl_probs_spec m thetas r t i 0 Hb Hr Hi ltac:(lia))].
Qed.
Print Assumptions C14_opl.
Theorem C14_opl_increasing : forall m thetas r r' t t' i p p',
  length (opl_b m) = opl_items m -> nth_error thetas r = Some t -> nth_error thetas r' = Some t' ->
  (i < opl_items m)%nat -> t < t' ->
  at3 (opl_probabilities m thetas) r i 1 = Some (Some p) -> at3 (opl_probabilities m thetas) r' i 1 = Some (Some p') ->
  p < p'.
Proof.
  intros m thetas r r' t t' i p p' Hb Hr Hr' Hi Ht H H'.
  destruct (C14_opl m thetas r t i Hb Hr Hi) as [E _]. destruct (C14_opl m thetas r' t' i Hb Hr' Hi) as [E' _].
  rewrite E in H. rewrite E' in H'. injection H as <-. injection H' as <-. apply logistic_lt_iff. lra.
Qed.
Print Assumptions C14_opl_increasing.

Theorem C14_tpl : forall m thetas r t i,
  tpl_wf m -> Forall (fun t => length t = tpl_lv m) thetas -> nth_error thetas r = Some t ->
  (i < tpl_items m)%nat ->
  let p := logistic (predictor (tpl_lv m) (slope (tpl_free m) (tpl_w m) i) t + nth i (tpl_b m) 0) in
  at3 (tpl_probabilities m thetas) r i 1 = Some (Some p) /\ at3 (tpl_probabilities m thetas) r i 0 = Some (Some (1 - p)).
Proof.
  intros m thetas r t i Hwf HF Hr Hi.
  split; [exact (tpl_probs_spec m thetas r t i 1 Hwf HF Hr Hi ltac:(lia))|exact (tpl_probs_spec m thetas r t i 0 Hwf HF Hr Hi ltac:(lia))].
Qed.
Print Assumptions C14_tpl.
Theorem C14_tpl_monotone : forall m thetas r r' t t' i d p p',
  tpl_wf m -> Forall (fun t => length t = tpl_lv m) thetas ->
  nth_error thetas r = Some t -> nth_error thetas r' = Some t' -> (i < tpl_items m)%nat -> (d < tpl_lv m)%nat ->
  increases_in d t t' ->
  at3 (tpl_probabilities m thetas) r i 1 = Some (Some p) -> at3 (tpl_probabilities m thetas) r' i 1 = Some (Some p') ->
  (0 < slope (tpl_free m) (tpl_w m) i d -> p < p') /\
  (slope (tpl_free m) (tpl_w m) i d < 0 -> p' < p) /\
  (slope (tpl_free m) (tpl_w m) i d = 0 -> p' = p).
Proof.
  intros m thetas r r' t t' i d p p' Hwf HF Hr Hr' Hi Hd Hinc H H'.
  destruct (C14_tpl m thetas r t i Hwf HF Hr Hi) as [E _]. destruct (C14_tpl m thetas r' t' i Hwf HF Hr' Hi) as [E' _].
  cbv zeta in *. rewrite E in H. rewrite E' in H'. injection H as <-. injection H' as <-. repeat split; intro Ha.
  - apply logistic_lt_iff. pose proof (predictor_incr _ _ _ _ _ Hd Hinc Ha). lra.
  - apply logistic_lt_iff. pose proof (predictor_decr _ _ _ _ _ Hd Hinc Ha). lra.
  - now rewrite (predictor_const _ _ _ _ _ Hd Hinc Ha).
Qed.
Print Assumptions C14_tpl_monotone.
(** The constructors establish [tpl_wf]. *)
Theorem C14_tpl_constructed : forall items lv rel m, (0 < lv)%nat -> tpl_init items lv rel = Ok m ->
  tpl_wf m /\ tpl_items m = items.
Proof. exact tpl_init_wf. Qed.
Print Assumptions C14_tpl_constructed.
Example C14_nonvacuous :
  let m := {| tpl_lv := 2; tpl_free := [[true;false];[true;true]]; tpl_w := [2;-1;3]; tpl_b := [1;-2] |} in
  tpl_wf m /\ increases_in 1 [1;2] [1;5] /\ slope (tpl_free m) (tpl_w m) 1 1 = 3 /\ slope (tpl_free m) (tpl_w m) 1 0 = -1
  /\ slope (tpl_free m) (tpl_w m) 0 1 = 0.
Proof.
  cbn zeta. split; [|split; [apply increases_in_2; lra|]].
  - unfold tpl_wf; cbn. repeat split; auto; repeat constructor.
  - repeat split.
Qed.

(** ** C15 *)
(** The reported slopes and intercepts give the item logit, and in the traditional format
    a_i (theta - b_i) is the item logit. *)
Theorem C15_opl : forall m thetas r t i d,
  length (opl_b m) = opl_items m -> nth_error thetas r = Some t ->
  nth_error (opl_item_parameters m) i = Some d ->
  at3 (opl_probabilities m thetas) r i 1 = Some (Some (logistic (t + d))).
Proof.
  intros m thetas r t i d Hb Hr Hd. unfold opl_item_parameters in Hd.
  assert (Hi : (i < opl_items m)%nat) by (rewrite <- Hb; apply nth_error_Some; congruence).
  rewrite (proj1 (C14_opl m thetas r t i Hb Hr Hi)). now rewrite (nth_error_nth _ _ _ Hd).
Qed.
Print Assumptions C15_opl.

Theorem C15_tpl : forall m thetas r t i A D,
  tpl_wf m -> Forall (fun t => length t = tpl_lv m) thetas -> nth_error thetas r = Some t -> (i < tpl_items m)%nat ->
  tpl_item_parameters m false = Ok (A, D) ->
  exists a d, nth_error A i = Some a /\ length a = tpl_lv m /\ nth_error D i = Some d /\
    at3 (tpl_probabilities m thetas) r i 1 =
      Some (Some (logistic (sumn (tpl_lv m) (fun l => nth l a 0 * nth l t 0) + d))).
Proof.
  intros m thetas r t i A D Hwf HF Hr Hi H. pose proof Hwf as (Hlv & Hfr & Hw & Hb).
  unfold tpl_item_parameters in H. cbn in H. injection H as <- <-.
  assert (exists d, nth_error (tpl_b m) i = Some d) as [d Hd].
  { destruct (nth_error (tpl_b m) i) eqn:E; eauto. apply nth_error_None in E. lia. }
  exists (map (slope (tpl_free m) (tpl_w m) i) (seq 0 (tpl_lv m))), d. repeat split; auto.
  - now apply weight_matrix_row.
  - now rewrite map_length, seq_length.
  - rewrite (proj1 (C14_tpl m thetas r t i Hwf HF Hr Hi)). do 3 f_equal.
    rewrite (nth_error_nth _ _ _ Hd). f_equal. unfold predictor. apply sumn_ext. intros l Hl. f_equal.
    symmetry. apply nth_error_nth. now rewrite nth_error_map_seq.
Qed.
Print Assumptions C15_tpl.

Theorem C15_tpl_traditional : forall m thetas r t i A B,
  tpl_wf m -> Forall (fun t => length t = tpl_lv m) thetas -> nth_error thetas r = Some [t] -> (i < tpl_items m)%nat ->
  tpl_item_parameters m true = Ok (A, B) ->
  exists a b, nth_error A i = Some [a] /\ nth_error B i = Some b /\
    (a <> 0 -> at3 (tpl_probabilities m thetas) r i 1 = Some (Some (logistic (a * (t - b))))).
Proof.
  intros m thetas r t i A B Hwf HF Hr Hi H. pose proof Hwf as (Hlv & Hfr & Hw & Hb).
  unfold tpl_item_parameters in H. destruct (Nat.ltb_spec 1 (tpl_lv m)) as [|Hlv1]; cbn in H; [discriminate|].
  injection H as <- <-. assert (Hlve : tpl_lv m = 1%nat) by lia.
  assert (exists d, nth_error (tpl_b m) i = Some d) as [d Hd].
  { destruct (nth_error (tpl_b m) i) eqn:E; eauto. apply nth_error_None in E. lia. }
  pose proof (weight_matrix_row (tpl_free m) (tpl_lv m) (tpl_w m) i Hlv Hfr Hw Hi) as HA.
  rewrite Hlve in HA at 2. cbn [seq map] in HA.
  exists (slope (tpl_free m) (tpl_w m) i 0), (- (d / slope (tpl_free m) (tpl_w m) i 0)). repeat split; auto.
  - rewrite nth_error_zip_with, Hd, HA. reflexivity.
  - intro Ha. rewrite (proj1 (C14_tpl m thetas r [t] i Hwf HF Hr Hi)). do 3 f_equal.
    rewrite (nth_error_nth _ _ _ Hd). unfold predictor. rewrite Hlve. cbn [sumn nth]. field. exact Ha.
Qed.
Print Assumptions C15_tpl_traditional.

Theorem C15_refused : forall m, (1 < tpl_lv m)%nat -> tpl_item_parameters m true = Err ValueError.
Proof. intros m H. unfold tpl_item_parameters. apply Nat.ltb_lt in H. now rewrite H. Qed.
Print Assumptions C15_refused.
Theorem C15_thpl_refused : forall m, (1 < thpl_lv m)%nat -> thpl_item_parameters m true = Err ValueError.
Proof. intros m H. unfold thpl_item_parameters. apply Nat.ltb_lt in H. now rewrite H. Qed.
Print Assumptions C15_thpl_refused.

Theorem C15_thpl_traditional : forall m thetas r t i A B C,
  thpl_wf m -> Forall (fun t => length t = thpl_lv m) thetas -> nth_error thetas r = Some [t] -> (i < thpl_items m)%nat ->
  thpl_item_parameters m true = Ok (A, B, C) ->
  exists a b c, nth_error A i = Some [a] /\ nth_error B i = Some b /\ nth_error C i = Some c /\
    (a <> 0 -> at3 (thpl_probabilities m thetas) r i 1 = Some (c + (1 - c) * logistic (a * (t - b)))).
Proof.
  intros m thetas r t i A B C Hwf HF Hr Hi H. pose proof Hwf as (Hlv & Hfr & Hw & Hb & Hg).
  unfold thpl_item_parameters in H. destruct (Nat.ltb_spec 1 (thpl_lv m)) as [|Hlv1]; cbn in H; [discriminate|].
  injection H as <- <- <-. assert (Hlve : thpl_lv m = 1%nat) by lia.
  assert (exists d, nth_error (thpl_b m) i = Some d) as [d Hd].
  { destruct (nth_error (thpl_b m) i) eqn:E; eauto. apply nth_error_None in E. lia. }
  assert (exists g, nth_error (thpl_g m) i = Some g) as [g Hge].
  { destruct (nth_error (thpl_g m) i) eqn:E; eauto. apply nth_error_None in E. lia. }
  pose proof (weight_matrix_row (thpl_free m) (thpl_lv m) (thpl_w m) i Hlv Hfr Hw Hi) as HA.
  rewrite Hlve in HA at 2. cbn [seq map] in HA.
  exists (slope (thpl_free m) (thpl_w m) i 0), (- (d / slope (thpl_free m) (thpl_w m) i 0)), (logistic g).
  repeat split; auto.
  - rewrite nth_error_zip_with, Hd, HA. reflexivity.
  - now rewrite nth_error_map, Hge.
  - intro Ha. rewrite (thpl_probs_spec m thetas r [t] i 1 Hwf HF Hr Hi ltac:(lia)). cbn [Nat.eqb].
    rewrite (nth_error_nth _ _ _ Hd), (nth_error_nth _ _ _ Hge). unfold predictor. rewrite Hlve. cbn [sumn nth].
    do 4 f_equal. field. exact Ha.
Qed.
Print Assumptions C15_thpl_traditional.

(** Graded response, traditional format: P(X >= k) = logistic (a (theta - b_k)), where P(X >= k) is the sum
    of the reported category probabilities k, k+1, ... *)
Theorem C15_grm_traditional : forall m thetas r t i K k A B,
  poly_wf m -> p_lv m = 1%nat -> Forall (fun t => length t = p_lv m) thetas -> nth_error thetas r = Some [t] ->
  nth_error (p_cats m) i = Some K -> (1 <= k < K)%nat -> grm_item_parameters m true = (A, B) ->
  exists a b p, nth_error A i = Some [a] /\ at2 B i (k - 1) = Some b /\
    (forall j, (j < p_max m)%nat -> at3 (grm_probabilities m thetas) r i j = Some (p j)) /\
    (a <> 0 -> sumn (p_max m - k) (fun j => p (k + j)%nat) = logistic (a * (t - b))).
Proof.
  intros m thetas r t i K k A B Hwf Hlv HF Hr Hi Hk H. pose proof Hwf as (Hlv0 & Hc & Hfl & Hfr & Hw & Hb).
  destruct (cats_pos_bound _ _ _ Hc Hi) as [HK Hil]. fold (p_max m) in HK.
  unfold grm_item_parameters in H. rewrite Hlv in H at 2. cbn [Nat.eqb andb] in H. injection H as <- <-.
  set (z := fun k => predictor (p_lv m) (slope (p_free m) (p_w m) i) [t] + intercept (p_cats m) (p_b m) i k).
  exists (slope (p_free m) (p_w m) i 0), (- (intercept (p_cats m) (p_b m) i k / slope (p_free m) (p_w m) i 0)),
         (fun k => geq_probability K z k - geq_probability K z (S k)).
  repeat split.
  - rewrite weight_matrix_row by (auto; unfold p_items in *; lia). now rewrite Hlv.
  - rewrite (irt_row m i K (k - 1)) by (auto; lia). now replace (S (k - 1)) with k by lia.
  - intros j Hj. exact (grm_probs_spec m thetas r [t] i K j Hwf HF Hr Hi Hj).
  - intro Ha. rewrite grm_tail_sum by lia. unfold geq_probability. destruct (Nat.eqb_spec k 0); [lia|].
    destruct (Nat.ltb_spec k K); [|lia]. f_equal. unfold z, predictor. rewrite Hlv. cbn [sumn nth]. field. exact Ha.
Qed.
Print Assumptions C15_grm_traditional.

(** Partial credit: what the reported numbers mean.  The category logits are
    k (a . theta) + d_k with the reported slopes and d's, and k a theta - a b_k in the traditional format. *)
Theorem C15_gpc_reported : forall m thetas r t i K k A D,
  poly_wf m -> Forall (fun t => length t = p_lv m) thetas -> nth_error thetas r = Some t ->
  nth_error (p_cats m) i = Some K -> (k < K)%nat -> gpc_item_parameters m false = (A, D) ->
  exists a d, nth_error A i = Some a /\ (forall j, (j < p_max m)%nat -> at2 D i j = Some (d j)) /\ d O = 0 /\
    at3 (gpc_probabilities m thetas) r i k = Some (Some
      (category_probability K (fun j => INR j * sumn (p_lv m) (fun l => nth l a 0 * nth l t 0) + d j) k)).
Proof.
  intros m thetas r t i K k A D Hwf HF Hr Hi Hk H. pose proof Hwf as (Hlv0 & Hc & Hfl & Hfr & Hw & Hb).
  destruct (cats_pos_bound _ _ _ Hc Hi) as [HK Hil]. fold (p_max m) in HK.
  unfold gpc_item_parameters in H. cbn [andb] in H. injection H as <- <-.
  exists (map (slope (p_free m) (p_w m) i) (seq 0 (p_lv m))), (intercept (p_cats m) (p_b m) i). repeat split.
  - apply weight_matrix_row; auto. unfold p_items in *; lia.
  - intros j Hj. now apply gpc_params_nth with K.
  - rewrite (gpc_probs_spec m thetas r t i K k) by (auto; lia). destruct (Nat.ltb_spec k K); [|lia].
    do 2 f_equal. unfold category_probability. f_equal.
    + do 2 f_equal. f_equal. unfold predictor. apply sumn_ext; intros l Hl. f_equal. symmetry. apply nth_error_nth.
      now rewrite nth_error_map_seq.
    + apply sumn_ext; intros j _. do 2 f_equal. f_equal. unfold predictor. apply sumn_ext; intros l Hl. f_equal.
      symmetry. apply nth_error_nth. now rewrite nth_error_map_seq.
Qed.
Print Assumptions C15_gpc_reported.

(** irt_format of a one-dimensional model: the b's reported reproduce the probabilities through the logits
    a (k theta - b_k) (they are category intercepts over the slope, not differences of adjacent ones). *)
Theorem C15_gpc_irt_format : forall m thetas r x i K k A B,
  poly_wf m -> p_lv m = 1%nat -> Forall (fun t => length t = 1%nat) thetas -> nth_error thetas r = Some [x] ->
  nth_error (p_cats m) i = Some K -> (k < K)%nat -> gpc_item_parameters m true = (A, B) ->
  slope (p_free m) (p_w m) i 0 <> 0 ->
  exists a b, at2 A i 0 = Some a /\ (forall j, (S j < p_max m)%nat -> at2 B i j = Some (b (S j))) /\ b O = 0 /\
    at3 (gpc_probabilities m thetas) r i k = Some (Some (category_probability K (fun j => a * (INR j * x - b j)) k)).
Proof.
  intros m thetas r x i K k A B Hwf Hlv HF Hr Hi Hk H Ha. pose proof Hwf as (Hlv0 & Hc & Hfl & Hfr & Hw & Hb).
  destruct (cats_pos_bound _ _ _ Hc Hi) as [HK Hil]. fold (p_max m) in HK.
  unfold gpc_item_parameters in H. rewrite Hlv in H. cbn [andb Nat.eqb] in H. injection H as <- <-.
  set (a := slope (p_free m) (p_w m) i 0) in *.
  assert (HW : nth_error (weight_matrix (p_free m) 1 (p_w m)) i = Some [a]).
  { rewrite <- Hlv. rewrite weight_matrix_row by (auto; unfold p_items in *; lia). rewrite Hlv. reflexivity. }
  exists a, (fun j => - (intercept (p_cats m) (p_b m) i j / a)). repeat split.
  - unfold at2. now rewrite HW.
  - intros j Hj. unfold at2. rewrite nth_error_zip_with, HW.
    pose proof (gpc_params_nth m i K (S j)) as G. unfold at2 in G.
    set (D := blocks (p_max m) _) in *. destruct (nth_error D i) as [row|] eqn:Er.
    + specialize (G Hwf Hi Hj). cbn [nth]. destruct row as [|d0 row]; [destruct j; discriminate|].
      cbn [map tl]. cbn [nth_error] in G. rewrite nth_error_map, G. reflexivity.
    + specialize (G Hwf Hi Hj). discriminate.
  - change (intercept (p_cats m) (p_b m) i 0) with 0. field. exact Ha.
  - rewrite (gpc_probs_spec m thetas r [x] i K k) by (auto; try lia; now rewrite Hlv). destruct (Nat.ltb_spec k K); [|lia].
    rewrite Hlv. unfold predictor. cbn [sumn nth]. fold a.
    assert (E : forall j, INR j * (0 + a * x) + intercept (p_cats m) (p_b m) i j = a * (INR j * x - - (intercept (p_cats m) (p_b m) i j / a)))
      by (intro j; field; exact Ha).
    do 2 f_equal. unfold category_probability. rewrite E. f_equal. apply sumn_ext. intros j _. now rewrite E.
Qed.
Print Assumptions C15_gpc_irt_format.
Example C15_gpc_irt_format_nonvacuous :
  let m := {| p_cats := [2;3]%nat; p_lv := 1; p_free := [[true];[true]]; p_w := [2;1]; p_b := [1;-1;2] |} in
  exists a b, at2 (fst (gpc_item_parameters m true)) 0 0 = Some a /\ at2 (snd (gpc_item_parameters m true)) 0 0 = Some (b 1%nat) /\
    at3 (gpc_probabilities m [[5]]) 0 0 1 = Some (Some (category_probability 2 (fun j => a * (INR j * 5 - b j)) 1)).
Proof.
  cbn zeta. set (m := Build_poly _ _ _ _ _).
  destruct (C15_gpc_irt_format m [[5]] 0 5 0 2 1 _ _ ltac:(unfold m, poly_wf; cbn; repeat split; auto; repeat constructor) eq_refl
    ltac:(repeat constructor) eq_refl eq_refl ltac:(lia) (surjective_pairing _) ltac:(cbn; lra)) as (a & b & H1 & H2 & _ & H4).
  exists a, b. split; [exact H1|]. split; [|exact H4]. apply H2. cbn. lia.
Qed.

(** The documented formula (generalized_partial_credit.py:24-33): the logit of category x is
    x (a . theta) + d_1 + ... + d_x. *)
Definition gpc_documented (K : nat) (u : R) (d : nat -> R) (k : nat) : R :=
  category_probability K (fun x => INR x * u + sumn x (fun m => d (S m))) k.
(** Full statement (false of the code): at3 probabilities r i k = gpc_documented K (a . theta) d k for every
    item and category.  It fails for every item with at least three categories and d_1 <> 0, at every theta. *)
Theorem C15_gpc_documented_refuted : forall m thetas r t i K,
  poly_wf m -> Forall (fun t => length t = p_lv m) thetas -> nth_error thetas r = Some t ->
  nth_error (p_cats m) i = Some K -> (3 <= K)%nat ->
  intercept (p_cats m) (p_b m) i 1 <> 0 ->
  ~ (forall k, (k < K)%nat -> at3 (gpc_probabilities m thetas) r i k = Some (Some
        (gpc_documented K (predictor (p_lv m) (slope (p_free m) (p_w m) i) t) (intercept (p_cats m) (p_b m) i) k))).
Proof.
  intros m thetas r t i K Hwf HF Hr Hi HK Hd H. pose proof Hwf as (_ & Hc & _).
  destruct (cats_pos_bound _ _ _ Hc Hi) as [HKM _]. fold (p_max m) in HKM.
  assert (HH : forall k, (k < K)%nat -> category_probability K (fun k => INR k * predictor (p_lv m) (slope (p_free m) (p_w m) i) t
       + intercept (p_cats m) (p_b m) i k) k =
     gpc_documented K (predictor (p_lv m) (slope (p_free m) (p_w m) i) t) (intercept (p_cats m) (p_b m) i) k).
  { intros k Hk. specialize (H k Hk). rewrite (gpc_probs_spec m thetas r t i K k) in H by (auto; lia).
    destruct (Nat.ltb_spec k K); [|lia]. now injection H. }
  clear H. set (u := predictor _ _ _) in *. set (d := intercept _ _ i) in *.
  pose proof (HH O ltac:(lia)) as H0. pose proof (HH 2%nat ltac:(lia)) as H2. unfold gpc_documented, category_probability in *.
  set (S1 := sumn K (fun j => exp (INR j * u + d j))) in *.
  set (S2 := sumn K (fun j => exp (INR j * u + sumn j (fun m => d (S m))))) in *.
  assert (P1 : 0 < S1) by (apply (sum_exp_pos K (fun j => INR j * u + d j)); lia).
  assert (P2 : 0 < S2) by (apply (sum_exp_pos K (fun j => INR j * u + sumn j (fun m => d (S m)))); lia).
  assert (d O = 0) as Hd0 by reflexivity. cbn [INR sumn] in H0, H2. rewrite Hd0 in H0.
  assert (S1 = S2) as E.
  { assert (exp (0 * u + 0) > 0) by apply exp_pos.
    apply (Rmult_eq_reg_l (exp (0 * u + 0))); [|lra].
    replace (exp (0 * u + 0) * S1) with ((exp (0 * u + 0) / S2) * S2 * S1) by (field; lra).
    rewrite <- H0. field. lra. }
  rewrite E in H2. apply (Rmult_eq_compat_r S2) in H2. unfold Rdiv in H2.
  rewrite !Rmult_assoc, Rinv_l, !Rmult_1_r in H2 by lra. apply exp_inv in H2. lra.
Qed.
Print Assumptions C15_gpc_documented_refuted.
(** The traditional format is not refused by GPC and GRM for several latent variables: the caller gets the
    slope-intercept parameters instead. *)
Theorem C15_gpc_not_refused_refuted : forall m, (1 < p_lv m)%nat ->
  gpc_item_parameters m true = gpc_item_parameters m false /\ grm_item_parameters m true = grm_item_parameters m false.
Proof.
  intros m H. unfold gpc_item_parameters, grm_item_parameters. destruct (Nat.eqb_spec (p_lv m) 1); [lia|]. split; reflexivity.
Qed.
Print Assumptions C15_gpc_not_refused_refuted.
Example C15_nonvacuous :
  let m := {| p_cats := [2;3]%nat; p_lv := 1; p_free := [[true];[true]]; p_w := [2;1]; p_b := [1;-1;2] |} in
  poly_wf m /\ intercept (p_cats m) (p_b m) 1 1 = -1 /\ intercept (p_cats m) (p_b m) 1 2 = 2 /\
  slope (p_free m) (p_w m) 0 0 <> 0.
Proof.
  cbn zeta. split; [|split; [reflexivity|split; [reflexivity|cbn; lra]]].
  unfold poly_wf; cbn. repeat split; auto; repeat constructor.
Qed.

(** ** C16 *)
Theorem C16_thpl : forall m thetas r t i,
  thpl_wf m -> Forall (fun t => length t = thpl_lv m) thetas -> nth_error thetas r = Some t ->
  (i < thpl_items m)%nat ->
  exists c p q, c = logistic (nth i (thpl_g m) 0) /\ 0 < c < 1 /\
    at3 (thpl_probabilities m thetas) r i 1 = Some p /\ at3 (thpl_probabilities m thetas) r i 0 = Some q /\
    p = c + (1 - c) * logistic (predictor (thpl_lv m) (slope (thpl_free m) (thpl_w m) i) t + nth i (thpl_b m) 0) /\
    c < p < 1 /\ q + p = 1.
Proof.
  intros m thetas r t i Hwf HF Hr Hi.
  set (c := logistic (nth i (thpl_g m) 0)).
  set (p := c + (1 - c) * logistic (predictor (thpl_lv m) (slope (thpl_free m) (thpl_w m) i) t + nth i (thpl_b m) 0)).
  exists c, p, (1 - p). pose proof (logistic_bounds (nth i (thpl_g m) 0)) as Hc. fold c in Hc.
  pose proof (logistic_bounds (predictor (thpl_lv m) (slope (thpl_free m) (thpl_w m) i) t + nth i (thpl_b m) 0)) as Hl.
  split; [reflexivity|]. split; [lra|].
  split; [exact (thpl_probs_spec m thetas r t i 1 Hwf HF Hr Hi ltac:(lia))|].
  split; [exact (thpl_probs_spec m thetas r t i 0 Hwf HF Hr Hi ltac:(lia))|].
  split; [reflexivity|]. split; [|ring]. unfold p. nra.
Qed.
Print Assumptions C16_thpl.
Theorem C16_thpl_monotone : forall m thetas r r' t t' i d p p',
  thpl_wf m -> Forall (fun t => length t = thpl_lv m) thetas ->
  nth_error thetas r = Some t -> nth_error thetas r' = Some t' -> (i < thpl_items m)%nat -> (d < thpl_lv m)%nat ->
  increases_in d t t' ->
  at3 (thpl_probabilities m thetas) r i 1 = Some p -> at3 (thpl_probabilities m thetas) r' i 1 = Some p' ->
  (0 < slope (thpl_free m) (thpl_w m) i d -> p < p') /\
  (slope (thpl_free m) (thpl_w m) i d < 0 -> p' < p) /\
  (slope (thpl_free m) (thpl_w m) i d = 0 -> p' = p).
Proof.
  intros m thetas r r' t t' i d p p' Hwf HF Hr Hr' Hi Hd Hinc H H'.
  rewrite (thpl_probs_spec m thetas r t i 1 Hwf HF Hr Hi ltac:(lia)) in H.
  rewrite (thpl_probs_spec m thetas r' t' i 1 Hwf HF Hr' Hi ltac:(lia)) in H'. cbn [Nat.eqb] in *.
  injection H as <-. injection H' as <-.
  pose proof (logistic_bounds (nth i (thpl_g m) 0)) as Hc. repeat split; intro Ha.
  - pose proof (predictor_incr _ _ _ _ _ Hd Hinc Ha) as Hp.
    pose proof (proj2 (logistic_lt_iff _ _) (Rplus_lt_compat_r (nth i (thpl_b m) 0) _ _ Hp)). nra.
  - pose proof (predictor_decr _ _ _ _ _ Hd Hinc Ha) as Hp.
    pose proof (proj2 (logistic_lt_iff _ _) (Rplus_lt_compat_r (nth i (thpl_b m) 0) _ _ Hp)). nra.
  - now rewrite (predictor_const _ _ _ _ _ Hd Hinc Ha).
Qed.
Print Assumptions C16_thpl_monotone.
(** A newly constructed model starts with intercepts zero and all guessing levels near one quarter. *)
Theorem C16_new : forall items lv rel m, thpl_init items lv rel = Ok m ->
  exists slopes intercepts guessing, thpl_item_parameters m false = Ok (slopes, intercepts, guessing) /\
    intercepts = repeat 0 items /\ length guessing = items /\ Forall (fun c => 6 / 25 < c < 13 / 50) guessing.
Proof.
  intros items lv rel m H. unfold thpl_init in H. destruct (relationships items lv rel) as [free|]; [|discriminate]. cbn [rmap bind] in H. injection H as <-. unfold thpl_item_parameters. cbn [andb thpl_lv thpl_free thpl_w thpl_b thpl_g].
  do 3 eexists. split; [reflexivity|]. split; [reflexivity|]. split; [now rewrite map_length, repeat_length|]. apply Forall_forall. intros c Hc. apply in_map_iff in Hc as (g & <- & Hg). apply repeat_spec in Hg. subst g.
  rewrite logistic_exp. assert (B : 6 / 19 < exp (- (11 / 10)) < 13 / 37).
  { assert (E1 : exp (- (11 / 10)) = exp (- (11 / 160)) ^ 16) by (cbn [pow]; rewrite Rmult_1_r, <- !exp_plus; f_equal; field). assert (E2 : exp (11 / 10) = exp (11 / 160) ^ 16) by (cbn [pow]; rewrite Rmult_1_r, <- !exp_plus; f_equal; field).
    pose proof (exp_ineq1 (- (11 / 160)) ltac:(lra)) as A1. pose proof (exp_ineq1 (11 / 160) ltac:(lra)) as A2. split.
    - rewrite E1. apply Rlt_le_trans with ((149 / 160) ^ 16); [lra|]. apply pow_incr; lra.
    - assert (L : 37 / 13 < exp (11 / 10)) by (rewrite E2; apply Rlt_le_trans with ((171 / 160) ^ 16); [lra|apply pow_incr; lra]). rewrite exp_Ropp. apply Rinv_lt_contravar in L; [|apply Rmult_lt_0_compat; lra || apply exp_pos]. lra. }
  set (e := exp (- (11 / 10))) in *. assert (Q : e / (1 + e) * (1 + e) = e) by (field; lra). split; nra.
Qed.
Print Assumptions C16_new.
Example C16_nonvacuous : exists m, thpl_init 2 2 (Some [[true;false];[true;true]]) = Ok m /\ thpl_wf m /\ thpl_items m = 2%nat.
Proof. eexists; split; [reflexivity|]. eapply (thpl_init_wf 2 2 (Some [[true;false];[true;true]])); [lia|reflexivity]. Qed.

(** ** C17 *)
Theorem C17_adjacent_odds : forall m thetas r t i K k p q,
  poly_wf m -> Forall (fun t => length t = p_lv m) thetas -> nth_error thetas r = Some t ->
  nth_error (p_cats m) i = Some K -> (S k < K)%nat ->
  at3 (gpc_probabilities m thetas) r i (S k) = Some (Some p) -> at3 (gpc_probabilities m thetas) r i k = Some (Some q) ->
  0 < q /\ ln (p / q) = predictor (p_lv m) (slope (p_free m) (p_w m) i) t
      + (intercept (p_cats m) (p_b m) i (S k) - intercept (p_cats m) (p_b m) i k).
Proof.
  intros m thetas r t i K k p q Hwf HF Hr Hi Hk Hp Hq. pose proof Hwf as (_ & Hc & _).
  destruct (cats_pos_bound _ _ _ Hc Hi) as [HKM _]. fold (p_max m) in HKM.
  rewrite (gpc_probs_spec m thetas r t i K) in Hp by (auto; lia).
  rewrite (gpc_probs_spec m thetas r t i K) in Hq by (auto; lia).
  destruct (Nat.ltb_spec (S k) K); [|lia]. destruct (Nat.ltb_spec k K); [|lia].
  injection Hp as <-. injection Hq as <-. set (z := fun k => INR k * _ + _).
  split; [apply category_probability_pos; lia|].
  unfold category_probability. pose proof (sum_exp_pos K z ltac:(lia)) as HS.
  pose proof (exp_pos (z k)).
  replace (exp (z (S k)) / sumn K (fun j => exp (z j)) / (exp (z k) / sumn K (fun j => exp (z j))))
    with (exp (z (S k)) * / exp (z k)) by (field; lra).
  rewrite <- exp_Ropp, <- exp_plus, ln_exp. unfold z. rewrite S_INR. ring.
Qed.
Print Assumptions C17_adjacent_odds.
(** The probabilities of an item only depend on its own number of categories, slopes and intercepts. *)
Theorem C17_own_parameters : forall m m' thetas r t i K k,
  poly_wf m -> poly_wf m' -> p_lv m = p_lv m' ->
  Forall (fun t => length t = p_lv m) thetas -> nth_error thetas r = Some t ->
  nth_error (p_cats m) i = Some K -> nth_error (p_cats m') i = Some K ->
  (forall d, (d < p_lv m)%nat -> slope (p_free m) (p_w m) i d = slope (p_free m') (p_w m') i d) ->
  (forall k, (k < K)%nat -> intercept (p_cats m) (p_b m) i k = intercept (p_cats m') (p_b m') i k) ->
  (k < K)%nat ->
  at3 (gpc_probabilities m thetas) r i k = at3 (gpc_probabilities m' thetas) r i k.
Proof.
  intros m m' thetas r t i K k Hwf Hwf' Hlv HF Hr Hi Hi' Hs Hint Hk.
  pose proof Hwf as (_ & Hc & _). pose proof Hwf' as (_ & Hc' & _).
  destruct (cats_pos_bound _ _ _ Hc Hi) as [HKM _]. fold (p_max m) in HKM.
  destruct (cats_pos_bound _ _ _ Hc' Hi') as [HKM' _]. fold (p_max m') in HKM'.
  rewrite (gpc_probs_spec m thetas r t i K k) by (auto; lia).
  rewrite (gpc_probs_spec m' thetas r t i K k) by (rewrite <- ?Hlv; auto; lia).
  destruct (Nat.ltb_spec k K); [|lia]. do 2 f_equal. unfold category_probability.
  rewrite <- Hlv. rewrite (predictor_ext _ _ (slope (p_free m') (p_w m') i) t Hs). rewrite (Hint k Hk). f_equal.
  apply sumn_ext; intros j Hj. now rewrite (Hint j Hj).
Qed.
Print Assumptions C17_own_parameters.
Theorem C17_expected_score_monotone : forall m thetas r r' t t' i K d es,
  poly_wf m -> Forall (fun t => length t = p_lv m) thetas ->
  nth_error thetas r = Some t -> nth_error thetas r' = Some t' -> nth_error (p_cats m) i = Some K ->
  (d < p_lv m)%nat -> increases_in d t t' ->
  expected_item_scores (p_items m) (p_max m) None (gpc_probabilities m thetas) = Ok es ->
  exists e e', at2 es r i = Some (Some e) /\ at2 es r' i = Some (Some e') /\
    (0 <= slope (p_free m) (p_w m) i d -> e <= e') /\
    (0 < slope (p_free m) (p_w m) i d -> (2 <= K)%nat -> e < e') /\
    (slope (p_free m) (p_w m) i d <= 0 -> e' <= e).
Proof. exact gpc_expected. Qed.
Print Assumptions C17_expected_score_monotone.
Example C17_nonvacuous :
  let m := {| p_cats := [2;3]%nat; p_lv := 2; p_free := [[true;true];[false;true]]; p_w := [2;1;1]; p_b := [1;-1;2] |} in
  poly_wf m /\ increases_in 1 [0;1] [0;3] /\ slope (p_free m) (p_w m) 1 1 = 1 /\
  exists es, expected_item_scores (p_items m) (p_max m) None (gpc_probabilities m [[0;1];[0;3]]) = Ok es.
Proof.
  cbn zeta. split; [|split; [apply increases_in_2; lra|split; [reflexivity|eexists; reflexivity]]].
  unfold poly_wf; cbn. repeat split; auto; repeat constructor.
Qed.

(** ** C18 *)
Theorem C18_telescope : forall m thetas r t i K,
  poly_wf m -> Forall (fun t => length t = p_lv m) thetas -> nth_error thetas r = Some t ->
  nth_error (p_cats m) i = Some K ->
  exists p, (forall k, (k < p_max m)%nat -> at3 (grm_probabilities m thetas) r i k = Some (p k)) /\
    sumn (p_max m) p = 1 /\
    (forall k, (1 <= k < K)%nat -> sumn (p_max m - k) (fun j => p (k + j)%nat) =
       logistic (predictor (p_lv m) (slope (p_free m) (p_w m) i) t + intercept (p_cats m) (p_b m) i k)) /\
    (forall k, (K <= k < p_max m)%nat -> p k = 0) /\
    ((forall k, (k < K)%nat -> 0 <= p k) <->
     (forall k, (1 <= k)%nat -> (S k < K)%nat -> intercept (p_cats m) (p_b m) i (S k) <= intercept (p_cats m) (p_b m) i k)).
Proof.
  intros m thetas r t i K Hwf HF Hr Hi. pose proof Hwf as (_ & Hc & _).
  destruct (cats_pos_bound _ _ _ Hc Hi) as [HKM _]. fold (p_max m) in HKM.
  set (z := fun k => predictor (p_lv m) (slope (p_free m) (p_w m) i) t + intercept (p_cats m) (p_b m) i k).
  exists (fun k => geq_probability K z k - geq_probability K z (S k)). repeat split.
  - intros k Hk. exact (grm_probs_spec m thetas r t i K k Hwf HF Hr Hi Hk).
  - pose proof (grm_tail_sum K (p_max m) z 0 HKM ltac:(lia)) as H. rewrite Nat.sub_0_r, geq_0 in H. exact H.
  - intros k Hk. rewrite grm_tail_sum by lia. unfold geq_probability. destruct (Nat.eqb_spec k 0); [lia|].
    destruct (Nat.ltb_spec k K); [reflexivity|lia].
  - intros k Hk. apply grm_diff_padding. lia.
  - intros H k H1 H2. specialize (H k ltac:(lia)). pose proof (proj1 (grm_diff_sign K z k ltac:(lia)) H H1 H2) as H3. unfold z in H3. lra.
  - intros H k Hk. apply grm_diff_sign; [lia|]. intros H1 H2. specialize (H k H1 H2). unfold z. lra.
Qed.
Print Assumptions C18_telescope.
Theorem C18_fresh_model_valid : forall cats lv rel w0 m thetas r t i K,
  (0 < lv)%nat -> Forall (fun K => (1 <= K)%nat) cats -> grm_init cats lv rel w0 = Ok m ->
  Forall (fun t => length t = lv) thetas -> nth_error thetas r = Some t -> nth_error cats i = Some K ->
  (forall k, (1 <= k)%nat -> (S k < K)%nat -> intercept (p_cats m) (p_b m) i (S k) < intercept (p_cats m) (p_b m) i k) /\
  exists p, (forall k, (k < list_max cats)%nat -> at3 (grm_probabilities m thetas) r i k = Some (p k)) /\
    valid_distribution K (list_max cats) p.
Proof.
  intros cats lv rel w0 m thetas r t i K Hlv Hc Hm HF Hr Hi.
  assert (Hdec : forall k, (1 <= k)%nat -> (S k < K)%nat -> intercept (p_cats m) (p_b m) i (S k) < intercept (p_cats m) (p_b m) i k).
  { intros k H1 H2. now apply (grm_init_decreasing cats lv rel w0 m i K k). }
  destruct (grm_init_wf _ _ _ _ _ Hlv Hc Hm) as [Hwf Hcats].
  assert (Hlvm : p_lv m = lv).
  { unfold grm_init in Hm. destruct (relationships _ _ _); [|discriminate]. now injection Hm as <-. }
  split; [exact Hdec|].
  destruct (cats_pos_bound _ _ _ Hc Hi) as [HKM _].
  assert (HM : p_max m = list_max cats) by (unfold p_max; now rewrite Hcats).
  set (z := fun k => predictor (p_lv m) (slope (p_free m) (p_w m) i) t + intercept (p_cats m) (p_b m) i k).
  assert (Hpos : forall k, (k < K)%nat -> 0 < geq_probability K z k - geq_probability K z (S k)).
  { intros k Hk. apply grm_diff_pos; [lia|auto|]. intros H1 H2. pose proof (Hdec k H1 H2). unfold z. lra. }
  exists (fun k => geq_probability K z k - geq_probability K z (S k)). split.
  - intros k Hk. apply (grm_probs_spec m thetas r t i K k Hwf); auto.
    + now rewrite Hlvm.
    + now rewrite Hcats.
    + now rewrite HM.
  - repeat split; auto.
    + intros k Hk. destruct (Nat.lt_ge_cases k K) as [H|H].
      * left; auto.
      * rewrite grm_diff_padding by lia. lra.
    + pose proof (grm_tail_sum K (list_max cats) z 0 HKM ltac:(lia)) as H. rewrite Nat.sub_0_r, geq_0 in H. exact H.
    + intros k Hk. apply grm_diff_padding. lia.
Qed.
Print Assumptions C18_fresh_model_valid.
(** The expected score of a graded item is the sum of its exceedance probabilities, so it increases
    strictly in a latent variable with positive slope, whatever the intercepts. *)
Theorem C18_expected_score : forall m thetas r r' t t' i K d p p',
  poly_wf m -> Forall (fun t => length t = p_lv m) thetas ->
  nth_error thetas r = Some t -> nth_error thetas r' = Some t' -> nth_error (p_cats m) i = Some K -> (2 <= K)%nat ->
  (d < p_lv m)%nat -> increases_in d t t' -> 0 < slope (p_free m) (p_w m) i d ->
  (forall k, (k < p_max m)%nat -> at3 (grm_probabilities m thetas) r i k = Some (p k)) ->
  (forall k, (k < p_max m)%nat -> at3 (grm_probabilities m thetas) r' i k = Some (p' k)) ->
  sumn (p_max m) (fun k => INR k * p k) < sumn (p_max m) (fun k => INR k * p' k).
Proof.
  intros m thetas r r' t t' i K d p p' Hwf HF Hr Hr' Hi HK Hd Hinc Ha Hp Hp'. pose proof Hwf as (_ & Hc & _).
  destruct (cats_pos_bound _ _ _ Hc Hi) as [HKM _]. fold (p_max m) in HKM.
  set (z := fun t k => predictor (p_lv m) (slope (p_free m) (p_w m) i) t + intercept (p_cats m) (p_b m) i k).
  rewrite (sumn_ext _ _ (fun k => INR k * (geq_probability K (z t) k - geq_probability K (z t) (S k)))).
  2:{ intros k Hk. f_equal. pose proof (grm_probs_spec m thetas r t i K k Hwf HF Hr Hi Hk) as H.
      cbv zeta in H. rewrite (Hp k Hk) in H. now injection H. }
  rewrite (sumn_ext _ (fun k => INR k * p' k) (fun k => INR k * (geq_probability K (z t') k - geq_probability K (z t') (S k)))).
  2:{ intros k Hk. f_equal. pose proof (grm_probs_spec m thetas r' t' i K k Hwf HF Hr' Hi Hk) as H.
      cbv zeta in H. rewrite (Hp' k Hk) in H. now injection H. }
  rewrite !grm_average by auto. apply sumn_lt; [lia|]. intros k Hk. apply logistic_lt_iff. unfold z.
  pose proof (predictor_incr _ _ _ _ _ Hd Hinc Ha). lra.
Qed.
Print Assumptions C18_expected_score.
Example C18_nonvacuous : exists m, grm_init [4;2]%nat 1 None (fun _ => / 2) = Ok m /\ poly_wf m /\
  exists p, (forall k, (k < 4)%nat -> at3 (grm_probabilities m [[1];[2]]) 1 0 k = Some (p k)) /\ valid_distribution 4 4 p.
Proof.
  eexists; split; [reflexivity|]. split.
  - eapply (grm_init_wf [4;2]%nat 1 None (fun _ => / 2)); [lia|repeat constructor|reflexivity].
  - eapply (C18_fresh_model_valid [4;2]%nat 1 None (fun _ => / 2) _ [[1];[2]] 1 [2] 0 4); try reflexivity; try lia; repeat constructor.
Qed.

(** ** C19 *)
Theorem C19_identified : forall m i K d, nrm_wf m -> nth_error (nrm_cats m) i = Some K -> (d < nrm_lv m)%nat ->
  exists a b, (forall k, (k < K)%nat ->
      at2 (fst (nrm_item_parameters m)) i (d * nrm_max m + k) = Some (a k) /\
      at2 (snd (nrm_item_parameters m)) i k = Some (b k)) /\
    sumn K a = 0 /\ sumn K b = 0.
Proof.
  intros m i K d Hwf Hi Hd. exists (fun k => nrm_slope m i k d), (nrm_intercept m i).
  pose proof (nrm_identified m Hwf i K d Hi) as [H1 H2]. repeat split; auto; now apply (nrm_reported m Hwf i K k d).
Qed.
Print Assumptions C19_identified.
Theorem C19_reported_reproduce : forall m thetas r t i K k,
  nrm_wf m -> Forall (fun t => length t = nrm_lv m) thetas -> nth_error thetas r = Some t ->
  nth_error (nrm_cats m) i = Some K -> (k < K)%nat ->
  exists a b, (forall k d, (k < K)%nat -> (d < nrm_lv m)%nat ->
      at2 (fst (nrm_item_parameters m)) i (d * nrm_max m + k) = Some (a k d)) /\
    (forall k, (k < K)%nat -> at2 (snd (nrm_item_parameters m)) i k = Some (b k)) /\
    at3 (nrm_probabilities m thetas) r i k =
      Some (Some (category_probability K (fun k => sumn (nrm_lv m) (fun d => a k d * nth d t 0) + b k) k)).
Proof.
  intros m thetas r t i K k Hwf HF Hr Hi Hk. exists (nrm_slope m i), (nrm_intercept m i).
  pose proof Hwf as (Hlv & Hc & _). destruct (cats_pos_bound _ _ _ Hc Hi) as [HKM _]. fold (nrm_max m) in HKM. repeat split.
  - intros k' d Hk' Hd. now apply (nrm_reported m Hwf i K k' d).
  - intros k' Hk'. now apply (nrm_reported m Hwf i K k' 0).
  - rewrite (nrm_probs_spec m Hwf thetas r t i K k) by (auto; lia). destruct (Nat.ltb_spec k K); [reflexivity|lia].
Qed.
Print Assumptions C19_reported_reproduce.
Example C19_nonvacuous : exists m, nrm_init [3;2]%nat 2 (Some [[true;false];[true;true]]) INR = Ok m /\ nrm_wf m /\
  length (nrm_w m) = 4%nat.
Proof.
  eexists; split; [reflexivity|]. split; [|reflexivity].
  eapply (nrm_init_wf [3;2]%nat 2 (Some [[true;false];[true;true]]) INR); [lia|repeat constructor|reflexivity].
Qed.

(** ** C25 *)
Theorem C25_range : forall items M K probs r i p es,
  (i < items)%nat -> (1 <= K <= M)%nat ->
  (forall k, (k < M)%nat -> at3 probs r i k = Some (Some (p k))) -> valid_distribution K M p ->
  expected_item_scores items M None probs = Ok es ->
  exists e, at2 es r i = Some (Some e) /\ e = sumn M (fun k => INR k * p k) /\ 0 <= e <= INR (K - 1).
Proof.
  intros items M K probs r i p es Hi HK Hp HV He.
  destruct (expected_item_none items M probs r i p Hi Hp ltac:(lia)) as (es' & E & E2). rewrite He in E. injection E as <-.
  eexists. split; [exact E2|]. split; [reflexivity|]. now apply average_range.
Qed.
Print Assumptions C25_range.
Theorem C25_multiple_choice : forall items M K key probs r i p z es,
  length key = items -> (forall z, In z key -> (0 <= z < Z.of_nat M)%Z) -> nth_error key i = Some z ->
  (1 <= K <= M)%nat -> (forall k, (k < M)%nat -> at3 probs r i k = Some (Some (p k))) -> valid_distribution K M p ->
  expected_item_scores items M (Some key) probs = Ok es ->
  exists e, at2 es r i = Some (Some e) /\ e = p (Z.to_nat z) /\ 0 <= e <= 1.
Proof.
  intros items M K key probs r i p z es Hl Hk Hz HK Hp HV He.
  destruct (expected_item_mc items M key probs r i p z Hl Hk Hz Hp ltac:(lia)) as (es' & E & E2). rewrite He in E. injection E as <-.
  eexists. split; [exact E2|]. split; [reflexivity|]. apply (prob_range K M); auto.
  apply nth_error_In in Hz. apply Hk in Hz. lia.
Qed.
Print Assumptions C25_multiple_choice.
Theorem C25_total : forall items M mc probs es tot r row e,
  expected_item_scores items M mc probs = Ok es -> expected_total_scores items M mc probs = Ok tot ->
  nth_error es r = Some row -> (forall i, (i < length row)%nat -> nth_error row i = Some (Some (e i))) ->
  nth_error tot r = Some (Some (sumn (length row) e)).
Proof.
  intros items M mc probs es tot r row e H Ht Hr He. rewrite (expected_total _ _ _ _ _ H) in Ht. injection Ht as <-.
  rewrite nth_error_map, Hr. cbn [option_map]. f_equal. now apply osum_index.
Qed.
Print Assumptions C25_total.
(** Adjacent log-odds [z (k+1) - z k] at least as large at the second theta for every category: then the
    expected score is at least as large. *)
Theorem C25_monotone : forall items M out r r' row row' i K z z',
  Forall (fun o => length o = (items * M)%nat) out ->
  nth_error out r = Some row -> nth_error out r' = Some row' -> (i < items)%nat -> (1 <= K <= M)%nat ->
  (forall k, (k < M)%nat -> nth_error row (i * M + k) = Some (if (k <? K)%nat then Fin (z k) else NInf)) ->
  (forall k, (k < M)%nat -> nth_error row' (i * M + k) = Some (if (k <? K)%nat then Fin (z' k) else NInf)) ->
  (forall k, (S k < K)%nat -> z (S k) - z k <= z' (S k) - z' k) ->
  exists es e e', expected_item_scores items M None (probabilities_from_output items M out) = Ok es /\
    at2 es r i = Some (Some e) /\ at2 es r' i = Some (Some e') /\ e <= e'.
Proof. exact expected_monotone_general. Qed.
Print Assumptions C25_monotone.
Example C25_nonvacuous :
  exists es, expected_item_scores 2 3 None (probabilities_from_output 2 3
     [[Fin 0; Fin 1; Fin 1; Fin 0; Fin 2; NInf]; [Fin 0; Fin 2; Fin 3; Fin 0; Fin 2; NInf]]) = Ok es /\
  exists e e', at2 es 0 0 = Some (Some e) /\ at2 es 1 0 = Some (Some e') /\ e <= e'.
Proof.
  destruct (C25_monotone 2 3 [[Fin 0; Fin 1; Fin 1; Fin 0; Fin 2; NInf]; [Fin 0; Fin 2; Fin 3; Fin 0; Fin 2; NInf]] 0 1
    _ _ 0 3 (fun k => nth k [0;1;1] 0) (fun k => nth k [0;2;3] 0) ltac:(repeat constructor) eq_refl eq_refl ltac:(lia) ltac:(lia))
    as (es & e & e' & H1 & H2 & H3 & H4).
  - intros [|[|[|k]]] Hk; try reflexivity; lia.
  - intros [|[|[|k]]] Hk; try reflexivity; lia.
  - intros [|[|[|k]]] Hk; cbn; try lra; lia.
  - exists es. split; [exact H1|]. exists e, e'. auto.
Qed.
