(** Proofs: item parameters, adjacent-category odds and expected scores. *)
From Verif Require Import Base BaseFacts RBase RFacts M_Logit S_Logit P_Logit P_Logit2 P_Logit3.
Local Open Scope R_scope.

(** ** Averages of category scores *)
Lemma category_average K z s : sumn K (fun k => s k * category_probability K z k) =
  sumn K (fun k => s k * exp (z k)) / sumn K (fun j => exp (z j)).
Proof.
  unfold category_probability. rewrite <- sumn_div. apply sumn_ext; intros; unfold Rdiv; ring.
Qed.
Lemma ratio_sign (z z' : nat -> R) (s : nat -> R) K k j :
  (forall j k, (j <= k)%nat -> (k < K)%nat -> s j <= s k) ->
  (forall j k, (j <= k)%nat -> (k < K)%nat -> z' j - z j <= z' k - z k) ->
  (k < K)%nat -> (j < K)%nat ->
  0 <= (s k - s j) * (exp (z' k) * exp (z j) - exp (z' j) * exp (z k)).
Proof.
  intros Hs Hz Hk Hj. rewrite <- !exp_plus.
  destruct (Nat.le_ge_cases j k) as [H|H].
  - pose proof (Hs j k H Hk). pose proof (Hz j k H Hk).
    assert (exp (z' j + z k) <= exp (z' k + z j)).
    { destruct (Req_dec (z' j + z k) (z' k + z j)) as [->|Hne]; [lra|]. left. apply exp_increasing. lra. }
    apply Rmult_le_pos; lra.
  - pose proof (Hs k j H Hj). pose proof (Hz k j H Hj).
    assert (exp (z' k + z j) <= exp (z' j + z k)).
    { destruct (Req_dec (z' j + z k) (z' k + z j)) as [->|Hne]; [lra|]. left. apply exp_increasing. lra. }
    replace ((s k - s j) * (exp (z' k + z j) - exp (z' j + z k)))
      with ((s j - s k) * (exp (z' j + z k) - exp (z' k + z j))) by ring.
    apply Rmult_le_pos; lra.
Qed.
(** Adjacent log-odds ordering implies ordering of log-odds at any distance. *)
Lemma adjacent_to_all (z z' : nat -> R) K :
  (forall k, (S k < K)%nat -> z (S k) - z k <= z' (S k) - z' k) ->
  forall j k, (j <= k)%nat -> (k < K)%nat -> z' j - z j <= z' k - z k.
Proof.
  intros H j k Hjk. induction Hjk as [|k Hjk IH]; intro Hk; [lra|].
  pose proof (H k Hk). pose proof (IH ltac:(lia)). lra.
Qed.
Lemma average_monotone K z z' :
  (1 <= K)%nat -> (forall k, (S k < K)%nat -> z (S k) - z k <= z' (S k) - z' k) ->
  sumn K (fun k => INR k * category_probability K z k) <= sumn K (fun k => INR k * category_probability K z' k).
Proof.
  intros HK H. rewrite !category_average.
  apply chebyshev_avg; try now apply sum_exp_pos. intros k j Hk Hj.
  apply ratio_sign with K; auto.
  - intros; now apply le_INR.
  - now apply adjacent_to_all.
Qed.
Lemma average_strict K z z' :
  (2 <= K)%nat -> (forall k, (S k < K)%nat -> z (S k) - z k < z' (S k) - z' k) ->
  sumn K (fun k => INR k * category_probability K z k) < sumn K (fun k => INR k * category_probability K z' k).
Proof.
  intros HK H. rewrite !category_average.
  apply chebyshev_avg_strict with (k0 := 1%nat) (j0 := 0%nat); try (apply sum_exp_pos; lia); try lia.
  - intros k j Hk Hj. apply ratio_sign with K; auto.
    + intros; now apply le_INR.
    + apply adjacent_to_all. intros; left; auto.
  - rewrite <- !exp_plus. pose proof (H 0%nat ltac:(lia)).
    assert (exp (z' 0%nat + z 1%nat) < exp (z' 1%nat + z 0%nat)) by (apply exp_increasing; lra).
    cbn [INR]. lra.
Qed.

(** ** expected_scores *)
Lemma expected_item_none items M probs r i p :
  (i < items)%nat -> (forall k, (k < M)%nat -> at3 probs r i k = Some (Some (p k))) -> (0 < M)%nat ->
  exists out, expected_item_scores items M None probs = Ok out /\
    at2 out r i = Some (Some (sumn M (fun k => INR k * p k))).
Proof.
  intros Hi H HM. unfold expected_item_scores, item_score_table. cbn [rmap]. eexists; split; [reflexivity|].
  unfold at2. rewrite nth_error_map. pose proof (H O HM) as H0. unfold at3, at2 in *.
  destruct (nth_error probs r) as [resp|]; [|discriminate]. cbn [option_map].
  rewrite nth_error_zip_with, nth_error_repeat_lt by auto.
  destruct (nth_error resp i) as [row|]; [|discriminate]. do 1 f_equal.
  assert (HL : (M <= length row)%nat).
  { assert (M - 1 < length row)%nat; [|lia]. apply nth_error_Some. rewrite (H (M - 1)%nat) by lia. discriminate. }
  rewrite (osum_index _ M (fun k => INR k * p k)); auto.
  - rewrite zip_with_length, map_length, seq_length. lia.
  - intros k Hk. rewrite nth_error_zip_with, (H k Hk), nth_error_map_seq by auto. cbn. do 2 f_equal. ring.
Qed.

Lemma expected_item_mc items M key probs r i p z :
  length key = items -> (forall z, In z key -> (0 <= z < Z.of_nat M)%Z) -> nth_error key i = Some z ->
  (forall k, (k < M)%nat -> at3 probs r i k = Some (Some (p k))) -> (0 < M)%nat ->
  exists out, expected_item_scores items M (Some key) probs = Ok out /\
    at2 out r i = Some (Some (p (Z.to_nat z))).
Proof.
  intros Hk Hr Hz H HM. unfold expected_item_scores, item_score_table.
  destruct key as [|z0 key']; [destruct i; discriminate|]. set (key := z0 :: key') in *.
  rewrite Hk, Nat.ltb_irrefl.
  rewrite (mapM_total _ (fun z => upd (Z.to_nat z) 1 (repeat 0 M))).
  2:{ intros a Ha. apply Hr in Ha. destruct (Z.leb_spec 0 a); [|lia].
      destruct (Z.ltb_spec a (Z.of_nat M)); [|lia]. reflexivity. }
  cbn [rmap]. eexists; split; [reflexivity|]. unfold at2.
  rewrite nth_error_map. pose proof (H O HM) as H0. unfold at3, at2 in *.
  destruct (nth_error probs r) as [resp|]; [|discriminate]. cbn [option_map].
  rewrite nth_error_zip_with.
  assert (Hi : (i < length key)%nat) by (apply nth_error_Some; congruence).
  rewrite nth_error_app1 by (rewrite map_length; auto).
  rewrite nth_error_map, Hz. cbn [option_map].
  destruct (nth_error resp i) as [row|]; [|discriminate]. f_equal.
  assert (HL : (M <= length row)%nat).
  { assert (M - 1 < length row)%nat; [|lia]. apply nth_error_Some. rewrite (H (M - 1)%nat) by lia. discriminate. }
  assert (Hzr : (Z.to_nat z < M)%nat) by (apply nth_error_In in Hz; apply Hr in Hz; lia).
  rewrite (osum_index _ M (fun k => p k * (if (k =? Z.to_nat z)%nat then 1 else 0))); auto.
  - f_equal. rewrite (sumn_single M (Z.to_nat z)); auto.
    + rewrite Nat.eqb_refl. ring.
    + intros k Hk' Hne. destruct (Nat.eqb_spec k (Z.to_nat z)); [congruence|]. ring.
  - rewrite zip_with_length, upd_length, repeat_length. lia.
  - intros k Hk'. rewrite nth_error_zip_with, (H k Hk').
    rewrite nth_error_upd by (now rewrite repeat_length). rewrite Nat.eqb_sym.
    destruct (Nat.eqb_spec k (Z.to_nat z)); [reflexivity|]. now rewrite nth_error_repeat_lt.
Qed.

Lemma average_range K M p : valid_distribution K M p -> (1 <= K <= M)%nat ->
  0 <= sumn M (fun k => INR k * p k) <= INR (K - 1).
Proof.
  intros (Hp & Hs & _ & H0) HK. split.
  - apply sumn_nonneg; intros k Hk. apply Rmult_le_pos; [apply pos_INR|auto].
  - replace (INR (K - 1)) with (INR (K - 1) * sumn M p) by (rewrite Hs; ring).
    rewrite <- sumn_scal. apply sumn_le; intros k Hk.
    destruct (Nat.lt_ge_cases k K) as [H|H].
    + apply Rmult_le_compat_r; auto. apply le_INR. lia.
    + rewrite (H0 k) by lia. lra.
Qed.
Lemma prob_range K M p k : valid_distribution K M p -> (k < M)%nat -> 0 <= p k <= 1.
Proof.
  intros (Hp & Hs & _) Hk. split; auto. rewrite <- Hs. now apply sumn_term_le.
Qed.

Lemma expected_total items M mc probs out : expected_item_scores items M mc probs = Ok out ->
  expected_total_scores items M mc probs = Ok (map osum out).
Proof. intro H. unfold expected_total_scores. now rewrite H. Qed.

(** Expected scores from logits with the item's pattern. *)
Lemma truncated_average K M z : (1 <= K <= M)%nat ->
  sumn M (fun k => INR k * (if (k <? K)%nat then category_probability K z k else 0)) =
  sumn K (fun k => INR k * category_probability K z k).
Proof.
  intro HK. rewrite (sumn_truncate K M); [|lia|].
  - apply sumn_ext; intros k Hk. destruct (Nat.ltb_spec k K); [reflexivity|lia].
  - intros k Hk. destruct (Nat.ltb_spec k K); [lia|ring].
Qed.

Lemma expected_monotone_general items M (out : list (list ext)) r r' row row' i K z z' :
  Forall (fun o => length o = (items * M)%nat) out ->
  nth_error out r = Some row -> nth_error out r' = Some row' -> (i < items)%nat -> (1 <= K <= M)%nat ->
  (forall k, (k < M)%nat -> nth_error row (i * M + k) = Some (if (k <? K)%nat then Fin (z k) else NInf)) ->
  (forall k, (k < M)%nat -> nth_error row' (i * M + k) = Some (if (k <? K)%nat then Fin (z' k) else NInf)) ->
  (forall k, (S k < K)%nat -> z (S k) - z k <= z' (S k) - z' k) ->
  exists es e e', expected_item_scores items M None (probabilities_from_output items M out) = Ok es /\
    at2 es r i = Some (Some e) /\ at2 es r' i = Some (Some e') /\ e <= e'.
Proof.
  intros HF Hr Hr' Hi HK H H' Hz.
  pose proof (fun k Hk => probabilities_pattern items M out r row i K z ltac:(lia) HF Hr Hi HK H k Hk) as P.
  pose proof (fun k Hk => probabilities_pattern items M out r' row' i K z' ltac:(lia) HF Hr' Hi HK H' k Hk) as P'.
  destruct (expected_item_none items M _ r i _ Hi P ltac:(lia)) as (es & E1 & E2).
  destruct (expected_item_none items M _ r' i _ Hi P' ltac:(lia)) as (es' & E1' & E2').
  rewrite E1 in E1'. injection E1' as <-.
  do 3 eexists. split; [exact E1|]. split; [exact E2|]. split; [exact E2'|].
  rewrite !truncated_average by auto. apply average_monotone; auto. lia.
Qed.

Lemma gpc_expected m thetas r r' t t' i K d es :
  poly_wf m -> Forall (fun t => length t = p_lv m) thetas ->
  nth_error thetas r = Some t -> nth_error thetas r' = Some t' -> nth_error (p_cats m) i = Some K ->
  (d < p_lv m)%nat -> increases_in d t t' ->
  expected_item_scores (p_items m) (p_max m) None (gpc_probabilities m thetas) = Ok es ->
  exists e e', at2 es r i = Some (Some e) /\ at2 es r' i = Some (Some e') /\
    (0 <= slope (p_free m) (p_w m) i d -> e <= e') /\
    (0 < slope (p_free m) (p_w m) i d -> (2 <= K)%nat -> e < e') /\
    (slope (p_free m) (p_w m) i d <= 0 -> e' <= e).
Proof.
  intros Hwf HF Hr Hr' Hi Hd Hinc Hes.
  pose proof Hwf as (_ & Hc & _). destruct (cats_pos_bound _ _ _ Hc Hi) as [HK Hil]. fold (p_max m) in HK.
  pose proof (fun k Hk => gpc_probs_spec m thetas r t i K k Hwf HF Hr Hi Hk) as P.
  pose proof (fun k Hk => gpc_probs_spec m thetas r' t' i K k Hwf HF Hr' Hi Hk) as P'.
  destruct (expected_item_none (p_items m) (p_max m) _ r i _ Hil P ltac:(lia)) as (es1 & E1 & E2).
  destruct (expected_item_none (p_items m) (p_max m) _ r' i _ Hil P' ltac:(lia)) as (es2 & E1' & E2').
  rewrite Hes in E1, E1'. injection E1 as <-. injection E1' as <-.
  do 2 eexists. split; [exact E2|]. split; [exact E2'|].
  rewrite !truncated_average by auto.
  set (a := slope (p_free m) (p_w m) i) in *. set (u := predictor (p_lv m) a t). set (u' := predictor (p_lv m) a t').
  assert (Hdiff : forall v k, INR (S k) * v + intercept (p_cats m) (p_b m) i (S k)
             - (INR k * v + intercept (p_cats m) (p_b m) i k)
             = v + (intercept (p_cats m) (p_b m) i (S k) - intercept (p_cats m) (p_b m) i k)).
  { intros v k. rewrite S_INR. ring. }
  repeat split.
  - intro Ha. apply average_monotone; [lia|]. intros k Hk. rewrite !Hdiff.
    destruct Ha as [Ha|Ha].
    + pose proof (predictor_incr (p_lv m) a t t' d Hd Hinc Ha). unfold u, u'. lra.
    + pose proof (predictor_const (p_lv m) a t t' d Hd Hinc (eq_sym Ha)). unfold u, u'. lra.
  - intros Ha HK2. apply average_strict; [lia|]. intros k Hk. rewrite !Hdiff.
    pose proof (predictor_incr (p_lv m) a t t' d Hd Hinc Ha). unfold u, u'. lra.
  - intro Ha. apply average_monotone; [lia|]. intros k Hk. rewrite !Hdiff.
    destruct Ha as [Ha|Ha].
    + pose proof (predictor_decr (p_lv m) a t t' d Hd Hinc Ha). unfold u, u'. lra.
    + pose proof (predictor_const (p_lv m) a t t' d Hd Hinc Ha). unfold u, u'. lra.
Qed.

(** Graded response: the expected score is the sum of the exceedance probabilities. *)
Lemma average_geq n g : sumn n (fun k => INR k * (g k - g (S k))) = sumn n (fun k => g k) - g O - INR n * g n + g n * 1
  \/ n = O.
Proof.
  destruct n as [|n]; [now right|left].
  induction n as [|n IH]; [cbn; ring|].
  cbn [sumn] in *. rewrite IH. rewrite !S_INR. ring.
Qed.
Lemma grm_average K M z : (1 <= K <= M)%nat ->
  sumn M (fun k => INR k * (geq_probability K z k - geq_probability K z (S k))) =
  sumn (K - 1) (fun k => logistic (z (S k))).
Proof.
  intro HK. destruct (average_geq M (geq_probability K z)) as [E|]; [|lia].
  rewrite E, geq_0, (geq_top K M) by auto.
  destruct M as [|M']; [lia|]. rewrite sumn_S_first, geq_0.
  rewrite (sumn_truncate (K - 1) M').
  - rewrite (sumn_ext (K - 1) _ (fun k => logistic (z (S k)))); [ring|].
    intros k Hk. unfold geq_probability. cbn [Nat.eqb]. destruct (Nat.ltb_spec (S k) K); [reflexivity|lia].
  - lia.
  - intros k Hk. unfold geq_probability. cbn [Nat.eqb]. destruct (Nat.ltb_spec (S k) K); [lia|reflexivity].
Qed.
Lemma sumn_lt n f g : (0 < n)%nat -> (forall k, (k < n)%nat -> f k < g k) -> sumn n f < sumn n g.
Proof.
  intros Hn H. assert (0 < sumn n (fun k => g k - f k)).
  { apply sumn_pos; auto. intros k Hk. pose proof (H k Hk). lra. }
  rewrite sumn_minus in H0. lra.
Qed.

(** ** Item parameters *)
Lemma tpl_params_nth m i d : tpl_wf m -> (i < tpl_items m)%nat -> (d < tpl_lv m)%nat ->
  at2 (weight_matrix (tpl_free m) (tpl_lv m) (tpl_w m)) i d = Some (slope (tpl_free m) (tpl_w m) i d).
Proof.
  intros (Hlv & Hfr & Hw & Hb) Hi Hd. unfold at2. rewrite weight_matrix_row by auto.
  now rewrite nth_error_map_seq.
Qed.
Lemma predictor_ext lv a a' t : (forall d, (d < lv)%nat -> a d = a' d) -> predictor lv a t = predictor lv a' t.
Proof. intro H. unfold predictor. apply sumn_ext; intros d Hd. now rewrite H. Qed.

Lemma gpc_params_nth m i K k : poly_wf m -> nth_error (p_cats m) i = Some K -> (k < p_max m)%nat ->
  at2 (blocks (p_max m) (full_bias (free_bias (p_cats m) (p_max m)) (p_b m))) i k = Some (intercept (p_cats m) (p_b m) i k).
Proof.
  intros (Hlv & Hc & Hfl & Hfr & Hw & Hb) Hi Hk. destruct (cats_pos_bound _ _ _ Hc Hi) as [HK Hil].
  fold (p_max m) in HK. unfold at2. rewrite nth_error_blocks by lia. rewrite full_bias_length, free_bias_length.
  destruct (Nat.ltb_spec (i * p_max m) (length (p_cats m) * p_max m)) as [_|H]; [|nia].
  rewrite nth_error_firstn_lt, nth_error_skipn_add by auto.
  exact (nth_error_full_bias (p_cats m) (p_b m) i k K Hc Hb Hi Hk).
Qed.
Lemma poly_weights_nth m i d : poly_wf m -> (i < p_items m)%nat -> (d < p_lv m)%nat ->
  at2 (weight_matrix (p_free m) (p_lv m) (p_w m)) i d = Some (slope (p_free m) (p_w m) i d).
Proof.
  intros (Hlv & Hc & Hfl & Hfr & Hw & Hb) Hi Hd. unfold at2. rewrite weight_matrix_row by (auto; lia).
  now rewrite nth_error_map_seq.
Qed.
Lemma irt_row m i K k : poly_wf m -> p_lv m = 1%nat -> nth_error (p_cats m) i = Some K -> (S k < p_max m)%nat ->
  at2 (zip_with (fun row a => tl (map (fun d => - (d / nth 0 a 0)) row))
        (blocks (p_max m) (full_bias (free_bias (p_cats m) (p_max m)) (p_b m)))
        (weight_matrix (p_free m) (p_lv m) (p_w m))) i k =
  Some (- (intercept (p_cats m) (p_b m) i (S k) / slope (p_free m) (p_w m) i 0)).
Proof.
  intros Hwf Hlv Hi Hk. pose proof (gpc_params_nth m i K (S k) Hwf Hi Hk) as H.
  pose proof Hwf as (Hlv0 & Hc & Hfl & Hfr & Hw & Hb). destruct (cats_pos_bound _ _ _ Hc Hi) as [HK Hil].
  unfold at2 in *. rewrite nth_error_zip_with.
  destruct (nth_error (blocks (p_max m) _) i) as [row|]; [|discriminate].
  rewrite weight_matrix_row by (auto; unfold p_items in *; lia). rewrite Hlv. cbn [seq map nth].
  rewrite nth_error_tl, nth_error_map, H. reflexivity.
Qed.
Lemma increases_in_2 x a b : a < b -> increases_in 1 [x;a] [x;b].
Proof. intro H. split; [reflexivity|]. split; [exact H|]. intros [|[|[|e]]] He; auto; congruence. Qed.
