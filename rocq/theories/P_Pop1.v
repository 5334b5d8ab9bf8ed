(** Directions reported by the models. *)
From Verif Require Import Base BaseFacts RBase RFacts M_Logit S_Logit P_Logit P_Logit2 P_Logit3 P_Logit4 M_Lik M_Mono S_Mono P_Mono7 M_Pop S_Pop.
Local Open Scope R_scope.

Lemma rsign_cases x : (rsign x = 1%Z /\ 0 < x) \/ (rsign x = (-1)%Z /\ x < 0) \/ (rsign x = 0%Z /\ x = 0).
Proof. unfold rsign. destruct (Rlt_dec 0 x); [left; auto|]. destruct (Rlt_dec x 0); [right; left; auto|]. right; right. split; [reflexivity|lra]. Qed.

Lemma weight_signs_nth free lv w i d :
  (0 < lv)%nat -> Forall (fun r => length r = lv) free -> length w = ctrue (concat free) -> (i < length free)%nat -> (d < lv)%nat ->
  at2 (weight_signs free lv w) i d = Some (rsign (slope free w i d)).
Proof.
  intros Hlv HF Hw Hi Hd. unfold at2, weight_signs. rewrite nth_error_map, weight_matrix_row by auto. cbn [option_map].
  rewrite nth_error_map, nth_error_map_seq by auto. reflexivity.
Qed.

Lemma binary_expected items probs r i p : (i < items)%nat ->
  at3 probs r i 0 = Some (Some (1 - p)) -> at3 probs r i 1 = Some (Some p) ->
  exists es, expected_item_scores items 2 None probs = Ok es /\ at2 es r i = Some (Some p).
Proof.
  intros Hi H0 H1.
  destruct (expected_item_none items 2 probs r i (fun k => if (k =? 0)%nat then 1 - p else p) Hi) as (es & E & E2).
  - intros [|[|k]] Hk; [exact H0|exact H1|lia].
  - lia.
  - exists es. split; [exact E|]. rewrite E2. do 2 f_equal. cbn [sumn Nat.eqb INR]. ring.
Qed.

Lemma follows_slope lv a t t' d (g : R -> R) b : (d < lv)%nat -> increases_in d t t' -> (forall x y, x < y -> g x < g y) ->
  follows (rsign (a d)) (g (predictor lv a t + b)) (g (predictor lv a t' + b)).
Proof.
  intros Hd Hinc Hg. destruct (rsign_cases (a d)) as [[E H]|[[E H]|[E H]]]; rewrite E; unfold follows.
  - left. split; [reflexivity|]. apply Hg. pose proof (predictor_incr lv a t t' d Hd Hinc H). lra.
  - right; left. split; [reflexivity|]. apply Hg. pose proof (predictor_decr lv a t t' d Hd Hinc H). lra.
  - right; right. split; [reflexivity|]. now rewrite (predictor_const lv a t t' d Hd Hinc H).
Qed.

Lemma gpc_average_follows K M a c c' (b : nat -> R) : (2 <= K <= M)%nat -> (a = 1%Z -> c < c') -> (a = (-1)%Z -> c' < c) -> (a = 0%Z -> c = c') ->
  a = 1%Z \/ a = (-1)%Z \/ a = 0%Z ->
  follows a (sumn K (fun k => INR k * category_probability K (fun k => INR k * c + b k) k))
            (sumn K (fun k => INR k * category_probability K (fun k => INR k * c' + b k) k)).
Proof.
  intros HK H1 H2 H3 [->|[->| ->]]; unfold follows.
  - left. split; [reflexivity|]. apply average_strict; [lia|]. intros k Hk. rewrite S_INR. specialize (H1 eq_refl). lra.
  - right; left. split; [reflexivity|]. apply average_strict; [lia|]. intros k Hk. rewrite S_INR. specialize (H2 eq_refl). lra.
  - right; right. split; [reflexivity|]. now rewrite (H3 eq_refl).
Qed.

Lemma gpc_follows m thetas r r' t t' i K d :
  poly_wf m -> Forall (fun t => length t = p_lv m) thetas ->
  nth_error thetas r = Some t -> nth_error thetas r' = Some t' -> nth_error (p_cats m) i = Some K -> (2 <= K)%nat ->
  (d < p_lv m)%nat -> increases_in d t t' ->
  exists es e e' z, expected_item_scores (p_items m) (p_max m) None (gpc_probabilities m thetas) = Ok es /\
    at2 es r i = Some (Some e) /\ at2 es r' i = Some (Some e') /\ at2 (poly_directions m) i d = Some z /\ follows z e e'.
Proof.
  intros Hwf HF Hr Hr' Hi HK2 Hd Hinc.
  pose proof Hwf as (Hlv & Hc & Hfl & Hfr & Hw & _). destruct (cats_pos_bound _ _ _ Hc Hi) as [HK Hil]. fold (p_max m) in HK.
  pose proof (fun k Hk => gpc_probs_spec m thetas r t i K k Hwf HF Hr Hi Hk) as P.
  pose proof (fun k Hk => gpc_probs_spec m thetas r' t' i K k Hwf HF Hr' Hi Hk) as P'.
  destruct (expected_item_none (p_items m) (p_max m) _ r i _ Hil P ltac:(lia)) as (es & E1 & E2).
  destruct (expected_item_none (p_items m) (p_max m) _ r' i _ Hil P' ltac:(lia)) as (es2 & E1' & E2').
  assert (es2 = es) by congruence. subst es2.
  do 4 eexists. split; [exact E1|]. split; [exact E2|]. split; [exact E2'|].
  split; [unfold poly_directions; apply weight_signs_nth; auto; rewrite Hfl; exact Hil|].
  rewrite !truncated_average by auto.
  set (a := slope (p_free m) (p_w m) i) in *.
  apply (gpc_average_follows K (p_max m) (rsign (a d)) (predictor (p_lv m) a t) (predictor (p_lv m) a t') (fun k => intercept (p_cats m) (p_b m) i k)); [lia| | | |].
  - destruct (rsign_cases (a d)) as [[E H]|[[E H]|[E H]]]; rewrite E; intro; try discriminate. now apply (predictor_incr _ a t t' d).
  - destruct (rsign_cases (a d)) as [[E H]|[[E H]|[E H]]]; rewrite E; intro; try discriminate. now apply (predictor_decr _ a t t' d).
  - destruct (rsign_cases (a d)) as [[E H]|[[E H]|[E H]]]; rewrite E; intro; try discriminate. symmetry. now apply (predictor_const _ a t t' d).
  - destruct (rsign_cases (a d)) as [[E H]|[[E H]|[E H]]]; auto.
Qed.

Lemma some3_at3 probs r i k p : at3 probs r i k = Some p -> at3 (some3 probs) r i k = Some (Some p).
Proof.
  unfold at3, at2, some3. intros H. rewrite nth_error_map. destruct (nth_error probs r) as [row|]; [|discriminate]. cbn [option_map].
  rewrite nth_error_map. destruct (nth_error row i) as [c|]; [|discriminate]. cbn [option_map]. rewrite nth_error_map, H. reflexivity.
Qed.

Lemma grm_follows m thetas r r' t t' i K d :
  poly_wf m -> Forall (fun t => length t = p_lv m) thetas ->
  nth_error thetas r = Some t -> nth_error thetas r' = Some t' -> nth_error (p_cats m) i = Some K -> (2 <= K)%nat ->
  (d < p_lv m)%nat -> increases_in d t t' ->
  exists es e e' z, expected_item_scores (p_items m) (p_max m) None (some3 (grm_probabilities m thetas)) = Ok es /\
    at2 es r i = Some (Some e) /\ at2 es r' i = Some (Some e') /\ at2 (poly_directions m) i d = Some z /\ follows z e e'.
Proof.
  intros Hwf HF Hr Hr' Hi HK2 Hd Hinc.
  pose proof Hwf as (Hlv & Hc & Hfl & Hfr & Hw & _). destruct (cats_pos_bound _ _ _ Hc Hi) as [HK Hil]. fold (p_max m) in HK.
  pose proof (fun k Hk => some3_at3 _ _ _ _ _ (grm_probs_spec m thetas r t i K k Hwf HF Hr Hi Hk)) as P.
  pose proof (fun k Hk => some3_at3 _ _ _ _ _ (grm_probs_spec m thetas r' t' i K k Hwf HF Hr' Hi Hk)) as P'.
  destruct (expected_item_none (p_items m) (p_max m) _ r i _ Hil P ltac:(lia)) as (es & E1 & E2).
  destruct (expected_item_none (p_items m) (p_max m) _ r' i _ Hil P' ltac:(lia)) as (es2 & E1' & E2').
  assert (es2 = es) by congruence. subst es2.
  do 4 eexists. split; [exact E1|]. split; [exact E2|]. split; [exact E2'|].
  split; [unfold poly_directions; apply weight_signs_nth; auto; rewrite Hfl; exact Hil|].
  rewrite !grm_average by auto.
  set (a := slope (p_free m) (p_w m) i) in *.
  destruct (rsign_cases (a d)) as [[E H]|[[E H]|[E H]]]; rewrite E; unfold follows.
  - left. split; [reflexivity|]. apply sumn_lt; [lia|]. intros k Hk. apply logistic_lt_iff. pose proof (predictor_incr _ _ _ _ _ Hd Hinc H). lra.
  - right; left. split; [reflexivity|]. apply sumn_lt; [lia|]. intros k Hk. apply logistic_lt_iff. pose proof (predictor_decr _ _ _ _ _ Hd Hinc H). lra.
  - right; right. split; [reflexivity|]. apply sumn_ext. intros k Hk. now rewrite (predictor_const _ _ _ _ _ Hd Hinc H).
Qed.
