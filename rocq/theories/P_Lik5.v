(** The parametric models: shapes of their outputs, log-likelihoods, and use as parts of a mix. *)
From Verif Require Import Base BaseFacts RBase RFacts M_Data M_Logit S_Logit P_Logit P_Logit2 P_Logit3 T_Logit M_Lik S_Lik P_Lik1 P_Lik2 P_Lik3 P_Lik4.
Local Open Scope R_scope.

Lemma forward_rect {A B} (f : A -> list B) (thetas : list A) w : Forall (fun t => length (f t) = w) thetas ->
  rect (length thetas) w (map f thetas).
Proof.
  intro H. split; [apply map_length|]. apply Forall_forall. intros o Ho. apply in_map_iff in Ho as [t [<- Ht]].
  rewrite Forall_forall in H. auto.
Qed.
Lemma gpc_rect m thetas : poly_wf m -> Forall (fun t => length t = p_lv m) thetas ->
  rect (length thetas) (p_items m * p_max m) (gpc_forward m thetas).
Proof.
  intros Hwf HF. unfold gpc_forward. apply forward_rect. eapply Forall_impl; [|exact HF]. intros a Ha. cbv beta in Ha.
  pose proof (gpc_row_length m a Hwf Ha) as H. inversion H; subst. assumption.
Qed.
Lemma tpl_rect m thetas : tpl_wf m -> Forall (fun t => length t = tpl_lv m) thetas ->
  rect (length thetas) (tpl_items m * 2) (tpl_forward m thetas).
Proof.
  intros (Hlv & Hfr & Hw & Hb) HF. unfold tpl_forward. apply forward_rect. eapply Forall_impl; [|exact HF]. intros a Ha.
  unfold set_mask. rewrite zip_with_length, map_length, zip_with_length, repeat_interleave_length, map_length.
  rewrite first_category_length, bias2_length, weight_matrix_length by auto. unfold tpl_items. lia.
Qed.
Lemma nrm_rect m thetas : nrm_wf m -> rect (length thetas) (length (nrm_cats m) * nrm_max m) (nrm_forward m thetas).
Proof.
  intro Hwf. pose proof Hwf as (Hlv & Hc & Hrl & Hrf & Hw & Hb). unfold nrm_forward. apply forward_rect.
  apply Forall_forall. intros a _.
  unfold set_mask. rewrite zip_with_length, map_length, zip_with_length, map_length, missing_category_length.
  rewrite (length_concat_const _ (nrm_max m) (nrm_weights_rows m Hwf)), (length_concat_const _ (nrm_max m) (nrm_biases_rows m Hwf)).
  rewrite (nrm_weights_length m Hwf), (nrm_biases_length m Hwf). lia.
Qed.
Lemma grm_rect m thetas : poly_wf m -> (0 < p_items m)%nat -> (0 < p_max m)%nat -> Forall (fun t => length t = p_lv m) thetas ->
  rect (length thetas) (p_items m * p_max m) (grm_forward m thetas).
Proof.
  intros Hwf HI HM HF. unfold grm_forward. apply forward_rect. eapply Forall_impl; [|exact HF]. intros a Ha. cbv beta in Ha.
  destruct (nth_error (p_cats m) 0) as [K|] eqn:E; [|apply nth_error_None in E; unfold p_items in HI; lia].
  destruct (grm_row m a 0 K 0 Hwf Ha E HM) as (row & E' & El & _). cbn in E'. injection E' as <-. exact El.
Qed.
Lemma thpl_rect m thetas : thpl_wf m -> Forall (fun t => length t = thpl_lv m) thetas ->
  rect (length thetas) (thpl_items m) (thpl_forward m thetas).
Proof.
  intros (Hlv & Hfr & Hw & Hb & Hg) HF. unfold thpl_forward. apply forward_rect. eapply Forall_impl; [|exact HF]. intros a Ha.
  rewrite !zip_with_length, !map_length, zip_with_length, map_length, weight_matrix_length by auto. unfold thpl_items in *. lia.
Qed.

(** A table made by [blocks I (map f (blocks M (concat out)))]. *)
Lemma blocked_shape {A B} (f : list A -> list B) N I M out : (0 < I)%nat -> (0 < M)%nat -> rect N (I * M) out ->
  (forall r, length (f r) = length r) ->
  rect N I (blocks I (map f (blocks M (concat out)))) /\
  forall n i r, at2 (blocks I (map f (blocks M (concat out)))) n i = Some r -> length r = M.
Proof.
  intros HI HM [Hl HF] Hf.
  assert (Hc : length (concat out) = (N * (I * M))%nat) by (rewrite <- Hl; now apply length_concat_const).
  assert (Hb : length (blocks M (concat out)) = (N * I)%nat) by (apply blocks_count; auto; lia).
  assert (Hn : length (blocks I (map f (blocks M (concat out)))) = N) by (apply blocks_count; auto; now rewrite map_length).
  assert (Hrow : forall n row, nth_error (blocks I (map f (blocks M (concat out)))) n = Some row -> length row = I).
  { intros n row H. assert (n < N)%nat by (rewrite <- Hn; apply nth_error_Some; congruence).
    rewrite nth_error_blocks in H by auto. rewrite map_length, Hb in H. destruct (Nat.ltb_spec (n * I) (N * I)); [|nia].
    assert (E : row = firstn I (skipn (n * I) (map f (blocks M (concat out))))) by congruence. rewrite E.
    rewrite firstn_length, skipn_length, map_length, Hb. assert (n * I + I <= N * I)%nat by nia. lia. }
  split; [split; auto|].
  - apply Forall_forall. intros row H. apply In_nth_error in H as [n H]. eauto.
  - intros n i r H.
    assert (Hlt : (n < N)%nat /\ (i < I)%nat).
    { unfold at2 in H. destruct (nth_error (blocks I _) n) as [row|] eqn:E; [|discriminate]. split.
      - rewrite <- Hn. apply nth_error_Some. congruence.
      - rewrite <- (Hrow n row E). apply nth_error_Some. congruence. }
    destruct (nth_error out n) as [row|] eqn:E; [|apply nth_error_None in E; lia].
    rewrite (map_blocks_nth f I M out n i row) in H by (auto; lia || tauto).
    assert (E' : r = f (firstn M (skipn (i * M) row))) by congruence. rewrite E', Hf, firstn_length, skipn_length.
    rewrite Forall_forall in HF. rewrite (HF row) by (eapply nth_error_In; eauto). assert (i * M + M <= I * M)%nat by nia. lia.
Qed.
Lemma softmax_length row : length (softmax row) = length row.
Proof. unfold softmax. destruct (existsb is_pinf row || forallb is_ninf row); now rewrite map_length. Qed.
Lemma softmax_table_shape N I M out : (0 < I)%nat -> (0 < M)%nat -> rect N (I * M) out ->
  table_shape N I M (probabilities_from_output I M out).
Proof. intros. apply blocked_shape; auto using softmax_length. Qed.
Lemma some3_at2 p n i : at2 (some3 p) n i = option_map (map Some) (at2 p n i).
Proof.
  unfold at2, some3. rewrite nth_error_map. destruct (nth_error p n); cbn [option_map]; [|reflexivity]. now rewrite nth_error_map.
Qed.
Lemma some3_at3 p n i k : at3 (some3 p) n i k = option_map Some (at3 p n i k).
Proof.
  unfold at3, some3. rewrite nth_error_map. destruct (nth_error p n) as [r|]; cbn [option_map]; [|reflexivity].
  unfold at2. rewrite nth_error_map. destruct (nth_error r i); cbn [option_map]; [|reflexivity]. now rewrite nth_error_map.
Qed.
Lemma some3_shape N I M p : rect N I p -> (forall n i r, at2 p n i = Some r -> length r = M) -> table_shape N I M (some3 p).
Proof.
  intros [H1 H2] H3. split; [split|].
  - unfold some3. now rewrite map_length.
  - unfold some3. apply Forall_forall. intros r Hr. apply in_map_iff in Hr as [r0 [<- Hin]]. rewrite map_length.
    rewrite Forall_forall in H2. auto.
  - intros n i r H. rewrite some3_at2 in H. destruct (at2 p n i) as [r0|] eqn:E; [|discriminate]. injection H as <-.
    rewrite map_length. eauto.
Qed.
Lemma grm_diff_length geq : length (grm_diff geq) = length geq.
Proof.
  unfold grm_diff. rewrite app_length, zip_with_length, removelast_length, skipn_length. destruct geq; cbn [length tl]; lia.
Qed.
Lemma grm_table_shape N I M out : (0 < I)%nat -> (0 < M)%nat -> rect N (I * M) out ->
  table_shape N I M (some3 (grm_probs I M out)).
Proof.
  intros HI HM [Hl HF]. unfold grm_probs. rewrite concat_map.
  destruct (blocked_shape grm_diff N I M (map (map sigmoid_ext) out)) as [H1 H2]; auto using grm_diff_length.
  - split; [now rewrite map_length|]. apply Forall_forall. intros o Ho. apply in_map_iff in Ho as [a [<- Ha]].
    rewrite map_length. rewrite Forall_forall in HF; auto.
  - now apply some3_shape.
Qed.
Lemma thpl_table_shape N I (out : list (list R)) : rect N I out -> table_shape N I 2 (some3 (thpl_probs out)).
Proof.
  intros [Hl HF]. apply some3_shape.
  - unfold thpl_probs. split; [now rewrite map_length|]. apply Forall_forall. intros o Ho. apply in_map_iff in Ho as [a [<- Ha]].
    rewrite map_length. rewrite Forall_forall in HF; auto.
  - intros n i r H. unfold at2, thpl_probs in H. rewrite nth_error_map in H. destruct (nth_error out n); [|discriminate].
    cbn [option_map] in H. rewrite nth_error_map in H. destruct (nth_error l i); [|discriminate]. injection H as <-. reflexivity.
Qed.

(** Sum and cells from the two general lemmas. *)
Lemma base_loglik nanl N I M output data mask x p :
  (0 < M)%nat -> rect N (I * M) output -> rect N I data -> rect_opt N I mask -> responses N I M mask data x ->
  observed_probability N I mask (probabilities_from_output I M output) x p ->
  loglik_of N I mask (probabilities_from_output I M output) x (fun red => base_log_likelihood nanl M red data output mask).
Proof.
  intros HM Hout Hd Hm Hr Hp. exists p. split; auto. split.
  - now apply (base_sum nanl N I M data output mask x).
  - destruct (base_cells nanl N I M data output mask x HM Hout Hd Hm Hr) as (l & E & Hl & H). exists l. repeat split; auto.
    intros n i Hn Hi. rewrite H by auto. destruct (masked mask n i) eqn:Em; auto.
    destruct (Hp n i Hn Hi Em) as [Ep Hpos]. unfold prob_at. rewrite Ep. now rewrite flog_pos.
Qed.
Lemma prob_loglik nanl N I M probs data mask x p :
  (0 < M)%nat -> table_shape N I M probs -> rect N I data -> rect_opt N I mask -> responses N I M mask data x ->
  observed_probability N I mask probs x p ->
  loglik_of N I mask probs x (fun red => prob_log_likelihood nanl M red data probs mask).
Proof.
  intros HM [Hs1 Hs2] Hd Hm Hr Hp. exists p. split; auto. split.
  - now apply (prob_sum nanl N I M data probs mask x).
  - destruct (prob_cells nanl N I M data probs mask x HM Hs1 Hs2 Hd Hm Hr) as (l & E & Hl & H). exists l. repeat split; auto.
    intros n i Hn Hi. rewrite H by auto. destruct (masked mask n i) eqn:Em; auto.
    destruct (Hp n i Hn Hi Em) as [Ep Hpos]. unfold prob_at. rewrite Ep. now rewrite flog_pos.
Qed.
Lemma legal_responses_max N cats mask d x : Forall (fun K => (1 <= K)%nat) cats -> legal_responses N cats mask d x ->
  responses N (length cats) (list_max cats) mask d x.
Proof.
  intros Hc H n i Hn Hi Hm. destruct (nth_error cats i) as [K|] eqn:E; [|apply nth_error_None in E; lia].
  destruct (H n i K Hn E Hm) as [H1 H2]. destruct (cats_pos_bound cats i K Hc E) as [? _]. split; auto. lia.
Qed.
(** A table that is positive on real categories gives positive probabilities to legal responses. *)
Lemma positive_choice N cats mask d x probs :
  legal_responses N cats mask d x ->
  (forall n i K k, (n < N)%nat -> nth_error cats i = Some K -> (k < K)%nat -> exists q, at3 probs n i k = Some (Some q) /\ 0 < q) ->
  exists p, observed_probability N (length cats) mask probs x p.
Proof.
  intros Hl Hpos. exists (fun n i => match prob_at probs n i (x n i) with Some q => q | None => 0 end).
  intros n i Hn Hi Hm. destruct (nth_error cats i) as [K|] eqn:E; [|apply nth_error_None in E; lia].
  destruct (Hl n i K Hn E Hm) as [_ Hx]. destruct (Hpos n i K (x n i) Hn E Hx) as (q & Eq & Hq).
  unfold prob_at. rewrite Eq. auto.
Qed.
Lemma cats_max_pos cats : Forall (fun K => (1 <= K)%nat) cats -> (0 < length cats)%nat -> (0 < list_max cats)%nat.
Proof.
  intros Hc Hl. destruct (nth_error cats 0) as [K|] eqn:E; [|apply nth_error_None in E; lia].
  destruct (cats_pos_bound cats 0 K Hc E) as [? _]. rewrite Forall_forall in Hc. pose proof (Hc K (nth_error_In _ _ E)). lia.
Qed.
Lemma some_row {A} (l : list A) n : (n < length l)%nat -> exists t, nth_error l n = Some t.
Proof. intro H. destruct (nth_error l n) eqn:E; eauto. apply nth_error_None in E. lia. Qed.

Lemma gpc_loglik nanl m thetas data mask x :
  poly_wf m -> (0 < p_items m)%nat -> Forall (fun t => length t = p_lv m) thetas ->
  rect (length thetas) (p_items m) data -> rect_opt (length thetas) (p_items m) mask ->
  legal_responses (length thetas) (p_cats m) mask data x ->
  loglik_of (length thetas) (p_items m) mask (gpc_probabilities m thetas) x
    (fun red => base_log_likelihood nanl (p_max m) red data (gpc_forward m thetas) mask).
Proof.
  intros Hwf HI HF Hd Hm Hr. pose proof Hwf as (_ & Hc & _).
  destruct (positive_choice (length thetas) (p_cats m) mask data x (gpc_probabilities m thetas) Hr) as [p Hp].
  { intros n i K k Hn Hi Hk. destruct (some_row thetas n Hn) as [t Et].
    destruct (C13_gpc m thetas n t i K Hwf HF Et Hi) as (q & E & Hv). exists (q k).
    destruct (cats_pos_bound _ _ _ Hc Hi) as [HK _]. fold (p_max m) in HK. split; [apply E; lia|]. now apply Hv. }
  apply (base_loglik nanl _ _ _ _ data mask x p); auto.
  - now apply cats_max_pos.
  - now apply gpc_rect.
  - now apply legal_responses_max.
Qed.
Lemma nrm_loglik nanl m thetas data mask x :
  nrm_wf m -> (0 < length (nrm_cats m))%nat -> Forall (fun t => length t = nrm_lv m) thetas ->
  rect (length thetas) (length (nrm_cats m)) data -> rect_opt (length thetas) (length (nrm_cats m)) mask ->
  legal_responses (length thetas) (nrm_cats m) mask data x ->
  loglik_of (length thetas) (length (nrm_cats m)) mask (nrm_probabilities m thetas) x
    (fun red => base_log_likelihood nanl (nrm_max m) red data (nrm_forward m thetas) mask).
Proof.
  intros Hwf HI HF Hd Hm Hr. pose proof Hwf as (_ & Hc & _).
  destruct (positive_choice (length thetas) (nrm_cats m) mask data x (nrm_probabilities m thetas) Hr) as [p Hp].
  { intros n i K k Hn Hi Hk. destruct (some_row thetas n Hn) as [t Et].
    destruct (C13_nrm m thetas n t i K Hwf HF Et Hi) as (q & E & Hv). exists (q k).
    destruct (cats_pos_bound _ _ _ Hc Hi) as [HK _]. fold (nrm_max m) in HK. split; [apply E; lia|]. now apply Hv. }
  apply (base_loglik nanl _ _ _ _ data mask x p); auto.
  - now apply cats_max_pos.
  - now apply nrm_rect.
  - now apply legal_responses_max.
Qed.
Lemma repeat_max n : (0 < n)%nat -> list_max (repeat 2%nat n) = 2%nat.
Proof.
  intro H. induction n as [|n IH]; [lia|]. destruct n; [reflexivity|]. cbn [repeat] in *. unfold list_max in *. cbn [fold_right] in *.
  rewrite IH by lia. reflexivity.
Qed.
Lemma tpl_loglik nanl m thetas data mask x :
  tpl_wf m -> (0 < tpl_items m)%nat -> Forall (fun t => length t = tpl_lv m) thetas ->
  rect (length thetas) (tpl_items m) data -> rect_opt (length thetas) (tpl_items m) mask ->
  legal_responses (length thetas) (repeat 2%nat (tpl_items m)) mask data x ->
  loglik_of (length thetas) (tpl_items m) mask (tpl_probabilities m thetas) x
    (fun red => base_log_likelihood nanl 2 red data (tpl_forward m thetas) mask).
Proof.
  intros Hwf HI HF Hd Hm Hr.
  assert (Hres : responses (length thetas) (tpl_items m) 2 mask data x).
  { intros n i Hn Hi E. apply (Hr n i 2%nat); auto. now apply nth_error_repeat_lt. }
  destruct (positive_choice (length thetas) (repeat 2%nat (tpl_items m)) mask data x (tpl_probabilities m thetas) Hr) as [p Hp].
  { intros n i K k Hn Hi Hk. destruct (some_row thetas n Hn) as [t Et].
    assert (Hi' : (i < tpl_items m)%nat) by (rewrite <- (repeat_length 2%nat (tpl_items m)); apply nth_error_Some; congruence).
    rewrite nth_error_repeat_lt in Hi by auto. injection Hi as <-.
    destruct (C13_binary m thetas n t i Hwf HF Et Hi') as (q & E & Hv). exists (q k). split; [now apply E|]. now apply Hv. }
  rewrite repeat_length in Hp.
  apply (base_loglik nanl _ _ _ _ data mask x p); auto; try lia. now apply tpl_rect.
Qed.
Lemma opl_rect m thetas : length (opl_b m) = opl_items m -> rect (length thetas) (opl_items m * 2) (opl_forward m thetas).
Proof.
  intro Hb. unfold opl_forward. apply forward_rect. apply Forall_forall. intros a _.
  unfold set_mask. rewrite zip_with_length, map_length, first_category_length. unfold opl_free_bias.
  rewrite full_bias_length, map_length, first_category_length. lia.
Qed.
Lemma opl_loglik nanl m thetas data mask x :
  length (opl_b m) = opl_items m -> (0 < opl_items m)%nat ->
  rect (length thetas) (opl_items m) data -> rect_opt (length thetas) (opl_items m) mask ->
  legal_responses (length thetas) (repeat 2%nat (opl_items m)) mask data x ->
  loglik_of (length thetas) (opl_items m) mask (opl_probabilities m thetas) x
    (fun red => base_log_likelihood nanl 2 red data (opl_forward m thetas) mask).
Proof.
  intros Hb HI Hd Hm Hr.
  assert (Hres : responses (length thetas) (opl_items m) 2 mask data x).
  { intros n i Hn Hi E. apply (Hr n i 2%nat); auto. now apply nth_error_repeat_lt. }
  destruct (positive_choice (length thetas) (repeat 2%nat (opl_items m)) mask data x (opl_probabilities m thetas) Hr) as [p Hp].
  { intros n i K k Hn Hi Hk. destruct (some_row thetas n Hn) as [t Et].
    assert (Hi' : (i < opl_items m)%nat) by (rewrite <- (repeat_length 2%nat (opl_items m)); apply nth_error_Some; congruence).
    rewrite nth_error_repeat_lt in Hi by auto. injection Hi as <-.
    pose proof (opl_probs_spec m thetas n t i k Hb Et Hi' Hk) as E. cbv zeta in E. eexists; split; [exact E|].
    pose proof (logistic_bounds (t + nth i (opl_b m) 0)). destruct (k =? 1)%nat; lra. }
  rewrite repeat_length in Hp.
  apply (base_loglik nanl _ _ _ _ data mask x p); auto; try lia. now apply opl_rect.
Qed.
Lemma thpl_loglik nanl m thetas data mask x :
  thpl_wf m -> (0 < thpl_items m)%nat -> Forall (fun t => length t = thpl_lv m) thetas ->
  rect (length thetas) (thpl_items m) data -> rect_opt (length thetas) (thpl_items m) mask ->
  legal_responses (length thetas) (repeat 2%nat (thpl_items m)) mask data x ->
  loglik_of (length thetas) (thpl_items m) mask (some3 (thpl_probabilities m thetas)) x
    (fun red => thpl_log_likelihood nanl red data (thpl_forward m thetas) mask).
Proof.
  intros Hwf HI HF Hd Hm Hr.
  assert (Hres : responses (length thetas) (thpl_items m) 2 mask data x).
  { intros n i Hn Hi E. apply (Hr n i 2%nat); auto. now apply nth_error_repeat_lt. }
  destruct (positive_choice (length thetas) (repeat 2%nat (thpl_items m)) mask data x (some3 (thpl_probabilities m thetas)) Hr) as [p Hp].
  { intros n i K k Hn Hi Hk. destruct (some_row thetas n Hn) as [t Et].
    assert (Hi' : (i < thpl_items m)%nat) by (rewrite <- (repeat_length 2%nat (thpl_items m)); apply nth_error_Some; congruence).
    rewrite nth_error_repeat_lt in Hi by auto. injection Hi as <-.
    destruct (C16_thpl m thetas n t i Hwf HF Et Hi') as (c & q1 & q0 & _ & Hc & E1 & E0 & _ & H1 & Hs).
    destruct k as [|[|k]]; [exists q0|exists q1|lia]; rewrite some3_at3, ?E0, ?E1; split; try reflexivity; lra. }
  rewrite repeat_length in Hp.
  apply (prob_loglik nanl _ _ _ _ data mask x p); auto; try lia.
  unfold thpl_probabilities. apply thpl_table_shape. now apply thpl_rect.
Qed.
(** Graded response with intercepts decreasing over the categories. *)
Lemma geq_decreasing K z k : (k < K)%nat -> (forall j, (1 <= j)%nat -> (S j < K)%nat -> z (S j) < z j) ->
  geq_probability K z (S k) < geq_probability K z k.
Proof.
  intros Hk Hz. unfold geq_probability. cbn [Nat.eqb]. pose proof (logistic_bounds (z (S k))).
  destruct (Nat.eqb_spec k 0) as [->|Hk0].
  - destruct (1 <? K)%nat; lra.
  - destruct (Nat.ltb_spec k K); [|lia]. pose proof (logistic_bounds (z k)). destruct (Nat.ltb_spec (S k) K) as [H2|H2]; [|lra].
    apply logistic_incr. apply Hz; lia.
Qed.
Lemma grm_loglik nanl m thetas data mask x :
  poly_wf m -> (0 < p_items m)%nat -> Forall (fun t => length t = p_lv m) thetas ->
  (forall i K j, nth_error (p_cats m) i = Some K -> (1 <= j)%nat -> (S j < K)%nat ->
     intercept (p_cats m) (p_b m) i (S j) < intercept (p_cats m) (p_b m) i j) ->
  rect (length thetas) (p_items m) data -> rect_opt (length thetas) (p_items m) mask ->
  legal_responses (length thetas) (p_cats m) mask data x ->
  loglik_of (length thetas) (p_items m) mask (some3 (grm_probabilities m thetas)) x
    (fun red => grm_log_likelihood nanl m red data (grm_forward m thetas) mask).
Proof.
  intros Hwf HI HF Hdec Hd Hm Hr. pose proof Hwf as (_ & Hc & _).
  destruct (positive_choice (length thetas) (p_cats m) mask data x (some3 (grm_probabilities m thetas)) Hr) as [p Hp].
  { intros n i K k Hn Hi Hk. destruct (some_row thetas n Hn) as [t Et].
    destruct (cats_pos_bound _ _ _ Hc Hi) as [HK _]. fold (p_max m) in HK.
    pose proof (grm_probs_spec m thetas n t i K k Hwf HF Et Hi ltac:(lia)) as E. cbv zeta in E.
    rewrite some3_at3, E. cbn [option_map]. eexists; split; [reflexivity|].
    match goal with |- 0 < geq_probability K ?z k - _ => pose proof (geq_decreasing K z k Hk) as H end.
    cbv beta in H. assert (G : forall a b, b < a -> 0 < a - b) by (intros; lra). apply G. apply H.
    intros j Hj HjK. pose proof (Hdec i K j Hi Hj HjK). lra. }
  pose proof (cats_max_pos _ Hc HI) as HM. fold (p_max m) in HM.
  apply (prob_loglik nanl _ _ _ _ data mask x p); auto.
  - apply grm_table_shape; auto. now apply grm_rect.
  - now apply legal_responses_max.
Qed.
