(** Proofs about the parametric models. *)
From Verif Require Import Base BaseFacts RBase RFacts M_Logit S_Logit.

(** ** Index lemmas *)
Lemma nth_error_concat_const {A} (ls : list (list A)) M i k l :
  Forall (fun l => length l = M) ls -> nth_error ls i = Some l -> k < M ->
  nth_error (concat ls) (i * M + k) = nth_error l k.
Proof.
  intros HF Hi Hk. revert i Hi; induction ls as [|l0 ls IH]; intros [|i] Hi; cbn in Hi; try discriminate.
  - injection Hi as ->. inversion HF; subst. cbn. now rewrite nth_error_app1.
  - inversion HF as [|? ? Hl HF']; subst. cbn [concat].
    rewrite nth_error_app2 by lia.
    replace (S i * length l0 + k - length l0) with (i * length l0 + k) by lia. now apply IH.
Qed.
Lemma length_concat_const {A} (ls : list (list A)) M :
  Forall (fun l => length l = M) ls -> length (concat ls) = length ls * M.
Proof.
  induction 1 as [|l ls Hl _ IH]; cbn; auto. rewrite app_length, IH, Hl. lia.
Qed.

(** Every position of a table with rows of length M is i * M + k. *)
Lemma position_split n M p : p < n * M -> exists i k, i < n /\ k < M /\ p = i * M + k.
Proof.
  intro H. assert (M <> 0) by nia. exists (p / M), (p mod M).
  pose proof (Nat.div_mod p M ltac:(auto)). pose proof (Nat.mod_upper_bound p M ltac:(auto)).
  repeat split; auto; [|lia]. apply Nat.div_lt_upper_bound; auto. lia.
Qed.
Lemma position_lt n M i k : i < n -> k < M -> i * M + k < n * M.
Proof. intros; nia. Qed.

Lemma first_category_rows n M : Forall (fun l => length l = M) (map (upd 0 true) (repeat (repeat false M) n)).
Proof.
  apply Forall_forall; intros l Hl. apply in_map_iff in Hl as [l' [<- H]].
  apply repeat_spec in H as ->. now rewrite upd_length, repeat_length.
Qed.
Lemma first_category_length n M : length (first_category n M) = n * M.
Proof.
  unfold first_category. rewrite (length_concat_const _ M (first_category_rows n M)).
  now rewrite map_length, repeat_length.
Qed.
Lemma nth_error_first_category n M i k : i < n -> k < M ->
  nth_error (first_category n M) (i * M + k) = Some (k =? 0).
Proof.
  intros Hi Hk. unfold first_category.
  rewrite (nth_error_concat_const _ M i k (upd 0 true (repeat false M))); auto.
  - rewrite nth_error_upd by (rewrite repeat_length; lia).
    rewrite nth_error_repeat_lt by auto. destruct k; reflexivity.
  - apply first_category_rows.
  - now rewrite nth_error_map, nth_error_repeat_lt.
Qed.

Lemma missing_rows cats M :
  Forall (fun l => length l = M) (map (fun K => repeat false (Nat.min K M) ++ repeat true (M - K)) cats).
Proof.
  apply Forall_forall; intros l Hl. apply in_map_iff in Hl as [K [<- H]].
  rewrite app_length, !repeat_length. lia.
Qed.
Lemma missing_category_length cats M : length (missing_category cats M) = length cats * M.
Proof.
  unfold missing_category. rewrite (length_concat_const _ M (missing_rows cats M)). now rewrite map_length.
Qed.
Lemma nth_error_missing_category cats M i k K : nth_error cats i = Some K -> k < M ->
  nth_error (missing_category cats M) (i * M + k) = Some (K <=? k).
Proof.
  intros Hi Hk. unfold missing_category.
  rewrite (nth_error_concat_const _ M i k (repeat false (Nat.min K M) ++ repeat true (M - K))); auto.
  - destruct (Nat.leb_spec K k).
    + rewrite nth_error_app2 by (rewrite repeat_length; lia). rewrite repeat_length.
      apply nth_error_repeat_lt. lia.
    + rewrite nth_error_app1 by (rewrite repeat_length; lia). apply nth_error_repeat_lt. lia.
  - apply missing_rows.
  - now rewrite nth_error_map, Hi.
Qed.

Lemma free_bias_length cats M : length (free_bias cats M) = length cats * M.
Proof.
  unfold free_bias. rewrite zip_with_length, first_category_length, missing_category_length. lia.
Qed.
Lemma nth_error_free_bias cats M i k K : nth_error cats i = Some K -> k < M ->
  nth_error (free_bias cats M) (i * M + k) = Some ((1 <=? k) && (k <? K)).
Proof.
  intros Hi Hk. unfold free_bias. rewrite nth_error_zip_with.
  rewrite nth_error_first_category by (auto; apply nth_error_Some; congruence).
  rewrite (nth_error_missing_category cats M i k K) by auto. f_equal.
  destruct k; cbn [Nat.eqb negb andb Nat.leb]; [reflexivity|].
  destruct (Nat.leb_spec K (S k)), (Nat.ltb_spec (S k) K); try reflexivity; lia.
Qed.

(** Counting. *)
Lemma ctrue_app a b : ctrue (a ++ b) = ctrue a + ctrue b.
Proof. unfold ctrue. now rewrite filter_app, app_length. Qed.
Lemma ctrue_cons b l : ctrue (b :: l) = (if b then 1 else 0) + ctrue l.
Proof. unfold ctrue. destruct b; reflexivity. Qed.
Lemma firstn_S_nth {A} (l : list A) p x : nth_error l p = Some x -> firstn (S p) l = firstn p l ++ [x].
Proof.
  revert p; induction l as [|y l IH]; intros [|p] H; cbn in H; try discriminate.
  - now injection H as ->.
  - cbn [firstn app]. f_equal. rewrite <- (IH p H). reflexivity.
Qed.
Lemma ctrue_firstn_S l p b : nth_error l p = Some b -> ctrue (firstn (S p) l) = ctrue (firstn p l) + (if b then 1 else 0).
Proof. intro H. rewrite (firstn_S_nth l p b H), ctrue_app, ctrue_cons. cbn. lia. Qed.
Lemma ctrue_firstn_le l p : ctrue (firstn p l) <= ctrue l.
Proof. rewrite <- (firstn_skipn p l) at 2. rewrite ctrue_app. lia. Qed.
Lemma ctrue_firstn_lt l p : nth_error l p = Some true -> ctrue (firstn p l) < ctrue l.
Proof. intro H. pose proof (ctrue_firstn_S l p true H) as E; cbv iota in E. pose proof (ctrue_firstn_le l (S p)). lia. Qed.

Lemma mask_scatter_length {A} m (vals l : list A) : length (mask_scatter m vals l) = length l.
Proof.
  revert vals l; induction m as [|b m IH]; intros vals [|x l]; cbn; auto.
  destruct b; [destruct vals|]; cbn; now rewrite IH.
Qed.
Lemma nth_error_mask_scatter {A} m (vals l : list A) p b :
  length m = length l -> ctrue m <= length vals -> nth_error m p = Some b ->
  nth_error (mask_scatter m vals l) p = if b then nth_error vals (ctrue (firstn p m)) else nth_error l p.
Proof.
  revert vals l p; induction m as [|b0 m IH]; intros vals l p Hl Hc Hp; [destruct p; discriminate|].
  destruct l as [|x l]; [discriminate|]. rewrite ctrue_cons in Hc. cbn [length] in Hl.
  destruct p as [|p]; cbn [nth_error] in Hp.
  - injection Hp as ->. cbn. destruct b; [destruct vals; cbn in *; [lia|reflexivity]|reflexivity].
  - cbn [firstn]. rewrite ctrue_cons. cbn [mask_scatter]. destruct b0.
    + destruct vals as [|v vals]; [cbn in Hc; lia|]. cbn [nth_error]. cbn [length] in Hc.
      rewrite IH by (auto; lia). destruct b; reflexivity.
    + cbn [nth_error]. rewrite IH by (auto; lia). destruct b; reflexivity.
Qed.

(** Number of free intercepts before category k of item i. *)
Lemma count_free_bias cats M i k K :
  nth_error cats i = Some K -> 1 <= K -> K <= M -> Forall (fun K => 1 <= K <= M) cats -> k <= M ->
  ctrue (firstn (i * M + k) (free_bias cats M)) = list_sum (firstn i (map pred cats)) + (Nat.min k K - 1).
Proof.
  intros Hi HK HKM HF. revert k K Hi HK HKM. induction i as [|i IHi]; intros k K Hi HK HKM Hk.
  - induction k as [|k IH]; [reflexivity|].
    rewrite Nat.add_succ_r, (ctrue_firstn_S _ _ ((1 <=? k) && (k <? K))).
    + rewrite IH by lia. destruct (Nat.leb_spec 1 k); destruct (Nat.ltb_spec k K); cbn [andb]; lia.
    + apply nth_error_free_bias; auto.
  - assert (exists K', nth_error cats i = Some K') as [K' HK'].
    { destruct (nth_error cats i) eqn:E; eauto. apply nth_error_None in E.
      assert (S i < length cats) by (apply nth_error_Some; congruence). lia. }
    assert (1 <= K' <= M) as HK'b.
    { rewrite Forall_forall in HF. apply HF. eapply nth_error_In; eauto. }
    induction k as [|k IH].
    + replace (S i * M + 0) with (i * M + M) by lia.
      rewrite (IHi M K') by (auto; lia).
      rewrite (firstn_S_nth _ i (pred K')) by (rewrite nth_error_map, HK'; reflexivity).
      rewrite list_sum_app. unfold list_sum at 3. cbn [fold_right]. lia.
    + rewrite Nat.add_succ_r, (ctrue_firstn_S _ _ ((1 <=? k) && (k <? K))).
      * rewrite IH by lia. destruct (Nat.leb_spec 1 k); destruct (Nat.ltb_spec k K); cbn [andb]; lia.
      * apply nth_error_free_bias; auto.
Qed.

Lemma list_max_bound cats K : In K cats -> K <= list_max cats.
Proof.
  intro H. pose proof (proj1 (list_max_le cats (list_max cats)) (Nat.le_refl _)) as HF.
  rewrite Forall_forall in HF. auto.
Qed.

Lemma ctrue_free_bias cats : Forall (fun K => 1 <= K) cats ->
  ctrue (free_bias cats (list_max cats)) = list_sum (map pred cats).
Proof.
  intro HF. set (M := list_max cats).
  assert (HF' : Forall (fun K => 1 <= K <= M) cats).
  { rewrite Forall_forall in *. intros K HK. split; auto. now apply list_max_bound. }
  destruct cats as [|K0 cats0] eqn:E; [reflexivity|]. rewrite <- E in *.
  assert (Hn : 0 < length cats) by (rewrite E; cbn; lia).
  set (i := length cats - 1).
  destruct (nth_error cats i) as [K|] eqn:HK; [|apply nth_error_None in HK; lia].
  assert (1 <= K <= M) by (rewrite Forall_forall in HF'; apply HF'; eapply nth_error_In; eauto).
  pose proof (count_free_bias cats M i M K HK ltac:(lia) ltac:(lia) HF' ltac:(lia)) as H1.
  replace (i * M + M) with (length (free_bias cats M)) in H1
    by (rewrite free_bias_length; unfold i; nia).
  rewrite firstn_all in H1. rewrite H1.
  assert (H2 : firstn (S i) (map pred cats) = map pred cats).
  { apply firstn_all2. rewrite map_length. lia. }
  rewrite <- H2 at 2. rewrite (firstn_S_nth _ i (pred K)) by (rewrite nth_error_map, HK; reflexivity).
  rewrite list_sum_app. unfold list_sum at 3. cbn [fold_right]. lia.
Qed.

Lemma sum_minus_length cats : Forall (fun K => 1 <= K) cats -> list_sum cats - length cats = list_sum (map pred cats).
Proof.
  induction 1 as [|K cats HK HF IH]; [reflexivity|].
  assert (length cats <= list_sum cats).
  { clear - HF. induction HF; cbn [length]; unfold list_sum in *; cbn [fold_right]; lia. }
  cbn [map length]. unfold list_sum in *. cbn [fold_right]. lia.
Qed.

Local Open Scope R_scope.

Lemma nth_error_full_bias cats b i k K :
  Forall (fun K => (1 <= K)%nat) cats -> length b = list_sum (map pred cats) ->
  nth_error cats i = Some K -> (k < list_max cats)%nat ->
  nth_error (full_bias (free_bias cats (list_max cats)) b) (i * list_max cats + k) = Some (intercept cats b i k).
Proof.
  intros HF Hb Hi Hk. set (M := list_max cats) in *.
  assert (HF' : Forall (fun K => (1 <= K <= M)%nat) cats).
  { rewrite Forall_forall in *. intros K' HK. split; auto. now apply list_max_bound. }
  assert (HK : (1 <= K <= M)%nat) by (rewrite Forall_forall in HF'; apply HF'; eapply nth_error_In; eauto).
  assert (Hlt : (i < length cats)%nat) by (apply nth_error_Some; congruence).
  unfold full_bias. pose proof (nth_error_free_bias cats M i k K Hi Hk) as Hfb.
  assert (Hcf : (ctrue (free_bias cats M) <= length b)%nat) by (rewrite Hb; unfold M; now rewrite ctrue_free_bias).
  rewrite (nth_error_mask_scatter (free_bias cats M) b _ _ _ (eq_sym (repeat_length 0 _)) Hcf Hfb).
  unfold intercept. rewrite (nth_error_nth cats i O Hi).
  destruct ((1 <=? k)%nat && (k <? K)%nat) eqn:E.
  - apply andb_true_iff in E as [E1 E2]. apply Nat.leb_le in E1. apply Nat.ltb_lt in E2.
    rewrite (count_free_bias cats M i k K) by (auto; lia).
    replace (Nat.min k K - 1)%nat with (k - 1)%nat by lia.
    apply nth_error_nth_lt.
    pose proof (ctrue_firstn_lt (free_bias cats M) (i * M + k)) as Hc.
    rewrite (count_free_bias cats M i k K) in Hc by (auto; lia).
    replace (Nat.min k K - 1)%nat with (k - 1)%nat in Hc by lia.
    rewrite Hb, <- ctrue_free_bias by auto. apply Hc.
    exact Hfb.
  - apply nth_error_repeat_lt. rewrite free_bias_length. now apply position_lt.
Qed.
Lemma full_bias_length mask b : length (full_bias mask b) = length mask.
Proof. unfold full_bias. now rewrite mask_scatter_length, repeat_length. Qed.

(** ** Slopes *)
Lemma firstn_concat_const {A} (ls : list (list A)) M i k l :
  Forall (fun l => length l = M) ls -> nth_error ls i = Some l -> (k <= M)%nat ->
  firstn (i * M + k) (concat ls) = concat (firstn i ls) ++ firstn k l.
Proof.
  intros HF. revert i; induction ls as [|l0 ls IH]; intros [|i] Hi Hk; cbn in Hi; try discriminate.
  - injection Hi as ->. inversion HF; subst. cbn [concat firstn app Nat.mul Nat.add].
    rewrite firstn_app. replace (k - length l)%nat with O by lia. cbn. now rewrite app_nil_r.
  - inversion HF as [|? ? Hl HF']; subst. cbn [concat firstn].
    rewrite firstn_app. rewrite (firstn_all2 l0) by lia. rewrite <- app_assoc. f_equal.
    replace (S i * length l0 + k - length l0)%nat with (i * length l0 + k)%nat by lia. now apply IH.
Qed.

Lemma weight_matrix_row free lv w i :
  (0 < lv)%nat -> Forall (fun r => length r = lv) free -> length w = ctrue (concat free) ->
  (i < length free)%nat ->
  nth_error (weight_matrix free lv w) i = Some (map (slope free w i) (seq 0 lv)).
Proof.
  intros Hlv HF Hw Hi. unfold weight_matrix. rewrite nth_error_blocks by auto.
  rewrite mask_scatter_length, repeat_length.
  destruct (Nat.ltb_spec (i * lv) (length free * lv)) as [_|H]; [|nia].
  f_equal. apply nth_error_ext. intro d. destruct (Nat.lt_ge_cases d lv) as [Hd|Hd].
  - rewrite nth_error_firstn_lt, nth_error_skipn_add by auto.
    rewrite nth_error_map_seq by auto. cbn [Nat.add].
    destruct (nth_error free i) as [row|] eqn:Hrow; [|apply nth_error_None in Hrow; lia].
    assert (Hrl : length row = lv) by (rewrite Forall_forall in HF; apply HF; eapply nth_error_In; eauto).
    assert (Hm : nth_error (concat free) (i * lv + d) = Some (nth d row false)).
    { rewrite (nth_error_concat_const free lv i d row) by auto. apply nth_error_nth_lt. lia. }
    assert (Hlen : length (concat free) = length (repeat 0 (length free * lv)))
      by (rewrite repeat_length; now apply length_concat_const).
    rewrite (nth_error_mask_scatter (concat free) w _ _ _ Hlen (Nat.eq_le_incl _ _ (eq_sym Hw)) Hm).
    unfold slope. rewrite (nth_error_nth free i [] Hrow).
    destruct (nth d row false) eqn:E.
    + rewrite (firstn_concat_const free lv i d row) by (auto; lia). rewrite ctrue_app.
      apply nth_error_nth_lt. pose proof (ctrue_firstn_lt _ _ Hm) as Hc.
      rewrite (firstn_concat_const free lv i d row) in Hc by (auto; lia). rewrite ctrue_app in Hc. lia.
    + apply nth_error_repeat_lt. nia.
  - rewrite nth_error_firstn_ge by auto. symmetry. apply nth_error_None. now rewrite map_length, seq_length.
Qed.
Lemma weight_matrix_length free lv w :
  (0 < lv)%nat -> length (weight_matrix free lv w) = length free.
Proof.
  intro H. unfold weight_matrix. rewrite blocks_length by auto.
  rewrite mask_scatter_length, repeat_length. unfold ceil_div.
  replace (length free * lv + lv - 1)%nat with ((lv - 1) + length free * lv)%nat by lia.
  rewrite Nat.div_add by lia. rewrite Nat.div_small; lia.
Qed.

Lemma nth_map_seq {A} (f : nat -> A) n d x : (d < n)%nat -> nth d (map f (seq 0 n)) x = f d.
Proof. intro H. apply nth_error_nth. now apply (nth_error_map_seq f n 0). Qed.

Lemma dot_slopes lv t a : length t = lv -> dot t (map a (seq 0 lv)) = predictor lv a t.
Proof.
  intro H. rewrite (dot_sumn lv) by (rewrite ?map_length, ?seq_length; auto).
  unfold predictor. apply sumn_ext; intros d Hd. rewrite nth_map_seq by auto. ring.
Qed.
Lemma predictors_nth free lv w t i :
  (0 < lv)%nat -> Forall (fun r => length r = lv) free -> length w = ctrue (concat free) ->
  length t = lv -> (i < length free)%nat ->
  nth_error (map (dot t) (weight_matrix free lv w)) i = Some (predictor lv (slope free w i) t).
Proof.
  intros. rewrite nth_error_map, weight_matrix_row by auto. cbn. f_equal. now apply dot_slopes.
Qed.

(** ** probabilities_from_output *)
Lemma map_blocks_nth {A B} (f : list A -> B) n M (out : list (list A)) r i row :
  (0 < n)%nat -> (0 < M)%nat -> Forall (fun o => length o = (n * M)%nat) out ->
  nth_error out r = Some row -> (i < n)%nat ->
  at2 (blocks n (map f (blocks M (concat out)))) r i = Some (f (firstn M (skipn (i * M) row))).
Proof.
  intros Hn HM HF Hr Hi. unfold at2. rewrite nth_error_blocks by auto.
  assert (Hc : length (concat out) = (length out * (n * M))%nat) by now apply length_concat_const.
  assert (Hb : length (blocks M (concat out)) = (length out * n)%nat).
  { rewrite blocks_length by auto. rewrite Hc. unfold ceil_div.
    replace (length out * (n * M) + M - 1)%nat with ((M - 1) + (length out * n) * M)%nat by lia.
    rewrite Nat.div_add by lia. rewrite Nat.div_small; lia. }
  assert (Hlt : (r < length out)%nat) by (apply nth_error_Some; congruence).
  rewrite map_length, Hb.
  destruct (Nat.ltb_spec (r * n) (length out * n)) as [_|H]; [|nia].
  rewrite nth_error_firstn_lt, nth_error_skipn_add, nth_error_map by auto.
  rewrite nth_error_blocks by auto. rewrite Hc.
  destruct (Nat.ltb_spec ((r * n + i) * M) (length out * (n * M))) as [_|H].
  2:{ assert (r * n + i < length out * n)%nat by nia. nia. }
  cbn [option_map]. f_equal. f_equal.
  assert (Hrow : length row = (n * M)%nat) by (rewrite Forall_forall in HF; apply HF; eapply nth_error_In; eauto).
  apply nth_error_ext; intro k. destruct (Nat.lt_ge_cases k M) as [Hk|Hk].
  - rewrite !nth_error_firstn_lt, !nth_error_skipn_add by auto.
    replace ((r * n + i) * M + k)%nat with (r * (n * M) + (i * M + k))%nat by lia.
    apply nth_error_concat_const; auto. nia.
  - now rewrite !nth_error_firstn_ge.
Qed.

(** The row of extended logits of an item with K real categories. *)
Lemma softmax_pattern (l : list ext) K M z :
  (1 <= K <= M)%nat -> length l = M ->
  (forall k, (k < M)%nat -> nth_error l k = Some (if (k <? K)%nat then Fin (z k) else NInf)) ->
  forall k, (k < M)%nat ->
  nth_error (softmax l) k = Some (Some (if (k <? K)%nat then category_probability K z k else 0)).
Proof.
  intros HK Hl H k Hk. unfold softmax.
  assert (E1 : existsb is_pinf l = false).
  { apply not_true_is_false. intro E. apply existsb_exists in E as [x [Hx Hp]].
    apply In_nth_error in Hx as [j Hj]. assert (j < M)%nat by (rewrite <- Hl; apply nth_error_Some; congruence).
    rewrite H in Hj by auto. injection Hj as <-. destruct (j <? K)%nat; discriminate. }
  assert (E2 : forallb is_ninf l = false).
  { apply not_true_is_false. intro E. rewrite forallb_forall in E.
    pose proof (H O ltac:(lia)) as H0. apply nth_error_In in H0. apply E in H0.
    destruct (Nat.ltb_spec 0 K); [discriminate|lia]. }
  rewrite E1, E2. cbn [orb]. rewrite nth_error_map, H by auto. cbn [option_map].
  assert (Hs : rsum (map exp_ext l) = sumn K (fun j => exp (z j))).
  { rewrite (rsum_index _ M (fun k => if (k <? K)%nat then exp (z k) else 0)).
    - rewrite (sumn_truncate K M) by (lia || (intros j Hj; destruct (Nat.ltb_spec j K); [lia|reflexivity])).
      apply sumn_ext; intros j Hj. destruct (Nat.ltb_spec j K); [reflexivity|lia].
    - now rewrite map_length.
    - intros j Hj. rewrite nth_error_map, H by auto. cbn [option_map]. destruct (j <? K)%nat; reflexivity. }
  rewrite Hs. do 2 f_equal. destruct (k <? K)%nat; cbn; [reflexivity|].
  unfold Rdiv. ring.
Qed.

Lemma sum_exp_pos K z : (1 <= K)%nat -> 0 < sumn K (fun j => exp (z j)).
Proof. intro H. apply sumn_pos; [lia|]. intros; apply exp_pos. Qed.
Lemma category_probability_pos K z k : (1 <= K)%nat -> 0 < category_probability K z k.
Proof.
  intro H. unfold category_probability. apply Rdiv_lt_0_compat; [apply exp_pos|now apply sum_exp_pos].
Qed.
Lemma category_probability_sum K z : (1 <= K)%nat -> sumn K (category_probability K z) = 1.
Proof.
  intro H. unfold category_probability. rewrite sumn_div. field.
  pose proof (sum_exp_pos K z H). lra.
Qed.
Lemma valid_category_distribution K M z : (1 <= K <= M)%nat ->
  valid_distribution K M (fun k => if (k <? K)%nat then category_probability K z k else 0).
Proof.
  intro H. repeat split.
  - intros k Hk. destruct (k <? K)%nat; [left; apply category_probability_pos; lia|lra].
  - rewrite (sumn_truncate K M) by (lia || (intros j Hj; destruct (Nat.ltb_spec j K); [lia|reflexivity])).
    rewrite <- (category_probability_sum K z) by lia. apply sumn_ext; intros j Hj.
    destruct (Nat.ltb_spec j K); [reflexivity|lia].
  - intros k Hk. destruct (Nat.ltb_spec k K); [apply category_probability_pos; lia|lia].
  - intros k Hk. destruct (Nat.ltb_spec k K); [lia|reflexivity].
Qed.

(** Probabilities of a table of logits whose rows have the expected pattern. *)
Lemma probabilities_pattern n M (out : list (list ext)) r row i K z :
  (0 < n)%nat -> Forall (fun o => length o = (n * M)%nat) out -> nth_error out r = Some row ->
  (i < n)%nat -> (1 <= K <= M)%nat ->
  (forall k, (k < M)%nat -> nth_error row (i * M + k) = Some (if (k <? K)%nat then Fin (z k) else NInf)) ->
  forall k, (k < M)%nat ->
  at3 (probabilities_from_output n M out) r i k =
    Some (Some (if (k <? K)%nat then category_probability K z k else 0)).
Proof.
  intros Hn HF Hr Hi HK H k Hk. unfold probabilities_from_output.
  pose proof (map_blocks_nth softmax n M out r i row Hn ltac:(lia) HF Hr Hi) as H2.
  unfold at3, at2 in *. destruct (nth_error (blocks n _) r); [|discriminate].
  rewrite H2. apply softmax_pattern with (M := M); auto.
  - assert (length row = (n * M)%nat) by (rewrite Forall_forall in HF; apply HF; eapply nth_error_In; eauto).
    rewrite firstn_length, skipn_length. assert (M <= n * M - i * M)%nat by nia. lia.
  - intros j Hj. rewrite nth_error_firstn_lt, nth_error_skipn_add by auto. now apply H.
Qed.
