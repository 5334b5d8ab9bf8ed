(** Proofs about the nominal response and graded response models, item parameters and expected scores. *)
From Verif Require Import Base BaseFacts RBase RFacts M_Logit S_Logit P_Logit P_Logit2.
Local Open Scope R_scope.

Lemma nth_error_combine_some {A B} (l : list A) (r : list B) i a b :
  nth_error l i = Some a -> nth_error r i = Some b -> nth_error (combine l r) i = Some (a, b).
Proof.
  revert r i; induction l as [|x l IH]; intros [|y r] [|i] H1 H2; cbn in *; try discriminate.
  - congruence.
  - now apply IH.
Qed.

(** ** Nominal response *)
Section NRM.
  Variable m : nrm.
  Hypothesis Hwf : nrm_wf m.
  Local Notation M := (nrm_max m).
  Local Notation lv := (nrm_lv m).
  Local Notation cats := (nrm_cats m).
  Local Notation rel := (nrm_rel m).

  Lemma nrm_free_rows :
    Forall (fun l => length l = M)
      (zip_with (fun K row => mapi (fun k z => if (1 <=? k)%nat && (k <? K)%nat then row else z)
                               (repeat (repeat false lv) M)) cats rel).
  Proof.
    apply Forall_forall; intros l Hl. apply In_nth_error in Hl as [i Hi]. rewrite nth_error_zip_with in Hi.
    destruct (nth_error cats i), (nth_error rel i); try discriminate. injection Hi as <-.
    now rewrite mapi_length, repeat_length.
  Qed.
  Lemma nrm_free_length : length (nrm_free m) = (length cats * M)%nat.
  Proof.
    unfold nrm_free, nrm_free_weights. rewrite (length_concat_const _ M nrm_free_rows), zip_with_length.
    destruct Hwf as (_ & _ & H & _). rewrite H. lia.
  Qed.
  Lemma nrm_free_nth i K row k : nth_error cats i = Some K -> nth_error rel i = Some row -> (k < M)%nat ->
    nth_error (nrm_free m) (i * M + k) = Some (if (1 <=? k)%nat && (k <? K)%nat then row else repeat false lv).
  Proof.
    intros HK Hr Hk. unfold nrm_free, nrm_free_weights.
    rewrite (nth_error_concat_const _ M i k
      (mapi (fun k z => if (1 <=? k)%nat && (k <? K)%nat then row else z) (repeat (repeat false lv) M)) nrm_free_rows); auto.
    - rewrite nth_error_mapi, nth_error_repeat_lt by auto. reflexivity.
    - now rewrite nth_error_zip_with, HK, Hr.
  Qed.
  Lemma rel_some i K : nth_error cats i = Some K -> exists row, nth_error rel i = Some row /\ length row = lv.
  Proof.
    intro HK. destruct Hwf as (_ & _ & H & HF & _).
    assert (i < length rel)%nat by (rewrite H; apply nth_error_Some; congruence).
    destruct (nth_error rel i) as [row|] eqn:E; [|apply nth_error_None in E; lia].
    exists row; split; auto. rewrite Forall_forall in HF. apply HF. eapply nth_error_In; eauto.
  Qed.
  Lemma nrm_free_lv : Forall (fun r => length r = lv) (nrm_free m).
  Proof.
    apply Forall_forall; intros r Hr. apply In_nth_error in Hr as [p Hp].
    assert (p < length cats * M)%nat by (rewrite <- nrm_free_length; apply nth_error_Some; congruence).
    destruct (position_split _ _ _ H) as (i & k & Hi & Hk & ->).
    destruct (nth_error cats i) as [K|] eqn:HK; [|apply nth_error_None in HK; lia].
    destruct (rel_some i K HK) as [row [Hrow Hl]].
    rewrite (nrm_free_nth i K row k) in Hp by auto.
    destruct ((1 <=? k)%nat && (k <? K)%nat); injection Hp as <-; auto. apply repeat_length.
  Qed.
  Lemma ctrue_repeat_false n : ctrue (repeat false n) = O.
  Proof. induction n; [reflexivity|]. cbn [repeat]. rewrite ctrue_cons. exact IHn. Qed.
  Lemma ctrue_concat_S (rows : list (list bool)) p row : nth_error rows p = Some row ->
    ctrue (concat (firstn (S p) rows)) = (ctrue (concat (firstn p rows)) + ctrue row)%nat.
  Proof. intro H. rewrite (firstn_S_nth rows p row H), concat_app, ctrue_app. cbn [concat]. now rewrite app_nil_r. Qed.

  Lemma nrm_count i K row k : nth_error cats i = Some K -> nth_error rel i = Some row -> (k <= M)%nat ->
    ctrue (concat (firstn (i * M + k) (nrm_free m))) =
    (list_sum (map (fun Kr => pred (fst Kr) * ctrue (snd Kr)) (firstn i (combine cats rel)))
     + (Nat.min k K - 1) * ctrue row)%nat.
  Proof.
    destruct Hwf as (_ & Hc & Hrl & _).
    revert K row k; induction i as [|i IHi]; intros K row k HK Hr Hk.
    - induction k as [|k IH]; [reflexivity|]. destruct (cats_pos_bound _ _ _ Hc HK) as [HKb _].
      rewrite Nat.add_succ_r, (ctrue_concat_S _ _ _ (nrm_free_nth 0 K row k HK Hr ltac:(lia))).
      rewrite IH by lia.
      destruct (Nat.leb_spec 1 k); destruct (Nat.ltb_spec k K); cbn [andb]; rewrite ?ctrue_repeat_false.
      + replace (Nat.min (S k) K - 1)%nat with (S (Nat.min k K - 1)) by lia. lia.
      + replace (Nat.min (S k) K - 1)%nat with (Nat.min k K - 1)%nat by lia. lia.
      + replace (Nat.min (S k) K - 1)%nat with (Nat.min k K - 1)%nat by lia. lia.
      + lia.
    - assert (exists K', nth_error cats i = Some K') as [K' HK'].
      { destruct (nth_error cats i) eqn:E; eauto. apply nth_error_None in E.
        assert (S i < length cats)%nat by (apply nth_error_Some; congruence). lia. }
      destruct (rel_some i K' HK') as [row' [Hr' _]].
      destruct (cats_pos_bound _ _ _ Hc HK) as [HKb _]. destruct (cats_pos_bound _ _ _ Hc HK') as [HKb' _].
      fold M in HKb, HKb'.
      induction k as [|k IH].
      + replace (S i * M + 0)%nat with (i * M + M)%nat by lia.
        rewrite (IHi K' row' M) by (auto; lia).
        assert (Hcomb : nth_error (combine cats rel) i = Some (K', row')).
        { now apply nth_error_combine_some. }
        rewrite (firstn_S_nth _ i _ Hcomb), map_app, list_sum_app. cbn [map fst snd].
        unfold list_sum at 3. cbn [fold_right].
        replace (Nat.min M K' - 1)%nat with (pred K') by lia. lia.
      + rewrite Nat.add_succ_r, (ctrue_concat_S _ _ _ (nrm_free_nth (S i) K row k HK Hr ltac:(lia))).
        rewrite IH by lia.
        destruct (Nat.leb_spec 1 k); destruct (Nat.ltb_spec k K); cbn [andb]; rewrite ?ctrue_repeat_false.
        * replace (Nat.min (S k) K - 1)%nat with (S (Nat.min k K - 1)) by lia. lia.
        * replace (Nat.min (S k) K - 1)%nat with (Nat.min k K - 1)%nat by lia. lia.
        * replace (Nat.min (S k) K - 1)%nat with (Nat.min k K - 1)%nat by lia. lia.
        * lia.
  Qed.

  Lemma nth_repeat_false d n : nth d (repeat false n) false = false.
  Proof. revert d; induction n; intros [|d]; cbn; auto. Qed.

  Lemma nrm_slope_free i K k d : nth_error cats i = Some K -> (k < M)%nat ->
    slope (nrm_free m) (nrm_w m) (i * M + k) d =
    if (1 <=? k)%nat && (k <? K)%nat then nrm_free_slope m i k d else 0.
  Proof.
    intros HK Hk. destruct (rel_some i K HK) as [row [Hr Hl]].
    unfold slope. rewrite (nth_error_nth _ _ [] (nrm_free_nth i K row k HK Hr Hk)).
    destruct ((1 <=? k)%nat && (k <? K)%nat) eqn:E; [|now rewrite nth_repeat_false].
    apply andb_true_iff in E as [E1 E2]. apply Nat.leb_le in E1. apply Nat.ltb_lt in E2.
    unfold nrm_free_slope. rewrite (nth_error_nth _ _ [] Hr). destruct (nth d row false); [|reflexivity].
    rewrite (nrm_count i K row k) by (auto; lia). f_equal.
    replace (Nat.min k K - 1)%nat with (pred k) by lia. reflexivity.
  Qed.

  Definition nslope_ext (i K k d : nat) : R := if (k <? K)%nat then nrm_slope m i k d else 0.
  Definition nint_ext (i K k : nat) : R := if (k <? K)%nat then nrm_intercept m i k else 0.

  Lemma blocks_weight_matrix i K :
    nth_error cats i = Some K ->
    nth_error (blocks M (weight_matrix (nrm_free m) lv (nrm_w m))) i =
    Some (map (fun k => map (slope (nrm_free m) (nrm_w m) (i * M + k)) (seq 0 lv)) (seq 0 M)).
  Proof.
    intro HK. pose proof Hwf as (Hlv & Hc & Hrl & Hrf & Hw & Hb).
    destruct (cats_pos_bound _ _ _ Hc HK) as [HKb Hi]. fold M in HKb.
    rewrite nth_error_blocks by lia. rewrite weight_matrix_length, nrm_free_length by auto.
    destruct (Nat.ltb_spec (i * M) (length cats * M)) as [_|H]; [|nia]. f_equal.
    apply nth_error_ext; intro k. destruct (Nat.lt_ge_cases k M) as [Hk|Hk].
    - rewrite nth_error_firstn_lt, nth_error_skipn_add by auto.
      rewrite nth_error_map_seq by auto. cbn [Nat.add]. apply weight_matrix_row; auto.
      + apply nrm_free_lv.
      + rewrite nrm_free_length. now apply position_lt.
    - rewrite nth_error_firstn_ge by auto. symmetry. apply nth_error_None. now rewrite map_length, seq_length.
  Qed.

  Lemma nrm_weights_nth i K : nth_error cats i = Some K ->
    nth_error (nrm_weights m) i = Some (map (fun k => map (nslope_ext i K k) (seq 0 lv)) (seq 0 M)).
  Proof.
    intro HK. pose proof Hwf as (Hlv & Hc & Hrl & Hrf & Hw & Hb).
    destruct (cats_pos_bound _ _ _ Hc HK) as [HKb Hi]. fold M in HKb.
    unfold nrm_weights. rewrite nth_error_map, (blocks_weight_matrix i K HK). cbn [option_map]. f_equal.
    destruct M as [|M'] eqn:EM; [lia|]. cbn [seq map tl upd]. f_equal.
    - unfold col_sums. rewrite map_map. apply map_ext_in; intros d Hd. apply in_seq in Hd.
      unfold nslope_ext. destruct (Nat.ltb_spec 0 K); [|lia]. unfold nrm_slope. cbn [Nat.eqb].
      rewrite (nth_error_nth _ _ O HK). f_equal.
      rewrite map_map. rewrite rsum_map_seq.
      rewrite (sumn_truncate (K - 1) M').
      + apply sumn_ext; intros j Hj. rewrite nth_map_seq by lia.
        rewrite <- EM. rewrite (nrm_slope_free i K) by (auto; lia).
        destruct (Nat.leb_spec 1 (1 + j)); [|lia]. destruct (Nat.ltb_spec (1 + j) K); [|lia]. reflexivity.
      + lia.
      + intros j Hj. rewrite nth_map_seq by lia. rewrite <- EM. rewrite (nrm_slope_free i K) by (auto; lia).
        destruct (Nat.leb_spec 1 (1 + j)); [|lia]. destruct (Nat.ltb_spec (1 + j) K); [lia|]. reflexivity.
    - apply map_ext_in; intros k Hk. apply in_seq in Hk. apply map_ext; intro d.
      rewrite <- EM. rewrite (nrm_slope_free i K) by (auto; lia).
      unfold nslope_ext, nrm_slope. destruct (Nat.leb_spec 1 k); [|lia]. cbn [andb].
      destruct (Nat.eqb_spec k 0); [lia|]. reflexivity.
  Qed.

  Lemma nrm_biases_nth i K : nth_error cats i = Some K ->
    nth_error (nrm_biases m) i = Some (map (nint_ext i K) (seq 0 M)).
  Proof.
    intro HK. pose proof Hwf as (Hlv & Hc & Hrl & Hrf & Hw & Hb).
    destruct (cats_pos_bound _ _ _ Hc HK) as [HKb Hi]. fold M in HKb.
    unfold nrm_biases. rewrite nth_error_map, nth_error_blocks by lia.
    rewrite full_bias_length, free_bias_length.
    destruct (Nat.ltb_spec (i * M) (length cats * M)) as [_|H]; [|nia]. cbn [option_map]. f_equal.
    assert (E : firstn M (skipn (i * M) (full_bias (free_bias cats M) (nrm_b m))) =
                map (intercept cats (nrm_b m) i) (seq 0 M)).
    { apply nth_error_ext; intro k. destruct (Nat.lt_ge_cases k M) as [Hk|Hk].
      - rewrite nth_error_firstn_lt, nth_error_skipn_add by auto.
        rewrite nth_error_map_seq by auto. apply (nth_error_full_bias cats (nrm_b m) i k K); auto.
      - rewrite nth_error_firstn_ge by auto. symmetry. apply nth_error_None. now rewrite map_length, seq_length. }
    rewrite E. destruct M as [|M'] eqn:EM; [lia|]. cbn [seq map tl upd]. f_equal.
    - unfold nint_ext. destruct (Nat.ltb_spec 0 K); [|lia]. unfold nrm_intercept. cbn [Nat.eqb].
      rewrite (nth_error_nth _ _ O HK). f_equal. rewrite rsum_map_seq.
      rewrite (sumn_truncate (K - 1) M'); [reflexivity|lia|].
      intros j Hj. unfold intercept. rewrite (nth_error_nth _ _ O HK).
      destruct (Nat.ltb_spec (1 + j) K); [lia|]. now rewrite andb_false_r.
    - apply map_ext_in; intros k Hk. apply in_seq in Hk. unfold nint_ext, nrm_intercept.
      destruct (Nat.eqb_spec k 0); [lia|]. destruct (Nat.ltb_spec k K); [reflexivity|].
      unfold intercept. rewrite (nth_error_nth _ _ O HK). destruct (Nat.ltb_spec k K); [lia|].
      now rewrite andb_false_r.
  Qed.

  Lemma nrm_biases_length : length (nrm_biases m) = length cats.
  Proof.
    pose proof Hwf as (Hlv & Hc & Hrl & Hrf & Hw & Hb). unfold nrm_biases. rewrite map_length.
    destruct cats as [|K0 c0] eqn:E; [reflexivity|]. rewrite <- E in *.
    assert (0 < M)%nat.
    { destruct (cats_pos_bound cats 0 K0 Hc) as [H _]; [now rewrite E|]. unfold nrm_max. lia. }
    rewrite blocks_length by auto. rewrite full_bias_length, free_bias_length. unfold ceil_div.
    replace (length cats * M + M - 1)%nat with ((M - 1) + length cats * M)%nat by lia.
    rewrite Nat.div_add by lia. rewrite Nat.div_small; lia.
  Qed.
  Lemma nrm_weights_length : length (nrm_weights m) = length cats.
  Proof.
    pose proof Hwf as (Hlv & Hc & Hrl & Hrf & Hw & Hb). unfold nrm_weights. rewrite map_length.
    destruct cats as [|K0 c0] eqn:E.
    - unfold nrm_free, nrm_free_weights, weight_matrix. rewrite E. reflexivity.
    - rewrite <- E in *.
      assert (0 < M)%nat.
      { destruct (cats_pos_bound cats 0 K0 Hc) as [H _]; [now rewrite E|]. unfold nrm_max. lia. }
      rewrite blocks_length, weight_matrix_length, nrm_free_length by auto. unfold ceil_div.
      replace (length cats * M + M - 1)%nat with ((M - 1) + length cats * M)%nat by lia.
      rewrite Nat.div_add by lia. rewrite Nat.div_small; lia.
  Qed.
  Lemma some_cat i : (i < length cats)%nat -> exists K, nth_error cats i = Some K.
  Proof. intro H. destruct (nth_error cats i) eqn:E; eauto. apply nth_error_None in E. lia. Qed.

  Lemma nrm_weights_rows : Forall (fun l => length l = M) (nrm_weights m).
  Proof.
    apply Forall_forall; intros l Hl. apply In_nth_error in Hl as [i Hi].
    assert (H : (i < length cats)%nat) by (rewrite <- nrm_weights_length; apply nth_error_Some; congruence).
    destruct (some_cat i H) as [K HK]. rewrite (nrm_weights_nth i K HK) in Hi. injection Hi as <-.
    now rewrite map_length, seq_length.
  Qed.
  Lemma nrm_biases_rows : Forall (fun l => length l = M) (nrm_biases m).
  Proof.
    apply Forall_forall; intros l Hl. apply In_nth_error in Hl as [i Hi].
    assert (H : (i < length cats)%nat) by (rewrite <- nrm_biases_length; apply nth_error_Some; congruence).
    destruct (some_cat i H) as [K HK]. rewrite (nrm_biases_nth i K HK) in Hi. injection Hi as <-.
    now rewrite map_length, seq_length.
  Qed.

  Lemma nrm_probs_spec thetas r t i K k :
    Forall (fun t => length t = lv) thetas -> nth_error thetas r = Some t ->
    nth_error cats i = Some K -> (k < M)%nat ->
    at3 (nrm_probabilities m thetas) r i k =
      Some (Some (if (k <? K)%nat
        then category_probability K (fun k => predictor lv (nrm_slope m i k) t + nrm_intercept m i k) k
        else 0)).
  Proof.
    intros HF Hr HK Hk. pose proof Hwf as (Hlv & Hc & Hrl & Hrf & Hw & Hb).
    destruct (cats_pos_bound _ _ _ Hc HK) as [HKb Hi]. fold M in HKb.
    assert (Ht : length t = lv) by (rewrite Forall_forall in HF; apply HF; eapply nth_error_In; eauto).
    unfold nrm_probabilities. eapply probabilities_pattern; auto; [lia| | |].
    - unfold nrm_forward. eapply forward_map_Forall; [|exact HF]. intros a _.
      unfold set_mask. rewrite zip_with_length, map_length, zip_with_length, map_length, missing_category_length.
      rewrite (length_concat_const _ M nrm_weights_rows), (length_concat_const _ M nrm_biases_rows).
      rewrite nrm_weights_length, nrm_biases_length. lia.
    - unfold nrm_forward. rewrite nth_error_map, Hr. reflexivity.
    - intros k' Hk'. erewrite nth_error_set_mask by (apply nth_error_missing_category; eauto).
      rewrite nth_error_map_Fin, nth_error_zip_with, nth_error_map.
      rewrite (nth_error_concat_const _ M i k' _ nrm_weights_rows (nrm_weights_nth i K HK) Hk').
      rewrite (nth_error_concat_const _ M i k' _ nrm_biases_rows (nrm_biases_nth i K HK) Hk').
      rewrite !nth_error_map_seq by auto. cbn [option_map Nat.add].
      rewrite dot_slopes by auto. unfold nslope_ext, nint_ext.
      destruct (Nat.leb_spec K k'); destruct (Nat.ltb_spec k' K); try lia; reflexivity.
  Qed.

  (** Reported parameters. *)
  Lemma nrm_reported i K k d : nth_error cats i = Some K -> (k < K)%nat -> (d < lv)%nat ->
    at2 (fst (nrm_item_parameters m)) i (d * M + k) = Some (nrm_slope m i k d) /\
    at2 (snd (nrm_item_parameters m)) i k = Some (nrm_intercept m i k).
  Proof.
    intros HK Hk Hd. pose proof Hwf as (Hlv & Hc & _).
    destruct (cats_pos_bound _ _ _ Hc HK) as [HKb Hi]. fold M in HKb. unfold at2. split; cbn [fst snd nrm_item_parameters].
    - rewrite nth_error_map, (nrm_weights_nth i K HK). cbn [option_map].
      rewrite (nth_error_concat_const _ M d k
        (map (fun r => nth d r 0) (map (fun k => map (nslope_ext i K k) (seq 0 lv)) (seq 0 M)))).
      + rewrite map_map, nth_error_map_seq by lia. cbn [Nat.add]. rewrite nth_map_seq by auto.
        unfold nslope_ext. destruct (Nat.ltb_spec k K); [reflexivity|lia].
      + apply Forall_forall; intros l Hl. apply in_map_iff in Hl as [x [<- _]]. now rewrite !map_length, seq_length.
      + now rewrite nth_error_map_seq.
      + lia.
    - rewrite (nrm_biases_nth i K HK), nth_error_map_seq by lia. cbn [Nat.add].
      unfold nint_ext. destruct (Nat.ltb_spec k K); [reflexivity|lia].
  Qed.

  Lemma nrm_identified i K d : nth_error cats i = Some K ->
    sumn K (fun k => nrm_slope m i k d) = 0 /\ sumn K (nrm_intercept m i) = 0.
  Proof.
    intros HK. pose proof Hwf as (Hlv & Hc & _). destruct (cats_pos_bound _ _ _ Hc HK) as [HKb Hi].
    destruct K as [|K']; [lia|]. rewrite !sumn_S_first. unfold nrm_slope at 1, nrm_intercept at 1. cbn [Nat.eqb].
    rewrite (nth_error_nth _ _ O HK). replace (S K' - 1)%nat with K' by lia.
    split; [rewrite (sumn_ext K' (fun k => nrm_slope m i (S k) d) (fun j => nrm_free_slope m i (S j) d)) by reflexivity
           |rewrite (sumn_ext K' (fun k => nrm_intercept m i (S k)) (fun j => intercept cats (nrm_b m) i (S j))) by reflexivity];
      ring.
  Qed.
End NRM.

(** ** Graded response: validity and starting values *)
Lemma geq_0 K z : geq_probability K z 0 = 1. Proof. reflexivity. Qed.
Lemma geq_top K M z : (1 <= K <= M)%nat -> geq_probability K z M = 0.
Proof.
  intro H. unfold geq_probability. destruct (Nat.eqb_spec M 0); [lia|].
  destruct (Nat.ltb_spec M K); [lia|reflexivity].
Qed.
Lemma grm_tail_sum K M z k : (1 <= K <= M)%nat -> (k <= M)%nat ->
  sumn (M - k) (fun j => geq_probability K z (k + j) - geq_probability K z (S (k + j))) = geq_probability K z k.
Proof.
  intros HK Hk.
  rewrite (sumn_ext _ _ (fun j => (fun q => geq_probability K z (k + q)%nat) j - (fun q => geq_probability K z (k + q)%nat) (S j))).
  - rewrite sumn_telescope. rewrite Nat.add_0_r. replace (k + (M - k))%nat with M by lia. rewrite (geq_top K M) by auto. ring.
  - intros j _. f_equal. f_equal. lia.
Qed.
Lemma grm_diff_sign K z k : (1 <= K)%nat ->
  0 <= geq_probability K z k - geq_probability K z (S k) <-> ((1 <= k)%nat -> (S k < K)%nat -> z (S k) <= z k).
Proof.
  intro HK. unfold geq_probability. cbn [Nat.eqb].
  destruct (Nat.eqb_spec k 0) as [->|Hk].
  - split; [lia|]. intros _. destruct (1 <? K)%nat; [pose proof (logistic_bounds (z 1%nat)); lra|lra].
  - destruct (Nat.ltb_spec k K) as [H1|H1]; destruct (Nat.ltb_spec (S k) K) as [H2|H2]; try lia.
    + split; intro H.
      * intros _ _. apply logistic_le_iff. lra.
      * assert (z (S k) <= z k) by (apply H; lia). apply logistic_le_iff in H0. lra.
    + split; [lia|]. intros _. pose proof (logistic_bounds (z k)). lra.
    + split; [lia|]. intros _. lra.
Qed.
Lemma grm_diff_pos K z k : (1 <= K)%nat -> (k < K)%nat ->
  0 < geq_probability K z k - geq_probability K z (S k) <-> ((1 <= k)%nat -> (S k < K)%nat -> z (S k) < z k).
Proof.
  intros HK Hk0. unfold geq_probability. cbn [Nat.eqb].
  destruct (Nat.eqb_spec k 0) as [->|Hk].
  - split; [lia|]. intros _. destruct (1 <? K)%nat; [pose proof (logistic_bounds (z 1%nat)); lra|lra].
  - destruct (Nat.ltb_spec k K) as [H1|H1]; destruct (Nat.ltb_spec (S k) K) as [H2|H2]; try lia.
    + split; intro H.
      * intros _ _. apply logistic_lt_iff. lra.
      * assert (z (S k) < z k) by (apply H; lia). apply logistic_lt_iff in H0. lra.
    + split; [lia|]. intros _. pose proof (logistic_bounds (z k)). lra.
Qed.
Lemma grm_diff_padding K z k : (1 <= K <= k)%nat -> geq_probability K z k - geq_probability K z (S k) = 0.
Proof.
  intro H. unfold geq_probability. cbn [Nat.eqb]. destruct (Nat.eqb_spec k 0); [lia|].
  destruct (Nat.ltb_spec k K); [lia|]. destruct (Nat.ltb_spec (S k) K); [lia|]. ring.
Qed.

(** Selecting back what was stored. *)
Lemma nth_error_mask_select {A} m (l : list A) p : length m = length l -> nth_error m p = Some true ->
  nth_error (mask_select m l) (ctrue (firstn p m)) = nth_error l p.
Proof.
  revert l p; induction m as [|b m IH]; intros l p Hl Hp; [destruct p; discriminate|].
  destruct l as [|x l]; [discriminate|]. cbn [length] in Hl.
  destruct p as [|p]; cbn [nth_error] in Hp.
  - injection Hp as ->. reflexivity.
  - cbn [firstn mask_select]. rewrite ctrue_cons. destruct b; cbn [Nat.add nth_error]; apply IH; auto.
Qed.
Lemma mask_select_length {A} m (l : list A) : length m = length l -> length (mask_select m l) = ctrue m.
Proof.
  revert l; induction m as [|b m IH]; intros [|x l] Hl; try discriminate; auto.
  cbn [length] in Hl. rewrite ctrue_cons. cbn [mask_select]. destruct b; cbn [length Nat.add]; rewrite IH by lia; reflexivity.
Qed.
Lemma ctrue_firstn_skipn l a k : ctrue (firstn (a + k) l) = (ctrue (firstn a l) + ctrue (firstn k (skipn a l)))%nat.
Proof.
  rewrite <- ctrue_app. f_equal. revert l; induction a; intro l; [reflexivity|].
  destruct l; [cbn; now rewrite firstn_nil|]. cbn. now rewrite IHa.
Qed.

Lemma grm_start_values_length n : length (grm_start_values n) = n.
Proof.
  unfold grm_start_values. rewrite map_length, removelast_length.
  replace (length (tl (linspace (/ (1 + exp 4)) (/ (1 + exp (-4))) (n + 2)))) with (n + 1)%nat; [lia|].
  unfold linspace. destruct (n + 2)%nat as [|q] eqn:E; [lia|]. cbn [seq map tl]. rewrite map_length, seq_length. lia.
Qed.
Definition grm_p (n j : nat) : R :=
  / (1 + exp 4) + INR (S j) * ((/ (1 + exp (-4)) - / (1 + exp 4)) / INR (n + 1)).
Lemma grm_start_values_nth n j : (j < n)%nat ->
  nth_error (grm_start_values n) j = Some (ln (/ grm_p n j + -1)).
Proof.
  intro Hj. unfold grm_start_values. rewrite nth_error_map.
  assert (HL : length (tl (linspace (/ (1 + exp 4)) (/ (1 + exp (-4))) (n + 2))) = (n + 1)%nat).
  { unfold linspace. destruct (n + 2)%nat as [|q] eqn:E; [lia|]. cbn [seq map tl]. rewrite map_length, seq_length. lia. }
  rewrite nth_error_removelast by lia. rewrite nth_error_tl. unfold linspace.
  rewrite nth_error_map_seq by lia. cbn [option_map Nat.add]. unfold grm_p. do 4 f_equal.
  f_equal. f_equal. f_equal. f_equal. lia.
Qed.
Lemma exp_4 : exp (-4) < exp 4. Proof. apply exp_increasing. lra. Qed.
Lemma grm_p_bounds n j : (j < n)%nat -> 0 < grm_p n j < 1.
Proof.
  intro Hj. unfold grm_p. set (lo := / (1 + exp 4)). set (hi := / (1 + exp (-4))).
  pose proof (exp_pos 4). pose proof (exp_pos (-4)). pose proof exp_4.
  assert (Hlo : 0 < lo) by (unfold lo; apply Rinv_0_lt_compat; lra).
  assert (Hhi : hi < 1) by (unfold hi; rewrite <- Rinv_1; apply Rinv_lt_contravar; lra).
  assert (Hlh : lo < hi) by (unfold lo, hi; apply Rinv_lt_contravar; [apply Rmult_lt_0_compat; lra|lra]).
  assert (Hn : 0 < INR (n + 1)) by (apply lt_0_INR; lia).
  assert (Hj1 : 0 < INR (S j)) by (apply lt_0_INR; lia).
  assert (Hj2 : INR (S j) < INR (n + 1)) by (apply lt_INR; lia).
  assert (E : INR (S j) * ((hi - lo) / INR (n + 1)) = (hi - lo) * (INR (S j) / INR (n + 1))) by (field; lra).
  rewrite E.
  assert (0 < INR (S j) / INR (n + 1)) by (apply Rdiv_lt_0_compat; lra).
  assert (INR (S j) / INR (n + 1) < 1).
  { apply Rmult_lt_reg_r with (INR (n + 1)); [lra|]. unfold Rdiv. rewrite Rmult_assoc, Rinv_l by lra. lra. }
  nra.
Qed.
Lemma grm_p_incr n j : (S j < n)%nat -> grm_p n j < grm_p n (S j).
Proof.
  intro Hj. unfold grm_p.
  assert (Hlh : / (1 + exp 4) < / (1 + exp (-4))).
  { pose proof (exp_pos 4). pose proof (exp_pos (-4)). pose proof exp_4.
    apply Rinv_lt_contravar; [apply Rmult_lt_0_compat; lra|lra]. }
  assert (Hn : 0 < INR (n + 1)) by (apply lt_0_INR; lia).
  assert (0 < (/ (1 + exp (-4)) - / (1 + exp 4)) / INR (n + 1)) by (apply Rdiv_lt_0_compat; lra).
  rewrite (S_INR (S j)). nra.
Qed.
Lemma grm_start_decr n j : (S j < n)%nat ->
  ln (/ grm_p n (S j) + -1) < ln (/ grm_p n j + -1).
Proof.
  intro Hj. pose proof (grm_p_bounds n j ltac:(lia)). pose proof (grm_p_bounds n (S j) Hj).
  pose proof (grm_p_incr n j Hj).
  assert (H2 : / grm_p n (S j) < / grm_p n j) by (apply Rinv_lt_contravar; [apply Rmult_lt_0_compat; lra|lra]).
  assert (H3 : 1 < / grm_p n (S j)) by (rewrite <- Rinv_1; apply Rinv_lt_contravar; lra).
  apply ln_increasing; lra.
Qed.

Lemma grm_start_bias_intercept cats i K k :
  Forall (fun K => (1 <= K)%nat) cats -> nth_error cats i = Some K -> (1 <= k < K)%nat ->
  intercept cats (grm_start_bias cats (list_max cats)) i k = ln (/ grm_p (K - 1) (k - 1) + -1).
Proof.
  intros HF Hi Hk. set (M := list_max cats).
  destruct (cats_pos_bound cats i K HF Hi) as [HK Hil]. fold M in HK.
  assert (HF' : Forall (fun K => (1 <= K <= M)%nat) cats).
  { rewrite Forall_forall in *. intros K' HK'. split; auto. now apply list_max_bound. }
  unfold intercept. rewrite (nth_error_nth cats i O Hi).
  destruct (Nat.leb_spec 1 k); [|lia]. destruct (Nat.ltb_spec k K); [|lia]. cbn [andb].
  apply nth_error_nth.
  assert (Hfb : nth_error (free_bias cats M) (i * M + k) = Some true).
  { rewrite (nth_error_free_bias cats M i k K) by (auto; lia).
    destruct (Nat.leb_spec 1 k); [|lia]. destruct (Nat.ltb_spec k K); [reflexivity|lia]. }
  assert (Hcnt : ctrue (firstn (i * M + k) (free_bias cats M)) = (list_sum (firstn i (map pred cats)) + (k - 1))%nat).
  { rewrite (count_free_bias cats M i k K) by (auto; lia). f_equal. lia. }
  rewrite <- Hcnt. unfold grm_start_bias.
  set (rowf := fun i => mask_scatter (firstn M (skipn (i * M) (free_bias cats M)))
        (grm_start_values (ctrue (firstn M (skipn (i * M) (free_bias cats M))))) (repeat 0 M)).
  assert (Hrows : Forall (fun l => length l = M) (map rowf (seq 0 (length cats)))).
  { apply Forall_forall; intros l Hl. apply in_map_iff in Hl as [x [<- _]].
    unfold rowf. now rewrite mask_scatter_length, repeat_length. }
  change (nth_error (mask_select (free_bias cats M) (concat (map rowf (seq 0 (length cats)))))
            (ctrue (firstn (i * M + k) (free_bias cats M))) = Some (ln (/ grm_p (K - 1) (k - 1) + -1))).
  rewrite nth_error_mask_select; auto.
  2:{ rewrite (length_concat_const _ M Hrows), map_length, seq_length. apply free_bias_length. }
  rewrite (nth_error_concat_const _ M i k (rowf i) Hrows) by (lia || now rewrite nth_error_map_seq).
  unfold rowf.
  set (fi := firstn M (skipn (i * M) (free_bias cats M))).
  assert (Hfl : length fi = M).
  { unfold fi. rewrite firstn_length, skipn_length, free_bias_length.
    assert (M <= length cats * M - i * M)%nat by nia. lia. }
  assert (Hc0 : ctrue (firstn (i * M + 0) (free_bias cats M)) = list_sum (firstn i (map pred cats))).
  { rewrite (count_free_bias cats M i 0 K) by (auto; lia). cbn [Nat.min Nat.sub]. lia. }
  assert (Hci : forall k', (k' <= M)%nat -> ctrue (firstn k' fi) = (Nat.min k' K - 1)%nat).
  { intros k' Hk'. unfold fi. rewrite firstn_firstn. replace (Nat.min k' M) with k' by lia.
    pose proof (ctrue_firstn_skipn (free_bias cats M) (i * M) k') as H1.
    rewrite (count_free_bias cats M i k' K) in H1 by (auto; lia). rewrite Nat.add_0_r in Hc0. lia. }
  assert (Hct : ctrue fi = (K - 1)%nat).
  { rewrite <- (firstn_all fi), Hfl. rewrite Hci by lia. lia. }
  assert (Hfk : nth_error fi k = Some true).
  { unfold fi. now rewrite nth_error_firstn_lt, nth_error_skipn_add by lia. }
  rewrite Hct.
  rewrite (nth_error_mask_scatter fi (grm_start_values (K - 1)) (repeat 0 M) k true).
  - rewrite Hci by lia. replace (Nat.min k K - 1)%nat with (k - 1)%nat by lia. apply grm_start_values_nth. lia.
  - now rewrite repeat_length.
  - rewrite grm_start_values_length. lia.
  - exact Hfk.
Qed.
Lemma grm_start_bias_length cats : Forall (fun K => (1 <= K)%nat) cats ->
  length (grm_start_bias cats (list_max cats)) = list_sum (map pred cats).
Proof.
  intro HF. unfold grm_start_bias. rewrite mask_select_length; [now apply ctrue_free_bias|].
  rewrite free_bias_length. symmetry. set (M := list_max cats).
  rewrite (length_concat_const _ M); [now rewrite map_length, seq_length|].
  apply Forall_forall; intros l Hl. apply in_map_iff in Hl as [x [<- _]].
  now rewrite mask_scatter_length, repeat_length.
Qed.
Lemma grm_init_wf cats lv rel w0 m : (0 < lv)%nat -> Forall (fun K => (1 <= K)%nat) cats ->
  grm_init cats lv rel w0 = Ok m -> poly_wf m /\ p_cats m = cats.
Proof.
  intros Hlv Hc H. unfold grm_init in H. destruct (relationships (length cats) lv rel) as [free|] eqn:E; [|discriminate].
  injection H as <-. destruct (relationships_ok _ _ _ _ Hlv E) as [H1 H2].
  unfold poly_wf, p_items; cbn. rewrite map_length, seq_length. split; auto. repeat split; auto.
  now apply grm_start_bias_length.
Qed.
Lemma grm_init_decreasing cats lv rel w0 m i K k : (0 < lv)%nat -> Forall (fun K => (1 <= K)%nat) cats ->
  grm_init cats lv rel w0 = Ok m -> nth_error cats i = Some K -> (1 <= k)%nat -> (S k < K)%nat ->
  intercept (p_cats m) (p_b m) i (S k) < intercept (p_cats m) (p_b m) i k.
Proof.
  intros Hlv Hc H Hi H1 H2. unfold grm_init in H.
  destruct (relationships (length cats) lv rel) as [free|] eqn:E; [|discriminate]. injection H as <-. cbn [p_cats p_b].
  rewrite !(grm_start_bias_intercept cats i K) by (auto; lia).
  replace (S k - 1)%nat with (S (k - 1)) by lia. apply grm_start_decr. lia.
Qed.
