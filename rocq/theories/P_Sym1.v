(** Reading stored parameters. *)
From Verif Require Import Base BaseFacts RBase RFacts M_Data M_Logit M_Lik M_Est P_Logit P_Logit3 P_Lik5 P_Nest1 P_Nest2 P_Item3 S_Logit S_Lik S_Est S_Sym.
Import List.
Local Open Scope R_scope.

Lemma blocks_sizes {A} (f : nat -> list A) (sizes : list nat) : (forall i, (i < length sizes)%nat -> length (f i) = nth i sizes O) -> map (@length A) (map f (seq 0 (length sizes))) = sizes.
Proof.
  intro H. rewrite map_map. apply nth_error_ext. intro i. destruct (Nat.lt_ge_cases i (length sizes)) as [Hi|Hi].
  - rewrite nth_error_map_seq, (nth_error_nth_lt sizes i O) by lia. now rewrite H.
  - rewrite (proj2 (nth_error_None _ _)), (proj2 (nth_error_None _ _)); auto. now rewrite map_length, seq_length.
Qed.
Lemma free_row lv (free : list (list bool)) i : Forall (fun r => length r = lv) free -> (i < length free)%nat -> length (nth i free []) = lv.
Proof. intros HF Hi. rewrite Forall_forall in HF. apply HF. apply nth_In. exact Hi. Qed.
Lemma select_length lv (row : list bool) (f : nat -> R) : length row = lv -> length (mask_select row (map f (seq 0 lv))) = ctrue row.
Proof. intro H. apply mask_select_length. rewrite map_length, seq_length. exact H. Qed.
Lemma nth_ctrue (free : list (list bool)) i : nth i (map ctrue free) O = ctrue (nth i free []).
Proof. change O with (ctrue []) at 1. apply map_nth. Qed.
Lemma ctrue_below (row : list bool) d : nth d row false = true -> (ctrue (firstn d row) < ctrue row)%nat.
Proof.
  revert d; induction row as [|b row IH]; intros [|d] H; cbn in H; try discriminate.
  - subst b. cbn [firstn]. rewrite ctrue_cons. change (ctrue []) with O. lia.
  - specialize (IH d H). cbn [firstn]. rewrite !ctrue_cons. lia.
Qed.
Lemma stored_slopes_length lv free A : Forall (fun r => length r = lv) free -> length (store_slopes lv free A) = ctrue (concat free).
Proof.
  intro HF. unfold store_slopes. rewrite P_Nest2.length_concat_sum, ctrue_concat. f_equal. rewrite <- (map_length ctrue free). apply blocks_sizes.
  intros i Hi. rewrite map_length in Hi. rewrite nth_ctrue. apply select_length. now apply free_row.
Qed.
Lemma stored_slope lv free A i d : Forall (fun r => length r = lv) free -> (i < length free)%nat -> slope free (store_slopes lv free A) i d = if nth d (nth i free []) false then A i d else 0.
Proof.
  intros HF Hi. unfold slope. destruct (nth d (nth i free []) false) eqn:E; [|reflexivity].
  assert (Hd : (d < lv)%nat). { destruct (Nat.lt_ge_cases d lv); [assumption|]. rewrite nth_overflow in E by (rewrite (free_row lv) by auto; assumption). discriminate. }
  unfold store_slopes. rewrite ctrue_concat, <- firstn_map.
  rewrite (nth_concat_block _ (map ctrue free)).
  - rewrite (nth_indep _ [] (mask_select (nth 0 free []) (map (A 0%nat) (seq 0 lv)))) by (rewrite map_length, seq_length; exact Hi).
    rewrite (map_nth (fun i => mask_select (nth i free []) (map (A i) (seq 0 lv)))), seq_nth by exact Hi. cbn [Nat.add].
    rewrite nth_mask_select; [now apply nth_map_seq|rewrite map_length, seq_length; now apply free_row|exact E].
  - rewrite <- (map_length ctrue free). apply blocks_sizes. intros j Hj. rewrite map_length in Hj. rewrite nth_ctrue. apply select_length. now apply free_row.
  - rewrite nth_ctrue. now apply ctrue_below.
Qed.
(** A slope that is not free is zero. *)
Lemma fixed_slope free w i d : nth d (nth i free []) false = false -> slope free w i d = 0.
Proof. intro H. unfold slope. now rewrite H. Qed.
Lemma stored_intercepts_length cats B : length (store_intercepts cats B) = list_sum (map pred cats).
Proof.
  unfold store_intercepts. rewrite P_Nest2.length_concat_sum. f_equal. rewrite <- (map_length pred cats). apply blocks_sizes.
  intros i Hi. rewrite map_length, seq_length. now rewrite nth_pred.
Qed.
Lemma stored_intercept cats B i k : (i < length cats)%nat -> intercept cats (store_intercepts cats B) i k = if (1 <=? k)%nat && (k <? nth i cats O)%nat then B i k else 0.
Proof.
  intro Hi. unfold intercept. destruct ((1 <=? k)%nat && (k <? nth i cats O)%nat) eqn:E; [|reflexivity]. apply andb_true_iff in E as [E1 E2]. apply Nat.leb_le in E1. apply Nat.ltb_lt in E2.
  unfold store_intercepts. rewrite (nth_concat_block _ (map pred cats)).
  - rewrite (nth_indep _ [] (map (B 0%nat) (seq 1 (pred (nth 0 cats O))))) by (rewrite map_length, seq_length; exact Hi).
    rewrite (map_nth (fun i => map (B i) (seq 1 (pred (nth i cats O))))), seq_nth by exact Hi. cbn [Nat.add].
    rewrite (nth_indep _ 0 (B i O)) by (rewrite map_length, seq_length; lia). rewrite map_nth, seq_nth by lia. f_equal. lia.
  - rewrite <- (map_length pred cats). apply blocks_sizes. intros j Hj. rewrite map_length, seq_length. now rewrite nth_pred.
  - rewrite nth_pred. lia.
Qed.
Lemma category_sizes cats (rel : list (list bool)) : length rel = length cats ->
  map (fun Kr => pred (fst Kr) * ctrue (snd Kr))%nat (combine cats rel) = map (fun i => pred (nth i cats O) * ctrue (nth i rel []))%nat (seq 0 (length cats)).
Proof.
  intro H. apply nth_error_ext. intro i. destruct (Nat.lt_ge_cases i (length cats)) as [Hi|Hi].
  - rewrite nth_error_map_seq by exact Hi. rewrite nth_error_map. rewrite (nth_error_combine_some cats rel i (nth i cats O) (nth i rel [])); [reflexivity|now apply nth_error_nth_lt|apply nth_error_nth_lt; lia].
  - rewrite (proj2 (nth_error_None _ _)), (proj2 (nth_error_None _ _)); auto; rewrite map_length; [now rewrite seq_length|rewrite combine_length; lia].
Qed.
Lemma category_block_length lv (row : list bool) (A : nat -> nat -> R) n : length row = lv -> length (concat (map (fun k => mask_select row (map (A k) (seq 0 lv))) (seq 1 n))) = (n * ctrue row)%nat.
Proof.
  intro H. rewrite (length_concat_const _ (ctrue row)); [now rewrite map_length, seq_length|]. apply Forall_forall. intros l Hl. apply in_map_iff in Hl as (k & <- & _). now apply select_length.
Qed.
Lemma stored_category_slopes_sizes cats lv rel A : length rel = length cats -> Forall (fun r => length r = lv) rel ->
  map (@length R) (map (fun i => concat (map (fun k => mask_select (nth i rel []) (map (A i k) (seq 0 lv))) (seq 1 (pred (nth i cats O))))) (seq 0 (length cats))) =
  map (fun Kr => pred (fst Kr) * ctrue (snd Kr))%nat (combine cats rel).
Proof.
  intros HL HF. rewrite category_sizes by exact HL. rewrite map_map. apply map_ext_in. intros i Hi. apply in_seq in Hi. apply category_block_length. apply free_row; [exact HF|lia].
Qed.
Lemma stored_category_slopes_length cats lv rel A : length rel = length cats -> Forall (fun r => length r = lv) rel ->
  length (store_category_slopes cats lv rel A) = list_sum (map (fun Kr => pred (fst Kr) * ctrue (snd Kr))%nat (combine cats rel)).
Proof. intros HL HF. unfold store_category_slopes. rewrite P_Nest2.length_concat_sum. f_equal. now apply stored_category_slopes_sizes. Qed.
Lemma stored_category_slope cats lv rel A b i k d : length rel = length cats -> Forall (fun r => length r = lv) rel -> (i < length cats)%nat -> (1 <= k < nth i cats O)%nat ->
  nrm_free_slope {| nrm_cats := cats; nrm_lv := lv; nrm_rel := rel; nrm_w := store_category_slopes cats lv rel A; nrm_b := b |} i k d = if nth d (nth i rel []) false then A i k d else 0.
Proof.
  intros HL HF Hi Hk. unfold nrm_free_slope. cbn [nrm_cats nrm_rel nrm_w]. destruct (nth d (nth i rel []) false) eqn:E; [|reflexivity].
  assert (Hr : length (nth i rel []) = lv) by (apply free_row; [exact HF|lia]).
  assert (Hd : (d < lv)%nat). { destruct (Nat.lt_ge_cases d lv); [assumption|]. rewrite nth_overflow in E by lia. discriminate. }
  pose proof (ctrue_below _ _ E) as Hc. unfold store_category_slopes. rewrite <- Nat.add_assoc, <- firstn_map.
  rewrite (nth_concat_block _ (map (fun Kr => pred (fst Kr) * ctrue (snd Kr))%nat (combine cats rel))).
  - rewrite (nth_indep _ [] ((fun i => concat (map (fun k => mask_select (nth i rel []) (map (A i k) (seq 0 lv))) (seq 1 (pred (nth i cats O))))) O)) by (rewrite map_length, seq_length; exact Hi).
    rewrite (map_nth (fun i => concat (map (fun k => mask_select (nth i rel []) (map (A i k) (seq 0 lv))) (seq 1 (pred (nth i cats O)))))), seq_nth by exact Hi. cbn [Nat.add].
    rewrite (nth_concat_const _ (ctrue (nth i rel []))).
    + rewrite (nth_indep _ [] ((fun k => mask_select (nth i rel []) (map (A i k) (seq 0 lv))) O)) by (rewrite map_length, seq_length; lia).
      rewrite (map_nth (fun k => mask_select (nth i rel []) (map (A i k) (seq 0 lv)))), seq_nth by lia. replace (1 + pred k)%nat with k by lia.
      rewrite nth_mask_select; [now apply nth_map_seq|rewrite map_length, seq_length; exact Hr|exact E].
    + apply Forall_forall. intros l Hl. apply in_map_iff in Hl as (k' & <- & _). now apply select_length.
    + rewrite map_length, seq_length. lia.
    + exact Hc.
  - now apply stored_category_slopes_sizes.
  - rewrite category_sizes by exact HL. rewrite nth_map_seq by exact Hi. apply Nat.lt_le_trans with (pred k * ctrue (nth i rel []) + ctrue (nth i rel []))%nat; [lia|]. replace (pred k * ctrue (nth i rel []) + ctrue (nth i rel []))%nat with (k * ctrue (nth i rel []))%nat by (destruct k; cbn; lia). apply Nat.mul_le_mono_r. lia.
Qed.
Lemma fixed_category_slope m i k d : nth d (nth i (nrm_rel m) []) false = false -> nrm_free_slope m i k d = 0.
Proof. intro H. unfold nrm_free_slope. now rewrite H. Qed.
