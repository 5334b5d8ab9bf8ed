(** Proofs: the monotone neural network model with a key. *)
From Verif Require Import Base BaseFacts RBase RFacts M_Logit S_Logit P_Logit P_Logit2 P_Logit4 M_Mono S_Mono P_Mono1 P_Mono2 P_Mono3 P_Mono4 P_Mono5.
Local Open Scope R_scope.

Lemma fold_upd_nth idx w p :
  nth_error (fold_left (fun m j => upd j true m) idx w) p =
  option_map (fun b : bool => existsb (Nat.eqb p) idx || b)%bool (nth_error w p).
Proof.
  revert w. induction idx as [|j idx IH]; intro w; cbn [fold_left existsb].
  - destruct (nth_error w p); reflexivity.
  - rewrite IH. destruct (Nat.eqb_spec p j) as [->|Hne].
    + destruct (Nat.lt_ge_cases j (length w)) as [H|H].
      * rewrite nth_error_upd_eq by auto. rewrite (nth_error_nth_lt w j false) by auto. cbn. now rewrite orb_true_r.
      * rewrite !(proj2 (nth_error_None _ j)); rewrite ?upd_length; auto.
    + rewrite nth_error_upd_neq by auto. reflexivity.
Qed.
Lemma fold_upd_length idx (w : list bool) : length (fold_left (fun m j => upd j true m) idx w) = length w.
Proof. revert w. induction idx as [|j idx IH]; intro w; cbn; auto. now rewrite IH, upd_length. Qed.

Definition key_row (M c : nat) : list bool := map (fun k => (k =? c)%nat) (seq 0 M).
Lemma key_mask_ok items M key : length key = items -> Forall (fun c => (c < M)%nat) key ->
  key_mask items M key = Ok (concat (map (fun i => key_row M (nth i key O)) (seq 0 items))).
Proof.
  intros Hl HF. unfold key_mask.
  set (idx := zip_with Nat.add (map (fun i => (i * M)%nat) (seq 0 items)) key).
  assert (Hidx : forall i, (i < items)%nat -> nth_error idx i = Some (i * M + nth i key O)%nat).
  { intros i Hi. unfold idx. rewrite nth_error_zip_with, nth_error_map_seq by auto. now rewrite (nth_error_nth_lt key i O) by lia. }
  assert (Hil : length idx = items) by (unfold idx; rewrite zip_with_length, map_length, seq_length; lia).
  assert (Hc : forall i, (i < items)%nat -> (nth i key O < M)%nat) by (intros i Hi; rewrite Forall_forall in HF; apply HF, nth_In; lia).
  replace (forallb (fun j => (j <? items * M)%nat) idx) with true.
  2:{ symmetry. apply forallb_forall. intros j Hj. apply In_nth_error in Hj as (i & Hi).
      assert (i < items)%nat by (rewrite <- Hil; apply nth_error_Some; congruence).
      rewrite Hidx in Hi by auto. injection Hi as <-. apply Nat.ltb_lt. pose proof (Hc i H). nia. }
  f_equal. unfold key_row. apply (table_ext _ (fun i k => (k =? nth i key O)%nat)).
  - rewrite fold_upd_length. apply repeat_length.
  - intros i k Hi Hk. rewrite fold_upd_nth, nth_error_repeat_lt by nia. cbn [option_map]. f_equal. rewrite orb_false_r.
    apply eq_true_iff_eq. rewrite existsb_exists, Nat.eqb_eq. split.
    + intros (j & Hj & He). apply Nat.eqb_eq in He. apply In_nth_error in Hj as (i' & Hi').
      assert (i' < items)%nat by (rewrite <- Hil; apply nth_error_Some; congruence).
      rewrite Hidx in Hi' by auto. injection Hi' as <-. pose proof (Hc i' H).
      assert (i = i') by nia. subst. lia.
    + intros ->. exists (i * M + nth i key O)%nat. split; [|apply Nat.eqb_refl]. eapply nth_error_In, Hidx; auto.
Qed.
Lemma ctrue_key_prefix M c k : (c < M)%nat -> (k <= M)%nat -> ctrue (firstn k (key_row M c)) = if (c <? k)%nat then 1%nat else 0%nat.
Proof.
  intros Hc. induction k as [|k IH]; intro Hk; [reflexivity|].
  rewrite (ctrue_firstn_S _ _ (k =? c)%nat) by (unfold key_row; now rewrite nth_error_map_seq).
  rewrite IH by lia. destruct (Nat.eqb_spec k c), (Nat.ltb_spec c k), (Nat.ltb_spec c (S k)); lia.
Qed.
Lemma key_row_length M c : length (key_row M c) = M.
Proof. unfold key_row. now rewrite map_length, seq_length. Qed.
Lemma ctrue_key_row M c : (c < M)%nat -> ctrue (key_row M c) = 1%nat.
Proof.
  intro H. pose proof (ctrue_key_prefix M c M H (le_n M)) as E. rewrite firstn_all2 in E by (rewrite key_row_length; auto).
  destruct (Nat.ltb_spec c M); lia.
Qed.
Lemma ctrue_key_rows M (key : nat -> nat) s n : (forall i, (s <= i < s + n)%nat -> (key i < M)%nat) ->
  ctrue (concat (map (fun i => key_row M (key i)) (seq s n))) = n.
Proof.
  revert s. induction n as [|n IH]; intros s H; [reflexivity|]. cbn [seq map concat].
  rewrite ctrue_app, ctrue_key_row by (apply H; lia). rewrite IH; [lia|]. intros i Hi. apply H. lia.
Qed.
Lemma ctrue_key_position M (key : nat -> nat) n i : (forall i, (i < n)%nat -> (key i < M)%nat) -> (i < n)%nat ->
  ctrue (firstn (i * M + key i) (concat (map (fun i => key_row M (key i)) (seq 0 n)))) = i.
Proof.
  intros H Hi.
  assert (HF : Forall (fun l => length l = M) (map (fun i => key_row M (key i)) (seq 0 n))).
  { apply Forall_forall. intros l Hl. apply in_map_iff in Hl as (j & <- & _). apply key_row_length. }
  pose proof (H i Hi). rewrite (firstn_concat_const _ M i (key i) (key_row M (key i))); auto; try lia.
  2:{ now rewrite nth_error_map_seq. }
  rewrite ctrue_app, ctrue_key_prefix by lia. destruct (Nat.ltb_spec (key i) (key i)); [lia|].
  assert (E : firstn i (map (fun i => key_row M (key i)) (seq 0 n)) = map (fun i => key_row M (key i)) (seq 0 i)).
  { rewrite firstn_map. f_equal. replace n with (i + (n - i))%nat by lia. rewrite seq_app, firstn_app, seq_length, Nat.sub_diag, firstn_O, app_nil_r.
    apply firstn_all2. now rewrite seq_length. }
  rewrite E, ctrue_key_rows; [lia|]. intros j Hj. apply H. lia.
Qed.

Lemma key_logits_ok cats key bias u : cats <> [] -> (0 < list_max cats)%nat -> length key = length cats ->
  (forall i K, nth_error cats i = Some K -> (nth i key O < K)%nat) ->
  exists row, key_logits cats key bias (concat (map (fun i => map (u i) (seq 0 (list_max cats))) (seq 0 (length cats)))) = Ok row /\
    length row = (length cats * list_max cats)%nat /\
    forall i k K, nth_error cats i = Some K -> (k < list_max cats)%nat ->
    nth_error row (i * list_max cats + k) =
    Some (if (k <? K)%nat then Fin ((if (k =? nth i key O)%nat then sumn (list_max cats) (u i) else u i k) + bias_at cats bias i k) else NInf).
Proof.
  intros Hne HM Hl Hkey. set (M := list_max cats) in *. set (n := length cats) in *.
  assert (Hk : forall i, (i < n)%nat -> (nth i key O < M)%nat).
  { intros i Hi. destruct (nth_error cats i) as [K|] eqn:E; [|apply nth_error_None in E; unfold n in Hi; lia].
    pose proof (Hkey i K E). pose proof (list_max_bound cats K (nth_error_In _ _ E)). fold M in H0. lia. }
  unfold key_logits. fold M n.
  rewrite key_mask_ok; auto.
  2:{ apply Forall_forall. intros c Hc. apply In_nth_error in Hc as (i & Hi).
      assert (i < n)%nat by (rewrite <- Hl; apply nth_error_Some; congruence).
      rewrite <- (nth_error_nth _ _ O Hi). now apply Hk. }
  cbn [bind]. set (mask := concat (map (fun i => key_row M (nth i key O)) (seq 0 n))).
  set (out := concat (map (fun i => map (u i) (seq 0 M)) (seq 0 n))).
  assert (Hol : length out = (n * M)%nat) by apply table_length.
  assert (Hs : map rsum (blocks M out) = map (fun i => sumn M (u i)) (seq 0 n)).
  { rewrite (block_sums M n) by auto. apply map_ext_in. intros p Hp. apply in_seq in Hp. apply sumn_ext. intros q Hq.
    apply nth_error_nth. unfold out. apply table_nth; lia. }
  rewrite Hs. assert (Hct : ctrue mask = n) by (apply ctrue_key_rows; intros i Hi; apply Hk; lia).
  rewrite Hct, map_length, seq_length, Nat.eqb_refl.
  eexists; split; [reflexivity|].
  assert (Hml : length mask = (n * M)%nat).
  { unfold mask. rewrite (length_concat_const _ M); [now rewrite map_length, seq_length|].
    apply Forall_forall. intros l Hl'. apply in_map_iff in Hl' as (j & <- & _). apply key_row_length. }
  assert (Hsl : length (mask_scatter mask (map (fun i => sumn M (u i)) (seq 0 n)) out) = (n * M)%nat) by (rewrite mask_scatter_length; auto).
  split; [now apply add_category_bias_length|].
  intros i k K Hi Hkm. assert (Hil : (i < n)%nat) by (apply nth_error_Some; congruence).
  rewrite (add_category_bias_nth cats bias _ i k K) by auto. fold M. f_equal. destruct (k <? K)%nat; [do 2 f_equal|reflexivity].
  apply nth_error_nth. rewrite (nth_error_mask_scatter _ _ _ _ (k =? nth i key O)%nat).
  - destruct (Nat.eqb_spec k (nth i key O)) as [->|Hne'].
    + unfold mask. rewrite (ctrue_key_position M (fun i => nth i key O) n i Hk Hil). now rewrite nth_error_map_seq.
    + unfold out. now apply table_nth.
  - lia.
  - rewrite Hct, map_length, seq_length. lia.
  - unfold mask, key_row. exact (table_nth (fun i k => (k =? nth i key O)%nat) n M i k Hil Hkm).
Qed.

Lemma category_probability_inv K z c : category_probability K z c = / sumn K (fun k => exp (z k - z c)).
Proof.
  unfold category_probability. pose proof (exp_pos (z c)).
  assert (sumn K (fun j => exp (z j)) = exp (z c) * sumn K (fun k => exp (z k - z c))) as ->.
  { rewrite <- sumn_scal. apply sumn_ext. intros k _. rewrite <- exp_plus. f_equal. ring. }
  destruct (Req_dec (sumn K (fun k => exp (z k - z c))) 0) as [E|E].
  - rewrite E, Rmult_0_r. unfold Rdiv. rewrite Rinv_0. ring.
  - field. split; [auto|lra].
Qed.
Lemma category_probability_le K z z' c : (1 <= K)%nat -> (forall k, (k < K)%nat -> z' k - z' c <= z k - z c) ->
  category_probability K z c <= category_probability K z' c.
Proof.
  intros HK H. rewrite !category_probability_inv. apply Rinv_le_contravar.
  - apply sumn_pos; [lia|]. intros; apply exp_pos.
  - apply sumn_le. intros k Hk. destruct (H k Hk) as [Hlt|He]; [left; now apply exp_increasing|right; now rewrite He].
Qed.
Lemma sumn_minus_term n f k : (k < n)%nat -> sumn n f - f k = sumn n (fun j => if (j =? k)%nat then 0 else f j).
Proof.
  intro Hk. assert (sumn n f = sumn n (fun j => (if (j =? k)%nat then 0 else f j) + (if (j =? k)%nat then f j else 0))) as ->.
  { apply sumn_ext. intros j _. destruct (j =? k)%nat; ring. }
  rewrite sumn_plus. rewrite (sumn_single n k (fun j => if (j =? k)%nat then f j else 0)); auto.
  - rewrite Nat.eqb_refl. ring.
  - intros j Hj Hne. apply Nat.eqb_neq in Hne. now rewrite Hne.
Qed.

Lemma mnn_key_probability m thetas r r' t t' i d key : mnn_ok m -> n_key m = Some key -> length key = n_items m ->
  (forall i K, nth_error (n_cats m) i = Some K -> (nth i key O < K)%nat) ->
  Forall (fun t => length t = n_lv m) thetas -> nth_error thetas r = Some t -> nth_error thetas r' = Some t' ->
  (d < n_lv m)%nat -> (i < n_items m)%nat -> increases_in d t t' ->
  exists probs p p', mnn_probabilities m thetas = Ok probs /\
    at3 probs r i (nth i key O) = Some (Some p) /\ at3 probs r' i (nth i key O) = Some (Some p') /\
    (0 <= mnn_direction m i d -> p <= p') /\ (mnn_direction m i d <= 0 -> p' <= p).
Proof.
  intros Hm Hkey Hkl Hkr HF Hr Hr' Hd Hi Hinc. pose proof Hm as (H1 & H2 & _).
  pose proof (list_max_pos _ H1 H2) as HM. fold (n_max m) in HM.
  assert (Hrows : forall a, exists row, key_logits (n_cats m) key (n_bias m) (mnn_table m a) = Ok row /\
     length row = (n_items m * n_max m)%nat /\
    forall i k K, nth_error (n_cats m) i = Some K -> (k < n_max m)%nat ->
    nth_error row (i * n_max m + k) =
    Some (if (k <? K)%nat then Fin ((if (k =? nth i key O)%nat then sumn (n_max m) (mnn_unit m a i) else mnn_unit m a i k) + bias_at (n_cats m) (n_bias m) i k) else NInf)).
  { intro a. apply (key_logits_ok (n_cats m) key (n_bias m) (mnn_unit m a)); auto. }
  set (row := fun a => match key_logits (n_cats m) key (n_bias m) (mnn_table m a) with Ok x => x | Err _ => [] end).
  assert (Hrow : forall a, key_logits (n_cats m) key (n_bias m) (mnn_table m a) = Ok (row a) /\ length (row a) = (n_items m * n_max m)%nat /\
    forall i k K, nth_error (n_cats m) i = Some K -> (k < n_max m)%nat ->
    nth_error (row a) (i * n_max m + k) =
    Some (if (k <? K)%nat then Fin ((if (k =? nth i key O)%nat then sumn (n_max m) (mnn_unit m a i) else mnn_unit m a i k) + bias_at (n_cats m) (n_bias m) i k) else NInf)).
  { intro a. destruct (Hrows a) as (x & E & Hx). unfold row. rewrite E. auto. }
  assert (Hf : mnn_forward m thetas = Ok (map row thetas)).
  { unfold mnn_forward. apply mapM_total. intros a Ha. rewrite Forall_forall in HF.
    rewrite mnn_forward1_table by auto. rewrite Hkey. apply Hrow. }
  assert (HFl : Forall (fun o : list ext => length o = (n_items m * n_max m)%nat) (map row thetas)).
  { apply Forall_forall. intros o Ho. apply in_map_iff in Ho as (a & <- & _). apply Hrow. }
  destruct (nth_error (n_cats m) i) as [K|] eqn:EK; [|apply nth_error_None in EK; unfold n_items in Hi; lia].
  assert (HK : (1 <= K <= n_max m)%nat).
  { rewrite Forall_forall in H2. split; [apply H2; eapply nth_error_In; eauto|]. apply list_max_bound. eapply nth_error_In; eauto. }
  pose proof (Hkr i K EK) as Hc. set (c := nth i key O) in *.
  set (z := fun a k => (if (k =? c)%nat then sumn (n_max m) (mnn_unit m a i) else mnn_unit m a i k) + bias_at (n_cats m) (n_bias m) i k).
  assert (Hp : forall s a, nth_error thetas s = Some a ->
     at3 (probabilities_from_output (n_items m) (n_max m) (map row thetas)) s i c = Some (Some (category_probability K (z a) c))).
  { intros s a Hs. rewrite (probabilities_pattern (n_items m) (n_max m) (map row thetas) s (row a) i K (z a)); auto; try lia.
    - destruct (Nat.ltb_spec c K); [reflexivity|lia].
    - now rewrite nth_error_map, Hs.
    - intros k Hk. now apply Hrow. }
  exists (probabilities_from_output (n_items m) (n_max m) (map row thetas)), (category_probability K (z t) c), (category_probability K (z t') c).
  unfold mnn_probabilities. rewrite Hf. split; [reflexivity|]. split; [now apply Hp|]. split; [now apply Hp|].
  assert (Hz : forall a k, (k < K)%nat -> k <> c -> z a k - z a c =
     - sumn (n_max m) (fun j => if (j =? k)%nat then 0 else mnn_unit m a i j) + (bias_at (n_cats m) (n_bias m) i k - bias_at (n_cats m) (n_bias m) i c)).
  { intros a k Hk Hne. rewrite <- sumn_minus_term by lia. unfold z. rewrite Nat.eqb_refl. apply Nat.eqb_neq in Hne. rewrite Hne. ring. }
  split; intro Hdir; apply category_probability_le; try lia; intros k Hk; (destruct (Nat.eq_dec k c) as [->|Hne]; [lra|]);
    rewrite !Hz by auto; apply Rplus_le_compat_r, Ropp_le_contravar, sumn_le; intros j Hj;
    (destruct (j =? k)%nat; [lra|]); apply (mnn_unit_monotone m t t' d i j); auto.
Qed.
