(** Lemmas: collapsing incorrect options and the sum-score distribution over the latent distribution. *)
From Verif Require Import Base BaseFacts RBase RFacts M_Logit M_Mono M_Lik M_Est M_Stat S_Stat P_Lik3 P_Stat1.
Local Open Scope R_scope.

Lemma rsum_remove p k : (k < length p)%nat -> rsum (firstn k p ++ skipn (S k) p) = rsum p - nth k p 0.
Proof.
  revert k; induction p as [|x p IH]; intros [|k] H; cbn [length] in H; try lia.
  - cbn [firstn skipn app nth]. change (rsum (x :: p)) with (x + rsum p). ring.
  - cbn [firstn app nth]. change (skipn (S (S k)) (x :: p)) with (skipn (S k) p).
    change (rsum (x :: (firstn k p ++ skipn (S k) p))) with (x + rsum (firstn k p ++ skipn (S k) p)). rewrite IH by lia.
    change (rsum (x :: p)) with (x + rsum p). ring.
Qed.
Lemma key_ok_nth probs key i p : key_ok probs key -> nth_error probs i = Some p -> exists k, nth_error key i = Some k /\ (k < length p)%nat.
Proof. intros H. revert i; induction H as [|q k ps ks H _ IH]; intros [|i] E; try discriminate; cbn in *; [injection E as <-; eauto|apply IH; assumption]. Qed.
Lemma key_ok_length probs key : key_ok probs key -> length key = length probs.
Proof. induction 1; cbn; auto. Qed.
Lemma sum_incorrect_item_spec p k : (k < length p)%nat -> sum_incorrect_item p k = Ok (collapse p k).
Proof.
  intros H. unfold sum_incorrect_item, collapse. destruct (nth_error p k) as [c|] eqn:E; [|apply nth_error_None in E; lia].
  rewrite rsum_remove by exact H. rewrite (nth_error_nth p k 0 E). reflexivity.
Qed.
Lemma map_seq_zip (probs : list (list R)) (key : list nat) : length key = length probs ->
  map (fun i => collapse (nth i probs []) (nth i key 0%nat)) (seq 0 (length probs)) = zip_with collapse probs key.
Proof.
  revert key; induction probs as [|p ps IH]; intros [|k ks] H; cbn [length] in H; try lia; [reflexivity|].
  cbn [length seq map zip_with]. f_equal. rewrite <- seq_shift, map_map. cbn [nth]. apply IH. lia.
Qed.
Lemma sum_incorrect_spec probs cats key : key_ok probs key -> length cats = length probs ->
  sum_incorrect_probabilities probs cats key = Ok (zip_with collapse probs key).
Proof.
  intros HK HC. unfold sum_incorrect_probabilities. rewrite HC. pose proof (key_ok_length _ _ HK) as HL.
  rewrite (mapM_total _ (fun i => collapse (nth i probs []) (nth i key 0%nat))).
  - cbn [bind]. rewrite map_length, seq_length, Nat.sub_diag, app_nil_r, map_seq_zip by exact HL. reflexivity.
  - intros i Hi. apply in_seq in Hi.
    destruct (nth_error probs i) as [p|] eqn:Ep; [|apply nth_error_None in Ep; lia]. destruct (key_ok_nth _ _ _ _ HK Ep) as (k & Ek & Hk).
    rewrite Ek. rewrite (nth_error_nth probs i [] Ep), (nth_error_nth key i 0%nat Ek). apply sum_incorrect_item_spec. exact Hk.
Qed.
(** A key that points outside an item's columns raises IndexError. *)
Lemma sum_incorrect_bad_key probs cats key i p k : length cats = length probs -> length key = length probs ->
  nth_error probs i = Some p -> nth_error key i = Some k -> (length p <= k)%nat -> sum_incorrect_probabilities probs cats key = Err IndexError.
Proof.
  intros HC HL Ep Ek Hk. unfold sum_incorrect_probabilities. rewrite (mapM_Err _ _ IndexError); [reflexivity| |].
  - intros j _. destruct (nth_error key j), (nth_error probs j); auto. unfold sum_incorrect_item. destruct (nth_error l n); eauto.
  - exists i. split; [apply in_seq; rewrite HC; split; [lia|]; apply nth_error_Some; congruence|]. rewrite Ek, Ep. unfold sum_incorrect_item.
    rewrite (proj2 (nth_error_None _ _)) by exact Hk. reflexivity.
Qed.

(** ** The collapsed items as distributions *)
Lemma collapsed_fits probs key : length key = length probs -> fits (zip_with collapse probs key) (repeat 2%nat (length probs)).
Proof.
  revert key; induction probs as [|p ps IH]; intros [|k ks] H; cbn [length] in H; try lia; [constructor|].
  cbn [zip_with length repeat]. constructor; [cbn [collapse length]; lia|]. apply IH. lia.
Qed.
Lemma collapsed_distributions probs cats key : key_ok probs key -> Forall2 (fun p c => length p = c /\ is_distribution p c) probs cats ->
  all_distributions (zip_with collapse probs key) (repeat 2%nat (length probs)).
Proof.
  intros HK. revert cats; induction HK as [|p k ps ks H _ IH]; intros cats HD; [constructor|]. inversion HD as [|p' c ps' cs [L [D1 D2]] HD']; subst.
  cbn [zip_with length repeat]. constructor; [|eapply IH; eassumption]. split.
  - intros [|[|j]] Hj; try lia; cbn [collapse nth]; [|apply D1; exact H].
    assert (nth k p 0 <= sumn (length p) (fun j => nth j p 0)) by (apply (sumn_term_le (length p) (fun j => nth j p 0) k); assumption).
    rewrite rsum_nth. lra.
  - unfold collapse. cbn [sumn nth]. rewrite rsum_nth, D2. ring.
Qed.

Lemma mapM_csd rows cats : cats <> [] -> Forall (fun probs => fits probs cats) rows ->
  exists cond, mapM (fun probs => conditional_score_distribution probs cats) rows = Ok cond /\
    Forall2 (fun probs d => forall s, nth s d 0 = score_probability probs cats s) rows cond.
Proof.
  intros Hc. induction 1 as [|probs rows HF _ IH]; [exists []; split; [reflexivity|constructor]|].
  destruct (csd_spec probs cats HF) as (d & E & _ & N); [intros ->; inversion HF; subst; congruence|].
  destruct IH as (cond & E' & N'). cbn [mapM]. rewrite E. cbn [bind]. rewrite E'. cbn [bind]. eexists. split; [reflexivity|]. constructor; assumption.
Qed.
Lemma F2_length {A B} (P : A -> B -> Prop) l m : Forall2 P l m -> length m = length l.
Proof. induction 1; cbn; auto. Qed.
Lemma mixture_zip weights rows cats cond s : Forall2 (fun probs d => forall s, nth s d 0 = score_probability probs cats s) rows cond ->
  rsum (zip_with (fun w d => nth s d 0 * w) weights cond) = mixture weights rows cats s.
Proof.
  intros H. unfold mixture. revert weights; induction H as [|probs d rows cond Hd _ IH]; intros [|w ws]; try reflexivity.
  cbn [zip_with]. match goal with |- rsum (?a :: ?b) = rsum (?c :: ?e) => change (a + rsum b = c + rsum e) end. rewrite IH, Hd. ring.
Qed.
Lemma ssp_plain cats rows weights : cats <> [] -> Forall (fun probs => fits probs cats) rows -> length weights = length rows ->
  sum_score_probabilities None cats rows weights = Ok (map (mixture weights rows cats) (seq 0 (list_sum cats - length cats + 1))).
Proof.
  intros Hc HF HL. unfold sum_score_probabilities. cbn [bind]. destruct (mapM_csd rows cats Hc HF) as (cond & -> & N). cbn [bind].
  rewrite (F2_length _ _ _ N), HL, Nat.eqb_refl. f_equal. apply map_ext. intros s. apply mixture_zip. exact N.
Qed.
Lemma list_sum_repeat2 n : list_sum (repeat 2%nat n) = (2 * n)%nat.
Proof. induction n as [|n IH]; [reflexivity|]. cbn [repeat]. change (list_sum (2%nat :: repeat 2%nat n)) with (2 + list_sum (repeat 2%nat n))%nat. lia. Qed.
Lemma ssp_key cats key rows weights : cats <> [] -> Forall (fun probs => length probs = length cats /\ key_ok probs key) rows -> length weights = length rows ->
  sum_score_probabilities (Some key) cats rows weights
  = Ok (map (mixture weights (map (fun probs => zip_with collapse probs key) rows) (repeat 2%nat (length cats))) (seq 0 (length cats + 1))).
Proof.
  intros Hc HF HL. unfold sum_score_probabilities.
  rewrite (mapM_total _ (fun probs => zip_with collapse probs key)).
  2:{ intros probs Hi. rewrite Forall_forall in HF. destruct (HF probs Hi) as [L K]. apply sum_incorrect_spec; [exact K|congruence]. }
  cbn [bind]. destruct (mapM_csd (map (fun probs => zip_with collapse probs key) rows) (repeat 2%nat (length cats))) as (cond & -> & N).
  - destruct cats; [congruence|discriminate].
  - apply Forall_forall. intros q Hq. apply in_map_iff in Hq. destruct Hq as (probs & <- & Hi). rewrite Forall_forall in HF. destruct (HF probs Hi) as [L K].
    rewrite <- L. apply collapsed_fits. apply key_ok_length. exact K.
  - cbn [bind]. rewrite (F2_length _ _ _ N), map_length, HL, Nat.eqb_refl, repeat_length, list_sum_repeat2.
    replace (2 * length cats - length cats + 1)%nat with (length cats + 1)%nat by lia. f_equal. apply map_ext. intros s. apply mixture_zip. exact N.
Qed.
(** Totals of the mixture. *)
Lemma sumn_mixture weights rows cats m : sumn m (mixture weights rows cats) = rsum (zip_with (fun w probs => w * sumn m (score_probability probs cats)) weights rows).
Proof.
  unfold mixture. revert rows; induction weights as [|w ws IH]; intros [|p ps]; try (cbn [zip_with]; apply sumn_0).
  cbn [zip_with]. rewrite (sumn_ext _ _ (fun s => w * score_probability p cats s + rsum (zip_with (fun w probs => w * score_probability probs cats s) ws ps))) by reflexivity.
  rewrite sumn_plus, IH, sumn_scal. reflexivity.
Qed.
Lemma mixture_total weights rows cats : length weights = length rows -> Forall (fun probs => fits probs cats /\ all_distributions probs cats) rows ->
  sumn (list_sum cats - length cats + 1) (mixture weights rows cats) = rsum weights.
Proof.
  intros HL HF. rewrite sumn_mixture. revert weights HL; induction HF as [|p ps [F D] _ IH]; intros [|w ws] HL; cbn [length] in HL; try lia; [reflexivity|].
  cbn [zip_with]. match goal with |- rsum (?a :: ?b) = rsum (?c :: ?e) => change (a + rsum b = c + rsum e) end. rewrite IH by lia. rewrite score_probability_sum by assumption. ring.
Qed.
Lemma mixture_nonneg weights rows cats s : Forall (fun w => 0 <= w) weights -> Forall (fun probs => all_distributions probs cats) rows -> 0 <= mixture weights rows cats s.
Proof.
  intros HW HF. unfold mixture. revert weights HW; induction HF as [|p ps D _ IH]; intros [|w ws] HW; try (cbn; lra).
  inversion HW; subst. cbn [zip_with]. match goal with |- 0 <= rsum (?a :: ?b) => change (0 <= a + rsum b) end.
  apply Rplus_le_le_0_compat; [apply Rmult_le_pos; [assumption|apply score_probability_nonneg; assumption]|apply IH; assumption].
Qed.
