(** Models with masked logits: log-likelihoods, losses and scores from their probabilities. *)
From Coq Require Import Lra.
From Verif Require Import Base BaseFacts RBase RFacts M_Data M_CV M_Logit M_Lik M_Est M_Opt M_Jml M_Mono M_Flex P_Data P_Logit P_Logit3 P_Lik1 P_Lik5 P_Est1 P_Est2 P_Est3 P_Opt3 P_Mono4 P_Mono5 P_Mono6 P_Mono7 S_Logit S_Lik S_Est S_Flex.
Import List.
Local Open Scope R_scope.

Section Logits.
Variable m : emodel.
Variable nanl : Z.
Variable f : list R -> list ext.
Variable z : list R -> nat -> nat -> R.
Let cats := em_cats m.
Let M := list_max cats.
Hypothesis HC : cats <> [].
Hypothesis HK : Forall (fun K => (1 <= K)%nat) cats.
Hypothesis Hlen : forall t, length t = em_lv m -> length (f t) = (length cats * M)%nat.
Hypothesis Hz : forall t i K k, length t = em_lv m -> nth_error cats i = Some K -> (k < M)%nat -> nth_error (f t) (i * M + k) = Some (if (k <? K)%nat then Fin (z t i k) else NInf).
Hypothesis Hf : forall thetas, Forall (fun t => length t = em_lv m) thetas -> em_forward m thetas = Ok (T2 (Wide (length cats * M) (map f thetas))).
Hypothesis Hll : forall red data out mask, em_ll m red data out mask = base_log_likelihood nanl M red (w_rows data) (rows_of out) (option_map w_rows mask).
Definition logit_p (t : list R) (i k : nat) : R := category_probability (nth i (em_cats m) O) (z t i) k.

Lemma logits_max : (0 < M)%nat.
Proof. unfold M. now apply list_max_pos. Qed.
Lemma logits_table thetas r t i K k : Forall (fun t => length t = em_lv m) thetas -> nth_error thetas r = Some t -> nth_error cats i = Some K -> (k < K)%nat ->
  at3 (probabilities_from_output (length cats) M (map f thetas)) r i k = Some (Some (logit_p t i k)).
Proof.
  intros HF Hr Hi Hk. assert (Ht : length t = em_lv m) by (rewrite Forall_forall in HF; apply HF; eapply nth_error_In; eauto).
  assert (HKM : (1 <= K <= M)%nat) by (rewrite Forall_forall in HK; split; [apply HK; eapply nth_error_In; eauto|apply list_max_bound; eapply nth_error_In; eauto]).
  assert (Hil : (i < length cats)%nat) by (apply nth_error_Some; congruence).
  rewrite (probabilities_pattern (length cats) M (map f thetas) r (f t) i K (z t i)); auto; try lia.
  - destruct (Nat.ltb_spec k K); [|lia]. unfold logit_p. fold cats. now rewrite (nth_error_nth _ _ O Hi).
  - apply Forall_forall. intros o Ho. apply in_map_iff in Ho as (a & <- & Ha). apply Hlen. rewrite Forall_forall in HF. auto.
  - now rewrite nth_error_map, Hr.
Qed.
Lemma logit_p_pos t i k : (k < nth i cats O)%nat -> 0 < logit_p t i k.
Proof. intro Hk. apply P_Est2.category_probability_pos. exact Hk. Qed.
Lemma logits_loglik thetas data mask x : Forall (fun t => length t = em_lv m) thetas -> rect (length thetas) (length cats) data -> rect_opt (length thetas) (length cats) mask ->
  legal_responses (length thetas) cats mask data x ->
  loglik_of (length thetas) (length cats) mask (probabilities_from_output (length cats) M (map f thetas)) x (fun red => base_log_likelihood nanl M red data (map f thetas) mask).
Proof.
  intros HF Hd Hm Hx. apply (base_loglik nanl _ _ _ _ _ _ _ (fun n i => logit_p (nth n thetas []) i (x n i))); auto.
  - apply logits_max.
  - split; [now rewrite map_length|]. apply Forall_forall. intros o Ho. apply in_map_iff in Ho as (a & <- & Ha). apply Hlen. rewrite Forall_forall in HF. auto.
  - intros n i Hn Hi E. destruct (P_Est2.legal_at _ _ _ _ _ n i Hx Hn Hi E) as (K & EK & HxK). destruct (Hx n i K Hn EK E) as [A _]. split; [exact A|]. assert (K <= M)%nat by (apply list_max_bound; eapply nth_error_In; eauto). lia.
  - intros n i Hn Hi E. destruct (P_Est2.legal_at _ _ _ _ _ n i Hx Hn Hi E) as (K & EK & HxK). split.
    + apply (logits_table thetas n (nth n thetas []) i K); auto. apply nth_error_nth_lt. exact Hn.
    + apply logit_p_pos. now rewrite (nth_error_nth _ _ O EK).
Qed.
Lemma logits_have_probabilities : has_probabilities m logit_p.
Proof.
  split; [intros t i k _ Hk; apply Rlt_le; now apply logit_p_pos|]. intros thetas data mask x HF Hd Hk Hx. unfold em_items in *. fold cats in Hd, Hk, Hx.
  eexists. destruct (from_loglik thetas _ mask _ x _ logit_p (logits_loglik thetas data mask x HF Hd Hk Hx)) as (l & El & Hl & Hcl).
  { intros n t i Et Hi Em. assert (Hn : (n < length thetas)%nat) by (apply nth_error_Some; congruence). destruct (P_Est2.legal_at _ _ _ _ _ n i Hx Hn Hi Em) as (K & EK & HxK). now apply (logits_table thetas n t i K). }
  exists l. split; [now apply Hf|]. rewrite Hll, wide_rows_id. cbn [rows_of w_rows]. fold cats. auto.
Qed.
Lemma logits_flat : flat_output m.
Proof. exists (length cats * M)%nat, f. exact Hf. Qed.
Lemma logits_items : (0 < em_items m)%nat.
Proof. unfold em_items. fold cats. destruct cats; [congruence|cbn; lia]. Qed.
Lemma logits_distribution : distributions (em_lv m) cats logit_p.
Proof.
  intros t i K _ Hi. split; [intros k Hk; apply logit_p_pos; now rewrite (nth_error_nth _ _ O Hi)|]. unfold logit_p. fold cats. rewrite (nth_error_nth _ _ O Hi).
  apply category_probability_sum. rewrite Forall_forall in HK. apply HK. eapply nth_error_In; eauto.
Qed.
Lemma logits_sum : has_sum m logit_p.
Proof.
  intros thetas data HF HL HD. pose proof (legal_data_rect _ _ HD) as HR. pose proof (legal_data_responses _ _ HD) as HX. fold cats in HR, HX. rewrite <- HL in HR, HX.
  assert (HM : rect_opt (length thetas) (length cats) (Some (map (map missing_cell) data))).
  { split; [now rewrite map_length, (proj1 HR)|]. apply Forall_forall. intros r Hr. apply in_map_iff in Hr as (r0 & <- & Hr0). rewrite map_length. destruct HR as [_ HR]. rewrite Forall_forall in HR. now apply HR. }
  eexists. split; [now apply Hf|]. apply (sum_from_loglik m logit_p (probabilities_from_output (length cats) M (map f thetas))); auto.
  - apply logits_have_probabilities.
  - intros. now apply logit_p_pos.
  - pose proof (logits_loglik thetas data _ _ HF HR HM HX) as (q & H1 & H2 & l & H3 & H4). exists q. unfold em_items. fold cats.
    split; [exact H1|]. split; [rewrite Hll; exact H2|]. exists l. split; [rewrite Hll; exact H3|exact H4].
Qed.
End Logits.

(** The loss minimised for joint estimation, ML and MAP scores. *)
Lemma scoring_value m p prior thetas data : has_sum m p -> (forall t i k, length t = em_lv m -> (k < nth i (em_cats m) O)%nat -> 0 < p t i k) ->
  Forall (fun t => length t = em_lv m) thetas -> length thetas = length data -> legal_data (em_cats m) data ->
  scoring_loss m prior (Wide (em_items m) data) thetas = Ok (Some (Fin (- sumn (length data) (fun n => row_target p prior (nth n data []) (nth n thetas []))))).
Proof.
  intros Hm HP HF HL HD. destruct (Hm thetas data HF HL HD) as (out & EO & ES). unfold scoring_loss. rewrite EO. cbn [bind]. rewrite ES. cbn [bind scalar_of].
  unfold em_items. rewrite (observed_rows (em_lv m) (em_cats m) p thetas data) by auto.
  unfold row_target, prior_term. destruct prior as [lp|]; unfold fsub; cbn [fneg fadd]; do 3 f_equal.
  - rewrite sumn_plus. replace (rsum (map lp thetas)) with (sumn (length data) (fun n => lp (nth n thetas []))); [ring|]. rewrite rsum_nth, map_length, HL. apply sumn_ext. intros n Hn. rewrite (nth_indep _ 0 (lp [])) by (rewrite map_length; lia). now rewrite map_nth.
  - f_equal. apply sumn_ext. intros; ring.
Qed.

(** ** The models *)
Lemma mnn_logits nanl m : mnn_ok m -> (forall key, n_key m = Some key -> length key = n_items m /\ forall i K, nth_error (n_cats m) i = Some K -> (nth i key O < K)%nat) ->
  exists f z, (forall t, length t = n_lv m -> length (f t) = (n_items m * n_max m)%nat) /\
    (forall t i K k, length t = n_lv m -> nth_error (n_cats m) i = Some K -> (k < n_max m)%nat -> nth_error (f t) (i * n_max m + k) = Some (if (k <? K)%nat then Fin (z t i k) else NInf)) /\
    forall thetas, Forall (fun t => length t = n_lv m) thetas -> mnn_forward m thetas = Ok (map f thetas) /\ em_forward (mnn_model nanl m) thetas = Ok (T2 (Wide (n_items m * n_max m) (map f thetas))).
Proof.
  intros Hm Hkey. pose proof Hm as (H1 & H2 & _). pose proof (list_max_pos _ H1 H2) as HM. fold (n_max m) in HM.
  assert (F : exists f z, (forall t, length t = n_lv m -> mnn_forward1 m t = Ok (f t)) /\ (forall t, length t = n_lv m -> length (f t) = (n_items m * n_max m)%nat) /\
    (forall t i K k, length t = n_lv m -> nth_error (n_cats m) i = Some K -> (k < n_max m)%nat -> nth_error (f t) (i * n_max m + k) = Some (if (k <? K)%nat then Fin (z t i k) else NInf))).
  { destruct (n_key m) as [key|] eqn:EK.
    - destruct (Hkey key eq_refl) as [Hkl Hkr].
      exists (fun t => match key_logits (n_cats m) key (n_bias m) (mnn_table m t) with Ok x => x | Err _ => [] end),
        (fun t i k => (if (k =? nth i key O)%nat then sumn (n_max m) (mnn_unit m t i) else mnn_unit m t i k) + bias_at (n_cats m) (n_bias m) i k).
      assert (G : forall t, length t = n_lv m -> exists row, key_logits (n_cats m) key (n_bias m) (mnn_table m t) = Ok row /\ length row = (n_items m * n_max m)%nat /\
        forall i k K, nth_error (n_cats m) i = Some K -> (k < n_max m)%nat -> nth_error row (i * n_max m + k) =
          Some (if (k <? K)%nat then Fin ((if (k =? nth i key O)%nat then sumn (n_max m) (mnn_unit m t i) else mnn_unit m t i k) + bias_at (n_cats m) (n_bias m) i k) else NInf)).
      { intros t _. apply (key_logits_ok (n_cats m) key (n_bias m) (mnn_unit m t)); auto. }
      split; [|split].
      + intros t Ht. rewrite mnn_forward1_table by auto. rewrite EK. destruct (G t Ht) as (row & -> & _). reflexivity.
      + intros t Ht. destruct (G t Ht) as (row & -> & L & _). exact L.
      + intros t i K k Ht Hi Hk. destruct (G t Ht) as (row & -> & _ & N). now apply N.
    - exists (fun t => cumulative_logits (n_cats m) (n_bias m) (mnn_table m t)), (fun t i k => sumn (S k) (mnn_unit m t i) + bias_at (n_cats m) (n_bias m) i k). split; [|split].
      + intros t Ht. rewrite mnn_forward1_table by auto. now rewrite EK.
      + intros t Ht. unfold mnn_table. now apply cumulative_length.
      + intros t i K k Ht Hi Hk. unfold mnn_table. now apply cumulative_nth. }
  destruct F as (f & z & F1 & F2 & F3). exists f, z. split; [exact F2|]. split; [exact F3|]. intros thetas HF.
  assert (E : mnn_forward m thetas = Ok (map f thetas)) by (unfold mnn_forward; apply mapM_total; intros a Ha; rewrite Forall_forall in HF; auto). split; [exact E|].
  cbn [mnn_model em_forward]. now rewrite E.
Qed.
Lemma mpm_logits nanl m : mpm_ok m ->
  exists f z, (forall t, length t = mp_in (q_poly m) -> length (f t) = (q_items m * q_max m)%nat) /\
    (forall t i K k, length t = mp_in (q_poly m) -> nth_error (q_cats m) i = Some K -> (k < q_max m)%nat -> nth_error (f t) (i * q_max m + k) = Some (if (k <? K)%nat then Fin (z t i k) else NInf)) /\
    forall thetas, Forall (fun t => length t = mp_in (q_poly m)) thetas -> map (mpm_forward1 m) thetas = map f thetas /\ em_forward (mpm_model nanl m) thetas = Ok (T2 (Wide (q_items m * q_max m) (map f thetas))).
Proof.
  intros Hm. pose proof Hm as (H1 & H2 & _). pose proof (list_max_pos _ H1 H2) as HM. fold (q_max m) in HM.
  exists (mpm_forward1 m), (fun t i k => sumn (S k) (mpm_unit m t i) + bias_at (q_cats m) (q_bias m) i k). split; [|split].
  - intros t _. rewrite mpm_forward1_table by exact Hm. now apply cumulative_length.
  - intros t i K k _ Hi Hk. rewrite mpm_forward1_table by exact Hm. now apply cumulative_nth.
  - intros thetas _. split; reflexivity.
Qed.
