(** The library's models answer each row of scores on its own, with item distributions. *)
From Verif Require Import Base BaseFacts RBase RFacts M_Logit S_Logit P_Logit P_Logit2 P_Logit3 P_Logit4 M_Lik S_Lik P_Lik1 P_Lik3 P_Lik5 M_Est M_Scale S_Pop P_Pop6 M_Stat M_Info S_Info P_Info1 P_Info2 P_Info3 P_Info4.
Import List.
Local Open Scope R_scope.

Lemma row_model_of lv cats M probs p :
  (forall thetas, Forall (fun t => length t = lv) thetas -> table_shape (length thetas) (length cats) M (probs thetas)) ->
  reads lv (length cats) M probs p ->
  (forall t i K, length t = lv -> nth_error cats i = Some K -> (1 <= K <= M)%nat /\ valid_distribution K M (p t i)) ->
  row_model lv cats M probs p.
Proof.
  intros HS HR HV thetas HF. destruct (HS thetas HF) as [[L1 L2] L3]. split; [exact L1|]. intros r row Hr.
  assert (Hl : (r < length thetas)%nat) by (rewrite <- L1; apply nth_error_Some; congruence).
  pose proof (nth_error_nth_lt thetas r [] Hl) as Et. set (t := nth r thetas []) in *.
  assert (Lt : length t = lv) by (rewrite Forall_forall in HF; apply HF; eapply nth_error_In; eauto).
  split; [rewrite Forall_forall in L2; apply L2; eapply nth_error_In; eauto|].
  intros i K c EK Ec. destruct (HV t i K Lt EK) as [HK HD]. assert (Hi : (i < length cats)%nat) by (apply nth_error_Some; congruence).
  split; [exact HK|]. split; [apply (L3 r i); unfold at2; now rewrite Hr|]. split; [|exact HD].
  intros k Hk. pose proof (HR thetas r t i k HF Et Hi Hk) as E. unfold at3, at2 in E. now rewrite Hr, Ec in E.
Qed.
(** Conversely the table is determined. *)
Lemma row_model_table lv cats M probs p thetas : row_model lv cats M probs p -> Forall (fun t => length t = lv) thetas ->
  probs thetas = map (fun t => map (fun i => map (fun k => Some (p t i k)) (seq 0 M)) (seq 0 (length cats))) thetas.
Proof.
  intros HR HF. destruct (HR thetas HF) as [L T]. apply nth_error_ext. intro r. rewrite nth_error_map.
  destruct (nth_error (probs thetas) r) as [row|] eqn:Er.
  - assert (Hl : (r < length thetas)%nat) by (rewrite <- L; apply nth_error_Some; congruence). rewrite (nth_error_nth_lt thetas r [] Hl). cbn [option_map]. f_equal.
    destruct (T r row Er) as [Lr C]. apply nth_error_ext. intro i. rewrite nth_error_map. destruct (nth_error row i) as [c|] eqn:Ec.
    + assert (Hi : (i < length cats)%nat) by (rewrite <- Lr; apply nth_error_Some; congruence). rewrite nth_error_seq by exact Hi. cbn [option_map Nat.add]. f_equal.
      destruct (C i _ c (nth_error_nth_lt cats i O Hi) Ec) as (_ & Lc & Hc & _). apply nth_error_ext. intro k. rewrite nth_error_map. destruct (Nat.lt_ge_cases k M) as [Hk|Hk].
      * rewrite Hc, nth_error_seq by exact Hk. reflexivity.
      * rewrite (proj2 (nth_error_None c k)) by lia. rewrite (proj2 (nth_error_None (seq 0 M) k)) by (rewrite seq_length; exact Hk). reflexivity.
    + apply nth_error_None in Ec. rewrite (proj2 (nth_error_None (seq 0 (length cats)) i)) by (rewrite seq_length; lia). reflexivity.
  - apply nth_error_None in Er. rewrite (proj2 (nth_error_None thetas r)) by lia. reflexivity.
Qed.
Lemma row_model_distribution lv cats M probs p t i K : row_model lv cats M probs p -> length t = lv -> nth_error cats i = Some K ->
  (1 <= K <= M)%nat /\ valid_distribution K M (p t i).
Proof.
  intros HR Lt EK. destruct (HR [t] ltac:(repeat constructor; exact Lt)) as [L T]. cbn [length] in L. destruct (probs [t]) as [|row [|? ?]] eqn:Ep; try discriminate.
  destruct (T O row eq_refl) as [Lr C]. assert (Hi : (i < length row)%nat) by (rewrite Lr; apply nth_error_Some; congruence).
  destruct (C i K _ EK (nth_error_nth_lt row i [] Hi)) as (H1 & _ & _ & H2). split; [exact H1|exact H2].
Qed.

Lemma cats_entry (cats : list nat) i K : Forall (fun K => (1 <= K)%nat) cats -> nth_error cats i = Some K -> (1 <= K <= list_max cats)%nat /\ nth i cats O = K /\ (i < length cats)%nat.
Proof.
  intros HF E. assert (Hi : (i < length cats)%nat) by (apply nth_error_Some; congruence). pose proof (nth_error_nth _ _ O E) as En. pose proof (cats_bounds cats i HF Hi). rewrite En in *. auto.
Qed.
Lemma gpc_row_model m : poly_wf m -> (0 < p_items m)%nat -> row_model (p_lv m) (p_cats m) (p_max m) (gpc_probabilities m) (soft (p_cats m) (gpc_z m)).
Proof.
  intros Hwf Hn. pose proof (proj1 (proj2 Hwf)) as HC. apply row_model_of; [|now apply gpc_reads|].
  - intros thetas HF. apply softmax_table_shape; [exact Hn| |now apply gpc_rect]. unfold p_items in Hn. destruct (cats_bounds (p_cats m) 0 HC Hn). unfold p_max. lia.
  - intros t i K Lt EK. destruct (cats_entry _ _ _ HC EK) as (HK & En & _). split; [exact HK|]. unfold soft. rewrite En. now apply valid_category_distribution.
Qed.
Lemma nrm_row_model m : nrm_wf m -> (0 < length (nrm_cats m))%nat -> row_model (nrm_lv m) (nrm_cats m) (nrm_max m) (nrm_probabilities m) (soft (nrm_cats m) (nrm_z m)).
Proof.
  intros Hwf Hn. pose proof (proj1 (proj2 Hwf)) as HC. apply row_model_of; [|now apply nrm_reads|].
  - intros thetas HF. apply softmax_table_shape; [exact Hn| |now apply nrm_rect]. destruct (cats_bounds (nrm_cats m) 0 HC Hn). unfold nrm_max. lia.
  - intros t i K Lt EK. destruct (cats_entry _ _ _ HC EK) as (HK & En & _). split; [exact HK|]. unfold soft. rewrite En. now apply valid_category_distribution.
Qed.
Lemma thpl_row_model m : thpl_wf m -> row_model (thpl_lv m) (repeat 2%nat (thpl_items m)) 2 (fun thetas => some3 (thpl_probabilities m thetas)) (thpl_p m).
Proof.
  intros Hwf. apply row_model_of; rewrite ?repeat_length.
  - intros thetas HF. apply thpl_table_shape. now apply thpl_rect.
  - now apply thpl_reads.
  - intros t i K Lt EK. apply nth_error_In, repeat_spec in EK. subst K. split; [lia|]. pose proof (thpl_between m t i) as B. pose proof (logistic_bounds (nth i (thpl_g m) 0)) as C.
    split; [|split; [|split]]; unfold thpl_p.
    + intros [|[|k]] Hk; cbn [Nat.eqb]; lra || lia.
    + cbn [sumn Nat.eqb]. lra.
    + intros [|[|k]] Hk; cbn [Nat.eqb]; lra || lia.
    + intros k Hk. lia.
Qed.
Lemma grm_row_model m : poly_wf m -> ordered m -> (0 < p_items m)%nat -> row_model (p_lv m) (p_cats m) (p_max m) (fun thetas => some3 (grm_probabilities m thetas)) (grm_p m).
Proof.
  intros Hwf HO Hn. pose proof (proj1 (proj2 Hwf)) as HC.
  assert (HM : (0 < p_max m)%nat) by (unfold p_items in Hn; destruct (cats_bounds (p_cats m) 0 HC Hn); unfold p_max; lia).
  apply row_model_of; [|now apply grm_reads|].
  - intros thetas HF. apply grm_table_shape; [exact Hn|exact HM|now apply grm_rect].
  - intros t i K Lt EK. destruct (cats_entry _ _ _ HC EK) as (HK & En & Hi). split; [exact HK|].
    assert (HZ : forall k, (K <= k < p_max m)%nat -> grm_p m t i k = 0) by (intros k Hk; unfold grm_p, grm_g; rewrite En; apply grm_diff_padding; lia).
    assert (HP : forall k, (k < K)%nat -> 0 < grm_p m t i k).
    { intros k Hk. unfold grm_p, grm_g. rewrite En. apply grm_diff_pos; [lia|exact Hk|]. intros. unfold grm_z. apply Rplus_lt_compat_l. apply HO; [exact Hi|lia|rewrite En; lia]. }
    split; [|split; [|split]]; [| |exact HP|exact HZ].
    + intros k Hk. destruct (Nat.lt_ge_cases k K) as [H|H]; [left; now apply HP|rewrite HZ by lia; lra].
    + rewrite (sumn_truncate K (p_max m)) by (apply HK || exact HZ). unfold grm_p.
      assert (TS : forall (g : nat -> R) n, sumn n (fun k => g k - g (S k)) = g O - g n) by (induction n as [|n IH]; [cbn; ring|cbn [sumn]; rewrite IH; ring]).
      rewrite TS. unfold grm_g, geq_probability. rewrite En. cbn [Nat.eqb]. destruct (Nat.eqb_spec K 0); [lia|]. destruct (Nat.ltb_spec K K); [lia|ring].
Qed.
