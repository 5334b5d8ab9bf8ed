(** The loss of the scoring optimiser. *)
From Verif Require Import Base BaseFacts RBase RFacts M_Data M_Logit M_Lik M_Est P_Logit P_Lik1 P_Lik2 P_Lik3 P_Lik4 P_Lik5 P_Lik6 P_Spline4 P_Est1 P_Est2 S_Logit S_Lik S_Est M_Opt S_Opt P_Opt1 P_Opt2.
Import List.
Local Open Scope R_scope.

(** ** Log-likelihood of one respondent *)
Definition seen_log (p : list R -> nat -> nat -> R) (row : list cell) (t : list R) (i : nat) : R :=
  match answer (nth i row None) with None => 0 | Some k => ln (p t i k) end.
Lemma mapi_cons {A B} (f : nat -> A -> B) a l : mapi f (a :: l) = f 0%nat a :: mapi (fun i => f (S i)) l.
Proof. apply nth_error_ext. intros [|i]; [reflexivity|]. rewrite nth_error_mapi. cbn [nth_error]. now rewrite nth_error_mapi. Qed.
Lemma ln_rprod_mapi (f : nat -> cell -> R) row : (forall i c, nth_error row i = Some c -> 0 < f i c) -> ln (rprod (mapi f row)) = sumn (length row) (fun i => ln (f i (nth i row None))).
Proof.
  revert f; induction row as [|c row IH]; intros f Hf; [apply ln_1|].
  rewrite mapi_cons. cbn [rprod length]. rewrite sumn_S_first, ln_mult.
  - cbn [nth]. f_equal. apply IH. intros i x Hi. exact (Hf (S i) x Hi).
  - exact (Hf 0%nat c eq_refl).
  - apply rprod_pos. apply Forall_forall. intros x Hx. apply In_nth_error in Hx as [i Hi]. rewrite nth_error_mapi in Hi. destruct (nth_error row i) as [y|] eqn:E; [|discriminate]. injection Hi as <-. exact (Hf (S i) y E).
Qed.
Lemma legal_answer cats row i k : legal_row cats row -> answer (nth i row None) = Some k -> (k < nth i cats O)%nat /\ (i < length row)%nat.
Proof.
  intros [Hl Hr] E. destruct (nth_error row i) as [c|] eqn:Ec.
  - rewrite (nth_error_nth _ _ None Ec) in E. assert (i < length row)%nat by (apply nth_error_Some; congruence).
    destruct (Hr i c Ec) as [-> |[-> |(j & -> & Hj)]]; [discriminate|discriminate|]. unfold answer in E. destruct (Z.eqb_spec (Z.of_nat j) (-1)); [lia|]. rewrite Nat2Z.id in E. injection E as <-. now split.
  - apply nth_error_None in Ec. rewrite nth_overflow in E by exact Ec. discriminate.
Qed.
Lemma ln_likelihood lv cats p row t : (forall t i k, length t = lv -> (k < nth i cats O)%nat -> 0 < p t i k) -> length t = lv -> legal_row cats row ->
  ln (likelihood p t row) = sumn (length row) (seen_log p row t).
Proof.
  intros HP Ht HL. unfold likelihood. rewrite ln_rprod_mapi.
  - apply sumn_ext. intros i Hi. unfold seen_log. destruct (answer (nth i row None)); [reflexivity|apply ln_1].
  - intros i c E. destruct (answer c) as [k|] eqn:Ea; [|lra]. apply HP; [exact Ht|]. apply (legal_answer cats row i k HL). now rewrite (nth_error_nth _ _ None E).
Qed.
(** Same probabilities on the observed items. *)
Definition same_observed (cats : list nat) (p : list R -> nat -> nat -> R) (row : list cell) (t t' : list R) : Prop :=
  forall i k, answer (nth i row None) <> None -> (k < nth i cats O)%nat -> p t' i k = p t i k.
Lemma likelihood_touches lv cats p row t : (forall t i k, length t = lv -> (k < nth i cats O)%nat -> 0 < p t i k) -> log_concave lv cats p -> length t = lv -> legal_row cats row ->
  touches lv (fun t => ln (likelihood p t row)) t (same_observed cats p row t).
Proof.
  intros HP HC Ht HL. apply (touches_ext lv (fun t => sumn (length row) (seen_log p row t))); [exact Ht|intros s Hs; symmetry; now apply (ln_likelihood lv cats)|].
  assert (G : forall n, (n <= length row)%nat -> touches lv (fun t => sumn n (seen_log p row t)) t (fun t' => forall i k, (i < n)%nat -> answer (nth i row None) <> None -> (k < nth i cats O)%nat -> p t' i k = p t i k)).
  { induction n as [|n IH]; intro Hn.
    - apply (touches_weaken lv _ t (fun _ => True)); [intros; lia|]. exact (touches_const lv 0 t).
    - cbn [sumn]. apply (touches_weaken lv _ t (fun t' => (forall i k, (i < n)%nat -> answer (nth i row None) <> None -> (k < nth i cats O)%nat -> p t' i k = p t i k) /\ (answer (nth n row None) <> None -> forall k, (k < nth n cats O)%nat -> p t' n k = p t n k))).
      { intros t' [A B] i k Hi Ho Hk. destruct (Nat.eq_dec i n) as [->|Hne]; [now apply B|apply A; [lia|exact Ho|exact Hk]]. }
      apply touches_plus; [apply IH; lia|]. unfold seen_log. destruct (answer (nth n row None)) as [k|] eqn:Ea.
      + apply (touches_weaken lv _ t (fun t' => forall k', (k' < nth n cats O)%nat -> p t' n k' = p t n k')); [auto|]. exact (HC t n k Ht (proj1 (legal_answer cats row n k HL Ea))).
      + apply (touches_weaken lv _ t (fun _ => True)); [congruence|]. exact (touches_const lv 0 t). }
  apply (touches_weaken lv _ t (fun t' => forall i k, (i < length row)%nat -> answer (nth i row None) <> None -> (k < nth i cats O)%nat -> p t' i k = p t i k)); [|now apply G].
  intros t' H i k Ho Hk. apply H; try assumption. destruct (answer (nth i row None)) as [j|] eqn:E; [|congruence]. exact (proj2 (legal_answer cats row i j HL E)).
Qed.

(** ** The summed log-likelihood of a model *)
Definition has_sum (m : emodel) (p : list R -> nat -> nat -> R) : Prop :=
  forall thetas data, Forall (fun t => length t = em_lv m) thetas -> length thetas = length data -> legal_data (em_cats m) data ->
    exists out, em_forward m thetas = Ok out /\
      em_ll m RSum (Wide (em_items m) data) out (Some (mask_of (Wide (em_items m) data))) =
        Ok (Scalar (Some (Fin (observed_sum (length thetas) (em_items m) (Some (map (map missing_cell) data)) (fun n i => ln (p (nth n thetas []) i (cell_value data n i))))))).
Lemma sum_from_loglik m p probs thetas data out : has_probabilities m p -> Forall (fun t => length t = em_lv m) thetas -> length thetas = length data -> legal_data (em_cats m) data ->
  (forall theta i k, length theta = em_lv m -> (k < nth i (em_cats m) O)%nat -> 0 < p theta i k) ->
  em_forward m thetas = Ok out ->
  loglik_of (length thetas) (em_items m) (Some (map (map missing_cell) data)) probs (cell_value data) (fun red => em_ll m red (Wide (em_items m) data) out (Some (mask_of (Wide (em_items m) data)))) ->
  em_ll m RSum (Wide (em_items m) data) out (Some (mask_of (Wide (em_items m) data))) =
    Ok (Scalar (Some (Fin (observed_sum (length thetas) (em_items m) (Some (map (map missing_cell) data)) (fun n i => ln (p (nth n thetas []) i (cell_value data n i))))))).
Proof.
  intros [_ HPr] HF HL HD HP EO (q & _ & ES & l & EN & Ll & Hl).
  pose proof (legal_data_rect _ _ HD) as HR. pose proof (legal_data_responses _ _ HD) as HX. fold (em_items m) in HR. rewrite <- HL in HR, HX.
  destruct (HPr thetas data (Some (map (map missing_cell) data)) (cell_value data) HF HR) as (out' & l' & EO' & EN' & _ & Hl'); [|exact HX|].
  { split; [now rewrite map_length, (proj1 HR)|]. apply Forall_forall. intros r Hr. apply in_map_iff in Hr as (r0 & <- & Hr0). rewrite map_length. destruct HR as [_ HR]. rewrite Forall_forall in HR. now apply HR. }
  rewrite EO in EO'. injection EO' as <-. cbn [option_map] in EN'. change (Wide (em_items m) (map (map missing_cell) data)) with (mask_of (Wide (em_items m) data)) in EN'. rewrite EN in EN'. injection EN' as <-.
  rewrite ES. do 4 f_equal. unfold observed_sum. apply sumn_ext. intros n Hn. apply sumn_ext. intros i Hi. destruct (masked _ n i) eqn:Em; [reflexivity|].
  pose proof (Hl n i Hn Hi) as A. destruct (some_row thetas n Hn) as [t Et]. rewrite (Hl' n i t Et Hi), Em in A. destruct (some_row (em_cats m) i Hi) as [K EK]. destruct (HX n i K Hn EK Em) as [_ HxK].
  rewrite (nth_error_nth _ _ [] Et). rewrite flog_pos in A; [|apply HP; [rewrite Forall_forall in HF; apply HF; eapply nth_error_In; eauto|now rewrite (nth_error_nth _ _ O EK)]]. congruence.
Qed.
Lemma library_has_sum m p : library_model m p -> has_sum m p.
Proof.
  intros Hm thetas data HF HL HD. pose proof (library_has_probabilities m p Hm) as HPr. pose proof (library_pos m p Hm) as HP.
  assert (HP' : forall theta i k, length theta = em_lv m -> (k < nth i (em_cats m) O)%nat -> 0 < p theta i k) by (intros; now apply HP).
  pose proof (legal_data_rect _ _ HD) as HR. pose proof (legal_data_responses _ _ HD) as HX. fold (em_items m) in HR. rewrite <- HL in HR, HX.
  assert (HM : rect_opt (length thetas) (em_items m) (Some (map (map missing_cell) data))).
  { split; [now rewrite map_length, (proj1 HR)|]. apply Forall_forall. intros r Hr. apply in_map_iff in Hr as (r0 & <- & Hr0). rewrite map_length. destruct HR as [_ HR]. rewrite Forall_forall in HR. now apply HR. }
  destruct Hm as [nanl o Ho Hi|nanl o Ho Hi|nanl o Ho Hi|nanl o Ho Hi|nanl o Ho Hi Hd|nanl o Ho Hi]; eexists; (split; [reflexivity|]).
  - apply (sum_from_loglik _ _ (opl_probabilities o (map (fun t => nth 0 t 0) thetas))); auto.
    unfold em_items in *. cbn [of_sub opl_sub logit_sub em_cats em_ll sb_cats sb_ll em_lv sb_lv w_rows mask_of option_map rows_of w_cols] in *. rewrite repeat_length in *. rewrite repeat_max by lia.
    replace (length thetas) with (length (map (fun t => nth 0 t 0) thetas)) in * by apply map_length. exact (opl_loglik nanl o _ data _ _ Ho Hi HR HM HX).
  - apply (sum_from_loglik _ _ (tpl_probabilities o thetas)); auto.
    unfold em_items in *. cbn [of_sub tpl_sub logit_sub em_cats em_ll sb_cats sb_ll em_lv sb_lv w_rows mask_of option_map rows_of w_cols] in *. rewrite repeat_length in *. rewrite repeat_max by lia.
    exact (tpl_loglik nanl o thetas data _ _ Ho Hi HF HR HM HX).
  - apply (sum_from_loglik _ _ (some3 (thpl_probabilities o thetas))); auto.
    unfold em_items in *. cbn [of_sub thpl_sub em_cats em_ll sb_cats sb_ll em_lv sb_lv w_rows mask_of option_map rows_of w_cols] in *. rewrite repeat_length in *.
    cbn [sb_forward thpl_sub rows_of w_rows]. rewrite map_map. replace (map (fun x0 => map of_ext (map Fin x0)) (thpl_forward o thetas)) with (thpl_forward o thetas).
    2:{ rewrite <- (map_id (thpl_forward o thetas)) at 1. apply map_ext. intro r. rewrite map_map. now rewrite map_id. }
    exact (thpl_loglik nanl o thetas data _ _ Ho Hi HF HR HM HX).
  - apply (sum_from_loglik _ _ (gpc_probabilities o thetas)); auto. exact (gpc_loglik nanl o thetas data _ _ Ho Hi HF HR HM HX).
  - apply (sum_from_loglik _ _ (some3 (grm_probabilities o thetas))); auto. exact (grm_loglik nanl o thetas data _ _ Ho Hi HF Hd HR HM HX).
  - apply (sum_from_loglik _ _ (nrm_probabilities o thetas)); auto. exact (nrm_loglik nanl o thetas data _ _ Ho Hi HF HR HM HX).
Qed.

(** ** The loss *)
Definition prior_term (prior : option (list R -> R)) (t : list R) : R := match prior with None => 0 | Some lp => lp t end.
Definition row_target (p : list R -> nat -> nat -> R) (prior : option (list R -> R)) (row : list cell) (t : list R) : R := ln (likelihood p t row) + prior_term prior t.
Lemma observed_rows lv cats p thetas data : (forall t i k, length t = lv -> (k < nth i cats O)%nat -> 0 < p t i k) -> Forall (fun t => length t = lv) thetas -> length thetas = length data -> legal_data cats data ->
  observed_sum (length thetas) (length cats) (Some (map (map missing_cell) data)) (fun n i => ln (p (nth n thetas []) i (cell_value data n i))) = sumn (length data) (fun n => ln (likelihood p (nth n thetas []) (nth n data []))).
Proof.
  intros HP HF HL HD. unfold observed_sum. rewrite HL. apply sumn_ext. intros n Hn. destruct (some_row data n Hn) as [row Er]. destruct (some_row thetas n ltac:(lia)) as [t Et].
  rewrite (nth_error_nth _ _ [] Er), (nth_error_nth _ _ [] Et). unfold legal_data in HD. rewrite Forall_forall in HD, HF. pose proof (HD row (nth_error_In _ _ Er)) as HLr.
  rewrite (ln_likelihood lv cats) by (auto; apply HF; eapply nth_error_In; eauto). destruct HLr as [Lr _]. rewrite Lr. apply sumn_ext. intros i Hi. destruct (some_row row i ltac:(lia)) as [c Ec].
  rewrite (masked_missing data n i row c Er Ec), missing_answer. unfold seen_log. rewrite (nth_error_nth _ _ None Ec). unfold cell_value, at2. rewrite Er, Ec. destruct c as [x|]; [|reflexivity]. unfold answer. destruct (x =? -1)%Z; reflexivity.
Qed.
Lemma scoring_loss_value m p prior thetas data : library_model m p -> Forall (fun t => length t = em_lv m) thetas -> length thetas = length data -> legal_data (em_cats m) data ->
  scoring_loss m prior (Wide (em_items m) data) thetas = Ok (Some (Fin (- sumn (length data) (fun n => row_target p prior (nth n data []) (nth n thetas []))))).
Proof.
  intros Hm HF HL HD. destruct (library_has_sum m p Hm thetas data HF HL HD) as (out & EO & ES). unfold scoring_loss. rewrite EO. cbn [bind]. rewrite ES. cbn [bind scalar_of].
  unfold em_items. rewrite (observed_rows (em_lv m) (em_cats m) p thetas data) by (auto; intros; now apply (library_pos m p Hm)).
  unfold row_target, prior_term. destruct prior as [lp|]; unfold fsub; cbn [fneg fadd]; do 3 f_equal.
  - rewrite sumn_plus. replace (rsum (map lp thetas)) with (sumn (length data) (fun n => lp (nth n thetas []))); [ring|]. rewrite rsum_nth, map_length, HL. apply sumn_ext. intros n Hn. rewrite (nth_indep _ 0 (lp [])) by (rewrite map_length; lia). now rewrite map_nth.
  - f_equal. apply sumn_ext. intros; ring.
Qed.

(** ** Maxima and partial derivatives *)
Lemma max_partial lv f t d l : length t = lv -> (d < lv)%nat -> maximum lv f t -> partial_is f t d l -> l = 0.
Proof.
  intros Ht Hd HM HP. unfold partial_is in HP. set (f1 := fun x => f (upd d x t)) in *. set (x0 := nth d t 0) in *.
  assert (pr : derivable_pt f1 x0) by (exists l; exact HP). rewrite <- (derive_pt_eq_0 f1 x0 l pr HP). apply (deriv_maximum f1 (x0 - 1) (x0 + 1) x0 pr); [lra|lra|].
  intros x _ _. unfold f1. replace (upd d x0 t) with t.
  - apply HM. now rewrite upd_length.
  - apply nth_error_ext. intro j. destruct (Nat.eq_dec d j) as [<-|Hne]; [|now rewrite nth_error_upd_neq]. rewrite nth_error_upd_eq by lia. apply nth_error_nth_lt. lia.
Qed.
Lemma partial_unique f t d l l' : partial_is f t d l -> partial_is f t d l' -> l = l'.
Proof. apply uniqueness_limite. Qed.
Lemma tangent_stationary lv f t (same : list R -> Prop) : length t = lv -> touches lv f t same -> ((forall d, (d < lv)%nat -> partial_is f t d 0) <-> maximum lv f t).
Proof.
  intros Ht (g & [H1 H2] & H3). split.
  - intros H0 t' Ht'. specialize (H2 t' Ht'). unfold plane in H2. rewrite (sumn_ext lv _ (fun _ => 0)) in H2; [rewrite sumn_0 in H2; lra|]. intros d Hd. rewrite (partial_unique _ _ _ _ _ (H1 d Hd) (H0 d Hd)). ring.
  - intros HM d Hd. rewrite <- (max_partial lv f t d (g d) Ht Hd HM (H1 d Hd)). now apply H1.
Qed.
Lemma tangent_two_maxima lv f t t' (same : list R -> Prop) : length t = lv -> length t' = lv -> touches lv f t same -> maximum lv f t -> maximum lv f t' -> same t'.
Proof.
  intros Ht Ht' HT M1 M2. pose proof (proj2 (tangent_stationary lv f t same Ht HT) M1) as H0. destruct HT as (g & [H1 H2] & H3). apply H3; [exact Ht'|]. unfold plane. rewrite (sumn_ext lv _ (fun _ => 0)).
  - rewrite sumn_0. pose proof (M1 t' Ht'). pose proof (M2 t Ht). lra.
  - intros d Hd. rewrite (partial_unique _ _ _ _ _ (H1 d Hd) (H0 d Hd)). ring.
Qed.
