(** Gradients of the log-likelihood in the models with sufficient statistics. *)
From Verif Require Import Base BaseFacts RBase RFacts M_Data M_Logit M_Lik M_Est P_Logit P_Logit2 P_Est1 P_Est2 P_Info2 P_Spline4 P_Opt1 P_Opt2 P_Opt3 P_Opt4 P_Max1 P_Max3 P_Suff1 S_Logit S_Lik S_Est S_Opt S_Suff S_Scoreq.
Import List.
Local Open Scope R_scope.

Definition lin (lv : nat) (w : nat -> nat -> nat -> R) (b : nat -> nat -> R) (i : nat) (t : list R) (k : nat) : R := sumn lv (fun d => w i k d * nth d t 0) + b i k.
Lemma two_category z k : (k < 2)%nat -> (if (k =? 1)%nat then logistic z else 1 - logistic z) = category_probability 2 (fun k => INR k * z) k.
Proof.
  intro Hk. rewrite two_exponential by exact Hk. unfold category_probability. cbn [sumn INR]. rewrite Rmult_0_l, Rmult_1_l, exp_0, Rplus_0_l. reflexivity.
Qed.
(** Softmax items with logits affine in [t]. *)
Definition softs (lv : nat) (cats : list nat) (p : list R -> nat -> nat -> R) (w : nat -> nat -> nat -> R) (b : nat -> nat -> R) : Prop :=
  forall t i k, length t = lv -> (k < nth i cats O)%nat -> p t i k = category_probability (nth i cats O) (lin lv w b i t) k.
Lemma weights_soft m p w : weights_of m p w -> exists b, softs (em_lv m) (em_cats m) p w b.
Proof.
  intros [nanl o Ho Hi|nanl o Ho Hi|nanl o Ho Hi|nanl o Ho Hi].
  - exists (fun i k => INR k * nth i (opl_b o) 0). intros t i k Lt Hk. cbn [of_sub opl_sub logit_sub em_cats sb_cats em_lv sb_lv] in *. assert (E2 := nth_repeat_two _ _ _ Hk). rewrite E2 in *. unfold opl_p. cbv zeta. rewrite two_category by exact Hk. apply cp_ext; [exact Hk|]. intros j _. unfold lin. cbn [sumn]. ring.
  - exists (fun i k => INR k * nth i (tpl_b o) 0). intros t i k Lt Hk. cbn [of_sub tpl_sub logit_sub em_cats sb_cats em_lv sb_lv] in *. assert (E2 := nth_repeat_two _ _ _ Hk). rewrite E2 in *. unfold tpl_p. cbv zeta. rewrite two_category by exact Hk. apply cp_ext; [exact Hk|]. intros j _. unfold lin, predictor. rewrite Rmult_plus_distr_l, <- sumn_scal. f_equal. apply sumn_ext. intros; ring.
  - exists (fun i k => intercept (p_cats o) (p_b o) i k). intros t i k Lt Hk. change (em_cats (of_sub (gpc_sub nanl o))) with (p_cats o) in *. change (em_lv (of_sub (gpc_sub nanl o))) with (p_lv o) in *. unfold gpc_p. apply cp_ext; [exact Hk|]. intros j _. unfold lin, predictor. rewrite <- sumn_scal. f_equal. apply sumn_ext. intros; ring.
  - exists (fun i k => nrm_intercept o i k). intros t i k Lt Hk. reflexivity.
Qed.
Lemma lin_affine lv w b i t t' k : lin lv w b i t' k = lin lv w b i t k + sumn lv (fun d => w i k d * (nth d t' 0 - nth d t 0)).
Proof. unfold lin. replace (sumn lv (fun d => w i k d * nth d t' 0)) with (sumn lv (fun d => w i k d * nth d t 0) + sumn lv (fun d => w i k d * (nth d t' 0 - nth d t 0))); [ring|]. rewrite <- sumn_plus. apply sumn_ext. intros; ring. Qed.
Lemma softs_pos lv cats p w b t i k : softs lv cats p w b -> length t = lv -> (k < nth i cats O)%nat -> 0 < p t i k.
Proof. intros E Lt Hk. rewrite (E t i k Lt Hk). apply P_Logit.category_probability_pos. lia. Qed.
Lemma softs_concave lv cats p w b : softs lv cats p w b -> log_concave lv cats p.
Proof.
  intros E t i k Lt Hk. set (K := nth i cats O) in *.
  destruct (soft_tangent lv K (lin lv w b i) (w i) ltac:(lia) ltac:(intros; apply lin_affine) t k Lt Hk) as [[H1 H2] H3]. exists (soft_gradient K (lin lv w b i) (w i) t k).
  assert (EL : forall s, length s = lv -> p s i k = category_probability K (lin lv w b i s) k) by (intros; now apply E). unfold below_tangent, plane in *. repeat split.
  - intros d Hd. unfold partial_is. eapply derivable_ext; [|exact (H1 d Hd)]. intro x. cbv beta. f_equal. symmetry. apply EL. now rewrite upd_length.
  - intros t' Lt'. rewrite (EL t Lt), (EL t' Lt'). now apply H2.
  - intros t' Lt' Q k' Hk'. rewrite (EL t Lt), (EL t' Lt') in Q. rewrite (E t' i k' Lt' Hk'), (E t i k' Lt Hk'). now apply (proj2 (H3 t' Lt' Q)).
Qed.
Lemma softs_answer lv cats p w b t i k d : softs lv cats p w b -> length t = lv -> (d < lv)%nat -> (k < nth i cats O)%nat ->
  partial_is (fun t => ln (p t i k)) t d (w i k d - sumn (nth i cats O) (fun j => w i j d * p t i j)).
Proof.
  intros E Lt Hd Hk. set (K := nth i cats O) in *.
  destruct (soft_tangent lv K (lin lv w b i) (w i) ltac:(lia) ltac:(intros; apply lin_affine) t k Lt Hk) as [[HP _] _]. specialize (HP d Hd). unfold soft_gradient in HP.
  rewrite (sumn_ext K (fun j => w i j d * p t i j) (fun j => category_probability K (lin lv w b i t) j * w i j d)) by (intros j Hj; rewrite (E t i j Lt Hj); fold K; ring).
  unfold partial_is in *. apply (derivable_ext (fun x => ln (category_probability K (lin lv w b i (upd d x t)) k))); [|exact HP]. intro x. cbv beta. f_equal. symmetry. apply E; [now rewrite upd_length|exact Hk].
Qed.
Lemma partial_sum n (f : nat -> list R -> R) (g : nat -> R) t d : (forall i, (i < n)%nat -> partial_is (f i) t d (g i)) -> partial_is (fun t => sumn n (fun i => f i t)) t d (sumn n g).
Proof.
  unfold partial_is. induction n as [|n IH]; intro H; cbn [sumn]; [apply derivable_pt_lim_const|]. apply (derivable_pt_lim_plus (fun x => sumn n (fun i => f i (upd d x t))) (fun x => f n (upd d x t))); [apply IH; intros; apply H; lia|apply H; lia].
Qed.
Lemma total_sumn w row d : total w row d = sumn (length row) (fun i => match answer (nth i row None) with None => 0 | Some k => w i k d end).
Proof.
  revert w. induction row as [|c row IH]; intro w; [reflexivity|]. rewrite total_cons. cbn [length]. rewrite sumn_S_first. cbn [nth]. f_equal. apply (IH (fun i k d => w (S i) k d)).
Qed.
Lemma softs_partial lv cats p w b row t d : softs lv cats p w b -> legal_row cats row -> length t = lv -> (d < lv)%nat ->
  partial_is (fun t => ln (likelihood p t row)) t d (total w row d - expected_total p w cats row t d).
Proof.
  intros E HL Lt Hd. assert (HP : forall t i k, length t = lv -> (k < nth i cats O)%nat -> 0 < p t i k) by (intros; now apply (softs_pos lv cats p w b)).
  unfold expected_total. rewrite total_sumn, <- sumn_minus.
  assert (PS : partial_is (fun t => sumn (length row) (fun i => seen_log p row t i)) t d (sumn (length row) (fun i => match answer (nth i row None) with None => 0 | Some k => w i k d end - match answer (nth i row None) with None => 0 | Some _ => sumn (nth i cats O) (fun k => w i k d * p t i k) end))).
  { apply (partial_sum (length row) (fun i t => seen_log p row t i)). intros i Hi. unfold seen_log. destruct (answer (nth i row None)) as [k|] eqn:Ea.
    - destruct (legal_answer _ _ _ _ HL Ea) as [Hk _]. now apply (softs_answer lv cats p w b).
    - unfold partial_is. rewrite Rminus_0_r. apply derivable_pt_lim_const. }
  unfold partial_is in *. eapply derivable_ext; [|exact PS]. intro x. cbv beta. symmetry. apply (ln_likelihood lv cats); [exact HP|now rewrite upd_length|exact HL].
Qed.
Lemma likelihood_partial m p w row t d : weights_of m p w -> legal_row (em_cats m) row -> length t = em_lv m -> (d < em_lv m)%nat ->
  partial_is (fun t => ln (likelihood p t row)) t d (total w row d - expected_total p w (em_cats m) row t d).
Proof. intros Hw HL Lt Hd. destruct (weights_soft m p w Hw) as (b & E). now apply (softs_partial (em_lv m) (em_cats m) p w b). Qed.
Lemma weights_log_concave m p w : weights_of m p w -> log_concave (em_lv m) (em_cats m) p.
Proof. intro Hw. destruct (weights_soft m p w Hw) as (b & E). exact (softs_concave _ _ _ _ _ E). Qed.
Lemma stationary_max lv f t (same : list R -> Prop) g : length t = lv -> touches lv f t same -> (forall d, (d < lv)%nat -> partial_is f t d (g d)) -> (maximum lv f t <-> forall d, (d < lv)%nat -> g d = 0).
Proof.
  intros Lt HT HG. rewrite <- (tangent_stationary lv f t same Lt HT). split; intros H d Hd.
  - apply (partial_unique f t d); [now apply HG|now apply H].
  - rewrite <- (H d Hd). now apply HG.
Qed.
