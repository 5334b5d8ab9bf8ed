(** The library's models meet the assumptions of the estimation theorems. *)
From Verif Require Import Base BaseFacts RBase RFacts M_Data M_Logit S_Logit P_Logit P_Logit2 P_Logit3 T_Logit M_Lik S_Lik P_Lik1 P_Lik2 P_Lik3 P_Lik4 P_Lik5 P_Lik6 M_Est S_Est P_Est1.
Local Open Scope R_scope.

Lemma from_loglik thetas I mask probs x ll (P : list R -> nat -> nat -> R) : loglik_of (length thetas) I mask probs x ll ->
  (forall n t i, nth_error thetas n = Some t -> (i < I)%nat -> masked mask n i = false ->
     at3 probs n i (x n i) = Some (Some (P t i (x n i)))) ->
  exists l, ll RNone = Ok (Cells l) /\ length l = (length thetas * I)%nat /\
    forall n i theta, nth_error thetas n = Some theta -> (i < I)%nat ->
      nth_error l (n * I + i) = Some (if masked mask n i then None else flog (Some (P theta i (x n i)))).
Proof.
  intros (p & Hp & _ & l & E & Hl & Hc) HP. exists l. split; [|split]; auto.
  intros n i t Et Hi. assert (Hn : (n < length thetas)%nat) by (apply nth_error_Some; congruence).
  rewrite Hc by auto. destruct (masked mask n i) eqn:Em; auto.
  destruct (Hp n i Hn Hi Em) as [E1 Hpos]. rewrite (HP n t i Et Hi Em) in E1.
  assert (P t i (x n i) = p n i) by congruence. rewrite H. now rewrite flog_pos.
Qed.
Lemma legal_at N cats mask data x n i : legal_responses N cats mask data x -> (n < N)%nat -> (i < length cats)%nat -> masked mask n i = false ->
  exists K, nth_error cats i = Some K /\ (x n i < K)%nat.
Proof.
  intros H Hn Hi Hm. destruct (some_row cats i Hi) as [K EK]. exists K. split; auto. now destruct (H n i K Hn EK Hm).
Qed.
(** Two-category items. *)
Lemma legal_two N items mask data x n i : legal_responses N (repeat 2%nat items) mask data x -> (n < N)%nat -> (i < items)%nat -> masked mask n i = false ->
  (x n i < 2)%nat.
Proof.
  intros H Hn Hi Hm. destruct (H n i 2%nat Hn (nth_error_repeat_lt _ _ _ Hi) Hm). auto.
Qed.
Lemma two_pos (k : nat) q : 0 < q < 1 -> 0 < (if (k =? 1)%nat then q else 1 - q).
Proof. intro. destruct (k =? 1)%nat; lra. Qed.
Lemma wide_rows_id {A} c (mask : option (list (list A))) : option_map w_rows (option_map (Wide c) mask) = mask.
Proof. destruct mask; reflexivity. Qed.

Lemma category_probability_pos K z k : (k < K)%nat -> 0 < category_probability K z k.
Proof.
  intro H. unfold category_probability. apply Rdiv_lt_0_compat; [apply exp_pos|].
  apply sumn_pos; [lia|]. intros; apply exp_pos.
Qed.

Lemma opl_has_probabilities nanl m : length (opl_b m) = opl_items m -> (0 < opl_items m)%nat ->
  has_probabilities (of_sub (opl_sub nanl m)) (opl_p m).
Proof.
  intros Hb HI. split.
  { intros t i k _ _. apply Rlt_le, two_pos, logistic_bounds. }
  unfold em_items. cbn [em_cats em_lv em_forward em_ll of_sub opl_sub logit_sub sb_cats sb_lv sb_forward sb_ll w_rows rows_of].
  rewrite repeat_length, repeat_max by auto. intros thetas data mask x HF Hd Hk Hx. rewrite wide_rows_id.
  set (ts := map (fun t => nth 0 t 0) thetas). assert (Hts : length ts = length thetas) by apply map_length.
  rewrite <- Hts in Hd, Hk, Hx.
  destruct (opl_loglik nanl m ts data mask x Hb HI Hd Hk Hx) as (p & Hp & E1 & l & E2 & Hl & Hc).
  exists (T2 (Wide (opl_items m * 2) (opl_rows m thetas))), l. split; [reflexivity|]. split; [exact E2|]. split; [now rewrite <- Hts|].
  intros n i t Et Hi. assert (Hn : (n < length ts)%nat) by (rewrite Hts; apply nth_error_Some; congruence).
  rewrite Hc by auto. destruct (masked mask n i) eqn:Em; auto.
  destruct (Hp n i Hn Hi Em) as [E Hpos].
  rewrite (opl_probs_spec m ts n (nth 0 t 0) i (x n i)) in E; auto.
  - assert (E' : opl_p m t i (x n i) = p n i) by (unfold opl_p; congruence). rewrite E'. now rewrite flog_pos.
  - unfold ts. now rewrite nth_error_map, Et.
  - now apply (legal_two _ _ _ _ _ n i Hx).
Qed.

Lemma tpl_has_probabilities nanl m : tpl_wf m -> (0 < tpl_items m)%nat -> has_probabilities (of_sub (tpl_sub nanl m)) (tpl_p m).
Proof.
  intros Hwf HI. split.
  { intros t i k _ _. apply Rlt_le, two_pos, logistic_bounds. }
  unfold em_items. cbn [em_cats em_lv em_forward em_ll of_sub tpl_sub logit_sub sb_cats sb_lv sb_forward sb_ll w_rows rows_of].
  rewrite repeat_length, repeat_max by auto. intros thetas data mask x HF Hd Hk Hx. rewrite wide_rows_id.
  eexists. destruct (from_loglik thetas _ mask _ x _ (tpl_p m) (tpl_loglik nanl m thetas data mask x Hwf HI HF Hd Hk Hx)) as (l & El & Hl & Hc).
  { intros n t i Et Hi Em. assert (Hn : (n < length thetas)%nat) by (apply nth_error_Some; congruence).
    apply (tpl_probs_spec m thetas n t i (x n i)); auto. now apply (legal_two _ _ _ _ _ n i Hx). }
  exists l. split; [reflexivity|]. cbn [rows_of w_rows]. auto.
Qed.

Lemma thpl_p_bounds m t i k : 0 < thpl_p m t i k.
Proof.
  apply two_pos.
  pose proof (logistic_bounds (nth i (thpl_g m) 0)).
  pose proof (logistic_bounds (predictor (thpl_lv m) (slope (thpl_free m) (thpl_w m) i) t + nth i (thpl_b m) 0)). nra.
Qed.
Lemma thpl_has_probabilities nanl m : thpl_wf m -> (0 < thpl_items m)%nat -> has_probabilities (of_sub (thpl_sub nanl m)) (thpl_p m).
Proof.
  intros Hwf HI. split.
  { intros t i k _ _. apply Rlt_le, thpl_p_bounds. }
  unfold em_items. cbn [em_cats em_lv em_forward em_ll of_sub thpl_sub sb_cats sb_lv sb_forward sb_ll w_rows rows_of].
  rewrite repeat_length. intros thetas data mask x HF Hd Hk Hx. rewrite wide_rows_id.
  eexists. destruct (from_loglik thetas _ mask _ x _ (thpl_p m) (thpl_loglik nanl m thetas data mask x Hwf HI HF Hd Hk Hx)) as (l & El & Hl & Hc).
  { intros n t i Et Hi Em. assert (Hn : (n < length thetas)%nat) by (apply nth_error_Some; congruence).
    rewrite some3_at3. rewrite (thpl_probs_spec m thetas n t i (x n i)); auto. now apply (legal_two _ _ _ _ _ n i Hx). }
  exists l. split; [reflexivity|]. cbn [rows_of w_rows].
  rewrite map_map. replace (map (fun x0 => map of_ext (map Fin x0)) (thpl_forward m thetas)) with (thpl_forward m thetas); auto.
  rewrite <- (map_id (thpl_forward m thetas)) at 1. apply map_ext. intro r. rewrite map_map. now rewrite map_id.
Qed.

Lemma gpc_has_probabilities nanl m : poly_wf m -> (0 < p_items m)%nat -> has_probabilities (of_sub (gpc_sub nanl m)) (gpc_p m).
Proof.
  intros Hwf HI. pose proof Hwf as (_ & Hc & _). split.
  { intros t i k _ Hk. apply Rlt_le. now apply category_probability_pos. }
  unfold em_items. cbn [em_cats em_lv em_forward em_ll of_sub gpc_sub logit_sub sb_cats sb_lv sb_forward sb_ll w_rows rows_of].
  intros thetas data mask x HF Hd Hk Hx. rewrite wide_rows_id.
  eexists. destruct (from_loglik thetas _ mask _ x _ (gpc_p m) (gpc_loglik nanl m thetas data mask x Hwf HI HF Hd Hk Hx)) as (l & El & Hl & Hcl).
  { intros n t i Et Hi Em. assert (Hn : (n < length thetas)%nat) by (apply nth_error_Some; congruence).
    destruct (legal_at _ _ _ _ _ n i Hx Hn Hi Em) as (K & EK & HxK). destruct (cats_pos_bound _ _ _ Hc EK) as [HK _]. fold (p_max m) in HK.
    rewrite (gpc_probs_spec m thetas n t i K (x n i)) by (auto; lia).
    destruct (Nat.ltb_spec (x n i) K); [|lia]. unfold gpc_p. now rewrite (nth_error_nth _ _ O EK). }
  exists l. split; [reflexivity|]. cbn [rows_of w_rows]. auto.
Qed.

Lemma nrm_has_probabilities nanl m : nrm_wf m -> (0 < length (nrm_cats m))%nat -> has_probabilities (of_sub (nrm_sub nanl m)) (nrm_p m).
Proof.
  intros Hwf HI. pose proof Hwf as (_ & Hc & _). split.
  { intros t i k _ Hk. apply Rlt_le. now apply category_probability_pos. }
  unfold em_items. cbn [em_cats em_lv em_forward em_ll of_sub nrm_sub logit_sub sb_cats sb_lv sb_forward sb_ll w_rows rows_of].
  intros thetas data mask x HF Hd Hk Hx. rewrite wide_rows_id.
  eexists. destruct (from_loglik thetas _ mask _ x _ (nrm_p m) (nrm_loglik nanl m thetas data mask x Hwf HI HF Hd Hk Hx)) as (l & El & Hl & Hcl).
  { intros n t i Et Hi Em. assert (Hn : (n < length thetas)%nat) by (apply nth_error_Some; congruence).
    destruct (legal_at _ _ _ _ _ n i Hx Hn Hi Em) as (K & EK & HxK). destruct (cats_pos_bound _ _ _ Hc EK) as [HK _]. fold (nrm_max m) in HK.
    rewrite (nrm_probs_spec m Hwf thetas n t i K (x n i)) by (auto; lia).
    destruct (Nat.ltb_spec (x n i) K); [|lia]. unfold nrm_p. now rewrite (nth_error_nth _ _ O EK). }
  exists l. split; [reflexivity|]. cbn [rows_of w_rows]. auto.
Qed.

Lemma grm_p_pos m t i k : decreasing_intercepts m -> (k < nth i (p_cats m) O)%nat -> 0 < grm_p m t i k.
Proof.
  intros Hdec Hk. unfold grm_p. destruct (nth_error (p_cats m) i) as [K|] eqn:E.
  2:{ apply nth_error_None in E. rewrite nth_overflow in Hk by auto. lia. }
  pose proof (nth_error_nth _ _ O E) as EK. rewrite EK in *.
  match goal with |- 0 < geq_probability K ?z k - _ => pose proof (geq_decreasing K z k Hk) as H end.
  cbv beta in H. assert (G : forall a b, b < a -> 0 < a - b) by (intros; lra). apply G. apply H.
  intros j Hj HjK. pose proof (Hdec i K j E Hj HjK). lra.
Qed.
Lemma grm_has_probabilities nanl m : poly_wf m -> (0 < p_items m)%nat -> decreasing_intercepts m ->
  has_probabilities (of_sub (grm_sub nanl m)) (grm_p m).
Proof.
  intros Hwf HI Hdec. pose proof Hwf as (_ & Hc & _). split.
  { intros t i k _ Hk. apply Rlt_le. now apply grm_p_pos. }
  unfold em_items. cbn [em_cats em_lv em_forward em_ll of_sub grm_sub sb_cats sb_lv sb_forward sb_ll w_rows rows_of].
  intros thetas data mask x HF Hd Hk Hx. rewrite wide_rows_id.
  eexists. destruct (from_loglik thetas _ mask _ x _ (grm_p m) (grm_loglik nanl m thetas data mask x Hwf HI HF Hdec Hd Hk Hx)) as (l & El & Hl & Hcl).
  { intros n t i Et Hi Em. assert (Hn : (n < length thetas)%nat) by (apply nth_error_Some; congruence).
    destruct (legal_at _ _ _ _ _ n i Hx Hn Hi Em) as (K & EK & HxK). destruct (cats_pos_bound _ _ _ Hc EK) as [HK _]. fold (p_max m) in HK.
    rewrite some3_at3, (grm_probs_spec m thetas n t i K (x n i)) by (auto; lia).
    unfold grm_p. now rewrite (nth_error_nth _ _ O EK). }
  exists l. split; [reflexivity|]. cbn [rows_of w_rows]. auto.
Qed.

(** The outputs are two-dimensional and computed theta by theta. *)
Lemma gpc_flat nanl m : flat_output (of_sub (gpc_sub nanl m)).
Proof. eexists _, _. intros thetas _. reflexivity. Qed.
Lemma grm_flat nanl m : flat_output (of_sub (grm_sub nanl m)).
Proof. eexists _, _. intros thetas _. reflexivity. Qed.
Lemma nrm_flat nanl m : flat_output (of_sub (nrm_sub nanl m)).
Proof. eexists _, _. intros thetas _. reflexivity. Qed.
Lemma tpl_flat nanl m : flat_output (of_sub (tpl_sub nanl m)).
Proof. eexists _, _. intros thetas _. reflexivity. Qed.
Lemma opl_flat nanl m : flat_output (of_sub (opl_sub nanl m)).
Proof.
  exists (opl_items m * 2)%nat, (fun t => hd [] (opl_rows m [t])). intros thetas _.
  unfold opl_sub, of_sub, logit_sub. cbn [em_forward sb_forward].
  destruct (Nat.eq_dec (opl_items m) 0) as [E|E].
  - rewrite repeat_length, E. cbn. do 3 f_equal. unfold opl_rows, opl_forward. rewrite !map_map. now rewrite E.
  - rewrite repeat_length, repeat_max by lia. do 3 f_equal. unfold opl_rows, opl_forward. now rewrite !map_map.
Qed.
Lemma thpl_flat nanl m : flat_output (of_sub (thpl_sub nanl m)).
Proof. eexists _, _. intros thetas _. cbn. unfold thpl_forward. rewrite map_map. reflexivity. Qed.

(** ** The library's models *)
Lemma library_has_probabilities m p : library_model m p -> has_probabilities m p.
Proof.
  intros [nanl o Ho|nanl o Ho|nanl o Ho|nanl o Ho|nanl o Ho|nanl o Ho]; intros.
  - now apply opl_has_probabilities.
  - now apply tpl_has_probabilities.
  - now apply thpl_has_probabilities.
  - now apply gpc_has_probabilities.
  - now apply grm_has_probabilities.
  - now apply nrm_has_probabilities.
Qed.
Lemma library_flat m p : library_model m p -> flat_output m.
Proof. intros []; [apply opl_flat|apply tpl_flat|apply thpl_flat|apply gpc_flat|apply grm_flat|apply nrm_flat]. Qed.
Lemma library_items m p : library_model m p -> (0 < em_items m)%nat.
Proof. intros []; unfold em_items; cbn; try rewrite repeat_length; auto. Qed.
Lemma library_pos m p : library_model m p -> forall theta i k, (k < nth i (em_cats m) O)%nat -> 0 < p theta i k.
Proof.
  intros [nanl o Ho|nanl o Ho|nanl o Ho|nanl o Ho|nanl o Ho Hi Hd|nanl o Ho] t i k Hk.
  - apply two_pos, logistic_bounds.
  - apply two_pos, logistic_bounds.
  - apply thpl_p_bounds.
  - now apply category_probability_pos.
  - now apply grm_p_pos.
  - now apply category_probability_pos.
Qed.
Lemma rprod_pos l : Forall (fun x => 0 < x) l -> 0 < rprod l.
Proof. induction 1; cbn; [lra|]. now apply Rmult_lt_0_compat. Qed.
Lemma library_likelihood m p theta row : library_model m p -> legal_row (em_cats m) row -> 0 < likelihood p theta row.
Proof.
  intros Hm [_ Hr]. apply rprod_pos. apply Forall_forall. intros x Hx. apply In_nth_error in Hx as [i Hi].
  rewrite nth_error_mapi in Hi. destruct (nth_error row i) as [c|] eqn:Ec; [|discriminate]. cbn in Hi. injection Hi as <-.
  destruct (Hr i c Ec) as [-> |[-> |(k & -> & Hk)]]; cbn; try lra.
  destruct (Z.eqb_spec (Z.of_nat k) (-1)); [lia|]. rewrite Nat2Z.id. now apply (library_pos m p).
Qed.
