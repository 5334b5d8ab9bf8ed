(** With many respondents, for any models estimated by the probabilities they report. *)
From Coq Require Import Lra.
From Verif Require Import Base BaseFacts RBase RFacts M_Data M_Logit M_Lik M_Est M_Opt M_Jml P_Logit P_Logit2 P_Logit3 P_Est1 P_Est2 P_Opt3 P_Max1 S_Logit S_Lik S_Est S_Item S_True S_Cons S_Flex S_Betw S_Cmp S_Cmp2 P_True1 P_True2 P_True3 P_Cons1 P_Cons2 P_Cons3 P_Cmp.
Import List.
Local Open Scope R_scope.

Lemma any_close_fit m p points weights m' p' points' weights' s data eta : estimated_by m p -> estimated_by m' p' -> em_cats m' = em_cats m -> rule (em_lv m) points weights -> rule (em_lv m') points' weights' -> rsum weights' = rsum weights ->
  length s = length (em_cats m) -> data <> [] -> Forall (fun row => In row (possible_rows (em_cats m) s)) data -> 0 <= eta ->
  (forall row, In row (possible_rows (em_cats m) s) -> Rabs (INR (times data row) / INR (length data) - marginal_likelihood p points weights row / rsum weights) <= eta) ->
  let loss m points weights := mml_loss m points (map (fun w => Some (Fin (ln w))) weights) (Wide (length (em_cats m)) data) in
  not_worse (loss m' points' weights') (loss m points weights) ->
  forall row, In row (possible_rows (em_cats m) s) -> Rabs (marginal_likelihood p' points' weights' row / rsum weights - marginal_likelihood p points weights row / rsum weights) <=
    eta * (1 + 2 * sqrt (over (possible_rows (em_cats m) s) (fun row => / (marginal_likelihood p points weights row / rsum weights)))).
Proof.
  intros Hm Hm' EC HR HR' EW HS HD HF He HN loss (x & y & EX & EY & Hxy). set (W := rsum weights) in *. pose proof (rule_total _ _ _ HR) as HW. fold W in HW.
  assert (LD : legal_data (em_cats m) data) by (apply Forall_forall; intros row Hr; rewrite Forall_forall in HF; apply (rows_legal _ s); auto). assert (HL : 0 < INR (length data)) by (apply lt_0_INR; destruct data; [congruence|cbn; lia]).
  assert (PM : forall row, In row (possible_rows (em_cats m) s) -> 0 < marginal_likelihood p points weights row) by (intros row Hrow; apply (any_marginal_positive m); auto; now apply (rows_legal _ s)). assert (PM' : forall row, In row (possible_rows (em_cats m) s) -> 0 < marginal_likelihood p' points' weights' row) by (intros row Hrow; apply (any_marginal_positive m'); auto; rewrite EC; now apply (rows_legal _ s)).
  apply (fit_near (possible_rows (em_cats m) s) (fun row => INR (times data row) / INR (length data)) (fun row => marginal_likelihood p points weights row / W) (fun row => marginal_likelihood p' points' weights' row / W) eta); auto.
  - intros row _. apply Rmult_le_pos; [apply times_nonneg|apply Rlt_le, Rinv_0_lt_compat, HL].
  - intros row Hrow. apply Rdiv_lt_0_compat; auto.
  - intros row Hrow. apply Rdiv_lt_0_compat; auto.
  - now apply data_share.
  - now apply any_share_total.
  - rewrite <- EW, <- EC. apply any_share_total; auto. now rewrite EC.
  - assert (V : forall M : list cell -> R, (forall row, In row (possible_rows (em_cats m) s) -> 0 < M row) -> over (possible_rows (em_cats m) s) (fun row => INR (times data row) / INR (length data) * ln (M row / W)) = - / INR (length data) * rsum (mapi (fun _ row => - ln (M row)) data) - ln W).
    { intros M HM. rewrite (rsum_mapi []). assert (E : sumn (length data) (fun r => - ln (M (nth r data []))) = over data (fun row => - ln (M row))) by (unfold over; rewrite rsum_nth, map_length; apply sumn_ext; intros r Hr; rewrite (nth_indep _ 0 (- ln (M []))) by (now rewrite map_length); now rewrite (map_nth (fun row => - ln (M row)))). rewrite E, (over_times _ s data _ HS HF).
      replace (ln W) with (ln W * over (possible_rows (em_cats m) s) (fun row => INR (times data row) / INR (length data))) by (rewrite data_share by assumption; ring). rewrite <- !over_scal, <- over_minus. apply over_ext. intros row Hrow. specialize (HM row Hrow). replace (ln (M row / W)) with (ln (M row) - ln W) by (unfold Rdiv; rewrite ln_mult, ln_Rinv by (auto using Rinv_0_lt_compat); ring). field. lra. }
    rewrite !V by assumption. unfold loss in EX, EY. rewrite (any_mml_row_value m' p') in EX by (auto; now rewrite EC). rewrite (any_mml_row_value m p) in EY by auto. injection EX as EX. injection EY as EY. rewrite EX, EY. apply Rplus_le_compat_r. rewrite !Ropp_mult_distr_l_reverse. apply Ropp_le_contravar, Rmult_le_compat_l; [apply Rlt_le, Rinv_0_lt_compat, HL|exact Hxy].
Qed.
Section AnyTruth.
  Variables (m : emodel) (p : list R -> nat -> nat -> R) (points : list (list R)) (weights : list R) (s : list bool).
  Hypothesis Hm : estimated_by m p.
  Hypothesis HR : rule (em_lv m) points weights.
  Hypothesis HS : length s = length (em_cats m).
  Let rows := possible_rows (em_cats m) s.
  Let q := fun row => marginal_likelihood p points weights row / rsum weights.
  Lemma any_q_pos row : In row rows -> 0 < q row.
  Proof. intro Hr. apply Rdiv_lt_0_compat; [|exact (rule_total _ _ _ HR)]. apply (any_marginal_positive m); auto. now apply (rows_legal _ s). Qed.
  Lemma any_q_total : over rows q = 1.
  Proof. now apply any_share_total. Qed.
  (** One choice of how near the shares must be serves all fits. *)
  Lemma any_near_all eps : 0 < eps -> exists eta, 0 < eta /\ forall eta', 0 < eta' <= eta -> forall data, data <> [] -> Forall (fun row => In row rows) data -> (forall x, In x rows -> Rabs (INR (times data x) / INR (length data) - q x) < eta') ->
    (forall x, In x rows -> In x data) /\
    forall m' p' points' weights', estimated_by m' p' -> em_cats m' = em_cats m -> rule (em_lv m') points' weights' -> rsum weights' = rsum weights ->
      not_worse (loss_on m' points' weights' data) (loss_on m points weights data) ->
      forall row, In row rows -> Rabs (marginal_likelihood p' points' weights' row / rsum weights' - q row) < eps.
  Proof.
    intro He. set (C := over rows (fun row => / q row)). pose proof (sqrt_pos C) as PC. destruct (common_gap rows q any_q_pos) as (d & Hd & Hl). set (c := eps / (2 * (1 + 2 * sqrt C))). assert (Hc : 0 < c) by (apply Rdiv_lt_0_compat; lra).
    exists (Rmin d c). split; [now apply Rmin_glb_lt|]. intros eta' [He0 He1] data HD HF HN. assert (B1 : eta' <= d) by (eapply Rle_trans; [exact He1|apply Rmin_l]). assert (B2 : eta' <= c) by (eapply Rle_trans; [exact He1|apply Rmin_r]). split.
    - intros x Hx. specialize (HN x Hx). specialize (Hl x Hx). destruct (times data x) as [|t] eqn:Et; [exfalso; cbn [INR] in HN; unfold Rdiv in HN; rewrite Rmult_0_l, Rminus_0_l, Rabs_Ropp, Rabs_pos_eq in HN by (pose proof (any_q_pos x Hx); lra); lra|]. apply (count_occ_In (list_eq_dec cell_dec)). unfold times in Et. lia.
    - intros m' p' points' weights' Hm' EC HR' EW HB row Hrow. rewrite EW.
      apply Rle_lt_trans with (eta' * (1 + 2 * sqrt C)); [exact (any_close_fit m p points weights m' p' points' weights' s data eta' Hm Hm' EC HR HR' EW HS HD HF (Rlt_le _ _ He0) (fun x Hx => Rlt_le _ _ (HN x Hx)) HB row Hrow)|].
      apply Rle_lt_trans with (c * (1 + 2 * sqrt C)); [apply Rmult_le_compat_r; lra|]. replace (c * (1 + 2 * sqrt C)) with (eps / 2) by (unfold c; field; lra). lra.
  Qed.
  Lemma any_consistent eps : 0 < eps -> eventually (em_cats m) s q (fun data => forall m' p' points' weights', estimated_by m' p' -> em_cats m' = em_cats m -> rule (em_lv m') points' weights' -> rsum weights' = rsum weights ->
      not_worse (loss_on m' points' weights' data) (loss_on m points weights data) -> forall row, In row rows -> Rabs (marginal_likelihood p' points' weights' row / rsum weights' - q row) < eps).
  Proof.
    intro He. destruct (any_near_all eps He) as (eta & He1 & H). apply (eventually_near _ _ _ eta); [exact HS|intros; now apply Rlt_le, any_q_pos|exact any_q_total|exact He1|]. intros data HD HF HN. exact (proj2 (H eta (conj He1 (Rle_refl _)) data HD HF HN)).
  Qed.
  (** A given model with other probabilities is beaten. *)
  Lemma any_beaten m' p' points' weights' row : estimated_by m' p' -> em_cats m' = em_cats m -> rule (em_lv m') points' weights' -> rsum weights' = rsum weights ->
    In row rows -> marginal_likelihood p' points' weights' row <> marginal_likelihood p points weights row ->
    eventually (em_cats m) s q (fun data => better (loss_on m points weights data) (loss_on m' points' weights' data)).
  Proof.
    intros Hm' EC HR' EW Hrow Hne. pose proof (rule_total _ _ _ HR) as HW.
    assert (He : 0 < Rabs (marginal_likelihood p' points' weights' row / rsum weights' - q row)).
    { apply Rabs_pos_lt. intro E. apply Hne. rewrite EW in E. unfold q in E. apply (Rmult_eq_reg_r (/ rsum weights)); [unfold Rdiv in E; lra|apply Rinv_neq_0_compat; lra]. }
    destruct (any_near_all _ He) as (eta & He1 & H). apply (eventually_near _ _ _ eta); [exact HS|intros; now apply Rlt_le, any_q_pos|exact any_q_total|exact He1|]. intros data HD HF HN.
    assert (LD : legal_data (em_cats m) data) by (apply Forall_forall; intros r Hr; rewrite Forall_forall in HF; apply (rows_legal _ s); auto).
    pose proof (any_mml_row_value m p points weights data Hm HD HR LD) as V. pose proof (any_mml_row_value m' p' points' weights' data Hm' HD HR' ltac:(now rewrite EC)) as V'.
    do 2 eexists. split; [exact V|]. split; [exact V'|]. apply Rnot_le_lt. intro Hle.
    pose proof (proj2 (H eta (conj He1 (Rle_refl _)) data HD HF HN) m' p' points' weights' Hm' EC HR' EW) as Q. specialize (Q ltac:(do 2 eexists; split; [exact V'|split; [exact V|exact Hle]]) row Hrow). lra.
  Qed.
End AnyTruth.
