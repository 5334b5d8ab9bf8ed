(** Property C107: the equations that ML and MAP scores satisfy. *)
From Verif Require T_Est T_Suff.
From Verif Require Import Base BaseFacts RBase RFacts M_Data M_Logit M_Lik M_Est M_Opt P_Logit P_Logit2 P_Logit4 P_Est2 P_Opt1 P_Opt2 P_Opt3 P_Opt4 P_Max1 P_Suff1 P_Suff2 P_Scoreq S_Logit S_Lik S_Est S_Opt S_Suff S_Scoreq.
Import List.
Local Open Scope R_scope.

(** The gradient of the loss in a respondent's scores is the expected minus the observed weighted sum score. *)
Theorem C107_gradient : forall m p w data,
  weights_of m p w -> legal_data (em_cats m) data ->
  exists L : list (list R) -> R,
    (forall thetas, rect (length data) (em_lv m) thetas -> scoring_loss m None (Wide (em_items m) data) thetas = Ok (Some (Fin (L thetas)))) /\
    forall thetas n row t d, rect (length data) (em_lv m) thetas -> nth_error data n = Some row -> nth_error thetas n = Some t -> (d < em_lv m)%nat ->
      derivable_pt_lim (fun x => L (set_score n d x thetas)) (nth d t 0) (expected_total p w (em_cats m) row t d - S_Suff.total w row d).
Proof.
  intros m p w data Hw HD. pose proof (weights_library m p w Hw) as Hm. set (lv := em_lv m). set (N := length data). set (F := fun n => row_target p None (nth n data [])). exists (fun thetas => - P_Opt4.total F N thetas).
  split; [intros thetas [HL HF]; rewrite (scoring_loss_value m p) by assumption; reflexivity|]. intros thetas n row t d Hth En Et Hd.
  assert (Hn : (n < N)%nat) by (apply nth_error_Some; congruence). assert (HL : legal_row (em_cats m) row) by (unfold legal_data in HD; rewrite Forall_forall in HD; apply HD; eapply nth_error_In; eauto).
  pose proof (shaped_row lv N thetas n Hth Hn) as Lt. rewrite (nth_error_nth _ _ [] Et) in Lt.
  pose proof (proj2 (total_partial lv F N thetas n d (S_Suff.total w row d - expected_total p w (em_cats m) row t d) Hth Hn)) as Q. rewrite (nth_error_nth _ _ [] Et) in Q.
  replace (expected_total p w (em_cats m) row t d - S_Suff.total w row d) with (- (S_Suff.total w row d - expected_total p w (em_cats m) row t d)) by ring. apply Q.
  pose proof (likelihood_partial m p w row t d Hw HL Lt Hd) as HP. unfold partial_is in *. eapply P_Spline4.derivable_ext; [|exact HP]. intro x. unfold F, row_target, prior_term. rewrite (nth_error_nth _ _ [] En). ring.
Qed.
Print Assumptions C107_gradient.

(** A score is an ML score exactly when the expected weighted sum scores are the observed ones. *)
Theorem C107_ml : forall m p w row t,
  weights_of m p w -> legal_row (em_cats m) row -> length t = em_lv m ->
  (maximum (em_lv m) (fun t => likelihood p t row) t <->
   forall d, (d < em_lv m)%nat -> expected_total p w (em_cats m) row t d = S_Suff.total w row d).
Proof.
  intros m p w row t Hw HL Lt. pose proof (weights_library m p w Hw) as Hm.
  assert (HP : forall t i k, length t = em_lv m -> (k < nth i (em_cats m) O)%nat -> 0 < p t i k) by (intros; now apply (library_pos m p Hm)).
  assert (EM : maximum (em_lv m) (fun t => likelihood p t row) t <-> maximum (em_lv m) (fun t => ln (likelihood p t row)) t).
  { split; intros H u Lu; specialize (H u Lu); cbv beta in *; assert (0 < likelihood p u row) by (now apply (library_likelihood m p)); assert (0 < likelihood p t row) by (now apply (library_likelihood m p)).
    - now apply ln_le.
    - destruct (Rle_lt_dec (likelihood p u row) (likelihood p t row)) as [|Hl]; [assumption|]. pose proof (ln_increasing _ _ ltac:(eassumption) Hl). lra. }
  rewrite EM. rewrite (stationary_max (em_lv m) (fun t => ln (likelihood p t row)) t _ (fun d => S_Suff.total w row d - expected_total p w (em_cats m) row t d) Lt (likelihood_touches (em_lv m) (em_cats m) p row t HP (weights_log_concave m p w Hw) Lt HL)).
  - split; intros H d Hd; specialize (H d Hd); cbv beta in *; lra.
  - intros d Hd. now apply (likelihood_partial m p w).
Qed.
Print Assumptions C107_ml.

(** A score is the MAP score exactly when the observed exceeds the expected weighted sum score by the pull of the prior. *)
Theorem C107_map : forall m p w row t c P,
  weights_of m p w -> legal_row (em_cats m) row -> length t = em_lv m -> precision (em_lv m) P ->
  (maximum (em_lv m) (fun t => ln (likelihood p t row) + normal_prior (em_lv m) c P t) t <->
   forall d, (d < em_lv m)%nat -> S_Suff.total w row d - expected_total p w (em_cats m) row t d = sumn (em_lv m) (fun e => P d e * nth e t 0)).
Proof.
  intros m p w row t c P Hw HL Lt [HS HPD]. pose proof (weights_library m p w Hw) as Hm.
  assert (HP : forall t i k, length t = em_lv m -> (k < nth i (em_cats m) O)%nat -> 0 < p t i k) by (intros; now apply (library_pos m p Hm)).
  pose proof (touches_plus (em_lv m) _ _ t _ _ (likelihood_touches (em_lv m) (em_cats m) p row t HP (weights_log_concave m p w Hw) Lt HL) (prior_touches (em_lv m) c P HS t HPD Lt)) as HT.
  rewrite (stationary_max (em_lv m) _ t _ (fun d => (S_Suff.total w row d - expected_total p w (em_cats m) row t d) + prior_gradient (em_lv m) P t d) Lt HT).
  - split; intros H d Hd; specialize (H d Hd); unfold prior_gradient in *; cbv beta in *; lra.
  - intros d Hd. unfold partial_is. apply (derivable_pt_lim_plus (fun x => ln (likelihood p (upd d x t) row)) (fun x => normal_prior (em_lv m) c P (upd d x t))); [exact (likelihood_partial m p w row t d Hw HL Lt Hd)|exact (prior_partial (em_lv m) c P HS t d Lt Hd)].
Qed.
Print Assumptions C107_map.

(** With one latent variable, a larger weighted sum score on the same items gives a strictly larger ML score and a
    strictly larger MAP score. *)
Theorem C107_order : forall m p w row row' x x',
  weights_of m p w -> em_lv m = 1%nat -> legal_row (em_cats m) row -> legal_row (em_cats m) row' -> same_items row row' ->
  S_Suff.total w row 0 < S_Suff.total w row' 0 ->
  (maximum 1 (fun t => likelihood p t row) [x] -> maximum 1 (fun t => likelihood p t row') [x'] -> x < x') /\
  (forall c v, 0 < v ->
   maximum 1 (fun t => ln (likelihood p t row) + normal_prior 1 c (fun _ _ => / v) t) [x] -> maximum 1 (fun t => ln (likelihood p t row') + normal_prior 1 c (fun _ _ => / v) t) [x'] -> x < x').
Proof.
  intros m p w row row' x x' Hw E1 HL HL' HS HT. pose proof (weights_library m p w Hw) as Hm.
  assert (EX : forall t, expected_total p w (em_cats m) row t 0 = expected_total p w (em_cats m) row' t 0).
  { intro t. unfold expected_total. rewrite (proj1 HL), (proj1 HL'). apply sumn_ext. intros i _. specialize (HS i). destruct (answer (nth i row None)), (answer (nth i row' None)); try reflexivity; destruct HS as [A B]; first [discriminate (A eq_refl)|discriminate (B eq_refl)]. }
  split.
  - intros H1 H2. assert (LE : x <= x').
    { apply (T_Suff.C106_better_max m p (fun _ => 1) row row' x x'); auto; [intro; lra|right; split; [exact E1|exists w; auto]| |]; intros t Lt; rewrite !Rmult_1_l; auto. }
    destruct LE as [|E]; [assumption|]. exfalso. rewrite <- E1 in H1, H2. pose proof (proj1 (C107_ml m p w row [x] Hw HL ltac:(now rewrite E1)) H1 0%nat ltac:(lia)). pose proof (proj1 (C107_ml m p w row' [x'] Hw HL' ltac:(now rewrite E1)) H2 0%nat ltac:(lia)). rewrite <- EX, <- E in H0. lra.
  - intros c v Hv H1 H2. set (Q := fun t => exp (normal_prior 1 c (fun _ _ => / v) t)).
    assert (CV : forall r u, legal_row (em_cats m) r -> maximum 1 (fun t => ln (likelihood p t r) + normal_prior 1 c (fun _ _ => / v) t) [u] -> maximum 1 (fun t => Q t * likelihood p t r) [u]).
    { intros r u Hr HM t Lt. specialize (HM t Lt). cbv beta in *. assert (PT : forall s, length s = 1%nat -> 0 < likelihood p s r) by (intros; apply (library_likelihood m p); auto; lia).
      assert (EQ : forall s, length s = 1%nat -> Q s * likelihood p s r = exp (ln (likelihood p s r) + normal_prior 1 c (fun _ _ => / v) s)) by (intros s Ls; unfold Q; rewrite exp_plus, exp_ln by (now apply PT); apply Rmult_comm).
      rewrite !EQ by (auto; reflexivity). destruct HM as [HM|HM]; [left; now apply exp_increasing|rewrite HM; lra]. }
    assert (LE : x <= x').
    { apply (T_Suff.C106_better_max m p Q row row' x x'); auto; [intro; apply exp_pos|right; split; [exact E1|exists w; auto]]. }
    destruct LE as [|E]; [assumption|]. exfalso. rewrite <- E1 in H1, H2.
    assert (PR : precision (em_lv m) (fun _ _ => / v)).
    { rewrite E1. split; [reflexivity|]. intros y (d & Hd & Hy). unfold quad. cbn [sumn]. replace d with 0%nat in Hy by lia. assert (0 < / v) by now apply Rinv_0_lt_compat. assert (0 < y 0%nat * y 0%nat) by nra. replace (0 + (0 + / v * y 0%nat * y 0%nat)) with (/ v * (y 0%nat * y 0%nat)) by ring. now apply Rmult_lt_0_compat. }
    pose proof (proj1 (C107_map m p w row [x] c _ Hw HL ltac:(now rewrite E1) PR) H1 0%nat ltac:(lia)) as A1. pose proof (proj1 (C107_map m p w row' [x'] c _ Hw HL' ltac:(now rewrite E1) PR) H2 0%nat ltac:(lia)) as A2. rewrite <- EX, <- E in A2. lra.
Qed.
Print Assumptions C107_order.

(** 1PL, complete answers: at the ML score the expected total score returned by the library is the number of right
    answers. *)
Theorem C107_sum_score : forall m row x,
  length (opl_b m) = opl_items m -> (0 < opl_items m)%nat -> legal_row (repeat 2%nat (opl_items m)) row -> (forall i, (i < opl_items m)%nat -> answer (nth i row None) <> None) ->
  (maximum 1 (fun t => likelihood (opl_p m) t row) [x] <->
   expected_total_scores (opl_items m) 2 None (opl_probabilities m [x]) = Ok [Some (sumn (opl_items m) (fun i => match answer (nth i row None) with Some k => INR k | None => 0 end))]).
Proof.
  intros m row x Hb Hi HL HA. set (I := opl_items m) in *. pose (nanl := 0%Z); pose proof (weights_opl nanl m Hb Hi) as Hw.
  assert (LR : length row = I) by (rewrite (proj1 HL); apply repeat_length).
  assert (EX : expected_total (opl_p m) (fun i k d => INR k) (repeat 2%nat I) row [x] 0 = sumn I (fun i => logistic (x + nth i (opl_b m) 0))).
  { unfold expected_total. rewrite LR. apply sumn_ext. intros i HI. destruct (answer (nth i row None)) eqn:E; [|now destruct (HA i HI)]. assert (EK : nth i (repeat 2%nat I) O = 2%nat) by (apply nth_error_nth; now apply nth_error_repeat_lt). rewrite EK. unfold opl_p. cbn [sumn INR Nat.eqb nth]. ring. }
  assert (ET : expected_total_scores I 2 None (opl_probabilities m [x]) = Ok [Some (sumn I (fun i => logistic (x + nth i (opl_b m) 0)))]).
  { assert (HT : forall i, (i < I)%nat -> exists out, expected_item_scores I 2 None (opl_probabilities m [x]) = Ok out /\ at2 out 0 i = Some (Some (logistic (x + nth i (opl_b m) 0)))).
    { intros i HI. destruct (expected_item_none I 2 (opl_probabilities m [x]) 0 i (fun k => if (k =? 1)%nat then logistic (x + nth i (opl_b m) 0) else 1 - logistic (x + nth i (opl_b m) 0)) HI) as (out & E & A).
      - intros k Hk. exact (opl_probs_spec m [x] 0 x i k Hb eq_refl HI Hk).
      - lia.
      - exists out. split; [exact E|]. rewrite A. cbn [sumn INR Nat.eqb]. do 2 f_equal. ring. }
    destruct (HT 0%nat Hi) as (out & E & A0). rewrite (P_Logit4.expected_total _ _ _ _ _ E).
    assert (SH : exists es, out = [es] /\ length es = I).
    { pose proof (P_Nest1.opl_table m Hb Hi [[x]] ltac:(repeat constructor)) as TB. cbn [map nth] in TB. rewrite TB in E. unfold expected_item_scores, item_score_table in E. cbn [rmap map] in E. injection E as <-. eexists. split; [reflexivity|]. rewrite zip_with_length, repeat_length, map_length, seq_length. apply Nat.min_id. }
    destruct SH as (es & -> & Les). cbn [map]. do 2 f_equal. apply osum_index; [exact Les|]. intros i HI. destruct (HT i HI) as (out' & E' & A'). rewrite E in E'. injection E' as <-. exact A'. }
  rewrite ET. pose proof (C107_ml (of_sub (opl_sub nanl m)) (opl_p m) _ row [x] Hw HL eq_refl) as C. change (em_lv (of_sub (opl_sub nanl m))) with 1%nat in C. change (em_cats (of_sub (opl_sub nanl m))) with (repeat 2%nat I) in C. rewrite C. clear C.
  assert (TT : S_Suff.total (fun i k d => INR k) row 0 = sumn I (fun i => match answer (nth i row None) with Some k => INR k | None => 0 end)) by (rewrite total_sumn, LR; reflexivity).
  rewrite <- TT, <- EX. split; intro H.
  - rewrite (H 0%nat ltac:(lia)). reflexivity.
  - intros d Hd. replace d with 0%nat by lia. now injection H.
Qed.
Print Assumptions C107_sum_score.
(** Three 1PL items of equal difficulty; one right answer against two: the ML scores are -ln 2 and ln 2. *)
Definition eq_opl : opl := {| opl_items := 3; opl_b := [0; 0; 0] |}.
Definition eq_model := of_sub (opl_sub 0 eq_opl).
Definition eq_one : list cell := [Some 0; Some 1; Some 0]%Z.
Definition eq_two : list cell := [Some 1; Some 0; Some 1]%Z.
Lemma eq_legal row : row = eq_one \/ row = eq_two -> legal_row (em_cats eq_model) row.
Proof.
  intros [-> | ->]; (split; [reflexivity|]); intros [|[|[|i]]] c H; cbn in H; try (destruct i; discriminate); injection H as <-; right; right;
    first [exists 1%nat; cbn; split; [reflexivity|lia] | exists 0%nat; cbn; split; [reflexivity|lia]].
Qed.
Lemma eq_weights : weights_of eq_model (opl_p eq_opl) (fun i k d => INR k).
Proof. apply weights_opl; cbn; lia. Qed.
Lemma eq_total : S_Suff.total (fun i k d => INR k) eq_one 0 = 1 /\ S_Suff.total (fun i k d => INR k) eq_two 0 = 2.
Proof.
  split; unfold S_Suff.total, eq_one, eq_two; cbn [mapi mapi_from rsum]; unfold answer; change (1 =? -1)%Z with false; change (0 =? -1)%Z with false; cbv iota; change (Z.to_nat 1) with 1%nat; change (Z.to_nat 0) with 0%nat; cbn [INR]; ring.
Qed.
Lemma eq_expected row x : row = eq_one \/ row = eq_two -> expected_total (opl_p eq_opl) (fun i k d => INR k) (em_cats eq_model) row [x] 0 = 3 * logistic x.
Proof.
  intros [-> | ->]; unfold expected_total, eq_one, eq_two; cbn [length sumn nth]; unfold answer; change (1 =? -1)%Z with false; change (0 =? -1)%Z with false; cbv iota; change (em_cats eq_model) with [2%nat; 2%nat; 2%nat]; cbn [nth sumn]; unfold opl_p; cbn [INR Nat.eqb nth opl_b eq_opl]; rewrite !Rplus_0_r; ring.
Qed.
Lemma logistic_ln2 : logistic (ln 2) = 2 / 3 /\ logistic (- ln 2) = 1 / 3.
Proof. unfold logistic. rewrite Ropp_involutive, exp_Ropp, exp_ln by lra. split; field. Qed.
Example C107_nonvacuous :
  maximum 1 (fun t => likelihood (opl_p eq_opl) t eq_one) [- ln 2] /\ maximum 1 (fun t => likelihood (opl_p eq_opl) t eq_two) [ln 2] /\
  same_items eq_one eq_two /\ S_Suff.total (fun i k d => INR k) eq_one 0 < S_Suff.total (fun i k d => INR k) eq_two 0 /\ - ln 2 < ln 2.
Proof.
  destruct eq_total as [T1 T2]. destruct logistic_ln2 as [L1 L2].
  assert (M1 : maximum 1 (fun t => likelihood (opl_p eq_opl) t eq_one) [- ln 2]).
  { apply (C107_ml eq_model (opl_p eq_opl) _ eq_one [- ln 2] eq_weights (eq_legal _ (or_introl eq_refl)) eq_refl). intros d Hd. cbn in Hd. replace d with 0%nat by lia. rewrite eq_expected, T1, L2 by auto. field. }
  assert (M2 : maximum 1 (fun t => likelihood (opl_p eq_opl) t eq_two) [ln 2]).
  { apply (C107_ml eq_model (opl_p eq_opl) _ eq_two [ln 2] eq_weights (eq_legal _ (or_intror eq_refl)) eq_refl). intros d Hd. cbn in Hd. replace d with 0%nat by lia. rewrite eq_expected, T2, L1 by auto. field. }
  assert (SI : same_items eq_one eq_two) by (intros [|[|[|[|i]]]]; cbn; split; congruence).
  assert (TL : S_Suff.total (fun i k d => INR k) eq_one 0 < S_Suff.total (fun i k d => INR k) eq_two 0) by lra.
  repeat split; auto; try apply SI.
  exact (proj1 (C107_order eq_model (opl_p eq_opl) _ eq_one eq_two _ _ eq_weights eq_refl (eq_legal _ (or_introl eq_refl)) (eq_legal _ (or_intror eq_refl)) SI TL) M1 M2).
Qed.
Example C107_sum_score_nonvacuous : expected_total_scores 3 2 None (opl_probabilities eq_opl [ln 2]) = Ok [Some 2].
Proof.
  destruct C107_nonvacuous as (_ & M2 & _).
  assert (AN : forall i, (i < opl_items eq_opl)%nat -> answer (nth i eq_two None) <> None) by (intros [|[|[|i]]] Hi; cbn in *; try discriminate; lia).
  pose proof (proj1 (C107_sum_score eq_opl eq_two (ln 2) eq_refl ltac:(cbn; lia) (eq_legal _ (or_intror eq_refl)) AN) M2) as Q. cbn [opl_items eq_opl] in Q. rewrite Q. do 3 f_equal. cbn [sumn nth eq_two]. unfold answer. change (1 =? -1)%Z with false. change (0 =? -1)%Z with false. cbv iota. change (Z.to_nat 1) with 1%nat. change (Z.to_nat 0) with 0%nat. cbn [INR]. ring.
Qed.
