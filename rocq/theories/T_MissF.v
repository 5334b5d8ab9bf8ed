(** Property C142 for the flexible models: networks, polynomials and splines. *)
From Coq Require Import Lra String.
From Verif Require T_Flex T_Tab.
From Verif Require Import Base BaseFacts RBase RFacts M_Data M_Logit M_Lik M_Est M_Opt M_Jml M_BSpl M_Tab P_Logit P_Est2 P_Est3 P_Miss S_Logit S_Lik S_Est S_Eap S_Opt S_BSpl S_Flex S_Miss.
Import List.
Local Open Scope R_scope.

Section Flexible.
Variables (m : emodel) (p : list R -> nat -> nat -> R).
Hypothesis HD : distributions (em_lv m) (em_cats m) p.
Lemma flexible_total row fill t : List.length t = em_lv m -> legal_row (em_cats m) row -> rsum (map (likelihood p t) (completions (em_cats m) fill row)) = likelihood p t row.
Proof. intros Ht [HL _]. apply completions_total; [exact HL|]. intros i Hi. apply (proj2 (HD t i _ Ht (nth_error_nth_lt _ _ O Hi))). Qed.
Lemma flexible_likelihood row fill t full : List.length t = em_lv m -> legal_row (em_cats m) row -> In full (completions (em_cats m) fill row) -> 0 < likelihood p t full.
Proof. intros Ht HL HI. apply (T_Flex.likelihood_positive _ _ _ _ _ HD Ht). now apply completions_legal with fill row. Qed.
End Flexible.

Lemma ranges_exist scores : scores <> [] -> exists lo hi, forall d, ranges scores d (lo d) (hi d).
Proof.
  intro Hs. exists (fun d => rmin_list (map (fun s => nth d s 0) scores)), (fun d => rmax_list (map (fun s => nth d s 0) scores)). intro d.
  assert (HN : map (fun s => nth d s 0) scores <> []) by (destruct scores; [congruence|discriminate]).
  destruct (rmin_list_spec _ HN) as [A1 A2]. destruct (rmax_list_spec _ HN) as [B1 B2]. split; [|split].
  - intros t Ht. split; [apply A2|apply B2]; now apply in_map with (f := fun s => nth d s 0).
  - apply in_map_iff in A1 as (u & Eu & Iu). now exists u.
  - apply in_map_iff in B1 as (u & Eu & Iu). now exists u.
Qed.

(** Any model estimated and scored by a distribution over the categories of every item; C144 and C145 show this of the network, polynomial
    and spline models. *)
Theorem C142_flexible_losses : forall m p points weights theta row fill,
  distributions (em_lv m) (em_cats m) p -> scored_by m p -> points <> [] -> List.length weights = List.length points -> Forall (fun t => List.length t = em_lv m) points -> Forall (fun w => 0 < w) weights ->
  List.length theta = em_lv m -> legal_row (em_cats m) row ->
  let marginal r := mml_loss m points (map (fun w => Some (Fin (ln w))) weights) (Wide (em_items m) [r]) in let joint r := jml_loss m (Wide (em_items m) [r]) [theta] in
  exists M J : list cell -> R,
    (forall r, In r (row :: completions (em_cats m) fill row) -> marginal r = Ok (Some (Fin (M r))) /\ joint r = Ok (Some (Fin (J r)))) /\
    exp (- M row) = rsum (map (fun full => exp (- M full)) (completions (em_cats m) fill row)) /\
    exp (- J row) = rsum (map (fun full => exp (- J full)) (completions (em_cats m) fill row)).
Proof.
  intros m p points weights theta row fill HDi (S1 & S2 & _) Hn HL HF HW Ht Hrow marginal joint.
  assert (LEG : forall r, In r (row :: completions (em_cats m) fill row) -> legal_row (em_cats m) r) by (intros r [<-|H]; [exact Hrow|now apply completions_legal with fill row]).
  set (ml := fun r => rsum (zip_with (fun w t => w * likelihood p t r) weights points)).
  assert (POS : forall r, legal_row (em_cats m) r -> 0 < ml r).
  { intros r Hr. assert (PL : forall t, List.length t = em_lv m -> 0 < likelihood p t r) by (intros t Htl; now apply (T_Flex.likelihood_positive _ _ _ _ _ HDi Htl)). unfold ml. clear - HW HF PL Hn HL. destruct points as [|t ts]; [congruence|]. destruct weights as [|w ws]; [discriminate|].
    assert (G : forall ws ts, Forall (fun w => 0 < w) ws -> Forall (fun t => List.length t = em_lv m) ts -> 0 <= rsum (zip_with (fun w t => w * likelihood p t r) ws ts)).
    { clear - PL. induction ws as [|w ws IH]; intros [|t ts] H1 H2; cbn [zip_with rsum]; try lra. pose proof (IH ts (Forall_inv_tail H1) (Forall_inv_tail H2)). pose proof (Forall_inv H1) as Hw. pose proof (Forall_inv H2) as Htl. cbv beta in *. assert (0 < w * likelihood p t r) by (apply Rmult_lt_0_compat; auto). lra. }
    cbn [zip_with rsum]. pose proof (G ws ts (Forall_inv_tail HW) (Forall_inv_tail HF)). pose proof (Forall_inv HW) as Hw. pose proof (Forall_inv HF) as Htl. cbv beta in *. assert (0 < w * likelihood p t r) by (apply Rmult_lt_0_compat; auto). lra. }
  exists (fun r => - (ln (ml r) + 0)), (fun r => - (0 + ln (likelihood p theta r))). split; [|split].
  - intros r Hr. assert (HDr : legal_data (em_cats m) [r]) by (constructor; [now apply LEG|constructor]). split.
    + unfold marginal. rewrite (S1 points weights [r]); auto; discriminate.
    + unfold joint. destruct (S2 [theta] [r]) as [E _]; auto; discriminate.
  - rewrite Rplus_0_r, Ropp_involutive, exp_ln by auto. rewrite (rsum_ext _ ml) by (intros full HI; rewrite Rplus_0_r, Ropp_involutive, exp_ln; auto; apply POS, LEG; now right).
    unfold ml. clear - HDi Hrow HF. revert points HF. induction weights as [|w ws IH]; intros [|t ts] HF; cbn [zip_with rsum]; try (symmetry; rewrite (rsum_ext _ (fun _ => 0 * 0)) by (intros; ring); rewrite rsum_scal; ring).
    rewrite (rsum_plus (fun full => w * likelihood p t full) (fun full => rsum (zip_with (fun w t => w * likelihood p t full) ws ts))), <- IH by exact (Forall_inv_tail HF). rewrite rsum_scal. rewrite (flexible_total m p HDi) by (auto; exact (Forall_inv HF)). reflexivity.
  - rewrite Rplus_0_l, Ropp_involutive, exp_ln by (now apply (T_Flex.likelihood_positive _ _ _ _ _ HDi Ht)). rewrite (rsum_ext _ (likelihood p theta)) by (intros full HI; rewrite Rplus_0_l, Ropp_involutive, exp_ln; auto; now apply (flexible_likelihood m p HDi row fill)).
    symmetry. now apply (flexible_total m p).
Qed.
Print Assumptions C142_flexible_losses.

(** EAP scores after a fit. *)
Theorem C142_flexible_average : forall mvn m p a scores logpdf points row fill,
  distributions (em_lv m) (em_cats m) p -> scored_by m p -> (em_lv m <= 4)%nat -> al_training a = Some (Some scores) -> scores <> [] -> mvn (covariance (em_lv m) scores) = Ok logpdf ->
  (0 < match points with Some g => g | None => usual_points (em_lv m) end)%nat -> legal_row (em_cats m) row ->
  let fulls := completions (em_cats m) fill row in
  exists grid (score : nat -> list cell -> R),
    eap_theta_scores mvn m a points (Wide (em_items m) (row :: fulls)) = Ok (map (fun r => map (fun d => Some (Fin (score d r))) (seq 0 (em_lv m))) (row :: fulls)) /\
    (forall full, In full fulls -> 0 < predicted p grid (fun t => exp (logpdf t)) row full) /\ rsum (map (predicted p grid (fun t => exp (logpdf t)) row) fulls) = 1 /\
    forall d, (d < em_lv m)%nat -> score d row = rsum (map (fun full => predicted p grid (fun t => exp (logpdf t)) row full * score d full) fulls) /\
      forall lo hi, (forall full, In full fulls -> lo <= score d full <= hi) -> lo <= score d row <= hi.
Proof.
  intros mvn m p a scores logpdf points row fill HDi (_ & _ & S3 & _) Hlv Ha Hs Hm Hg Hrow fulls.
  assert (HDt : legal_data (em_cats m) (row :: fulls)). { constructor; [exact Hrow|]. apply Forall_forall. intros full HI. now apply completions_legal with fill row. }
  destruct (S3 mvn a scores logpdf points Hlv Ha Hs Hm Hg) as (grid & [HL HG] & E). specialize (E (row :: fulls) ltac:(discriminate) HDt).
  set (g := match points with Some g => g | None => usual_points (em_lv m) end) in *.
  assert (Hgne : grid <> []) by (intros ->; cbn [List.length] in HL; symmetry in HL; apply Nat.pow_eq_0_iff in HL; lia).
  assert (SH : forall t, In t grid -> List.length t = em_lv m).
  { destruct (ranges_exist scores Hs) as (lo & hi & HR). intros t Ht. exact (proj1 (proj1 (HG lo hi (fun d _ => HR d) t) Ht)). }
  set (prior := fun t => exp (logpdf t)) in *. assert (Hp : forall t, 0 < prior t) by (intro t; apply exp_pos).
  assert (H1 : forall t, In t grid -> 0 < likelihood p t row) by (intros t Ht; now apply (T_Flex.likelihood_positive _ _ _ _ _ HDi (SH t Ht))).
  assert (H2 : forall t full, In t grid -> In full fulls -> 0 < likelihood p t full) by (intros t full Ht; apply (flexible_likelihood m p HDi row fill); auto).
  assert (H3 : forall t, In t grid -> rsum (map (likelihood p t) fulls) = likelihood p t row) by (intros t Ht; now apply (flexible_total m p HDi); auto).
  assert (P1 : forall full, In full fulls -> 0 < predicted p grid prior row full) by (intros full HI; eapply predicted_positive; eauto).
  assert (P2 : rsum (map (predicted p grid prior row) fulls) = 1) by (eapply predicted_total; eauto).
  exists grid, (fun d r => posterior_mean p grid prior r d). split; [exact E|]. split; [exact P1|]. split; [exact P2|].
  intros d _. assert (AV : posterior_mean p grid prior row d = rsum (map (fun full => predicted p grid prior row full * posterior_mean p grid prior full d) fulls)) by (eapply average; eauto). split; [exact AV|]. intros lo hi HB. rewrite AV. now apply weighted_between.
Qed.
Print Assumptions C142_flexible_average.

(** The spline test of C145: both losses of a respondent with one answer missing. *)
Example C142_flexible_nonvacuous : exists v, jml_loss (bs_model (-1) T_Tab.spline_test) (Wide 2 [[None; Some 1%Z]]) [[0;1]] = Ok (Some (Fin v)) /\
  exists v0 v1 v2, jml_loss (bs_model (-1) T_Tab.spline_test) (Wide 2 [[Some 0; Some 1]]%Z) [[0;1]] = Ok (Some (Fin v0)) /\
    jml_loss (bs_model (-1) T_Tab.spline_test) (Wide 2 [[Some 1; Some 1]]%Z) [[0;1]] = Ok (Some (Fin v1)) /\
    jml_loss (bs_model (-1) T_Tab.spline_test) (Wide 2 [[Some 2; Some 1]]%Z) [[0;1]] = Ok (Some (Fin v2)) /\ exp (- v) = exp (- v0) + exp (- v1) + exp (- v2).
Proof.
  assert (HK : Forall (fun K => (1 <= K)%nat) [3;2]%nat) by (repeat constructor; lia).
  destruct (T_Tab.C145_monotone (-1) [3;2]%nat 2 None 3 "items" T_Tab.spline_test ltac:(lia) ltac:(discriminate) HK ltac:(now left)) as (p & _ & HDi & HS).
  { unfold same_bspl. repeat split; auto. }
  assert (HR : legal_row [3;2]%nat [None; Some 1%Z]).
  { split; [reflexivity|]. intros [|[|i]] c E; cbn in E; try (destruct i; discriminate); injection E as <-; [now left|right; right; exists 1%nat; split; [reflexivity|cbn; lia]]. }
  destruct (C142_flexible_losses (bs_model (-1) T_Tab.spline_test) p [[0;0]] [1] [0;1] [None; Some 1%Z] [true;true] HDi HS ltac:(discriminate) eq_refl) as (M & J & HV & _ & HJ); [repeat constructor|repeat constructor; lra|reflexivity|exact HR|].
  cbn in HJ. exists (J [None; Some 1%Z]). split; [apply (HV [None; Some 1%Z]); now left|].
  exists (J [Some 0; Some 1]%Z), (J [Some 1; Some 1]%Z), (J [Some 2; Some 1]%Z). split; [apply (HV [Some 0; Some 1]%Z); right; now left|]. split; [apply (HV [Some 1; Some 1]%Z); right; right; now left|]. split; [apply (HV [Some 2; Some 1]%Z); right; right; right; now left|]. rewrite HJ. ring.
Qed.
