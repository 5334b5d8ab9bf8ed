(** Property C142: a missing answer counts as the average over the possible answers. *)
From Coq Require Import Lra.
From Verif Require T_Est.
From Verif Require Import Base BaseFacts RBase RFacts M_Data M_Logit M_Lik M_Est M_Opt M_Jml P_Logit P_Est2 P_Suff1 P_Suff3 P_True1 P_Sym3 P_Miss S_Logit S_Lik S_Est S_Opt S_Suff S_Miss.
Import List.
Local Open Scope R_scope.

Lemma fulls_total m p row fill t : library_model m p -> legal_row (em_cats m) row -> rsum (map (likelihood p t) (completions (em_cats m) fill row)) = likelihood p t row.
Proof. intros Hm [HL _]. apply completions_total; [exact HL|]. intros i Hi. now apply (library_total m p). Qed.
Lemma fulls_likelihood m p row fill t full : library_model m p -> legal_row (em_cats m) row -> In full (completions (em_cats m) fill row) -> 0 < likelihood p t full.
Proof. intros Hm HL HI. apply (library_likelihood m p); [exact Hm|]. now apply completions_legal with fill row. Qed.

(** A respondent's part of the loss: the probability [exp (- loss)] with answers missing is the sum of the probabilities over all ways to
    fill in any of them, in the marginal loss and, at any given latent scores, in the joint loss. *)
Theorem C142_losses : forall m p points weights theta row fill,
  library_model m p -> points <> [] -> length weights = length points -> Forall (fun t => length t = em_lv m) points -> Forall (fun w => 0 < w) weights ->
  length theta = em_lv m -> legal_row (em_cats m) row ->
  let marginal r := mml_loss m points (map (fun w => Some (Fin (ln w))) weights) (Wide (em_items m) [r]) in let joint r := jml_loss m (Wide (em_items m) [r]) [theta] in
  exists M J : list cell -> R,
    (forall r, In r (row :: completions (em_cats m) fill row) -> marginal r = Ok (Some (Fin (M r))) /\ joint r = Ok (Some (Fin (J r)))) /\
    exp (- M row) = rsum (map (fun full => exp (- M full)) (completions (em_cats m) fill row)) /\
    exp (- J row) = rsum (map (fun full => exp (- J full)) (completions (em_cats m) fill row)).
Proof.
  intros m p points weights theta row fill Hm Hn HL HF HW Ht Hrow marginal joint.
  assert (LEG : forall r, In r (row :: completions (em_cats m) fill row) -> legal_row (em_cats m) r) by (intros r [<-|H]; [exact Hrow|now apply completions_legal with fill row]).
  assert (POS : forall r, legal_row (em_cats m) r -> 0 < marginal_likelihood p points weights r).
  { intros r Hr. assert (PL : forall t, 0 < likelihood p t r) by (intro t; now apply (library_likelihood m p)). unfold marginal_likelihood. destruct points as [|t ts]; [congruence|]. destruct weights as [|w ws]; [discriminate|]. cbn [zip_with rsum].
    pose proof (Forall_inv HW) as Hw0. cbv beta in Hw0. assert (0 < w * likelihood p t r) by (apply Rmult_lt_0_compat; auto). assert (0 <= rsum (zip_with (fun w t => w * likelihood p t r) ws ts)); [|lra].
    pose proof (Forall_inv_tail HW) as HW'. clear - HW' PL. revert ts. induction ws as [|w ws IH]; intros [|t ts]; cbn [zip_with rsum]; try lra. pose proof (Forall_inv HW') as H. cbv beta in H. pose proof (IH (Forall_inv_tail HW') ts). assert (0 < w * likelihood p t r) by (apply Rmult_lt_0_compat; auto). lra. }
  exists (fun r => - (ln (marginal_likelihood p points weights r) + 0)), (fun r => - (ln (likelihood p theta r) + 0)). split; [|split].
  - intros r Hr. assert (HD : legal_data (em_cats m) [r]) by (constructor; [now apply LEG|constructor]). split.
    + unfold marginal. now rewrite (mml_library m p points weights [r]).
    + unfold joint. now rewrite (jml_library m p [theta] [r] Hm ltac:(now repeat constructor) eq_refl HD).
  - rewrite Rplus_0_r, Ropp_involutive, exp_ln by auto. rewrite (rsum_ext _ (fun full => marginal_likelihood p points weights full)) by (intros full HI; rewrite Rplus_0_r, Ropp_involutive, exp_ln; auto; apply POS, LEG; now right).
    unfold marginal_likelihood. clear - Hm Hrow. revert points. induction weights as [|w ws IH]; intros [|t ts]; cbn [zip_with rsum]; try (symmetry; rewrite (rsum_ext _ (fun _ => 0 * 0)) by (intros; ring); rewrite rsum_scal; ring).
    rewrite (rsum_plus (fun full => w * likelihood p t full) (fun full => rsum (zip_with (fun w t => w * likelihood p t full) ws ts))), <- IH, rsum_scal. now rewrite (fulls_total m p).
  - rewrite Rplus_0_r, Ropp_involutive, exp_ln by (now apply (library_likelihood m p)). rewrite (rsum_ext _ (likelihood p theta)) by (intros full HI; rewrite Rplus_0_r, Ropp_involutive, exp_ln; auto; now apply (fulls_likelihood m p row fill)).
    symmetry. now apply (fulls_total m p).
Qed.
Print Assumptions C142_losses.

(** The EAP scores with answers missing are the average of the EAP scores with the answers filled in, weighted by how probable the model
    finds these answers given the others; so they lie between the lowest and the highest of them. *)
Theorem C142_average : forall mvn m p a points row fill out,
  library_model m p -> (0 < eap_points m points)%nat -> legal_row (em_cats m) row ->
  let fulls := completions (em_cats m) fill row in
  eap_theta_scores mvn m a points (Wide (em_items m) (row :: fulls)) = Ok out ->
  exists grid prior (score : nat -> list cell -> R), grid <> [] /\ Forall (fun t => length t = em_lv m) grid /\ (forall t, 0 < prior t) /\
    out = map (fun r => map (fun d => Some (Fin (score d r))) (seq 0 (em_lv m))) (row :: fulls) /\
    (forall full, In full fulls -> 0 < predicted p grid prior row full) /\ rsum (map (predicted p grid prior row) fulls) = 1 /\
    forall d, (d < em_lv m)%nat -> score d row = rsum (map (fun full => predicted p grid prior row full * score d full) fulls) /\
      forall lo hi, (forall full, In full fulls -> lo <= score d full <= hi) -> lo <= score d row <= hi.
Proof.
  intros mvn m p a points row fill out Hm Hg Hrow fulls E.
  assert (HD : legal_data (em_cats m) (row :: fulls)). { constructor; [exact Hrow|]. apply Forall_forall. intros full HI. now apply completions_legal with fill row. }
  destruct (eap_rows mvn m p a points (row :: fulls) out Hm HD ltac:(discriminate) Hg E) as (grid & prior & Hgne & HF & Hp & -> & _).
  assert (H1 : forall t, In t grid -> 0 < likelihood p t row) by (intros t _; now apply (library_likelihood m p)).
  assert (H2 : forall t full, In t grid -> In full fulls -> 0 < likelihood p t full) by (intros t full _; now apply (fulls_likelihood m p row fill)).
  assert (H3 : forall t, In t grid -> rsum (map (likelihood p t) fulls) = likelihood p t row) by (intros t _; now apply (fulls_total m p)).
  assert (P1 : forall full, In full fulls -> 0 < predicted p grid prior row full) by (intros full HI; eapply predicted_positive; eauto).
  assert (P2 : rsum (map (predicted p grid prior row) fulls) = 1) by (eapply predicted_total; eauto).
  exists grid, prior, (fun d r => posterior_mean p grid prior r d). repeat (split; [assumption|]). split; [reflexivity|]. repeat (split; [assumption|]).
  intros d _. assert (AV : posterior_mean p grid prior row d = rsum (map (fun full => predicted p grid prior row full * posterior_mean p grid prior full d) fulls)) by (eapply average; eauto). split; [exact AV|]. intros lo hi HB. rewrite AV. now apply weighted_between.
Qed.
Print Assumptions C142_average.

(** A respondent with one of two answers missing. *)
Example C142_nonvacuous : library_model T_Est.ex_model (opl_p T_Est.ex_opl) /\ legal_row (em_cats T_Est.ex_model) [None; Some 1%Z] /\
  completions (em_cats T_Est.ex_model) [true; true] [None; Some 1%Z] = [[Some 0; Some 1]; [Some 1; Some 1]]%Z /\
  completions [2; 3]%nat [true; true] [None; Some (-1)%Z] = [[Some 0; Some 0]; [Some 0; Some 1]; [Some 0; Some 2]; [Some 1; Some 0]; [Some 1; Some 1]; [Some 1; Some 2]]%Z /\
  completions [2; 3]%nat [false; true] [None; None] = [[None; Some 0]; [None; Some 1]; [None; Some 2]]%Z /\
  forall mvn logpdf, mvn (map (map Some) (identity 1)) = Ok logpdf ->
    exists y y0 y1, eap_theta_scores mvn T_Est.ex_model no_algorithm (Some 3%nat) (Wide 2 [[None; Some 1]; [Some 0; Some 1]; [Some 1; Some 1]]%Z) = Ok [[Some (Fin y)]; [Some (Fin y0)]; [Some (Fin y1)]] /\
      exists c, 0 < c < 1 /\ y = (1 - c) * y0 + c * y1.
Proof.
  assert (L : legal_row (em_cats T_Est.ex_model) [None; Some 1%Z]) by (pose proof T_Est.ex_resp_legal as H; exact (Forall_inv (Forall_inv_tail H))).
  split; [exact T_Est.ex_library|]. split; [exact L|]. split; [reflexivity|]. split; [reflexivity|]. split; [reflexivity|]. intros mvn logpdf Hmvn.
  assert (HD : legal_data (em_cats T_Est.ex_model) [[None; Some 1]; [Some 0; Some 1]; [Some 1; Some 1]]%Z).
  { constructor; [exact L|]. apply Forall_forall. intros full HI. apply (completions_legal (em_cats T_Est.ex_model) [true; true] [None; Some 1%Z]); [exact L|exact HI]. }
  destruct (T_Est.unfitted_grid mvn T_Est.ex_model (opl_p T_Est.ex_opl) logpdf (Some 3%nat) [[None; Some 1]; [Some 0; Some 1]; [Some 1; Some 1]]%Z T_Est.ex_library ltac:(cbn; lia) Hmvn ltac:(cbn; lia) ltac:(discriminate) HD) as (grid & _ & E).
  destruct (C142_average mvn T_Est.ex_model (opl_p T_Est.ex_opl) no_algorithm (Some 3%nat) [None; Some 1%Z] [true; true] _ T_Est.ex_library ltac:(cbn; lia) L E) as (grid' & prior & score & _ & _ & _ & EO & P1 & P2 & HA).
  change (em_items T_Est.ex_model) with 2%nat in E. rewrite E. change (em_lv T_Est.ex_model) with 1%nat in *. cbn [seq map] in EO |- *. cbn in EO, P1, P2, HA.
  destruct (HA O ltac:(lia)) as [EA _]. set (row := [None; Some 1%Z]) in *. set (f0 := [Some 0%Z; Some 1%Z]) in *. set (f1 := [Some 1%Z; Some 1%Z]) in *.
  exists (score O row), (score O f0), (score O f1). split; [now rewrite <- EO|]. exists (predicted (opl_p T_Est.ex_opl) grid' prior row f1). pose proof (P1 f0 ltac:(now left)). pose proof (P1 f1 ltac:(right; now left)). split; [lra|]. rewrite EA. replace (predicted (opl_p T_Est.ex_opl) grid' prior row f0) with (1 - predicted (opl_p T_Est.ex_opl) grid' prior row f1) by lra. ring.
Qed.
