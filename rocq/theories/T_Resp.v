(** Property C148: respondents contribute separately, in every model. *)
From Coq Require Import Lra.
From Verif Require T_Flex T_Nl T_MissF T_Betw.
From Verif Require Import Base BaseFacts RBase RFacts M_Data M_Logit M_Lik M_Est M_Opt M_Jml M_Nl P_Logit P_Est1 P_Est2 P_Est3 S_Logit S_Lik S_Est S_Eap S_Flex S_Nl S_Betw.
Import List.
Local Open Scope R_scope.

Lemma sumn_over_app {A B} (f : A -> B -> R) (x : A) (y : B) l1 l2 k1 k2 : length l1 = length k1 -> length l2 = length k2 ->
  sumn (length (k1 ++ k2)) (fun n => f (nth n (l1 ++ l2) x) (nth n (k1 ++ k2) y)) = sumn (length k1) (fun n => f (nth n l1 x) (nth n k1 y)) + sumn (length k2) (fun n => f (nth n l2 x) (nth n k2 y)).
Proof.
  revert k1. induction l1 as [|a l1 IH]; intros [|b k1] H1 H2; try discriminate; [cbn; lra|]. cbn [app length]. rewrite !sumn_S_first. cbn [nth]. rewrite IH by (auto; cbn in H1; lia). ring.
Qed.
Lemma rsum_over_app {A} (f : A -> R) l1 l2 : rsum (map f (l1 ++ l2)) = rsum (map f l1) + rsum (map f l2).
Proof. induction l1 as [|a l1 IH]; cbn [app map rsum]; [ring|rewrite IH; ring]. Qed.
Lemma mean_between (w f : list R -> R) lo hi grid : grid <> [] -> (forall t, In t grid -> 0 < w t /\ lo <= f t <= hi) -> lo <= rsum (map (fun t => f t * w t) grid) / rsum (map w grid) <= hi.
Proof.
  intros Hne H. assert (X : 0 < rsum (map w grid) /\ lo * rsum (map w grid) <= rsum (map (fun t => f t * w t) grid) <= hi * rsum (map w grid)).
  { induction grid as [|t grid IH]; [congruence|]. destruct (H t (or_introl eq_refl)) as [W [A B]]. cbn [map rsum]. assert (lo * w t <= f t * w t) by (apply Rmult_le_compat_r; lra). assert (f t * w t <= hi * w t) by (apply Rmult_le_compat_r; lra).
    destruct grid as [|u us]; [cbn; lra|]. specialize (IH ltac:(discriminate) (fun v Hv => H v (or_intror Hv))). lra. }
  destruct X as [P [A B]]. split; [apply Rmult_le_reg_r with (rsum (map w grid))|apply Rmult_le_reg_r with (rsum (map w grid))]; try exact P; unfold Rdiv; rewrite Rmult_assoc, Rinv_l by lra; lra.
Qed.
Lemma point_between lo hi g j : lo <= hi -> (j < g)%nat -> lo - (hi - lo) / 4 <= eap_point lo hi g j <= hi + (hi - lo) / 4.
Proof.
  intros H Hj. unfold eap_point. assert (X : 0 <= INR j * ((hi - lo) * (3 / 2) / INR (g - 1)) <= (hi - lo) * (3 / 2)); [|lra]. destruct (Nat.eq_dec j 0) as [->|Hj0]; [cbn; lra|].
  assert (P : 0 < INR (g - 1)) by (apply lt_0_INR; lia). assert (Q : INR j <= INR (g - 1)) by (apply le_INR; lia). pose proof (pos_INR j).
  assert (E : INR j * ((hi - lo) * (3 / 2) / INR (g - 1)) = (INR j / INR (g - 1)) * ((hi - lo) * (3 / 2))) by (field; lra). rewrite E.
  assert (B : 0 <= INR j / INR (g - 1) <= 1). { split; [unfold Rdiv; apply Rmult_le_pos; [lra|left; now apply Rinv_0_lt_compat]|]. apply Rmult_le_reg_r with (INR (g - 1)); [exact P|]. unfold Rdiv. rewrite Rmult_assoc, Rinv_l by lra. lra. }
  split; [apply Rmult_le_pos; lra|]. rewrite <- (Rmult_1_l ((hi - lo) * (3 / 2))) at 2. apply Rmult_le_compat_r; lra.
Qed.

(** ** C148 *)
(** The losses of two groups of respondents add up to the loss of all of them. *)
Theorem C148_losses : forall m p points weights thetas1 thetas2 data1 data2 lp, estimated_by m p -> points <> [] -> data1 <> [] -> data2 <> [] -> length weights = length points ->
  Forall (fun t => length t = em_lv m) points -> Forall (fun w => 0 < w) weights -> Forall (fun t => length t = em_lv m) (thetas1 ++ thetas2) -> length thetas1 = length data1 -> length thetas2 = length data2 ->
  legal_data (em_cats m) (data1 ++ data2) ->
  let marginal d := mml_loss m points (map (fun w => Some (Fin (ln w))) weights) (Wide (em_items m) d) in let joint d t := jml_loss m (Wide (em_items m) d) t in let map_loss d t := scoring_loss m (Some lp) (Wide (em_items m) d) t in
  exists L1 L2 J1 J2 P1 P2,
    marginal data1 = Ok (Some (Fin L1)) /\ marginal data2 = Ok (Some (Fin L2)) /\ marginal (data1 ++ data2) = Ok (Some (Fin (L1 + L2))) /\
    joint data1 thetas1 = Ok (Some (Fin J1)) /\ joint data2 thetas2 = Ok (Some (Fin J2)) /\ joint (data1 ++ data2) (thetas1 ++ thetas2) = Ok (Some (Fin (J1 + J2))) /\
    map_loss data1 thetas1 = Ok (Some (Fin P1)) /\ map_loss data2 thetas2 = Ok (Some (Fin P2)) /\ map_loss (data1 ++ data2) (thetas1 ++ thetas2) = Ok (Some (Fin (P1 + P2))).
Proof.
  intros m p points ws th1 th2 d1 d2 lp [HD (S1 & S2 & _)] Hp H1 H2 HL HF HW HT HL1 HL2 HG marginal joint map_loss.
  assert (HG1 : legal_data (em_cats m) d1) by (unfold legal_data in *; apply Forall_app in HG; tauto). assert (HG2 : legal_data (em_cats m) d2) by (unfold legal_data in *; apply Forall_app in HG; tauto).
  apply Forall_app in HT as [HT1 HT2]. assert (H12 : d1 ++ d2 <> []) by (destruct d1; [congruence|discriminate]).
  assert (HT' : Forall (fun t => length t = em_lv m) (th1 ++ th2)) by (apply Forall_app; auto). assert (HL' : length (th1 ++ th2) = length (d1 ++ d2)) by (rewrite !app_length; lia).
  destruct (S2 th1 d1 H1 HT1 HL1 HG1) as [A1 B1]. destruct (S2 th2 d2 H2 HT2 HL2 HG2) as [A2 B2]. destruct (S2 (th1 ++ th2) (d1 ++ d2) H12 HT' HL' HG) as [A3 B3].
  do 6 eexists. split; [now apply S1|]. split; [now apply S1|]. split; [unfold marginal; rewrite S1 by assumption; rewrite rsum_over_app; do 3 f_equal; ring|].
  split; [exact A1|]. split; [exact A2|]. split; [unfold joint; rewrite A3; rewrite (sumn_over_app (fun t r => ln (likelihood p t r)) [] [] th1 th2 d1 d2) by assumption; do 3 f_equal; ring|].
  split; [apply B1|]. split; [apply B2|]. unfold map_loss. rewrite B3. rewrite (sumn_over_app (fun t r => ln (likelihood p t r) + lp t) [] [] th1 th2 d1 d2) by assumption. do 3 f_equal. ring.
Qed.
Print Assumptions C148_losses.
(** After a fit, EAP scores are given respondent by respondent, whoever else is scored, and leave the range of the scores of the fit by at most a quarter of its width. *)
Theorem C148_scores : forall mvn m p a scores logpdf points, estimated_by m p -> (em_lv m <= 4)%nat -> al_training a = Some (Some scores) -> scores <> [] -> mvn (covariance (em_lv m) scores) = Ok logpdf ->
  (0 < match points with Some g => g | None => usual_points (em_lv m) end)%nat ->
  exists score : list cell -> nat -> R,
    (forall data, data <> [] -> legal_data (em_cats m) data -> eap_theta_scores mvn m a points (Wide (em_items m) data) = Ok (map (fun row => map (fun d => Some (Fin (score row d))) (seq 0 (em_lv m))) data)) /\
    forall row d lo hi, legal_row (em_cats m) row -> (d < em_lv m)%nat -> ranges scores d lo hi -> lo - (hi - lo) / 4 <= score row d <= hi + (hi - lo) / 4.
Proof.
  intros mvn m p a scores logpdf points [HD (_ & _ & S3 & _)] Hlv Ha Hs Hm Hg. destruct (S3 mvn a scores logpdf points Hlv Ha Hs Hm Hg) as (grid & [HL HG] & E).
  set (g := match points with Some g => g | None => usual_points (em_lv m) end) in *.
  assert (Hne : grid <> []) by (intros ->; cbn [length] in HL; symmetry in HL; apply Nat.pow_eq_0_iff in HL; lia).
  eexists (fun row d => rsum (map (fun t => nth d t 0 * (exp (logpdf t) * likelihood p t row)) grid) / rsum (map (fun t => exp (logpdf t) * likelihood p t row) grid)). split; [exact E|].
  intros row d lo hi Hrow Hd HR. apply (mean_between (fun t => exp (logpdf t) * likelihood p t row) (fun t => nth d t 0)); [exact Hne|]. intros t Ht.
  destruct (T_MissF.ranges_exist scores Hs) as (lo' & hi' & HR').
  set (lo2 := fun e => if (e =? d)%nat then lo else lo' e). set (hi2 := fun e => if (e =? d)%nat then hi else hi' e).
  assert (HR2 : forall e, (e < em_lv m)%nat -> ranges scores e (lo2 e) (hi2 e)) by (intros e _; unfold lo2, hi2; destruct (Nat.eqb_spec e d) as [->|]; auto).
  destruct (proj1 (HG lo2 hi2 HR2 t) Ht) as [Ht1 Ht2]. split; [apply Rmult_lt_0_compat; [apply exp_pos|now apply (T_Flex.likelihood_positive _ _ _ _ _ HD Ht1)]|].
  destruct (Ht2 d Hd) as (j & Hj & ->). unfold lo2, hi2. rewrite Nat.eqb_refl. apply point_between; [|exact Hj]. destruct HR as (B & (u & Hu & _) & _). specialize (B u Hu). lra.
Qed.
Print Assumptions C148_scores.
(** Before any fit too, EAP scores are given respondent by respondent; they lie between -3 and 3. *)
Theorem C148_unfitted : forall mvn m p logpdf points, estimated_by m p -> (em_lv m <= 4)%nat -> mvn (map (map Some) (identity (em_lv m))) = Ok logpdf ->
  (0 < match points with Some g => g | None => usual_points (em_lv m) end)%nat ->
  exists score : list cell -> nat -> R,
    (forall data, data <> [] -> legal_data (em_cats m) data -> eap_theta_scores mvn m no_algorithm points (Wide (em_items m) data) = Ok (map (fun row => map (fun d => Some (Fin (score row d))) (seq 0 (em_lv m))) data)) /\
    forall row d, legal_row (em_cats m) row -> (d < em_lv m)%nat -> -3 <= score row d <= 3.
Proof.
  intros mvn m p logpdf points [HD (_ & _ & _ & S4)] Hlv Hm Hg. destruct (S4 mvn logpdf points Hlv Hm Hg) as (grid & [HL HG] & E).
  set (g := match points with Some g => g | None => usual_points (em_lv m) end) in *.
  assert (Hne : grid <> []) by (intros ->; cbn [length] in HL; symmetry in HL; apply Nat.pow_eq_0_iff in HL; lia).
  eexists (fun row d => rsum (map (fun t => nth d t 0 * (exp (logpdf t) * likelihood p t row)) grid) / rsum (map (fun t => exp (logpdf t) * likelihood p t row) grid)). split; [exact E|].
  intros row d Hrow Hd. apply (mean_between (fun t => exp (logpdf t) * likelihood p t row) (fun t => nth d t 0)); [exact Hne|]. intros t Ht.
  destruct (proj1 (HG t) Ht) as [Ht1 Ht2]. split; [apply Rmult_lt_0_compat; [apply exp_pos|now apply (T_Flex.likelihood_positive _ _ _ _ _ HD Ht1)]|].
  destruct (Ht2 d Hd) as (j & Hj & ->). destruct (Nat.eq_dec j 0) as [->|N]; [cbn [INR]; lra|].
  assert (G : 0 < INR (g - 1)) by (apply lt_0_INR; lia). assert (J : 0 <= INR j <= INR (g - 1)) by (split; [apply pos_INR|apply le_INR; lia]).
  assert (Q : 0 <= INR j * (6 / INR (g - 1)) <= 6); [|lra].
  replace (INR j * (6 / INR (g - 1))) with (6 * (INR j / INR (g - 1))) by (field; lra).
  assert (0 <= INR j / INR (g - 1) <= 1); [|lra]. split; [apply Rmult_le_pos; [lra|left; now apply Rinv_0_lt_compat]|].
  apply (Rmult_le_reg_r (INR (g - 1))); [exact G|]. unfold Rdiv. rewrite Rmult_assoc, Rinv_l; lra.
Qed.
Print Assumptions C148_unfitted.
(** The parametric models need no further hypotheses. *)
Theorem C148_library :
  (forall m p points weights thetas1 thetas2 data1 data2 lp, library_model m p -> points <> [] -> data1 <> [] -> data2 <> [] -> length weights = length points ->
  Forall (fun t => length t = em_lv m) points -> Forall (fun w => 0 < w) weights -> Forall (fun t => length t = em_lv m) (thetas1 ++ thetas2) -> length thetas1 = length data1 -> length thetas2 = length data2 ->
  legal_data (em_cats m) (data1 ++ data2) ->
  let marginal d := mml_loss m points (map (fun w => Some (Fin (ln w))) weights) (Wide (em_items m) d) in let joint d t := jml_loss m (Wide (em_items m) d) t in let map_loss d t := scoring_loss m (Some lp) (Wide (em_items m) d) t in
  exists L1 L2 J1 J2 P1 P2,
    marginal data1 = Ok (Some (Fin L1)) /\ marginal data2 = Ok (Some (Fin L2)) /\ marginal (data1 ++ data2) = Ok (Some (Fin (L1 + L2))) /\
    joint data1 thetas1 = Ok (Some (Fin J1)) /\ joint data2 thetas2 = Ok (Some (Fin J2)) /\ joint (data1 ++ data2) (thetas1 ++ thetas2) = Ok (Some (Fin (J1 + J2))) /\
    map_loss data1 thetas1 = Ok (Some (Fin P1)) /\ map_loss data2 thetas2 = Ok (Some (Fin P2)) /\ map_loss (data1 ++ data2) (thetas1 ++ thetas2) = Ok (Some (Fin (P1 + P2)))) /\
  (forall mvn m p a scores logpdf points, library_model m p -> (em_lv m <= 4)%nat -> al_training a = Some (Some scores) -> scores <> [] -> mvn (covariance (em_lv m) scores) = Ok logpdf ->
  (0 < match points with Some g => g | None => usual_points (em_lv m) end)%nat ->
  exists score : list cell -> nat -> R,
    (forall data, data <> [] -> legal_data (em_cats m) data -> eap_theta_scores mvn m a points (Wide (em_items m) data) = Ok (map (fun row => map (fun d => Some (Fin (score row d))) (seq 0 (em_lv m))) data)) /\
    forall row d lo hi, legal_row (em_cats m) row -> (d < em_lv m)%nat -> ranges scores d lo hi -> lo - (hi - lo) / 4 <= score row d <= hi + (hi - lo) / 4) /\
  (forall mvn m p logpdf points, library_model m p -> (em_lv m <= 4)%nat -> mvn (map (map Some) (identity (em_lv m))) = Ok logpdf ->
  (0 < match points with Some g => g | None => usual_points (em_lv m) end)%nat ->
  exists score : list cell -> nat -> R,
    (forall data, data <> [] -> legal_data (em_cats m) data -> eap_theta_scores mvn m no_algorithm points (Wide (em_items m) data) = Ok (map (fun row => map (fun d => Some (Fin (score row d))) (seq 0 (em_lv m))) data)) /\
    forall row d, legal_row (em_cats m) row -> (d < em_lv m)%nat -> -3 <= score row d <= 3).
Proof.
  split; [|split].
  - intros; eapply C148_losses; eauto using T_Betw.C147_library.
  - intros; eapply C148_scores; eauto using T_Betw.C147_library.
  - intros; eapply C148_unfitted; eauto using T_Betw.C147_library.
Qed.
Print Assumptions C148_library.
(** The nested test of C146, estimated marginally. *)
Example C148_nonvacuous : exists m p, m = nl_model (-1) 2 [4;3]%nat [2;0]%nat (fun thetas => Ok (tpl_probabilities T_Nl.nl_right thetas)) (nominal_wrong T_Nl.nl_wrong) /\ estimated_by m p /\
  legal_data (em_cats m) ([nth 0 T_Nl.nl_answers []] ++ [nth 1 T_Nl.nl_answers []]) /\ nth 0 T_Nl.nl_answers [] <> nth 1 T_Nl.nl_answers [] /\ (em_lv m <= 4)%nat /\ ranges [[0;2];[1;-1]] 1 (-1) 2.
Proof.
  destruct T_Betw.C147_nonvacuous as (m & p & data' & -> & HE & HG & _). do 2 eexists. split; [reflexivity|]. split; [exact HE|]. split; [exact HG|]. split; [discriminate|]. split; [cbn; lia|].
  split; [intros t [<-|[<-|[]]]; cbn; lra|]. split; [exists [1;-1]|exists [0;2]]; cbn; auto.
Qed.
