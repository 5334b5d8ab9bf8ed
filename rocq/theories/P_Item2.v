(** Losses of joint and marginal maximum likelihood as functions of the item parameters. *)
From Verif Require T_Est.
From Verif Require Import Base BaseFacts RBase RFacts M_Data M_Logit M_Lik M_Est M_Opt M_Jml P_Logit P_Logit2 P_Lik5 P_Est2 P_Info2 P_Spline4 P_Opt1 P_Opt2 P_Opt3 P_Opt4 P_Max3 P_Suff1 P_Scoreq P_Item1 S_Logit S_Lik S_Est S_Opt S_Suff S_Scoreq S_Item.
Import List.
Local Open Scope R_scope.

Section FAMILY.
Variable F : family.
Hypothesis HF : parametric F.
Let n := f_params F.
Definition likelihood_in (t : list R) (row : list cell) (v : list R) : R := likelihood (f_p F v) t row.
Lemma family_concave t : length t = f_lv F -> log_concave n (f_cats F) (fun v i k => f_p F v t i k) /\ forall v i k, length v = n -> (k < nth i (f_cats F) O)%nat -> 0 < f_p F v t i k.
Proof using HF.
  intro Lt. destruct (family_soft F HF) as (off & E). split.
  - exact (softs_concave _ _ _ _ _ (E t Lt)).
  - intros v i k Lv Hk. exact (softs_pos _ _ _ _ _ v i k (E t Lt) Lv Hk).
Qed.
Lemma family_likelihood_pos t row v : length t = f_lv F -> length v = n -> legal_row (f_cats F) row -> 0 < likelihood_in t row v.
Proof using HF.
  intros Lt Lv HL. destruct (family_library F v HF Lv) as (Hm & EC & EL). unfold likelihood_in. apply (library_likelihood (f_model F v)); [exact Hm|now rewrite EC].
Qed.
Lemma family_touches t row v : length t = f_lv F -> length v = n -> legal_row (f_cats F) row ->
  touches n (fun v => ln (likelihood_in t row v)) v (same_observed (f_cats F) (fun v i k => f_p F v t i k) row v).
Proof using HF. intros Lt Lv HL. destruct (family_concave t Lt) as [HC HP]. exact (likelihood_touches n (f_cats F) (fun v i k => f_p F v t i k) row v HP HC Lv HL). Qed.
Definition effect_at (t : list R) (e i k : nat) : R := f_effect F t e i k.
Definition discrepancy (row : list cell) (t v : list R) (e : nat) : R := observed_effect (effect_at t e) row - expected_effect (effect_at t e) (f_p F v t) (f_cats F) row.
Lemma family_partial t row v e : length t = f_lv F -> length v = n -> legal_row (f_cats F) row -> (e < n)%nat ->
  partial_is (fun v => ln (likelihood_in t row v)) v e (discrepancy row t v e).
Proof using HF.
  intros Lt Lv HL He. destruct (family_soft F HF) as (off & E). pose proof (softs_partial _ _ _ _ _ row v e (E t Lt) HL Lv He) as Q. rewrite total_sumn in Q. exact Q.
Qed.

(** ** Joint maximum likelihood *)
Section JML.
Variables (data : list (list cell)) (thetas : list (list R)).
Hypotheses (HD : legal_data (f_cats F) data) (HL : length thetas = length data) (HT : Forall (fun t => length t = f_lv F) thetas).
Definition joint (v : list R) : R := sumn (length data) (fun r => ln (likelihood_in (nth r thetas []) (nth r data []) v)).
Lemma row_legal r : (r < length data)%nat -> legal_row (f_cats F) (nth r data []) /\ length (nth r thetas []) = f_lv F.
Proof using HD HL HT.
  intro Hr. destruct (some_row data r Hr) as [row Er]. destruct (some_row thetas r ltac:(lia)) as [t Et]. rewrite (nth_error_nth _ _ [] Er), (nth_error_nth _ _ [] Et).
  unfold legal_data in HD. rewrite Forall_forall in HD, HT. split; [apply HD|apply HT]; eapply nth_error_In; eauto.
Qed.
Lemma jml_value v : length v = n -> jml_loss (f_model F v) (Wide (length (f_cats F)) data) thetas = Ok (Some (Fin (- joint v))).
Proof using HF HD HL HT.
  intro Lv. destruct (family_library F v HF Lv) as (Hm & EC & EL).
  pose proof (scoring_loss_value (f_model F v) (f_p F v) None thetas data Hm ltac:(now rewrite EL) HL ltac:(now rewrite EC)) as Q. unfold em_items in Q. rewrite EC in Q.
  change (jml_loss (f_model F v) (Wide (length (f_cats F)) data) thetas) with (scoring_loss (f_model F v) None (Wide (length (f_cats F)) data) thetas). rewrite Q. do 4 f_equal. apply sumn_ext. intros r _. unfold row_target, prior_term. apply Rplus_0_r.
Qed.
Lemma joint_partial v e : length v = n -> (e < n)%nat -> partial_is joint v e (sumn (length data) (fun r => discrepancy (nth r data []) (nth r thetas []) v e)).
Proof using HF HD HL HT.
  intros Lv He. apply (partial_sum (length data) (fun r v => ln (likelihood_in (nth r thetas []) (nth r data []) v))). intros r Hr. destruct (row_legal r Hr) as [H1 H2]. now apply family_partial.
Qed.
Lemma joint_touches v : length v = n -> touches n joint v (fun v' => forall r, (r < length data)%nat -> same_observed (f_cats F) (fun v i k => f_p F v (nth r thetas []) i k) (nth r data []) v v').
Proof using HF HD HL HT.
  intro Lv. unfold joint. assert (G : forall N, (N <= length data)%nat -> touches n (fun v => sumn N (fun r => ln (likelihood_in (nth r thetas []) (nth r data []) v))) v (fun v' => forall r, (r < N)%nat -> same_observed (f_cats F) (fun v i k => f_p F v (nth r thetas []) i k) (nth r data []) v v')).
  { induction N as [|N IH]; intro HN.
    - apply (touches_weaken n _ v (fun _ => True)); [intros v' _ r Hr; lia|]. exact (touches_const n 0 v).
    - cbn [sumn]. destruct (row_legal N ltac:(lia)) as [H1 H2].
      apply (touches_weaken n _ v _ _) with (2 := touches_plus n _ _ v _ _ (IH ltac:(lia)) (family_touches (nth N thetas []) (nth N data []) v H2 Lv H1)).
      intros v' [A B] r Hr. destruct (Nat.eq_dec r N) as [-> |]; [exact B|apply A; lia]. }
  now apply G.
Qed.
Lemma joint_minimum v : length v = n -> (minimum n (fun v => - joint v) v <-> forall e, (e < n)%nat -> sumn (length data) (fun r => discrepancy (nth r data []) (nth r thetas []) v e) = 0).
Proof using HF HD HL HT.
  intro Lv. rewrite <- (stationary_max n joint v _ (fun e => sumn (length data) (fun r => discrepancy (nth r data []) (nth r thetas []) v e)) Lv (joint_touches v Lv)).
  - split; intros H u Lu; specialize (H u Lu); lra.
  - intros e He. now apply joint_partial.
Qed.
Lemma joint_unique v v' : length v = n -> length v' = n -> minimum n (fun v => - joint v) v -> minimum n (fun v => - joint v) v' ->
  forall r, (r < length data)%nat -> same_observed (f_cats F) (fun v i k => f_p F v (nth r thetas []) i k) (nth r data []) v v'.
Proof using HF HD HL HT.
  intros Lv Lv' H1 H2. assert (M1 : maximum n joint v) by (intros u Lu; specialize (H1 u Lu); lra). assert (M2 : maximum n joint v') by (intros u Lu; specialize (H2 u Lu); lra).
  exact (tangent_two_maxima n joint v v' _ Lv Lv' (joint_touches v Lv) M1 M2).
Qed.
End JML.

(** ** Marginal maximum likelihood *)
Section MML.
Variables (data : list (list cell)) (points : list (list R)) (weights : list R).
Hypotheses (HD : legal_data (f_cats F) data) (HP : points <> []) (HL : length weights = length points) (HT : Forall (fun t => length t = f_lv F) points) (HW : Forall (fun w => 0 < w) weights).
Definition marginal_in (row : list cell) (v : list R) : R := sumn (length points) (fun q => nth q weights 0 * likelihood_in (nth q points []) row v).
Lemma marginal_value row v : marginal_likelihood (f_p F v) points weights row = marginal_in row v.
Proof using HL.
  unfold marginal_likelihood, marginal_in. apply rsum_index; [rewrite zip_with_length; lia|]. intros q Hq. destruct (some_row points q Hq) as [t Et]. destruct (some_row weights q ltac:(lia)) as [w Ew].
  rewrite (nth_error_nth _ _ [] Et), (nth_error_nth _ _ 0 Ew). now rewrite nth_error_zip_with, Et, Ew.
Qed.
Lemma point_legal q : (q < length points)%nat -> length (nth q points []) = f_lv F /\ 0 < nth q weights 0.
Proof using HL HT HW.
  intro Hq. destruct (some_row points q Hq) as [t Et]. destruct (some_row weights q ltac:(lia)) as [w Ew]. rewrite (nth_error_nth _ _ [] Et), (nth_error_nth _ _ 0 Ew). rewrite Forall_forall in HT, HW.
  split; [apply HT|apply HW]; eapply nth_error_In; eauto.
Qed.
Lemma marginal_pos row v : length v = n -> legal_row (f_cats F) row -> 0 < marginal_in row v.
Proof using HF HP HL HT HW.
  intros Lv Hr. apply RFacts.sumn_pos; [destruct points; cbn; [congruence|lia]|]. intros q Hq. destruct (point_legal q Hq) as [H1 H2]. apply Rmult_lt_0_compat; [exact H2|now apply family_likelihood_pos].
Qed.
Definition marginal_loss (v : list R) : R := - sumn (length data) (fun r => ln (marginal_in (nth r data []) v)).
Lemma mml_value v : length v = n -> mml_loss (f_model F v) points (map (fun w => Some (Fin (ln w))) weights) (Wide (length (f_cats F)) data) = Ok (Some (Fin (marginal_loss v))).
Proof using HF HD HP HL HT HW.
  intro Lv. destruct (family_library F v HF Lv) as (Hm & EC & EL).
  pose proof (T_Est.C30_marginal_likelihood (f_model F v) (f_p F v) points weights data Hm HP HL ltac:(now rewrite EL) HW ltac:(now rewrite EC)) as Q. unfold em_items in Q. rewrite EC in Q. rewrite Q. unfold marginal_loss. do 4 f_equal.
  rewrite rsum_nth, map_length. apply sumn_ext. intros r Hr. rewrite (nth_indep _ 0 (ln (marginal_in [] v))) by (now rewrite map_length). rewrite <- (marginal_value [] v). unfold marginal_likelihood.
  rewrite (map_nth (fun row => ln (rsum (zip_with (fun w t => w * likelihood (f_p F v) t row) weights points)))). f_equal. rewrite <- marginal_value. reflexivity.
Qed.
Lemma marginal_partial row v e : length v = n -> legal_row (f_cats F) row -> (e < n)%nat ->
  partial_is (fun v => ln (marginal_in row v)) v e (sumn (length points) (fun q => posterior_weight (f_p F v) points weights row q * discrepancy row (nth q points []) v e)).
Proof using HF HP HL HT HW.
  intros Lv Hr He. pose proof (marginal_pos row v Lv Hr) as MP.
  assert (PM : partial_is (marginal_in row) v e (sumn (length points) (fun q => nth q weights 0 * (likelihood_in (nth q points []) row v * discrepancy row (nth q points []) v e)))).
  { apply (partial_sum (length points) (fun q v => nth q weights 0 * likelihood_in (nth q points []) row v)). intros q Hq. destruct (point_legal q Hq) as [Lq _]. unfold partial_is.
    apply (derivable_pt_lim_scal (fun x => likelihood_in (nth q points []) row (upd e x v))).
    pose proof (family_partial (nth q points []) row v e Lq Lv Hr He) as HQ. unfold partial_is in HQ.
    assert (EU : upd e (nth e v 0) v = v).
    { apply nth_error_ext. intro j. destruct (Nat.eq_dec e j) as [<-|Hne]; [|now rewrite nth_error_upd_neq]. rewrite nth_error_upd_eq by (unfold n in *; lia). symmetry. apply nth_error_nth_lt. unfold n in *; lia. }
    pose proof (derivable_pt_lim_comp _ exp _ _ _ HQ (derivable_pt_lim_exp _)) as HC. cbv beta in HC. rewrite EU in HC. rewrite exp_ln in HC by (now apply family_likelihood_pos).
    eapply derivable_ext; [|exact HC]. intro x. unfold comp. apply exp_ln. apply family_likelihood_pos; auto. now rewrite upd_length. }
  unfold partial_is in *.
  assert (EU : upd e (nth e v 0) v = v).
  { apply nth_error_ext. intro j. destruct (Nat.eq_dec e j) as [<-|Hne]; [|now rewrite nth_error_upd_neq]. rewrite nth_error_upd_eq by (unfold n in *; lia). symmetry. apply nth_error_nth_lt. unfold n in *; lia. }
  assert (DL : derivable_pt_lim ln ((fun x => marginal_in row (upd e x v)) (nth e v 0)) (/ marginal_in row v)) by (cbv beta; rewrite EU; now apply derivable_pt_lim_ln).
  pose proof (derivable_pt_lim_comp _ ln _ _ (/ marginal_in row v) PM DL) as HC.
  replace (sumn (length points) (fun q => posterior_weight (f_p F v) points weights row q * discrepancy row (nth q points []) v e))
    with (/ marginal_in row v * sumn (length points) (fun q => nth q weights 0 * (likelihood_in (nth q points []) row v * discrepancy row (nth q points []) v e))); [exact HC|].
  rewrite <- sumn_scal. apply sumn_ext. intros q _. unfold posterior_weight. rewrite marginal_value. unfold likelihood_in. field. lra.
Qed.
Lemma mml_row_legal r : (r < length data)%nat -> legal_row (f_cats F) (nth r data []).
Proof using HD. intro Hr. destruct (some_row data r Hr) as [row Er]. rewrite (nth_error_nth _ _ [] Er). unfold legal_data in HD. rewrite Forall_forall in HD. apply HD. eapply nth_error_In; eauto. Qed.
Lemma marginal_loss_partial v e : length v = n -> (e < n)%nat ->
  partial_is marginal_loss v e (- sumn (length data) (fun r => sumn (length points) (fun q => posterior_weight (f_p F v) points weights (nth r data []) q * discrepancy (nth r data []) (nth q points []) v e))).
Proof using HF HD HP HL HT HW.
  intros Lv He. unfold partial_is, marginal_loss. apply (derivable_pt_lim_opp (fun x => sumn (length data) (fun r => ln (marginal_in (nth r data []) (upd e x v))))).
  apply (partial_sum (length data) (fun r v => ln (marginal_in (nth r data []) v))). intros r Hr. apply marginal_partial; auto. now apply mml_row_legal.
Qed.
Lemma marginal_stationary v : length v = n -> minimum n marginal_loss v -> forall e, (e < n)%nat ->
  sumn (length data) (fun r => sumn (length points) (fun q => posterior_weight (f_p F v) points weights (nth r data []) q * discrepancy (nth r data []) (nth q points []) v e)) = 0.
Proof using HF HD HP HL HT HW.
  intros Lv HM e He. pose proof (marginal_loss_partial v e Lv He) as HQ.
  set (S := sumn _ _) in *. apply (max_partial n (fun v => - marginal_loss v) v e S Lv He); [intros u Lu; specialize (HM u Lu); lra|].
  unfold partial_is in *. replace S with (- - S) by ring. now apply (derivable_pt_lim_opp (fun x => marginal_loss (upd e x v))).
Qed.
Lemma posterior_sum row v : length v = n -> legal_row (f_cats F) row ->
  (forall q, (q < length points)%nat -> 0 < posterior_weight (f_p F v) points weights row q) /\ sumn (length points) (posterior_weight (f_p F v) points weights row) = 1.
Proof using HF HP HL HT HW.
  intros Lv Hr. pose proof (marginal_pos row v Lv Hr) as MP. split.
  - intros q Hq. unfold posterior_weight. rewrite marginal_value. destruct (point_legal q Hq) as [H1 H2]. apply Rdiv_lt_0_compat; [|exact MP]. apply Rmult_lt_0_compat; [exact H2|]. exact (family_likelihood_pos _ _ v H1 Lv Hr).
  - unfold posterior_weight. rewrite sumn_div, marginal_value. change (sumn (length points) (fun q => nth q weights 0 * likelihood (f_p F v) (nth q points []) row)) with (marginal_in row v). field. lra.
Qed.
End MML.
End FAMILY.

(** ** Lowest loss *)
Lemma lowest_minimum F loss L v : length v = f_params F -> (forall v, length v = f_params F -> loss (f_model F v) = Ok (Some (Fin (L v)))) -> (lowest_loss F loss v <-> minimum (f_params F) L v).
Proof.
  intros Lv HE. split.
  - intros (x & E & H) v' Lv'. destruct (H v' Lv') as (x' & E' & Hx). rewrite HE in E, E' by assumption. injection E as <-. injection E' as <-. exact Hx.
  - intro H. exists (L v). split; [now apply HE|]. intros v' Lv'. exists (L v'). split; [now apply HE|now apply H].
Qed.
