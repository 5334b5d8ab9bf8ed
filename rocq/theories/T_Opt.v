(** Property C104: scores by maximum likelihood and maximum a posteriori. *)
From Verif Require Import Base BaseFacts RBase RFacts M_Data M_Logit M_Lik M_Est P_Logit P_Spline4 P_Est1 P_Est2 M_Opt S_Logit S_Lik S_Est S_Opt P_Opt1 P_Opt2 P_Opt3 P_Opt4 P_Opt5.
Import List.
Local Open Scope R_scope.

(** What is minimised is minus the log-likelihood of all the observed answers, missing ones leaving no trace, plus for
    MAP minus the log prior density of every respondent. *)
Theorem C104_loss : forall m p prior thetas data,
  library_model m p -> Forall (fun t => length t = em_lv m) thetas -> length thetas = length data -> legal_data (em_cats m) data ->
  scoring_loss m prior (Wide (em_items m) data) thetas =
    Ok (Some (Fin (- rsum (zip_with (fun row t => ln (likelihood p t row) + match prior with None => 0 | Some lp => lp t end) data thetas)))).
Proof.
  intros m p prior thetas data Hm HF HL HD. rewrite (scoring_loss_value m p) by assumption. do 4 f_equal. clear HD. rewrite rsum_nth, zip_with_length, HL, Nat.min_id. apply sumn_ext. intros n Hn.
  destruct (nth_error data n) as [row|] eqn:E1; [|apply nth_error_None in E1; lia]. destruct (nth_error thetas n) as [t|] eqn:E2; [|apply nth_error_None in E2; lia].
  rewrite (nth_error_nth _ _ [] E1), (nth_error_nth _ _ [] E2). symmetry. apply nth_error_nth. rewrite nth_error_zip_with, E1, E2. reflexivity.
Qed.
Print Assumptions C104_loss.

(** The five models without guessing: every answer's log-probability is differentiable in the latent variables and lies
    below its tangent planes, touching one again only where the item's probabilities are the same. *)
Theorem C104_tangents :
  (forall m, log_concave 1 (repeat 2%nat (opl_items m)) (opl_p m)) /\
  (forall m, log_concave (tpl_lv m) (repeat 2%nat (tpl_items m)) (tpl_p m)) /\
  (forall m, log_concave (p_lv m) (p_cats m) (gpc_p m)) /\
  (forall m, log_concave (nrm_lv m) (nrm_cats m) (nrm_p m)) /\
  (forall m, decreasing_intercepts m -> log_concave (p_lv m) (p_cats m) (grm_p m)).
Proof. repeat split; [exact opl_log_concave|exact tpl_log_concave|exact gpc_log_concave|exact nrm_log_concave|exact grm_log_concave]. Qed.
Print Assumptions C104_tangents.

Lemma ln_le_iff a b : 0 < a -> 0 < b -> (ln a <= ln b <-> a <= b).
Proof. intros Ha Hb. split; intro H; destruct (Rle_lt_dec a b) as [|Hl]; try assumption. 1: pose proof (ln_increasing b a Hb Hl); lra. 1:{ destruct (Req_dec a b) as [->|]; [lra|]. pose proof (ln_increasing a b Ha); lra. } lra. Qed.

(** Scores with a vanishing gradient are exactly the ones of least loss, and these are exactly the ones where every
    respondent's own answers are most likely; two such sets of scores give the answered items the same probabilities. *)
Theorem C104_ml : forall m p data,
  library_model m p -> log_concave (em_lv m) (em_cats m) p -> legal_data (em_cats m) data ->
  exists L : list (list R) -> R,
    (forall thetas, rect (length data) (em_lv m) thetas -> scoring_loss m None (Wide (em_items m) data) thetas = Ok (Some (Fin (L thetas)))) /\
    forall thetas, rect (length data) (em_lv m) thetas ->
      ((forall n d, (n < length data)%nat -> (d < em_lv m)%nat -> derivable_pt_lim (fun x => L (set_score n d x thetas)) (nth d (nth n thetas []) 0) 0) <->
       (forall thetas', rect (length data) (em_lv m) thetas' -> L thetas <= L thetas')) /\
      ((forall thetas', rect (length data) (em_lv m) thetas' -> L thetas <= L thetas') <->
       (forall n row t, nth_error data n = Some row -> nth_error thetas n = Some t -> forall t', length t' = em_lv m -> likelihood p t' row <= likelihood p t row)) /\
      (forall thetas', rect (length data) (em_lv m) thetas' ->
        (forall th, rect (length data) (em_lv m) th -> L thetas <= L th) -> (forall th, rect (length data) (em_lv m) th -> L thetas' <= L th) ->
        forall n row t t', nth_error data n = Some row -> nth_error thetas n = Some t -> nth_error thetas' n = Some t' ->
        forall i k, answer (nth i row None) <> None -> (k < nth i (em_cats m) O)%nat -> p t' i k = p t i k).
Proof.
  intros m p data Hm HC HD. set (lv := em_lv m). set (N := length data). set (F := fun n => row_target p None (nth n data [])). exists (fun thetas => - total F N thetas).
  assert (Hrow : forall n row, nth_error data n = Some row -> (n < N)%nat /\ nth n data [] = row /\ legal_row (em_cats m) row).
  { intros n row En. split; [apply nth_error_Some; congruence|]. split; [now apply nth_error_nth|]. unfold legal_data in HD. rewrite Forall_forall in HD. apply HD. eapply nth_error_In; eauto. }
  assert (Hsome : forall n, (n < N)%nat -> exists row, nth_error data n = Some row) by (intros n Hn; destruct (nth_error data n) eqn:E; [eauto|apply nth_error_None in E; unfold N in Hn; lia]).
  assert (Hpos : forall t i k, length t = lv -> (k < nth i (em_cats m) O)%nat -> 0 < p t i k) by (intros; now apply (library_pos m p Hm)).
  assert (HT : forall n t row, nth_error data n = Some row -> length t = lv -> touches lv (F n) t (same_observed (em_cats m) p row t)).
  { intros n t row En Ht. destruct (Hrow n row En) as (Hn & E & HL). apply (touches_ext lv (fun t => ln (likelihood p t row))); [exact Ht| |now apply likelihood_touches].
    intros s _. unfold F, row_target, prior_term. rewrite E. ring. }
  assert (Hbest : forall thetas, shaped lv N thetas -> ((forall thetas', rect N lv thetas' -> - total F N thetas <= - total F N thetas') <-> forall n, (n < N)%nat -> maximum lv (F n) (nth n thetas []))).
  { intros thetas Hth. rewrite <- (total_best lv F N thetas Hth). split; intros H th' Hth'; specialize (H th' Hth'); lra. }
  split; [intros thetas [HL HF]; rewrite (scoring_loss_value m p) by assumption; reflexivity|]. intros thetas Hth. split; [|split].
  - rewrite (Hbest thetas Hth). split.
    + intros H n Hn. destruct (Hsome n Hn) as [row En]. apply (tangent_stationary lv (F n) _ _ (shaped_row lv N thetas n Hth Hn) (HT n _ row En (shaped_row lv N thetas n Hth Hn))). intros d Hd.
      apply (total_partial lv F N thetas n d 0 Hth Hn). rewrite Ropp_0. now apply H.
    + intros H n d Hn Hd. destruct (Hsome n Hn) as [row En]. pose proof (proj2 (total_partial lv F N thetas n d 0 Hth Hn)) as Q. rewrite Ropp_0 in Q. apply Q.
      now apply (tangent_stationary lv (F n) _ _ (shaped_row lv N thetas n Hth Hn) (HT n _ row En (shaped_row lv N thetas n Hth Hn))); [apply H|].
  - rewrite (Hbest thetas Hth). split.
    + intros H n row t En Et t' Ht'. destruct (Hrow n row En) as (Hn & E & HL). specialize (H n Hn t' Ht'). pose proof (shaped_row lv N thetas n Hth Hn) as Hlt. rewrite (nth_error_nth _ _ [] Et) in *.
      unfold F, row_target, prior_term in H. rewrite E in H. apply ln_le_iff; [now apply (library_likelihood m p)|now apply (library_likelihood m p)|lra].
    + intros H n Hn t' Ht'. destruct (Hsome n Hn) as [row En]. destruct (Hrow n row En) as (_ & E & HL). destruct (nth_error thetas n) as [t|] eqn:Et; [|apply nth_error_None in Et; destruct Hth; lia].
      pose proof (shaped_row lv N thetas n Hth Hn) as Hlt. rewrite (nth_error_nth _ _ [] Et) in *. unfold F, row_target, prior_term. rewrite E. apply Rplus_le_compat_r. apply ln_le_iff; [now apply (library_likelihood m p)|now apply (library_likelihood m p)|now apply (H n row t)].
  - intros thetas' Hth' M1 M2 n row t t' En Et Et' i k Ho Hk. destruct (Hrow n row En) as (Hn & _ & _). pose proof (proj1 (Hbest thetas Hth) M1 n Hn) as B1. pose proof (proj1 (Hbest thetas' Hth') M2 n Hn) as B2.
    pose proof (shaped_row lv N thetas n Hth Hn) as Hl1. pose proof (shaped_row lv N thetas' n Hth' Hn) as Hl2. rewrite (nth_error_nth _ _ [] Et) in *. rewrite (nth_error_nth _ _ [] Et') in *.
    exact (tangent_two_maxima lv (F n) t t' _ Hl1 Hl2 (HT n t row En Hl1) B1 B2 i k Ho Hk).
Qed.
Print Assumptions C104_ml.

(** With a normal prior of positive definite precision: the same, with at most one table of scores of least loss. *)
Theorem C104_map : forall m p data c P,
  library_model m p -> log_concave (em_lv m) (em_cats m) p -> legal_data (em_cats m) data -> precision (em_lv m) P ->
  exists L : list (list R) -> R,
    (forall thetas, rect (length data) (em_lv m) thetas -> scoring_loss m (Some (normal_prior (em_lv m) c P)) (Wide (em_items m) data) thetas = Ok (Some (Fin (L thetas)))) /\
    forall thetas, rect (length data) (em_lv m) thetas ->
      ((forall n d, (n < length data)%nat -> (d < em_lv m)%nat -> derivable_pt_lim (fun x => L (set_score n d x thetas)) (nth d (nth n thetas []) 0) 0) <->
       (forall thetas', rect (length data) (em_lv m) thetas' -> L thetas <= L thetas')) /\
      ((forall thetas', rect (length data) (em_lv m) thetas' -> L thetas <= L thetas') <->
       (forall n row t, nth_error data n = Some row -> nth_error thetas n = Some t ->
        forall t', length t' = em_lv m -> exp (normal_prior (em_lv m) c P t') * likelihood p t' row <= exp (normal_prior (em_lv m) c P t) * likelihood p t row)) /\
      (forall thetas', rect (length data) (em_lv m) thetas' ->
        (forall th, rect (length data) (em_lv m) th -> L thetas <= L th) -> (forall th, rect (length data) (em_lv m) th -> L thetas' <= L th) -> thetas' = thetas).
Proof.
  intros m p data c P Hm HC HD [HS HPD]. set (lv := em_lv m) in *. set (N := length data). set (prior := normal_prior lv c P). set (F := fun n => row_target p (Some prior) (nth n data [])). exists (fun thetas => - total F N thetas).
  assert (Hrow : forall n row, nth_error data n = Some row -> (n < N)%nat /\ nth n data [] = row /\ legal_row (em_cats m) row).
  { intros n row En. split; [apply nth_error_Some; congruence|]. split; [now apply nth_error_nth|]. unfold legal_data in HD. rewrite Forall_forall in HD. apply HD. eapply nth_error_In; eauto. }
  assert (Hsome : forall n, (n < N)%nat -> exists row, nth_error data n = Some row) by (intros n Hn; destruct (nth_error data n) eqn:E; [eauto|apply nth_error_None in E; unfold N in Hn; lia]).
  assert (Hpos : forall t i k, length t = lv -> (k < nth i (em_cats m) O)%nat -> 0 < p t i k) by (intros; now apply (library_pos m p Hm)).
  assert (HT : forall n t, (n < N)%nat -> length t = lv -> touches lv (F n) t (fun t' => length t' = lv -> t' = t)).
  { intros n t Hn Ht. destruct (Hsome n Hn) as [row En]. destruct (Hrow n row En) as (_ & E & HL). apply (touches_weaken lv _ t (fun t' => same_observed (em_cats m) p row t t' /\ (length t' = lv -> t' = t))); [intros t' [_ H]; exact H|].
    apply (touches_ext lv (fun t => ln (likelihood p t row) + prior t)); [exact Ht|intros s _; unfold F, row_target, prior_term; now rewrite E|].
    apply touches_plus; [now apply likelihood_touches|now apply prior_touches]. }
  assert (Hbest : forall thetas, shaped lv N thetas -> ((forall thetas', rect N lv thetas' -> - total F N thetas <= - total F N thetas') <-> forall n, (n < N)%nat -> maximum lv (F n) (nth n thetas []))).
  { intros thetas Hth. rewrite <- (total_best lv F N thetas Hth). split; intros H th' Hth'; specialize (H th' Hth'); lra. }
  assert (HE : forall n row t, nth_error data n = Some row -> length t = lv -> F n t = ln (exp (prior t) * likelihood p t row) /\ 0 < exp (prior t) * likelihood p t row).
  { intros n row t En Ht. destruct (Hrow n row En) as (_ & E & HL). pose proof (library_likelihood m p t row Hm HL) as Hl. pose proof (exp_pos (prior t)). split; [|now apply Rmult_lt_0_compat].
    rewrite ln_mult, ln_exp by assumption. unfold F, row_target, prior_term. rewrite E. ring. }
  split; [intros thetas [HL HF]; rewrite (scoring_loss_value m p) by assumption; reflexivity|]. intros thetas Hth. split; [|split].
  - rewrite (Hbest thetas Hth). split.
    + intros H n Hn. apply (tangent_stationary lv (F n) _ _ (shaped_row lv N thetas n Hth Hn) (HT n _ Hn (shaped_row lv N thetas n Hth Hn))). intros d Hd.
      apply (total_partial lv F N thetas n d 0 Hth Hn). rewrite Ropp_0. now apply H.
    + intros H n d Hn Hd. pose proof (proj2 (total_partial lv F N thetas n d 0 Hth Hn)) as Q. rewrite Ropp_0 in Q. apply Q.
      now apply (tangent_stationary lv (F n) _ _ (shaped_row lv N thetas n Hth Hn) (HT n _ Hn (shaped_row lv N thetas n Hth Hn))); [apply H|].
  - rewrite (Hbest thetas Hth). split.
    + intros H n row t En Et t' Ht'. destruct (Hrow n row En) as (Hn & _). specialize (H n Hn t' Ht'). pose proof (shaped_row lv N thetas n Hth Hn) as Hlt. rewrite (nth_error_nth _ _ [] Et) in *.
      destruct (HE n row t' En Ht') as [E1 P1]. destruct (HE n row t En Hlt) as [E2 P2]. rewrite E1, E2 in H. now apply ln_le_iff.
    + intros H n Hn t' Ht'. destruct (Hsome n Hn) as [row En]. destruct (nth_error thetas n) as [t|] eqn:Et; [|apply nth_error_None in Et; destruct Hth; lia].
      pose proof (shaped_row lv N thetas n Hth Hn) as Hlt. rewrite (nth_error_nth _ _ [] Et) in *. destruct (HE n row t' En Ht') as [E1 P1]. destruct (HE n row t En Hlt) as [E2 P2]. rewrite E1, E2. apply ln_le_iff; [exact P1|exact P2|now apply (H n row t)].
  - intros thetas' Hth' M1 M2. apply nth_error_ext. intro n. destruct (le_lt_dec N n) as [Hn|Hn]; [rewrite !(proj2 (nth_error_None _ _)); [reflexivity|destruct Hth; lia|destruct Hth'; lia]|].
    pose proof (proj1 (Hbest thetas Hth) M1 n Hn) as B1. pose proof (proj1 (Hbest thetas' Hth') M2 n Hn) as B2. pose proof (shaped_row lv N thetas n Hth Hn) as Hl1. pose proof (shaped_row lv N thetas' n Hth' Hn) as Hl2.
    pose proof (tangent_two_maxima lv (F n) _ _ _ Hl1 Hl2 (HT n _ Hn Hl1) B1 B2 Hl2) as E. rewrite (nth_error_nth_lt thetas n []) by (destruct Hth; lia). rewrite (nth_error_nth_lt thetas' n []) by (destruct Hth'; lia). now rewrite E.
Qed.
Print Assumptions C104_map.

(** With guessing a vanishing gradient does not show that the answers are most likely there. *)
Theorem C104_guessing_refuted : exists m p row t,
  library_model m p /\ legal_row (em_cats m) row /\ length t = em_lv m /\
  (forall d, (d < em_lv m)%nat -> partial_is (fun t => ln (likelihood p t row)) t d 0) /\
  exists t', length t' = em_lv m /\ likelihood p t row < likelihood p t' row.
Proof.
  destruct guess3_stationary as (x & HP & Hlt). exists (of_sub (thpl_sub 0 guess3)), (thpl_p guess3), guess3_row, [x]. split; [|split; [|split; [|split]]].
  - apply lib_thpl; [|unfold thpl_items; cbn; lia]. repeat split; cbn; try lia. repeat constructor.
  - split; [reflexivity|]. intros i c Hc. right. right. destruct i as [|[|i]]; cbn in Hc; [exists 1%nat|exists 0%nat|destruct i; discriminate]; (split; [now injection Hc as <-|cbn; lia]).
  - reflexivity.
  - intros d Hd. cbn in Hd. replace d with 0%nat by lia. exact HP.
  - exists [0]. split; [reflexivity|]. rewrite !guess3_likelihood. exact Hlt.
Qed.
Print Assumptions C104_guessing_refuted.

(** The loop stops after the first step whose loss is within 1e-8 per cell of the loss before, and no earlier; otherwise
    it takes all its steps. *)
Theorem C104_loop : forall (S : Type) (step : S -> S) (loss : S -> R) (numel : nat) (cuda : bool) (s : S),
  let settled k := Rabs (loss (Nat.iter (k + 1) step s) - loss (Nat.iter k step s)) / INR numel < / 10 ^ 8 in
  exists k, (1 <= k <= scoring_iterations cuda)%nat /\ scoring_loop step loss numel (scoring_iterations cuda) None s = Nat.iter k step s /\
    (forall j, (1 <= j)%nat -> (j + 1 < k)%nat -> ~ settled j) /\
    ((2 <= k)%nat /\ settled (k - 1)%nat \/ k = scoring_iterations cuda).
Proof.
  intros S step loss numel cuda s settled.
  assert (G : forall fuel a, (1 <= a)%nat -> exists k, (a <= k <= a + fuel)%nat /\ scoring_loop step loss numel fuel (Some (loss (Nat.iter a step s))) (Nat.iter a step s) = Nat.iter k step s /\
    (forall j, (a <= j)%nat -> (j + 1 < k)%nat -> ~ settled j) /\ ((a + 1 <= k)%nat /\ settled (k - 1)%nat \/ k = (a + fuel)%nat)).
  { induction fuel as [|fuel IH]; intros a Ha.
    - exists a. repeat split; [lia|lia|intros; lia|right; lia].
    - cbn [scoring_loop]. change (step (Nat.iter a step s)) with (Nat.iter (Datatypes.S a) step s). destruct (Rlt_dec _ _) as [H|H].
      + exists (Datatypes.S a). repeat split; [lia|lia|intros; lia|left; split; [lia|]]. unfold settled. replace (Datatypes.S a - 1)%nat with a by lia. now replace (a + 1)%nat with (Datatypes.S a) by lia.
      + destruct (IH (Datatypes.S a) ltac:(lia)) as (k & Hk & E & H1 & H2). exists k. repeat split; [lia|lia|exact E| |].
        * intros j Hj Hjk. destruct (Nat.eq_dec j a) as [->|Hne]; [unfold settled; now replace (a + 1)%nat with (Datatypes.S a) by lia|apply H1; lia].
        * destruct H2 as [[H2 H3]|H2]; [left; split; [lia|exact H3]|right; lia]. }
  assert (E : exists f, scoring_iterations cuda = Datatypes.S f) by (destruct cuda; eexists; reflexivity). destruct E as [f E]. rewrite E. cbn [scoring_loop].
  destruct (G f 1%nat ltac:(lia)) as (k & Hk & E2 & H1 & H2). exists k. repeat split; [lia|lia|exact E2|exact H1|]. destruct H2 as [[H2 H3]|H2]; [left; split; [lia|exact H3]|right; lia].
Qed.
Print Assumptions C104_loop.

(** Two items of the same difficulty, one answered right and one wrong: the middle is most likely. *)
Definition two_items : opl := {| opl_items := 2; opl_b := [0; 0] |}.
Example C104_nonvacuous :
  library_model (of_sub (opl_sub 0 two_items)) (opl_p two_items) /\ log_concave 1 [2%nat; 2%nat] (opl_p two_items) /\
  legal_data [2%nat; 2%nat] [[Some 1%Z; Some 0%Z]; [None; Some (-1)%Z]] /\ precision 1 (fun _ _ => 1) /\
  maximum 1 (fun t => likelihood (opl_p two_items) t [Some 1%Z; Some 0%Z]) [0] /\
  ~ maximum 1 (fun t => likelihood (opl_p two_items) t [Some 1%Z; Some 0%Z]) [1].
Proof.
  assert (V : forall x, likelihood (opl_p two_items) [x] [Some 1%Z; Some 0%Z] = logistic x * (1 - logistic x)) by (intro x; unfold likelihood; cbn [mapi mapi_from rprod]; unfold answer; change (1 =? -1)%Z with false; change (0 =? -1)%Z with false; cbv iota; unfold opl_p, two_items; change (Z.to_nat 1) with 1%nat; change (Z.to_nat 0) with 0%nat; cbn [nth Nat.eqb opl_b]; rewrite !Rplus_0_r; ring).
  assert (L0 : logistic 0 = / 2) by (rewrite logistic_exp, exp_0; lra).
  split; [apply lib_opl; cbn; lia|]. split; [exact (opl_log_concave two_items)|]. split; [|split; [|split]].
  - constructor; [|constructor; [|constructor]]; (split; [reflexivity|]); intros i c Hc; (destruct i as [|[|i]]; cbn in Hc; [| |destruct i; discriminate]); injection Hc as <-; auto; right; right; [exists 1%nat|exists 0%nat]; (split; [reflexivity|cbn; lia]).
  - split; [reflexivity|]. intros x (d & Hd & Hx). unfold quad. cbn [sumn]. replace d with 0%nat in Hx by lia. pose proof (Rsqr_pos_lt _ Hx). unfold Rsqr in *. lra.
  - intros t' Ht'. destruct t' as [|x [|]]; try discriminate. rewrite !V, L0. pose proof (Rle_0_sqr (logistic x - / 2)) as H. unfold Rsqr in H. nra.
  - intro H. specialize (H [0] eq_refl). cbv beta in H. rewrite !V, L0 in H. pose proof (logistic_incr 0 1 ltac:(lra)) as H1. rewrite L0 in H1. nra.
Qed.
