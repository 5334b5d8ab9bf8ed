(** Property theorems C07, C30, C32-C35: estimation. *)
From Coq Require Import Permutation.
From Verif Require Import S_Eap.
From Verif Require Import Base BaseFacts RBase RFacts M_Data M_CV M_Logit S_Logit P_Logit2 T_Logit M_Lik S_Lik P_CV P_Lik1 P_Lik2 P_Lik3 P_Lik4 P_Lik5 P_Lik6 T_Lik
  M_Est S_Est P_Est1 P_Est2 P_Est3 P_Est4 P_Est5 P_Est6.
Local Open Scope R_scope.

(** A 1PL with two items of difficulties 0 and 1, used in the examples. *)
Definition ex_opl : opl := {| opl_items := 2; opl_b := [0; 1] |}.
Definition ex_model : emodel := of_sub (opl_sub (-9) ex_opl).
Lemma ex_library : library_model ex_model (opl_p ex_opl).
Proof. apply lib_opl; cbn; lia. Qed.
Definition ex_resp : list (list cell) := [[Some 1; Some 0]; [None; Some 1]; [Some 0; Some (-1)]]%Z.
Lemma ex_resp_legal : legal_data (em_cats ex_model) ex_resp.
Proof.
  unfold legal_data, ex_resp. apply Forall_forall. intros row [<- |[<- |[<- |[]]]]; (split; [reflexivity|]); intros [|[|i]] c H; cbn in H;
    try (destruct i; discriminate); injection H as <-; auto; right; right;
    first [exists 1%nat; cbn; split; [reflexivity|lia] | exists 0%nat; cbn; split; [reflexivity|lia]].
Qed.

(** ** C30 marginal maximum likelihood objective *)
Theorem C30_marginal_likelihood : forall m p points weights data,
  library_model m p -> points <> [] -> length weights = length points ->
  Forall (fun t => length t = em_lv m) points -> Forall (fun w => 0 < w) weights -> legal_data (em_cats m) data ->
  mml_loss m points (map (fun w => Some (Fin (ln w))) weights) (Wide (em_items m) data) =
    Ok (Some (Fin (- rsum (map (fun row => ln (rsum (zip_with (fun w t => w * likelihood p t row) weights points))) data)))).
Proof.
  intros m p points ws data Hm Hp Hl HF Hw Hd.
  replace (map (fun w => Some (Fin (ln w))) ws) with (map (fun w => flog (Some w)) ws).
  2:{ apply map_ext_in. intros w Hin. rewrite Forall_forall in Hw. now rewrite flog_pos by auto. }
  destruct points as [|t0 ts]; [congruence|]. destruct ws as [|w0 ws]; [discriminate|].
  apply mml_objective.
  - now apply library_has_probabilities.
  - now apply (library_items m p).
  - cbn; lia.
  - exact Hl.
  - exact HF.
  - eapply Forall_impl; [|exact Hw]. intros; lra.
  - exact Hd.
  - eapply Forall_impl; [|exact Hd]. intros row Hrow. exists 0%nat, w0, t0. split; [reflexivity|]. split; [reflexivity|].
    apply Rmult_lt_0_compat; [now inversion Hw|]. now apply (library_likelihood m p).
Qed.
Print Assumptions C30_marginal_likelihood.
(** Any model whose cell log-likelihoods are log-probabilities (C26), weights possibly zero. *)
Theorem C30_any_model : forall m p points weights data,
  has_probabilities m p -> (0 < em_items m)%nat -> (0 < length points)%nat -> length weights = length points ->
  Forall (fun t => length t = em_lv m) points -> Forall (fun w => 0 <= w) weights -> legal_data (em_cats m) data ->
  Forall (fun row => exists q w t, nth_error weights q = Some w /\ nth_error points q = Some t /\ 0 < w * likelihood p t row) data ->
  mml_loss m points (map (fun w => flog (Some w)) weights) (Wide (em_items m) data) =
    Ok (Some (Fin (- rsum (map (fun row => ln (marginal_likelihood p points weights row)) data)))).
Proof. exact mml_objective. Qed.
Print Assumptions C30_any_model.
Example C30_nonvacuous : exists v,
  mml_loss ex_model [[-1]; [0]; [2]] (map (fun w => Some (Fin (ln w))) [1; 2; 1]) (Wide 2 ex_resp) = Ok (Some (Fin v)).
Proof.
  eexists. apply (C30_marginal_likelihood ex_model (opl_p ex_opl)).
  - exact ex_library.
  - discriminate.
  - reflexivity.
  - repeat constructor.
  - repeat constructor; lra.
  - exact ex_resp_legal.
Qed.

(** ModelMix: two identical one-item 2PL models; everybody answers 1 to both items. *)
Lemma pair_cells thetas : Forall (fun t => length t = 1%nat) thetas -> let N := length thetas in
  exists out l, mix_forward ex_pair thetas = Ok out /\
    mix_log_likelihood ex_pair RNone (Wide 2 (repeat [Some 1; Some 1]%Z N)) out (Some (Wide 2 (repeat [false; false] N))) = Ok (Cells l) /\
    length l = (N * 2)%nat /\
    forall k n t, (k < 2)%nat -> nth_error thetas n = Some t -> nth_error l (N * k + n) = Some (Some (Fin (ln (logistic (nth 0 t 0))))).
Proof.
  intros HF N. destruct (C27_parts_honest 0 thetas) as (_ & _ & H2 & _).
  destruct (H2 ex_tpl ex_tpl_wf ltac:(cbn; lia) HF) as [w E].
  assert (HM : honest_mix thetas ex_pair [w; w] [tpl_probabilities ex_tpl thetas; tpl_probabilities ex_tpl thetas]).
  { split; [discriminate|]. split; [reflexivity|]. split; [reflexivity|]. intros [|[|k]] s v P Hs Hw HP; cbn in Hs, Hw, HP;
    [| |destruct k; discriminate]; injection Hs as <-; injection Hw as <-; injection HP as <-; exact E. }
  destruct (C27_probabilities_padded _ _ _ _ HM) as (c & Ec & Hi & Hcc & Hp).
  set (p := fun n (_ : nat) => logistic (nth 0 (nth n thetas []) 0)).
  assert (Hnth : forall n {A} (x d : A), (n < N)%nat -> nth_error (repeat x N) n = Some x) by (intros; now apply nth_error_repeat).
  assert (Hmask : forall n i, masked (Some (repeat [false; false] N)) n i = false).
  { intros n i. cbn [masked]. destruct (Nat.lt_ge_cases n N) as [Hn|Hn].
    - rewrite nth_repeat_lt by auto. destruct i as [|[|[|i]]]; reflexivity.
    - rewrite (nth_overflow (repeat _ N)) by (now rewrite repeat_length). destruct i; reflexivity. }
  destruct (C28_layout thetas ex_pair [w; w] [tpl_probabilities ex_tpl thetas; tpl_probabilities ex_tpl thetas]
              (repeat [Some 1; Some 1]%Z N) (Some (repeat [false; false] N)) (fun _ _ => 1%nat) p HM) with (c := c) as (out & l & E1 & E2 & E3 & E4); auto.
  - split; [apply repeat_length|]. apply Forall_forall. intros r Hr. apply repeat_spec in Hr. now subst.
  - cbn [rect_opt]. split; [apply repeat_length|]. apply Forall_forall. intros r Hr. apply repeat_spec in Hr. now subst.
  - intros n i Hn Hi' _. split; [|cbn; lia]. unfold at2. rewrite nth_error_repeat by auto. change (mix_items ex_pair) with 2%nat in Hi'.
    destruct i as [|[|i]]; [reflexivity|reflexivity|lia].
  - intros n i Hn Hi' _. split; [|apply logistic_bounds]. change (mix_items ex_pair) with 2%nat in Hi'.
    assert (Hs : exists s, nth_error ex_pair i = Some s /\ sb_items s = 1%nat /\ first_item ex_pair i = i).
    { destruct i as [|[|i]]; [| |lia]; eexists; split; reflexivity || (split; reflexivity). }
    destruct Hs as (s & Es & Hs & Hf).
    assert (HP : nth_error [tpl_probabilities ex_tpl thetas; tpl_probabilities ex_tpl thetas] i = Some (tpl_probabilities ex_tpl thetas)).
    { destruct i as [|[|i]]; [| |lia]; reflexivity. }
    destruct (Hp i s _ n 0%nat Es HP Hn ltac:(lia)) as (r & Er & Hl & Hle & Et). rewrite Hf, Nat.add_0_r in Et.
    assert (Ht : nth_error thetas n = Some (nth n thetas [])) by (now apply nth_error_nth_lt).
    destruct (C14_tpl ex_tpl thetas n (nth n thetas []) 0 ex_tpl_wf HF Ht ltac:(cbn; lia)) as [E1 _]. cbv zeta in E1.
    assert (Ex : predictor (tpl_lv ex_tpl) (slope (tpl_free ex_tpl) (tpl_w ex_tpl) 0) (nth n thetas []) + nth 0 (tpl_b ex_tpl) 0 = nth 0 (nth n thetas []) 0).
    { unfold predictor, slope. cbn. ring. }
    rewrite Ex in E1. unfold at3, at2 in *.
    destruct (nth_error (tpl_probabilities ex_tpl thetas) n) as [q|]; [|discriminate]. rewrite Er in E1.
    destruct (nth_error (cb_rows c) n) as [q'|]; [|discriminate]. rewrite Et. rewrite nth_error_app1; [exact E1|].
    apply nth_error_Some. congruence.
  - exists out, l. split; [exact E1|]. split; [exact E2|]. split; [exact E3|]. intros k n t Hk Ht.
    assert (Hn : (n < N)%nat) by (apply nth_error_Some; congruence).
    assert (Hs : exists s, nth_error ex_pair k = Some s /\ sb_items s = 1%nat /\ first_item ex_pair k = k).
    { destruct k as [|[|k]]; [| |lia]; eexists; split; reflexivity || (split; reflexivity). }
    destruct Hs as (s & Es & Hs & Hf). pose proof (E4 k s n 0%nat Es Hn ltac:(lia)) as E5. rewrite Hf, Hs, Hmask in E5.
    replace (length thetas * k + (n * 1 + 0))%nat with (N * k + n)%nat in E5 by (unfold N; lia). rewrite E5. unfold p.
    now rewrite (nth_error_nth _ _ _ Ht).
Qed.
Lemma four {A} (l : list A) : length l = 4%nat -> exists a b c d, l = [a; b; c; d].
Proof. destruct l as [|a [|b [|c [|d [|]]]]]; try discriminate. eauto 6. Qed.
Lemma eight {A} (l : list A) : length l = 8%nat -> exists a b c d e f g h, l = [a; b; c; d; e; f; g; h].
Proof. destruct l as [|a [|b [|c [|d [|e [|f [|g [|h [|]]]]]]]]]; try discriminate. intros _. repeat eexists. Qed.
(** The probabilities of the pair. *)
Definition pair_p (theta : list R) (i k : nat) : R := let q := logistic (nth 0 theta 0) in if (k =? 1)%nat then q else 1 - q.
Theorem C30_mix_refuted : exists v,
  mml_loss (of_mix 1 ex_pair) [[0]; [1]] (map (fun w => Some (Fin (ln w))) [1 / 2; 1 / 2]) (Wide 2 [[Some 1; Some 1]; [Some 1; Some 1]]%Z) = Ok (Some (Fin v)) /\
  v <> - rsum (map (fun row => ln (rsum (zip_with (fun w t => w * likelihood pair_p t row) [1 / 2; 1 / 2] [[0]; [1]])))
         [[Some 1; Some 1]; [Some 1; Some 1]]%Z).
Proof.
  destruct (pair_cells [[0]; [0]; [1]; [1]] ltac:(repeat constructor)) as (out & l & E1 & E2 & E3 & E4).
  destruct (eight l E3) as (a & b & c & d & e & f & g & h & ->).
  pose proof (E4 0 0 _ ltac:(lia) eq_refl)%nat as Ha. pose proof (E4 0 1 _ ltac:(lia) eq_refl)%nat as Hb.
  pose proof (E4 0 2 _ ltac:(lia) eq_refl)%nat as Hc. pose proof (E4 0 3 _ ltac:(lia) eq_refl)%nat as Hd.
  pose proof (E4 1 0 _ ltac:(lia) eq_refl)%nat as He. pose proof (E4 1 1 _ ltac:(lia) eq_refl)%nat as Hf.
  pose proof (E4 1 2 _ ltac:(lia) eq_refl)%nat as Hg. pose proof (E4 1 3 _ ltac:(lia) eq_refl)%nat as Hh.
  cbn [length Nat.mul Nat.add nth_error nth] in Ha, Hb, Hc, Hd, He, Hf, Hg, Hh.
  set (p := logistic 1) in *. assert (H0 : logistic 0 = / 2) by (unfold logistic; rewrite Ropp_0, exp_0; lra). rewrite H0 in *.
  assert (Hp : / 2 < p < 1) by (unfold p; rewrite <- H0; split; [apply logistic_incr; lra|apply logistic_bounds]).
  injection Ha as ->. injection Hb as ->. injection Hc as ->. injection Hd as ->. injection He as ->. injection Hf as ->. injection Hg as ->. injection Hh as ->.
  exists (- (ln (/ 4) + ln (p * p))). split.
  - unfold mml_loss. cbn [w_rows w_cols length em_forward em_ll of_mix]. 
    change (repeat_interleave 2 [[0]; [1]]) with [[0]; [0]; [1]; [1]]. rewrite E1. cbn [bind].
    match goal with |- context [mix_log_likelihood ?a ?b ?c ?d ?e] => 
      replace (mix_log_likelihood a b c d e) with (@Ok llout (Cells
        [Some (Fin (ln (/ 2))); Some (Fin (ln (/ 2))); Some (Fin (ln p)); Some (Fin (ln p));
         Some (Fin (ln (/ 2))); Some (Fin (ln (/ 2))); Some (Fin (ln p)); Some (Fin (ln p))])) by (symmetry; exact E2) end.
    cbn [bind cells_of]. change (em_items (of_mix 1 ex_pair)) with 2%nat.
    rewrite (reshape_rect 2 _ 4) by (cbn; lia). 
    cbn -[logsumexp_shifted Rplus Rmult Rinv ln IZR Rdiv].
    assert (L : forall q, 0 < q -> logsumexp_shifted [Some (Fin (ln (1 / 2) + (ln q + (ln q + 0)))); Some (Fin (ln (1 / 2) + (ln q + (ln q + 0))))] = Some (Fin (ln (q * q)))).
    { intros q Hq. replace (ln (1 / 2) + (ln q + (ln q + 0))) with (ln (1 / 2 * (q * q))) by (rewrite !ln_mult by nra; lra).
      pose proof (logsumexp_logs [1 / 2 * (q * q); 1 / 2 * (q * q)]) as L. cbn [map] in L. rewrite !flog_pos in L by nra.
      rewrite L; [|repeat constructor; nra|left; nra]. do 3 f_equal. cbn [rsum]. lra. }
    rewrite !L by lra. cbn -[Rplus Rmult Rinv ln IZR Rdiv]. do 4 f_equal. replace (/ 2 * / 2) with (/ 4) by lra. lra.
  - cbn -[Rplus Rmult Rinv ln IZR Rdiv logistic pair_p]. unfold likelihood. cbn -[Rplus Rmult Rinv ln IZR Rdiv logistic pair_p].
    unfold pair_p. cbn [Z.to_nat nth]. change (Pos.to_nat 1 =? 1)%nat with true. cbv iota. fold p. rewrite H0. intro E.
    set (S := 1 / 2 * (/ 2 * (/ 2 * 1)) + (1 / 2 * (p * (p * 1)) + 0)) in *.
    assert (HS : 0 < S) by (unfold S; nra).
    assert (E' : ln (/ 4 * (p * p)) = ln (S * S)) by (rewrite !ln_mult by nra; rewrite !ln_mult in E by lra; lra).
    apply ln_inv in E'; [|nra|nra].
    assert (Hd : (p / 2 - S) * (p / 2 + S) = 0) by lra.
    apply Rmult_integral in Hd as [Hd|Hd]; [|lra]. assert ((p - / 2) * (p - / 2) = 0) by (unfold S in Hd; lra). nra.
Qed.
Print Assumptions C30_mix_refuted.


(** ** C32 starting values *)
(** Up to 10^6 combinations: the best training score of every respondent. *)
Theorem C32_most_likely_partial : forall perm m p training data,
  library_model m p -> training <> [] -> Forall (fun t => length t = em_lv m) training -> legal_data (em_cats m) data ->
  (Z.of_nat (length data) * Z.of_nat (length training) <= 1000000)%Z ->
  Forall2 (fun row theta => In theta training /\ forall t, In t training -> likelihood p t row <= likelihood p theta row)
    data (initial_theta perm m training (Wide (em_items m) data)).
Proof.
  intros perm m p training data Hm Hne HF Hd Hsz.
  exact (initial_small m p (library_has_probabilities m p Hm) (library_flat m p Hm) (library_items m p Hm) perm training data Hne HF Hd Hsz).
Qed.
Print Assumptions C32_most_likely_partial.
Example C32_nonvacuous : Forall2 (fun row theta => In theta [[-1]; [0]; [2]] /\
     forall t, In t [[-1]; [0]; [2]] -> likelihood (opl_p ex_opl) t row <= likelihood (opl_p ex_opl) theta row)
    ex_resp (initial_theta [] ex_model [[-1]; [0]; [2]] (Wide 2 ex_resp)).
Proof.
  apply (C32_most_likely_partial [] ex_model (opl_p ex_opl)).
  - exact ex_library.
  - discriminate.
  - repeat constructor.
  - exact ex_resp_legal.
  - cbn; lia.
Qed.
(** Up to 500000 respondents: the best among a random subset of the training scores of the size that keeps
    within 10^6 combinations. *)
Theorem C32_subset_partial : forall perm m p training data,
  library_model m p -> Permutation perm (seq 0 (length training)) ->
  Forall (fun t => length t = em_lv m) training -> legal_data (em_cats m) data ->
  (1000000 < Z.of_nat (length data) * Z.of_nat (length training))%Z -> (Z.of_nat (length data) <= 500000)%Z ->
  exists candidates, incl candidates training /\
    Z.of_nat (length candidates) = Z.min (1000000 / Z.of_nat (length data)) (Z.of_nat (length training)) /\
    Forall2 (fun row theta => In theta candidates /\ forall t, In t candidates -> likelihood p t row <= likelihood p theta row)
      data (initial_theta perm m training (Wide (em_items m) data)).
Proof.
  intros perm m p training data Hm.
  exact (initial_sampled m p (library_has_probabilities m p Hm) (library_flat m p Hm) (library_items m p Hm) perm training data).
Qed.
Print Assumptions C32_subset_partial.
Example C32_subset_nonvacuous : exists training data,
  (1000000 < Z.of_nat (length data) * Z.of_nat (length training))%Z /\ (Z.of_nat (length data) <= 500000)%Z /\
  legal_data (em_cats ex_model) data /\ Forall (fun t : list R => length t = em_lv ex_model) training.
Proof.
  exists (repeat [1] (Z.to_nat 2000)), (repeat [Some 1%Z; None] (Z.to_nat 501)).
  rewrite !repeat_length, !Z2Nat.id by lia. split; [lia|]. split; [lia|]. split; apply Forall_forall; intros r Hr; apply repeat_spec in Hr as ->; [|reflexivity].
  split; [reflexivity|]. intros [|[|i]] c H; cbn in H; [|auto|destruct i; discriminate]; injection H as <-; auto.
  right; right. exists 1%nat. cbn. split; [reflexivity|lia].
Qed.
(** Models with a three-dimensional output (nested logit, surprisal spline): a zero vector for everybody,
    whatever the training scores and the category probabilities. *)
Theorem C32_table_refuted : forall perm nanl lv cats fwd p training data,
  data <> [] -> (Z.of_nat (length data) <= 500000)%Z -> ~ In (repeat 0 lv) training ->
  ~ Forall2 (fun row theta => In theta training /\ forall t, In t training -> likelihood p t row <= likelihood p theta row)
      data (initial_theta perm (of_sub (table_sub nanl lv cats fwd)) training (Wide (length cats) data)).
Proof.
  intros perm nanl lv cats fwd p training data Hne Hsz Hz HF. rewrite table_initial in HF by auto. cbn [w_rows] in HF.
  destruct data as [|row data]; [congruence|]. cbn [length repeat] in HF. inversion HF as [|? ? ? ? [H _] _]. auto.
Qed.
Print Assumptions C32_table_refuted.
(** Very large data: everybody gets the same vector, so two respondents without a common best score cannot
    both get theirs. *)
Theorem C32_large_refuted : forall perm m p training data n n' row row',
  (500000 < Z.of_nat (length data))%Z -> (1000000 < Z.of_nat (length data) * Z.of_nat (length training))%Z ->
  nth_error data n = Some row -> nth_error data n' = Some row' ->
  (forall t, ~ (most_likely p training row t /\ most_likely p training row' t)) ->
  ~ Forall2 (fun row theta => In theta training /\ forall t, In t training -> likelihood p t row <= likelihood p theta row)
      data (initial_theta perm m training (Wide (em_items m) data)).
Proof.
  intros perm m p training data n n' row row' H1 H2 Hn Hn' Hd HF.
  destruct (huge_initial perm m training (Wide (em_items m) data) H1 H2) as [t Ht]. rewrite Ht in HF. cbn [w_rows] in HF.
  assert (G : forall k r, nth_error data k = Some r -> most_likely p training r t).
  { intros k r Hk. pose proof (Forall2_nth_error _ _ _ HF k r t Hk) as G. apply G. apply nth_error_repeat.
    apply nth_error_Some. congruence. }
  apply (Hd t). split; [now apply (G n)|now apply (G n')].
Qed.
Print Assumptions C32_large_refuted.
Example C32_large_nonvacuous : forall t, ~ (most_likely (opl_p ex_opl) [[-1]; [1]] [Some 1; Some 1]%Z t /\ most_likely (opl_p ex_opl) [[-1]; [1]] [Some 0; Some 0]%Z t).
Proof.
  assert (Hlt : forall a b, a < b -> logistic a < logistic b) by (intros; now apply logistic_incr).
  intros t [[H1 H2] [_ H3]]. specialize (H2 [1] ltac:(cbn; auto)). specialize (H3 [-1] ltac:(cbn; auto)).
  unfold likelihood, opl_p in *. cbn [mapi mapi_from answer rprod ex_opl opl_b nth Z.eqb Z.to_nat Z.opp] in *.
  change (Pos.to_nat 1 =? 1)%nat with true in *. cbn [Nat.eqb] in *.
  pose proof (logistic_bounds (-1 + 0)). pose proof (logistic_bounds (-1 + 1)). pose proof (logistic_bounds (1 + 0)). pose proof (logistic_bounds (1 + 1)).
  pose proof (Hlt (-1 + 0) (1 + 0) ltac:(lra)). pose proof (Hlt (-1 + 1) (1 + 1) ltac:(lra)).
  destruct H1 as [<- |[<- |[]]]; cbn [nth] in *; nra.
Qed.

(** ** C33 expected a posteriori scores *)
Lemma posterior_mean_grid : forall mvn m p a scores logpdf points data,
  library_model m p -> (em_lv m <= 4)%nat -> al_training a = Some (Some scores) -> scores <> [] ->
  mvn (covariance (em_lv m) scores) = Ok logpdf ->
  let g := match points with Some g => g | None => eap_default_points (em_lv m) end in
  (0 < g)%nat -> data <> [] -> legal_data (em_cats m) data ->
  exists grid, theta_grid (em_lv m) scores g = Ok grid /\ Forall (fun t => length t = em_lv m) grid /\
    eap_theta_scores mvn m a points (Wide (em_items m) data) =
      Ok (map (fun row => map (fun d => Some (Fin (
            rsum (map (fun t => nth d t 0 * (exp (logpdf t) * likelihood p t row)) grid) /
            rsum (map (fun t => exp (logpdf t) * likelihood p t row) grid)))) (seq 0 (em_lv m))) data) /\
    (forall d, (d < em_lv m)%nat ->
       let lo := rmin_list (column 0 d scores) in let hi := rmax_list (column 0 d scores) in
       (forall t, In t grid -> lo - (hi - lo) / 4 <= nth d t 0 <= hi + (hi - lo) / 4) /\
       (forall row, In row data -> lo - (hi - lo) / 4 <=
            rsum (map (fun t => nth d t 0 * (exp (logpdf t) * likelihood p t row)) grid) /
            rsum (map (fun t => exp (logpdf t) * likelihood p t row) grid) <= hi + (hi - lo) / 4)) /\
    ((2 <= g)%nat -> forall up : nat -> bool, exists t, In t grid /\ forall d, (d < em_lv m)%nat ->
       let lo := rmin_list (column 0 d scores) in let hi := rmax_list (column 0 d scores) in
       nth d t 0 = if up d then hi + (hi - lo) / 4 else lo - (hi - lo) / 4).
Proof.
  intros mvn m p a scores logpdf points data Hm Hlv Ha Hs Hmvn g Hg Hne Hd.
  destruct (eap_fitted m p mvn (library_has_probabilities m p Hm) (flat_rowwise m (library_flat m p Hm)) (library_items m p Hm) Hlv points data Hd Hne
              a scores logpdf Ha Hs Hg Hmvn) as (grid & Eg & Hgne & HF & E).
  assert (Hpos : forall row, In row data -> exists t, In t grid /\ 0 < likelihood p t row).
  { intros row Hrow. destruct grid as [|t ts]; [congruence|]. exists t. split; [now left|]. apply (library_likelihood m p); auto.
    unfold legal_data in Hd. rewrite Forall_forall in Hd. auto. }
  exists grid. split; [exact Eg|]. split; [exact HF|]. split; [apply E; apply Forall_forall; exact Hpos|]. split.
  - intros d Hdl lo hi. pose proof (fun t Ht => grid_bounds (em_lv m) g scores grid Hs Eg t d Ht Hdl) as Hb. split; [exact Hb|].
    intros row Hrow. apply (scores_between m p (library_has_probabilities m p Hm) grid (fun t => exp (logpdf t)) row d); auto.
    + unfold legal_data in Hd. rewrite Forall_forall in Hd. auto.
    + intro. apply exp_pos.
  - intros Hg2 up. exact (grid_corner (em_lv m) g scores grid Hs Eg up Hg2).
Qed.
Lemma ranges_is scores d lo hi : ranges scores d lo hi -> lo = rmin_list (column 0 d scores) /\ hi = rmax_list (column 0 d scores).
Proof.
  intros (H & (t1 & I1 & E1) & (t2 & I2 & E2)). assert (Hs : column 0 d scores <> []) by (destruct scores; [destruct I1|discriminate]).
  destruct (rmin_list_spec _ Hs) as [A1 A2]. destruct (rmax_list_spec _ Hs) as [B1 B2].
  unfold column in *. apply in_map_iff in A1 as (u & Eu & Iu). apply in_map_iff in B1 as (v & Ev & Iv).
  assert (C1 : In lo (map (fun r => nth d r 0) scores)) by (rewrite <- E1; exact (in_map (fun r => nth d r 0) _ _ I1)).
  assert (C2 : In hi (map (fun r => nth d r 0) scores)) by (rewrite <- E2; exact (in_map (fun r => nth d r 0) _ _ I2)).
  specialize (A2 _ C1). specialize (B2 _ C2). pose proof (H u Iu) as Hu. pose proof (H v Iv) as Hv. split; apply Rle_antisym; lra.
Qed.
Lemma eap_point_is lo hi g j : lo - (hi - lo) * / 4 + INR j * ((hi + (hi - lo) * / 4 - (lo - (hi - lo) * / 4)) / INR (g - 1)) = eap_point lo hi g j.
Proof. unfold eap_point. replace (hi + (hi - lo) * / 4 - (lo - (hi - lo) * / 4)) with ((hi - lo) * (3 / 2)) by field. reflexivity. Qed.
Lemma theta_grid_is lv g scores grid : scores <> [] -> theta_grid lv scores g = Ok grid -> eap_grid lv g scores grid.
Proof.
  intros Hs Eg. split; [exact (grid_length lv g scores grid Hs Eg)|]. intros lo hi HR t. rewrite (in_grid lv g scores grid Hs Eg). split; intros [Hl H]; (split; [exact Hl|]); intros d Hd; specialize (H d Hd); destruct (ranges_is scores d _ _ (HR d Hd)) as [E1 E2]; cbv zeta in *; rewrite <- E1, <- E2 in *.
  - unfold linspace in H. apply in_map_iff in H as (j & E & Ij). apply in_seq in Ij. exists j. split; [lia|]. rewrite <- E. apply eap_point_is.
  - destruct H as (j & Hj & ->). unfold linspace. apply in_map_iff. exists j. split; [apply eap_point_is|apply in_seq; lia].
Qed.
(** [mvn] is the normal log density for a covariance matrix (torch's MultivariateNormal). *)
Theorem C33_posterior_mean : forall mvn m p a scores logpdf points data,
  library_model m p -> (em_lv m <= 4)%nat -> al_training a = Some (Some scores) -> scores <> [] ->
  mvn (covariance (em_lv m) scores) = Ok logpdf ->
  let g := match points with Some g => g | None => usual_points (em_lv m) end in
  (0 < g)%nat -> data <> [] -> legal_data (em_cats m) data ->
  exists grid, eap_grid (em_lv m) g scores grid /\
    eap_theta_scores mvn m a points (Wide (em_items m) data) =
      Ok (map (fun row => map (fun d => Some (Fin (
            rsum (map (fun t => nth d t 0 * (exp (logpdf t) * likelihood p t row)) grid) /
            rsum (map (fun t => exp (logpdf t) * likelihood p t row) grid)))) (seq 0 (em_lv m))) data) /\
    forall d lo hi row, (d < em_lv m)%nat -> ranges scores d lo hi -> In row data ->
      lo - (hi - lo) / 4 <= rsum (map (fun t => nth d t 0 * (exp (logpdf t) * likelihood p t row)) grid) /
            rsum (map (fun t => exp (logpdf t) * likelihood p t row) grid) <= hi + (hi - lo) / 4.
Proof.
  intros mvn m p a scores logpdf points data Hm Hlv Ha Hs Hmvn g Hg Hne Hd.
  destruct (posterior_mean_grid mvn m p a scores logpdf points data Hm Hlv Ha Hs Hmvn Hg Hne Hd) as (grid & Eg & _ & E & HB & _).
  exists grid. split; [now apply theta_grid_is|]. split; [exact E|]. intros d lo hi row Hdl Hr Hrow. destruct (ranges_is scores d lo hi Hr) as [-> ->].
  destruct (HB d Hdl) as [_ B]. exact (B row Hrow).
Qed.
Print Assumptions C33_posterior_mean.
Lemma any_model_grid : forall mvn m p a scores logpdf points data,
  has_probabilities m p -> rowwise m -> (0 < em_items m)%nat -> (em_lv m <= 4)%nat -> al_training a = Some (Some scores) -> scores <> [] ->
  mvn (covariance (em_lv m) scores) = Ok logpdf ->
  let g := match points with Some g => g | None => eap_default_points (em_lv m) end in
  (0 < g)%nat -> data <> [] -> legal_data (em_cats m) data ->
  exists grid, theta_grid (em_lv m) scores g = Ok grid /\
    (Forall (fun row => exists t, In t grid /\ 0 < likelihood p t row) data ->
     eap_theta_scores mvn m a points (Wide (em_items m) data) =
     Ok (map (fun row => map (fun d => Some (Fin (posterior_mean p grid (fun t => exp (logpdf t)) row d))) (seq 0 (em_lv m))) data)).
Proof.
  intros mvn m p a scores logpdf points data Hm Hr HI Hlv Ha Hs Hmvn g Hg Hne Hd.
  destruct (eap_fitted m p mvn Hm Hr HI Hlv points data Hd Hne a scores logpdf Ha Hs Hg Hmvn) as (grid & E1 & _ & _ & E2). eauto.
Qed.
(** Any model with C26 log-likelihoods whose output is computed row by row. *)
Theorem C33_any_model : forall mvn m p a scores logpdf points data,
  has_probabilities m p -> rowwise m -> (0 < em_items m)%nat -> (em_lv m <= 4)%nat -> al_training a = Some (Some scores) -> scores <> [] ->
  mvn (covariance (em_lv m) scores) = Ok logpdf ->
  let g := match points with Some g => g | None => usual_points (em_lv m) end in
  (0 < g)%nat -> data <> [] -> legal_data (em_cats m) data ->
  exists grid, eap_grid (em_lv m) g scores grid /\
    (Forall (fun row => exists t, In t grid /\ 0 < likelihood p t row) data ->
     eap_theta_scores mvn m a points (Wide (em_items m) data) =
     Ok (map (fun row => map (fun d => Some (Fin (posterior_mean p grid (fun t => exp (logpdf t)) row d))) (seq 0 (em_lv m))) data)).
Proof.
  intros mvn m p a scores logpdf points data Hm Hr HI Hlv Ha Hs Hmvn g Hg Hne Hd.
  destruct (any_model_grid mvn m p a scores logpdf points data Hm Hr HI Hlv Ha Hs Hmvn Hg Hne Hd) as (grid & E1 & E2).
  exists grid. split; [now apply theta_grid_is|exact E2].
Qed.
Print Assumptions C33_any_model.
Lemma nth_zip_sum (f : R -> R -> R) a b i : (i < length a)%nat -> (i < length b)%nat ->
  nth i (zip_with f a b) 0 = f (nth i a 0) (nth i b 0).
Proof.
  revert b i; induction a as [|x a IH]; intros [|y b] [|i] H1 H2; cbn [length] in *; try lia; [reflexivity|].
  cbn [zip_with nth]. apply IH; lia.
Qed.
(** The prior covariance matrix handed to the normal density is the sample covariance of the training
    scores: centred cross products over n - 1, for every pair of latent variables. *)
Theorem C33_sample_covariance : forall lv scores d e, (2 <= length scores)%nat -> (d < lv)%nat -> (e < lv)%nat ->
  let n := length scores in
  let s i j := nth j (nth i scores []) 0 in
  let mean j := sumn n (fun i => s i j) / INR n in
  nth_error (nth d (covariance lv scores) []) e =
    Some (Some (sumn n (fun i => (s i d - mean d) * (s i e - mean e)) / INR (n - 1))).
Proof.
  intros lv scores d e Hn Hd He n s mean.
  assert (Hc : forall j, length (column 0 j scores) = n) by (intros; unfold column; apply map_length).
  assert (Hi : forall j i, (i < n)%nat -> nth i (column 0 j scores) 0 = s i j).
  { intros j i Hi. unfold column, s. rewrite (nth_indep _ 0 ((fun r => nth j r 0) [])) by (rewrite map_length; exact Hi).
    rewrite (map_nth (fun r => nth j r 0)). reflexivity. }
  assert (Hm : forall j, rmean (column 0 j scores) = mean j).
  { intros j. unfold rmean, mean. rewrite Hc, rsum_nth, Hc. f_equal. apply sumn_ext. intros; apply Hi; assumption. }
  unfold covariance. set (row := fun d => map _ (seq 0 lv)).
  rewrite (nth_indep _ [] (row O)) by (rewrite map_length, seq_length; exact Hd). rewrite map_nth, seq_nth by exact Hd.
  unfold row. rewrite nth_error_map, nth_error_seq by exact He. cbn [option_map Nat.add].
  fold n. destruct (Nat.eqb_spec n 1); [lia|]. do 2 f_equal. rewrite !Hm. f_equal.
  - rewrite rsum_nth, zip_with_length, !Hc, Nat.min_id. apply sumn_ext. intros i Hin.
    rewrite nth_zip_sum by (rewrite Hc; exact Hin). rewrite !Hi by exact Hin. reflexivity.
  - rewrite minus_INR by lia. reflexivity.
Qed.
Print Assumptions C33_sample_covariance.
Example C33_sample_covariance_nonvacuous : covariance 1 [[1]; [3]] = [[Some 2]].
Proof. unfold covariance, rmean. cbn. do 3 f_equal. field. Qed.
Definition ex_mvn (_ : list (list (option R))) : result (list R -> R) := Ok (fun t => - (nth 0 t 0) ^ 2 / 2).
Example C33_nonvacuous : exists (grid : list (list R)) (f : list cell -> R), length grid = 4%nat /\
  eap_theta_scores ex_mvn ex_model (jml_fitted [[-1]; [1]; [3]]) (Some 4%nat) (Wide 2 ex_resp) =
  Ok (map (fun row => [Some (Fin (f row))]) ex_resp) /\ forall row, In row ex_resp -> -2 <= f row <= 4.
Proof.
  destruct (C33_posterior_mean ex_mvn ex_model (opl_p ex_opl) (jml_fitted [[-1]; [1]; [3]]) [[-1]; [1]; [3]] _ (Some 4%nat) ex_resp
    ex_library ltac:(cbn; lia) eq_refl ltac:(discriminate) eq_refl ltac:(cbn; lia) ltac:(discriminate) ex_resp_legal)
    as (grid & [H1 _] & H2 & H3).
  eexists grid, _. split; [exact H1|]. split; [exact H2|]. intros row Hrow. assert (HR : ranges [[-1]; [1]; [3]] 0 (-1) 3).
  { split; [|split; [exists [-1]|exists [3]]; (split; [cbn; auto|reflexivity])]. intros t [<-|[<-|[<-|[]]]]; cbn [nth]; lra. }
  pose proof (H3 0%nat (-1) 3 row ltac:(cbn; lia) HR Hrow). lra.
Qed.

(** ** C34 EAP after MML *)
(** After any successful MML fit the request is refused: the instance always has the attribute
    training_theta_scores, and MML leaves it None. *)
Theorem C34_after_mml_refuted : forall mvn m cov points a grid_points data,
  mml_fit (em_lv m) cov points mml_new = Ok a -> eap_theta_scores mvn m a grid_points data = Err ValueError.
Proof.
  intros mvn m cov points a gp data H. unfold mml_fit in H. destruct (mml_points (em_lv m) points); [|discriminate]. cbn [bind] in H.
  destruct (mml_covariance (em_lv m) cov); [|discriminate]. cbn [bind] in H. injection H as <-.
  unfold eap_theta_scores. destruct (4 <? em_lv m)%nat; reflexivity.
Qed.
Print Assumptions C34_after_mml_refuted.
Example C34_nonvacuous : exists a, mml_fit (em_lv ex_model) None None mml_new = Ok a.
Proof. eexists. reflexivity. Qed.
(** More than four latent variables are refused, whatever the algorithm. *)
Theorem C34_many_latent_refused : forall mvn m a grid_points data,
  (4 < em_lv m)%nat -> eap_theta_scores mvn m a grid_points data = Err ValueError.
Proof. intros mvn m a gp data H. unfold eap_theta_scores. destruct (Nat.ltb_spec 4 (em_lv m)); [reflexivity|lia]. Qed.
Print Assumptions C34_many_latent_refused.
(** A model that has never been fitted does get scores, with a standard normal prior on a grid over [-3, 3]. *)
Lemma unfitted_grid : forall mvn m p logpdf points data,
  library_model m p -> (em_lv m <= 4)%nat -> mvn (map (map Some) (identity (em_lv m))) = Ok logpdf ->
  let g := match points with Some g => g | None => eap_default_points (em_lv m) end in
  (0 < g)%nat -> data <> [] -> legal_data (em_cats m) data ->
  exists grid, grid = product (repeat (linspace (-3) 3 g) (em_lv m)) /\
  eap_theta_scores mvn m no_algorithm points (Wide (em_items m) data) =
    Ok (map (fun row => map (fun d => Some (Fin (posterior_mean p grid (fun t => exp (logpdf t)) row d))) (seq 0 (em_lv m))) data).
Proof.
  intros mvn m p logpdf points data Hm Hlv Hmvn g Hg Hne Hd.
  destruct (eap_unfitted m p mvn (library_has_probabilities m p Hm) (flat_rowwise m (library_flat m p Hm)) (library_items m p Hm) Hlv points data Hd Hne
              logpdf Hg Hmvn) as (grid & Eg & HF & E).
  exists grid. split; [exact Eg|]. apply E. apply Forall_forall. intros row Hrow.
  assert (Hlen : length grid = (g ^ em_lv m)%nat).
  { rewrite Eg, product_length, map_repeat. unfold linspace. rewrite map_length, seq_length.
    assert (G : forall a k, fold_right Nat.mul 1%nat (repeat a k) = (a ^ k)%nat) by (induction k as [|k IH]; [reflexivity|]; cbn [repeat fold_right Nat.pow]; now rewrite IH). apply G. }
  destruct grid as [|t ts].
  - cbn [length] in Hlen. symmetry in Hlen. apply Nat.pow_eq_0_iff in Hlen. lia.
  - exists t. split; [now left|]. apply (library_likelihood m p); auto. unfold legal_data in Hd. rewrite Forall_forall in Hd. auto.
Qed.
Lemma wide_grid lv g t : In t (product (repeat (linspace (-3) 3 g) lv)) <->
  length t = lv /\ forall d, (d < lv)%nat -> exists j, (j < g)%nat /\ nth d t 0 = -3 + INR j * (6 / INR (g - 1)).
Proof.
  rewrite in_product. assert (A : forall x, In x (linspace (-3) 3 g) <-> exists j, (j < g)%nat /\ x = -3 + INR j * (6 / INR (g - 1))).
  { intro x. unfold linspace. rewrite in_map_iff. replace (3 - -3) with 6 by ring. split.
    - intros (j & <- & Hj). apply in_seq in Hj. exists j. split; [lia|reflexivity].
    - intros (j & Hj & ->). exists j. split; [reflexivity|apply in_seq; lia]. }
  revert t. induction lv as [|lv IH]; intro t; cbn [repeat].
  - split; [intro H; inversion H; subst; split; [reflexivity|intros; lia]|]. intros [Hl _]. destruct t; [constructor|discriminate].
  - split.
    + intro H. inversion H as [|x l' t' ls' Hx Ht]; subst. apply IH in Ht as [Hl Ht]. split; [cbn [length]; lia|]. intros [|d] Hd; cbn [nth]; [now apply A|apply Ht; lia].
    + intros [Hl H]. destruct t as [|x t]; [discriminate|]. constructor; [apply A; exact (H 0%nat ltac:(lia))|]. apply IH. split; [now injection Hl|]. intros d Hd. exact (H (S d) ltac:(lia)).
Qed.
Theorem C34_unfitted_partial : forall mvn m p logpdf points data,
  library_model m p -> (em_lv m <= 4)%nat -> mvn (map (map Some) (identity (em_lv m))) = Ok logpdf ->
  let g := match points with Some g => g | None => usual_points (em_lv m) end in
  (0 < g)%nat -> data <> [] -> legal_data (em_cats m) data ->
  exists grid, (forall t, In t grid <-> length t = em_lv m /\ forall d, (d < em_lv m)%nat -> exists j, (j < g)%nat /\ nth d t 0 = -3 + INR j * (6 / INR (g - 1))) /\
  length grid = (g ^ em_lv m)%nat /\
  eap_theta_scores mvn m no_algorithm points (Wide (em_items m) data) =
    Ok (map (fun row => map (fun d => Some (Fin (posterior_mean p grid (fun t => exp (logpdf t)) row d))) (seq 0 (em_lv m))) data).
Proof.
  intros mvn m p logpdf points data Hm Hlv Hmvn g Hg Hne Hd.
  destruct (unfitted_grid mvn m p logpdf points data Hm Hlv Hmvn Hg Hne Hd) as (grid & -> & E). eexists. split; [apply wide_grid|]. split; [|exact E].
  rewrite product_length, map_repeat. unfold linspace. rewrite map_length, seq_length. fold g.
  assert (G : forall a k, fold_right Nat.mul 1%nat (repeat a k) = (a ^ k)%nat) by (induction k as [|k IH]; [reflexivity|]; cbn [repeat fold_right Nat.pow]; now rewrite IH). apply G.
Qed.
Print Assumptions C34_unfitted_partial.
Example C34_unfitted_nonvacuous : exists l, eap_theta_scores ex_mvn ex_model no_algorithm None (Wide 2 ex_resp) = Ok l.
Proof.
  destruct (C34_unfitted_partial ex_mvn ex_model (opl_p ex_opl) _ None ex_resp ex_library ltac:(cbn; lia) eq_refl ltac:(cbn; lia) ltac:(discriminate) ex_resp_legal) as (grid & _ & _ & E).
  eexists. exact E.
Qed.

(** ** C35 the loss of the variational autoencoder *)
Theorem C35_annealing : forall anneal iterations,
  (forall t b, annealing_factor anneal t iterations = Ok b -> 0 <= b <= 1) /\
  (forall t t' b b', (t <= t')%nat -> annealing_factor anneal t iterations = Ok b -> annealing_factor anneal t' iterations = Ok b' -> b <= b') /\
  ((0 < iterations)%nat -> forall t, exists b, annealing_factor anneal t iterations = Ok b) /\
  (forall t, (0 < iterations)%nat -> (iterations <= t)%nat -> annealing_factor anneal t iterations = Ok 1) /\
  (forall t, (t < iterations)%nat -> exists b, annealing_factor true t iterations = Ok b /\ b = INR t / INR iterations /\ b < 1) /\
  (forall t, annealing_factor false t iterations = Ok 1).
Proof.
  intros anneal its. split; [intros; eapply annealing_range; eauto|]. split; [intros; eapply annealing_monotone; eauto|].
  split; [|split; [|split]].
  - intros H t. unfold annealing_factor. destruct anneal; [|eauto]. destruct (Nat.eqb_spec its 0); [lia|eauto].
  - intros t H0 H. destruct anneal; [now apply annealing_full|reflexivity].
  - intros t H. apply annealing_partial; lia.
  - reflexivity.
Qed.
Print Assumptions C35_annealing.
(** The divergence used with one sample per respondent. *)
Theorem C35_kl : forall mean logvar, length mean = length logvar ->
  kl_divergence mean logvar = rsum (zip_with (fun m v => (m ^ 2 + exp v - 1 - v) / 2) mean logvar) /\
  0 <= kl_divergence mean logvar /\
  (kl_divergence mean logvar = 0 <-> Forall (fun x => x = 0) mean /\ Forall (fun v => v = 0) logvar).
Proof.
  intros mean logvar Hl. rewrite kl_div_eq. split; [reflexivity|]. split; [apply kl_nonneg|now apply kl_zero].
Qed.
Print Assumptions C35_kl.
(** One sample: minus the average over respondents of log-likelihood at the drawn score minus the weighted
    divergence. *)
Theorem C35_elbo : forall m p data mean logvar eps anneal total iterations beta,
  library_model m p -> let B := length data in (0 < B)%nat -> legal_data (em_cats m) data ->
  rect B (em_lv m) mean -> rect B (em_lv m) logvar -> rect B (em_lv m) eps ->
  annealing_factor anneal total iterations = Ok beta ->
  vae_batch m anneal total iterations 1 (Wide (em_items m) data) mean logvar eps =
    Ok (Some (Fin (- (sumn B (fun n =>
      ln (likelihood p (draw (nth n mean []) (nth n logvar []) (nth n eps [])) (nth n data []))
      - beta * kl_standard_normal (nth n mean []) (nth n logvar [])) / INR B)))).
Proof.
  intros m p data mean logvar eps anneal total its beta Hm B HB Hd H1 H2 H3 Hb.
  rewrite (vae_one m p (library_has_probabilities m p Hm) (library_items m p Hm) 1 data mean logvar eps) with (beta := beta); auto; try lia.
  - now rewrite Nat.mul_1_l.
  - intros n Hn. apply (library_likelihood m p); auto. apply (row_legal m data Hd n Hn).
Qed.
Print Assumptions C35_elbo.
(** Several samples: minus the average over respondents of the log of the average of the importance weights
    of the respondent's own samples (sample k of respondent n uses noise row k * B + n). *)
Theorem C35_importance_bound : forall m p K data mean logvar eps anneal total iterations beta,
  library_model m p -> let B := length data in (2 <= K)%nat -> (0 < B)%nat -> legal_data (em_cats m) data ->
  rect B (em_lv m) mean -> rect B (em_lv m) logvar -> rect (K * B) (em_lv m) eps ->
  annealing_factor anneal total iterations = Ok beta ->
  vae_batch m anneal total iterations K (Wide (em_items m) data) mean logvar eps =
    Ok (Some (Fin (- (sumn B (fun n =>
      ln (sumn K (fun k => let theta := draw (nth n mean []) (nth n logvar []) (nth (k * B + n) eps []) in
            importance_weight p beta (nth n mean []) (nth n logvar []) theta (nth n data [])) / INR K)) / INR B)))).
Proof.
  intros m p K data mean logvar eps anneal total its beta Hm B HK HB Hd H1 H2 H3 Hb.
  rewrite (vae_many m p (library_has_probabilities m p Hm) (library_items m p Hm) K data mean logvar eps) with (beta := beta); auto; try lia.
  intros n Hn. exists 0%nat. split; [lia|]. apply (library_likelihood m p); auto. apply (row_legal m data Hd n Hn).
Qed.
Print Assumptions C35_importance_bound.
Example C35_nonvacuous : exists v,
  vae_batch ex_model true 5 10 2 (Wide 2 ex_resp) [[0]; [1]; [2]] [[0]; [-1]; [0]] [[1]; [0]; [0]; [1]; [2]; [3]] = Ok (Some (Fin v)).
Proof.
  destruct (C35_annealing true 10) as (_ & _ & H & _). destruct (H ltac:(lia) 5%nat) as [b Hb].
  eexists. apply (C35_importance_bound ex_model (opl_p ex_opl) 2 ex_resp [[0]; [1]; [2]] [[0]; [-1]; [0]] [[1]; [0]; [0]; [1]; [2]; [3]] true 5 10 b ex_library
    ltac:(lia) ltac:(cbn; lia) ex_resp_legal).
  - split; [reflexivity|repeat constructor].
  - split; [reflexivity|repeat constructor].
  - split; [reflexivity|repeat constructor].
  - exact Hb.
Qed.
(** A ModelMix with several samples: the samples of a respondent are multiplied together instead of averaged.
    One respondent, two samples, start of the annealing (importance weights are likelihoods). *)
Theorem C35_mix_refuted : exists v,
  vae_batch (of_mix 1 ex_pair) true 0 10 2 (Wide 2 [[Some 1; Some 1]]%Z) [[0]] [[0]] [[0]; [1]] = Ok (Some (Fin v)) /\
  v <> - ln ((likelihood pair_p (draw [0] [0] [0]) [Some 1; Some 1]%Z + likelihood pair_p (draw [0] [0] [1]) [Some 1; Some 1]%Z) / 2).
Proof.
  assert (Es : reparameterize (tile 2 [[0]]) (tile 2 [[0]]) [[0]; [1]] = [[0]; [1]]).
  { unfold reparameterize. cbn [tile repeat concat app combine zip_with fst snd]. rewrite Rmult_0_r, exp_0. repeat (f_equal; try lra). }
  destruct (pair_cells [[0]; [1]] ltac:(repeat constructor)) as (out & l & E1 & E2 & E3 & E4).
  destruct (four l E3) as (a & b & c & d & ->).
  pose proof (E4 0 0 _ ltac:(lia) eq_refl)%nat as Ha. pose proof (E4 0 1 _ ltac:(lia) eq_refl)%nat as Hb.
  pose proof (E4 1 0 _ ltac:(lia) eq_refl)%nat as Hc. pose proof (E4 1 1 _ ltac:(lia) eq_refl)%nat as Hd.
  cbn [length Nat.mul Nat.add nth_error nth] in Ha, Hb, Hc, Hd.
  set (p := logistic 1) in *. assert (H0 : logistic 0 = / 2) by (unfold logistic; rewrite Ropp_0, exp_0; lra). rewrite H0 in *.
  assert (Hp : / 2 < p < 1) by (unfold p; rewrite <- H0; split; [apply logistic_incr; lra|apply logistic_bounds]).
  injection Ha as ->. injection Hb as ->. injection Hc as ->. injection Hd as ->.
  exists (- ln (/ 2 * p)). split.
  - unfold vae_batch. rewrite Es. cbn [em_forward of_mix]. rewrite E1. cbn [bind]. unfold vae_loss, annealing_factor.
    replace (Rmin 1 (INR 0 / INR 10)) with 0 by (rewrite Rmin_right; cbn [INR]; unfold Rdiv; rewrite Rmult_0_l; lra).
    cbn [Nat.eqb bind em_ll of_mix mask_of w_rows w_cols].
    match goal with |- context [mix_log_likelihood ?a ?b ?c ?d ?e] =>
      replace (mix_log_likelihood a b c d e) with (@Ok llout (Cells
        [Some (Fin (ln (/ 2))); Some (Fin (ln p)); Some (Fin (ln (/ 2))); Some (Fin (ln p))])) by (symmetry; exact E2) end.
    cbn -[log_ratio Rplus Rmult Rinv ln exp IZR Rdiv].
    rewrite !Rmult_0_l, Ropp_0, !Rplus_0_r, exp_plus, !exp_ln by lra.
    destruct (Rlt_dec 0 (/ 2 * p + / 2 * p)) as [_|Hn]; [|exfalso; apply Hn; lra].
    unfold fmean, fsub. cbn -[Rplus Rmult Rinv ln exp IZR Rdiv INR]. cbn [INR]. do 4 f_equal.
    replace (/ 2 * p + / 2 * p) with ((1 + 1) * (/ 2 * p)) by lra. rewrite ln_mult by lra. lra.
  - unfold likelihood, draw. cbn -[Rplus Rmult Rinv ln exp IZR Rdiv logistic pair_p].
    replace (0 / 2) with 0 by lra. rewrite exp_0.
    unfold pair_p. cbn [Z.to_nat nth]. change (Pos.to_nat 1 =? 1)%nat with true. cbv iota.
    replace (0 + 1 * 1) with 1 by lra. replace (0 + 0 * 1) with 0 by lra. fold p. rewrite H0. intro E.
    assert (E' : ln (/ 2 * p) = ln ((/ 2 * (/ 2 * 1) + p * (p * 1)) / 2)) by lra.
    apply ln_inv in E'; nra.
Qed.
Print Assumptions C35_mix_refuted.

(** ** C07 random guessing *)
Theorem C07_multiple_choice : forall cats g keys,
  length g = length cats -> Forall (fun x => 0 <= x < 1) g -> length keys = length cats ->
  (forall i K z, nth_error cats i = Some K -> nth_error keys i = Some z -> (2 <= K)%nat /\ (0 <= z < Z.of_nat K)%Z) ->
  exists weights, random_guessing cats (GFloats g) (Some keys) = Ok weights /\ length weights = length cats /\
    forall i K z x, nth_error cats i = Some K -> nth_error keys i = Some z -> nth_error g i = Some x ->
      exists w, nth_error weights i = Some w /\ length w = K /\ Forall (fun v => 0 <= v) w /\ rsum w = 1 /\
        ((3 <= K)%nat -> chance w (Z.to_nat z) = x /\
           forall k, (k < K)%nat -> k <> Z.to_nat z -> chance w k = (1 - x) / (INR K - 1)) /\
        (K = 2%nat -> chance w 1 = x /\ chance w 0 = 1 - x).
Proof.
  intros cats g keys Hg HF Hk Hc.
  set (W := fun i K => if (K =? 2)%nat then [1 - nth i g 0; nth i g 0]
                       else upd (Z.to_nat (nth i keys 0%Z)) (nth i g 0) (repeat ((1 - nth i g 0) / (INR K - 1)) K)).
  assert (Hx : forall i K, nth_error cats i = Some K -> nth_error keys i = Some (nth i keys 0%Z) /\ nth_error g i = Some (nth i g 0) /\ 0 <= nth i g 0 < 1).
  { intros i K E. assert (Hi : (i < length cats)%nat) by (apply nth_error_Some; congruence).
    assert (Eg : nth_error g i = Some (nth i g 0)) by (apply nth_error_nth_lt; lia).
    split; [apply nth_error_nth_lt; lia|]. split; [exact Eg|]. rewrite Forall_forall in HF. apply HF. eapply nth_error_In; eauto. }
  exists (mapi W cats). split; [|split].
  - unfold random_guessing. rewrite Hg, Nat.eqb_refl, (probability_okb g HF). apply mapiM_total. intros i K E.
    destruct (Hx i K E) as (Ek & Eg & Hr). destruct (Hc i K _ E Ek) as [HK Hz]. unfold W. destruct (Nat.eqb_spec K 2) as [->|Hn].
    + reflexivity.
    + rewrite Ek. now apply guess_weights; try lia.
  - now rewrite mapi_length.
  - intros i K z x E Ek Eg. destruct (Hx i K E) as (Ek' & Eg' & Hr). rewrite Ek in Ek'. injection Ek' as Ez. rewrite Eg in Eg'. injection Eg' as Ex.
    destruct (Hc i K _ E Ek) as [HK Hz]. rewrite nth_error_mapi, E. cbn [option_map]. eexists. split; [reflexivity|]. unfold W. rewrite <- Ez, <- Ex in *.
    destruct (Nat.eqb_spec K 2) as [->|Hn].
    + split; [reflexivity|]. split; [constructor; [lra|constructor; [lra|constructor]]|]. split; [cbn [rsum]; lra|]. split; [lia|]. intros _. unfold chance. cbn [nth rsum]. split; field; lra.
    + destruct (guess_weights K x z ltac:(lia) Hr Hz) as [_ Hs]. split; [now rewrite upd_length, repeat_length|]. split; [|split; [exact Hs|]].
      * apply Forall_forall. intros v Hv. apply In_nth_error in Hv as [j Hj]. rewrite nth_error_upd in Hj by (rewrite repeat_length; lia).
        destruct (Z.to_nat z =? j)%nat; [injection Hj as <-; lra|]. apply nth_error_In in Hj. apply repeat_spec in Hj as ->.
        assert (2 < INR K) by (change 2 with (INR 2); apply lt_INR; lia). unfold Rdiv. apply Rmult_le_pos; [lra|]. left. apply Rinv_0_lt_compat. lra.
      * split; [|lia]. intros _. apply upd_chance; [lia|exact Hs].
Qed.
Print Assumptions C07_multiple_choice.
Example C07_nonvacuous : exists w, random_guessing [4; 2; 3]%nat (GFloats [1 / 5; 1 / 2; 0]) (Some [3; 1; 0]%Z) = Ok w.
Proof.
  destruct (C07_multiple_choice [4; 2; 3]%nat [1 / 5; 1 / 2; 0] [3; 1; 0]%Z eq_refl) as (w & E & _).
  - constructor; [lra|]. constructor; [lra|]. constructor; [lra|constructor].
  - reflexivity.
  - intros [|[|[|[|i]]]] K z E E'; cbn in E, E'; try discriminate; injection E as <-; injection E' as <-; lia.
  - eauto.
Qed.
(** Without a key: the guessing probability is that of category 1 for dichotomous items, and category 0 is
    certain for the others. *)
Theorem C07_no_key : forall cats g,
  length g = length cats -> Forall (fun x => 0 <= x < 1) g -> Forall (fun K => (1 <= K)%nat) cats ->
  exists weights, random_guessing cats (GFloats g) None = Ok weights /\ length weights = length cats /\
    forall i K x, nth_error cats i = Some K -> nth_error g i = Some x ->
      exists w, nth_error weights i = Some w /\ length w = K /\
        (K = 2%nat -> chance w 1 = x /\ chance w 0 = 1 - x) /\ (K <> 2%nat -> chance w 0 = 1 /\ forall k, (1 <= k)%nat -> chance w k = 0).
Proof.
  intros cats g Hg HF Hc.
  set (W := fun i K => if (K =? 2)%nat then [1 - nth i g 0; nth i g 0] else upd 0 1 (repeat 0 K)).
  exists (mapi W cats). split; [|split].
  - unfold random_guessing. rewrite Hg, Nat.eqb_refl, (probability_okb g HF). apply mapiM_total. intros i K E.
    unfold W, guess_item. destruct (Nat.eqb_spec K 2) as [->|Hn]; reflexivity.
  - now rewrite mapi_length.
  - intros i K x E Eg. rewrite nth_error_mapi, E. cbn [option_map]. eexists. split; [reflexivity|]. unfold W. rewrite (nth_error_nth _ _ 0 Eg).
    destruct (Nat.eqb_spec K 2) as [->|Hn].
    + split; [reflexivity|]. split; [|congruence]. intros _. unfold chance. cbn [nth rsum]. split; field; lra.
    + split; [now rewrite upd_length, repeat_length|]. split; [congruence|]. intros _.
      assert (HK : (1 <= K)%nat) by (rewrite Forall_forall in Hc; apply Hc; eapply nth_error_In; eauto).
      destruct K as [|K]; [lia|]. unfold chance. cbn [repeat upd rsum]. rewrite rsum_repeat, Rmult_0_r. split; [cbn [nth]; field|].
      intros [|k] Hk; [lia|]. cbn [nth]. assert (Ez : nth k (repeat 0 K) 0 = 0) by (clear; revert k; induction K; intros [|k]; cbn; auto).
      rewrite Ez. lra.
Qed.
Print Assumptions C07_no_key.
Example C07_no_key_nonvacuous : exists w, random_guessing [2; 3]%nat (GFloats [1 / 5; 1 / 2]) None = Ok w.
Proof. destruct (C07_no_key [2; 3]%nat [1 / 5; 1 / 2] eq_refl) as (w & E & _); eauto; [constructor; [lra|constructor; [lra|constructor]]|repeat constructor]. Qed.
(** The default is unreachable: leaving out the probabilities is refused. *)
Theorem C07_default_refuted : forall cats mc, random_guessing cats GNone mc = Err ValueError.
Proof. reflexivity. Qed.
Print Assumptions C07_default_refuted.
(** A dichotomous multiple-choice item with correct category 0: the correct category has the complement of the
    guessing probability. *)
Theorem C07_binary_key_refuted : forall x, 0 <= x < 1 -> x <> 1 / 2 ->
  exists w, random_guessing [2]%nat (GFloats [x]) (Some [0]%Z) = Ok [w] /\ chance w 0 <> x.
Proof.
  intros x Hx Hn. exists [1 - x; x]. split.
  - unfold random_guessing. cbn [length Nat.eqb]. rewrite (probability_okb [x]) by (constructor; [lra|constructor]). reflexivity.
  - unfold chance. cbn [nth rsum]. intro E. apply Hn. replace (1 - x + (x + 0)) with 1 in E by lra. lra.
Qed.
Print Assumptions C07_binary_key_refuted.

