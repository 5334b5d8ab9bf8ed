(** Property C131: the heatmap of item and latent variable relationships. *)
From Verif Require Import Base BaseFacts RBase RFacts M_Data M_Logit S_Logit P_Logit M_Lik M_Scale S_Scale M_Pop S_Pop P_Pop6 M_Stat M_Info S_Info P_Info1 P_Info2 P_Info3 P_Info4 P_Row M_Heat.
From Verif Require Import P_Spline4 P_Pop5.
From Verif Require T_Pop T_Scale P_Logit4 P_Bit1.
Import List.
Local Open Scope R_scope.

(** Without relationships: item [i] has a row labelled i + 1, latent variable [d] a column labelled d + 1, and the cell is
    the mean over the scores given, or else the training scores, of the derivative of the expected share of the maximum
    score of the item. *)
Theorem C131_cells : forall lv cats M mc probs p grad algorithm theta scores i K d D,
  row_model lv cats M probs p -> valid_key cats mc -> (forall i K, nth_error cats i = Some K -> (K <= M)%nat) -> autograd_exact grad ->
  (theta = Some scores \/ theta = None /\ algorithm = Some (Some scores)) ->
  Forall (fun t => length t = lv) scores -> scores <> [] -> nth_error cats i = Some K -> (2 <= K)%nat -> (d < lv)%nat ->
  (forall t, In t scores -> derivable_pt_lim (fun x => expected_share M mc K (p (upd d x t)) i) (nth d t 0) (D t)) ->
  exists fig, heatmap grad lv cats M mc probs algorithm None theta = Ok fig /\
    at2 (hf_cells fig) i d = Some (Some (population_mean D scores)) /\
    length (hf_cells fig) = length cats /\ length (hf_rows fig) = length cats /\
    nth_error (hf_rows fig) i = Some (i + 1)%nat /\ nth_error (hf_columns fig) d = Some (d + 1)%nat.
Proof.
  intros lv cats M mc probs p grad alg theta sc i K d D HR HV HM HG HS HF Hne EK HK Hd HD.
  destruct (T_Pop.C90_discrimination lv cats M mc probs p grad sc i K d D HR HV HM HG HF Hne EK HK Hd HD) as (g & E & L & A).
  assert (ES : heat_scores alg theta = Ok sc) by (destruct HS as [->|[-> ->]]; reflexivity).
  assert (Hi : (i < length g)%nat) by (rewrite L; apply nth_error_Some; congruence).
  assert (W : length (nth 0 g []) = lv).
  { unfold population_discrimination, rmap in E. destruct (expected_item_score_gradients grad lv cats M mc true probs sc) as [g0|] eqn:E0; [|discriminate].
    injection E as <-. destruct cats as [|c cs]; [destruct i; discriminate|]. cbn. unfold mean_rows. now rewrite map_length, seq_length. }
  eexists. unfold heatmap. rewrite ES. cbn [bind]. rewrite E. cbn [bind]. split; [reflexivity|]. cbn [hf_cells hf_columns hf_rows].
  split; [exact A|]. split; [exact L|]. rewrite seq_length. split; [exact L|]. rewrite W.
  split; rewrite (nth_error_nth' _ 0%nat) by (rewrite seq_length; lia); f_equal; rewrite seq_nth by lia; lia.
Qed.
Print Assumptions C131_cells.

(** Relationships given are shown as they are, whatever scores there are. *)
Theorem C131_given : forall grad lv cats M mc probs algorithm theta rel,
  exists fig, heatmap grad lv cats M mc probs algorithm (Some rel) theta = Ok fig /\ hf_cells fig = rel /\
    length (hf_rows fig) = length rel /\ (forall i, (i < length rel)%nat -> nth_error (hf_rows fig) i = Some (i + 1)%nat).
Proof.
  intros. eexists. split; [reflexivity|]. cbn. split; [reflexivity|]. rewrite seq_length. split; [reflexivity|].
  intros i Hi. rewrite (nth_error_nth' _ 0%nat) by (rewrite seq_length; lia). rewrite seq_nth by lia. f_equal. lia.
Qed.
Print Assumptions C131_given.

Lemma mean_between (f : list R -> R) l a b : l <> [] -> (forall t, In t l -> a < f t <= b) -> a < population_mean f l <= b.
Proof.
  intros Hne H. rewrite (mean_rows_sum f l []). set (n := length l). assert (Hn : 0 < INR n) by (apply lt_0_INR; destruct l; [congruence|cbn; lia]).
  assert (B : forall r, (r < n)%nat -> a < f (nth r l []) <= b) by (intros r Hr; apply H, nth_In, Hr).
  split.
  - apply (Rmult_lt_reg_r (INR n)); [exact Hn|]. unfold Rdiv. rewrite Rmult_assoc, Rinv_l, Rmult_1_r by lra.
    apply Rle_lt_trans with (sumn n (fun _ => a)); [rewrite sumn_const; lra|]. apply P_Logit4.sumn_lt; [destruct l; [congruence|unfold n; cbn; lia]|intros r Hr; apply B, Hr].
  - apply (Rmult_le_reg_r (INR n)); [exact Hn|]. unfold Rdiv. rewrite Rmult_assoc, Rinv_l, Rmult_1_r by lra.
    apply Rle_trans with (sumn n (fun _ => b)); [|rewrite sumn_const; lra]. apply sumn_le. intros r Hr. apply B, Hr.
Qed.

(** An item whose share has slopes [a d * v t]: the row of the item shows the slopes [a] times one number. *)
Lemma shown lv cats M mc probs p grad algorithm theta scores i K (a : nat -> R) (v : list R -> R) B :
  row_model lv cats M probs p -> valid_key cats mc -> (forall i K, nth_error cats i = Some K -> (K <= M)%nat) -> autograd_exact grad ->
  (theta = Some scores \/ theta = None /\ algorithm = Some (Some scores)) ->
  Forall (fun t => length t = lv) scores -> scores <> [] -> nth_error cats i = Some K -> (2 <= K)%nat -> (0 < lv)%nat ->
  (forall t, In t scores -> length t = lv -> 0 < v t <= B) ->
  (forall t d, In t scores -> length t = lv -> (d < lv)%nat -> derivable_pt_lim (fun x => expected_share M mc K (p (upd d x t)) i) (nth d t 0) (a d * v t)) ->
  exists fig w, heatmap grad lv cats M mc probs algorithm None theta = Ok fig /\ 0 < w <= B /\
    forall d, (d < lv)%nat -> at2 (hf_cells fig) i d = Some (Some (a d * w)).
Proof.
  intros HR HV HM HG HS HF Hne EK HK Hlv Hv HD.
  assert (HL : forall t, In t scores -> length t = lv) by now apply Forall_forall.
  assert (G : forall d, (d < lv)%nat -> exists fig, heatmap grad lv cats M mc probs algorithm None theta = Ok fig /\ at2 (hf_cells fig) i d = Some (Some (a d * population_mean v scores))).
  { intros d Hd. destruct (C131_cells lv cats M mc probs p grad algorithm theta scores i K d (fun t => a d * v t) HR HV HM HG HS HF Hne EK HK Hd) as (fig & E & A & _).
    - intros t Ht. apply HD; auto.
    - exists fig. split; [exact E|]. rewrite A. do 2 f_equal. rewrite !(mean_rows_sum _ scores []), sumn_scal. unfold Rdiv. ring. }
  destruct (G O Hlv) as (fig & E & _). exists fig, (population_mean v scores). split; [exact E|]. split.
  - apply mean_between; [exact Hne|]. auto.
  - intros d Hd. destruct (G d Hd) as (fig' & E' & A). assert (fig' = fig) as -> by congruence. exact A.
Qed.
Lemma quarter x : 0 < x < 1 -> 0 < x * (1 - x) <= / 4.
Proof. intro H. split; [apply Rmult_lt_0_compat; lra|]. pose proof (pow2_ge_0 (x - / 2)). lra. Qed.
Lemma share_partial lv items M p t D i K d : partials lv items M p t D -> (i < items)%nat -> (d < lv)%nat ->
  derivable_pt_lim (fun x => expected_share M None K (p (upd d x t)) i) (nth d t 0) (sumn M (fun k => INR k * D i k d) / (INR K - 1)).
Proof.
  intros HP Hi Hd. unfold expected_share.
  apply (derivable_ext (fun x => / (INR K - 1) * sumn M (fun k => INR k * p (upd d x t) i k))); [intro x; unfold Rdiv; ring|].
  unfold Rdiv. rewrite Rmult_comm. apply derivable_pt_lim_scal.
  apply (P_Bit1.deriv_sumn M (fun k x => INR k * p (upd d x t) i k) (fun k => INR k * D i k d)). intros k Hk. apply derivable_pt_lim_scal. now apply HP.
Qed.
Lemma cats_two n i K : nth_error (repeat 2%nat n) i = Some K -> K = 2%nat.
Proof. intro H. apply nth_error_In, repeat_spec in H. exact H. Qed.

(** Two parameter logistic: the row of item [i] is the item's slopes times one number in (0, 1/4], so its cells have the
    signs and the proportions of the slopes, and fixed slopes show 0. *)
Theorem C131_two_parameter : forall grad m algorithm theta scores i, tpl_wf m -> autograd_exact grad ->
  (theta = Some scores \/ theta = None /\ algorithm = Some (Some scores)) ->
  Forall (fun t => length t = tpl_lv m) scores -> scores <> [] -> (i < tpl_items m)%nat -> (0 < tpl_lv m)%nat ->
  exists fig v, heatmap grad (tpl_lv m) (repeat 2%nat (tpl_items m)) 2 None (tpl_probabilities m) algorithm None theta = Ok fig /\ 0 < v <= / 4 /\
    forall d, (d < tpl_lv m)%nat -> at2 (hf_cells fig) i d = Some (Some (slope (tpl_free m) (tpl_w m) i d * v)).
Proof.
  intros grad m alg theta sc i Hwf HG HS HF Hne Hi Hlv.
  pose (q t := logistic (predictor (tpl_lv m) (slope (tpl_free m) (tpl_w m) i) t + nth i (tpl_b m) 0)).
  apply (shown (tpl_lv m) (repeat 2%nat (tpl_items m)) 2 None (tpl_probabilities m) (P_Pop6.tpl_p m) grad alg theta sc i 2 _ (fun t => q t * (1 - q t)) (/ 4)); auto.
  - apply P_Pop6.tpl_row_model; [exact Hwf|lia].
  - exact I.
  - intros j K H. rewrite (cats_two _ _ _ H). lia.
  - now apply nth_error_repeat_lt.
  - intros t _ _. apply quarter, logistic_bounds.
  - intros t d _ Lt Hd. pose proof (tpl_share_derivative m t i d Hd Lt) as H. cbv zeta in H. fold (q t) in H. rewrite <- Rmult_assoc. exact H.
Qed.
Print Assumptions C131_two_parameter.
(** Three parameter logistic: guessing [c] flattens the row, to at most a quarter of 1 - c. *)
Theorem C131_three_parameter : forall grad m algorithm theta scores i, thpl_wf m -> autograd_exact grad ->
  (theta = Some scores \/ theta = None /\ algorithm = Some (Some scores)) ->
  Forall (fun t => length t = thpl_lv m) scores -> scores <> [] -> (i < thpl_items m)%nat -> (0 < thpl_lv m)%nat ->
  exists fig v, heatmap grad (thpl_lv m) (repeat 2%nat (thpl_items m)) 2 None (fun thetas => some3 (thpl_probabilities m thetas)) algorithm None theta = Ok fig /\
    0 < v <= (1 - logistic (nth i (thpl_g m) 0)) / 4 /\
    forall d, (d < thpl_lv m)%nat -> at2 (hf_cells fig) i d = Some (Some (slope (thpl_free m) (thpl_w m) i d * v)).
Proof.
  intros grad m alg theta sc i Hwf HG HS HF Hne Hi Hlv. set (c := logistic (nth i (thpl_g m) 0)).
  pose (q t := logistic (thpl_x m t i)).
  apply (shown (thpl_lv m) (repeat 2%nat (thpl_items m)) 2 None (fun thetas => some3 (thpl_probabilities m thetas)) (P_Info3.thpl_p m) grad alg theta sc i 2 _ (fun t => (1 - c) * (q t * (1 - q t))) ((1 - c) / 4)); auto.
  - now apply thpl_row_model.
  - exact I.
  - intros j K H. rewrite (cats_two _ _ _ H). lia.
  - now apply nth_error_repeat_lt.
  - intros t _ _. pose proof (quarter (q t) (logistic_bounds _)). pose proof (logistic_bounds (nth i (thpl_g m) 0)) as B. fold c in B. split; [apply Rmult_lt_0_compat; lra|].
    unfold Rdiv. apply Rmult_le_compat_l; lra.
  - intros t d _ Lt Hd. pose proof (share_partial _ _ _ _ _ _ i 2 d (thpl_partials m t Hwf Lt) Hi Hd) as H.
    match type of H with derivable_pt_lim _ _ ?l => match goal with |- derivable_pt_lim _ _ ?k => replace k with l; [exact H|] end end.
    unfold thpl_D. cbn [sumn INR Nat.eqb]. fold c. fold (q t). field.
Qed.
Print Assumptions C131_three_parameter.

Lemma spread_bounds K p : (2 <= K)%nat -> (forall k, (k < K)%nat -> 0 < p k) -> sumn K p = 1 ->
  let E := category_mean K p INR in let V := sumn K (fun k => INR k * (p k * (INR k - E))) in 0 < V <= (INR K - 1) * (INR K - 1) / 4.
Proof.
  intros HK HP H1 E V. set (c := (INR K - 1) / 2).
  assert (EV : V = sumn K (fun k => p k * (INR k - E) ^ 2)).
  { pose proof (category_mean_zero K p INR H1) as Z. fold E in Z. assert (sumn K (fun k => p k * (INR k - E) ^ 2) = V - E * sumn K (fun k => p k * (INR k - E))).
    { unfold V. rewrite <- sumn_scal, <- sumn_minus. apply sumn_ext. intros k _. ring. } rewrite Z in H. lra. }
  split.
  - rewrite EV. destruct (Req_dec E 0) as [Z|NZ].
    + apply (sumn_pos_one K _ 1%nat); [intros k Hk; apply Rmult_le_pos; [apply Rlt_le, HP, Hk|apply pow2_ge_0]|lia|]. apply Rmult_lt_0_compat; [apply HP; lia|]. rewrite Z. cbn [INR]. lra.
    + apply (sumn_pos_one K _ 0%nat); [intros k Hk; apply Rmult_le_pos; [apply Rlt_le, HP, Hk|apply pow2_ge_0]|lia|]. apply Rmult_lt_0_compat; [apply HP; lia|]. cbn [INR].
      replace ((0 - E) ^ 2) with (Rsqr E) by (unfold Rsqr; ring). now apply Rsqr_pos_lt.
  - apply Rle_trans with (sumn K (fun k => p k * (INR k - c) ^ 2)).
    + assert (D : sumn K (fun k => p k * (INR k - c) ^ 2) = V + (E - c) ^ 2).
      { rewrite EV. pose proof (category_mean_zero K p INR H1) as Z. fold E in Z.
        rewrite (sumn_ext K (fun k => p k * (INR k - c) ^ 2) (fun k => p k * (INR k - E) ^ 2 + (2 * (E - c) * (p k * (INR k - E)) + (E - c) ^ 2 * p k))) by (intros; ring).
        rewrite sumn_plus, sumn_plus, !sumn_scal, Z, H1. ring. }
      rewrite D. pose proof (pow2_ge_0 (E - c)). lra.
    + apply Rle_trans with (sumn K (fun k => c ^ 2 * p k)); [|rewrite sumn_scal, H1; unfold c; lra].
      apply sumn_le. intros k Hk. rewrite (Rmult_comm (c ^ 2)). apply Rmult_le_compat_l; [apply Rlt_le, HP, Hk|].
      assert (0 <= INR k <= 2 * c). { split; [apply pos_INR|]. unfold c. replace (2 * ((INR K - 1) / 2)) with (INR K - 1) by field. apply (le_INR (S k) K) in Hk. rewrite S_INR in Hk. lra. }
      assert (0 <= INR k * (2 * c - INR k)) by (apply Rmult_le_pos; lra). lra.
Qed.
(** Generalized partial credit: the same with the variance of the item score over its maximum. *)
Theorem C131_partial_credit : forall grad m algorithm theta scores i K, poly_wf m -> autograd_exact grad ->
  (theta = Some scores \/ theta = None /\ algorithm = Some (Some scores)) ->
  Forall (fun t => length t = p_lv m) scores -> scores <> [] -> nth_error (p_cats m) i = Some K -> (2 <= K)%nat -> (0 < p_lv m)%nat ->
  exists fig v, heatmap grad (p_lv m) (p_cats m) (p_max m) None (gpc_probabilities m) algorithm None theta = Ok fig /\ 0 < v <= (INR K - 1) / 4 /\
    forall d, (d < p_lv m)%nat -> at2 (hf_cells fig) i d = Some (Some (slope (p_free m) (p_w m) i d * v)).
Proof.
  intros grad m alg theta sc i K Hwf HG HS HF Hne EK HK Hlv. pose proof (proj1 (proj2 Hwf)) as HC.
  destruct (cats_entry _ _ _ HC EK) as (HKM & En & Hi). fold (p_max m) in HKM.
  assert (H1 : 1 < INR K) by (change 1 with (INR 1); apply lt_INR; lia).
  pose (q t := category_probability K (gpc_z m t i)).
  pose (V t := sumn K (fun k => INR k * (q t k * (INR k - category_mean K (q t) INR)))).
  apply (shown (p_lv m) (p_cats m) (p_max m) None (gpc_probabilities m) (soft (p_cats m) (gpc_z m)) grad alg theta sc i K _ (fun t => V t / (INR K - 1)) ((INR K - 1) / 4)); auto.
  - apply gpc_row_model; [exact Hwf|unfold p_items; lia].
  - exact I.
  - intros j K' H. destruct (cats_entry _ _ _ HC H). unfold p_max. lia.
  - intros t _ _. destruct (spread_bounds K (q t) HK) as [B1 B2].
    + intros k Hk. apply category_probability_pos. lia.
    + apply category_probability_sum. lia.
    + fold (V t) in B1, B2. split; [apply Rdiv_lt_0_compat; lra|]. apply (Rmult_le_reg_r (INR K - 1)); [lra|]. unfold Rdiv at 1. rewrite Rmult_assoc, Rinv_l, Rmult_1_r by lra. lra.
  - intros t d Ht Lt Hd. destruct (In_nth_error _ _ Ht) as (r & Er).
    assert (HC' : forall j, (j < length (p_cats m))%nat -> (1 <= nth j (p_cats m) O <= p_max m)%nat) by (intros j Hj; destruct (cats_entry _ _ _ HC (nth_error_nth_lt _ _ O Hj)) as (X & _); exact X).
    pose proof (soft_partials (p_max m) (p_lv m) (p_cats m) (gpc_z m) (fun i k d => INR k * slope (p_free m) (p_w m) i d) HC' (fun t i k d x Lt _ _ Hd => gpc_affine m t i k d x Lt Hd) sc HF r t Er) as HP.
    pose proof (share_partial _ _ _ _ _ _ i K d HP Hi Hd) as H.
    match type of H with derivable_pt_lim _ _ ?l => match goal with |- derivable_pt_lim _ _ ?k => replace k with l; [exact H|] end end.
    rewrite (sumn_truncate K (p_max m)); [|lia|intros k Hk; rewrite En; destruct (Nat.ltb_spec k K); [lia|ring]].
    unfold V. unfold Rdiv. rewrite <- Rmult_assoc. f_equal. rewrite <- sumn_scal. apply sumn_ext. intros k Hk. rewrite En. destruct (Nat.ltb_spec k K); [|lia].
    fold (q t). assert (EM : category_mean K (q t) (fun j => INR j * slope (p_free m) (p_w m) i d) = slope (p_free m) (p_w m) i d * category_mean K (q t) INR).
    { unfold category_mean. rewrite <- sumn_scal. apply sumn_ext. intros; ring. } rewrite EM. ring.
Qed.
Print Assumptions C131_partial_credit.

Lemma by_parts (W : nat -> R) M : sumn M (fun k => INR k * (W k - W (S k))) + INR M * W M = sumn (S M) W - W O.
Proof.
  induction M as [|M IH]; [cbn; ring|]. cbn [sumn] in *. rewrite S_INR.
  replace (sumn M (fun k => INR k * (W k - W (S k))) + INR M * (W M - W (S M)) + (INR M + 1) * W (S M)) with (sumn M (fun k => INR k * (W k - W (S k))) + INR M * W M + W (S M)) by ring. rewrite IH. ring.
Qed.
(** Graded response: the number is at most 1/4 again. *)
Theorem C131_graded : forall grad m algorithm theta scores i K, poly_wf m -> ordered m -> autograd_exact grad ->
  (theta = Some scores \/ theta = None /\ algorithm = Some (Some scores)) ->
  Forall (fun t => length t = p_lv m) scores -> scores <> [] -> nth_error (p_cats m) i = Some K -> (2 <= K)%nat -> (0 < p_lv m)%nat ->
  exists fig v, heatmap grad (p_lv m) (p_cats m) (p_max m) None (fun thetas => some3 (grm_probabilities m thetas)) algorithm None theta = Ok fig /\ 0 < v <= / 4 /\
    forall d, (d < p_lv m)%nat -> at2 (hf_cells fig) i d = Some (Some (slope (p_free m) (p_w m) i d * v)).
Proof.
  intros grad m alg theta sc i K Hwf HO HG HS HF Hne EK HK Hlv. pose proof (proj1 (proj2 Hwf)) as HC.
  destruct (cats_entry _ _ _ HC EK) as (HKM & En & Hi). fold (p_max m) in HKM.
  assert (H1 : 1 < INR K) by (change 1 with (INR 1); apply lt_INR; lia).
  pose (V t := sumn (K - 1) (fun k => grm_W m t i (S k))).
  assert (WB : forall t k, (k < K - 1)%nat -> 0 < grm_W m t i (S k) <= / 4).
  { intros t k Hk. unfold grm_W, grm_g, geq_probability. rewrite En. cbn [Nat.eqb]. destruct (Nat.ltb_spec (S k) K); [|lia]. apply quarter, logistic_bounds. }
  assert (K1 : INR (K - 1) = INR K - 1) by (rewrite minus_INR by lia; reflexivity).
  apply (shown (p_lv m) (p_cats m) (p_max m) None (fun thetas => some3 (grm_probabilities m thetas)) (P_Info4.grm_p m) grad alg theta sc i K _ (fun t => V t / (INR K - 1)) (/ 4)); auto.
  - apply grm_row_model; [exact Hwf|exact HO|unfold p_items; lia].
  - exact I.
  - intros j K' H. destruct (cats_entry _ _ _ HC H). unfold p_max. lia.
  - intros t _ _. assert (B1 : 0 < V t) by (apply sumn_pos; [lia|intros k Hk; apply WB, Hk]).
    assert (B2 : V t <= (INR K - 1) * / 4) by (rewrite <- K1, <- sumn_const; apply sumn_le; intros k Hk; apply WB, Hk).
    split; [apply Rdiv_lt_0_compat; lra|]. apply (Rmult_le_reg_r (INR K - 1)); [lra|]. unfold Rdiv at 1. rewrite Rmult_assoc, Rinv_l, Rmult_1_r by lra. lra.
  - intros t d _ Lt Hd. pose proof (share_partial _ _ _ _ _ _ i K d (grm_partials m t Lt) Hi Hd) as H.
    match type of H with derivable_pt_lim _ _ ?l => match goal with |- derivable_pt_lim _ _ ?k => replace k with l; [exact H|] end end.
    unfold grm_D. unfold Rdiv. rewrite <- Rmult_assoc. f_equal.
    rewrite (sumn_ext _ _ (fun k => slope (p_free m) (p_w m) i d * (INR k * (grm_W m t i k - grm_W m t i (S k))))) by (intros; ring). rewrite sumn_scal. f_equal.
    pose proof (by_parts (grm_W m t i) (p_max m)) as P.
    assert (Z : forall k, (K <= k)%nat -> grm_W m t i k = 0).
    { intros k Hk. unfold grm_W, grm_g, geq_probability. rewrite En. destruct (Nat.eqb_spec k 0); [lia|]. destruct (Nat.ltb_spec k K); [lia|ring]. }
    assert (Z0 : grm_W m t i 0 = 0) by (unfold grm_W, grm_g, geq_probability; cbn [Nat.eqb]; ring).
    rewrite (Z (p_max m)) in P by lia. rewrite Z0, (sumn_truncate K (S (p_max m))) in P by (try lia; intros k Hk; apply Z; lia).
    replace K with (S (K - 1)) in P at 1 by lia. rewrite sumn_S_first, Z0 in P. unfold V. lra.
Qed.
Print Assumptions C131_graded.

(** Without scores of any kind the call of a fitted model is refused with a message. *)
Theorem C131_no_scores : forall grad lv cats M mc probs,
  heatmap grad lv cats M mc probs (Some None) None None = Err ValueError.
Proof. reflexivity. Qed.
Print Assumptions C131_no_scores.
(** Finding: a model which has not been fitted fails with an AttributeError instead. *)
Theorem C131_unfitted_refuted : forall grad lv cats M mc probs,
  heatmap grad lv cats M mc probs None None None = Err AttributeError.
Proof. reflexivity. Qed.
Print Assumptions C131_unfitted_refuted.
(** Finding: the height of the figure, meant to leave 20 pixels for each item (lines 498-500), is 1800 however many items
    there are. *)
Theorem C131_height_refuted : forall grad lv cats M mc probs algorithm relationships theta fig,
  heatmap grad lv cats M mc probs algorithm relationships theta = Ok fig ->
  (90 < length (hf_cells fig))%nat -> (hf_height fig < 20 * length (hf_cells fig))%nat.
Proof.
  intros grad lv cats M mc probs alg rel theta fig H. unfold heatmap in H. destruct rel as [r|].
  - cbn [bind] in H. injection H as <-. cbn [hf_cells hf_height]. unfold heat_height. lia.
  - destruct (bind (heat_scores alg theta) _) as [r|]; [|discriminate]. cbn [bind] in H. injection H as <-. cbn [hf_cells hf_height]. unfold heat_height. lia.
Qed.
Print Assumptions C131_height_refuted.
Definition ex_graded : poly := {| p_lv := 2; p_cats := [3; 2]%nat; p_free := [[true; true]; [true; false]]; p_w := [1; -2; 1]; p_b := [1; 0; 0] |}.
(** A graded model with a negative slope fitted to two respondents; a model with 91 items. *)
Example C131_nonvacuous : tpl_wf T_Pop.ex_tpl /\ poly_wf ex_graded /\ ordered ex_graded /\
  (exists grad fig v, autograd_exact grad /\
    heatmap grad 2 [3; 2]%nat 3 None (fun thetas => some3 (grm_probabilities ex_graded thetas)) (Some (Some [[0; 0]; [0; 1]])) None None = Ok fig /\ 0 < v /\
    at2 (hf_cells fig) 0 0 = Some (Some v) /\ at2 (hf_cells fig) 0 1 = Some (Some (-2 * v))) /\
  (exists fig, heatmap (fun _ _ => 0) 1 [] 2 None (fun _ => []) None (Some (repeat [Some 1] 91)) None = Ok fig /\ length (hf_cells fig) = 91%nat).
Proof.
  split; [unfold tpl_wf; cbn; repeat split; auto; repeat constructor|].
  assert (W : poly_wf ex_graded) by (unfold poly_wf; cbn; repeat split; auto; repeat constructor). split; [exact W|].
  assert (O : ordered ex_graded) by (intros [|[|i]] [|[|k]] Hi H1 H2; cbn in *; try lia; lra). split; [exact O|]. split.
  - destruct T_Scale.autograd_exists as (grad & HG).
    destruct (C131_graded grad ex_graded (Some (Some [[0; 0]; [0; 1]])) None [[0; 0]; [0; 1]] 0 3 W O HG (or_intror (conj eq_refl eq_refl)) ltac:(repeat constructor) ltac:(discriminate) eq_refl ltac:(lia) ltac:(cbn; lia)) as (fig & v & E & V & A).
    exists grad, fig, v. split; [exact HG|]. split; [exact E|]. split; [lra|].
    rewrite (A 0%nat), (A 1%nat) by (cbn; lia). unfold slope. cbn. split; do 2 f_equal; ring.
  - eexists. split; reflexivity.
Qed.
