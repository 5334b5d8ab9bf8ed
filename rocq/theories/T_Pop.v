(** Property theorems C88-C91: directions of the relationships, sampled responses, population difficulty and
    discrimination, posterior intervals and samples of the variational autoencoder. *)
From Coq Require Import QArith.
From Verif Require Import Base BaseFacts RBase RFacts M_Data S_Data P_Data M_Logit S_Logit P_Logit P_Logit2 P_Logit3 P_Logit4 M_Lik M_Mono S_Mono
  P_Mono3 P_Mono4 P_Mono5 P_Mono6 P_Mono7 M_Scale S_Scale M_Est M_Score S_Score P_Score2 M_Pop S_Pop
  P_Pop1 P_Pop2 P_Pop3 P_Pop4 P_Pop5 P_Pop6 P_Pop7 P_Pop8.
Import List.
Local Open Scope R_scope.

(** ** C88 directions *)
(** One parameter logistic: reported 1, and the expected score increases. *)
Theorem C88_one_parameter : forall m thetas r r' t t' i,
  length (opl_b m) = opl_items m -> nth_error thetas r = Some t -> nth_error thetas r' = Some t' -> (i < opl_items m)%nat -> t < t' ->
  exists es e e' z, expected_item_scores (opl_items m) 2 None (opl_probabilities m thetas) = Ok es /\
    at2 es r i = Some (Some e) /\ at2 es r' i = Some (Some e') /\ at2 (opl_directions m) i 0 = Some z /\ follows z e e'.
Proof. exact opl_follows. Qed.
Print Assumptions C88_one_parameter.
(** Two parameter logistic: the reported sign of a pair is the direction of the expected score when that latent
    variable alone increases. *)
Theorem C88_two_parameter : forall m thetas r r' t t' i d,
  tpl_wf m -> Forall (fun t => length t = tpl_lv m) thetas -> nth_error thetas r = Some t -> nth_error thetas r' = Some t' ->
  (i < tpl_items m)%nat -> (d < tpl_lv m)%nat -> increases_in d t t' ->
  exists es e e' z, expected_item_scores (tpl_items m) 2 None (tpl_probabilities m thetas) = Ok es /\
    at2 es r i = Some (Some e) /\ at2 es r' i = Some (Some e') /\ at2 (tpl_directions m) i d = Some z /\ follows z e e'.
Proof. exact tpl_follows. Qed.
Print Assumptions C88_two_parameter.
Theorem C88_three_parameter : forall m thetas r r' t t' i d,
  thpl_wf m -> Forall (fun t => length t = thpl_lv m) thetas -> nth_error thetas r = Some t -> nth_error thetas r' = Some t' ->
  (i < thpl_items m)%nat -> (d < thpl_lv m)%nat -> increases_in d t t' ->
  exists es e e' z, expected_item_scores (thpl_items m) 2 None (some3 (thpl_probabilities m thetas)) = Ok es /\
    at2 es r i = Some (Some e) /\ at2 es r' i = Some (Some e') /\ at2 (thpl_directions m) i d = Some z /\ follows z e e'.
Proof. exact thpl_follows. Qed.
Print Assumptions C88_three_parameter.
(** Generalized partial credit and graded response, items with at least two categories. *)
Theorem C88_gpc : forall m thetas r r' t t' i K d,
  poly_wf m -> Forall (fun t => length t = p_lv m) thetas ->
  nth_error thetas r = Some t -> nth_error thetas r' = Some t' -> nth_error (p_cats m) i = Some K -> (2 <= K)%nat ->
  (d < p_lv m)%nat -> increases_in d t t' ->
  exists es e e' z, expected_item_scores (p_items m) (p_max m) None (gpc_probabilities m thetas) = Ok es /\
    at2 es r i = Some (Some e) /\ at2 es r' i = Some (Some e') /\ at2 (poly_directions m) i d = Some z /\ follows z e e'.
Proof. exact gpc_follows. Qed.
Print Assumptions C88_gpc.
Theorem C88_graded : forall m thetas r r' t t' i K d,
  poly_wf m -> Forall (fun t => length t = p_lv m) thetas ->
  nth_error thetas r = Some t -> nth_error thetas r' = Some t' -> nth_error (p_cats m) i = Some K -> (2 <= K)%nat ->
  (d < p_lv m)%nat -> increases_in d t t' ->
  exists es e e' z, expected_item_scores (p_items m) (p_max m) None (some3 (grm_probabilities m thetas)) = Ok es /\
    at2 es r i = Some (Some e) /\ at2 es r' i = Some (Some e') /\ at2 (poly_directions m) i d = Some z /\ follows z e e'.
Proof. exact grm_follows. Qed.
Print Assumptions C88_graded.

Definition ex_tpl : tpl := {| tpl_lv := 2; tpl_free := [[true; false]; [true; true]]; tpl_w := [1; 2; -1]; tpl_b := [0; 1] |}.
Example C88_nonvacuous :
  tpl_wf ex_tpl /\ increases_in 1 [0; 0] [0; 1] /\ at2 (tpl_directions ex_tpl) 0 1 = Some 0%Z /\
  at2 (tpl_directions ex_tpl) 1 0 = Some 1%Z /\ at2 (tpl_directions ex_tpl) 1 1 = Some (-1)%Z.
Proof.
  assert (W : tpl_wf ex_tpl) by (unfold tpl_wf; cbn; repeat split; auto; repeat constructor).
  split; [exact W|]. split; [split; [reflexivity|]; split; [cbn; lra|]; intros [|[|e]] He; cbn; lia || (try destruct e; reflexivity)|].
  pose proof W as (W1 & W2 & W3 & _). unfold tpl_directions.
  rewrite !weight_signs_nth by (auto; cbn; lia). unfold slope. cbn. unfold rsign.
  split; [|split]; f_equal; repeat destruct (Rlt_dec _ _); try reflexivity; lra.
Qed.

(** Monotone networks: the reported direction is never contradicted by the expected score. *)
Theorem C88_network : forall cats lv rel hidden sep neg bounded m0 m thetas r r' t t' i d,
  mnn_init cats lv rel hidden None sep neg bounded = Ok m0 -> cats <> [] -> Forall (fun K => (1 <= K)%nat) cats ->
  (0 < lv)%nat -> (forall h, hidden = Some h -> Forall (fun x => (0 < x)%nat) h) -> same_mnn m0 m ->
  Forall (fun t => length t = lv) thetas -> nth_error thetas r = Some t -> nth_error thetas r' = Some t' ->
  (d < lv)%nat -> (i < length cats)%nat -> increases_in d t t' ->
  exists probs es e e' z, mnn_probabilities m thetas = Ok probs /\
    expected_item_scores (length cats) (list_max cats) None probs = Ok es /\
    at2 es r i = Some (Some e) /\ at2 es r' i = Some (Some e') /\ at2 (mnn_directions m) i d = Some z /\ follows_weakly z e e'.
Proof.
  intros cats lv rel hidden sep neg bounded m0 m thetas r r' t t' i d H Hc HK Hlv Hh Hs HF Hr Hr' Hd Hi Hinc.
  destruct (mnn_init_ok _ _ _ _ _ _ _ _ _ H Hc HK Hlv Hh) as (Hok & E1 & E2 & E3 & E4 & E5 & _).
  pose proof (same_mnn_ok _ _ Hs Hok) as Hok'. pose proof Hok' as (O1 & O2 & O3 & _ & _ & _ & _ & _ & O4 & _).
  destruct Hs as (S1 & S2 & S3 & S4 & S5 & S6 & S7 & S8 & _).
  pose proof (mnn_expected m thetas r r' t t' i d Hok') as G. unfold n_items, n_max in G. rewrite S1, S2, S8, E1, E2, E3 in G.
  destruct (G eq_refl HF Hr Hr' Hd Hi Hinc) as (probs & es & e & e' & P1 & P2 & P3 & P4 & P5 & P6).
  assert (Hdir : exists z, at2 (mnn_directions m) i d = Some z /\ (z = rsign (mnn_direction m i d) \/ (z = 1%Z /\ 0 <= mnn_direction m i d))).
  { unfold mnn_directions. rewrite S6, E5. destruct neg.
    - eexists. split; [unfold at2; rewrite nth_error_map_seq by (unfold n_items; rewrite S1, E1; auto); cbn [Nat.add]; rewrite nth_error_map_seq by (rewrite S2, E2; auto); reflexivity|].
      left. cbn [Nat.add]. f_equal.
      assert (Hl : length (column false d (n_rel m)) = length cats) by (unfold column; rewrite map_length, O3; unfold n_items; congruence).
      apply nth_error_nth. change (map (fun row => nth d row false) (n_rel m)) with (column false d (n_rel m)).
      rewrite all_item_weights_nth; [|apply O4; lia|lia]. f_equal. unfold mnn_direction. rewrite S6, E5.
      replace (nth i (column false d (n_rel m)) false) with (nth d (nth i (n_rel m) []) false); [reflexivity|].
      unfold column in *. rewrite map_length in Hl. symmetry. apply nth_error_nth. rewrite nth_error_map, (nth_error_nth_lt (n_rel m) i []) by lia. reflexivity.
    - exists 1%Z. split.
      + unfold at2. rewrite nth_error_repeat_lt by (unfold n_items; rewrite S1, E1; auto). rewrite nth_error_repeat_lt by (rewrite S2, E2; auto). reflexivity.
      + right. split; [reflexivity|]. unfold mnn_direction. rewrite S6, E5. destruct (nth d (nth i (n_rel m) []) false); lra. }
  destruct Hdir as (z & Z1 & Z2). exists probs, es, e, e', z. split; [exact P1|]. split; [exact P2|]. split; [exact P3|]. split; [exact P4|]. split; [exact Z1|].
  destruct Z2 as [->|[-> HH]]; [|left; split; [reflexivity|now apply P5]].
  destruct (rsign_cases (mnn_direction m i d)) as [[Ez Hz]|[[Ez Hz]|[Ez Hz]]]; rewrite Ez; unfold follows_weakly.
  - left. split; [reflexivity|]. apply P5. lra.
  - right; left. split; [reflexivity|]. apply P6. lra.
  - right; right. split; [reflexivity|]. rewrite Hz in *. apply Rle_antisym; [apply P5|apply P6]; lra.
Qed.
Print Assumptions C88_network.
(** Finding: a monotone network without negative relationships reports 1 for pairs declared unrelated, although
    the expected score of the item does not depend on that latent variable. *)
Theorem C88_unrelated_network_refuted : forall cats lv rel hidden sep bounded m0 m thetas r r' t t' i d,
  mnn_init cats lv (Some rel) hidden None sep false bounded = Ok m0 -> cats <> [] -> Forall (fun K => (1 <= K)%nat) cats ->
  (0 < lv)%nat -> (forall h, hidden = Some h -> Forall (fun x => (0 < x)%nat) h) -> same_mnn m0 m ->
  Forall (fun t => length t = lv) thetas -> nth_error thetas r = Some t -> nth_error thetas r' = Some t' ->
  (d < lv)%nat -> (i < length cats)%nat -> increases_in d t t' -> nth d (nth i rel []) false = false ->
  exists probs es e, mnn_probabilities m thetas = Ok probs /\
    expected_item_scores (length cats) (list_max cats) None probs = Ok es /\
    at2 es r i = Some (Some e) /\ at2 es r' i = Some (Some e) /\ at2 (mnn_directions m) i d = Some 1%Z /\ ~ follows 1 e e.
Proof.
  intros cats lv rel hidden sep bounded m0 m thetas r r' t t' i d H Hc HK Hlv Hh Hs HF Hr Hr' Hd Hi Hinc Hrel.
  destruct (mnn_init_ok _ _ _ _ _ _ _ _ _ H Hc HK Hlv Hh) as (Hok & E1 & E2 & E3 & E4 & E5 & _).
  pose proof (same_mnn_ok _ _ Hs Hok) as Hok'.
  assert (ER : n_rel m0 = rel).
  { unfold mnn_init in H. destruct (relationships (length cats) lv (Some rel)) as [r0|] eqn:Er; [|discriminate]. cbn [bind] in H.
    assert (r0 = rel). { unfold relationships in Er. destruct (negb (_ && _)) in Er; [discriminate|]. destruct (negb _) in Er; [discriminate|congruence]. } subst r0.
    destruct (match hidden with None => _ | Some _ => _ end) as [hs|] in H; [|discriminate]. cbn [bind] in H.
    destruct (mapM _ (seq 0 lv)) as [ls|] in H; [|discriminate]. cbn [bind] in H. injection H as <-. reflexivity. }
  destruct Hs as (S1 & S2 & S3 & S4 & S5 & S6 & S7 & S8 & _).
  pose proof (mnn_expected m thetas r r' t t' i d Hok') as G. unfold n_items, n_max in G. rewrite S1, S2, S8, E1, E2, E3 in G.
  destruct (G eq_refl HF Hr Hr' Hd Hi Hinc) as (probs & es & e & e' & P1 & P2 & P3 & P4 & P5 & P6).
  assert (D0 : mnn_direction m i d = 0) by (unfold mnn_direction; rewrite S3, ER, Hrel; reflexivity).
  assert (e' = e) by (rewrite D0 in *; apply Rle_antisym; [apply P6|apply P5]; lra). subst e'.
  exists probs, es, e. split; [exact P1|]. split; [exact P2|]. split; [exact P3|]. split; [exact P4|]. split.
  - unfold mnn_directions. rewrite S6, E5. unfold at2. rewrite nth_error_repeat_lt by (unfold n_items; rewrite S1, E1; auto). rewrite nth_error_repeat_lt by (rewrite S2, E2; auto). reflexivity.
  - intros [[_ L]|[[L _]|[L _]]]; [lra|discriminate|discriminate].
Qed.
Print Assumptions C88_unrelated_network_refuted.
Theorem C88_unrelated_polynomial_refuted : forall cats lv rel degree sep dir0 m0 m thetas r r' t t' i d K,
  mpm_init cats lv (Some rel) degree sep false dir0 = Ok m0 -> cats <> [] -> Forall (fun K => (1 <= K)%nat) cats -> same_mpm m0 m ->
  Forall (fun t => length t = lv) thetas -> nth_error thetas r = Some t -> nth_error thetas r' = Some t' ->
  (d < lv)%nat -> nth_error cats i = Some K -> increases_in d t t' -> nth d (nth i rel []) false = false ->
  exists es e, expected_item_scores (length cats) (list_max cats) None (mpm_probabilities m thetas) = Ok es /\
    at2 es r i = Some (Some e) /\ at2 es r' i = Some (Some e) /\ mpm_directions m i d = 1%Z /\ ~ follows 1 e e.
Proof.
  intros cats lv rel degree sep dir0 m0 m thetas r r' t t' i d K H Hc HK Hs HF Hr Hr' Hd Hi Hinc Hrel.
  destruct (mpm_init_ok _ _ _ _ _ _ _ _ H Hc HK) as (Hok & E1 & E2 & _).
  pose proof (same_mpm_ok _ _ Hs Hok) as Hok'.
  assert (ER : mp_dir (q_poly m0) = None /\ mp_masked (q_poly m0) d (i * mp_shared (q_poly m0)) = true).
  { unfold mpm_init in H. destruct (relationships (length cats) lv (Some rel)) as [r0|] eqn:Er; [|discriminate]. cbn [bind] in H.
    assert (r0 = rel). { unfold relationships in Er. destruct (negb (_ && _)) in Er; [discriminate|]. destruct (negb _) in Er; [discriminate|congruence]. } subst r0.
    destruct (mpoly_degree degree) as [k|]; [|discriminate]. cbn [bind] in H. injection H as <-. cbn [q_poly mp_dir mp_shared]. split; [reflexivity|].
    unfold mp_masked. cbn [mp_rel]. rewrite Nat.div_mul; [now rewrite Hrel|]. destruct sep; [lia|]. pose proof (list_max_pos _ Hc HK). lia. }
  destruct ER as [ED EM].
  destruct Hs as (S1 & S2 & S3 & S4 & S5 & S6 & S7 & S8 & S9 & S10).
  pose proof (mpm_expected m thetas r r' t t' i d K Hok') as G. unfold q_items, q_max in G. rewrite S1, S5, E1, E2 in G.
  destruct (G HF Hr Hr' Hd Hi Hinc) as (es & e & e' & H1 & H2 & H3 & P1 & P2 & P3).
  assert (M0 : mpm_sign m i d = 0).
  { unfold mpm_sign, mp_sign. unfold mp_masked in *. rewrite S7, S9, EM. reflexivity. }
  assert (e' = e) by (symmetry; now apply P3). subst e'. exists es, e. split; [exact H1|]. split; [exact H2|]. split; [exact H3|]. split.
  - unfold mpm_directions. rewrite (proj2 S10 ED). reflexivity.
  - intros [[_ L]|[[L _]|[L _]]]; [lra|discriminate|discriminate].
Qed.
Print Assumptions C88_unrelated_polynomial_refuted.
Example C88_unrelated_nonvacuous : exists m, mnn_init [3;2]%nat 2 (Some [[true;false];[true;true]]) (Some [3;6]%nat) None true false true = Ok m /\
  at2 (mnn_directions m) 0 1 = Some 1%Z /\ exists q, mpm_init [3;2]%nat 2 (Some [[true;false];[true;true]]) 3 true false (fun _ _ => 1) = Ok q /\ mpm_directions q 0 1 = 1%Z.
Proof. eexists. split; [vm_compute; reflexivity|]. split; [reflexivity|]. eexists. split; [vm_compute; reflexivity|reflexivity]. Qed.

(** Nominal, spline and mixed models: the reported signs are those of the least squares slopes of the expected
    score on the given latent scores. *)
Theorem C88_regression : forall inv nan_int items lv es thetas i y,
  inverse_exact (S lv) inv -> length es = length thetas -> (i < items)%nat -> length y = length thetas ->
  (forall r, (r < length thetas)%nat -> nth i (nth r es []) None = Some (nth r y 0)) ->
  (exists B, inverse_matrix (S lv) (gram (S lv) (design thetas)) B) ->
  exists dirs w, base_directions inv nan_int items lv (Ok es) thetas = Ok dirs /\ length dirs = items /\
    (forall d, (d < lv)%nat -> at2 dirs i d = Some (rsign (w (S d)))) /\
    forall w', squared_error lv thetas y w <= squared_error lv thetas y w'.
Proof.
  intros inv nan items lv es thetas i y HI HL Hi Hy He (B & HB).
  destruct (HI _ (gram_matrix (S lv) (design thetas))) as [(W & HW & HWi)|[_ HN]]; [|destruct (HN _ HB)].
  destruct (base_directions_at inv nan items lv es thetas W i (fun r => nth r y 0) HL Hi HW HWi He) as (dirs & w & E1 & Ld & Hn & Hd).
  exists dirs, w. split; [exact E1|]. split; [exact Ld|]. split; [exact Hd|]. intro w'. now apply least_squares.
Qed.
Print Assumptions C88_regression.
(** One latent variable and scores that are not all equal: 1 when the expected score increases with the latent
    score over the given respondents, -1 when it decreases, 0 when it is constant. *)
Theorem C88_regression_one_variable : forall inv nan_int items es thetas i y k j,
  inverse_exact 2 inv -> length es = length thetas -> (i < items)%nat -> Forall (fun t => length t = 1%nat) thetas ->
  (forall r, (r < length thetas)%nat -> nth i (nth r es []) None = Some (y r)) ->
  let x r := nth 0 (nth r thetas []) 0 in let N := length thetas in
  (k < N)%nat -> (j < N)%nat -> x k <> x j ->
  exists dirs z, base_directions inv nan_int items 1 (Ok es) thetas = Ok dirs /\ at2 dirs i 0 = Some z /\
    ((forall a b, (a < N)%nat -> (b < N)%nat -> x a < x b -> y a <= y b) ->
     (exists a b, (a < N)%nat /\ (b < N)%nat /\ x a < x b /\ y a < y b) -> z = 1%Z) /\
    ((forall a b, (a < N)%nat -> (b < N)%nat -> x a < x b -> y b <= y a) ->
     (exists a b, (a < N)%nat /\ (b < N)%nat /\ x a < x b /\ y b < y a) -> z = (-1)%Z) /\
    ((forall a b, (a < N)%nat -> (b < N)%nat -> y a = y b) -> z = 0%Z).
Proof.
  intros inv nan items es thetas i y k j HI HL Hi HF He x N Hk Hj Hne.
  destruct (gram_inverse thetas k j HF Hk Hj Hne) as (B & HB).
  destruct (HI _ (gram_matrix 2 (design thetas))) as [(W & HW & HWi)|[_ HN]]; [|destruct (HN _ HB)].
  destruct (base_directions_at inv nan items 1 es thetas W i y HL Hi HW HWi He) as (dirs & w & E1 & Ld & Hn & Hd).
  exists dirs, (rsign (w 1%nat)). split; [exact E1|]. split; [exact (Hd 0%nat ltac:(lia))|].
  exact (slope_sign thetas y w k j HF Hn Hk Hj Hne).
Qed.
Print Assumptions C88_regression_one_variable.
(** Equal scores have no regression slope: the call fails, it does not report a direction. *)
Theorem C88_equal_scores : forall inv nan_int items es thetas c,
  inverse_exact 2 inv -> length es = length thetas -> (0 < items)%nat ->
  (forall r, (r < length thetas)%nat -> nth 0 (nth r thetas []) 0 = c) ->
  exists e, base_directions inv nan_int items 1 (Ok es) thetas = Err e.
Proof.
  intros inv nan items es thetas c HI HL Hi Hc.
  destruct (HI _ (gram_matrix 2 (design thetas))) as [(W & HW & HWi)|[[e He] _]]; [destruct (no_inverse thetas c Hc W HWi)|].
  exists e. now apply base_directions_singular.
Qed.
Print Assumptions C88_equal_scores.
(** A nominal model refuses the call without latent scores. *)
Theorem C88_nominal_without_scores : forall inv nan_int mc m, nrm_directions inv nan_int mc m None = Err ValueError.
Proof. reflexivity. Qed.
Print Assumptions C88_nominal_without_scores.
(** Finding: with several latent variables the regression reports directions for latent variables an item does
    not depend on.  The nominal item here depends on the first one only. *)
Theorem C88_nominal_refuted : exists m thetas,
  nrm_wf m /\ Forall (fun t => length t = nrm_lv m) thetas /\ nth 1 (nth 0 (nrm_rel m) []) false = false /\
  (forall ts r r' t t', Forall (fun t => length t = nrm_lv m) ts -> nth_error ts r = Some t -> nth_error ts r' = Some t' -> increases_in 1 t t' ->
     exists es e, expected_item_scores 1 2 None (nrm_probabilities m ts) = Ok es /\ at2 es r 0 = Some (Some e) /\ at2 es r' 0 = Some (Some e)) /\
  forall inv nan_int, inverse_exact 3 inv -> nrm_directions inv nan_int None m (Some thetas) = Ok [[1%Z; (-1)%Z]].
Proof.
  exists odd_one, three_scores. split; [exact odd_wf|]. split; [repeat constructor|]. split; [reflexivity|]. split; [|exact odd_reported].
  intros ts r r' t t' HF Hr Hr' (_ & _ & Hinc). destruct (odd_scores ts HF) as (es & E & _ & G). exists es, (logistic (2 * nth 0 t 0)).
  split; [exact E|]. split; [now apply G|]. rewrite (G r' t' Hr'), (Hinc 0%nat) by lia. reflexivity.
Qed.
Print Assumptions C88_nominal_refuted.
Example C88_regression_nonvacuous : exists B, inverse_matrix 3 (gram 3 (design three_scores)) B.
Proof. eexists. exact odd_inverse. Qed.

(** ** C89 sampled responses *)
(** A table of item distributions is accepted; every sampled response is an existing category of its item with
    positive probability, namely the winner of the race of that cell's exponential numbers. *)
Theorem C89_samples : forall q cats M probs p, table cats M probs p ->
  (forall r i, length (q r i) = M /\ Forall (Rlt 0) (q r i)) ->
  exists data, sample_test_data q probs = Ok data /\ length data = length probs /\
    Forall (fun row => length row = length cats) data /\
    forall r i K, (r < length probs)%nat -> nth_error cats i = Some K ->
      exists k, at2 data r i = Some (Some (Z.of_nat k)) /\ (k < K)%nat /\ 0 < p r i k /\
        forall j, (j < M)%nat -> p r i j / nth j (q r i) 0 <= p r i k / nth k (q r i) 0.
Proof. exact sample_table. Qed.
Print Assumptions C89_samples.
(** Every category of an item is sampled for some random numbers. *)
Theorem C89_reachable : forall cats M probs p r i K k, table cats M probs p -> (r < length probs)%nat -> nth_error cats i = Some K -> (k < K)%nat ->
  exists q data, (forall r i, length (q r i) = M /\ Forall (Rlt 0) (q r i)) /\ sample_test_data q probs = Ok data /\ at2 data r i = Some (Some (Z.of_nat k)).
Proof.
  intros cats M probs p r i K k HT Hr EK Hk.
  destruct (nth_error probs r) as [row|] eqn:Er; [|apply nth_error_None in Er; lia]. destruct (HT r row Er) as [L G].
  assert (Hi : (i < length cats)%nat) by (apply nth_error_Some; congruence). destruct (nth_error row i) as [c|] eqn:Ec; [|apply nth_error_None in Ec; lia].
  destruct (G i K c EK Ec) as (HK & Lc & Hc & V). pose proof V as (V0 & V1 & V2 & V3).
  set (qc := map (fun j => if (j =? k)%nat then p r i k / 2 else 1) (seq 0 M)).
  exists (fun _ _ => qc).
  assert (Q : length qc = M /\ Forall (Rlt 0) qc).
  { split; [unfold qc; now rewrite map_length, seq_length|]. apply Forall_forall. intros x Hx. apply in_map_iff in Hx as (j & <- & _). destruct (j =? k)%nat; [pose proof (V2 k Hk); lra|lra]. }
  destruct (sample_table (fun _ _ => qc) cats M probs p HT (fun _ _ => Q)) as (data & E & _ & _ & W). exists data. split; [intros; exact Q|]. split; [exact E|].
  destruct (W r i K Hr EK) as (k' & E1 & Hk' & Hp & Hmax). rewrite E1. do 3 f_equal.
  destruct (Nat.eq_dec k' k) as [|Hne]; [assumption|]. exfalso. specialize (Hmax k ltac:(lia)). unfold qc in Hmax. rewrite !nth_map_seq in Hmax by lia.
  rewrite Nat.eqb_refl in Hmax. destruct (Nat.eqb_spec k' k); [congruence|]. pose proof (V2 k Hk).
  replace (p r i k / (p r i k / 2)) with 2 in Hmax by (field; lra). replace (p r i k' / 1) with (p r i k') in Hmax by field.
  pose proof (prob_range K M (p r i) k' V ltac:(lia)). lra.
Qed.
Print Assumptions C89_reachable.
(** The tables of models built on a softmax are of this kind. *)
Theorem C89_softmax : forall q cats M out z, cats <> [] -> (0 < M)%nat -> Forall (fun o => length o = (length cats * M)%nat) out ->
  (forall r row i K, nth_error out r = Some row -> nth_error cats i = Some K -> (1 <= K <= M)%nat /\
     forall k, (k < M)%nat -> nth_error row (i * M + k) = Some (if (k <? K)%nat then Fin (z r i k) else NInf)) ->
  (forall r i, length (q r i) = M /\ Forall (Rlt 0) (q r i)) ->
  exists data, sample_test_data q (probabilities_from_output (length cats) M out) = Ok data /\ length data = length out /\
    forall r i K, (r < length out)%nat -> nth_error cats i = Some K -> exists k, at2 data r i = Some (Some (Z.of_nat k)) /\ (k < K)%nat.
Proof.
  intros q cats M out z Hc HM HF H Hq. destruct (sample_table q cats M _ _ (softmax_table cats M out z Hc HM HF H) Hq) as (data & E & L & _ & G).
  assert (Hn : (0 < length cats)%nat) by (destruct cats; [congruence|cbn; lia]). destruct (probabilities_shape (length cats) M out Hn HM HF) as [LL _].
  exists data. split; [exact E|]. split; [congruence|]. intros r i K Hr EK. destruct (G r i K ltac:(lia) EK) as (k & E1 & Hk & _). exists k. auto.
Qed.
Print Assumptions C89_softmax.
Theorem C89_two_parameter : forall q m thetas, tpl_wf m -> (0 < tpl_items m)%nat -> Forall (fun t => length t = tpl_lv m) thetas ->
  (forall r i, length (q r i) = 2%nat /\ Forall (Rlt 0) (q r i)) ->
  exists data, sample_test_data q (tpl_probabilities m thetas) = Ok data /\ length data = length thetas /\
    forall r t i, nth_error thetas r = Some t -> (i < tpl_items m)%nat ->
      let c := logistic (predictor (tpl_lv m) (slope (tpl_free m) (tpl_w m) i) t + nth i (tpl_b m) 0) in
      (c / nth 1 (q r i) 0 < (1 - c) / nth 0 (q r i) 0 -> at2 data r i = Some (Some 0%Z)) /\
      ((1 - c) / nth 0 (q r i) 0 < c / nth 1 (q r i) 0 -> at2 data r i = Some (Some 1%Z)).
Proof.
  intros q m thetas Hwf Hn HF Hq. destruct (tpl_row_model m Hwf Hn thetas HF) as [L T].
  destruct (sample_table q _ 2 _ _ T Hq) as (data & E & Ld & _ & G). exists data. split; [exact E|]. split; [congruence|].
  intros r t i Hr Hi c. assert (Hrl : (r < length thetas)%nat) by (apply nth_error_Some; congruence).
  destruct (G r i 2%nat ltac:(lia) (nth_error_repeat_lt _ _ _ Hi)) as (k & E1 & Hk & _ & W). rewrite (nth_error_nth _ _ [] Hr) in W.
  pose proof (W 0%nat ltac:(lia)) as W0. pose proof (W 1%nat ltac:(lia)) as W1. unfold tpl_p in W0, W1. fold c in W0, W1. rewrite E1.
  destruct k as [|[|k]]; [| |lia]; cbv zeta in W0, W1; split; intro Hlt; try reflexivity; lra.
Qed.
Print Assumptions C89_two_parameter.
(** NaN or a negative probability anywhere: the whole call is refused. *)
Theorem C89_refused : forall q probs r i k,
  at3 probs r i k = Some None \/ (exists x, at3 probs r i k = Some (Some x) /\ x < 0) -> sample_test_data q probs = Err ValueError.
Proof. exact sample_refused. Qed.
Print Assumptions C89_refused.
(** Finding: a graded response model whose intercepts cross, which neither constructor nor fit prevents, cannot be
    sampled from at all. *)
Theorem C89_graded_refuted : forall q m thetas r t i K k,
  poly_wf m -> Forall (fun t => length t = p_lv m) thetas -> nth_error thetas r = Some t -> nth_error (p_cats m) i = Some K ->
  (1 <= k)%nat -> (S k < K)%nat -> intercept (p_cats m) (p_b m) i k < intercept (p_cats m) (p_b m) i (S k) ->
  sample_test_data q (some3 (grm_probabilities m thetas)) = Err ValueError.
Proof.
  intros q m thetas r t i K k Hwf HF Hr HK Hk HSk Hlt. pose proof Hwf as (_ & Hc & _). destruct (cats_pos_bound _ _ _ Hc HK) as [HKM _].
  apply (sample_refused q _ r i k). right.
  set (z := fun k => predictor (p_lv m) (slope (p_free m) (p_w m) i) t + intercept (p_cats m) (p_b m) i k).
  exists (geq_probability K z k - geq_probability K z (S k)). split.
  - apply some3_at3. apply (grm_probs_spec m thetas r t i K k Hwf HF Hr HK). unfold p_max. lia.
  - apply Rnot_le_lt. intro H. apply (grm_diff_sign K z k ltac:(lia)) in H; auto. unfold z in H. lra.
Qed.
Print Assumptions C89_graded_refuted.
Definition ex_grm : poly := {| p_cats := [3%nat]; p_lv := 1; p_free := [[true]]; p_w := [1]; p_b := [0; 1] |}.
Example C89_nonvacuous : poly_wf ex_grm /\ intercept (p_cats ex_grm) (p_b ex_grm) 0 1 < intercept (p_cats ex_grm) (p_b ex_grm) 0 2 /\
  exists p, table [2%nat; 2%nat] 2 (tpl_probabilities ex_tpl [[0; 0]; [0; 1]]) p.
Proof.
  split; [unfold poly_wf; cbn; repeat split; auto; repeat constructor|]. split; [cbn; lra|].
  assert (W : tpl_wf ex_tpl) by (unfold tpl_wf; cbn; repeat split; auto; repeat constructor).
  destruct (tpl_row_model ex_tpl W ltac:(cbn; lia) [[0; 0]; [0; 1]] ltac:(repeat constructor)) as [_ T]. eexists. exact T.
Qed.

(** ** C90 population difficulty and discrimination *)
(** Difficulty: one minus the mean expected share of the maximum score (with a key: the mean probability of the
    correct category); between 0 and 1. *)
Theorem C90_difficulty : forall lv cats M mc probs p thetas i K,
  row_model lv cats M probs p -> valid_key cats mc -> (forall i K, nth_error cats i = Some K -> (K <= M)%nat) ->
  Forall (fun t => length t = lv) thetas -> thetas <> [] -> nth_error cats i = Some K -> (2 <= K)%nat ->
  exists ds x, population_difficulty cats M mc (probs thetas) = Ok ds /\ length ds = length cats /\ nth_error ds i = Some (Some x) /\
    x = 1 - population_mean (fun t => expected_share M mc K (p t) i) thetas /\ 0 < x < 1.
Proof.
  intros lv cats M mc probs p thetas i K HR HV HM HF Hne EK HK.
  destruct (difficulty_at lv cats M mc probs p HR HV HM thetas i K HF Hne EK (or_intror HK)) as (ds & E & L & G).
  destruct (difficulty_range lv cats M mc probs p HR HV HM thetas i K HF Hne EK HK) as (ds' & x & E' & G' & B).
  assert (ds' = ds) by congruence. subst ds'. exists ds, x. split; [exact E|]. split; [exact L|]. split; [exact G'|]. split; [|exact B].
  assert (x = sumn (length thetas) (fun r => 1 - expected_share M mc K (p (nth r thetas [])) i) / INR (length thetas)) as -> by congruence.
  rewrite (mean_rows_sum (fun t => expected_share M mc K (p t) i) thetas []). rewrite sumn_minus, sumn_const. field.
  apply not_0_INR. destruct thetas; [congruence|cbn; lia].
Qed.
Print Assumptions C90_difficulty.
(** A population in which every respondent is expected to score higher finds the item easier. *)
Theorem C90_abler_population : forall lv cats M mc probs p thetas thetas' i K,
  row_model lv cats M probs p -> valid_key cats mc -> (forall i K, nth_error cats i = Some K -> (K <= M)%nat) ->
  Forall (fun t => length t = lv) thetas -> Forall (fun t => length t = lv) thetas' -> length thetas = length thetas' -> thetas <> [] ->
  nth_error cats i = Some K -> (2 <= K)%nat ->
  (forall r, (r < length thetas)%nat -> expected_share M mc K (p (nth r thetas [])) i < expected_share M mc K (p (nth r thetas' [])) i) ->
  exists ds ds' x x', population_difficulty cats M mc (probs thetas) = Ok ds /\ population_difficulty cats M mc (probs thetas') = Ok ds' /\
    nth_error ds i = Some (Some x) /\ nth_error ds' i = Some (Some x') /\ x' < x.
Proof.
  intros lv cats M mc probs p thetas thetas' i K HR HV HM HF HF' HL Hne EK HK H.
  exact (difficulty_order lv cats M mc probs p HR HV HM thetas thetas' i K HF HF' HL Hne EK (or_intror HK) H).
Qed.
Print Assumptions C90_abler_population.
(** Discrimination of item [i] on latent variable [d]: the mean over the population of the derivative of the
    expected share by that latent variable, provided autograd computes derivatives. *)
Theorem C90_discrimination : forall lv cats M mc probs p grad thetas i K d D,
  row_model lv cats M probs p -> valid_key cats mc -> (forall i K, nth_error cats i = Some K -> (K <= M)%nat) -> autograd_exact grad ->
  Forall (fun t => length t = lv) thetas -> thetas <> [] -> nth_error cats i = Some K -> (2 <= K)%nat -> (d < lv)%nat ->
  (forall t, In t thetas -> derivable_pt_lim (fun x => expected_share M mc K (p (upd d x t)) i) (nth d t 0) (D t)) ->
  exists g, population_discrimination grad lv cats M mc probs thetas = Ok g /\ length g = length cats /\
    at2 g i d = Some (Some (population_mean D thetas)).
Proof.
  intros lv cats M mc probs p grad thetas i K d D HR HV HM HG HF Hne EK HK Hd HD.
  exact (discrimination_entry lv cats M mc probs p HR HV HM grad thetas i K d D HG HF Hne EK (or_intror HK) Hd HD).
Qed.
Print Assumptions C90_discrimination.
(** Difficulty and discrimination belong together: moving the whole population by [h] in latent variable [d]
    changes the difficulty at the rate of minus the discrimination. *)
Theorem C90_shift : forall lv cats M mc probs p grad thetas i K d D,
  row_model lv cats M probs p -> valid_key cats mc -> (forall i K, nth_error cats i = Some K -> (K <= M)%nat) -> autograd_exact grad ->
  Forall (fun t => length t = lv) thetas -> thetas <> [] -> nth_error cats i = Some K -> (2 <= K)%nat -> (d < lv)%nat ->
  (forall t, In t thetas -> derivable_pt_lim (fun x => expected_share M mc K (p (upd d x t)) i) (nth d t 0) (D t)) ->
  exists g a f, population_discrimination grad lv cats M mc probs thetas = Ok g /\ at2 g i d = Some (Some a) /\
    (forall h, exists ds, population_difficulty cats M mc (probs (shifted d h thetas)) = Ok ds /\ nth_error ds i = Some (Some (f h))) /\
    derivable_pt_lim f 0 (- a).
Proof.
  intros lv cats M mc probs p grad thetas i K d D HR HV HM HG HF Hne EK HK Hd HD.
  destruct (discrimination_entry lv cats M mc probs p HR HV HM grad thetas i K d D HG HF Hne EK (or_intror HK) Hd HD) as (g & E & _ & G).
  destruct (difficulty_shift lv cats M mc probs p HR HV HM thetas i K d D HF Hne EK (or_intror HK) Hd HD) as (f & F1 & F2).
  exists g, (population_mean D thetas), f. auto.
Qed.
Print Assumptions C90_shift.
(** Never negative when the expected share does not decrease in that latent variable. *)
Theorem C90_discrimination_sign : forall lv cats M mc probs p grad thetas i K d D,
  row_model lv cats M probs p -> valid_key cats mc -> (forall i K, nth_error cats i = Some K -> (K <= M)%nat) -> autograd_exact grad ->
  Forall (fun t => length t = lv) thetas -> thetas <> [] -> nth_error cats i = Some K -> (2 <= K)%nat -> (d < lv)%nat ->
  (forall t, In t thetas -> derivable_pt_lim (fun x => expected_share M mc K (p (upd d x t)) i) (nth d t 0) (D t)) ->
  (forall t t', length t = lv -> increases_in d t t' -> expected_share M mc K (p t) i <= expected_share M mc K (p t') i) ->
  exists g x, population_discrimination grad lv cats M mc probs thetas = Ok g /\ at2 g i d = Some (Some x) /\ 0 <= x.
Proof.
  intros lv cats M mc probs p grad thetas i K d D HR HV HM HG HF Hne EK HK Hd HD Hm.
  exact (discrimination_sign lv cats M mc probs p HR HV HM grad thetas i K d D HG HF Hne EK (or_intror HK) Hd HD Hm).
Qed.
Print Assumptions C90_discrimination_sign.
(** Two parameter logistic: 1 minus the mean probability of success, and the mean of a_d P (1 - P). *)
Theorem C90_two_parameter : forall grad m thetas i d, tpl_wf m -> autograd_exact grad ->
  Forall (fun t => length t = tpl_lv m) thetas -> thetas <> [] -> (i < tpl_items m)%nat -> (d < tpl_lv m)%nat ->
  let P t := logistic (predictor (tpl_lv m) (slope (tpl_free m) (tpl_w m) i) t + nth i (tpl_b m) 0) in
  let cats := repeat 2%nat (tpl_items m) in
  exists ds g, population_difficulty cats 2 None (tpl_probabilities m thetas) = Ok ds /\
    nth_error ds i = Some (Some (1 - population_mean P thetas)) /\
    population_discrimination grad (tpl_lv m) cats 2 None (tpl_probabilities m) thetas = Ok g /\
    at2 g i d = Some (Some (population_mean (fun t => slope (tpl_free m) (tpl_w m) i d * P t * (1 - P t)) thetas)).
Proof.
  intros grad m thetas i d Hwf HG HF Hne Hi Hd P cats. assert (Hn : (0 < tpl_items m)%nat) by lia.
  assert (EK : nth_error cats i = Some 2%nat) by (now apply nth_error_repeat_lt).
  assert (HM : forall i K, nth_error cats i = Some K -> (K <= 2)%nat) by (intros j K H; apply nth_error_In, repeat_spec in H; lia).
  destruct (C90_difficulty _ cats 2 None (tpl_probabilities m) (tpl_p m) thetas i 2 (tpl_row_model m Hwf Hn) I HM HF Hne EK ltac:(lia)) as (ds & x & E & _ & G & X & _).
  destruct (C90_discrimination _ cats 2 None (tpl_probabilities m) (tpl_p m) grad thetas i 2 d (fun t => slope (tpl_free m) (tpl_w m) i d * P t * (1 - P t)) (tpl_row_model m Hwf Hn) I HM HG HF Hne EK ltac:(lia) Hd) as (g & E2 & _ & G2).
  { intros t Ht. rewrite Forall_forall in HF. apply tpl_share_derivative; auto. }
  exists ds, g. split; [exact E|]. split; [|auto]. rewrite G, X. do 3 f_equal. unfold population_mean. do 2 f_equal. apply map_ext. intro t. now apply tpl_share.
Qed.
Print Assumptions C90_two_parameter.
(** Finding: an item with a single category, unless there is a key, has difficulty and discrimination NaN (0 / 0). *)
Theorem C90_single_category_refuted : forall lv cats M mc probs p grad thetas i d,
  row_model lv cats M probs p -> valid_key cats mc -> (forall i K, nth_error cats i = Some K -> (K <= M)%nat) ->
  Forall (fun t => length t = lv) thetas -> thetas <> [] -> nth_error cats i = Some 1%nat -> mc = None -> (d < lv)%nat ->
  exists ds g, population_difficulty cats M mc (probs thetas) = Ok ds /\ nth_error ds i = Some None /\
    population_discrimination grad lv cats M mc probs thetas = Ok g /\ at2 g i d = Some None.
Proof.
  intros lv cats M mc probs p grad thetas i d HR HV HM HF Hne EK -> Hd. destruct (HR thetas HF) as [L T].
  destruct (difficulty_entry cats M None (probs thetas) _ T HV HM) as (ds & E & _ & G).
  assert (Hp : probs thetas <> []) by (intro Hp; rewrite Hp in L; destruct thetas; [congruence|discriminate]).
  destruct (discrimination_nan lv cats M None probs p HR HV HM grad thetas i d HF Hne EK eq_refl Hd) as (g & E2 & G2).
  exists ds, g. split; [exact E|]. split; [|auto]. exact (proj2 (G i 1%nat EK Hp) eq_refl eq_refl).
Qed.
Print Assumptions C90_single_category_refuted.
Example C90_nonvacuous :
  tpl_wf ex_tpl /\ row_model 2 [2%nat; 2%nat] 2 (tpl_probabilities ex_tpl) (tpl_p ex_tpl) /\ valid_key [2%nat; 2%nat] (Some [1; 0]%Z) /\
  (exists ds, population_difficulty [2%nat; 2%nat] 2 (Some [1; 0]%Z) (tpl_probabilities ex_tpl [[0; 0]; [0; 1]]) = Ok ds /\ nth_error ds 0 = Some (Some (1 - / 2))) /\
  row_model 1 [1%nat] 1 (map (fun _ => [[Some 1]])) (fun _ _ _ => 1).
Proof.
  assert (W : tpl_wf ex_tpl) by (unfold tpl_wf; cbn; repeat split; auto; repeat constructor).
  split; [exact W|]. pose proof (tpl_row_model ex_tpl W ltac:(cbn; lia)) as T. split; [exact T|].
  assert (V : valid_key [2%nat; 2%nat] (Some [1; 0]%Z)).
  { split; [reflexivity|]. intros [|[|i]] z H; cbn in H; [| |destruct i; discriminate]; injection H as <-; cbn; lia. }
  split; [exact V|]. split.
  - destruct (C90_difficulty 2 [2%nat; 2%nat] 2 (Some [1; 0]%Z) (tpl_probabilities ex_tpl) (tpl_p ex_tpl) [[0; 0]; [0; 1]] 0 2 T V) as (ds & x & E & _ & G & X & _);
      try reflexivity; try lia; try discriminate; [|repeat constructor|].
    + intros [|[|i]] K H; cbn in H; [injection H as <-; lia|injection H as <-; lia|destruct i; discriminate].
    + exists ds. split; [exact E|]. rewrite G, X. do 3 f_equal. unfold population_mean, expected_share, tpl_p, predictor, slope. cbn.
      change (Pos.to_nat 1) with 1%nat. cbn. unfold logistic.
      replace (- (0 + 1 * 0 + 0 * 0 + 0)) with 0 by ring. replace (- (0 + 1 * 0 + 0 * 1 + 0)) with 0 by ring. rewrite exp_0. field.
  - intros thetas HF. split; [apply map_length|]. intros r row Hr. rewrite nth_error_map in Hr. destruct (nth_error thetas r); [|discriminate]. injection Hr as <-. split; [reflexivity|].
    intros [|i] K c HK Hc; [|destruct i; discriminate]. injection HK as <-. injection Hc as <-. split; [lia|]. split; [reflexivity|]. split.
    + intros [|k] Hk; [reflexivity|lia].
    + split; [intros; lra|]. split; [cbn; lra|]. split; [intros; lra|intros; lia].
Qed.

(** ** C91 posterior intervals and samples of the variational autoencoder *)
(** Interval for 0 < alpha < 1: around the reported posterior mean, symmetric, alpha / 2 of the posterior (normal
    with the standard deviation latent_mean_se reports) below it and alpha / 2 above it. *)
Theorem C91_interval : forall erf erfinv alpha mean logvar r j mu,
  inverse_erf erf erfinv -> 0 < alpha < 1 -> same_shape mean logvar -> at2 mean r j = Some mu ->
  let '(lower, mid, upper) := latent_credible_interval erfinv alpha (mean, logvar) in
  let '(m, se) := latent_mean_se (mean, logvar) in
  exists lo up s, at2 lower r j = Some (Some (Fin lo)) /\ at2 mid r j = Some mu /\ at2 upper r j = Some (Some (Fin up)) /\
    at2 m r j = Some mu /\ at2 se r j = Some s /\ 0 < s /\ lo < mu < up /\ mu - lo = up - mu /\
    normal_cdf erf mu s lo = alpha / 2 /\ normal_cdf erf mu s up = 1 - alpha / 2.
Proof.
  intros erf erfinv alpha mean logvar r j mu HE Ha HS Hmu. unfold latent_credible_interval, latent_mean_se. cbn [fst snd].
  destruct (same_shape_at _ _ _ _ _ HS Hmu) as (v & Hv). destruct (interval_cell erf erfinv HE alpha mu v Ha) as (lo & up & E1 & E2 & B & S & C1 & C2).
  exists lo, up, (exp (/ 2 * v)). rewrite !at2_zip, Hmu, Hv, E1, E2. split; [reflexivity|]. split; [reflexivity|]. split; [reflexivity|]. split; [reflexivity|].
  split; [unfold at2 in *; rewrite nth_error_map; destruct (nth_error logvar r); [|discriminate]; cbn [option_map]; rewrite nth_error_map, Hv; reflexivity|].
  split; [apply exp_pos|]. auto.
Qed.
Print Assumptions C91_interval.
(** A smaller alpha gives a strictly wider interval. *)
Theorem C91_nested : forall erf erfinv alpha alpha' mean logvar r j mu,
  inverse_erf erf erfinv -> 0 < alpha < alpha' -> alpha' < 1 -> same_shape mean logvar -> at2 mean r j = Some mu ->
  let '(lower, _, upper) := latent_credible_interval erfinv alpha (mean, logvar) in
  let '(lower', _, upper') := latent_credible_interval erfinv alpha' (mean, logvar) in
  exists lo lo' up' up, at2 lower r j = Some (Some (Fin lo)) /\ at2 lower' r j = Some (Some (Fin lo')) /\
    at2 upper' r j = Some (Some (Fin up')) /\ at2 upper r j = Some (Some (Fin up)) /\ lo < lo' /\ lo' < up' /\ up' < up.
Proof.
  intros erf erfinv alpha alpha' mean logvar r j mu HE Ha Ha' HS Hmu. unfold latent_credible_interval.
  destruct (same_shape_at _ _ _ _ _ HS Hmu) as (v & Hv).
  destruct (interval_cell erf erfinv HE alpha mu v ltac:(lra)) as (lo & up & E1 & E2 & B & _). destruct (interval_cell erf erfinv HE alpha' mu v ltac:(lra)) as (lo' & up' & E1' & E2' & B' & _).
  destruct (interval_nested erf erfinv HE alpha alpha' mu v lo up lo' up' Ha Ha' E1 E2 E1' E2') as [N1 N2].
  exists lo, lo', up', up. rewrite !at2_zip, Hmu, Hv, E1, E2, E1', E2'. split; [reflexivity|]. split; [reflexivity|]. split; [reflexivity|]. split; [reflexivity|]. split; [lra|]. split; lra.
Qed.
Print Assumptions C91_nested.
(** Finding: alpha is not checked.  Between 1 and 2 the lower bound lies above the upper one, outside 0..2 both
    are NaN. *)
Theorem C91_alpha_refuted : forall erf erfinv alpha mean logvar r j mu,
  inverse_erf erf erfinv -> same_shape mean logvar -> at2 mean r j = Some mu ->
  let '(lower, _, upper) := latent_credible_interval erfinv alpha (mean, logvar) in
  (1 < alpha < 2 -> exists lo up, at2 lower r j = Some (Some (Fin lo)) /\ at2 upper r j = Some (Some (Fin up)) /\ up < mu < lo) /\
  (alpha < 0 \/ 2 < alpha -> at2 lower r j = Some None /\ at2 upper r j = Some None).
Proof.
  intros erf erfinv alpha mean logvar r j mu HE HS Hmu. unfold latent_credible_interval. destruct (same_shape_at _ _ _ _ _ HS Hmu) as (v & Hv). split; intro Ha.
  - destruct (interval_crossed erf erfinv HE alpha mu v Ha) as (lo & up & E1 & E2 & B). exists lo, up. rewrite !at2_zip, Hmu, Hv, E1, E2. auto.
  - destruct (interval_nan erf erfinv HE alpha mu (exp (/ 2 * v)) Ha) as [E1 E2]. rewrite !at2_zip, Hmu, Hv, E1, E2. auto.
Qed.
Print Assumptions C91_alpha_refuted.
(** Samples: the requested number of rows; row [s] is the posterior mean of the respondent picked for it plus the
    noise times that respondent's posterior standard deviation. *)
Theorem C91_samples : forall draw pick eps encode a key cats n d rows d' mean_of logvar_of,
  sampling_input draw a key cats d = (Ok rows, d') -> rows <> [] ->
  (forall x, encode x = Ok (map mean_of x, map logvar_of x)) -> length eps = n ->
  exists out, sample_latent_variables draw pick eps encode a key cats n d = (Ok out, d') /\ length out = n /\
    forall s j mu v e, nth_error (mean_of (nth (pick s) rows [])) j = Some mu -> nth_error (logvar_of (nth (pick s) rows [])) j = Some v -> at2 eps s j = Some e ->
      at2 out s j = Some (mu + e * exp (/ 2 * v)).
Proof. exact sample_rows. Qed.
Print Assumptions C91_samples.
(** No respondents: an error, not an empty sample. *)
Theorem C91_no_respondents : forall draw pick eps encode a key cats n d d', sampling_input draw a key cats d = (Ok [], d') ->
  sample_latent_variables draw pick eps encode a key cats n d = (Err RuntimeError, d').
Proof. exact sample_empty. Qed.
Print Assumptions C91_no_respondents.
(** An algorithm which has kept its imputation method feeds the encoder what it was trained on. *)
Theorem C91_input_as_trained : forall draw a one_hot m key cats d, al_one_hot a = Some one_hot -> al_imputation a = Some m ->
  sampling_input draw a key cats d = train_input draw one_hot (Some m) key cats d.
Proof. intros draw a one_hot m key cats d H1 H2. unfold sampling_input. rewrite H1, H2. destruct one_hot; reflexivity. Qed.
Print Assumptions C91_input_as_trained.
(** Finding: the imputation method of the fit is not kept.  The encoder of a model trained on zero-imputed scores
    (not one-hot coded) is fed NaN or -1 for a missing response when sampling, where it was trained on 0. *)
Theorem C91_imputation_refuted : forall draw draw' key cats d r c x, at_ (m_rows d) r c = Some x -> Missing x ->
  exists trained sampled, fst (train_input draw' false (Some IZero) key cats d) = Ok trained /\ at_ trained r c = Some (Some 0%Q) /\
    sampling_input draw (vae_fitted false (Some IZero) vae_new) key cats d = (Ok sampled, d) /\
    at_ sampled r c = Some (to_q x) /\ (to_q x = None \/ to_q x = Some (inject_Z (-1))).
Proof.
  intros draw draw' key cats d r c x Hx Hm. destruct (vae_trained_zero draw' key cats d r c x Hx Hm) as (y & E & E1 & E2 & E3).
  exists y, (map (map to_q) (m_rows d)). split; [exact E|]. split; [exact E1|]. split; [apply vae_raw|]. auto.
Qed.
Print Assumptions C91_imputation_refuted.
(** Finding: sampling from a model trained on one-hot codes overwrites every NaN of the data passed (by default
    the stored training data) by -1. *)
Theorem C91_data_overwritten_refuted : forall draw m key cats d,
  m_dim d = 2%nat -> m_cols d = length cats -> holds_nan d ->
  let d' := snd (sampling_input draw (vae_fitted true m vae_new) key cats d) in
  d' <> d /\ forall r c x, at_ (m_rows d) r c = Some x -> at_ (m_rows d') r c = Some (match x with None => Some (-1)%Z | Some z => Some z end).
Proof.
  intros draw m key cats d Hd Hc Hn d'. assert (E : d' = fill_nan d).
  { unfold d', sampling_input. cbn [vae_fitted al_one_hot al_imputation vae_new]. unfold train_input, one_hot_encode. rewrite Hd, Hc, !Nat.eqb_refl. reflexivity. }
  rewrite E. split.
  - intros F. apply fill_nan_id in F. destruct Hn as (row & Hr & Hx). exact (F row None Hr Hx eq_refl).
  - intros r c x Hx. cbn [fill_nan m_rows]. rewrite at_map, Hx. destruct x; reflexivity.
Qed.
Print Assumptions C91_data_overwritten_refuted.

(** x / (1 + |x|) in the place of erf. *)
Definition ex_erf (x : R) : R := x / (1 + Rabs x).
Definition ex_erfinv (y : R) : fl :=
  if Rlt_dec (-1) y then (if Rlt_dec y 1 then Some (Fin (y / (1 - Rabs y))) else if Req_EM_T y 1 then Some PInf else None)
  else if Req_EM_T y (-1) then Some NInf else None.
Example C91_nonvacuous : inverse_erf ex_erf ex_erfinv /\ same_shape [[0; 1]] [[0; 2]] /\ Missing (Some (-1)%Z) /\
  sampling_input (fun _ _ _ => 0%nat) (vae_fitted true None vae_new) None [2%nat; 2%nat] (Mat 2 2 [[Some 1%Z; None]]) =
    (Ok [[Some (inject_Z 0); Some (inject_Z 1); Some (inject_Z 0); Some (inject_Z 0)]], Mat 2 2 [[Some 1%Z; Some (-1)%Z]]).
Proof.
  split; [|split; [split; [reflexivity|]; intros [|r] u v H1 H2; cbn in *; [injection H1 as <-; injection H2 as <-; reflexivity|destruct r; discriminate]|split; [right; reflexivity|reflexivity]]].
  unfold inverse_erf, ex_erf, ex_erfinv. repeat split.
  - intros x y H. assert (A : 0 <= Rabs x) by apply Rabs_pos. assert (B : 0 <= Rabs y) by apply Rabs_pos.
    apply (Rmult_lt_reg_r ((1 + Rabs x) * (1 + Rabs y))); [nra|].
    replace (x / (1 + Rabs x) * ((1 + Rabs x) * (1 + Rabs y))) with (x * (1 + Rabs y)) by (field; lra).
    replace (y / (1 + Rabs y) * ((1 + Rabs x) * (1 + Rabs y))) with (y * (1 + Rabs x)) by (field; lra).
    unfold Rabs in *. destruct (Rcase_abs x), (Rcase_abs y); nra.
  - intro x. rewrite Rabs_Ropp. field. pose proof (Rabs_pos x). lra.
  - intros x Hx. destruct (Rlt_dec (-1) x); [|lra]. destruct (Rlt_dec x 1); [|lra]. eexists. split; [reflexivity|].
    assert (0 < 1 - Rabs x) by (unfold Rabs; destruct (Rcase_abs x); lra).
    unfold Rdiv at 3. rewrite Rabs_mult, (Rabs_right (/ (1 - Rabs x))) by (left; now apply Rinv_0_lt_compat). field. lra.
  - destruct (Rlt_dec (-1) (-1)); [lra|]. destruct (Req_EM_T (-1) (-1)); [reflexivity|lra].
  - destruct (Rlt_dec (-1) 1); [|lra]. destruct (Rlt_dec 1 1); [lra|]. destruct (Req_EM_T 1 1); [reflexivity|lra].
  - intros x Hx. destruct (Rlt_dec (-1) x).
    + destruct (Rlt_dec x 1); [lra|]. destruct (Req_EM_T x 1); [lra|reflexivity].
    + destruct (Req_EM_T x (-1)); [lra|reflexivity].
Qed.
