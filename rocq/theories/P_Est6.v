(** EAP entry point, failing starting values, random guessing. *)
From Verif Require Import Base BaseFacts RBase RFacts M_Data M_CV M_Logit M_Lik S_Lik P_CV P_Lik1 P_Lik3 M_Est S_Est P_Est1 P_Est3 P_Est4 P_Est5.
Local Open Scope R_scope.

(** ** EAP *)
Section EAP.
  Variables (m : emodel) (p : list R -> nat -> nat -> R) (mvn : list (list (option R)) -> result (list R -> R)).
  Hypotheses (Hm : has_probabilities m p) (Hr : rowwise m) (HI : (0 < em_items m)%nat) (Hlv : (em_lv m <= 4)%nat).
  Variables (gp : option nat) (data : list (list cell)).
  Let g := match gp with Some g => g | None => eap_default_points (em_lv m) end.
  Hypotheses (Hd : legal_data (em_cats m) data) (Hne : data <> []).

  Lemma scores_between grid prior row d lo hi : Forall (fun t => length t = em_lv m) grid -> legal_row (em_cats m) row ->
    (forall t, 0 < prior t) -> (exists t, In t grid /\ 0 < likelihood p t row) -> (forall t, In t grid -> lo <= nth d t 0 <= hi) ->
    lo <= posterior_mean p grid prior row d <= hi.
  Proof.
    intros HF Hrow Hp (t0 & Ht0 & Hl0) Hb. unfold posterior_mean.
    assert (Hw : forall t, In t grid -> 0 <= prior t * likelihood p t row).
    { intros t Ht. apply Rmult_le_pos; [left; auto|]. apply likelihood_nonneg with (m := m); auto. rewrite Forall_forall in HF. auto. }
    apply (weighted_average_bounds (fun t => prior t * likelihood p t row) (fun t => nth d t 0) grid lo hi); auto.
    apply rsum_pos.
    - apply Forall_forall. intros x Hx. apply in_map_iff in Hx as (t & <- & Ht). auto.
    - apply Exists_exists. eexists. split; [apply in_map; exact Ht0|]. cbn beta. now apply Rmult_lt_0_compat.
  Qed.
  Lemma eap_fitted a scores logpdf : al_training a = Some (Some scores) -> scores <> [] -> (0 < g)%nat ->
    mvn (covariance (em_lv m) scores) = Ok logpdf ->
    exists grid, theta_grid (em_lv m) scores g = Ok grid /\ grid <> [] /\ Forall (fun t => length t = em_lv m) grid /\
      (Forall (fun row => exists t, In t grid /\ 0 < likelihood p t row) data ->
       eap_theta_scores mvn m a gp (Wide (em_items m) data) =
       Ok (map (fun row => map (fun d => Some (Fin (posterior_mean p grid (fun t => exp (logpdf t)) row d))) (seq 0 (em_lv m))) data)).
  Proof.
    intros Ha Hs Hg Hmvn. destruct (theta_grid (em_lv m) scores g) as [grid|e] eqn:Eg.
    2:{ unfold theta_grid in Eg. destruct scores; [congruence|discriminate]. }
    assert (HF : Forall (fun t => length t = em_lv m) grid).
    { apply Forall_forall. intros t Ht. now apply (in_grid (em_lv m) g scores grid Hs Eg) in Ht as [H _]. }
    assert (Hgne : grid <> []).
    { intro E. pose proof (grid_length (em_lv m) g scores grid Hs Eg) as H. rewrite E in H. cbn [length] in H.
      symmetry in H. apply Nat.pow_eq_0_iff in H. lia. }
    exists grid. split; [auto|]. split; [auto|]. split; [auto|]. intro Hpos.
    unfold eap_theta_scores. destruct (Nat.ltb_spec 4 (em_lv m)); [lia|]. rewrite Ha. fold g. rewrite Eg. cbn [bind fst snd].
    rewrite Hmvn. cbn [bind].
    apply (eap_posterior_mean m p grid logpdf data); auto; [destruct grid; [congruence|cbn [length]; lia]|].
    eapply Forall_impl; [|exact Hpos]. intros row Hrow. apply Exists_exists. exact Hrow.
  Qed.
  Lemma eap_unfitted logpdf : (0 < g)%nat -> mvn (map (map Some) (identity (em_lv m))) = Ok logpdf ->
    exists grid, grid = product (repeat (linspace (-3) 3 g) (em_lv m)) /\ Forall (fun t => length t = em_lv m) grid /\
      (Forall (fun row => exists t, In t grid /\ 0 < likelihood p t row) data ->
       eap_theta_scores mvn m no_algorithm gp (Wide (em_items m) data) =
       Ok (map (fun row => map (fun d => Some (Fin (posterior_mean p grid (fun t => exp (logpdf t)) row d))) (seq 0 (em_lv m))) data)).
  Proof.
    intros Hg Hmvn. exists (product (repeat (linspace (-3) 3 g) (em_lv m))). split; [auto|].
    assert (HF : Forall (fun t => length t = em_lv m) (product (repeat (linspace (-3) 3 g) (em_lv m)))).
    { apply Forall_forall. intros t Ht. apply in_product in Ht. apply Forall2_len in Ht. now rewrite repeat_length in Ht. }
    split; [auto|]. intro Hpos.
    unfold eap_theta_scores. destruct (Nat.ltb_spec 4 (em_lv m)); [lia|]. cbn [al_training al_covariance no_algorithm]. fold g. cbn [bind fst snd].
    rewrite Hmvn. cbn [bind].
    apply (eap_posterior_mean m p _ logpdf data); auto.
    2:{ eapply Forall_impl; [|exact Hpos]. intros row Hrow. apply Exists_exists. exact Hrow. }
    destruct (product _) as [|t0 ts] eqn:E; [exfalso|cbn [length]; lia].
    destruct data as [|row data']; [congruence|]. inversion Hpos as [|? ? (t & Ht & _) _]. destruct Ht.
  Qed.
End EAP.

(** ** Starting values that are not the best scores *)
Lemma table_best nanl lv cats fwd thetas data : exists e, best_scores (of_sub (table_sub nanl lv cats fwd)) thetas data = Err e.
Proof. eexists. reflexivity. Qed.
Lemma table_initial perm nanl lv cats fwd training data : (Z.of_nat (length (w_rows data)) <= 500000)%Z ->
  initial_theta perm (of_sub (table_sub nanl lv cats fwd)) training data = repeat (repeat 0 lv) (length (w_rows data)).
Proof.
  intro Hs. unfold initial_theta. destruct (Z.ltb_spec 500000 (Z.of_nat (length (w_rows data)))); [lia|].
  destruct (table_best nanl lv cats fwd training data) as [e ->].
  destruct (table_best nanl lv cats fwd (index_rows (firstn (Z.to_nat (1000000 / Z.of_nat (length (w_rows data)))) perm) training) data) as [e' ->].
  destruct (1000000 <? _)%Z; reflexivity.
Qed.
Lemma huge_initial perm m training data : (500000 < Z.of_nat (length (w_rows data)))%Z ->
  (1000000 < Z.of_nat (length (w_rows data)) * Z.of_nat (length training))%Z ->
  exists t, initial_theta perm m training data = repeat t (length (w_rows data)).
Proof.
  intros H1 H2. unfold initial_theta. destruct (Z.ltb_spec 1000000 (Z.of_nat (length (w_rows data)) * Z.of_nat (length training))); [|lia].
  destruct (Z.ltb_spec 500000 (Z.of_nat (length (w_rows data)))); [|lia]. eauto.
Qed.

(** ** Random guessing *)
Lemma nth_repeat_lt {A} (a d : A) n k : (k < n)%nat -> nth k (repeat a n) d = a.
Proof. revert k. induction n as [|n IH]; intros [|k] H; cbn; try lia; auto. apply IH. lia. Qed.
Lemma rsum_repeat x n : rsum (repeat x n) = INR n * x.
Proof. induction n as [|n IH]; [cbn; lra|]. cbn [repeat rsum]. rewrite IH, S_INR. lra. Qed.
Lemma rsum_upd k x l : (k < length l)%nat -> rsum (upd k x l) = rsum l - nth k l 0 + x.
Proof.
  revert k. induction l as [|a l IH]; intros [|k] H; cbn [length] in H; try lia; cbn [upd rsum nth]; [lra|].
  rewrite IH by lia. lra.
Qed.
Lemma key_index K z : (0 <= z < Z.of_nat K)%Z -> norm_index K z = Some (Z.to_nat z).
Proof. intro H. unfold norm_index. destruct (Z.leb_spec 0 z); [|lia]. destruct (Z.ltb_spec z (Z.of_nat K)); [reflexivity|lia]. Qed.
Lemma guess_weights K g z : (3 <= K)%nat -> 0 <= g < 1 -> (0 <= z < Z.of_nat K)%Z ->
  guess_item K g (Some z) = Ok (upd (Z.to_nat z) g (repeat ((1 - g) / (INR K - 1)) K)) /\
  rsum (upd (Z.to_nat z) g (repeat ((1 - g) / (INR K - 1)) K)) = 1.
Proof.
  intros HK Hg Hz. set (k := Z.to_nat z). assert (Hk : (k < K)%nat) by (unfold k; lia).
  assert (HKr : 2 < INR K) by (change 2 with (INR 2); apply lt_INR; lia).
  assert (Hs : rsum (upd k g (repeat ((1 - g) / (INR K - 1)) K)) = 1).
  { rewrite rsum_upd by (now rewrite repeat_length). rewrite rsum_repeat, nth_repeat_lt by auto. field. lra. }
  split; [|exact Hs]. unfold guess_item. destruct (Nat.eqb_spec K 2); [lia|]. destruct (Nat.eqb_spec K 1); [lia|].
  rewrite key_index by auto. fold k. cbv zeta.
  replace (map _ (upd k g _)) with (upd k g (repeat ((1 - g) / (INR K - 1)) K)).
  - destruct (Req_EM_T (rsum _) 0); [lra|reflexivity].
  - apply nth_error_ext. intro j. rewrite nth_error_map, nth_error_upd by (now rewrite repeat_length).
    destruct (Nat.eqb_spec k j); cbn [option_map].
    + destruct (Req_EM_T g g); [reflexivity|congruence].
    + destruct (nth_error (repeat _ K) j) as [x|] eqn:E; [|reflexivity]. cbn [option_map].
      apply nth_error_In in E. apply repeat_spec in E as ->. destruct (Req_EM_T _ g); reflexivity.
Qed.
Lemma upd_chance K k g q : (k < K)%nat -> rsum (upd k g (repeat q K)) = 1 ->
  chance (upd k g (repeat q K)) k = g /\ forall j, (j < K)%nat -> j <> k -> chance (upd k g (repeat q K)) j = q.
Proof.
  intros Hk Hs. unfold chance. rewrite Hs. split.
  - rewrite (nth_error_nth _ _ _ (nth_error_upd_eq k g (repeat q K) ltac:(now rewrite repeat_length))). lra.
  - intros j Hj Hn. assert (E : nth_error (upd k g (repeat q K)) j = Some q).
    { rewrite nth_error_upd_neq by auto. rewrite (nth_error_nth_lt _ j 0) by (now rewrite repeat_length). now rewrite nth_repeat_lt. }
    rewrite (nth_error_nth _ _ _ E). lra.
Qed.
Lemma probability_okb g : Forall (fun x => 0 <= x < 1) g -> forallb probability_ok g = true.
Proof.
  intro H. apply forallb_forall. intros x Hx. rewrite Forall_forall in H. specialize (H x Hx). unfold probability_ok.
  destruct (Rle_dec 0 x); [|lra]. destruct (Rlt_dec x 1); [reflexivity|lra].
Qed.
