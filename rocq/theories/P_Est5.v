(** The VAE loss. *)
From Verif Require Import Base BaseFacts RBase RFacts M_Data M_CV M_Logit M_Lik S_Lik P_Logit3 P_Lik1 P_Lik2 P_Lik3 P_Lik5 M_Est S_Est P_Est1 P_Est3 P_Est4.
Local Open Scope R_scope.

(** ** Annealing *)
Lemma annealing_range anneal total its b : annealing_factor anneal total its = Ok b -> 0 <= b <= 1.
Proof.
  unfold annealing_factor. destruct anneal; [|intro H; injection H as <-; lra].
  destruct (Nat.eqb_spec its 0) as [|Hn]; [discriminate|]. intro H. injection H as <-.
  assert (0 < INR its) by (apply lt_0_INR; lia). pose proof (pos_INR total).
  assert (0 <= INR total / INR its) by (unfold Rdiv; apply Rmult_le_pos; [auto|left; now apply Rinv_0_lt_compat]).
  split; [apply Rmin_glb; lra|apply Rmin_l].
Qed.
Lemma annealing_monotone anneal t t' its b b' : (t <= t')%nat -> annealing_factor anneal t its = Ok b -> annealing_factor anneal t' its = Ok b' -> b <= b'.
Proof.
  unfold annealing_factor. intro Hle. destruct anneal; [|intros H H'; injection H as <-; injection H' as <-; lra].
  destruct (Nat.eqb_spec its 0) as [|Hn]; [discriminate|]. intros H H'. injection H as <-. injection H' as <-.
  assert (0 < INR its) by (apply lt_0_INR; lia). apply le_INR in Hle.
  apply Rle_min_compat_l. unfold Rdiv. apply Rmult_le_compat_r; [left; now apply Rinv_0_lt_compat|auto].
Qed.
Lemma annealing_full t its : (0 < its)%nat -> (its <= t)%nat -> annealing_factor true t its = Ok 1.
Proof.
  intros H0 H. unfold annealing_factor. destruct (Nat.eqb_spec its 0); [lia|]. f_equal. apply Rmin_left.
  assert (0 < INR its) by (apply lt_0_INR; lia). apply le_INR in H. apply Rmult_le_reg_r with (INR its); auto.
  replace (INR t / INR its * INR its) with (INR t) by (field; lra). lra.
Qed.
Lemma annealing_partial t its : (0 < its)%nat -> (t < its)%nat -> exists b, annealing_factor true t its = Ok b /\ b = INR t / INR its /\ b < 1.
Proof.
  intros H0 H. unfold annealing_factor. destruct (Nat.eqb_spec its 0); [lia|].
  assert (0 < INR its) by (apply lt_0_INR; lia). apply lt_INR in H.
  assert (INR t / INR its < 1). { apply Rmult_lt_reg_r with (INR its); auto. replace (INR t / INR its * INR its) with (INR t) by (field; lra). lra. }
  eexists. split; [reflexivity|]. rewrite Rmin_right by lra. auto.
Qed.

(** ** KL divergence *)
Lemma exp_gap v : 0 <= exp v - 1 - v /\ (exp v - 1 - v = 0 -> v = 0).
Proof.
  destruct (Req_dec v 0) as [-> |H]; [rewrite exp_0; split; lra|]. pose proof (exp_ineq1 v H). split; [lra|lra].
Qed.
Lemma kl_div_eq mean logvar : kl_divergence mean logvar = kl_standard_normal mean logvar.
Proof.
  unfold kl_divergence, kl_standard_normal. revert logvar. induction mean as [|a mean IH]; intros [|v logvar]; cbn [zip_with rsum]; try lra.
  rewrite <- IH. lra.
Qed.
Lemma kl_nonneg mean logvar : 0 <= kl_standard_normal mean logvar.
Proof.
  unfold kl_standard_normal. revert logvar. induction mean as [|a mean IH]; intros [|v logvar]; cbn [zip_with rsum]; try lra.
  specialize (IH logvar). pose proof (exp_gap v). nra.
Qed.
Lemma kl_zero mean logvar : length mean = length logvar ->
  (kl_standard_normal mean logvar = 0 <-> Forall (fun x => x = 0) mean /\ Forall (fun v => v = 0) logvar).
Proof.
  revert logvar. induction mean as [|a mean IH]; intros [|v logvar] Hl; try discriminate.
  - split; [split; constructor|reflexivity].
  - injection Hl as Hl. pose proof (kl_nonneg mean logvar) as Hn. pose proof (exp_gap v) as [Hg Hz].
    unfold kl_standard_normal in *. cbn [zip_with rsum]. split.
    + intro E. assert (Ha : a = 0) by nra. assert (Hv : v = 0) by (apply Hz; nra).
      destruct (proj1 (IH logvar Hl)) as [H1 H2]; [subst; rewrite exp_0 in E; lra|]. split; constructor; auto.
    + intros [H1 H2]. inversion H1; inversion H2; subst. rewrite (proj2 (IH logvar Hl)) by auto. rewrite exp_0. lra.
Qed.

(** ** Densities *)
Lemma normal_log_prob_pdf mu s x : 0 < s -> 0 < normal_pdf mu s x /\ normal_log_prob mu s x = ln (normal_pdf mu s x).
Proof.
  intro Hs. assert (Hp : 0 < sqrt (2 * PI)) by (apply sqrt_lt_R0; pose proof PI_RGT_0; lra).
  assert (Hi : 0 < / (s * sqrt (2 * PI))) by (apply Rinv_0_lt_compat; now apply Rmult_lt_0_compat).
  unfold normal_pdf, normal_log_prob. split; [apply Rmult_lt_0_compat; [auto|apply exp_pos]|].
  rewrite ln_mult by (auto using exp_pos). rewrite ln_exp, ln_Rinv, ln_mult by (auto; now apply Rmult_lt_0_compat). lra.
Qed.
Lemma log_ratio_pdf mean logvar theta : length mean = length theta -> length logvar = length theta ->
  0 < diag_normal_pdf (map (fun _ => 0) theta) (map (fun _ => 1) theta) theta /\
  0 < diag_normal_pdf mean (map (fun v => exp (v / 2)) logvar) theta /\
  log_ratio mean logvar theta = ln (diag_normal_pdf mean (map (fun v => exp (v / 2)) logvar) theta)
    - ln (diag_normal_pdf (map (fun _ => 0) theta) (map (fun _ => 1) theta) theta).
Proof.
  unfold log_ratio, diag_normal_pdf. revert logvar theta. induction mean as [|a mean IH]; intros [|v logvar] [|t theta] H1 H2; try discriminate.
  - cbn. rewrite ln_1. repeat split; lra.
  - injection H1 as H1. injection H2 as H2. destruct (IH logvar theta H1 H2) as (P1 & P2 & E).
    cbn [map combine zip_with rprod rsum fst snd].
    destruct (normal_log_prob_pdf a (exp (v / 2)) t (exp_pos _)) as [Q1 F1].
    destruct (normal_log_prob_pdf 0 1 t Rlt_0_1) as [Q2 F2].
    split; [now apply Rmult_lt_0_compat|]. split; [now apply Rmult_lt_0_compat|].
    rewrite !ln_mult by auto. rewrite E. replace (/ 2 * v) with (v / 2) by lra. rewrite F1, F2. lra.
Qed.
Lemma tempered p beta mean logvar theta row : length mean = length theta -> length logvar = length theta ->
  likelihood p theta row * exp (- (beta * log_ratio mean logvar theta)) = importance_weight p beta mean logvar theta row.
Proof.
  intros H1 H2. destruct (log_ratio_pdf mean logvar theta H1 H2) as (P1 & P2 & E). unfold importance_weight, Rpower. f_equal. f_equal.
  rewrite E. unfold Rdiv. rewrite ln_mult, ln_Rinv by (auto; now apply Rinv_0_lt_compat). lra.
Qed.
Lemma flog_shift a y : 0 <= a -> fadd (flog (Some a)) (Some (Fin y)) = flog (Some (a * exp y)).
Proof.
  intro Ha. rewrite <- flog_mul by (auto; left; apply exp_pos). rewrite (flog_pos (exp y)) by apply exp_pos. now rewrite ln_exp.
Qed.
Lemma fdiv_nat_fin x n : (0 < n)%nat -> fdiv_nat (Some (Fin x)) n = Some (Fin (x / INR n)).
Proof. intro H. unfold fdiv_nat. destruct (Nat.eqb_spec n 0); [lia|reflexivity]. Qed.
Lemma fmean_fin l f n : (0 < n)%nat -> length l = n -> (forall i, (i < n)%nat -> nth_error l i = Some (Some (Fin (f i)))) ->
  fmean l = Some (Fin (sumn n f / INR n)).
Proof.
  intros Hn Hl H. unfold fmean. replace l with (map (fun x => Some (Fin x)) (map f (seq 0 n))).
  - rewrite fsum_fin, rsum_map_seq, !map_length, seq_length. now rewrite fdiv_nat_fin.
  - apply nth_error_ext. intro i. destruct (Nat.lt_ge_cases i n) as [Hi|Hi].
    + rewrite nth_error_map, (nth_error_map_seq _ n 0 i), H by auto. reflexivity.
    + rewrite !(proj2 (nth_error_None _ _)); auto; [lia|]. rewrite !map_length, seq_length. lia.
Qed.
Lemma nth_error_zip_with_some {A B C} (f : A -> B -> C) la lb i a b :
  nth_error la i = Some a -> nth_error lb i = Some b -> nth_error (zip_with f la lb) i = Some (f a b).
Proof. intros Ha Hb. now rewrite nth_error_zip_with, Ha, Hb. Qed.
Lemma sumn_nonneg_pos K f k : (forall j, (j < K)%nat -> 0 <= f j) -> (k < K)%nat -> 0 < f k -> 0 < sumn K f.
Proof.
  intros Hn Hk Hp. replace (sumn K f) with (rsum (map f (seq 0 K))) by (rewrite rsum_map_seq; reflexivity). apply rsum_pos.
  - apply Forall_forall. intros x Hx. apply in_map_iff in Hx as (j & <- & Hj). apply in_seq in Hj. apply Hn. lia.
  - apply Exists_exists. exists (f k). split; auto. apply in_map. apply in_seq. lia.
Qed.
Lemma draw_length lv mean logvar noise : length mean = lv -> length logvar = lv -> length noise = lv -> length (draw mean logvar noise) = lv.
Proof. intros. unfold draw. rewrite zip_with_length, combine_length. lia. Qed.

Section Loss.
  Variables (m : emodel) (p : list R -> nat -> nat -> R).
  Hypothesis (Hm : has_probabilities m p) (HI : (0 < em_items m)%nat).
  Variables (K : nat) (data : list (list cell)) (mean logvar eps : list (list R)).
  Let B := length data.
  Let lv := em_lv m.
  Hypotheses (HK : (0 < K)%nat) (HB : (0 < B)%nat) (Hd : legal_data (em_cats m) data)
    (Hmean : rect B lv mean) (Hvar : rect B lv logvar) (Heps : rect (K * B) lv eps).
  Let theta (k n : nat) : list R := draw (nth n mean []) (nth n logvar []) (nth (k * B + n) eps []).
  Let samples := reparameterize (tile K mean) (tile K logvar) eps.

  Lemma row_len l N n : rect N lv l -> (n < N)%nat -> nth_error l n = Some (nth n l ([] : list R)) /\ length (nth n l ([] : list R)) = lv.
  Proof.
    intros [H1 H2] Hn. assert (E : nth_error l n = Some (nth n l [])) by (apply nth_error_nth_lt; lia). split; auto.
    rewrite Forall_forall in H2. apply H2. eapply nth_error_In; eauto.
  Qed.
  Lemma pos_lt k n : (k < K)%nat -> (n < B)%nat -> (k * B + n < K * B)%nat.
  Proof. intros. nia. Qed.
  Lemma tile_at {A} (l : list A) k n : length l = B -> (k < K)%nat -> (n < B)%nat -> nth_error (tile K l) (k * B + n) = nth_error l n.
  Proof. intros Hl Hk Hn. rewrite <- Hl. apply nth_error_tile; auto. lia. Qed.
  Lemma combined_at k n : (k < K)%nat -> (n < B)%nat ->
    nth_error (combine (tile K mean) (tile K logvar)) (k * B + n) = Some (nth n mean [], nth n logvar []).
  Proof.
    intros Hk Hn. apply nth_error_combine_some.
    - rewrite tile_at by (auto; apply Hmean). now destruct (row_len mean B n Hmean Hn).
    - rewrite tile_at by (auto; apply Hvar). now destruct (row_len logvar B n Hvar Hn).
  Qed.
  Lemma sample_at k n : (k < K)%nat -> (n < B)%nat -> nth_error samples (k * B + n) = Some (theta k n).
  Proof.
    intros Hk Hn. unfold samples, reparameterize.
    rewrite (nth_error_zip_with_some _ _ _ _ _ _ (combined_at k n Hk Hn) (proj1 (row_len eps (K * B) (k * B + n) Heps (pos_lt k n Hk Hn)))).
    f_equal. unfold theta, draw. cbn [fst snd].
    generalize (combine (nth n mean []) (nth n logvar [])) (nth (k * B + n) eps []).
    induction l as [|[a v] l IH]; intros [|z l']; cbn [zip_with]; auto. rewrite IH. cbn [fst snd]. do 4 f_equal. lra.
  Qed.
  Lemma samples_length : length samples = (K * B)%nat.
  Proof. unfold samples, reparameterize. rewrite zip_with_length, combine_length, !tile_length, (proj1 Hmean), (proj1 Hvar), (proj1 Heps). lia. Qed.
  Lemma theta_length k n : (k < K)%nat -> (n < B)%nat -> length (theta k n) = lv.
  Proof.
    intros Hk Hn. apply draw_length; [now apply (row_len mean B)|now apply (row_len logvar B)|].
    apply (row_len eps (K * B)); auto. now apply pos_lt.
  Qed.
  Lemma split_index i : (i < K * B)%nat -> exists k n, (k < K)%nat /\ (n < B)%nat /\ i = (k * B + n)%nat.
  Proof.
    intro Hi. exists (i / B)%nat, (i mod B)%nat. split; [apply Nat.div_lt_upper_bound; lia|]. split; [apply Nat.mod_upper_bound; lia|].
    rewrite Nat.mul_comm. apply Nat.div_mod. lia.
  Qed.
  Lemma samples_Forall : Forall (fun t => length t = lv) samples.
  Proof.
    apply Forall_forall. intros t Ht. apply In_nth_error in Ht as [i Hi].
    assert (Hlt : (i < K * B)%nat) by (rewrite <- samples_length; apply nth_error_Some; congruence).
    destruct (split_index i Hlt) as (k & n & Hk & Hn & ->). rewrite sample_at in Hi by auto. injection Hi as <-. now apply theta_length.
  Qed.
  Lemma data_at n : (n < B)%nat -> nth_error data n = Some (nth n data []).
  Proof. intro Hn. now apply nth_error_nth_lt. Qed.
  Lemma row_legal n : (n < B)%nat -> legal_row (em_cats m) (nth n data []).
  Proof. intro Hn. pose proof Hd as H. unfold legal_data in H. rewrite Forall_forall in H. apply H. eapply nth_error_In. now apply data_at. Qed.
  Lemma importance_nonneg beta mu v t row : 0 <= likelihood p t row -> 0 <= importance_weight p beta mu v t row.
  Proof. intro H. unfold importance_weight. apply Rmult_le_pos; auto. left. apply exp_pos. Qed.

  Lemma vae_setup : exists out cells,
    em_forward m samples = Ok out /\
    em_ll m RNone (Wide (em_items m) (tile K data)) out (Some (Wide (em_items m) (tile K (map (map missing_cell) data)))) = Ok (Cells cells) /\
    length cells = (K * B * em_items m)%nat /\ length (map fnansum (blocks (em_items m) cells)) = (K * B)%nat /\
    forall k n, (k < K)%nat -> (n < B)%nat ->
      nth_error (map fnansum (blocks (em_items m) cells)) (k * B + n) = Some (flog (Some (likelihood p (theta k n) (nth n data [])))).
  Proof.
    destruct (respondent_ll m p Hm HI samples (tile K data)) as (out & cells & E1 & E2 & E3 & E4).
    { apply samples_Forall. }
    { rewrite samples_length, tile_length. reflexivity. }
    { now apply tile_Forall. }
    exists out, cells. split; [auto|]. unfold mask_of in E2. cbn [w_rows w_cols] in E2. rewrite map_tile in E2.
    split; [auto|]. rewrite tile_length in E3. split; [auto|]. rewrite E4. split.
    - rewrite zip_with_length, samples_length, tile_length. fold B. lia.
    - intros k n Hk Hn.
      assert (Ed : nth_error (tile K data) (k * B + n) = Some (nth n data [])) by (rewrite tile_at by auto; now apply data_at).
      exact (nth_error_zip_with_some _ _ _ _ _ _ (sample_at k n Hk Hn) Ed).
  Qed.

  Variables (anneal : bool) (total its : nat) (beta : R).
  Hypothesis Hbeta : annealing_factor anneal total its = Ok beta.

  Lemma vae_one : K = 1%nat -> (forall n, (n < B)%nat -> 0 < likelihood p (theta 0 n) (nth n data [])) ->
    vae_batch m anneal total its K (Wide (em_items m) data) mean logvar eps =
    Ok (Some (Fin (- (sumn B (fun n => ln (likelihood p (theta 0 n) (nth n data []))
                                  - beta * kl_standard_normal (nth n mean []) (nth n logvar [])) / INR B)))).
  Proof.
    intros EK Hpos. destruct vae_setup as (out & cells & E1 & E2 & E3 & E4 & E5).
    unfold vae_batch. fold samples. rewrite E1. cbn [bind]. unfold vae_loss. rewrite Hbeta. cbn [bind mask_of w_rows w_cols].
    rewrite E2. cbn [bind cells_of]. rewrite E3.
    destruct (Nat.eqb_spec (K * em_items m) 0) as [H0|H0]; [nia|].
    replace (K * B * em_items m)%nat with (B * (K * em_items m))%nat by lia. rewrite Nat.div_mul by lia.
    replace (K * B * em_items m)%nat with (B * (K * em_items m))%nat by lia. rewrite Nat.eqb_refl. cbn [negb].
    destruct (Nat.eqb_spec K 1) as [_|]; [|lia].
    set (lp := map fnansum _) in *. set (kl := map _ (zip_with kl_divergence _ _)).
    assert (Hkl : length kl = (K * B)%nat).
    { unfold kl. rewrite map_length, zip_with_length, !tile_length, (proj1 Hmean), (proj1 Hvar). lia. }
    unfold add_vec. rewrite E4, Hkl, Nat.eqb_refl. cbn [bind].
    rewrite (fmean_fin _ (fun n => ln (likelihood p (theta 0 n) (nth n data [])) - beta * kl_standard_normal (nth n mean []) (nth n logvar [])) B).
    - reflexivity.
    - auto.
    - rewrite zip_with_length, E4, Hkl, EK. lia.
    - intros n Hn. assert (Hk0 : (0 < K)%nat) by lia. pose proof (E5 0%nat n Hk0 Hn) as E6. rewrite Nat.mul_0_l, Nat.add_0_l in E6.
      assert (Ek : nth_error kl n = Some (Some (Fin (- (beta * kl_standard_normal (nth n mean []) (nth n logvar [])))))).
      { unfold kl. rewrite nth_error_map.
        pose proof (tile_at mean 0 n (proj1 Hmean) Hk0 Hn) as T1. pose proof (tile_at logvar 0 n (proj1 Hvar) Hk0 Hn) as T2.
        rewrite Nat.mul_0_l, Nat.add_0_l in T1, T2. rewrite (proj1 (row_len mean B n Hmean Hn)) in T1. rewrite (proj1 (row_len logvar B n Hvar Hn)) in T2.
        rewrite (nth_error_zip_with_some _ _ _ _ _ _ T1 T2). cbn [option_map]. now rewrite kl_div_eq. }
      rewrite (nth_error_zip_with_some _ _ _ _ _ _ E6 Ek). rewrite flog_pos by (now apply Hpos). reflexivity.
  Qed.

  Lemma vae_many : (2 <= K)%nat -> (forall n, (n < B)%nat -> exists k, (k < K)%nat /\ 0 < likelihood p (theta k n) (nth n data [])) ->
    vae_batch m anneal total its K (Wide (em_items m) data) mean logvar eps =
    Ok (Some (Fin (- (sumn B (fun n =>
         ln (sumn K (fun k => importance_weight p beta (nth n mean []) (nth n logvar []) (theta k n) (nth n data [])) / INR K)) / INR B)))).
  Proof.
    intros EK Hpos. destruct vae_setup as (out & cells & E1 & E2 & E3 & E4 & E5).
    unfold vae_batch. fold samples. rewrite E1. cbn [bind]. unfold vae_loss. rewrite Hbeta. cbn [bind mask_of w_rows w_cols].
    rewrite E2. cbn [bind cells_of]. rewrite E3.
    destruct (Nat.eqb_spec (K * em_items m) 0) as [H0|H0]; [nia|].
    replace (K * B * em_items m)%nat with (B * (K * em_items m))%nat by lia. rewrite Nat.div_mul by lia.
    replace (K * B * em_items m)%nat with (B * (K * em_items m))%nat by lia. rewrite Nat.eqb_refl. cbn [negb].
    destruct (Nat.eqb_spec K 1) as [|_]; [lia|].
    set (lp := map fnansum _) in *. set (kl := zip_with _ (combine _ _) samples).
    assert (Hkl : length kl = (K * B)%nat).
    { unfold kl. rewrite zip_with_length, combine_length, !tile_length, (proj1 Hmean), (proj1 Hvar), samples_length. lia. }
    unfold add_vec. rewrite map_length, E4, Hkl, Nat.eqb_refl. cbn [bind].
    set (w := zip_with fadd _ _).
    assert (Hw : length w = (K * B)%nat) by (unfold w; rewrite zip_with_length, map_length, E4, Hkl; lia).
    set (W := fun k n => importance_weight p beta (nth n mean []) (nth n logvar []) (theta k n) (nth n data [])).
    assert (Hwn : forall k n, (k < K)%nat -> (n < B)%nat -> nth_error w (k * B + n) = Some (flog (Some (W k n)))).
    { intros k n Hk Hn.
      assert (Ek : nth_error (map (fun x => Some (Fin (- (beta * x)))) kl) (k * B + n)
              = Some (Some (Fin (- (beta * log_ratio (nth n mean []) (nth n logvar []) (theta k n)))))).
      { rewrite nth_error_map. unfold kl. rewrite (nth_error_zip_with_some _ _ _ _ _ _ (combined_at k n Hk Hn) (sample_at k n Hk Hn)). reflexivity. }
      unfold w. rewrite (nth_error_zip_with_some _ _ _ _ _ _ (E5 k n Hk Hn) Ek). f_equal.
      assert (HL : 0 <= likelihood p (theta k n) (nth n data [])).
      { apply likelihood_nonneg with (m := m); auto; [now rewrite theta_length|now apply row_legal]. }
      rewrite flog_shift by auto. do 2 f_equal. unfold W. apply tempered; rewrite theta_length by auto.
      - now apply (row_len mean B).
      - now apply (row_len logvar B). }
    rewrite (view_rows_rect K B w) by lia. cbn [bind]. do 3 f_equal.
    rewrite (fmean_fin _ (fun n => ln (sumn K (fun k => W k n) / INR K)) B); [reflexivity|auto|now rewrite map_length, seq_length|].
    intros n Hn. rewrite (nth_error_map_seq _ B 0 n) by auto. rewrite Nat.add_0_l. f_equal.
    assert (HW : forall k, (k < K)%nat -> 0 <= W k n).
    { intros k Hk. unfold W. apply importance_nonneg. apply likelihood_nonneg with (m := m); auto; [now rewrite theta_length|now apply row_legal]. }
    assert (Hcol : map fexp (column None n (map (fun i => firstn B (skipn (i * B) w)) (seq 0 K))) = map (fun x => Some (Fin x)) (map (fun k => W k n) (seq 0 K))).
    { unfold column. rewrite !map_map. apply map_ext_in. intros k Hk. apply in_seq in Hk.
      rewrite firstn_skipn_nth by auto. rewrite (nth_error_nth _ _ _ (Hwn k n ltac:(lia) Hn)). rewrite fexp_flog; auto. apply HW. lia. }
    rewrite Hcol, fsum_fin, rsum_map_seq.
    assert (HS : 0 < sumn K (fun k => W k n)).
    { destruct (Hpos n Hn) as (k & Hk & Hp). apply (sumn_nonneg_pos K (fun k => W k n) k); auto.
      unfold W, importance_weight. apply Rmult_lt_0_compat; auto. apply exp_pos. }
    assert (HKr : 0 < INR K) by (apply lt_0_INR; lia).
    cbn [flogf]. rewrite flog_pos by auto. unfold fsub. cbn [fneg fadd]. do 2 f_equal. unfold Rdiv.
    rewrite ln_mult, ln_Rinv by (auto; now apply Rinv_0_lt_compat). reflexivity.
  Qed.
End Loss.
