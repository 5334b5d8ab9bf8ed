(** Property theorems C116 and C117: the loss of the variational autoencoder as a bound, and its annealing. *)
From Verif Require Import Base BaseFacts RBase RFacts M_Data M_Logit M_Lik S_Logit S_Lik M_Est S_Est P_Est2 P_Est3 P_Est5 P_CV P_Lik1 T_Est S_Mass P_Mass S_Iw P_Iw1 P_Iw2 P_Iw3 P_Iw4
  M_Stat M_Train S_Train T_Train.
Import M_Est List.
Local Open Scope R_scope.

(** ** C116 a bound on the marginal log-likelihood *)
(** With the full divergence, the loss averaged over the noise is never below minus the average over respondents of
    the logarithm of the average importance weight, whatever the number of samples. *)
Theorem C116_bound : forall m p K data mean logvar A anneal total iterations,
  library_model m p -> let B := length data in (1 <= K)%nat -> (0 < B)%nat -> legal_data (em_cats m) data ->
  rect B (em_lv m) mean -> rect B (em_lv m) logvar -> annealing_factor anneal total iterations = Ok 1 ->
  averaging (em_lv m) A -> (K = 1%nat -> standardised (em_lv m) A) ->
  let loss eps := vae_batch m anneal total iterations K (Wide (em_items m) data) mean logvar eps in
  let weight n := average_weight A p (nth n mean []) (nth n logvar []) (nth n data []) in
  (forall eps, rect (K * B) (em_lv m) eps -> exists v, loss eps = Ok (Some (Fin v))) /\
  (forall n, (n < B)%nat -> 0 < weight n) /\
  - (sumn B (fun n => ln (weight n)) / INR B) <= expected A (K * B) (fun eps => loss_value (loss eps)).
Proof.
  intros m p K data mean logvar A anneal total its Hm B HK HB Hd H1 H2 Hb HA HS loss weight.
  split; [intros eps He; apply (loss_finite m p data mean logvar anneal total its); auto|]. split; [intros n Hn; apply (weight_pos m p data mean logvar A); auto|].
  unfold loss, B. rewrite (average m p data mean logvar A anneal total its) by auto. apply Ropp_le_contravar. apply Rmult_le_compat_r; [left; apply Rinv_0_lt_compat; now apply lt_0_INR|].
  apply sumn_le. intros n Hn. apply (term_bound m p data mean logvar A); auto.
Qed.
Print Assumptions C116_bound.
(** One more importance sample never makes the average loss larger. *)
Theorem C116_samples : forall m p K data mean logvar A anneal total iterations,
  library_model m p -> let B := length data in (1 <= K)%nat -> (0 < B)%nat -> legal_data (em_cats m) data ->
  rect B (em_lv m) mean -> rect B (em_lv m) logvar -> annealing_factor anneal total iterations = Ok 1 ->
  averaging (em_lv m) A -> (K = 1%nat -> standardised (em_lv m) A) ->
  let average_loss K := expected A (K * B) (fun eps => loss_value (vae_batch m anneal total iterations K (Wide (em_items m) data) mean logvar eps)) in
  average_loss (S K) <= average_loss K.
Proof.
  intros m p K data mean logvar A anneal total its Hm B HK HB Hd H1 H2 Hb HA HS average_loss. unfold average_loss, B.
  rewrite (average m p data mean logvar A anneal total its) by (auto; lia). rewrite (average m p data mean logvar A anneal total its) by auto.
  apply Ropp_le_contravar. apply Rmult_le_compat_r; [left; apply Rinv_0_lt_compat; now apply lt_0_INR|].
  apply sumn_le. intros n Hn. apply (term_grows m p data mean logvar A); auto.
Qed.
Print Assumptions C116_samples.
(** Nothing is lost when the encoder's distribution is proportional to likelihood times prior: with several samples
    the loss is then the same number whatever the noise, with one sample it is so on average. *)
Theorem C116_tight : forall m p K data mean logvar A anneal total iterations c,
  library_model m p -> let B := length data in (1 <= K)%nat -> (0 < B)%nat -> legal_data (em_cats m) data ->
  rect B (em_lv m) mean -> rect B (em_lv m) logvar -> annealing_factor anneal total iterations = Ok 1 ->
  averaging (em_lv m) A -> (K = 1%nat -> standardised (em_lv m) A) ->
  (forall n theta, (n < B)%nat -> length theta = em_lv m -> importance_weight p 1 (nth n mean []) (nth n logvar []) theta (nth n data []) = c n) ->
  let loss eps := vae_batch m anneal total iterations K (Wide (em_items m) data) mean logvar eps in
  ((2 <= K)%nat -> forall eps, rect (K * B) (em_lv m) eps -> loss eps = Ok (Some (Fin (- (sumn B (fun n => ln (c n)) / INR B))))) /\
  expected A (K * B) (fun eps => loss_value (loss eps)) = - (sumn B (fun n => ln (c n)) / INR B) /\
  (forall n, (n < B)%nat -> average_weight A p (nth n mean []) (nth n logvar []) (nth n data []) = c n).
Proof.
  intros m p K data mean logvar A anneal total its c Hm B HK HB Hd H1 H2 Hb HA HS Hc loss.
  assert (HI : 0 < INR K) by (apply lt_0_INR; lia).
  assert (Hw : forall n z, (n < B)%nat -> length z = em_lv m -> iw p data mean logvar n z = c n).
  { intros n z Hn Hz. unfold iw. apply Hc; auto. apply draw_length; auto; apply (row_length m data HB _ n); auto. }
  assert (Hs : forall n l k, (n < B)%nat -> rect k (em_lv m) l -> rsum (map (iw p data mean logvar n) l) = INR k * c n).
  { intros n l k Hn [<- F]. induction F as [|z l Hz F IH]; [cbn; ring|]. cbn [map rsum length]. rewrite S_INR, IH, Hw by auto. ring. }
  assert (Hst : forall eps n, (n < B)%nat -> rect (K * B) (em_lv m) eps -> rect K (em_lv m) (stride K B n eps)).
  { intros eps n Hn [L F]. unfold stride. split; [now rewrite map_length, seq_length|]. apply Forall_forall. intros r Hr. apply in_map_iff in Hr. destruct Hr as (k & <- & Hk). apply in_seq in Hk.
    rewrite Forall_forall in F. apply F. apply nth_In. rewrite L. nia. }
  split; [|split].
  - intros HK2 eps He. unfold loss. rewrite (loss_many m p data mean logvar anneal total its) by auto. do 4 f_equal. f_equal. apply sumn_ext. intros n Hn.
    pose proof (Hs n _ K Hn (Hst eps n Hn He)) as E. unfold B in E. rewrite E. f_equal. field. lra.
  - unfold loss, B. rewrite (average m p data mean logvar A anneal total its) by auto. do 2 f_equal. apply sumn_ext. intros n Hn. unfold term.
    rewrite (ex_ext (em_lv m) A HA K _ (fun _ => ln (c n))); [apply (ex_const (em_lv m) A HA)|]. intros l Hl. rewrite (Hs n l K Hn Hl). f_equal. field. lra.
  - intros n Hn. unfold average_weight. rewrite (av_ext (em_lv m) A HA _ (fun _ => c n)); [apply (av_const (em_lv m) A HA)|]. intros z Hz. exact (Hw n z Hn Hz).
Qed.
Print Assumptions C116_tight.
(** What is bounded: weight times density of the noise is likelihood times prior density times the change of volume,
    and with one latent variable the average weight over standard normal noise is the marginal likelihood under a
    standard normal prior, whatever the encoder says. *)
Theorem C116_marginal : forall p row,
  (forall mean logvar z, length mean = length z -> length logvar = length z ->
     let prior t := diag_normal_pdf (map (fun _ => 0) t) (map (fun _ => 1) t) t in
     importance_weight p 1 mean logvar (draw mean logvar z) row * prior z =
     likelihood p (draw mean logvar z) row * prior (draw mean logvar z) * rprod (map (fun v => exp (v / 2)) logvar)) /\
  forall mu v T,
    total_mass (fun z => importance_weight p 1 [mu] [v] (draw [mu] [v] [z]) row * normal_pdf 0 1 z) T <->
    total_mass (fun t => likelihood p [t] row * normal_pdf 0 1 t) T.
Proof.
  intros p row. split; [|intros mu v T; apply marginal]. intros mean logvar z H1 H2 prior. unfold prior. rewrite (weight_density p mean logvar z row H1 H2).
  pose proof (draw_length (length z) mean logvar z H1 H2 eq_refl) as L. now rewrite <- !(map_const_len _ (draw mean logvar z) z L).
Qed.
Print Assumptions C116_marginal.
(** Noise 1 or -1 with equal chances. *)
Definition coin : (list R -> R) -> R := over [[1]; [-1]].
Lemma coin_averaging : averaging 1 coin.
Proof. apply over_averaging; [discriminate|repeat constructor]. Qed.
Lemma coin_standardised : standardised 1 coin.
Proof. intros [|d] Hd; [|lia]. unfold coin, over. cbn. split; lra. Qed.
Example C116_nonvacuous : let loss K eps := vae_batch ex_model false 0 5 K (Wide 2 ex_resp) [[0]; [1]; [2]] [[0]; [-1]; [0]] eps in
  let average_loss K := expected coin (K * 3) (fun eps => loss_value (loss K eps)) in
  average_loss 3%nat <= average_loss 2%nat <= average_loss 1%nat /\
  - (sumn 3 (fun n => ln (average_weight coin (opl_p ex_opl) (nth n [[0]; [1]; [2]] []) (nth n [[0]; [-1]; [0]] []) (nth n ex_resp []))) / INR 3) <= average_loss 3%nat.
Proof.
  assert (R1 : rect 3 1 [[0]; [1]; [2]]) by (split; [reflexivity|repeat constructor]). assert (R2 : rect 3 1 [[0]; [-1]; [0]]) by (split; [reflexivity|repeat constructor]).
  intros loss average_loss. split; [split|].
  - apply (C116_samples ex_model (opl_p ex_opl) 2 ex_resp _ _ coin false 0 5 ex_library ltac:(lia) ltac:(cbn; lia) ex_resp_legal R1 R2 eq_refl coin_averaging (fun _ => coin_standardised)).
  - apply (C116_samples ex_model (opl_p ex_opl) 1 ex_resp _ _ coin false 0 5 ex_library ltac:(lia) ltac:(cbn; lia) ex_resp_legal R1 R2 eq_refl coin_averaging (fun _ => coin_standardised)).
  - apply (C116_bound ex_model (opl_p ex_opl) 3 ex_resp _ _ coin false 0 5 ex_library ltac:(lia) ltac:(cbn; lia) ex_resp_legal R1 R2 eq_refl coin_averaging (fun _ => coin_standardised)).
Qed.
(** Somebody who answered nothing and gets the prior back. *)
Example C116_tight_nonvacuous : forall theta, length theta = 1%nat -> importance_weight (opl_p ex_opl) 1 [0] [0] theta [None; None] = 1.
Proof.
  intros [|t [|]] H; try discriminate. unfold importance_weight, likelihood, diag_normal_pdf. cbn [mapi mapi_from map combine zip_with rprod fst snd answer].
  replace (exp (0 / 2)) with 1 by (unfold Rdiv; rewrite Rmult_0_l; symmetry; apply exp_0).
  destruct (normal_log_prob_pdf 0 1 t Rlt_0_1) as [Q _]. rewrite !Rmult_1_r. unfold Rdiv at 1. rewrite Rinv_r by lra. unfold Rpower. rewrite ln_1, Rmult_0_r, exp_0.
  unfold mapi. cbn. lra.
Qed.

(** ** C117 annealing and the state that is kept *)
(** With one sample, the loss that is minimised, averaged and compared at iteration [total] falls short of the full
    loss by the missing share of the divergence; nothing is missing once the annealing is over. *)
Theorem C117_shortfall : forall m p data mean logvar eps total iterations,
  library_model m p -> let B := length data in (0 < B)%nat -> (0 < iterations)%nat -> legal_data (em_cats m) data ->
  rect B (em_lv m) mean -> rect B (em_lv m) logvar -> rect B (em_lv m) eps ->
  let divergence := sumn B (fun n => kl_standard_normal (nth n mean []) (nth n logvar [])) / INR B in
  let loss anneal := vae_batch m anneal total iterations 1 (Wide (em_items m) data) mean logvar eps in
  exists v full, loss true = Ok (Some (Fin v)) /\ loss false = Ok (Some (Fin full)) /\ v <= full /\
    ((total < iterations)%nat -> v = full - (1 - INR total / INR iterations) * divergence) /\
    ((iterations <= total)%nat -> v = full) /\
    ((total < iterations)%nat -> 0 < divergence -> v < full).
Proof.
  intros m p data mean logvar eps total its Hm B HB Hi Hd H1 H2 H3 divergence loss.
  destruct (C35_annealing true its) as (HR & _ & H & HF & HP & _). destruct (H Hi total) as [b Hb]. pose proof (HR total b Hb) as Hr.
  assert (HBp : 0 < INR B) by now apply lt_0_INR.
  exists (- (sumn B (fun n => ln (likelihood p (draw (nth n mean []) (nth n logvar []) (nth n eps [])) (nth n data [])) - b * kl_standard_normal (nth n mean []) (nth n logvar [])) / INR B)),
    (- (sumn B (fun n => ln (likelihood p (draw (nth n mean []) (nth n logvar []) (nth n eps [])) (nth n data [])) - 1 * kl_standard_normal (nth n mean []) (nth n logvar [])) / INR B)).
  split; [now apply (C35_elbo m p data mean logvar eps true total its b)|]. split; [now apply (C35_elbo m p data mean logvar eps false total its 1)|].
  rewrite !sumn_minus, !sumn_scal. set (L := sumn B (fun n => ln _)). set (D := sumn B (fun n => kl_standard_normal (nth n mean []) (nth n logvar []))) in *.
  assert (HD : 0 <= divergence) by (apply Rmult_le_pos; [apply sumn_nonneg; intros; apply kl_nonneg|left; now apply Rinv_0_lt_compat]).
  assert (E : - ((L - b * D) / INR B) = - ((L - 1 * D) / INR B) - (1 - b) * divergence) by (unfold divergence; field; lra). rewrite E.
  split; [assert (0 <= (1 - b) * divergence) by (apply Rmult_le_pos; lra); lra|]. split; [|split].
  - intro Ht. destruct (HP total Ht) as (b' & E1 & E2 & _). rewrite E1 in Hb. injection Hb as <-. now rewrite E2.
  - intro Ht. rewrite (HF total Hi Ht) in Hb. injection Hb as <-. ring.
  - intros Ht HDp. destruct (HP total Ht) as (b' & E1 & _ & E3). rewrite E1 in Hb. injection Hb as <-. assert (0 < (1 - b') * divergence) by (apply Rmult_lt_0_compat; lra). lra.
Qed.
Print Assumptions C117_shortfall.
Example C117_nonvacuous : exists v full, vae_batch ex_model true 1 5 1 (Wide 2 ex_resp) [[0]; [1]; [2]] [[0]; [-1]; [0]] [[1]; [0]; [3]] = Ok (Some (Fin v)) /\
  vae_batch ex_model false 1 5 1 (Wide 2 ex_resp) [[0]; [1]; [2]] [[0]; [-1]; [0]] [[1]; [0]; [3]] = Ok (Some (Fin full)) /\ v < full.
Proof.
  assert (R1 : rect 3 1 [[0]; [1]; [2]]) by (split; [reflexivity|repeat constructor]). assert (R2 : rect 3 1 [[0]; [-1]; [0]]) by (split; [reflexivity|repeat constructor]).
  assert (R3 : rect 3 1 [[1]; [0]; [3]]) by (split; [reflexivity|repeat constructor]).
  destruct (C117_shortfall ex_model (opl_p ex_opl) ex_resp _ _ _ 1 5 ex_library ltac:(cbn; lia) ltac:(lia) ex_resp_legal R1 R2 R3) as (v & full & E1 & E2 & _ & _ & _ & H).
  exists v, full. split; [exact E1|]. split; [exact E2|]. apply H; [lia|]. cbn [length ex_resp sumn nth]. unfold kl_standard_normal. cbn [zip_with rsum]. rewrite exp_0.
  pose proof (exp_pos (-1)). cbn. lra.
Qed.
(** The state kept is the one with the lowest interval average of losses annealed to different degrees.  Default
    interval of 60 iterations and annealing over 5: gradient descent lowers the full loss in every iteration, yet the
    model kept is that of iteration 60, however many more epochs are run (up to 2000), whatever the noise. *)
Theorem C117_kept_refuted : forall m p noise limit max_epochs,
  library_model m p -> em_lv m = 1%nat -> (1 <= limit)%Z -> (60 <= max_epochs <= 2000)%Z ->
  let lr := 1 / 100000 in
  let state n := Nat.iter n (silent_step 5 0 lr) (0%nat, 1) in
  (forall n z, silent_batch m true 5 (state n) z = Ok (Some (Fin (Rmin 1 (INR n / 5) * (snd (state n) ^ 2 / 2))))) /\
  (forall n, derivable_pt_lim (fun x => Rmin 1 (INR n / 5) * (x ^ 2 / 2)) (snd (state n)) ((snd (state n) - snd (state (S n))) / lr)) /\
  (forall n n' z z', (1 <= n < n')%nat -> loss_value (silent_batch m false 5 (state n') z') < loss_value (silent_batch m false 5 (state n) z)) /\
  exists r, ae_train (silent_loss m 5) (silent_step 5) lr limit max_epochs 60 false (fun _ => true) (fun e => [noise e]) (0%nat, 1) = Ok r /\
    tr_w r = state 60%nat /\ tr_best_epoch r = 60%nat.
Proof.
  intros m p noise limit max_epochs Hm HL Hlim Hmax lr state.
  assert (HS : forall n, state (S n) = silent_step 5 0 lr (state n)) by reflexivity.
  assert (HF : forall n, fst (state n) = n /\ 0 < snd (state n)).
  { induction n as [|n [I1 I2]]; [cbn; split; [reflexivity|lra]|]. rewrite HS. unfold silent_step. cbn [fst snd]. rewrite I1. split; [reflexivity|]. pose proof (beta_range n) as Hb. unfold beta in Hb.
    set (b := Rmin 1 (INR n / INR 5)) in *. replace (snd (state n) - lr * (b * snd (state n))) with ((1 - lr * b) * snd (state n)) by ring. apply Rmult_lt_0_compat; [|exact I2]. unfold lr. lra. }
  assert (H5 : INR 5 = 5) by (rewrite INR_IZR_INZ; reflexivity).
  assert (HD : forall n, (1 <= n)%nat -> snd (state (S n)) < snd (state n)).
  { intros n Hn. rewrite HS. unfold silent_step. cbn [snd]. destruct (HF n) as [E P]. rewrite E. assert (0 < Rmin 1 (INR n / INR 5)) by (apply Rmin_glb_lt; [lra|]; apply Rdiv_lt_0_compat; [apply lt_0_INR; lia|lra]).
    assert (0 < lr * (Rmin 1 (INR n / INR 5) * snd (state n))) by (apply Rmult_lt_0_compat; [unfold lr; lra|]; now apply Rmult_lt_0_compat). lra. }
  split; [|split; [|split]].
  - intros n z. rewrite (silent_value m p Hm HL true 5 (state n) z (Rmin 1 (INR n / 5))); [reflexivity|]. rewrite (proj1 (HF n)). unfold annealing_factor. cbn [Nat.eqb]. now rewrite H5.
  - intro n. rewrite HS. unfold silent_step. cbn [snd]. rewrite (proj1 (HF n)), H5. set (b := Rmin 1 (INR n / 5)). set (x := snd (state n)).
    replace ((x - (x - lr * (b * x))) / lr) with (b * (/ 2 * (INR 2 * x ^ 1))) by (unfold lr; cbn [INR pow]; field).
    apply (derivable_pt_lim_scal (fun t => t ^ 2 / 2) b x (/ 2 * (INR 2 * x ^ 1))).
    assert (E : derivable_pt_lim (mult_real_fct (/ 2) (fun t => t ^ 2)) x (/ 2 * (INR 2 * x ^ 1))) by (apply derivable_pt_lim_scal; apply (derivable_pt_lim_pow x 2)).
    intros eps He. destruct (E eps He) as [d Hd]. exists d. intros h Hh Hs. specialize (Hd h Hh Hs). unfold mult_real_fct in Hd. replace ((x + h) ^ 2 / 2 - x ^ 2 / 2) with (/ 2 * (x + h) ^ 2 - / 2 * x ^ 2) by field. exact Hd.
  - intros n n' z z' [Hn Hn']. rewrite !(silent_value m p Hm HL false 5 _ _ 1) by reflexivity. cbn [loss_value]. destruct (HF n') as [_ P'].
    assert (Hlt : snd (state n') < snd (state n)).
    { clear P'. induction Hn' as [|k Hk IH]; [now apply HD|]. apply Rlt_trans with (snd (state k)); [apply HD; lia|exact IH]. }
    assert (snd (state n') ^ 2 < snd (state n) ^ 2) by (cbn [pow]; rewrite !Rmult_1_r; apply Rmult_le_0_lt_compat; lra). lra.
  - apply (kept_run m p Hm HL noise limit max_epochs Hlim Hmax).
Qed.
Print Assumptions C117_kept_refuted.
Example C117_kept_nonvacuous : library_model ex_model (opl_p ex_opl) /\ em_lv ex_model = 1%nat /\ (1 <= 2)%Z /\ (60 <= 1000 <= 2000)%Z.
Proof. split; [exact ex_library|]. split; [reflexivity|lia]. Qed.
(** From iteration [iterations] on the loss is the full one, with any model, data and number of samples, and no longer
    depends on how many iterations were made: intervals after the annealing are comparable with each other. *)
Theorem C117_afterwards : forall m K data mean logvar eps total iterations, (0 < iterations)%nat -> (iterations <= total)%nat ->
  vae_batch m true total iterations K data mean logvar eps = vae_batch m false 0 0 K data mean logvar eps.
Proof.
  intros m K data mean logvar eps total its H0 H. unfold vae_batch, vae_loss. destruct (em_forward m _) as [o|e]; [|reflexivity]. cbn [bind].
  now rewrite (annealing_full total its H0 H).
Qed.
Print Assumptions C117_afterwards.
Example C117_afterwards_nonvacuous : (0 < 5)%nat /\ (5 <= 60)%nat.
Proof. lia. Qed.
