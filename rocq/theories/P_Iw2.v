(** The loss of the variational autoencoder averaged over the noise. *)
From Verif Require Import Base BaseFacts RBase RFacts M_Data M_Logit M_Lik S_Logit S_Lik M_Est S_Est P_Est2 P_Est3 P_Est5 P_CV P_Lik1 T_Est S_Iw P_Iw1.
Local Open Scope R_scope.

(** ** The average logarithm of the density ratio is the closed-form divergence *)
Lemma nth_zip_rsum (f : R -> R -> R) l1 l2 : length l1 = length l2 ->
  rsum (zip_with f l1 l2) = sumn (length l1) (fun d => f (nth d l1 0) (nth d l2 0)).
Proof.
  revert l2. induction l1 as [|a l1 IH]; intros [|b l2] H; cbn [length] in H; try lia; [reflexivity|].
  cbn [zip_with rsum length]. rewrite sumn_S_first. cbn [nth]. now rewrite IH by lia.
Qed.
Lemma exp_half v : exp (v / 2) * exp (v / 2) = exp v.
Proof. rewrite <- exp_plus. f_equal. lra. Qed.
Lemma ratio_of_draw mean logvar z : length mean = length z -> length logvar = length z ->
  log_ratio mean logvar (draw mean logvar z) =
  sumn (length z) (fun d => (nth d mean 0 ^ 2 - nth d logvar 0) / 2 + nth d mean 0 * exp (nth d logvar 0 / 2) * nth d z 0
                            + (exp (nth d logvar 0) - 1) / 2 * nth d z 0 ^ 2).
Proof.
  unfold log_ratio, draw. revert logvar z. induction mean as [|a mean IH]; intros [|v logvar] [|x z] H1 H2; cbn [length] in *; try lia; [reflexivity|].
  cbn [combine zip_with rsum fst snd]. rewrite sumn_S_first. cbn [nth]. rewrite <- IH by lia. f_equal.
  unfold normal_log_prob. replace (/ 2 * v) with (v / 2) by lra. rewrite ln_exp, ln_1.
  rewrite <- (exp_half v). pose proof (exp_pos (v / 2)). field. lra.
Qed.
Lemma average_ratio lv A mean logvar : averaging lv A -> standardised lv A -> length mean = lv -> length logvar = lv ->
  A (fun z => log_ratio mean logvar (draw mean logvar z)) = kl_standard_normal mean logvar.
Proof.
  intros HA HS H1 H2.
  rewrite (av_ext lv A HA _ (fun z => sumn lv (fun d => (nth d mean 0 ^ 2 - nth d logvar 0) / 2 + nth d mean 0 * exp (nth d logvar 0 / 2) * nth d z 0
                            + (exp (nth d logvar 0) - 1) / 2 * nth d z 0 ^ 2))).
  2: { intros z Hz. rewrite ratio_of_draw by lia. now rewrite Hz. }
  rewrite (av_sum lv A HA lv (fun d z => (nth d mean 0 ^ 2 - nth d logvar 0) / 2 + nth d mean 0 * exp (nth d logvar 0 / 2) * nth d z 0
                            + (exp (nth d logvar 0) - 1) / 2 * nth d z 0 ^ 2)).
  unfold kl_standard_normal. rewrite nth_zip_rsum by lia. rewrite H1. apply sumn_ext. intros d Hd. destruct (HS d Hd) as [S1 S2].
  rewrite (av_plus lv A HA (fun z => (nth d mean 0 ^ 2 - nth d logvar 0) / 2 + nth d mean 0 * exp (nth d logvar 0 / 2) * nth d z 0) (fun z => (exp (nth d logvar 0) - 1) / 2 * nth d z 0 ^ 2)).
  rewrite (av_plus lv A HA (fun z => (nth d mean 0 ^ 2 - nth d logvar 0) / 2) (fun z => nth d mean 0 * exp (nth d logvar 0 / 2) * nth d z 0)).
  rewrite (av_const lv A HA), (av_scal lv A HA _ (fun z => nth d z 0)), (av_scal lv A HA _ (fun z => nth d z 0 ^ 2)), S1, S2. lra.
Qed.

Section LOSS.
Variables (m : emodel) (p : list R -> nat -> nat -> R) (data : list (list cell)) (mean logvar : list (list R)).
Variables (A : (list R -> R) -> R) (anneal : bool) (total iterations : nat).
Let B := length data.
Let lv := em_lv m.
Hypotheses (Hm : library_model m p) (HB : (0 < B)%nat) (Hd : legal_data (em_cats m) data)
  (H1 : rect B (em_lv m) mean) (H2 : rect B (em_lv m) logvar) (HA : averaging lv A)
  (Hb : annealing_factor anneal total iterations = Ok 1).
Let loss K eps := vae_batch m anneal total iterations K (Wide (em_items m) data) mean logvar eps.
Definition iw n z := importance_weight p 1 (nth n mean []) (nth n logvar []) (draw (nth n mean []) (nth n logvar []) z) (nth n data []).
Lemma row_length (l : list (list R)) n : rect B lv l -> (n < B)%nat -> length (nth n l []) = lv.
Proof. intros [L F] Hn. rewrite Forall_forall in F. apply F. apply nth_In. unfold B in *. lia. Qed.
Lemma lik_pos n t : (n < B)%nat -> 0 < likelihood p t (nth n data []).
Proof. intro Hn. apply (library_likelihood m p); auto. apply (row_legal m data Hd n Hn). Qed.
Lemma iw_pos n z : (n < B)%nat -> 0 < iw n z.
Proof.
  intros Hn. unfold iw, importance_weight. apply Rmult_lt_0_compat; [now apply lik_pos|]. unfold Rpower. apply exp_pos.
Qed.
Lemma iw_ln n z : (n < B)%nat -> length z = lv ->
  ln (iw n z) = ln (likelihood p (draw (nth n mean []) (nth n logvar []) z) (nth n data [])) - log_ratio (nth n mean []) (nth n logvar []) (draw (nth n mean []) (nth n logvar []) z).
Proof.
  intros Hn Hz. pose proof (row_length mean n H1 Hn) as L1. pose proof (row_length logvar n H2 Hn) as L2.
  pose proof (draw_length lv (nth n mean []) (nth n logvar []) z L1 L2 Hz) as L3. unfold iw. rewrite <- tempered by lia.
  rewrite ln_mult by (auto using exp_pos, lik_pos). rewrite ln_exp. lra.
Qed.
Definition term K n := expected A K (fun l => ln (rsum (map (iw n) l) / INR K)).
Lemma loss_many K eps : (2 <= K)%nat -> rect (K * B) lv eps ->
  loss K eps = Ok (Some (Fin (- (sumn B (fun n => ln (rsum (map (iw n) (stride K B n eps)) / INR K)) / INR B)))).
Proof.
  intros HK He. unfold loss. rewrite (C35_importance_bound m p K data mean logvar eps anneal total iterations 1); auto.
  do 4 f_equal. f_equal. apply sumn_ext. intros n Hn. unfold stride. rewrite map_map, rsum_map_seq. reflexivity.
Qed.
Lemma average_many K : (2 <= K)%nat -> expected A (K * B) (fun eps => loss_value (loss K eps)) = - (sumn B (term K) / INR B).
Proof.
  intro HK. rewrite (ex_ext lv A HA _ _ (fun eps => (- / INR B) * sumn B (fun n => (fun l => ln (rsum (map (iw n) l) / INR K)) (stride K B n eps)))).
  - rewrite (ex_scal lv A HA), (ex_sum lv A HA (K * B) B (fun n eps => ln (rsum (map (iw n) (stride K B n eps)) / INR K))).
    rewrite (sumn_ext B _ (term K)); [unfold Rdiv; ring|]. intros n Hn. apply (ex_stride lv A HA K B n (fun l => ln (rsum (map (iw n) l) / INR K)) Hn).
  - intros eps He. rewrite loss_many by auto. cbn [loss_value]. unfold Rdiv. ring.
Qed.
Lemma term_one n : (n < B)%nat -> term 1 n = A (fun z => ln (iw n z)).
Proof.
  intro Hn. unfold term. cbn [expected]. apply (av_ext lv A HA). intros z Hz. cbn [map rsum]. f_equal. cbn [INR]. field.
Qed.
Lemma loss_single eps : rect (1 * B) lv eps -> loss 1 eps = Ok (Some (Fin (- (sumn B (fun n => ln (likelihood p (draw (nth n mean []) (nth n logvar []) (nth n eps [])) (nth n data []))
      - kl_standard_normal (nth n mean []) (nth n logvar [])) / INR B)))).
Proof.
  intro He. unfold loss. rewrite (C35_elbo m p data mean logvar eps anneal total iterations 1); auto; [|now rewrite Nat.mul_1_l in He].
  do 4 f_equal. f_equal. apply sumn_ext. intros n Hn. lra.
Qed.
Lemma average_single : standardised lv A -> expected A (1 * B) (fun eps => loss_value (loss 1 eps)) = - (sumn B (term 1) / INR B).
Proof.
  intro HS. rewrite (ex_ext lv A HA _ _ (fun eps => (- / INR B) * sumn B (fun n => (fun z => ln (likelihood p (draw (nth n mean []) (nth n logvar []) z) (nth n data []))
      - kl_standard_normal (nth n mean []) (nth n logvar [])) (nth n eps [])))).
  - rewrite (ex_scal lv A HA), (ex_sum lv A HA (1 * B) B (fun n eps => (ln (likelihood p (draw (nth n mean []) (nth n logvar []) (nth n eps [])) (nth n data []))
      - kl_standard_normal (nth n mean []) (nth n logvar [])))).
    rewrite (sumn_ext B _ (term 1)); [unfold Rdiv; ring|]. intros n Hn.
    rewrite (ex_one lv A HA (1 * B) n (fun z => ln (likelihood p (draw (nth n mean []) (nth n logvar []) z) (nth n data []))
      - kl_standard_normal (nth n mean []) (nth n logvar []))) by lia.
    rewrite term_one by auto. rewrite (av_ext lv A HA (fun z => ln (iw n z)) _ (fun z Hz => iw_ln n z Hn Hz)).
    rewrite !(av_minus lv A HA), (av_const lv A HA). rewrite average_ratio with (lv := lv); auto; now apply row_length.
  - intros eps He. rewrite loss_single by auto. cbn [loss_value]. unfold Rdiv. ring.
Qed.
Lemma average K : (1 <= K)%nat -> (K = 1%nat -> standardised lv A) -> expected A (K * B) (fun eps => loss_value (loss K eps)) = - (sumn B (term K) / INR B).
Proof. intros HK HS. destruct (Nat.eq_dec K 1) as [-> |]; [apply average_single; auto|apply average_many; lia]. Qed.
Lemma loss_finite K eps : (1 <= K)%nat -> rect (K * B) lv eps -> exists v, loss K eps = Ok (Some (Fin v)).
Proof. intros HK He. destruct (Nat.eq_dec K 1) as [-> |]; eexists; [apply loss_single; auto|apply loss_many; auto; lia]. Qed.
Lemma weight_pos n : (n < B)%nat -> 0 < average_weight A p (nth n mean []) (nth n logvar []) (nth n data []).
Proof. intro Hn. apply (av_pos lv A HA). intros z Hz. exact (iw_pos n z Hn). Qed.
Lemma ex_rsum K (f : list R -> R) : expected A K (fun l => rsum (map f l)) = INR K * A f.
Proof.
  rewrite (ex_ext lv A HA K _ (fun l => sumn K (fun k => f (nth k l [])))).
  - rewrite (ex_sum lv A HA K K (fun k l => f (nth k l []))). rewrite (sumn_ext K _ (fun _ => A f)); [apply sumn_const|]. intros k Hk. apply (ex_one lv A HA); auto.
  - intros l [L _]. rewrite <- L. clear. induction l as [|x l IH]; [reflexivity|]. cbn [map rsum length]. rewrite sumn_S_first. cbn [nth]. now rewrite IH.
Qed.
Lemma rsum_pos_map n l : (n < B)%nat -> l <> [] -> 0 < rsum (map (iw n) l).
Proof.
  intros Hn Hl. destruct l as [|z l]; [congruence|]. cbn [map rsum]. pose proof (iw_pos n z Hn). enough (0 <= rsum (map (iw n) l)) by lra.
  clear Hl. induction l as [|y l IH]; cbn [map rsum]; [lra|]. pose proof (iw_pos n y Hn). lra.
Qed.
Lemma term_bound K n : (1 <= K)%nat -> (n < B)%nat -> term K n <= ln (average_weight A p (nth n mean []) (nth n logvar []) (nth n data [])).
Proof.
  intros HK Hn. set (P := average_weight A p (nth n mean []) (nth n logvar []) (nth n data [])). pose proof (weight_pos n Hn) as HP. fold P in HP.
  assert (HI : 0 < INR K) by (apply lt_0_INR; lia).
  apply Rle_trans with (expected A K (fun l => ln P + -1 + / (INR K * P) * rsum (map (iw n) l))).
  - apply (ex_mono lv A HA). intros l [L _]. assert (Hl : l <> []) by (intros ->; cbn in L; lia). pose proof (rsum_pos_map n l Hn Hl) as Hr.
    eapply Rle_trans; [apply (ln_tangent _ P); auto; now apply Rdiv_lt_0_compat|]. apply Req_le. field. lra.
  - rewrite (ex_plus lv A HA K (fun _ => ln P + -1)), (ex_const lv A HA), (ex_scal lv A HA K _ (fun l => rsum (map (iw n) l))), ex_rsum. fold P in HP.
    change (A (iw n)) with P. apply Req_le. field. lra.
Qed.
Lemma drop_length (j : nat) (l : list (list R)) : (j < length l)%nat -> length (drop j l) = (length l - 1)%nat.
Proof. intro H. unfold drop. rewrite app_length, firstn_length, skipn_length. lia. Qed.
Lemma term_grows K n : (1 <= K)%nat -> (n < B)%nat -> term K n <= term (S K) n.
Proof.
  intros HK Hn. assert (HI : 0 < INR (S K)) by (apply lt_0_INR; lia). assert (HI' : 0 < INR K) by (apply lt_0_INR; lia).
  set (G := fun l => ln (rsum (map (iw n) l) / INR K)).
  apply Rle_trans with (expected A (S K) (fun l => / INR (S K) * sumn (S K) (fun j => G (drop j l)))).
  - rewrite (ex_scal lv A HA (S K) _ (fun l => sumn (S K) (fun j => G (drop j l)))), (ex_sum lv A HA (S K) (S K) (fun j l => G (drop j l))).
    rewrite (sumn_ext (S K) _ (fun _ => term K n)).
    + rewrite sumn_const. apply Req_le. field. lra.
    + intros j Hj. apply (ex_drop lv A HA). lia.
  - unfold term. apply (ex_mono lv A HA). intros l [L _]. rewrite (leave_one_out K (iw n) l) by (auto; lia).
    replace (/ INR (S K) * sumn (S K) (fun j => G (drop j l))) with (sumn (S K) (fun j => G (drop j l)) / INR (S K)) by (unfold Rdiv; ring).
    apply ln_concave; [lia|]. intros j Hj. apply Rdiv_lt_0_compat; auto. apply rsum_pos_map; auto. intro E. pose proof (drop_length j l ltac:(lia)) as Hd'. rewrite E, L in Hd'. cbn in Hd'. lia.
Qed.
End LOSS.
