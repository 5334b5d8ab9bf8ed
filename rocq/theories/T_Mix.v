(** Properties C58, C79, C80, C81: Gaussian mixtures and integration weights. *)
From Verif Require Import Base BaseFacts RBase RFacts M_Data M_CV M_Logit M_Lik M_Est M_Stat M_Grid M_Eval M_Mix S_Stat S_Eval S_Mix P_CV P_Lik3 P_Stat1 P_Stat2 P_Stat3 P_Eval1 P_Eval7 P_Mix1 P_Mix2 P_Mix3 P_Mix4 P_Mix5 P_Mix6 P_Mix7 T_Stat.
Local Open Scope R_scope.

(** ** C58 *)
Theorem C58_refusals : forall start k d it data g,
  (gmm_new start k d = Err ValueError <-> (k < 1 \/ d < 1)%Z) /\
  (w_rows data = [] -> gmm_fit it data g = Err ValueError) /\
  (w_rows data <> [] -> w_cols data <> g_features g -> gmm_fit it data g = Err ValueError).
Proof.
  intros start k d it data g. split; [|split].
  - unfold gmm_new. destruct (k <? 1)%Z eqn:Ek; [apply Z.ltb_lt in Ek; intuition lia|]. destruct (d <? 1)%Z eqn:Ed; [apply Z.ltb_lt in Ed; intuition lia|].
    apply Z.ltb_ge in Ek, Ed. split; [discriminate|lia].
  - intros E. unfold gmm_fit. now rewrite E.
  - intros Hr Hc. unfold gmm_fit. destruct (w_rows data); [congruence|]. cbn [length Nat.eqb]. apply Nat.eqb_neq in Hc. now rewrite Hc.
Qed.
Print Assumptions C58_refusals.
Example C58_refusals_nonvacuous : gmm_new [] 0 1 = Err ValueError /\ (exists g, gmm_new [[0]] 1 1 = Ok g).
Proof. split; [reflexivity|eexists; reflexivity]. Qed.

(** After any number of EM iterations the weights are positive and sum to one. *)
Theorem C58_weights : forall start k d g0 data n g, gmm_new start k d = Ok g0 -> length start = Z.to_nat k -> data <> [] -> em n g0 data = Ok g ->
  exists ws, g_weights g = map fin_r ws /\ length ws = Z.to_nat k /\ Forall (fun w => 0 < w) ws /\ rsum ws = 1.
Proof.
  intros start k d g0 data n g HG HL HN HE. destruct (reach_gmix _ _ _ _ _ _ _ HG HL HN HE) as ((ws & HW & HP & HS & _) & _ & HC).
  exists ws. split; [exact HW|]. split; [|split; assumption]. unfold g_components in HC. now rewrite HW, map_length in HC.
Qed.
Print Assumptions C58_weights.
Definition two : list (list R) := [[0]; [2]].
Lemma two_distinct : exists x y, In x two /\ In y two /\ nth 0 x 0 <> nth 0 y 0.
Proof. exists [0], [2]. unfold two. cbn. split; [auto|]. split; [auto|]. lra. Qed.
Lemma two_components : exists g0, gmm_new [[-1]; [1]] 2 1 = Ok g0 /\ forall n, exists g, em n g0 two = Ok g /\ plain g.
Proof.
  eexists. split; [reflexivity|]. intros n. apply plain_em; [|apply two_distinct].
  apply (plain_new [[-1]; [1]] 2); [reflexivity|reflexivity|]. repeat (apply Forall_cons; [reflexivity|]). apply Forall_nil.
Qed.
Example C58_weights_nonvacuous : exists g0, gmm_new [[-1]; [1]] 2 1 = Ok g0 /\ forall n, exists g, em n g0 two = Ok g.
Proof. destruct two_components as (g0 & H & HE). exists g0. split; [exact H|]. intros n. destruct (HE n) as (g & Hg & _). eauto. Qed.

(** Responsibilities: posterior probabilities of the components, positive and summing to one, after any number of
    iterations and for any points. *)
Theorem C58_responsibilities : forall start k d g0 data n g points r, gmm_new start k d = Ok g0 -> length start = Z.to_nat k -> data <> [] ->
  em n g0 data = Ok g -> e_step g points = Ok r ->
  exists R, r = map (map fin_r) R /\ length R = Z.to_nat k /\ Forall (fun row => length row = length points /\ Forall (fun x => 0 < x) row) R /\
    (forall j, (j < length points)%nat -> rsum (map (fun row => nth j row 0) R) = 1) /\
    (forall i row j x, nth_error R i = Some row -> nth_error points j = Some x -> exists w m s f p,
       nth_error (g_weights g) i = Some (fin_r w) /\ nth_error (g_means g) i = Some m /\ nth_error (g_covs g) i = Some s /\
       mvn (Z.to_nat d) m s = Ok f /\ gmm_pdf g [x] = Ok [fin_r p] /\ 0 < p /\ nth j row 0 = w * exp (f x) / p).
Proof.
  intros start k d g0 data n g points r HG HL HN HE Hr. destruct (reach_gmix _ _ _ _ _ _ _ HG HL HN HE) as (HS & HF & HC).
  destruct (e_step_densities _ _ _ Hr) as [fs Hfs]. destruct (mixture_of g fs HS Hfs) as (cs & HX & _). rewrite (e_step_form g cs HX) in Hr. apply ok_inj in Hr. subst r.
  exists (map (fun c => map (resp cs c) points) cs). split; [|split; [|split; [|split]]].
  - rewrite map_map. apply map_ext. intros c. now rewrite map_map.
  - rewrite map_length. rewrite <- HC. now apply gmix_components.
  - apply Forall_map, Forall_forall. intros c Hc. split; [apply map_length|]. apply Forall_map, Forall_forall. intros x _. now apply (resp_pos g cs HX).
  - intros j Hj. rewrite nth_map_resp by exact Hj. now apply (resp_sum g cs HX).
  - intros i row j x Hi Hj. rewrite nth_error_map in Hi. destruct (nth_error cs i) as [c|] eqn:Ec; [|discriminate]. cbn in Hi. assert (row = map (resp cs c) points) by congruence. subst row.
    assert (Hc : In c cs) by (eapply nth_error_In; eauto).
    destruct HX as (HW & HM & HCv & HFr & HSm & HD) eqn:EX. clear EX. exists (cw c), (cm c), (cc c), (cf c), (total cs x). rewrite HW, HM, HCv, !nth_error_map, Ec.
    split; [reflexivity|]. split; [reflexivity|]. split; [reflexivity|]. split; [rewrite <- HF; rewrite Forall_forall in HFr; now apply HFr|].
    assert (HX' : gmix g cs) by (repeat split; assumption). split; [apply (pdf_form g cs HX' [x])|]. split; [now apply (total_pos g cs HX')|].
    rewrite (nth_error_nth (map (resp cs c) points) j 0 (map_nth_error (resp cs c) j points Hj)). reflexivity.
Qed.
Print Assumptions C58_responsibilities.
Example C58_responsibilities_nonvacuous : exists g0, gmm_new [[-1]; [1]] 2 1 = Ok g0 /\ forall n, exists g r, em n g0 two = Ok g /\ e_step g [[5]; [6]; [7]] = Ok r.
Proof.
  destruct two_components as (g0 & H & HE). exists g0. split; [exact H|]. intros n. destruct (HE n) as (g & Hg & Pg).
  destruct (plain_densities g Pg) as [fs Hfs]. destruct (mixture_of g fs (proj1 Pg) Hfs) as (cs & HX & _). exists g. eexists. split; [exact Hg|]. apply (e_step_form g cs HX).
Qed.

(** An iteration: the weights are the mean responsibilities, the means the weighted averages of the data and the
    covariances the weighted covariances about these means. *)
Theorem C58_iteration : forall start k d g0 data n g', gmm_new start k d = Ok g0 -> length start = Z.to_nat k -> data <> [] -> em (S n) g0 data = Ok g' ->
  exists g R M, em n g0 data = Ok g /\ e_step g data = Ok (map (map fin_r) R) /\
    forall i row, nth_error R i = Some row ->
      nth_error (g_weights g') i = Some (fin_r (rsum row / INR (length data))) /\
      (forall j, (j < Z.to_nat d)%nat -> M i j = wsum row (fun x => nth j x 0) data / rsum row /\ at2 (g_means g') i j = Some (fin_r (M i j))) /\
      (forall a b, (a < Z.to_nat d)%nat -> (b < Z.to_nat d)%nat ->
         at3 (g_covs g') i a b = Some (fin_r (wsum row (fun x => (nth a x 0 - M i a) * (nth b x 0 - M i b)) data / rsum row))).
Proof.
  intros start k d g0 data n g' HG HL HN H. cbn [em] in H. destruct (em n g0 data) as [g|] eqn:E; [|discriminate]. cbn [bind] in H.
  destruct (reach_gmix _ _ _ _ _ _ _ HG HL HN E) as (HS & HF & HC). destruct (em_step_inv g data g' HS HN H) as (cs & HX & ->).
  exists g, (map (fun c => map (resp cs c) data) cs), (fun i j => wmean cs data (nth i cs (Comp 0 [] [] (fun _ => 0))) j). split; [reflexivity|]. split.
  - rewrite (e_step_form g cs HX). f_equal. rewrite map_map. apply map_ext. intros c. now rewrite map_map.
  - intros i row Hi. rewrite nth_error_map in Hi. destruct (nth_error cs i) as [c|] eqn:Ec; [|discriminate]. cbn in Hi. assert (row = map (resp cs c) data) by congruence. subst row.
    rewrite (nth_error_nth cs i _ Ec). unfold next. cbn [g_weights g_means g_covs]. rewrite HF. split; [now rewrite nth_error_map, Ec|]. split.
    + intros j Hj. rewrite wsum_map. split; [reflexivity|]. unfold at2. rewrite nth_error_map, Ec. cbn [option_map]. now rewrite nth_error_map, (nth_error_seq (Z.to_nat d) 0 j Hj).
    + intros a b Ha Hb. rewrite wsum_map. unfold at3, at2. rewrite nth_error_map, Ec. cbn [option_map]. rewrite nth_error_map, (nth_error_seq (Z.to_nat d) 0 a Ha). cbn [option_map].
      now rewrite nth_error_map, (nth_error_seq (Z.to_nat d) 0 b Hb).
Qed.
Print Assumptions C58_iteration.
Example C58_iteration_nonvacuous : exists g0, gmm_new [[-1]; [1]] 2 1 = Ok g0 /\ forall n, exists g', em (S n) g0 two = Ok g'.
Proof. destruct two_components as (g0 & H & HE). exists g0. split; [exact H|]. intros n. destruct (HE (S n)) as (g & Hg & _). eauto. Qed.

(** Means lie in the range of the data; covariances are symmetric and positive semidefinite. *)
Theorem C58_range : forall start k d g0 data n g' i j lo hi, gmm_new start k d = Ok g0 -> length start = Z.to_nat k -> data <> [] -> em (S n) g0 data = Ok g' ->
  (i < Z.to_nat k)%nat -> (j < Z.to_nat d)%nat -> (forall x, In x data -> lo <= nth j x 0 <= hi) ->
  exists m, at2 (g_means g') i j = Some (fin_r m) /\ lo <= m <= hi.
Proof.
  intros start k d g0 data n g' i j lo hi HG HL HN H Hi Hj HB. cbn [em] in H. destruct (em n g0 data) as [g|] eqn:E; [|discriminate]. cbn [bind] in H.
  destruct (reach_gmix _ _ _ _ _ _ _ HG HL HN E) as (HS & HF & HC). destruct (em_step_inv g data g' HS HN H) as (cs & HX & ->).
  assert (Hic : (i < length cs)%nat) by (rewrite (gmix_components g cs HX), HC; exact Hi).
  destruct (nth_error cs i) as [c|] eqn:Ec; [|apply nth_error_None in Ec; lia]. exists (wmean cs data c j). split.
  - unfold next, at2. cbn [g_means]. rewrite nth_error_map, Ec. cbn [option_map]. rewrite HF, nth_error_map, (nth_error_seq (Z.to_nat d) 0 j Hj). reflexivity.
  - apply (wmean_bounds g cs data HX HN); [eapply nth_error_In; eauto|exact HB].
Qed.
Print Assumptions C58_range.
Theorem C58_covariances : forall start k d g0 data n g' i, gmm_new start k d = Ok g0 -> length start = Z.to_nat k -> data <> [] -> em (S n) g0 data = Ok g' ->
  (i < Z.to_nat k)%nat -> exists C, (forall a b, (a < Z.to_nat d)%nat -> (b < Z.to_nat d)%nat -> at3 (g_covs g') i a b = Some (fin_r (C a b))) /\
    (forall a b, C a b = C b a) /\ forall v, 0 <= sumn (Z.to_nat d) (fun a => sumn (Z.to_nat d) (fun b => v a * (C a b * v b))).
Proof.
  intros start k d g0 data n g' i HG HL HN H Hi. cbn [em] in H. destruct (em n g0 data) as [g|] eqn:E; [|discriminate]. cbn [bind] in H.
  destruct (reach_gmix _ _ _ _ _ _ _ HG HL HN E) as (HS & HF & HC). destruct (em_step_inv g data g' HS HN H) as (cs & HX & ->).
  assert (Hic : (i < length cs)%nat) by (rewrite (gmix_components g cs HX), HC; exact Hi).
  destruct (nth_error cs i) as [c|] eqn:Ec; [|apply nth_error_None in Ec; lia]. exists (wcov cs data c). split; [|split].
  - intros a b Ha Hb. unfold next, at3, at2. cbn [g_covs]. rewrite nth_error_map, Ec. cbn [option_map]. rewrite HF, nth_error_map, (nth_error_seq (Z.to_nat d) 0 a Ha). cbn [option_map].
    now rewrite nth_error_map, (nth_error_seq (Z.to_nat d) 0 b Hb).
  - intros a b. apply wcov_symmetric.
  - intros v. apply (wcov_psd g cs data HX HN). eapply nth_error_In; eauto.
Qed.
Print Assumptions C58_covariances.
Example C58_range_nonvacuous : exists g0 g' m, gmm_new [[-1]; [1]] 2 1 = Ok g0 /\ em 3 g0 two = Ok g' /\ at2 (g_means g') 1 0 = Some (fin_r m) /\ 0 <= m <= 2.
Proof.
  destruct two_components as (g0 & H & HE). destruct (HE 3%nat) as (g & Hg & _).
  destruct (C58_range [[-1]; [1]] 2 1 g0 two 2 g 1 0 0 2 H eq_refl ltac:(discriminate) Hg ltac:(cbn; lia) ltac:(cbn; lia)) as (m & Hm & Hb).
  - unfold two. intros x [<-|[<-|[]]]; cbn; lra.
  - exists g0, g, m. auto.
Qed.

(** One feature: the components are the usual normal densities, and fitting data with two different values never fails. *)
Theorem C58_one_feature_density : forall m v,
  (0 < v -> exists f, mvn 1 [fin_r m] [[fin_r v]] = Ok f /\ forall x, f x = normal_log_density m v (nth 0 x 0)) /\
  (v <= 0 -> mvn 1 [fin_r m] [[fin_r v]] = Err ValueError).
Proof. intros m v. split; [apply mvn_one|apply mvn_one_refused]. Qed.
Print Assumptions C58_one_feature_density.
Theorem C58_one_feature_total : forall start k g0 data n, gmm_new start k 1 = Ok g0 -> length start = Z.to_nat k -> Forall (fun r => length r = 1%nat) start ->
  (exists x y, In x (w_rows data) /\ In y (w_rows data) /\ nth 0 x 0 <> nth 0 y 0) -> w_cols data = 1%nat -> exists g, gmm_fit n data g0 = Ok g /\ exists x, gmm_log_likelihood g (w_rows data) = Ok (fin_r x).
Proof.
  intros start k g0 data n HG HL HW Hd Hc. pose proof (plain_new _ _ _ HG HL HW) as HP. destruct (plain_em g0 (w_rows data) HP Hd n) as (g & Hg & Pg).
  exists g. split.
  - unfold gmm_fit. destruct (w_rows data) eqn:E; [destruct Hd as (? & _ & [] & _)|]. cbn [length Nat.eqb]. rewrite Hc, (proj1 (proj2 HP)). exact Hg.
  - destruct (plain_densities g Pg) as [fs Hfs]. destruct (mixture_of g fs (proj1 Pg) Hfs) as (cs & HX & _). eexists. apply (log_likelihood_form g cs HX).
Qed.
Print Assumptions C58_one_feature_total.
Example C58_one_feature_total_nonvacuous : exists g0 g, gmm_new [[-1]; [1]] 2 1 = Ok g0 /\ gmm_fit 100 (Wide 1 two) g0 = Ok g.
Proof.
  eexists. destruct (C58_one_feature_total [[-1]; [1]] 2 _ (Wide 1 two) 100 eq_refl eq_refl) as (g & Hg & _).
  - repeat (apply Forall_cons; [reflexivity|]). apply Forall_nil.
  - apply two_distinct.
  - reflexivity.
  - exists g. split; [reflexivity|exact Hg].
Qed.

(** The density is positive, and the log-likelihood of data is the sum of its logarithms. *)
Theorem C58_pdf : forall start k d g0 data n g points r, gmm_new start k d = Ok g0 -> length start = Z.to_nat k -> data <> [] -> em n g0 data = Ok g -> gmm_pdf g points = Ok r ->
  exists ps, r = map fin_r ps /\ length ps = length points /\ Forall (fun p => 0 < p) ps /\ gmm_log_likelihood g points = Ok (fin_r (rsum (map ln ps))).
Proof.
  intros start k d g0 data n g points r HG HL HN HE Hr. destruct (reach_gmix _ _ _ _ _ _ _ HG HL HN HE) as (HS & _).
  destruct (pdf_densities _ _ _ Hr) as [fs Hfs]. destruct (mixture_of g fs HS Hfs) as (cs & HX & _). rewrite (pdf_form g cs HX) in Hr. apply ok_inj in Hr. subst r.
  exists (map (total cs) points). rewrite map_length, !map_map. split; [reflexivity|]. split; [reflexivity|]. split; [|apply (log_likelihood_form g cs HX)].
  apply Forall_map, Forall_forall. intros x _. now apply (total_pos g cs HX).
Qed.
Print Assumptions C58_pdf.
Example C58_pdf_nonvacuous : exists g0 g r, gmm_new [[-1]; [1]] 2 1 = Ok g0 /\ em 7 g0 two = Ok g /\ gmm_pdf g [[1]; [3]] = Ok r.
Proof.
  destruct two_components as (g0 & H & HE). destruct (HE 7%nat) as (g & Hg & Pg). destruct (plain_densities g Pg) as [fs Hfs]. destruct (mixture_of g fs (proj1 Pg) Hfs) as (cs & HX & _).
  exists g0, g. eexists. split; [exact H|]. split; [exact Hg|]. apply (pdf_form g cs HX).
Qed.

(** ** C81: EM never lowers the log-likelihood of the data it is fitted to, for any number of features and components. *)
Theorem C81_ascent : forall start k d g0 data n m g1 g2 a b, gmm_new start k d = Ok g0 -> length start = Z.to_nat k -> data <> [] -> (n <= m)%nat ->
  em n g0 data = Ok g1 -> em m g0 data = Ok g2 -> gmm_log_likelihood g1 data = Ok a -> gmm_log_likelihood g2 data = Ok b ->
  exists x y, a = fin_r x /\ b = fin_r y /\ x <= y.
Proof.
  intros start k d g0 data n m g1 g2 a b HG HL HN. destruct (new_shaped _ _ _ _ HG HL) as (HS & _). now apply em_ascent.
Qed.
Print Assumptions C81_ascent.
Example C81_ascent_nonvacuous : exists g0 g1 g2 a b, gmm_new [[-1]; [1]] 2 1 = Ok g0 /\ em 1 g0 two = Ok g1 /\ em 4 g0 two = Ok g2 /\
  gmm_log_likelihood g1 two = Ok a /\ gmm_log_likelihood g2 two = Ok b.
Proof.
  destruct two_components as (g0 & H & HE). destruct (HE 1%nat) as (g1 & H1 & P1). destruct (HE 4%nat) as (g2 & H2 & P2).
  destruct (plain_densities g1 P1) as [fs1 Hfs1]. destruct (mixture_of g1 fs1 (proj1 P1) Hfs1) as (cs1 & HX1 & _).
  destruct (plain_densities g2 P2) as [fs2 Hfs2]. destruct (mixture_of g2 fs2 (proj1 P2) Hfs2) as (cs2 & HX2 & _).
  exists g0, g1, g2. eexists _, _. split; [exact H|]. split; [exact H1|]. split; [exact H2|]. split; [apply (log_likelihood_form g1 cs1 HX1)|apply (log_likelihood_form g2 cs2 HX2)].
Qed.

(** ** C79: cross-validated number of components *)
Theorem C79_best : forall it draw last data cands g, (2 <= length cands)%nat ->
  (forall c i k, nth_error cands c = Some k -> length (draw c i) = Z.to_nat k) -> cv_gmm it draw last data cands = Ok g ->
  concat (chunk 5 (w_rows data)) = w_rows data /\
  exists scores b k g0, nth_error cands b = Some k /\ top scores b /\ length scores = length cands /\
    (forall c kc, nth_error cands c = Some kc -> exists lls, nth_error scores c = Some (rsum lls) /\ length lls = length (chunk 5 (w_rows data)) /\
      forall i val, nth_error (chunk 5 (w_rows data)) i = Some val -> exists x g1 g2, nth_error lls i = Some x /\
        gmm_new (draw c i) kc (Z.of_nat (w_cols data)) = Ok g1 /\
        gmm_fit it (Wide (w_cols data) (other_folds (chunk 5 (w_rows data)) i)) g1 = Ok g2 /\ gmm_log_likelihood g2 val = Ok (fin_r x)) /\
    gmm_new (last k) k (Z.of_nat (w_cols data)) = Ok g0 /\ gmm_fit it data g0 = Ok g.
Proof.
  intros it draw last data cands g HC HD H. split; [apply chunk_concat; lia|].
  destruct (cv_best it draw last data cands g HC HD H) as (scores & b & k & g0 & H1 & H2 & H3 & H4 & H5 & H6). exists scores, b, k, g0.
  split; [exact H1|]. split; [exact H2|]. split; [exact H3|]. split; [|split; assumption].
  intros c kc Hc. destruct (H4 c kc Hc) as (lls & G1 & G2 & G3). exists lls. split; [exact G1|]. split; [exact G2|].
  intros i val Hi. destruct (G3 i val Hi) as (x & Hx & g1 & g2 & Q1 & Q2 & Q3). exists x, g1, g2. auto.
Qed.
Print Assumptions C79_best.
(** With a single candidate nothing is compared. *)
Theorem C79_one_candidate : forall it draw last data k g0, gmm_new (last k) k (Z.of_nat (w_cols data)) = Ok g0 -> cv_gmm it draw last data [k] = gmm_fit it data g0.
Proof. intros it draw last data k g0 H. unfold cv_gmm. cbn [bind]. now rewrite H. Qed.
Print Assumptions C79_one_candidate.
(** Refuted for one or two respondents: the default candidates always raise. *)
Theorem C79_small_samples_refuted : forall it draw last d cands rows, (1 <= it)%nat -> (2 <= length cands)%nat ->
  (forall c i k, nth_error cands c = Some k -> length (draw c i) = Z.to_nat k) ->
  (length rows = 1%nat -> cv_gmm it draw last (Wide d rows) cands = Err RuntimeError) /\
  (length rows = 2%nat -> cv_gmm it draw last (Wide d rows) cands = Err ValueError).
Proof.
  intros it draw last d cands rows Hit HC HD. split; intros HL.
  - destruct rows as [|x [|y l]]; try discriminate. now apply cv_single.
  - destruct rows as [|x [|y [|z l]]]; try discriminate. now apply cv_two.
Qed.
Print Assumptions C79_small_samples_refuted.
(** One latent variable: the choice succeeds when every training part has two different scores. *)
Theorem C79_one_feature_total : forall it draw last rows cands, (2 <= length cands)%nat ->
  (forall c i k, nth_error cands c = Some k -> (1 <= k)%Z /\ length (draw c i) = Z.to_nat k /\ Forall (fun r => length r = 1%nat) (draw c i)) ->
  (forall k, In k cands -> length (last k) = Z.to_nat k /\ Forall (fun r => length r = 1%nat) (last k)) ->
  (forall i, (i < length (chunk 5 rows))%nat -> varied (other_folds (chunk 5 rows) i)) -> varied rows ->
  exists g, cv_gmm it draw last (Wide 1 rows) cands = Ok g.
Proof. intros it draw last rows cands H1 H2 H3 H4 H5. destruct (cv_one it draw last rows cands H1 H2 H3 H4 H5) as (g & Hg & _). eauto. Qed.
Print Assumptions C79_one_feature_total.
Definition four : list (list R) := [[0]; [2]; [5]; [9]].
Example C79_best_nonvacuous : exists draw last g, (forall c i k, nth_error [1; 2]%Z c = Some k -> length (draw c i) = Z.to_nat k) /\
  cv_gmm 100 draw last (Wide 1 four) [1; 2]%Z = Ok g.
Proof.
  set (start := fun k : Z => repeat [1] (Z.to_nat k)).
  set (draw := fun c (i : nat) => start (nth c [1; 2]%Z 0%Z)). exists draw, start.
  assert (SL : forall k, length (start k) = Z.to_nat k /\ Forall (fun r => length r = 1%nat) (start k)).
  { intros k. unfold start. rewrite repeat_length. split; [reflexivity|]. apply Forall_forall. intros r Hr. apply repeat_spec in Hr. now subst. }
  assert (DL : forall c i k, nth_error [1; 2]%Z c = Some k -> (1 <= k)%Z /\ length (draw c i) = Z.to_nat k /\ Forall (fun r => length r = 1%nat) (draw c i)).
  { intros c i k Hk. unfold draw. rewrite (nth_error_nth _ _ _ Hk). split; [|apply SL]. destruct c as [|[|c]]; cbn in Hk; try (injection Hk as <-; lia). destruct c; discriminate. }
  destruct (C79_one_feature_total 100 draw start four [1; 2]%Z) as (g & Hg).
  - cbn; lia.
  - exact DL.
  - intros k _. apply SL.
  - change (chunk 5 four) with [[[0]]; [[2]]; [[5]]; [[9]]]. cbn [length]. intros [|[|[|[|i]]]] Hi; try lia; unfold varied, other_folds; cbn [firstn skipn app concat].
    + exists [2], [5]. cbn. split; [auto|]. split; [auto|]. lra.
    + exists [0], [5]. cbn. split; [auto|]. split; [auto|]. lra.
    + exists [0], [2]. cbn. split; [auto|]. split; [auto|]. lra.
    + exists [0], [2]. cbn. split; [auto|]. split; [auto|]. lra.
  - exists [0], [2]. unfold four. cbn. split; [auto|]. split; [auto|]. lra.
  - exists g. split; [|exact Hg]. intros c i k Hk. now destruct (DL c i k Hk) as (_ & ? & _).
Qed.

(** ** C80 *)
(** After any sequence of calls, whatever the method: one weight per point, non-negative, adding up to one; all weights
    positive for a mixture.  The one exception is the quantile method when its density is 0 at every grid point. *)
Theorem C80_weights : forall icdf draw last segments lv m held f pop grid ws, starts_ok draw last -> reached lv held ->
  snd (scores_and_weights (qmvn_fit icdf lv) (gmm_fit_density draw last lv) segments lv m held f pop) = Ok (grid, ws) -> grid <> [] ->
  length ws = length grid /\
  ((exists qs, ws = map (fun q => Some (Fin q)) qs /\ weights_ok qs /\ (m = MGmm -> Forall (fun q => 0 < q) qs)) \/
   (m = MQmvn /\ Forall (fun w => w = None) ws)).
Proof. exact weights_spec. Qed.
Print Assumptions C80_weights.

(** 'data': the scores themselves, each with weight one over their number. *)
Theorem C80_data : forall fq fg segments lv held f pop scores, scores <> [] ->
  (pop = Some (Ok scores) \/ pop = None /\ ft_scores f = Some scores \/ pop = None /\ ft_scores f = None /\ ft_mml f = true /\ ft_normal f = scores) ->
  scores_and_weights fq fg segments lv MData held f pop = (held, Ok (scores, repeat (Some (Fin (1 / INR (length scores)))) (length scores))).
Proof.
  intros fq fg segments lv held f pop scores Hne HS. unfold scores_and_weights. cbn [validate_method].
  assert (HN : 0 < INR (length scores)) by (apply lt_0_INR; destruct scores; [congruence|cbn [length]; lia]).
  assert (E : map (fun _ : list R => fdiv (fin_r 1) (fin_r (INR (length scores)))) scores = repeat (Some (Fin (1 / INR (length scores)))) (length scores)).
  { rewrite fdiv_pos by exact HN. generalize (1 / INR (length scores)). clear. intros q. induction scores as [|x l IH]; [reflexivity|]. cbn [map length repeat]. now rewrite IH. }
  destruct HS as [->|[[-> ->]|(-> & -> & -> & ->)]]; now rewrite E.
Qed.
Print Assumptions C80_data.
Example C80_data_nonvacuous : exists f, snd (scores_and_weights (fun _ => Err ValueError) (fun _ => Err ValueError) 3 1 MData None f None) = Ok (two, repeat (Some (Fin (1 / INR 2))) 2).
Proof. exists (Fitted (Some two) false false []). rewrite (C80_data _ _ _ _ _ _ _ two); [reflexivity|discriminate|auto]. Qed.

(** The points: the whole grid of [segments] equidistant values per latent variable, from one standard deviation below the
    least score to one above the largest. *)
Theorem C80_grid : forall fq fg segments lv m held f pop scores grid ws, (2 <= length scores)%nat -> (2 <= segments)%nat -> m = MQmvn \/ m = MGmm ->
  (pop = Some (Ok scores) \/ pop = None /\ ft_scores f = Some scores \/ pop = None /\ ft_scores f = None /\ ft_mml f = true /\ ft_normal f = scores) ->
  snd (scores_and_weights fq fg segments lv m held f pop) = Ok (grid, ws) ->
  length grid = (segments ^ lv)%nat /\
  exists lo hi, (forall i, (i < lv)%nat -> least (map (fun t => nth i t 0) scores) (lo i) /\ largest (map (fun t => nth i t 0) scores) (hi i)) /\
    forall t, In t grid <-> length t = lv /\ forall i, (i < lv)%nat ->
      exists s, (s < segments)%nat /\
        nth i t 0 = (lo i - sample_sd (map (fun t => nth i t 0) scores)) +
                    INR s * ((hi i + sample_sd (map (fun t => nth i t 0) scores)) - (lo i - sample_sd (map (fun t => nth i t 0) scores))) / INR (segments - 1).
Proof.
  intros fq fg segments lv m held f pop scores grid ws H2 Hs Hm HS H. apply grid_members; [exact H2|exact Hs|].
  unfold scores_and_weights in H. assert (V : validate_method m (ft_vae f) = Ok tt) by (destruct Hm; subst; reflexivity). rewrite V in H.
  assert (D : exists b, snd (density_weights fq fg segments lv m held b scores) = Ok (grid, ws)).
  { destruct HS as [->|[[-> E]|(-> & E1 & E2 & E3)]]; try rewrite E in H; try rewrite E1, E2, E3 in H; destruct Hm; subst; eauto. }
  destruct D as [b D]. unfold density_weights in D. destruct (match (if b then None else _) with Some d => (held, Ok d) | None => _ end) as [h' [d|]]; [|discriminate]. cbn [snd bind] in D.
  destruct (integration_grid segments lv scores) as [g|]; [|discriminate]. cbn [bind] in D. destruct (dn_pdf d g); [|discriminate]. cbn [bind] in D. congruence.
Qed.
Print Assumptions C80_grid.

(** A first call with 'gmm' for one latent variable succeeds when every training part has two different scores. *)
Theorem C80_one_feature_total : forall fq draw last segments f scores, (2 <= segments)%nat ->
  (forall c i k, nth_error [2; 3; 4; 5; 10]%Z c = Some k -> length (draw c i) = Z.to_nat k /\ Forall (fun r => length r = 1%nat) (draw c i)) ->
  (forall k, length (last k) = Z.to_nat k /\ Forall (fun r => length r = 1%nat) (last k)) ->
  ft_scores f = Some scores -> (forall i, (i < length (chunk 5 scores))%nat -> varied (other_folds (chunk 5 scores) i)) -> varied scores ->
  exists d grid qs, scores_and_weights fq (gmm_fit_density draw last 1) segments 1 MGmm None f None = (Some d, Ok (grid, map (fun q => Some (Fin q)) qs)) /\
    length grid = segments /\ length qs = segments /\ Forall (fun q => 0 < q) qs /\ rsum qs = 1.
Proof.
  intros fq draw last segments f scores Hs HD HL Hf HT HV.
  destruct (cv_one 100 draw last scores [2; 3; 4; 5; 10]%Z) as (g & Hg & Pg); [cbn; lia| |intros k _; apply HL|exact HT|exact HV|].
  { intros c i k Hk. destruct (HD c i k Hk). split; [|auto]. destruct c as [|[|[|[|[|c]]]]]; cbn in Hk; try (injection Hk as <-; lia). destruct c; discriminate. }
  assert (H2 : (2 <= length scores)%nat). { destruct HV as (x & y & Hx & Hy & Hn). destruct scores as [|a [|b l]]; [destruct Hx| |cbn [length]; lia]. destruct Hx as [->|[]], Hy as [->|[]]. congruence. }
  assert (SO : starts_ok draw last). { split; [intros c i k Hk; now destruct (HD c i k Hk)|intros k; apply HL]. }
  pose proof (grid_form segments 1 scores H2) as HG.
  set (grid := product _) in HG.
  assert (LG : length grid = segments). { unfold grid. rewrite product_length. cbn [map seq fold_right]. rewrite linspace_len. lia. }
  destruct (plain_densities g Pg) as [fs Hfs]. destruct (mixture_of g fs (proj1 Pg) Hfs) as (cs & HX & _). pose proof (pdf_form g cs HX grid) as HP.
  assert (E : scores_and_weights fq (gmm_fit_density draw last 1) segments 1 MGmm None f None = (Some (Density KGmm (gmm_pdf g)), Ok (grid, normalised (map (fun x => fin_r (total cs x)) grid)))).
  { unfold scores_and_weights. cbn [validate_method]. rewrite Hf. unfold density_weights, approximate, gmm_fit_density. rewrite Hg. cbn [rmap bind dn_pdf]. rewrite HG. cbn [bind]. rewrite HP. reflexivity. }
  destruct (C80_weights (fun x => x) draw last segments 1 MGmm None f None grid (normalised (map (fun x => fin_r (total cs x)) grid)) SO (reached_none 1)) as [LW [(qs & Eq & [_ W1] & W2)|[Hm _]]]; [| | |discriminate Hm].
  - change (snd (scores_and_weights fq (gmm_fit_density draw last 1) segments 1 MGmm None f None) = Ok (grid, normalised (map (fun x => fin_r (total cs x)) grid))). now rewrite E.
  - intros Z. rewrite Z in LG. cbn in LG. lia.
  - exists (Density KGmm (gmm_pdf g)), grid, qs. split; [now rewrite E, Eq|]. split; [exact LG|]. split; [|split; [now apply W2|exact W1]]. rewrite Eq, map_length in LW. lia.
Qed.
Print Assumptions C80_one_feature_total.
Example C80_one_feature_total_nonvacuous : exists draw last d grid qs,
  scores_and_weights (fun _ => Err ValueError) (gmm_fit_density draw last 1) 3 1 MGmm None (Fitted (Some four) false false []) None = (Some d, Ok (grid, map (fun q => Some (Fin q)) qs)) /\ rsum qs = 1.
Proof.
  set (start := fun k : Z => repeat [1] (Z.to_nat k)).
  set (draw := fun c (i : nat) => start (nth c [2; 3; 4; 5; 10]%Z 0%Z)). exists draw, start.
  assert (SL : forall k, length (start k) = Z.to_nat k /\ Forall (fun r => length r = 1%nat) (start k)).
  { intros k. unfold start. rewrite repeat_length. split; [reflexivity|]. apply Forall_forall. intros r Hr. apply repeat_spec in Hr. now subst. }
  destruct (C80_one_feature_total (fun _ => Err ValueError) draw start 3 (Fitted (Some four) false false []) four) as (d & grid & qs & E & _ & _ & _ & W).
  - lia.
  - intros c i k Hk. unfold draw. rewrite (nth_error_nth _ _ _ Hk). apply SL.
  - exact SL.
  - reflexivity.
  - change (chunk 5 four) with [[[0]]; [[2]]; [[5]]; [[9]]]. cbn [length]. intros [|[|[|[|i]]]] Hi; try lia; unfold varied, other_folds; cbn [firstn skipn app concat].
    + exists [2], [5]. cbn. split; [auto|]. split; [auto|]. lra.
    + exists [0], [5]. cbn. split; [auto|]. split; [auto|]. lra.
    + exists [0], [2]. cbn. split; [auto|]. split; [auto|]. lra.
    + exists [0], [2]. cbn. split; [auto|]. split; [auto|]. lra.
  - exists [0], [2]. unfold four. cbn. split; [auto|]. split; [auto|]. lra.
  - exists d, grid, qs. split; assumption.
Qed.

(** The population sum score distribution over these weights is a distribution. *)
Theorem C80_sum_scores : forall icdf draw last segments lv m held f pop grid ws (probs : list R -> list (list R)) cats, starts_ok draw last -> reached lv held ->
  snd (scores_and_weights (qmvn_fit icdf lv) (gmm_fit_density draw last lv) segments lv m held f pop) = Ok (grid, ws) -> grid <> [] -> m <> MQmvn ->
  cats <> [] -> (forall t, fits (probs t) cats /\ all_distributions (probs t) cats) ->
  exists qs ds, ws = map (fun q => Some (Fin q)) qs /\ sum_score_probabilities None cats (map probs grid) qs = Ok ds /\
    Forall (fun x => 0 <= x) ds /\ rsum ds = 1.
Proof.
  intros icdf draw last segments lv m held f pop grid ws probs cats HS HR H HG Hm Hc HP.
  destruct (C80_weights _ _ _ _ _ _ _ _ _ _ _ HS HR H HG) as [L [(qs & E & [W0 W1] & _)|[X _]]]; [|congruence].
  destruct (C46_population cats (map probs grid) qs Hc) as (ds & D & _ & _ & D0 & D1).
  - rewrite map_length, <- L, E. now rewrite map_length.
  - apply Forall_map, Forall_forall. intros t _. apply HP.
  - exact W0.
  - exists qs, ds. split; [exact E|]. split; [exact D|]. split; [exact D0|]. now rewrite D1.
Qed.
Print Assumptions C80_sum_scores.

(** 'encoder sampling' is accepted for a VAE but always raises TypeError. *)
Theorem C80_encoder_sampling_refuted : forall fq fg segments lv held f scores, ft_vae f = true -> ft_scores f = Some scores ->
  scores_and_weights fq fg segments lv MEncoder held f None = (held, Err TypeError).
Proof. intros fq fg segments lv held f scores HV HS. unfold scores_and_weights. cbn [validate_method]. now rewrite HV, HS. Qed.
Print Assumptions C80_encoder_sampling_refuted.
Example C80_encoder_sampling_refuted_nonvacuous : exists f, ft_vae f = true /\ ft_scores f = Some two.
Proof. exists (Fitted (Some two) false true []). split; reflexivity. Qed.

(** Once a density of the requested kind is held, the weights are those of that density, whatever the scores are now and
    whatever a fit to them would give. *)
Theorem C80_stale_density_refuted : forall fq fg fq' fg' segments lv m d f scores,
  (m = MQmvn /\ dn_kind d = KQmvn \/ m = MGmm /\ dn_kind d = KGmm) -> ft_scores f = Some scores ->
  scores_and_weights fq fg segments lv m (Some d) f None = scores_and_weights fq' fg' segments lv m (Some d) f None /\
  fst (scores_and_weights fq fg segments lv m (Some d) f None) = Some d /\
  forall grid ws, snd (scores_and_weights fq fg segments lv m (Some d) f None) = Ok (grid, ws) -> exists p, dn_pdf d grid = Ok p /\ ws = normalised p.
Proof.
  intros fq fg fq' fg' segments lv m d f scores HK HS. unfold scores_and_weights, density_weights.
  destruct HK as [[-> K]|[-> K]]; cbn [validate_method]; rewrite HS, K; cbn [kind_eqb fst snd]; (split; [reflexivity|]); (split; [reflexivity|]); intros grid ws H;
    (cbn [bind] in H; destruct (integration_grid segments lv scores) as [g|]; [|discriminate]; cbn [bind] in H; destruct (dn_pdf d g) as [p|] eqn:E; [|discriminate]; cbn [bind] in H; apply ok_inj in H;
     assert (g = grid) by congruence; subst; exists p; split; [exact E|congruence]).
Qed.
Print Assumptions C80_stale_density_refuted.
Example C80_stale_density_refuted_nonvacuous : exists d f, dn_kind d = KGmm /\ ft_scores f = Some four.
Proof. exists (Density KGmm (fun _ => Err ValueError)), (Fitted (Some four) false false []). split; reflexivity. Qed.

(** A fit of the quantile density that raises leaves an unfitted density behind: later calls raise AttributeError even
    for scores that could be fitted. *)
Theorem C80_unfitted_refuted : forall fq fg fq' fg' segments lv held f f' bad good e, ft_scores f = Some bad -> fq bad = Err e ->
  (held = None \/ exists d, held = Some d /\ dn_kind d = KGmm) -> ft_scores f' = Some good -> (2 <= length good)%nat ->
  let held' := fst (scores_and_weights fq fg segments lv MQmvn held f None) in
  snd (scores_and_weights fq fg segments lv MQmvn held f None) = Err e /\
  snd (scores_and_weights fq' fg' segments lv MQmvn held' f' None) = Err AttributeError.
Proof.
  intros fq fg fq' fg' segments lv held f f' bad good e HB HE HH HG H2. unfold scores_and_weights. cbn [validate_method]. rewrite HB, HG. unfold density_weights.
  assert (R : match held with Some d => if kind_eqb (dn_kind d) KQmvn then Some d else None | None => None end = None). { destruct HH as [->|(d & -> & K)]; [reflexivity|]. now rewrite K. }
  rewrite R. unfold approximate. rewrite HE. cbn [fst snd]. split; [reflexivity|]. cbn [fst snd unfitted dn_kind kind_eqb bind]. rewrite (grid_form _ _ _ H2). cbn [bind dn_pdf]. reflexivity.
Qed.
Print Assumptions C80_unfitted_refuted.
Example C80_unfitted_refuted_nonvacuous : exists icdf bad, qmvn_fit icdf 1 bad = Err ValueError.
Proof.
  exists (fun x => x), [[0]]. unfold qmvn_fit, mvn, covariance.
  assert (L : length (qmvn_scores (fun x => x) 1 [[0]]) = 1%nat) by (unfold qmvn_scores; now rewrite map_length, seq_length).
  rewrite L. cbn [Nat.eqb map seq forallb is_fin andb]. rewrite Bool.andb_false_r. reflexivity.
Qed.

(** Without training scores, and not after marginal maximum likelihood, every method raises. *)
Theorem C80_unbound_refuted : forall fq fg segments lv m held f, ft_scores f = None -> ft_mml f = false -> validate_method m (ft_vae f) = Ok tt ->
  scores_and_weights fq fg segments lv m held f None = (held, Err UnboundLocalError).
Proof. intros fq fg segments lv m held f H1 H2 H3. unfold scores_and_weights. now rewrite H3, H1, H2. Qed.
Print Assumptions C80_unbound_refuted.
Example C80_unbound_refuted_nonvacuous : exists f, ft_scores f = None /\ ft_mml f = false /\ validate_method MData (ft_vae f) = Ok tt.
Proof. exists (Fitted None false false []). split; [|split]; reflexivity. Qed.
