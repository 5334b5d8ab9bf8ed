(** Theorems: score distributions, entropies, correlations, information, model comparison. *)
From Verif Require Import Base BaseFacts RBase RFacts M_Logit M_Mono M_Lik M_Est M_Stat S_Stat
  P_Stat1 P_Stat2 P_Stat3 P_Stat4 P_Stat5 P_Stat6 P_Stat7 P_Stat8.
Local Open Scope R_scope.

(** ** C46 Sum scores *)
Theorem C46_score_distribution : forall probs cats, probs <> [] -> fits probs cats ->
  exists ds, conditional_score_distribution probs cats = Ok ds /\ length ds = (list_sum cats - length cats + 1)%nat /\
    forall s, nth s ds 0 = score_probability probs cats s.
Proof. intros probs cats Hne HF. exact (csd_spec probs cats HF Hne). Qed.
Print Assumptions C46_score_distribution.

Theorem C46_is_distribution : forall probs cats ds, probs <> [] -> fits probs cats -> all_distributions probs cats ->
  conditional_score_distribution probs cats = Ok ds ->
  Forall (fun x => 0 <= x) ds /\ rsum ds = 1 /\
  sumn (length ds) (fun s => INR s * nth s ds 0) = rsum (zip_with (fun p c => sumn c (fun k => INR k * nth k p 0)) probs cats).
Proof.
  intros probs cats ds Hne HF HD E. destruct (csd_spec probs cats HF Hne) as (ds' & E' & L & N). rewrite E in E'. injection E' as <-.
  split; [|split].
  - apply Forall_forall. intros x Hx. apply (In_nth _ _ 0) in Hx. destruct Hx as (s & _ & <-). rewrite N. apply score_probability_nonneg. exact HD.
  - rewrite rsum_nth, L. rewrite (sumn_ext _ _ (score_probability probs cats)) by (intros; apply N). apply score_probability_sum; assumption.
  - rewrite L. rewrite (sumn_ext _ _ (fun s => INR s * score_probability probs cats s)) by (intros; rewrite N; reflexivity). apply score_probability_mean; assumption.
Qed.
Print Assumptions C46_is_distribution.

Theorem C46_population : forall cats rows weights, cats <> [] -> length weights = length rows ->
  Forall (fun probs => fits probs cats /\ all_distributions probs cats) rows -> Forall (fun w => 0 <= w) weights ->
  exists ds, sum_score_probabilities None cats rows weights = Ok ds /\ length ds = (list_sum cats - length cats + 1)%nat /\
    (forall s, (s < length ds)%nat -> nth s ds 0 = mixture weights rows cats s) /\ Forall (fun x => 0 <= x) ds /\ rsum ds = rsum weights.
Proof.
  intros cats rows weights Hc HL HF HW.
  assert (HF1 : Forall (fun probs => fits probs cats) rows) by (eapply Forall_impl; [|exact HF]; intros p []; assumption).
  assert (HF2 : Forall (fun probs => all_distributions probs cats) rows) by (eapply Forall_impl; [|exact HF]; intros p []; assumption).
  eexists. split; [apply ssp_plain; assumption|]. rewrite map_length, seq_length. split; [reflexivity|]. split; [|split].
  - intros s Hs. rewrite (nth_indep _ 0 (mixture weights rows cats 0)) by (rewrite map_length, seq_length; exact Hs). rewrite map_nth, seq_nth by exact Hs. reflexivity.
  - apply Forall_forall. intros x Hx. apply in_map_iff in Hx. destruct Hx as (s & <- & _). apply mixture_nonneg; assumption.
  - rewrite rsum_seq. apply mixture_total; assumption.
Qed.
Print Assumptions C46_population.

(** With a key the scores are the numbers of correct answers. *)
Theorem C46_number_correct : forall cats key rows weights, cats <> [] -> length weights = length rows ->
  Forall (fun probs => key_ok probs key /\ Forall2 (fun p c => length p = c /\ is_distribution p c) probs cats) rows -> Forall (fun w => 0 <= w) weights ->
  exists ds, sum_score_probabilities (Some key) cats rows weights = Ok ds /\ length ds = (length cats + 1)%nat /\
    (forall s, (s < length ds)%nat ->
      nth s ds 0 = mixture weights (map (fun probs => zip_with (fun p k => [1 - nth k p 0; nth k p 0]) probs key) rows) (repeat 2%nat (length cats)) s) /\
    Forall (fun x => 0 <= x) ds /\ rsum ds = rsum weights.
Proof.
  intros cats key rows weights Hc HL HF HW.
  assert (HLen : forall probs : list (list R), Forall2 (fun p c => length p = c /\ is_distribution p c) probs cats -> length probs = length cats) by (intros probs H; symmetry; eapply F2_length; exact H).
  assert (HF1 : Forall (fun probs => length probs = length cats /\ key_ok probs key) rows) by (eapply Forall_impl; [|exact HF]; intros p [A B]; split; [apply HLen; exact B|exact A]).
  assert (EQ : map (fun probs => zip_with collapse probs key) rows = map (fun probs => zip_with (fun p k => [1 - nth k p 0; nth k p 0]) probs key) rows).
  { apply map_ext_in. intros probs Hp. rewrite Forall_forall in HF. destruct (HF probs Hp) as [K D]. clear -K D. revert cats D; induction K as [|p k ps ks H _ IH]; intros cats D; [reflexivity|].
    inversion D as [|p' c ps' cs [L [_ S]] D']; subst. cbn [zip_with]. rewrite (IH cs D'). f_equal. unfold collapse. rewrite rsum_nth, S. reflexivity. }
  assert (HX : Forall (fun probs => fits probs (repeat 2%nat (length cats)) /\ all_distributions probs (repeat 2%nat (length cats))) (map (fun probs => zip_with collapse probs key) rows)).
  { apply Forall_forall. intros q Hq. apply in_map_iff in Hq. destruct Hq as (probs & <- & Hp). rewrite Forall_forall in HF. destruct (HF probs Hp) as [K D].
    pose proof (HLen probs D) as L. rewrite <- L. split; [apply collapsed_fits, key_ok_length; exact K|eapply collapsed_distributions; eassumption]. }
  rewrite ssp_key by assumption. eexists. split; [reflexivity|]. rewrite map_length, seq_length. split; [reflexivity|]. rewrite <- EQ. split; [|split].
  - intros s Hs. rewrite (nth_indep _ 0 (mixture weights (map (fun probs => zip_with collapse probs key) rows) (repeat 2%nat (length cats)) 0)) by (rewrite map_length, seq_length; exact Hs). rewrite map_nth, seq_nth by exact Hs. reflexivity.
  - apply Forall_forall. intros x Hx. apply in_map_iff in Hx. destruct Hx as (s & <- & _). apply mixture_nonneg; [assumption|]. eapply Forall_impl; [|exact HX]. intros p []; assumption.
  - rewrite rsum_seq. pose proof (mixture_total weights _ _ ltac:(rewrite map_length; exact HL) HX) as T. rewrite list_sum_repeat2, repeat_length in T.
    replace (2 * length cats - length cats + 1)%nat with (length cats + 1)%nat in T by lia. exact T.
Qed.
Print Assumptions C46_number_correct.
(** Three items with 2, 3 and 2 categories (the second row of probabilities is padded). *)
Example C46_nonvacuous :
  let probs := [[1 / 3; 2 / 3; 0]; [1 / 2; 1 / 4; 1 / 4]; [3 / 4; 1 / 4; 0]] in let cats := [2; 3; 2]%nat in
  fits probs cats /\ all_distributions probs cats /\ score_probability probs cats 1 = 1 / 3 * (1 / 2) * (1 / 4) + 1 / 3 * (1 / 4) * (3 / 4) + 2 / 3 * (1 / 2) * (3 / 4).
Proof.
  cbv zeta. split; [|split].
  - repeat (apply Forall2_cons; [cbn [length]; lia|]). constructor.
  - repeat (apply Forall2_cons; [split; [intros [|[|[|k]]] Hk; try lia; cbn [nth]; lra|cbn [sumn nth]; lra]|]). constructor.
  - unfold score_probability, response_patterns. cbn -[Rmult Rplus Rdiv Rinv IZR]. lra.
Qed.

(** ** C47 Collapsing incorrect options *)
Theorem C47_collapse : forall probs cats key, key_ok probs key -> Forall2 (fun p c => length p = c /\ is_distribution p c) probs cats ->
  exists out, sum_incorrect_probabilities probs cats key = Ok out /\ length out = length probs /\
    forall i p k, nth_error probs i = Some p -> nth_error key i = Some k -> nth_error out i = Some [1 - nth k p 0; nth k p 0].
Proof.
  intros probs cats key HK HD. assert (HL : length cats = length probs) by (eapply F2_length; exact HD).
  pose proof (key_ok_length _ _ HK) as LK. exists (zip_with collapse probs key). split; [apply sum_incorrect_spec; assumption|]. split; [rewrite zip_with_length; lia|].
  intros i p k Ep Ek. rewrite nth_error_zip_with, Ep, Ek. unfold collapse. do 3 f_equal.
  assert (S : rsum p = 1); [|rewrite S; reflexivity].
  clear -HD Ep. revert i Ep; induction HD as [|q c ps cs [L [_ S]] _ IH]; intros [|i] E; try discriminate; cbn in E; [injection E as <-; rewrite rsum_nth, L; exact S|eapply IH; exact E].
Qed.
Print Assumptions C47_collapse.
Theorem C47_bad_key : forall probs cats key i p k, length cats = length probs -> length key = length probs ->
  nth_error probs i = Some p -> nth_error key i = Some k -> (length p <= k)%nat -> sum_incorrect_probabilities probs cats key = Err IndexError.
Proof. exact sum_incorrect_bad_key. Qed.
Print Assumptions C47_bad_key.
Example C47_nonvacuous : let probs := [[1 / 3; 2 / 3; 0]; [1 / 2; 1 / 4; 1 / 4]] in
  key_ok probs [1; 2]%nat /\ Forall2 (fun p c => length p = c /\ is_distribution p c) probs [3; 3]%nat.
Proof.
  cbv zeta. split; [repeat (apply Forall2_cons; [cbn [length]; lia|]); constructor|].
  repeat (apply Forall2_cons; [split; [reflexivity|]; split; [intros [|[|[|k]]] Hk; try lia; cbn [nth]; lra|cbn [sumn nth]; lra]|]). constructor.
Qed.

(** ** C49 Entropy *)
Theorem C49_entropy : forall b p, 1 < b -> p <> [] -> Forall (fun x => 0 <= x) p -> rsum p = 1 ->
  exists h, entropy b p = Ok (Some (Fin h)) /\
    shannon b p - INR (length p) * (/ 10000000000 / ln b) <= h <= shannon b p /\
    - (/ 10000000000 / ln b) <= h <= ln (INR (length p)) / ln b.
Proof.
  intros b p Hb Hne Hp S. exists (hent b p). split; [apply entropy_value; assumption|].
  pose proof (hent_le_shannon b p Hb Hp). pose proof (shannon_le_hent b p Hb Hp). pose proof (hent_le_log b p Hb Hne Hp S). pose proof (hent_lower b p Hb Hp S).
  unfold entropy_eps in *. split; split; lra.
Qed.
Print Assumptions C49_entropy.
Theorem C49_refusal : forall b p,
  entropy b p = Err RuntimeError <-> / 100000000 + / 100000 < Rabs (rsum p - 1).
Proof.
  intros b p. split; [|apply entropy_refuse]. intros E. destruct (Rlt_le_dec (/ 100000000 + / 100000) (Rabs (rsum p - 1))) as [L|L]; [exact L|].
  destruct (entropy_accept b p L) as (v & Ev). congruence.
Qed.
Print Assumptions C49_refusal.
(** The upper bound is the entropy of the uniform distribution. *)
Theorem C49_uniform : forall b n, 1 < b -> (0 < n)%nat ->
  exists h, entropy b (repeat (/ INR n) n) = Ok (Some (Fin h)) /\ ln (INR n) / ln b - INR n * (/ 10000000000 / ln b) <= h <= ln (INR n) / ln b.
Proof.
  intros b n Hb Hn. assert (K : 0 < INR n) by (apply lt_0_INR; exact Hn).
  destruct (C49_entropy b (repeat (/ INR n) n) Hb) as (h & E & B & _).
  - destruct n; [lia|discriminate].
  - apply Forall_forall. intros x Hx. apply repeat_spec in Hx. subst. left. apply Rinv_0_lt_compat. exact K.
  - rewrite <- (map_id (repeat (/ INR n) n)). rewrite (map_ext_in _ (fun _ => / INR n)) by (intros x Hx; apply repeat_spec in Hx; exact Hx). rewrite rsum_map_const, repeat_length. field. lra.
  - exists h. split; [exact E|]. rewrite repeat_length in B. rewrite shannon_uniform in B by assumption. exact B.
Qed.
Print Assumptions C49_uniform.
Example C49_nonvacuous : 1 < 2 /\ [1 / 4; 0; 3 / 4] <> [] /\ Forall (fun x => 0 <= x) [1 / 4; 0; 3 / 4] /\ rsum [1 / 4; 0; 3 / 4] = 1 /\ / 100000000 + / 100000 < Rabs (rsum [1 / 4; 1 / 4] - 1).
Proof.
  split; [lra|]. split; [discriminate|]. split; [repeat constructor; lra|]. split; [unfold rsum; cbn [fold_right]; lra|].
  unfold rsum. cbn [fold_right]. rewrite Rabs_left; lra.
Qed.

(** ** C50 Correlations *)
(** Equal entries, finite or not, in both triangles. *)
Theorem C50_symmetric_partial : forall cols x i j, (i < cols)%nat -> (j < cols)%nat ->
  nth_error (nth i (correlation_matrix cols x) []) j = nth_error (nth j (correlation_matrix cols x) []) i /\
  nth_error (nth i (correlation_matrix cols x) []) j <> None.
Proof.
  intros cols x i j Hi Hj. rewrite !correlation_entry by assumption. split; [|discriminate]. f_equal. destruct (cells_complete x); [apply corr_complete_sym|apply corr_missing_sym].
Qed.
Print Assumptions C50_symmetric_partial.
Theorem C50_complete_partial : forall cols x i j, (i < cols)%nat -> (j < cols)%nat -> (2 <= length x)%nat -> cells_complete x = true ->
  (exists u v, In u (values x i) /\ In v (values x i) /\ u <> v) -> (exists u v, In u (values x j) /\ In v (values x j) /\ u <> v) ->
  entry (correlation_matrix cols x) i j (pearson (values x i) (values x j)) /\ -1 <= pearson (values x i) (values x j) <= 1 /\
  entry (correlation_matrix cols x) i i 1.
Proof.
  intros cols x i j Hi Hj N C Vi Vj.
  assert (P : forall k, (exists u v, In u (values x k) /\ In v (values x k) /\ u <> v) -> 0 < cross (values x k) (values x k)).
  { intros k (u & v & Hu & Hv & D). pose proof (cross_self_nonneg (values x k)). destruct (Req_EM_T (cross (values x k) (values x k)) 0) as [Z|Z]; [|lra].
    exfalso. apply D. rewrite (proj1 (cross_zero_constant _) Z u Hu), (proj1 (cross_zero_constant _) Z v Hv). reflexivity. }
  unfold entry. rewrite !correlation_entry, C by assumption. rewrite !corr_complete_value by auto. rewrite pearson_self by auto.
  split; [reflexivity|]. split; [|reflexivity]. apply pearson_range; [rewrite !values_length; reflexivity|auto|auto].
Qed.
Print Assumptions C50_complete_partial.
(** A constant column has no unit diagonal: every entry of its row is NaN. *)
Theorem C50_constant_column_refuted : forall cols x i j c, (i < cols)%nat -> (j < cols)%nat -> (2 <= length x)%nat -> cells_complete x = true ->
  (forall u, In u (values x i) -> u = c) -> nth_error (nth i (correlation_matrix cols x) []) j = Some None.
Proof.
  intros cols x i j c Hi Hj N C K. rewrite correlation_entry, C by assumption. f_equal. apply corr_complete_constant; [exact N|]. apply cross_zero_constant.
  assert (M : mean (values x i) = c).
  { unfold mean. rewrite <- (map_id (values x i)) at 1. rewrite (map_ext_in _ (fun _ => c)) by exact K. rewrite rsum_map_const. field.
    rewrite values_length. apply not_0_INR. lia. }
  rewrite M. exact K.
Qed.
Print Assumptions C50_constant_column_refuted.
(** With a missing cell anywhere: unit diagonal, and off the diagonal Pearson's coefficient of the jointly observed
    pairs plus a term that vanishes only if one of the pair's means is that of all observed values. *)
Theorem C50_missing_partial : forall cols x i j, (i < j)%nat -> (j < cols)%nat -> cells_complete x = false ->
  entry (correlation_matrix cols x) i i 1 /\
  let v := pairs_of x i j in let a := map fst v in let b := map snd v in
  ((length v <= 1)%nat -> entry (correlation_matrix cols x) i j 0) /\
  ((2 <= length v)%nat -> 0 < cross a a -> 0 < cross b b -> exists r, entry (correlation_matrix cols x) i j r /\
     r = pearson a b + INR (length v) * (mean a - mean (answers_of x i)) * (mean b - mean (answers_of x j)) / sqrt (cross a a * cross b b) /\
     (r = pearson a b <-> mean a = mean (answers_of x i) \/ mean b = mean (answers_of x j))).
Proof.
  intros cols x i j Hij Hj C. unfold entry. rewrite !correlation_entry, C by lia. split; [unfold corr_missing; rewrite Nat.eqb_refl; reflexivity|].
  cbv zeta. split; [intros N; rewrite corr_missing_few by assumption; reflexivity|]. intros N A B.
  exists (pearson (map fst (pairs_of x i j)) (map snd (pairs_of x i j)) + bias x i j). split; [rewrite corr_missing_value by assumption; reflexivity|]. split; [reflexivity|].
  assert (P : 0 < sqrt (cross (map fst (pairs_of x i j)) (map fst (pairs_of x i j)) * cross (map snd (pairs_of x i j)) (map snd (pairs_of x i j)))) by (apply sqrt_lt_R0, Rmult_lt_0_compat; assumption).
  assert (NN : 0 < INR (length (pairs_of x i j))) by (apply lt_0_INR; lia). unfold bias. cbv zeta.
  set (v := pairs_of x i j) in *. set (s := sqrt _) in *. set (da := mean (map fst v) - mean (answers_of x i)). set (db := mean (map snd v) - mean (answers_of x j)).
  split.
  - intros E. assert (Z : INR (length v) * da * db / s = 0) by lra. apply (f_equal (fun z => z * s)) in Z. replace (INR (length v) * da * db / s * s) with (INR (length v) * (da * db)) in Z by (field; lra).
    rewrite Rmult_0_l in Z. apply Rmult_integral in Z. destruct Z as [Z|Z]; [lra|]. apply Rmult_integral in Z. unfold da, db in Z. destruct Z; [left|right]; lra.
  - intros E. assert (Z : da * db = 0) by (unfold da, db; destruct E as [-> | ->]; ring). replace (INR (length v) * da * db / s) with (INR (length v) * (da * db) / s) by (field; lra). rewrite Z. field. lra.
Qed.
Print Assumptions C50_missing_partial.
Definition corr_witness : list (list (option R)) := [[Some 0; Some 0]; [Some 1; Some 1]; [Some 10; None]; [None; Some 10]].
Lemma corr_witness_value : entry (correlation_matrix 2 corr_witness) 0 1 (370 / 9) /\ pearson (map fst (pairs_of corr_witness 0 1)) (map snd (pairs_of corr_witness 0 1)) = 1.
Proof.
  assert (V : pairs_of corr_witness 0 1 = [(0, 0); (1, 1)]) by reflexivity.
  assert (X : cross [0; 1] [0; 1] = / 2) by (unfold cross, mean, rsum; cbn [zip_with fold_right length INR]; lra).
  assert (PP : pearson [0; 1] [0; 1] = 1) by (apply pearson_self; rewrite X; lra).
  destruct (C50_missing_partial 2 corr_witness 0 1) as (_ & _ & H); [lia|lia|reflexivity|]. rewrite V in *. cbn [map fst snd] in *.
  split; [|exact PP]. destruct H as (r & E & R & _); [cbn; lia|rewrite X; lra|rewrite X; lra|].
  replace (370 / 9) with r; [exact E|]. rewrite R, PP, X.
  replace (/ 2 * / 2) with (Rsqr (/ 2)) by reflexivity. rewrite sqrt_Rsqr by lra.
  unfold answers_of, corr_witness, mean, rsum. cbn [flat_map nth app length fold_right INR]. field.
Qed.
Theorem C50_pairwise_refuted : exists cols x i j r, entry (correlation_matrix cols x) i j r /\ 1 < r /\
  (2 <= length (pairs_of x i j))%nat /\ pearson (map fst (pairs_of x i j)) (map snd (pairs_of x i j)) = 1.
Proof. exists 2%nat, corr_witness, 0%nat, 1%nat, (370 / 9). destruct corr_witness_value as [A B]. split; [exact A|]. split; [lra|]. split; [cbn; lia|exact B]. Qed.
Print Assumptions C50_pairwise_refuted.
Example C50_nonvacuous : let x := [[Some 0; Some 3]; [Some 1; Some 1]; [Some 2; Some 2]] in
  cells_complete x = true /\ (exists u v, In u (values x 0) /\ In v (values x 0) /\ u <> v) /\ (exists u v, In u (values x 1) /\ In v (values x 1) /\ u <> v)
  /\ pearson (values x 0) (values x 1) = - 1 / 2.
Proof.
  cbv zeta. split; [reflexivity|]. split; [exists 0, 1; cbn; repeat split; auto; lra|]. split; [exists 3, 1; cbn; repeat split; auto; lra|].
  unfold values. cbn [map nth]. assert (A : cross [0; 1; 2] [0; 1; 2] = 2) by (unfold cross, mean, rsum; cbn [zip_with fold_right length INR]; lra).
  assert (B : cross [3; 1; 2] [3; 1; 2] = 2) by (unfold cross, mean, rsum; cbn [zip_with fold_right length INR]; lra).
  assert (C : cross [0; 1; 2] [3; 1; 2] = -1) by (unfold cross, mean, rsum; cbn [zip_with fold_right length INR]; lra).
  unfold pearson. rewrite A, B, C. rewrite sqrt_square by lra. lra.
Qed.

(** ** C51 Fisher information *)
Theorem C51_matrix : forall lv probs grads, all_regular probs grads ->
  exists M, information lv None false probs grads = Ok (Matrices [M]) /\
    (forall i j, (i < lv)%nat -> (j < lv)%nat -> entry M i j (test_info probs grads i j)) /\
    (forall i j, test_info probs grads i j = test_info probs grads j i) /\
    (forall v, 0 <= quadratic_form lv (test_info probs grads) v).
Proof.
  intros lv probs grads H. exists (square lv (test_info probs grads)). split; [|split; [|split]].
  - unfold information. rewrite test_matrix by exact H. reflexivity.
  - intros. apply square_entry; assumption.
  - intros. apply test_info_sym.
  - intros v. apply test_info_psd. exact H.
Qed.
Print Assumptions C51_matrix.
Theorem C51_items : forall lv probs grads, all_regular probs grads ->
  exists Ms, information lv None true probs grads = Ok (Matrices Ms) /\ length Ms = length probs /\
    forall n p g i j, nth_error probs n = Some p -> nth_error grads n = Some g -> (i < lv)%nat -> (j < lv)%nat ->
      exists M, nth_error Ms n = Some M /\ entry M i j (item_info p g i j).
Proof.
  intros lv probs grads H. assert (HL : length grads = length probs) by (eapply F2_length; exact H).
  exists (zip_with (fun p g => square lv (item_info p g)) probs grads). split; [|split].
  - unfold information. rewrite item_matrices by exact H. reflexivity.
  - rewrite zip_with_length. lia.
  - intros n p g i j Ep Eg Hi Hj. exists (square lv (item_info p g)). split; [rewrite nth_error_zip_with, Ep, Eg; reflexivity|apply square_entry; assumption].
Qed.
Print Assumptions C51_items.
(** In a direction given by angles, for several latent variables. *)
Theorem C51_direction : forall lv ds probs grads, (1 < lv)%nat -> length ds = lv -> all_regular probs grads ->
  let c := fun i => cos (nth i ds 0 * PI / 180) in
  information lv (Some ds) true probs grads = Ok (Numbers (zip_with (fun p g => Some (Fin (quadratic_form lv (item_info p g) c))) probs grads)) /\
  information lv (Some ds) false probs grads = Ok (Numbers [Some (Fin (quadratic_form lv (test_info probs grads) c))]) /\
  0 <= quadratic_form lv (test_info probs grads) c.
Proof.
  intros lv ds probs grads Hlv HL H c. set (cs := map (fun d => cos (d * PI / 180)) ds).
  assert (Lc : length cs = lv) by (unfold cs; rewrite map_length; exact HL).
  assert (X : map (direction_information cs) (zip_with (item_information lv) probs grads) = zip_with (fun p g => Some (Fin (quadratic_form lv (item_info p g) c))) probs grads).
  { rewrite item_matrices by exact H. clear H. revert grads; induction probs as [|p ps IH]; intros [|g gs]; [reflexivity..|]. cbn [zip_with map]. rewrite IH. f_equal.
    rewrite <- Lc at 1. rewrite direction_value, Lc. do 2 f_equal. unfold quadratic_form. apply sumn_ext. intros i Hi. apply sumn_ext. intros j Hj.
    assert (N : forall k, (k < lv)%nat -> nth k cs 0 = c k).
    { intros k Hk. unfold cs, c. rewrite (nth_indep (map (fun d => cos (d * PI / 180)) ds) 0 ((fun d => cos (d * PI / 180)) 0)) by (rewrite map_length; lia). rewrite (map_nth (fun d => cos (d * PI / 180))). reflexivity. }
    rewrite !N by assumption. reflexivity. }
  split; [|split].
  - unfold information. rewrite HL, Nat.eqb_refl. cbn [negb]. rewrite (proj2 (Nat.ltb_lt _ _)) by exact Hlv. fold cs. rewrite X. reflexivity.
  - unfold information. rewrite HL, Nat.eqb_refl. cbn [negb]. rewrite (proj2 (Nat.ltb_lt _ _)) by exact Hlv. fold cs. rewrite X. do 3 f_equal.
    rewrite test_info_form. rewrite (zip_with_map_out (fun x => Some (Fin x)) (fun p g => quadratic_form lv (item_info p g) c)).
    unfold fnansum. rewrite map_map. cbn [nan_to_zero]. apply fsum_fin.
  - apply test_info_psd. exact H.
Qed.
Print Assumptions C51_direction.
Theorem C51_angles_refused : forall lv ds item probs grads, length ds <> lv -> information lv (Some ds) item probs grads = Err ValueError.
Proof. intros lv ds item probs grads H. unfold information. destruct (Nat.eqb_spec (length ds) lv); [contradiction|reflexivity]. Qed.
Print Assumptions C51_angles_refused.
(** The entries are the expected products of the derivatives of the log-probabilities. *)
Theorem C51_score_products : forall (K : nat) (P : nat -> (nat -> R) -> R) (theta : nat -> R) (G : nat -> nat -> R) lv i j,
  (i < lv)%nat -> (j < lv)%nat -> (forall k, (k < K)%nat -> 0 < P k theta) ->
  (forall k d, (k < K)%nat -> (d < lv)%nat -> derivable_pt_lim (fun t => P k (fun e => if (e =? d)%nat then t else theta e)) (theta d) (G k d)) ->
  exists S : nat -> nat -> R,
    (forall k d, (k < K)%nat -> (d < lv)%nat -> derivable_pt_lim (fun t => ln (P k (fun e => if (e =? d)%nat then t else theta e))) (theta d) (S k d)) /\
    item_info (map (fun k => P k theta) (seq 0 K)) (map (fun k => map (G k) (seq 0 lv)) (seq 0 K)) i j = sumn K (fun k => P k theta * S k i * S k j).
Proof.
  intros K P theta G lv i j Hi Hj HP HD. exists (fun k d => G k d / P k (fun e => if (e =? d)%nat then theta d else theta e)).
  assert (U : forall k d, (k < K)%nat -> (d < lv)%nat -> 0 < P k (fun e => if (e =? d)%nat then theta d else theta e) /\ P k (fun e => if (e =? d)%nat then theta d else theta e) = P k theta).
  { intros k d Hk Hd. assert (E : (fun e => if (e =? d)%nat then theta d else theta e) = theta) by (apply FunctionalExtensionality.functional_extensionality; intros e; destruct (Nat.eqb_spec e d) as [->|]; reflexivity).
    rewrite E. split; [apply HP; exact Hk|reflexivity]. }
  split.
  - intros k d Hk Hd. apply (log_derivative (fun t => P k (fun e => if (e =? d)%nat then t else theta e))); [apply HD; assumption|apply U; assumption].
  - unfold item_info. rewrite zip_with_same, rsum_seq. apply sumn_ext. intros k Hk. rewrite (proj2 (U k i Hk Hi)), (proj2 (U k j Hk Hj)). specialize (HP k Hk).
    destruct (Req_EM_T (P k theta) 0); [lra|].
    assert (N : forall d, (d < lv)%nat -> nth d (map (G k) (seq 0 lv)) 0 = G k d).
    { intros d Hd. rewrite (nth_indep _ 0 (G k 0%nat)) by (rewrite map_length, seq_length; exact Hd). rewrite map_nth, seq_nth by exact Hd. reflexivity. }
    rewrite !N by assumption. field. lra.
Qed.
Print Assumptions C51_score_products.
(** On a transformed scale with Jacobian [J] the information in the transformed direction is the same. *)
Theorem C51_change_of_scale : forall lv p g g' (J : nat -> nat -> R) v, length g = length g' -> length p = length g ->
  (forall k i, (k < length g)%nat -> (i < lv)%nat -> nth i (nth k g []) 0 = sumn lv (fun a => nth a (nth k g' []) 0 * J a i)) ->
  quadratic_form lv (item_info p g) v = quadratic_form lv (item_info p g') (fun a => sumn lv (fun i => J a i * v i)).
Proof. exact info_change_of_scale. Qed.
Print Assumptions C51_change_of_scale.
(** With one latent variable the angles are ignored. *)
Theorem C51_one_variable : forall d item probs grads, information 1 (Some [d]) item probs grads = information 1 None item probs grads.
Proof. intros. reflexivity. Qed.
Print Assumptions C51_one_variable.
Example C51_nonvacuous : let probs := [[1 / 4; 3 / 4; 0]; [1 / 3; 1 / 3; 1 / 3]] in
  let grads := [[[1; -2]; [-1; 2]; [0; 0]]; [[1; 0]; [-1; 1]; [0; -1]]] in
  all_regular probs grads /\ test_info probs grads 0 1 = - 41 / 3 + 0.
Proof.
  cbv zeta. split.
  - assert (Z : forall i, nth i [0; 0] 0 = 0) by (intros [|[|[|i]]]; reflexivity).
    apply Forall2_cons; [|apply Forall2_cons; [|constructor]].
    + repeat (apply Forall2_cons; [first [left; lra|right; split; [reflexivity|exact Z]]|]). constructor.
    + repeat (apply Forall2_cons; [left; lra|]). constructor.
  - unfold test_info, item_info. cbn [zip_with]. repeat match goal with |- context [Req_EM_T ?a 0] => destruct (Req_EM_T a 0); [try lra|] end.
    all: unfold rsum; cbn [fold_right nth]; lra.
Qed.

(** ** C52, C71 InterModel Vigorish *)
Theorem C52_range : forall n es, length (imv_newton_raphson n es) = length es /\
  (forall k w, nth_error (imv_newton_raphson n es) k = Some (Some w) -> 1 / 2 < w < 1) /\
  (forall k, nth_error (imv_newton_raphson n es) k = Some None <-> (0 < n)%nat /\ nth_error es k = Some None).
Proof.
  intros n es. unfold imv_newton_raphson. set (ws := map (fun _ : fl => Some (3 / 4)) es).
  assert (L : length ws = length es) by (unfold ws; apply map_length).
  assert (W : Forall weight_ok ws) by (apply Forall_forall; intros w Hw; apply in_map_iff in Hw; destruct Hw as (e & <- & _); unfold weight_ok, imv_lo, imv_hi; lra).
  destruct (loop_ok n es ws L W) as [A B]. split; [exact B|]. split.
  - intros k w E. rewrite Forall_forall in A. pose proof (A (Some w) (nth_error_In _ _ E)) as R. cbn [weight_ok] in R. pose proof lo_half. pose proof hi_one. lra.
  - intros k. rewrite loop_nan by exact L. split; [|auto]. intros [E|E]; [|exact E]. exfalso. unfold ws in E. rewrite nth_error_map in E. destruct (nth_error es k); discriminate.
Qed.
Print Assumptions C52_range.
(** After the first step the weight explains at least the given log-likelihood, unless it is at the upper limit. *)
Theorem C52_right_of_root : forall n l1 l2, (0 < n)%nat -> exists w1 w2, imv_newton_raphson n [Some (Fin l1); Some (Fin l2)] = [Some w1; Some w2] /\
  (l1 <= w1 * ln w1 + (1 - w1) * ln (1 - w1) \/ w1 = imv_hi) /\ (l2 <= w2 * ln w2 + (1 - w2) * ln (1 - w2) \/ w2 = imv_hi).
Proof.
  intros n l1 l2 Hn. destruct (Rle_dec l1 l2) as [O|O].
  - destruct (newton_order n (Fin l1) (Fin l2) O) as (w1 & w2 & E & _ & _ & _ & R). exists w1, w2. split; [exact E|]. destruct (R Hn) as [[_ R1] [_ R2]]. split; assumption.
  - assert (O' : ext_le (Fin l2) (Fin l1)) by (cbn; lra). destruct (newton_order_rev n (Fin l2) (Fin l1) O') as (w2 & w1 & E & _ & _ & _ & R). exists w1, w2. split; [exact E|].
    destruct (R Hn) as [[_ R2] [_ R1]]. split; assumption.
Qed.
Print Assumptions C52_right_of_root.
(** A positive value means that the second model predicts better, whatever the iteration count; a better
    second model never gets a negative value. *)
Theorem C71_sign : forall n l1 l2, exists v, imv n (Some l1) (Some l2) = Some v /\
  (ext_le l1 l2 -> 0 <= v) /\ (ext_le l2 l1 -> v <= 0) /\ -1 < v.
Proof.
  intros n l1 l2. destruct (imv_pair n l1 l2) as (w1 & w2 & E & V & P & O1 & O2). exists ((w2 - w1) / w1). split; [exact V|].
  assert (I : 0 < / w1) by (apply Rinv_0_lt_compat; exact P). unfold Rdiv. split; [|split].
  - intros O. specialize (O1 O). apply Rmult_le_pos; lra.
  - intros O. specialize (O2 O). nra.
  - destruct (C52_range n [Some l1; Some l2]) as (_ & R & _). pose proof (R 1%nat w2) as R2. rewrite E in R2. specialize (R2 eq_refl).
    replace ((w2 - w1) * / w1) with (w2 * / w1 - 1) by (field; lra). assert (0 < w2 * / w1) by (apply Rmult_lt_0_compat; lra). lra.
Qed.
Print Assumptions C71_sign.
Theorem C71_positive_means_better : forall n l1 l2 v, imv n (Some l1) (Some l2) = Some v -> 0 < v -> ~ ext_le l2 l1.
Proof. intros n l1 l2 v E P O. destruct (C71_sign n l1 l2) as (v' & E' & _ & H & _). rewrite E in E'. injection E' as <-. specialize (H O). lra. Qed.
Print Assumptions C71_positive_means_better.
Theorem C71_nan : forall n l1 l2, (0 < n)%nat -> (imv n l1 l2 = None <-> l1 = None \/ l2 = None).
Proof.
  intros n l1 l2 Hn. destruct (C52_range n [l1; l2]) as (L & _ & N). unfold imv.
  destruct (imv_newton_raphson n [l1; l2]) as [|w1 [|w2 [|w3 ws]]] eqn:E; try discriminate. pose proof (N 0%nat) as N0. pose proof (N 1%nat) as N1. cbn [nth_error] in N0, N1.
  destruct w1 as [a|], w2 as [b|].
  - split; [discriminate|]. intros [->| ->]; [discriminate (proj2 N0 (conj Hn eq_refl))|discriminate (proj2 N1 (conj Hn eq_refl))].
  - split; [|reflexivity]. intros _. right. destruct (proj1 N1 eq_refl) as [_ X]. congruence.
  - split; [|reflexivity]. intros _. left. destruct (proj1 N0 eq_refl) as [_ X]. congruence.
  - split; [|reflexivity]. intros _. left. destruct (proj1 N0 eq_refl) as [_ X]. congruence.
Qed.
Print Assumptions C71_nan.
(** One step from 0.75 for a worse and a better model. *)
Example C71_nonvacuous : exists v, imv 1 (Some NInf) (Some (Fin 0)) = Some v /\ 0 < v.
Proof.
  unfold imv, imv_newton_raphson. cbn [map imv_loop zip_with]. rewrite (step_fin 0 (3 / 4)) by (unfold imv_lo, imv_hi; lra). cbn [imv_step map fst snd].
  destruct (fltb _ _).
  all: eexists; split; [reflexivity|]; apply Rdiv_lt_0_compat; [|unfold imv_lo; lra].
  all: assert (S : 0 < slope (3 / 4)) by (apply slope_pos; lra).
  all: assert (C : coin (3 / 4) < 0) by (unfold coin; assert (ln (3 / 4) < 0) by (rewrite <- ln_1; apply ln_increasing; lra); assert (ln (1 - 3 / 4) < 0) by (rewrite <- ln_1; apply ln_increasing; lra); nra).
  all: assert (X : 3 / 4 <= 3 / 4 + - (coin (3 / 4) - 0) / slope (3 / 4)) by (assert (0 < - (coin (3 / 4) - 0) / slope (3 / 4)) by (apply Rdiv_lt_0_compat; lra); lra).
  all: apply clamp_mono in X.
  all: assert (Y : clamp imv_lo imv_hi (3 / 4) = 3 / 4) by (unfold clamp; rewrite Rmax_left by (unfold imv_lo; lra); apply Rmin_left; unfold imv_hi; lra).
  all: rewrite Y in X; unfold imv_lo in *; lra.
Qed.

(** ** C57 p-values *)
Lemma flt_below a b : flt a b = below_nan a b.
Proof.
  destruct a as [[x| |]|], b as [[y| |]|]; try reflexivity. cbn. destruct (Rlt_dec x y), (Rle_dec y x); reflexivity || lra.
Qed.
Lemma fge_at_least a b : fge a b = at_least_nan a b.
Proof.
  destruct a as [[x| |]|], b as [[y| |]|]; try reflexivity. cbn. destruct (Rlt_dec x y), (Rle_dec y x); reflexivity || lra.
Qed.
Theorem C57_amid : forall i j samples obs, samples <> [] ->
  (i = j -> amid_p_value i j samples obs = None) /\
  (i <> j -> exists p, amid_p_value i j samples obs = Some p /\ 0 <= p <= 1 /\
     p = INR (length (filter (fun s => below_nan obs s) samples)) / INR (length samples)).
Proof.
  intros i j samples obs Ne. rewrite (filter_ext (fun s => below_nan obs s) (fun s => flt obs s)) by (intros s; symmetry; apply flt_below). unfold amid_p_value. split; [intros ->; rewrite Nat.eqb_refl; reflexivity|]. intros D. destruct (Nat.eqb_spec i j); [contradiction|].
  destruct (ratio_range (count_true (map (fun s => flt obs s) samples)) (length samples)) as (r & E & V & B).
  - pose proof (count_true_le (map (fun s => flt obs s) samples)) as C. rewrite map_length in C. exact C.
  - destruct samples; [congruence|cbn; lia].
  - exists r. split; [exact E|]. split; [exact B|]. rewrite V. f_equal. f_equal. unfold count_true. clear. induction samples as [|s l IH]; [reflexivity|]. cbn [map filter]. destruct (flt obs s); cbn [length]; congruence.
Qed.
Print Assumptions C57_amid.
Theorem C57_q3 : forall i j samples obs, samples <> [] ->
  (i = j -> q3_p_value i j samples obs = None) /\
  (i <> j -> exists p, q3_p_value i j samples obs = Some p /\ 0 <= p <= 1 /\
     p = 2 * Rmin (INR (length (filter (fun s => below_nan s obs) samples)) / INR (length samples)) (INR (length (filter (fun s => at_least_nan s obs) samples)) / INR (length samples))).
Proof.
  intros i j samples obs Ne. rewrite (filter_ext (fun s => below_nan s obs) (fun s => flt s obs)) by (intros s; symmetry; apply flt_below).
  rewrite (filter_ext (fun s => at_least_nan s obs) (fun s => fge s obs)) by (intros s; symmetry; apply fge_at_least). unfold q3_p_value. split; [intros ->; rewrite Nat.eqb_refl; reflexivity|]. intros D. destruct (Nat.eqb_spec i j); [contradiction|].
  pose proof (q3_counts samples obs) as C. assert (N : (0 < length samples)%nat) by (destruct samples; [congruence|cbn; lia]).
  set (c1 := count_true (map (fun s => flt s obs) samples)) in *. set (c2 := count_true (map (fun s => fge s obs) samples)) in *.
  destruct (ratio_range (Nat.min c1 c2 * 2) (length samples)) as (r & E & V & B); [lia|exact N|].
  exists r. split; [exact E|]. split; [exact B|]. rewrite V.
  assert (F : forall f, length (filter f samples) = count_true (map f samples)) by (intros f; unfold count_true; clear; induction samples as [|s l IH]; [reflexivity|]; cbn [map filter]; destruct (f s); cbn [length]; congruence).
  rewrite !F. fold c1 c2. assert (P : 0 < INR (length samples)) by (apply lt_0_INR; exact N). rewrite mult_INR. change (INR 2) with 2.
  destruct (Nat.le_ge_cases c1 c2) as [L|L].
  - rewrite Nat.min_l by exact L. rewrite Rmin_left by (unfold Rdiv; apply Rmult_le_compat_r; [left; apply Rinv_0_lt_compat; exact P|apply le_INR; exact L]). field. lra.
  - rewrite Nat.min_r by exact L. rewrite Rmin_right by (unfold Rdiv; apply Rmult_le_compat_r; [left; apply Rinv_0_lt_compat; exact P|apply le_INR; exact L]). field. lra.
Qed.
Print Assumptions C57_q3.
Example C57_nonvacuous : q3_p_value 0 1 [Some (Fin 1); Some (Fin 3); None; Some (Fin 5)] (Some (Fin 4)) = Some (1 / 2).
Proof.
  unfold q3_p_value, count_true. cbn [map flt fge ext_ltb Nat.eqb]. repeat match goal with |- context [Rlt_dec ?a ?b] => destruct (Rlt_dec a b); [try lra|try lra] end.
  cbn [negb filter length Nat.min Nat.mul Nat.add]. unfold ratio. cbn [Nat.eqb]. f_equal. cbn [INR]. lra.
Qed.

(** ** C72 Mutual information *)
Theorem C72_joint_entropy : forall b cols data, 1 < b ->
  (forall i j, (i <= j)%nat -> (j < cols)%nat -> (2 <= length (joint_answers i j data))%nat) ->
  exists M, joint_entropy_matrix b cols data = Ok M /\
    forall i j, (i <= j)%nat -> (j < cols)%nat -> exists h, entry M i j h /\ entry M j i h /\
      let obs := joint_answers i j data in
      joint_entropy b obs - INR (length (nodup pair_eq_dec obs)) * (/ 10000000000 / ln b) <= h <= joint_entropy b obs.
Proof.
  intros b cols data Hb H. exists (square cols (jvalue b data)). split; [apply joint_matrix_ok; intros i j A B; specialize (H i j A B); lia|].
  intros i j Hij Hj. exists (jvalue b data i j). split; [apply square_entry; lia|].
  assert (E : jvalue b data i j = jvalue b data j i) by (unfold jvalue; rewrite (Nat.min_comm j i), (Nat.max_comm j i); reflexivity).
  split; [rewrite E; apply square_entry; lia|]. cbv zeta. unfold jvalue. rewrite Nat.min_l, Nat.max_r by lia.
  pose proof (jent_shannon b (joint_answers i j data) _ Hb (joint_in_grid i j data)) as [X Y]. unfold entropy_eps in Y. lra.
Qed.
Print Assumptions C72_joint_entropy.
Theorem C72_too_few_pairs : forall b cols data i j, (i <= j)%nat -> (j < cols)%nat -> (length (joint_answers i j data) <= 1)%nat ->
  joint_entropy_matrix b cols data = Err RuntimeError /\ data_mutual_information b cols data = Err RuntimeError.
Proof.
  intros b cols data i j Hij Hj H. assert (E : joint_entropy_matrix b cols data = Err RuntimeError) by (exact (joint_matrix_err b cols data i j Hij Hj H)).
  split; [exact E|]. unfold data_mutual_information. rewrite E. reflexivity.
Qed.
Print Assumptions C72_too_few_pairs.
(** Complete data: the mutual information of the observed frequencies up to the constant inside the logarithm;
    symmetric and, up to that constant, nonnegative. *)
Theorem C72_data_partial : forall b cols data, 1 < b -> (2 <= length data)%nat -> (forall i, (i < cols)%nat -> answered i data) ->
  exists M, data_mutual_information b cols data = Ok M /\
    forall i j, (i <= j)%nat -> (j < cols)%nat -> exists v, entry M i j v /\ entry M j i v /\
      let tol := / 10000000000 / ln b in let H := fun k l => joint_entropy b (joint_answers k l data) in
      let distinct := fun k l => INR (length (nodup pair_eq_dec (joint_answers k l data))) in
      - (2 * INR (max_category data + 1) * tol) <= v /\
      - ((distinct i i + distinct j j) * tol) <= v - (H i i + H j j - H i j) <= distinct i j * tol.
Proof.
  intros b cols data Hb Hn HA. exists (square cols (data_mi b data)). split.
  - apply data_mi_ok. intros i j Hij Hj. rewrite joint_length by (apply HA; lia). lia.
  - intros i j Hij Hj. assert (Hi : (i < cols)%nat) by lia. exists (data_mi b data i j). split; [apply square_entry; assumption|]. split; [rewrite data_mi_sym; apply square_entry; assumption|].
    cbv zeta. split; [apply (data_mi_lower b data i j); [exact Hb|lia|apply HA; assumption|apply HA; assumption]|].
    pose proof (jent_shannon b _ _ Hb (joint_in_grid i i data)) as U. pose proof (jent_shannon b _ _ Hb (joint_in_grid j j data)) as V.
    pose proof (jent_shannon b _ _ Hb (joint_in_grid i j data)) as W. unfold data_mi, jvalue, entropy_eps in *. rewrite Nat.min_l, Nat.max_r by lia. lra.
Qed.
Print Assumptions C72_data_partial.
(** The value expected under the model, likewise for the average probabilities. *)
Theorem C72_expected : forall b items m probs, 1 < b -> probs <> [] ->
  (forall r i, In r probs -> (i < items)%nat -> is_distribution (nth i r []) m) ->
  exists M, expected_mutual_information b items m probs = Ok M /\
    forall i j, (i < items)%nat -> (j < items)%nat -> exists v, entry M i j v /\ entry M j i v /\
      let tol := / 10000000000 / ln b in
      - (2 * INR m * tol) <= v /\
      - (2 * INR m * tol) <= v - (shannon b (average_law m probs i) + shannon b (average_law m probs j) - shannon b (average_pair_law m probs i j)) <= INR (m * m) * tol.
Proof.
  intros b items m probs Hb Hne HD. exists (square items (mi m probs b)). split; [apply expected_mi_ok; assumption|].
  intros i j Hi Hj. exists (mi m probs b i j). split; [apply square_entry; assumption|]. split; [rewrite mi_sym; apply square_entry; assumption|].
  cbv zeta. split; [apply (mi_lower m items probs); assumption|apply (mi_near m items probs); assumption].
Qed.
Print Assumptions C72_expected.

(** With missing answers the marginal and the joint entropies come from different respondents
    and the value can be far below zero. *)
Definition mi_witness : list (list (option nat)) :=
  [[Some 0; Some 0]; [Some 1; Some 1]]%nat ++ repeat [Some 0%nat; None] 14 ++ repeat [None; Some 0%nat] 14.
Lemma ln2_half : / 2 < ln 2.
Proof. pose proof (exp_ineq1 (- / 2) ltac:(lra)). apply exp_lt_inv. rewrite exp_ln by lra. rewrite exp_Ropp in H. assert (0 < exp (/ 2)) by apply exp_pos.
  apply Rmult_lt_reg_r with (/ exp (/ 2)); [apply Rinv_0_lt_compat; lra|]. rewrite Rinv_r by lra. lra. Qed.
Theorem C72_missing_refuted : exists M v, data_mutual_information 2 2 mi_witness = Ok M /\ entry M 0 1 v /\ v < - / 5.
Proof.
  exists (square 2 (data_mi 2 mi_witness)), (data_mi 2 mi_witness 0 1). split; [|split].
  - apply data_mi_ok. intros [|[|i]] [|[|j]] H1 H2; try lia; apply Nat.ltb_lt; reflexivity.
  - apply square_entry; lia.
  - pose proof ln2_half as L2.
    assert (A0 : nodup pair_eq_dec (joint_answers 0 0 mi_witness) = [(1, 1); (0, 0)]%nat) by reflexivity.
    assert (A1 : nodup pair_eq_dec (joint_answers 1 1 mi_witness) = [(1, 1); (0, 0)]%nat) by reflexivity.
    assert (A2 : nodup pair_eq_dec (joint_answers 0 1 mi_witness) = [(0, 0); (1, 1)]%nat) by reflexivity.
    assert (F : forall k, (k < 2)%nat -> frequency (joint_answers k k mi_witness) (1, 1)%nat = 1 / 16 /\ frequency (joint_answers k k mi_witness) (0, 0)%nat = 15 / 16).
    { intros [|[|k]] Hk; try lia; split; unfold frequency; cbn -[INR]; cbn [INR]; lra. }
    assert (G : forall k, (k < 2)%nat -> joint_entropy 2 (joint_answers k k mi_witness) <= 3 / 8).
    { intros k Hk. unfold joint_entropy. assert (N : nodup pair_eq_dec (joint_answers k k mi_witness) = [(1, 1); (0, 0)]%nat) by (destruct k as [|[|k]]; [exact A0|exact A1|lia]).
      rewrite N. cbn [map]. destruct (F k Hk) as [-> ->]. unfold shannon, rsum. cbn [map fold_right].
      destruct (Req_EM_T (1 / 16) 0); [lra|]. destruct (Req_EM_T (15 / 16) 0); [lra|].
      assert (X : ln (1 / 16) = - 4 * ln 2) by (replace (1 / 16) with (/ (2 ^ 4)) by field; rewrite ln_Rinv by (apply pow_lt; lra); rewrite ln_pow by lra; cbn [INR]; ring).
      assert (Y : - (1 / 15) <= ln (15 / 16)) by (replace (15 / 16) with (/ (16 / 15)) by field; rewrite ln_Rinv by lra; pose proof (ln_le_sub1 (16 / 15) ltac:(lra)); lra).
      rewrite X. replace (- (1 / 16) * (-4 * ln 2 / ln 2)) with (1 / 4) by (field; lra).
      assert (Z : - (15 / 16) * (ln (15 / 16) / ln 2) <= 1 / 8); [|lra].
      apply Rmult_le_reg_r with (ln 2); [lra|]. replace (- (15 / 16) * (ln (15 / 16) / ln 2) * ln 2) with (- (15 / 16) * ln (15 / 16)) by (field; lra). lra. }
    assert (J : joint_entropy 2 (joint_answers 0 1 mi_witness) = 1).
    { unfold joint_entropy. rewrite A2. unfold shannon, rsum, frequency. cbn -[INR Rdiv Rmult Rplus ln IZR Req_EM_T]. cbn [INR]. destruct (Req_EM_T (1 / (1 + 1)) 0); [lra|].
      replace (1 / (1 + 1)) with (/ 2) by lra. rewrite ln_Rinv by lra. field. lra. }
    pose proof (jent_shannon 2 _ _ ltac:(lra) (joint_in_grid 0 0 mi_witness)) as [U0 _].
    pose proof (jent_shannon 2 _ _ ltac:(lra) (joint_in_grid 1 1 mi_witness)) as [U1 _].
    pose proof (jent_shannon 2 _ _ ltac:(lra) (joint_in_grid 0 1 mi_witness)) as [_ U2]. rewrite A2, J in U2. cbn [length INR] in U2.
    assert (T : entropy_eps / ln 2 <= / 100) by (unfold entropy_eps; apply Rmult_le_reg_r with (ln 2); [lra|]; unfold Rdiv; rewrite Rmult_assoc, Rinv_l by lra; lra).
    pose proof (G 0%nat ltac:(lia)). pose proof (G 1%nat ltac:(lia)). unfold data_mi, jvalue. cbn [Nat.min Nat.max]. lra.
Qed.
Print Assumptions C72_missing_refuted.
Example C72_nonvacuous : let data := [[Some 0; Some 1]; [Some 2; Some 1]; [Some 0; Some 0]]%nat in
  (2 <= length data)%nat /\ (forall i, (i < 2)%nat -> answered i data) /\ max_category data = 2%nat /\
  (forall r i, In r [[[1 / 4; 3 / 4]; [1 / 2; 1 / 2]]; [[0; 1]; [1 / 3; 2 / 3]]] -> (i < 2)%nat -> is_distribution (nth i r []) 2).
Proof.
  cbv zeta. split; [cbn; lia|]. split; [|split; [reflexivity|]].
  - intros [|[|i]] Hi; try lia; intros row [<-|[<-|[<-|[]]]]; discriminate.
  - intros r [|[|i]] [<-|[<-|[]]] Hi; try lia; (split; [intros [|[|k]] Hk; try lia; cbn [nth]; lra|cbn [sumn nth]; lra]).
Qed.
