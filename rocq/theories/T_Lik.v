(** Property theorems C26-C29: log-likelihoods and ModelMix. *)
From Verif Require Import Base BaseFacts RBase RFacts M_Data M_Logit S_Logit P_Logit P_Logit2 P_Logit3 T_Logit M_Lik S_Lik
  P_Lik1 P_Lik2 P_Lik3 P_Lik4 P_Lik5 P_Lik6.
Local Open Scope R_scope.

(** ** C26 log-likelihood *)
(** Models that use the base class (softmax logits): for any output, data and missing mask. *)
Theorem C26_base : forall nanl N I M output data mask x p,
  (0 < M)%nat -> rect N (I * M) output -> rect N I data -> rect_opt N I mask -> responses N I M mask data x ->
  observed_probability N I mask (probabilities_from_output I M output) x p ->
  loglik_of N I mask (probabilities_from_output I M output) x (fun red => base_log_likelihood nanl M red data output mask).
Proof. exact base_loglik. Qed.
Print Assumptions C26_base.

(** Models that index their probability table (graded response, 3PL, nested logit, surprisal spline). *)
Theorem C26_prob : forall nanl N I M probs data mask x p,
  (0 < M)%nat -> table_shape N I M probs -> rect N I data -> rect_opt N I mask -> responses N I M mask data x ->
  observed_probability N I mask probs x p ->
  loglik_of N I mask probs x (fun red => prob_log_likelihood nanl M red data probs mask).
Proof. exact prob_loglik. Qed.
Print Assumptions C26_prob.

(** Cell by cell even when a probability is zero (minus infinity) or NaN. *)
Theorem C26_base_cells : forall nanl N I M data output mask x,
  (0 < M)%nat -> rect N (I * M) output -> rect N I data -> rect_opt N I mask -> responses N I M mask data x ->
  exists l, base_log_likelihood nanl M RNone data output mask = Ok (Cells l) /\ length l = (N * I)%nat /\
    forall n i, (n < N)%nat -> (i < I)%nat ->
      nth_error l (n * I + i) =
        Some (if masked mask n i then None else flog (prob_at (probabilities_from_output I M output) n i (x n i))).
Proof. exact base_cells. Qed.
Print Assumptions C26_base_cells.
Theorem C26_prob_cells : forall nanl N I M data probs mask x,
  (0 < M)%nat -> rect N I probs -> (forall n i r, at2 probs n i = Some r -> length r = M) ->
  rect N I data -> rect_opt N I mask -> responses N I M mask data x ->
  exists l, prob_log_likelihood nanl M RNone data probs mask = Ok (Cells l) /\ length l = (N * I)%nat /\
    forall n i, (n < N)%nat -> (i < I)%nat ->
      nth_error l (n * I + i) = Some (if masked mask n i then None else flog (prob_at probs n i (x n i))).
Proof. exact prob_cells. Qed.
Print Assumptions C26_prob_cells.

(** The library's models: any parameters, any abilities, any legal responses. *)
Theorem C26_opl : forall nanl m thetas data mask x,
  length (opl_b m) = opl_items m -> (0 < opl_items m)%nat ->
  rect (length thetas) (opl_items m) data -> rect_opt (length thetas) (opl_items m) mask ->
  legal_responses (length thetas) (repeat 2%nat (opl_items m)) mask data x ->
  loglik_of (length thetas) (opl_items m) mask (opl_probabilities m thetas) x
    (fun red => base_log_likelihood nanl 2 red data (opl_forward m thetas) mask).
Proof. exact opl_loglik. Qed.
Print Assumptions C26_opl.
Theorem C26_tpl : forall nanl m thetas data mask x,
  tpl_wf m -> (0 < tpl_items m)%nat -> Forall (fun t => length t = tpl_lv m) thetas ->
  rect (length thetas) (tpl_items m) data -> rect_opt (length thetas) (tpl_items m) mask ->
  legal_responses (length thetas) (repeat 2%nat (tpl_items m)) mask data x ->
  loglik_of (length thetas) (tpl_items m) mask (tpl_probabilities m thetas) x
    (fun red => base_log_likelihood nanl 2 red data (tpl_forward m thetas) mask).
Proof. exact tpl_loglik. Qed.
Print Assumptions C26_tpl.
Theorem C26_thpl : forall nanl m thetas data mask x,
  thpl_wf m -> (0 < thpl_items m)%nat -> Forall (fun t => length t = thpl_lv m) thetas ->
  rect (length thetas) (thpl_items m) data -> rect_opt (length thetas) (thpl_items m) mask ->
  legal_responses (length thetas) (repeat 2%nat (thpl_items m)) mask data x ->
  loglik_of (length thetas) (thpl_items m) mask (some3 (thpl_probabilities m thetas)) x
    (fun red => thpl_log_likelihood nanl red data (thpl_forward m thetas) mask).
Proof. exact thpl_loglik. Qed.
Print Assumptions C26_thpl.
Theorem C26_gpc : forall nanl m thetas data mask x,
  poly_wf m -> (0 < p_items m)%nat -> Forall (fun t => length t = p_lv m) thetas ->
  rect (length thetas) (p_items m) data -> rect_opt (length thetas) (p_items m) mask ->
  legal_responses (length thetas) (p_cats m) mask data x ->
  loglik_of (length thetas) (p_items m) mask (gpc_probabilities m thetas) x
    (fun red => base_log_likelihood nanl (p_max m) red data (gpc_forward m thetas) mask).
Proof. exact gpc_loglik. Qed.
Print Assumptions C26_gpc.
Theorem C26_nrm : forall nanl m thetas data mask x,
  nrm_wf m -> (0 < length (nrm_cats m))%nat -> Forall (fun t => length t = nrm_lv m) thetas ->
  rect (length thetas) (length (nrm_cats m)) data -> rect_opt (length thetas) (length (nrm_cats m)) mask ->
  legal_responses (length thetas) (nrm_cats m) mask data x ->
  loglik_of (length thetas) (length (nrm_cats m)) mask (nrm_probabilities m thetas) x
    (fun red => base_log_likelihood nanl (nrm_max m) red data (nrm_forward m thetas) mask).
Proof. exact nrm_loglik. Qed.
Print Assumptions C26_nrm.
(** Graded response: its intercepts must decrease over the categories (C18), otherwise a probability is
    not positive and its logarithm is NaN. *)
Theorem C26_grm : forall nanl m thetas data mask x,
  poly_wf m -> (0 < p_items m)%nat -> Forall (fun t => length t = p_lv m) thetas ->
  (forall i K j, nth_error (p_cats m) i = Some K -> (1 <= j)%nat -> (S j < K)%nat ->
     intercept (p_cats m) (p_b m) i (S j) < intercept (p_cats m) (p_b m) i j) ->
  rect (length thetas) (p_items m) data -> rect_opt (length thetas) (p_items m) mask ->
  legal_responses (length thetas) (p_cats m) mask data x ->
  loglik_of (length thetas) (p_items m) mask (some3 (grm_probabilities m thetas)) x
    (fun red => grm_log_likelihood nanl m red data (grm_forward m thetas) mask).
Proof. exact grm_loglik. Qed.
Print Assumptions C26_grm.

(** Cells marked missing contribute nothing whatever value they hold, for every reduction. *)
Theorem C26_missing_irrelevant_base : forall nanl M red N I mask d d' output,
  rect_opt N I mask -> rect N I d -> rect N I d' -> agree_observed mask d d' ->
  base_log_likelihood nanl M red d output mask = base_log_likelihood nanl M red d' output mask.
Proof. exact base_masked_irrelevant. Qed.
Print Assumptions C26_missing_irrelevant_base.
Theorem C26_missing_irrelevant_prob : forall nanl M red N I mask d d' probs,
  rect_opt N I mask -> rect N I d -> rect N I d' -> agree_observed mask d d' ->
  prob_log_likelihood nanl M red d probs mask = prob_log_likelihood nanl M red d' probs mask.
Proof. exact prob_masked_irrelevant. Qed.
Print Assumptions C26_missing_irrelevant_prob.

(** 'mean' (base class only): the sum divided by the number of observed cells. *)
Theorem C26_base_mean : forall nanl N I M output data mask x p,
  (0 < M)%nat -> rect N (I * M) output -> rect N I data -> rect_opt N I mask -> responses N I M mask data x ->
  observed_probability N I mask (probabilities_from_output I M output) x p ->
  0 < observed_sum N I mask (fun _ _ => 1) ->
  base_log_likelihood nanl M RMean data output mask =
    Ok (Scalar (Some (Fin (observed_sum N I mask (fun n i => ln (p n i)) / observed_sum N I mask (fun _ _ => 1))))).
Proof.
  intros nanl N I M output data mask x p HM Ho Hd Hm Hr Hp Hcount.
  pose proof (base_sum nanl N I M data output mask x HM Ho Hd Hm Hr p Hp) as Hs.
  rewrite (base_reduce nanl N I M data output mask x HM Ho Hd Hm Hr RSum) in Hs by discriminate.
  rewrite (base_reduce nanl N I M data output mask x HM Ho Hd Hm Hr RMean) by discriminate.
  cbv zeta in *. assert (E : forall a b, Ok (Scalar a) = Ok (Scalar b) -> a = b) by (intros; congruence).
  apply E in Hs. rewrite Hs. clear E Hs. do 2 f_equal.
  set (fm := flat_mask mask (N * I)). set (ts := mask_select (map negb fm) (map (to_long nanl) (concat data))).
  assert (Hlf : length fm = (N * I)%nat) by now apply flat_mask_length.
  assert (Hlen : INR (length ts) = observed_sum N I mask (fun _ _ => 1)).
  { assert (H : fsum (mask_select (map negb fm) (map (fun _ => Some (Fin 1)) (seq 0 (N * I)))) = Some (Fin (observed_sum N I mask (fun _ _ => 1)))).
    { exact (core_sum N I mask (fun _ _ => Some (Fin 1)) Hm (fun _ _ => 1) (fun _ _ _ _ _ => eq_refl)). }
    assert (Hl : length ts = length (mask_select (map negb fm) (map (fun _ : nat => Some (Fin 1)) (seq 0 (N * I))))).
    { apply mask_select_lengths; rewrite !map_length; [|now rewrite seq_length].
      now rewrite (rect_length data N I Hd). }
    assert (Hc : forall m (l : list nat), fsum (mask_select m (map (fun _ => Some (Fin 1)) l)) = Some (Fin (INR (length (mask_select m (map (fun _ : nat => Some (Fin 1)) l)))))).
    { induction m as [|b m IH]; intros [|a l]; try (destruct b); try reflexivity; cbn [map mask_select]; [|apply IH].
      cbn [length]. change (fsum (Some (Fin 1) :: ?l)) with (fadd (Some (Fin 1)) (fsum l)).
      rewrite S_INR. unfold fsum at 1. cbn [fold_right]. fold (fsum (mask_select m (map (fun _ : nat => Some (Fin 1)) l))).
      rewrite IH. cbn. do 2 f_equal. ring. }
    rewrite Hc in H. rewrite Hl. congruence. }
  assert (Hall : filter (fun t => negb (ignored t)) ts = ts).
  { assert (Hin : forall t, In t ts -> ignored t = false).
    { intros t Ht. apply In_nth_error in Ht as [q Hq].
      assert (Hsel : forall m (l : list Z), length l = length m -> forall q t, nth_error (mask_select (map negb m) l) q = Some t ->
         exists k, nth_error m k = Some false /\ nth_error l k = Some t).
      { clear. induction m as [|b m IH]; intros [|a l] Hl q t Hq; cbn in Hl; try lia; [destruct q; discriminate|].
        cbn [map mask_select] in Hq. destruct b; cbn [negb] in Hq.
        - destruct (IH l ltac:(lia) q t Hq) as (k & H1 & H2). now exists (S k).
        - destruct q as [|q]; cbn in Hq.
          + injection Hq as ->. now exists O.
          + destruct (IH l ltac:(lia) q t Hq) as (k & H1 & H2). now exists (S k). }
      destruct (Hsel fm (map (to_long nanl) (concat data))) with (q := q) (t := t) as (k & H1 & H2); auto.
      { rewrite map_length, Hlf. now apply rect_length. }
      assert (Hk : (k < N * I)%nat) by (rewrite <- Hlf; apply nth_error_Some; congruence).
      destruct (position_split N I k Hk) as (n & i & Hn & Hi & ->).
      unfold fm in H1. rewrite flat_mask_nth in H1 by auto. injection H1 as H1.
      rewrite nth_error_map, (concat_at2 data N I) in H2 by auto. destruct (Hr n i Hn Hi H1) as [Hc _]. rewrite Hc in H2.
      injection H2 as <-. unfold ignored. cbn [to_long]. apply Z.eqb_neq. lia. }
    clear - Hin. induction ts as [|t ts IH]; [reflexivity|]. cbn [filter]. rewrite (Hin t (or_introl eq_refl)). cbn [negb].
    f_equal. apply IH. intros; apply Hin; now right. }
  rewrite Hall. cbn [fdiv_nat]. destruct (Nat.eqb_spec (length ts) 0) as [E0|_].
  - rewrite E0 in Hlen. cbn in Hlen. lra.
  - now rewrite Hlen.
Qed.
Print Assumptions C26_base_mean.

(** Any other reduction is refused. *)
Theorem C26_reduction_refused : forall nanl N I M output probs data mask x,
  (0 < M)%nat -> rect N I data -> rect_opt N I mask -> responses N I M mask data x ->
  (rect N (I * M) output -> base_log_likelihood nanl M ROther data output mask = Err ValueError) /\
  (table_shape N I M probs -> forall red, red <> RSum -> red <> RNone -> prob_log_likelihood nanl M red data probs mask = Err ValueError).
Proof.
  intros nanl N I M output probs data mask x HM Hd Hm Hr. split.
  - intro Ho. unfold base_log_likelihood. rewrite (reshape_rect M _ (N * I)) by (auto; rewrite (rect_length output N (I * M)) by auto; lia).
    cbn [bind].
    rewrite (drop_opt_flat mask N I (blocks M (concat output))) by (auto; apply blocks_count; auto; rewrite (rect_length output N (I * M)) by auto; lia).
    rewrite (drop_opt_flat mask N I) by (auto; rewrite map_length; now apply rect_length).
    reflexivity.
  - intros [Hs1 Hs2] red H1 H2. rewrite (prob_reduce nanl N I M data probs mask x HM Hs1 Hs2 Hd Hm Hr red).
    cbv zeta. destruct red; congruence.
Qed.
Print Assumptions C26_reduction_refused.

(** Without a mask the missing code -1 is scored as the item's last table column by the models that index
    their table, and refused by the base class. *)
Theorem C26_unmasked_code : forall nanl row (out : list ext), row <> [] -> out <> [] ->
  prob_log_likelihood nanl (length row) RNone [[Some (-1)%Z]] [[row]] None = Ok (Cells [flog (last row None)]) /\
  base_log_likelihood nanl (length out) RNone [[Some (-1)%Z]] [out] None = Err IndexError.
Proof.
  intros nanl row out Hr Ho.
  assert (H1 : length row <> O) by (intro E; apply Hr; now apply length_zero_iff_nil).
  assert (H2 : length out <> O) by (intro E; apply Ho; now apply length_zero_iff_nil). split.
  - unfold prob_log_likelihood. change (concat (concat [[row]])) with (row ++ []). rewrite app_nil_r. cbn [concat app map to_long].
    rewrite (reshape_rect (length row) row 1) by lia. cbn [bind drop_opt].
    replace (blocks (length row) row) with [row].
    2:{ rewrite <- (blocks_flat (length row) [row]) by (auto; lia). cbn [concat]. now rewrite app_nil_r. }
    unfold prob_rows. cbn [length Nat.leb combine mapM fst snd bind prob_row].
    unfold prob_row, norm_index.
    destruct (Z.leb_spec 0 (-1)); [lia|]. cbn [andb].
    destruct (Z.leb_spec (- Z.of_nat (length row)) (-1)); [|lia]. cbn [andb Z.ltb Z.compare bind mapM].
    replace (Z.to_nat (-1 + Z.of_nat (length row))) with (length row - 1)%nat by lia. cbn [length scatter_opt].
    assert (En : nth (length row - 1) row None = last row None); [|now rewrite En].
    clear - Hr. destruct (exists_last Hr) as (l & a & ->). rewrite last_last, app_length. cbn [length].
    replace (length l + 1 - 1)%nat with (length l) by lia. apply nth_middle.
  - unfold base_log_likelihood. change (concat [out]) with (out ++ []). rewrite app_nil_r. cbn [concat app map to_long].
    rewrite (reshape_rect (length out) out 1) by lia. cbn [bind drop_opt].
    replace (blocks (length out) out) with [out].
    2:{ rewrite <- (blocks_flat (length out) [out]) by (auto; lia). cbn [concat]. now rewrite app_nil_r. }
    reflexivity.
Qed.
Print Assumptions C26_unmasked_code.

(** Two respondents, a three- and a two-category item, respondent 1's first answer marked missing while
    holding the code -1. *)
Definition ex_gpc : poly := {| p_cats := [3;2]%nat; p_lv := 1; p_free := [[true];[true]]; p_w := [1;2]; p_b := [0;1;-1] |}.
Definition ex_data : list (list cell) := [[Some 2%Z; Some 1%Z]; [Some (-1)%Z; Some 0%Z]].
Definition ex_mask : option (list (list bool)) := Some [[false;false];[true;false]].
Definition ex_x (n i : nat) : nat := match n, i with O, O => 2 | O, _ => 1 | _, _ => 0 end.
Lemma ex_gpc_wf : poly_wf ex_gpc.
Proof. unfold poly_wf. cbn. repeat split; auto; try lia; repeat constructor. Qed.
Lemma ex_rects : rect 2 2 ex_data /\ rect_opt 2 2 ex_mask.
Proof. repeat split; repeat constructor. Qed.
Lemma ex_legal : legal_responses 2 (p_cats ex_gpc) ex_mask ex_data ex_x.
Proof.
  intros n i K Hn HK Hm. destruct n as [|[|n]]; [| |lia]; destruct i as [|[|i]]; cbn in HK; try (destruct i; discriminate);
    cbn in Hm; try discriminate; injection HK as <-; cbn; split; (reflexivity || lia).
Qed.
Example C26_nonvacuous :
  loglik_of 2 2 ex_mask (gpc_probabilities ex_gpc [[0];[1]]) ex_x
    (fun red => base_log_likelihood 0 3 red ex_data (gpc_forward ex_gpc [[0];[1]]) ex_mask).
Proof.
  exact (C26_gpc 0%Z ex_gpc [[0];[1]] ex_data ex_mask ex_x ex_gpc_wf ltac:(cbn; lia) ltac:(repeat constructor)
    (proj1 ex_rects) (proj2 ex_rects) ex_legal).
Qed.

(** ** C27 ModelMix: sums and probabilities *)
(** Shape of a mix's data: [data] has one column per item of the mix. *)
Theorem C27_total_is_sum_of_parts : forall thetas subs ws Ps data mask x p,
  honest_mix thetas subs ws Ps -> let N := length thetas in let I := mix_items subs in
  rect N I data -> rect_opt N I mask ->
  responses N I (list_max (concat (map sb_cats subs))) mask data x ->
  forall c, mix_item_probabilities subs thetas = Ok c -> observed_probability N I mask (cb_rows c) x p ->
  exists out parts, mix_forward subs thetas = Ok out /\
    (forall k s w, nth_error subs k = Some s -> nth_error ws k = Some w ->
       sb_ll s RSum (columns (first_item subs k) (sb_items s) data) (T2 w)
         (option_map (columns (first_item subs k) (sb_items s)) mask) = Ok (Scalar (Some (Fin (parts k))))) /\
    mix_log_likelihood subs RSum (Wide I data) out (option_map (Wide I) mask) =
      Ok (Scalar (Some (Fin (sumn (length subs) parts)))) /\
    sumn (length subs) parts = observed_sum N I mask (fun n i => ln (p n i)).
Proof.
  intros thetas subs ws Ps data mask x p (Hne & Hlw & HlP & Hsub) N I Hd Hm Hr c Hc Hp.
  rewrite <- mix_max_cats in Hr.
  rewrite (mix_probs_eq thetas subs ws Ps Hne Hlw HlP Hsub) in Hc. injection Hc as <-. cbn [cb_rows] in Hp.
  exists (T2 (Wide (list_sum (mix_sizes subs)) (mix_rows ws))), (part_sum thetas subs mask p). split; [|split; [|split]].
  - now apply (mix_forward_eq thetas subs ws Ps).
  - intros k s w Hs Hw. destruct (pick thetas subs ws Ps Hlw HlP Hsub k s Hs) as (w' & P & Ew & EP & _).
    pose proof (sub_sum thetas subs ws Ps Hne Hlw HlP Hsub data mask Hd Hm x p Hr Hp k s w P Hs Hw EP) as E.
    cbv beta in E. rewrite (part_sum_eq thetas subs ws Ps Hlw HlP mask Hm p k s Hs) in E. exact E.
  - exact (mix_sum_parts thetas subs ws Ps Hne Hlw HlP Hsub data mask Hd Hm x p Hr Hp).
  - apply parts_total.
Qed.
Print Assumptions C27_total_is_sum_of_parts.

(** The probabilities of item [j] of sub-model [k] are that sub-model's probabilities followed by zeros. *)
Theorem C27_probabilities_padded : forall thetas subs ws Ps, honest_mix thetas subs ws Ps ->
  exists c, mix_item_probabilities subs thetas = Ok c /\ cb_items c = mix_items subs /\
    cb_cats c = list_max (concat (map sb_cats subs)) /\
    forall k s P n j, nth_error subs k = Some s -> nth_error Ps k = Some P -> (n < length thetas)%nat -> (j < sb_items s)%nat ->
      exists r, at2 P n j = Some r /\ length r = sb_max s /\ (sb_max s <= cb_cats c)%nat /\
        at2 (cb_rows c) n (first_item subs k + j) = Some (r ++ repeat (Some 0) (cb_cats c - sb_max s)).
Proof.
  intros thetas subs ws Ps (Hne & Hlw & HlP & Hsub). eexists. split; [now apply (mix_probs_eq thetas subs ws Ps)|].
  cbn [cb_items cb_cats cb_rows]. split; [reflexivity|]. split; [apply mix_max_cats|].
  intros k s P n j Hs HP Hn Hj.
  destruct (pick thetas subs ws Ps Hlw HlP Hsub k s Hs) as (w & P' & Ew & EP & HH). rewrite HP in EP. injection EP as <-.
  destruct HH as (_ & _ & _ & _ & [Hr Hl] & _). destruct (rect_at2 P _ _ n j Hr Hn Hj) as [r Er].
  exists r. split; auto. split; [eauto|]. split; [now apply (max_bound thetas subs ws Ps Hlw HlP k)|].
  pose proof (mix_table_row thetas subs ws Ps Hne Hlw HlP Hsub k s P n j Hs HP Hj) as E. rewrite Er in E. exact E.
Qed.
Print Assumptions C27_probabilities_padded.

(** The parts a user has: generalized partial credit, nominal, two-parameter and graded response models of
    any size and parameters are honest sub-models. *)
Theorem C27_parts_honest : forall nanl thetas,
  (forall m, poly_wf m -> (0 < p_items m)%nat -> Forall (fun t => length t = p_lv m) thetas ->
     exists w, honest_sub thetas (logit_sub nanl (p_lv m) (p_cats m) (gpc_forward m)) w (gpc_probabilities m thetas)) /\
  (forall m, nrm_wf m -> (0 < length (nrm_cats m))%nat ->
     exists w, honest_sub thetas (logit_sub nanl (nrm_lv m) (nrm_cats m) (nrm_forward m)) w (nrm_probabilities m thetas)) /\
  (forall m, tpl_wf m -> (0 < tpl_items m)%nat -> Forall (fun t => length t = tpl_lv m) thetas ->
     exists w, honest_sub thetas (logit_sub nanl (tpl_lv m) (repeat 2%nat (tpl_items m)) (tpl_forward m)) w (tpl_probabilities m thetas)) /\
  (forall m, poly_wf m -> (0 < p_items m)%nat -> Forall (fun t => length t = p_lv m) thetas ->
     exists w, honest_sub thetas (grm_sub nanl m) w (some3 (grm_probabilities m thetas))).
Proof.
  intros nanl thetas. repeat split.
  - intros. now apply gpc_sub_honest.
  - intros. now apply nrm_sub_honest.
  - intros. now apply tpl_sub_honest.
  - intros. eexists. now apply grm_sub_honest.
Qed.
Print Assumptions C27_parts_honest.

(** A mix is made exactly from sub-models with one number of latent variables, which is its own, and has the items of its
    sub-models, in order, with their categories. *)
Theorem C27_made : forall subs lv, subs <> [] -> Forall (fun s => sb_lv s = lv) subs ->
  exists cats, mix_init subs = Ok (lv, cats) /\ length cats = mix_items subs /\
    forall k s j, nth_error subs k = Some s -> (j < sb_items s)%nat -> nth_error cats (first_item subs k + j) = nth_error (sb_cats s) j.
Proof.
  intros subs lv Hne HF. destruct subs as [|s0 rest]; [congruence|]. exists (concat (map sb_cats (s0 :: rest))). split; [|split].
  - unfold mix_init. inversion HF as [|? ? E H]; subst. rewrite (proj2 (forallb_forall _ rest)); [reflexivity|].
    intros r Hr. rewrite Forall_forall in H. apply Nat.eqb_eq. symmetry. now apply H.
  - rewrite length_concat_sum, map_map. reflexivity.
  - intros k s j Hk Hj. unfold first_item. replace (map sb_items (s0 :: rest)) with (map (@length nat) (map sb_cats (s0 :: rest))) by now rewrite map_map.
    apply nth_error_concat; [now rewrite nth_error_map, Hk|exact Hj].
Qed.
Print Assumptions C27_made.
Theorem C27_differing_refused : forall subs s s', In s subs -> In s' subs -> sb_lv s <> sb_lv s' -> mix_init subs = Err ValueError.
Proof.
  intros subs s s' Hs Hs' Hd. destruct subs as [|s0 rest]; [destruct Hs|]. unfold mix_init.
  destruct (forallb _ rest) eqn:E; [|reflexivity]. rewrite forallb_forall in E.
  assert (A : forall x, In x (s0 :: rest) -> sb_lv x = sb_lv s0) by (intros x [<-|Hx]; [reflexivity|symmetry; now apply Nat.eqb_eq, E]).
  destruct Hd. now rewrite (A s Hs), (A s' Hs').
Qed.
Print Assumptions C27_differing_refused.
Example C27_differing_nonvacuous : exists s s', sb_lv s <> sb_lv s' /\ mix_init [s; s; s'] = Err ValueError /\ mix_init [s; s] = Ok (1, [3; 2; 3; 2])%nat.
Proof.
  exists (logit_sub 0 1 [3; 2]%nat (fun _ => [])), (logit_sub 0 2 [2]%nat (fun _ => [])). split; [discriminate|]. split; reflexivity.
Qed.

(** 'mean' is not implemented (the documentation offers it). *)
Theorem C27_mean_refused : forall subs data out mask r, mix_log_likelihood subs RMean data out mask <> Ok r.
Proof.
  intros subs data out mask r. unfold mix_log_likelihood. destruct (split_tensor _ out); cbn [bind]; [|discriminate].
  destruct (split2 _ data); cbn [bind]; [|discriminate]. destruct (split_mask subs mask); cbn [bind]; [|discriminate].
  destruct (mapM _ _); cbn [bind]; discriminate.
Qed.
Print Assumptions C27_mean_refused.

Definition ex_tpl : tpl := {| tpl_lv := 1; tpl_free := [[true]]; tpl_w := [1]; tpl_b := [0] |}.
Lemma ex_tpl_wf : tpl_wf ex_tpl.
Proof. unfold tpl_wf. cbn. repeat split; auto; repeat constructor. Qed.
(** A mix of a two-item partial credit model and a one-item two-parameter model. *)
Lemma ex_mix thetas : Forall (fun t => length t = 1%nat) thetas -> exists ws,
  honest_mix thetas [logit_sub 0 1 (p_cats ex_gpc) (gpc_forward ex_gpc); logit_sub 0 1 [2]%nat (tpl_forward ex_tpl)] ws
    [gpc_probabilities ex_gpc thetas; tpl_probabilities ex_tpl thetas].
Proof.
  intro HF. destruct (C27_parts_honest 0 thetas) as (H1 & _ & H2 & _).
  destruct (H1 ex_gpc ex_gpc_wf ltac:(cbn; lia) HF) as [w1 E1].
  destruct (H2 ex_tpl ex_tpl_wf ltac:(cbn; lia) HF) as [w2 E2].
  exists [w1; w2]. split; [discriminate|]. split; [reflexivity|]. split; [reflexivity|]. intros [|[|k]] s w P Hs Hw HP; cbn in Hs, Hw, HP;
    [| |destruct k; discriminate]; injection Hs as <-; injection Hw as <-; injection HP as <-; [exact E1|exact E2].
Qed.
Example C27_nonvacuous : exists subs ws Ps c,
  honest_mix [[0];[1]] subs ws Ps /\ mix_item_probabilities subs [[0];[1]] = Ok c /\ cb_items c = 3%nat /\ cb_cats c = 3%nat /\
  at2 (cb_rows c) 1 2 = Some ([Some (1 - logistic 1); Some (logistic 1)] ++ [Some 0]).
Proof.
  assert (HF : Forall (fun t : list R => length t = 1%nat) [[0];[1]]) by repeat constructor.
  destruct (ex_mix [[0];[1]] HF) as [ws H]. destruct (C27_probabilities_padded _ _ _ _ H) as (c & E & Hi & Hc & Hp).
  do 4 eexists. split; [exact H|]. split; [exact E|]. split; [exact Hi|]. split; [exact Hc|].
  destruct (Hp 1%nat _ _ 1%nat 0%nat eq_refl eq_refl ltac:(cbn; lia) ltac:(cbn; lia)) as (r & Er & Hl & _ & Et).
  change (first_item _ 1 + 0)%nat with 2%nat in Et. rewrite Et, Hc. f_equal.
  assert (Hr : r = [Some (1 - logistic 1); Some (logistic 1)]); [|rewrite Hr; reflexivity].
  pose proof (C14_tpl ex_tpl [[0];[1]] 1 [1] 0 ex_tpl_wf HF eq_refl ltac:(cbn; lia)) as [E1 E0]. cbv zeta in E1, E0.
  assert (Ex : predictor (tpl_lv ex_tpl) (slope (tpl_free ex_tpl) (tpl_w ex_tpl) 0) [1] + nth 0 (tpl_b ex_tpl) 0 = 1).
  { unfold predictor, slope. cbn. ring. }
  rewrite Ex in E1, E0. unfold at3 in E1, E0. unfold at2 in Er. cbn [sb_max sb_cats logit_sub] in Hl. change (sb_max _) with 2%nat in Hl.
  destruct (nth_error (tpl_probabilities ex_tpl [[0]; [1]]) 1) as [q|]; [|discriminate]. unfold at2 in E1, E0. rewrite Er in E1, E0.
  destruct r as [|a [|b [|d r]]]; cbn in Hl; try lia. cbn in E1, E0. congruence.
Qed.

(** ** C29 splitting the output *)
Theorem C29_split_returns_own_output : forall thetas subs ws Ps, honest_mix thetas subs ws Ps ->
  exists out, mix_forward subs thetas = Ok out /\ split_tensor (mix_sizes subs) out = Ok (map T2 ws) /\
    forall k s w, nth_error subs k = Some s -> nth_error ws k = Some w -> sb_forward s thetas = T2 w.
Proof.
  intros thetas subs ws Ps (Hne & Hlw & HlP & Hsub). eexists. split; [now apply (mix_forward_eq thetas subs ws Ps)|].
  split; [now apply (mix_split thetas subs ws Ps)|].
  intros k s w Hs Hw. destruct (pick thetas subs ws Ps Hlw HlP Hsub k s Hs) as (w' & P & Ew & EP & HH).
  replace w with w' by congruence. apply HH.
Qed.
Print Assumptions C29_split_returns_own_output.

(** Every mix that contains a 3PL, a nested logit or a surprisal spline model (each a documented model type)
    raises RuntimeError for probabilities and for the log-likelihood, whatever the other parts, the abilities
    and the data. *)
Theorem C29_refuted : forall thetas subs, Forall documented_part subs -> Exists unsupported_part subs ->
  mix_item_probabilities subs thetas = Err RuntimeError /\
  forall red data mask, bind (mix_forward subs thetas) (fun o => mix_log_likelihood subs red data o mask) = Err RuntimeError.
Proof. exact mix_unsupported. Qed.
Print Assumptions C29_refuted.
Example C29_nonvacuous : exists thetas subs ws Ps bad, honest_mix thetas subs ws Ps /\ length subs = 2%nat /\
  Forall documented_part bad /\ Exists unsupported_part bad /\ mix_init bad = Ok (1, [2;2;2])%nat.
Proof.
  destruct (ex_mix [[0];[1]] ltac:(repeat constructor)) as [ws H]. eexists _, _, ws, _.
  exists [logit_sub 0 1 [2]%nat (tpl_forward ex_tpl);
     thpl_sub 0 {| thpl_lv := 1; thpl_free := [[true];[true]]; thpl_w := [1;1]; thpl_b := [0;0]; thpl_g := [0;0] |}].
  split; [exact H|]. split; [reflexivity|]. split; [|split; [|reflexivity]].
  - constructor; [left; eauto 6|]. constructor; [right; right; left; eauto|constructor].
  - right. left. left. do 2 eexists. split; [reflexivity|]. cbn. lia.
Qed.

(** ** C28 order of the cells of a mix *)
(** The cells of sub-model [k] follow those of the sub-models before it for all respondents. *)
Theorem C28_layout : forall thetas subs ws Ps data mask x p,
  honest_mix thetas subs ws Ps -> let N := length thetas in let I := mix_items subs in
  rect N I data -> rect_opt N I mask ->
  responses N I (list_max (concat (map sb_cats subs))) mask data x ->
  forall c, mix_item_probabilities subs thetas = Ok c -> observed_probability N I mask (cb_rows c) x p ->
  exists out l, mix_forward subs thetas = Ok out /\
    mix_log_likelihood subs RNone (Wide I data) out (option_map (Wide I) mask) = Ok (Cells l) /\ length l = (N * I)%nat /\
    forall k s n j, nth_error subs k = Some s -> (n < N)%nat -> (j < sb_items s)%nat ->
      nth_error l (N * first_item subs k + (n * sb_items s + j)) =
        Some (if masked mask n (first_item subs k + j) then None else Some (Fin (ln (p n (first_item subs k + j)%nat)))).
Proof.
  intros thetas subs ws Ps data mask x p (Hne & Hlw & HlP & Hsub) N I Hd Hm Hr c Hc Hp.
  rewrite <- mix_max_cats in Hr.
  rewrite (mix_probs_eq thetas subs ws Ps Hne Hlw HlP Hsub) in Hc. injection Hc as <-. cbn [cb_rows] in Hp.
  eexists (T2 (Wide (list_sum (mix_sizes subs)) (mix_rows ws))), _. split; [|split; [|split]].
  - now apply (mix_forward_eq thetas subs ws Ps).
  - exact (mix_none thetas subs ws Ps Hne Hlw HlP Hsub data mask Hd Hm x p Hr Hp).
  - apply concat_parts_length.
  - intros k s n j Hs Hn Hj. now apply concat_parts_nth.
Qed.
Print Assumptions C28_layout.
(** One respondent, or one sub-model: the documented order. *)
Theorem C28_order_single : forall thetas subs ws Ps data mask x p,
  honest_mix thetas subs ws Ps -> let N := length thetas in let I := mix_items subs in
  (N = 1%nat \/ length subs = 1%nat) -> rect N I data -> rect_opt N I mask ->
  responses N I (list_max (concat (map sb_cats subs))) mask data x ->
  forall c, mix_item_probabilities subs thetas = Ok c -> observed_probability N I mask (cb_rows c) x p ->
  exists out l, mix_forward subs thetas = Ok out /\
    mix_log_likelihood subs RNone (Wide I data) out (option_map (Wide I) mask) = Ok (Cells l) /\
    forall n i, (n < N)%nat -> (i < I)%nat ->
      nth_error l (n * I + i) = Some (if masked mask n i then None else Some (Fin (ln (p n i)))).
Proof.
  intros thetas subs ws Ps data mask x p HM N I H1 Hd Hm Hr c Hc Hp.
  destruct (C28_layout thetas subs ws Ps data mask x p HM Hd Hm Hr c Hc Hp) as (out & l & E1 & E2 & Hl & Hn).
  exists out, l. split; [exact E1|]. split; [exact E2|]. intros n i Hn' Hi.
  destruct (list_sum_position (map sb_items subs) i Hi) as (k & Ik & j & Ek & Hj & ->).
  rewrite nth_error_map in Ek. destruct (nth_error subs k) as [s|] eqn:Es; [|discriminate]. injection Ek as <-.
  change (offset (map sb_items subs) k) with (first_item subs k). rewrite <- (Hn k s n j Es Hn' Hj). f_equal.
  destruct H1 as [H1|H1].
  - fold N. assert (n = 0%nat) by lia. subst n. rewrite H1. lia.
  - destruct subs as [|s0 [|s1 subs]]; cbn in H1; try lia. destruct k as [|k]; [|destruct k; discriminate]. cbn in Es. injection Es as ->.
    unfold I, mix_items, first_item. cbn. lia.
Qed.
Print Assumptions C28_order_single.
(** For every mix of two sub-models with at least one item each and two respondents or more, viewing the
    cells as respondents x items puts the log-likelihood of the second respondent's answer to the first
    item (if the first sub-model has one item) or to later items in the first respondent's row: position
    (0, I1) holds cell (1, 0). *)
Theorem C28_refuted : forall thetas s1 s2 ws Ps data x p,
  honest_mix thetas [s1; s2] ws Ps -> let N := length thetas in let I := mix_items [s1; s2] in
  (2 <= N)%nat -> (1 <= sb_items s1)%nat -> (1 <= sb_items s2)%nat -> rect N I data ->
  responses N I (list_max (concat (map sb_cats [s1; s2]))) None data x ->
  forall c, mix_item_probabilities [s1; s2] thetas = Ok c -> observed_probability N I None (cb_rows c) x p ->
  exists out l, mix_forward [s1; s2] thetas = Ok out /\
    mix_log_likelihood [s1; s2] RNone (Wide I data) out None = Ok (Cells l) /\
    nth_error l (0 * I + sb_items s1) = Some (Some (Fin (ln (p 1%nat 0%nat)))).
Proof.
  intros thetas s1 s2 ws Ps data x p HM N I HN H1 H2 Hd Hr c Hc Hp.
  destruct (C28_layout thetas [s1; s2] ws Ps data None x p HM Hd Logic.I Hr c Hc Hp) as (out & l & E1 & E2 & Hl & Hn).
  exists out, l. split; [exact E1|]. split; [exact E2|].
  specialize (Hn 0%nat s1 1%nat 0%nat eq_refl HN H1). cbn [first_item map firstn list_sum masked] in Hn.
  change (first_item [s1; s2] 0) with 0%nat in Hn. replace (length thetas * 0 + (1 * sb_items s1 + 0))%nat with (0 * I + sb_items s1)%nat in Hn by lia.
  exact Hn.
Qed.
Print Assumptions C28_refuted.
(** A concrete mix: two one-item two-parameter models, abilities 0 and 1, all answers 1.  The cell shown for
    respondent 0 and item 1 is log logistic(1) while it should be log logistic(0). *)
Definition ex_pair : list sub := [logit_sub 0 1 [2]%nat (tpl_forward ex_tpl); logit_sub 0 1 [2]%nat (tpl_forward ex_tpl)].
Example C28_nonvacuous : exists ws Ps c p,
  honest_mix [[0];[1]] ex_pair ws Ps /\ mix_item_probabilities ex_pair [[0];[1]] = Ok c /\
  responses 2 2 2 None [[Some 1%Z; Some 1%Z];[Some 1%Z; Some 1%Z]] (fun _ _ => 1%nat) /\
  observed_probability 2 2 None (cb_rows c) (fun _ _ => 1%nat) p /\
  p 0%nat 1%nat = logistic 0 /\ p 1%nat 0%nat = logistic 1 /\ ln (p 1%nat 0%nat) <> ln (p 0%nat 1%nat).
Proof.
  assert (HF : Forall (fun t : list R => length t = 1%nat) [[0];[1]]) by repeat constructor.
  destruct (C27_parts_honest 0 [[0];[1]]) as (_ & _ & H2 & _).
  destruct (H2 ex_tpl ex_tpl_wf ltac:(cbn; lia) HF) as [w E].
  assert (HM : honest_mix [[0];[1]] ex_pair [w; w] [tpl_probabilities ex_tpl [[0];[1]]; tpl_probabilities ex_tpl [[0];[1]]]).
  { split; [discriminate|]. split; [reflexivity|]. split; [reflexivity|]. intros [|[|k]] s v P Hs Hw HP; cbn in Hs, Hw, HP;
    [| |destruct k; discriminate]; injection Hs as <-; injection Hw as <-; injection HP as <-; exact E. }
  destruct (C27_probabilities_padded _ _ _ _ HM) as (c & Ec & Hi & Hcc & Hp).
  exists [w; w], [tpl_probabilities ex_tpl [[0];[1]]; tpl_probabilities ex_tpl [[0];[1]]], c, (fun n _ => logistic (INR n)).
  split; [exact HM|]. split; [exact Ec|]. split; [|split].
  - intros [|[|n]] [|[|i]] Hn Hi' _; try lia; cbn; split; auto.
  - intros n i Hn Hi' _. split; [|apply logistic_bounds].
    assert (Hs : exists s, nth_error ex_pair i = Some s /\ sb_items s = 1%nat /\ first_item ex_pair i = i).
    { destruct i as [|[|i]]; [| |lia]; eexists; split; reflexivity || (split; reflexivity). }
    destruct Hs as (s & Es & Hs & Hf).
    assert (HP : nth_error [tpl_probabilities ex_tpl [[0];[1]]; tpl_probabilities ex_tpl [[0];[1]]] i = Some (tpl_probabilities ex_tpl [[0];[1]])).
    { destruct i as [|[|i]]; [| |lia]; reflexivity. }
    destruct (Hp i s _ n 0%nat Es HP Hn ltac:(lia)) as (r & Er & Hl & Hle & Et). rewrite Hf, Nat.add_0_r in Et.
    assert (Ht : nth_error [[0];[1]] n = Some [INR n]) by (destruct n as [|[|n]]; [reflexivity|reflexivity|lia]).
    destruct (C14_tpl ex_tpl [[0];[1]] n [INR n] 0 ex_tpl_wf HF Ht ltac:(cbn; lia)) as [E1 _]. cbv zeta in E1.
    assert (Ex : predictor (tpl_lv ex_tpl) (slope (tpl_free ex_tpl) (tpl_w ex_tpl) 0) [INR n] + nth 0 (tpl_b ex_tpl) 0 = INR n).
    { unfold predictor, slope. cbn [sumn tpl_lv tpl_free tpl_w tpl_b ex_tpl nth concat firstn ctrue app filter length Nat.add]. cbn. ring. }
    rewrite Ex in E1. unfold at3, at2 in *.
    destruct (nth_error (tpl_probabilities ex_tpl [[0];[1]]) n) as [q|]; [|discriminate]. rewrite Er in E1.
    destruct (nth_error (cb_rows c) n) as [q'|]; [|discriminate]. rewrite Et. rewrite nth_error_app1; [exact E1|].
    apply nth_error_Some. congruence.
  - cbn [INR]. split; [reflexivity|]. split; [reflexivity|]. intro Hln.
    apply ln_inv in Hln; [|apply logistic_bounds|apply logistic_bounds].
    pose proof (logistic_incr 0 1 ltac:(lra)). lra.
Qed.
