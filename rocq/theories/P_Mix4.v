(** Lemmas: choice of the number of components, integration grid and weights. *)
From Verif Require Import Base BaseFacts RBase RFacts M_Data M_CV M_Logit M_Lik M_Est M_Stat M_Grid M_Eval M_Mix S_Eval S_Mix P_CV P_Lik2 P_Lik3 P_Est1 P_Est3 P_Stat1 P_Stat3 P_Stat4 P_Stat5 P_Eval1 P_Eval7 P_Mix1 P_Mix2 P_Mix3.
Local Open Scope R_scope.

Lemma others_concat {A} (l : list (list A)) i r : others l i = Ok r -> (i < length l)%nat -> r = other_folds l i.
Proof.
  unfold others, other_folds. intros H Hi. assert (E : remove_nth i l = firstn i l ++ skipn (S i) l).
  { clear H. revert l Hi. induction i as [|i IH]; intros [|x l] Hi; cbn [length] in Hi; try lia; [reflexivity|]. cbn [remove_nth firstn]. rewrite IH by lia. reflexivity. }
  rewrite <- E. destruct (remove_nth i l); [discriminate|]. congruence.
Qed.
Lemma fit_inv it data g g' : gmm_fit it data g = Ok g' -> w_rows data <> [] /\ w_cols data = g_features g /\ em it g (w_rows data) = Ok g'.
Proof.
  unfold gmm_fit. destruct (w_rows data) as [|x l] eqn:E; [discriminate|]. cbn [length Nat.eqb].
  destruct (w_cols data =? g_features g)%nat eqn:Ec; [|discriminate]. cbn [negb]. intros H. apply Nat.eqb_eq in Ec. repeat split; auto. discriminate.
Qed.
(** A fitted mixture is a mixture. *)
Lemma fitted_shaped start k d it data g g' : gmm_new start k d = Ok g -> length start = Z.to_nat k -> gmm_fit it data g = Ok g' -> shaped g'.
Proof.
  intros HG HL HF. destruct (new_shaped _ _ _ _ HG HL) as (HS & _). destruct (fit_inv _ _ _ _ HF) as (HN & _ & HE).
  destruct (em_shaped _ _ HN HS _ _ HE) as (? & _). assumption.
Qed.
Lemma held_out_fin it d start k train val r : length start = Z.to_nat k -> held_out it d start k train val = Ok r ->
  exists g0 g1 x, gmm_new start k (Z.of_nat d) = Ok g0 /\ gmm_fit it (Wide d train) g0 = Ok g1 /\ gmm_log_likelihood g1 val = Ok (fin_r x) /\ r = fin_r x.
Proof.
  intros HL. unfold held_out. destruct (gmm_new start k (Z.of_nat d)) as [g0|] eqn:E0; [|discriminate]. cbn [bind].
  destruct (gmm_fit it (Wide d train) g0) as [g1|] eqn:E1; [|discriminate]. cbn [bind]. intros H.
  pose proof (fitted_shaped _ _ _ _ _ _ _ E0 HL E1) as HS. destruct (log_likelihood_densities _ _ _ H) as [fs Hfs].
  destruct (mixture_of g1 fs HS Hfs) as (cs & HX & _). rewrite (log_likelihood_form g1 cs HX) in H. apply ok_inj in H.
  subst r. eexists g0, g1, _. split; [reflexivity|]. split; [exact E1|]. split; [apply (log_likelihood_form g1 cs HX)|reflexivity].
Qed.
Lemma list_fin (l : list fl) : (forall i a, nth_error l i = Some a -> exists x, a = fin_r x) -> exists xs, l = map fin_r xs.
Proof.
  induction l as [|a l IH]; intros H; [now exists []|]. destruct (H 0%nat a eq_refl) as [x ->].
  destruct IH as [xs ->]. { intros i b Hb. apply (H (S i) b Hb). } exists (x :: xs). reflexivity.
Qed.
Definition fold_score (it : nat) (draw : nat -> list (list R)) (data : wide R) (k : Z) (i : nat) (val : list (list R)) (x : R) :=
  exists g0 g1, gmm_new (draw i) k (Z.of_nat (w_cols data)) = Ok g0 /\
    gmm_fit it (Wide (w_cols data) (other_folds (chunk 5 (w_rows data)) i)) g0 = Ok g1 /\ gmm_log_likelihood g1 val = Ok (fin_r x).
Lemma candidate_score_fin it draw data k s : (forall i, length (draw i) = Z.to_nat k) -> candidate_score it draw data k = Ok s ->
  exists lls, s = fin_r (rsum lls / 5) /\ length lls = length (chunk 5 (w_rows data)) /\
    forall i val, nth_error (chunk 5 (w_rows data)) i = Some val -> exists x, nth_error lls i = Some x /\ fold_score it draw data k i val x.
Proof.
  intros HD. unfold candidate_score, n_folds. set (chunks := chunk 5 (w_rows data)). destruct (mapiM _ chunks) as [lls|] eqn:E; [|discriminate]. cbn [bind].
  intros H. apply ok_inj in H. apply mapiM_Ok in E as [HL E].
  assert (HF : forall i val, nth_error chunks i = Some val -> exists x, nth_error lls i = Some (fin_r x) /\ fold_score it draw data k i val x).
  { intros i val Hi. destruct (E i val Hi) as (b & Hb & Hf). destruct (others chunks i) as [train|] eqn:Eo; [|discriminate]. cbn [bind] in Hf.
    apply held_out_fin in Hf; [|apply HD]. destruct Hf as (g0 & g1 & x & H0 & H1 & H2 & ->). exists x. split; [exact Hb|].
    exists g0, g1. split; [exact H0|]. split; [|exact H2]. fold chunks. rewrite <- (others_concat chunks i train Eo); [exact H1|]. apply nth_error_Some. congruence. }
  destruct (list_fin lls) as [xs ->].
  { intros i a Ha. assert (Hi : (i < length chunks)%nat) by (rewrite <- HL; apply nth_error_Some; congruence).
    destruct (HF i _ (nth_error_nth' chunks [] Hi)) as (x & Hx & _). exists x. congruence. }
  exists xs. rewrite map_length in *. split; [|split; [exact HL|]].
  - rewrite <- H. replace (map fin_r xs ++ repeat (Some (Fin 0)) (5 - length xs)) with (map fin_r (xs ++ repeat 0 (5 - length xs))).
    2:{ rewrite map_app, map_repeat. reflexivity. }
    unfold fin_r. rewrite fsum_fin, rsum_app. unfold fdiv_nat. cbn [Nat.eqb].
    rewrite rsum_zeros, Rplus_0_r. replace (INR 5) with 5 by (cbn; lra). reflexivity.
  - intros i val Hi. destruct (HF i val Hi) as (x & Hx & HS). exists x. split; [|exact HS]. rewrite nth_error_map in Hx. destruct (nth_error xs i) as [y|]; [|discriminate]. cbn in Hx. unfold fin_r in Hx. congruence.
Qed.
Lemma cv_best it draw last data cands g : (2 <= length cands)%nat ->
  (forall c i k, nth_error cands c = Some k -> length (draw c i) = Z.to_nat k) -> cv_gmm it draw last data cands = Ok g ->
  exists scores b k g0, nth_error cands b = Some k /\ top scores b /\ length scores = length cands /\
    (forall c kc, nth_error cands c = Some kc -> exists lls, nth_error scores c = Some (rsum lls) /\
      length lls = length (chunk 5 (w_rows data)) /\
      forall i val, nth_error (chunk 5 (w_rows data)) i = Some val -> exists x, nth_error lls i = Some x /\ fold_score it (draw c) data kc i val x) /\
    gmm_new (last k) k (Z.of_nat (w_cols data)) = Ok g0 /\ gmm_fit it data g0 = Ok g.
Proof.
  intros HC HD H. unfold cv_gmm in H.
  assert (EM : match cands with [] => Err IndexError | [k] => Ok k | _ =>
    bind (mapiM (fun c k => candidate_score it (draw c) data k) cands) (fun avg => bind (fargmax avg) (fun b => match nth_error cands b with Some k => Ok k | None => Err IndexError end)) end =
    bind (mapiM (fun c k => candidate_score it (draw c) data k) cands) (fun avg => bind (fargmax avg) (fun b => match nth_error cands b with Some k => Ok k | None => Err IndexError end))).
  { destruct cands as [|k1 [|k2 l]]; cbn [length] in HC; try lia. reflexivity. }
  rewrite EM in H. clear EM.
  destruct (mapiM (fun c k => candidate_score it (draw c) data k) cands) as [avg|] eqn:E; [|discriminate]. cbn [bind] in H.
  destruct (fargmax avg) as [b|] eqn:Eb; [|discriminate]. cbn [bind] in H. destruct (nth_error cands b) as [k|] eqn:Ek; [|discriminate]. cbn [bind] in H.
  destruct (gmm_new (last k) k (Z.of_nat (w_cols data))) as [g0|] eqn:E0; [|discriminate]. cbn [bind] in H.
  apply mapiM_Ok in E as [HL E].
  assert (HS : forall c kc, nth_error cands c = Some kc -> exists lls, nth_error avg c = Some (fin_r (rsum lls / 5)) /\ length lls = length (chunk 5 (w_rows data)) /\
      forall i val, nth_error (chunk 5 (w_rows data)) i = Some val -> exists x, nth_error lls i = Some x /\ fold_score it (draw c) data kc i val x).
  { intros c kc Hc. destruct (E c kc Hc) as (s & Hs & Hf). apply candidate_score_fin in Hf; [|intros; eapply HD; eauto]. destruct Hf as (lls & -> & H1 & H2). exists lls. auto. }
  destruct (list_fin avg) as [xs ->].
  { intros c a Ha. assert (Hc : (c < length cands)%nat) by (rewrite <- HL; apply nth_error_Some; congruence).
    destruct (HS c _ (nth_error_nth' cands 0%Z Hc)) as (lls & Hl & _). exists (rsum lls / 5). congruence. }
  rewrite map_length in HL.
  assert (Hne : xs <> []) by (intros ->; cbn in HL; lia).
  destruct (rargmax_top xs Hne) as (b' & Hb' & HT). unfold rargmax in Hb'. change (fun x : R => Some (Fin x)) with fin_r in Hb'. assert (b' = b) by congruence. subst b'.
  exists (map (fun x => 5 * x) xs), b, k, g0. split; [exact Ek|]. split; [|split; [now rewrite map_length|split; [|split; [exact E0|exact H]]]].
  - destruct HT as (x & Hx & HT). exists (5 * x). split; [now rewrite nth_error_map, Hx|]. intros j y Hj. rewrite nth_error_map in Hj. destruct (nth_error xs j) as [z|] eqn:Ez; [|discriminate].
    cbn in Hj. assert (y = 5 * z) by congruence. subst y. destruct (HT j z Ez) as [H1 H2]. split; [lra|]. intros Hjb. specialize (H2 Hjb). lra.
  - intros c kc Hc. destruct (HS c kc Hc) as (lls & Hl & H1 & H2). exists lls. split; [|auto]. rewrite nth_error_map in Hl |- *.
    destruct (nth_error xs c) as [z|]; [|discriminate]. cbn in Hl |- *. f_equal. unfold fin_r in Hl. assert (z = rsum lls / 5) by congruence. subst. field.
Qed.
(** A single respondent: nothing is left to train on. *)
Lemma cv_single it draw last d x cands : (2 <= length cands)%nat -> cv_gmm it draw last (Wide d [x]) cands = Err RuntimeError.
Proof.
  intros HC. unfold cv_gmm. destruct cands as [|k1 [|k2 l]]; cbn [length] in HC; try lia.
  assert (E : forall c k, candidate_score it (draw c) (Wide d [x]) k = Err RuntimeError) by reflexivity.
  unfold mapiM. cbn [mapiM_from]. rewrite E. reflexivity.
Qed.

(** ** Grid and weights *)
Lemma normalised_fin ps : Forall (fun p => 0 <= p) ps -> 0 < rsum ps -> normalised (map fin_r ps) = map fin_r (map (fun p => p / rsum ps) ps).
Proof.
  intros HF HP. unfold normalised. rewrite !map_map. apply map_ext. intros p. unfold fin_r at 2. rewrite fsum_fin. apply fdiv_pos. exact HP.
Qed.
Lemma normalised_ok ps : Forall (fun p => 0 <= p) ps -> 0 < rsum ps -> weights_ok (map (fun p => p / rsum ps) ps).
Proof.
  intros HF HP. split.
  - apply Forall_map. eapply Forall_impl; [|exact HF]. cbv beta. intros p Hp. apply Rmult_le_pos; [exact Hp|]. apply Rlt_le, Rinv_0_lt_compat, HP.
  - rewrite (map_ext _ (fun p => / rsum ps * p)) by (intros; unfold Rdiv; ring). rewrite rsum_map_scal, map_id. field. lra.
Qed.
Lemma gmm_density_pdf draw last lv data dn pts : (forall c i k, nth_error [2; 3; 4; 5; 10]%Z c = Some k -> length (draw c i) = Z.to_nat k) ->
  (forall k, length (last k) = Z.to_nat k) -> gmm_fit_density draw last lv data = Ok dn -> forall r, dn_pdf dn pts = Ok r ->
  exists ps, r = map fin_r ps /\ length ps = length pts /\ Forall (fun p => 0 < p) ps.
Proof.
  intros HD HL H r Hr. unfold gmm_fit_density in H. destruct (cv_gmm 100 draw last (Wide lv data) [2; 3; 4; 5; 10]%Z) as [g|] eqn:E; [|discriminate].
  cbn [rmap] in H. apply ok_inj in H. subst dn. cbn [dn_pdf] in Hr.
  apply cv_best in E; [|cbn [length]; lia|exact HD]. destruct E as (_ & _ & k & g0 & _ & _ & _ & _ & HN & HF).
  pose proof (fitted_shaped _ _ _ _ _ _ _ HN (HL k) HF) as HS. destruct (pdf_densities _ _ _ Hr) as [fs Hfs]. destruct (mixture_of g fs HS Hfs) as (cs & HX & _).
  rewrite (pdf_form g cs HX) in Hr. apply ok_inj in Hr. subst r. exists (map (total cs) pts). rewrite map_map, map_length. split; [reflexivity|]. split; [reflexivity|].
  apply Forall_map, Forall_forall. intros x _. now apply (total_pos g cs HX).
Qed.
Lemma grid_form segments lv scores : (2 <= length scores)%nat ->
  integration_grid segments lv scores = Ok (product (map (fun i => linspace (rmin_list (column 0 i scores) - sd (column 0 i scores)) (rmax_list (column 0 i scores) + sd (column 0 i scores)) segments) (seq 0 lv))).
Proof.
  intros H. unfold integration_grid, integration_range. destruct scores as [|x [|y l]]; cbn [length] in H; try lia. cbn [rmap]. now rewrite map_map.
Qed.
Lemma sd_nonneg l : (1 <= length l)%nat -> 0 <= sd l.
Proof. intros _. unfold sd. apply sqrt_pos. Qed.
Lemma product_repeat_length segments (ls : list (list R)) : Forall (fun l => length l = segments) ls -> length (product ls) = (segments ^ length ls)%nat.
Proof.
  intros H. rewrite product_length. induction H as [|l ls Hl _ IH]; [reflexivity|]. cbn [map fold_right length Nat.pow]. now rewrite IH, Hl.
Qed.
Lemma linspace_len lo hi n : length (linspace lo hi n) = n.
Proof. unfold linspace. now rewrite map_length, seq_length. Qed.
