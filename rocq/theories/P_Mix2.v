(** Lemmas: the E-step and the M-step in closed form, and what every EM iteration keeps. *)
From Verif Require Import Base BaseFacts RBase RFacts M_Data M_CV M_Logit M_Lik M_Est M_Stat M_Mix P_Lik2 P_Lik3 P_Est1 P_Stat1 P_Stat3 P_Stat5 P_Eval1 P_Eval7 P_Mix1.
Local Open Scope R_scope.

(** A component: weight, mean, covariance, log density. *)
Record comp := Comp { cw : R; cm : list fl; cc : list (list fl); cf : list R -> R }.
Definition shaped (g : gmm) := exists ws, g_weights g = map fin_r ws /\ Forall (fun w => 0 < w) ws /\ rsum ws = 1 /\
  length (g_means g) = length ws /\ length (g_covs g) = length ws.
Definition densities (g : gmm) : result (list (list R -> R)) :=
  mapM (fun ms => mvn (g_features g) (fst ms) (snd ms)) (combine (g_means g) (g_covs g)).
Definition gmix (g : gmm) (cs : list comp) :=
  g_weights g = map (fun c => fin_r (cw c)) cs /\ g_means g = map cm cs /\ g_covs g = map cc cs /\
  Forall (fun c => 0 < cw c /\ mvn (g_features g) (cm c) (cc c) = Ok (cf c)) cs /\ rsum (map cw cs) = 1 /\
  densities g = Ok (map cf cs).
Lemma mixture_of g fs : shaped g -> densities g = Ok fs -> exists cs, gmix g cs /\ fs = map cf cs.
Proof.
  intros (ws & HW & HP & HS & HM & HC) H. pose proof H as H0. unfold densities in H. apply mapM_Ok in H.
  destruct g as [d W Ms Cs]. cbn [g_features g_weights g_means g_covs] in *. subst W.
  unfold gmix, densities. cbn [g_features g_weights g_means g_covs].
  assert (E : exists cs, map cw cs = ws /\ Ms = map cm cs /\ Cs = map cc cs /\ fs = map cf cs /\ Forall (fun c => 0 < cw c /\ mvn d (cm c) (cc c) = Ok (cf c)) cs).
  { clear H0 HS. revert Ms Cs fs HP HM HC H. induction ws as [|w ws IH]; intros Ms Cs fs HP HM HC H.
    - destruct Ms; [|discriminate]. destruct Cs; [|discriminate]. inversion H. exists []. repeat split; auto.
    - destruct Ms as [|m Ms]; [discriminate|]. destruct Cs as [|c Cs]; [discriminate|]. cbn [combine] in H. inversion H as [|? f ? fs' Hf Hr]; subst.
      inversion HP as [|? ? Hw HP']; subst. cbn [length] in HM, HC.
      destruct (IH Ms Cs fs' HP' ltac:(lia) ltac:(lia) Hr) as (cs & <- & -> & -> & -> & HF).
      exists (Comp w m c f :: cs). repeat split; try reflexivity. constructor; auto. }
  destruct E as (cs & <- & -> & -> & -> & HF). exists cs. split; [|reflexivity]. rewrite map_map. repeat split; auto.
Qed.
Lemma mixture_shaped g cs : gmix g cs -> shaped g.
Proof.
  intros (HW & HM & HC & HF & HS & _). exists (map cw cs). rewrite HM, HC, !map_length. rewrite HW, map_map. repeat split; auto.
  apply Forall_map. eapply Forall_impl; [|exact HF]. cbv beta. tauto.
Qed.

Definition part (c : comp) (x : list R) : R := cw c * exp (cf c x).
Definition total (cs : list comp) (x : list R) : R := rsum (map (fun c => part c x) cs).
Definition resp (cs : list comp) (c : comp) (x : list R) : R := part c x / total cs x.

Section Mixture.
  Variables (g : gmm) (cs : list comp).
  Hypothesis HX : gmix g cs.

  Lemma cw_pos c : In c cs -> 0 < cw c.
  Proof. destruct HX as (_ & _ & _ & HF & _). rewrite Forall_forall in HF. apply HF. Qed.
  Lemma cs_nonempty : cs <> [].
  Proof. destruct HX as (_ & _ & _ & _ & HS & _). intros ->. cbn in HS. lra. Qed.
  Lemma part_pos c x : In c cs -> 0 < part c x.
  Proof. intros Hc. apply Rmult_lt_0_compat; [now apply cw_pos|apply exp_pos]. Qed.
  Lemma rsum_pos {A} (f : A -> R) l : l <> [] -> (forall a, In a l -> 0 < f a) -> 0 < rsum (map f l).
  Proof.
    intros Hl H. destruct l as [|a l]; [congruence|]. cbn [map rsum]. assert (0 < f a) by (apply H; now left).
    assert (0 <= rsum (map f l)); [|lra]. assert (G : forall b, In b l -> 0 < f b) by (intros; apply H; now right). clear - G.
    induction l as [|b l IH]; cbn [map rsum]; [lra|]. assert (0 < f b) by (apply G; now left). assert (0 <= rsum (map f l)) by (apply IH; intros; apply G; now right). lra.
  Qed.
  Lemma total_pos x : 0 < total cs x.
  Proof. apply rsum_pos; [apply cs_nonempty|]. intros; now apply part_pos. Qed.
  Lemma resp_pos c x : In c cs -> 0 < resp cs c x.
  Proof. intros Hc. apply Rdiv_lt_0_compat; [now apply part_pos|apply total_pos]. Qed.
  Lemma resp_sum x : rsum (map (fun c => resp cs c x) cs) = 1.
  Proof.
    unfold resp. rewrite (map_ext _ (fun c => / total cs x * part c x)) by (intros; unfold Rdiv; ring).
    rewrite rsum_map_scal. fold (total cs x). pose proof (total_pos x). field. lra.
  Qed.
  Lemma wlp data : weighted_log_probs g data = Ok (map (fun c => map (fun x => flog (Some (part c x))) data) cs).
  Proof.
    unfold weighted_log_probs. destruct HX as (HW & HM & HC & HF & HS & HD). unfold densities in HD. rewrite HD, HW. cbn [rmap].
    rewrite zip_with_maps. f_equal. apply map_ext_in. intros c Hc. apply map_ext. intros x.
    assert (0 < cw c) by now apply cw_pos.
    rewrite flog_pos by now apply part_pos. cbn [flogf fin_r]. rewrite flog_pos by assumption. cbn [fadd]. unfold part.
    rewrite ln_mult by (auto; apply exp_pos). rewrite ln_exp. do 2 f_equal. ring.
  Qed.
  Lemma lse x : logsumexp (map (fun c => flog (Some (part c x))) cs) = fin_r (ln (total cs x)).
  Proof.
    rewrite <- (map_map (fun c => part c x) (fun a => flog (Some a))).
    assert (HN : Forall (fun a => 0 <= a) (map (fun c => part c x) cs)).
    { apply Forall_map, Forall_forall. intros c Hc. apply Rlt_le. now apply part_pos. }
    assert (HE : Exists (fun a => 0 < a) (map (fun c => part c x) cs)).
    { pose proof cs_nonempty as Hne. assert (PP : forall c, In c cs -> 0 < part c x) by (intros; now apply part_pos).
      destruct cs as [|c l]; [congruence|]. cbn [map]. apply Exists_cons_hd. apply PP. now left. }
    unfold logsumexp. destruct (fmax_logs _ HN) as [[_ H0]|(c & Hc & ->)].
    - exfalso. apply Exists_exists in HE as (a & Ha & Hp). rewrite Forall_forall in H0. specialize (H0 a Ha). lra.
    - rewrite (logsumexp_logs _ HN HE). reflexivity.
  Qed.
  Lemma lse_column data n : (n < length data)%nat ->
    logsumexp (column None n (map (fun c => map (fun x => flog (Some (part c x))) data) cs)) = fin_r (ln (total cs (nth n data []))).
  Proof.
    intros Hn. rewrite <- lse. f_equal. unfold column. rewrite map_map. apply map_ext. intros c.
    rewrite (nth_indep _ None (flog (Some (part c [])))) by now rewrite map_length.
    now rewrite (map_nth (fun x => flog (Some (part c x)))).
  Qed.
  Lemma lse_columns data :
    map (fun n => logsumexp (column None n (map (fun c => map (fun x => flog (Some (part c x))) data) cs))) (seq 0 (length data)) =
    map (fun x => fin_r (ln (total cs x))) data.
  Proof.
    apply nth_error_ext. intros i. destruct (Nat.lt_ge_cases i (length data)) as [Hi|Hi].
    - rewrite !nth_error_map, (nth_error_seq (length data) 0 i) by exact Hi. cbn [option_map Nat.add].
      rewrite (nth_error_nth' data []) by exact Hi. cbn [option_map]. now rewrite lse_column.
    - rewrite (proj2 (nth_error_None _ i)), (proj2 (nth_error_None _ i)); auto; rewrite map_length, ?seq_length; auto.
  Qed.
  Lemma log_likelihood_form data : gmm_log_likelihood g data = Ok (fin_r (rsum (map (fun x => ln (total cs x)) data))).
  Proof.
    unfold gmm_log_likelihood. rewrite wlp. cbn [bind]. rewrite lse_columns. rewrite <- (map_map (fun x => ln (total cs x)) fin_r). unfold fin_r. now rewrite fsum_fin.
  Qed.
  Lemma e_step_form data : e_step g data = Ok (map (fun c => map (fun x => fin_r (resp cs c x)) data) cs).
  Proof.
    unfold e_step. rewrite wlp. cbn [bind]. f_equal. rewrite map_map. apply map_ext_in. intros c Hc. rewrite lse_columns, zip_with_maps.
    apply map_ext. intros x. rewrite flog_pos by now apply part_pos. cbn [fsub fneg fin_r fadd fexp]. unfold fin_r. do 2 f_equal.
    unfold resp, Rdiv. change (ln (part c x) + - ln (total cs x)) with (ln (part c x) - ln (total cs x)). unfold Rminus.
    rewrite exp_plus, exp_Ropp, !exp_ln; auto using total_pos. now apply part_pos.
  Qed.
  Lemma pdf_form points : gmm_pdf g points = Ok (map (fun x => fin_r (total cs x)) points).
  Proof.
    unfold gmm_pdf. destruct HX as (HW & HM & HC & HF & HS & HD). unfold densities in HD. rewrite HD, HW. cbn [rmap].
    f_equal. apply map_ext. intros x. rewrite zip_with_maps. unfold total. rewrite (map_ext _ (fun c => fin_r (part c x))) by reflexivity.
    rewrite <- (map_map (fun c => part c x) fin_r). unfold fin_r. now rewrite fsum_fin.
  Qed.

  (** ** M-step *)
  Variable data : list (list R).
  Hypothesis HN : data <> [].
  Definition mass (c : comp) : R := rsum (map (resp cs c) data).
  Definition wmean (c : comp) (j : nat) : R := rsum (map (fun x => resp cs c x * nth j x 0) data) / mass c.
  Definition wcov (c : comp) (j k : nat) : R :=
    rsum (map (fun x => resp cs c x * ((nth j x 0 - wmean c j) * (nth k x 0 - wmean c k))) data) / mass c.
  Lemma mass_pos c : In c cs -> 0 < mass c.
  Proof. intros Hc. apply rsum_pos; auto. intros; now apply resp_pos. Qed.
  Lemma rows_sum c : fsum (map (fun x => fin_r (resp cs c x)) data) = fin_r (mass c).
  Proof. rewrite <- (map_map (resp cs c) fin_r). unfold fin_r. now rewrite fsum_fin. Qed.
  Lemma fdiv_pos a b : 0 < b -> fdiv (fin_r a) (fin_r b) = fin_r (a / b).
  Proof. intros Hb. cbn [fdiv fin_r]. destruct (Req_EM_T b 0); [lra|reflexivity]. Qed.
  Lemma m_mean_form d c : In c cs -> m_mean d data (map (fun x => fin_r (resp cs c x)) data) = map (fun j => fin_r (wmean c j)) (seq 0 d).
  Proof.
    intros Hc. unfold m_mean. apply map_ext. intros j. rewrite rows_sum.
    rewrite <- (map_id data) at 2. rewrite zip_with_maps. cbn [fmul fin_r].
    rewrite <- (map_map (fun x => resp cs c x * nth j x 0) fin_r). unfold fin_r at 1. rewrite fsum_fin. fold (fin_r (rsum (map (fun x => resp cs c x * nth j x 0) data))).
    rewrite fdiv_pos by now apply mass_pos. reflexivity.
  Qed.
  Lemma m_cov_form d c : In c cs -> m_cov d data (map (fun x => fin_r (resp cs c x)) data) (map (fun j => fin_r (wmean c j)) (seq 0 d)) =
    map (fun j => map (fun k => fin_r (wcov c j k)) (seq 0 d)) (seq 0 d).
  Proof.
    intros Hc. unfold m_cov. apply map_ext_in. intros j Hj. apply map_ext_in. intros k Hk. apply in_seq in Hj, Hk. rewrite rows_sum.
    assert (NM : forall i, (i < d)%nat -> nth i (map (fun j => fin_r (wmean c j)) (seq 0 d)) None = fin_r (wmean c i)).
    { intros i Hi. rewrite (nth_indep _ None (fin_r (wmean c 0))) by now rewrite map_length, seq_length.
      rewrite (map_nth (fun j => fin_r (wmean c j))), seq_nth by exact Hi. reflexivity. }
    rewrite !NM by lia. rewrite <- (map_id data) at 2. rewrite zip_with_maps. cbn [fsub fneg fadd fmul fin_r].
    rewrite (map_ext _ (fun x => fin_r (resp cs c x * ((nth j x 0 - wmean c j) * (nth k x 0 - wmean c k))))).
    2:{ intros x. unfold fin_r. do 2 f_equal. ring. }
    rewrite <- (map_map (fun x => resp cs c x * ((nth j x 0 - wmean c j) * (nth k x 0 - wmean c k))) fin_r). unfold fin_r at 1. rewrite fsum_fin.
    change (Some (Fin ?x)) with (fin_r x). rewrite fdiv_pos by now apply mass_pos. reflexivity.
  Qed.
  Definition next : gmm := Gmm (g_features g) (map (fun c => fin_r (mass c / INR (length data))) cs)
    (map (fun c => map (fun j => fin_r (wmean c j)) (seq 0 (g_features g))) cs)
    (map (fun c => map (fun j => map (fun k => fin_r (wcov c j k)) (seq 0 (g_features g))) (seq 0 (g_features g))) cs).
  Lemma em_step_form : em_step g data = Ok next.
  Proof.
    unfold em_step. rewrite e_step_form. cbn [bind]. f_equal. unfold m_step, next.
    assert (HL : 0 < INR (length data)) by (apply lt_0_INR; destruct data; [congruence|cbn; lia]).
    f_equal.
    - rewrite map_map. apply map_ext_in. intros c Hc. rewrite rows_sum. now apply fdiv_pos.
    - rewrite map_map. apply map_ext_in. intros c Hc. now apply m_mean_form.
    - rewrite map_map, zip_with_maps. apply map_ext_in. intros c Hc. rewrite m_mean_form by assumption. now apply m_cov_form.
  Qed.
  Lemma rsum_swap_maps {A B} (f : A -> B -> R) la lb : rsum (map (fun a => rsum (map (f a) lb)) la) = rsum (map (fun b => rsum (map (fun a => f a b) la)) lb).
  Proof.
    induction la as [|a la IH]; cbn [map rsum].
    - induction lb as [|b lb IHb]; cbn [map rsum]; lra.
    - rewrite IH. rewrite <- rsum_map_plus. reflexivity.
  Qed.
  Lemma mass_total : rsum (map mass cs) = INR (length data).
  Proof.
    unfold mass. rewrite rsum_swap_maps. rewrite (map_ext _ (fun _ => 1)) by (intros; apply resp_sum). rewrite rsum_map_const. ring.
  Qed.
  Lemma next_shaped : shaped next.
  Proof.
    assert (HL : 0 < INR (length data)) by (apply lt_0_INR; destruct data; [congruence|cbn; lia]).
    exists (map (fun c => mass c / INR (length data)) cs). unfold next. cbn [g_weights g_means g_covs]. rewrite !map_length, map_map. repeat split; auto.
    - apply Forall_map, Forall_forall. intros c Hc. apply Rdiv_lt_0_compat; [now apply mass_pos|exact HL].
    - rewrite (map_ext _ (fun c => / INR (length data) * mass c)) by (intros; unfold Rdiv; ring). rewrite rsum_map_scal, mass_total. field. lra.
  Qed.
End Mixture.

Lemma e_step_densities g data r : e_step g data = Ok r -> exists fs, densities g = Ok fs.
Proof.
  unfold e_step, weighted_log_probs. fold (densities g). destruct (densities g) as [fs|e]; [eauto|discriminate].
Qed.
Lemma log_likelihood_densities g data r : gmm_log_likelihood g data = Ok r -> exists fs, densities g = Ok fs.
Proof.
  unfold gmm_log_likelihood, weighted_log_probs. fold (densities g). destruct (densities g) as [fs|e]; [eauto|discriminate].
Qed.
Lemma pdf_densities g pts r : gmm_pdf g pts = Ok r -> exists fs, densities g = Ok fs.
Proof. unfold gmm_pdf. fold (densities g). destruct (densities g) as [fs|e]; [eauto|discriminate]. Qed.
Lemma new_shaped start k d g : gmm_new start k d = Ok g -> length start = Z.to_nat k -> shaped g /\ (0 < g_features g)%nat /\ g_features g = Z.to_nat d /\ (1 <= k)%Z.
Proof.
  unfold gmm_new. destruct (k <? 1)%Z eqn:Ek; [discriminate|]. destruct (d <? 1)%Z eqn:Ed; [discriminate|]. apply Z.ltb_ge in Ek, Ed.
  intros H HL. injection H as <-. assert (HK : (1 <= Z.to_nat k)%nat) by lia. assert (0 < INR (Z.to_nat k)) by (apply lt_0_INR; lia).
  split; [|cbn [g_features]; repeat split; lia].
  exists (repeat (1 / INR (Z.to_nat k)) (Z.to_nat k)). cbn [g_weights g_means g_covs]. rewrite !repeat_length, map_length.
  repeat split; auto.
  - now rewrite map_repeat.
  - apply Forall_forall. intros w Hw. apply repeat_spec in Hw. subst. apply Rdiv_lt_0_compat; lra.
  - clear HL HK. assert (G : forall n x, rsum (repeat x n) = INR n * x).
    { induction n as [|n IH]; intros x; [cbn; lra|]. cbn [repeat rsum]. rewrite IH, S_INR. ring. }
    rewrite G. field. lra.
Qed.
Lemma em_step_inv g data g' : shaped g -> data <> [] -> em_step g data = Ok g' -> exists cs, gmix g cs /\ g' = next g cs data.
Proof.
  intros HS HN H. unfold em_step in H. destruct (e_step g data) as [r|] eqn:E; [|discriminate].
  destruct (e_step_densities g data r E) as [fs Hfs]. destruct (mixture_of g fs HS Hfs) as (cs & HX & _). exists cs. split; [exact HX|].
  assert (Ok g' = Ok (next g cs data)); [|congruence]. rewrite <- (em_step_form g cs HX data HN). unfold em_step. now rewrite E.
Qed.
Lemma em_shaped data g0 : data <> [] -> shaped g0 -> forall n g, em n g0 data = Ok g -> shaped g /\ g_features g = g_features g0 /\ g_components g = g_components g0.
Proof.
  intros HN HS n. induction n as [|n IH]; intros g H; cbn [em] in H.
  - injection H as <-. auto.
  - destruct (em n g0 data) as [g1|] eqn:E; [|discriminate]. cbn [bind] in H. destruct (IH g1 eq_refl) as (S1 & F1 & C1).
    destruct (em_step_inv g1 data g S1 HN H) as (cs & HX & ->). split; [now apply next_shaped|]. split; [exact F1|].
    rewrite <- C1. unfold g_components, next. cbn [g_weights]. rewrite map_length. destruct HX as (-> & _). now rewrite map_length.
Qed.
