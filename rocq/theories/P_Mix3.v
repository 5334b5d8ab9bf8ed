(** Lemmas: an EM iteration never lowers the log-likelihood; means stay in the range of the data; covariances. *)
From Verif Require Import Base BaseFacts RBase RFacts M_Data M_CV M_Logit M_Lik M_Est M_Stat M_Mix P_Lik2 P_Lik3 P_Est1 P_Stat1 P_Stat3 P_Stat5 P_Eval1 P_Eval7 P_Mix1 P_Mix2.
Local Open Scope R_scope.

Lemma symmetric_spec d s : symmetric d s = true -> forall i j, (i < d)%nat -> (j < d)%nat -> s i j = s j i.
Proof.
  unfold symmetric. intros H i j Hi Hj. rewrite forallb_forall in H. specialize (H i). rewrite in_seq in H. specialize (H ltac:(lia)).
  rewrite forallb_forall in H. specialize (H j). rewrite in_seq in H. specialize (H ltac:(lia)). destruct (Req_EM_T (s i j) (s j i)); [assumption|discriminate].
Qed.
Lemma mvn_spec d mean s f : mvn d mean s = Ok f -> exists L, lower L /\ pos_diag d L /\
  (forall i j, (i < d)%nat -> (j < d)%nat -> sumn d (fun k => L i k * L j k) = entry s i j) /\
  forall x, f x = log_density d (fun i => fval (nth i mean None)) L (fun i => nth i x 0).
Proof.
  unfold mvn. destruct (_ && _)%bool eqn:E; [|discriminate]. apply andb_prop in E as [E Es]. pose proof (symmetric_spec d _ Es) as Hs.
  destruct (chol d (entry s)) as [L|] eqn:EL; [|discriminate]. intros H. injection H as <-.
  destruct (chol_spec d (entry s) L Hs EL) as (Hl & Hp & HE). exists L. repeat split; auto.
Qed.

(** Jensen: the weighted mean of log ratios is at most the log ratio of the sums. *)
Lemma ln_le_minus_one t : 0 < t -> ln t <= t - 1.
Proof. intros Ht. pose proof (exp_ineq1_le (ln t)) as E. rewrite exp_ln in E by exact Ht. lra. Qed.
Lemma jensen {A} (a b : A -> R) l : l <> [] -> (forall x, In x l -> 0 < a x) -> (forall x, In x l -> 0 < b x) ->
  rsum (map (fun x => a x / rsum (map a l) * (ln (b x) - ln (a x))) l) <= ln (rsum (map b l)) - ln (rsum (map a l)).
Proof.
  intros Hl Ha Hb. set (SA := rsum (map a l)). set (SB := rsum (map b l)).
  assert (PA : 0 < SA) by now apply rsum_pos. assert (PB : 0 < SB) by now apply rsum_pos.
  assert (G : rsum (map (fun x => a x / SA * (ln (b x) - ln (a x)) + a x / SA * (ln SA - ln SB)) l) <= rsum (map (fun x => b x / SB + - (a x / SA)) l)).
  { apply rsum_le_map. intros x Hx. specialize (Ha x Hx). specialize (Hb x Hx).
    assert (Q : 0 < b x / a x * (SA / SB)) by (apply Rmult_lt_0_compat; apply Rdiv_lt_0_compat; assumption).
    pose proof (ln_le_minus_one _ Q) as E. unfold Rdiv in E. rewrite !ln_mult, !ln_Rinv in E; auto using Rinv_0_lt_compat, Rmult_lt_0_compat.
    assert (PX : 0 < a x / SA) by now apply Rdiv_lt_0_compat.
    apply (Rmult_le_compat_l (a x / SA)) in E; [|lra].
    replace (a x / SA * (b x * / a x * (SA * / SB) - 1)) with (b x / SB + - (a x / SA)) in E by (field; lra). lra. }
  rewrite !rsum_map_plus in G.
  assert (E1 : rsum (map (fun x => a x / SA * (ln SA - ln SB)) l) = ln SA - ln SB).
  { rewrite (map_ext _ (fun x => (ln SA - ln SB) / SA * a x)) by (intros; field; lra). rewrite rsum_map_scal. fold SA. field. lra. }
  assert (E2 : rsum (map (fun x => b x / SB) l) = 1).
  { rewrite (map_ext _ (fun x => / SB * b x)) by (intros; unfold Rdiv; ring). rewrite rsum_map_scal. fold SB. field. lra. }
  assert (E3 : rsum (map (fun x => - (a x / SA)) l) = -1).
  { rewrite (map_ext _ (fun x => - / SA * a x)) by (intros; field; lra). rewrite rsum_map_scal. fold SA. field. lra. }
  rewrite E1, E2, E3 in G. lra.
Qed.
Lemma rsum_map_nth {A} (d : A) (f : A -> R) l : rsum (map f l) = sumn (length l) (fun k => f (nth k l d)).
Proof.
  rewrite rsum_nth, map_length. apply sumn_ext. intros k Hk. rewrite (nth_indep _ 0 (f d)) by now rewrite map_length. apply map_nth.
Qed.

Section Ascent.
  Variables (g : gmm) (cs : list comp) (data : list (list R)) (cs' : list comp).
  Hypothesis HX : gmix g cs.
  Hypothesis HN : data <> [].
  Hypothesis HX' : gmix (next g cs data) cs'.
  Let d := g_features g.

  Lemma lengths : length cs' = length cs.
  Proof. destruct HX' as (HW & _). unfold next in HW. cbn [g_weights] in HW. apply (f_equal (@length _)) in HW. now rewrite !map_length in HW. Qed.
  (** Old and new components side by side. *)
  Lemma paired : forall p, In p (combine cs cs') -> In (fst p) cs /\ In (snd p) cs' /\ cw (snd p) = mass cs data (fst p) / INR (length data) /\
    cm (snd p) = map (fun j => fin_r (wmean cs data (fst p) j)) (seq 0 d) /\
    cc (snd p) = map (fun j => map (fun k => fin_r (wcov cs data (fst p) j k)) (seq 0 d)) (seq 0 d).
  Proof.
    intros p Hp. apply In_nth_error in Hp as [i Hi]. 
    destruct HX' as (HW & HM & HC & _). unfold next in HW, HM, HC. cbn [g_weights g_means g_covs] in HW, HM, HC.
    assert (H1 : nth_error cs i = Some (fst p) /\ nth_error cs' i = Some (snd p)).
    { clear - Hi. revert cs cs' Hi. induction i as [|i IH]; intros [|a l] [|b l'] Hi; try discriminate; cbn in Hi |- *; [now injection Hi as <-|now apply IH]. }
    destruct H1 as [H1 H2]. split; [eapply nth_error_In; eauto|]. split; [eapply nth_error_In; eauto|].
    assert (G : forall {B} (f : comp -> B) (h : comp -> B), map f cs = map h cs' -> f (fst p) = h (snd p)).
    { intros B f h E. apply (f_equal (fun l => nth_error l i)) in E. rewrite !nth_error_map, H1, H2 in E. cbn in E. congruence. }
    apply G in HW. apply G in HM. apply G in HC. repeat split; [|now symmetry|now symmetry]. unfold fin_r in HW. congruence.
  Qed.
  Lemma combine_fst_sum (f : comp -> R) : rsum (map (fun p : comp * comp => f (fst p)) (combine cs cs')) = rsum (map f cs).
  Proof.
    rewrite <- (map_map fst f). f_equal. f_equal. generalize lengths. clear. revert cs'. induction cs as [|a l IH]; intros [|b l'] H; try discriminate; [reflexivity|].
    cbn [combine map fst]. f_equal. apply IH. cbn in H. lia.
  Qed.
  Lemma combine_snd_sum (f : comp -> R) : rsum (map (fun p : comp * comp => f (snd p)) (combine cs cs')) = rsum (map f cs').
  Proof.
    rewrite <- (map_map snd f). f_equal. f_equal. generalize lengths. clear. revert cs'. induction cs as [|a l IH]; intros [|b l'] H; try discriminate; [reflexivity|].
    cbn [combine map snd]. f_equal. apply IH. cbn in H. lia.
  Qed.
  Lemma combine_nonempty : combine cs cs' <> [].
  Proof. pose proof lengths. pose proof (cs_nonempty g cs HX). destruct cs, cs'; cbn in *; try congruence. Qed.
  (** One component: the new density explains its share of the data at least as well. *)
  Lemma component_best p : In p (combine cs cs') ->
    rsum (map (fun x => resp cs (fst p) x * cf (fst p) x) data) <= rsum (map (fun x => resp cs (fst p) x * cf (snd p) x) data).
  Proof.
    intros Hp. destruct (paired p Hp) as (H1 & H2 & _ & HM & HC). destruct p as [c c']. cbn [fst snd] in *.
    destruct HX as (_ & _ & _ & HF & _). rewrite Forall_forall in HF. destruct (HF c H1) as [_ Hf].
    destruct HX' as (_ & _ & _ & HF' & _). rewrite Forall_forall in HF'. destruct (HF' c' H2) as [_ Hf'].
    change (g_features (next g cs data)) with d in Hf'. change (g_features g) with d in Hf.
    destruct (mvn_spec _ _ _ _ Hf) as (L & Ll & Lp & _ & Lf). destruct (mvn_spec _ _ _ _ Hf') as (L' & Ll' & Lp' & LE' & Lf').
    assert (PM : 0 < mass cs data c) by (now apply (mass_pos g cs HX)).
    rewrite !(rsum_map_nth []). set (N := length data). set (X := fun n j => nth j (nth n data []) 0). set (r := fun n => resp cs c (nth n data [])).
    assert (EW : sumn N r = mass cs data c) by (unfold mass, r; rewrite (rsum_map_nth []); reflexivity).
    assert (Em : forall j, wmean cs data c j = sumn N (fun n => r n * X n j) / sumn N r).
    { intros j. unfold wmean. rewrite EW, (rsum_map_nth []). reflexivity. }
    rewrite (sumn_ext N _ (fun n => r n * log_density d (fun i => fval (nth i (cm c) None)) L (X n))).
    2:{ intros n Hn. unfold r. now rewrite Lf. }
    rewrite (sumn_ext N (fun n => resp cs c (nth n data []) * cf c' (nth n data [])) (fun n => r n * log_density d (fun j => sumn N (fun n => r n * X n j) / sumn N r) L' (X n))).
    2:{ intros n Hn. unfold r at 1. f_equal. rewrite Lf'. unfold log_density. 
        assert (EX : forall i, (i < d)%nat -> fval (nth i (cm c') None) = sumn N (fun n => r n * X n i) / sumn N r).
        { intros i Hi. rewrite HM. rewrite (nth_indep _ None (fin_r (wmean cs data c 0))) by now rewrite map_length, seq_length.
          rewrite (map_nth (fun j => fin_r (wmean cs data c j))), seq_nth by exact Hi. cbn [fval fin_r Nat.add]. apply Em. }
        assert (ES : forall k i, (i < k)%nat -> (k <= d)%nat -> forward_solve k L' (fun i => nth i (nth n data []) 0 - fval (nth i (cm c') None)) i =
                    forward_solve k L' (fun i => X n i - sumn N (fun n => r n * X n i) / sumn N r) i).
        { induction k as [|k IH]; intros i Hi Hk; [lia|]. cbn [forward_solve]. destruct (i =? k)%nat eqn:Eik.
          - rewrite EX by lia. do 2 f_equal. apply sumn_ext. intros a Ha. rewrite IH by lia. reflexivity.
          - apply Nat.eqb_neq in Eik. apply IH; lia. }
        do 4 f_equal. apply sumn_ext. intros i Hi. now rewrite ES. }
    apply weighted_estimate_best; auto.
    - rewrite EW. exact PM.
    - intros i j Hi Hj. rewrite LE' by assumption. unfold entry. rewrite HC.
      rewrite (nth_indep _ [] (map (fun k => fin_r (wcov cs data c 0 k)) (seq 0 d))) by now rewrite map_length, seq_length.
      rewrite (map_nth (fun j => map (fun k => fin_r (wcov cs data c j k)) (seq 0 d))), seq_nth by exact Hi.
      rewrite (nth_indep _ None (fin_r (wcov cs data c (0 + i) 0))) by now rewrite map_length, seq_length.
      rewrite (map_nth (fun k => fin_r (wcov cs data c (0 + i) k))), seq_nth by exact Hj. cbn [fval fin_r Nat.add].
      unfold wcov. rewrite (rsum_map_nth []), !Em, EW. reflexivity.
  Qed.
  Theorem ascent : rsum (map (fun x => ln (total cs x)) data) <= rsum (map (fun x => ln (total cs' x)) data).
  Proof.
    assert (PN : 0 < INR (length data)) by (apply lt_0_INR; destruct data; [congruence|cbn; lia]).
    assert (J : forall x, rsum (map (fun p : comp * comp => resp cs (fst p) x * (ln (part (snd p) x) - ln (part (fst p) x))) (combine cs cs')) <= ln (total cs' x) - ln (total cs x)).
    { intros x. pose proof (jensen (fun p : comp * comp => part (fst p) x) (fun p => part (snd p) x) (combine cs cs') combine_nonempty) as J. cbv beta in J.
      rewrite (combine_fst_sum (fun c => part c x)), (combine_snd_sum (fun c => part c x)) in J. apply J.
      - intros p Hp. destruct (paired p Hp) as (H1 & _). now apply (part_pos g cs HX).
      - intros p Hp. destruct (paired p Hp) as (_ & H2 & _). now apply (part_pos _ cs' HX'). }
    assert (T : 0 <= rsum (map (fun x => rsum (map (fun p : comp * comp => resp cs (fst p) x * (ln (part (snd p) x) - ln (part (fst p) x))) (combine cs cs'))) data)).
    { rewrite rsum_swap_maps.
      apply Rle_trans with (rsum (map (fun p : comp * comp => mass cs data (fst p) * (ln (cw (snd p)) - ln (cw (fst p)))) (combine cs cs'))).
      - (* the weights *)
        pose proof (jensen (fun p : comp * comp => cw (snd p)) (fun p => cw (fst p)) (combine cs cs') combine_nonempty) as J2. cbv beta in J2.
        rewrite (combine_fst_sum cw), (combine_snd_sum cw) in J2. destruct HX as (_ & _ & _ & _ & HS & _). destruct HX' as (_ & _ & _ & _ & HS' & _).
        rewrite HS, HS', ln_1 in J2.
        assert (Q : rsum (map (fun x : comp * comp => cw (snd x) / 1 * (ln (cw (fst x)) - ln (cw (snd x)))) (combine cs cs')) <= 0).
        { replace 0 with (0 - 0) by ring. apply J2.
          - intros p Hp. destruct (paired p Hp) as (_ & H2 & _). now apply (cw_pos _ cs' HX').
          - intros p Hp. destruct (paired p Hp) as (H1 & _). now apply (cw_pos g cs HX). }
        rewrite (map_ext_in _ (fun p : comp * comp => (- INR (length data)) * (cw (snd p) / 1 * (ln (cw (fst p)) - ln (cw (snd p)))))).
        2:{ intros p Hp. destruct (paired p Hp) as (_ & _ & E & _). rewrite E. field. lra. }
        rewrite rsum_map_scal. nra.
      - apply rsum_le_map. intros p Hp. pose proof (component_best p Hp) as B. destruct (paired p Hp) as (H1 & H2 & _).
        rewrite (map_ext _ (fun x => (ln (cw (snd p)) - ln (cw (fst p))) * resp cs (fst p) x + (resp cs (fst p) x * cf (snd p) x + (-1) * (resp cs (fst p) x * cf (fst p) x)))).
        2:{ intros x. unfold part. rewrite !ln_mult, !ln_exp; auto using exp_pos. ring. now apply (cw_pos g cs HX). now apply (cw_pos _ cs' HX'). }
        rewrite !rsum_map_plus, !rsum_map_scal. fold (mass cs data (fst p)). lra. }
    assert (G : rsum (map (fun x => rsum (map (fun p : comp * comp => resp cs (fst p) x * (ln (part (snd p) x) - ln (part (fst p) x))) (combine cs cs'))) data) <= rsum (map (fun x => ln (total cs' x) + (-1) * ln (total cs x)) data)).
    { apply rsum_le_map. intros x _. specialize (J x). lra. }
    rewrite rsum_map_plus, rsum_map_scal in G. lra.
  Qed.
End Ascent.

Lemma ok_inj {A} (x y : A) : Ok x = Ok y -> x = y.
Proof. congruence. Qed.
Lemma em_ascent data g0 n m g1 g2 a b : data <> [] -> shaped g0 -> (n <= m)%nat -> em n g0 data = Ok g1 -> em m g0 data = Ok g2 ->
  gmm_log_likelihood g1 data = Ok a -> gmm_log_likelihood g2 data = Ok b -> exists x y, a = fin_r x /\ b = fin_r y /\ x <= y.
Proof.
  intros HN HS Hnm H1 H2 HA. revert g2 H2 b. induction m as [|m IH]; intros g2 H2 b HB.
  - replace n with O in H1 by lia. assert (g1 = g2) by congruence. subst g2.
    destruct (em_shaped data g0 HN HS _ _ H1) as (S1 & _). destruct (log_likelihood_densities _ _ _ HA) as [fs Hfs].
    destruct (mixture_of g1 fs S1 Hfs) as (cs & HX & _). rewrite (log_likelihood_form g1 cs HX) in HA, HB. apply ok_inj in HA, HB. subst a b. eexists _, _. split; [reflexivity|]. split; [reflexivity|]. lra.
  - destruct (Nat.eq_dec n (S m)) as [->|Hne].
    + assert (g1 = g2) by congruence. subst g2.
      destruct (em_shaped data g0 HN HS _ _ H1) as (S1 & _). destruct (log_likelihood_densities _ _ _ HA) as [fs Hfs].
      destruct (mixture_of g1 fs S1 Hfs) as (cs & HX & _). rewrite (log_likelihood_form g1 cs HX) in HA, HB. apply ok_inj in HA, HB. subst a b. eexists _, _. split; [reflexivity|]. split; [reflexivity|]. lra.
    + cbn [em] in H2. destruct (em m g0 data) as [gm|] eqn:Em; [|discriminate]. cbn [bind] in H2.
      destruct (em_shaped data g0 HN HS _ _ Em) as (Sm & _). destruct (em_step_inv gm data g2 Sm HN H2) as (cs & HX & ->).
      destruct (log_likelihood_densities _ _ _ HB) as [fs Hfs]. destruct (mixture_of _ fs (next_shaped gm cs HX data HN) Hfs) as (cs' & HX' & _).
      destruct (IH ltac:(lia) gm eq_refl _ (log_likelihood_form gm cs HX data)) as (x & y & -> & Ey & Hxy).
      rewrite (log_likelihood_form _ cs' HX') in HB. apply ok_inj in HB. subst b. exists x. eexists. split; [reflexivity|]. split; [reflexivity|].
      pose proof (ascent gm cs data cs' HX HN HX') as AS. unfold fin_r in Ey. assert (rsum (map (fun x => ln (total cs x)) data) = y) by congruence. lra.
Qed.

(** Means and covariances of a weighted sample. *)
Section Averages.
  Variables (g : gmm) (cs : list comp) (data : list (list R)).
  Hypothesis HX : gmix g cs.
  Hypothesis HN : data <> [].
  Lemma wmean_bounds c j lo hi : In c cs -> (forall x, In x data -> lo <= nth j x 0 <= hi) -> lo <= wmean cs data c j <= hi.
  Proof.
    intros Hc H. pose proof (mass_pos g cs HX data HN c Hc) as P. unfold wmean.
    assert (A : lo * mass cs data c <= rsum (map (fun x => resp cs c x * nth j x 0) data)).
    { unfold mass. rewrite <- rsum_map_scal. apply rsum_le_map. intros x Hx. pose proof (resp_pos g cs HX c x Hc). specialize (H x Hx). nra. }
    assert (B : rsum (map (fun x => resp cs c x * nth j x 0) data) <= hi * mass cs data c).
    { unfold mass. rewrite <- rsum_map_scal. apply rsum_le_map. intros x Hx. pose proof (resp_pos g cs HX c x Hc). specialize (H x Hx). nra. }
    split; apply (Rmult_le_reg_r (mass cs data c)); try assumption; unfold Rdiv; rewrite Rmult_assoc, Rinv_l, Rmult_1_r by lra; assumption.
  Qed.
  Lemma wcov_symmetric c j k : wcov cs data c j k = wcov cs data c k j.
  Proof. unfold wcov. f_equal. f_equal. apply map_ext. intros; ring. Qed.
  Lemma wcov_psd c d v : In c cs -> 0 <= sumn d (fun j => sumn d (fun k => v j * (wcov cs data c j k * v k))).
  Proof.
    intros Hc. pose proof (mass_pos g cs HX data HN c Hc) as P.
    replace (sumn d (fun j => sumn d (fun k => v j * (wcov cs data c j k * v k)))) with
      (rsum (map (fun x => resp cs c x * (sumn d (fun j => v j * (nth j x 0 - wmean cs data c j))) ^ 2) data) / mass cs data c).
    - apply Rmult_le_pos; [|apply Rlt_le, Rinv_0_lt_compat; lra].
      replace 0 with (rsum (map (fun _ : list R => 0) data)) by (rewrite rsum_map_const; ring).
      apply rsum_le_map. intros x Hx. pose proof (resp_pos g cs HX c x Hc). apply Rmult_le_pos; [lra|apply pow2_ge_0].
    - rewrite (rsum_map_nth []).
      rewrite (sumn_ext d _ (fun j => sumn (length data) (fun n => sumn d (fun k => resp cs c (nth n data []) * ((v j * (nth j (nth n data []) 0 - wmean cs data c j)) * (v k * (nth k (nth n data []) 0 - wmean cs data c k))))) / mass cs data c)).
      + rewrite sumn_div. f_equal. rewrite sumn_swap. apply sumn_ext. intros n Hn. set (x := nth n data []).
        transitivity (sumn d (fun j => resp cs c x * ((v j * (nth j x 0 - wmean cs data c j)) * sumn d (fun k => v k * (nth k x 0 - wmean cs data c k))))).
        2:{ apply sumn_ext. intros j Hj. now rewrite sumn_scal, sumn_scal. }
        rewrite sumn_scal, sumn_scal_r. ring.
      + intros j Hj. rewrite sumn_swap, <- sumn_div. apply sumn_ext. intros k Hk. unfold wcov. rewrite (rsum_map_nth []).
        set (F := fun n => resp cs c (nth n data []) * ((nth j (nth n data []) 0 - wmean cs data c j) * (nth k (nth n data []) 0 - wmean cs data c k))).
        assert (EF : sumn (length data) (fun n => resp cs c (nth n data []) * (v j * (nth j (nth n data []) 0 - wmean cs data c j) * (v k * (nth k (nth n data []) 0 - wmean cs data c k)))) = v j * v k * sumn (length data) F).
        { rewrite <- sumn_scal. apply sumn_ext. intros; unfold F; ring. }
        rewrite EF. unfold Rdiv. ring.
  Qed.
End Averages.
