(** The models with some items scored in the other direction. *)
From Verif Require Import Base BaseFacts RBase RFacts M_Data M_Logit M_Lik M_Est P_Data P_Logit P_Logit3 P_Lik5 P_Nest1 P_Nest2 P_Est2 P_Info2 P_Item3 P_Sym1 P_Sym2 P_Sym3 P_Mono8 S_Logit S_Lik S_Est S_Sym S_Rev.
Import List.
Local Open Scope R_scope.

Lemma recoded_length flip cats row : length (recoded flip cats row) = length row.
Proof. apply BaseFacts.mapi_length. Qed.
Lemma recode_cats flip x : cats_of (recode flip x) = cats_of x.
Proof. destruct x; reflexivity. Qed.
Lemma recode_latents flip x : latents (recode flip x) = latents x.
Proof. destruct x; reflexivity. Qed.
Lemma inner K j : (1 <= j)%nat -> (j < K)%nat -> (1 <=? j)%nat && (j <? K)%nat = true.
Proof. intros. apply andb_true_iff. split; [apply Nat.leb_le|apply Nat.ltb_lt]; lia. Qed.
Lemma recode_well_formed flip x : reversible x -> well_formed x -> well_formed (recode flip x).
Proof.
  destruct x as [m|m|m|m|m|m]; cbn [reversible well_formed recode]; intros HV H; try contradiction.
  - destruct H as ((H1 & H2 & H3 & H4) & H5). unfold tpl_items in *. split; [|exact H5]. repeat split; cbn [tpl_lv tpl_free tpl_w tpl_b]; auto; [now apply stored_slopes_length|now rewrite P_Sym2.mapi_length].
  - destruct H as ((H1 & H2 & H3 & H4 & H5 & H6) & H7). unfold p_items in *. split; [|exact H7]. unfold poly_wf, p_items. cbn [p_cats p_lv p_free p_w p_b]. repeat split; auto; [now apply stored_slopes_length|apply stored_intercepts_length].
  - destruct H as ((H1 & H2 & H3 & H4 & H5 & H6) & H7 & H8). unfold p_items in *. split; [unfold poly_wf, p_items; cbn [p_cats p_lv p_free p_w p_b]; repeat split; auto; [now apply stored_slopes_length|apply stored_intercepts_length]|]. split; [exact H7|].
    intros i K j Hi Hj HK. cbn [p_cats p_b] in *. assert (Hi' : (i < length (p_cats m))%nat) by (apply nth_error_Some; congruence). assert (E : nth i (p_cats m) O = K) by (now apply nth_error_nth).
    rewrite !stored_intercept by auto. rewrite E. rewrite !inner by lia. destruct (flipped flip i); [|now apply (H8 i K j)].
    pose proof (H8 i K (K - S j)%nat Hi ltac:(lia) ltac:(lia)) as Q. replace (S (K - S j)) with (K - j)%nat in Q by lia. lra.
  - destruct H as ((H1 & H2 & H3 & H4 & H5 & H6) & H7). split; [|exact H7].
    repeat split; cbn [nrm_lv nrm_cats nrm_rel nrm_w nrm_b]; auto; [|apply stored_intercepts_length].
    rewrite ctrue_nrm_free by (cbn [nrm_lv nrm_cats nrm_rel]; auto). cbn [nrm_cats nrm_rel]. now apply stored_category_slopes_length.
Qed.
Lemma logistic_opposite u : logistic (- u) = 1 - logistic u.
Proof. rewrite logistic_compl. unfold logistic. now rewrite Ropp_involutive. Qed.
Lemma signed_predictor lv free w (sg : nat -> R) i t : Forall (fun r => length r = lv) free -> (i < length free)%nat ->
  predictor lv (slope free (store_slopes lv free (fun i d => sg i * slope free w i d)) i) t = sg i * predictor lv (slope free w i) t.
Proof.
  intros HF Hi. unfold predictor. rewrite <- sumn_scal. apply sumn_ext. intros d Hd. rewrite stored_slope by auto.
  destruct (nth d (nth i free []) false) eqn:E; [ring|]. rewrite fixed_slope by exact E. ring.
Qed.
Lemma cp_reversed K z k : (k < K)%nat -> category_probability K (fun j => z (K - 1 - j)%nat) (K - 1 - k) = category_probability K z k.
Proof.
  intro Hk. unfold category_probability. replace (K - 1 - (K - 1 - k))%nat with k by lia. f_equal. symmetry. apply (sumn_rev K (fun j => exp (z j))).
Qed.
Lemma cp_shift K z z' c k : (k < K)%nat -> (forall j, (j < K)%nat -> z' j = z j + c) -> category_probability K z' k = category_probability K z k.
Proof.
  intros Hk H. unfold category_probability. rewrite (H k Hk), exp_plus. rewrite (sumn_ext K _ (fun j => exp c * exp (z j))) by (intros j Hj; rewrite (H j Hj), exp_plus; ring). rewrite sumn_scal.
  assert (0 < sumn K (fun j => exp (z j))) by (apply RFacts.sumn_pos; [lia|intros; apply exp_pos]). pose proof (exp_pos c). field. lra.
Qed.
Lemma geq_reversed K z z' k : (k <= K)%nat -> (1 <= K)%nat -> (forall j, (1 <= j < K)%nat -> z' j = - z (K - j)%nat) -> geq_probability K z' (K - k) = 1 - geq_probability K z k.
Proof.
  intros Hk HK H. unfold geq_probability. destruct (Nat.eqb_spec k 0) as [->|Hk0].
  - destruct (Nat.eqb_spec (K - 0) 0); [lia|]. destruct (Nat.ltb_spec (K - 0) K); [lia|]. ring.
  - destruct (Nat.eq_dec k K) as [->|Hn].
    + rewrite Nat.sub_diag, Nat.ltb_irrefl. cbn. ring.
    + destruct (Nat.eqb_spec (K - k) 0); [lia|]. destruct (Nat.ltb_spec (K - k) K); [|lia]. destruct (Nat.ltb_spec k K); [|lia].
      rewrite H by lia. replace (K - (K - k))%nat with k by lia. apply logistic_opposite.
Qed.
Lemma nrm_slopes_sum m i d : (1 <= nth i (nrm_cats m) O)%nat -> sumn (nth i (nrm_cats m) O) (fun k => nrm_slope m i k d) = 0.
Proof.
  intro HK. replace (nth i (nrm_cats m) O) with (S (nth i (nrm_cats m) O - 1)) at 1 by lia. rewrite sumn_S_first. unfold nrm_slope at 1. cbn [Nat.eqb].
  apply Rplus_opp_l.
Qed.
Lemma nrm_intercepts_sum m i : (1 <= nth i (nrm_cats m) O)%nat -> sumn (nth i (nrm_cats m) O) (fun k => nrm_intercept m i k) = 0.
Proof.
  intro HK. replace (nth i (nrm_cats m) O) with (S (nth i (nrm_cats m) O - 1)) at 1 by lia. rewrite sumn_S_first. unfold nrm_intercept at 1. cbn [Nat.eqb].
  apply Rplus_opp_l.
Qed.
Lemma others_sum K f g : (1 <= K)%nat -> sumn K f = 0 -> (forall j, (1 <= j < K)%nat -> g j = f j) -> - sumn (K - 1) (fun j => g (S j)) = f O.
Proof.
  intros HK Hs H. replace K with (S (K - 1)) in Hs by lia. rewrite sumn_S_first in Hs. rewrite (sumn_ext _ _ (fun j => f (S j))) by (intros; apply H; lia). lra.
Qed.
Lemma sum_other_end flip cats i f : sumn (nth i cats O) (fun k => f (other_end flip cats i k)) = sumn (nth i cats O) f.
Proof.
  unfold other_end. destruct (flipped flip i); [|reflexivity]. symmetry. apply sumn_rev.
Qed.
Lemma other_end_below flip cats i k : (k < nth i cats O)%nat -> (other_end flip cats i k < nth i cats O)%nat.
Proof. unfold other_end. destruct (flipped flip i); lia. Qed.
Lemma other_end_twice flip cats i k : (k < nth i cats O)%nat -> other_end flip cats i (other_end flip cats i k) = k.
Proof. unfold other_end. destruct (flipped flip i); lia. Qed.
Lemma nrm_slope_fixed m i k d : nth d (nth i (nrm_rel m) []) false = false -> nrm_slope m i k d = 0.
Proof.
  intro E. unfold nrm_slope. destruct (k =? 0)%nat; [|now apply fixed_category_slope]. rewrite (sumn_ext _ _ (fun _ => 0)) by (intros; now apply fixed_category_slope). rewrite sumn_const. ring.
Qed.
Lemma recode_chances flip x t i k : reversible x -> well_formed x -> (i < length (cats_of x))%nat -> (k < nth i (cats_of x) O)%nat ->
  chances (recode flip x) t i (other_end flip (cats_of x) i k) = chances x t i k.
Proof.
  intros HV H Hi Hk. destruct x as [m|m|m|m|m|m]; cbn [reversible well_formed cats_of recode chances] in *; try contradiction; try rewrite repeat_length in *.
  - destruct H as ((H1 & H2 & H3 & H4) & H5). unfold tpl_items in *. unfold tpl_p. cbn [tpl_lv tpl_free tpl_w tpl_b].
    rewrite mapi_at by lia. rewrite (signed_predictor _ _ _ (fun i => if flipped flip i then -1 else 1)) by auto. unfold other_end. rewrite (nth_error_nth _ _ O (nth_error_repeat_lt 2%nat _ i Hi)) in *.
    destruct (flipped flip i).
    + match goal with |- context [logistic ?u] => match goal with |- _ = (if _ then logistic ?v else _) => replace u with (- v) by ring; pose proof (logistic_opposite v) as Q end end. destruct k as [|[|k]]; [| |lia]; cbn; lra.
    + match goal with |- context [logistic ?u] => match goal with |- _ = (if _ then logistic ?v else _) => replace u with v by ring end end. reflexivity.
  - destruct H as ((H1 & H2 & H3 & H4 & H5 & H6) & H7). unfold p_items in *. unfold gpc_p. cbn [p_cats p_lv p_free p_w p_b].
    set (K := nth i (p_cats m) O) in *. set (p := predictor (p_lv m) (slope (p_free m) (p_w m) i) t).
    assert (Q : forall j, (j < K)%nat -> intercept (p_cats m) (store_intercepts (p_cats m) (fun i k => intercept (p_cats m) (p_b m) i (other_end flip (p_cats m) i k) - intercept (p_cats m) (p_b m) i (other_end flip (p_cats m) i O))) i j =
      intercept (p_cats m) (p_b m) i (other_end flip (p_cats m) i j) - intercept (p_cats m) (p_b m) i (other_end flip (p_cats m) i O)).
    { intros j Hj. rewrite stored_intercept by auto. fold K. destruct (Nat.eq_dec j 0) as [->|Hn]; [cbn; ring|]. now rewrite inner by lia. }
    revert Q. generalize (store_intercepts (p_cats m) (fun i k => intercept (p_cats m) (p_b m) i (other_end flip (p_cats m) i k) - intercept (p_cats m) (p_b m) i (other_end flip (p_cats m) i O))). intros B Q.
    unfold other_end in *. destruct (flipped flip i) eqn:EF.
    + rewrite <- (cp_reversed K _ k Hk). fold K in Q.
      apply (cp_shift K _ _ (- (INR (K - 1) * p + intercept (p_cats m) (p_b m) i (K - 1)%nat))); [lia|]. intros j Hj. rewrite (signed_predictor _ _ _ (fun i => if flipped flip i then -1 else 1)) by (auto; lia). rewrite EF, Q by exact Hj. fold p.
      rewrite (minus_INR (K - 1) j) by lia. rewrite Nat.sub_0_r. ring.
    + apply cp_ext; [exact Hk|]. intros j Hj. rewrite (signed_predictor _ _ _ (fun i => if flipped flip i then -1 else 1)) by (auto; lia). rewrite EF, Q by exact Hj. fold p. unfold intercept at 2. cbn [Nat.leb andb]. ring.
  - destruct H as ((H1 & H2 & H3 & H4 & H5 & H6) & H7). unfold p_items in *. unfold grm_p. cbn [p_cats p_lv p_free p_w p_b].
    set (K := nth i (p_cats m) O) in *. set (p := predictor (p_lv m) (slope (p_free m) (p_w m) i) t).
    rewrite (signed_predictor _ _ _ (fun i => if flipped flip i then -1 else 1)) by (auto; lia). fold p.
    match goal with |- geq_probability K ?f _ - _ = _ => set (z' := f) end. set (z := fun k => p + intercept (p_cats m) (p_b m) i k).
    unfold other_end. fold K. destruct (flipped flip i) eqn:EF.
    + assert (Q : forall j, (1 <= j < K)%nat -> z' j = - z (K - j)%nat).
      { intros j Hj. unfold z', z. rewrite stored_intercept by auto. fold K. rewrite inner by lia. rewrite EF. ring. }
      replace (K - 1 - k)%nat with (K - S k)%nat by lia. replace (S (K - S k)) with (K - k)%nat by lia. rewrite !(geq_reversed K z z') by (auto; lia). ring.
    + assert (Q : forall j, geq_probability K z' j = geq_probability K z j).
      { intro j. unfold geq_probability. destruct (Nat.eqb_spec j 0); [reflexivity|]. destruct (Nat.ltb_spec j K); [|reflexivity]. f_equal. unfold z', z. rewrite stored_intercept by auto. fold K. rewrite inner by lia. rewrite EF. ring. }
      now rewrite !Q.
  - destruct H as ((H1 & H2 & H3 & H4 & H5 & H6) & H7). unfold nrm_p. cbn [nrm_cats nrm_lv].
    match goal with |- context [nrm_slope ?mm] => set (m' := mm) end. set (K := nth i (nrm_cats m) O) in *.
    assert (QS : forall j d, (j < K)%nat -> nrm_slope m' i j d = nrm_slope m i (other_end flip (nrm_cats m) i j) d).
    { intros j d Hj. assert (F : forall j, (1 <= j < K)%nat -> nrm_free_slope m' i j d = nrm_slope m i (other_end flip (nrm_cats m) i j) d).
      { intros j' Hj'. unfold m'. rewrite stored_category_slope by auto. destruct (nth d (nth i (nrm_rel m) []) false) eqn:E; [reflexivity|]. symmetry. now apply nrm_slope_fixed. }
      unfold nrm_slope at 1. change (nrm_cats m') with (nrm_cats m). fold K. destruct (Nat.eqb_spec j 0) as [->|Hn]; [|apply F; lia].
      apply (others_sum K (fun j => nrm_slope m i (other_end flip (nrm_cats m) i j) d) (fun j => nrm_free_slope m' i j d)); [lia| |exact F].
      unfold K. rewrite (sum_other_end flip (nrm_cats m) i (fun k => nrm_slope m i k d)). apply nrm_slopes_sum. fold K. lia. }
    assert (QI : forall j, (j < K)%nat -> nrm_intercept m' i j = nrm_intercept m i (other_end flip (nrm_cats m) i j)).
    { intros j Hj. assert (F : forall j, (1 <= j < K)%nat -> intercept (nrm_cats m') (nrm_b m') i j = nrm_intercept m i (other_end flip (nrm_cats m) i j)).
      { intros j' Hj'. cbn [m' nrm_cats nrm_b]. rewrite stored_intercept by auto. fold K. now rewrite inner by lia. }
      unfold nrm_intercept at 1. change (nth i (nrm_cats m') O) with K. destruct (Nat.eqb_spec j 0) as [->|Hn]; [|apply F; lia].
      apply (others_sum K (fun j => nrm_intercept m i (other_end flip (nrm_cats m) i j)) (fun j => intercept (nrm_cats m') (nrm_b m') i j)); [lia| |exact F].
      unfold K. rewrite (sum_other_end flip (nrm_cats m) i (fun k => nrm_intercept m i k)). apply nrm_intercepts_sum. fold K. lia. }
    set (z := fun k => predictor (nrm_lv m) (nrm_slope m i k) t + nrm_intercept m i k).
    rewrite (cp_ext K _ (fun j => z (other_end flip (nrm_cats m) i j))); [|now apply other_end_below|].
    + unfold other_end. fold K. destruct (flipped flip i); [apply (cp_reversed K z k Hk)|reflexivity].
    + intros j Hj. unfold z. rewrite QI by exact Hj. f_equal. apply predictor_ext. intros d Hd. now apply QS.
Qed.

(** ** Data *)
Lemma recoded_answer flip cats row i : legal_row cats row -> (i < length cats)%nat -> answer (nth i (recoded flip cats row) None) = option_map (other_end flip cats i) (answer (nth i row None)).
Proof.
  intros [HL HR] Hi. assert (E : nth i (recoded flip cats row) None = match answer (nth i row None) with Some k => if flipped flip i then Some (Z.of_nat (other_end flip cats i k)) else nth i row None | None => nth i row None end).
  { apply nth_error_nth. unfold recoded. rewrite nth_error_mapi, (nth_error_nth_lt row i None) by lia. reflexivity. }
  rewrite E. destruct (answer (nth i row None)) as [k|] eqn:EA; cbn [option_map]; [|exact EA]. destruct (flipped flip i) eqn:EF.
  - unfold answer. destruct (Z.eqb_spec (Z.of_nat (other_end flip cats i k)) (-1)); [lia|]. now rewrite Nat2Z.id.
  - rewrite EA. unfold other_end. now rewrite EF.
Qed.
Lemma recoded_legal flip cats row : legal_row cats row -> legal_row cats (recoded flip cats row).
Proof.
  intros HR. pose proof HR as [HL HC]. split; [now rewrite recoded_length|]. intros i c Hc.
  assert (Hi : (i < length row)%nat) by (rewrite <- (recoded_length flip cats); apply nth_error_Some; congruence).
  unfold recoded in Hc. rewrite nth_error_mapi, (nth_error_nth_lt row i None Hi) in Hc. cbn [option_map] in Hc. injection Hc as <-.
  pose proof (HC i _ (nth_error_nth_lt row i None Hi)) as Q. destruct (answer (nth i row None)) as [k|] eqn:E; [|exact Q]. destruct (flipped flip i); [|exact Q].
  right; right. exists (other_end flip cats i k). split; [reflexivity|]. apply other_end_below. apply (legal_factor cats row); auto. lia.
Qed.
Lemma recoded_likelihood flip x t row : reversible x -> well_formed x -> legal_row (cats_of x) row -> likelihood (chances (recode flip x)) t (recoded flip (cats_of x) row) = likelihood (chances x) t row.
Proof.
  intros HV H HR. pose proof (proj1 HR) as HL. rewrite (likelihood_seq _ _ (recoded flip (cats_of x) row) (length (cats_of x))) by (now rewrite recoded_length). rewrite (likelihood_seq _ _ row _ HL).
  f_equal. apply map_ext_in. intros i Hi. apply in_seq in Hi. unfold factor. rewrite recoded_answer by (auto; lia). destruct (answer (nth i row None)) as [k|] eqn:E; cbn [option_map]; [|reflexivity].
  apply recode_chances; auto; [lia|]. apply (legal_factor _ row); auto. lia.
Qed.
Lemma recoded_twice flip cats row : legal_row cats row -> recoded flip cats (recoded flip cats row) = row.
Proof.
  intros HR. pose proof (proj1 HR) as HL. apply nth_error_ext. intro i. unfold recoded. rewrite !nth_error_mapi. destruct (nth_error row i) as [c|] eqn:Ec; [|reflexivity]. cbn [option_map]. f_equal.
  assert (Hi : (i < length cats)%nat) by (rewrite <- HL; apply nth_error_Some; congruence).
  destruct (answer c) as [k|] eqn:E; [|now rewrite E]. destruct (flipped flip i) eqn:EF; [|now rewrite E].
  assert (En : nth i row None = c) by (now apply nth_error_nth). pose proof (legal_factor cats row i k HR Hi) as Q. rewrite En in Q. specialize (Q E).
  assert (EB : answer (Some (Z.of_nat (other_end flip cats i k))) = Some (other_end flip cats i k)) by (unfold answer; destruct (Z.eqb_spec (Z.of_nat (other_end flip cats i k)) (-1)); [lia|now rewrite Nat2Z.id]).
  rewrite EB, other_end_twice by exact Q. destruct (proj2 HR i c Ec) as [->|[->|(j & -> & Hj)]]; cbn in E; try discriminate.
  unfold answer in E. destruct (Z.eqb_spec (Z.of_nat j) (-1)); [lia|]. injection E as <-. now rewrite Nat2Z.id.
Qed.

(** ** The one parameter model, where everything is turned round *)
Lemma opl_turned m t i k : (i < length (opl_b m))%nat -> (k < 2)%nat -> opl_p {| opl_items := opl_items m; opl_b := map Ropp (opl_b m) |} [- t] i (1 - k) = opl_p m [t] i k.
Proof.
  intros Hi Hk. unfold opl_p. cbn [opl_b nth]. rewrite (nth_indep _ 0 (- 0)) by (rewrite map_length; exact Hi). rewrite (map_nth Ropp).
  replace (- t + - nth i (opl_b m) 0) with (- (t + nth i (opl_b m) 0)) by ring. pose proof (logistic_opposite (t + nth i (opl_b m) 0)) as Q. destruct k as [|[|k]]; [| |lia]; cbn; lra.
Qed.

(** ** The one and three parameter models, where a single item cannot be turned round *)
Lemma logistic_small e : 0 < e -> exists u, logistic u < e.
Proof.
  intro He. exists (- (/ e)). unfold logistic. assert (0 < / e) by (now apply Rinv_0_lt_compat). pose proof (exp_ineq1 (/ e) ltac:(lra)) as Q. rewrite Ropp_involutive.
  apply Rmult_lt_reg_r with (1 + exp (/ e)); [lra|]. rewrite Rinv_l by lra. assert (e * / e = 1) by (apply Rinv_r; lra). nra.
Qed.
Lemma opl_not_turned m m' i j : ~ forall t, opl_p m' [t] j 1 = opl_p m [t] i 0.
Proof.
  intro H. pose proof (H 0) as H0. pose proof (H 1) as H1. unfold opl_p in H0, H1. cbn [Nat.eqb nth] in H0, H1.
  pose proof (logistic_incr (0 + nth j (opl_b m') 0) (1 + nth j (opl_b m') 0) ltac:(lra)). pose proof (logistic_incr (0 + nth i (opl_b m) 0) (1 + nth i (opl_b m) 0) ltac:(lra)). lra.
Qed.
Definition only (lv d : nat) (z : R) : list R := map (fun e => if (e =? d)%nat then z else 0) (seq 0 lv).
Lemma only_predictor lv a d z : (d < lv)%nat -> predictor lv a (only lv d z) = a d * z.
Proof.
  intro Hd. unfold predictor, only. rewrite (sumn_ext _ _ (fun e => if (e =? d)%nat then a d * z else 0)).
  - rewrite (sumn_single lv d); [now rewrite Nat.eqb_refl|exact Hd|]. intros e He Hn. destruct (Nat.eqb_spec e d); congruence.
  - intros e He. rewrite (nth_map_seq _ lv e) by exact He. destruct (Nat.eqb_spec e d) as [->|_]; ring.
Qed.
Lemma thpl_not_turned m m' i j d : thpl_lv m' = thpl_lv m -> (d < thpl_lv m)%nat -> slope (thpl_free m) (thpl_w m) i d <> 0 ->
  ~ forall t, length t = thpl_lv m -> thpl_p m' t j 1 = thpl_p m t i 0.
Proof.
  intros EL Hd Ha H. destruct (logistic_bounds (nth j (thpl_g m') 0)) as [G0 G1]. destruct (logistic_small _ G0) as (u & Hu).
  set (b := nth i (thpl_b m) 0). set (a := slope (thpl_free m) (thpl_w m) i d) in *. pose proof (H (only (thpl_lv m) d ((- u - b) / a)) ltac:(unfold only; now rewrite map_length, seq_length)) as Q.
  unfold thpl_p in Q. cbn [Nat.eqb] in Q. rewrite (only_predictor _ (slope (thpl_free m) (thpl_w m) i)) in Q by exact Hd. fold b a in Q.
  replace (a * ((- u - b) / a) + b) with (- u) in Q by (field; exact Ha). rewrite logistic_opposite in Q.
  destruct (logistic_bounds (nth i (thpl_g m) 0)) as [C0 C1]. destruct (logistic_bounds u) as [U0 U1].
  match type of Q with context [(1 - logistic (nth j _ 0)) * logistic ?v] => destruct (logistic_bounds v) as [V0 V1] end. nra.
Qed.
