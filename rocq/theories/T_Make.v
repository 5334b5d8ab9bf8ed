(** Models built from data (C141). *)
From Coq Require Import Reals Lra.
From Verif Require Import Base BaseFacts RBase RFacts M_Data M_Logit M_State M_Lik M_Est M_Make P_Data P_Logit P_Logit2 P_Logit3 P_Lik1 P_Lik5 P_SplineT P_Est2 P_Sym2 P_Make S_Data S_Logit S_Lik S_Est S_Sym S_Make.
Import List.
Local Open Scope R_scope.

(** A generalized partial credit, graded response or nominal model built from data has one more category per item than the
    largest answer, whatever the other answers; so all answers fit, each item has no more categories than needed, and the model
    is the one built from these numbers.  The intercepts are one for each category but the first. *)
Theorem C141_from_data : forall k d lv rel r, proper d -> (forall c, (c < m_cols d)%nat -> answered d c) -> relationships (m_cols d) lv rel = Ok r ->
  exists cats bu, make k (Some d) lv None rel = Ok bu /\ length cats = m_cols d /\ (forall c, (c < m_cols d)%nat -> one_more d c (nth c cats O)) /\
    bu_cats bu = map Z.of_nat cats /\ bu_max bu = list_max cats /\ bu_lv bu = lv /\ bu_rel bu = r /\ bu_biases bu = list_sum (map pred cats) /\
    make k None lv (Some (map Z.of_nat cats)) rel = Ok bu /\ legal_data cats (m_rows d) /\ Forall (fun K => (1 <= K)%nat) cats.
Proof.
  intros k d lv rel r HP HA Hr. pose proof HP as (HR & Hne & Hc0 & HC).
  destruct (choose_list (fun c K => one_more d c K) (m_cols d)) as (cats & HL & HS).
  { intros c Hc. destruct (HA c Hc) as (q & z & Hq & Hz). apply (largest d c HR). exists q, z. split; [exact Hq|lia]. }
  assert (Hn : cats <> []) by (intros ->; cbn in HL; lia).
  assert (HF : Forall (fun K => (1 <= K)%nat) cats). { apply Forall_forall. intros K HK. apply (In_nth _ _ O) in HK as (c & Hc & <-). rewrite HL in Hc. exact (not_missing d c _ (HA c Hc) (HS c Hc)). }
  assert (H1 : (1 <= list_max cats)%nat). { apply max_positive; [exact Hn|]. destruct cats as [|K cats]; [congruence|]. exists K. split; [now left|exact (Forall_inv HF)]. }
  pose proof (build_nat k lv cats rel r Hn ltac:(now rewrite HL)) as HB. pose proof (zeros cats) as HZ.
  assert (H0 : count_occ Nat.eq_dec cats 0%nat = O). { apply count_occ_not_In. intro HI. rewrite Forall_forall in HF. specialize (HF O HI). lia. }
  assert (HB' : build k lv (map Z.of_nat cats) rel = Ok (Built (map Z.of_nat cats) lv (list_max cats) r (list_sum (map pred cats)))).
  { rewrite HB. cbv zeta. destruct (Nat.eqb_spec (list_max cats) 0); [lia|]. destruct (Z.ltb_spec (Z.of_nat (list_sum cats) - Z.of_nat (length cats)) 0); [lia|].
    rewrite ctrue_free_any by (auto using max_all). destruct k; repeat f_equal; lia. }
  exists cats, (Built (map Z.of_nat cats) lv (list_max cats) r (list_sum (map pred cats))). unfold make. rewrite (categories_of_data d cats HR Hne HL HS). cbn [bind categories_argument].
  repeat (split; [assumption || reflexivity|]). split; [now apply data_legal|exact HF].
Qed.
Print Assumptions C141_from_data.
(** The forward pass of the built model is that of the model with these categories, and gives all respondents' answers positive
    probability, with any parameters. *)
Theorem C141_forward : forall d lv rel r, proper d -> (forall c, (c < m_cols d)%nat -> answered d c) -> relationships (m_cols d) lv rel = Ok r -> (0 < lv)%nat ->
  exists cats, length cats = m_cols d /\ (forall c, (c < m_cols d)%nat -> one_more d c (nth c cats O)) /\
    forall w b, length w = ctrue (concat r) -> let m := {| p_cats := cats; p_lv := lv; p_free := r; p_w := w; p_b := b |} in
      (forall bu, make KGpc (Some d) lv None rel = Ok bu -> length b = bu_biases bu ->
         well_formed (Gpc m) /\ (forall thetas, gpc_run bu w b thetas = Ok (gpc_forward m thetas)) /\
         forall theta row, In row (m_rows d) -> 0 < likelihood (chances (Gpc m)) theta row) /\
      (forall bu, make KGrm (Some d) lv None rel = Ok bu -> length b = bu_biases bu -> decreasing_intercepts m ->
         well_formed (Grm m) /\ (forall thetas, grm_run bu w b thetas = Ok (grm_forward m thetas)) /\
         forall theta row, In row (m_rows d) -> 0 < likelihood (chances (Grm m)) theta row).
Proof.
  intros d lv rel r HP HA Hr Hlv. destruct (C141_from_data KGpc d lv rel r HP HA Hr) as (cats & bu0 & _ & HL & HS & _ & _ & _ & _ & _ & _ & HD & HF).
  exists cats. split; [exact HL|]. split; [exact HS|]. intros w b Hw m. destruct (relationships_ok _ _ _ _ Hlv Hr) as [Hr1 Hr2]. pose proof HP as (HR & Hne & Hc0 & HC).
  assert (SAME : forall k bu, make k (Some d) lv None rel = Ok bu -> bu = Built (map Z.of_nat cats) lv (list_max cats) r (list_sum (map pred cats))).
  { intros k bu Hb. destruct (C141_from_data k d lv rel r HP HA Hr) as (cats' & bu' & Hb' & HL' & HS' & E1 & E2 & E3 & E4 & E5 & _). rewrite Hb in Hb'. injection Hb' as <-.
    assert (cats' = cats) as ->. { apply (nth_ext _ _ O O); [congruence|]. intros c Hc. rewrite HL' in Hc. destruct (HS c Hc) as [U (q & Hq)], (HS' c Hc) as [U' (q' & Hq')]. specialize (U q' _ Hq'). specialize (U' q _ Hq). lia. }
    destruct bu; cbn in *; subst; reflexivity. }
  assert (ML : (1 <= list_max cats)%nat). { apply max_positive; [intros ->; cbn in HL; lia|]. destruct cats as [|K cats']; [cbn in HL; lia|]. exists K. split; [now left|exact (Forall_inv HF)]. }
  assert (WF : length b = list_sum (map pred cats) -> poly_wf m /\ (0 < p_items m)%nat).
  { intro Hb. split; [|unfold p_items; cbn [m p_cats]; lia]. unfold poly_wf, p_items. cbn [m p_lv p_cats p_free p_w p_b]. repeat (split; [assumption || congruence|]). exact Hb. }
  split; intros bu Hb Hbl; rewrite (SAME _ _ Hb) in *; cbn [bu_biases] in Hbl; destruct (WF Hbl) as [W1 W2]; [|intro HDI].
  - split; [split; assumption|]. split.
    + intro thetas. apply gpc_run_nat. apply assign_all. now rewrite ctrue_free_any by (auto using max_all).
    + intros theta row Hrow. apply (library_likelihood (model_of 0%Z (Gpc m)) (chances (Gpc m))); [apply model_library; split; assumption|]. rewrite model_cats. cbn [cats_of]. exact (proj1 (Forall_forall _ _) HD row Hrow).
  - split; [split; [assumption|split; assumption]|]. split.
    + intro thetas. apply grm_run_nat. now rewrite ctrue_free_any by (auto using max_all).
    + intros theta row Hrow. apply (library_likelihood (model_of 0%Z (Grm m)) (chances (Grm m))); [apply model_library; split; [assumption|split; assumption]|]. rewrite model_cats. cbn [cats_of]. exact (proj1 (Forall_forall _ _) HD row Hrow).
Qed.
Print Assumptions C141_forward.

(** The arguments: numbers of categories, if given, win over data for the polytomous models, while data win over the number of items
    for the dichotomous ones; without either the constructors raise ValueError. *)
Theorem C141_arguments : forall lv rel,
  (forall k d cats, make k d lv (Some cats) rel = make k None lv (Some cats) rel) /\ (forall k, make k None lv None rel = Err ValueError) /\
  (forall d n, tpl_make (Some d) lv n rel = tpl_make None lv (Some (m_cols d)) rel /\ thpl_make (Some d) lv n rel = thpl_make None lv (Some (m_cols d)) rel /\ opl_make (Some d) n = opl_make None (Some (m_cols d))) /\
  tpl_make None lv None rel = Err ValueError /\ thpl_make None lv None rel = Err ValueError /\ opl_make None None = Err ValueError.
Proof. intros. repeat split; intros; reflexivity. Qed.
Print Assumptions C141_arguments.
(** The dichotomous models built from data have an item per column. *)
Theorem C141_dichotomous : forall d lv rel n, proper d -> (0 < lv)%nat ->
  (forall m, opl_make (Some d) n = Ok m -> well_formed (Opl m) /\ opl_items m = m_cols d) /\
  (forall m, tpl_make (Some d) lv n rel = Ok m -> well_formed (Tpl m) /\ tpl_items m = m_cols d) /\
  (forall m, thpl_make (Some d) lv n rel = Ok m -> well_formed (Thpl m) /\ thpl_items m = m_cols d) /\
  (exists m, opl_make (Some d) n = Ok m) /\
  (forall r, relationships (m_cols d) lv rel = Ok r -> (exists m, tpl_make (Some d) lv n rel = Ok m) /\ exists m, thpl_make (Some d) lv n rel = Ok m).
Proof.
  intros d lv rel n (HR & Hne & Hc0 & HC) Hlv.
  assert (PM : exists z, py_max (repeat 2%Z (m_cols d)) = Ok z). { destruct (m_cols d) as [|c]; [lia|]. cbn [repeat]. unfold py_max. pose proof (max_list_spec (2%Z :: repeat 2%Z c)) as H. destruct (max_list _); [eauto|discriminate]. }
  destruct PM as (z & PM). unfold opl_make, tpl_make, thpl_make, base_init. cbn [items_argument bind]. rewrite PM. cbn [bind].
  split; [|split; [|split; [|split]]].
  - intros m H. injection H as <-. cbn. rewrite repeat_length. auto.
  - intros m H. destruct (tpl_init_wf _ _ _ _ Hlv H) as [W E]. split; [split; [exact W|now rewrite E]|exact E].
  - intros m H. destruct (thpl_init_wf _ _ _ _ Hlv H) as [W E]. split; [split; [exact W|now rewrite E]|exact E].
  - eexists; reflexivity.
  - intros r H. unfold tpl_init, thpl_init. rewrite H. cbn [bind rmap]. split; eexists; reflexivity.
Qed.
Print Assumptions C141_dichotomous.
(** Finding: the dichotomous models look at the number of columns only.  Data with other answers than 0 and 1 are taken without a
    message, the model being that of any other data with as many columns; the first log-likelihood of these data then fails. *)
Theorem C141_answers_ignored_refuted : forall d lv rel r n, proper d -> (0 < lv)%nat -> relationships (m_cols d) lv rel = Ok r -> (exists q c z, at_ (m_rows d) q c = Some (Some z) /\ (2 <= z)%Z) ->
  (forall d', m_cols d' = m_cols d -> tpl_make (Some d) lv n rel = tpl_make (Some d') lv n rel) /\
  exists m, tpl_make (Some d) lv n rel = Ok m /\
    forall nanl red thetas, red <> ROther -> length thetas = length (m_rows d) -> Forall (fun t => length t = lv) thetas -> base_log_likelihood nanl 2 red (m_rows d) (tpl_forward m thetas) None = Err IndexError.
Proof.
  intros d lv rel r n HP Hlv Hr (q & c & z & Hq & Hz). split; [intros d' E; unfold tpl_make; cbn [items_argument]; now rewrite E|].
  destruct (C141_dichotomous d lv rel n HP Hlv) as (_ & HT & _ & _ & HE). destruct (HE r Hr) as [(m & Hm) _]. exists m. split; [exact Hm|]. intros nanl red thetas Hred HLt HFt.
  destruct (HT m Hm) as [[HW _] HI].
  assert (Hml : tpl_lv m = lv). { clear - Hm. unfold tpl_make in Hm. cbn [items_argument bind] in Hm. destruct (base_init _ _ _); [|discriminate]. cbn [bind] in Hm. unfold tpl_init in Hm. destruct (relationships _ _ _); [|discriminate]. cbn [bind] in Hm. injection Hm as <-. reflexivity. }
  pose proof (tpl_rect m thetas HW) as HRc. rewrite Hml, HI in HRc. specialize (HRc HFt). apply rect_length in HRc.
  assert (HD : rect (length (m_rows d)) (m_cols d) (m_rows d)) by (split; [reflexivity|apply HP]). apply rect_length in HD.
  unfold base_log_likelihood. rewrite (reshape_rect 2 _ (length thetas * m_cols d)) by lia. cbn [bind drop_opt].
  assert (CE : ce_rows (blocks 2 (concat (tpl_forward m thetas))) (map (to_long nanl) (concat (m_rows d))) = Err IndexError).
  { assert (LB : length (blocks 2 (concat (tpl_forward m thetas))) = (length thetas * m_cols d)%nat). { apply blocks_count; lia. }
    unfold ce_rows. rewrite LB, map_length, HD, HLt, Nat.eqb_refl.
    assert (IN : In z (map (to_long nanl) (concat (m_rows d)))). { apply in_map_iff. exists (Some z). split; [reflexivity|]. unfold at_ in Hq. destruct (nth_error (m_rows d) q) as [row|] eqn:E; [|discriminate]. apply in_concat. exists row. split; eapply nth_error_In; eauto. }
    apply In_nth_error in IN as (j & Hj). assert (Hjl : (j < length (blocks 2 (concat (tpl_forward m thetas))))%nat). { rewrite LB, HLt, <- HD, <- (map_length (to_long nanl)). apply nth_error_Some. congruence. }
    destruct (nth_error (blocks 2 (concat (tpl_forward m thetas))) j) as [b|] eqn:Eb; [|apply nth_error_None in Eb; lia].
    apply (mapM_refused _ _ _ (b, z)).
    - intros [row t] _. unfold ce_row. cbn [fst snd]. destruct (ignored t); [eauto|]. destruct ((0 <=? t)%Z && (t <? Z.of_nat (length row))%Z); eauto.
    - apply (nth_error_In _ j). now apply nth_error_combine_some.
    - unfold ce_row. cbn [fst snd]. unfold ignored. destruct (Z.eqb_spec z (-100)); [lia|].
      rewrite nth_error_blocks in Eb by lia. destruct (_ <? _)%nat in Eb; [|discriminate]. assert (LB2 : (length b <= 2)%nat) by (injection Eb as <-; exact (firstn_le_length 2 _)). destruct (Z.leb_spec 0 z); [|lia]. destruct (Z.ltb_spec z (Z.of_nat (length b))); [lia|]. reflexivity. }
  rewrite CE. destruct red; [reflexivity|reflexivity|reflexivity|congruence].
Qed.
Print Assumptions C141_answers_ignored_refuted.
(** Finding: an item that nobody answered, all cells NaN.  Its largest answer is minus infinity, which as a 32 bit integer is -2^31;
    the generalized partial credit and nominal constructors then fail in torch (RuntimeError, a negative number of intercepts)
    without naming the item. *)
Theorem C141_nobody_refuted : forall k d lv rel r c, k <> KGrm -> proper d -> relationships (m_cols d) lv rel = Ok r ->
  (c < m_cols d)%nat -> (forall q z, at_ (m_rows d) q c <> Some (Some z)) -> (forall q c' z, at_ (m_rows d) q c' = Some (Some z) -> ((z + 1) * Z.of_nat (m_cols d) <= 2 ^ 31)%Z) ->
  make k (Some d) lv None rel = Err RuntimeError.
Proof.
  intros k d lv rel r c Hk HP Hr Hc HN HB. destruct (data_ints d HP) as (starts & l & (HL & HL' & HI) & HA). unfold make. rewrite HA. cbn [bind].
  unfold build, base_init. unfold py_max. pose proof (max_list_spec l) as HM. destruct (max_list l) as [m|]; [|subst l; cbn in HL'; lia]. cbn [bind at_max]. rewrite HL', Hr. cbn [bind].
  destruct (Z.ltb_spec m 0) as [|Hm]; [reflexivity|]. destruct HM as [HMI HM].
  assert (HS : (fold_right Z.add 0 l <= (- 2 ^ 31) + (Z.of_nat (length l) - 1) * m)%Z).
  { apply sum_with_hole; [exact Hm| |apply Forall_forall; exact HM]. destruct (HI c Hc) as [([_ (q & Hq)] & _)|(_ & _ & <-)]; [destruct (HN q _ Hq)|]. apply nth_In. lia. }
  assert (HX : (m * Z.of_nat (m_cols d) <= 2 ^ 31)%Z).
  { apply (In_nth _ _ 0%Z) in HMI as (i & Hi & Ei). destruct (HI i ltac:(lia)) as [([_ (q & Hq)] & E)|(_ & _ & E)]; [|lia]. specialize (HB q i _ Hq). rewrite Ei in E. rewrite <- E in HB. replace (m - 1 + 1)%Z with m in HB by lia. exact HB. }
  rewrite HL' in HS. destruct k; [|congruence|]; (destruct (Z.ltb_spec (fold_right Z.add 0%Z l - Z.of_nat (m_cols d)) 0); [reflexivity|nia]).
Qed.
Print Assumptions C141_nobody_refuted.
(** Finding: the graded response model is built, whether the missing answers of the item are NaN or -1.  The item gets the single
    category 0, answered with probability one by everybody, whatever the parameters. *)
Theorem C141_nobody_graded : forall d lv rel r c c', proper d -> relationships (m_cols d) lv rel = Ok r -> (0 < lv)%nat ->
  (c < m_cols d)%nat -> ~ answered d c -> (c' < m_cols d)%nat -> answered d c' -> (forall q i z, at_ (m_rows d) q i = Some (Some z) -> (z < 2 ^ 31)%Z) ->
  exists bu, make KGrm (Some d) lv None rel = Ok bu /\
    forall w b thetas, length w = ctrue (concat r) -> length b = bu_biases bu -> Forall (fun t => length t = lv) thetas ->
      exists out, grm_run bu w b thetas = Ok out /\ forall n, (n < length thetas)%nat -> at3 (grm_probs (m_cols d) (bu_max bu) out) n c 0 = Some 1.
Proof.
  intros d lv rel r c c' HP Hr Hlv Hc HN Hc' HY HB. destruct (data_ints d HP) as (starts & l & HI & HA). destruct (ints_max d starts l c' HI Hc' HY) as [HMx H1]. pose proof HI as (HL & HL' & HIc).
  assert (HM31 : (Z.of_nat (list_max starts) <= 2 ^ 31)%Z).
  { apply Z.le_trans with (Z.of_nat (Z.to_nat (2 ^ 31))); [|lia]. apply inj_le. apply list_max_le. apply Forall_forall. intros K HK. apply (In_nth _ _ O) in HK as (i & Hi & <-). destruct (HIc i ltac:(lia)) as [([_ (q & Hq)] & _)|(_ & -> & _)]; [|lia]. specialize (HB q i _ Hq). lia. }
  pose proof (ints_starts d starts l (list_max starts) HI HM31) as HS.
  exists (Built l lv (list_max starts) r (list_sum (map pred starts))). split.
  { unfold make. rewrite HA. cbn [bind]. unfold build, base_init. rewrite HMx. cbn [bind at_max]. rewrite HL', Hr. cbn [bind]. destruct (Z.ltb_spec (Z.of_nat (list_max starts)) 0); [lia|]. rewrite Nat2Z.id, HS.
    destruct (Nat.eqb_spec (list_max starts) 0); [lia|]. now rewrite ctrue_free_any by (auto using max_all). }
  cbn [bu_biases bu_max]. intros w b thetas Hw Hb HF. set (bu := Built l lv (list_max starts) r (list_sum (map pred starts))).
  destruct (run_floor bu starts w b b thetas HS eq_refl H1) as [_ HG]. { apply assign_all. now rewrite ctrue_free_any by (auto using max_all). }
  eexists. split; [exact HG|]. intros n Hn. cbn [bu bu_lv bu_rel] in HG |- *. set (m := {| p_cats := map (Nat.max 1) starts; p_lv := lv; p_free := r; p_w := w; p_b := b |}) in *.
  assert (EM : p_max m = list_max starts) by (unfold p_max; cbn [m p_cats]; now apply floor_max). assert (EI : p_items m = m_cols d) by (unfold p_items; cbn [m p_cats]; now rewrite map_length).
  destruct (relationships_ok _ _ _ _ Hlv Hr) as [Hr1 Hr2].
  assert (WF : poly_wf m). { unfold poly_wf. rewrite EI. cbn [m p_lv p_cats p_free p_w p_b]. split; [exact Hlv|]. split; [apply floor_positive|]. repeat (split; [assumption|]). now rewrite floor_pred. }
  destruct (nth_error thetas n) as [t|] eqn:Et; [|apply nth_error_None in Et; lia].
  assert (E0 : nth c starts O = O). { destruct (HIc c Hc) as [([HU (q & Hq)] & _)|(_ & E & _)]; [|exact E]. destruct (nth c starts O) as [|K]; [reflexivity|]. exfalso. apply HN. exists q, (Z.of_nat (S K) - 1)%Z. split; [exact Hq|lia]. }
  assert (EK : nth_error (p_cats m) c = Some 1%nat). { cbn [m p_cats]. rewrite nth_error_map, (nth_error_nth_lt starts c O) by lia. cbn [option_map]. now rewrite E0. }
  pose proof (grm_probs_spec m thetas n t c 1 0 WF HF Et EK ltac:(lia)) as H. cbv zeta in H. unfold grm_probabilities in H. rewrite EM, EI in H. rewrite H. unfold geq_probability. cbn [Nat.eqb Nat.ltb Nat.leb]. f_equal. ring.
Qed.
Print Assumptions C141_nobody_graded.
(** Finding: missing answers are documented as NaN or -1, and an item for which all are -1 counts as having no category at all.  With
    [F] categories but the first over all items and [z] such items the generalized partial credit model holds [F - z] intercepts for
    [F] places: it cannot be built if [F < z]; if one intercept is left it stands silently for all of them; otherwise the
    model is built, but every forward pass raises RuntimeError. *)
Theorem C141_minus_one_refuted : forall d lv rel r, proper d -> relationships (m_cols d) lv rel = Ok r ->
  (forall c, (c < m_cols d)%nat -> exists q z, at_ (m_rows d) q c = Some (Some z)) -> (exists c, (c < m_cols d)%nat /\ ~ answered d c) ->
  exists cats, length cats = m_cols d /\ (forall c, (c < m_cols d)%nat -> one_more d c (nth c cats O)) /\
    let F := list_sum (map pred cats) in let z := count_occ Nat.eq_dec cats 0%nat in (1 <= z)%nat /\
    ((F < z)%nat -> make KGpc (Some d) lv None rel = Err RuntimeError) /\
    ((z <= F)%nat -> exists bu, make KGpc (Some d) lv None rel = Ok bu /\ bu_biases bu = (F - z)%nat /\
       forall w b thetas, length b = bu_biases bu ->
         ((F - z <> 1)%nat -> gpc_run bu w b thetas = Err RuntimeError) /\
         ((F - z = 1)%nat -> gpc_run bu w b thetas = Ok (gpc_forward {| p_cats := map (Nat.max 1) cats; p_lv := lv; p_free := r; p_w := w; p_b := repeat (nth 0 b 0) F |} thetas))).
Proof.
  intros d lv rel r HP Hr HO (c0 & Hc0 & HN). pose proof HP as (HR & Hne & Hp & HC).
  destruct (choose_list (fun c K => one_more d c K) (m_cols d)) as (cats & HL & HS).
  { intros c Hc. destruct (HO c Hc) as (q & z & Hq). apply (largest d c HR). exists q, z. split; [exact Hq|exact (HC q c z Hq)]. }
  assert (Hn : cats <> []) by (intros ->; cbn in HL; lia). exists cats. split; [exact HL|]. split; [exact HS|]. cbv zeta. set (F := list_sum (map pred cats)). set (z := count_occ Nat.eq_dec cats 0%nat).
  assert (Hz : (1 <= z)%nat). { assert (In O cats) as HI. { destruct (HS c0 Hc0) as [_ (q & Hq)]. destruct (nth c0 cats O) as [|K] eqn:E; [rewrite <- E; apply nth_In; lia|]. exfalso. apply HN. exists q, (Z.of_nat (S K) - 1)%Z. split; [exact Hq|lia]. } apply (count_occ_In Nat.eq_dec) in HI. unfold z. lia. }
  split; [exact Hz|]. pose proof (zeros cats) as HZ. fold F z in HZ.
  pose proof (build_nat KGpc lv cats rel r Hn ltac:(now rewrite HL)) as HB. cbv zeta in HB. unfold make. rewrite (categories_of_data d cats HR Hne HL HS). cbn [bind]. rewrite HB. split.
  - intro HF. destruct (Z.ltb_spec (Z.of_nat (list_sum cats) - Z.of_nat (length cats)) 0); [reflexivity|lia].
  - intro HF. destruct (Z.ltb_spec (Z.of_nat (list_sum cats) - Z.of_nat (length cats)) 0); [lia|].
    assert (H1 : (1 <= list_max cats)%nat). { destruct (list_max cats) as [|M] eqn:E; [|lia]. exfalso. pose proof (max_all cats) as HX. rewrite E in HX. assert (F = O); [|lia]. unfold F. clear - HX. induction HX as [|K cats HK HX IH]; [reflexivity|]. unfold list_sum in *. cbn [map fold_right]. rewrite IH. lia. }
    destruct (Nat.eqb_spec (list_max cats) 0); [lia|]. eexists. split; [reflexivity|]. cbn [bu_biases]. split; [lia|]. intros w b thetas Hb.
    replace (Z.to_nat (Z.of_nat (list_sum cats) - Z.of_nat (length cats))) with (F - z)%nat in * by lia.
    set (bu := Built (map Z.of_nat cats) lv (list_max cats) r (F - z)). pose proof (ctrue_free_any cats (list_max cats) H1 (max_all cats)) as HT. fold F in HT. split.
    + intro H2. unfold gpc_run, bu_free. cbn [bu bu_cats bu_max]. rewrite starts_nat. unfold assign. rewrite HT, Hb. destruct (Nat.eqb_spec (F - z) F); [lia|]. destruct (Nat.eqb_spec (F - z) 1); [lia|]. reflexivity.
    + intro H2. apply (run_floor bu cats w b (repeat (nth 0 b 0) F) thetas); [apply starts_nat|reflexivity|exact H1|]. unfold assign. rewrite HT, Hb, H2. destruct (Nat.eqb_spec 1 F); [lia|]. reflexivity.
Qed.
Print Assumptions C141_minus_one_refuted.

(** Three respondents and two items: the first answered 0, 1 and 2, the second with a missing answer, 1 and 0; and the same with the
    second item never answered. *)
Example C141_nonvacuous :
  let d := Mat 2 2 [[Some 0; None]; [Some 1; Some 1]; [Some 2; Some 0]]%Z in let e := Mat 2 2 [[Some 0; Some (-1)]; [Some 1; None]; [Some 2; Some (-1)]]%Z in let u := Mat 2 2 [[Some 0; None]; [Some 1; None]; [Some 2; None]]%Z in
  proper d /\ (forall c, (c < m_cols d)%nat -> answered d c) /\ proper e /\ ~ answered e 1 /\ answered e 0 /\ proper u /\ (forall q z, at_ (m_rows u) q 1 <> Some (Some z)) /\
  (exists bu, make KGpc (Some d) 1 None None = Ok bu /\ bu_cats bu = [3; 2]%Z /\ bu_biases bu = 3%nat) /\
  (exists bu, make KGpc (Some e) 1 None None = Ok bu /\ bu_cats bu = [3; 0]%Z /\ bu_biases bu = 1%nat) /\
  make KNrm (Some u) 1 None None = Err RuntimeError.
Proof.
  cbv zeta.
  assert (P : forall rows, rectangular (Mat 2 2 rows) -> rows <> [] -> (forall r row c z, nth_error rows r = Some row -> nth_error row c = Some (Some z) -> (-1 <= z)%Z) -> proper (Mat 2 2 rows)).
  { intros rows H1 H2 H3. split; [exact H1|]. split; [exact H2|]. split; [cbn; lia|]. intros r c z H. cbn [m_rows] in H. unfold at_ in H. destruct (nth_error rows r) as [row|] eqn:E; [|discriminate]. eapply H3; eauto. }
  assert (Q : forall rows, Forall (fun row => Forall (fun x => match x with Some z => (-1 <= z)%Z | None => True end) row) rows -> forall r row c z, nth_error rows r = Some row -> nth_error row c = Some (Some z) -> (-1 <= z)%Z).
  { intros rows H r row c z E1 E2. rewrite Forall_forall in H. specialize (H row (nth_error_In _ _ E1)). rewrite Forall_forall in H. exact (H _ (nth_error_In _ _ E2)). }
  split; [|split; [|split; [|split; [|split; [|split; [|split; [|split; [|split]]]]]]]].
  - apply P; [split; [reflexivity|repeat constructor]|discriminate|]. apply Q. repeat (constructor; try lia).
  - intros c Hc. cbn [m_cols] in Hc. destruct c as [|[|c]]; [exists 1%nat, 1%Z; split; [reflexivity|lia]|exists 1%nat, 1%Z; split; [reflexivity|lia]|lia].
  - apply P; [split; [reflexivity|repeat constructor]|discriminate|]. apply Q. repeat (constructor; try lia).
  - intros (r & z & Hr & Hz). destruct r as [|[|[|r]]]; cbn in Hr; try discriminate; [injection Hr as <-; lia|injection Hr as <-; lia|destruct r; discriminate].
  - exists 0%nat, 0%Z. split; [reflexivity|lia].
  - apply P; [split; [reflexivity|repeat constructor]|discriminate|]. apply Q. repeat (constructor; try lia).
  - intros r z H. destruct r as [|[|[|r]]]; cbn in H; try discriminate. destruct r; discriminate.
  - eexists. split; [reflexivity|]. split; reflexivity.
  - eexists. split; [reflexivity|]. split; reflexivity.
  - reflexivity.
Qed.
