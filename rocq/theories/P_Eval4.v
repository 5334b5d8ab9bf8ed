(** Residuals. *)
From Verif Require Import Base BaseFacts RBase RFacts M_Data M_Logit M_Lik M_Est M_Stat M_Grid M_Eval S_Lik S_Est S_Eval P_Lik3 P_Logit4 P_Stat1 P_Stat3 P_Stat5 P_Eval1 P_Eval2 P_Eval3.
Local Open Scope R_scope.

Lemma rect_eq_grid {A} N I (l : list (list A)) f : rect N I l -> (forall n i, (n < N)%nat -> (i < I)%nat -> at2 l n i = Some (f n i)) -> l = grid N I f.
Proof.
  intros [HN HF] H. unfold grid. apply nth_error_ext. intros n. rewrite nth_error_map. destruct (Nat.lt_ge_cases n N) as [L|L].
  - rewrite nth_error_seq by exact L. cbn [option_map Nat.add]. specialize (H n). unfold at2 in H. destruct (nth_error l n) as [r|] eqn:E; [|apply nth_error_None in E; lia].
    f_equal. assert (LR : length r = I) by (rewrite Forall_forall in HF; apply HF; apply (nth_error_In _ _ E)).
    apply nth_error_ext. intros i. rewrite nth_error_map. destruct (Nat.lt_ge_cases i I) as [Li|Li].
    + rewrite nth_error_seq by exact Li. apply H; assumption.
    + rewrite !(proj2 (nth_error_None _ _)); [reflexivity|rewrite seq_length; lia|lia].
  - rewrite !(proj2 (nth_error_None _ _)); [reflexivity|rewrite seq_length; lia|lia].
Qed.
Lemma rect_some3 N I probs : rect N I probs -> rect N I (some3 probs).
Proof. intros [HN HF]. unfold some3. split; [rewrite map_length; exact HN|]. rewrite Forall_map. eapply Forall_impl; [|exact HF]. intros r Hr. rewrite map_length. exact Hr. Qed.
Lemma at3_some3 probs n i k p x : at2 probs n i = Some p -> nth_error p k = Some x -> at3 (some3 probs) n i k = Some (Some x).
Proof.
  intros H Hx. unfold at3, at2, some3 in *. rewrite nth_error_map. destruct (nth_error probs n) as [r|]; [|discriminate]. cbn [option_map]. rewrite nth_error_map, H. cbn [option_map].
  rewrite nth_error_map, Hx. reflexivity.
Qed.
Lemma zip_rect {A B C} N I (f : A -> B -> C) rows table : rect N I rows -> length table = I -> rect N I (map (fun r => zip_with f r table) rows).
Proof.
  intros [HN HF] HL. split; [rewrite map_length; exact HN|]. rewrite Forall_map. eapply Forall_impl; [|exact HF]. intros r Hr. rewrite zip_with_length. cbv beta in Hr. lia.
Qed.
Section Expected.
  Variables (N I M : nat) (pf : nat -> nat -> list R).
  Hypothesis (HM : (0 < M)%nat) (HL : forall n i, (n < N)%nat -> (i < I)%nat -> length (pf n i) = M).
  Lemma expected_none : expected_item_scores I M None (some3 (grid N I pf)) = Ok (grid N I (fun n i => Some (mean_score (pf n i)))).
  Proof.
    pose proof (grid_rect N I pf) as HR.
    assert (E : exists out, expected_item_scores I M None (some3 (grid N I pf)) = Ok out /\ rect N I out).
    { unfold expected_item_scores, item_score_table. cbn [rmap]. eexists; split; [reflexivity|]. apply (zip_rect N I); [apply rect_some3; exact HR|apply repeat_length]. }
    destruct E as (out & E & R). rewrite E. f_equal. apply rect_eq_grid; [exact R|]. intros n i Hn Hi.
    destruct (expected_item_none I M (some3 (grid N I pf)) n i (fun k => nth k (pf n i) 0) Hi) as (out' & E' & X); [|exact HM|].
    { intros k Hk. apply (at3_some3 _ n i k (pf n i)); [apply at2_grid; assumption|]. apply nth_error_nth_lt. rewrite HL by assumption. exact Hk. }
    rewrite E in E'. assert (out' = out) by congruence. subst out'. rewrite X. unfold mean_score. rewrite HL by assumption. reflexivity.
  Qed.
  Lemma expected_mc key : length key = I -> (0 < I)%nat -> (forall z, In z key -> (0 <= z < Z.of_nat M)%Z) ->
    expected_item_scores I M (Some key) (some3 (grid N I pf)) = Ok (grid N I (fun n i => Some (nth (Z.to_nat (nth i key 0%Z)) (pf n i) 0))).
  Proof.
    intros Hk HI Hz. pose proof (grid_rect N I pf) as HR.
    assert (E : exists out, expected_item_scores I M (Some key) (some3 (grid N I pf)) = Ok out /\ rect N I out).
    { unfold expected_item_scores, item_score_table. destruct key as [|z0 key']; [cbn in Hk; lia|]. set (key := z0 :: key') in *. rewrite Hk, Nat.ltb_irrefl.
      rewrite (mapM_total _ (fun z => upd (Z.to_nat z) 1 (repeat 0 M))).
      2:{ intros a Ha. apply Hz in Ha. destruct (Z.leb_spec 0 a); [|lia]. destruct (Z.ltb_spec a (Z.of_nat M)); [|lia]. reflexivity. }
      cbn [rmap]. eexists; split; [reflexivity|]. apply (zip_rect N I); [apply rect_some3; exact HR|]. rewrite app_length, map_length, repeat_length. lia. }
    destruct E as (out & E & R). rewrite E. f_equal. apply rect_eq_grid; [exact R|]. intros n i Hn Hi.
    destruct (expected_item_mc I M key (some3 (grid N I pf)) n i (fun k => nth k (pf n i) 0) (nth i key 0%Z) Hk Hz) as (out' & E' & X); [apply nth_error_nth_lt; lia| |exact HM|].
    { intros k Hk'. apply (at3_some3 _ n i k (pf n i)); [apply at2_grid; assumption|]. apply nth_error_nth_lt. rewrite HL by assumption. exact Hk'. }
    rewrite E in E'. assert (out' = out) by congruence. subst out'. exact X.
  Qed.
End Expected.

Definition residual_value (mc : bool) (p : list R) (c : cell) : nanr :=
  match c with
  | Some z => if (z =? -1)%Z then None else Some (if mc then 1 - nth (Z.to_nat z) p 0 else IZR z - mean_score p)
  | None => None
  end.
Lemma map_map_grid {A B} (h : A -> B) N I f : map (map h) (grid N I f) = grid N I (fun n i => h (f n i)).
Proof. unfold grid. rewrite map_map. apply map_ext. intros n. apply map_map. Qed.
Definition last_of (p : list R) : R := nth (length p - 1) p 0.
Section Residuals.
  Variables (N I M : nat) (pf : nat -> nat -> list R) (cf : nat -> nat -> cell).
  Hypothesis (HM : (0 < M)%nat) (HL : forall n i, (n < N)%nat -> (i < I)%nat -> length (pf n i) = M).
  Lemma residuals_grid mc av :
    (mc <> None -> forall n i z, (n < N)%nat -> (i < I)%nat -> cf n i = Some z -> (-1 <= z < Z.of_nat M)%Z) ->
    fst (residuals M mc (grid N I pf) (Wide I (grid N I cf)) av) =
    Ok (average av I (grid N I (fun n i => residual_value (match mc with Some _ => true | None => false end) (pf n i) (cf n i)))).
  Proof.
    intros Hz. unfold residuals, raw_residuals. cbn [w_rows w_cols fst]. rewrite !map_map_grid. destruct mc as [key|].
    - specialize (Hz ltac:(discriminate)). rewrite same_shape_grid.
      assert (E : mapM (fun pr : list (list R) * list cell => mapM (fun pc => rmap (fun p => Some (1 - p)) (chosen_probability (fst pc) (snd pc))) (combine (fst pr) (snd pr)))
        (combine (grid N I pf) (grid N I (fun n i => nan_to_m1 (cf n i)))) =
        Ok (grid N I (fun n i => Some (1 - match cf n i with Some z => if (z =? -1)%Z then last_of (pf n i) else nth (Z.to_nat z) (pf n i) 0 | None => last_of (pf n i) end)))).
      { unfold grid. rewrite combine_maps. apply mapM_map_ok. intros n Hn. apply in_seq in Hn. cbn [fst snd]. rewrite combine_maps. apply mapM_map_ok. intros i Hi. apply in_seq in Hi. cbn [fst snd].
        assert (L : length (pf n i) = M) by (apply HL; lia).
        assert (NI : norm_index M (-1) = Some (M - 1)%nat).
        { unfold norm_index. cbn [Z.leb]. replace ((0 <=? -1)%Z) with false by reflexivity. cbn [andb]. destruct (Z.leb_spec (- Z.of_nat M) (-1)); [|lia]. cbn [andb]. replace (-1 <? 0)%Z with true by reflexivity. f_equal. lia. }
        unfold nan_to_m1, is_nan. destruct (cf n i) as [z|] eqn:C; cbn [chosen_probability]; rewrite L.
        - pose proof (Hz n i z ltac:(lia) ltac:(lia) C) as Z1. destruct (Z.eqb_spec z (-1)) as [->|NZ].
          + rewrite NI. unfold last_of. rewrite L. reflexivity.
          + unfold norm_index. destruct (Z.leb_spec 0 z); [|lia]. destruct (Z.ltb_spec z (Z.of_nat M)); [|lia]. reflexivity.
        - rewrite NI. unfold last_of. rewrite L. reflexivity. }
      rewrite E. cbn [bind]. rewrite zip2_grid. cbn [bind]. do 2 f_equal. apply grid_ext. intros n i Hn Hi. unfold residual_value, missing_cell, is_m1, is_nan.
      destruct (cf n i) as [z|]; [|reflexivity]. rewrite orb_false_r. destruct (z =? -1)%Z; reflexivity.
    - rewrite expected_none by assumption. cbn [bind]. rewrite zip2_grid. cbn [bind]. rewrite zip2_grid. cbn [bind]. do 2 f_equal. apply grid_ext. intros n i Hn Hi. unfold residual_value, missing_cell, is_m1, is_nan, nan_to_m1.
      destruct (cf n i) as [z|]; [|reflexivity]. cbn [is_nan]. rewrite orb_false_r. destruct (z =? -1)%Z; reflexivity.
  Qed.
End Residuals.

Lemma residuals_spec N I M mc probs rows :
  (0 < M)%nat -> rect N I probs -> rect N I rows -> (forall n i p, at2 probs n i = Some p -> length p = M) ->
  (mc <> None -> forall n i z, at2 rows n i = Some (Some z) -> (-1 <= z < Z.of_nat M)%Z) ->
  exists r, rect N I r /\ (forall av, fst (residuals M mc probs (Wide I rows) av) = Ok (average av I r)) /\
    forall n i c p, at2 rows n i = Some c -> at2 probs n i = Some p ->
      at2 r n i = Some (residual_value (match mc with Some _ => true | None => false end) p c).
Proof.
  intros HM HP HR HL Hz. rewrite (rect_grid [] N I probs HP) in *. set (pf := fun n i => nth i (nth n probs []) []) in *. clearbody pf.
  rewrite (rect_grid None N I rows HR) in *. set (cf := fun n i => nth i (nth n rows []) None) in *. clearbody cf.
  exists (grid N I (fun n i => residual_value (match mc with Some _ => true | None => false end) (pf n i) (cf n i))).
  split; [apply grid_rect|]. split.
  - intros av. apply residuals_grid; [exact HM| |].
    + intros n i Hn Hi. apply (HL n i). apply at2_grid; assumption.
    + intros Hmc n i z Hn Hi C. apply (Hz Hmc n i z). rewrite at2_grid by assumption. congruence.
  - intros n i c p Hc Hp. destruct (at2_rect _ _ _ _ _ _ (grid_rect N I cf) Hc) as [Hn Hi]. rewrite at2_grid in Hc by assumption. rewrite at2_grid in Hp by assumption. rewrite at2_grid by assumption. congruence.
Qed.

Lemma finite_known l : finite l = known l.
Proof. unfold finite. induction l as [|[x|] l IH]; cbn; congruence. Qed.
Lemma nanmean_mean l : mean_of (known l) (nanmean_r l).
Proof.
  unfold nanmean_r. rewrite finite_known. unfold mean_of. destruct (known l) as [|x o]; [reflexivity|]. eexists; split; [reflexivity|]. unfold rmean.
  assert (0 < INR (length (x :: o))) by (apply INR_pos; cbn; lia). field. lra.
Qed.
Lemma average_spec N I r : rect N I r ->
  (exists l, average AvItems I r = Vec l /\ length l = N /\ forall n row, nth_error r n = Some row -> exists x, nth_error l n = Some x /\ mean_of (known row) x) /\
  (exists l, average AvRespondents I r = Vec l /\ length l = I /\ forall i, (i < I)%nat -> exists x, nth_error l i = Some x /\ mean_of (known (column_of r i)) x) /\
  (exists x, average AvEverything I r = One x /\ mean_of (known (concat r)) x) /\
  average AvOther I r = Full r.
Proof.
  intros [HN HF]. split; [|split; [|split]].
  - eexists. split; [reflexivity|]. split; [rewrite map_length; exact HN|]. intros n row H. rewrite nth_error_map, H. eexists; split; [reflexivity|]. apply nanmean_mean.
  - eexists. split; [reflexivity|]. unfold over_respondents. split; [rewrite map_length, seq_length; reflexivity|]. intros i Hi. rewrite nth_error_map, nth_error_seq by exact Hi.
    eexists; split; [reflexivity|]. apply nanmean_mean.
  - eexists. split; [reflexivity|]. apply nanmean_mean.
  - reflexivity.
Qed.

(** The caller's data. *)
Lemma residuals_data M mc probs I rows av :
  snd (residuals M mc probs (Wide I rows) av) = Wide I (map (map nan_to_m1) rows).
Proof. reflexivity. Qed.
Lemma residuals_data_iff M mc probs I rows av :
  snd (residuals M mc probs (Wide I rows) av) = Wide I rows <-> (forall r, In r rows -> ~ In None r).
Proof.
  rewrite residuals_data. split.
  - intros E r Hr Hn. assert (X : map (map nan_to_m1) rows = rows) by congruence. clear E.
    assert (Y : map nan_to_m1 r = r).
    { revert X Hr. clear. induction rows as [|a l IH]; intros E H; [contradiction|]. cbn [map] in E.
      assert (E1 : map nan_to_m1 a = a) by congruence. assert (E2 : map (map nan_to_m1) l = l) by congruence. destruct H as [->|H]; [exact E1|]. apply IH; assumption. }
    revert Y Hn. clear. induction r as [|c r IH]; intros E H; [contradiction|]. cbn [map] in E. destruct H as [->|H].
    + discriminate E.
    + apply IH; [congruence|exact H].
  - intros H. f_equal. transitivity (map (fun r : list cell => r) rows); [|apply map_id]. apply map_ext_in. intros r Hr. specialize (H r Hr).
    transitivity (map (fun c : cell => c) r); [|apply map_id]. apply map_ext_in. intros [z|] Hc; [reflexivity|contradiction].
Qed.
Lemma nan_to_m1_seen rows n i : seen (map (map nan_to_m1) rows) n i = seen rows n i.
Proof.
  unfold seen, at2. rewrite nth_error_map. destruct (nth_error rows n) as [r|]; [|reflexivity]. cbn [option_map]. rewrite nth_error_map. destruct (nth_error r i) as [[z|]|]; reflexivity.
Qed.
Lemma nan_to_m1_chose rows n i k : chose (map (map nan_to_m1) rows) n i k = chose rows n i k.
Proof.
  unfold chose, at2. rewrite nth_error_map. destruct (nth_error rows n) as [r|]; [|reflexivity]. cbn [option_map]. rewrite nth_error_map. destruct (nth_error r i) as [[z|]|]; try reflexivity.
  cbn. symmetry. destruct k; reflexivity.
Qed.
