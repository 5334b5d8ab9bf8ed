(** Mutual information differences: C126. *)
From Verif Require Import Base BaseFacts RBase RFacts M_Logit M_Mono M_Lik M_Est M_Stat S_Stat P_Stat1 P_Stat2 P_Stat3 P_Stat4 P_Stat5 P_Stat6 P_Stat7 P_Stat8 T_Stat S_Mid P_Mid.
Local Open Scope R_scope.

(** Both matrices exist and are symmetric; the entries are observed minus implied information up to the constant inside the
    logarithms, and the absolute values. *)
Theorem C126_value : forall b items m data probs, 1 < b -> (2 <= length data)%nat -> (forall i, (i < items)%nat -> answered i data) -> probs <> [] ->
  (forall r i, In r probs -> (i < items)%nat -> is_distribution (nth i r []) m) ->
  exists D E, data_mutual_information b items data = Ok D /\ expected_mutual_information b items m probs = Ok E /\
    forall i j, (i <= j)%nat -> (j < items)%nat -> exists v, entry (mid D E) i j v /\ entry (mid D E) j i v /\
      entry (amid D E) i j (Rabs v) /\ entry (amid D E) j i (Rabs v) /\
      Rabs (v - (observed_information b data i j - implied_information b m probs i j)) <= slack b m data i j.
Proof.
  intros b items m data probs Hb Hn HA Hne HD. exists (square items (data_mi b data)), (square items (mi m probs b)). split; [|split].
  - apply data_mi_ok. intros i j Hij Hj. rewrite joint_length by (apply HA; lia). lia.
  - apply expected_mi_ok; assumption.
  - intros i j Hij Hj. assert (Hi : (i < items)%nat) by lia. rewrite mid_square, amid_square. exists (data_mi b data i j - mi m probs b i j).
    split; [apply (square_entry items (fun i j => data_mi b data i j - mi m probs b i j)); assumption|].
    split; [rewrite data_mi_sym, mi_sym; apply (square_entry items (fun i j => data_mi b data i j - mi m probs b i j)); assumption|].
    split; [apply (square_entry items (fun i j => Rabs (data_mi b data i j - mi m probs b i j))); assumption|].
    split; [rewrite data_mi_sym, mi_sym; apply (square_entry items (fun i j => Rabs (data_mi b data i j - mi m probs b i j))); assumption|].
    pose proof (mi_near m items probs Hne HD b i j Hb Hi Hj) as X.
    pose proof (jent_shannon b _ _ Hb (joint_in_grid i i data)) as U. pose proof (jent_shannon b _ _ Hb (joint_in_grid j j data)) as V.
    pose proof (jent_shannon b _ _ Hb (joint_in_grid i j data)) as W.
    fold (implied_information b m probs i j) in X. unfold slack, distinct, observed_information. unfold data_mi, jvalue, entropy_eps in *. rewrite Nat.min_l, Nat.max_r by lia.
    assert (T : 0 < / 10000000000 / ln b) by (apply Rmult_lt_0_compat; [lra|apply Rinv_0_lt_compat; rewrite <- ln_1; apply ln_increasing; lra]).
    set (tol := / 10000000000 / ln b) in *. set (di := INR (length (nodup pair_eq_dec (joint_answers i i data)))) in *. set (dj := INR (length (nodup pair_eq_dec (joint_answers j j data)))) in *.
    set (dij := INR (length (nodup pair_eq_dec (joint_answers i j data)))) in *.
    assert (P1 : 0 <= di * tol) by (apply Rmult_le_pos; [apply pos_INR|lra]). assert (P2 : 0 <= dj * tol) by (apply Rmult_le_pos; [apply pos_INR|lra]).
    assert (P3 : 0 <= dij * tol) by (apply Rmult_le_pos; [apply pos_INR|lra]). assert (P4 : 0 <= INR m * tol) by (apply Rmult_le_pos; [apply pos_INR|lra]).
    assert (P5 : 0 <= INR (m * m) * tol) by (apply Rmult_le_pos; [apply pos_INR|lra]). apply Rabs_le. lra.
Qed.
Print Assumptions C126_value.

(** A model whose pair probabilities reproduce the observed frequencies of the pairs gets a difference of zero up to that constant. *)
Theorem C126_matched : forall b items m data probs i j, 1 < b -> (2 <= length data)%nat -> (forall i, (i < items)%nat -> answered i data) -> probs <> [] ->
  (forall r i, In r probs -> (i < items)%nat -> is_distribution (nth i r []) m) -> (i < j)%nat -> (j < items)%nat ->
  incl (joint_answers i j data) (list_prod (seq 0 m) (seq 0 m)) ->
  (forall k l, (k < m)%nat -> (l < m)%nat -> frequency (joint_answers i j data) (k, l) = pair_probability probs i j k l) ->
  exists D E v, data_mutual_information b items data = Ok D /\ expected_mutual_information b items m probs = Ok E /\
    entry (mid D E) i j v /\ entry (amid D E) i j (Rabs v) /\ Rabs v <= slack b m data i j.
Proof.
  intros b items m data probs i j Hb Hn HA Hne HD Hij Hj I HF. destruct (C126_value b items m data probs Hb Hn HA Hne HD) as (D & E & ED & EE & H).
  destruct (H i j ltac:(lia) Hj) as (v & V1 & _ & V2 & _ & B). exists D, E, v. repeat split; try assumption.
  assert (Z : observed_information b data i j = implied_information b m probs i j).
  { rewrite (observed_grid b data i j m) by (try (apply HA; lia); exact I). rewrite (implied_margins m items probs HD b i j) by lia. f_equal. f_equal; [f_equal|].
    - apply sumn_ext. intros k Hk. f_equal. apply sumn_ext. intros l Hl. now apply HF.
    - apply sumn_ext. intros l Hl. f_equal. apply sumn_ext. intros k Hk. now apply HF.
    - apply sumn_ext. intros k Hk. apply sumn_ext. intros l Hl. f_equal. now apply HF. }
  rewrite Z in B. replace (v - (implied_information b m probs i j - implied_information b m probs i j)) with v in B by ring. exact B.
Qed.
Print Assumptions C126_matched.

(** When the model gives every respondent the same probabilities the difference is the observed information; on the diagonal,
    the entropy of the item, however well the model fits. *)
Theorem C126_homogeneous : forall b items m data probs p, 1 < b -> (2 <= length data)%nat -> (forall i, (i < items)%nat -> answered i data) -> probs <> [] ->
  (forall i, (i < items)%nat -> is_distribution (nth i p []) m) -> (forall r, In r probs -> r = p) ->
  exists D E, data_mutual_information b items data = Ok D /\ expected_mutual_information b items m probs = Ok E /\
    forall i j, (i <= j)%nat -> (j < items)%nat -> exists v, entry (mid D E) i j v /\ Rabs (v - observed_information b data i j) <= slack b m data i j.
Proof.
  intros b items m data probs p Hb Hn HA Hne Hp Hr.
  assert (HD : forall r i, In r probs -> (i < items)%nat -> is_distribution (nth i r []) m) by (intros r i Ir Hi; rewrite (Hr r Ir); now apply Hp).
  destruct (C126_value b items m data probs Hb Hn HA Hne HD) as (D & E & ED & EE & H). exists D, E. split; [exact ED|]. split; [exact EE|].
  intros i j Hij Hj. destruct (H i j Hij Hj) as (v & V1 & _ & _ & _ & B). exists v. split; [exact V1|].
  assert (N : 0 < INR (length probs)) by (apply lt_0_INR; destruct probs; [congruence|cbn; lia]).
  assert (C : forall f : list (list R) -> R, mean (map f probs) = f p).
  { intros f. unfold mean. rewrite map_length. rewrite (map_ext_in f (fun _ => f p)) by (intros r Ir; now rewrite (Hr r Ir)). rewrite rsum_map_const. field. lra. }
  assert (Z : implied_information b m probs i j = 0).
  { rewrite implied_grid. rewrite (sumn_ext m _ (fun k => hterm (nth k (nth i p []) 0))) by (intros k _; now rewrite (C (fun r => nth k (nth i r []) 0))).
    rewrite (sumn_ext m (fun k => hterm (mean (map (fun r => nth k (nth j r []) 0) probs))) (fun k => hterm (nth k (nth j p []) 0))) by (intros k _; now rewrite (C (fun r => nth k (nth j r []) 0))).
    rewrite (sumn_ext m (fun k => sumn m _) (fun k => sumn m (fun l => hterm (nth k (nth i p []) 0 * nth l (nth j p []) 0)))).
    2:{ intros k _. apply sumn_ext. intros l _. unfold pair_probability. now rewrite (C (fun r => nth k (nth i r []) 0 * nth l (nth j r []) 0)). }
    destruct (Hp i ltac:(lia)) as [Pi Si]. destruct (Hp j Hj) as [Pj Sj].
    rewrite (independent_information m (fun k => nth k (nth i p []) 0) (fun k => nth k (nth j p []) 0) Pi Pj Si Sj). unfold Rdiv. ring. }
  rewrite Z in B. replace (v - (observed_information b data i j - 0)) with (v - observed_information b data i j) in B by ring. exact B.
Qed.
Print Assumptions C126_homogeneous.

(** A difference of zero does not mean that the model reproduces the data: here the model implies a negative dependence of
    the two items and the data show a positive one. *)
Definition agree_data : list (list (option nat)) :=
  (repeat [Some 0; Some 0] 5 ++ repeat [Some 0; Some 1] 3 ++ repeat [Some 1; Some 0] 3 ++ repeat [Some 1; Some 1] 5)%nat.
Definition oppose_probs : list (list (list R)) := repeat [[3 / 4; 1 / 4]; [1 / 4; 3 / 4]] 8 ++ repeat [[1 / 4; 3 / 4]; [3 / 4; 1 / 4]] 8.
Lemma oppose_laws : forall r i, In r oppose_probs -> (i < 2)%nat -> is_distribution (nth i r []) 2.
Proof.
  intros r i Hr Hi. unfold oppose_probs in Hr. apply in_app_or in Hr. destruct Hr as [Hr|Hr]; apply repeat_spec in Hr; subst r;
  (destruct i as [|[|i]]; [| |lia]); (split; [intros [|[|k]] Hk; try lia; cbn [nth]; lra|cbn [sumn nth]; lra]).
Qed.
Lemma agree_answered i : (i < 2)%nat -> answered i agree_data.
Proof. intros Hi row Hr. unfold agree_data in Hr. repeat (apply in_app_or in Hr; destruct Hr as [Hr|Hr]); apply repeat_spec in Hr; subst row; (destruct i as [|[|i]]; [discriminate|discriminate|lia]). Qed.
Theorem C126_converse_refuted : exists D E v, data_mutual_information 2 2 agree_data = Ok D /\ expected_mutual_information 2 2 2 oppose_probs = Ok E /\
  entry (amid D E) 0 1 v /\ v <= / 100000000 /\
  frequency (joint_answers 0 1 agree_data) (0, 0)%nat = 5 / 16 /\ pair_probability oppose_probs 0 1 0 0 = 3 / 16 /\
  frequency (joint_answers 0 1 agree_data) (0, 1)%nat = 3 / 16 /\ pair_probability oppose_probs 0 1 0 1 = 5 / 16.
Proof.
  assert (Ne : oppose_probs <> []) by discriminate.
  destruct (C126_value 2 2 2 agree_data oppose_probs ltac:(lra) ltac:(cbn; lia) agree_answered Ne oppose_laws) as (D & E & ED & EE & H).
  destruct (H 0%nat 1%nat ltac:(lia) ltac:(lia)) as (v & _ & _ & V & _ & B). exists D, E, (Rabs v). split; [exact ED|]. split; [exact EE|]. split; [exact V|].
  set (J := joint_answers 0 1 agree_data) in *.
  assert (F00 : frequency J (0, 0)%nat = 5 / 16) by (unfold frequency; cbn -[INR]; cbn [INR]; lra).
  assert (F01 : frequency J (0, 1)%nat = 3 / 16) by (unfold frequency; cbn -[INR]; cbn [INR]; lra).
  assert (F10 : frequency J (1, 0)%nat = 3 / 16) by (unfold frequency; cbn -[INR]; cbn [INR]; lra).
  assert (F11 : frequency J (1, 1)%nat = 5 / 16) by (unfold frequency; cbn -[INR]; cbn [INR]; lra).
  assert (Q : forall k l, pair_probability oppose_probs 0 1 k l = (nth k [3 / 4; 1 / 4] 0 * nth l [1 / 4; 3 / 4] 0 + nth k [1 / 4; 3 / 4] 0 * nth l [3 / 4; 1 / 4] 0) / 2).
  { intros k l. unfold pair_probability, mean, oppose_probs, rsum. cbn -[INR Rdiv Rmult Rplus IZR nth]. cbn [INR nth]. field. }
  assert (Q00 : pair_probability oppose_probs 0 1 0 0 = 3 / 16) by (rewrite Q; cbn [nth]; lra).
  assert (Q01 : pair_probability oppose_probs 0 1 0 1 = 5 / 16) by (rewrite Q; cbn [nth]; lra).
  assert (Q10 : pair_probability oppose_probs 0 1 1 0 = 5 / 16) by (rewrite Q; cbn [nth]; lra).
  assert (Q11 : pair_probability oppose_probs 0 1 1 1 = 3 / 16) by (rewrite Q; cbn [nth]; lra).
  split; [|repeat split; assumption].
  assert (I : incl J (grid 2)) by (intros x Hx; repeat (destruct Hx as [<-|Hx]; [unfold grid; cbn; tauto|]); destruct Hx).
  assert (Z : observed_information 2 agree_data 0 1 = implied_information 2 2 oppose_probs 0 1).
  { rewrite (observed_grid 2 agree_data 0 1 2) by (try (apply agree_answered; lia); exact I). rewrite (implied_margins 2 2 oppose_probs oppose_laws 2 0 1) by lia.
    f_equal. fold J. cbn [sumn]. rewrite F00, F01, F10, F11, Q00, Q01, Q10, Q11.
    replace (0 + 3 / 16 + 5 / 16) with (/ 2) by lra. replace (0 + 5 / 16 + 3 / 16) with (/ 2) by lra. ring. }
  rewrite Z in B. replace (v - (implied_information 2 2 oppose_probs 0 1 - implied_information 2 2 oppose_probs 0 1)) with v in B by ring.
  apply (Rle_trans _ _ _ B). unfold slack, distinct.
  change (nodup pair_eq_dec (joint_answers 0 0 agree_data)) with [(0, 0); (1, 1)]%nat. change (nodup pair_eq_dec (joint_answers 1 1 agree_data)) with [(0, 0); (1, 1)]%nat.
  change (nodup pair_eq_dec (joint_answers 0 1 agree_data)) with [(0, 0); (0, 1); (1, 0); (1, 1)]%nat. cbn [length INR Nat.mul Nat.add].
  pose proof ln2_half as L. assert (/ ln 2 <= 2) by (rewrite <- (Rinv_inv 2) at 2; apply Rinv_le_contravar; lra). unfold Rdiv. lra.
Qed.
Print Assumptions C126_converse_refuted.

(** The same model with the dependence the other way round reproduces the data and gets a zero by C126_matched. *)
Definition support_probs : list (list (list R)) := repeat [[3 / 4; 1 / 4]; [3 / 4; 1 / 4]] 8 ++ repeat [[1 / 4; 3 / 4]; [1 / 4; 3 / 4]] 8.
Example C126_nonvacuous : (2 <= length agree_data)%nat /\ (forall i, (i < 2)%nat -> answered i agree_data) /\ support_probs <> [] /\
  (forall r i, In r support_probs -> (i < 2)%nat -> is_distribution (nth i r []) 2) /\
  incl (joint_answers 0 1 agree_data) (list_prod (seq 0 2) (seq 0 2)) /\
  (forall k l, (k < 2)%nat -> (l < 2)%nat -> frequency (joint_answers 0 1 agree_data) (k, l) = pair_probability support_probs 0 1 k l) /\
  (forall r, In r (repeat [[1 / 2; 1 / 2]; [1 / 2; 1 / 2]] 16) -> r = [[1 / 2; 1 / 2]; [1 / 2; 1 / 2]]).
Proof.
  split; [cbn; lia|]. split; [exact agree_answered|]. split; [discriminate|]. split; [|split; [|split]].
  - intros r i Hr Hi. unfold support_probs in Hr. apply in_app_or in Hr. destruct Hr as [Hr|Hr]; apply repeat_spec in Hr; subst r;
    (destruct i as [|[|i]]; [| |lia]); (split; [intros [|[|k]] Hk; try lia; cbn [nth]; lra|cbn [sumn nth]; lra]).
  - intros x Hx; repeat (destruct Hx as [<-|Hx]; [cbn; tauto|]); destruct Hx.
  - assert (Q : forall k l, pair_probability support_probs 0 1 k l = (nth k [3 / 4; 1 / 4] 0 * nth l [3 / 4; 1 / 4] 0 + nth k [1 / 4; 3 / 4] 0 * nth l [1 / 4; 3 / 4] 0) / 2).
    { intros k l. unfold pair_probability, mean, support_probs, rsum. cbn -[INR Rdiv Rmult Rplus IZR nth]. cbn [INR nth]. field. }
    intros [|[|k]] [|[|l]] Hk Hl; try lia; rewrite Q; unfold frequency; cbn -[INR]; cbn [INR]; lra.
  - intros r Hr. now apply repeat_spec in Hr.
Qed.
