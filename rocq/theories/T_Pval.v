(** Theorems about the level of the tests of local independence (C134). *)
From Verif Require Import Base BaseFacts RBase RFacts M_Data M_Logit M_Lik M_Est M_Stat M_Eval M_Pop M_Pval P_Opt3 P_Stat5 P_Eval1 P_True1 P_Cons1 P_Fit P_Pop4 P_Pval P_Pval2 S_Stat S_Logit S_Lik S_Est S_Pop S_Eval S_True S_Rao S_Fit S_Pval T_Stat T_Eval.
Import List.
Local Open Scope R_scope.

Lemma mapM_read {A B} (f : A -> result B) l : (forall a, In a l -> exists b, f a = Ok b) -> exists bs, mapM f l = Ok bs /\ forall g : result B -> fl, forall h, (forall b, g (Ok b) = h b) -> map h bs = map (fun a => g (f a)) l.
Proof.
  induction l as [|a l IH]; intro H; [exists []; split; [reflexivity|]; intros; reflexivity|]. destruct (H a (or_introl eq_refl)) as (b & Eb). destruct IH as (bs & E & G); [intros; apply H; now right|].
  exists (b :: bs). cbn [mapM]. rewrite Eb. cbn [bind]. rewrite E. cbn [bind]. split; [reflexivity|]. intros g h Hg. cbn [map]. rewrite (G g h Hg), Eb, Hg. reflexivity.
Qed.
Lemma test_reads statistic pv cols data sims i j : (i < cols)%nat -> (j < cols)%nat ->
  (exists m, statistic (Wide cols data) = Ok m) -> (forall s, In s sims -> exists m, statistic (Wide cols s) = Ok m) ->
  exists t, sampling_test statistic pv (Wide cols data) sims = Ok t /\
    nth j (nth i t []) None = pv i j (map (fun s => reported (statistic (Wide cols s)) i j) sims) (reported (statistic (Wide cols data)) i j).
Proof.
  intros Hi Hj (m & Em) HS. destruct (mapM_read (fun rows => statistic (Wide cols rows)) sims HS) as (bs & Eb & G).
  unfold sampling_test. rewrite Em. cbn [bind w_cols]. rewrite Eb. cbn [bind]. eexists. split; [reflexivity|].
  rewrite (nth_error_nth _ i [] (x := map (fun j => pv i j (map (fun m => table_entry m i j) bs) (table_entry m i j)) (seq 0 cols))).
  - rewrite (nth_error_nth _ j None (x := pv i j (map (fun m => table_entry m i j) bs) (table_entry m i j))); [|rewrite nth_error_map, nth_error_seq by exact Hj; reflexivity].
    rewrite (G (fun r => reported r i j) (fun m => table_entry m i j)) by reflexivity. reflexivity.
  - rewrite nth_error_map, nth_error_seq by exact Hi. reflexivity.
Qed.
(** What the tables of answers give. *)
Section tables.
  Context (M : nat) (cats : list nat) (N : nat) (probs : list (list (list R))) (HM : (0 < M)%nat) (HI : (0 < length cats)%nat) (HP : rect N (length cats) probs) (HA : answers_as M cats probs).
  Let I := length cats.
  Lemma complete_rect d : In d (possible_data cats (everybody cats N)) -> rect N I d.
  Proof. intro Hd. pose proof (table_rect cats (everybody cats N)) as T. rewrite everybody_length in T. apply T; [pose proof (everybody_rect cats N) as E; rewrite everybody_length in E; exact E|exact Hd|exact HI]. Qed.
  Lemma complete_cell d n i : In d (possible_data cats (everybody cats N)) -> (n < N)%nat -> (i < I)%nat -> exists k, at2 d n i = Some (Some (Z.of_nat k)) /\ (k < nth i cats O)%nat.
  Proof.
    intros Hd Hn Hi. pose proof (table_cell cats (everybody cats N)) as T. rewrite everybody_length in T. pose proof (everybody_rect cats N) as E. rewrite everybody_length in E. destruct (T E d n i Hd Hn Hi) as [C K].
    assert (A : asked (everybody cats N) n i = true).
    { unfold asked, everybody. rewrite (nth_indep _ [] (all_seen cats)) by (rewrite repeat_length; exact Hn). rewrite nth_repeat. unfold all_seen. rewrite (nth_indep _ false true) by (rewrite map_length; exact Hi).
      apply (map_nth (fun _ => true) cats O). }
    rewrite A in C. eexists. split; [exact C|now apply K].
  Qed.
  Lemma q3_ok mc d : In d (possible_data cats (everybody cats N)) -> exists m, q3_matrix M mc probs (Wide I d) = Ok m.
  Proof.
    intro Hd. destruct (C54_residuals N I M mc probs d HM HP (complete_rect d Hd)) as (r & _ & _ & E & _).
    - intros n i p Hp. now destruct (HA n i p Hp).
    - intros _ n i z Hz. destruct (complete_rect d Hd) as [L F]. assert (Hn : (n < N)%nat) by (rewrite <- L; apply nth_error_Some; unfold at2 in Hz; destruct (nth_error d n); congruence).
      assert (Hi : (i < I)%nat).
      { unfold at2 in Hz. destruct (nth_error d n) as [row|] eqn:En; [|discriminate]. rewrite Forall_forall in F. rewrite <- (F row (nth_error_In _ _ En)). apply nth_error_Some. congruence. }
      destruct (complete_cell d n i Hd Hn Hi) as (k & E & K). rewrite E in Hz. injection Hz as <-.
      pose proof (probs_cell cats (everybody cats N) probs) as PC. rewrite everybody_length in PC. destruct (HA n i _ (PC HP n i Hn Hi)) as (_ & KM & _). lia.
    - unfold q3_matrix. rewrite E. cbn [bind]. eexists. reflexivity.
  Qed.
  Lemma amid_ok b d : 1 < b -> (2 <= N)%nat -> In d (possible_data cats (everybody cats N)) -> exists m, amid_matrix b M probs (Wide I d) = Ok m.
  Proof.
    intros Hb HN Hd. unfold amid_matrix. cbn [w_cols w_rows]. destruct (complete_rect d Hd) as [L F].
    assert (Z : forall i, (i < I)%nat -> answered i (counted d)).
    { intros i Hi row Hr. unfold counted in Hr. apply in_map_iff in Hr as (row' & <- & Hr). apply (In_nth_error d) in Hr as (n & Hn). assert (Hn' : (n < N)%nat) by (rewrite <- L; apply nth_error_Some; congruence).
      destruct (complete_cell d n i Hd Hn' Hi) as (k & E & _). unfold at2 in E. rewrite Hn in E. rewrite (nth_error_nth _ i None (x := Some (Z.to_nat (Z.of_nat k)))); [discriminate|]. rewrite nth_error_map, E. reflexivity. }
    rewrite data_mi_ok. 2:{ intros i j Hij Hj. rewrite joint_length by (apply Z; lia). unfold counted. rewrite map_length. lia. } cbn [bind].
    destruct (C72_expected b I M probs Hb) as (e & E & _); [destruct HP as [LP _]; intros ->; cbn in LP; lia| |].
    - intros r i Hr Hi. apply (In_nth_error probs) in Hr as (n & Hn). assert (Hn' : (n < N)%nat) by (destruct HP as [<- _]; apply nth_error_Some; congruence).
      pose proof (probs_cell cats (everybody cats N) probs) as PC. rewrite everybody_length in PC. specialize (PC HP n i Hn' Hi). destruct (HA n i _ PC) as (LM & _ & P0 & _ & P1).
      unfold at2 in PC. rewrite Hn in PC. rewrite (nth_error_nth _ _ [] PC). split; [intros k _; apply P0|]. rewrite <- P1, rsum_nth, LM. reflexivity.
    - rewrite E. cbn [bind]. eexists. reflexivity.
  Qed.
End tables.
Section levels.
  Context (M : nat) (cats : list nat) (N : nat) (probs : list (list (list R))) (samples i j : nat).
  Context (HM : (0 < M)%nat) (HP : rect N (length cats) probs) (HA : answers_as M cats probs) (Hs : (1 <= samples)%nat) (Hi : (i < length cats)%nat) (Hj : (j < length cats)%nat) (Hij : i <> j).
  Context (statistic : wide cell -> result (list (list fl))) (HS : forall d, In d (possible_data cats (everybody cats N)) -> exists m, statistic (Wide (length cats) d) = Ok m).
  Let space := possible_data cats (everybody cats N).
  Let w := table_probability (answering probs).
  Let mean (f : list (list cell) -> R) : R := over space (fun d => w d * f d).
  Let v (d : list (list cell)) : fl := reported (statistic (Wide (length cats) d)) i j.
  Lemma chance_draws e : chance cats N probs samples e = draws mean (S samples) (fun l => ind (match l with d :: sims => e d sims | [] => false end)).
  Proof. unfold chance. change (on_average cats (everybody cats N) probs) with mean. apply (draws_ext space w (tables_nonneg M cats N probs HA)). intros [|d sims] _; reflexivity. Qed.
  Lemma tied_draws : chance cats N probs samples (tied (fun d => statistic (Wide (length cats) d)) i j) = draws mean (S samples) (fun l => ind (bound_to v l)).
  Proof. rewrite chance_draws. apply (draws_ext space w (tables_nonneg M cats N probs HA)). intros [|d sims] _; reflexivity. Qed.
  Lemma significant_reads pv alpha : chance cats N probs samples (fun data sims => significant alpha i j (sampling_test statistic pv (Wide (length cats) data) sims)) =
    draws mean (S samples) (fun l => ind (match l with a :: r => match pv i j (map v r) (v a) with Some p => if Rle_dec p alpha then true else false | None => false end | [] => false end)).
  Proof.
    rewrite chance_draws. apply (draws_ext space w (tables_nonneg M cats N probs HA)). intros [|d sims] [_ Hin]; [reflexivity|].
    destruct (test_reads statistic pv (length cats) d sims i j Hi Hj) as (t & E & V); [apply HS, Hin; now left|intros s Hss; apply HS, Hin; now right|].
    unfold significant. rewrite E, V. reflexivity.
  Qed.
End levels.

(** If the answers come from the model, a p-value of at most [alpha] has at most the probability [alpha], up to the
    number of samples and to ties. *)
Theorem C134_q3 : forall M mc cats N probs samples i j alpha,
  (0 < M)%nat -> rect N (length cats) probs -> answers_as M cats probs -> (1 <= samples)%nat -> (i < length cats)%nat -> (j < length cats)%nat -> i <> j -> 0 <= alpha ->
  chance cats N probs samples (fun data simulated => significant alpha i j (q3_test M mc probs (Wide (length cats) data) simulated)) <=
  alpha + (2 - alpha) / INR (S samples) + chance cats N probs samples (tied (fun data => q3_matrix M mc probs (Wide (length cats) data)) i j).
Proof.
  intros M mc cats N probs samples i j alpha HM HP HA Hs Hi Hj Hij Ha. unfold q3_test.
  assert (HS : forall d, In d (possible_data cats (everybody cats N)) -> exists m, q3_matrix M mc probs (Wide (length cats) d) = Ok m) by (intros d Hd; apply (q3_ok M cats N probs HM ltac:(lia) HP HA mc d Hd)).
  rewrite (significant_reads M cats N probs samples i j HA Hi Hj _ HS), (tied_draws M cats N probs samples i j HA).
  apply (q3_level _ _ (tables_nonneg M cats N probs HA) (tables_one M cats N probs HP HA) _ i j Hij samples alpha Hs Ha).
Qed.
Print Assumptions C134_q3.
(** The statistic of the second test: the absolute difference of the observed and the expected mutual information. *)
Lemma zip_entry {A B C} (f : A -> B -> C) : forall l l' n a b, nth_error l n = Some a -> nth_error l' n = Some b -> nth_error (zip_with f l l') n = Some (f a b).
Proof. induction l as [|x l IH]; intros [|y l'] [|n] a b Ha Hb; try discriminate; cbn in *; [congruence|now apply IH]. Qed.
Theorem C134_amid_values : forall b M probs data m, amid_matrix b M probs data = Ok m ->
  exists D E, data_mutual_information b (w_cols data) (counted (w_rows data)) = Ok D /\ expected_mutual_information b (w_cols data) M probs = Ok E /\
    forall i j x y, entry D i j x -> entry E i j y -> entry m i j (Rabs (x - y)).
Proof.
  intros b M probs data m H. unfold amid_matrix in H. destruct (data_mutual_information b (w_cols data) (counted (w_rows data))) as [D|] eqn:ED; [|discriminate]. cbn [bind] in H.
  destruct (expected_mutual_information b (w_cols data) M probs) as [E|] eqn:EE; [|discriminate]. cbn [bind] in H. injection H as <-. exists D, E. split; [reflexivity|]. split; [reflexivity|]. intros i j x y Hx Hy. unfold entry in *.
  assert (RW : forall (l : list (list fl)) v, nth_error (nth i l []) j = Some v -> nth_error l i = Some (nth i l [])) by (intros l v Hv; apply nth_error_nth_lt; destruct (Nat.lt_ge_cases i (length l)); [assumption|]; rewrite nth_overflow in Hv by assumption; destruct j; discriminate).
  assert (Z : nth_error (amid D E) i = Some (map fabs (zip_with fsub (nth i D []) (nth i E [])))) by (unfold amid, mid; rewrite nth_error_map, (zip_entry (zip_with fsub) D E i (nth i D []) (nth i E []) (RW D _ Hx) (RW E _ Hy)); reflexivity).
  rewrite (nth_error_nth _ _ [] Z), nth_error_map, (zip_entry fsub _ _ j _ _ Hx Hy). reflexivity.
Qed.
Print Assumptions C134_amid_values.
Theorem C134_amid : forall b M cats N probs samples i j alpha,
  1 < b -> (0 < M)%nat -> (2 <= N)%nat -> rect N (length cats) probs -> answers_as M cats probs -> (1 <= samples)%nat -> (i < length cats)%nat -> (j < length cats)%nat -> i <> j -> 0 <= alpha ->
  chance cats N probs samples (fun data simulated => significant alpha i j (amid_test b M probs (Wide (length cats) data) simulated)) <=
  alpha + (1 - alpha) / INR (S samples) + chance cats N probs samples (tied (fun data => amid_matrix b M probs (Wide (length cats) data)) i j).
Proof.
  intros b M cats N probs samples i j alpha Hb HM HN HP HA Hs Hi Hj Hij Ha. unfold amid_test.
  assert (HS : forall d, In d (possible_data cats (everybody cats N)) -> exists m, amid_matrix b M probs (Wide (length cats) d) = Ok m) by (intros d Hd; apply (amid_ok M cats N probs HM ltac:(lia) HP HA b d Hb HN Hd)).
  rewrite (significant_reads M cats N probs samples i j HA Hi Hj _ HS), (tied_draws M cats N probs samples i j HA).
  apply (amid_level _ _ (tables_nonneg M cats N probs HA) (tables_one M cats N probs HP HA) _ i j Hij samples alpha Hs Ha).
Qed.
Print Assumptions C134_amid.

(** The observed statistic is not counted among the simulated ones: p-values of 0 occur, in a right model, with at least
    the probability 1 / (samples + 1), for every model and every pair of items. *)
Theorem C134_zero_refuted : forall b M mc cats N probs samples i j,
  1 < b -> (0 < M)%nat -> rect N (length cats) probs -> answers_as M cats probs -> (1 <= samples)%nat -> (i < length cats)%nat -> (j < length cats)%nat -> i <> j ->
  / INR (S samples) <= chance cats N probs samples (fun data simulated => significant 0 i j (q3_test M mc probs (Wide (length cats) data) simulated)) /\
  ((2 <= N)%nat -> / INR (S samples) <= chance cats N probs samples (fun data simulated => significant 0 i j (amid_test b M probs (Wide (length cats) data) simulated))).
Proof.
  intros b M mc cats N probs samples i j Hb HM HP HA Hs Hi Hj Hij. split; [|intro HN].
  - assert (HS : forall d, In d (possible_data cats (everybody cats N)) -> exists m, q3_matrix M mc probs (Wide (length cats) d) = Ok m) by (intros d Hd; apply (q3_ok M cats N probs HM ltac:(lia) HP HA mc d Hd)).
    unfold q3_test. rewrite (significant_reads M cats N probs samples i j HA Hi Hj _ HS).
    apply (q3_zero _ _ (tables_nonneg M cats N probs HA) (tables_one M cats N probs HP HA) _ i j Hij samples Hs).
  - assert (HS : forall d, In d (possible_data cats (everybody cats N)) -> exists m, amid_matrix b M probs (Wide (length cats) d) = Ok m) by (intros d Hd; apply (amid_ok M cats N probs HM ltac:(lia) HP HA b d Hb HN Hd)).
    unfold amid_test. rewrite (significant_reads M cats N probs samples i j HA Hi Hj _ HS).
    apply (amid_zero _ _ (tables_nonneg M cats N probs HA) (tables_one M cats N probs HP HA) _ i j Hij samples Hs).
Qed.
Print Assumptions C134_zero_refuted.

(** A Q3 that is NaN: all respondents have the same scores and give the same answer to item [i]. *)
Lemma alike_nan M mc cats N probs data i j : (0 < M)%nat -> (2 <= N)%nat -> rect N (length cats) probs -> answers_as M cats probs -> In data (possible_data cats (everybody cats N)) ->
  (i < length cats)%nat -> (j < length cats)%nat -> alike N i probs data ->
  exists m, q3_matrix M mc probs (Wide (length cats) data) = Ok m /\ nth j (nth i m []) None = None /\ nth i (nth j m []) None = None.
Proof.
  intros HM HN HP HA Hd Hi Hj (p & c & Hc1 & Hc2 & HE). pose proof (complete_rect cats N ltac:(lia) data Hd) as HR.
  destruct (C54_residuals N (length cats) M mc probs data HM HP HR) as (r & Rr & V & E & _).
  - intros n k q Hq. now destruct (HA n k q Hq).
  - intros _ n k z Hz. destruct HR as [L F]. assert (Hn : (n < N)%nat) by (rewrite <- L; apply nth_error_Some; unfold at2 in Hz; destruct (nth_error data n); congruence).
    assert (Hk : (k < length cats)%nat).
    { unfold at2 in Hz. destruct (nth_error data n) as [row|] eqn:En; [|discriminate]. rewrite Forall_forall in F. rewrite <- (F row (nth_error_In _ _ En)). apply nth_error_Some. congruence. }
    destruct (complete_cell cats N data n k Hd Hn Hk) as (q & Eq & K). rewrite Eq in Hz. injection Hz as <-.
    pose proof (probs_cell cats (everybody cats N) probs) as PC. rewrite everybody_length in PC. destruct (HA n k _ (PC HP n k Hn Hk)) as (_ & KM & _). lia.
  - unfold q3_matrix. rewrite E. cbn [bind w_cols]. eexists. split; [reflexivity|].
    pose proof (probs_cell cats (everybody cats N) probs) as PC. rewrite everybody_length in PC. specialize (PC HP).
    destruct Rr as [Lr Fr]. rewrite Forall_forall in Fr.
    assert (Cell : forall n k, (n < N)%nat -> (k < length cats)%nat -> seen data n k = true).
    { intros n k Hn Hk. unfold seen. destruct (complete_cell cats N data n k Hd Hn Hk) as (q & -> & _). destruct (Z.eqb_spec (Z.of_nat q) (-1)); [lia|reflexivity]. }
    assert (CC : cells_complete r = true).
    { unfold cells_complete. apply forallb_forall. intros row Hrow. apply forallb_forall. intros x Hx. apply In_nth_error in Hrow as (n & Hn). pose proof (Fr row (nth_error_In _ _ Hn)) as LR. apply In_nth_error in Hx as (k & Hk).
      assert (Hn' : (n < N)%nat) by (rewrite <- Lr; apply nth_error_Some; congruence). assert (Hk' : (k < length cats)%nat) by (rewrite <- LR; apply nth_error_Some; congruence).
      destruct (V n k _ Hn' Hk' (PC n k Hn' Hk')) as [[V1 _] _]. destruct x; [reflexivity|]. exfalso. rewrite (Cell n k Hn' Hk') in V1. discriminate V1. unfold at2. now rewrite Hn. }
    destruct c as [z|]; [|congruence].
    set (e := match mc with None => IZR z - mean_score p | Some _ => 1 - nth (Z.to_nat z) p 0 end).
    assert (K : forall u, In u (values r i) -> u = e).
    { intros u Hu. unfold values in Hu. apply in_map_iff in Hu as (row & <- & Hrow). apply In_nth_error in Hrow as (n & Hn). assert (Hn' : (n < N)%nat) by (rewrite <- Lr; apply nth_error_Some; congruence).
      destruct (HE n Hn') as [E1 E2]. destruct (V n i p Hn' Hi E1) as [_ V2]. specialize (V2 z (Cell n i Hn' Hi) E2). unfold at2 in V2. rewrite Hn in V2. rewrite (nth_error_nth _ _ None V2). reflexivity. }
    pose proof (C50_constant_column_refuted (length cats) r i j e Hi Hj ltac:(lia) CC K) as X. destruct (C50_symmetric_partial (length cats) r i j Hi Hj) as [Y _].
    split; [exact (nth_error_nth _ _ None X)|]. rewrite X in Y. symmetry in Y. exact (nth_error_nth _ _ None Y).
Qed.
Theorem C134_alike_refuted : forall M mc cats N probs data simulated i j, (0 < M)%nat -> (2 <= N)%nat -> rect N (length cats) probs -> answers_as M cats probs ->
  In data (possible_data cats (everybody cats N)) -> simulated <> [] -> (forall s, In s simulated -> In s (possible_data cats (everybody cats N))) ->
  (i < length cats)%nat -> (j < length cats)%nat -> i <> j -> alike N i probs data ->
  reported (q3_matrix M mc probs (Wide (length cats) data)) i j = None /\
  exists t, q3_test M mc probs (Wide (length cats) data) simulated = Ok t /\ nth j (nth i t []) None = Some 0 /\ nth i (nth j t []) None = Some 0.
Proof.
  intros M mc cats N probs data sims i j HM HN HP HA Hd Hne HS Hi Hj Hij HL. destruct (alike_nan M mc cats N probs data i j HM HN HP HA Hd Hi Hj HL) as (m & Em & E1 & E2).
  unfold reported at 1. rewrite Em. split; [exact E1|].
  assert (HO : forall s, In s sims -> exists m, q3_matrix M mc probs (Wide (length cats) s) = Ok m) by (intros s Hs; apply (q3_ok M cats N probs HM ltac:(lia) HP HA mc s); now apply HS).
  destruct (test_reads (q3_matrix M mc probs) q3_p_value (length cats) data sims i j Hi Hj (ex_intro _ m Em) HO) as (t & Et & V).
  destruct (test_reads (q3_matrix M mc probs) q3_p_value (length cats) data sims j i Hj Hi (ex_intro _ m Em) HO) as (t' & Et' & V').
  rewrite Et in Et'. injection Et' as <-. exists t. split; [exact Et|]. rewrite V, V', Em. cbn [reported]. rewrite E1, E2.
  assert (Z : forall a b l, a <> b -> l <> [] -> q3_p_value a b l None = Some 0).
  { intros a b l D L. destruct (C57_q3 a b l None L) as [_ C]. destruct (C D) as (q & -> & _ & Q). f_equal. rewrite Q.
    assert (F : forall s : fl, below_nan s None = false /\ at_least_nan s None = false) by (intros [[x| |]|]; split; reflexivity).
    rewrite (filter_ext (fun s => below_nan s None) (fun _ => false)) by (intros; apply F). rewrite (filter_ext (fun s => at_least_nan s None) (fun _ => false)) by (intros; apply F).
    assert (N0 : forall l : list fl, filter (fun _ => false) l = []) by (induction l0; [reflexivity|assumption]). rewrite N0. cbn [length INR]. unfold Rdiv. rewrite Rmult_0_l, Rmin_left by lra. ring. }
  assert (NM : forall f : list (list cell) -> fl, map f sims <> []) by (intro f; destruct sims; [congruence|discriminate]).
  split; [now apply Z|apply Z; [congruence|apply NM]].
Qed.
Print Assumptions C134_alike_refuted.

(** Two respondents, two items, all four answers right with probability 1/2: a p-value of 0 has at least probability 1/2. *)
Definition coins : list (list (list R)) := [[[1 / 2; 1 / 2]; [1 / 2; 1 / 2]]; [[1 / 2; 1 / 2]; [1 / 2; 1 / 2]]].
Lemma coins_rect : rect 2 2 coins. Proof. split; [reflexivity|]. repeat constructor. Qed.
Lemma coins_answers : answers_as 2 [2; 2]%nat coins.
Proof.
  intros n i p H. assert (E : p = [1 / 2; 1 / 2] /\ (i < 2)%nat) by (destruct n as [|[|[|n]]], i as [|[|[|i]]]; cbn in H; try discriminate; injection H as <-; split; auto).
  destruct E as [-> Hi]. assert (K : nth i [2; 2]%nat O = 2%nat) by (destruct i as [|[|i]]; [reflexivity|reflexivity|lia]). rewrite K. repeat split; [lia| | |cbn; lra].
  - intros [|[|k]]; cbn; try lra. destruct k; lra.
  - intros [|[|k]] Hk; try lia. cbn. destruct k; reflexivity.
Qed.
Theorem C134_ties_refuted : forall mc samples, (1 <= samples)%nat ->
  1 / 2 <= chance [2; 2]%nat 2 coins samples (fun data simulated => significant 0 0 1 (q3_test 2 mc coins (Wide 2 data) simulated)).
Proof.
  intros mc samples Hs. set (cats := [2; 2]%nat). pose proof (tables_nonneg 2 cats 2 coins coins_answers) as TN. pose proof (tables_one 2 cats 2 coins coins_rect coins_answers) as T1.
  rewrite (chance_draws 2 cats 2 coins samples coins_answers).
  set (same := fun d : list (list cell) => match at2 d 0 0, at2 d 1 0 with Some (Some a), Some (Some b) => (a =? b)%Z | _, _ => false end).
  apply (Rle_trans _ (draws (fun f => over (possible_data cats (everybody cats 2)) (fun d => table_probability (answering coins) d * f d)) (S samples) (fun l => ind (match l with d :: _ => same d | [] => false end)))).
  - cbn [draws].
    rewrite (over_ext _ _ (fun d => table_probability (answering coins) d * ind (same d))).
    + unfold over, cats. cbn [possible_data everybody repeat possible_rows all_seen map seq flat_map app].
      unfold same, table_probability, answering, likelihood, at2, mapi, coins, ind. cbn. change (Pos.to_nat 1) with 1%nat. cbn [nth]. lra.
    + intros d _. f_equal. apply (draws_const _ _ T1).
  - apply (draws_le _ _ TN). intros [|d sims] [L Hin]; [cbn; lra|]. destruct (same d) eqn:ES; [|cbn [ind]; apply ind_nonneg].
    assert (Hd : In d (possible_data cats (everybody cats 2))) by (apply Hin; now left).
    assert (AL : alike 2 0 coins d).
    { unfold same in ES. destruct (complete_cell cats 2 d 0 0 Hd ltac:(lia) ltac:(cbn; lia)) as (a & Ea & _). destruct (complete_cell cats 2 d 1 0 Hd ltac:(lia) ltac:(cbn; lia)) as (b & Eb & _). rewrite Ea, Eb in ES. apply Z.eqb_eq in ES.
      exists [1 / 2; 1 / 2], (Some (Z.of_nat a)). split; [discriminate|]. split; [intro X; injection X; lia|]. intros [|[|n]] Hn; try lia; (split; [reflexivity|]); [exact Ea|rewrite ES; exact Eb]. }
    destruct (C134_alike_refuted 2 mc cats 2 coins d sims 0 1 ltac:(lia) ltac:(lia) coins_rect coins_answers Hd) as (_ & t & Et & V & _); try (cbn; lia); try assumption.
    + intros ->. cbn in L. lia.
    + intros s Hss. apply Hin. now right.
    + change (length cats) with 2%nat in Et. unfold significant. rewrite Et, V. destruct (Rle_dec 0 0); [cbn [ind]; lra|lra].
Qed.
Print Assumptions C134_ties_refuted.

(** The simulated data sets of q3 are complete tables of answers the model can give. *)
Lemma rows_in cats : forall row, length row = length cats -> (forall i, (i < length cats)%nat -> exists k, nth_error row i = Some (Some (Z.of_nat k)) /\ (k < nth i cats O)%nat) -> In row (possible_rows cats (all_seen cats)).
Proof.
  induction cats as [|K cats IH]; intros [|c row] L H; try discriminate; [now left|]. cbn [all_seen map possible_rows]. destruct (H O ltac:(cbn; lia)) as (k & E & Hk). cbn in E, Hk. injection E as ->.
  apply in_flat_map. exists k. split; [apply in_seq; lia|]. apply in_map. apply IH; [cbn in L; lia|]. intros i Hi. apply (H (S i)). cbn. lia.
Qed.
Lemma data_in cats : forall N data, length data = N -> (forall row, In row data -> In row (possible_rows cats (all_seen cats))) -> In data (possible_data cats (everybody cats N)).
Proof.
  induction N as [|N IH]; intros [|row data] L H; try discriminate; [now left|]. unfold everybody. cbn [repeat possible_data]. apply in_flat_map. exists row. split; [apply H; now left|]. apply in_map. apply IH; [cbn in L; lia|]. intros; apply H; now right.
Qed.
Theorem C134_simulated : forall q samples M mc cats N probs data, (0 < M)%nat -> (0 < length cats)%nat -> rect N (length cats) probs -> answers_as M cats probs ->
  (forall n i k, (n < N)%nat -> (i < length cats)%nat -> (k < nth i cats O)%nat -> 0 < nth k (probs_at probs n i) 0) -> Forall (fun K => (1 <= K)%nat) cats ->
  (forall s r i, length (q s r i) = M /\ Forall (Rlt 0) (q s r i)) -> In data (possible_data cats (everybody cats N)) ->
  exists m simulated t, q3_with_p_values q samples M mc probs (Wide (length cats) data) = Ok (m, t) /\
    q3_matrix M mc probs (Wide (length cats) data) = Ok m /\ q3_test M mc probs (Wide (length cats) data) simulated = Ok t /\
    length simulated = samples /\ forall s d, nth_error simulated s = Some d -> sample_test_data (q s) (some3 probs) = Ok d /\ In d (possible_data cats (everybody cats N)).
Proof.
  intros q samples M mc cats N probs data HM HI HP HA Hpos HK Hq Hd. destruct (q3_ok M cats N probs HM HI HP HA mc data Hd) as (m & Em).
  pose proof (probs_cell cats (everybody cats N) probs) as PC. rewrite everybody_length in PC. specialize (PC HP).
  assert (T : table cats M (some3 probs) (fun r i k => nth k (probs_at probs r i) 0)).
  { intros r row Er. unfold some3 in Er. rewrite nth_error_map in Er. destruct (nth_error probs r) as [pr|] eqn:Ep; [|discriminate]. injection Er as <-.
    assert (Hr : (r < N)%nat) by (destruct HP as [<- _]; apply nth_error_Some; congruence). destruct HP as [LP FP]. rewrite Forall_forall in FP. pose proof (FP pr (nth_error_In _ _ Ep)) as Lp. split; [now rewrite map_length|].
    intros i K c EK Ec. rewrite nth_error_map in Ec. destruct (nth_error pr i) as [p|] eqn:Epi; [|discriminate]. injection Ec as <-. assert (Hi : (i < length cats)%nat) by (apply nth_error_Some; congruence).
    pose proof (PC r i Hr Hi) as X. assert (Y : probs_at probs r i = p) by (unfold at2 in X; rewrite Ep, Epi in X; congruence). destruct (HA r i _ X) as (LM & KM & P0 & PZ & P1). rewrite Y in *.
    pose proof (nth_error_nth _ _ O EK) as NK. rewrite NK in *. pose proof (Forall_forall (fun K => (1 <= K)%nat) cats) as [FF _]. specialize (FF HK K (nth_error_In _ _ EK)).
    split; [lia|]. split; [now rewrite map_length|]. split; [intros k Hk; rewrite nth_error_map, (nth_error_nth_lt p k 0) by lia; reflexivity|].
    split; [intros; apply P0|]. split; [rewrite <- P1, rsum_nth, LM; reflexivity|]. split; [|intros k Hk; apply PZ; lia].
    intros k Hk. specialize (Hpos r i k Hr Hi). rewrite NK, Y in Hpos. now apply Hpos. }
  assert (S1 : forall s, exists d, sample_test_data (q s) (some3 probs) = Ok d /\ In d (possible_data cats (everybody cats N))).
  { intro s. destruct (sample_table (q s) cats M (some3 probs) _ T (Hq s)) as (d & Ed & Ld & Fd & Cd). exists d. split; [exact Ed|]. unfold some3 in Ld. rewrite map_length in Ld. destruct HP as [LP _]. rewrite LP in Ld.
    apply data_in; [exact Ld|]. intros row Hrow. rewrite Forall_forall in Fd. apply rows_in; [now apply Fd|]. intros i Hi. apply In_nth_error in Hrow as (n & Hn).
    assert (Hn' : (n < length (some3 probs))%nat) by (unfold some3; rewrite map_length, LP, <- Ld; apply nth_error_Some; congruence).
    destruct (Cd n i (nth i cats O) Hn' (nth_error_nth_lt cats i O Hi)) as (k & Ek & Hk & _). exists k. split; [|exact Hk]. unfold at2 in Ek. now rewrite Hn in Ek. }
  assert (S2 : forall n i, exists sims, mapM (fun s => sample_test_data (q s) (some3 probs)) (seq i n) = Ok sims /\ length sims = n /\
    forall s d, nth_error sims s = Some d -> sample_test_data (q (i + s)%nat) (some3 probs) = Ok d /\ In d (possible_data cats (everybody cats N))).
  { induction n as [|n IHn]; intro i; [exists []; split; [reflexivity|]; split; [reflexivity|intros [|s] d X; discriminate]|]. destruct (IHn (S i)) as (sims & E & L & F). destruct (S1 i) as (d & Ed & Hin). exists (d :: sims). cbn [seq mapM]. rewrite Ed. cbn [bind]. rewrite E. cbn [bind length]. split; [reflexivity|]. split; [lia|].
    intros [|s] x X; cbn [nth_error] in X; [injection X as <-; rewrite Nat.add_0_r; auto|]. rewrite <- Nat.add_succ_comm. now apply F. }
  destruct (S2 samples O) as (sims & Es & Ls & Fs). cbn [Nat.add] in Fs.
  destruct (mapM_read (fun rows => q3_matrix M mc probs (Wide (length cats) rows)) sims) as (bs & Eb & _); [intros s Hs; apply (q3_ok M cats N probs HM HI HP HA mc s); apply In_nth_error in Hs as (n & Hn); now apply (Fs n)|].
  exists m, sims. unfold q3_with_p_values, simulate. rewrite Em. cbn [bind]. rewrite Es. cbn [bind]. unfold q3_test, sampling_test. rewrite Em. cbn [bind w_cols]. rewrite Eb. cbn [bind rmap]. eexists. split; [reflexivity|]. split; [reflexivity|]. split; [reflexivity|]. auto.
Qed.
Print Assumptions C134_simulated.

(** Two items, three respondents: what the theorems speak of. *)
Definition three_people : list (list (list R)) := [[[1 / 2; 1 / 2]; [1 / 4; 3 / 4]]; [[1 / 3; 2 / 3]; [1 / 2; 1 / 2]]; [[3 / 4; 1 / 4]; [2 / 3; 1 / 3]]].
Example C134_nonvacuous : rect 3 2 three_people /\ answers_as 2 [2; 2]%nat three_people /\
  In [[Some 1; Some 0]; [Some 0; Some 0]; [Some 1; Some 1]]%Z (possible_data [2; 2]%nat (everybody [2; 2]%nat 3)) /\
  chance [2; 2]%nat 3 three_people 999 (fun data simulated => significant (1 / 20) 0 1 (q3_test 2 None three_people (Wide 2 data) simulated)) <=
  1 / 20 + 2 / 1000 + chance [2; 2]%nat 3 three_people 999 (tied (fun data => q3_matrix 2 None three_people (Wide 2 data)) 0 1).
Proof.
  assert (HR : rect 3 2 three_people) by (split; [reflexivity|]; repeat constructor).
  assert (HA : answers_as 2 [2; 2]%nat three_people).
  { intros n i p H. assert (Hi : (i < 2)%nat) by (destruct n as [|[|[|[|n]]]], i as [|[|[|i]]]; cbn in H; try discriminate; lia). assert (K : nth i [2; 2]%nat O = 2%nat) by (destruct i as [|[|i]]; [reflexivity|reflexivity|lia]). rewrite K.
    assert (E : exists x y, p = [x; y] /\ 0 <= x /\ 0 <= y /\ x + y = 1) by (destruct n as [|[|[|[|n]]]], i as [|[|[|i]]]; cbn in H; try discriminate; injection H as <-; do 2 eexists; (split; [reflexivity|lra])).
    destruct E as (x & y & -> & Hx & Hy & S). repeat split; [lia| | |cbn; lra].
    - intros [|[|k]]; cbn; try lra. destruct k; lra.
    - intros [|[|k]] Hk; try lia. cbn. destruct k; reflexivity. }
  split; [exact HR|]. split; [exact HA|]. split.
  - apply data_in; [reflexivity|]. intros row Hrow. repeat (destruct Hrow as [<-|Hrow]; [cbn; tauto|]). destruct Hrow.
  - pose proof (C134_q3 2 None [2; 2]%nat 3 three_people 999 0 1 (1 / 20) ltac:(lia) HR HA ltac:(lia) ltac:(cbn; lia) ltac:(cbn; lia) ltac:(lia) ltac:(lra)) as X.
    eapply Rle_trans; [exact X|]. apply Rplus_le_compat_r. assert (E : INR 1000 = 1000) by (rewrite INR_IZR_INZ; reflexivity). rewrite E. lra.
Qed.
