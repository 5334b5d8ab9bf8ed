(** Observed and model probabilities of groups of respondents. *)
From Coq Require Import Permutation Sorted.
From Verif Require Import Base BaseFacts RBase RFacts M_Data M_Mono M_Lik M_Est M_Stat M_Grid M_Eval S_Lik S_Est S_Eval P_CV P_Mono1 P_Lik3 P_Grid1 P_Est1 P_Eval1 P_Eval2 P_Eval6.
Local Open Scope R_scope.

(** ** Counting *)
Lemma list_sum_indicator z f : forall M s, (s <= z < s + M)%nat ->
  list_sum (map (fun k => (if (z =? k)%nat then S (f k) else f k)) (seq s M)) = S (list_sum (map f (seq s M))).
Proof.
  induction M as [|M IH]; intros s H; [lia|]. cbn [seq map]. change (list_sum (?a :: ?l)) with (a + list_sum l)%nat.
  destruct (Nat.eqb_spec z s) as [->|N].
  - assert (E : map (fun k => if (s =? k)%nat then S (f k) else f k) (seq (S s) M) = map f (seq (S s) M)).
    { apply map_ext_in. intros k Hk. apply in_seq in Hk. destruct (Nat.eqb_spec s k); [lia|reflexivity]. }
    rewrite E. lia.
  - rewrite IH by lia. lia.
Qed.
Lemma count_total M l : Forall (fun z => (0 <= z < Z.of_nat M)%Z) l ->
  list_sum (map (fun k => count (fun z => (z =? Z.of_nat k)%Z) l) (seq 0 M)) = length l.
Proof.
  induction 1 as [|z l Hz HF IH].
  - cbn [length]. induction M as [|M IM] using nat_ind; [reflexivity|]. rewrite seq_S, map_app, list_sum_app'. cbn. cbn in IM. lia.
  - cbn [length]. rewrite <- IH. rewrite <- (list_sum_indicator (Z.to_nat z)) by lia. f_equal. apply map_ext. intros k. unfold count. cbn [filter].
    destruct (Z.eqb_spec z (Z.of_nat k)) as [->|N].
    + rewrite Nat2Z.id, Nat.eqb_refl. reflexivity.
    + destruct (Nat.eqb_spec (Z.to_nat z) k); [lia|reflexivity].
Qed.
Lemma zmax_bound M l : Forall (fun z => (0 <= z < Z.of_nat M)%Z) l -> (-1 <= zmax l < Z.of_nat M)%Z.
Proof. unfold zmax. induction 1 as [|z l Hz HF IH]; cbn [fold_right]; lia. Qed.
Lemma bincount_ok M l : Forall (fun z => (0 <= z < Z.of_nat M)%Z) l ->
  bincount M l = Ok (map (fun k => count (fun z => (z =? Z.of_nat k)%Z) l) (seq 0 M)).
Proof.
  intros H. unfold bincount. replace (forallb _ l) with true.
  - pose proof (zmax_bound M l H). rewrite Nat.max_l by lia. reflexivity.
  - symmetry. apply forallb_forall. rewrite Forall_forall in H. intros z Hz. apply Z.leb_le. specialize (H z Hz). lia.
Qed.
Section Members.
  Variables (I M : nat) (rows : list (list cell)).
  Hypothesis (HR : rect (length rows) I rows) (HB : answers_below M rows).
  Lemma cell_at n i : (n < length rows)%nat -> (i < I)%nat -> at2 rows n i = Some (nth i (nth n rows []) None).
  Proof.
    intros Hn Hi. unfold at2. rewrite (nth_error_nth_lt rows n []) by exact Hn. destruct HR as [_ HF]. rewrite Forall_forall in HF.
    pose proof (HF _ (nth_In _ [] Hn)) as L. cbv beta in L. apply nth_error_nth_lt. lia.
  Qed.
  Lemma present_members i G : (i < I)%nat -> (forall n, In n G -> (n < length rows)%nat) ->
    let l := present (map (fun n => nth i (nth n rows []) None) G) in
    Forall (fun z => (0 <= z < Z.of_nat M)%Z) l /\ length l = tally (fun n => seen rows n i) G /\
    forall k, count (fun z => (z =? Z.of_nat k)%Z) l = tally (fun n => chose rows n i k) G.
  Proof.
    intros Hi. induction G as [|n G IH]; intros HG; [cbv zeta; split; [constructor|split; reflexivity]|]. cbv zeta in *.
    destruct IH as (I1 & I2 & I3); [intros; apply HG; now right|]. assert (Hn : (n < length rows)%nat) by (apply HG; now left).
    pose proof (cell_at n i Hn Hi) as E. pose proof (HB n i) as B. unfold tally in *. cbn [map filter].
    unfold seen, chose in *. rewrite E in *. cbn [present flat_map map] in *.
    destruct (nth i (nth n rows []) None) as [z|].
    2:{ unfold missing_cell. cbn [is_m1 is_nan orb app]. split; [exact I1|]. split; [exact I2|]. intros k. apply I3. }
    unfold missing_cell. cbn [is_m1 is_nan]. rewrite Bool.orb_false_r. destruct (Z.eqb_spec z (-1)) as [->|N]; cbn [negb app].
    - split; [exact I1|]. split; [exact I2|]. intros k. destruct (Z.eqb_spec (-1) (Z.of_nat k)); [lia|]. apply I3.
    - destruct B as (k0 & K1 & K2); [destruct (Z.eqb_spec z (-1)); [contradiction|reflexivity]|]. apply Z.eqb_eq in K2. split; [|split].
      + constructor; [lia|exact I1].
      + cbn [length]. f_equal. exact I2.
      + intros k. unfold count in *. cbn [filter]. destruct (z =? Z.of_nat k)%Z; cbn [length]; [f_equal|]; apply I3.
  Qed.
  Lemma proportions_ok i G : (i < I)%nat -> (forall n, In n G -> (n < length rows)%nat) ->
    proportions M (column None i (map (fun n => nth n rows []) G)) = Ok (map (fun k => observed_share rows G i k) (seq 0 M)).
  Proof.
    intros Hi HG. unfold column. rewrite map_map. destruct (present_members i G Hi HG) as (P1 & P2 & P3). cbv zeta in *.
    unfold proportions. rewrite (bincount_ok M) by exact P1. cbn [bind]. rewrite map_length, seq_length, Nat.eqb_refl.
    rewrite (count_total M) by exact P1. rewrite map_map. f_equal. apply map_ext. intros k. rewrite P3, P2. reflexivity.
  Qed.
End Members.

(** ** Medians of ordered lists *)
Lemma insert_least x l : Forall (fun y => x <= y) l -> insert_r x l = x :: l.
Proof. destruct 1 as [|y l H _]; [reflexivity|]. cbn. destruct (Rle_dec x y); [reflexivity|contradiction]. Qed.
Lemma sort_sorted l : StronglySorted Rle l -> sort_r l = l.
Proof.
  unfold sort_r. induction 1 as [|x l S IH F]; [reflexivity|]. cbn [fold_right]. rewrite IH. now apply insert_least.
Qed.

(** ** The groups *)
Section Groups.
  Variables (iprob : list R -> list (list R)) (lv : nat) (cats : list nat) (scale : option (list (list R) -> list (list R)))
    (thetas : list (list R)) (rows : list (list cell)) (groups j : nat).
  Let scores := match scale with Some f => f thetas | None => thetas end.
  Let N := length rows.
  Let I := length cats.
  Let M := list_max cats.
  Hypothesis (HT : length thetas = N) (HS : length scores = N) (HN : (0 < N)%nat) (Hg : (0 < groups)%nat) (Hj : (j < lv)%nat)
    (HR : rect N I rows) (HB : answers_below M rows).
  Let score := fun n => nth j (nth n scores []) 0.
  Let order := argsort_r (column 0 j scores).
  Let gs := chunk groups order.
  Definition group_answers (rows : list (list cell)) (I M : nat) (G : list nat) := map (fun i => map (fun k => observed_share rows G i k) (seq 0 M)) (seq 0 I).
  Definition group_model (iprob : list R -> list (list R)) (thetas : list (list R)) (I M : nat) (G : list nat) :=
    map (fun i => map (fun k => Some (model_share iprob thetas G i k)) (seq 0 M)) (seq 0 I).
  Lemma order_len : length order = N.
  Proof. unfold order, argsort_r. rewrite map_length, sort_indexed_length. unfold column. now rewrite map_length. Qed.
  Lemma score_nth n : (n < N)%nat -> nth n (column 0 j scores) 0 = score n.
  Proof. intros Hn. unfold column, score. apply nth_error_nth. rewrite nth_error_map. rewrite (nth_error_nth_lt scores n []) by lia. reflexivity. Qed.
  Lemma order_in n : In n order -> (n < N)%nat.
  Proof. destruct (argsort_order (column 0 j scores)) as [(_ & O & _) _]. intros H. apply O in H. unfold column in H. now rewrite map_length, HS in H. Qed.
  Lemma order_sorted : StronglySorted (fun a b => score a <= score b) order.
  Proof.
    destruct (argsort_order (column 0 j scores)) as [_ S]. fold order in S. pose proof order_in as OI. revert S OI. generalize order. intros l S.
    induction S as [|x l S IH F]; intros OI; constructor.
    - apply IH. intros; apply OI; now right.
    - rewrite Forall_forall in *. intros y Hy. rewrite <- !score_nth by (apply OI; cbn; auto). auto.
  Qed.
  Lemma order_increasing : increasing_order score N order.
  Proof.
    destruct (argsort_order (column 0 j scores)) as [(O1 & O2 & O3) _]. fold order in O1, O2, O3.
    replace (length (column 0 j scores)) with N in O2 by (unfold column; now rewrite map_length).
    split; [exact O1|]. split; [exact O2|]. intros a b x y Ha Hb Hxy. rewrite <- !score_nth by (apply order_in; eapply nth_error_In; eauto). eapply O3; eauto.
  Qed.
  Lemma order_nonempty : order <> [].
  Proof. intros E. pose proof order_len as L. rewrite E in L. cbn in L. lia. Qed.
  Lemma gs_cut : cut_into order (ceil_div N groups) gs /\ length gs = ceil_div N (ceil_div N groups).
  Proof.
    split; [split|].
    - now apply chunk_concat.
    - intros g G HG. destruct (chunk_sizes groups order g G Hg order_nonempty HG) as [E P]. rewrite order_len in *. split; [destruct G; [cbn in P; lia|discriminate]|exact E].
    - unfold gs. rewrite chunk_count by (exact Hg || exact order_nonempty). now rewrite order_len.
  Qed.
  Lemma gs_members G : In G gs -> G <> [] /\ (forall n, In n G -> (n < N)%nat) /\ StronglySorted Rle (map score G).
  Proof.
    intros HG. apply In_nth_error in HG as (g & HG). destruct gs_cut as [[C1 C2] _]. split; [now apply (C2 g)|]. split.
    - intros n Hn. apply order_in. rewrite <- C1. apply in_concat. exists G. split; [apply (nth_error_In _ _ HG)|exact Hn].
    - pose proof order_sorted as S. rewrite <- C1 in S. apply nth_error_In in HG. apply in_split in HG as (a & b & E). rewrite E, concat_app in S. cbn [concat] in S.
      apply sorted_app_inv in S as (_ & S & _). apply sorted_app_inv in S as (S & _ & _). clear -S. induction S as [|x l S IH F]; [constructor|].
      cbn [map]. constructor; [exact IH|]. rewrite Forall_map. exact F.
  Qed.
  Lemma groups_ok : latent_group_probabilities iprob lv cats scale thetas rows groups (S j) =
    Ok (map (group_answers rows I M) gs, map (group_model iprob thetas I M) gs, map (group_mid scale score) gs).
  Proof.
    unfold latent_group_probabilities. fold scores. rewrite lv_column_ok by exact Hj. cbn [bind]. fold order.
    rewrite (take_rows_ok [] order thetas) by (intros n Hn; rewrite HT; now apply order_in). cbn [bind].
    rewrite (take_rows_ok 0 order (column 0 j scores)) by (intros n Hn; unfold column; rewrite map_length, HS; now apply order_in). cbn [bind].
    assert (CH : forall A (l : list A), chunked groups l = Ok (chunk groups l)) by (intros A l; unfold chunked; destruct groups; [lia|reflexivity]).
    rewrite !CH. cbn [bind].
    replace (map (fun i => nth i (column 0 j scores) 0) order) with (map score order).
    2:{ apply map_ext_in. intros n Hn. symmetry. apply score_nth. now apply order_in. }
    rewrite !chunk_map. fold gs.
    match goal with |- bind ?x _ = _ => assert (EM : x = Ok (map (group_mid scale score) gs)) end.
    { pose proof gs_members as GM. clearbody gs score. unfold group_mid. destruct scale as [f|].
      - f_equal. rewrite map_map. apply map_ext_in. intros G HG. destruct (GM G HG) as (NE & _). unfold mean_opt.
        destruct G as [|a G]; [congruence|]. cbn [map]. unfold rmean. cbn [length]. rewrite map_length. reflexivity.
      - rewrite (mapM_map_ok group_median (map score) (fun G => score (nth ((length G - 1) / 2) G O))).
        + cbn [bind]. now rewrite map_map.
        + intros G HG. destruct (GM G HG) as (NE & _ & S). unfold group_median. destruct G as [|a G]; [congruence|].
          set (GG := a :: G) in *. change (map score GG) with (score a :: map score G) at 1. f_equal. unfold median. rewrite sort_sorted by exact S.
          rewrite map_length. rewrite (nth_indep _ 0 (score O)); [now rewrite map_nth|]. rewrite map_length. unfold GG. cbn [length]. apply Nat.div_lt_upper_bound; lia. }
    rewrite EM. cbn [bind]. rewrite (take_rows_ok [] order rows) by (intros n Hn; now apply order_in). cbn [bind]. rewrite CH. cbn [bind]. rewrite chunk_map. fold gs.
    unfold grouped_data_probabilities. rewrite (mapM_map_ok _ (map (fun i => nth i rows [])) (group_answers rows I M)).
    2:{ intros G HG. unfold group_answers. rewrite <- (map_id (seq 0 (length cats))). apply mapM_map_ok. intros i Hi. apply in_seq in Hi.
        apply (proportions_ok I M rows HR HB i G); [unfold I; lia|]. now apply gs_members. }
    cbn [bind]. f_equal. f_equal. f_equal. unfold grouped_theta_probabilities. rewrite map_map. apply map_ext_in. intros G HG. unfold group_model.
    apply map_ext. intros i. apply map_ext. intros k. destruct (gs_members G HG) as (NE & _). unfold mean_opt, model_share. rewrite map_map.
    destruct G as [|a G]; [congruence|]. cbn [map]. unfold rmean. cbn [length]. rewrite map_length. reflexivity.
  Qed.
End Groups.
