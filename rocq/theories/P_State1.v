(** Keys and histories of fits. *)
From Coq Require Import Reals.
From Verif Require Import Base BaseFacts RBase RFacts M_Data P_Data M_State S_State.
Local Open Scope Z_scope.

Lemma key_within_spec : forall cats key, key_within cats key = true <->
  (forall i k K, nth_error key i = Some k -> nth_error cats i = Some K -> k <= K).
Proof.
  intros cats key. unfold key_within. revert key. induction cats as [|K cats IH]; intros key.
  - cbn. split; [|reflexivity]. intros _ [|i] k K' _ H; discriminate H.
  - destruct key as [|k key]; cbn [combine forallb].
    + split; [|reflexivity]. intros _ [|i] k' K' H; discriminate H.
    + cbn [fst snd]. rewrite andb_true_iff, IH, Z.leb_le. split.
      * intros [H1 H2] [|i] k' K' Hk HK; cbn [nth_error] in *; [congruence | eapply H2; eassumption].
      * intros H. split; [apply (H 0%nat k K); reflexivity|]. intros i k' K' Hk HK. exact (H (S i) k' K' Hk HK).
Qed.

Lemma py_max_ok : forall l, l <> [] -> exists m, py_max l = Ok m /\ In m l /\ forall x, In x l -> x <= m.
Proof.
  intros l H. unfold py_max. pose proof (max_list_spec l) as M. destruct (max_list l) as [m|].
  - exists m. split; [reflexivity|]. exact M.
  - contradiction.
Qed.

Lemma base_accepts : forall lv cats key, cats <> [] ->
  (forall k, key = Some k -> forall i x K, nth_error k i = Some x -> nth_error cats i = Some K -> x <= K) ->
  exists a, base_init lv cats key = Ok a /\ built lv cats key a.
Proof.
  intros lv cats key Hc Hk. unfold base_init. destruct (py_max_ok cats Hc) as (m & Hm & HI & HM).
  assert (E : (match key with Some k => key_within cats k | None => true end) = true).
  { destruct key as [k|]; [|reflexivity]. apply key_within_spec. intros i x K. apply Hk. reflexivity. }
  rewrite E, Hm. cbn [bind]. eexists. split; [reflexivity|]. unfold built. cbn. repeat split; auto.
Qed.

Theorem base_iff : forall lv cats key,
  ((exists a, base_init lv cats (Some key) = Ok a) <->
   (cats <> [] /\ forall i k K, nth_error key i = Some k -> nth_error cats i = Some K -> k <= K)) /\
  (forall a, base_init lv cats (Some key) = Ok a -> built lv cats (Some key) a) /\
  (forall e, base_init lv cats (Some key) = Err e -> e = ValueError).
Proof.
  intros lv cats key. unfold base_init. pose proof (key_within_spec cats key) as HK.
  destruct (key_within cats key).
  - destruct cats as [|c0 cats].
    + cbn. split; [|split].
      * split; [intros (a & E); discriminate E | intros [H _]; contradiction].
      * intros a E; discriminate E.
      * intros e E. congruence.
    + destruct (py_max_ok (c0 :: cats)) as (m & Hm & HI & HM); [discriminate|]. rewrite Hm. cbn [bind]. split; [|split].
      * split; [intros _; split; [discriminate | apply HK; reflexivity] | intros _; eexists; reflexivity].
      * intros a E. assert (Ha : a = Attrs lv (c0 :: cats) m (length (c0 :: cats)) (Some key)) by congruence. subst a.
        unfold built. cbn [at_lv at_cats at_items at_key at_max]. repeat split; auto.
      * intros e E. discriminate E.
  - split; [|split].
    + split; [intros (a & E); discriminate E | intros [_ H]; apply HK in H; discriminate H].
    + intros a E; discriminate E.
    + intros e E. congruence.
Qed.

(** Illegal entries. *)
Lemma legal_upd_accepted : forall lv cats key i K bad, legal_key cats key -> nth_error cats i = Some K -> bad <= K ->
  exists a, base_init lv cats (Some (upd i bad key)) = Ok a.
Proof.
  intros lv cats key i K bad [L H] HK Hb. apply (proj1 (base_iff lv cats (upd i bad key))). split.
  - intros E. subst cats. destruct i; discriminate HK.
  - intros j k K' Hj HK'. destruct (Nat.eq_dec i j) as [E|E].
    + subst j. rewrite nth_error_upd_eq in Hj; [congruence|]. rewrite L. apply nth_error_Some. congruence.
    + rewrite nth_error_upd_neq in Hj by exact E. specialize (H j k K' Hj HK'). lia.
Qed.

Lemma nth_error_firstn_some : forall {A} n (l : list A) i x, nth_error (firstn n l) i = Some x -> nth_error l i = Some x.
Proof. induction n; intros l i x H; [destruct i; discriminate H|]. destruct l; [exact H|]. destruct i; [exact H|]. cbn in *. apply IHn. exact H. Qed.

Lemma short_accepted : forall lv cats key n, cats <> [] -> legal_key cats key -> exists a, base_init lv cats (Some (firstn n key)) = Ok a.
Proof.
  intros lv cats key n Hc [L H]. apply (proj1 (base_iff lv cats (firstn n key))). split; [exact Hc|].
  intros j k K Hj HK. apply nth_error_firstn_some in Hj. specialize (H j k K Hj HK). lia.
Qed.
Lemma long_accepted : forall lv cats key extra, cats <> [] -> legal_key cats key -> exists a, base_init lv cats (Some (key ++ extra)) = Ok a.
Proof.
  intros lv cats key extra Hc [L H]. apply (proj1 (base_iff lv cats (key ++ extra))). split; [exact Hc|].
  intros j k K Hj HK. assert (Hl : (j < length cats)%nat) by (apply nth_error_Some; congruence).
  rewrite nth_error_app1 in Hj by lia. specialize (H j k K Hj HK). lia.
Qed.

(** Sum scores under a key. *)
Lemma matches_all : forall key, filter (fun b => b) (zip_with cell_eqb (map Some key) key) = repeat true (length key).
Proof. induction key as [|k key IH]; [reflexivity|]. cbn. rewrite Z.eqb_refl. f_equal. exact IH. Qed.

Lemma matches_le : forall row key, (length (filter (fun b => b) (zip_with cell_eqb row key)) <= length key)%nat.
Proof.
  induction row as [|c row IH]; intros [|k key]; cbn [zip_with filter length]; try lia.
  specialize (IH key). destruct (cell_eqb c k); cbn [length]; lia.
Qed.
Lemma matches_lt : forall row key i c k, nth_error row i = Some c -> nth_error key i = Some k -> cell_eqb c k = false ->
  (length (filter (fun b => b) (zip_with cell_eqb row key)) < length key)%nat.
Proof.
  induction row as [|c row IH]; intros [|k key] [|i] c' k' Hc Hk E; cbn [nth_error] in *; try discriminate.
  - assert (c' = c) by congruence. assert (k' = k) by congruence. subst c' k'. cbn [zip_with]. rewrite E. cbn [filter length].
    pose proof (matches_le row key). lia.
  - specialize (IH key i c' k' Hc Hk E). cbn [zip_with filter]. destruct (cell_eqb c k); cbn [length]; lia.
Qed.

Theorem unreachable_key : forall cats key i K, legal_key cats key -> nth_error cats i = Some K -> (0 <= K) ->
  (sum_score_row (Some key) (map Some key) = Some (Z.of_nat (length cats)) /\ legal_row cats (map Some key)) /\
  forall row, legal_row cats row -> exists s, sum_score_row (Some (upd i K key)) row = Some s /\ s < Z.of_nat (length cats).
Proof.
  intros cats key i K [L H] HK Hpos. split; [split|].
  - cbn [sum_score_row]. rewrite matches_all, repeat_length, L. reflexivity.
  - split; [rewrite map_length; exact L|]. intros j c K' Hc HK'. rewrite nth_error_map in Hc.
    destruct (nth_error key j) as [k|] eqn:E; [|discriminate]. cbn in Hc. assert (c = Some k) by congruence. subst c.
    right. right. exists k. split; [reflexivity|]. eapply H; eassumption.
  - intros row [Lr Hr]. cbn [sum_score_row]. eexists. split; [reflexivity|].
    assert (Hi : (i < length cats)%nat) by (apply nth_error_Some; congruence).
    destruct (nth_error row i) as [c|] eqn:Ec; [|apply nth_error_None in Ec; lia].
    assert (Hu : nth_error (upd i K key) i = Some K) by (apply nth_error_upd_eq; lia).
    assert (E : cell_eqb c K = false).
    { destruct (Hr i c K Ec HK) as [->|[->|(z & -> & Hz)]]; unfold cell_eqb; [reflexivity | apply Z.eqb_neq; lia | apply Z.eqb_neq; lia]. }
    pose proof (matches_lt row (upd i K key) i c K Ec Hu E) as M. rewrite upd_length in M. lia.
Qed.

(** Nested logit. *)
Lemma mapM_unit : forall {A} (f : A -> result unit) l, (exists bs, mapM f l = Ok bs) <-> forall a, In a l -> f a = Ok tt.
Proof.
  intros A f l. split.
  - intros (bs & H). apply mapM_Ok in H. intros a Ha. induction H as [|x y la lb E H IH]; [destruct Ha|].
    destruct Ha as [->|Ha]; [destruct y; exact E | exact (IH Ha)].
  - intros H. exists (map (fun _ => tt) l). apply mapM_total. exact H.
Qed.

Lemma nested_item_ok : forall cats key i, (i < length cats)%nat ->
  (nested_key_item cats key i = Ok tt <-> exists k K, nth_error key i = Some k /\ nth_error cats i = Some K /\ 0 <= k < K).
Proof.
  intros cats key i Hi. unfold nested_key_item. destruct (nth_error cats i) as [K|] eqn:EK; [|apply nth_error_None in EK; lia].
  rewrite (nth_error_nth _ _ 0 EK). destruct (nth_error key i) as [k|].
  - destruct (0 >? k) eqn:E1; cbn [orb].
    + split; [discriminate|]. intros (k' & K' & A & B & C). rewrite Z.gtb_ltb in E1. apply Z.ltb_lt in E1. assert (k' = k) by congruence. lia.
    + rewrite Z.gtb_ltb in E1. apply Z.ltb_ge in E1. rewrite Z.geb_leb. destruct (Z.leb_spec K k) as [E2|E2].
      * split; [discriminate|]. intros (k' & K' & A & B & C). assert (k' = k) by congruence. assert (K' = K) by congruence. lia.
      * split; [intros _; exists k, K; repeat split; auto; lia | reflexivity].
  - split; [discriminate|]. intros (k' & K' & A & _). discriminate A.
Qed.

Lemma nested_item_err : forall cats key i e, nested_key_item cats key i = Err e -> e = ValueError \/ e = IndexError.
Proof.
  intros cats key i e. unfold nested_key_item. destruct (nth_error key i); [|intros H; right; congruence].
  destruct (_ || _)%bool; intros H; [left; congruence | discriminate H].
Qed.

Lemma mapM_err_in : forall {A B} (f : A -> result B) l e, mapM f l = Err e -> exists a, In a l /\ f a = Err e.
Proof.
  intros A B f l e. induction l as [|a l IH]; cbn; [discriminate|]. destruct (f a) as [b|x] eqn:E; cbn.
  - destruct (mapM f l); cbn; [discriminate|]. intros H. assert (e = e0) by congruence. subst. destruct IH as (y & Hy & Ey); [reflexivity|].
    exists y. split; [right; exact Hy | exact Ey].
  - intros H. exists a. split; [left; reflexivity | congruence].
Qed.

Theorem nested_iff : forall lv cats key,
  ((exists a, nested_init lv cats key = Ok a) <->
   (cats <> [] /\ forall i K, nth_error cats i = Some K -> exists k, nth_error key i = Some k /\ 0 <= k < K)) /\
  (forall a, nested_init lv cats key = Ok a -> built lv cats (Some key) a) /\
  (forall e, nested_init lv cats key = Err e -> e = ValueError \/ e = IndexError).
Proof.
  intros lv cats key. destruct (base_iff lv cats key) as (B1 & B2 & B3). unfold nested_init.
  destruct (base_init lv cats (Some key)) as [a0|e0] eqn:E0; cbn [bind].
  - destruct (B2 a0 eq_refl) as (_ & _ & Hit & _). rewrite Hit.
    assert (Hc : cats <> []) by (apply B1; eexists; reflexivity).
    split; [|split].
    + split.
      * intros (a & E). split; [exact Hc|]. intros i K HK.
        destruct (mapM (nested_key_item cats key) (seq 0 (length cats))) as [bs|] eqn:EM; [|discriminate E].
        assert (Hi : (i < length cats)%nat) by (apply nth_error_Some; congruence).
        pose proof (proj1 (mapM_unit _ _) (ex_intro _ bs EM) i ltac:(apply in_seq; lia)) as Hu.
        apply nested_item_ok in Hu; [|exact Hi]. destruct Hu as (k & K' & A & B & C). exists k. assert (K' = K) by congruence. subst. auto.
      * intros [_ H]. destruct (proj2 (mapM_unit (nested_key_item cats key) (seq 0 (length cats)))) as (bs & EM).
        { intros i Hi. apply in_seq in Hi. apply nested_item_ok; [lia|].
          destruct (nth_error cats i) as [K|] eqn:EK; [|apply nth_error_None in EK; lia].
          destruct (H i K EK) as (k & A & B). exists k, K. auto. }
        rewrite EM. cbn [bind]. eexists. reflexivity.
    + intros a E. destruct (mapM _ _); [|discriminate E]. cbn in E. assert (a = a0) by congruence. subst. apply B2. reflexivity.
    + intros e E. destruct (mapM (nested_key_item cats key) (seq 0 (length cats))) as [bs|x] eqn:EM; cbn in E; [discriminate E|].
      apply mapM_err_in in EM. destruct EM as (i & _ & Ei). apply nested_item_err in Ei. assert (e = x) by congruence. subst. exact Ei.
  - split; [|split].
    + split; [intros (a & E); discriminate E|]. intros [Hc H].
      assert (X : exists a : attrs, Err e0 = Ok a).
      { apply B1. split; [exact Hc|]. intros i k K Hk HK. destruct (H i K HK) as (k' & A & B). assert (k' = k) by congruence. lia. }
      destruct X as (a & X). discriminate X.
    + intros a E; discriminate E.
    + intros e E. left. assert (e = e0) by congruence. subst. apply B3. reflexivity.
Qed.
