(** Proofs about splitting and cross-validation. *)
From Coq Require Import Permutation QArith Qround String ZifyBool Lqa.
From Verif Require Import Base BaseFacts M_CV S_CV.
Local Close Scope Q_scope.
Local Open Scope list_scope.

Lemma index_rows_seq {A} (data pre : list A) :
  index_rows (seq (length pre) (length data)) (pre ++ data) = data.
Proof.
  revert pre; induction data as [|a data IH]; intro pre; cbn; auto.
  rewrite nth_error_app2, Nat.sub_diag by lia. cbn. f_equal.
  specialize (IH (pre ++ [a])). rewrite app_length in IH. cbn in IH.
  rewrite <- app_assoc in IH. cbn in IH. now replace (length pre + 1) with (S (length pre)) in IH by lia.
Qed.

Lemma index_rows_perm {A} perm (data : list A) :
  is_perm perm (length data) -> Permutation (index_rows perm data) data.
Proof.
  intro H. apply (Permutation_flat_map (fun i => match nth_error data i with Some x => [x] | None => [] end)) in H.
  unfold index_rows. rewrite H. change (flat_map _ ?s) with (index_rows s data).
  pose proof (index_rows_seq data []) as E. cbn in E. now rewrite E.
Qed.

Lemma slice_split {A} z (l : list A) : take z l ++ drop z l = l.
Proof. apply firstn_skipn. Qed.

Lemma split_data_spec {A} perm (data : list A) ratio (sh : bool) :
  (sh = true -> is_perm perm (length data)) -> (0 <= ratio)%Q -> (ratio <= 1)%Q ->
  Permutation (fst (split_data perm data ratio sh) ++ snd (split_data perm data ratio sh)) data /\
  Z.of_nat (length (fst (split_data perm data ratio sh))) =
    Qfloor (inject_Z (Z.of_nat (length data)) * ratio) /\
  (sh = false -> fst (split_data perm data ratio sh) ++ snd (split_data perm data ratio sh) = data).
Proof.
  intros Hp H0 H1. unfold split_data; cbn [fst snd].
  set (s := if sh then index_rows perm data else data).
  assert (Hs : Permutation s data).
  { unfold s; destruct sh; auto. now apply index_rows_perm, Hp. }
  rewrite slice_split. split; [exact Hs|]. split; [|intros ->; reflexivity].
  set (n := length data) in *.
  assert (Hn : length s = n) by now apply Permutation_length.
  assert (Hq : (0 <= inject_Z (Z.of_nat n) * ratio)%Q).
  { apply Qmult_le_0_compat; auto. unfold Qle; cbn. lia. }
  assert (Hq2 : (inject_Z (Z.of_nat n) * ratio <= inject_Z (Z.of_nat n))%Q).
  { rewrite <- (Qmult_1_r (inject_Z (Z.of_nat n))) at 2.
    rewrite (Qmult_comm _ ratio), (Qmult_comm _ 1).
    apply Qmult_le_compat_r; auto. unfold Qle; cbn; lia. }
  unfold py_int. apply Qle_bool_iff in Hq as Hqb. rewrite Hqb.
  unfold take, slice_pos. rewrite Hn.
  assert (Hf0 : (0 <= Qfloor (inject_Z (Z.of_nat n) * ratio))%Z).
  { change 0%Z with (Qfloor 0). now apply Qfloor_resp_le. }
  assert (Hf1 : (Qfloor (inject_Z (Z.of_nat n) * ratio) <= Z.of_nat n)%Z).
  { rewrite <- (Qfloor_Z (Z.of_nat n)) at 2. now apply Qfloor_resp_le. }
  destruct (Z.ltb_spec (Qfloor (inject_Z (Z.of_nat n) * ratio)) 0); [lia|].
  rewrite firstn_length, Hn. lia.
Qed.

(** *** Folds *)

Lemma ceil_div_pos n k : 0 < n -> 0 < k -> 0 < ceil_div n k.
Proof. intros. unfold ceil_div. apply Nat.div_str_pos. lia. Qed.

Lemma chunk_concat {A} k (l : list A) : 0 < k -> concat (chunk k l) = l.
Proof.
  intro Hk. unfold chunk. destruct l as [|a l].
  - clear. induction k; cbn; auto.
  - apply blocks_concat. apply ceil_div_pos; cbn; lia.
Qed.

Lemma prepare_folds_perm {A} perm (data : list A) k folds :
  is_perm perm (length data) -> prepare_folds perm data k = Ok folds ->
  Permutation (concat folds) data.
Proof.
  intros Hp H. unfold prepare_folds in H. destruct k; [discriminate|]. injection H as <-.
  rewrite chunk_concat by lia. now apply index_rows_perm.
Qed.

Lemma other_folds_from {A} (folds : list (list A)) i s :
  s <= i ->
  flat_map (fun jx => if fst jx =? i then [] else [snd jx]) (combine (seq s (length folds)) folds) =
  firstn (i - s) folds ++ skipn (S (i - s)) folds.
Proof.
  revert s; induction folds as [|f folds IH]; intros s Hs; cbn [length seq combine flat_map].
  - rewrite firstn_nil. reflexivity.
  - cbn [fst snd]. destruct (Nat.eqb_spec s i) as [->|Hne].
    + rewrite Nat.sub_diag. cbn [firstn app skipn].
      assert (H : forall s', i < s' -> flat_map (fun jx => if fst jx =? i then [] else [snd jx])
                   (combine (seq s' (length folds)) folds) = folds).
      { clear. induction folds as [|f folds IH]; intros s' H; cbn; auto.
        destruct (Nat.eqb_spec s' i); [lia|]. cbn. f_equal. apply IH. lia. }
      apply H. lia.
    + rewrite IH by lia. replace (i - s) with (S (i - S s)) by lia. reflexivity.
Qed.
Lemma other_folds_eq {A} (folds : list (list A)) i :
  other_folds folds i = firstn i folds ++ skipn (S i) folds.
Proof. unfold other_folds. rewrite other_folds_from by lia. now rewrite Nat.sub_0_r. Qed.

Lemma split_at_nth {A} (l : list A) i x :
  nth_error l i = Some x -> l = firstn i l ++ x :: skipn (S i) l.
Proof.
  revert i; induction l as [|a l IH]; intros [|i] H; cbn in *; try discriminate.
  - congruence.
  - f_equal. now apply IH.
Qed.

Lemma train_of_perm {A} (folds : list (list A)) i v tr :
  nth_error folds i = Some v -> train_of folds i = Ok tr ->
  tr = concat (firstn i folds) ++ concat (skipn (S i) folds) /\
  Permutation (tr ++ v) (concat folds).
Proof.
  intros Hv Ht. unfold train_of in Ht. rewrite other_folds_eq in Ht.
  assert (E : tr = concat (firstn i folds ++ skipn (S i) folds)).
  { destruct (firstn i folds ++ skipn (S i) folds); [discriminate|]. congruence. }
  rewrite concat_app in E. split; auto. subst tr.
  rewrite (split_at_nth folds i v Hv) at 3. rewrite concat_app. cbn [concat].
  rewrite <- app_assoc. apply Permutation_app_head. apply Permutation_app_comm.
Qed.

Lemma train_of_total {A} (folds : list (list A)) i :
  2 <= length folds -> i < length folds -> exists tr, train_of folds i = Ok tr.
Proof.
  intros H Hi. unfold train_of. rewrite other_folds_eq.
  destruct (firstn i folds ++ skipn (S i) folds) eqn:E; eauto.
  apply (f_equal (@length _)) in E. rewrite app_length, firstn_length, skipn_length in E. cbn in E. lia.
Qed.

(** Membership of row numbers: each respondent is validated in exactly one fold. *)
Lemma NoDup_concat_unique {A} (folds : list (list A)) i j x vi vj :
  NoDup (concat folds) -> nth_error folds i = Some vi -> nth_error folds j = Some vj ->
  In x vi -> In x vj -> i = j.
Proof.
  revert i j; induction folds as [|f folds IH]; intros i j HN Hi Hj Hxi Hxj; [destruct i; discriminate|].
  cbn in HN.
  assert (Hd : forall y, In y f -> ~ In y (concat folds)).
  { intros y Hy Hc. clear - HN Hy Hc. induction f as [|a f IH]; [destruct Hy|].
    cbn in HN. inversion HN as [|? ? Hn HN']; subst. destruct Hy as [->|Hy]; auto.
    apply Hn. apply in_or_app. now right. }
  assert (HN' : NoDup (concat folds)).
  { clear - HN. induction f; auto. inversion HN; auto. }
  destruct i as [|i], j as [|j]; cbn in Hi, Hj; auto.
  - injection Hi as ->. exfalso. apply (Hd x Hxi). apply in_concat. exists vj; split; auto.
    eapply nth_error_In; eauto.
  - injection Hj as ->. exfalso. apply (Hd x Hxj). apply in_concat. exists vi; split; auto.
    eapply nth_error_In; eauto.
Qed.

Lemma cv_partition {A} perm (data : list A) k folds :
  is_perm perm (length data) -> prepare_folds perm data k = Ok folds ->
  Permutation (concat folds) data /\
  (forall i v tr, nth_error folds i = Some v -> train_of folds i = Ok tr -> Permutation (tr ++ v) data) /\
  (NoDup data -> forall x, In x data ->
     exists i v, nth_error folds i = Some v /\ In x v /\
       (forall tr, train_of folds i = Ok tr -> ~ In x tr) /\
       (forall j vj, nth_error folds j = Some vj -> j <> i ->
          ~ In x vj /\ forall tr, train_of folds j = Ok tr -> In x tr)).
Proof.
  intros Hp H. pose proof (prepare_folds_perm perm data k folds Hp H) as HP. split; auto. split.
  - intros i v tr Hv Ht. destruct (train_of_perm folds i v tr Hv Ht) as [_ Hq].
    now rewrite Hq.
  - intros HN x Hx.
    assert (HNc : NoDup (concat folds)) by (eapply Permutation_NoDup; [apply Permutation_sym, HP|auto]).
    apply (Permutation_in x (Permutation_sym HP)) in Hx as Hxc.
    apply in_concat in Hxc as [v [Hv Hxv]]. apply In_nth_error in Hv as [i Hi].
    exists i, v. split; auto. split; auto. split.
    + intros tr Ht. destruct (train_of_perm folds i v tr Hi Ht) as [_ Hq].
      assert (HNt : NoDup (tr ++ v)) by (eapply Permutation_NoDup; [apply Permutation_sym, Hq|auto]).
      intro Hxt. clear - HNt Hxt Hxv. induction tr as [|a tr IH]; [destruct Hxt|].
      cbn in HNt. inversion HNt as [|? ? Hn HN']; subst. destruct Hxt as [->|Hxt]; auto.
      apply Hn. apply in_or_app. now right.
    + intros j vj Hj Hji. assert (Hnx : ~ In x vj).
      { intro Hxj. apply Hji. symmetry. eapply NoDup_concat_unique; eauto. }
      split; auto. intros tr Ht. destruct (train_of_perm folds j vj tr Hj Ht) as [_ Hq].
      apply (Permutation_in x (Permutation_sym HP)) in Hx.
      apply (Permutation_in x (Permutation_sym Hq)) in Hx. apply in_app_or in Hx. tauto.
Qed.

(** Sizes. *)
Lemma chunk_sizes {A} k (l : list A) i c :
  0 < k -> l <> [] -> nth_error (chunk k l) i = Some c ->
  length c = Nat.min (ceil_div (length l) k) (length l - i * ceil_div (length l) k) /\ 0 < length c.
Proof.
  intros Hk Hl H. unfold chunk in H. destruct l as [|a l]; [congruence|].
  pose proof (ceil_div_pos (length (a :: l)) k) as Hc.
  assert (Hc' : 0 < ceil_div (length (a :: l)) k) by (apply Hc; cbn; lia).
  set (n := length (a :: l)) in *. set (cs := ceil_div n k) in *. clearbody cs.
  rewrite nth_error_blocks in H by auto. fold n in H.
  destruct (Nat.ltb_spec (i * cs) n) as [Hlt|Hlt]; [|discriminate].
  injection H as <-. rewrite firstn_length, skipn_length. fold n. split; auto.
  generalize dependent (i * cs). intros m Hm. lia.
Qed.

Lemma chunk_count {A} k (l : list A) :
  0 < k -> l <> [] -> length (chunk k l) = ceil_div (length l) (ceil_div (length l) k).
Proof.
  intros Hk Hl. unfold chunk. destruct l as [|a l]; [congruence|].
  apply blocks_length. apply ceil_div_pos; cbn; lia.
Qed.

Lemma ceil_div_le n k : 0 < n -> 0 < k -> ceil_div n (ceil_div n k) <= k.
Proof.
  intros Hn Hk. pose proof (ceil_div_pos n k Hn Hk) as Hc.
  set (c := ceil_div n k) in *. unfold ceil_div.
  assert (n <= c * k).
  { unfold c, ceil_div. pose proof (Nat.div_mod (n + k - 1) k ltac:(lia)) as HD.
    pose proof (Nat.mod_upper_bound (n + k - 1) k ltac:(lia)). nia. }
  assert ((n + c - 1) / c < S k); [|lia]. apply Nat.div_lt_upper_bound; [lia|]. nia.
Qed.

Lemma ceil_div_exact n k q : 0 < k -> 0 < q -> n = q * k -> ceil_div n (ceil_div n k) = k.
Proof.
  intros Hk Hq ->. assert (E : ceil_div (q * k) k = q).
  { unfold ceil_div. replace (q * k + k - 1) with ((k - 1) + q * k) by lia.
    rewrite Nat.div_add by lia. rewrite Nat.div_small by lia. lia. }
  rewrite E. unfold ceil_div. replace (q * k + q - 1) with ((q - 1) + k * q) by lia.
  rewrite Nat.div_add by lia. rewrite Nat.div_small by lia. lia.
Qed.

Lemma fold_count {A} perm (data : list A) k folds :
  is_perm perm (length data) -> data <> [] -> prepare_folds perm data k = Ok folds ->
  length folds = ceil_div (length data) (ceil_div (length data) k) /\
  length folds <= k /\
  ((exists q, length data = q * k) -> length folds = k) /\
  (forall i v, nth_error folds i = Some v ->
     0 < length v /\
     (S i < length folds -> length v = ceil_div (length data) k) /\
     length v <= ceil_div (length data) k).
Proof.
  intros Hp Hd H. unfold prepare_folds in H. destruct k as [|k]; [discriminate|]. injection H as <-.
  pose proof (index_rows_perm perm data Hp) as HP. pose proof (Permutation_length HP) as HL.
  assert (Hne : index_rows perm data <> []).
  { intro E. rewrite E in HL. destruct data; cbn in HL; [congruence|lia]. }
  assert (Hn : 0 < length data) by (destruct data; cbn; [congruence|lia]).
  rewrite chunk_count, HL by (auto; lia). split; auto. split; [apply ceil_div_le; lia|]. split.
  - intros [q Hq]. apply (ceil_div_exact _ _ q); auto; [lia|]. nia.
  - intros i v Hv. destruct (chunk_sizes (S k) _ i v (Nat.lt_0_succ k) Hne Hv) as [H1 H2].
    rewrite HL in H1. split; auto. split; [|lia]. intro Hi.
    set (c := ceil_div (length data) (S k)) in *.
    assert (Hc : 0 < c) by (apply ceil_div_pos; lia).
    assert (S i * c < length data).
    { unfold ceil_div in Hi at 1.
      assert (length data + c - 1 >= c * (S (S i))).
      { pose proof (Nat.mul_div_le (length data + c - 1) c ltac:(lia)). nia. }
      nia. }
    nia.
Qed.

Lemma fold_count_refuted :
  exists (data : list nat) perm k folds, is_perm perm (length data) /\ k <= length data /\
    prepare_folds perm data k = Ok folds /\ length folds < k.
Proof.
  exists [10;11;12;13;14], [0;1;2;3;4], 4, [[10;11];[12;13];[14]].
  repeat split; try reflexivity; cbn; try lia. apply Permutation_refl.
Qed.

(** *** No reset between folds *)

Lemma cv_loop_states {P A S} (fit : P -> list A -> result P) (score : P -> list A -> result S)
  folds todo i p out pe :
  cv_loop fit score folds todo i p = Ok (out, pe) ->
  length out = length todo /\
  forall j p' v s, nth_error out j = Some (p', v, s) ->
    nth_error todo j = Some v /\ score p' v = Ok s /\
    exists tr, train_of folds (i + j) = Ok tr /\
      fit (match j with O => p | S j' => match nth_error out j' with Some (q, _, _) => q | None => p end end) tr = Ok p'.
Proof.
  revert i p out pe; induction todo as [|v todo IH]; intros i p out pe H; cbn in H.
  - injection H as <- <-. split; auto. intros [|j] ? ? ? Hj; discriminate.
  - destruct (train_of folds i) as [tr|] eqn:E1; cbn in H; [|discriminate].
    destruct (fit p tr) as [p'|] eqn:E2; cbn in H; [|discriminate].
    destruct (score p' v) as [s|] eqn:E3; cbn in H; [|discriminate].
    destruct (cv_loop fit score folds todo (Datatypes.S i) p') as [[rest pe']|] eqn:E4; cbn in H; [|discriminate].
    injection H as <- <-. destruct (IH _ _ _ _ E4) as [Hl Hn]. split; [cbn; lia|].
    intros [|j] q w t Hj; cbn in Hj.
    + injection Hj as <- <- <-. rewrite Nat.add_0_r. repeat split; auto. eauto.
    + destruct (Hn j q w t Hj) as (H1 & H2 & tr' & H3 & H4). repeat split; auto.
      exists tr'. split; [now replace (i + Datatypes.S j) with (Datatypes.S i + j) by lia|].
      destruct j as [|j]; [exact H4|]. cbn [nth_error].
      destruct (nth_error rest j) as [[[q1 w1] t1]|] eqn:E; [exact H4|].
      exfalso. apply nth_error_None in E.
      assert (Datatypes.S j < length rest) by (apply nth_error_Some; congruence). lia.
Qed.

(** With a procedure that records its training data: the state evaluated on fold i>=1 contains
    every respondent of fold i. *)
Lemma cv_history {A S} (score : list A -> list A -> result S) folds out pe h0 :
  cv_param_combination record_fit score folds h0 = Ok (out, pe) ->
  forall j h v s, nth_error out j = Some (h, v, s) ->
  exists trs, length trs = Datatypes.S j /\ h = h0 ++ concat trs /\
    forall l tr, nth_error trs l = Some tr -> train_of folds l = Ok tr.
Proof.
  intros H. unfold cv_param_combination in H.
  destruct (cv_loop_states _ _ _ _ _ _ _ _ H) as [Hl Hn]. clear H.
  induction j as [|j IH]; intros h v s Hj; destruct (Hn _ _ _ _ Hj) as (H1 & H2 & tr & H3 & H4).
  - cbn in H4, H3. injection H4 as <-. exists [tr]. cbn. rewrite app_nil_r. repeat split; auto.
    intros [|l] t Ht; cbn in Ht; [congruence|destruct l; discriminate].
  - cbn in H4, H3. destruct (nth_error out j) as [[[q w] t]|] eqn:E.
    + destruct (IH q w t eq_refl) as (trs & Hlen & Hq & Htr). injection H4 as <-. subst q.
      exists (trs ++ [tr]). rewrite app_length. cbn. split; [lia|]. split.
      * rewrite concat_app. cbn. rewrite app_nil_r, app_assoc. reflexivity.
      * intros l t' Ht. destruct (Nat.lt_ge_cases l (length trs)).
        -- rewrite nth_error_app1 in Ht by auto. now apply Htr.
        -- rewrite nth_error_app2 in Ht by auto.
           destruct (l - length trs) as [|m] eqn:Em; cbn in Ht; [|destruct m; discriminate].
           assert (l = Datatypes.S j) by lia. subst. congruence.
    + exfalso. apply nth_error_None in E. assert (Datatypes.S j < length out) by (apply nth_error_Some; congruence). lia.
Qed.

Lemma cv_leak {A S} (score : list A -> list A -> result S) folds out pe h0 :
  cv_param_combination record_fit score folds h0 = Ok (out, pe) ->
  forall j h v s x, nth_error out (Datatypes.S j) = Some (h, v, s) -> In x v -> In x h.
Proof.
  intros H j h v s x Hj Hx. pose proof (cv_history _ _ _ _ _ H _ _ _ _ Hj) as (trs & Hlen & -> & Htr).
  destruct (cv_loop_states _ _ _ _ _ _ _ _ H) as [_ Hn]. destruct (Hn _ _ _ _ Hj) as (Hv & _).
  apply in_or_app. right. destruct trs as [|tr0 trs]; [discriminate|].
  specialize (Htr 0 tr0 eq_refl). cbn. apply in_or_app. left.
  unfold train_of in Htr. rewrite other_folds_eq in Htr. cbn [firstn app skipn] in Htr.
  destruct folds as [|f folds]; [discriminate|]. cbn in Hv.
  destruct folds as [|f' folds]; [discriminate|].
  cbn [skipn] in Htr. injection Htr as <-. change (f' ++ concat folds) with (concat (f' :: folds)).
  apply in_concat. exists v. split; auto. eapply nth_error_In; eauto.
Qed.

Lemma cv_first_fold {A S} (score : list A -> list A -> result S) folds out pe :
  cv_param_combination record_fit score folds [] = Ok (out, pe) ->
  forall h v s, nth_error out 0 = Some (h, v, s) -> train_of folds 0 = Ok h.
Proof.
  intros H h v s Hj. pose proof (cv_history _ _ _ _ _ H _ _ _ _ Hj) as (trs & Hlen & -> & Htr).
  destruct trs as [|tr [|? ?]]; try discriminate. cbn. rewrite app_nil_r. now apply (Htr 0).
Qed.

Lemma cv_total {P A S} (fit : P -> list A -> P) (score : P -> list A -> S) folds p :
  2 <= length folds ->
  exists out pe, cv_param_combination (fun p d => Ok (fit p d)) (fun p d => Ok (score p d)) folds p = Ok (out, pe)
    /\ length out = length folds.
Proof.
  intro H. unfold cv_param_combination.
  assert (HA : forall todo i p, i + length todo <= length folds ->
    exists out pe, cv_loop (fun p d => Ok (fit p d)) (fun p d => Ok (score p d)) folds todo i p = Ok (out, pe)
      /\ length out = length todo).
  { induction todo as [|v todo IH]; intros i q Hi; cbn.
    - eauto.
    - cbn in Hi. destruct (train_of_total folds i H) as [tr Ht]; [lia|]. rewrite Ht. cbn.
      destruct (IH (Datatypes.S i) (fit q tr)) as (out & pe & Ho & Hlen); [lia|]. rewrite Ho. cbn.
      do 2 eexists; split; [reflexivity|]. cbn. lia. }
  now apply HA.
Qed.

(** *** Averages *)
Lemma sum_pvals_const q n : exists s, sum_pvals (repeat (PNum q) n) = Ok s /\ (s == inject_Z (Z.of_nat n) * q)%Q.
Proof.
  induction n as [|n [s [IH IH2]]].
  - exists 0%Q. split; auto. ring.
  - cbn [repeat sum_pvals]. rewrite IH. cbn [rmap]. eexists; split; [reflexivity|]. rewrite IH2, Nat2Z.inj_succ.
    unfold Z.succ. rewrite inject_Z_plus. ring.
Qed.

Lemma average_const q n : 0 < n -> exists a, average_pvals (repeat (PNum q) n) = Ok a /\ (a == q)%Q.
Proof.
  intro Hn. destruct (sum_pvals_const q n) as [s [Hs Hs2]]. unfold average_pvals.
  destruct (repeat (PNum q) n) eqn:E; [destruct n; [lia|discriminate]|]. rewrite Hs. cbn [rmap].
  eexists; split; [reflexivity|]. rewrite <- E, repeat_length, Hs2. field.
  intro H. unfold Qeq in H. cbn in H. lia.
Qed.

Lemma average_scores (qs : list Q) : qs <> [] ->
  exists a, average_pvals (map PNum qs) = Ok a /\
    (a * inject_Z (Z.of_nat (length qs)) == fold_right Qplus 0 qs)%Q.
Proof.
  intro Hne. assert (HS : sum_pvals (map PNum qs) = Ok (fold_right Qplus 0%Q qs)).
  { clear. induction qs as [|q qs IH]; cbn; auto. now rewrite IH. }
  unfold average_pvals. destruct (map PNum qs) eqn:E; [destruct qs; [congruence|discriminate]|].
  rewrite HS. cbn [rmap]. eexists; split; [reflexivity|]. rewrite <- E, map_length. field.
  intro H. unfold Qeq in H. cbn in H. destruct qs; [congruence|cbn in H; lia].
Qed.

Lemma average_str s l : average_pvals (PStr s :: l) = Err TypeError.
Proof. reflexivity. Qed.

(** *** Parameter grid *)
Lemma product_length {V} (ls : list (list V)) :
  length (product ls) = fold_right Nat.mul 1 (map (@length V) ls).
Proof.
  induction ls as [|l ls IH]; cbn; auto. rewrite <- IH. clear.
  generalize (product ls) as ps. intro ps. induction l as [|x l IHl]; cbn; auto.
  rewrite app_length, map_length, IHl. lia.
Qed.

Lemma product_nth {V} (ls : list (list V)) is vs :
  picks ls is vs ->
  nth_error (product ls) (lex_position (map (@length V) ls) is) = Some vs.
Proof.
  revert is vs; induction ls as [|l ls IH]; intros is vs [HF Hlen].
  - destruct is; [|discriminate]. inversion HF. reflexivity.
  - destruct is as [|i is]; [discriminate|]. cbn in HF. inversion HF as [|? v ? vs' Hv HF']; subst.
    cbn in Hv. cbn [map lex_position]. rewrite <- product_length.
    assert (HT : picks ls is vs') by (split; [auto|cbn in Hlen; lia]).
    specialize (IH is vs' HT). set (pos := lex_position (map (@length V) ls) is) in *.
    assert (Hpos : pos < length (product ls)) by (apply nth_error_Some; congruence).
    cbn [product]. clear HF Hlen HT. revert i Hv. induction l as [|x l IHl]; intros i Hv; [destruct i; discriminate|].
    cbn [flat_map]. destruct i as [|i]; cbn in Hv.
    + injection Hv as ->. cbn. rewrite nth_error_app1 by (rewrite map_length; lia).
      rewrite nth_error_map, IH. reflexivity.
    + rewrite nth_error_app2 by (rewrite map_length; nia). rewrite map_length.
      replace (S i * length (product ls) + pos - length (product ls)) with (i * length (product ls) + pos) by nia.
      apply IHl; auto.
Qed.

Lemma product_in {V} (ls : list (list V)) vs : In vs (product ls) <-> Forall2 (fun l v => In v l) ls vs.
Proof.
  revert vs; induction ls as [|l ls IH]; intro vs; cbn.
  - split; [intros [<-|[]]; constructor|]. inversion 1; auto.
  - rewrite in_flat_map. split.
    + intros [x [Hx Hm]]. apply in_map_iff in Hm as [vs' [<- Hvs]]. constructor; auto. now apply IH.
    + inversion 1; subst. eexists; split; eauto. apply in_map. now apply IH.
Qed.

Lemma dict_get_set {V} (d : dict V) k v k' :
  dict_get (dict_set d k v) k' = if String.eqb k k' then Some v else dict_get d k'.
Proof.
  induction d as [|[k0 v0] d IH]; cbn; auto.
  destruct (String.eqb_spec k0 k) as [->|Hne]; cbn.
  - destruct (String.eqb_spec k k'); auto.
  - rewrite IH. destruct (String.eqb_spec k0 k') as [->|?]; auto.
    destruct (String.eqb_spec k k'); auto. congruence.
Qed.

Lemma dict_get_update {V} (e d : dict V) k :
  NoDup (map fst e) ->
  dict_get (dict_update d e) k = match dict_get e k with Some v => Some v | None => dict_get d k end.
Proof.
  revert d; induction e as [|[k0 v0] e IH]; intros d HN; cbn; auto.
  inversion HN as [|? ? Hn HN']; subst. unfold dict_update in IH. rewrite IH by auto. cbn [fst snd].
  rewrite dict_get_set. destruct (String.eqb_spec k0 k) as [->|Hne]; auto.
  assert (E : dict_get e k = None).
  { clear - Hn. induction e as [|[k1 v1] e IH]; cbn; auto. destruct (String.eqb_spec k1 k) as [->|?].
    - exfalso; apply Hn; now left.
    - apply IH. intro; apply Hn; now right. }
  now rewrite E.
Qed.

Lemma dict_get_combine {V} (ks : list string) (vs : list V) i k v :
  NoDup ks -> nth_error ks i = Some k -> nth_error vs i = Some v -> dict_get (combine ks vs) k = Some v.
Proof.
  revert vs i; induction ks as [|k0 ks IH]; intros vs i HN Hk Hv; [destruct i; discriminate|].
  inversion HN as [|? ? Hn HN']; subst. destruct vs as [|v0 vs]; [destruct i; discriminate|].
  destruct i as [|i]; cbn in Hk, Hv.
  - injection Hk as ->. injection Hv as ->. cbn. now rewrite String.eqb_refl.
  - cbn. destruct (String.eqb_spec k0 k) as [->|?]; [|eauto].
    exfalso. apply Hn. eapply nth_error_In; eauto.
Qed.

Lemma dict_get_combine_none {V} (ks : list string) (vs : list V) k :
  ~ In k ks -> dict_get (combine ks vs) k = None.
Proof.
  revert vs; induction ks as [|k0 ks IH]; intros [|v vs] H; cbn; auto.
  destruct (String.eqb_spec k0 k) as [->|?]; [exfalso; apply H; now left|]. apply IH. intro; apply H; now right.
Qed.

Lemma param_grid_spec {V} (grid : list (string * list V)) (kwargs : dict V) :
  NoDup (map fst grid) -> NoDup (map fst kwargs) ->
  length (create_param_grid grid kwargs) = fold_right Nat.mul 1 (map (fun kv => length (snd kv)) grid) /\
  forall is vs, picks (map snd grid) is vs ->
    exists d, nth_error (create_param_grid grid kwargs)
                (lex_position (map (fun kv => length (snd kv)) grid) is) = Some d /\
      (forall k v, dict_get kwargs k = Some v -> dict_get d k = Some v) /\
      (forall k i v, dict_get kwargs k = None -> nth_error (map fst grid) i = Some k ->
                     nth_error vs i = Some v -> dict_get d k = Some v) /\
      (forall k, dict_get kwargs k = None -> ~ In k (map fst grid) -> dict_get d k = None).
Proof.
  intros HN HK. unfold create_param_grid. split.
  - rewrite map_length, product_length, map_map. reflexivity.
  - intros is vs Hp. pose proof (product_nth _ _ _ Hp) as H. rewrite map_map in H.
    eexists. rewrite nth_error_map, H. split; [reflexivity|]. repeat split.
    + intros k v Hk. rewrite dict_get_update by auto. now rewrite Hk.
    + intros k i v Hk Hi Hv. rewrite dict_get_update, Hk by auto. eapply dict_get_combine; eauto.
    + intros k Hk Hni. rewrite dict_get_update, Hk by auto. now apply dict_get_combine_none.
Qed.

(** *** Threads *)
Lemma threads_restored {R} threads cpus njobs cores start copy (pool : nat -> outcome R) sequential :
  snd (run_multiprocessing threads cpus njobs cores start copy pool sequential) = threads.
Proof.
  unfold run_multiprocessing. destruct start as [[e|]|]; cbn; auto. destruct copy as [[e|]|]; cbn; auto.
  set (c := match cores with Some c => c | None => Nat.min cpus njobs end). clearbody c.
  destruct c; cbn; auto. destruct (pool _) as [r|[e|]]; auto.
Qed.

Lemma multiprocessing_result {R} threads cpus njobs cores start copy (pool : nat -> outcome R) sequential :
  fst (run_multiprocessing threads cpus njobs cores start copy pool sequential) =
    match start, copy with
    | Some (Exc _), _ | None, Some (Exc _) => sequential threads
    | Some BaseExc, _ | None, Some BaseExc => Raise BaseExc
    | None, None =>
        match (match cores with Some c => c | None => Nat.min cpus njobs end) with
        | O => sequential threads
        | S c => match pool (Nat.max 1 (threads / S c)) with
                 | Ret r => Ret r
                 | Raise (Exc _) => sequential threads
                 | Raise BaseExc => Raise BaseExc
                 end
        end
    end.
Proof.
  unfold run_multiprocessing. destruct start as [[e|]|]; cbn; auto. destruct copy as [[e|]|]; cbn; auto.
  destruct (match cores with Some c => c | None => Nat.min cpus njobs end) as [|c]; cbn [fst]; auto.
  destruct (pool _) as [r|[e|]]; auto.
Qed.

(** *** Gauss-Hermite grid *)
Lemma gh_grid_length {X} (nodes : list X) d : length (gh_grid nodes d) = length nodes ^ d.
Proof.
  unfold gh_grid. rewrite product_length. induction d; cbn; auto.
Qed.

Lemma fold_right_Qplus_app l l' :
  (fold_right Qplus 0 (l ++ l') == fold_right Qplus 0 l + fold_right Qplus 0 l')%Q.
Proof. induction l as [|a l IH]; cbn; [ring|]. rewrite IH. ring. Qed.

Lemma fold_right_Qplus_map_mult c l :
  (fold_right Qplus 0 (map (fun x => c * x) l) == c * fold_right Qplus 0 l)%Q.
Proof. induction l as [|a l IH]; cbn; [ring|]. rewrite IH. ring. Qed.

Lemma gh_weights_total ws d :
  (fold_right Qplus 0 (gh_weights ws d) == qpow (fold_right Qplus 0 ws) d)%Q.
Proof.
  unfold gh_weights. induction d as [|d IH].
  - cbn. ring.
  - cbn [repeat product qpow]. rewrite <- IH. clear IH.
    generalize (product (repeat ws d)) as ps. intro ps.
    assert (HH : forall l, (fold_right Qplus 0 (map qprod (flat_map (fun x => map (cons x) ps) l)) ==
                 fold_right Qplus 0 l * fold_right Qplus 0 (map qprod ps))%Q).
    { induction l as [|a l IH]; cbn [flat_map map fold_right]; [ring|].
      rewrite map_app, fold_right_Qplus_app, IH. rewrite map_map.
      rewrite (map_ext _ (fun p => a * qprod p)%Q) by (intro; reflexivity).
      rewrite <- (map_map qprod (fun x => a * x)%Q). rewrite fold_right_Qplus_map_mult. ring. }
    rewrite HH. ring.
Qed.

(** Point number and weight number agree: the weight at a position is the product of the 1-D weights
    of the coordinates of the point at that position. *)
Lemma picks_repeat {X} (l : list X) d is vs :
  picks (repeat l d) is vs <-> length is = d /\ Forall2 (fun i v => nth_error l i = Some v) is vs.
Proof.
  unfold picks. rewrite repeat_length. revert is vs; induction d as [|d IH]; intros is vs; cbn.
  - split.
    + intros [HF Hl]. destruct is; [|discriminate]. inversion HF; auto.
    + intros [Hl HF]. destruct is; [|discriminate]. inversion HF; split; constructor.
  - destruct is as [|i is]; [split; intros [? ?]; discriminate|]. cbn. split.
    + intros [HF Hl]. inversion HF as [|? v ? vs' H1 H2]; subst. cbn in H1.
      destruct (proj1 (IH is vs')) as [H3 H4]; [split; auto|]. split; [lia|]. constructor; auto.
    + intros [Hl HF]. inversion HF as [|? v ? vs' H1 H2]; subst. split; [|auto].
      constructor; auto. apply IH. split; auto.
Qed.

Lemma gh_aligned {X} (nodes : list X) (ws : list Q) d is xs wv :
  length ws = length nodes -> length is = d ->
  Forall2 (fun i x => nth_error nodes i = Some x) is xs ->
  Forall2 (fun i w => nth_error ws i = Some w) is wv ->
  exists p, nth_error (gh_grid nodes d) p = Some xs /\ nth_error (gh_weights ws d) p = Some (qprod wv).
Proof.
  intros Hl Hd Hx Hw. exists (lex_position (repeat (length nodes) d) is). split.
  - assert (HP : picks (repeat nodes d) is xs) by (apply picks_repeat; auto).
    pose proof (product_nth _ _ _ HP) as H. rewrite map_repeat in H. exact H.
  - assert (HP : picks (repeat ws d) is wv) by (apply picks_repeat; auto).
    pose proof (product_nth _ _ _ HP) as H. rewrite map_repeat, Hl in H.
    unfold gh_weights. rewrite nth_error_map, H. reflexivity.
Qed.
