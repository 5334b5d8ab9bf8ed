(** Splitting respondents into groups. *)
From Coq Require Import Permutation Sorted.
From Verif Require Import Base BaseFacts RBase RFacts M_Data M_Mono M_Lik M_Est M_Stat M_Grid M_Eval S_Lik S_Est S_Eval P_CV P_Mono1 P_Grid1 P_Eval1.

(** ** Consecutive slices *)
Lemma split_sizes_spec {A} sizes : forall l : list A, list_sum sizes = length l -> splits_into l sizes (split_sizes sizes l).
Proof.
  induction sizes as [|s ss IH]; intros l H.
  - destruct l; [|discriminate H]. split; reflexivity.
  - change (list_sum (s :: ss)) with (s + list_sum ss) in H. cbn [split_sizes].
    destruct (IH (skipn s l)) as [E1 E2]; [rewrite skipn_length; lia|]. split.
    + cbn [concat]. rewrite E1. apply firstn_skipn.
    + cbn [map]. rewrite E2, firstn_length. f_equal. lia.
Qed.
Definition slice_size (n groups g : nat) : nat := n / groups + (if g <? n mod groups then 1 else 0).
Lemma skipn_add {A} a b (l : list A) : skipn (a + b) l = skipn b (skipn a l).
Proof. revert l. induction a as [|a IH]; intros l; [reflexivity|]. destruct l as [|x l]; [cbn; now rewrite skipn_nil|]. cbn. apply IH. Qed.
Lemma group_slices_split {A} groups (l : list A) : group_slices groups l = split_sizes (map (slice_size (length l) groups) (seq 0 groups)) l.
Proof.
  unfold group_slices. set (f := fun (st : nat * list (list A)) g => _).
  assert (G : forall gs start out, snd (fold_left f gs (start, out)) = out ++ split_sizes (map (slice_size (length l) groups) gs) (skipn start l)).
  { induction gs as [|g gs IH]; intros start out; [cbn; now rewrite app_nil_r|]. cbn [fold_left map split_sizes]. unfold f at 2. cbn [fst snd].
    rewrite IH, <- app_assoc. cbn [app]. fold (slice_size (length l) groups g). now rewrite skipn_add. }
  rewrite G. reflexivity.
Qed.
Lemma list_sum_app' a b : list_sum (a ++ b) = list_sum a + list_sum b.
Proof. induction a as [|x a IH]; [reflexivity|]. change (list_sum ((x :: a) ++ b)) with (x + list_sum (a ++ b)). rewrite IH. change (list_sum (x :: a)) with (x + list_sum a). lia. Qed.
Lemma slice_total n groups : 0 < groups -> list_sum (map (slice_size n groups) (seq 0 groups)) = n.
Proof.
  intros H. assert (G : forall k, k <= groups -> list_sum (map (slice_size n groups) (seq 0 k)) = k * (n / groups) + Nat.min k (n mod groups)).
  { induction k as [|k IH]; intros Hk; [reflexivity|]. rewrite seq_S, map_app, list_sum_app', IH by lia. cbn [map Nat.add].
    change (list_sum [slice_size n groups k]) with (slice_size n groups k + 0). unfold slice_size. destruct (Nat.ltb_spec k (n mod groups)); lia. }
  rewrite G by lia. pose proof (Nat.mod_upper_bound n groups ltac:(lia)). pose proof (Nat.div_mod n groups ltac:(lia)). lia.
Qed.
Lemma group_slices_spec {A} groups (l : list A) : 0 < groups -> splits_into l (map (slice_size (length l) groups) (seq 0 groups)) (group_slices groups l).
Proof. intros H. rewrite group_slices_split. apply split_sizes_spec. now apply slice_total. Qed.
Lemma split_sizes_map {A B} (f : A -> B) sizes : forall l, split_sizes sizes (map f l) = map (map f) (split_sizes sizes l).
Proof. induction sizes as [|s ss IH]; intros l; [reflexivity|]. cbn [split_sizes map]. now rewrite skipn_map, firstn_map, IH. Qed.
Lemma group_slices_map {A B} (f : A -> B) groups l : group_slices groups (map f l) = map (map f) (group_slices groups l).
Proof. now rewrite !group_slices_split, map_length, split_sizes_map. Qed.

(** ** Chunks *)
Lemma blocks_fuel_map {A B} (f : A -> B) fuel n : forall l, blocks_fuel fuel n (map f l) = map (map f) (blocks_fuel fuel n l).
Proof. induction fuel as [|k IH]; intros l; [reflexivity|]. destruct l as [|a l]; [reflexivity|]. cbn [map blocks_fuel]. rewrite <- IH. change (f a :: map f l) with (map f (a :: l)). now rewrite firstn_map, skipn_map. Qed.
Lemma chunk_map {A B} (f : A -> B) k l : chunk k (map f l) = map (map f) (chunk k l).
Proof.
  destruct l as [|a l].
  - cbn. induction k as [|k IH]; [reflexivity|]. cbn. now rewrite <- IH.
  - unfold chunk. cbn [map]. change (f a :: map f l) with (map f (a :: l)). unfold blocks. rewrite map_length. apply blocks_fuel_map.
Qed.
Lemma chunk_lengths {A B} k (l : list A) (m : list B) : length l = length m -> map (@length A) (chunk k l) = map (@length B) (chunk k m).
Proof.
  intros H. assert (E : map (fun _ => tt) l = map (fun _ => tt) m).
  { revert m H. induction l as [|a l IH]; intros [|b m] H; try discriminate; [reflexivity|]. cbn. f_equal. apply IH. cbn in H. lia. }
  assert (P : forall (X : Type) (x : list X), map (@length X) (chunk k x) = map (@length unit) (chunk k (map (fun _ => tt) x))).
  { intros X x. rewrite chunk_map, map_map. apply map_ext. intros y. now rewrite map_length. }
  rewrite (P A l), (P B m), E. reflexivity.
Qed.

(** ** Order by score *)
Lemma argsort_order col : increasing_order (fun n => nth n col 0%R) (length col) (argsort_r col) /\ StronglySorted (fun a b => (nth a col 0 <= nth b col 0)%R) (argsort_r col).
Proof.
  unfold argsort_r. pose proof (sort_indexed_indices rleb col) as P.
  pose proof (sort_indexed_sorted rleb rleb_total rleb_trans col) as S.
  assert (V : forall p, In p (sort_indexed rleb col) -> nth (snd p) col 0%R = fst p).
  { intros [x k] H. apply sort_indexed_in in H. apply nth_error_nth. exact H. }
  assert (SS : StronglySorted (fun a b => (nth a col 0 <= nth b col 0)%R) (map snd (sort_indexed rleb col))).
  { revert S V. generalize (sort_indexed rleb col). intros l. induction l as [|p l IH]; intros S V; [constructor|].
    inversion S as [|? ? S' F]; subst. cbn [map]. constructor; [apply IH; [exact S'|intros; apply V; now right]|].
    rewrite Forall_map. rewrite Forall_forall in *. intros q Hq. specialize (F q Hq). rewrite (V p), (V q) by (cbn; auto).
    unfold rleb in F. destruct (Rle_dec (fst p) (fst q)); [assumption|discriminate]. }
  split; [|exact SS]. split; [|split].
  - apply (Permutation_NoDup (Permutation_sym P)). apply seq_NoDup.
  - intros n. split; intros H.
    + apply (Permutation_in _ P) in H. apply in_seq in H. lia.
    + apply (Permutation_in _ (Permutation_sym P)). apply in_seq. lia.
  - clear P S V. intros a b i j Ha Hb L. revert i j Ha Hb L. induction SS as [|x l SS IH F]; intros i j Ha Hb L; [destruct i; discriminate|].
    destruct i as [|i], j as [|j]; try lia.
    + cbn in Ha. injection Ha as <-. rewrite Forall_forall in F. apply F. cbn [nth_error] in Hb. apply (nth_error_In _ _ Hb).
    + apply (IH i j Ha Hb). lia.
Qed.
Lemma sorted_groups (score : nat -> R) groups : StronglySorted (fun a b => (score a <= score b)%R) (concat groups) -> ordered_groups score groups.
Proof.
  induction groups as [|G groups IH]; intros S g h A B a b Hg Hh L Ia Ib; [destruct g; discriminate|].
  cbn [concat] in S. apply sorted_app_inv in S as (S1 & S2 & S3). destruct g as [|g], h as [|h]; try lia.
  - cbn in Hg. injection Hg as <-. apply S3; [exact Ia|]. apply in_concat. exists B. cbn [nth_error] in Hh. split; [apply (nth_error_In _ _ Hh)|exact Ib].
  - apply (IH S2 g h A B a b Hg Hh); [lia|assumption|assumption].
Qed.
Lemma take_rows_ok {A} (d : A) idx l : (forall i, In i idx -> i < length l) -> take_rows idx l = Ok (map (fun i => nth i l d) idx).
Proof.
  unfold take_rows. intros H. rewrite <- (map_id idx) at 1. apply mapM_map_ok. intros i Hi. rewrite (nth_error_nth_lt l i d) by (now apply H). reflexivity.
Qed.
Lemma lv_column_ok lv j thetas : j < lv -> lv_column lv (S j) thetas = Ok (column 0%R j thetas).
Proof.
  intros H. unfold lv_column, norm_index. replace (Z.of_nat (S j) - 1)%Z with (Z.of_nat j) by lia.
  destruct (Z.leb_spec 0 (Z.of_nat j)); [|lia]. destruct (Z.ltb_spec (Z.of_nat j) (Z.of_nat lv)); [|lia]. cbn [andb]. now rewrite Nat2Z.id.
Qed.
