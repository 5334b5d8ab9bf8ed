(** Lemmas for figures: masks, medians, ranges, the grid of scores. *)
From Verif Require Import Base BaseFacts RBase RFacts M_Logit M_Est M_Scale M_Plot S_Plot P_Est3.
From Coq Require Import Sorted Permutation Lia Lra.
Import List.
Local Open Scope R_scope.

Lemma index_ok D v : (1 <= v <= Z.of_nat D)%Z -> norm_index D (v - 1) = Some (Z.to_nat (v - 1)).
Proof.
  intros H. unfold norm_index. rewrite (proj2 (Z.leb_le 0 (v - 1))) by lia. rewrite (proj2 (Z.ltb_lt (v - 1) (Z.of_nat D))) by lia. reflexivity.
Qed.
Lemma select_filter {A} (p : nat -> bool) (h : nat -> A) n : forall s, mask_select (map p (seq s n)) (map h (seq s n)) = map h (filter p (seq s n)).
Proof. induction n as [|n IH]; intro s; [reflexivity|]. cbn [seq map mask_select filter]. rewrite IH. destruct (p s); reflexivity. Qed.
Lemma select_self m : length (mask_select m m) = length (filter (fun b => b) m).
Proof. induction m as [|[] m IH]; cbn; auto. Qed.
Lemma select_count (p : nat -> bool) n : forall s, length (mask_select (map p (seq s n)) (map p (seq s n))) = length (filter p (seq s n)).
Proof. intro s. rewrite select_filter, map_length. reflexivity. Qed.
Lemma scatter_filter (p : nat -> bool) (h : nat -> R) n : forall s l, length l = n ->
  mask_scatter (map p (seq s n)) (map h (filter p (seq s n))) l = map (fun j => if p j then h j else nth (j - s) l 0) (seq s n).
Proof.
  induction n as [|n IH]; intros s l H; [destruct l; [reflexivity|discriminate]|].
  destruct l as [|x l]; [discriminate|]. injection H as H. cbn [seq map mask_scatter filter]. destruct (p s) eqn:E.
  - cbn [map]. f_equal. rewrite IH by exact H. apply map_ext_in. intros j Hj. apply in_seq in Hj. destruct (p j); [reflexivity|].
    replace (j - s)%nat with (S (j - S s)) by lia. reflexivity.
  - replace (s - s)%nat with O by lia. f_equal. rewrite IH by exact H. apply map_ext_in. intros j Hj. apply in_seq in Hj. destruct (p j); [reflexivity|].
    replace (j - s)%nat with (S (j - S s)) by lia. reflexivity.
Qed.
Lemma free_mask_others D idx h : mask_select (free_mask D idx) (map h (seq 0 D)) = map (h : nat -> R) (others D idx).
Proof. apply select_filter. Qed.
Lemma free_mask_length D idx : length (free_mask D idx) = D.
Proof. unfold free_mask. now rewrite map_length, seq_length. Qed.
Lemma put_fixed_ok D idx fix_ rows : Forall (fun r => length r = D) rows ->
  put_fixed (free_mask D idx) (map fix_ (others D idx)) rows =
  Ok (map (fun r => map (fun j => if existsb (Nat.eqb j) idx then nth j r 0 else fix_ j) (seq 0 D)) rows).
Proof.
  intros H. unfold put_fixed. rewrite map_length. unfold free_mask at 1 2. rewrite select_count. unfold others at 1. rewrite Nat.eqb_refl. f_equal.
  apply map_ext_in. intros r Hr. rewrite Forall_forall in H. unfold free_mask, others. rewrite scatter_filter by auto.
  apply map_ext. intro j. rewrite Nat.sub_0_r. destruct (existsb (Nat.eqb j) idx); reflexivity.
Qed.
Lemma put_fixed_one D idx x rows : Forall (fun r => length r = D) rows ->
  put_fixed (free_mask D idx) [x] rows =
  Ok (map (fun r => map (fun j => if existsb (Nat.eqb j) idx then nth j r 0 else x) (seq 0 D)) rows).
Proof.
  intros H. set (k := length (others D idx)).
  assert (E : repeat x k = map (fun _ => x) (others D idx)).
  { unfold k. induction (others D idx) as [|a l IH]; cbn; [reflexivity|now f_equal]. }
  rewrite <- (put_fixed_ok D idx (fun _ => x) rows H), <- E. unfold put_fixed.
  assert (K : length (mask_select (free_mask D idx) (free_mask D idx)) = k) by (unfold free_mask at 1 2; rewrite select_count; reflexivity).
  rewrite K, repeat_length, Nat.eqb_refl. destruct (Nat.eqb_spec (length [x]) k) as [E1|E1]; [|reflexivity].
  rewrite <- E1. reflexivity.
Qed.
Lemma put_fixed_refused D idx f rows : length f <> length (others D idx) -> length f <> 1%nat ->
  put_fixed (free_mask D idx) f rows = Err RuntimeError.
Proof.
  intros H H1. unfold put_fixed.
  assert (K : length (mask_select (free_mask D idx) (free_mask D idx)) = length (others D idx)) by (unfold free_mask at 1 2; rewrite select_count; reflexivity).
  rewrite K. destruct (Nat.eqb_spec (length f) (length (others D idx))) as [E|_]; [contradiction|]. destruct f as [|a [|b f]]; try reflexivity. now contradiction H1.
Qed.

(** Sorting and medians. *)
Lemma insert_perm x l : Permutation (insert_r x l) (x :: l).
Proof. induction l as [|y l IH]; cbn; [auto|]. destruct (Rle_dec x y); [auto|]. rewrite IH. apply perm_swap. Qed.
Lemma sort_perm l : Permutation (sort_r l) l.
Proof. induction l as [|x l IH]; cbn; [auto|]. rewrite insert_perm. auto. Qed.
Lemma insert_sorted x l : StronglySorted Rle l -> StronglySorted Rle (insert_r x l).
Proof.
  induction 1 as [|y l HS IH HF]; cbn; [repeat constructor|]. destruct (Rle_dec x y) as [H|H].
  - constructor; [constructor; auto|]. constructor; auto. eapply Forall_impl; [|exact HF]. cbn. intros. lra.
  - constructor; auto. rewrite Forall_forall in *. intros z Hz. apply (Permutation_in _ (insert_perm x l)) in Hz. destruct Hz as [<-|Hz]; [lra|auto].
Qed.
Lemma sort_strong l : StronglySorted Rle (sort_r l).
Proof. induction l; cbn; [constructor|]. now apply insert_sorted. Qed.
Lemma filter_perm {A} (p : A -> bool) l l' : Permutation l l' -> length (filter p l) = length (filter p l').
Proof. induction 1; cbn; repeat (match goal with |- context [p ?a] => destruct (p a) end); cbn; lia. Qed.
Lemma below_perm m l l' : Permutation l l' -> below m l = below m l'.
Proof. apply filter_perm. Qed.
Lemma upto_perm m l l' : Permutation l l' -> upto m l = upto m l'.
Proof. apply filter_perm. Qed.
Lemma filter_all {A} (p : A -> bool) l : Forall (fun x => p x = true) l -> filter p l = l.
Proof. induction 1; cbn; [reflexivity|]. rewrite H. now f_equal. Qed.
Lemma filter_none {A} (p : A -> bool) l : Forall (fun x => p x = false) l -> filter p l = [].
Proof. induction 1; cbn; [reflexivity|]. now rewrite H. Qed.
Lemma sorted_split l k : StronglySorted Rle l -> (k < length l)%nat ->
  Forall (fun x => x <= nth k l 0) (firstn (S k) l) /\ Forall (fun x => nth k l 0 <= x) (skipn k l).
Proof.
  intros H. revert k. induction H as [|a l HS IH HF]; intros k Hk; [cbn in Hk; lia|]. destruct k as [|k].
  - cbn. split; [constructor; [lra|constructor]|]. constructor; [lra|auto].
  - cbn [length] in Hk. destruct (IH k ltac:(lia)) as [H1 H2]. cbn [nth skipn]. split; [|exact H2]. change (firstn (S (S k)) (a :: l)) with (a :: firstn (S k) l).
    constructor; auto. rewrite Forall_forall in HF. apply HF. apply nth_In. lia.
Qed.
Lemma filter_le {A} (p : A -> bool) l : (length (filter p l) <= length l)%nat.
Proof. induction l as [|a l IH]; cbn; [lia|]. destruct (p a); cbn; lia. Qed.
Lemma below_sorted l k : StronglySorted Rle l -> (k < length l)%nat -> (below (nth k l 0%R) l <= k)%nat.
Proof.
  intros H Hk. destruct (sorted_split l k H Hk) as [_ H2]. set (v := nth k l 0) in *. clearbody v. unfold below.
  rewrite <- (firstn_skipn k l). rewrite filter_app, app_length.
  rewrite (filter_none _ (skipn k l)). 2: { eapply Forall_impl; [|exact H2]. cbn. intros x Hx. destruct (Rlt_dec x v); [lra|reflexivity]. }
  cbn [length]. pose proof (firstn_le_length k l). pose proof (filter_le (fun x => if Rlt_dec x v then true else false) (firstn k l)). lia.
Qed.
Lemma upto_sorted l k : StronglySorted Rle l -> (k < length l)%nat -> (S k <= upto (nth k l 0%R) l)%nat.
Proof.
  intros H Hk. destruct (sorted_split l k H Hk) as [H1 _]. set (v := nth k l 0) in *. clearbody v. unfold upto.
  rewrite <- (firstn_skipn (S k) l). rewrite filter_app, app_length.
  rewrite (filter_all _ (firstn (S k) l)). 2: { eapply Forall_impl; [|exact H1]. cbn beta. intros x Hx. destruct (Rle_dec x v); [reflexivity|lra]. }
  rewrite firstn_length. lia.
Qed.
Lemma sort_length l : length (sort_r l) = length l.
Proof. apply Permutation_length, sort_perm. Qed.
Lemma half_bounds n : (0 < n)%nat -> (2 * ((n - 1) / 2) < n /\ n <= 2 * S ((n - 1) / 2))%nat.
Proof. intro. pose proof (Nat.div_mod (n - 1) 2 ltac:(lia)). pose proof (Nat.mod_upper_bound (n - 1) 2 ltac:(lia)). lia. Qed.
Lemma median_lower l : l <> [] -> is_lower_median l (median l).
Proof.
  intros H. assert (L : (0 < length l)%nat) by (destruct l; [congruence|cbn; lia]). destruct (half_bounds _ L) as [B1 B2].
  set (k := ((length l - 1) / 2)%nat) in *. assert (Hk : (k < length (sort_r l))%nat) by (rewrite sort_length; lia).
  unfold is_lower_median, median. fold k. split; [|split].
  - apply (Permutation_in _ (sort_perm l)). now apply nth_In.
  - rewrite (below_perm _ l (sort_r l)) by (symmetry; apply sort_perm). pose proof (below_sorted _ _ (sort_strong l) Hk). lia.
  - rewrite (upto_perm _ l (sort_r l)) by (symmetry; apply sort_perm). pose proof (upto_sorted _ _ (sort_strong l) Hk). lia.
Qed.
Lemma upto_below a b l : a < b -> (upto a l <= below b l)%nat.
Proof.
  intro H. unfold upto, below. induction l as [|x l IH]; cbn; [lia|]. destruct (Rle_dec x a), (Rlt_dec x b); cbn; try lia. lra.
Qed.
Lemma lower_median_unique l a b : is_lower_median l a -> is_lower_median l b -> a = b.
Proof.
  intros (_ & A1 & A2) (_ & B1 & B2). destruct (Rtotal_order a b) as [H|[H|H]]; auto; exfalso.
  - pose proof (upto_below a b l H). lia.
  - pose proof (upto_below b a l H). lia.
Qed.
Lemma lower_median_is l a : is_lower_median l a -> a = median l.
Proof. intro H. apply (lower_median_unique l); auto. apply median_lower. destruct H as [H _]. now destruct l. Qed.
Lemma extent_is l lo hi : is_extent l lo hi -> lo = rmin_list l /\ hi = rmax_list l.
Proof.
  intros (H1 & H2 & H3). assert (NE : l <> []) by (now destruct l). destruct (rmin_list_spec l NE) as [A1 A2]. destruct (rmax_list_spec l NE) as [B1 B2].
  pose proof (H3 _ A1). pose proof (H3 _ B1). pose proof (A2 _ H1). pose proof (B2 _ H2). split; lra.
Qed.
Lemma extent_exists l : l <> [] -> is_extent l (rmin_list l) (rmax_list l).
Proof. intro NE. destruct (rmin_list_spec l NE) as [A1 A2]. destruct (rmax_list_spec l NE) as [B1 B2]. split; [auto|split; [auto|]]. intros x Hx. auto. Qed.

Lemma linspace_spaced lo hi n : linspace lo hi n = map (spaced lo hi n) (seq 0 n).
Proof. unfold linspace, spaced. apply map_ext. intro k. unfold Rdiv. ring. Qed.
