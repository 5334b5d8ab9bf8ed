(** Lemmas for figures: the grid of scores, trimming, lines and surfaces. *)
From Verif Require Import Base BaseFacts RBase RFacts M_Logit M_Est M_Scale M_Plot S_Plot P_Est3 P_Plot1.
From Coq Require Import Lia Lra.
Import List.
Local Open Scope R_scope.

Lemma use_transformed_spec m r : use_transformed m r = true <-> on_transformed_scale m r.
Proof.
  unfold use_transformed, on_transformed_scale, has_scale. rewrite !Bool.andb_true_iff, forallb_forall, Forall_forall.
  destruct (pl_scales m) as [|s l]; destruct (pl_training m); intuition congruence.
Qed.
Lemma source_ok m r src : scores_source m r src -> theta_source m r = Ok src.
Proof.
  unfold scores_source, theta_source. destruct (pl_training m) as [t|]; [|now intros ->]. intros [H1 H2].
  destruct (use_transformed m r) eqn:E.
  - apply use_transformed_spec in E. destruct (H1 E) as (t' & Ht & ->). now rewrite Ht.
  - rewrite H2; [reflexivity|]. intro X. apply use_transformed_spec in X. congruence.
Qed.
Lemma range_ok src j given lo hi : range_is src j given lo hi -> range_of src j given = Ok (lo, hi).
Proof.
  unfold range_is, range_of. destruct given as [r|]; [now intros ->|]. destruct src as [rows|]; [|now intros [-> ->]].
  intros H. destruct (extent_is _ _ _ H) as [-> ->]. unfold extent. destruct rows; [|reflexivity]. destruct H as [H _]. destruct H.
Qed.
Definition fixed_values (src : option (list (list R))) (D : nat) (mask : list bool) (given : option (list R)) : result (list R) :=
  match given, src with
  | Some f, _ => Ok f
  | None, Some rows => medians mask rows
  | None, None => Ok (mask_select mask (repeat 0 D))
  end.
Lemma repeat_map {A} (x : A) n s : repeat x n = map (fun _ => x) (seq s n).
Proof. revert s. induction n as [|n IH]; intro s; cbn; [reflexivity|]. now rewrite (IH (S s)). Qed.
Lemma fixed_ok src D idx given fix_ : fixed_are src D idx given fix_ ->
  fixed_values src D (free_mask D idx) given = Ok (map fix_ (others D idx)).
Proof.
  unfold fixed_are, fixed_values. destruct given as [f|]; [now intros ->|]. destruct src as [rows|].
  - intros [NE H]. unfold medians. destruct rows as [|r rows]; [congruence|]. f_equal. rewrite free_mask_length, free_mask_others.
    apply map_ext_in. intros j Hj. symmetry. apply lower_median_is. now apply H.
  - intros H. f_equal. rewrite (repeat_map 0 D 0), free_mask_others. apply map_ext_in. intros j Hj. symmetry. now apply H.
Qed.
Lemma indices_one D v : (1 <= v <= Z.of_nat D)%Z -> latent_indices D [v] = Ok [Z.to_nat (v - 1)].
Proof. intros H. unfold latent_indices. cbn [mapM bind]. rewrite index_ok by exact H. reflexivity. Qed.
Lemma indices_two D v w : (1 <= v <= Z.of_nat D)%Z -> (1 <= w <= Z.of_nat D)%Z -> latent_indices D [v; w] = Ok [Z.to_nat (v - 1); Z.to_nat (w - 1)].
Proof. intros H1 H2. unfold latent_indices. cbn [mapM bind]. rewrite (index_ok D v), (index_ok D w) by assumption. reflexivity. Qed.
Lemma axis_row_length D i fix_ x : length (axis_row D i fix_ x) = D.
Proof. unfold axis_row. now rewrite map_length, seq_length. Qed.
Lemma axis_row2_length D i j fix_ x y : length (axis_row2 D i j fix_ x y) = D.
Proof. unfold axis_row2. now rewrite map_length, seq_length. Qed.
Lemma axis_row_nth D i fix_ x : (i < D)%nat -> nth i (axis_row D i fix_ x) 0 = x.
Proof. intro H. apply nth_error_nth. unfold axis_row. rewrite nth_error_map, nth_error_seq by exact H. cbn [option_map Nat.add]. now rewrite Nat.eqb_refl. Qed.

Lemma repeat_nth (x : R) n j : (j < n)%nat -> nth j (repeat x n) 0 = x.
Proof. revert j. induction n as [|n IH]; intros [|j] H; cbn; try lia; [reflexivity|]. apply IH. lia. Qed.
Definition one_axis (D i : nat) (fix_ : nat -> R) (lo hi : R) (n : nat) : list (list R) :=
  map (fun k => axis_row D i fix_ (spaced lo hi n k)) (seq 0 n).
Definition pairs (n : nat) : list (nat * nat) := flat_map (fun a => map (fun b => (a, b)) (seq 0 n)) (seq 0 n).
Definition two_axes (D i j : nat) (fix_ : nat -> R) (lo hi lo2 hi2 : R) (n : nat) : list (list R) :=
  map (fun p => axis_row2 D i j fix_ (spaced lo hi n (fst p)) (spaced lo2 hi2 n (snd p))) (pairs n).

Lemma grid_one m n c v src lo hi fix_ : (1 <= v <= Z.of_nat (pl_dim m))%Z -> pc_vars c = [v] ->
  let i := Z.to_nat (v - 1) in
  scores_source m (pc_rescale c) src -> range_is src i (pc_range c) lo hi -> fixed_are src (pl_dim m) [i] (pc_fixed c) fix_ ->
  plot_grid m n c = let G := one_axis (pl_dim m) i fix_ lo hi n in if use_transformed m (pc_rescale c) then pl_inverse m G else Ok G.
Proof.
  intros Hv Hc i Hs Hr Hf. unfold plot_grid. rewrite Hc, indices_one by exact Hv. cbn [bind]. fold i. rewrite (source_ok _ _ _ Hs). cbn [bind].
  change (match pc_fixed c with Some f => Ok f | None => match src with Some rows => medians (free_mask (pl_dim m) [i]) rows | None => Ok (mask_select (free_mask (pl_dim m) [i]) (repeat 0 (pl_dim m))) end end)
    with (fixed_values src (pl_dim m) (free_mask (pl_dim m) [i]) (pc_fixed c)). rewrite (fixed_ok _ _ _ _ _ Hf). cbn [bind].
  rewrite (range_ok _ _ _ _ _ Hr). cbn [bind fst snd]. rewrite put_fixed_ok.
  2: { rewrite Forall_map. apply Forall_forall. intros x _. apply repeat_length. }
  cbn [bind]. rewrite linspace_spaced, !map_map.
  assert (E : map (fun x => map (fun j => if existsb (Nat.eqb j) [i] then nth j (repeat (spaced lo hi n x) (pl_dim m)) 0 else fix_ j) (seq 0 (pl_dim m))) (seq 0 n) = one_axis (pl_dim m) i fix_ lo hi n).
  { unfold one_axis. apply map_ext. intro k. unfold axis_row. apply map_ext_in. intros j Hj. apply in_seq in Hj. cbn [existsb]. rewrite Bool.orb_false_r.
    destruct (j =? i)%nat; [|reflexivity]. apply repeat_nth. lia. }
  rewrite E. reflexivity.
Qed.

Lemma grid_two m n c v w src lo hi lo2 hi2 fix_ : (1 <= v <= Z.of_nat (pl_dim m))%Z -> (1 <= w <= Z.of_nat (pl_dim m))%Z -> v <> w -> pc_vars c = [v; w] ->
  let i := Z.to_nat (v - 1) in let j := Z.to_nat (w - 1) in
  scores_source m (pc_rescale c) src -> range_is src i (pc_range c) lo hi -> range_is src j (pc_second c) lo2 hi2 ->
  fixed_are src (pl_dim m) [i; j] (pc_fixed c) fix_ ->
  plot_grid m n c = let G := two_axes (pl_dim m) i j fix_ lo hi lo2 hi2 n in if use_transformed m (pc_rescale c) then pl_inverse m G else Ok G.
Proof.
  intros Hv Hw Hvw Hc i j Hs Hr Hr2 Hf. unfold plot_grid. rewrite Hc, indices_two by assumption. cbn [bind]. fold i j. rewrite (source_ok _ _ _ Hs). cbn [bind].
  change (match pc_fixed c with Some f => Ok f | None => match src with Some rows => medians (free_mask (pl_dim m) [i; j]) rows | None => Ok (mask_select (free_mask (pl_dim m) [i; j]) (repeat 0 (pl_dim m))) end end)
    with (fixed_values src (pl_dim m) (free_mask (pl_dim m) [i; j]) (pc_fixed c)). rewrite (fixed_ok _ _ _ _ _ Hf). cbn [bind].
  rewrite (range_ok _ _ _ _ _ Hr). cbn [bind fst snd]. rewrite (range_ok _ _ _ _ _ Hr2). cbn [bind fst snd].
  rewrite put_fixed_ok.
  2: { rewrite Forall_map. apply Forall_forall. intros x _. rewrite !upd_length. apply repeat_length. }
  cbn [bind]. rewrite !linspace_spaced.
  assert (E : flat_map (fun x => map (fun y => (x, y)) (map (spaced lo2 hi2 n) (seq 0 n))) (map (spaced lo hi n) (seq 0 n))
    = map (fun p => (spaced lo hi n (fst p), spaced lo2 hi2 n (snd p))) (pairs n)).
  { unfold pairs. generalize (seq 0 n) at 2 4. intro l. induction l as [|a l IH]; cbn [map flat_map]; [reflexivity|].
    rewrite map_app, IH, !map_map. reflexivity. }
  rewrite E, !map_map.
  assert (E2 : map (fun p => map (fun d => if existsb (Nat.eqb d) [i; j]
      then nth d (upd j (snd (spaced lo hi n (fst p), spaced lo2 hi2 n (snd p))) (upd i (fst (spaced lo hi n (fst p), spaced lo2 hi2 n (snd p))) (repeat 0 (pl_dim m)))) 0 else fix_ d) (seq 0 (pl_dim m))) (pairs n)
      = two_axes (pl_dim m) i j fix_ lo hi lo2 hi2 n).
  { unfold two_axes. apply map_ext. intro p. unfold axis_row2. apply map_ext_in. intros d Hd. apply in_seq in Hd. cbn [existsb fst snd]. rewrite Bool.orb_false_r.
    destruct (Nat.eqb_spec d j) as [->|Nj].
    - rewrite Bool.orb_true_r. apply nth_error_nth. apply nth_error_upd_eq. rewrite upd_length, repeat_length. lia.
    - rewrite Bool.orb_false_r. destruct (Nat.eqb_spec d i) as [->|Ni]; [|reflexivity].
      apply nth_error_nth. rewrite nth_error_upd_neq by congruence. apply nth_error_upd_eq. rewrite repeat_length. lia. }
  rewrite E2. reflexivity.
Qed.

(** Trimming. *)
Lemma skipn_map_seq {A} (f : nat -> A) q n : forall s, (q <= n)%nat -> skipn q (map f (seq s n)) = map f (seq (s + q) (n - q)).
Proof.
  revert q. induction n as [|n IH]; intros [|q] s H; cbn [seq map skipn].
  - now rewrite Nat.add_0_r.
  - lia.
  - rewrite Nat.add_0_r. reflexivity.
  - rewrite IH by lia. f_equal. f_equal; lia.
Qed.
Lemma firstn_map_seq {A} (f : nat -> A) p n : forall s, (p <= n)%nat -> firstn p (map f (seq s n)) = map f (seq s p).
Proof. revert p. induction n as [|n IH]; intros [|p] s H; cbn [seq map firstn]; [reflexivity|lia|reflexivity|]. f_equal. apply IH. lia. Qed.
Lemma combine_map {A B C} (f : C -> A) (g : C -> B) l : combine (map f l) (map g l) = map (fun k => (f k, g k)) l.
Proof. induction l; cbn; [reflexivity|now f_equal]. Qed.
Definition first_min (n : nat) (x : nat -> R) (p : nat) : Prop := (p < n)%nat /\ (forall k, (k < n)%nat -> x p <= x k) /\ forall k, (k < p)%nat -> x p < x k.
Definition last_min (n : nat) (x : nat -> R) (q : nat) : Prop := (q < n)%nat /\ (forall k, (k < n)%nat -> x q <= x k) /\ forall k, (q < k < n)%nat -> x q < x k.
Lemma first_min_exists n x : (0 < n)%nat -> exists p, first_min n x p.
Proof.
  induction n as [|n IH]; intro H; [lia|]. destruct n as [|n].
  - exists O. split; [lia|]. split; [intros k Hk; replace k with O by lia; lra|lia].
  - destruct (IH ltac:(lia)) as (p & H1 & H2 & H3). destruct (Rlt_dec (x (S n)) (x p)) as [L|L].
    + exists (S n). split; [lia|]. split.
      * intros k Hk. destruct (Nat.eq_dec k (S n)) as [->|]; [lra|]. specialize (H2 k ltac:(lia)). lra.
      * intros k Hk. specialize (H2 k ltac:(lia)). lra.
    + exists p. split; [lia|]. split; [|exact H3]. intros k Hk. destruct (Nat.eq_dec k (S n)) as [->|]; [lra|]. apply H2. lia.
Qed.
Lemma last_min_exists n x : (0 < n)%nat -> exists q, last_min n x q.
Proof.
  induction n as [|n IH]; intro H; [lia|]. destruct n as [|n].
  - exists O. split; [lia|]. split; [intros k Hk; replace k with O by lia; lra|lia].
  - destruct (IH ltac:(lia)) as (p & H1 & H2 & H3). destruct (Rle_dec (x (S n)) (x p)) as [L|L].
    + exists (S n). split; [lia|]. split; [|lia]. intros k Hk. destruct (Nat.eq_dec k (S n)) as [->|]; [lra|]. specialize (H2 k ltac:(lia)). lra.
    + exists p. split; [lia|]. split.
      * intros k Hk. destruct (Nat.eq_dec k (S n)) as [->|]; [lra|]. apply H2. lia.
      * intros k Hk. destruct (Nat.eq_dec k (S n)) as [->|]; [lra|]. apply H3. lia.
Qed.
Lemma min_value n x p : (0 < n)%nat -> (p < n)%nat -> (forall k, (k < n)%nat -> x p <= x k) -> rmin_list (map x (seq 0 n)) = x p.
Proof.
  intros H0 Hp H. destruct (rmin_list_spec (map x (seq 0 n))) as [I L].
  { destruct n; [lia|discriminate]. }
  apply in_map_iff in I. destruct I as (k & E & Hk). apply in_seq in Hk. specialize (H k ltac:(lia)).
  assert (rmin_list (map x (seq 0 n)) <= x p) by (apply L; apply in_map; apply in_seq; lia). lra.
Qed.
Lemma filter_false_seq (t : nat -> bool) s n : (forall k, (s <= k < s + n)%nat -> t k = false) -> filter t (seq s n) = [].
Proof. intro H. apply filter_none. apply Forall_forall. intros k Hk. apply in_seq in Hk. apply H. lia. Qed.
Lemma seq_at n p : (p < n)%nat -> seq 0 n = seq 0 p ++ p :: seq (S p) (n - S p).
Proof. intro H. replace n with (p + S (n - S p))%nat at 1 by lia. rewrite seq_app. reflexivity. Qed.
Lemma positions_hd n x p : first_min n x p -> hd O (positions_of_min (map x (seq 0 n))) = p.
Proof.
  intros (H1 & H2 & H3). unfold positions_of_min. rewrite (min_value n x p) by (auto; lia). rewrite map_length, seq_length, (seq_at n p H1), filter_app.
  rewrite filter_false_seq.
  - cbn [app filter]. destruct (Req_EM_T _ _) as [|N]; [reflexivity|]. exfalso. apply N.
    rewrite <- (seq_at n p H1). apply nth_error_nth. rewrite nth_error_map, nth_error_seq by exact H1. reflexivity.
  - intros k Hk. destruct (Req_EM_T _ _) as [E|]; [|reflexivity]. exfalso. rewrite <- (seq_at n p H1) in E.
    rewrite (nth_error_nth (map x (seq 0 n)) k 0 (x := x k)) in E by (rewrite nth_error_map, nth_error_seq by lia; reflexivity). specialize (H3 k ltac:(lia)). lra.
Qed.
Lemma positions_last n x q : last_min n x q -> last (positions_of_min (map x (seq 0 n))) O = q.
Proof.
  intros (H1 & H2 & H3). unfold positions_of_min. rewrite (min_value n x q) by (auto; lia). rewrite map_length, seq_length.
  assert (N : forall k, (k < n)%nat -> nth k (map x (seq 0 n)) 0 = x k) by (intros k Hk; apply nth_error_nth; rewrite nth_error_map, nth_error_seq by exact Hk; reflexivity).
  set (l := map x (seq 0 n)) in *. clearbody l. rewrite (seq_at n q H1), filter_app. cbn [filter]. rewrite N by exact H1. destruct (Req_EM_T (x q) (x q)); [|congruence].
  rewrite (filter_false_seq _ (S q)).
  - apply last_last.
  - intros k Hk. rewrite N by lia. destruct (Req_EM_T _ _); [|reflexivity]. specialize (H3 k ltac:(lia)). lra.
Qed.
Lemma trim_map {V} n x (y : nat -> V) p q : first_min n x p -> last_min n x q ->
  trim (map x (seq 0 n)) (map y (seq 0 n)) = Ok (map (fun k => (x k, y k)) (if (q =? n - 1)%nat then seq 0 p else seq q (n - q))).
Proof.
  intros Hp Hq. unfold trim. destruct (map x (seq 0 n)) as [|a l] eqn:E.
  - exfalso. apply (f_equal (@length R)) in E. rewrite map_length, seq_length in E. destruct Hp as [Hp _]. cbn in E. lia.
  - rewrite <- E, (positions_hd n x p Hp), (positions_last n x q Hq). rewrite map_length, seq_length.
    destruct Hp as [Hp _], Hq as [Hq _]. destruct (q =? n - 1)%nat.
    + rewrite !firstn_map_seq by lia. rewrite !map_length, Nat.eqb_refl, combine_map. reflexivity.
    + rewrite !skipn_map_seq by lia. rewrite !map_length, Nat.eqb_refl, combine_map. reflexivity.
Qed.
Lemma squeezed_map {V} n x (y : nat -> V) : (2 <= n)%nat -> squeezed_trim (map x (seq 0 n)) (map y (seq 0 n)) = trim (map x (seq 0 n)) (map y (seq 0 n)).
Proof. intro H. destruct n as [|[|n]]; try lia. reflexivity. Qed.
