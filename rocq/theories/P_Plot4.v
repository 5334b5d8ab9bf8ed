(** Surfaces. *)
From Verif Require Import Base BaseFacts RBase RFacts M_Logit M_Est M_Scale M_Plot S_Plot P_Est3 P_Plot1 P_Plot2 P_Plot3.
From Coq Require Import Lia Lra.
Import List.
Local Open Scope R_scope.

Lemma pairs_length n : length (pairs n) = (n * n)%nat.
Proof.
  unfold pairs. rewrite flat_map_concat_map.
  assert (H : forall l : list nat, length (concat (map (fun a => map (fun b => (a, b)) (seq 0 n)) l)) = (length l * n)%nat).
  { induction l as [|a l IH]; cbn [map concat length]; [reflexivity|]. rewrite app_length, map_length, seq_length, IH. reflexivity. }
  rewrite H, seq_length. reflexivity.
Qed.
Lemma pairs_map {A} (h : nat * nat -> A) n : map h (pairs n) = concat (map (fun a => map (fun b => h (a, b)) (seq 0 n)) (seq 0 n)).
Proof.
  unfold pairs. rewrite flat_map_concat_map. generalize (seq 0 n) at 2 4. intro l. induction l as [|a l IH]; cbn [map concat]; [reflexivity|].
  rewrite map_app, IH, map_map. reflexivity.
Qed.
Lemma surface_map {V} n (X Z : nat * nat -> R) (F : nat * nat -> V) :
  surface (map X (pairs n)) (map Z (pairs n)) (map F (pairs n)) =
  Ok (Surface (map (fun a => map (fun b => (X (a, b), Z (a, b), F (a, b))) (seq 0 n)) (seq 0 n))).
Proof.
  unfold surface. rewrite !map_length, pairs_length, Nat.sqrt_square, Nat.eqb_refl. cbn [andb]. rewrite !combine_map, pairs_map. f_equal. f_equal.
  destruct n as [|n]; [reflexivity|]. apply blocks_flat; [lia|]. apply Forall_map, Forall_forall. intros a _. now rewrite map_length, seq_length.
Qed.
Lemma ne_pairs {A} (g : nat * nat -> A) n : (1 <= n)%nat -> map g (pairs n) <> [].
Proof. destruct n; [lia|discriminate]. Qed.
Lemma surface_core {V} m (curve : list (list R) -> result (list V)) fv c v w n S (g : nat * nat -> list R) :
  (1 <= v <= Z.of_nat (pl_dim m))%Z -> (1 <= w <= Z.of_nat (pl_dim m))%Z -> (2 <= pl_dim m)%nat -> pc_vars c = [v; w] -> two_values (pc_range c) ->
  steps_are (pc_steps c) 18 n -> (1 <= n)%nat -> plot_grid m n c = Ok (map g (pairs n)) -> (forall k, length (g k) = pl_dim m) ->
  shows m (pc_rescale c) S -> drawn_by m curve fv ->
  curve_plot m curve c = Ok (Surface (map (fun a => map (fun b => (nth (Z.to_nat (v - 1)) (S (g (a, b))) 0, nth (Z.to_nat (w - 1)) (S (g (a, b))) 0, fv (g (a, b)))) (seq 0 n)) (seq 0 n))).
Proof.
  intros Hv Hw HD Hc Hr Hn N1 Hg Hl HS HV. unfold curve_plot. rewrite (checks_two m c v w) by (auto; lia). cbn [bind].
  assert (E : default_steps 100 18 c = n) by (unfold default_steps, steps_are in *; rewrite Hc; destruct (pc_steps c); auto).
  rewrite E, Hg. cbn [bind].
  assert (HF : Forall (fun t => length t = pl_dim m) (map g (pairs n))) by (rewrite Forall_map; apply Forall_forall; auto).
  rewrite (HV _ (ne_pairs g n N1) HF). cbn [bind]. rewrite (shown_ok m _ _ _ HS HF). cbn [bind]. rewrite Hc, indices_two by assumption. cbn [bind]. unfold column. rewrite !map_map.
  apply (surface_map n (fun p => nth (Z.to_nat (v - 1)) (S (g p)) 0) (fun p => nth (Z.to_nat (w - 1)) (S (g p)) 0) (fun p => fv (g p))).
Qed.
Lemma rows_plain2 m n c v w src lo hi lo2 hi2 fix_ : (1 <= v <= Z.of_nat (pl_dim m))%Z -> (1 <= w <= Z.of_nat (pl_dim m))%Z -> v <> w -> pc_vars c = [v; w] ->
  let i := Z.to_nat (v - 1) in let j := Z.to_nat (w - 1) in ~ on_transformed_scale m (pc_rescale c) ->
  scores_source m (pc_rescale c) src -> range_is src i (pc_range c) lo hi -> range_is src j (pc_second c) lo2 hi2 -> fixed_are src (pl_dim m) [i; j] (pc_fixed c) fix_ ->
  plot_grid m n c = Ok (two_axes (pl_dim m) i j fix_ lo hi lo2 hi2 n).
Proof.
  intros Hv Hw Hvw Hc i j Ht Hs Hr Hr2 Hf. rewrite (grid_two m n c v w src lo hi lo2 hi2 fix_) by assumption. cbv zeta.
  destruct (use_transformed m (pc_rescale c)) eqn:E; [apply use_transformed_spec in E; contradiction|reflexivity].
Qed.
Lemma rows_transformed2 m U n c v w src lo hi lo2 hi2 fix_ : (1 <= v <= Z.of_nat (pl_dim m))%Z -> (1 <= w <= Z.of_nat (pl_dim m))%Z -> v <> w -> pc_vars c = [v; w] ->
  let i := Z.to_nat (v - 1) in let j := Z.to_nat (w - 1) in on_transformed_scale m (pc_rescale c) -> inverts_by m U ->
  scores_source m (pc_rescale c) src -> range_is src i (pc_range c) lo hi -> range_is src j (pc_second c) lo2 hi2 -> fixed_are src (pl_dim m) [i; j] (pc_fixed c) fix_ ->
  plot_grid m n c = Ok (map U (two_axes (pl_dim m) i j fix_ lo hi lo2 hi2 n)).
Proof.
  intros Hv Hw Hvw Hc i j Ht [_ HU] Hs Hr Hr2 Hf. rewrite (grid_two m n c v w src lo hi lo2 hi2 fix_) by assumption. cbv zeta.
  apply use_transformed_spec in Ht. rewrite Ht. apply HU. unfold two_axes. rewrite Forall_map. apply Forall_forall. intros k _. apply axis_row2_length.
Qed.
Lemma axis_row2_fst D i j fix_ x y : (i < D)%nat -> i <> j -> nth i (axis_row2 D i j fix_ x y) 0 = x.
Proof.
  intros H N. apply nth_error_nth. unfold axis_row2. rewrite nth_error_map, nth_error_seq by exact H. cbn [option_map Nat.add].
  rewrite (proj2 (Nat.eqb_neq i j) N), Nat.eqb_refl. reflexivity.
Qed.
Lemma axis_row2_snd D i j fix_ x y : (j < D)%nat -> nth j (axis_row2 D i j fix_ x y) 0 = y.
Proof. intros H. apply nth_error_nth. unfold axis_row2. rewrite nth_error_map, nth_error_seq by exact H. cbn [option_map Nat.add]. now rewrite Nat.eqb_refl. Qed.
