(** Information figures, and the sums over chosen items. *)
From Verif Require Import Base BaseFacts RBase RFacts M_Data M_Logit M_Est M_Scale M_Plot S_Plot P_Est3 P_Plot1 P_Plot2 P_Plot3 P_Plot4 P_Plot5 P_Plot6 P_Plot7 P_Stat4.
From Coq Require Import Lia Lra Permutation.
Import List.
Local Open Scope R_scope.

Lemma degrees_pass (degrees : bool) D : degrees = true \/ D = 1%nat -> (negb degrees && (1 <? D)%nat)%bool = false.
Proof. intros [->| ->]; [reflexivity|]. apply Bool.andb_false_r. Qed.
(** One axis. *)
Lemma info_line m degrees info fv c v n S (g : nat -> list R) : degrees = true \/ pl_dim m = 1%nat ->
  pl_dim m = 1%nat \/ pc_rescale c = false \/ pl_scales m = [] ->
  (1 <= v <= Z.of_nat (pl_dim m))%Z -> pc_vars c = [v] -> two_values (pc_range c) -> two_values (pc_second c) ->
  steps_are (pc_steps c) 100 n -> (1 <= n)%nat -> plot_grid m n c = Ok (map g (seq 0 n)) -> (forall k, length (g k) = pl_dim m) ->
  shows m (pc_rescale c) S -> drawn_by m info fv ->
  information_plot m degrees info c = rmap Line (squeezed_trim (map (fun k => nth (Z.to_nat (v - 1)) (S (g k)) 0) (seq 0 n)) (map (fun k => fv (g k)) (seq 0 n))).
Proof.
  intros Hdeg Hsc Hv Hc Hr Hs Hn N1 Hg Hw HS HV. unfold information_plot. rewrite (checks_one m c v) by (auto; lia). cbn [bind].
  rewrite (degrees_pass _ _ Hdeg).
  assert (E : default_steps 100 18 c = n) by (unfold default_steps, steps_are in *; rewrite Hc; destruct (pc_steps c); auto).
  rewrite E, Hg. cbn [bind].
  assert (HF : Forall (fun t => length t = pl_dim m) (map g (seq 0 n))) by (rewrite Forall_map; apply Forall_forall; auto).
  rewrite (shown_ok m _ _ _ HS HF). cbn [bind]. rewrite (HV _ (ne_map g n N1) HF). cbn [bind]. rewrite Hc, indices_one by exact Hv. cbn [bind].
  unfold column. rewrite !map_map. unfold has_scale. destruct (pc_rescale c && _)%bool eqn:Es; [|reflexivity].
  destruct (pl_dim m =? 1)%nat eqn:E1.
  - apply Nat.eqb_eq in E1. replace (Z.to_nat (v - 1)) with O by lia. reflexivity.
  - apply Nat.eqb_neq in E1. apply andb_prop in Es. destruct Es as [Es1 Es2]. destruct Hsc as [X|[X|X]]; [lia|congruence|]. rewrite X in Es2. discriminate.
Qed.
(** Two axes: the first two variables when scaled. *)
Lemma info_surface m degrees info fv c v w n S (g : nat * nat -> list R) : degrees = true ->
  (1 <= v <= Z.of_nat (pl_dim m))%Z -> (1 <= w <= Z.of_nat (pl_dim m))%Z -> (2 <= pl_dim m)%nat -> pc_vars c = [v; w] -> two_values (pc_range c) ->
  steps_are (pc_steps c) 18 n -> (1 <= n)%nat -> plot_grid m n c = Ok (map g (pairs n)) -> (forall k, length (g k) = pl_dim m) ->
  shows m (pc_rescale c) S -> drawn_by m info fv ->
  let scaled := (pc_rescale c && has_scale m)%bool in
  information_plot m degrees info c =
  Ok (Surface (map (fun a => map (fun b => (nth (if scaled then 0%nat else Z.to_nat (v - 1)) (S (g (a, b))) 0,
     nth (if scaled then 1%nat else Z.to_nat (w - 1)) (S (g (a, b))) 0, fv (g (a, b)))) (seq 0 n)) (seq 0 n))).
Proof.
  intros -> Hv Hw HD Hc Hr Hn N1 Hg Hl HS HV scaled. unfold information_plot. rewrite (checks_two m c v w) by (auto; lia). cbn [bind negb andb].
  assert (E : default_steps 100 18 c = n) by (unfold default_steps, steps_are in *; rewrite Hc; destruct (pc_steps c); auto).
  rewrite E, Hg. cbn [bind].
  assert (HF : Forall (fun t => length t = pl_dim m) (map g (pairs n))) by (rewrite Forall_map; apply Forall_forall; auto).
  rewrite (shown_ok m _ _ _ HS HF). cbn [bind]. rewrite (HV _ (ne_pairs g n N1) HF). cbn [bind]. rewrite Hc, indices_two by assumption. cbn [bind]. unfold column. rewrite !map_map.
  fold scaled. destruct scaled.
  - apply (surface_map n (fun p => nth 0 (S (g p)) 0) (fun p => nth 1 (S (g p)) 0) (fun p => fv (g p))).
  - apply (surface_map n (fun p => nth (Z.to_nat (v - 1)) (S (g p)) 0) (fun p => nth (Z.to_nat (w - 1)) (S (g p)) 0) (fun p => fv (g p))).
Qed.
(** Scaled, of several variables, along one: never a figure. *)
Lemma info_never m degrees info c v : pc_rescale c = true -> pl_scales m <> [] -> pl_dim m <> 1%nat -> pc_vars c = [v] ->
  forall fig, information_plot m degrees info c <> Ok fig.
Proof.
  intros Hr Hs HD Hc fig. unfold information_plot. destruct (plot_checks _ _); [|discriminate]. cbn [bind]. destruct (_ && _)%bool; [discriminate|].
  destruct (plot_grid _ _ _) as [grid|]; [|discriminate]. cbn [bind]. destruct (shown_rows _ _ _) as [shown|]; [|discriminate]. cbn [bind].
  destruct (info grid) as [ys|]; [|discriminate]. cbn [bind]. rewrite Hc. unfold latent_indices. cbn [mapM]. destruct (norm_index _ _) as [i|]; [|discriminate]. cbn [bind].
  assert (E : has_scale m = true) by (unfold has_scale; destruct (pl_scales m); congruence). rewrite Hr, E. cbn [andb].
  apply Nat.eqb_neq in HD. rewrite HD. destruct shown as [|a [|b l]]; discriminate.
Qed.
(** Sums over the chosen items. *)
Lemma information_drawn m I item_info test_info (fi : list R -> list R) ft chosen :
  drawn_by m item_info fi -> (forall t, length t = pl_dim m -> length (fi t) = I) -> drawn_by m test_info ft ->
  match chosen with Some l => items_named I l | None => True end ->
  drawn_by m (drawn_information I item_info test_info chosen)
    (fun t => match chosen with Some l => rsum (map (fun j => nth j (fi t) 0) (named I (Some l))) | None => ft t end).
Proof.
  intros H1 HL H2 Hc thetas NE HF. unfold drawn_information. destruct chosen as [l|]; [|now apply H2].
  destruct (masked_named 0 rsum I (Some l) (map fi thetas)) as (k & Ek & Es).
  - rewrite Forall_map. apply Forall_forall. intros t Ht. rewrite Forall_forall in HF. auto.
  - exact Hc.
  - destruct (item_mask I l) as [k'|] eqn:E; [|discriminate]. injection Ek as <-. cbn [bind]. rewrite (H1 _ NE HF). cbn [bind]. f_equal. rewrite Es, map_map. reflexivity.
Qed.
Lemma scores_drawn m I item_scores test_scores (fs : list R -> list R) ft chosen :
  drawn_by m item_scores fs -> drawn_by m test_scores ft ->
  match chosen with Some l => items_named I l | None => True end ->
  drawn_by m (drawn_scores I item_scores test_scores chosen)
    (fun t => match chosen with Some l => rsum (map (fun v => nth (Z.to_nat (v - 1)) (fs t) 0) l) | None => ft t end).
Proof.
  intros H1 H2 Hc thetas NE HF. unfold drawn_scores. destruct chosen as [l|]; [|now apply H2].
  rewrite (item_mask_ok I l Hc). cbn [bind]. rewrite (H1 _ NE HF). cbn [bind]. rewrite (mapM_index I l Hc). cbn [bind]. f_equal. rewrite map_map. apply map_ext. intro t. now rewrite map_map.
Qed.
(** A list without repetitions: the sum over the named items. *)
Lemma named_perm I l (x : nat -> R) : items_named I l -> NoDup l ->
  rsum (map (fun v => x (Z.to_nat (v - 1))) l) = rsum (map x (named I (Some l))).
Proof.
  intros HF HN. rewrite <- (map_map (fun v => Z.to_nat (v - 1)) x). apply rsum_permutation. apply Permutation_map. apply NoDup_Permutation.
  - unfold items_named in HF. rewrite Forall_forall in HF. clear x. induction HN as [|a l Ha HN IH]; [constructor|]. cbn [map]. constructor.
    + intro X. apply in_map_iff in X. destruct X as (b & E & Hb). apply Ha. replace a with b; [exact Hb|].
      pose proof (HF a (or_introl eq_refl)). pose proof (HF b (or_intror Hb)). lia.
    + apply IH. intros y Hy. apply HF. now right.
  - apply NoDup_filter, seq_NoDup.
  - intro j. cbn [named]. rewrite filter_In, in_seq, in_map_iff, existsb_exists. unfold items_named in HF. rewrite Forall_forall in HF. split.
    + intros (v & <- & Hv). specialize (HF v Hv). split; [lia|]. exists v. split; [exact Hv|]. apply Z.eqb_eq. lia.
    + intros (Hj & v & Hv & E). apply Z.eqb_eq in E. exists v. split; [lia|exact Hv].
Qed.
