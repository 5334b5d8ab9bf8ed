(** Requests: variables, ranges, fixed values; scales attached alone. *)
From Verif Require Import Base BaseFacts RBase RFacts M_Logit M_Est M_Scale M_Plot S_Scale S_Plot P_Est3 P_Plot1 P_Plot2 P_Plot3 P_Plot4 P_Plot6.
From Coq Require Import Lia Lra.
Import List.
Local Open Scope R_scope.

Lemma single_scale D b s f g tr : undone_by D s f g -> transforms_by (PModel D [(b, s)] tr) f /\ inverts_by (PModel D [(b, s)] tr) g.
Proof.
  intros ((H1 & H2) & H3 & H4 & _). split; split; cbn [pl_dim]; auto; intros thetas HF; unfold pl_transform, pl_inverse; cbn [pl_scales map snd transform_theta inverse_transform_theta].
  - rewrite (H2 _ HF). reflexivity.
  - rewrite (H4 _ HF). reflexivity.
Qed.
Lemma in_others D i j : In j (others D [i]) <-> (j < D)%nat /\ j <> i.
Proof.
  unfold others. rewrite filter_In, in_seq. cbn [existsb]. rewrite Bool.orb_false_r, Bool.negb_true_iff, Nat.eqb_neq. lia.
Qed.
Lemma wrap_index D v : (- Z.of_nat D < v <= 0)%Z -> norm_index D (v - 1) = norm_index D (v + Z.of_nat D - 1).
Proof.
  intro H. unfold norm_index. rewrite (proj2 (Z.leb_gt 0 (v - 1))) by lia. cbn [andb].
  rewrite (proj2 (Z.leb_le (- Z.of_nat D) (v - 1))) by lia. rewrite (proj2 (Z.ltb_lt (v - 1) 0)) by lia. cbn [andb].
  rewrite (proj2 (Z.leb_le 0 (v + Z.of_nat D - 1))) by lia. rewrite (proj2 (Z.ltb_lt (v + Z.of_nat D - 1) (Z.of_nat D))) by lia. cbn [andb]. do 2 f_equal. lia.
Qed.
Lemma wrap_indices D v : (- Z.of_nat D < v <= 0)%Z -> latent_indices D [v] = latent_indices D [(v + Z.of_nat D)%Z].
Proof. intro H. unfold latent_indices. cbn [mapM bind]. now rewrite wrap_index. Qed.
Definition with_vars (c : pcall) (vars : list Z) : pcall := PCall vars (pc_range c) (pc_second c) (pc_steps c) (pc_fixed c) (pc_rescale c).
Lemma wrap_checks D c v : (- Z.of_nat D < v <= 0)%Z -> plot_checks D (with_vars c [v]) = plot_checks D (with_vars c [(v + Z.of_nat D)%Z]).
Proof. intro H. unfold plot_checks, with_vars. cbn [pc_vars pc_range pc_second length forallb]. rewrite (proj2 (Z.leb_le v _)), (proj2 (Z.leb_le (v + Z.of_nat D) _)) by lia. reflexivity. Qed.
Lemma wrap_grid m n c v f : (- Z.of_nat (pl_dim m) < v <= 0)%Z ->
  plot_grid m n (PCall [v] (pc_range c) (pc_second c) (pc_steps c) f (pc_rescale c)) =
  plot_grid m n (PCall [(v + Z.of_nat (pl_dim m))%Z] (pc_range c) (pc_second c) (pc_steps c) f (pc_rescale c)).
Proof. intro H. unfold plot_grid. cbn [pc_vars pc_range pc_second pc_fixed pc_rescale]. now rewrite wrap_indices. Qed.
Lemma wrap_curve {V} m (curve : list (list R) -> result (list V)) c v : (- Z.of_nat (pl_dim m) < v <= 0)%Z ->
  curve_plot m curve (with_vars c [v]) = curve_plot m curve (with_vars c [(v + Z.of_nat (pl_dim m))%Z]).
Proof.
  intro H. unfold curve_plot. rewrite wrap_checks by exact H. unfold with_vars. rewrite (wrap_grid m _ c v _ H). cbn [pc_vars pc_rescale]. rewrite wrap_indices by exact H. reflexivity.
Qed.
Lemma wrap_prob {V} m (curve : list (list R) -> result (list V)) c v : (- Z.of_nat (pl_dim m) < v <= 0)%Z ->
  probability_plot m curve (with_vars c [v]) = probability_plot m curve (with_vars c [(v + Z.of_nat (pl_dim m))%Z]).
Proof.
  intro H. unfold probability_plot. rewrite wrap_checks by exact H. unfold with_vars. cbn [pc_vars pc_range pc_second pc_steps pc_fixed pc_rescale]. rewrite wrap_indices by exact H.
  unfold default_steps. cbn [pc_vars pc_steps length]. destruct (plot_checks _ _); [|reflexivity]. cbn [bind]. destruct (latent_indices _ _) as [idx|e]; [|reflexivity]. cbn [bind].
  match goal with |- bind ?a _ = bind ?a _ => destruct a as [fx|e]; [|reflexivity] end. cbn [bind].
  rewrite (wrap_grid m _ c v (Some fx) H). reflexivity.
Qed.
Lemma refused_variables D c : (exists v, In v (pc_vars c) /\ (Z.of_nat D < v)%Z) \/ (2 < length (pc_vars c))%nat \/ (D < length (pc_vars c))%nat \/
  (exists r, pc_range c = Some r /\ length r <> 2%nat) -> plot_checks D c = Err TypeError.
Proof.
  intro H. unfold plot_checks. destruct (2 <? length (pc_vars c))%nat eqn:E1; [reflexivity|]. destruct (D <? length (pc_vars c))%nat eqn:E2; [reflexivity|].
  destruct (forallb _ _) eqn:E3; [|reflexivity]. cbn [negb]. apply Nat.ltb_ge in E1, E2. rewrite forallb_forall in E3.
  destruct H as [(v & Hv & L)|[H|[H|(r & -> & H)]]]; try lia.
  - apply E3, Z.leb_le in Hv. lia.
  - apply Nat.eqb_neq in H. rewrite H. reflexivity.
Qed.
Lemma second_extra {V} m (curve : list (list R) -> result (list V)) v w range steps fixed rescale lo hi rest :
  curve_plot m curve (PCall [v; w] range (Some (lo :: hi :: rest)) steps fixed rescale) = curve_plot m curve (PCall [v; w] range (Some [lo; hi]) steps fixed rescale).
Proof. reflexivity. Qed.
Lemma broadcast_fixed {V} m (curve : list (list R) -> result (list V)) v range steps rescale x : (1 <= v <= Z.of_nat (pl_dim m))%Z ->
  curve_plot m curve (PCall [v] range None steps (Some [x]) rescale) = curve_plot m curve (PCall [v] range None steps (Some (repeat x (pl_dim m - 1))) rescale).
Proof.
  intro Hv. unfold curve_plot.
  assert (E : forall n, plot_grid m n (PCall [v] range None steps (Some [x]) rescale) = plot_grid m n (PCall [v] range None steps (Some (repeat x (pl_dim m - 1))) rescale)).
  { intro n. unfold plot_grid. cbn [pc_vars pc_range pc_second pc_fixed pc_rescale]. rewrite indices_one by exact Hv. cbn [bind]. destruct (theta_source m rescale) as [src|e]; [|reflexivity]. cbn [bind].
    destruct (range_of _ _ _) as [r|e]; [|reflexivity]. cbn [bind]. rewrite <- (others_one (pl_dim m) (Z.to_nat (v - 1))) by lia.
    assert (R : repeat x (length (others (pl_dim m) [Z.to_nat (v - 1)])) = map (fun _ => x) (others (pl_dim m) [Z.to_nat (v - 1)])).
    { induction (others (pl_dim m) [Z.to_nat (v - 1)]) as [|a l IH]; cbn; [reflexivity|now f_equal]. }
    assert (F : Forall (fun r0 => length r0 = pl_dim m) (map (fun y => repeat y (pl_dim m)) (linspace (fst r) (snd r) n))) by (rewrite Forall_map; apply Forall_forall; intros; apply repeat_length).
    rewrite R, put_fixed_one, (put_fixed_ok _ _ (fun _ => x)) by exact F. reflexivity. }
  change (plot_checks (pl_dim m) (PCall [v] range None steps (Some [x]) rescale)) with (plot_checks (pl_dim m) (PCall [v] range None steps (Some (repeat x (pl_dim m - 1))) rescale)).
  change (default_steps 100 18 (PCall [v] range None steps (Some [x]) rescale)) with (default_steps 100 18 (PCall [v] range None steps (Some (repeat x (pl_dim m - 1))) rescale)).
  rewrite E. reflexivity.
Qed.
Lemma refused_fixed {V} m (curve : list (list R) -> result (list V)) c v f src lo hi : (1 <= v <= Z.of_nat (pl_dim m))%Z -> pc_vars c = [v] -> two_values (pc_second c) ->
  pc_fixed c = Some f -> length f <> (pl_dim m - 1)%nat -> scores_source m (pc_rescale c) src -> range_is src (Z.to_nat (v - 1)) (pc_range c) lo hi ->
  probability_plot m curve c = Err TypeError /\ (length f <> 1%nat -> curve_plot m curve c = Err RuntimeError).
Proof.
  intros Hv Hc H2 Hf L Hs Hr. assert (C : plot_checks (pl_dim m) c = Ok tt) by (apply (checks_one m c v); auto; [lia|lia|exact (two_values_range _ _ _ _ _ Hr)]). split.
  - unfold probability_plot. rewrite C, Hc, indices_one by exact Hv. cbn [bind]. rewrite Hf. cbn [length]. apply Nat.eqb_neq in L. rewrite L. reflexivity.
  - intro L1. unfold curve_plot. rewrite C. cbn [bind]. unfold plot_grid at 1. rewrite Hc, indices_one by exact Hv. cbn [bind]. rewrite (source_ok _ _ _ Hs). cbn [bind]. rewrite Hf. cbn [bind].
    rewrite (range_ok _ _ _ _ _ Hr). cbn [bind]. rewrite put_fixed_refused; [reflexivity| |exact L1]. rewrite others_one by lia. exact L.
Qed.
