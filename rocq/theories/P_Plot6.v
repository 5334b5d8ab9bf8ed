(** The figures in full. *)
From Verif Require Import Base BaseFacts RBase RFacts M_Logit M_Est M_Scale M_Plot S_Plot P_Est3 P_Plot1 P_Plot2 P_Plot3 P_Plot4.
From Coq Require Import Lia Lra.
Import List.
Local Open Scope R_scope.

Lemma draws_squeezed {V} n x (y : nat -> V) : (2 <= n)%nat -> draws n x y (rmap Line (squeezed_trim (map x (seq 0 n)) (map y (seq 0 n)))).
Proof. intro H. rewrite squeezed_map by exact H. now apply trim_draws. Qed.
Lemma draws_all {V} n x (y : nat -> V) fig : draws n x y fig -> increasing n x -> fig = Ok (Line (map (fun k => (x k, y k)) (seq 0 n))).
Proof. intros (a & b & _ & -> & H & _) I. destruct (H I) as [-> ->]. reflexivity. Qed.
Lemma others_one D i : (i < D)%nat -> length (others D [i]) = (D - 1)%nat.
Proof.
  intro H. unfold others. rewrite (seq_at D i H), filter_app, app_length. cbn [filter]. cbn [existsb]. rewrite Nat.eqb_refl. cbn [negb orb].
  rewrite !filter_all; [rewrite !seq_length; lia| |]; apply Forall_forall; intros j Hj; apply in_seq in Hj; rewrite (proj2 (Nat.eqb_neq j i)) by lia; reflexivity.
Qed.
Section Figures.
  Context {V : Type} (m : pmodel) (curve : list (list R) -> result (list V)) (f : list R -> V) (S : list R -> list R) (c : pcall) (v : Z) (n : nat)
    (src : option (list (list R))) (lo hi : R) (fix_ : nat -> R).
  Let D := pl_dim m.
  Let i := Z.to_nat (v - 1).
  Hypothesis (Hv : (1 <= v <= Z.of_nat D)%Z) (Hc : pc_vars c = [v]) (Hs2 : two_values (pc_second c)).
  Hypothesis (Hsrc : scores_source m (pc_rescale c) src) (Hr : range_is src i (pc_range c) lo hi).
  Hypothesis (HS : shows m (pc_rescale c) S) (HV : drawn_by m curve f).

  Section Plain.
    Hypothesis (Hf : fixed_are src D [i] (pc_fixed c) fix_) (Hn : steps_are (pc_steps c) 100 n).
    Let g k := axis_row D i fix_ (spaced lo hi n k).
    Lemma curve_plain : (1 <= n)%nat -> ~ on_transformed_scale m (pc_rescale c) ->
      curve_plot m curve c = rmap Line (squeezed_trim (map (fun k => nth i (S (g k)) 0) (seq 0 n)) (map (fun k => f (g k)) (seq 0 n))).
    Proof.
      intros N1 HT. apply (line_core m curve f c v n S g); auto.
      - exact (two_values_range _ _ _ _ _ Hr).
      - apply (rows_plain m n c v src lo hi fix_); assumption.
      - intro k. apply axis_row_length.
    Qed.
    Variable U : list R -> list R.
    Hypothesis HU : inverts_by m U.
    Lemma curve_transformed : (1 <= n)%nat -> on_transformed_scale m (pc_rescale c) ->
      curve_plot m curve c = rmap Line (squeezed_trim (map (fun k => nth i (S (U (g k))) 0) (seq 0 n)) (map (fun k => f (U (g k))) (seq 0 n))).
    Proof.
      intros N1 HT. apply (line_core m curve f c v n S (fun k => U (g k))); auto.
      - exact (two_values_range _ _ _ _ _ Hr).
      - apply (rows_transformed m U n c v src lo hi fix_); assumption.
      - intro k. apply HU. apply axis_row_length.
    Qed.
  End Plain.
  Section Prob.
    Hypothesis (Hf : fixed_are (pl_training m) D [i] (pc_fixed c) fix_) (Hn : steps_are (pc_steps c) 200 n).
    Let g k := axis_row D i fix_ (spaced lo hi n k).
    Let c' := PCall (pc_vars c) (pc_range c) (pc_second c) (pc_steps c) (Some (map fix_ (others D [i]))) (pc_rescale c).
    Lemma prob_fixed : match pc_fixed c with
      | None => match pl_training m with Some t => medians (free_mask (pl_dim m) [i]) t = Ok (map fix_ (others D [i])) | None => map fix_ (others D [i]) = mask_select (free_mask (pl_dim m) [i]) (repeat 0 (pl_dim m)) end
      | Some f => f = map fix_ (others D [i]) /\ length f = (pl_dim m - 1)%nat
      end.
    Proof.
      pose proof (fixed_ok _ _ _ _ _ Hf) as H. unfold fixed_values in H. destruct (pc_fixed c) as [f0|].
      - injection H as ->. split; [reflexivity|]. rewrite map_length. apply others_one. unfold i, D in *. lia.
      - destruct (pl_training m); [exact H|]. unfold D, i in *. congruence.
    Qed.
    Lemma prob_plain : (1 <= n)%nat -> ~ on_transformed_scale m (pc_rescale c) ->
      probability_plot m curve c = rmap Line (trim (map (fun k => nth i (S (g k)) 0) (seq 0 n)) (map (fun k => f (g k)) (seq 0 n))).
    Proof.
      intros N1 HT. apply (prob_core m curve f c v n S g (map fix_ (others D [i]))); auto.
      - exact (two_values_range _ _ _ _ _ Hr).
      - exact prob_fixed.
      - apply (rows_plain m n c' v src lo hi fix_); auto. reflexivity.
      - intro k. apply axis_row_length.
    Qed.
    Variable U : list R -> list R.
    Hypothesis HU : inverts_by m U.
    Lemma prob_transformed : (1 <= n)%nat -> on_transformed_scale m (pc_rescale c) ->
      probability_plot m curve c = rmap Line (trim (map (fun k => nth i (S (U (g k))) 0) (seq 0 n)) (map (fun k => f (U (g k))) (seq 0 n))).
    Proof.
      intros N1 HT. apply (prob_core m curve f c v n S (fun k => U (g k)) (map fix_ (others D [i]))); auto.
      - exact (two_values_range _ _ _ _ _ Hr).
      - exact prob_fixed.
      - apply (rows_transformed m U n c' v src lo hi fix_); auto. reflexivity.
      - intro k. apply HU. apply axis_row_length.
    Qed.
  End Prob.
End Figures.

(** Defaults exist. *)
Lemma default_range_exists src j : match src with Some rows => rows <> [] | None => True end -> exists lo hi, range_is src j None lo hi.
Proof.
  destruct src as [rows|]; intro H; [|exists (-3), 3; split; reflexivity]. exists (rmin_list (scores_on j rows)), (rmax_list (scores_on j rows)).
  apply extent_exists. unfold scores_on. intro E. apply map_eq_nil in E. contradiction.
Qed.
Lemma default_fixed_exists src D idx : match src with Some rows => rows <> [] | None => True end -> exists fix_, fixed_are src D idx None fix_.
Proof.
  destruct src as [rows|]; intro H.
  - exists (fun j => median (scores_on j rows)). split; [exact H|]. intros j _. apply median_lower. unfold scores_on. intro E. apply map_eq_nil in E. contradiction.
  - exists (fun _ => 0). intros j _. reflexivity.
Qed.
Lemma scores_source_exists m T r : transforms_by m T -> match pl_training m with Some t => t <> [] /\ Forall (fun x => length x = pl_dim m) t | None => True end ->
  exists src, scores_source m r src /\ match src with Some rows => rows <> [] | None => True end.
Proof.
  intros [_ HT] H. unfold scores_source. destruct (pl_training m) as [t|] eqn:E; [|exists None; auto]. destruct H as [NE HF].
  destruct (use_transformed m r) eqn:EU.
  - exists (Some (map T t)). split; [|intro X; apply map_eq_nil in X; contradiction]. split; [intros _; exists (map T t); auto|]. intro X. apply use_transformed_spec in EU. contradiction.
  - exists (Some t). split; [|exact NE]. split; [|auto]. intro X. apply use_transformed_spec in X. congruence.
Qed.
