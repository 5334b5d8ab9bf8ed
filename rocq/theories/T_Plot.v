(** Theorems about figures (plotter.py): C92-C96. *)
From Coq Require Import String.
From Verif Require Import Base BaseFacts RBase RFacts M_Data M_Logit M_Lik M_Est M_Scale M_Eval M_Plot S_Lik S_Est S_Eval S_Scale S_Plot
  P_Est2 P_Est3 P_Logit3 P_Scale3 P_Plot1 P_Plot2 P_Plot3 P_Plot4 P_Plot5 P_Plot6 P_Plot7 P_Plot8.
From Coq Require Import Lia Lra.
Import List.
Local Open Scope R_scope.
Local Open Scope list_scope.

(** * C92: the points of a figure *)
(** One latent variable, evaluated on the original scale: a point of the line is the plotted function at a score row
    whose plotted variable runs over the range in equal steps and whose other variables are fixed, drawn over that
    row's (transformed) score. *)
Theorem C92_line {V} m (curve : list (list R) -> result (list V)) f S c v n src lo hi fix_ :
  let D := pl_dim m in let i := Z.to_nat (v - 1) in let g := fun k => axis_row D i fix_ (spaced lo hi n k) in
  (1 <= v <= Z.of_nat D)%Z -> pc_vars c = [v] -> two_values (pc_second c) -> steps_are (pc_steps c) 100 n -> (2 <= n)%nat ->
  scores_source m (pc_rescale c) src -> range_is src i (pc_range c) lo hi -> fixed_are src D [i] (pc_fixed c) fix_ ->
  shows m (pc_rescale c) S -> drawn_by m curve f -> ~ on_transformed_scale m (pc_rescale c) ->
  draws n (fun k => nth i (S (g k)) 0) (fun k => f (g k)) (curve_plot m curve c).
Proof.
  intros D i g Hv Hc H2 Hn N Hs Hr Hf HS HV HT. unfold g, i, D. rewrite (curve_plain m curve f S c v n src lo hi fix_) by (auto; lia).
  apply (draws_squeezed n (fun k => nth (Z.to_nat (v - 1)) (S (axis_row (pl_dim m) (Z.to_nat (v - 1)) fix_ (spaced lo hi n k))) 0) (fun k => f (axis_row (pl_dim m) (Z.to_nat (v - 1)) fix_ (spaced lo hi n k))) N).
Qed.
Print Assumptions C92_line.
(** Without rescaling, from [lo] to a larger [hi]: all the points, equally spaced. *)
Theorem C92_original_scale {V} m (curve : list (list R) -> result (list V)) f c v n src lo hi fix_ :
  let D := pl_dim m in let i := Z.to_nat (v - 1) in
  (1 <= v <= Z.of_nat D)%Z -> pc_vars c = [v] -> two_values (pc_second c) -> steps_are (pc_steps c) 100 n -> (2 <= n)%nat -> lo < hi ->
  scores_source m (pc_rescale c) src -> range_is src i (pc_range c) lo hi -> fixed_are src D [i] (pc_fixed c) fix_ ->
  pc_rescale c = false \/ pl_scales m = [] -> drawn_by m curve f ->
  curve_plot m curve c = Ok (Line (map (fun k => (spaced lo hi n k, f (axis_row D i fix_ (spaced lo hi n k)))) (seq 0 n))).
Proof.
  intros D i Hv Hc H2 Hn N L Hs Hr Hf HR HV.
  assert (HT : ~ on_transformed_scale m (pc_rescale c)) by (intros (X & _ & Y & _); destruct HR; congruence).
  assert (HS : shows m (pc_rescale c) (fun t => t)) by (right; auto).
  pose proof (C92_line m curve f (fun t => t) c v n src lo hi fix_ Hv Hc H2 Hn N Hs Hr Hf HS HV HT) as H. cbv zeta in H.
  assert (E : forall k, nth (Z.to_nat (v - 1)) (axis_row (pl_dim m) (Z.to_nat (v - 1)) fix_ (spaced lo hi n k)) 0 = spaced lo hi n k) by (intro k; apply axis_row_nth; unfold D in *; lia).
  rewrite (draws_all _ _ _ _ H).
  - f_equal. f_equal. apply map_ext. intro k. now rewrite E.
  - intros a b Hab. cbv beta. rewrite !E. now apply spaced_increasing.
Qed.
Print Assumptions C92_original_scale.
(** On the transformed scale (invertible scales, stored training scores): all the points, equally spaced there, with
    the function at the inverse of the row. *)
Theorem C92_transformed_scale {V} m (curve : list (list R) -> result (list V)) f T U c v n src lo hi fix_ :
  let D := pl_dim m in let i := Z.to_nat (v - 1) in
  (1 <= v <= Z.of_nat D)%Z -> pc_vars c = [v] -> two_values (pc_second c) -> steps_are (pc_steps c) 100 n -> (2 <= n)%nat -> lo < hi ->
  scores_source m (pc_rescale c) src -> range_is src i (pc_range c) lo hi -> fixed_are src D [i] (pc_fixed c) fix_ ->
  on_transformed_scale m (pc_rescale c) -> transforms_by m T -> inverts_by m U -> (forall t, length t = D -> T (U t) = t) -> drawn_by m curve f ->
  curve_plot m curve c = Ok (Line (map (fun k => (spaced lo hi n k, f (U (axis_row D i fix_ (spaced lo hi n k))))) (seq 0 n))).
Proof.
  intros D i Hv Hc H2 Hn N L Hs Hr Hf HT HTr HU HI HV.
  assert (HS : shows m (pc_rescale c) T) by (left; destruct HT as (A & _ & B & _); auto).
  rewrite (curve_transformed m curve f T c v n src lo hi fix_) with (U := U) by (auto; lia).
  assert (E : forall k, nth (Z.to_nat (v - 1)) (T (U (axis_row (pl_dim m) (Z.to_nat (v - 1)) fix_ (spaced lo hi n k)))) 0 = spaced lo hi n k).
  { intro k. rewrite HI by apply axis_row_length. apply axis_row_nth. unfold D in *. lia. }
  rewrite (map_ext _ _ E). apply (draws_all n (spaced lo hi n) (fun k => f (U (axis_row D i fix_ (spaced lo hi n k))))).
  - apply draws_squeezed. exact N.
  - now apply spaced_increasing.
Qed.
Print Assumptions C92_transformed_scale.
(** Category probability curves: as above, with 200 steps by default.  The other variables are held at the given values
    or at the medians of the stored scores as they were stored (see C93). *)
Theorem C92_probabilities {V} m (curve : list (list R) -> result (list V)) f S c v n src lo hi fix_ :
  let D := pl_dim m in let i := Z.to_nat (v - 1) in let g := fun k => axis_row D i fix_ (spaced lo hi n k) in
  (1 <= v <= Z.of_nat D)%Z -> pc_vars c = [v] -> two_values (pc_second c) -> steps_are (pc_steps c) 200 n -> (2 <= n)%nat ->
  scores_source m (pc_rescale c) src -> range_is src i (pc_range c) lo hi -> fixed_are (pl_training m) D [i] (pc_fixed c) fix_ ->
  shows m (pc_rescale c) S -> drawn_by m curve f ->
  (~ on_transformed_scale m (pc_rescale c) -> draws n (fun k => nth i (S (g k)) 0) (fun k => f (g k)) (probability_plot m curve c)) /\
  (forall U, on_transformed_scale m (pc_rescale c) -> inverts_by m U -> (forall t, length t = D -> S (U t) = t) -> lo < hi ->
     probability_plot m curve c = Ok (Line (map (fun k => (spaced lo hi n k, f (U (g k)))) (seq 0 n)))).
Proof.
  intros D i g Hv Hc H2 Hn N Hs Hr Hf HS HV. split.
  - intro HT. unfold g, i, D. rewrite (prob_plain m curve f S c v n src lo hi fix_) by (auto; lia).
    apply (trim_draws n (fun k => nth (Z.to_nat (v - 1)) (S (axis_row (pl_dim m) (Z.to_nat (v - 1)) fix_ (spaced lo hi n k))) 0) (fun k => f (axis_row (pl_dim m) (Z.to_nat (v - 1)) fix_ (spaced lo hi n k))) N).
  - intros U HT HU HI L. rewrite (prob_transformed m curve f S c v n src lo hi fix_) with (U := U) by (auto; lia).
    assert (E : forall k, nth (Z.to_nat (v - 1)) (S (U (axis_row (pl_dim m) (Z.to_nat (v - 1)) fix_ (spaced lo hi n k)))) 0 = spaced lo hi n k).
    { intro k. rewrite HI by apply axis_row_length. apply axis_row_nth. unfold D in *. lia. }
    rewrite (map_ext _ _ E). apply (draws_all n (spaced lo hi n) (fun k => f (U (g k)))).
    + apply (trim_draws n (spaced lo hi n) (fun k => f (U (g k))) N).
    + now apply spaced_increasing.
Qed.
Print Assumptions C92_probabilities.
(** Two latent variables: a square of points, the first variable along the rows, the second along the columns. *)
Theorem C92_surface {V} m (curve : list (list R) -> result (list V)) f S c v w n src lo hi lo2 hi2 fix_ :
  let D := pl_dim m in let i := Z.to_nat (v - 1) in let j := Z.to_nat (w - 1) in
  let g := fun a b => axis_row2 D i j fix_ (spaced lo hi n a) (spaced lo2 hi2 n b) in
  (1 <= v <= Z.of_nat D)%Z -> (1 <= w <= Z.of_nat D)%Z -> v <> w -> pc_vars c = [v; w] -> steps_are (pc_steps c) 18 n -> (1 <= n)%nat ->
  scores_source m (pc_rescale c) src -> range_is src i (pc_range c) lo hi -> range_is src j (pc_second c) lo2 hi2 ->
  fixed_are src D [i; j] (pc_fixed c) fix_ -> shows m (pc_rescale c) S -> drawn_by m curve f ->
  (~ on_transformed_scale m (pc_rescale c) ->
     curve_plot m curve c = Ok (Surface (map (fun a => map (fun b => (nth i (S (g a b)) 0, nth j (S (g a b)) 0, f (g a b))) (seq 0 n)) (seq 0 n)))) /\
  (forall U, on_transformed_scale m (pc_rescale c) -> inverts_by m U -> (forall t, length t = D -> S (U t) = t) ->
     curve_plot m curve c = Ok (Surface (map (fun a => map (fun b => (spaced lo hi n a, spaced lo2 hi2 n b, f (U (g a b)))) (seq 0 n)) (seq 0 n)))).
Proof.
  intros D i j g Hv Hw Hvw Hc Hn N Hs Hr Hr2 Hf HS HV. assert (HD : (2 <= D)%nat) by lia. split.
  - intro HT. apply (surface_core m curve f c v w n S (fun p => g (fst p) (snd p))); auto.
    + exact (two_values_range _ _ _ _ _ Hr).
    + apply (rows_plain2 m n c v w src lo hi lo2 hi2 fix_); assumption.
    + intros k. apply axis_row2_length.
  - intros U HT HU HI. rewrite (surface_core m curve f c v w n S (fun p => U (g (fst p) (snd p)))); auto.
    + f_equal. f_equal. apply map_ext. intro a. apply map_ext. intro b. cbn [fst snd]. unfold g, D, i, j in *. rewrite HI by apply axis_row2_length.
      rewrite axis_row2_fst, axis_row2_snd by lia. reflexivity.
    + exact (two_values_range _ _ _ _ _ Hr).
    + rewrite (rows_transformed2 m U n c v w src lo hi lo2 hi2 fix_) by assumption. unfold two_axes. rewrite map_map. reflexivity.
    + intros k. apply HU. apply axis_row2_length.
Qed.
Print Assumptions C92_surface.
(** What is not so: on a scale that decreases along the axis the lowest score is left out; where the scale is constant
    nothing is drawn. *)
Theorem C92_reversed_scale_refuted {V} m (curve : list (list R) -> result (list V)) f S c v n src lo hi fix_ :
  let D := pl_dim m in let i := Z.to_nat (v - 1) in let g := fun k => axis_row D i fix_ (spaced lo hi n k) in let x := fun k => nth i (S (g k)) 0 in
  (1 <= v <= Z.of_nat D)%Z -> pc_vars c = [v] -> two_values (pc_second c) -> steps_are (pc_steps c) 100 n -> (2 <= n)%nat ->
  scores_source m (pc_rescale c) src -> range_is src i (pc_range c) lo hi -> fixed_are src D [i] (pc_fixed c) fix_ ->
  shows m (pc_rescale c) S -> drawn_by m curve f -> ~ on_transformed_scale m (pc_rescale c) ->
  (decreasing n x -> curve_plot m curve c = Ok (Line (map (fun k => (x k, f (g k))) (seq 0 (n - 1))))) /\
  ((forall k, (k < n)%nat -> x k = x O) -> curve_plot m curve c = Ok (Line [])).
Proof.
  intros D i g x Hv Hc H2 Hn N Hs Hr Hf HS HV HT.
  assert (E : curve_plot m curve c = rmap Line (squeezed_trim (map x (seq 0 n)) (map (fun k => f (g k)) (seq 0 n)))) by (apply (curve_plain m curve f S c v n src lo hi fix_); auto; lia).
  rewrite E. split; intro H.
  - rewrite squeezed_map by exact N. rewrite (trim_decreasing n x (fun k => f (g k))) by (auto; lia). reflexivity.
  - rewrite squeezed_map by exact N. rewrite (trim_flat n x (fun k => f (g k))) by (auto; lia). reflexivity.
Qed.
Print Assumptions C92_reversed_scale_refuted.
(** A single step is refused with an IndexError, and gives an empty figure of category probabilities. *)
Theorem C92_one_step_refuted {V} m (curve : list (list R) -> result (list V)) f S c v src lo hi fix_ :
  let D := pl_dim m in let i := Z.to_nat (v - 1) in
  (1 <= v <= Z.of_nat D)%Z -> pc_vars c = [v] -> two_values (pc_second c) -> pc_steps c = Some 1%nat ->
  scores_source m (pc_rescale c) src -> range_is src i (pc_range c) lo hi ->
  shows m (pc_rescale c) S -> drawn_by m curve f -> ~ on_transformed_scale m (pc_rescale c) ->
  (fixed_are src D [i] (pc_fixed c) fix_ -> curve_plot m curve c = Err IndexError) /\
  (fixed_are (pl_training m) D [i] (pc_fixed c) fix_ -> probability_plot m curve c = Ok (Line [])).
Proof.
  intros D i Hv Hc H2 Hn Hs Hr HS HV HT.
  assert (S1 : steps_are (pc_steps c) 100 1) by (rewrite Hn; reflexivity). assert (S2 : steps_are (pc_steps c) 200 1) by (rewrite Hn; reflexivity).
  split; intro Hf.
  - rewrite (curve_plain m curve f S c v 1 src lo hi fix_) by (auto; lia). reflexivity.
  - rewrite (prob_plain m curve f S c v 1 src lo hi fix_) by (auto; lia). rewrite (trim_flat 1); [reflexivity|lia|]. intros k Hk. now replace k with O by lia.
Qed.
Print Assumptions C92_one_step_refuted.
(** The plot of the scale itself: for each latent variable of the model a line of its transformed score over the
    original score of the chosen variable; refused without a scale. *)
Theorem C92_scale_transformations m T v range steps fixed n src lo hi fix_ :
  let D := pl_dim m in let i := Z.to_nat (v - 1) in
  (1 <= v <= Z.of_nat D)%Z -> steps_are steps 100 n ->
  src = pl_training m -> range_is src i range lo hi -> fixed_are src D [i] fixed fix_ ->
  (pl_scales m = [] -> scale_plot m v range steps fixed = Err ValueError) /\
  (pl_scales m <> [] -> transforms_by m T ->
     scale_plot m v range steps fixed =
     Ok (map (fun d => map (fun k => (spaced lo hi n k, nth d (T (axis_row D i fix_ (spaced lo hi n k))) 0)) (seq 0 n)) (seq 0 D))).
Proof.
  intros D i Hv Hn Hs Hr Hf. unfold scale_plot.
  rewrite (proj2 (Z.ltb_ge (Z.of_nat (pl_dim m)) v)) by (unfold D in *; lia).
  assert (R : match range with Some r => negb (length r =? 2)%nat | None => false end = false).
  { apply two_values_range in Hr. destruct range as [r|]; [cbn in Hr; rewrite Hr|]; reflexivity. }
  rewrite R. assert (N : match steps with Some n0 => n0 | None => 100%nat end = n) by (unfold steps_are in Hn; destruct steps; auto). rewrite N.
  assert (G : plot_grid m n (PCall [v] range None steps fixed false) = Ok (map (fun k => axis_row (pl_dim m) (Z.to_nat (v - 1)) fix_ (spaced lo hi n k)) (seq 0 n))).
  { apply (rows_plain m n (PCall [v] range None steps fixed false) v src); cbn [pc_rescale pc_fixed pc_range]; auto.
    - intros (_ & _ & X & _). discriminate.
    - unfold scores_source. rewrite Hs. cbn [pc_rescale]. destruct (pl_training m); [|reflexivity]. split; [intros (_ & _ & X & _); discriminate|reflexivity]. }
  rewrite G. cbn [bind]. unfold has_scale. split.
  - intros ->. reflexivity.
  - intros NE [_ HT]. destruct (pl_scales m) as [|s l]; [congruence|]. rewrite HT.
    + cbn [bind]. rewrite indices_one by exact Hv. cbn [bind hd]. f_equal. apply map_ext. intro d. unfold column. rewrite !map_map, combine_map. apply map_ext. intro k.
      rewrite axis_row_nth by (unfold D in *; lia). reflexivity.
    + rewrite Forall_map. apply Forall_forall. intros k _. apply axis_row_length.
Qed.
Print Assumptions C92_scale_transformations.
(** The hypotheses are met, e.g. by a model of two latent variables with the first one reversed. *)
Example C92_nonvacuous : let m tr := PModel 2 [(true, reverse_scale [true; false])] tr in let t := [[0; 1]; [2; 5]; [4; 1]] in
  let c := PCall [1%Z] None None (Some 3%nat) None true in
  transforms_by (m None) (reverse_row [true; false]) /\ inverts_by (m (Some t)) (reverse_row [true; false]) /\
  ~ on_transformed_scale (m None) true /\ on_transformed_scale (m (Some t)) true /\
  (forall x, length x = 2%nat -> reverse_row [true; false] (reverse_row [true; false] x) = x) /\
  scores_source (m None) true None /\ range_is None 0 None (-3) 3 /\ fixed_are None 2 [0%nat] None (fun _ => 0) /\
  (exists src lo hi fix_, scores_source (m (Some t)) true src /\ range_is src 0 None lo hi /\ fixed_are src 2 [0%nat] None fix_) /\
  drawn_by (m None) (fun g => Ok (map (fun x => nth 1 x 0) g)) (fun x => nth 1 x 0) /\
  decreasing 3 (fun k => nth 0 (reverse_row [true; false] (axis_row 2 0 (fun _ => 0) (spaced (-3) 3 3 k))) 0).
Proof.
  intros m t c. destruct (single_scale 2 true (reverse_scale [true; false]) _ _ None (reverse_undone 2 [true; false] eq_refl)) as [H1 _].
  destruct (single_scale 2 true (reverse_scale [true; false]) _ _ (Some t) (reverse_undone 2 [true; false] eq_refl)) as [H2 H3].
  split; [exact H1|]. split; [exact H3|]. split; [intros (_ & _ & _ & X); now apply X|]. split.
  { split; [discriminate|]. split; [repeat constructor|]. split; [reflexivity|discriminate]. }
  split; [intros; now apply (reverse_involution 2)|]. split; [reflexivity|]. split; [split; reflexivity|]. split; [intros j _; reflexivity|]. split.
  { destruct (scores_source_exists (m (Some t)) _ true H2) as (src & S1 & S2).
    - split; [discriminate|]. repeat constructor.
    - destruct (default_range_exists src 0 S2) as (lo & hi & S3). destruct (default_fixed_exists src 2 [0%nat] S2) as (fx & S4). now exists src, lo, hi, fx. }
  split; [intros g _ _; reflexivity|].
  intros a b Hab. rewrite !(nth_reverse_row 2) by (try reflexivity; try lia; apply axis_row_length). rewrite !axis_row_nth by lia. cbn [nth].
  pose proof (spaced_increasing (-3) 3 3 ltac:(lra) a b Hab). lra.
Qed.

(** * C93: what a call asks for *)
(** By default, the range of the stored training scores and their medians for the other variables. *)
Theorem C93_training_defaults {V} m (curve : list (list R) -> result (list V)) f v steps n t second :
  let D := pl_dim m in let i := Z.to_nat (v - 1) in
  (1 <= v <= Z.of_nat D)%Z -> two_values second -> steps_are steps 100 n -> (2 <= n)%nat -> pl_training m = Some t -> t <> [] -> drawn_by m curve f ->
  exists lo hi fix_, is_extent (scores_on i t) lo hi /\ (forall j, (j < D)%nat -> j <> i -> is_lower_median (scores_on j t) (fix_ j)) /\
    (lo < hi -> curve_plot m curve (PCall [v] None second steps None false) =
       Ok (Line (map (fun k => (spaced lo hi n k, f (axis_row D i fix_ (spaced lo hi n k)))) (seq 0 n)))).
Proof.
  intros D i Hv H2 Hn N Ht NE HV. destruct (default_range_exists (Some t) i NE) as (lo & hi & Hr). destruct (default_fixed_exists (Some t) D [i] NE) as (fx & Hf).
  exists lo, hi, fx. split; [exact Hr|]. split; [intros j Hj Nj; apply Hf; now apply in_others|].
  intro L. apply (C92_original_scale m curve f (PCall [v] None second steps None false) v n (Some t) lo hi fx); cbn [pc_rescale]; auto.
  unfold scores_source. rewrite Ht. split; [intros (_ & _ & X & _); discriminate|reflexivity].
Qed.
Print Assumptions C93_training_defaults.
(** Without stored scores, from -3 to 3 with the other variables at zero. *)
Theorem C93_without_training {V} m (curve : list (list R) -> result (list V)) f v steps n second :
  let D := pl_dim m in let i := Z.to_nat (v - 1) in
  (1 <= v <= Z.of_nat D)%Z -> two_values second -> steps_are steps 100 n -> (2 <= n)%nat -> pl_training m = None -> drawn_by m curve f ->
  curve_plot m curve (PCall [v] None second steps None false) =
    Ok (Line (map (fun k => (spaced (-3) 3 n k, f (axis_row D i (fun _ => 0) (spaced (-3) 3 n k)))) (seq 0 n))).
Proof.
  intros D i Hv H2 Hn N Ht HV. apply (C92_original_scale m curve f (PCall [v] None second steps None false) v n None (-3) 3 (fun _ => 0)); cbn [pc_rescale]; auto; try lra.
  - unfold scores_source. now rewrite Ht.
  - split; reflexivity.
  - intros j _. reflexivity.
Qed.
Print Assumptions C93_without_training.
(** With invertible scales and stored scores, the range is one of transformed scores; by default the range and the
    medians of the transformed training scores. *)
Theorem C93_transformed_range {V} m (curve : list (list R) -> result (list V)) f T U v steps n t range second :
  let D := pl_dim m in let i := Z.to_nat (v - 1) in
  (1 <= v <= Z.of_nat D)%Z -> two_values second -> steps_are steps 100 n -> (2 <= n)%nat -> pl_training m = Some t -> t <> [] ->
  Forall (fun x => length x = D) t -> pl_scales m <> [] -> Forall (fun s => fst s = true) (pl_scales m) ->
  transforms_by m T -> inverts_by m U -> (forall x, length x = D -> T (U x) = x) -> drawn_by m curve f ->
  (range = None \/ exists lo hi, range = Some [lo; hi]) ->
  exists lo hi fix_, match range with None => is_extent (scores_on i (map T t)) lo hi | Some r => r = [lo; hi] end /\
    (forall j, (j < D)%nat -> j <> i -> is_lower_median (scores_on j (map T t)) (fix_ j)) /\
    (lo < hi -> curve_plot m curve (PCall [v] range second steps None true) =
       Ok (Line (map (fun k => (spaced lo hi n k, f (U (axis_row D i fix_ (spaced lo hi n k))))) (seq 0 n)))).
Proof.
  intros D i Hv H2 Hn N Ht NE HF Hs Hinv HT HU HI HV Hrange.
  assert (NE' : map T t <> []) by (intro X; apply map_eq_nil in X; contradiction).
  assert (OT : on_transformed_scale m true) by (repeat split; auto; congruence).
  assert (Hsrc : scores_source m true (Some (map T t))).
  { unfold scores_source. rewrite Ht. split; [|contradiction]. intros _. exists (map T t). split; [|reflexivity]. now apply HT. }
  assert (exists lo hi, range_is (Some (map T t)) i range lo hi) as (lo & hi & Hr).
  { destruct Hrange as [->|(lo & hi & ->)]; [now apply default_range_exists|]. now exists lo, hi. }
  destruct (default_fixed_exists (Some (map T t)) D [i] NE') as (fx & Hf).
  exists lo, hi, fx. split; [destruct range; exact Hr|]. split; [intros j Hj Nj; apply Hf; now apply in_others|].
  intro L. apply (C92_transformed_scale m curve f T U (PCall [v] range second steps None true) v n (Some (map T t)) lo hi fx); auto.
Qed.
Print Assumptions C93_transformed_range.
(** What is not so: without stored scores (after marginal maximum likelihood) a given range is one of original scores
    even when every scale is invertible. *)
Theorem C93_range_scale_refuted : exists m T U, pl_training m = None /\ Forall (fun s => fst s = true) (pl_scales m) /\ pl_scales m <> [] /\
  transforms_by m T /\ inverts_by m U /\ (forall x, length x = pl_dim m -> T (U x) = x /\ U (T x) = x) /\
  forall V (curve : list (list R) -> result (list V)) f, drawn_by m curve f ->
    curve_plot m curve (PCall [1%Z] (Some [-1; 1]) None (Some 2%nat) None true) = Ok (Line [(-2, f [-1]); (2, f [1])]).
Proof.
  assert (UD : undone_by 1 (rotate_scale [[2]] [[/ 2]]) (fun t => vecmat t [[2]]) (fun t => vecmat t [[/ 2]])).
  { split; [split|split; [|split; [|split]]].
    - intros t Ht. reflexivity.
    - intros thetas HF. cbn [sc_transform rotate_scale]. unfold rotate_rows. rewrite (proj2 (forallb_forall _ _)); [reflexivity|]. intros x Hx. rewrite Forall_forall in HF. cbn [length]. now rewrite (HF x Hx).
    - intros t Ht. reflexivity.
    - intros thetas HF. cbn [sc_inverse rotate_scale]. unfold rotate_rows. rewrite (proj2 (forallb_forall _ _)); [reflexivity|]. intros x Hx. rewrite Forall_forall in HF. cbn [length]. now rewrite (HF x Hx).
    - intros [|x [|y t]] Ht; try discriminate. cbv [vecmat ncols length seq map column nth dot combine zip_with fold_right rsum]. cbn. f_equal. field.
    - intros [|x [|y t]] Ht; try discriminate. cbv [vecmat ncols length seq map column nth dot combine zip_with fold_right rsum]. cbn. f_equal. field. }
  exists (PModel 1 [(true, rotate_scale [[2]] [[/ 2]])] None), (fun t => vecmat t [[2]]), (fun t => vecmat t [[/ 2]]).
  destruct (single_scale 1 true _ _ _ None UD) as [H1 H2].
  split; [reflexivity|]. split; [repeat constructor|]. split; [discriminate|]. split; [exact H1|]. split; [exact H2|]. split.
  { intros x Hx. destruct UD as (_ & _ & _ & A & B). auto. }
  intros V curve f HV.
  assert (NT : ~ on_transformed_scale (PModel 1 [(true, rotate_scale [[2]] [[/ 2]])] None) true) by (intros (_ & _ & _ & X); now apply X).
  pose proof (C92_line (PModel 1 [(true, rotate_scale [[2]] [[/ 2]])] None) curve f (fun t => vecmat t [[2]]) (PCall [1%Z] (Some [-1; 1]) None (Some 2%nat) None true) 1 2 None (-1) 1 (fun _ => 0)
    ltac:(cbn; lia) eq_refl I eq_refl ltac:(lia) eq_refl eq_refl ltac:(intros j _; reflexivity) ltac:(left; split; [reflexivity|split; [discriminate|exact H1]]) HV NT) as H.
  cbv zeta in H. rewrite (draws_all _ _ _ _ H).
  - cbn [seq map pl_dim]. unfold axis_row, spaced. cbn [seq map Z.to_nat Z.sub Nat.eqb Nat.sub INR]. cbn.
    assert (E0 : -1 + 0 / 1 * (1 - -1) = -1) by field. assert (E1 : -1 + 1 / 1 * (1 - -1) = 1) by field. rewrite E0, E1. repeat f_equal; lra.
  - intros a b Hab. destruct a as [|[|a]]; destruct b as [|[|b]]; try lia. unfold axis_row, spaced. cbn. lra.
Qed.
Print Assumptions C93_range_scale_refuted.
(** The category probabilities hold the other variables at minus their median here: the medians of the stored scores are
    taken for transformed scores.  The entropy (as every other figure) is drawn at the median. *)
Lemma median_pair x : is_lower_median [x; x] x.
Proof.
  split; [now left|]. unfold below, upto. cbn [filter]. destruct (Rlt_dec x x); [lra|]. destruct (Rle_dec x x); [|lra]. cbn. lia.
Qed.
Theorem C93_probability_medians_refuted : exists m U t c f, pl_training m = Some t /\ on_transformed_scale m (pc_rescale c) /\ transforms_by m U /\ inverts_by m U /\
  (forall x, length x = pl_dim m -> U (U x) = x) /\ pl_dim m = 2%nat /\ pc_vars c = [1%Z] /\ pc_fixed c = None /\
  is_lower_median (scores_on 1 t) 1 /\ (forall x, f x = nth 1 x 0) /\
  curve_plot m (fun g => Ok (map f g)) c = Ok (Line [(-1, 1); (1, 1)]) /\
  probability_plot m (fun g => Ok (map f g)) c = Ok (Line [(-1, -1); (1, -1)]).
Proof.
  set (U := reverse_row [true; true]). set (t := [[0; 1]; [1; 1]]). set (m := PModel 2 [(true, reverse_scale [true; true])] (Some t)).
  set (c := PCall [1%Z] (Some [-1; 1]) None (Some 2%nat) None true). set (f := fun x : list R => nth 1 x 0).
  destruct (single_scale 2 true (reverse_scale [true; true]) _ _ (Some t) (reverse_undone 2 [true; true] eq_refl)) as [H1 H2]. fold U m in H1, H2.
  assert (OT : on_transformed_scale m true) by (split; [discriminate|split; [repeat constructor|split; [reflexivity|discriminate]]]).
  assert (UU : forall x, length x = 2%nat -> U (U x) = x) by (intros; now apply (reverse_involution 2)).
  assert (UN : forall x, length x = 2%nat -> nth 1 (U x) 0 = - nth 1 x 0) by (intros x Hx; unfold U; rewrite (nth_reverse_row 2) by (auto; lia); cbn [nth]; lra).
  assert (HV : drawn_by m (fun g => Ok (map f g)) f) by (intros g _ _; reflexivity).
  assert (Hs : scores_source m true (Some (map U t))).
  { unfold scores_source. cbn [pl_training m]. split; [|contradiction]. intros _. exists (map U t). split; [|reflexivity]. apply H1. repeat constructor. }
  exists m, U, t, c, f. split; [reflexivity|]. split; [exact OT|]. split; [exact H1|]. split; [exact H2|]. split; [exact UU|].
  split; [reflexivity|]. split; [reflexivity|]. split; [reflexivity|]. split; [apply median_pair|]. split; [reflexivity|].
  assert (S0 : spaced (-1) 1 2 0 = -1) by (unfold spaced; cbn; field). assert (S1 : spaced (-1) 1 2 1 = 1) by (unfold spaced; cbn; field). split.
  - assert (MF : fixed_are (Some (map U t)) 2 [0%nat] None (fun _ => -1)).
    { split; [discriminate|]. intros j Hj. apply in_others in Hj. replace j with 1%nat by lia. unfold scores_on, t. cbn [map].
      rewrite !UN by reflexivity. cbn [nth]. apply median_pair. }
    rewrite (C92_transformed_scale m _ f U U c 1 2 (Some (map U t)) (-1) 1 (fun _ => -1)); auto; try (cbn; lia); try reflexivity; try exact I; try lra.
    cbn [seq map]. rewrite S0, S1. unfold f. cbn [pl_dim m]. rewrite !UN by apply axis_row_length. cbn. repeat f_equal; lra.
  - assert (MF : fixed_are (Some t) 2 [0%nat] None (fun _ => 1)).
    { split; [discriminate|]. intros j Hj. apply in_others in Hj. replace j with 1%nat by lia. apply median_pair. }
    destruct (C92_probabilities m (fun g => Ok (map f g)) f U c 1 2 (Some (map U t)) (-1) 1 (fun _ => 1)) as [_ H]; auto; try (cbn; lia); try reflexivity; try exact I.
    + left. split; [reflexivity|]. split; [discriminate|exact H1].
    + rewrite (H U OT H2 UU ltac:(lra)). cbn [seq map]. rewrite S0, S1. unfold f. cbn [pl_dim m]. rewrite !UN by apply axis_row_length. cbn. repeat f_equal; lra.
Qed.
Print Assumptions C93_probability_medians_refuted.
(** Refused requests. *)
Theorem C93_refused {V} m (curve : list (list R) -> result (list V)) c :
  (exists v, In v (pc_vars c) /\ (Z.of_nat (pl_dim m) < v)%Z) \/ (2 < length (pc_vars c))%nat \/ (pl_dim m < length (pc_vars c))%nat \/
  (exists r, pc_range c = Some r /\ length r <> 2%nat) ->
  curve_plot m curve c = Err TypeError /\ probability_plot m curve c = Err TypeError /\
  (forall d info, information_plot m d info c = Err TypeError) /\
  (forall em e data ch b, log_likelihood_plot m em e data ch b c = Err TypeError).
Proof.
  intro H. apply refused_variables in H. unfold curve_plot, probability_plot, information_plot, log_likelihood_plot. rewrite H. repeat split; intros; reflexivity.
Qed.
Print Assumptions C93_refused.
(** What is not so: zero and negative variables are not refused, they count from the last variable. *)
Theorem C93_zero_variable_refuted {V} m (curve : list (list R) -> result (list V)) c v : (- Z.of_nat (pl_dim m) < v <= 0)%Z ->
  curve_plot m curve (with_vars c [v]) = curve_plot m curve (with_vars c [(v + Z.of_nat (pl_dim m))%Z]) /\
  probability_plot m curve (with_vars c [v]) = probability_plot m curve (with_vars c [(v + Z.of_nat (pl_dim m))%Z]).
Proof. intro H. split; [now apply wrap_curve|now apply wrap_prob]. Qed.
Print Assumptions C93_zero_variable_refuted.
(** The length of the second range is checked when it is not used, and not when it is. *)
Theorem C93_second_range_refuted {V} m (curve : list (list R) -> result (list V)) v w range steps fixed rescale r lo hi rest :
  (length r <> 2%nat -> (1 <= pl_dim m)%nat -> curve_plot m curve (PCall [v] range (Some r) steps fixed rescale) = Err TypeError) /\
  curve_plot m curve (PCall [v; w] range (Some (lo :: hi :: rest)) steps fixed rescale) = curve_plot m curve (PCall [v; w] range (Some [lo; hi]) steps fixed rescale).
Proof.
  split; [|apply second_extra]. intros H HD. unfold curve_plot, plot_checks. cbn [pc_vars pc_range pc_second length]. apply Nat.eqb_neq in H. rewrite H. cbn [negb].
  change (2 <? 1)%nat with false. cbv iota. destruct (pl_dim m <? 1)%nat; [reflexivity|]. destruct (forallb _ _); [|reflexivity]. cbn [negb]. destruct range as [l|]; [destruct (negb _); reflexivity|reflexivity].
Qed.
Print Assumptions C93_second_range_refuted.
(** Given fixed values: one for each other variable.  Other numbers of values are refused, except that every figure but
    the category probabilities uses a single value for all of them. *)
Theorem C93_fixed_values {V} m (curve : list (list R) -> result (list V)) v :
  (1 <= v <= Z.of_nat (pl_dim m))%Z ->
  (forall c f src lo hi, pc_vars c = [v] -> two_values (pc_second c) -> pc_fixed c = Some f -> length f <> (pl_dim m - 1)%nat ->
     scores_source m (pc_rescale c) src -> range_is src (Z.to_nat (v - 1)) (pc_range c) lo hi ->
     probability_plot m curve c = Err TypeError /\ (length f <> 1%nat -> curve_plot m curve c = Err RuntimeError)) /\
  (forall range steps rescale x,
     curve_plot m curve (PCall [v] range None steps (Some [x]) rescale) = curve_plot m curve (PCall [v] range None steps (Some (repeat x (pl_dim m - 1))) rescale)).
Proof. intro Hv. split; [intros; eapply refused_fixed; eauto|]. intros. now apply broadcast_fixed. Qed.
Print Assumptions C93_fixed_values.
Example C93_nonvacuous : let m := PModel 3 [] (Some [[0; 1; 2]; [2; 5; 3]]) in
  (exists lo hi, range_is (pl_training m) 0 None lo hi /\ lo < hi) /\ scores_source m false (pl_training m) /\ length (others 3 [0%nat]) = 2%nat.
Proof.
  intros m. split; [|split; [|reflexivity]].
  - exists 0, 2. split; [|lra]. split; [now left|]. split; [right; now left|]. intros x [<-|[<-|[]]]; cbn; lra.
  - split; [|reflexivity]. intros (X & _). elim X; reflexivity.
Qed.

(** * C94: information figures *)
(** Without a scale (or rescaling), or for a model of one latent variable: the points of C92. *)
Theorem C94_line m degrees info f S c v n src lo hi fix_ :
  let D := pl_dim m in let i := Z.to_nat (v - 1) in let g := fun k => axis_row D i fix_ (spaced lo hi n k) in
  degrees = true \/ D = 1%nat -> D = 1%nat \/ pc_rescale c = false \/ pl_scales m = [] ->
  (1 <= v <= Z.of_nat D)%Z -> pc_vars c = [v] -> two_values (pc_second c) -> steps_are (pc_steps c) 100 n -> (2 <= n)%nat ->
  scores_source m (pc_rescale c) src -> range_is src i (pc_range c) lo hi -> fixed_are src D [i] (pc_fixed c) fix_ ->
  shows m (pc_rescale c) S -> drawn_by m info f ->
  (~ on_transformed_scale m (pc_rescale c) -> draws n (fun k => nth i (S (g k)) 0) (fun k => f (g k)) (information_plot m degrees info c)) /\
  (forall U, on_transformed_scale m (pc_rescale c) -> inverts_by m U -> (forall t, length t = D -> S (U t) = t) -> lo < hi ->
     information_plot m degrees info c = Ok (Line (map (fun k => (spaced lo hi n k, f (U (g k)))) (seq 0 n)))).
Proof.
  intros D i g Hdeg Hone Hv Hc H2 Hn N Hs Hr Hf HS HV. assert (N1 : (1 <= n)%nat) by lia. pose proof (two_values_range _ _ _ _ _ Hr) as Hr2. split.
  - intro HT. rewrite (info_line m degrees info f c v n S g Hdeg Hone Hv Hc Hr2 H2 Hn N1); auto.
    + apply (draws_squeezed n (fun k => nth i (S (g k)) 0) (fun k => f (g k)) N).
    + apply (rows_plain m n c v src lo hi fix_); assumption.
    + intro k. apply axis_row_length.
  - intros U HT HU HI L. rewrite (info_line m degrees info f c v n S (fun k => U (g k)) Hdeg Hone Hv Hc Hr2 H2 Hn N1); auto.
    + assert (E : forall k, nth (Z.to_nat (v - 1)) (S (U (g k))) 0 = spaced lo hi n k).
      { intro k. rewrite HI by apply axis_row_length. apply axis_row_nth. unfold D in *. lia. }
      rewrite (map_ext _ _ E). apply (draws_all n (spaced lo hi n) (fun k => f (U (g k)))).
      * apply (draws_squeezed n (spaced lo hi n) (fun k => f (U (g k))) N).
      * now apply spaced_increasing.
    + apply (rows_transformed m U n c v src lo hi fix_); assumption.
    + intro k. apply HU. apply axis_row_length.
Qed.
Print Assumptions C94_line.
(** Two latent variables without a scale. *)
Theorem C94_surface m info f c v w n src lo hi lo2 hi2 fix_ :
  let D := pl_dim m in let i := Z.to_nat (v - 1) in let j := Z.to_nat (w - 1) in
  pc_rescale c = false \/ pl_scales m = [] ->
  (1 <= v <= Z.of_nat D)%Z -> (1 <= w <= Z.of_nat D)%Z -> v <> w -> pc_vars c = [v; w] -> steps_are (pc_steps c) 18 n -> (1 <= n)%nat ->
  scores_source m (pc_rescale c) src -> range_is src i (pc_range c) lo hi -> range_is src j (pc_second c) lo2 hi2 ->
  fixed_are src D [i; j] (pc_fixed c) fix_ -> drawn_by m info f ->
  information_plot m true info c =
  Ok (Surface (map (fun a => map (fun b => (spaced lo hi n a, spaced lo2 hi2 n b, f (axis_row2 D i j fix_ (spaced lo hi n a) (spaced lo2 hi2 n b)))) (seq 0 n)) (seq 0 n))).
Proof.
  intros D i j HR Hv Hw Hvw Hc Hn N Hs Hr Hr2 Hf HV. assert (HD : (2 <= D)%nat) by lia.
  assert (HT : ~ on_transformed_scale m (pc_rescale c)) by (intros (X & _ & Y & _); destruct HR; congruence).
  assert (HS : shows m (pc_rescale c) (fun t => t)) by (right; auto).
  pose proof (info_surface m true info f c v w n (fun t => t) (fun p => axis_row2 D i j fix_ (spaced lo hi n (fst p)) (spaced lo2 hi2 n (snd p))) eq_refl Hv Hw HD Hc
    (two_values_range _ _ _ _ _ Hr) Hn N (rows_plain2 m n c v w src lo hi lo2 hi2 fix_ Hv Hw Hvw Hc HT Hs Hr Hr2 Hf) (fun k => axis_row2_length _ _ _ _ _ _) HS HV) as H.
  cbv zeta in H. rewrite H. assert (E : (pc_rescale c && has_scale m)%bool = false) by (unfold has_scale; destruct HR as [->| ->]; [reflexivity|apply Bool.andb_false_r]). rewrite E.
  f_equal. f_equal. apply map_ext. intro a. apply map_ext. intro b. cbn [fst snd]. unfold D, i, j in *. rewrite axis_row2_fst, axis_row2_snd by lia. reflexivity.
Qed.
Print Assumptions C94_surface.
(** What is not so.  With a scale, no figure along one variable of a model with several is ever drawn. *)
Theorem C94_scaled_refuted m degrees info c v : pc_rescale c = true -> pl_scales m <> [] -> (2 <= pl_dim m)%nat -> pc_vars c = [v] ->
  forall fig, information_plot m degrees info c <> Ok fig.
Proof. intros H1 H2 H3 H4. apply (info_never m degrees info c v); auto. lia. Qed.
Print Assumptions C94_scaled_refuted.
(** With a scale, the figure of two variables always has the first two latent variables on its axes, whichever were
    asked for. *)
Theorem C94_two_variables_refuted m info f S c v w n src lo hi lo2 hi2 fix_ :
  let D := pl_dim m in let i := Z.to_nat (v - 1) in let j := Z.to_nat (w - 1) in
  let g := fun a b => axis_row2 D i j fix_ (spaced lo hi n a) (spaced lo2 hi2 n b) in
  pc_rescale c = true -> pl_scales m <> [] -> transforms_by m S ->
  (1 <= v <= Z.of_nat D)%Z -> (1 <= w <= Z.of_nat D)%Z -> v <> w -> pc_vars c = [v; w] -> steps_are (pc_steps c) 18 n -> (1 <= n)%nat ->
  scores_source m (pc_rescale c) src -> range_is src i (pc_range c) lo hi -> range_is src j (pc_second c) lo2 hi2 ->
  fixed_are src D [i; j] (pc_fixed c) fix_ -> drawn_by m info f ->
  (~ on_transformed_scale m (pc_rescale c) ->
   information_plot m true info c = Ok (Surface (map (fun a => map (fun b => (nth 0 (S (g a b)) 0, nth 1 (S (g a b)) 0, f (g a b))) (seq 0 n)) (seq 0 n)))) /\
  (forall U, on_transformed_scale m (pc_rescale c) -> inverts_by m U -> (forall t, length t = D -> S (U t) = t) ->
   information_plot m true info c = Ok (Surface (map (fun a => map (fun b => (nth 0 (g a b) 0, nth 1 (g a b) 0, f (U (g a b)))) (seq 0 n)) (seq 0 n)))).
Proof.
  intros D i j g Hre Hsc HTr Hv Hw Hvw Hc Hn N Hs Hr Hr2 Hf HV. assert (HD : (2 <= D)%nat) by lia.
  assert (HS : shows m (pc_rescale c) S) by (left; auto).
  assert (E : (pc_rescale c && has_scale m)%bool = true) by (unfold has_scale; rewrite Hre; destruct (pl_scales m); [congruence|reflexivity]). split.
  - intro HT. pose proof (info_surface m true info f c v w n S (fun p => g (fst p) (snd p)) eq_refl Hv Hw HD Hc
      (two_values_range _ _ _ _ _ Hr) Hn N (rows_plain2 m n c v w src lo hi lo2 hi2 fix_ Hv Hw Hvw Hc HT Hs Hr Hr2 Hf) (fun k => axis_row2_length _ _ _ _ _ _) HS HV) as H.
    cbv zeta in H. rewrite E in H. exact H.
  - intros U HT HU HI. assert (G : plot_grid m n c = Ok (map (fun p => U (g (fst p) (snd p))) (pairs n))).
    { rewrite (rows_transformed2 m U n c v w src lo hi lo2 hi2 fix_) by assumption. unfold two_axes. rewrite map_map. reflexivity. }
    pose proof (info_surface m true info f c v w n S (fun p => U (g (fst p) (snd p))) eq_refl Hv Hw HD Hc
      (two_values_range _ _ _ _ _ Hr) Hn N G (fun k => proj1 HU _ (axis_row2_length _ _ _ _ _ _)) HS HV) as H.
    cbv zeta in H. rewrite E in H. rewrite H. f_equal. f_equal. apply map_ext. intro a. apply map_ext. intro b. cbn [fst snd]. rewrite HI by apply axis_row2_length. reflexivity.
Qed.
Print Assumptions C94_two_variables_refuted.
(** A direction must be given for several latent variables. *)
Theorem C94_direction m info c v src lo hi : (1 <= v <= Z.of_nat (pl_dim m))%Z -> pc_vars c = [v] -> two_values (pc_second c) ->
  range_is src (Z.to_nat (v - 1)) (pc_range c) lo hi -> (2 <= pl_dim m)%nat -> information_plot m false info c = Err ValueError.
Proof.
  intros Hv Hc H2 Hr HD. unfold information_plot. rewrite (checks_one m c v) by (auto; try lia; exact (two_values_range _ _ _ _ _ Hr)). cbn [bind negb andb].
  rewrite (proj2 (Nat.ltb_lt 1 (pl_dim m))) by lia. reflexivity.
Qed.
Print Assumptions C94_direction.
(** The information of chosen items is the sum over them, each counted once; of the test when none are chosen.  An item
    number that is too large is refused.  The expected scores of the same items count an item named twice twice. *)
Theorem C94_items m I item_info test_info (fi : list R -> list R) ft chosen :
  drawn_by m item_info fi -> (forall t, length t = pl_dim m -> length (fi t) = I) -> drawn_by m test_info ft ->
  (items_named I chosen ->
     drawn_by m (drawn_information I item_info test_info (Some chosen)) (fun t => rsum (map (fun j => nth j (fi t) 0) (named I (Some chosen))))) /\
  (drawn_by m (drawn_information I item_info test_info None) ft) /\
  (forall v grid, In v chosen -> (Z.of_nat I < v)%Z -> drawn_information I item_info test_info (Some chosen) grid = Err IndexError) /\
  (items_named I chosen -> NoDup chosen ->
     drawn_by m (drawn_scores I item_info test_info (Some chosen)) (fun t => rsum (map (fun j => nth j (fi t) 0) (named I (Some chosen))))).
Proof.
  intros H1 HL H2. split; [|split; [|split]].
  - intro Hc. exact (information_drawn m I item_info test_info fi ft (Some chosen) H1 HL H2 Hc).
  - exact (information_drawn m I item_info test_info fi ft None H1 HL H2 Logic.I).
  - intros v grid Hin Hv. unfold drawn_information, item_mask. replace (mapM _ chosen) with (@Err (list nat) IndexError); [reflexivity|]. symmetry.
    clear -Hin Hv. induction chosen as [|a l IH]; [destruct Hin|]. cbn [mapM]. destruct Hin as [->|Hin].
    + unfold norm_index. destruct (_ && _)%bool eqn:E; [apply andb_prop in E; destruct E as [E1 E2]; apply Z.ltb_lt in E2; lia|].
      destruct (_ && _)%bool eqn:E' in |- *; [|reflexivity]. apply andb_prop in E'. destruct E' as [E1 E2]. apply Z.ltb_lt in E2. lia.
    + destruct (norm_index I (a - 1)); [|reflexivity]. cbn [bind]. rewrite (IH Hin). reflexivity.
  - intros Hc HN thetas NE HF. rewrite (scores_drawn m I item_info test_info fi ft (Some chosen) H1 H2 Hc thetas NE HF). f_equal. apply map_ext. intro t.
    exact (named_perm I chosen (fun j => nth j (fi t) 0) Hc HN).
Qed.
Print Assumptions C94_items.
Theorem C94_repeated_items_refuted : exists m item_scores (fi : list R -> list R), drawn_by m item_scores fi /\
  (forall t, fi t = [1; 10]) /\ items_named 2 [1; 1]%Z /\
  drawn_information 2 item_scores (fun _ => Ok []) (Some [1; 1]%Z) [[0]] = Ok [1] /\
  drawn_scores 2 item_scores (fun _ => Ok []) (Some [1; 1]%Z) [[0]] = Ok [2].
Proof.
  exists (PModel 1 [] None), (fun g => Ok (map (fun _ => [1; 10]) g)), (fun _ => [1; 10]).
  split; [intros g _ _; reflexivity|]. split; [reflexivity|]. split; [repeat constructor; lia|].
  split; cbn; f_equal; f_equal; lra.
Qed.
Print Assumptions C94_repeated_items_refuted.
Example C94_nonvacuous : let m := PModel 3 [(true, reverse_scale [true; false; false])] None in let c := PCall [2%Z; 3%Z] None None (Some 2%nat) None true in
  pc_rescale c = true /\ pl_scales m <> [] /\ transforms_by m (reverse_row [true; false; false]) /\ scores_source m true None /\
  range_is None 1 None (-3) 3 /\ fixed_are None 3 [1; 2]%nat None (fun _ => 0) /\ drawn_by m (fun g => Ok (map (fun x => nth 1 x 0) g)) (fun x => nth 1 x 0) /\
  information_plot m true (fun g => Ok (map (fun x => nth 1 x 0) g)) c = Ok (Surface [[(0, -3, -3); (0, -3, -3)]; [(0, 3, 3); (0, 3, 3)]]).
Proof.
  intros m c. destruct (single_scale 3 true (reverse_scale [true; false; false]) _ _ None (reverse_undone 3 [true; false; false] eq_refl)) as [H1 _].
  split; [reflexivity|]. split; [discriminate|]. split; [exact H1|]. split; [reflexivity|]. split; [split; reflexivity|]. split; [intros j _; reflexivity|]. split; [intros g _ _; reflexivity|].
  destruct (C94_two_variables_refuted m (fun g => Ok (map (fun x => nth 1 x 0) g)) (fun x => nth 1 x 0) (reverse_row [true; false; false]) c 2 3 2 None (-3) 3 (-3) 3 (fun _ => 0)) as [H _];
    try reflexivity; try exact H1; try (cbn; lia); try discriminate; try (split; reflexivity); try (intros g _ _; reflexivity).
  rewrite H by (intros (_ & _ & _ & X); now apply X). assert (S0 : spaced (-3) 3 2 0 = -3) by (unfold spaced; cbn; field). assert (S1 : spaced (-3) 3 2 1 = 3) by (unfold spaced; cbn; field).
    cbn [seq map pl_dim m]. rewrite !(nth_reverse_row 3) by (try reflexivity; try lia; apply axis_row2_length). change (Z.to_nat (2 - 1)) with 1%nat. change (Z.to_nat (3 - 1)) with 2%nat.
    rewrite !S0, !S1. cbn. repeat f_equal; lra.
Qed.

(** * C95: log-likelihood figures of one response pattern *)
(** Every point carries the log-likelihood of the answers to the chosen items, at the score row of the point. *)
Theorem C95_line m em p expected data chosen S c v n src lo hi fix_ :
  let D := pl_dim m in let i := Z.to_nat (v - 1) in let g := fun k => axis_row D i fix_ (spaced lo hi n k) in let J := named (em_items em) chosen in
  has_probabilities em p -> em_lv em = D -> legal_row (em_cats em) data -> match chosen with Some l => items_named (em_items em) l | None => True end ->
  all_seen data J = true ->
  (1 <= v <= Z.of_nat D)%Z -> pc_vars c = [v] -> two_values (pc_second c) -> steps_are (pc_steps c) 100 n -> (2 <= n)%nat ->
  scores_source m (pc_rescale c) src -> range_is src i (pc_range c) lo hi -> fixed_are src D [i] (pc_fixed c) fix_ -> shows m (pc_rescale c) S ->
  (~ on_transformed_scale m (pc_rescale c) ->
     draws n (fun k => nth i (S (g k)) 0) (fun k => Some (Fin (pattern_loglik p data J (g k)))) (log_likelihood_plot m em expected data chosen false c)) /\
  (forall U, on_transformed_scale m (pc_rescale c) -> inverts_by m U -> (forall t, length t = D -> S (U t) = t) -> lo < hi ->
     log_likelihood_plot m em expected data chosen false c =
     Ok (Line (map (fun k => (spaced lo hi n k, Some (Fin (pattern_loglik p data J (U (g k)))))) (seq 0 n)))).
Proof.
  intros D i g J Hp HD Hd Hch Hall Hv Hc H2 Hn N Hs Hr Hf HS. assert (N1 : (1 <= n)%nat) by lia. pose proof (two_values_range _ _ _ _ _ Hr) as Hr2. split.
  - intro HT. rewrite (ll_line m em expected p data chosen c v n S g Hp Hd HD Hch Hv Hc Hr2 H2 Hn N1); auto.
    + fold J. rewrite Hall. apply (draws_squeezed n (fun k => nth i (S (g k)) 0) (fun k => Some (Fin (pattern_loglik p data J (g k)))) N).
    + apply (rows_plain m n c v src lo hi fix_); assumption.
    + intro k. apply axis_row_length.
  - intros U HT HU HI L. rewrite (ll_line m em expected p data chosen c v n S (fun k => U (g k)) Hp Hd HD Hch Hv Hc Hr2 H2 Hn N1); auto.
    + fold J. rewrite Hall. assert (E : forall k, nth (Z.to_nat (v - 1)) (S (U (g k))) 0 = spaced lo hi n k).
      { intro k. rewrite HI by apply axis_row_length. apply axis_row_nth. unfold D in *. lia. }
      rewrite (map_ext _ _ E). apply (draws_all n (spaced lo hi n) (fun k => Some (Fin (pattern_loglik p data J (U (g k)))))).
      * apply (draws_squeezed n (spaced lo hi n) (fun k => Some (Fin (pattern_loglik p data J (U (g k))))) N).
      * now apply spaced_increasing.
    + apply (rows_transformed m U n c v src lo hi fix_); assumption.
    + intro k. apply HU. apply axis_row_length.
Qed.
Print Assumptions C95_line.
(** With the expected sum score on the axis. *)
Theorem C95_expected_axis m em p expected fe data chosen c v n src lo hi fix_ :
  let D := pl_dim m in let i := Z.to_nat (v - 1) in let g := fun k => axis_row D i fix_ (spaced lo hi n k) in let J := named (em_items em) chosen in
  has_probabilities em p -> em_lv em = D -> legal_row (em_cats em) data -> match chosen with Some l => items_named (em_items em) l | None => True end ->
  all_seen data J = true -> drawn_by m expected fe ->
  (1 <= v <= Z.of_nat D)%Z -> pc_vars c = [v] -> two_values (pc_second c) -> steps_are (pc_steps c) 100 n -> (2 <= n)%nat ->
  scores_source m (pc_rescale c) src -> range_is src i (pc_range c) lo hi -> fixed_are src D [i] (pc_fixed c) fix_ ->
  (~ on_transformed_scale m (pc_rescale c) ->
     draws n (fun k => fe (g k)) (fun k => Some (Fin (pattern_loglik p data J (g k)))) (log_likelihood_plot m em expected data chosen true c)) /\
  (forall U, on_transformed_scale m (pc_rescale c) -> inverts_by m U ->
     draws n (fun k => fe (U (g k))) (fun k => Some (Fin (pattern_loglik p data J (U (g k))))) (log_likelihood_plot m em expected data chosen true c)).
Proof.
  intros D i g J Hp HD Hd Hch Hall He Hv Hc H2 Hn N Hs Hr Hf. assert (N1 : (1 <= n)%nat) by lia. pose proof (two_values_range _ _ _ _ _ Hr) as Hr2. split.
  - intro HT. rewrite (ll_expected m em expected fe p data chosen c v n g Hp Hd HD Hch Hv Hc Hr2 H2 Hn N1); auto.
    + fold J. rewrite Hall. apply (draws_squeezed n (fun k => fe (g k)) (fun k => Some (Fin (pattern_loglik p data J (g k)))) N).
    + apply (rows_plain m n c v src lo hi fix_); assumption.
    + intro k. apply axis_row_length.
  - intros U HT HU. rewrite (ll_expected m em expected fe p data chosen c v n (fun k => U (g k)) Hp Hd HD Hch Hv Hc Hr2 H2 Hn N1); auto.
    + fold J. rewrite Hall. apply (draws_squeezed n (fun k => fe (U (g k))) (fun k => Some (Fin (pattern_loglik p data J (U (g k))))) N).
    + apply (rows_transformed m U n c v src lo hi fix_); assumption.
    + intro k. apply HU. apply axis_row_length.
Qed.
Print Assumptions C95_expected_axis.
Theorem C95_surface m em p expected data chosen S c v w n src lo hi lo2 hi2 fix_ :
  let D := pl_dim m in let i := Z.to_nat (v - 1) in let j := Z.to_nat (w - 1) in let J := named (em_items em) chosen in
  let g := fun a b => axis_row2 D i j fix_ (spaced lo hi n a) (spaced lo2 hi2 n b) in
  has_probabilities em p -> em_lv em = D -> legal_row (em_cats em) data -> match chosen with Some l => items_named (em_items em) l | None => True end ->
  all_seen data J = true ->
  (1 <= v <= Z.of_nat D)%Z -> (1 <= w <= Z.of_nat D)%Z -> v <> w -> pc_vars c = [v; w] -> steps_are (pc_steps c) 18 n -> (1 <= n)%nat ->
  scores_source m (pc_rescale c) src -> range_is src i (pc_range c) lo hi -> range_is src j (pc_second c) lo2 hi2 ->
  fixed_are src D [i; j] (pc_fixed c) fix_ -> shows m (pc_rescale c) S ->
  (~ on_transformed_scale m (pc_rescale c) -> log_likelihood_plot m em expected data chosen false c =
     Ok (Surface (map (fun a => map (fun b => (nth i (S (g a b)) 0, nth j (S (g a b)) 0, Some (Fin (pattern_loglik p data J (g a b))))) (seq 0 n)) (seq 0 n)))) /\
  (forall U, on_transformed_scale m (pc_rescale c) -> inverts_by m U -> (forall t, length t = D -> S (U t) = t) ->
     log_likelihood_plot m em expected data chosen false c =
     Ok (Surface (map (fun a => map (fun b => (spaced lo hi n a, spaced lo2 hi2 n b, Some (Fin (pattern_loglik p data J (U (g a b)))))) (seq 0 n)) (seq 0 n)))).
Proof.
  intros D i j J g Hp HE Hd Hch Hall Hv Hw Hvw Hc Hn N Hs Hr Hr2 Hf HS. assert (HD : (2 <= D)%nat) by lia. split.
  - intro HT. pose proof (ll_surface m em expected p data chosen c v w n S (fun q => g (fst q) (snd q)) Hp Hd HE Hch Hv Hw HD Hc
      (two_values_range _ _ _ _ _ Hr) Hn N (rows_plain2 m n c v w src lo hi lo2 hi2 fix_ Hv Hw Hvw Hc HT Hs Hr Hr2 Hf) (fun k => axis_row2_length _ _ _ _ _ _) HS) as H.
    fold J in H. rewrite Hall in H. exact H.
  - intros U HT HU HI. assert (G : plot_grid m n c = Ok (map (fun q => U (g (fst q) (snd q))) (pairs n))).
    { rewrite (rows_transformed2 m U n c v w src lo hi lo2 hi2 fix_) by assumption. unfold two_axes. rewrite map_map. reflexivity. }
    pose proof (ll_surface m em expected p data chosen c v w n S (fun q => U (g (fst q) (snd q))) Hp Hd HE Hch Hv Hw HD Hc
      (two_values_range _ _ _ _ _ Hr) Hn N G (fun k => proj1 HU _ (axis_row2_length _ _ _ _ _ _)) HS) as H.
    fold J in H. rewrite Hall in H. rewrite H. f_equal. f_equal. apply map_ext. intro a. apply map_ext. intro b. cbn [fst snd]. unfold g, D, i, j in *. rewrite HI by apply axis_row2_length.
    rewrite axis_row2_fst, axis_row2_snd by lia. reflexivity.
Qed.
Print Assumptions C95_surface.
(** What is not so.  One missing answer among the chosen items: every point is NaN. *)
Theorem C95_missing_refuted m em p expected data chosen S c v n src lo hi fix_ :
  let D := pl_dim m in let i := Z.to_nat (v - 1) in let g := fun k => axis_row D i fix_ (spaced lo hi n k) in let J := named (em_items em) chosen in
  has_probabilities em p -> em_lv em = D -> legal_row (em_cats em) data -> match chosen with Some l => items_named (em_items em) l | None => True end ->
  (exists j, In j J /\ seen [data] 0 j = false) ->
  (1 <= v <= Z.of_nat D)%Z -> pc_vars c = [v] -> two_values (pc_second c) -> steps_are (pc_steps c) 100 n -> (2 <= n)%nat ->
  scores_source m (pc_rescale c) src -> range_is src i (pc_range c) lo hi -> fixed_are src D [i] (pc_fixed c) fix_ -> shows m (pc_rescale c) S ->
  ~ on_transformed_scale m (pc_rescale c) ->
  draws n (fun k => nth i (S (g k)) 0) (fun _ => None) (log_likelihood_plot m em expected data chosen false c).
Proof.
  intros D i g J Hp HD Hd Hch (j & Hj & Hseen) Hv Hc H2 Hn N Hs Hr Hf HS HT. assert (N1 : (1 <= n)%nat) by lia. pose proof (two_values_range _ _ _ _ _ Hr) as Hr2.
  assert (Hall : all_seen data J = false).
  { unfold all_seen. apply Bool.not_true_is_false. intro X. rewrite forallb_forall in X. rewrite (X j Hj) in Hseen. discriminate. }
  rewrite (ll_line m em expected p data chosen c v n S g Hp Hd HD Hch Hv Hc Hr2 H2 Hn N1); auto.
  - fold J. rewrite Hall. apply (draws_squeezed n (fun k => nth i (S (g k)) 0) (fun _ : nat => None) N).
  - apply (rows_plain m n c v src lo hi fix_); assumption.
  - intro k. apply axis_row_length.
Qed.
Print Assumptions C95_missing_refuted.
(** The expected sum score on the axis of two variables: never a figure. *)
Theorem C95_expected_surface_refuted m em expected data chosen c v w : pc_vars c = [v; w] ->
  forall fig, log_likelihood_plot m em expected data chosen true c <> Ok fig.
Proof.
  intros Hc fig. unfold log_likelihood_plot. destruct (plot_checks _ _); [|discriminate]. cbn [bind].
  destruct (plot_grid _ _ _) as [grid|]; [|discriminate]. cbn [bind]. rewrite Hc. unfold latent_indices. cbn [mapM].
  destruct (norm_index _ (v - 1)); [|discriminate]. cbn [bind]. destruct (norm_index _ (w - 1)); [|discriminate]. cbn [bind].
  destruct (expected grid); [|discriminate]. cbn [rmap bind]. destruct (drawn_log_likelihood _ _ _ _); discriminate.
Qed.
Print Assumptions C95_expected_surface_refuted.
(** The mark "Observed sum score" is the sum of the codes of all answers. *)
Theorem C95_observed_mark data (z : nat -> Z) : (forall i, (i < length data)%nat -> nth_error data i = Some (Some (z i))) ->
  observed_mark data = Some (fold_right Z.add 0%Z (map z (seq 0 (length data)))).
Proof.
  assert (G : forall l a, (forall c, In c l -> c <> None) ->
    fold_left (fun a c => match a, c with Some x, Some y => Some (x + y)%Z | _, _ => None end) l (Some a) =
    Some (a + fold_right Z.add 0 (map (fun c => match c with Some y => y | None => 0 end) l))%Z).
  { induction l as [|c l IH]; intros a H; cbn [fold_left map fold_right]; [f_equal; lia|]. destruct c as [y|]; [|elim (H None (or_introl eq_refl)); reflexivity].
    rewrite IH by (intros c Hc; apply H; now right). f_equal. lia. }
  intro H. unfold observed_mark. rewrite G.
  - f_equal. rewrite Z.add_0_l. f_equal. apply nth_error_ext. intro i. rewrite nth_error_map. destruct (Nat.lt_ge_cases i (length data)) as [L|L].
    + rewrite (H i L), nth_error_map, nth_error_seq by exact L. reflexivity.
    + rewrite (proj2 (nth_error_None data i) L). symmetry. apply nth_error_None. rewrite map_length, seq_length. exact L.
  - intros c Hc X. subst c. apply In_nth_error in Hc. destruct Hc as [i Hi]. assert (L : (i < length data)%nat) by (apply nth_error_Some; congruence). rewrite (H i L) in Hi. discriminate.
Qed.
Print Assumptions C95_observed_mark.
(** It is not the score under an answer key: with two items of four categories and key 0, 0 the answers 3, 3 score zero and
    no pattern scores more than two; the mark is at six.  A missing answer coded -1 counts -1. *)
Theorem C95_observed_score_refuted : let score (key : list Z) (data : list cell) := length (filter (fun kc => match snd kc with Some z => Z.eqb (fst kc) z | None => false end) (combine key data)) in
  legal_row [4; 4]%nat [Some 3; Some 3]%Z /\ score [0; 0]%Z [Some 3; Some 3]%Z = 0%nat /\ (forall data, score [0; 0]%Z data <= 2)%nat /\
  observed_mark [Some 3; Some 3]%Z = Some 6%Z /\
  legal_row [4; 4]%nat [Some 3; Some (-1)]%Z /\ observed_mark [Some 3; Some (-1)]%Z = Some 2%Z.
Proof.
  intro score. assert (L : forall c, c = Some (-1)%Z \/ c = Some 3%Z -> legal_row [4; 4]%nat [Some 3%Z; c]).
  { intros c Hc. split; [reflexivity|]. intros i x Hx. destruct i as [|[|i]]; cbn in Hx.
    - injection Hx as <-. right. right. exists 3%nat. split; [reflexivity|cbn; lia].
    - injection Hx as <-. right. destruct Hc as [->| ->]; [now left|]. right. exists 3%nat. split; [reflexivity|cbn; lia].
    - destruct i; discriminate. }
  split; [apply L; now right|]. split; [reflexivity|]. split.
  { intro data. unfold score. etransitivity; [apply filter_le|]. rewrite combine_length. cbn [length]. lia. }
  split; [reflexivity|]. split; [apply L; now left|]. reflexivity.
Qed.
Print Assumptions C95_observed_score_refuted.
Example C95_nonvacuous : exists m em p c src lo hi fix_, has_probabilities em p /\ em_lv em = pl_dim m /\ legal_row (em_cats em) [Some 1%Z] /\
  all_seen [Some 1%Z] (named (em_items em) (Some [1%Z])) = true /\ items_named (em_items em) [1%Z] /\ pc_vars c = [1%Z] /\
  scores_source m (pc_rescale c) src /\ range_is src 0 (pc_range c) lo hi /\ fixed_are src 1 [0%nat] (pc_fixed c) fix_ /\ pl_dim m = 1%nat /\ shows m (pc_rescale c) (fun t => t) /\
  (legal_row (em_cats em) [None] /\ exists j, In j (named (em_items em) None) /\ seen [[None]] 0 j = false).
Proof.
  set (md := {| opl_items := 1; opl_b := [0] |}). assert (L : library_model (of_sub (opl_sub 1 md)) (opl_p md)) by (apply lib_opl; [reflexivity|cbn; lia]).
  exists (PModel 1 [] None), (of_sub (opl_sub 1 md)), (opl_p md), (PCall [1%Z] None None None None false), None, (-3), 3, (fun _ => 0).
  split; [now apply library_has_probabilities|]. split; [reflexivity|]. split.
  { split; [reflexivity|]. intros [|i] c H; [|destruct i; discriminate H]. injection H as <-. right; right. exists 1%nat. cbn. split; [reflexivity|lia]. }
  split; [reflexivity|]. split; [repeat constructor; cbn; lia|]. split; [reflexivity|]. split; [reflexivity|]. split; [split; reflexivity|]. split; [intros j _; reflexivity|].
  split; [reflexivity|]. split; [right; split; [now left|reflexivity]|]. split.
  - split; [reflexivity|]. intros [|i] c H; [|destruct i; discriminate H]. injection H as <-. now left.
  - exists 0%nat. split; [now left|reflexivity].
Qed.

(** * C96: training history and score distribution figures *)
(** A recorded history: both losses are drawn, each value once, numbered from one; a list that is empty or was not
    recorded is left out. *)
Theorem C96_history train valid rest : (train <> [] \/ valid <> []) ->
  history_plot (("train_loss", train) :: ("validation_loss", valid) :: rest)%string =
  Ok ((match train with [] => [] | _ => [("Training"%string, map (fun k => (S k, nth k train 0)) (seq 0 (length train)))] end) ++
      (match valid with [] => [] | _ => [("Validation"%string, map (fun k => (S k, nth k valid 0)) (seq 0 (length valid)))] end)).
Proof.
  assert (N : forall l : list R, combine (seq 1 (length l)) l = map (fun k => (S k, nth k l 0)) (seq 0 (length l))).
  { intro l. apply nth_error_ext. intro k. destruct (Nat.lt_ge_cases k (length l)) as [L|L].
    - rewrite nth_error_map, nth_error_seq by exact L. cbn [option_map Nat.add]. apply nth_error_combine_some; [rewrite nth_error_seq by exact L; reflexivity|now apply nth_error_nth_lt].
    - rewrite (proj2 (nth_error_None _ _)) by (rewrite combine_length, seq_length; lia). symmetry. apply nth_error_None. rewrite map_length, seq_length. exact L. }
  intro H. unfold history_plot. cbn [find fst snd String.eqb Ascii.eqb Bool.eqb forallb].
  assert (E : ((length train =? 0)%nat && ((length valid =? 0)%nat && forallb (fun kv => (length (snd kv) =? 0)%nat) rest))%bool = false).
  { destruct train; [destruct valid; [destruct H; congruence|reflexivity]|reflexivity]. }
  rewrite E. destruct train as [|a train]; destruct valid as [|b valid]; [destruct H; congruence| | |]; cbn [app]; rewrite !N; reflexivity.
Qed.
Print Assumptions C96_history.
(** Refused: a history without any loss, and one without these two lists. *)
Theorem C96_history_refused history :
  ((forall key losses, In (key, losses) history -> losses = []) -> history_plot history = Err AttributeError) /\
  ((exists key losses, In (key, losses) history /\ losses <> []) ->
   (forall losses, In ("train_loss"%string, losses) history -> losses = []) -> (forall losses, In ("validation_loss"%string, losses) history -> losses = []) ->
   history_plot history = Err ValueError).
Proof.
  split.
  - intro H. unfold history_plot. rewrite (proj2 (forallb_forall _ history)); [reflexivity|]. intros [k l] Hin. cbn [snd]. now rewrite (H k l Hin).
  - intros (k & l & Hin & NE) H1 H2. unfold history_plot.
    assert (E : forallb (fun kv : string * list R => (length (snd kv) =? 0)%nat) history = false).
    { apply Bool.not_true_is_false. intro X. rewrite forallb_forall in X. specialize (X _ Hin). cbn [snd] in X. apply Nat.eqb_eq in X. destruct l; [congruence|discriminate]. }
    rewrite E. assert (F : forall key label, (forall losses, In (key, losses) history -> losses = []) ->
      match find (fun kv : string * list R => String.eqb (fst kv) key) history with
      | Some (_, ((_ :: _) as losses)) => [(label : string, combine (seq 1 (length losses)) losses)] | _ => [] end = []).
    { intros key label Hk. destruct (find _ history) as [[k' l']|] eqn:Ef; [|reflexivity]. apply find_some in Ef. destruct Ef as [Hi Hk']. apply String.eqb_eq in Hk'. cbn [fst] in Hk'. subst k'.
      now rewrite (Hk l' Hi). }
    cbv zeta. rewrite (F _ _ H1), (F _ _ H2). reflexivity.
Qed.
Print Assumptions C96_history_refused.
(** The distribution shown is that of the chosen variables' scores, respondent by respondent. *)
Theorem C96_distribution dim scores v : (1 <= v <= Z.of_nat dim)%Z ->
  (length scores <> 1%nat -> distribution_plot dim dim [v] scores = Ok (OneVariable (scores_on (Z.to_nat (v - 1)) scores))) /\
  (forall w, (1 <= w <= Z.of_nat dim)%Z -> (2 <= dim)%nat ->
     distribution_plot dim dim [v; w] scores = Ok (TwoVariables (map (fun t => (nth (Z.to_nat (v - 1)) t 0, nth (Z.to_nat (w - 1)) t 0)) scores))).
Proof.
  intro Hv. split.
  - intro H1. unfold distribution_plot. cbn [length]. change (2 <? 1)%nat with false. rewrite (proj2 (Nat.ltb_ge dim 1)) by lia. rewrite indices_one by exact Hv. cbn [bind].
    destruct scores as [|a [|b l]]; [reflexivity|elim H1; reflexivity|reflexivity].
  - intros w Hw HD. unfold distribution_plot. cbn [length]. change (2 <? 2)%nat with false. rewrite (proj2 (Nat.ltb_ge dim 2)) by lia. rewrite indices_two by assumption. cbn [bind].
    unfold column. now rewrite combine_map.
Qed.
Print Assumptions C96_distribution.
Theorem C96_distribution_refused dim cols vars scores : (2 < length vars)%nat \/ (dim < length vars)%nat -> distribution_plot dim cols vars scores = Err ValueError.
Proof.
  intro H. unfold distribution_plot. destruct (2 <? length vars)%nat eqn:E; [reflexivity|]. apply Nat.ltb_ge in E. destruct H as [H|H]; [lia|]. now rewrite (proj2 (Nat.ltb_lt _ _) H).
Qed.
Print Assumptions C96_distribution_refused.
(** What is not so: a variable the model does not have is no ValueError (the check of the number of variables stands there
    twice); zero and negative numbers count from the last; the scores of one respondent are refused. *)
Theorem C96_distribution_refuted dim scores v : (1 <= dim)%nat ->
  ((Z.of_nat dim < v)%Z -> distribution_plot dim dim [v] scores = Err IndexError) /\
  ((- Z.of_nat dim < v <= 0)%Z -> distribution_plot dim dim [v] scores = distribution_plot dim dim [(v + Z.of_nat dim)%Z] scores) /\
  (forall t, (1 <= v <= Z.of_nat dim)%Z -> distribution_plot dim dim [v] [t] = Err ValueError).
Proof.
  intro HD. unfold distribution_plot. cbn [length]. change (2 <? 1)%nat with false. rewrite (proj2 (Nat.ltb_ge dim 1)) by lia. cbv iota. split; [|split].
  - intro H. unfold latent_indices. cbn [mapM]. replace (norm_index dim (v - 1)) with (@None nat); [reflexivity|]. symmetry. unfold norm_index.
    destruct (_ && _)%bool eqn:E; [apply andb_prop in E; destruct E as [E1 E2]; apply Z.ltb_lt in E2; lia|].
    destruct (_ && _)%bool eqn:E' in |- *; [|reflexivity]. apply andb_prop in E'. destruct E' as [E1 E2]. apply Z.ltb_lt in E2. lia.
  - intro H. now rewrite (wrap_indices dim v H).
  - intros t H. rewrite indices_one by exact H. reflexivity.
Qed.
Print Assumptions C96_distribution_refuted.
Example C96_nonvacuous :
  history_plot [("train_loss", [3; 2]); ("validation_loss", [4])]%string = Ok [("Training", [(1%nat, 3); (2%nat, 2)]); ("Validation", [(1%nat, 4)])]%string /\
  history_plot [("train_loss", []); ("other", [1])]%string = Err ValueError /\
  distribution_plot 3 3 [2%Z; 1%Z] [[1; 2; 3]; [4; 5; 6]] = Ok (TwoVariables [(2, 1); (5, 4)]).
Proof. repeat split; reflexivity. Qed.
