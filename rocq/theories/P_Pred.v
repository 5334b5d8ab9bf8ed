(** Conditional means as predictions. *)
From Verif Require Import Base BaseFacts RBase RFacts M_Data M_Logit S_Logit M_Lik M_Est S_Lik S_Est S_True P_True1 P_Cons1 P_Fit S_Pred.
Import List.
Local Open Scope R_scope.

Lemma over_swap {A B} (l : list A) (l' : list B) f : over l (fun x => over l' (fun y => f x y)) = over l' (fun y => over l (fun x => f x y)).
Proof.
  induction l as [|x l IH].
  - unfold over. cbn [map rsum]. induction l' as [|y l' IH]; cbn [map rsum]; [reflexivity|lra].
  - unfold over at 1. cbn [map rsum]. change (rsum (map (fun x0 => over l' (fun y => f x0 y)) l)) with (over l (fun x0 => over l' (fun y => f x0 y))). rewrite IH, <- over_plus. reflexivity.
Qed.
Lemma over_pos {A} (l : list A) f : l <> [] -> (forall x, In x l -> 0 < f x) -> 0 < over l f.
Proof.
  destruct l as [|x l]; [congruence|]. intros _ H. pose proof (over_term (x :: l) f x (fun y Hy => Rlt_le _ _ (H y Hy)) (or_introl eq_refl)). pose proof (H x (or_introl eq_refl)). lra.
Qed.
(** Forget the answers to the items not marked. *)
Definition forget (seen : list bool) (row : list cell) : list cell := zip_with (fun (b : bool) c => if b then c else None) seen row.
Lemma forget_law cats : forall seen seen' f (g : list cell -> R), length seen = length cats -> length seen' = length cats ->
  (forall i, nth i seen false = true -> nth i seen' false = true) -> (forall i, (i < length cats)%nat -> sumn (nth i cats O) (f i) = 1) ->
  over (possible_rows cats seen') (fun row => row_product f row * g (forget seen row)) = over (possible_rows cats seen) (fun row => row_product f row * g row).
Proof.
  induction cats as [|K cats IH]; intros [|b seen] [|b' seen'] f g L L' HS H1; try discriminate; [reflexivity|]. cbn [length] in L, L'.
  assert (J : forall h, over (possible_rows cats seen') (fun row => row_product (fun i => f (S i)) row * h (forget seen row)) = over (possible_rows cats seen) (fun row => row_product (fun i => f (S i)) row * h row)).
  { intro h. apply IH; [lia|lia|intros i Hi; exact (HS (S i) Hi)|intros i Hi; apply (H1 (S i)); cbn [length]; lia]. }
  cbn [possible_rows]. destruct b'.
  - rewrite over_flat, over_seq. destruct b.
    + rewrite over_flat, over_seq. apply sumn_ext. intros k _. rewrite !over_map.
      rewrite (over_ext _ _ (fun row => f 0%nat k * (row_product (fun i => f (S i)) row * g (Some (Z.of_nat k) :: forget seen row)))) by (intros; rewrite row_product_cons, answer_of_nat; cbn [forget zip_with]; unfold forget; ring).
      rewrite over_scal, (J (fun row => g (Some (Z.of_nat k) :: row))), <- over_scal. apply over_ext. intros row _. rewrite row_product_cons, answer_of_nat. ring.
    + rewrite over_map. rewrite (sumn_ext K _ (fun k => f 0%nat k * over (possible_rows cats seen) (fun row => row_product (fun i => f (S i)) row * g (None :: row)))).
      * rewrite sumn_scal_r. assert (Z := H1 0%nat ltac:(cbn; lia)). cbn [nth] in Z. rewrite Z, Rmult_1_l. apply over_ext. intros row _. rewrite row_product_cons. cbn [answer]. ring.
      * intros k _. rewrite over_map. rewrite <- (J (fun row => g (None :: row))), <- over_scal. apply over_ext. intros row _. rewrite row_product_cons, answer_of_nat. cbn [forget zip_with]. unfold forget. ring.
  - destruct b; [specialize (HS 0%nat eq_refl); discriminate|]. rewrite !over_map.
    rewrite (over_ext _ _ (fun row => row_product (fun i => f (S i)) row * g (None :: forget seen row))) by (intros; rewrite row_product_cons; cbn [answer forget zip_with]; unfold forget; ring).
    rewrite (J (fun row => g (None :: row))). apply over_ext. intros row _. rewrite row_product_cons. cbn [answer]. ring.
Qed.
Section prediction.
  Context (grid : list (list R)) (w : list R -> R) (p : list R -> nat -> nat -> R) (cats : list nat) (seen : list bool)
    (Hgrid : grid <> []) (Hw : forall t, In t grid -> 0 < w t) (HL : length seen = length cats)
    (Hp : forall t row, In t grid -> legal_row cats row -> 0 < likelihood p t row) (H1 : forall t i, In t grid -> (i < length cats)%nat -> sumn (nth i cats O) (p t i) = 1) (d : nat).
  Let rows := possible_rows cats seen.
  Let Z := over grid w.
  Lemma mass_pos : 0 < Z. Proof. apply over_pos; auto. Qed.
  Definition row_mass (row : list cell) : R := over grid (fun t => w t * likelihood p t row).
  Lemma row_mass_pos row : In row rows -> 0 < row_mass row.
  Proof. intro Hr. apply over_pos; [exact Hgrid|]. intros t Ht. apply Rmult_lt_0_compat; [now apply Hw|apply Hp; [exact Ht|now apply (rows_legal cats seen)]]. Qed.
  Lemma population_over f : on_population grid w p cats seen f = / Z * over grid (fun t => w t * over rows (fun row => likelihood p t row * f t row)).
  Proof. unfold on_population. fold (over grid). unfold Rdiv. rewrite Rmult_comm. reflexivity. Qed.
  Lemma population_rows f : on_population grid w p cats seen f = / Z * over rows (fun row => over grid (fun t => w t * (likelihood p t row * f t row))).
  Proof. rewrite population_over. f_equal. rewrite <- over_swap. apply over_ext. intros t _. now rewrite over_scal. Qed.
  Lemma population_plus f g : on_population grid w p cats seen (fun t row => f t row + g t row) = on_population grid w p cats seen f + on_population grid w p cats seen g.
  Proof. rewrite !population_rows, <- Rmult_plus_distr_l, <- over_plus. f_equal. apply over_ext. intros row _. rewrite <- over_plus. apply over_ext. intros; ring. Qed.
  Lemma population_scal c f : on_population grid w p cats seen (fun t row => c * f t row) = c * on_population grid w p cats seen f.
  Proof. rewrite !population_over. replace (c * (/ Z * over grid (fun t => w t * over rows (fun row => likelihood p t row * f t row)))) with (/ Z * (c * over grid (fun t => w t * over rows (fun row => likelihood p t row * f t row)))) by ring. f_equal. rewrite <- over_scal. apply over_ext. intros t _. replace (c * (w t * over rows (fun row => likelihood p t row * f t row))) with (w t * (c * over rows (fun row => likelihood p t row * f t row))) by ring. f_equal. rewrite <- over_scal. apply over_ext. intros; ring. Qed.
  Lemma population_ext f g : (forall t row, In t grid -> In row rows -> f t row = g t row) -> on_population grid w p cats seen f = on_population grid w p cats seen g.
  Proof. intro H. rewrite !population_over. f_equal. apply over_ext. intros t Ht. f_equal. apply over_ext. intros row Hr. now rewrite H. Qed.
  Lemma population_const c : on_population grid w p cats seen (fun _ _ => c) = c.
  Proof.
    rewrite population_over. rewrite (over_ext grid _ (fun t => c * w t)).
    - rewrite over_scal. fold Z. pose proof mass_pos. field. lra.
    - intros t Ht. rewrite (over_ext rows _ (fun row => c * likelihood p t row)) by (intros; ring). rewrite over_scal. assert (E : over rows (likelihood p t) = 1) by exact (rows_total cats seen (p t) HL (fun i => H1 t i Ht)). rewrite E. ring.
  Qed.
  Lemma population_nonneg f : (forall t row, In t grid -> In row rows -> 0 <= f t row) -> 0 <= on_population grid w p cats seen f.
  Proof.
    intro H. rewrite population_over. apply Rmult_le_pos; [apply Rlt_le, Rinv_0_lt_compat, mass_pos|]. apply over_nonneg. intros t Ht. apply Rmult_le_pos; [apply Rlt_le; auto|]. apply over_nonneg. intros row Hr. apply Rmult_le_pos; [|auto]. apply Rlt_le, Hp; [exact Ht|now apply (rows_legal cats seen)].
  Qed.
  (** Functions of the answers. *)
  Lemma population_answers f : on_population grid w p cats seen (fun _ row => f row) = / Z * over rows (fun row => row_mass row * f row).
  Proof. rewrite population_rows. f_equal. apply over_ext. intros row _. unfold row_mass. rewrite <- over_scal_r. apply over_ext. intros; ring. Qed.
  Lemma population_zero f : (forall row, 0 <= f row) -> on_population grid w p cats seen (fun _ row => f row) = 0 -> forall row, In row rows -> f row = 0.
  Proof.
    intros Hf E row Hr. rewrite population_answers in E. pose proof (Rinv_0_lt_compat _ mass_pos) as HZ. assert (E' : over rows (fun row => row_mass row * f row) = 0) by (apply (Rmult_eq_reg_l (/ Z)); [rewrite E; ring|lra]).
    assert (N : forall x, In x rows -> 0 <= row_mass x * f x) by (intros x Hx; apply Rmult_le_pos; [apply Rlt_le, row_mass_pos, Hx|apply Hf]).
    pose proof (over_term rows _ row N Hr) as T. cbv beta in T. rewrite E' in T. pose proof (row_mass_pos row Hr). pose proof (Hf row) as F. destruct F as [F|F]; [|auto]. pose proof (Rmult_lt_0_compat _ _ H F). lra.
  Qed.
  Let s (row : list cell) : R := posterior_mean p grid w row d.
  Lemma uncorrelated f : on_population grid w p cats seen (fun t row => (nth d t 0 - s row) * f row) = 0.
  Proof.
    rewrite population_rows. rewrite (over_ext rows _ (fun _ => 0)); [unfold over; induction rows as [|r l IH]; cbn [map rsum]; [ring|]; rewrite Rplus_0_l; exact IH|].
    intros row Hr. rewrite (over_ext grid _ (fun t => f row * (nth d t 0 * (w t * likelihood p t row)) - f row * s row * (w t * likelihood p t row))) by (intros; ring).
    rewrite over_minus, !over_scal. pose proof (row_mass_pos row Hr) as P. unfold s, posterior_mean. unfold row_mass, over in *. set (A := rsum (map (fun t => nth d t 0 * (w t * likelihood p t row)) grid)). set (B := rsum (map (fun t => w t * likelihood p t row) grid)) in *. field. lra.
  Qed.
  Lemma pythagoras f : squared_error grid w p cats seen d f = squared_error grid w p cats seen d s + on_population grid w p cats seen (fun _ row => (s row - f row) ^ 2).
  Proof.
    unfold squared_error. rewrite (population_ext _ (fun t row => (nth d t 0 - s row) ^ 2 + (2 * ((nth d t 0 - s row) * (s row - f row)) + (s row - f row) ^ 2))) by (intros; ring).
    rewrite population_plus, population_plus, population_scal, (uncorrelated (fun row => s row - f row)). ring.
  Qed.
  Lemma unbiased : on_population grid w p cats seen (fun _ row => s row) = on_population grid w p cats seen (fun t _ => nth d t 0).
  Proof.
    pose proof (uncorrelated (fun _ => 1)) as H. rewrite (population_ext _ (fun t row => nth d t 0 + -1 * s row)) in H by (intros; ring). rewrite population_plus, population_scal in H. lra.
  Qed.
  Lemma population_mean : on_population grid w p cats seen (fun t _ => nth d t 0) = over grid (fun t => nth d t 0 * w t) / Z.
  Proof.
    rewrite population_over. unfold Rdiv. rewrite Rmult_comm. f_equal. apply over_ext. intros t Ht.
    rewrite (over_ext rows _ (fun row => nth d t 0 * likelihood p t row)) by (intros; ring). rewrite over_scal. assert (E : over rows (likelihood p t) = 1) by exact (rows_total cats seen (p t) HL (fun i => H1 t i Ht)). rewrite E. ring.
  Qed.
End prediction.
(** More answers, smaller errors. *)
Lemma more_answers grid w p cats seen seen' d : grid <> [] -> (forall t, In t grid -> 0 < w t) -> length seen = length cats -> length seen' = length cats ->
  (forall t row, In t grid -> legal_row cats row -> 0 < likelihood p t row) -> (forall t i, In t grid -> (i < length cats)%nat -> sumn (nth i cats O) (p t i) = 1) ->
  (forall i, nth i seen false = true -> nth i seen' false = true) ->
  squared_error grid w p cats seen' d (fun row => posterior_mean p grid w row d) <= squared_error grid w p cats seen d (fun row => posterior_mean p grid w row d).
Proof.
  intros Hg Hw L L' Hp H1 HS. set (s := fun row => posterior_mean p grid w row d).
  assert (E : squared_error grid w p cats seen d s = squared_error grid w p cats seen' d (fun row => s (forget seen row))).
  { unfold squared_error, on_population. f_equal. fold (over grid). apply over_ext. intros t Ht. f_equal. symmetry. exact (forget_law cats seen seen' (p t) (fun row => (nth d t 0 - s row) ^ 2) L L' HS (fun i => H1 t i Ht)). }
  assert (P : squared_error grid w p cats seen' d (fun row => s (forget seen row)) = squared_error grid w p cats seen' d s + on_population grid w p cats seen' (fun _ row => (s row - s (forget seen row)) ^ 2)) by exact (pythagoras grid w p cats seen' Hg Hw L' Hp d (fun row => s (forget seen row))).
  rewrite E, P.
  assert (0 <= on_population grid w p cats seen' (fun _ row => (s row - s (forget seen row)) ^ 2)) by (apply population_nonneg; auto; intros; apply pow2_ge_0). lra.
Qed.
