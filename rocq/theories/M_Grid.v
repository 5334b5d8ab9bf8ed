(** Model of irtorch/latent_variable_functions.py, irtorch/quantile_mv_normal.py, irtorch/outlier_detector.py,
    irtorch/rescale/rank_cdf.py and irtorch/rescale/bit.py.  Definitions only.  Simplification throughout:
    floats are reals without NaN unless the type says otherwise. *)
From Verif Require Import Base RBase M_Logit M_Mono M_Lik M_Est M_Stat.
Local Open Scope R_scope.

(** ** Sorting.  torch.sort and torch.argsort; ties keep their order (torch promises no order for ties). *)
(** latent_variable_functions.py:30, rescale/bit.py:460, rescale/rank_cdf.py:65. *)
Fixpoint insert_by {A} (leb : A -> A -> bool) (x : A) (l : list A) : list A :=
  match l with [] => [x] | y :: l' => if leb x y then x :: l else y :: insert_by leb x l' end.
(** latent_variable_functions.py:30, rescale/bit.py:460. *)
Definition sort_by {A} (leb : A -> A -> bool) (l : list A) : list A := fold_right (insert_by leb) [] l.
(** (value, original index) pairs in order of the values. rescale/bit.py:460 (values and sorted_indices). *)
Definition sort_indexed {A} (leb : A -> A -> bool) (l : list A) : list (A * nat) :=
  sort_by (fun p q => leb (fst p) (fst q)) (combine l (seq 0 (length l))).
(** latent_variable_functions.py:81, the inner argsort; evaluator.py:576. *)
Definition argsort_r (l : list R) : list nat := map snd (sort_indexed rleb l).
(** latent_variable_functions.py:81, the outer argsort; rescale/bit.py:481. *)
Definition argsort_n (l : list nat) : list nat := map snd (sort_indexed Nat.leb l).
(** torch.unique of reals: the distinct values in increasing order, and the position of a value. rescale/bit.py:465, rescale/rank_cdf.py:69. *)
Fixpoint insert_unique (x : R) (l : list R) : list R :=
  match l with
  | [] => [x]
  | y :: l' => if Req_EM_T x y then l else if Rlt_dec x y then x :: l else y :: insert_unique x l'
  end.
(** rescale/bit.py:465, rescale/rank_cdf.py:69. *)
Definition unique_r (l : list R) : list R := fold_right insert_unique [] l.
(** return_inverse, rescale/bit.py:465 and rescale/rank_cdf.py:69. *)
Fixpoint position (x : R) (l : list R) : nat :=
  match l with [] => O | y :: l' => if Req_EM_T x y then O else S (position x l') end.

(** ** Interpolation, latent_variable_functions.py:6-61 *)
(** Lines 30-32. *)
Definition sort_points (xs ys : list R) : list (R * R) := sort_by (fun p q => rleb (fst p) (fst q)) (combine xs ys).
(** torch.searchsorted (left): the number of entries below [x]; [x] is sorted. latent_variable_functions.py:42. *)
Definition searchsorted (l : list R) (x : R) : nat := ctrue (map (fun a => negb (rleb x a)) l).
(** [y[indices - 1]]: index -1 is the last entry. latent_variable_functions.py:45-48. *)
Definition before {A} (d : A) (l : list A) (k : nat) : A := match k with O => nth (length l - 1) l d | S k' => nth k' l d end.
(** torch.lerp, line 48. *)
Definition flerp (a b : R) (w : fl) : fl := fadd (Some (Fin a)) (fmul w (Some (Fin (b - a)))).
(** The divisions of lines 45 and 53-54. *)
Definition fdivr (a b : R) : fl := fdiv (Some (Fin a)) (Some (Fin b)).
(** One new value.  torch.lerp is start + weight * (end - start). latent_variable_functions.py:40-48. *)
Definition interp_inside (xs ys : list R) (v : R) : result fl :=
  let k := searchsorted xs v in
  match nth_error xs k, nth_error ys k with
  | Some xk, Some yk => Ok (flerp (before 0 ys k) yk (fdivr (v - before 0 xs k) (xk - before 0 xs k)))
  | _, _ => Err IndexError
  end.
(** Lines 51-59. *)
Definition interp_outside (xs ys : list R) (v : R) : result fl :=
  let n := length xs in
  if (n <? 2)%nat then Err IndexError
  else
    let x i := nth i xs 0 in let y i := nth i ys 0 in
    let left_slope := fdivr (y 1%nat - y 0%nat) (x 1%nat - x 0%nat) in
    let right_slope := fdivr (y (n - 1)%nat - y (n - 2)%nat) (x (n - 1)%nat - x (n - 2)%nat) in
    Ok (if Rlt_dec v (x 0%nat)
        then fadd (Some (Fin (y 0%nat))) (fmul left_slope (Some (Fin (v - x 0%nat))))
        else fadd (Some (Fin (y (n - 1)%nat))) (fmul right_slope (Some (Fin (v - x (n - 1)%nat))))).
(** Lines 25-61; more ordinates than abscissas are not an error in the code, unequal lengths are not modelled further. *)
Definition interp (news xs ys : list R) : result (list fl) :=
  if (length xs =? length ys)%nat then
    let pts := sort_points xs ys in
    let sx := map fst pts in let sy := map snd pts in
    match sx with
    | [] => Err IndexError
    | x0 :: _ => mapM (fun v => if rleb x0 v && rleb v (nth (length sx - 1) sx 0) then interp_inside sx sy v else interp_outside sx sy v) news
    end
  else Err IndexError.
(** quantile_transform of one column, 64-89; [icdf] is the normal quantile function. Line 81. *)
Definition ranks (l : list R) : list nat := argsort_n (argsort_r l).
(** latent_variable_functions.py:78-89. *)
Definition quantile_transform (icdf : R -> R) (l : list R) : list R :=
  map (fun r => icdf (INR (r + 1) / INR (length l + 1))) (ranks l).
(** quantile_mv_normal.py:24-35 and 64-82 for one row of new data: the point at which the fitted normal density is
    evaluated. *)
Definition qmvn_point (icdf : R -> R) (lv : nat) (data : list (list R)) (row : list R) : result (list fl) :=
  mapM (fun i =>
    bind (interp [nth i row 0] (column 0 i data) (quantile_transform icdf (column 0 i data))) (fun r =>
    match r with [v] => Ok v | _ => Err RuntimeError end)) (seq 0 lv).

(** ** Outlier detector, outlier_detector.py *)
(** Assigning an attribute, 33-35: [value < 1] is false for NaN. The names an attribute may have, outlier_detector.py:33. *)
Inductive attribute := Factor | Other.
(** outlier_detector.py:33-35. *)
Definition set_attribute (factor : fl) (a : attribute) (v : fl) : fl * result unit :=
  match a with
  | Other => (factor, Ok tt)
  | Factor => if flt v (Some (Fin 1)) then (factor, Err ValueError) else (v, Ok tt)
  end.
(** outlier_detector.py:20, through 33-35. *)
Definition detector_new (v : fl) : result fl := if flt v (Some (Fin 1)) then Err ValueError else Ok v.
(** torch.quantile at q/4 with linear interpolation: position q (n-1) / 4 in the sorted column. outlier_detector.py:62, 108 and 148. *)
Definition quartile (q : nat) (l : list R) : result R :=
  match l with
  | [] => Err RuntimeError
  | _ =>
      let s := sort_r l in
      let p := (q * (length l - 1))%nat in
      let k := (p / 4)%nat in let r := (p mod 4)%nat in
      let lo := nth k s 0 in let hi := nth (if (r =? 0)%nat then k else k + 1) s 0 in
      Ok (lo + INR r / 4 * (hi - lo))
  end.
(** outlier_detector.py:62-67, 108-113 and 148-153. *)
Definition fences (factor : R) (col : list R) : result (R * R) :=
  bind (quartile 1 col) (fun q1 => bind (quartile 3 col) (fun q3 =>
  let iqr := q3 - q1 in Ok (q1 - factor * iqr, q3 + factor * iqr))).
(** outlier_detector.py:70-74 and 116-120. *)
Definition outside (upper lower : bool) (f : R * R) (x : R) : bool :=
  (lower && negb (rleb (fst f) x)) || (upper && negb (rleb x (snd f))).
(** identify_outliers 55-76 and is_outlier 99-122 for one column (the columns are independent). *)
Definition is_outlier (factor : R) (news col : list R) (upper lower : bool) : result (list bool) :=
  if negb upper && negb lower then Err ValueError
  else bind (fences factor col) (fun f => Ok (map (outside upper lower f) news)).
(** outlier_detector.py:55-76. *)
Definition identify_outliers (factor : R) (col : list R) (upper lower : bool) : result (list bool) := is_outlier factor col col upper lower.
(** Number of columns: is_outlier, line 102. *)
Definition columns_match (data_cols new_cols : nat) : result unit := if (data_cols =? new_cols)%nat then Ok tt else Err ValueError.
(** smallest_largest_non_outlier, 143-163: infinite when nothing is inside. torch.min, outlier_detector.py:161. *)
Definition ext_min (a b : ext) : ext := if ext_ltb b a then b else a.
(** torch.max, outlier_detector.py:161. *)
Definition ext_max (a b : ext) : ext := if ext_ltb a b then b else a.
(** outlier_detector.py:143-163, for one column. *)
Definition limit_non_outlier (factor : R) (col : list R) (smallest : bool) : result ext :=
  bind (fences factor col) (fun f =>
  let masked := map (fun x => if rleb (fst f) x && rleb x (snd f) then Fin x else if smallest then PInf else NInf) col in
  Ok (if smallest then fold_right ext_min PInf masked else fold_right ext_max NInf masked)).

(** ** RankCDF, rescale/rank_cdf.py *)
(** Number of distributions, 46-59; [None] is the default. *)
Definition rank_distributions {D} (normal : D) (lv : nat) (ds : option (list D)) : result (list D) :=
  match ds with
  | None => Ok (repeat normal lv)
  | Some ds =>
      if negb (lv =? length ds)%nat && negb (length ds =? 1)%nat then Err ValueError
      else match ds with [d] => Ok (repeat d lv) | _ => Ok ds end
  end.
(** Lines 64-78 for one column: rank sums and counts scattered over the distinct values. *)
Definition rank_table (col : list R) : list (R * R) :=
  let s := sort_r col in
  let u := unique_r s in
  let inverse := map (fun x => position x u) s in
  let at_group := fun g (w : nat -> R) => rsum (mapi (fun k h => if (h =? g)%nat then w k else 0) inverse) in
  mapi (fun g v => (v, at_group g (fun k => INR (k + 1)) / at_group g (fun _ => 1))) u.
(** torch.argmin: the first minimal entry. rescale/rank_cdf.py:100. *)
Fixpoint argmin_from (i bi : nat) (b : R) (l : list R) : nat :=
  match l with [] => bi | a :: l' => if Rlt_dec a b then argmin_from (S i) i a l' else argmin_from (S i) bi b l' end.
(** rescale/rank_cdf.py:100. *)
Definition argmin (l : list R) : result nat := match l with [] => Err IndexError | a :: l' => Ok (argmin_from 1 0 a l') end.
(** Lines 98-104 for one value: the rank divided by n + 1. *)
Definition rank_fraction (col : list R) (x : R) : result R :=
  let t := rank_table col in
  bind (argmin (map (fun p => Rabs (fst p - x)) t)) (fun i => Ok (snd (nth i t (0, 0)) / INR (length col + 1))).
(** transform, 80-108, for one respondent; [icdfs] one quantile function per latent variable. *)
Definition rank_transform (data : list (list R)) (icdfs : list (R -> R)) (theta : list R) : result (list R) :=
  mapiM (fun j x =>
    match nth_error icdfs j with
    | Some q => bind (rank_fraction (column 0 j data) x) (fun f => Ok (q f))
    | None => Err IndexError
    end) theta.

(** ** Bit scale, rescale/bit.py *)
(** Constructor checks, 104-126.  [items_ok]: a list of integers; [start]: number of entries of start_theta. *)
Definition bit_check (grid_points : Z) (items_ok : bool) (lv : nat) (start : option nat) (mc_approx has_key : bool) : result unit :=
  if (grid_points <=? 0)%Z then Err ValueError
  else if negb items_ok then Err ValueError
  else match start with
       | Some n => if (n =? lv)%nat then Ok tt else Err ValueError
       | None => if mc_approx && negb has_key then Err ValueError else Ok tt
       end.
(** Direction of a variable, 504-513: [low], [high] the expected total scores at -1 and 1. *)
Definition invert_multiplier (low high : R) : R := if Rlt_dec high low then -1 else 1.
(** Adjusted scores, 159-160: multiplied by the direction and not below the adjusted start. *)
Definition adjust (mult start : list R) (theta : list R) : list R :=
  zip_with Rmax (zip_with Rmult theta mult) (zip_with Rmult start mult).
(** Grid boundaries from population scores, 534-542, all variables. *)
Definition grid_boundaries (population : list (list R)) (start : list R) : result (list (ext * ext)) :=
  let lv := length start in
  bind (mapM (fun j => bind (is_outlier 4 [nth j start 0] (column 0 j population) true true) (fun r => Ok (existsb (fun b => b) r))) (seq 0 lv)) (fun outs =>
  mapM (fun j =>
    let col := column 0 j population in
    bind (limit_non_outlier 4 col true) (fun small =>
    bind (limit_non_outlier 4 col false) (fun large =>
    Ok (if existsb (fun b => b) outs then ext_max (Fin (nth j start 0)) small else Fin (nth j start 0), large)))) (seq 0 lv)).
(** _compute_multi_dimensional_bit_scores, 449-483, for variable [j]: [ent] the entropies of the selected items at a
    point of the adjusted scale (the code multiplies the grid by the directions before calling the model).
    Lines 474-475 (415-420 in one dimension). *)
Definition absolute_changes (rows : list (list R)) : list (list R) :=
  match rows with
  | [] => []
  | r0 :: _ => map (fun _ => 0) r0 :: zip_with (zip_with (fun a b => Rabs (a - b))) rows (tl rows)
  end.
(** rescale/bit.py:449-458, one column. *)
Definition bit_grid (gp : nat) (lo hi start : R) (col : list R) : list R :=
  upd 0 start (map (fun g => Rmax g start) (map (fun r => (1 - r) * lo + r * hi) (linspace 0 1 gp) ++ col)).
(** rescale/bit.py:449-481, one latent variable. *)
Definition bit_scores_variable (ent : list R -> list R) (gp : nat) (medians : list R) (j : nat) (lo hi start : R) (col : list R) : list R :=
  let g := bit_grid gp lo hi start col in
  let sorted := sort_indexed rleb g in
  let u := unique_r (map fst sorted) in
  let inverse := map (fun x => position x u) (map fst sorted) in
  let entropies := map (fun v => ent (upd j v medians)) u in
  let scores := rcumsum (map rsum (absolute_changes entropies)) in
  let expanded := map (fun i => nth i scores 0) inverse in
  let unsorted := map (fun k => nth k expanded 0) (argsort_n (map snd sorted)) in
  skipn (length unsorted - length col) unsorted.
(** rescale/bit.py:463-483; columns of the result. *)
Definition bit_scores (ent : list R -> list R) (gp : nat) (medians start : list R) (bounds : list (R * R)) (thetas : list (list R)) : list (list R) :=
  map (fun j => bit_scores_variable ent gp medians j (fst (nth j bounds (0, 0))) (snd (nth j bounds (0, 0))) (nth j start 0) (column 0 j thetas))
    (seq 0 (length start)).
(** transform, 159-180, without population scores: bounds -7 and 7, medians 0; columns of the result. *)
Definition bit_transform (ent : list R -> list R) (gp : nat) (mult start : list R) (thetas : list (list R)) : list (list R) :=
  let lv := length start in
  bit_scores (fun t => ent (zip_with Rmult t mult)) gp (repeat 0 lv) (zip_with Rmult start mult) (repeat (-7, 7) lv) (map (adjust mult start) thetas).

(** _compute_1d_bit_scores, 382-421, for one respondent. Lines 382-399. *)
Definition grid_coordinate (gp k : nat) (r theta start lo hi : R) : R :=
  let capped := Rmin (Rmax theta lo) hi in
  let g := lo + r * (capped - lo) in
  let g := if Rlt_dec theta lo then theta else g in
  let g := Rmax g start in
  let g := if (k =? gp - 1)%nat then (if Rlt_dec hi theta then theta else g) else g in
  if (k =? 0)%nat then start else g.
(** rescale/bit.py:382-399. *)
Definition grid_path (gp : nat) (theta start : list R) (bounds : list (R * R)) : list (list R) :=
  mapi (fun k r => mapi (fun j t => grid_coordinate gp k r t (nth j start 0) (fst (nth j bounds (0, 0))) (snd (nth j bounds (0, 0)))) theta)
    (linspace 0 1 gp).
(** rescale/bit.py:401-421. *)
Definition bit_score_1d (ent : list R -> list R) (gp : nat) (theta start : list R) (bounds : list (R * R)) : R :=
  rsum (map rsum (absolute_changes (map ent (grid_path gp theta start bounds)))).

(** jacobian, 245-259, for one respondent and one latent variable: [probs] all items, [grads] all items, the gradients
    restricted to [items] and the probabilities not. [log2], line 251. *)
Definition flog2 (p : R) : fl := match flog (Some p) with Some (Fin l) => Some (Fin (l / ln 2)) | r => r end.
(** [:, self.items], rescale/bit.py:250. *)
Definition select {A} (items : list nat) (l : list A) : result (list A) :=
  mapM (fun i => match nth_error l i with Some x => Ok x | None => Err IndexError end) items.
(** The product of line 251 in rescale/bit.py. *)
Definition broadcast {A B} (a : list A) (b : list B) : result (list (A * B)) :=
  if (length a =? length b)%nat then Ok (combine a b)
  else match a, b with
       | [x], _ => Ok (map (fun y => (x, y)) b)
       | _, [y] => Ok (map (fun x => (x, y)) a)
       | _, _ => Err RuntimeError
       end.
(** rescale/bit.py:251-252. *)
Definition item_bit_gradient (p g : list R) : fl := fabs (fnansum (zip_with (fun q d => fmul (flog2 q) (Some (Fin d))) p g)).
(** rescale/bit.py:245-257. *)
Definition bit_jacobian (mult : R) (items : list nat) (probs grads : list (list R)) : result fl :=
  bind (select items grads) (fun gs =>
  bind (broadcast probs gs) (fun rows =>
  Ok (fmul (Some (Fin mult)) (fsum (map (fun '(p, g) => item_bit_gradient p g) rows))))).
