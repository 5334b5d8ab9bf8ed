(** Model of the statistics of irtorch/_internal_utils.py (conditional_score_distribution,
    sum_incorrect_probabilities, entropy, joint_entropy_matrix, correlation_matrix), of imv in
    irtorch/utils.py, of sum_score_probabilities in irtorch/evaluator.py and of information in
    irtorch/models/base_irt_model.py.  Definitions only.  Floats are reals where NaN cannot occur, else
    extended reals with NaN = [None]. *)
From Verif Require Import Base RBase M_Logit M_Mono M_Lik M_Est.
Local Open Scope R_scope.

(** A Python loop that updates a value and may raise. _internal_utils.py:179-189. *)
Fixpoint foldM {A B} (f : B -> A -> result B) (l : list A) (b : B) : result B :=
  match l with [] => Ok b | a :: l' => bind (f b a) (foldM f l') end.

(** ** Sum-score distribution, _internal_utils.py:150-190 *)
(** [x[j : j+len(vals)] = vals + x[j : j+len(vals)]] and [x[: len(vals)] = vals].  A slice past the end is
    shorter than the right-hand side: RuntimeError.  Simplification: torch would broadcast a one-entry side. _internal_utils.py:186-189. *)
Definition add_slice (j : nat) (vals acc : list R) : result (list R) :=
  if (j + length vals <=? length acc)%nat
  then Ok (firstn j acc ++ zip_with Rplus vals (firstn (length vals) (skipn j acc)) ++ skipn (j + length vals) acc)
  else Err RuntimeError.
(** _internal_utils.py:176. *)
Definition set_prefix (vals acc : list R) : result (list R) :=
  if (length vals <=? length acc)%nat then Ok (vals ++ skipn (length vals) acc) else Err RuntimeError.
(** One row of the tensor: the probabilities of one quadrature point, padded rows per item (the code treats the
    rows independently).  [probs[item, :c]] must have c entries. _internal_utils.py:176 and 187. *)
Definition cat_probs (probs : list (list R)) (item c : nat) : result (list R) :=
  let p := firstn c (nth item probs []) in if (length p =? c)%nat then Ok p else Err RuntimeError.
(** [item_categories[item]], _internal_utils.py:176 and 185-188. *)
Definition cat_count (cats : list nat) (item : nat) : result nat :=
  match nth_error cats item with Some c => Ok c | None => Err IndexError end.
(** Lines 179-189. *)
Definition csd_item (cats : list nat) (probs : list (list R)) (ns : list R) (item : nat) : result (list R) :=
  bind (cat_count cats item) (fun c =>
  let item_max := (list_sum (firstn (S item) cats) - length (firstn (S item) cats))%nat in
  foldM (fun acc j =>
    bind (cat_probs probs item c) (fun p => add_slice j (map (fun x => nth j ns 0 * x) p) acc))
    (seq 0 (item_max + 2 - c)) (repeat 0 (length ns))).
(** _internal_utils.py:170-190. *)
Definition conditional_score_distribution (probs : list (list R)) (cats : list nat) : result (list R) :=
  let no_items := length probs in
  if (list_sum cats + 1 <? no_items)%nat then Err RuntimeError
  else
    let max_score := (list_sum cats - no_items)%nat in
    bind (cat_count cats 0) (fun c0 =>
    match probs with
    | [] => Err IndexError
    | _ =>
        bind (cat_probs probs 0 c0) (fun p0 =>
        bind (set_prefix p0 (repeat 0 (max_score + 1))) (fun ns =>
        foldM (csd_item cats probs) (seq 1 (no_items - 1)) ns))
    end).

(** ** Incorrect options, _internal_utils.py:193-232, one row; [key] entries are not negative. *)
Definition sum_incorrect_item (p : list R) (k : nat) : result (list R) :=
  match nth_error p k with
  | None => Err IndexError
  | Some c => Ok [rsum (firstn k p ++ skipn (S k) p); c]
  end.
(** [new_probs] starts as zeros with two columns for every item. _internal_utils.py:216-232. *)
Definition sum_incorrect_probabilities (probs : list (list R)) (item_responses : list nat) (key : list nat) : result (list (list R)) :=
  bind (mapM (fun item =>
    match nth_error key item, nth_error probs item with
    | Some k, Some p => sum_incorrect_item p k
    | _, _ => Err IndexError
    end) (seq 0 (length item_responses))) (fun rows =>
  Ok (rows ++ repeat [0; 0] (length probs - length rows))).

(** evaluator.py:823-839, from the item probabilities at the quadrature points (rows) and their weights. *)
Definition sum_score_probabilities (mc : option (list nat)) (cats : list nat) (rows : list (list (list R))) (weights : list R) : result (list R) :=
  bind (match mc with
        | Some key => mapM (fun probs => sum_incorrect_probabilities probs cats key) rows
        | None => Ok rows
        end) (fun rows' =>
  let cats' := match mc with Some _ => repeat 2%nat (length cats) | None => cats end in
  bind (mapM (fun probs => conditional_score_distribution probs cats') rows') (fun cond =>
  if (length weights =? length cond)%nat
  then Ok (map (fun s => rsum (zip_with (fun w d => nth s d 0 * w) weights cond)) (seq 0 (list_sum cats' - length cats' + 1)))
  else Err RuntimeError)).

(** ** Entropy, _internal_utils.py:235-260, of one distribution.  Simplification: log_base is not 1. *)
Definition entropy_eps : R := / 10000000000.
(** torch.allclose(s, 1): |s - 1| <= 1e-8 + 1e-5. *)
Definition close_to_one (s : R) : bool := if Rle_dec (Rabs (s - 1)) (/ 100000000 + / 100000) then true else false.
(** Lines 257-258. *)
Definition surprisal (log_base p : R) : fl :=
  match flog (Some (p + entropy_eps)) with
  | Some (Fin l) => Some (Fin (- l / ln log_base))
  | Some _ => Some (Fin 0)
  | None => None
  end.
(** _internal_utils.py:253-260. *)
Definition entropy (log_base : R) (p : list R) : result fl :=
  if close_to_one (rsum p) then Ok (fsum (map (fun x => fmul (Some (Fin x)) (surprisal log_base x)) p))
  else Err RuntimeError.

(** joint_entropy_matrix, _internal_utils.py:262-299.  Data cells are category numbers or missing. *)
Definition observed_pairs (i j : nat) (data : list (list (option nat))) : list (nat * nat) :=
  flat_map (fun row => match nth i row None, nth j row None with Some a, Some b => [(a, b)] | _, _ => [] end) data.
(** torch.unique over rows: the distinct pairs in lexicographic order. _internal_utils.py:293-295. *)
Definition pair_ltb (p q : nat * nat) : bool := (fst p <? fst q)%nat || ((fst p =? fst q)%nat && (snd p <? snd q)%nat).
(** _internal_utils.py:293-295. *)
Definition pair_eqb (p q : nat * nat) : bool := (fst p =? fst q)%nat && (snd p =? snd q)%nat.
(** _internal_utils.py:293-295. *)
Fixpoint insert_pair (p : nat * nat) (l : list (nat * nat)) : list (nat * nat) :=
  match l with
  | [] => [p]
  | q :: l' => if pair_eqb p q then l else if pair_ltb p q then p :: l else q :: insert_pair p l'
  end.
(** _internal_utils.py:293-295. *)
Definition unique_pairs (l : list (nat * nat)) : list (nat * nat) := fold_right insert_pair [] l.
(** The counts of _internal_utils.py:293-295. *)
Definition pair_count (l : list (nat * nat)) (p : nat * nat) : nat := length (filter (pair_eqb p) l).
(** Lines 290-297 for one pair of columns i <= j, padded to [combos] entries. *)
Definition pair_proportions (combos : nat) (data : list (list (option nat))) (i j : nat) : result (list R) :=
  let obs := observed_pairs i j data in
  if (1 <? length obs)%nat then
    let u := unique_pairs obs in
    if (length u <=? combos)%nat
    then Ok (map (fun p => INR (pair_count obs p) / INR (length obs)) u ++ repeat 0 (combos - length u))
    else Err RuntimeError
  else Ok (repeat 0 combos).
(** _internal_utils.py:283; the conversion of NaN to an integer is taken to be no larger than the categories. *)
Definition max_category (data : list (list (option nat))) : nat :=
  list_max (map (fun c : option nat => match c with Some k => k | None => O end) (concat data)).
(** _internal_utils.py:281-299. *)
Definition joint_entropy_matrix (log_base : R) (cols : nat) (data : list (list (option nat))) : result (list (list fl)) :=
  let combos := ((max_category data + 1) * (max_category data + 1))%nat in
  mapM (fun i => mapM (fun j =>
    bind (pair_proportions combos data (Nat.min i j) (Nat.max i j)) (entropy log_base)) (seq 0 cols)) (seq 0 cols).

(** ** Mutual information, evaluator.py:724-749.  Cells are category numbers or NaN (a -1 would count as a
    category: the mask of joint_entropy_matrix looks for NaN only). *)
(** [entropies.unsqueeze(-1) + entropies.unsqueeze(0) - joint]. *)
Definition mutual_matrix (ents : list fl) (joint : list (list fl)) : list (list fl) :=
  zip_with (fun a row => zip_with (fun b h => fsub (fadd a b) h) ents row) ents joint.
(** evaluator.py:724-727 and base_irt_model.py:642. *)
Definition diagonal (m : list (list fl)) : list fl := map (fun i => nth i (nth i m []) None) (seq 0 (length m)).
(** evaluator.py:724-727. *)
Definition data_mutual_information (log_base : R) (cols : nat) (data : list (list (option nat))) : result (list (list fl)) :=
  bind (joint_entropy_matrix log_base cols data) (fun m => Ok (mutual_matrix (diagonal m) m)).
(** [probs]: respondents x items x [m] categories. evaluator.py:732-746. *)
Definition mean_probabilities (m : nat) (probs : list (list (list R))) (i : nat) : list R :=
  map (fun k => rmean (map (fun r => nth k (nth i r []) 0) probs)) (seq 0 m).
(** evaluator.py:732-746. *)
Definition expected_pairs (m : nat) (probs : list (list (list R))) (i j : nat) : list R :=
  flat_map (fun k => map (fun l => rmean (map (fun r => nth k (nth i r []) 0 * nth l (nth j r []) 0) probs)) (seq 0 m)) (seq 0 m).
(** evaluator.py:732-746. *)
Definition expected_mutual_information (log_base : R) (items m : nat) (probs : list (list (list R))) : result (list (list fl)) :=
  bind (mapM (fun i => entropy log_base (mean_probabilities m probs i)) (seq 0 items)) (fun ents =>
  bind (mapM (fun i => mapM (fun j => entropy log_base (expected_pairs m probs i j)) (seq 0 items)) (seq 0 items)) (fun joint =>
  Ok (mutual_matrix ents joint))).
(** MID and AMID, lines 748-749. *)
Definition fabs (a : fl) : fl := match a with Some (Fin x) => Some (Fin (Rabs x)) | Some _ => Some PInf | None => None end.
(** evaluator.py:748. *)
Definition mid (data expected : list (list fl)) : list (list fl) := zip_with (zip_with fsub) data expected.
(** evaluator.py:749. *)
Definition amid (data expected : list (list fl)) : list (list fl) := map (map fabs) (mid data expected).

(** ** p-values for one pair of items, evaluator.py:773-778 (AMID) and 914-920 (Q3) *)
(** Comparisons of floats: false when either side is NaN. Used for evaluator.py:773-778 and 914-920. *)
Definition ext_ltb (a b : ext) : bool :=
  match a, b with
  | Fin x, Fin y => if Rlt_dec x y then true else false
  | NInf, NInf | PInf, _ | _, NInf => false
  | _, _ => true
  end.
(** [<], evaluator.py:773-778 and 914-920. *)
Definition flt (a b : fl) : bool := match a, b with Some x, Some y => ext_ltb x y | _, _ => false end.
(** [>=], evaluator.py:914-920. *)
Definition fge (a b : fl) : bool := match a, b with Some x, Some y => negb (ext_ltb x y) | _, _ => false end.
(** [.sum()] of a boolean tensor, evaluator.py:773-778 and 914-920. *)
Definition count_true (l : list bool) : nat := length (filter (fun b => b) l).
(** A mean over the samples; NaN when there are none, evaluator.py:773-778 and 914-920. *)
Definition ratio (a b : nat) : option R := if (b =? 0)%nat then None else Some (INR a / INR b).
(** evaluator.py:773-778. *)
Definition amid_p_value (i j : nat) (samples : list fl) (obs : fl) : option R :=
  if (i =? j)%nat then None else ratio (count_true (map (fun s => flt obs s) samples)) (length samples).
(** evaluator.py:914-920. *)
Definition q3_p_value (i j : nat) (samples : list fl) (obs : fl) : option R :=
  if (i =? j)%nat then None
  else ratio (Nat.min (count_true (map (fun s => flt s obs) samples)) (count_true (map (fun s => fge s obs) samples)) * 2) (length samples).

(** ** Correlations, _internal_utils.py:27-82; cells are numbers or NaN *)
Definition cells_complete (x : list (list (option R))) : bool := forallb (forallb (fun c : option R => match c with Some _ => true | None => false end)) x.
(** A cell of complete data, _internal_utils.py:45-51. *)
Definition present (c : option R) : R := match c with Some r => r | None => 0 end.
(** Lines 46-51: [x] has at least two rows (0/0 otherwise). *)
Definition sd (l : list R) : R := sqrt (rsum (map (fun a => (a - rmean l) ^ 2) l) / (INR (length l) - 1)).
(** _internal_utils.py:45-51. *)
Definition corr_complete (x : list (list (option R))) (i j : nat) : fl :=
  let a := map present (column None i x) in let b := map present (column None j x) in
  if (length x <=? 1)%nat then None
  else fdiv (Some (Fin (rsum (zip_with (fun u v => (u - rmean a) * (v - rmean b)) a b) / (INR (length x) - 1))))
            (Some (Fin (sd a * sd b))).
(** Lines 53-64: centring at the mean of all observed values of the column, missing cells 0. *)
Definition observed (l : list (option R)) : list R := flat_map (fun c : option R => match c with Some r => [r] | None => [] end) l.
(** _internal_utils.py:53-56. *)
Definition centred (l : list (option R)) : list R :=
  map (fun c : option R => match c with Some r => r - rmean (observed l) | None => 0 end) l.
(** _internal_utils.py:61 and 72. *)
Definition both_present (a b : list (option R)) : list (R * R) :=
  flat_map (fun '(u, v) => match (u : option R), (v : option R) with Some r, Some s => [(r, s)] | _, _ => [] end) (combine a b).
(** _internal_utils.py:58-64. *)
Definition cov_missing (a b : list (option R)) : R :=
  let n := length (both_present a b) in
  rsum (zip_with Rmult (centred a) (centred b)) / (if (1 <? n)%nat then INR n - 1 else 1).
(** Lines 66-82. *)
Definition corr_missing (x : list (list (option R))) (i j : nat) : fl :=
  if (i =? j)%nat then Some (Fin 1)
  else
    let a := column None (Nat.min i j) x in let b := column None (Nat.max i j) x in
    let v := both_present a b in
    if (1 <? length v)%nat
    then fdiv (Some (Fin (cov_missing a b))) (Some (Fin (sd (map fst v) * sd (map snd v))))
    else Some (Fin 0).
(** _internal_utils.py:27-82. *)
Definition correlation_matrix (cols : nat) (x : list (list (option R))) : list (list fl) :=
  map (fun i => map (fun j => if cells_complete x then corr_complete x i j else corr_missing x i j) (seq 0 cols)) (seq 0 cols).

(** ** InterModel Vigorish, utils.py:442-457 and 432-440 *)
Definition imv_lo : R := 1 / 2 + / 1000000.
(** The bounds of the weights, utils.py:442-457. *)
Definition imv_hi : R := 1 - / 1000000.
(** utils.py:442-457. *)
Definition clamp (lo hi x : R) : R := Rmin (Rmax x lo) hi.
(** One step for one entry: the new weight and |delta|.  [w] stays inside (1/2, 1), so the logarithms are
    finite; the entropy may be infinite.  NaN entries stay NaN. *)
Definition coin (w : R) : R := w * ln w + (1 - w) * ln (1 - w).
(** utils.py:442-457. *)
Definition imv_step (e : fl) (w : option R) : option R * fl :=
  match w, e with
  | Some v, Some (Fin l) =>
      let fx := coin v - l in
      let fpx0 := ln v - ln (1 - v) in
      let fpx := if Req_EM_T fpx0 0 then / 1000000 else fpx0 in
      let delta := - fx / fpx in
      (Some (clamp imv_lo imv_hi (v + delta)), Some (Fin (Rabs delta)))
  | Some v, Some NInf => (Some imv_lo, Some PInf)
  | Some v, Some PInf => (Some imv_hi, Some PInf)
  | _, _ => (None, None)
  end.
(** The test of convergence, utils.py:442-457. *)
Definition fltb (a : fl) (r : R) : bool :=
  match a with Some (Fin x) => if Rlt_dec x r then true else false | Some NInf => true | _ => false end.
(** utils.py:442-457. *)
Fixpoint imv_loop (n : nat) (es : list fl) (ws : list (option R)) : list (option R) :=
  match n with
  | O => ws
  | S n' =>
      let steps := zip_with imv_step es ws in
      let ws' := map fst steps in
      if fltb (fmax (map snd steps)) (/ 1000000) then ws' else imv_loop n' es ws'
  end.
(** utils.py:442-457. *)
Definition imv_newton_raphson (max_iter : nat) (es : list fl) : list (option R) :=
  imv_loop max_iter es (map (fun _ => Some (3 / 4)) es).
(** The metric from the two mean log-likelihoods. utils.py:432-440. *)
Definition imv (max_iter : nat) (l1 l2 : fl) : option R :=
  match imv_newton_raphson max_iter [l1; l2] with
  | [Some a; Some b] => Some ((b - a) / a)
  | _ => None
  end.

(** ** Information, models/base_irt_model.py:392-464, at one point of the latent space *)
(** [p] the category probabilities of one item, [g] their gradients; 451-454 with nansum over categories. *)
Definition item_information (lv : nat) (p : list R) (g : list (list R)) : list (list fl) :=
  map (fun i => map (fun j =>
    fnansum (zip_with (fun q d => fdiv (Some (Fin (nth i d 0 * nth j d 0))) (Some (Fin q))) p g)) (seq 0 lv)) (seq 0 lv).
(** Lines 456-459: one number per item. *)
Definition direction_information (cosines : list R) (m : list (list fl)) : fl :=
  fsum (zip_with (fun c row => fsum (zip_with (fun d x => fmul (fmul (Some (Fin c)) x) (Some (Fin d))) cosines row)) cosines m).
(** [nansum(dim=1)] over items, base_irt_model.py:464. *)
Definition add_matrices (lv : nat) (ms : list (list (list fl))) : list (list fl) :=
  map (fun i => map (fun j => fnansum (map (fun m => nth j (nth i m []) None) ms)) (seq 0 lv)) (seq 0 lv).
(** The result of base_irt_model.py:455-464, matrices or numbers. *)
Inductive info := Matrices (ms : list (list (list fl))) | Numbers (xs : list fl).
(** base_irt_model.py:443-464. *)
Definition information (lv : nat) (degrees : option (list R)) (item : bool) (probs : list (list R)) (grads : list (list (list R))) : result info :=
  if (match degrees with Some ds => negb (length ds =? lv)%nat | None => false end) then Err ValueError
  else
    let ms := zip_with (item_information lv) probs grads in
    match degrees with
    | Some ds =>
        if (1 <? lv)%nat then
          let xs := map (direction_information (map (fun d => cos (d * PI / 180)) ds)) ms in
          Ok (Numbers (if item then xs else [fnansum xs]))
        else Ok (Matrices (if item then ms else [add_matrices lv ms]))
    | None => Ok (Matrices (if item then ms else [add_matrices lv ms]))
    end.
