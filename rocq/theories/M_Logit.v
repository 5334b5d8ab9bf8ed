(** Model of the parametric item response models (models/one_parameter_logistic.py,
    two_parameter_logistic.py, three_parameter_logistic.py, generalized_partial_credit.py,
    graded_response.py, nominal_response.py) and of probabilities_from_output, item_probabilities
    and expected_scores of models/base_irt_model.py.  Definitions only.
    Simplification throughout: floats are reals ([RBase.v]). *)
From Verif Require Import Base RBase.
Local Open Scope R_scope.

(** first_category, e.g. generalized_partial_credit.py:84-86, two_parameter_logistic.py:76-78:
    zeros(items, M); column 0 set to one; flattened. *)
Definition first_category (items M : nat) : list bool :=
  concat (map (upd 0 true) (repeat (repeat false M) items)).

(** missing_category, generalized_partial_credit.py:87-90 (graded_response.py:88-91,
    nominal_response.py:86-89): entries [item_cat:M] of each row set to one; flattened. *)
Definition missing_category (cats : list nat) (M : nat) : list bool :=
  concat (map (fun K => repeat false (Nat.min K M) ++ repeat true (M - K)) cats).

(** free_bias, generalized_partial_credit.py:91 (graded_response.py:92, nominal_response.py:94). *)
Definition free_bias (cats : list nat) (M : nat) : list bool :=
  zip_with (fun f m => negb f && negb m) (first_category (length cats) M) (missing_category cats M).

(** bias = zeros(output_size); bias[free_bias] = bias_param, generalized_partial_credit.py:116-117. *)
Definition full_bias (mask : list bool) (b : list R) : list R :=
  mask_scatter mask b (repeat 0 (length mask)).

(** weights = zeros(rows, lv); weights[free] = weight_param, generalized_partial_credit.py:119-120. *)
Definition weight_matrix (free : list (list bool)) (lv : nat) (w : list R) : list (list R) :=
  blocks lv (mask_scatter (concat free) w (repeat 0 (length free * lv))).

(** Constructor check of item_theta_relationships, e.g. generalized_partial_credit.py:64-70
    ([None] = all latent variables related to all items).  AssertionError is [OtherError]. *)
Definition relationships (items lv : nat) (rel : option (list (list bool))) : result (list (list bool)) :=
  match rel with
  | None => Ok (repeat (repeat true lv) items)
  | Some r =>
      if negb ((length r =? items)%nat && forallb (fun row => (length row =? lv)%nat) r) then Err ValueError
      else if negb (forallb (existsb (fun b : bool => b)) r) then Err OtherError
      else Ok r
  end.

(** probabilities_from_output, base_irt_model.py:186-201: reshape to blocks of M, softmax, reshape. *)
Definition probabilities_from_output (items M : nat) (output : list (list ext))
  : list (list (list (option R))) :=
  blocks items (map softmax (blocks M (concat output))).

(** ** One parameter logistic *)
(** State of OneParameterLogistic: number of items and bias_param (lines 44-68). *)
Record opl := { opl_items : nat; opl_b : list R }.
(** one_parameter_logistic.py:58-62. *)
Definition opl_free_bias (items : nat) : list bool := map negb (first_category items 2).
(** forward, one_parameter_logistic.py:70-89, for a column of abilities ([theta] is N x 1, added to
    the row of biases by broadcasting). *)
Definition opl_forward (m : opl) (thetas : list R) : list (list ext) :=
  let bias := full_bias (opl_free_bias (opl_items m)) (opl_b m) in
  map (fun t => set_mask (first_category (opl_items m) 2) (Fin 0) (map (fun b => Fin (t + b)) bias)) thetas.
(** base_irt_model.py:186-219 on the output of forward. *)
Definition opl_probabilities (m : opl) (thetas : list R) :=
  probabilities_from_output (opl_items m) 2 (opl_forward m thetas).
(** item_parameters, one_parameter_logistic.py:91-104: column d. *)
Definition opl_item_parameters (m : opl) : list R := opl_b m.

(** ** Two parameter logistic *)
(** State of TwoParameterLogistic: buffers and parameters, two_parameter_logistic.py:72-84. *)
Record tpl := { tpl_lv : nat; tpl_free : list (list bool); tpl_w : list R; tpl_b : list R }.
(** [self.items], base_irt_model.py:43, two_parameter_logistic.py:61. *)
Definition tpl_items (m : tpl) : nat := length (tpl_free m).
(** Constructor with reset_parameters, two_parameter_logistic.py:49-88. *)
Definition tpl_init (items lv : nat) (rel : option (list (list bool))) : result tpl :=
  rmap (fun free => {| tpl_lv := lv; tpl_free := free;
          tpl_w := repeat 1 (ctrue (concat free)); tpl_b := repeat 0 items |})
       (relationships items lv rel).
(** forward, two_parameter_logistic.py:90-114. *)
Definition tpl_forward (m : tpl) (thetas : list (list R)) : list (list ext) :=
  let n := tpl_items m in
  let bias := full_bias (map negb (first_category n 2)) (tpl_b m) in
  let weights := weight_matrix (tpl_free m) (tpl_lv m) (tpl_w m) in
  map (fun t =>
    let wt := repeat_interleave 2 (map (dot t) weights) in
    set_mask (first_category n 2) (Fin 0) (map Fin (zip_with Rplus wt bias))) thetas.
(** base_irt_model.py:186-219 on the output of forward. *)
Definition tpl_probabilities (m : tpl) (thetas : list (list R)) :=
  probabilities_from_output (tpl_items m) 2 (tpl_forward m thetas).
(** item_parameters, two_parameter_logistic.py:116-149: rows of slopes, and d or (irt_format) b.
    Simplification: division by a zero slope is Coq's [/], in torch it gives inf or NaN. *)
Definition tpl_item_parameters (m : tpl) (irt_format : bool) : result (list (list R) * list R) :=
  if irt_format && (1 <? tpl_lv m)%nat then Err ValueError
  else
    let weights := weight_matrix (tpl_free m) (tpl_lv m) (tpl_w m) in
    Ok (weights,
        if irt_format then zip_with (fun b a => - (b / nth 0 a 0)) (tpl_b m) weights else tpl_b m).

(** ** Three parameter logistic *)
(** State of ThreeParameterLogistic, three_parameter_logistic.py:74-80. *)
Record thpl := { thpl_lv : nat; thpl_free : list (list bool); thpl_w : list R; thpl_b : list R; thpl_g : list R }.
(** [self.items], base_irt_model.py:43, three_parameter_logistic.py:63. *)
Definition thpl_items (m : thpl) : nat := length (thpl_free m).
(** Constructor, three_parameter_logistic.py:51-85 (guessing_param = -1.1). *)
Definition thpl_init (items lv : nat) (rel : option (list (list bool))) : result thpl :=
  rmap (fun free => {| thpl_lv := lv; thpl_free := free;
          thpl_w := repeat 1 (ctrue (concat free)); thpl_b := repeat 0 items;
          thpl_g := repeat (- (11 / 10)) items |})
       (relationships items lv rel).
(** forward, three_parameter_logistic.py:87-111. *)
Definition thpl_forward (m : thpl) (thetas : list (list R)) : list (list R) :=
  let weights := weight_matrix (thpl_free m) (thpl_lv m) (thpl_w m) in
  map (fun t =>
    let probs := map logistic (zip_with Rplus (map (dot t) weights) (thpl_b m)) in
    let g := map logistic (thpl_g m) in
    zip_with Rplus (zip_with Rmult probs (map (fun c => 1 - c) g)) g) thetas.
(** probabilities_from_output, three_parameter_logistic.py:113-129. *)
Definition thpl_probs (output : list (list R)) : list (list (list R)) :=
  map (map (fun p => [1 - p; p])) output.
(** base_irt_model.py:203-219 with three_parameter_logistic.py:113-129. *)
Definition thpl_probabilities (m : thpl) (thetas : list (list R)) := thpl_probs (thpl_forward m thetas).
(** item_parameters, three_parameter_logistic.py:178-212: slopes, d or b, and c. *)
Definition thpl_item_parameters (m : thpl) (irt_format : bool) : result (list (list R) * list R * list R) :=
  if irt_format && (1 <? thpl_lv m)%nat then Err ValueError
  else
    let weights := weight_matrix (thpl_free m) (thpl_lv m) (thpl_w m) in
    Ok (weights,
        (if irt_format then zip_with (fun b a => - (b / nth 0 a 0)) (thpl_b m) weights else thpl_b m),
        map logistic (thpl_g m)).

(** ** Generalized partial credit *)
(** State of GeneralizedPartialCredit, generalized_partial_credit.py:72-96; also used for
    GradedResponse, whose buffers are the same (graded_response.py:76-98). *)
Record poly := { p_cats : list nat; p_lv : nat; p_free : list (list bool); p_w : list R; p_b : list R }.
(** [self.items], base_irt_model.py:43. *)
Definition p_items (m : poly) : nat := length (p_cats m).
(** [self.max_item_responses], base_irt_model.py:42. *)
Definition p_max (m : poly) : nat := list_max (p_cats m).
(** Constructor of GeneralizedPartialCredit given item_categories, lines 49-100. *)
Definition gpc_init (cats : list nat) (lv : nat) (rel : option (list (list bool))) : result poly :=
  rmap (fun free => {| p_cats := cats; p_lv := lv; p_free := free;
          p_w := repeat 1 (ctrue (concat free));
          p_b := repeat 0 (list_sum cats - length cats) |})
       (relationships (length cats) lv rel).
(** forward, generalized_partial_credit.py:102-130. *)
Definition gpc_forward (m : poly) (thetas : list (list R)) : list (list ext) :=
  let M := p_max m in
  let n := p_items m in
  let bias := full_bias (free_bias (p_cats m) M) (p_b m) in
  let weights := weight_matrix (p_free m) (p_lv m) (p_w m) in
  let multiplier := map INR (tile n (seq 0 M)) in
  map (fun t =>
    let wt := zip_with Rmult (repeat_interleave M (map (dot t) weights)) multiplier in
    let output := map Fin (zip_with Rplus wt bias) in
    let output := set_mask (missing_category (p_cats m) M) NInf output in
    set_mask (first_category n M) (Fin 0) output) thetas.
(** base_irt_model.py:186-219 on the output of forward. *)
Definition gpc_probabilities (m : poly) (thetas : list (list R)) :=
  probabilities_from_output (p_items m) (p_max m) (gpc_forward m thetas).
(** item_parameters, generalized_partial_credit.py:132-164: slopes, and per item the row of d's
    (including the zero d of category 0), or in irt format the row of b's without category 0. *)
Definition gpc_item_parameters (m : poly) (irt_format : bool) : list (list R) * list (list R) :=
  let biases := blocks (p_max m) (full_bias (free_bias (p_cats m) (p_max m)) (p_b m)) in
  let weights := weight_matrix (p_free m) (p_lv m) (p_w m) in
  (weights,
   if irt_format && (p_lv m =? 1)%nat
   then zip_with (fun row a => tl (map (fun d => - (d / nth 0 a 0)) row)) biases weights
   else biases).

(** ** Graded response *)
(** torch.linspace(lo, hi, steps) for steps >= 2. *)
Definition linspace (lo hi : R) (steps : nat) : list R :=
  map (fun i => lo + INR i * ((hi - lo) / INR (steps - 1))) (seq 0 steps).
(** The values given to an item with [k] free intercepts, graded_response.py:109-114. *)
Definition grm_start_values (k : nat) : list R :=
  map (fun p => ln (/ p + -1)) (removelast (tl (linspace (/ (1 + exp 4)) (/ (1 + exp (-4))) (k + 2)))).
(** reset_parameters, graded_response.py:105-117. *)
Definition grm_start_bias (cats : list nat) (M : nat) : list R :=
  let fb := free_bias cats M in
  let rows := map (fun i =>
      let free_i := firstn M (skipn (i * M) fb) in
      mask_scatter free_i (grm_start_values (ctrue free_i)) (repeat 0 M))
    (seq 0 (length cats)) in
  mask_select fb (concat rows).
(** Constructor of GradedResponse, lines 53-117; [w0] are the random starting slopes. *)
Definition grm_init (cats : list nat) (lv : nat) (rel : option (list (list bool))) (w0 : nat -> R) : result poly :=
  rmap (fun free => {| p_cats := cats; p_lv := lv; p_free := free;
          p_w := map w0 (seq 0 (ctrue (concat free)));
          p_b := grm_start_bias cats (list_max cats) |})
       (relationships (length cats) lv rel).
(** forward, graded_response.py:119-144. *)
Definition grm_forward (m : poly) (thetas : list (list R)) : list (list ext) :=
  let M := p_max m in
  let n := p_items m in
  let bias := full_bias (free_bias (p_cats m) M) (p_b m) in
  let weights := weight_matrix (p_free m) (p_lv m) (p_w m) in
  map (fun t =>
    let wt := repeat_interleave M (map (dot t) weights) in
    let output := map Fin (zip_with Rplus wt bias) in
    let output := set_mask (missing_category (p_cats m) M) NInf output in
    set_mask (first_category n M) PInf output) thetas.
(** probs[:-1] -= geq_probs[1:] for one item, graded_response.py:163-164. *)
Definition grm_diff (geq : list R) : list R :=
  zip_with Rminus (removelast geq) (tl geq) ++ skipn (length geq - 1) geq.
(** probabilities_from_output, graded_response.py:146-165. *)
Definition grm_probs (items M : nat) (output : list (list ext)) : list (list (list R)) :=
  blocks items (map grm_diff (blocks M (map sigmoid_ext (concat output)))).
(** base_irt_model.py:203-219 with graded_response.py:146-165. *)
Definition grm_probabilities (m : poly) (thetas : list (list R)) :=
  grm_probs (p_items m) (p_max m) (grm_forward m thetas).
(** item_parameters, graded_response.py:216-248: category 0 is left out in both formats. *)
Definition grm_item_parameters (m : poly) (irt_format : bool) : list (list R) * list (list R) :=
  let biases := blocks (p_max m) (full_bias (free_bias (p_cats m) (p_max m)) (p_b m)) in
  let weights := weight_matrix (p_free m) (p_lv m) (p_w m) in
  (weights,
   if irt_format && (p_lv m =? 1)%nat
   then zip_with (fun row a => tl (map (fun d => - (d / nth 0 a 0)) row)) biases weights
   else map (@tl R) biases).

(** ** Nominal response *)
(** free_weights, nominal_response.py:74-81: row (item, category) is the item's relationships for
    categories 1..K-1 and zero otherwise; reshaped to (items*M, lv). *)
Definition nrm_free_weights (cats : list nat) (M lv : nat) (rel : list (list bool)) : list (list bool) :=
  concat (zip_with (fun K row =>
    mapi (fun k z => if (1 <=? k)%nat && (k <? K)%nat then row else z) (repeat (repeat false lv) M)) cats rel).
(** State of NominalResponse, nominal_response.py:63-98. *)
Record nrm := { nrm_cats : list nat; nrm_lv : nat; nrm_rel : list (list bool); nrm_w : list R; nrm_b : list R }.
(** [self.max_item_responses], base_irt_model.py:42. *)
Definition nrm_max (m : nrm) : nat := list_max (nrm_cats m).
(** The buffer free_weights, nominal_response.py:95. *)
Definition nrm_free (m : nrm) := nrm_free_weights (nrm_cats m) (nrm_max m) (nrm_lv m) (nrm_rel m).
(** Constructor given item_categories, nominal_response.py:48-103; [w0] the random starting slopes. *)
Definition nrm_init (cats : list nat) (lv : nat) (rel : option (list (list bool))) (w0 : nat -> R) : result nrm :=
  rmap (fun r => {| nrm_cats := cats; nrm_lv := lv; nrm_rel := r;
          nrm_w := map w0 (seq 0 (ctrue (concat (nrm_free_weights cats (list_max cats) lv r))));
          nrm_b := repeat 0 (list_sum cats - length cats) |})
       (relationships (length cats) lv rel).
(** bias[:, 0] = -bias[:, 1:].sum(dim=1), nominal_response.py:119-122 and 145-148. *)
Definition nrm_biases (m : nrm) : list (list R) :=
  map (fun row => upd 0 (- rsum (tl row)) row)
      (blocks (nrm_max m) (full_bias (free_bias (nrm_cats m) (nrm_max m)) (nrm_b m))).
(** weights[:, 0] = -weights[:, 1:].sum(dim=1), nominal_response.py:124-127 and 150-153. *)
Definition col_sums (lv : nat) (rows : list (list R)) : list R :=
  map (fun d => rsum (map (fun r => nth d r 0) rows)) (seq 0 lv).
(** nominal_response.py:124-127 and 150-153. *)
Definition nrm_weights (m : nrm) : list (list (list R)) :=
  map (fun rows => upd 0 (map Ropp (col_sums (nrm_lv m) (tl rows))) rows)
      (blocks (nrm_max m) (weight_matrix (nrm_free m) (nrm_lv m) (nrm_w m))).
(** forward, nominal_response.py:105-134. *)
Definition nrm_forward (m : nrm) (thetas : list (list R)) : list (list ext) :=
  let bias := concat (nrm_biases m) in
  let weights := concat (nrm_weights m) in
  map (fun t =>
    set_mask (missing_category (nrm_cats m) (nrm_max m)) NInf
      (map Fin (zip_with Rplus (map (dot t) weights) bias))) thetas.
(** base_irt_model.py:186-219 on the output of forward. *)
Definition nrm_probabilities (m : nrm) (thetas : list (list R)) :=
  probabilities_from_output (length (nrm_cats m)) (nrm_max m) (nrm_forward m thetas).
(** item_parameters, nominal_response.py:136-163: per item the slopes permuted to
    (latent variable, category) order and flattened, and the row of intercepts. *)
Definition nrm_item_parameters (m : nrm) : list (list R) * list (list R) :=
  (map (fun rows => concat (map (fun d => map (fun r => nth d r 0) rows) (seq 0 (nrm_lv m)))) (nrm_weights m),
   nrm_biases m).

(** ** Expected scores *)
(** expected_scores, base_irt_model.py:266-292.  [mc] is mc_correct ([None] or an empty list: not
    multiple choice); [probs] respondents x items x M.  scatter_ refuses an index outside 0..M-1 and
    more index rows than items; rows without an index stay zero. *)
Definition item_score_table (items M : nat) (mc : option (list Z)) : result (list (list R)) :=
  match mc with
  | None | Some [] => Ok (repeat (map INR (seq 0 M)) items)
  | Some key =>
      if (items <? length key)%nat then Err RuntimeError
      else rmap (fun rows => rows ++ repeat (repeat 0 M) (items - length key))
             (mapM (fun z => if (0 <=? z)%Z && (z <? Z.of_nat M)%Z
                             then Ok (upd (Z.to_nat z) 1 (repeat 0 M)) else Err RuntimeError) key)
  end.
(** base_irt_model.py:283-290. *)
Definition expected_item_scores (items M : nat) (mc : option (list Z)) (probs : list (list (list (option R))))
  : result (list (list (option R))) :=
  rmap (fun table =>
    map (fun resp => zip_with (fun p s => osum (zip_with (fun p x => olift2 Rmult p (Some x)) p s)) resp table) probs)
    (item_score_table items M mc).
(** base_irt_model.py:292 (return_item_scores=False). *)
Definition expected_total_scores items M mc probs : result (list (option R)) :=
  rmap (map osum) (expected_item_scores items M mc probs).
