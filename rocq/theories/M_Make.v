(** Model of the constructors of the parametric models: which arguments are used, the categories taken from data, the buffers and the
    numbers of parameters for any integer categories, and the assignment of the parameters in forward.  Definitions only. *)
From Coq Require Import Reals.
From Verif Require Import Base RBase M_Data M_Logit M_State.
Local Open Scope R_scope.

(** [.int()] of the largest answer plus one; an item without observed cell has -inf, which becomes the smallest 32 bit integer.
    generalized_partial_credit.py:61, graded_response.py:65, nominal_response.py:61. *)
Definition int_of (k : option Z) : Z := match k with Some z => z | None => (- 2 ^ 31)%Z end.
(** generalized_partial_credit.py:56-61, graded_response.py:60-65, nominal_response.py:56-61. *)
Definition categories_argument (cats : option (list Z)) (data : option mat) : result (list Z) :=
  match cats with
  | Some c => Ok c
  | None => match data with None => Err ValueError | Some d => rmap (map int_of) (infer_categories (m_cols d) (m_rows d)) end
  end.

(** The three polytomous classes: generalized_partial_credit.py:49, graded_response.py:53, nominal_response.py:48. *)
Inductive kind := KGpc | KGrm | KNrm.
(** The start of the slice [item_cat:max_item_responses], a negative number counting from the end.
    generalized_partial_credit.py:88-89, graded_response.py:89-90, nominal_response.py:87-88. *)
Definition slice_start (K : Z) (M : nat) : nat := if (K <? 0)%Z then Z.to_nat (Z.of_nat M + K) else Z.to_nat K.
(** What the constructors leave behind: item_categories, latent_variables, max_item_responses, the relationships, and the number of
    intercept parameters.  generalized_partial_credit.py:63-96, graded_response.py:67-98, nominal_response.py:63-98. *)
Record built := Built { bu_cats : list Z; bu_lv : nat; bu_max : nat; bu_rel : list (list bool); bu_biases : nat }.
(** The buffer missing_category, generalized_partial_credit.py:87-90, graded_response.py:88-91, nominal_response.py:86-89. *)
Definition bu_missing (b : built) : list bool := missing_category (map (fun K => slice_start K (bu_max b)) (bu_cats b)) (bu_max b).
(** The buffer free_bias, generalized_partial_credit.py:91, graded_response.py:92, nominal_response.py:94. *)
Definition bu_free (b : built) : list bool := free_bias (map (fun K => slice_start K (bu_max b)) (bu_cats b)) (bu_max b).
(** The constructors after the categories are known.  A negative max_item_responses fails in torch.arange or torch.zeros; the generalized
    partial credit and nominal models create sum(item_categories) - items intercepts (generalized_partial_credit.py:82-83,
    nominal_response.py:84-85), where a negative number fails; without any category [first_category[:, 0]] fails
    (generalized_partial_credit.py:85, graded_response.py:87, nominal_response.py:92).  The graded response model takes its intercepts
    from the buffer (graded_response.py:117). *)
Definition build (k : kind) (lv : nat) (cats : list Z) (rel : option (list (list bool))) : result built :=
  bind (base_init lv cats None) (fun a =>
  bind (relationships (length cats) lv rel) (fun r =>
  if (at_max a <? 0)%Z then Err RuntimeError
  else
    let M := Z.to_nat (at_max a) in
    let nb := (fold_right Z.add 0 cats - Z.of_nat (length cats))%Z in
    match k with
    | KGrm => if (M =? 0)%nat then Err IndexError
              else Ok (Built cats lv M r (ctrue (free_bias (map (fun K => slice_start K M) cats) M)))
    | _ => if (nb <? 0)%Z then Err RuntimeError else if (M =? 0)%nat then Err IndexError else Ok (Built cats lv M r (Z.to_nat nb))
    end)).
(** The whole constructor.  generalized_partial_credit.py:49-96, graded_response.py:53-98, nominal_response.py:48-98. *)
Definition make (k : kind) (data : option mat) (lv : nat) (cats : option (list Z)) (rel : option (list (list bool))) : result built :=
  bind (categories_argument cats data) (fun c => build k lv c rel).

(** [x = zeros; x[mask] = values]: as many values as places, or a single one for all places (broadcasting); otherwise RuntimeError.
    generalized_partial_credit.py:116-117, graded_response.py:133-134. *)
Definition assign (mask : list bool) (values : list R) : result (list R) :=
  if (length values =? ctrue mask)%nat then Ok (full_bias mask values)
  else if (length values =? 1)%nat then Ok (full_bias mask (repeat (nth 0 values 0) (ctrue mask)))
  else Err RuntimeError.
(** forward of the generalized partial credit model, 102-130, with slopes [w] and intercepts [b]. *)
Definition gpc_run (m : built) (w b : list R) (thetas : list (list R)) : result (list (list ext)) :=
  rmap (fun bias =>
    let M := bu_max m in
    let n := length (bu_cats m) in
    let weights := weight_matrix (bu_rel m) (bu_lv m) w in
    let multiplier := map INR (tile n (seq 0 M)) in
    map (fun t =>
      let wt := zip_with Rmult (repeat_interleave M (map (dot t) weights)) multiplier in
      set_mask (first_category n M) (Fin 0) (set_mask (bu_missing m) NInf (map Fin (zip_with Rplus wt bias)))) thetas)
  (assign (bu_free m) b).
(** forward of the graded response model, graded_response.py:119-144. *)
Definition grm_run (m : built) (w b : list R) (thetas : list (list R)) : result (list (list ext)) :=
  rmap (fun bias =>
    let M := bu_max m in
    let n := length (bu_cats m) in
    let weights := weight_matrix (bu_rel m) (bu_lv m) w in
    map (fun t =>
      let wt := repeat_interleave M (map (dot t) weights) in
      set_mask (first_category n M) PInf (set_mask (bu_missing m) NInf (map Fin (zip_with Rplus wt bias)))) thetas)
  (assign (bu_free m) b).

(** The number of items of the dichotomous models: that of the data, if there are data.
    one_parameter_logistic.py:49-52, two_parameter_logistic.py:56-59, three_parameter_logistic.py:58-61. *)
Definition items_argument (items : option nat) (data : option mat) : result nat :=
  match data with
  | Some d => Ok (m_cols d)
  | None => match items with Some n => Ok n | None => Err ValueError end
  end.
(** OneParameterLogistic.__init__, one_parameter_logistic.py:44-68. *)
Definition opl_make (data : option mat) (items : option nat) : result opl :=
  bind (items_argument items data) (fun n =>
  bind (base_init 1 (repeat 2%Z n) None) (fun _ => Ok {| opl_items := n; opl_b := repeat 0 n |})).
(** TwoParameterLogistic.__init__, two_parameter_logistic.py:49-88. *)
Definition tpl_make (data : option mat) (lv : nat) (items : option nat) (rel : option (list (list bool))) : result tpl :=
  bind (items_argument items data) (fun n =>
  bind (base_init lv (repeat 2%Z n) None) (fun _ => tpl_init n lv rel)).
(** ThreeParameterLogistic.__init__, three_parameter_logistic.py:51-85. *)
Definition thpl_make (data : option mat) (lv : nat) (items : option nat) (rel : option (list (list bool))) : result thpl :=
  bind (items_argument items data) (fun n =>
  bind (base_init lv (repeat 2%Z n) None) (fun _ => thpl_init n lv rel)).
