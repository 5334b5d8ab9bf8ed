(** Model of the scale transformations: rescale/scale.py, reverse.py, rotate.py, flow.py (transform,
    inverse, jacobian), link_common_items.py (constructor, transform, inverse, jacobian) and the chain
    functions of models/base_irt_model.py.  Definitions only.  Simplification throughout: floats are
    reals, tensors of scores are lists of rows. *)
From Verif Require Import Base RBase M_Logit M_Mono M_Lik M_Est.
Local Open Scope R_scope.

(** ** Matrices *)
(** A tensor of shape rows x columns, as the arguments of rescale/scale.py:23-50. *)
Definition mat : Type := list (list R).
(** Matrix times column vector and row vector times matrix; [torch.matmul] of two matrices.
    Used by the statements about the jacobians of base_irt_model.py:180-184. *)
Definition mvec (A : list (list R)) (v : list R) : list R := map (fun row => dot row v) A.
(** [B.shape[1]] in [torch.matmul], base_irt_model.py:182 and rescale/rotate.py:75. *)
Definition ncols (B : list (list R)) : nat := match B with [] => O | r :: _ => length r end.
(** One row of [torch.matmul(theta, B)], rescale/rotate.py:75 and 91. *)
Definition vecmat (v : list R) (B : list (list R)) : list R := map (fun j => dot v (column 0 j B)) (seq 0 (ncols B)).
(** [torch.matmul] of two matrices, base_irt_model.py:182. *)
Definition matmul (A B : list (list R)) : list (list R) := map (fun row => vecmat row B) A.
(** [transpose(1, 2)], base_irt_model.py:381, and [rotation_matrix.T], rescale/rotate.py:112. *)
Definition transpose (B : list (list R)) : list (list R) := map (fun j => column 0 j B) (seq 0 (ncols B)).
(** [torch.diag_embed], rescale/reverse.py:81, flow.py:236, link_common_items.py:287. *)
Definition diag (v : list R) : list (list R) := mapi (fun i x => map (fun j => if (i =? j)%nat then x else 0) (seq 0 (length v))) v.

(** ** Scales *)
(** The interface of scale.py:4-50 on a batch of score rows. *)
Record scale := { sc_transform : list (list R) -> result (list (list R));
                  sc_inverse : list (list R) -> result (list (list R));
                  sc_jacobian : list (list R) -> result (list (list (list R))) }.

(** base_irt_model.py:143-146: [for scale in self.scale: theta = scale(theta)]. *)
Fixpoint transform_theta (scales : list scale) (thetas : list (list R)) : result (list (list R)) :=
  match scales with
  | [] => Ok thetas
  | s :: rest => bind (sc_transform s thetas) (transform_theta rest)
  end.
(** base_irt_model.py:161-164: the loop runs over self.scale in the same order. *)
Fixpoint inverse_transform_theta (scales : list scale) (thetas : list (list R)) : result (list (list R)) :=
  match scales with
  | [] => Ok thetas
  | s :: rest => bind (sc_inverse s thetas) (inverse_transform_theta rest)
  end.
(** base_irt_model.py:180-184. *)
Fixpoint jacobian_loop (scales : list scale) (jac : list (list (list R))) (thetas : list (list R)) : result (list (list (list R))) :=
  match scales with
  | [] => Ok jac
  | s :: rest =>
      bind (sc_jacobian s thetas) (fun js =>
      bind (sc_transform s thetas) (fun thetas' =>
      jacobian_loop rest (zip_with matmul js jac) thetas'))
  end.
(** base_irt_model.py:180-184. *)
Definition theta_transform_jacobian (lv : nat) (scales : list scale) (thetas : list (list R)) : result (list (list (list R))) :=
  jacobian_loop scales (repeat (identity lv) (length thetas)) thetas.
(** The attached list: add_scale_transformation and detach_scale_transformations,
    base_irt_model.py:118-128. *)
Inductive scale_call := AddScale (s : scale) | DetachScales.
(** base_irt_model.py:118-122 and 124-128. *)
Definition scale_step (scales : list scale) (c : scale_call) : list scale :=
  match c with AddScale s => scales ++ [s] | DetachScales => [] end.
(** The list of base_irt_model.py:46 after the calls of 118-128. *)
Definition attached (calls : list scale_call) : list scale := fold_left scale_step calls [].

(** _rescale_gradients, base_irt_model.py:376-390.  [grads] is the gradient tensor viewed as rows of
    [lv] numbers (379); [solve] is torch.linalg.solve of one system and an input of the model; NaN and
    +inf entries of its result become 0 (387-388). *)
Definition clean_gradient (x : fl) : R := match x with Some (Fin r) => r | _ => 0 end.
(** base_irt_model.py:376-390. *)
Definition rescale_gradients (solve : list (list R) -> list R -> result (list fl)) (lv : nat) (scales : list scale)
  (grads : list (list R)) (thetas : list (list R)) : result (list (list R)) :=
  bind (theta_transform_jacobian lv scales thetas) (fun jac =>
  let jac_t := map transpose jac in
  match length jac_t with
  | O => Err ZeroDivisionError
  | S _ =>
      let reps := (length grads / length jac_t)%nat in
      let systems := repeat_interleave reps jac_t in
      if (length systems =? length grads)%nat
      then bind (mapM (fun '(a, b) => solve a b) (combine systems grads)) (fun sols => Ok (map (map clean_gradient) sols))
      else Err RuntimeError
  end).

(** ** Reverse *)
(** reverse.py:34-35: minus the 0/1 vector, zeros replaced by 1. *)
Definition reverse_signs (flags : list bool) : list R :=
  map (fun x => if Req_EM_T x 0 then 1 else x) (map (fun b : bool => - (if b then 1 else 0)) flags).
(** reverse.py:46 and 62: product with a 1 x n row, of score rows with n columns; torch raises RuntimeError
    on other widths (a width-1 operand would broadcast and is outside the model). *)
Definition scale_rows (signs : list R) (thetas : list (list R)) : result (list (list R)) :=
  if forallb (fun t => (length t =? length signs)%nat) thetas
  then Ok (map (zip_with (fun s x => x * s) signs) thetas)
  else Err RuntimeError.
(** reverse.py:81: diag_embed expanded to one matrix per row. *)
Definition reverse_scale (flags : list bool) : scale :=
  {| sc_transform := scale_rows (reverse_signs flags);
     sc_inverse := scale_rows (reverse_signs flags);
     sc_jacobian := fun thetas => Ok (repeat (diag (reverse_signs flags)) (length thetas)) |}.

(** ** Rotate *)
(** rotate.py:59-62 for a given matrix, and 64.  [inv] is torch.inverse and an input of the model. *)
Definition square (n : nat) (A : list (list R)) : bool := (length A =? n)%nat && forallb (fun r => (length r =? n)%nat) A.
(** rescale/rotate.py:75 and 91; torch refuses rows of another width. *)
Definition rotate_rows (A : list (list R)) (thetas : list (list R)) : result (list (list R)) :=
  if forallb (fun t => (length t =? length A)%nat) thetas then Ok (map (fun t => vecmat t A) thetas) else Err RuntimeError.
(** rotate.py:75, 91 and 112. *)
Definition rotate_scale (A Ainv : list (list R)) : scale :=
  {| sc_transform := rotate_rows A;
     sc_inverse := rotate_rows Ainv;
     sc_jacobian := fun thetas => Ok (repeat (transpose A) (length thetas)) |}.
(** rescale/rotate.py:59-64. *)
Definition rotate_new (inv : list (list R) -> result (list (list R))) (lv : nat) (A : list (list R)) : result scale :=
  if square lv A then bind (inv A) (fun Ainv => Ok (rotate_scale A Ainv)) else Err ValueError.

(** ** Flow *)
(** [grad] stands for torch autograd: the derivative of a one-variable function at a point.  The partial
    derivative of the sum of all outputs of one row by coordinate [d]. rescale/flow.py:231-236 and link_common_items.py:279-287. *)
Definition sum_gradient (grad : (R -> R) -> R -> R) (f : list R -> list R) (t : list R) : list R :=
  map (fun d => grad (fun x => rsum (f (upd d x t))) (nth d t 0)) (seq 0 (length t)).
(** flow.py:181-237.  [spline] is the pair of the fitted per-variable spline and its inverse, [None] before
    fit (177-179). *)
Definition flow_row (means stds : list R) (fs : list (R -> R)) (t : list R) : list R :=
  zip_with (fun f x => f x) fs (zip_with Rdiv (zip_with Rminus t means) stds).
(** rescale/flow.py:209-211. *)
Definition flow_inverse_row (means stds : list R) (gs : list (R -> R)) (y : list R) : list R :=
  zip_with Rplus (zip_with Rmult (zip_with (fun g x => g x) gs y) stds) means.
(** rescale/flow.py:177-237. *)
Definition flow_scale (grad : (R -> R) -> R -> R) (means stds : list R) (spline : option (list (R -> R) * list (R -> R))) : scale :=
  match spline with
  | None => {| sc_transform := fun _ => Err ValueError; sc_inverse := fun _ => Err ValueError; sc_jacobian := fun _ => Err ValueError |}
  | Some (fs, gs) =>
      {| sc_transform := fun thetas => Ok (map (flow_row means stds fs) thetas);
         sc_inverse := fun ys => Ok (map (flow_inverse_row means stds gs) ys);
         sc_jacobian := fun thetas => Ok (map (fun t => diag (sum_gradient grad (flow_row means stds fs) t)) thetas) |}
  end.

(** ** LinkCommonItems *)
(** Constructor checks, link_common_items.py:88-99; [spline] is method == "spline", [Some _] otherwise
    names one of the two accepted methods. *)
Inductive link_method := LinkSpline | LinkNeuralnet | LinkOther.
(** rescale/link_common_items.py:88-99. *)
Definition link_check {A : Type} (lv_from lv_to : nat) (idx_from idx_to : option (list A)) (method : link_method) : result unit :=
  if negb (lv_from =? lv_to)%nat then Err ValueError
  else if negb (lv_from =? 1)%nat then Err ValueError
  else match idx_from, idx_to with
       | Some a, Some b =>
           if negb (length a =? length b)%nat then Err ValueError
           else if (length a <? 1)%nat then Err ValueError
           else match method with LinkOther => Err ValueError | _ => Ok tt end
       | _, _ => Err ValueError
       end.
(** link_common_items.py:109. *)
Definition link_multiplier (inverted : bool) : R := if inverted then -1 else 1.
(** Spline method: transform 236-239, inverse 256-257, jacobian 283-287, on one-column rows.
    [f] and [g] are the fitted spline and its inverse. *)
Definition link_spline_scale (grad : (R -> R) -> R -> R) (f g : R -> R) (inverted : bool) : scale :=
  let m := link_multiplier inverted in
  {| sc_transform := fun thetas => Ok (map (map (fun t => f t * m)) thetas);
     sc_inverse := fun ys => Ok (map (map (fun y => g y * m)) ys);
     sc_jacobian := fun thetas => Ok (map (fun t => diag (sum_gradient grad (map (fun x => f x * m)) t)) thetas) |}.
(** Neural network method: transform 234 and 239 with _split_activation 303-307 (the same three-way split
    as MonotoneNN's); inverse 259 raises; jacobian 281-287 differentiates the sum of the layer's outputs
    times the multiplier. *)
Definition link_nn_value (layer : spl) (m : R) (t : list R) : result (list R) :=
  bind (split_activation true (spl_forward layer t)) (fun y => Ok [rsum y * m]).
(** rescale/link_common_items.py:224-307. *)
Definition link_nn_scale (grad : (R -> R) -> R -> R) (layer : spl) (inverted : bool) : scale :=
  let m := link_multiplier inverted in
  {| sc_transform := fun thetas => mapM (link_nn_value layer m) thetas;
     sc_inverse := fun _ => Err NotImplementedError;
     sc_jacobian := fun thetas =>
       Ok (map (fun t => diag (sum_gradient grad (fun x => map (fun v => v * m) (spl_forward layer x)) t)) thetas) |}.
