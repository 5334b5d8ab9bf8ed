(** Model of the log-likelihood functions (irtorch/models/base_irt_model.py, graded_response.py,
    three_parameter_logistic.py, nested_logit.py, surprisal_spline.py) and of ModelMix
    (irtorch/models/model_mix.py).  Floats are extended reals, NaN is [None]. *)
From Verif Require Import Base RBase M_Data M_Logit.
Local Open Scope R_scope.

(** ** Float arithmetic with infinities and NaN *)
Notation fl := (option ext).
(** IEEE addition, as the sums at base_irt_model.py:257 and three_parameter_logistic.py:169 use it. *)
Definition fadd (a b : fl) : fl :=
  match a, b with
  | Some (Fin x), Some (Fin y) => Some (Fin (x + y))
  | Some PInf, Some NInf | Some NInf, Some PInf => None
  | Some PInf, Some _ | Some _, Some PInf => Some PInf
  | Some NInf, Some _ | Some _, Some NInf => Some NInf
  | _, _ => None
  end.
(** [x.sum()] and [x.nansum()]. three_parameter_logistic.py:169, model_mix.py:181. *)
Definition fsum (l : list fl) : fl := fold_right fadd (Some (Fin 0)) l.
(** NaN counts as 0 in nansum, evaluator.py:536. *)
Definition nan_to_zero (a : fl) : fl := match a with None => Some (Fin 0) | Some e => Some e end.
(** evaluator.py:536, rescale/bit.py:252. *)
Definition fnansum (l : list fl) : fl := fsum (map nan_to_zero l).
(** [x.log()] of a probability ([None] = NaN). three_parameter_logistic.py:167, nested_logit.py:312. *)
Definition flog (p : option R) : fl :=
  match p with
  | None => None
  | Some x => if Rlt_dec 0 x then Some (Fin (ln x)) else if Req_EM_T x 0 then Some NInf else None
  end.

(** ** Shared pieces *)
(** loss_reduction; any other string is [ROther]. base_irt_model.py:226, model_mix.py:178-183. *)
Inductive reduction := RSum | RMean | RNone | ROther.
(** The returned tensor: a scalar or one value per cell. base_irt_model.py:257-264. *)
Inductive llout := Scalar (x : fl) | Cells (l : list fl).

(** [data.long()]: a NaN cell becomes an unspecified integer [nanl]. base_irt_model.py:247. *)
Definition to_long (nanl : Z) (c : cell) : Z := match c with Some z => z | None => nanl end.
(** [x.reshape(-1, M)]. base_irt_model.py:249. *)
Definition reshape {A} (M : nat) (l : list A) : result (list (list A)) :=
  if (0 <? M)%nat && (length l mod M =? 0)%nat then Ok (blocks M l) else Err RuntimeError.
(** [x[~mask]] along the first dimension. base_irt_model.py:253-255. *)
Definition drop_masked {A} (mask : list bool) (l : list A) : result (list A) :=
  if (length mask =? length l)%nat then Ok (mask_select (map negb mask) l) else Err IndexError.
(** missing_mask handling of all the log_likelihood functions: without a mask nothing is dropped. base_irt_model.py:251-255. *)
Definition drop_opt {A} (mask : option (list (list bool))) (l : list A) : result (list A) :=
  match mask with None => Ok l | Some m => drop_masked (concat m) l end.
(** [torch.full((n,), nan)] with [[~mask] = ll]. base_irt_model.py:259-264. *)
Definition scatter_opt (mask : option (list (list bool))) (n : nat) (ll : list fl) : list fl :=
  match mask with
  | None => ll
  | Some m => mask_scatter (map negb (concat m)) ll (repeat None n)
  end.

(** ** Cross-entropy log-likelihood, base_irt_model.py:221-264 *)
(** One row of [-F.cross_entropy]: log softmax at the target.  The target -100 is torch's ignore_index;
    other targets outside 0..C-1 raise IndexError. *)
Definition ignored (t : Z) : bool := (t =? -100)%Z.
(** One row of log softmax, base_irt_model.py:257. *)
Definition log_softmax_at (row : list ext) (k : nat) : fl :=
  if existsb is_pinf row || forallb is_ninf row then None
  else match nth k row NInf with
       | Fin x => Some (Fin (x - ln (rsum (map exp_ext row))))
       | NInf => Some NInf
       | PInf => None
       end.
(** base_irt_model.py:257. *)
Definition ce_row (row : list ext) (t : Z) : result fl :=
  if ignored t then Ok (Some (Fin 0))
  else if (0 <=? t)%Z && (t <? Z.of_nat (length row))%Z then Ok (log_softmax_at row (Z.to_nat t))
  else Err IndexError.
(** The number of rows must equal the number of targets (ValueError). base_irt_model.py:257. *)
Definition ce_rows (rows : list (list ext)) (ts : list Z) : result (list fl) :=
  if (length rows =? length ts)%nat then mapM (fun rt => ce_row (fst rt) (snd rt)) (combine rows ts)
  else Err ValueError.
(** reduction="mean" divides by the number of targets that are not ignored. base_irt_model.py:257. *)
Definition fdiv_nat (a : fl) (n : nat) : fl :=
  match a with
  | Some (Fin x) => if (n =? 0)%nat then None else Some (Fin (x / INR n))
  | Some e => Some e
  | None => None
  end.
(** base_irt_model.py:221-264. *)
Definition base_log_likelihood (nanl : Z) (M : nat) (red : reduction) (data : list (list cell))
    (output : list (list ext)) (mask : option (list (list bool))) : result llout :=
  let targets := map (to_long nanl) (concat data) in
  bind (reshape M (concat output)) (fun rows =>
  bind (drop_opt mask rows) (fun rows =>
  bind (drop_opt mask targets) (fun ts =>
  match red with
  | ROther => Err ValueError
  | _ =>
    bind (ce_rows rows ts) (fun ll =>
    match red with
    | RSum => Ok (Scalar (fsum ll))
    | RMean => Ok (Scalar (fdiv_nat (fsum ll) (length (filter (fun t => negb (ignored t)) ts))))
    | _ => Ok (Cells (scatter_opt mask (length targets) ll))
    end)
  end))).

(** ** Log-likelihood from probabilities: graded_response.py:193-214, three_parameter_logistic.py:157-176,
    nested_logit.py:303-321, surprisal_spline.py:179-200 *)
(** [probs[arange(n), data].log()]: negative indices wrap around; the first [n] rows are used.
    three_parameter_logistic.py:167, nested_logit.py:312. *)
Definition prob_row (row : list (option R)) (t : Z) : result fl :=
  match norm_index (length row) t with
  | Some k => Ok (flog (nth k row None))
  | None => Err IndexError
  end.
(** three_parameter_logistic.py:167, nested_logit.py:312. *)
Definition prob_rows (rows : list (list (option R))) (ts : list Z) : result (list fl) :=
  if (length ts <=? length rows)%nat then mapM (fun rt => prob_row (fst rt) (snd rt)) (combine rows ts)
  else Err IndexError.
(** three_parameter_logistic.py:157-176, nested_logit.py:303-321, graded_response.py:193-214, surprisal_spline.py:179-200. *)
Definition prob_log_likelihood (nanl : Z) (M : nat) (red : reduction) (data : list (list cell))
    (probs : list (list (list (option R)))) (mask : option (list (list bool))) : result llout :=
  let targets := map (to_long nanl) (concat data) in
  bind (reshape M (concat (concat probs))) (fun rows =>
  bind (drop_opt mask rows) (fun rows =>
  bind (drop_opt mask targets) (fun ts =>
  bind (prob_rows rows ts) (fun ll =>
  match red with
  | RSum => Ok (Scalar (fsum ll))
  | RNone => Ok (Cells (scatter_opt mask (length targets) ll))
  | _ => Err ValueError
  end)))).
(** A table of numbers as floats without NaN (three_parameter_logistic.py:157). *)
Definition some3 (p : list (list (list R))) : list (list (list (option R))) := map (map (map Some)) p.
(** The graded response model (M = max_item_responses) and the 3PL (M = 2, line 159). graded_response.py:193-214. *)
Definition grm_log_likelihood nanl (m : poly) red data (output : list (list ext)) mask :=
  prob_log_likelihood nanl (p_max m) red data (some3 (grm_probs (p_items m) (p_max m) output)) mask.
(** three_parameter_logistic.py:157-176. *)
Definition thpl_log_likelihood nanl red data (output : list (list R)) mask :=
  prob_log_likelihood nanl 2 red data (some3 (thpl_probs output)) mask.

(** ** ModelMix *)
(** A two-dimensional tensor with its number of columns; a three-dimensional one with both. model_mix.py:51-67. *)
Record wide (A : Type) := Wide { w_cols : nat; w_rows : list (list A) }.
Arguments Wide {A} _ _.
Arguments w_cols {A} _.
Arguments w_rows {A} _.
(** Three-dimensional output, model_mix.py:69-89. *)
Record cube := Cube { cb_items : nat; cb_cats : nat; cb_rows : list (list (list (option R))) }.
(** Output of a sub-model: logits or probabilities in two dimensions, or (nested logit, surprisal
    spline) probabilities in three dimensions. model_mix.py:65-66. *)
Inductive tensor := T2 (w : wide ext) | T3 (c : cube).

(** A sub-model: what ModelMix uses of it.  The functions are the sub-model's own methods. model_mix.py:65, 85, 88 and 161-174. *)
Record sub := Sub {
  sb_lv : nat; sb_cats : list nat;
  sb_forward : list (list R) -> tensor;
  sb_probs : tensor -> result cube;
  sb_ll : reduction -> list (list cell) -> tensor -> option (list (list bool)) -> result llout }.
(** [model.items], base_irt_model.py:43. *)
Definition sb_items (s : sub) : nat := length (sb_cats s).
(** [model.max_item_responses], base_irt_model.py:42. *)
Definition sb_max (s : sub) : nat := list_max (sb_cats s).

(** __init__, model_mix.py:31-45: (latent_variables, item_categories). *)
Definition mix_init (subs : list sub) : result (nat * list nat) :=
  match subs with
  | [] => Err IndexError
  | s :: rest =>
      if forallb (fun r => (sb_lv s =? sb_lv r)%nat) rest
      then Ok (sb_lv s, concat (map sb_cats subs)) else Err ValueError
  end.

(** [torch.cat(l, dim=1)] for rows: row by row concatenation. model_mix.py:66. *)
Definition glue {A} (a b : list (list A)) : list (list A) := zip_with (@app A) a b.
(** torch.cat wants equal sizes elsewhere, model_mix.py:66. *)
Definition same_rows {A} (n : nat) (l : list (list A)) : bool := (length l =? n)%nat.
(** torch.cat of two-dimensional outputs, model_mix.py:66. *)
Definition cat2 (ws : list (wide ext)) : result (wide ext) :=
  match ws with
  | [] => Err RuntimeError
  | w :: rest =>
      if forallb (fun v => same_rows (length (w_rows w)) (w_rows v)) rest
      then Ok (Wide (list_sum (map w_cols ws)) (fold_left glue (map w_rows rest) (w_rows w)))
      else Err RuntimeError
  end.
(** torch.cat of three-dimensional outputs, model_mix.py:66 and 108. *)
Definition cat3 (cs : list cube) : result cube :=
  match cs with
  | [] => Err RuntimeError
  | c :: rest =>
      if forallb (fun v => same_rows (length (cb_rows c)) (cb_rows v) && (cb_cats c =? cb_cats v)%nat) rest
      then Ok (Cube (list_sum (map cb_items cs)) (cb_cats c) (fold_left glue (map cb_rows rest) (cb_rows c)))
      else Err RuntimeError
  end.
(** Dimensions must agree in torch.cat, model_mix.py:66. *)
Definition as2 (t : tensor) : result (wide ext) := match t with T2 w => Ok w | T3 _ => Err RuntimeError end.
(** Dimensions must agree in torch.cat, model_mix.py:66. *)
Definition as3 (t : tensor) : result cube := match t with T3 c => Ok c | T2 _ => Err RuntimeError end.
(** model_mix.py:66. *)
Definition cat_tensors (ts : list tensor) : result tensor :=
  match ts with
  | T3 _ :: _ => bind (mapM as3 ts) (fun cs => rmap T3 (cat3 cs))
  | _ => bind (mapM as2 ts) (fun ws => rmap T2 (cat2 ws))
  end.
(** forward, model_mix.py:51-67. *)
Definition mix_forward (subs : list sub) (thetas : list (list R)) : result tensor :=
  cat_tensors (map (fun s => sb_forward s thetas) subs).

(** [torch.split(x, sizes, dim=1)]: the sizes must add up to the dimension. model_mix.py:83-87 and 154-171. *)
Fixpoint split_cols {A} (sizes : list nat) (rows : list (list A)) : list (wide A) :=
  match sizes with
  | [] => []
  | s :: ss => Wide s (map (firstn s) rows) :: split_cols ss (map (skipn s) rows)
  end.
(** torch.split, model_mix.py:83-87 and 154-171. *)
Definition split2 {A} (sizes : list nat) (w : wide A) : result (list (wide A)) :=
  if (list_sum sizes =? w_cols w)%nat then Ok (split_cols sizes (w_rows w)) else Err RuntimeError.
(** model_mix.py:83-87 and 154-158. *)
Definition split_tensor (sizes : list nat) (t : tensor) : result (list tensor) :=
  match t with
  | T2 w => rmap (map T2) (split2 sizes w)
  | T3 c => rmap (map (fun w => T3 (Cube (w_cols w) (cb_cats c) (w_rows w))))
              (split2 sizes (Wide (cb_items c) (cb_rows c)))
  end.
(** model_mix.py:85 and 156. *)
Definition mix_sizes (subs : list sub) : list nat := map (fun s => (sb_max s * sb_items s)%nat) subs.

(** _pad_and_concat(dim=1, pad_dim=2), model_mix.py:91-108. Lines 99-105. *)
Definition pad_cube (size : nat) (c : cube) : cube :=
  let pad := (size - cb_cats c)%nat in
  if (0 <? pad)%nat
  then Cube (cb_items c) size (map (map (fun r => r ++ repeat (Some 0) pad)) (cb_rows c))
  else c.
(** model_mix.py:91-108. *)
Definition pad_and_concat (cs : list cube) : result cube :=
  match cs with
  | [] => Err ValueError
  | _ => cat3 (map (pad_cube (list_max (map cb_cats cs))) cs)
  end.
(** probabilities_from_output, model_mix.py:69-89. *)
Definition mix_probs (subs : list sub) (output : tensor) : result cube :=
  bind (split_tensor (mix_sizes subs) output) (fun parts =>
  bind (mapM (fun sp => sb_probs (fst sp) (snd sp)) (combine subs parts)) pad_and_concat).
(** item_probabilities, model_mix.py:110-125. *)
Definition mix_item_probabilities (subs : list sub) (thetas : list (list R)) : result cube :=
  bind (mix_forward subs thetas) (mix_probs subs).

(** log_likelihood, model_mix.py:127-183. torch.stack of scalars, model_mix.py:181. *)
Definition scalar_of (o : llout) : result fl := match o with Scalar x => Ok x | Cells _ => Err RuntimeError end.
(** torch.cat of vectors, model_mix.py:183. *)
Definition cells_of (o : llout) : result (list fl) := match o with Cells l => Ok l | Scalar _ => Err RuntimeError end.
(** model_mix.py:164-172. *)
Definition split_mask (subs : list sub) (mask : option (wide bool)) : result (list (option (list (list bool)))) :=
  match mask with
  | None => Ok (map (fun _ => None) subs)
  | Some m => rmap (map (fun w => Some (w_rows w))) (split2 (map sb_items subs) m)
  end.
(** model_mix.py:127-183. *)
Definition mix_log_likelihood (subs : list sub) (red : reduction) (data : wide cell) (output : tensor)
    (mask : option (wide bool)) : result llout :=
  bind (split_tensor (mix_sizes subs) output) (fun outs =>
  bind (split2 (map sb_items subs) data) (fun datas =>
  bind (split_mask subs mask) (fun masks =>
  bind (mapM (fun x => let '(s, d, m, o) := x in sb_ll s red (w_rows d) o m)
         (combine (combine (combine subs datas) masks) outs)) (fun lls =>
  match red with
  | RMean => Err NotImplementedError
  | RSum => bind (mapM scalar_of lls) (fun xs => Ok (Scalar (fsum xs)))
  | RNone => bind (mapM cells_of lls) (fun ls => Ok (Cells (concat ls)))
  | ROther => Err OtherError
  end)))).

(** Sub-models built from the library's own classes. The output as rows, base_irt_model.py:249. *)
Definition rows_of (t : tensor) : list (list ext) := match t with T2 w => w_rows w | T3 _ => [] end.
(** Classes using the base log-likelihood and softmax: 1PL, 2PL, GPC, nominal response, MonotoneNN, ... base_irt_model.py:186-201 and 221-264. *)
Definition logit_sub (nanl : Z) (lv : nat) (cats : list nat) (fwd : list (list R) -> list (list ext)) : sub :=
  Sub lv cats (fun th => T2 (Wide (length cats * list_max cats) (fwd th)))
    (fun t => Ok (Cube (length cats) (list_max cats) (probabilities_from_output (length cats) (list_max cats) (rows_of t))))
    (fun red data t mask => base_log_likelihood nanl (list_max cats) red data (rows_of t) mask).
(** generalized_partial_credit.py:102-130 and base_irt_model.py:186-264. *)
Definition gpc_sub nanl (m : poly) : sub := logit_sub nanl (p_lv m) (p_cats m) (gpc_forward m).
(** nominal_response.py:105-134 and base_irt_model.py:186-264. *)
Definition nrm_sub nanl (m : nrm) : sub := logit_sub nanl (nrm_lv m) (nrm_cats m) (nrm_forward m).
(** two_parameter_logistic.py:90-114 and base_irt_model.py:186-264. *)
Definition tpl_sub nanl (m : tpl) : sub := logit_sub nanl (tpl_lv m) (repeat 2%nat (tpl_items m)) (tpl_forward m).
(** graded_response.py:119-214. *)
Definition grm_sub (nanl : Z) (m : poly) : sub :=
  Sub (p_lv m) (p_cats m) (fun th => T2 (Wide (p_items m * p_max m) (grm_forward m th)))
    (fun t => Ok (Cube (p_items m) (p_max m) (some3 (grm_probs (p_items m) (p_max m) (rows_of t)))))
    (fun red data t mask => grm_log_likelihood nanl m red data (rows_of t) mask).
(** The 3PL outputs one probability per item (three_parameter_logistic.py:109-111). three_parameter_logistic.py:157. *)
Definition of_ext (e : ext) : R := match e with Fin x => x | _ => 0 end.
(** three_parameter_logistic.py:109-176. *)
Definition thpl_sub (nanl : Z) (m : thpl) : sub :=
  Sub (thpl_lv m) (repeat 2%nat (thpl_items m))
    (fun th => T2 (Wide (thpl_items m) (map (map Fin) (thpl_forward m th))))
    (fun t => Ok (Cube (thpl_items m) 2 (some3 (thpl_probs (map (map of_ext) (rows_of t))))))
    (fun red data t mask => thpl_log_likelihood nanl red data (map (map of_ext) (rows_of t)) mask).
(** Classes whose output is already the three-dimensional probability table (nested logit,
    surprisal spline): forward and probabilities_from_output return it unchanged. nested_logit.py:160-241 and 303-321, surprisal_spline.py:179-200. *)
Definition table_sub (nanl : Z) (lv : nat) (cats : list nat)
    (fwd : list (list R) -> list (list (list (option R)))) : sub :=
  Sub lv cats (fun th => T3 (Cube (length cats) (list_max cats) (fwd th)))
    (fun t => match t with T3 c => Ok c | T2 _ => Err RuntimeError end)
    (fun red data t mask =>
       match t with
       | T3 c => prob_log_likelihood nanl (list_max cats) red data (cb_rows c) mask
       | T2 _ => Err RuntimeError
       end).
