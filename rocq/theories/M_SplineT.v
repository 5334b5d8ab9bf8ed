(** Model of torch_modules/rational_quadratic_spline.py for matrices of inputs, of its figure, and of the standardisation of
    rescale/flow.py.  Definitions only.  A cell is a number or NaN ([None]); infinite inputs are not modelled. *)
From Verif Require Import Base RBase M_Data M_Logit M_Mono M_Est M_Spline.
Import List.
Local Open Scope R_scope.

(** A spline for several variables, 47-72: the scalars of [sv_spline], and one row of unnormalised parameters per variable. *)
Record splines := { sv_spline : rqs; sv_w : list (list R); sv_h : list (list R); sv_d : list (list R) }.
(** The scalars with the parameter rows of one variable, rational_quadratic_spline.py:47-72. *)
Definition with_rows (m : rqs) (w h d : list R) : rqs :=
  {| rq_bins := rq_bins m; rq_lo := rq_lo m; rq_hi := rq_hi m; rq_lo_out := rq_lo_out m; rq_hi_out := rq_hi_out m;
     rq_min_w := rq_min_w m; rq_min_h := rq_min_h m; rq_min_d := rq_min_d m; rq_slope := rq_slope m; rq_w := w; rq_h := h; rq_d := d |}.
(** Comparisons with NaN are false; arithmetic with NaN is NaN. [inputs < lower], rational_quadratic_spline.py:99-133. *)
Definition below_c (b : R) (x : option R) : bool := match x with Some x => if Rlt_dec x b then true else false | None => false end.
(** [inputs > upper], rational_quadratic_spline.py:99-133. *)
Definition above_c (b : R) (x : option R) : bool := match x with Some x => if Rlt_dec b x then true else false | None => false end.
(** [torch.where], rational_quadratic_spline.py:99-133. *)
Definition where_ {A} (mask : list bool) (yes no : list A) : list A := zip_with (fun (b : bool) yn => if b then fst yn else snd yn) mask (combine yes no).
(** _rational_quadratic_spline, 135-194, for the selected inputs, each with the parameter rows selected with it.  The check of
    the bin sizes comes first; a NaN falls into bin -1, which [clamp(max=...)] (158) keeps and [gather] (161) refuses. *)
Definition rq_selected (m : rqs) (inverse : bool) (xs : list (option R)) (ws hs ds : list (list R)) : result (list (R * R)) :=
  if (if Rlt_dec 1 (rq_min_w m * INR (rq_bins m)) then true else if Rlt_dec 1 (rq_min_h m * INR (rq_bins m)) then true else false)
  then Err ValueError
  else mapM (fun xp : option R * (list R * (list R * list R)) =>
         match fst xp with
         | None => Err RuntimeError
         | Some x => let '(w, (h, d)) := snd xp in rq_inside (with_rows m w h d) inverse x
         end) (combine xs (combine ws (combine hs ds))).
(** forward, 74-80, and _spline_transform, 99-133.  [cols] is the number of columns of the inputs.  The parameters are repeated
    for every row; indexing them with the mask needs as many variables as columns. *)
Definition splines_forward (m : splines) (inverse : bool) (cols : nat) (inputs : list (list (option R))) : result (list (list (option R)) * list (list (option R))) :=
  let s := sv_spline m in
  let lb := if inverse then rq_lo_out s else rq_lo s in
  let ub := if inverse then rq_hi_out s else rq_hi s in
  let lb_out := if inverse then rq_lo s else rq_lo_out s in
  let ub_out := if inverse then rq_hi s else rq_hi_out s in
  let lower_trans := option_map (fun x => if inverse then lb_out + (x - lb) / rq_slope s else lb_out + (x - lb) * rq_slope s) in
  let upper_trans := option_map (fun x => if inverse then ub_out + (x - ub) / rq_slope s else ub_out + (x - ub) * rq_slope s) in
  let bs := length inputs in
  let xs := concat inputs in
  let below := map (below_c lb) xs in
  let above := map (above_c ub) xs in
  let inside := zip_with (fun a b => negb (a || b)) below above in
  let zeros := map (fun _ => Some 0) xs in
  let outputs := where_ above (map upper_trans xs) (where_ below (map lower_trans xs) zeros) in
  let logabsdet := where_ (map negb inside) zeros zeros in
  let rows (l : list (option R)) := map (fun i => firstn cols (skipn (i * cols) l)) (seq 0 bs) in
  if existsb (fun b => b) inside then
    if (length (sv_w m) =? cols)%nat then
      bind (rq_selected s inverse (mask_select inside xs) (mask_select inside (concat (repeat (sv_w m) bs)))
              (mask_select inside (concat (repeat (sv_h m) bs))) (mask_select inside (concat (repeat (sv_d m) bs)))) (fun vs =>
      Ok (rows (mask_scatter inside (map (fun v => Some (fst v)) vs) outputs), rows (mask_scatter inside (map (fun v => Some (snd v)) vs) logabsdet)))
    else Err IndexError
  else Ok (rows outputs, rows logabsdet).

(** plot_spline, 196-227: the points of the line and the knots of variable [idx]. *)
Definition plot_spline (m : splines) (points : nat) (idx : Z) : result (list (R * option R) * list (R * R)) :=
  let s := sv_spline m in
  let V := length (sv_w m) in
  let x := linspace (rq_lo s) (rq_hi s) points in
  bind (splines_forward m false V (map (fun v => repeat (Some v) V) x)) (fun yl =>
  match norm_index V idx with
  | None => Err IndexError
  | Some j =>
      let y := map (fun row => nth j row None) (fst yl) in
      let cw := map (fun u => fst (cum_params (rq_bins s) u (rq_lo s) (rq_hi s) (rq_min_w s))) (sv_w m) in
      let ch := map (fun u => fst (cum_params (rq_bins s) u (rq_lo_out s) (rq_hi_out s) (rq_min_h s))) (sv_h m) in
      Ok (combine x y, combine (nth j cw []) (nth j ch []))
  end).

(** flow.py:121-123: the scores of the population standardised column by column, [std] with n - 1; NaN for a single row or a
    constant column. *)
Definition column_std (c : list R) : option R :=
  if (length c =? 1)%nat then None else Some (sqrt (rsum (map (fun x => (x - rmean c) ^ 2) c) / (INR (length c) - 1))).
(** The quotient of rescale/flow.py:123. *)
Definition div_by (x : R) (s : option R) : option R := match s with None => None | Some s => if Req_EM_T s 0 then None else Some (x / s) end.
(** rescale/flow.py:121-123. *)
Definition flow_standardised (lv : nat) (theta : list (list R)) : list (list (option R)) :=
  map (fun t => map (fun d => div_by (nth d t 0 - rmean (column 0 d theta)) (column_std (column 0 d theta))) (seq 0 lv)) theta.
(** flow.py:138 for one batch: the log-densities of which the loss is the mean. *)
Definition flow_batch_log_prob (m : splines) (log_density : R -> R) (lv : nat) (batch : list (list (option R))) : result (list (list (option R))) :=
  bind (splines_forward m false lv batch) (fun yl =>
  Ok (zip_with (zip_with (fun y l => match y, l with Some y, Some l => Some (log_density y + l) | _, _ => None end)) (fst yl) (snd yl))).
