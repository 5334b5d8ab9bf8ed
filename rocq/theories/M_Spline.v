(** Model of torch_modules/rational_quadratic_spline.py for one variable and one input, and of
    torch_modules/neural_spline_flow.py.  Definitions only.  Floats are reals; the parameters of one
    variable are the rows of the unnormalised parameter tensors. *)
From Verif Require Import Base RBase M_Logit M_Mono.
Local Open Scope R_scope.

(** State, rational_quadratic_spline.py:47-72.  [rq_lo_out], [rq_hi_out] are the current output bounds
    (parameters when free_endpoints is set, 57-62); [rq_slope] is deriv_outside_lower = deriv_outside_upper. *)
Record rqs := { rq_bins : nat; rq_lo : R; rq_hi : R; rq_lo_out : R; rq_hi_out : R;
                rq_min_w : R; rq_min_h : R; rq_min_d : R; rq_slope : R;
                rq_w : list R; rq_h : list R; rq_d : list R }.
(** Constructor, 37-72. *)
Definition rqs_new (bins : nat) (lo hi lo_out hi_out min_w min_h min_d : R) : rqs :=
  {| rq_bins := bins; rq_lo := lo; rq_hi := hi; rq_lo_out := lo_out; rq_hi_out := hi_out;
     rq_min_w := min_w; rq_min_h := min_h; rq_min_d := min_d;
     rq_slope := (hi_out - lo_out) / (hi - lo);
     rq_w := repeat 0 bins; rq_h := repeat 0 bins; rq_d := repeat 0.5405 (bins - 1) |}.

(** F.softmax of a row of finite numbers. rational_quadratic_spline.py:82-89. *)
Definition rsoftmax (l : list R) : list R := map (fun u => exp u / rsum (map exp l)) l.
(** _compute_cumparams, 82-89: cumulative positions and bin sizes. *)
Definition cum_params (bins : nat) (u : list R) (lower upper min_size : R) : list R * list R :=
  let params := map (fun p => min_size + (1 - min_size * INR bins) * p) (rsoftmax u) in
  let cum := map (fun c => (upper - lower) * c + lower) (0 :: rcumsum params) in
  (cum, zip_with Rminus (tl cum) cum).
(** _pad_derivatives, 91-97. *)
Definition pad_derivatives (min_d : R) (d : list R) : list R :=
  let const := ln (exp (1 - min_d) - 1) in const :: d ++ [const].
(** Boundaries with 1e-6 added to the last, 148-154. *)
Definition bump_last (l : list R) : list R := upd (length l - 1) (nth (length l - 1) l 0 + 1 / 1000000) l.
(** Bin index, 157-158: the number of boundaries not above the input, minus one, at most bins - 1.  (Inputs
    that reach this line are not below the first boundary, so the difference is not negative.) *)
Definition bin_index (bins : nat) (boundaries : list R) (x : R) : nat :=
  Nat.min (ctrue (map (fun b => rleb b x) boundaries) - 1) (bins - 1).

(** _rational_quadratic_spline, 135-194. *)
Definition rq_inside (m : rqs) (inverse : bool) (x : R) : result (R * R) :=
  if (if Rlt_dec 1 (rq_min_w m * INR (rq_bins m)) then true else if Rlt_dec 1 (rq_min_h m * INR (rq_bins m)) then true else false)
  then Err ValueError
  else
    let '(cum_w, widths) := cum_params (rq_bins m) (rq_w m) (rq_lo m) (rq_hi m) (rq_min_w m) in
    let '(cum_h, heights) := cum_params (rq_bins m) (rq_h m) (rq_lo_out m) (rq_hi_out m) (rq_min_h m) in
    let derivs := map (fun d => rq_min_d m + softplus d) (pad_derivatives (rq_min_d m) (rq_d m)) in
    let delta := zip_with Rdiv heights widths in
    let k := bin_index (length (rq_w m)) (bump_last (if inverse then cum_h else cum_w)) x in
    let cw := nth k cum_w 0 in
    let w := nth k widths 0 in
    let ch := nth k cum_h 0 in
    let s := nth k delta 0 in
    let d0 := nth k derivs 0 in
    let d1 := nth k (tl derivs) 0 in
    let h := nth k heights 0 in
    if inverse then
      let a := (x - ch) * (d0 + d1 - 2 * s) + h * (s - d0) in
      let b := h * d0 - (x - ch) * (d0 + d1 - 2 * s) in
      let c := - s * (x - ch) in
      let disc := b ^ 2 - 4 * a * c in
      let root := 2 * c / (- b - sqrt disc) in
      let theta1mt := root * (1 - root) in
      let denom := s + (d0 + d1 - 2 * s) * theta1mt in
      let num := s ^ 2 * (d1 * root ^ 2 + 2 * s * theta1mt + d0 * (1 - root) ^ 2) in
      Ok (root * w + cw, - (ln num - 2 * ln denom))
    else
      let theta := (x - cw) / w in
      let theta1mt := theta * (1 - theta) in
      let num := h * (s * theta ^ 2 + d0 * theta1mt) in
      let denom := s + (d0 + d1 - 2 * s) * theta1mt in
      let num_deriv := s ^ 2 * (d1 * theta ^ 2 + 2 * s * theta1mt + d0 * (1 - theta) ^ 2) in
      Ok (ch + num / denom, ln num_deriv - 2 * ln denom).
(** _spline_transform, 99-133. *)
Definition rq_transform (m : rqs) (inverse : bool) (x : R) : result (R * R) :=
  let lb := if inverse then rq_lo_out m else rq_lo m in
  let ub := if inverse then rq_hi_out m else rq_hi m in
  let lb_out := if inverse then rq_lo m else rq_lo_out m in
  let ub_out := if inverse then rq_hi m else rq_hi_out m in
  let lower := if inverse then lb_out + (x - lb) / rq_slope m else lb_out + (x - lb) * rq_slope m in
  let upper := if inverse then ub_out + (x - ub) / rq_slope m else ub_out + (x - ub) * rq_slope m in
  if Rlt_dec ub x then Ok (upper, 0)
  else if Rlt_dec x lb then Ok (lower, 0)
  else rq_inside m inverse x.

(** NeuralSplineFlow, neural_spline_flow.py:36-37, 53-55, 76-77; [log_density] is the base distribution's
    log_prob. *)
Definition flow_forward (m : rqs) (x : R) : result R := bind (rq_transform m false x) (fun '(y, _) => Ok y).
(** log_prob, neural_spline_flow.py:53-55. *)
Definition flow_log_prob (m : rqs) (log_density : R -> R) (x : R) : result R :=
  bind (rq_transform m false x) (fun '(y, ld) => Ok (log_density y + ld)).
(** neural_spline_flow.py:76-77. *)
Definition flow_inverse (m : rqs) (y : R) : result R := bind (rq_transform m true y) (fun '(x, _) => Ok x).
