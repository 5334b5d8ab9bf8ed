(** EAP scores and the MML loss with the exponential a parameter, so that it can underflow.  All else is
    as in M_Est, over exact numbers. *)
From Verif Require Import Base RBase M_Data M_CV M_Logit M_Lik M_Est.
Local Open Scope R_scope.

Section Exponential.
Variable dx : R -> R.
(** [x.exp()]. base_irt_model.py:929 and estimation_algorithms/mml.py:276. *)
Definition fexp_by (a : fl) : fl :=
  match a with Some (Fin x) => Some (Fin (dx x)) | Some NInf => Some (Fin 0) | Some PInf => Some PInf | None => None end.
(** base_irt_model.py:915-935, as [eap_scores]; the exponential of line 929 is in double precision. *)
Definition eap_scores_by (m : emodel) (grid : list (list R)) (log_prior : list fl) (data : wide cell) : result (list (list fl)) :=
  let N := length (w_rows data) in
  let G := length grid in
  bind (em_forward m grid) (fun logits =>
  let data_rep := Wide (w_cols data) (repeat_interleave G (w_rows data)) in
  bind (cat_copies N logits) (fun logits_rep =>
  let grid_rep := tile N grid in
  let prior_rep := tile N log_prior in
  bind (em_ll m RNone data_rep logits_rep (Some (mask_of data_rep))) (fun o =>
  bind (cells_of o) (fun cells =>
  bind (reshape (w_cols data) cells) (fun rows =>
  bind (add_vec prior_rep (map fnansum rows)) (fun lp =>
  bind (reshape G lp) (fun log_posterior =>
  let e := map (map fexp_by) log_posterior in
  let posterior := concat (map (fun r => map (fun x => fdiv x (fsum r)) r) e) in
  let weighted := zip_with (fun t q => map (fun x => fmul (Some (Fin x)) q) t) grid_rep posterior in
  bind (reshape G weighted) (fun per_respondent =>
  Ok (map (fun b => map (fun d => fsum (column None d b)) (seq 0 (em_lv m))) per_respondent))))))))).
(** mml.py:275-277, as [logsumexp_shifted]. *)
Definition logsumexp_by (col : list fl) : fl :=
  let c := fmax col in fadd (flogf (fsum (map (fun x => fexp_by (fsub x c)) col))) c.
(** mml.py:185-188 and 267-277, as [mml_loss]. *)
Definition mml_loss_by (m : emodel) (points : list (list R)) (log_weights : list fl) (data : wide cell) : result fl :=
  let N := length (w_rows data) in
  let Q := length points in
  let combos := repeat_interleave N points in
  let data_rep := Wide (w_cols data) (tile Q (w_rows data)) in
  let lw_rep := repeat_interleave N log_weights in
  bind (em_forward m combos) (fun out =>
  bind (em_ll m RNone data_rep out (Some (mask_of data_rep))) (fun o =>
  bind (cells_of o) (fun cells =>
  bind (reshape (em_items m) cells) (fun rows =>
  bind (add_vec lw_rep (map fnansum rows)) (fun sums =>
  bind (view_rows Q sums) (fun log_sums =>
  Ok (fneg (fsum (map (fun n => logsumexp_by (column None n log_sums)) (seq 0 (length sums / Q))))))))))).
End Exponential.

(** With the exact exponential these are the functions of M_Est. *)
Lemma eap_scores_by_exp : eap_scores_by exp = eap_scores.
Proof. reflexivity. Qed.
Lemma mml_loss_by_exp : mml_loss_by exp = mml_loss.
Proof. reflexivity. Qed.

(** What is assumed of an exponential with relative error d and absolute error u.
    No code: the assumption on torch's exp at base_irt_model.py:929 and mml.py:276. *)
Definition close_exponential (d u : R) (dx : R -> R) : Prop :=
  dx 0 = 1 /\ forall x, x <= 600 -> 0 <= dx x /\ Rabs (dx x - exp x) <= d * exp x + u.
(** The exponential in double precision: relative error 2^-52, absolute error 2^-1074, and 0 from -746 down. *)
Definition double_exponential (dx : R -> R) : Prop :=
  close_exponential (/ IZR (2 ^ 52)) (/ IZR (2 ^ 1074)) dx /\ forall x, x <= -746 -> dx x = 0.
