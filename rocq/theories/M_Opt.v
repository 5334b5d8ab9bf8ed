(** Model of the loss minimised by the ML and MAP scores, models/base_irt_model.py.  Definitions only. *)
From Verif Require Import Base RBase M_Data M_Logit M_Lik M_Est.
Import List.
Local Open Scope R_scope.

(** [loss.item()] needs a single number. base_irt_model.py:840. *)
Definition scalar_of (o : llout) : result fl := match o with Scalar x => Ok x | Cells _ => Err RuntimeError end.
(** The loss of closure() and of the loop, _ml_map_theta_scores 821-828 and 835-840.  [prior]: the log density of the
    multivariate normal of lines 788-797 for MAP, [None] for ML. *)
Definition scoring_loss (m : emodel) (prior : option (list R -> R)) (data : wide cell) (thetas : list (list R)) : result fl :=
  bind (em_forward m thetas) (fun out =>
  bind (em_ll m RSum data out (Some (mask_of data))) (fun o =>
  bind (scalar_of o) (fun ll =>
  Ok (match prior with
      | None => fneg ll
      | Some lp => fsub (fneg ll) (Some (Fin (rsum (map lp thetas))))
      end)))).
(** The loop 832-848 over the states of the optimiser, whose [step] is a call of optimizer.step(closure); [loss] reads the
    loss at the scores of a state; [numel]: data.numel(); [last]: loss_history[-1].  The final state. *)
Fixpoint scoring_loop {S} (step : S -> S) (loss : S -> R) (numel : nat) (fuel : nat) (last : option R) (s : S) : S :=
  match fuel with
  | O => s
  | S fuel' =>
      let s := step s in
      let l := loss s in
      match last with
      | Some l0 => if Rlt_dec (Rabs (l - l0) / INR numel) (/ 10 ^ 8) then s else scoring_loop step loss numel fuel' (Some l) s
      | None => scoring_loop step loss numel fuel' (Some l) s
      end
  end.
(** max_iter, base_irt_model.py:805-811. *)
Definition scoring_iterations (cuda : bool) : nat := if cuda then 50 else 40.
