(** Model of the loss of joint maximum likelihood, irtorch/estimation_algorithms/jml.py.  Definitions only. *)
From Verif Require Import Base RBase M_Data M_Logit M_Lik M_Est M_Opt.
Import List.
Local Open Scope R_scope.

(** One step of _training_loop, jml.py:157-158: [thetas] the scores of the batch, training_theta_scores[idx]; the mask is
    that of the dataset (irt_dataset.py:33-36). *)
Definition jml_loss (m : emodel) (data : wide cell) (thetas : list (list R)) : result fl :=
  bind (em_forward m thetas) (fun out =>
  bind (em_ll m RSum data out (Some (mask_of data))) (fun o =>
  bind (scalar_of o) (fun ll => Ok (fneg ll)))).
