(** Model of the optimizer used by every fit method and of MML.fit around it: irtorch/estimation_algorithms/mml.py.
    Definitions only.  Real numbers for floats. *)
From Verif Require Import Base RBase M_Data M_CV M_Logit M_Lik M_Est M_Train M_Mix M_Quad.
Import List.
Local Open Scope R_scope.

(** ** External: torch.optim.Adam(parameters, lr, amsgrad=True), betas (0.9, 0.999), eps 1e-8 (mml.py:109-111, jml.py:90-92,
    ae.py:142-144).  All parameter tensors one after another in one list; the state holds the parameters, the number of steps and
    the running averages exp_avg, exp_avg_sq, max_exp_avg_sq, which start at zero. *)
Record adam := Adam { ad_x : list R; ad_step : nat; ad_avg : list R; ad_sq : list R; ad_max : list R }.
(** Construction of the optimizer (mml.py:109-111, jml.py:90-92, ae.py:142-144). *)
Definition adam_new (x : list R) : adam := Adam x 0 (repeat 0 (length x)) (repeat 0 (length x)) (repeat 0 (length x)).
(** optimizer.step() of torch's Adam with amsgrad (called at mml.py:280, jml.py:160, ae.py:235). *)
Definition adam_step (lr : R) (g : list R) (s : adam) : adam :=
  let k := S (ad_step s) in
  let avg := zip_with (fun m gk => m + (gk - m) * (1 / 10)) (ad_avg s) g in
  let sq := zip_with (fun v gk => v * (999 / 1000) + gk * gk * (1 / 1000)) (ad_sq s) g in
  let mx := zip_with Rmax (ad_max s) sq in
  let size := lr / (1 - (9 / 10) ^ k) in
  let denom := map (fun v => sqrt v / sqrt (1 - (999 / 1000) ^ k) + 1 / 100000000) mx in
  Adam (zip_with (fun x st => x - size * st) (ad_x s) (zip_with Rdiv avg denom)) k avg sq mx.

(** ** _train_step, mml.py:238-283, as a function of the parameters: [build p] is the model with the parameters [p].
    Simplification: an exception is a NaN loss (C30: none is raised for the models of the library). *)
Definition step_loss (build : list R -> emodel) (points : list (list R)) (lw : list fl) (data : wide cell) (p : list R) : fl :=
  match mml_loss (build p) points lw data with Ok v => v | Err _ => None end.
(** mml.py:87-151, MML.fit: the rule, the optimizer and the loop.  [autograd] is loss.backward(): the gradient at the parameters.
    The result holds the optimizer with the parameters left in the model. *)
Definition mml_fit_parameters (hermgauss : nat -> list R * list R) (autograd : list (list R) -> list fl -> list R -> list R) (use_gauss_hermite : bool)
    (requested : option nat) (cov : option (wide R)) (lr : R) (patience : nat) (limit max_epochs : Z) (build : list R -> emodel) (lv : nat) (data : wide cell)
    (start : list R) : result (trained (W := adam)) :=
  bind (mml_rule hermgauss use_gauss_hermite lv requested cov) (fun pw =>
  Ok (mml_train (fun d s => step_loss build (fst pw) (snd pw) d (ad_x s)) (fun _ rate s => adam_step rate (autograd (fst pw) (snd pw) (ad_x s)) s)
        lr patience limit max_epochs data (adam_new start))).
