(** Model of the training loops: irtorch/estimation_algorithms/{jml,mml,ae}.py and the fit methods of
    irtorch/rescale/{flow,link_common_items}.py.  Definitions only.  What is trained (parameters, latent scores, running
    statistics, optimizer moments) is an arbitrary type; the loss and the gradient step are arbitrary functions of it. *)
From Verif Require Import Base RBase M_Lik M_Est M_Stat.
Local Open Scope R_scope.

(** [for x in l: ...] with a [break] at the end of the body when the flag is set. jml.py:154-188, mml.py:196-226. *)
Fixpoint for_loop {X St} (body : X -> St -> St * bool) (l : list X) (st : St) : St :=
  match l with
  | [] => st
  | x :: l' => let '(st', brk) := body x st in if brk then st' else for_loop body l' st'
  end.
(** The same with a body that may raise. ae.py:187-192 and 223-267, rescale/flow.py:135-170, link_common_items.py:177-214. *)
Fixpoint for_loop_r {X St} (body : X -> St -> result (St * bool)) (l : list X) (st : St) : result St :=
  match l with
  | [] => Ok st
  | x :: l' => bind (body x st) (fun '(st', brk) => if brk then Ok st' else for_loop_r body l' st')
  end.
(** [for epoch in range(n)]. jml.py:154, mml.py:196, ae.py:187, rescale/flow.py:135. *)
Definition range (n : Z) : list nat := seq 0 (Z.to_nat n).

(** ** External: torch.optim.lr_scheduler.ReduceLROnPlateau(mode="min", threshold_mode="rel", cooldown=0, min_lr=0,
    eps=1e-8); the learning rate lives in the optimizer. *)
Record schedule := Schedule { sc_factor : R; sc_patience : nat; sc_threshold : R }.
(** Its state; called at jml.py:166, mml.py:206, ae.py:250, rescale/flow.py:155. *)
Record plateau := Plateau { pl_best : fl; pl_bad : nat; pl_lr : R }.
(** Its construction, jml.py:94-96, mml.py:126-133, ae.py:149-155, rescale/flow.py:127-129. *)
Definition plateau_new (lr : R) : plateau := Plateau (Some PInf) 0 lr.
(** [scheduler.step(loss)], jml.py:166, rescale/flow.py:155. *)
Definition plateau_step (c : schedule) (p : plateau) (l : fl) : plateau :=
  let better := flt l (fmul (pl_best p) (Some (Fin (1 - sc_threshold c)))) in
  let best := if better then l else pl_best p in
  let bad := if better then O else S (pl_bad p) in
  if (sc_patience c <? bad)%nat
  then let lr := Rmax (pl_lr p * sc_factor c) 0 in
       Plateau best 0 (if Rlt_dec (/ 100000000) (pl_lr p - lr) then lr else pl_lr p)
  else Plateau best bad (pl_lr p).
(** [current_lr != prev_lr], jml.py:179, rescale/flow.py:159. *)
Definition differs (a b : R) : bool := if Req_EM_T a b then false else true.
(** [lr_update_count >= learning_rate_updates_before_stopping], jml.py:181 and 187, rescale/flow.py:163. *)
Definition reached_limit (limit : Z) (count : nat) : bool := (limit <=? Z.of_nat count)%Z.
(** [torch.isnan(loss)], rescale/flow.py:139 and 167. *)
Definition is_none {A} (a : option A) : bool := match a with None => true | _ => false end.

Section Training.
  Context {W B : Type}.
  (** The loss of a batch at the current state, and the state after backward() and optimizer.step(). *)
  Variables (loss : B -> W -> fl) (update : B -> R -> W -> W).

  (** ** JML._training_loop, jml.py:146-195, and MML._training_loop, mml.py:183-236 (with _train_step, 267-283) *)
  Record tstate := TState {
    t_w : W; t_plateau : plateau; t_history : list fl;
    t_best : fl; t_best_epoch : nat; t_saved : option (W * R);   (* state_dict and optimizer state with its rate *)
    t_count : nat; t_prev : R }.
  (** jml.py:146-152, mml.py:183-195. *)
  Definition t_start (lr : R) (w : W) : tstate := TState w (plateau_new lr) [] (Some PInf) 0 None 0 lr.
  (** jml.py:155-184, one batch. *)
  Definition jml_batch (c : schedule) (limit : Z) (epoch : nat) (b : B) (t : tstate) : tstate * bool :=
    let l := loss b (t_w t) in
    let w' := update b (pl_lr (t_plateau t)) (t_w t) in
    let p' := plateau_step c (t_plateau t) l in
    let better := flt l (t_best t) in
    let changed := differs (pl_lr p') (t_prev t) in
    let count := if changed then S (t_count t) else t_count t in
    let stop := (changed && reached_limit limit count)%bool in
    (TState w' p' (t_history t ++ [l])
       (if better then l else t_best t) (if better then epoch else t_best_epoch t)
       (if better then Some (w', pl_lr p') else t_saved t)
       count (if (changed && negb stop)%bool then pl_lr p' else t_prev t), stop).
  (** jml.py:154-188. *)
  Definition jml_loop (c : schedule) (limit max_epochs : Z) (batches : list B) (t : tstate) : tstate :=
    for_loop (fun epoch t => let t' := for_loop (jml_batch c limit epoch) batches t in (t', reached_limit limit (t_count t')))
             (range max_epochs) t.
  (** mml.py:196-226, one epoch. *)
  Definition mml_epoch (c : schedule) (limit : Z) (data : B) (epoch : nat) (t : tstate) : tstate * bool :=
    let l := loss data (t_w t) in
    let w' := update data (pl_lr (t_plateau t)) (t_w t) in
    let p' := plateau_step c (t_plateau t) l in
    let better := flt l (t_best t) in
    let changed := differs (pl_lr p') (t_prev t) in
    let count := if changed then S (t_count t) else t_count t in
    (TState w' p' (t_history t ++ [l])
       (if better then l else t_best t) (if better then epoch else t_best_epoch t)
       (if better then Some (w', pl_lr p') else t_saved t)
       count (if changed then pl_lr p' else t_prev t), reached_limit limit count).
  (** mml.py:196-226. *)
  Definition mml_loop (c : schedule) (limit max_epochs : Z) (data : B) (t : tstate) : tstate :=
    for_loop (mml_epoch c limit data) (range max_epochs) t.
  (** Lines 191-195 and 233-236: what is left in the model (and the latent scores), the optimizer's rate, the recorded
      losses and the reported best epoch. *)
  Record trained := Trained { tr_w : W; tr_lr : R; tr_history : list fl; tr_best_epoch : nat }.
  (** jml.py:191-195, mml.py:233-236. *)
  Definition t_result (t : tstate) : trained :=
    match t_saved t with
    | Some (w, lr) => Trained w lr (t_history t) (t_best_epoch t)
    | None => Trained (t_w t) (pl_lr (t_plateau t)) (t_history t) (t_best_epoch t)
    end.
  (** fit: factor 0.5, threshold 1e-4 (torch's default), jml.py:94-96. *)
  Definition jml_train (lr : R) (patience : nat) (limit max_epochs : Z) (batches : list B) (w : W) : trained :=
    t_result (jml_loop (Schedule (1 / 2) patience (1 / 10000)) limit max_epochs batches (t_start lr w)).
  (** factor 0.6, threshold 5e-5, mml.py:126-133. *)
  Definition mml_train (lr : R) (patience : nat) (limit max_epochs : Z) (data : B) (w : W) : trained :=
    t_result (mml_loop (Schedule (6 / 10) patience (5 / 100000)) limit max_epochs data (t_start lr w)).

  (** ** AE (and VAE), ae.py:167-270.  [small] marks batches of fewer than four respondents, [norm] batch normalisation,
      [loader epoch] the shuffled batches of an epoch (with the draws made for them).  [loss] is NaN also when all
      outputs are (292-297). *)
  Record astate := AState {
    a_w : W; a_plateau : plateau; a_total : nat; a_window : list fl; a_history : list fl;
    a_best : fl; a_best_iteration : nat; a_saved : option (W * R); a_count : nat }.
  (** ae.py:167-186. *)
  Definition a_start (lr : R) (w : W) : astate := AState w (plateau_new lr) 0 [] [] (Some PInf) 0 None 0.
  (** Lines 242-244. *)
  Definition push (interval : nat) (window : list fl) (l : fl) : list fl :=
    let window := window ++ [l] in if (interval <? length window)%nat then tl window else window.
  (** Line 247. *)
  Definition due (interval total : nat) : bool := ((total mod interval =? 0)%nat && negb (total =? 1)%nat)%bool.
  (** Lines 223-267, one batch: state, the local learning_rate and epoch_mean_loss, and the outcome of the epoch when
      the loss is NaN. *)
  Definition ae_batch (c : schedule) (limit : Z) (interval : nat) (norm : bool) (small : B -> bool) (b : B)
      (s : astate * R * fl * bool) : result (astate * R * fl * bool * bool) :=
    let '(a, lr, acc, _) := s in
    if (small b && norm)%bool then Ok (a, lr, acc, false, false)
    else
      let l := loss b (a_w a) in
      if is_none l then Ok (a, lr, acc, true, true)
      else if (interval =? 0)%nat then Err ZeroDivisionError
      else
        let w' := update b (pl_lr (a_plateau a)) (a_w a) in
        let total := S (a_total a) in
        let window := push interval (a_window a) l in
        if due interval total
        then
          let mean := fmean window in
          let p' := plateau_step c (a_plateau a) mean in
          let changed := differs lr (pl_lr p') in
          let count := if changed then S (a_count a) else a_count a in
          let better := flt mean (a_best a) in
          Ok (AState w' p' total window (a_history a ++ [mean])
                (if better then mean else a_best a) (if better then total else a_best_iteration a)
                (if better then Some (w', pl_lr p') else a_saved a) count,
              (if changed then pl_lr p' else lr), fadd acc l, false, reached_limit limit count)
        else Ok (AState w' (a_plateau a) total window (a_history a) (a_best a) (a_best_iteration a) (a_saved a) (a_count a),
                 lr, fadd acc l, false, false).
  (** _train_step, 201-270: the state and the value returned (NaN when a batch loss was). *)
  Definition ae_epoch (c : schedule) (limit : Z) (interval : nat) (norm : bool) (small : B -> bool) (batches : list B)
      (a : astate) : result (astate * fl) :=
    bind (for_loop_r (ae_batch c limit interval norm small) batches (a, pl_lr (a_plateau a), Some (Fin 0), false))
         (fun '(a', _, acc, nan) => Ok (a', if nan : bool then None else fdiv_nat acc (length batches))).
  (** _training_loop, 187-192. *)
  Definition ae_loop (c : schedule) (limit max_epochs : Z) (interval : nat) (norm : bool) (small : B -> bool)
      (loader : nat -> list B) (a : astate) : result astate :=
    for_loop_r (fun epoch a => bind (ae_epoch c limit interval norm small (loader epoch) a) (fun '(a', l) =>
                               Ok (a', (is_none l || reached_limit limit (a_count a'))%bool)))
               (range max_epochs) a.
  (** Lines 194-199. *)
  Definition a_result (a : astate) : trained :=
    match a_saved a with
    | Some (w, lr) => Trained w lr (a_history a) (a_best_iteration a)
    | None => Trained (a_w a) (pl_lr (a_plateau a)) (a_history a) (a_best_iteration a)
    end.
  (** fit: factor 0.6, patience 1, ae.py:149-155 and vae.py:146-152. *)
  Definition ae_train (lr : R) (limit max_epochs : Z) (interval : nat) (norm : bool) (small : B -> bool)
      (loader : nat -> list B) (w : W) : result trained :=
    rmap a_result (ae_loop (Schedule (6 / 10) 1 (1 / 10000)) limit max_epochs interval norm small loader (a_start lr w)).

  (** ** Flow.fit, flow.py:124-172, and LinkCommonItems.fit, link_common_items.py:164-215: the last state is kept.
      [f_nan]: the loss just computed is NaN. *)
  Record fstate := FState { f_w : W; f_plateau : plateau; f_total : nat; f_window : list fl; f_lr : R; f_count : nat; f_nan : bool }.
  (** rescale/flow.py:124-134, link_common_items.py:164-176. *)
  Definition f_start (lr : R) (w : W) : fstate := FState w (plateau_new lr) 0 [] lr 0 false.
  (** rescale/flow.py:137-165, link_common_items.py:179-209. *)
  Definition flow_batch (c : schedule) (limit : Z) (interval : nat) (b : B) (f : fstate) : result (fstate * bool) :=
    let l := loss b (f_w f) in
    if is_none l then Ok (FState (f_w f) (f_plateau f) (f_total f) (f_window f) (f_lr f) (f_count f) true, true)
    else if (interval =? 0)%nat then Err ZeroDivisionError
    else
      let w' := update b (pl_lr (f_plateau f)) (f_w f) in
      let total := S (f_total f) in
      let window := push interval (f_window f) l in
      let p' := if due interval total then plateau_step c (f_plateau f) (fmean window) else f_plateau f in
      let changed := differs (f_lr f) (pl_lr p') in
      let count := if changed then S (f_count f) else f_count f in
      Ok (FState w' p' total window (if changed then pl_lr p' else f_lr f) count false, reached_limit limit count).
  (** rescale/flow.py:135-172, link_common_items.py:177-216. *)
  Definition flow_loop (c : schedule) (limit max_epochs : Z) (interval : nat) (loader : nat -> list B) (f : fstate) : result fstate :=
    for_loop_r (fun epoch f => bind (for_loop_r (flow_batch c limit interval) (loader epoch) f) (fun f' =>
                               Ok (f', (f_nan f' || reached_limit limit (f_count f'))%bool)))
               (range max_epochs) f.
  (** rescale/flow.py:124-172, link_common_items.py:164-216. *)
  Definition flow_train (lr : R) (limit max_epochs : Z) (interval : nat) (loader : nat -> list B) (w : W) : result W :=
    rmap f_w (flow_loop (Schedule (6 / 10) 1 (1 / 10000)) limit max_epochs interval loader (f_start lr w)).
End Training.
