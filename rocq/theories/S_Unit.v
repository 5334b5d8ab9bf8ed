(** Vocabulary for hidden units of the monotone neural network that start alike. *)
From Verif Require Import Base RBase M_Data M_CV M_Logit M_Mono M_Lik M_Est M_Train M_Mix M_Quad M_Adam S_Logit S_Mono S_Twin.
Import List.
Local Open Scope R_scope.

(** The parameters of a network as one list, and the network with other parameters. *)
Definition layer_parameters (l : spl) : list R := sl_raw l ++ sl_bias l.
Definition layers_parameters (ls : list spl) : list R := concat (map layer_parameters ls).
Definition net_parameters (m : mnn) : list R := layers_parameters (concat (n_layers m)) ++ n_bias m ++ concat (n_neg m).
Definition with_layer (l : spl) (p : list R) : spl :=
  {| sl_in := sl_in l; sl_out := sl_out l; sl_softplus := sl_softplus l; sl_zero_out := sl_zero_out l; sl_free := sl_free l;
     sl_raw := firstn (length (sl_raw l)) p; sl_bias := firstn (length (sl_bias l)) (skipn (length (sl_raw l)) p) |}.
Fixpoint with_layers (ls : list spl) (p : list R) : list spl :=
  match ls with [] => [] | l :: ls' => with_layer l p :: with_layers ls' (skipn (length (layer_parameters l)) p) end.
Fixpoint with_stacks (lss : list (list spl)) (p : list R) : list (list spl) :=
  match lss with [] => [] | ls :: lss' => with_layers ls p :: with_stacks lss' (skipn (length (layers_parameters ls)) p) end.
Fixpoint with_rows (rows : list (list R)) (p : list R) : list (list R) :=
  match rows with [] => [] | r :: rows' => firstn (length r) p :: with_rows rows' (skipn (length r) p) end.
Definition with_net (m : mnn) (p : list R) : mnn :=
  let a := length (layers_parameters (concat (n_layers m))) in
  {| n_cats := n_cats m; n_lv := n_lv m; n_rel := n_rel m; n_hidden := n_hidden m; n_sep_items := n_sep_items m; n_negative := n_negative m;
     n_bounded := n_bounded m; n_key := n_key m; n_bias := firstn (length (n_bias m)) (skipn a p);
     n_layers := with_stacks (n_layers m) p; n_neg := with_rows (n_neg m) (skipn (length (n_bias m)) (skipn a p)) |}.

(** The number of activation functions the hidden units take in turn. *)
Definition kinds (bounded : bool) : nat := if bounded then 3%nat else 2%nat.
(** Units [o] and [o'] of a layer with [h] units for every item or category belong to the same one and have the same activation function. *)
Definition same_kind (bounded : bool) (h o o' : nat) : Prop := (o / h = o' / h /\ o mod kinds bounded = o' mod kinds bounded)%nat.
(** The values of the units of hidden layer [k] of latent variable [d] when the latent variable is [t]. *)
Definition unit_values (m : mnn) (d k : nat) (t : R) : list R :=
  match run_layers (n_bounded m) (firstn (S k) (nth d (n_layers m) [])) [t] with Ok y => y | Err _ => [] end.
(** Units of the same kind are copies of each other. *)
Definition copies (m : mnn) : Prop :=
  forall d k o o' t, (d < n_lv m)%nat -> (k < length (n_hidden m))%nat -> let h := nth k (n_hidden m) O in
  (o < n_separations m * h)%nat -> (o' < n_separations m * h)%nat -> same_kind (n_bounded m) h o o' ->
  nth o (unit_values m d k t) 0 = nth o' (unit_values m d k t) 0.

(** [p] is what one of the training loops leaves in the optimizer. *)
Definition trained_by {B} (loss : B -> adam -> fl) (autograd : B -> list R -> list R) (start p : list R) : Prop :=
  let update b rate s := adam_step rate (autograd b (ad_x s)) s in
  (exists lr patience limit epochs data, p = ad_x (tr_w (mml_train loss update lr patience limit epochs data (adam_new start)))) \/
  (exists lr patience limit epochs batches, p = ad_x (tr_w (jml_train loss update lr patience limit epochs batches (adam_new start)))) \/
  (exists lr limit epochs interval norm small loader r, ae_train loss update lr limit epochs interval norm small loader (adam_new start) = Ok r /\ p = ad_x (tr_w r)).
(** The loss of a batch, whatever it is, sees the network through its outputs; [rest] are the other trained numbers (latent scores, encoder weights). *)
Definition batch_loss {B} (m : mnn) (loss : B -> list R -> (list R -> result (list ext)) -> R) (b : B) (p : list R) : R :=
  loss b (skipn (length (net_parameters m)) p) (mnn_forward1 (with_net m p)).
(** Minus the log-likelihood of answers at given latent scores. *)
Definition weight_of (e : ext) : R := match e with Fin v => exp v | _ => 0 end.
Definition surprise (M : nat) (z : list ext) (i x : nat) : R :=
  ln (sumn M (fun k => weight_of (nth (i * M + k) z NInf))) - match nth (i * M + x) z NInf with Fin v => v | _ => 0 end.
Definition cross_entropy (M : nat) (data : list (list R * list nat)) (f : list R -> result (list ext)) : R :=
  rsum (map (fun r => match f (fst r) with Ok z => rsum (map (fun ix => surprise M z (fst ix) (snd ix)) (combine (seq 0 (length (snd r))) (snd r))) | Err _ => 0 end) data).
(** The losses of the estimation algorithms: latent scores among the trained numbers (joint maximum likelihood; a batch is a list of row numbers with
    their answers), and weighted latent scores (marginal maximum likelihood). *)
Definition score_of (lv : nat) (rest : list R) (j : nat) : list R := map (fun d => nth (j * lv + d) rest 0) (seq 0 lv).
Definition joint_loss (M lv : nat) (b : list (nat * list nat)) (rest : list R) (f : list R -> result (list ext)) : R :=
  cross_entropy M (map (fun r => (score_of lv rest (fst r), snd r)) b) f.
Definition marginal_loss (M : nat) (points : list (R * list R)) (b : list (list nat)) (rest : list R) (f : list R -> result (list ext)) : R :=
  - rsum (map (fun answers => ln (rsum (map (fun q => fst q * exp (- cross_entropy M [(snd q, answers)] f)) points))) b).
