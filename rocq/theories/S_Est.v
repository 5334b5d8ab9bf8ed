(** Specification vocabulary for estimation. *)
From Verif Require Import Base RBase M_Data M_Logit M_Lik M_Est S_Logit S_Lik.
Local Open Scope R_scope.

Fixpoint rprod (l : list R) : R := match l with [] => 1 | x :: l' => x * rprod l' end.

(** The answer in a data cell; NaN and -1 mean missing. *)
Definition answer (c : cell) : option nat :=
  match c with Some z => if (z =? -1)%Z then None else Some (Z.to_nat z) | None => None end.
(** Every cell is missing or holds one of its item's categories. *)
Definition legal_row (cats : list nat) (row : list cell) : Prop :=
  length row = length cats /\
  forall i c, nth_error row i = Some c ->
    c = None \/ c = Some (-1)%Z \/ exists k, c = Some (Z.of_nat k) /\ (k < nth i cats O)%nat.
Definition legal_data (cats : list nat) (data : list (list cell)) : Prop := Forall (legal_row cats) data.

(** Likelihood of one respondent's observed answers at [theta], when category [k] of item [i] has
    probability [p theta i k]. *)
Definition likelihood (p : list R -> nat -> nat -> R) (theta : list R) (row : list cell) : R :=
  rprod (mapi (fun i c => match answer c with None => 1 | Some k => p theta i k end) row).

(** The model's output is computed theta by theta. *)
Definition rowwise (m : emodel) : Prop :=
  (exists c f, forall thetas, Forall (fun t => length t = em_lv m) thetas -> em_forward m thetas = Ok (T2 (Wide c (map f thetas)))) \/
  (exists a b f, forall thetas, Forall (fun t => length t = em_lv m) thetas -> em_forward m thetas = Ok (T3 (Cube a b (map f thetas)))).
Definition flat_output (m : emodel) : Prop :=
  exists c f, forall thetas, Forall (fun t => length t = em_lv m) thetas -> em_forward m thetas = Ok (T2 (Wide c (map f thetas))).
(** The model's cell log-likelihoods are, respondent by respondent and item by item, the logarithms of the
    category probabilities [p]. *)
Definition has_probabilities (m : emodel) (p : list R -> nat -> nat -> R) : Prop :=
  (forall theta i k, length theta = em_lv m -> (k < nth i (em_cats m) O)%nat -> 0 <= p theta i k) /\
  forall thetas data mask x, Forall (fun t => length t = em_lv m) thetas ->
    rect (length thetas) (em_items m) data -> rect_opt (length thetas) (em_items m) mask ->
    legal_responses (length thetas) (em_cats m) mask data x ->
    exists out l, em_forward m thetas = Ok out /\
      em_ll m RNone (Wide (em_items m) data) out (option_map (Wide (em_items m)) mask) = Ok (Cells l) /\
      length l = (length thetas * em_items m)%nat /\
      forall n i theta, nth_error thetas n = Some theta -> (i < em_items m)%nat ->
        nth_error l (n * em_items m + i) = Some (if masked mask n i then None else flog (Some (p theta i (x n i)))).

(** Marginal likelihood of a respondent under the quadrature rule [points], [weights]. *)
Definition marginal_likelihood (p : list R -> nat -> nat -> R) (points : list (list R)) (weights : list R) (row : list cell) : R :=
  rsum (zip_with (fun w t => w * likelihood p t row) weights points).
(** Posterior mean of latent variable [d] over the grid. *)
Definition posterior_mean (p : list R -> nat -> nat -> R) (grid : list (list R)) (prior : list R -> R) (row : list cell) (d : nat) : R :=
  rsum (map (fun t => nth d t 0 * (prior t * likelihood p t row)) grid) / rsum (map (fun t => prior t * likelihood p t row) grid).
(** [theta] is a best candidate for the respondent. *)
Definition most_likely (p : list R -> nat -> nat -> R) (candidates : list (list R)) (row : list cell) (theta : list R) : Prop :=
  In theta candidates /\ forall t, In t candidates -> likelihood p t row <= likelihood p theta row.

(** The category probabilities of the library's models, from their documentation. *)
Definition opl_p (m : opl) (theta : list R) (i k : nat) : R :=
  let q := logistic (nth 0 theta 0 + nth i (opl_b m) 0) in if (k =? 1)%nat then q else 1 - q.
Definition tpl_p (m : tpl) (theta : list R) (i k : nat) : R :=
  let q := logistic (predictor (tpl_lv m) (slope (tpl_free m) (tpl_w m) i) theta + nth i (tpl_b m) 0) in
  if (k =? 1)%nat then q else 1 - q.
Definition thpl_p (m : thpl) (theta : list R) (i k : nat) : R :=
  let c := logistic (nth i (thpl_g m) 0) in
  let q := c + (1 - c) * logistic (predictor (thpl_lv m) (slope (thpl_free m) (thpl_w m) i) theta + nth i (thpl_b m) 0) in
  if (k =? 1)%nat then q else 1 - q.
Definition gpc_p (m : poly) (theta : list R) (i k : nat) : R :=
  category_probability (nth i (p_cats m) O)
    (fun k => INR k * predictor (p_lv m) (slope (p_free m) (p_w m) i) theta + intercept (p_cats m) (p_b m) i k) k.
Definition grm_p (m : poly) (theta : list R) (i k : nat) : R :=
  let z k := predictor (p_lv m) (slope (p_free m) (p_w m) i) theta + intercept (p_cats m) (p_b m) i k in
  geq_probability (nth i (p_cats m) O) z k - geq_probability (nth i (p_cats m) O) z (S k).
Definition nrm_p (m : nrm) (theta : list R) (i k : nat) : R :=
  category_probability (nth i (nrm_cats m) O) (fun k => predictor (nrm_lv m) (nrm_slope m i k) theta + nrm_intercept m i k) k.

(** Decreasing intercepts of a graded response model. *)
Definition decreasing_intercepts (m : poly) : Prop :=
  forall i K j, nth_error (p_cats m) i = Some K -> (1 <= j)%nat -> (S j < K)%nat ->
     intercept (p_cats m) (p_b m) i (S j) < intercept (p_cats m) (p_b m) i j.
(** The library's parametric model classes, with well-formed parameters, and their documented probabilities. *)
Inductive library_model : emodel -> (list R -> nat -> nat -> R) -> Prop :=
| lib_opl nanl m : length (opl_b m) = opl_items m -> (0 < opl_items m)%nat -> library_model (of_sub (opl_sub nanl m)) (opl_p m)
| lib_tpl nanl m : tpl_wf m -> (0 < tpl_items m)%nat -> library_model (of_sub (tpl_sub nanl m)) (tpl_p m)
| lib_thpl nanl m : thpl_wf m -> (0 < thpl_items m)%nat -> library_model (of_sub (thpl_sub nanl m)) (thpl_p m)
| lib_gpc nanl m : poly_wf m -> (0 < p_items m)%nat -> library_model (of_sub (gpc_sub nanl m)) (gpc_p m)
| lib_grm nanl m : poly_wf m -> (0 < p_items m)%nat -> decreasing_intercepts m -> library_model (of_sub (grm_sub nanl m)) (grm_p m)
| lib_nrm nanl m : nrm_wf m -> (0 < length (nrm_cats m))%nat -> library_model (of_sub (nrm_sub nanl m)) (nrm_p m).

(** Normal density. *)
Definition normal_pdf (mu sigma x : R) : R := / (sigma * sqrt (2 * PI)) * exp (- ((x - mu) ^ 2) / (2 * sigma ^ 2)).
(** Density of a vector with independent normal coordinates. *)
Definition diag_normal_pdf (mu sigma x : list R) : R :=
  rprod (zip_with (fun ms t => normal_pdf (fst ms) (snd ms) t) (combine mu sigma) x).

(** A distribution over categories obtained from nonnegative weights. *)
Definition chance (weights : list R) (k : nat) : R := nth k weights 0 / rsum weights.

(** A draw from the encoder's normal distribution by the reparameterisation. *)
Definition draw (mean logvar noise : list R) : list R :=
  zip_with (fun mv z => fst mv + z * exp (snd mv / 2)) (combine mean logvar) noise.
(** Importance weight of a draw, the prior-to-proposal density ratio tempered by [beta]. *)
Definition importance_weight (p : list R -> nat -> nat -> R) (beta : R) (mean logvar theta : list R) (row : list cell) : R :=
  likelihood p theta row *
  Rpower (diag_normal_pdf (map (fun _ => 0) theta) (map (fun _ => 1) theta) theta /
          diag_normal_pdf mean (map (fun v => exp (v / 2)) logvar) theta) beta.
(** Kullback-Leibler divergence of a diagonal normal from the standard normal (closed form). *)
Definition kl_standard_normal (mean logvar : list R) : R :=
  rsum (zip_with (fun m v => (m ^ 2 + exp v - 1 - v) / 2) mean logvar).
