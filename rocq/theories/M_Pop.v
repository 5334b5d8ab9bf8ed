(** Model of what a fitted model reports for a population of latent scores: directions of the
    item-latent variable relationships, sampled test data, population difficulty and discrimination
    (models/base_irt_model.py), and of the draws and intervals of the variational autoencoder
    (estimation_algorithms/vae.py).  Definitions only.  Floats are reals, NaN is [None]. *)
From Verif Require Import Base RBase M_Data M_Logit M_Lik M_Mono M_Scale M_Est M_Stat M_Eval M_Score.
Import List.
Local Open Scope R_scope.
Local Open Scope list_scope.

Notation nanr := (option R).

(** ** Directions *)
(** one_parameter_logistic.py:107-121. *)
Definition opl_directions (m : opl) : list (list Z) := repeat [1%Z] (opl_items m).
(** The same three lines in two_parameter_logistic.py:166-168, three_parameter_logistic.py:229-231,
    generalized_partial_credit.py:181-183 and graded_response.py:265-267. *)
Definition weight_signs (free : list (list bool)) (lv : nat) (w : list R) : list (list Z) :=
  map (map rsign) (weight_matrix free lv w).
(** two_parameter_logistic.py:166-168. *)
Definition tpl_directions (m : tpl) := weight_signs (tpl_free m) (tpl_lv m) (tpl_w m).
(** three_parameter_logistic.py:229-231. *)
Definition thpl_directions (m : thpl) := weight_signs (thpl_free m) (thpl_lv m) (thpl_w m).
(** generalized_partial_credit.py:181-183 and graded_response.py:265-267. *)
Definition poly_directions (m : poly) := weight_signs (p_free m) (p_lv m) (p_w m).
(** monotone_nn.py:270-282. *)
Definition mnn_directions (m : mnn) : list (list Z) :=
  if n_negative m
  then map (fun i => map (fun d =>
         rsign (nth i (all_item_weights (map (fun row => nth d row false) (n_rel m)) (nth d (n_neg m) [])) 0)) (seq 0 (n_lv m)))
         (seq 0 (n_items m))
  else repeat (repeat 1%Z (n_lv m)) (n_items m).

(** linear_regression, _internal_utils.py:19-25, for one response column: [inv] is torch.inverse and an
    input of the model; [lv] the number of columns of [x]. *)
Definition design (x : list (list R)) : list (list R) := map (cons 1) x.
(** The product of the transposed design matrix with itself, _internal_utils.py:19-25. *)
Definition gram (n : nat) (b : list (list R)) : list (list R) :=
  map (fun i => map (fun j => rsum (map (fun row => nth i row 0 * nth j row 0) b)) (seq 0 n)) (seq 0 n).
(** _internal_utils.py:19-25. *)
Definition linear_regression (inv : list (list R) -> result (list (list R))) (lv : nat) (x : list (list R)) (y : list nanr)
  : result (list nanr) :=
  let b := design x in
  if (length y =? length b)%nat then
    bind (inv (gram (S lv) b)) (fun W =>
    Ok (map (fun i => osum (zip_with (fun row v =>
          olift2 Rmult (Some (rsum (map (fun k => nth k (nth i W []) 0 * nth k row 0) (seq 0 (S lv))))) v) b y)) (seq 0 (S lv))))
  else Err RuntimeError.
(** item_theta_relationship_directions of the base class, base_irt_model.py:480-486 (also SurprisalSpline and
    ModelMix, and NominalResponse after its check, nominal_response.py:180-182).  [scores] the expected item
    scores of the given rows, [nan_int] what the conversion of NaN to an integer gives. *)
Definition base_directions (inv : list (list R) -> result (list (list R))) (nan_int : Z) (items lv : nat)
  (scores : result (list (list nanr))) (thetas : list (list R)) : result (list (list Z)) :=
  bind scores (fun es =>
  mapM (fun i =>
    bind (linear_regression inv lv thetas (map (fun row => nth i row None) es)) (fun w =>
    Ok (map (fun v : nanr => match v with Some r => rsign r | None => nan_int end) (skipn 1 w)))) (seq 0 items)).
(** nominal_response.py:166-182. *)
Definition nrm_directions (inv : list (list R) -> result (list (list R))) (nan_int : Z) (mc : option (list Z)) (m : nrm)
  (thetas : option (list (list R))) : result (list (list Z)) :=
  match thetas with
  | None => Err ValueError
  | Some t => base_directions inv nan_int (length (nrm_cats m)) (nrm_lv m)
                (expected_item_scores (length (nrm_cats m)) (nrm_max m) mc (nrm_probabilities m t)) t
  end.

(** ** Sampling *)
(** torch.distributions.Categorical(probs): the argument check (constraints.simplex, tolerance 1e-6; NaN
    fails) and the normalisation. *)
Definition simplex (p : list nanr) : bool :=
  forallb (fun c : nanr => match c with Some x => if Rle_dec 0 x then true else false | None => false end) p &&
  match osum p with Some s => if Rlt_dec (Rabs (s - 1)) (/ 1000000) then true else false | None => false end.
(** The entries of a row of probabilities that passed the check, base_irt_model.py:503-504. *)
Definition numbers (p : list nanr) : list R := map (fun c : nanr => match c with Some x => x | None => 0 end) p.
(** torch.multinomial with one draw per row: the largest ratio of probability to an exponential random
    number, [q] the numbers drawn for this row. base_irt_model.py:505. *)
Definition race (p : list nanr) (q : list R) : result nat :=
  let s := rsum (numbers p) in rargmax (zip_with (fun x e => x / s / e) (numbers p) q).
(** sample_test_data, base_irt_model.py:489-505. *)
Definition sample_test_data (q : nat -> nat -> list R) (probs : list (list (list nanr))) : result (list (list cell)) :=
  if forallb (forallb simplex) probs
  then mapiM (fun r resp => mapiM (fun i p => rmap (fun k => Some (Z.of_nat k)) (race p (q r i))) resp) probs
  else Err ValueError.

(** ** Difficulty and discrimination *)
(** [if self.mc_correct] on a list: [None] and the empty list count as absent, base_irt_model.py:344 and 711-719. *)
Definition keyed (mc : option (list Z)) : bool := match mc with Some (_ :: _) => true | _ => false end.
(** Division by the maximum score K - 1.  0/0 is NaN; a positive number over zero would be infinite and does
    not occur (an item with one category has expected score 0). *)
Definition by_maximum (x : nanr) (K : nat) : nanr :=
  if (K =? 1)%nat then None else option_map (fun v => v / (INR K - 1)) x.
(** [x.mean(dim=0)] of an items-wide table: NaN without rows. *)
Definition omean (l : list nanr) : nanr :=
  match l with [] => None | _ => option_map (fun s => s / INR (length l)) (osum l) end.
(** base_irt_model.py:719 and 755. *)
Definition mean_rows (cols : nat) (rows : list (list nanr)) : list nanr :=
  map (fun j => omean (map (fun row => nth j row None) rows)) (seq 0 cols).
(** population_difficulty, base_irt_model.py:711-719, from the item probabilities of the given rows. *)
Definition population_difficulty (cats : list nat) (M : nat) (mc : option (list Z)) (probs : list (list (list nanr)))
  : result (list nanr) :=
  rmap (fun es =>
    mean_rows (length cats)
      (map (fun row => if keyed mc then map (option_map (fun x => 1 - x)) row
                       else zip_with (fun e K => option_map (fun x => 1 - x) (by_maximum e K)) row cats) es))
    (expected_item_scores (length cats) M mc probs).

(** Autograd of the sum of one column (line 350) by one entry of theta, [grad] the derivative of a
    one-variable function and an input of the model; NaN where the sum is NaN. *)
Definition set_entry (thetas : list (list R)) (r d : nat) (x : R) : list (list R) :=
  upd r (upd d x (nth r thetas [])) thetas.
(** [expected_item_sum_scores[:, item].sum()], base_irt_model.py:352. *)
Definition sum_of (scores : list (list R) -> list (list nanr)) (i : nat) (thetas : list (list R)) : nanr :=
  osum (map (fun row => nth i row None) (scores thetas)).
(** base_irt_model.py:348-353. *)
Definition entry_gradient (grad : (R -> R) -> R -> R) (scores : list (list R) -> list (list nanr)) (i r d : nat)
  (thetas : list (list R)) : nanr :=
  match sum_of scores i thetas with
  | None => None
  | Some _ => Some (grad (fun x => match sum_of scores i (set_entry thetas r d x) with Some v => v | None => 0 end)
                         (nth d (nth r thetas []) 0))
  end.
(** expected_item_score_gradients, base_irt_model.py:337-353, without scales (355-356 are
    [rescale_gradients]).  [probs] is item_probabilities. *)
Definition item_scores_scaled (cats : list nat) (M : nat) (mc : option (list Z)) (by_max : bool)
  (probs : list (list R) -> list (list (list nanr))) (thetas : list (list R)) : result (list (list nanr)) :=
  rmap (map (fun row => if negb (keyed mc) && by_max then zip_with by_maximum row cats else row))
    (expected_item_scores (length cats) M mc (probs thetas)).
(** base_irt_model.py:337-353. *)
Definition expected_item_score_gradients (grad : (R -> R) -> R -> R) (lv : nat) (cats : list nat) (M : nat)
  (mc : option (list Z)) (by_max : bool) (probs : list (list R) -> list (list (list nanr))) (thetas : list (list R))
  : result (list (list (list nanr))) :=
  bind (item_scores_scaled cats M mc by_max probs thetas) (fun _ =>
  Ok (map (fun r => map (fun i => map (fun d =>
        entry_gradient grad (fun t => match item_scores_scaled cats M mc by_max probs t with Ok es => es | Err _ => [] end) i r d thetas)
        (seq 0 lv)) (seq 0 (length cats))) (seq 0 (length thetas)))).
(** population_discrimination, base_irt_model.py:754-755, without scales. *)
Definition population_discrimination (grad : (R -> R) -> R -> R) (lv : nat) (cats : list nat) (M : nat)
  (mc : option (list Z)) (probs : list (list R) -> list (list (list nanr))) (thetas : list (list R))
  : result (list (list nanr)) :=
  rmap (fun g => map (fun i => mean_rows lv (map (fun resp => nth i resp []) g)) (seq 0 (length cats)))
    (expected_item_score_gradients grad lv cats M mc true probs thetas).

(** ** Posterior draws and intervals of the variational autoencoder *)
(** [Normal(mu, sigma).icdf(p)] = mu + sigma * erfinv(2 p - 1) * sqrt 2; [erfinv] is torch.erfinv and an
    input of the model (infinite at -1 and 1, NaN beyond). *)
Definition normal_icdf (erfinv : R -> fl) (mu sigma p : R) : fl :=
  match erfinv (2 * p - 1) with
  | Some (Fin z) => Some (Fin (mu + sigma * z * sqrt 2))
  | other => other
  end.
(** latent_credible_interval, vae.py:370-390, and latent_mean_se, 393-409, from the encoder's output. *)
Definition latent_credible_interval (erfinv : R -> fl) (alpha : R) (encoded : list (list R) * list (list R))
  : list (list fl) * list (list R) * list (list fl) :=
  let '(mean, logvar) := encoded in
  let bound p := zip_with (zip_with (fun mu v => normal_icdf erfinv mu (exp (/ 2 * v)) p)) mean logvar in
  (bound (alpha / 2), mean, bound (1 - alpha / 2)).
(** vae.py:393-409. *)
Definition latent_mean_se (encoded : list (list R) * list (list R)) : list (list R) * list (list R) :=
  (fst encoded, map (map (fun v => exp (/ 2 * v))) (snd encoded)).
(** The dataset of sample_latent_variables, vae.py:346-358: the attribute imputation_method of the algorithm,
    irt_dataset.py:25-46 without the check of fit.  Second component: the tensor passed, afterwards. *)
Definition sampling_input (draw : nat -> nat -> nat -> nat) (a : algorithm) (key : option (list Z)) (cats : list nat) (d : M_Data.mat)
  : result (list (list qcell)) * M_Data.mat :=
  match al_one_hot a, al_imputation a with
  | Some false, None => (Ok (map (map to_q) (m_rows d)), d)
  | one_hot, m => train_input draw (match one_hot with Some b => b | None => false end) m key cats d
  end.
(** Lines 360-367.  [pick] the row chosen for each sample (torch.randint refuses an empty range), [encode]
    the encoder, [eps] the normal noise. *)
Definition sample_latent_variables (draw : nat -> nat -> nat -> nat) (pick : nat -> nat) (eps : list (list R))
  (encode : list (list qcell) -> result (list (list R) * list (list R))) (a : algorithm) (key : option (list Z)) (cats : list nat)
  (sample_size : nat) (d : M_Data.mat) : result (list (list R)) * M_Data.mat :=
  let '(input, d') := sampling_input draw a key cats d in
  (bind input (fun rows =>
   match rows with
   | [] => Err RuntimeError
   | _ => bind (encode (map (fun s => nth (pick s) rows []) (seq 0 sample_size))) (fun mv => Ok (reparameterize (fst mv) (snd mv) eps))
   end), d').
