(** Model of estimation: the marginal maximum likelihood objective (irtorch/estimation_algorithms/mml.py),
    EAP scores and starting values (irtorch/models/base_irt_model.py), the VAE loss
    (irtorch/estimation_algorithms/vae.py) and random guessing data (irtorch/_internal_utils.py).
    Floats are extended reals, NaN is [None]. *)
From Verif Require Import Base RBase M_Data M_CV M_Logit M_Lik.
Local Open Scope R_scope.

(** ** Float operations *)
(** Unary minus, as at mml.py:277. *)
Definition fneg (a : fl) : fl :=
  match a with Some (Fin x) => Some (Fin (- x)) | Some NInf => Some PInf | Some PInf => Some NInf | None => None end.
(** Difference, as at mml.py:276. *)
Definition fsub (a b : fl) : fl := fadd a (fneg b).
(** x.exp(), mml.py:276, base_irt_model.py:929. *)
Definition fexp (a : fl) : fl :=
  match a with Some (Fin x) => Some (Fin (exp x)) | Some NInf => Some (Fin 0) | Some PInf => Some PInf | None => None end.
(** x.log(), mml.py:277. *)
Definition flogf (a : fl) : fl :=
  match a with Some (Fin x) => flog (Some x) | Some PInf => Some PInf | _ => None end.
(** Product; 0 * inf is NaN. (base_irt_model.py:933.) *)
Definition finf (pos : bool) : fl := Some (if pos then PInf else NInf).
(** The sign of a number that is not zero, for products and quotients; base_irt_model.py:933. *)
Definition fpos (a : ext) : bool := match a with Fin x => if Rlt_dec 0 x then true else false | PInf => true | NInf => false end.
(** base_irt_model.py:933. *)
Definition fmul (a b : fl) : fl :=
  match a, b with
  | Some (Fin x), Some (Fin y) => Some (Fin (x * y))
  | Some (Fin x), Some e | Some e, Some (Fin x) =>
      if Req_EM_T x 0 then None else finf (Bool.eqb (fpos (Fin x)) (fpos e))
  | Some e, Some f => finf (Bool.eqb (fpos e) (fpos f))
  | _, _ => None
  end.
(** Quotient; a zero divisor is read as +0. base_irt_model.py:930. *)
Definition fdiv (a b : fl) : fl :=
  match a, b with
  | Some (Fin x), Some (Fin y) =>
      if Req_EM_T y 0 then (if Req_EM_T x 0 then None else finf (fpos (Fin x))) else Some (Fin (x / y))
  | Some (Fin _), Some _ => Some (Fin 0)
  | Some e, Some (Fin y) => finf (Bool.eqb (fpos e) (if Req_EM_T y 0 then true else fpos (Fin y)))
  | _, _ => None
  end.
(** [a > b] as torch orders floats in max and argmax: NaN is above everything. Used by mml.py:275, base_irt_model.py:674. *)
Definition fgt (a b : fl) : bool :=
  match a, b with
  | _, None => false
  | None, Some _ => true
  | Some (Fin x), Some (Fin y) => if Rlt_dec y x then true else false
  | Some PInf, Some PInf => false
  | Some PInf, Some _ => true
  | Some _, Some PInf => false
  | Some NInf, Some _ => false
  | Some _, Some NInf => true
  end.
(** log_sums.max(dim=0)[0], mml.py:275. *)
Definition fmax (l : list fl) : fl := fold_right (fun a m => if fgt a m then a else m) (Some NInf) l.
(** [x.argmax()]: the first position of the maximum; IndexError on an empty dimension. base_irt_model.py:674. *)
Fixpoint argmax_from (i bi : nat) (b : fl) (l : list fl) : nat :=
  match l with
  | [] => bi
  | a :: l' => if fgt a b then argmax_from (S i) i a l' else argmax_from (S i) bi b l'
  end.
(** lls.argmax(dim=1) for one row, base_irt_model.py:674. *)
Definition fargmax (l : list fl) : result nat :=
  match l with [] => Err IndexError | a :: l' => Ok (argmax_from 1 0 a l') end.

(** [x.view(n, -1)]: [n] rows of equal width. mml.py:274, base_irt_model.py:672-673. *)
Definition view_rows {A} (n : nat) (l : list A) : result (list (list A)) :=
  if (0 <? n)%nat && (length l mod n =? 0)%nat
  then Ok (map (fun i => firstn (length l / n) (skipn (i * (length l / n)) l)) (seq 0 n))
  else Err RuntimeError.
(** Column j of a list of rows: sums and maxima over dim=0, mml.py:275-277. *)
Definition column {A} (d : A) (j : nat) (rows : list (list A)) : list A := map (fun r => nth j r d) rows.
(** Sum of two vectors.  Simplification: torch also broadcasts vectors of length one. mml.py:274, base_irt_model.py:927. *)
Definition add_vec (a b : list fl) : result (list fl) :=
  if (length a =? length b)%nat then Ok (zip_with fadd a b) else Err RuntimeError.

(** ** The model being estimated: what the algorithms use of it *)
(** (base_irt_model.py:40-43, 82, 221-264.) *)
Record emodel := EModel {
  em_lv : nat; em_cats : list nat;
  em_forward : list (list R) -> result tensor;
  em_ll : reduction -> wide cell -> tensor -> option (wide bool) -> result llout }.
(** self.items, base_irt_model.py:43. *)
Definition em_items (m : emodel) : nat := length (em_cats m).
(** A model class, and a ModelMix of several. (base_irt_model.py:30-49.) *)
Definition of_sub (s : sub) : emodel :=
  EModel (sb_lv s) (sb_cats s) (fun th => Ok (sb_forward s th))
    (fun red data out mask => sb_ll s red (w_rows data) out (option_map w_rows mask)).
(** model_mix.py:31-183, with the definitions of M_Lik. *)
Definition of_mix (lv : nat) (subs : list sub) : emodel :=
  EModel lv (concat (map sb_cats subs)) (mix_forward subs) (mix_log_likelihood subs).
(** The 1PL takes a single latent variable: column 0 of theta. one_parameter_logistic.py:70-89. *)
Definition opl_rows (m : opl) (thetas : list (list R)) : list (list ext) := opl_forward m (map (fun t => nth 0 t 0) thetas).
(** The 1PL model as a class with cross-entropy likelihood, one_parameter_logistic.py:70-89 and base_irt_model.py:221-264. *)
Definition opl_sub (nanl : Z) (m : opl) : sub := logit_sub nanl 1 (repeat 2%nat (opl_items m)) (opl_rows m).

(** irt_dataset.py:33-36: the mask of a data matrix. *)
Definition mask_of (data : wide cell) : wide bool := Wide (w_cols data) (map (map missing_cell) (w_rows data)).

(** ** MML *)
(** mml.py:275-277 for one respondent: max-shifted log-sum-exp. *)
Definition logsumexp_shifted (col : list fl) : fl :=
  let c := fmax col in fadd (flogf (fsum (map (fun x => fexp (fsub x c)) col))) c.
(** mml.py:185-188 (replication) and 267-277 (loss of one step). *)
Definition mml_loss (m : emodel) (points : list (list R)) (log_weights : list fl) (data : wide cell) : result fl :=
  let N := length (w_rows data) in
  let Q := length points in
  let combos := repeat_interleave N points in
  let data_rep := Wide (w_cols data) (tile Q (w_rows data)) in
  let lw_rep := repeat_interleave N log_weights in
  bind (em_forward m combos) (fun out =>
  bind (em_ll m RNone data_rep out (Some (mask_of data_rep))) (fun o =>
  bind (cells_of o) (fun cells =>
  bind (reshape (em_items m) cells) (fun rows =>
  bind (add_vec lw_rep (map fnansum rows)) (fun sums =>
  bind (view_rows Q sums) (fun log_sums =>
  Ok (fneg (fsum (map (fun n => logsumexp_shifted (column None n log_sums)) (seq 0 (length sums / Q))))))))))).
(** mml.py:93-107: number of quadrature points per latent variable and the prior covariance. *)
Definition mml_points (lv : nat) (requested : option nat) : result nat :=
  match requested with
  | Some q => Ok q
  | None => if (3 <? lv)%nat then Err ValueError
            else Ok (match lv with 1 => 15 | 2 => 7 | 3 => 5 | _ => 20 end)%nat
  end.
(** torch.eye, mml.py:107, base_irt_model.py:907. *)
Definition identity (n : nat) : list (list R) :=
  map (fun i => map (fun j => if (i =? j)%nat then 1 else 0) (seq 0 n)) (seq 0 n).
(** mml.py:102-107. *)
Definition mml_covariance (lv : nat) (cov : option (wide R)) : result (list (list R)) :=
  match cov with
  | None => Ok (identity lv)
  | Some c => if (length (w_rows c) =? lv)%nat && (w_cols c =? lv)%nat then Ok (w_rows c) else Err ValueError
  end.
(** mml.py:303-316: the default quadrature rule, a regular grid with the log density as log weight. *)
Definition mml_quasi_mc (n lv : nat) (logpdf : list R -> R) : list (list R) * list fl :=
  let grid := product (repeat (linspace (-3) 3 n) lv) in (grid, map (fun t => Some (Fin (logpdf t))) grid).

(** ** Algorithm attributes used by the model *)
(** [None]: the attribute does not exist; [Some None]: it is Python's None. (base_irt_model.py:887, 904.) *)
Record algo := Algo { al_training : option (option (list (list R))); al_covariance : option (option (list (list R))) }.
(** A model without algorithm (its attribute is None), base_irt_algorithm.py:13-16 with mml.py:37-42, and
    MML.fit 102-107, which sets the covariance only. base_irt_model.py:45. *)
Definition no_algorithm : algo := Algo None None.
(** mml.py:37-42. *)
Definition mml_new : algo := Algo (Some None) (Some None).
(** mml.py:93-107. *)
Definition mml_fit (lv : nat) (cov : option (wide R)) (points : option nat) (a : algo) : result algo :=
  bind (mml_points lv points) (fun _ =>
  bind (mml_covariance lv cov) (fun c => Ok (Algo (al_training a) (Some (Some c))))).
(** jml.py:20-24, 86, 192: the fitted scores. *)
Definition jml_fitted (thetas : list (list R)) : algo := Algo (Some (Some thetas)) (Some None).

(** ** EAP, base_irt_model.py:859-969 *)
(** theta_scores.min(dim=0), base_irt_model.py:956. *)
Definition rmin_list (l : list R) : R := match l with [] => 0 | x :: l' => fold_left Rmin l' x end.
(** theta_scores.max(dim=0), base_irt_model.py:957. *)
Definition rmax_list (l : list R) : R := match l with [] => 0 | x :: l' => fold_left Rmax l' x end.
(** _theta_grid, 937-969, with the grid size given (EAP always passes one). *)
Definition theta_grid (lv : nat) (scores : list (list R)) (g : nat) : result (list (list R)) :=
  match scores with
  | [] => Err IndexError
  | _ => Ok (product (map (fun d =>
             let c := column 0 d scores in
             let lo := rmin_list c in let hi := rmax_list c in
             let pm := (hi - lo) * / 4 in
             linspace (lo - pm) (hi + pm) g) (seq 0 lv)))
  end.
(** Lines 892-894: centred cross products over n - 1; 0/0 for a single respondent. train_theta_scores.mean(dim=0), base_irt_model.py:893. *)
Definition rmean (l : list R) : R := rsum l / INR (length l).
(** base_irt_model.py:893-894. *)
Definition covariance (lv : nat) (scores : list (list R)) : list (list (option R)) :=
  map (fun d => map (fun e =>
    if (length scores =? 1)%nat then None
    else let x := column 0 d scores in let y := column 0 e scores in
         Some (rsum (zip_with (fun a b => (a - rmean x) * (b - rmean y)) x y) / (INR (length scores) - 1)))
    (seq 0 lv)) (seq 0 lv).
(** base_irt_model.py:879-885. *)
Definition eap_default_points (lv : nat) : nat :=
  match lv with 1 => 200 | 2 => 15 | 3 => 7 | 4 => 5 | _ => 15 end%nat.
(** [torch.cat([x] * n, dim=0)]. base_irt_model.py:918-920. *)
Definition cat_copies (n : nat) (t : tensor) : result tensor :=
  match n with
  | O => Err RuntimeError
  | _ => Ok (match t with
             | T2 w => T2 (Wide (w_cols w) (tile n (w_rows w)))
             | T3 c => T3 (Cube (cb_items c) (cb_cats c) (tile n (cb_rows c)))
             end)
  end.
(** Lines 915-935, given the grid and the log prior density. *)
Definition eap_scores (m : emodel) (grid : list (list R)) (log_prior : list fl) (data : wide cell) : result (list (list fl)) :=
  let N := length (w_rows data) in
  let G := length grid in
  bind (em_forward m grid) (fun logits =>
  let data_rep := Wide (w_cols data) (repeat_interleave G (w_rows data)) in
  bind (cat_copies N logits) (fun logits_rep =>
  let grid_rep := tile N grid in
  let prior_rep := tile N log_prior in
  bind (em_ll m RNone data_rep logits_rep (Some (mask_of data_rep))) (fun o =>
  bind (cells_of o) (fun cells =>
  bind (reshape (w_cols data) cells) (fun rows =>
  bind (add_vec prior_rep (map fnansum rows)) (fun lp =>
  bind (reshape G lp) (fun log_posterior =>
  let e := map (map fexp) log_posterior in
  let posterior := concat (map (fun r => map (fun x => fdiv x (fsum r)) r) e) in
  let weighted := zip_with (fun t q => map (fun x => fmul (Some (Fin x)) q) t) grid_rep posterior in
  bind (reshape G weighted) (fun per_respondent =>
  Ok (map (fun b => map (fun d => fsum (column None d b)) (seq 0 (em_lv m))) per_respondent))))))))).
(** Lines 876-913: the grid and the prior.  [mvn] is torch's MultivariateNormal with mean zero: the log
    density for a covariance matrix, or the exception it raises. *)
Definition eap_theta_scores (mvn : list (list (option R)) -> result (list R -> R)) (m : emodel) (a : algo)
    (grid_points : option nat) (data : wide cell) : result (list (list fl)) :=
  if (4 <? em_lv m)%nat then Err ValueError
  else
    let g := match grid_points with Some g => g | None => eap_default_points (em_lv m) end in
    bind (match al_training a with
          | Some None => Err ValueError
          | Some (Some scores) =>
              bind (theta_grid (em_lv m) scores g) (fun grid => Ok (grid, covariance (em_lv m) scores))
          | None =>
              let grid := product (repeat (linspace (-3) 3 g) (em_lv m)) in
              match al_covariance a with
              | Some (Some c) => Ok (grid, map (map Some) c)
              | Some None => Err AttributeError
              | None => Ok (grid, map (map Some) (identity (em_lv m)))
              end
          end) (fun gc =>
    bind (mvn (snd gc)) (fun logpdf =>
    eap_scores m (fst gc) (map (fun t => Some (Fin (logpdf t))) (fst gc)) data)).

(** ** Starting values, base_irt_model.py:648-683 *)
(** [x.repeat(n, 1)]: only for two-dimensional tensors. base_irt_model.py:670. *)
Definition repeat_2d (n : nat) (t : tensor) : result tensor :=
  match t with T2 w => Ok (T2 (Wide (w_cols w) (tile n (w_rows w)))) | T3 _ => Err RuntimeError end.
(** logits.shape[0], base_irt_model.py:672. *)
Definition tensor_rows (t : tensor) : nat := match t with T2 w => length (w_rows w) | T3 c => length (cb_rows c) end.
(** Lines 664-676: the score of [thetas] chosen for each respondent. *)
Definition best_scores (m : emodel) (thetas : list (list R)) (data : wide cell) : result (list (list R)) :=
  let N := length (w_rows data) in
  let T := length thetas in
  bind (em_forward m thetas) (fun logits =>
  let theta := tile N thetas in
  let data_rep := Wide (w_cols data) (repeat_interleave T (w_rows data)) in
  let mask_rep := Wide (w_cols data) (repeat_interleave T (w_rows (mask_of data))) in
  bind (repeat_2d N logits) (fun logits_rep =>
  bind (em_ll m RNone data_rep logits_rep (Some mask_rep)) (fun o =>
  bind (cells_of o) (fun cells =>
  bind (view_rows (tensor_rows logits_rep) cells) (fun rows =>
  bind (view_rows N (map fnansum rows)) (fun lls =>
  bind (mapM fargmax lls) (fun best =>
  mapiM (fun n b => match nth_error theta (n * T + b) with Some t => Ok t | None => Err IndexError end) best))))))).
(** [x.median(dim=0).values]: the lower of the two middle values. base_irt_model.py:657. *)
Fixpoint insert_r (x : R) (l : list R) : list R :=
  match l with [] => [x] | y :: l' => if Rle_dec x y then x :: y :: l' else y :: insert_r x l' end.
(** Sorting for the median, base_irt_model.py:657. *)
Definition sort_r (l : list R) : list R := fold_right insert_r [] l.
(** base_irt_model.py:657. *)
Definition median (l : list R) : R := nth ((length l - 1) / 2) (sort_r l) 0.
(** The whole function; [perm] is the drawn permutation of the training scores. base_irt_model.py:648-683. *)
Definition initial_theta (perm : list nat) (m : emodel) (training : list (list R)) (data : wide cell) : list (list R) :=
  let N := length (w_rows data) in
  let zeros := repeat (repeat 0 (em_lv m)) N in
  let attempt := fun thetas => match best_scores m thetas data with Ok r => r | Err _ => zeros end in
  if (1000000 <? Z.of_nat N * Z.of_nat (length training))%Z then
    if (500000 <? Z.of_nat N)%Z then repeat (map (fun d => median (column 0 d training)) (seq 0 (em_lv m))) N
    else attempt (index_rows (firstn (Z.to_nat (1000000 / Z.of_nat N)) perm) training)
  else attempt training.

(** ** VAE *)
(** vae.py:240-243; [total] is self.total_iterations. *)
Definition annealing_factor (anneal : bool) (total iterations : nat) : result R :=
  if anneal then if (iterations =? 0)%nat then Err ZeroDivisionError else Ok (Rmin 1 (INR total / INR iterations))
  else Ok 1.
(** vae.py:263 for one respondent. *)
Definition kl_divergence (mean logvar : list R) : R :=
  / 2 * rsum (zip_with (fun m v => m ^ 2 + exp v - 1 - v) mean logvar).
(** [Normal(mu, sigma).log_prob(x)] and vae.py:266-268 for one sample. (vae.py:266-268.) *)
Definition normal_log_prob (mu sigma x : R) : R := - ((x - mu) ^ 2) / (2 * sigma ^ 2) - ln sigma - ln (sqrt (2 * PI)).
(** vae.py:266-268. *)
Definition log_ratio (mean logvar theta : list R) : R :=
  rsum (zip_with (fun mv t => normal_log_prob (fst mv) (exp (/ 2 * snd mv)) t - normal_log_prob 0 1 t) (combine mean logvar) theta).
(** vae.py:198-201, [eps] the standard normal noise. *)
Definition reparameterize (mean logvar eps : list (list R)) : list (list R) :=
  zip_with (fun mv e => zip_with (fun p z => fst p + z * exp (/ 2 * snd p)) (combine (fst mv) (snd mv)) e)
    (combine mean logvar) eps.
(** [x.mean()]. vae.py:280. *)
Definition fmean (l : list fl) : fl := fdiv_nat (fsum l) (length l).
(** _loss_function, vae.py:204-280, with [K] = self.iw_samples. *)
Definition vae_loss (m : emodel) (anneal : bool) (total iterations K : nat) (data : wide cell) (mask : wide bool)
    (logits : tensor) (samples mean logvar : list (list R)) : result fl :=
  bind (annealing_factor anneal total iterations) (fun beta =>
  bind (em_ll m RNone (Wide (w_cols data) (tile K (w_rows data))) logits
          (Some (Wide (w_cols mask) (tile K (w_rows mask))))) (fun o =>
  bind (cells_of o) (fun cells =>
  let I := w_cols data in
  if (K * I =? 0)%nat then Err ZeroDivisionError else
  let B := (length cells / (K * I))%nat in
  if negb (K * B * I =? length cells)%nat then Err RuntimeError else
  let log_p := map fnansum (blocks I cells) in
  if (K =? 1)%nat then
    bind (add_vec log_p (map (fun k => Some (Fin (- (beta * k)))) (zip_with kl_divergence mean logvar))) (fun bound =>
    Ok (fneg (fmean bound)))
  else
    let kl := zip_with (fun mv t => log_ratio (fst mv) (snd mv) t) (combine mean logvar) samples in
    bind (add_vec log_p (map (fun k => Some (Fin (- (beta * k)))) kl)) (fun w =>
    bind (view_rows K w) (fun rows =>
    let bound := map (fun n => fsub (flogf (fsum (map fexp (column None n rows)))) (Some (Fin (ln (INR K))))) (seq 0 B) in
    Ok (fneg (fmean bound))))))).
(** _train_batch, vae.py:164-196, from the encoder output on; the encoder output is assumed finite. *)
Definition vae_batch (m : emodel) (anneal : bool) (total iterations K : nat) (data : wide cell)
    (mean logvar eps : list (list R)) : result fl :=
  let mean_rep := tile K mean in
  let logvar_rep := tile K logvar in
  let samples := reparameterize mean_rep logvar_rep eps in
  bind (em_forward m samples) (fun logits =>
  vae_loss m anneal total iterations K data (mask_of data) logits samples mean_rep logvar_rep).

(** ** Random guessing data, _internal_utils.py:84-148 *)
(** The argument guessing_probabilities: None, a list of floats, or anything else. _internal_utils.py:110-119. *)
Inductive guess_arg := GNone | GFloats (g : list R) | GOther.
(** The distribution every respondent's answer to one item is drawn from: a weight per category.
    torch.multinomial normalises the weights; it raises RuntimeError when they sum to zero. _internal_utils.py:128-144. *)
Definition guess_item (K : nat) (g : R) (key : option Z) : result (list R) :=
  if (K =? 2)%nat then Ok [1 - g; g]
  else match key with
       | None => Ok (upd 0 1 (repeat 0 K))
       | Some z =>
           if (K =? 1)%nat then Err ZeroDivisionError
           else
             let q := (1 - g) / (INR K - 1) in
             match norm_index K z with
             | None => Err IndexError
             | Some k =>
                 let probs := upd k g (repeat q K) in
                 let probs := map (fun x => if Req_EM_T x g then x else (1 - g) / (INR K - 1)) probs in
                 if Req_EM_T (rsum probs) 0 then Err RuntimeError else Ok probs
             end
       end.
(** _internal_utils.py:116. *)
Definition probability_ok (g : R) : bool := if Rle_dec 0 g then (if Rlt_dec g 1 then true else false) else false.
(** _internal_utils.py:84-148, without the drawing. *)
Definition random_guessing (cats : list nat) (guess : guess_arg) (mc : option (list Z)) : result (list (list R)) :=
  match guess with
  | GFloats g =>
      if (length g =? length cats)%nat then
        if forallb probability_ok g then
          mapiM (fun i K =>
            match mc with
            | None => guess_item K (nth i g 0) None
            | Some keys =>
                if (K =? 2)%nat then guess_item K (nth i g 0) None
                else match nth_error keys i with
                     | Some z => guess_item K (nth i g 0) (Some z)
                     | None => if (K =? 1)%nat then Err ZeroDivisionError else Err IndexError
                     end
            end) cats
        else Err ValueError
      else Err ValueError
  | GNone | GOther => Err ValueError
  end.
