(** Model of irtorch/torch_modules/gaussian_mixture_model.py and of the latent densities and integration weights
    of irtorch/evaluator.py.  Definitions only.  Floats are extended reals, NaN is [None]. *)
From Verif Require Import Base RBase M_Data M_CV M_Logit M_Lik M_Est M_Stat M_Grid.
Local Open Scope R_scope.

(** ** External: torch.distributions.MultivariateNormal(mean, covariance_matrix=S).log_prob
    The constructor validates its arguments (finite mean, symmetric matrix, successful Cholesky factorisation)
    and raises ValueError otherwise; log_prob solves with the Cholesky factor.  The factorisation is written out.
    Validation of the arguments, gaussian_mixture_model.py:83, 94 and 158. *)
Definition is_fin (a : fl) : bool := match a with Some (Fin _) => true | _ => false end.
(** The value of a finite entry, gaussian_mixture_model.py:83. *)
Definition fval (a : fl) : R := match a with Some (Fin x) => x | _ => 0 end.
(** An entry of the covariance matrix, gaussian_mixture_model.py:83. *)
Definition entry (s : list (list fl)) (i j : nat) : R := fval (nth j (nth i s []) None).
(** Column [j] of the factor from the columns before it; [None] when a pivot is not positive.
    External, called at gaussian_mixture_model.py:83, 94 and 158 and quantile_mv_normal.py:62. *)
Definition chol_column (s L : nat -> nat -> R) (j : nat) : option (nat -> nat -> R) :=
  let p := s j j - sumn j (fun k => L j k ^ 2) in
  if Rlt_dec 0 p
  then Some (fun i k => if (k =? j)%nat
                        then if (i <? j)%nat then 0
                             else if (i =? j)%nat then sqrt p
                             else (s i j - sumn j (fun k => L i k * L j k)) / sqrt p
                        else L i k)
  else None.
(** External, called at gaussian_mixture_model.py:83, 94 and 158 and quantile_mv_normal.py:62. *)
Fixpoint chol (n : nat) (s : nat -> nat -> R) : option (nat -> nat -> R) :=
  match n with
  | O => Some (fun _ _ => 0)
  | S n' => match chol n' s with Some L => chol_column s L n' | None => None end
  end.
(** Forward substitution: the solution of L z = v. External, log_prob at gaussian_mixture_model.py:83, 94 and 159 and quantile_mv_normal.py:82. *)
Fixpoint forward_solve (n : nat) (L : nat -> nat -> R) (v : nat -> R) : nat -> R :=
  match n with
  | O => fun _ => 0
  | S n' => let z := forward_solve n' L v in
            fun i => if (i =? n')%nat then (v n' - sumn n' (fun k => L n' k * z k)) / L n' n' else z i
  end.
(** External, the validation at gaussian_mixture_model.py:83 and quantile_mv_normal.py:62. *)
Definition symmetric (d : nat) (s : nat -> nat -> R) : bool :=
  forallb (fun i => forallb (fun j => if Req_EM_T (s i j) (s j i) then true else false) (seq 0 d)) (seq 0 d).
(** External, gaussian_mixture_model.py:83, 94 and 158-159 and quantile_mv_normal.py:62 and 82. *)
Definition mvn (d : nat) (mean : list fl) (s : list (list fl)) : result (list R -> R) :=
  if forallb is_fin mean && forallb (forallb is_fin) s && symmetric d (entry s)
  then match chol d (entry s) with
       | Some L => Ok (fun x =>
           let z := forward_solve d L (fun i => nth i x 0 - fval (nth i mean None)) in
           - (INR d * ln (2 * PI) + sumn d (fun i => z i ^ 2)) / 2 - sumn d (fun i => ln (L i i)))
       | None => Err ValueError
       end
  else Err ValueError.

(** ** GaussianMixtureModel *)
(** The state of the object, gaussian_mixture_model.py:61-66. *)
Record gmm := Gmm { g_features : nat; g_weights : list fl; g_means : list (list fl); g_covs : list (list (list fl)) }.
(** n_components, gaussian_mixture_model.py:61. *)
Definition g_components (g : gmm) : nat := length (g_weights g).
(** __init__, 55-66; [start] stands for torch.randn(n_components, n_features). *)
Definition gmm_new (start : list (list R)) (k d : Z) : result gmm :=
  if (k <? 1)%Z then Err ValueError
  else if (d <? 1)%Z then Err ValueError
  else let K := Z.to_nat k in let D := Z.to_nat d in
       Ok (Gmm D (repeat (Some (Fin (1 / INR K))) K) (map (map (fun x => Some (Fin x))) start)
               (repeat (map (map (fun x => Some (Fin x))) (identity D)) K)).
(** torch.logsumexp: shifted by the maximum when that is finite. gaussian_mixture_model.py:86 and 96. *)
Definition logsumexp (col : list fl) : fl :=
  match fmax col with
  | Some (Fin _) => logsumexp_shifted col
  | _ => flogf (fsum (map fexp col))
  end.
(** Lines 83-84 and 94-95: one row per component, one column per data point. *)
Definition weighted_log_probs (g : gmm) (data : list (list R)) : result (list (list fl)) :=
  rmap (fun fs => zip_with (fun w f => map (fun x => fadd (Some (Fin (f x))) (flogf w)) data) (g_weights g) fs)
       (mapM (fun ms => mvn (g_features g) (fst ms) (snd ms)) (combine (g_means g) (g_covs g))).
(** forward, 82-90. *)
Definition gmm_log_likelihood (g : gmm) (data : list (list R)) : result fl :=
  bind (weighted_log_probs g data) (fun l =>
  Ok (fsum (map (fun n => logsumexp (column None n l)) (seq 0 (length data))))).
(** _e_step, 92-98. *)
Definition e_step (g : gmm) (data : list (list R)) : result (list (list fl)) :=
  bind (weighted_log_probs g data) (fun l =>
  let lse := map (fun n => logsumexp (column None n l)) (seq 0 (length data)) in
  Ok (map (fun row => zip_with (fun x s => fexp (fsub x s)) row lse) l)).
(** _m_step, 100-114. A number as a float, gaussian_mixture_model.py:103. *)
Definition fin_r (x : R) : fl := Some (Fin x).
(** One component, gaussian_mixture_model.py:103-104. *)
Definition m_mean (d : nat) (data : list (list R)) (r : list fl) : list fl :=
  map (fun j => fdiv (fsum (zip_with (fun w x => fmul w (fin_r (nth j x 0))) r data)) (fsum r)) (seq 0 d).
(** One component, gaussian_mixture_model.py:108-110. *)
Definition m_cov (d : nat) (data : list (list R)) (r m : list fl) : list (list fl) :=
  let diff x j := fsub (fin_r (nth j x 0)) (nth j m None) in
  map (fun j => map (fun k =>
    fdiv (fsum (zip_with (fun w x => fmul (fmul (diff x j) w) (diff x k)) r data)) (fsum r)) (seq 0 d)) (seq 0 d).
(** gaussian_mixture_model.py:100-114. *)
Definition m_step (g : gmm) (data : list (list R)) (resp : list (list fl)) : gmm :=
  let d := g_features g in
  let means := map (m_mean d data) resp in
  Gmm d (map (fun r => fdiv (fsum r) (fin_r (INR (length data)))) resp) means (zip_with (m_cov d data) resp means).
(** gaussian_mixture_model.py:139-140. *)
Definition em_step (g : gmm) (data : list (list R)) : result gmm := bind (e_step g data) (fun r => Ok (m_step g data r)).
(** The loop of gaussian_mixture_model.py:138-140. *)
Fixpoint em (n : nat) (g : gmm) (data : list (list R)) : result gmm :=
  match n with O => Ok g | S n' => bind (em n' g data) (fun g' => em_step g' data) end.
(** fit, 132-140. *)
Definition gmm_fit (iterations : nat) (data : wide R) (g : gmm) : result gmm :=
  if (length (w_rows data) =? 0)%nat then Err ValueError
  else if negb (w_cols data =? g_features g)%nat then Err ValueError
  else em iterations g (w_rows data).
(** pdf, 156-161. *)
Definition gmm_pdf (g : gmm) (points : list (list R)) : result (list fl) :=
  rmap (fun fs => map (fun x => fsum (zip_with (fun w f => fmul w (fexp (fin_r (f x)))) (g_weights g) fs)) points)
       (mapM (fun ms => mvn (g_features g) (fst ms) (snd ms)) (combine (g_means g) (g_covs g))).

(** ** evaluator.py:109-139, _cv_gaussian_mixture_model.  [draw] gives the starting means of the models made in the
    cross-validation (candidate, fold) and [last] those of the final one. *)
(** Lines 118-119: the other chunks; torch.cat of an empty list raises. *)
Fixpoint remove_nth {A} (i : nat) (l : list A) : list A :=
  match i, l with _, [] => [] | O, _ :: l' => l' | S i', x :: l' => x :: remove_nth i' l' end.
(** evaluator.py:118-119. *)
Definition others {A} (chunks : list (list A)) (i : nat) : result (list A) :=
  match remove_nth i chunks with [] => Err RuntimeError | l => Ok (concat l) end.
(** Lines 121-125. *)
Definition held_out (iterations d : nat) (start : list (list R)) (k : Z) (train val : list (list R)) : result fl :=
  bind (gmm_new start k (Z.of_nat d)) (fun g =>
  bind (gmm_fit iterations (Wide d train) g) (fun g' => gmm_log_likelihood g' val)).
(** Lines 115-128: torch.zeros(n_folds) filled from the front, then the mean over all n_folds. *)
Definition n_folds : nat := 5.
(** evaluator.py:115-128, one candidate. *)
Definition candidate_score (iterations : nat) (draw : nat -> list (list R)) (data : wide R) (k : Z) : result fl :=
  let chunks := chunk n_folds (w_rows data) in
  bind (mapiM (fun i val => bind (others chunks i) (fun train =>
                            held_out iterations (w_cols data) (draw i) k train val)) chunks) (fun lls =>
  Ok (fdiv_nat (fsum (lls ++ repeat (Some (Fin 0)) (n_folds - length lls))) n_folds)).
(** evaluator.py:109-139. *)
Definition cv_gmm (iterations : nat) (draw : nat -> nat -> list (list R)) (last : Z -> list (list R))
    (data : wide R) (candidates : list Z) : result gmm :=
  bind (match candidates with
        | [] => Err IndexError
        | [k] => Ok k
        | _ => bind (mapiM (fun c k => candidate_score iterations (draw c) data k) candidates) (fun avg =>
               bind (fargmax avg) (fun b => match nth_error candidates b with Some k => Ok k | None => Err IndexError end))
        end) (fun k =>
  bind (gmm_new (last k) k (Z.of_nat (w_cols data))) (fun g => gmm_fit iterations data g)).

(** ** Integration over the latent space, evaluator.py:73-107, 981-1014, 1062-1153 *)
(** The fitted latent density held by the evaluator: its kind and its pdf (one value per point). evaluator.py:100-107 and 1122-1128. *)
Inductive density_kind := KQmvn | KGmm.
(** evaluator.py:39, 102-105 and 1150. *)
Record density := Density { dn_kind : density_kind; dn_pdf : list (list R) -> result (list fl) }.
(** latent_density_method; any other string is [MOther]. evaluator.py:1062-1073. *)
Inductive method := MData | MEncoder | MQmvn | MGmm | MOther.
(** isinstance, evaluator.py:1123 and 1127. *)
Definition kind_eqb (a b : density_kind) : bool := match a, b with KQmvn, KQmvn | KGmm, KGmm => true | _, _ => false end.
(** QuantileMVNormal.fit and fit_multivariate_normal, quantile_mv_normal.py:24-62, and pdf, 64-82; [icdf] is the normal
    quantile function.  log_prob refuses NaN.  Simplification: the density at an infinite point is taken to be 0 (with
    several latent variables torch may give NaN there). *)
Definition qmvn_scores (icdf : R -> R) (lv : nat) (data : list (list R)) : list (list R) :=
  let qt := map (fun i => quantile_transform icdf (column 0 i data)) (seq 0 lv) in
  map (fun n => map (fun i => nth n (nth i qt []) 0) (seq 0 lv)) (seq 0 (length data)).
(** quantile_mv_normal.py:82. *)
Definition qmvn_pdf_at (f : list R -> R) (z : list fl) : result fl :=
  if existsb (fun a : fl => match a with None => true | _ => false end) z then Err ValueError
  else Ok (if forallb is_fin z then fin_r (exp (f (map fval z))) else fin_r 0).
(** quantile_mv_normal.py:33-35 and 59-62. *)
Definition qmvn_fit (icdf : R -> R) (lv : nat) (data : list (list R)) : result density :=
  let qt := qmvn_scores icdf lv data in
  rmap (fun f => Density KQmvn (mapM (fun row => bind (qmvn_point icdf lv data row) (qmvn_pdf_at f))))
       (mvn lv (map (fun i => fin_r (rmean (column 0 i qt))) (seq 0 lv))
            (map (map (fun c => match c with Some x => fin_r x | None => None end)) (covariance lv qt))).
(** The default candidates of approximate_latent_density (line 101) and gmm.fit's 100 iterations. *)
Definition gmm_fit_density (draw : nat -> nat -> list (list R)) (last : Z -> list (list R)) (lv : nat)
    (data : list (list R)) : result density :=
  rmap (fun g => Density KGmm (gmm_pdf g)) (cv_gmm 100 draw last (Wide lv data) [2; 3; 4; 5; 10]%Z).
(** approximate_latent_density, 100-107: the density held afterwards and the outcome; [fit_q] and [fit_g] fit the two
    kinds.  The unfitted QuantileMVNormal is stored before its fit (104), so it stays when the fit raises.
    evaluator.py:104, quantile_mv_normal.py:20-22. *)
Definition unfitted : density := Density KQmvn (fun _ => Err AttributeError).
(** evaluator.py:100-107. *)
Definition approximate (fit_q fit_g : list (list R) -> result density) (m : method) (held : option density)
    (scores : list (list R)) : option density * result density :=
  match m with
  | MGmm => match fit_g scores with Ok d => (Some d, Ok d) | Err e => (held, Err e) end
  | MQmvn => match fit_q scores with Ok d => (Some d, Ok d) | Err e => (Some unfitted, Err e) end
  | _ => (held, Err ValueError)
  end.
(** _min_max_theta_for_integration with scores given, 1009-1014; the standard deviation of a single score is NaN, which
    the densities refuse in log_prob (ValueError), so a single respondent is refused here. *)
Definition integration_range (lv : nat) (scores : list (list R)) : result (list (R * R)) :=
  match scores with
  | [] => Err IndexError (* min of an empty dimension *)
  | [_] => Err ValueError
  | _ => Ok (map (fun i => let c := column 0 i scores in (rmin_list c - sd c, rmax_list c + sd c)) (seq 0 lv))
  end.
(** Lines 1134-1148. *)
Definition integration_grid (segments lv : nat) (scores : list (list R)) : result (list (list R)) :=
  rmap (fun r => product (map (fun '(lo, hi) => linspace lo hi segments) r)) (integration_range lv scores).
(** Lines 1150-1151. *)
Definition normalised (p : list fl) : list fl := map (fun x => fdiv x (fsum p)) p.
(** _get_theta_scores_and_weights_for_latent_density_methods, 1113-1153: the density held afterwards and the outcome
    (grid and weights). *)
Definition density_weights (fit_q fit_g : list (list R) -> result density) (segments lv : nat) (m : method)
    (held : option density) (population : bool) (scores : list (list R)) :
    option density * result (list (list R) * list fl) :=
  let reuse k := match held with Some d => if kind_eqb (dn_kind d) k then Some d else None | None => None end in
  let '(held', found) :=
    match (if population then None else match m with MQmvn => reuse KQmvn | MGmm => reuse KGmm | _ => None end) with
    | Some d => (held, Ok d)
    | None => approximate fit_q fit_g m held scores
    end in
  (held', bind found (fun d =>
          bind (integration_grid segments lv scores) (fun grid =>
          bind (dn_pdf d grid) (fun p => Ok (grid, normalised p))))).
(** What the evaluator finds on the fitted algorithm. evaluator.py:1085-1090. *)
Record fitted := Fitted {
  ft_scores : option (list (list R));       (* algorithm.training_theta_scores *)
  ft_mml : bool;                            (* isinstance(algorithm, MML) *)
  ft_vae : bool;                            (* isinstance(algorithm, VAE) *)
  ft_normal : list (list R)                 (* the 4000 draws of mvn.sample *) }.
(** _validate_latent_density_method, 1062-1073. *)
Definition validate_method (m : method) (vae : bool) : result unit :=
  match m with
  | MOther => Err ValueError
  | MEncoder => if vae then Ok tt else Err ValueError
  | _ => Ok tt
  end.
(** _get_theta_scores_and_weights, 1075-1111, after validation as sum_score_probabilities calls it (819-822).
    [population] is the outcome of latent_scores(population_data, theta_estimation="NN", ...) when data are given.
    sample_latent_variables(sample_size=, input_data=) lacks the required argument model (vae.py:327): TypeError. *)
Definition scores_and_weights (fit_q fit_g : list (list R) -> result density) (segments lv : nat) (m : method)
    (held : option density) (f : fitted) (population : option (result (list (list R)))) :
    option density * result (list (list R) * list fl) :=
  match validate_method m (ft_vae f) with
  | Err e => (held, Err e)
  | Ok _ =>
      match match population with
            | Some r => r
            | None => match ft_scores f with
                      | Some t => Ok t
                      | None => if ft_mml f then Ok (ft_normal f) else Err UnboundLocalError
                      end
            end with
      | Err e => (held, Err e)
      | Ok scores =>
          match m with
          | MData => (held, Ok (scores, map (fun _ => fdiv (fin_r 1) (fin_r (INR (length scores)))) scores))
          | MEncoder => (held, Err TypeError)
          | _ => density_weights fit_q fit_g segments lv m held (match population with Some _ => true | None => false end) scores
          end
      end
  end.
