(** Vocabulary for models estimated and scored by the probabilities they report. *)
From Verif Require Import Base RBase M_Data M_Logit M_Lik M_Est M_Opt M_Jml S_Logit S_Lik S_Est S_Eap.
Import List.
Local Open Scope R_scope.

(** In every batch of latent scores that is not empty, the table of probabilities has the numbers [p] for the categories of the items. *)
Definition reports (probabilities : list (list R) -> result (list (list (list (option R))))) (lv : nat) (cats : list nat) (p : list R -> nat -> nat -> R) : Prop :=
  forall thetas, thetas <> [] -> Forall (fun t => length t = lv) thetas -> exists probs, probabilities thetas = Ok probs /\
    forall r t i K k, nth_error thetas r = Some t -> nth_error cats i = Some K -> (k < K)%nat -> at3 probs r i k = Some (Some (p t i k)).
(** Positive probabilities, adding up to one for every item. *)
Definition distributions (lv : nat) (cats : list nat) (p : list R -> nat -> nat -> R) : Prop :=
  forall t i K, length t = lv -> nth_error cats i = Some K -> (forall k, (k < K)%nat -> 0 < p t i k) /\ sumn K (p t i) = 1.
(** All combinations of [g] equally spaced points from -3 to 3. *)
Definition wide_points (lv g : nat) (grid : list (list R)) : Prop :=
  length grid = (g ^ lv)%nat /\ forall t, In t grid <-> length t = lv /\ forall d, (d < lv)%nat -> exists j, (j < g)%nat /\ nth d t 0 = -3 + INR j * (6 / INR (g - 1)).
(** The marginal loss, the joint loss, the loss minimised for MAP scores and the EAP scores, after a fit and before any, are those of the probabilities [p]; the grid for EAP scores does
    not depend on the data scored. *)
Definition scored_by (m : emodel) (p : list R -> nat -> nat -> R) : Prop :=
  (forall points weights data, points <> [] -> data <> [] -> length weights = length points -> Forall (fun t => length t = em_lv m) points -> Forall (fun w => 0 < w) weights -> legal_data (em_cats m) data ->
     mml_loss m points (map (fun w => Some (Fin (ln w))) weights) (Wide (em_items m) data) =
       Ok (Some (Fin (- rsum (map (fun row => ln (rsum (zip_with (fun w t => w * likelihood p t row) weights points))) data))))) /\
  (forall thetas data, data <> [] -> Forall (fun t => length t = em_lv m) thetas -> length thetas = length data -> legal_data (em_cats m) data ->
     jml_loss m (Wide (em_items m) data) thetas = Ok (Some (Fin (- sumn (length data) (fun n => ln (likelihood p (nth n thetas []) (nth n data [])))))) /\
     forall lp, scoring_loss m (Some lp) (Wide (em_items m) data) thetas =
       Ok (Some (Fin (- sumn (length data) (fun n => ln (likelihood p (nth n thetas []) (nth n data [])) + lp (nth n thetas [])))))) /\
  (forall mvn a scores logpdf points, (em_lv m <= 4)%nat -> al_training a = Some (Some scores) -> scores <> [] -> mvn (covariance (em_lv m) scores) = Ok logpdf ->
     let g := match points with Some g => g | None => usual_points (em_lv m) end in
     (0 < g)%nat ->
     exists grid, eap_grid (em_lv m) g scores grid /\ forall data, data <> [] -> legal_data (em_cats m) data ->
       eap_theta_scores mvn m a points (Wide (em_items m) data) =
         Ok (map (fun row => map (fun d => Some (Fin (
               rsum (map (fun t => nth d t 0 * (exp (logpdf t) * likelihood p t row)) grid) /
               rsum (map (fun t => exp (logpdf t) * likelihood p t row) grid)))) (seq 0 (em_lv m))) data)) /\
  (forall mvn logpdf points, (em_lv m <= 4)%nat -> mvn (map (map Some) (identity (em_lv m))) = Ok logpdf ->
     let g := match points with Some g => g | None => usual_points (em_lv m) end in
     (0 < g)%nat ->
     exists grid, wide_points (em_lv m) g grid /\ forall data, data <> [] -> legal_data (em_cats m) data ->
       eap_theta_scores mvn m no_algorithm points (Wide (em_items m) data) =
         Ok (map (fun row => map (fun d => Some (Fin (
               rsum (map (fun t => nth d t 0 * (exp (logpdf t) * likelihood p t row)) grid) /
               rsum (map (fun t => exp (logpdf t) * likelihood p t row) grid)))) (seq 0 (em_lv m))) data)).
