(** Specification vocabulary for the parametric models, written from the documented formulas. *)
From Verif Require Import Base RBase M_Logit.
Local Open Scope R_scope.

(** Slope of item (row) [i] on latent variable [d]: the free slopes are stored item by item, in
    the order of the related latent variables; unrelated pairs have slope 0. *)
Definition slope (free : list (list bool)) (w : list R) (i d : nat) : R :=
  if nth d (nth i free []) false
  then nth (ctrue (concat (firstn i free)) + ctrue (firstn d (nth i free []))) w 0
  else 0.

(** a . theta *)
Definition predictor (lv : nat) (a : nat -> R) (theta : list R) : R :=
  sumn lv (fun d => a d * nth d theta 0).

(** Intercept of category [k] of item [i]: the free intercepts are stored item by item, K_i - 1 each;
    category 0 has intercept 0. *)
Definition intercept (cats : list nat) (b : list R) (i k : nat) : R :=
  if (1 <=? k)%nat && (k <? nth i cats O)%nat
  then nth (list_sum (firstn i (map pred cats)) + (k - 1)) b 0
  else 0.

(** Probability of category [k] among [K] with logits [z]. *)
Definition category_probability (K : nat) (z : nat -> R) (k : nat) : R :=
  exp (z k) / sumn K (fun j => exp (z j)).

(** The two theta vectors differ in latent variable [d] only, where the second is larger. *)
Definition increases_in (d : nat) (t t' : list R) : Prop :=
  length t = length t' /\ nth d t 0 < nth d t' 0 /\ forall e, e <> d -> nth e t 0 = nth e t' 0.

(** Shape invariants established by the constructors and kept by every parameter update. *)
Definition tpl_wf (m : tpl) : Prop :=
  (0 < tpl_lv m)%nat /\ Forall (fun r => length r = tpl_lv m) (tpl_free m) /\
  length (tpl_w m) = ctrue (concat (tpl_free m)) /\ length (tpl_b m) = tpl_items m.
Definition thpl_wf (m : thpl) : Prop :=
  (0 < thpl_lv m)%nat /\ Forall (fun r => length r = thpl_lv m) (thpl_free m) /\
  length (thpl_w m) = ctrue (concat (thpl_free m)) /\ length (thpl_b m) = thpl_items m /\
  length (thpl_g m) = thpl_items m.
Definition poly_wf (m : poly) : Prop :=
  (0 < p_lv m)%nat /\ Forall (fun K => (1 <= K)%nat) (p_cats m) /\
  length (p_free m) = p_items m /\ Forall (fun r => length r = p_lv m) (p_free m) /\
  length (p_w m) = ctrue (concat (p_free m)) /\ length (p_b m) = list_sum (map pred (p_cats m)).
Definition nrm_wf (m : nrm) : Prop :=
  (0 < nrm_lv m)%nat /\ Forall (fun K => (1 <= K)%nat) (nrm_cats m) /\
  length (nrm_rel m) = length (nrm_cats m) /\ Forall (fun r => length r = nrm_lv m) (nrm_rel m) /\
  length (nrm_w m) = ctrue (concat (nrm_free m)) /\ length (nrm_b m) = list_sum (map pred (nrm_cats m)).

(** A valid probability distribution over [M] table cells of which the first [K] are real categories. *)
Definition valid_distribution (K M : nat) (p : nat -> R) : Prop :=
  (forall k, (k < M)%nat -> 0 <= p k) /\ sumn M p = 1 /\
  (forall k, (k < K)%nat -> 0 < p k) /\ (forall k, (K <= k < M)%nat -> p k = 0).

(** Graded response: P(X >= k) according to the documentation. *)
Definition geq_probability (K : nat) (z : nat -> R) (k : nat) : R :=
  if (k =? 0)%nat then 1 else if (k <? K)%nat then logistic (z k) else 0.

(** Nominal response: the free slopes are stored item by item, category 1..K_i-1 by category, in the
    order of the related latent variables; the slope of category 0 is minus the sum of the others, and
    likewise for the intercepts. *)
Definition nrm_free_slope (m : nrm) (i k d : nat) : R :=
  if nth d (nth i (nrm_rel m) []) false
  then nth (list_sum (map (fun Kr => pred (fst Kr) * ctrue (snd Kr)) (firstn i (combine (nrm_cats m) (nrm_rel m))))
            + pred k * ctrue (nth i (nrm_rel m) []) + ctrue (firstn d (nth i (nrm_rel m) [])))%nat (nrm_w m) 0
  else 0.
Definition nrm_slope (m : nrm) (i k d : nat) : R :=
  if (k =? 0)%nat then - sumn (nth i (nrm_cats m) O - 1) (fun j => nrm_free_slope m i (S j) d)
  else nrm_free_slope m i k d.
Definition nrm_intercept (m : nrm) (i k : nat) : R :=
  if (k =? 0)%nat then - sumn (nth i (nrm_cats m) O - 1) (fun j => intercept (nrm_cats m) (nrm_b m) i (S j))
  else intercept (nrm_cats m) (nrm_b m) i k.
