(** Specification vocabulary for the monotone models. *)
From Verif Require Import Base RBase M_Logit S_Logit M_Mono.
Local Open Scope R_scope.

(** Component-wise order of vectors. *)
Definition le_vec (x y : list R) : Prop := Forall2 Rle x y.

Definition nondecreasing (f : R -> R) : Prop := forall x y, x <= y -> f x <= f y.
Definition increasing (f : R -> R) : Prop := forall x y, x < y -> f x < f y.

(** Shape invariant of a softplus layer (kept by every parameter update). *)
Definition spl_wf (m : spl) : Prop :=
  (0 < sl_in m)%nat /\ sl_softplus m = true /\ length (sl_free m) = sl_out m /\
  Forall (fun r => length r = sl_in m) (sl_free m) /\ length (sl_raw m) = ctrue (concat (sl_free m)) /\
  length (sl_zero_out m) = sl_out m /\ length (sl_bias m) = ctrue (map negb (sl_zero_out m)).

(** [n'] has the architecture of [n], with any parameter values. *)
Definition same_layer (n n' : spl) : Prop :=
  sl_in n' = sl_in n /\ sl_out n' = sl_out n /\ sl_softplus n' = sl_softplus n /\
  sl_zero_out n' = sl_zero_out n /\ sl_free n' = sl_free n /\
  length (sl_raw n') = length (sl_raw n) /\ length (sl_bias n') = length (sl_bias n).
Definition same_mnn (m m' : mnn) : Prop :=
  n_cats m' = n_cats m /\ n_lv m' = n_lv m /\ n_rel m' = n_rel m /\ n_hidden m' = n_hidden m /\
  n_sep_items m' = n_sep_items m /\ n_negative m' = n_negative m /\ n_bounded m' = n_bounded m /\
  n_key m' = n_key m /\ length (n_bias m') = length (n_bias m) /\
  Forall2 (Forall2 same_layer) (n_layers m) (n_layers m') /\
  Forall2 (fun a b => length b = length a) (n_neg m) (n_neg m').

(** The learned direction of item [i] on latent variable [d]: the item's negation weight, 1 for models
    without negative relationships, 0 for unrelated pairs. *)
Definition mnn_direction (m : mnn) (i d : nat) : R :=
  if nth d (nth i (n_rel m) []) false
  then (if n_negative m
        then nth (ctrue (firstn i (column false d (n_rel m)))) (nth d (n_neg m) []) 0 else 1)
  else 0.

(** A stack of softplus layers in which every layer fits the previous one. *)
Fixpoint stack_wf (groups prev : nat) (ls : list spl) : Prop :=
  match ls with
  | [] => True
  | l :: ls' => spl_wf l /\ sl_in l = prev /\ exists h, sl_out l = (groups * h)%nat /\ stack_wf groups (groups * h) ls'
  end.

(** Same architecture of monotone polynomial models. *)
Definition same_mpm (m m' : mpm) : Prop :=
  q_cats m' = q_cats m /\ q_sep_items m' = q_sep_items m /\ length (q_bias m') = length (q_bias m) /\
  mp_k (q_poly m') = mp_k (q_poly m) /\ mp_in (q_poly m') = mp_in (q_poly m) /\
  mp_out (q_poly m') = mp_out (q_poly m) /\ mp_rel (q_poly m') = mp_rel (q_poly m) /\
  mp_intercept (q_poly m') = mp_intercept (q_poly m) /\ mp_shared (q_poly m') = mp_shared (q_poly m) /\
  (mp_dir (q_poly m') = None <-> mp_dir (q_poly m) = None).

(** Value of the polynomial without constant term with coefficients [b]: b_0 x + b_1 x^2 + ... *)
Definition polynomial (n : nat) (b : nat -> R) (x : R) : R := sumn n (fun j => b j * x ^ (j + 1)).
