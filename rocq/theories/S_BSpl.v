(** Specification vocabulary for the spline models and for saved models. *)
From Coq Require Import String.
From Verif Require Import Base RBase M_Logit S_Logit M_Mono M_BSpl.
Import List.
Local Open Scope R_scope.

(** Knots in increasing order (possibly repeated). *)
Definition in_order (l : list R) : Prop := forall i j, (i <= j < length l)%nat -> nth i l 0 <= nth j l 0.

(** The spline of degree [p] on the transformed scale with increments softplus(c 0), softplus(c 1), ...: the b-th basis
    function has coefficient softplus(c 0) + ... + softplus(c b). *)
Definition spline_value (p : nat) (knots : list R) (c : nat -> R) (theta : R) : R :=
  sumn (n_bases p knots) (fun b => bbasis (fun j => nth j knots 0) p b (logistic theta) * sumn (S b) (fun j => softplus (c j))).

(** Parameters: shared splines are stored by latent variable, basis function and item; separate ones (one latent
    variable) by basis function, item and category above the lowest. *)
Definition shared_increment (m : bspl) (d i b : nat) : R := nth ((d * bs_n m + b) * length (bs_cats m) + i) (bs_coef m) 0.
Definition own_increment (m : bspl) (i c b : nat) : R :=
  nth (b * list_sum (map pred (bs_cats m)) + (list_sum (firstn i (map pred (bs_cats m))) + (c - 1))) (bs_coef m) 0.

(** Logit of category [k] of item [i] for latent scores [t]. *)
Definition bspline_logit (m : bspl) (t : list R) (i k : nat) : R :=
  (if bs_by_item m
   then INR k * sumn (bs_lv m) (fun d => spline_value (bs_degree m) (bs_knots m) (shared_increment m d i) (nth d t 0))
   else sumn k (fun c => spline_value (bs_degree m) (bs_knots m) (own_increment m i (S c)) (nth 0 t 0)))
  + intercept (bs_cats m) (bs_bias m) i k.

(** [m'] has the architecture of [m], with any parameter values. *)
Definition same_bspl (m m' : bspl) : Prop :=
  bs_cats m' = bs_cats m /\ bs_lv m' = bs_lv m /\ bs_degree m' = bs_degree m /\ bs_knots m' = bs_knots m /\
  bs_by_item m' = bs_by_item m /\ length (bs_coef m') = length (bs_coef m) /\ length (bs_bias m') = length (bs_bias m) /\
  bs_basis m' = bs_basis m.

(** Probability of an answer above category [k]. *)
Definition above (M k : nat) (p : nat -> R) : R := sumn M (fun j => if (k <? j)%nat then p j else 0).

(** Names and shapes of saved entries. *)
Definition entries_agree (a b : state_dict) : Prop :=
  map (fun e => (fst e, fst (snd e))) a = map (fun e => (fst e, fst (snd e))) b.
