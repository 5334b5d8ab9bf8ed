(** Vocabulary for the order of scores. *)
From Verif Require Import Base RBase M_Data M_Logit M_Lik M_Est S_Logit S_Lik S_Est.
Import List.
Local Open Scope R_scope.

(** How much answering category [k] of item [i] counts towards latent variable [d], in the models where a sufficient
    statistic exists. *)
Inductive weights_of : emodel -> (list R -> nat -> nat -> R) -> (nat -> nat -> nat -> R) -> Prop :=
| weights_opl nanl m : length (opl_b m) = opl_items m -> (0 < opl_items m)%nat ->
    weights_of (of_sub (opl_sub nanl m)) (opl_p m) (fun i k d => INR k)
| weights_tpl nanl m : tpl_wf m -> (0 < tpl_items m)%nat ->
    weights_of (of_sub (tpl_sub nanl m)) (tpl_p m) (fun i k d => INR k * slope (tpl_free m) (tpl_w m) i d)
| weights_gpc nanl m : poly_wf m -> (0 < p_items m)%nat ->
    weights_of (of_sub (gpc_sub nanl m)) (gpc_p m) (fun i k d => INR k * slope (p_free m) (p_w m) i d)
| weights_nrm nanl m : nrm_wf m -> (0 < length (nrm_cats m))%nat ->
    weights_of (of_sub (nrm_sub nanl m)) (nrm_p m) (fun i k d => nrm_slope m i k d).
(** The weighted sum score of a row on latent variable [d]; missing answers count nothing. *)
Definition total (w : nat -> nat -> nat -> R) (row : list cell) (d : nat) : R :=
  rsum (mapi (fun i c => match answer c with None => 0 | Some k => w i k d end) row).
(** The two rows answer the same items. *)
Definition same_items (row row' : list cell) : Prop :=
  forall i, answer (nth i row None) = None <-> answer (nth i row' None) = None.

(** Models with one latent variable and only positive slopes. *)
Inductive upward : emodel -> (list R -> nat -> nat -> R) -> Prop :=
| upward_opl nanl m : length (opl_b m) = opl_items m -> (0 < opl_items m)%nat -> upward (of_sub (opl_sub nanl m)) (opl_p m)
| upward_tpl nanl m : tpl_wf m -> (0 < tpl_items m)%nat -> tpl_lv m = 1%nat ->
    (forall i, (i < tpl_items m)%nat -> 0 < slope (tpl_free m) (tpl_w m) i 0) -> upward (of_sub (tpl_sub nanl m)) (tpl_p m)
| upward_thpl nanl m : thpl_wf m -> (0 < thpl_items m)%nat -> thpl_lv m = 1%nat ->
    (forall i, (i < thpl_items m)%nat -> 0 < slope (thpl_free m) (thpl_w m) i 0) -> upward (of_sub (thpl_sub nanl m)) (thpl_p m)
| upward_gpc nanl m : poly_wf m -> (0 < p_items m)%nat -> p_lv m = 1%nat ->
    (forall i, (i < p_items m)%nat -> 0 < slope (p_free m) (p_w m) i 0) -> upward (of_sub (gpc_sub nanl m)) (gpc_p m)
| upward_grm nanl m : poly_wf m -> (0 < p_items m)%nat -> p_lv m = 1%nat -> decreasing_intercepts m ->
    (forall i, (i < p_items m)%nat -> 0 < slope (p_free m) (p_w m) i 0) -> upward (of_sub (grm_sub nanl m)) (grm_p m).
(** The second answer to an item of [K] categories is at least as good: the same, a higher category, the highest category
    instead of none, or none instead of the lowest. *)
Inductive no_worse (K : nat) : option nat -> option nat -> Prop :=
| nw_same a : no_worse K a a
| nw_higher k k' : (k < k')%nat -> (k' < K)%nat -> no_worse K (Some k) (Some k')
| nw_top : no_worse K None (Some (K - 1)%nat)
| nw_bottom : no_worse K (Some O) None.
Definition all_no_worse (cats : list nat) (row row' : list cell) : Prop :=
  forall i, (i < length cats)%nat -> no_worse (nth i cats O) (answer (nth i row None)) (answer (nth i row' None)).
(** Some item with at least two categories is answered differently. *)
Definition some_different (cats : list nat) (row row' : list cell) : Prop :=
  exists i, (i < length cats)%nat /\ (2 <= nth i cats O)%nat /\ answer (nth i row None) <> answer (nth i row' None).

(** EAP's number of grid points per latent variable. *)
Definition eap_points (m : emodel) (points : option nat) : nat := match points with Some g => g | None => eap_default_points (em_lv m) end.
(** The grid does not shrink to a single value of the latent variable. *)
Definition grid_spread (m : emodel) (a : algo) (points : option nat) : Prop :=
  (2 <= eap_points m points)%nat /\
  match al_training a with
  | Some (Some scores) => exists s s', In s scores /\ In s' scores /\ nth 0 s 0 < nth 0 s' 0
  | Some None => False
  | None => True
  end.
