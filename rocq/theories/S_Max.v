(** Vocabulary for the existence of ML and MAP scores. *)
From Verif Require Import Base RBase M_Data M_Logit M_Lik M_Est S_Logit S_Lik S_Est S_Opt.
Import List.
Local Open Scope R_scope.

(** The point [x] steps of direction [v] away from [t]. *)
Definition line (lv : nat) (t v : list R) (x : R) : list R := map (fun d => nth d t 0 + x * nth d v 0) (seq 0 lv).
(** How the logit of category [k] of item [i] changes along direction [v], for the models without guessing; in the graded
    response model the categories are ordered along the item's slope. *)
Inductive slopes_of : emodel -> (list R -> nat -> nat -> R) -> (list R -> nat -> nat -> R) -> Prop :=
| slopes_opl nanl m : length (opl_b m) = opl_items m -> (0 < opl_items m)%nat ->
    slopes_of (of_sub (opl_sub nanl m)) (opl_p m) (fun v i k => INR k * nth 0 v 0)
| slopes_tpl nanl m : tpl_wf m -> (0 < tpl_items m)%nat ->
    slopes_of (of_sub (tpl_sub nanl m)) (tpl_p m) (fun v i k => INR k * predictor (tpl_lv m) (slope (tpl_free m) (tpl_w m) i) v)
| slopes_gpc nanl m : poly_wf m -> (0 < p_items m)%nat ->
    slopes_of (of_sub (gpc_sub nanl m)) (gpc_p m) (fun v i k => INR k * predictor (p_lv m) (slope (p_free m) (p_w m) i) v)
| slopes_grm nanl m : poly_wf m -> (0 < p_items m)%nat -> decreasing_intercepts m ->
    slopes_of (of_sub (grm_sub nanl m)) (grm_p m) (fun v i k => INR k * predictor (p_lv m) (slope (p_free m) (p_w m) i) v)
| slopes_nrm nanl m : nrm_wf m -> (0 < length (nrm_cats m))%nat ->
    slopes_of (of_sub (nrm_sub nanl m)) (nrm_p m) (fun v i k => predictor (nrm_lv m) (nrm_slope m i k) v).
(** Some observed answer is not the one most favoured far out in the direction of slopes [s]. *)
Definition held_back (cats : list nat) (s : nat -> nat -> R) (row : list cell) : Prop :=
  exists i k j, answer (nth i row None) = Some k /\ (j < nth i cats O)%nat /\ s i k < s i j.
