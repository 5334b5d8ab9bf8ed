(** Model of irtorch/rescale/bit.py with population scores: the directions the constructor computes, the range of the grid
    and [transform] / [transform_to_1D].  Definitions only.  Simplification: the model enters through its expected total
    score and the entropies of the selected items, as functions of one respondent's scores. *)
From Verif Require Import Base RBase M_Logit M_Mono M_Lik M_Est M_Stat M_Grid.
Import M_Est List.
Local Open Scope R_scope.

(** _get_inverted_scale_multiplier, rescale/bit.py:504-513: variable [j] at -1 and at 1, the others at 0. *)
Definition direction (total : list R -> R) (lv j : nat) : R :=
  invert_multiplier (total (upd j (-1) (repeat 0 lv))) (total (upd j 1 (repeat 0 lv))).
(** rescale/bit.py:505-511, all variables. *)
Definition directions (total : list R -> R) (lv : nat) : list R := map (direction total lv) (seq 0 lv).
(** The boundaries as numbers, rescale/bit.py:167 and 211; they are never infinite (C125_range). *)
Definition finite_bounds (b : ext * ext) : result (R * R) :=
  match b with (Fin lo, Fin hi) => Ok (lo, hi) | _ => Err RuntimeError end.
(** The range of the grid from population scores, rescale/bit.py:166-167 and 210-211. *)
Definition population_range (mult start : list R) (population : list (list R)) : result (list (R * R)) :=
  bind (grid_boundaries (map (adjust mult start) population) (zip_with Rmult start mult)) (mapM finite_bounds).
(** Medians of the adjusted population scores, rescale/bit.py:168. *)
Definition population_medians (mult start : list R) (population : list (list R)) : list R :=
  map (fun j => median (column 0 j (map (adjust mult start) population))) (seq 0 (length start)).
(** transform, rescale/bit.py:159-180, with population scores and a start; columns of the result. *)
Definition bit_transform_population (total : list R -> R) (ent : list R -> list R) (gp : nat) (population : list (list R)) (start : list R) (thetas : list (list R)) : result (list (list R)) :=
  let mult := directions total (length start) in
  bind (population_range mult start population) (fun bounds =>
  Ok (bit_scores (fun t => ent (zip_with Rmult t mult)) gp (population_medians mult start population) (zip_with Rmult start mult) bounds (map (adjust mult start) thetas))).
(** transform_to_1D, rescale/bit.py:201-222, with population scores and a start; one score for each respondent. *)
Definition bit_transform_1d_population (total : list R -> R) (ent : list R -> list R) (gp : nat) (population : list (list R)) (start : list R) (thetas : list (list R)) : result (list R) :=
  let mult := directions total (length start) in
  if (length start =? 1)%nat then bind (bit_transform_population total ent gp population start thetas) (fun cols => Ok (nth 0 cols []))
  else bind (population_range mult start population) (fun bounds =>
       Ok (map (fun theta => bit_score_1d (fun t => ent (zip_with Rmult t mult)) gp (adjust mult start theta) (zip_with Rmult start mult) bounds) thetas)).
