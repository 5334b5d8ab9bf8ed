(** The spline models as the estimation algorithms and the scoring see them.  Definitions only. *)
From Verif Require Import Base RBase M_Data M_Logit M_Lik M_Est M_Mono M_BSpl.
Import List.

(** MonotoneBSpline: forward monotone_b_spline.py:117-161, log_likelihood base_irt_model.py:221-264, which reshapes the output to rows of
    max_item_responses; the items and categories of the three-dimensional output are kept here as one dimension. *)
Definition bs_model (nanl : Z) (m : bspl) : emodel :=
  EModel (bs_lv m) (bs_cats m) (fun thetas => rmap (fun out => T2 (Wide (bs_items m * bs_max m) (map (@concat ext) out))) (bs_forward m thetas))
    (fun red data out mask => base_log_likelihood nanl (bs_max m) red (w_rows data) (rows_of out) (option_map w_rows mask)).
(** SurprisalSpline: forward surprisal_spline.py:104-137, log_likelihood 156-200. *)
Definition ss_model (nanl : Z) (m : sspl) : emodel :=
  EModel (ss_lv m) (ss_cats m) (fun thetas => rmap (fun out => T3 (Cube (length (ss_cats m)) (list_max (ss_cats m)) (some3 out))) (ss_forward m thetas))
    (fun red data out mask => match out with
       | T3 c => prob_log_likelihood nanl (list_max (ss_cats m)) red (w_rows data) (cb_rows c) (option_map w_rows mask)
       | T2 _ => Err RuntimeError
       end).
(** SurprisalSpline's item_probabilities, base_irt_model.py:203-219 and surprisal_spline.py:139-154. *)
Definition ss_probabilities (m : sspl) (thetas : list (list R)) : result (list (list (list (option R)))) := rmap some3 (ss_forward m thetas).
