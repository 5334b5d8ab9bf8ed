(** The heatmap of item and latent variable relationships, irtorch/plotter.py:439-503. *)
From Verif Require Import Base RBase M_Logit M_Lik M_Pop.
Import List.
Local Open Scope R_scope.

(** What the figure shows: cells, labels of the columns and rows (the number in the label), height in pixels; plotter.py:484-503. *)
Record heatfig := HeatFig { hf_cells : list (list nanr); hf_columns : list nat; hf_rows : list nat; hf_height : nat }.
(** The scores used without relationships, plotter.py:475-479.  [algorithm]: None before fit or for an algorithm never set
    (base_irt_model.py:45), its training scores otherwise (None inside: base_irt_algorithm.py:16). *)
Definition heat_scores (algorithm : option (option (list (list R)))) (theta : option (list (list R))) : result (list (list R)) :=
  match theta with
  | Some t => Ok t
  | None => match algorithm with
            | None => Err AttributeError
            | Some None => Err ValueError
            | Some (Some t) => Ok t
            end
  end.
(** plotter.py:498-501. *)
Definition heat_height (items : nat) : nat := 200 + 20 * 80.
(** plotter.py:474-503; the mean of the gradients (480) is that of population_discrimination, without scales.
    Rows and columns are labelled by the shape of the table (484-486). *)
Definition heatmap (grad : (R -> R) -> R -> R) (lv : nat) (cats : list nat) (M : nat) (mc : option (list Z))
  (probs : list (list R) -> list (list (list nanr))) (algorithm : option (option (list (list R))))
  (relationships : option (list (list nanr))) (theta : option (list (list R))) : result heatfig :=
  bind (match relationships with
        | Some rel => Ok rel
        | None => bind (heat_scores algorithm theta) (population_discrimination grad lv cats M mc probs)
        end) (fun rel =>
  Ok (HeatFig rel (seq 1 (length (nth 0 rel []))) (seq 1 (length rel)) (heat_height (length rel)))).
