(** Model of probability_gradients and of information as methods of a fitted model,
    models/base_irt_model.py:392-464 and 506-543.  Definitions only.  Simplification throughout: floats are reals. *)
From Verif Require Import Base RBase M_Logit M_Mono M_Lik M_Est M_Stat M_Scale.
Import List.
Local Open Scope R_scope.

(** Entry of a tensor of shape respondents x items x M; a NaN is read as 0 (the library's own models give none,
    C13, C16, C18). *)
Definition cell_of (p : list (list (list (option R)))) (r i k : nat) : R := match at3 p r i k with Some (Some x) => x | _ => 0 end.
(** The probabilities of one row of scores, an items x M table: the first two indices of the tensor divided by in base_irt_model.py:446-453. *)
Definition slice (items M : nat) (p : list (list (list (option R)))) (r : nat) : list (list R) :=
  map (fun i => map (fun k => cell_of p r i k) (seq 0 M)) (seq 0 items).
(** compute_jacobian, base_irt_model.py:532-534: item_probabilities of one row of scores, differentiated by each of
    its entries; [grad] is the derivative of a one-variable function (torch.func.jacrev) and an input of the model. *)
Definition probability_gradient_at (grad : (R -> R) -> R -> R) (probs : list (list R) -> list (list (list (option R))))
  (items M lv : nat) (t : list R) : list (list (list R)) :=
  map (fun i => map (fun k => map (fun d => grad (fun x => cell_of (probs [upd d x t]) 0 i k) (nth d t 0)) (seq 0 lv)) (seq 0 M)) (seq 0 items).
(** probability_gradients, base_irt_model.py:530-543: one slice per row of scores (torch.vmap), rescaled when asked
    and when scales are attached. *)
Definition probability_gradients (grad : (R -> R) -> R -> R) (solve : list (list R) -> list R -> result (list fl))
  (probs : list (list R) -> list (list (list (option R)))) (items M lv : nat) (scales : list scale) (rescale : bool)
  (thetas : list (list R)) : result (list (list (list (list R)))) :=
  let g := map (probability_gradient_at grad probs items M lv) thetas in
  match rescale, scales with
  | true, _ :: _ => rmap (fun rows => blocks items (blocks M rows)) (rescale_gradients solve lv scales (concat (concat g)) thetas)
  | _, _ => Ok g
  end.
(** information, base_irt_model.py:442-464, row by row. *)
Definition model_information (grad : (R -> R) -> R -> R) (solve : list (list R) -> list R -> result (list fl))
  (probs : list (list R) -> list (list (list (option R)))) (items M lv : nat) (scales : list scale) (rescale : bool)
  (degrees : option (list R)) (item : bool) (thetas : list (list R)) : result (list info) :=
  if (match degrees with Some ds => negb (length ds =? lv)%nat | None => false end) then Err ValueError
  else bind (probability_gradients grad solve probs items M lv scales rescale thetas) (fun g =>
    mapM (fun '(r, gr) => information lv degrees item (slice items M (probs thetas) r) gr) (combine (seq 0 (length thetas)) g)).
