(** NestedLogit as the estimation algorithms and the scoring see it.  Definitions only. *)
From Verif Require Import Base RBase M_Data M_Logit M_Lik M_Est M_Mono M_BSpl.
Import List.

(** forward, nested_logit.py:160-241, with the probabilities of the model for right and wrong answers (180-183) and of the
    model for the wrong answers (185-209) given as functions of the batch. *)
Definition nl_forward (M : nat) (key : list nat) (correct cond : list (list R) -> result (list (list (list (option R))))) (thetas : list (list R))
  : result (list (list (list (option R)))) :=
  bind (correct thetas) (fun p => rmap (nested_probabilities M key p) (cond thetas)).
(** forward as above, probabilities_from_output 260-275 (the output itself), log_likelihood 277-321. *)
Definition nl_model (nanl : Z) (lv : nat) (cats key : list nat) (correct cond : list (list R) -> result (list (list (list (option R))))) : emodel :=
  EModel lv cats (fun thetas => rmap (fun out => T3 (Cube (length cats) (list_max cats) out)) (nl_forward (list_max cats) key correct cond thetas))
    (fun red data out mask => match out with
       | T3 c => prob_log_likelihood nanl (list_max cats) red (w_rows data) (cb_rows c) (option_map w_rows mask)
       | T2 _ => Err RuntimeError
       end).
(** incorrect_response_model = "nominal": a NominalResponse with one category less per item, nested_logit.py:185-188. *)
Definition nominal_wrong (n : nrm) (thetas : list (list R)) : result (list (list (list (option R)))) := Ok (nrm_probabilities n thetas).
(** incorrect_response_model = "bspline", nested_logit.py:189-207. *)
Definition spline_wrong (m : nspl) (thetas : list (list R)) : result (list (list (list (option R)))) :=
  bind (match ns_basis m with Some basis => Ok basis | None => spline_basis (ns_lv m) (ns_degree m) (ns_knots m) thetas end)
    (fun basis => ns_evaluate m (length thetas) basis).
(** item_probabilities, base_irt_model.py:203-219 with nested_logit.py:260-275. *)
Definition nl_probabilities (cats key : list nat) (correct cond : list (list R) -> result (list (list (list (option R))))) :=
  nl_forward (list_max cats) key correct cond.
