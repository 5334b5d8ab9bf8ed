(** Vocabulary for the equations satisfied by fitted item parameters. *)
From Verif Require Import Base RBase M_Data M_Logit M_Lik M_Est S_Logit S_Lik S_Est.
Import List.
Local Open Scope R_scope.

(** The models of one class and shape, as functions of the list of all parameters: the slopes, then the intercepts. *)
Definition opl_of (items : nat) (v : list R) : opl := {| opl_items := items; opl_b := v |}.
Definition tpl_of (lv : nat) (free : list (list bool)) (v : list R) : tpl :=
  {| tpl_lv := lv; tpl_free := free; tpl_w := firstn (ctrue (concat free)) v; tpl_b := skipn (ctrue (concat free)) v |}.
Definition gpc_of (cats : list nat) (lv : nat) (free : list (list bool)) (v : list R) : poly :=
  {| p_cats := cats; p_lv := lv; p_free := free; p_w := firstn (ctrue (concat free)) v; p_b := skipn (ctrue (concat free)) v |}.
Definition nrm_slopes (cats : list nat) (lv : nat) (rel : list (list bool)) : nat := ctrue (concat (nrm_free_weights cats (list_max cats) lv rel)).
Definition nrm_of (cats : list nat) (lv : nat) (rel : list (list bool)) (v : list R) : nrm :=
  {| nrm_cats := cats; nrm_lv := lv; nrm_rel := rel; nrm_w := firstn (nrm_slopes cats lv rel) v; nrm_b := skipn (nrm_slopes cats lv rel) v |}.

(** A class of models with [f_params] parameters: the model with parameters [v], its category probabilities, and the
    change [f_effect theta e i k] of the logit of category [k] of item [i] per unit of parameter [e]. *)
Record family := Family { f_params : nat; f_lv : nat; f_cats : list nat; f_model : list R -> emodel;
  f_p : list R -> list R -> nat -> nat -> R; f_effect : list R -> nat -> nat -> nat -> R }.
(** 1 in place [e], 0 elsewhere. *)
Definition unit_vector (n e : nat) : list R := map (fun j => if (j =? e)%nat then 1 else 0) (seq 0 n).
Definition opl_family (nanl : Z) (items : nat) : family :=
  Family items 1 (repeat 2%nat items) (fun v => of_sub (opl_sub nanl (opl_of items v))) (fun v => opl_p (opl_of items v))
    (fun t e i k => INR k * nth i (unit_vector items e) 0).
Definition tpl_family (nanl : Z) (lv : nat) (free : list (list bool)) : family :=
  let n := (ctrue (concat free) + length free)%nat in
  Family n lv (repeat 2%nat (length free)) (fun v => of_sub (tpl_sub nanl (tpl_of lv free v))) (fun v => tpl_p (tpl_of lv free v))
    (fun t e i k => let u := tpl_of lv free (unit_vector n e) in INR k * (predictor lv (slope free (tpl_w u) i) t + nth i (tpl_b u) 0)).
Definition gpc_family (nanl : Z) (cats : list nat) (lv : nat) (free : list (list bool)) : family :=
  let n := (ctrue (concat free) + list_sum (map pred cats))%nat in
  Family n lv cats (fun v => of_sub (gpc_sub nanl (gpc_of cats lv free v))) (fun v => gpc_p (gpc_of cats lv free v))
    (fun t e i k => let u := gpc_of cats lv free (unit_vector n e) in INR k * predictor lv (slope free (p_w u) i) t + intercept cats (p_b u) i k).
Definition nrm_family (nanl : Z) (cats : list nat) (lv : nat) (rel : list (list bool)) : family :=
  let n := (nrm_slopes cats lv rel + list_sum (map pred cats))%nat in
  Family n lv cats (fun v => of_sub (nrm_sub nanl (nrm_of cats lv rel v))) (fun v => nrm_p (nrm_of cats lv rel v))
    (fun t e i k => let u := nrm_of cats lv rel (unit_vector n e) in predictor lv (nrm_slope u i k) t + nrm_intercept u i k).
Inductive parametric : family -> Prop :=
| par_opl nanl items : (0 < items)%nat -> parametric (opl_family nanl items)
| par_tpl nanl lv free : (0 < lv)%nat -> (0 < length free)%nat -> Forall (fun r => length r = lv) free -> parametric (tpl_family nanl lv free)
| par_gpc nanl cats lv free : (0 < lv)%nat -> (0 < length cats)%nat -> Forall (fun K => (1 <= K)%nat) cats -> length free = length cats -> Forall (fun r => length r = lv) free ->
    parametric (gpc_family nanl cats lv free)
| par_nrm nanl cats lv rel : (0 < lv)%nat -> (0 < length cats)%nat -> Forall (fun K => (1 <= K)%nat) cats -> length rel = length cats -> Forall (fun r => length r = lv) rel ->
    parametric (nrm_family nanl cats lv rel).

(** Sum of [c] over the answers of a row, and its expectation over the answered items under probabilities [q]. *)
Definition observed_effect (c : nat -> nat -> R) (row : list cell) : R :=
  sumn (length row) (fun i => match answer (nth i row None) with None => 0 | Some k => c i k end).
Definition expected_effect (c : nat -> nat -> R) (q : nat -> nat -> R) (cats : list nat) (row : list cell) : R :=
  sumn (length row) (fun i => match answer (nth i row None) with None => 0 | Some _ => sumn (nth i cats O) (fun k => c i k * q i k) end).
(** Posterior weight of quadrature point [q] for a respondent. *)
Definition posterior_weight (p : list R -> nat -> nat -> R) (points : list (list R)) (weights : list R) (row : list cell) (q : nat) : R :=
  nth q weights 0 * likelihood p (nth q points []) row / marginal_likelihood p points weights row.
(** [v] makes [L] smallest. *)
Definition minimum (n : nat) (L : list R -> R) (v : list R) : Prop := forall v', length v' = n -> L v <= L v'.
(** The parameters [v] have the lowest loss in the family. *)
Definition lowest_loss (F : family) (loss : emodel -> result fl) (v : list R) : Prop :=
  exists x, loss (f_model F v) = Ok (Some (Fin x)) /\ forall v', length v' = f_params F -> exists x', loss (f_model F v') = Ok (Some (Fin x')) /\ x <= x'.
(** Score on item [i] of a row, 0 if the item was not answered. *)
Definition item_score (row : list cell) (i : nat) : R := match answer (nth i row None) with Some k => INR k | None => 0 end.
(** Number of respondents who gave answer [k] to item [i], and the sum over those who answered it of [q]. *)
Definition answered_count (data : list (list cell)) (i k : nat) : R :=
  sumn (length data) (fun n => match answer (nth i (nth n data []) None) with Some j => if (j =? k)%nat then 1 else 0 | None => 0 end).
Definition over_answered (data : list (list cell)) (i : nat) (q : nat -> R) : R :=
  sumn (length data) (fun n => match answer (nth i (nth n data []) None) with Some _ => q n | None => 0 end).
