(** Model of the criterion of linking by common items (irtorch/rescale/link_common_items.py: constructor and
    _loss_function).  The transformation itself is in M_Scale.v, the training loop in M_Train.v. *)
From Verif Require Import Base RBase M_Lik M_Est M_Scale.
Local Open Scope R_scope.

(** link_common_items.py:317: the constant 1e-10. *)
Definition link_eps : R := / 10 ^ 10.
(** link_common_items.py:311-312: [x[:, indices]] on one respondent's row of [items] entries; negative indices
    count from the end. *)
Definition pick_items {A} (items : nat) (idx : list Z) (row : list A) : result (list A) :=
  mapM (fun z => match norm_index items z with
                 | Some j => match nth_error row j with Some x => Ok x | None => Err IndexError end
                 | None => Err IndexError
                 end) idx.
(** link_common_items.py:88-128.  The categories of the common items are read off the first model (106-108);
    the second model's item numbers are not looked at.  The answer is the constructed object's
    [_common_item_categories]. *)
Definition link_new (lv_from lv_to : nat) (cats_from : list nat) (idx_from idx_to : option (list Z)) (method : link_method)
  : result (list nat) :=
  bind (link_check lv_from lv_to idx_from idx_to method) (fun _ =>
  match idx_from with Some idx => pick_items (length cats_from) idx cats_from | None => Err ValueError end).

(** nn.KLDivLoss on one entry, link_common_items.py:317: [xlogy(p, p) - p * log(q + eps)] where
    [xlogy(0, 0) = 0]. *)
Definition xlogx (p : option R) : fl :=
  match p with
  | None => None
  | Some x => if Req_EM_T x 0 then Some (Fin 0) else fmul (Some (Fin x)) (flog (Some x))
  end.
(** [linked_probs + 1e-10], line 317. *)
Definition oplus_r (a : option R) (c : R) : option R := match a with Some x => Some (x + c) | None => None end.
(** A probability or NaN as a float, line 317. *)
Definition of_opt (a : option R) : fl := match a with Some x => Some (Fin x) | None => None end.
(** Line 317, one entry. *)
Definition kl_point (eps : R) (q p : option R) : fl := fsub (xlogx p) (fmul (of_opt p) (flog (oplus_r q eps))).
(** One flattened row: equal widths entry by entry, a row of width one is repeated, other widths cannot be
    broadcast. link_common_items.py:317. *)
Definition kl_row (eps : R) (q p : list (option R)) : result (list fl) :=
  if (length q =? length p)%nat then Ok (zip_with (kl_point eps) q p)
  else match q, p with
       | [x], _ => Ok (map (kl_point eps x) p)
       | _, [y] => Ok (map (fun x => kl_point eps x y) q)
       | _, _ => Err RuntimeError
       end.
(** link_common_items.py:309-318.  Both tensors are flattened to one row per respondent and common item
    ([view(-1, width)]), reduction "batchmean" divides the sum by the number of these rows.  The two numbers of
    rows agree because the transformation keeps the rows and the constructor asks for equally many items. *)
Definition link_loss (eps : R) (items_from items_to : nat) (probs_from probs_to : list (list R) -> list (list (list (option R))))
  (idx_from idx_to : list Z) (thetas linked : list (list R)) : result fl :=
  bind (mapM (pick_items items_from idx_from) (probs_from thetas)) (fun target =>
  bind (mapM (pick_items items_to idx_to) (probs_to linked)) (fun reached =>
  if negb (length (concat target) =? length (concat reached))%nat then Err RuntimeError
  else bind (mapM (fun qp => kl_row eps (fst qp) (snd qp)) (combine (concat reached) (concat target))) (fun rows =>
       Ok (fdiv_nat (fsum (concat rows)) (length (concat reached)))))).
(** link_common_items.py:181-182: the loss of one batch. *)
Definition link_batch_loss (eps : R) (items_from items_to : nat) (probs_from probs_to : list (list R) -> list (list (list (option R))))
  (idx_from idx_to : list Z) (sc : scale) (batch : list (list R)) : result fl :=
  bind (sc_transform sc batch) (fun linked => link_loss eps items_from items_to probs_from probs_to idx_from idx_to batch linked).
