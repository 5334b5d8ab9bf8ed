(** Model of the starting point of the bit scale, irtorch/rescale/bit.py.  Definitions only. *)
From Verif Require Import Base RBase M_Data M_Logit M_Lik M_Est M_Stat M_Grid.
Import List.
Local Open Scope R_scope.

(** The answer distributions of a random guesser, bit_score_starting_theta_mc 327-349.  [key]: mc_correct of the model;
    [items]: [None] or an empty list means all items ([items or ...], 330); [guess]: likewise
    guessing_probabilities (337-341; the entries are taken to be floats). *)
Definition start_items (cats : list nat) (items : option (list Z)) : list Z :=
  match items with
  | None | Some [] => map Z.of_nat (seq 0 (length cats))
  | Some l => l
  end.
(** [self.model.item_categories[i] for i in items], 335: python list indexing. *)
Definition list_index {A} (l : list A) (z : Z) : result A :=
  match norm_index (length l) z with
  | Some i => match nth_error l i with Some x => Ok x | None => Err IndexError end
  | None => Err IndexError
  end.
(** mc_correct.index_select(0, items), 343: no negative numbers. *)
Definition index_select {A} (l : list A) (z : Z) : result A :=
  if (0 <=? z)%Z then match nth_error l (Z.to_nat z) with Some x => Ok x | None => Err IndexError end else Err IndexError.
(** The guessing probabilities and their check, rescale/bit.py:337-341 and _internal_utils.py:84-148. *)
Definition start_guess (cats : list nat) (guess : option (list R)) : result (list R) :=
  match guess with
  | None | Some [] => Ok (map (fun K => / INR K) cats)
  | Some g => if (length g =? length cats)%nat && forallb probability_ok g then Ok g else Err ValueError
  end.
(** rescale/bit.py:327-349. *)
Definition start_weights (cats : list nat) (key : option (list Z)) (items : option (list Z)) (guess : option (list R)) : result (list (list R)) :=
  match key with
  | None => Err ValueError
  | Some key =>
      let items := start_items cats items in
      bind (mapM (list_index cats) items) (fun selected =>
      bind (start_guess selected guess) (fun guess =>
      bind (mapM (index_select key) items) (fun correct =>
      random_guessing selected (GFloats guess) (Some correct))))
  end.
(** The whole method, 327-356.  [draw weights]: the data drawn, one column per entry of [weights]; [scores]: latent_scores
    of the model (untransformed).  The object's start and the exception, if any. *)
Definition start_theta_mc (draw : list (list R) -> list (list Z)) (scores : list (list Z) -> result (list (list R))) (lv : nat)
    (cats : list nat) (key items : option (list Z)) (guess : option (list R)) (start : list R) : list R * result unit :=
  match bind (start_weights cats key items guess) (fun w => scores (draw w)) with
  | Ok thetas => match thetas with
                 | [] => (start, Err IndexError)
                 | _ => (map (fun d => median (column 0 d thetas)) (seq 0 lv), Ok tt)
                 end
  | Err e => (start, Err e)
  end.
(** set_start_theta, 137-139: the shape must be exactly (latent_variables,). *)
Definition set_start_theta (lv : nat) (start : list R) (shape : list nat) (new : list R) : list R * result unit :=
  match shape with
  | [n] => if (n =? lv)%nat then (new, Ok tt) else (start, Err ValueError)
  | _ => (start, Err ValueError)
  end.
(** Constructor, 104-126: the start of the new object.  [items] of the constructor are kept for the scores and do not
    reach bit_score_starting_theta_mc; [kwguess] comes from the keyword arguments.  [mult]: the directions. *)
Definition bit_new (draw : list (list R) -> list (list Z)) (scores : list (list Z) -> result (list (list R))) (mult : list R) (lv : nat) (cats : list nat) (key : option (list Z))
    (grid_points : Z) (items : option (list Z)) (kwguess : option (list R)) (given : option (list R)) (mc_approx : bool) : result (list Z * list R) :=
  if (grid_points <=? 0)%Z then Err ValueError
  else
    let its := match items with None => map Z.of_nat (seq 0 (length cats)) | Some l => l end in
    match given with
    | Some s => if (length s =? lv)%nat then Ok (its, s) else Err ValueError
    | None =>
        if mc_approx then
          match key with
          | None => Err ValueError
          | Some _ => match start_theta_mc draw scores lv cats key None kwguess [] with (s, Ok _) => Ok (its, s) | (_, Err e) => Err e end
          end
        else Ok (its, map (fun m => m * -10000) mult)
    end.
