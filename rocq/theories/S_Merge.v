(** Vocabulary for merging neighbouring answers of items. *)
From Verif Require Import Base RBase M_Data M_Logit S_Logit M_Lik M_Est S_Est.
Import List.
Local Open Scope R_scope.

(** The items of [m'] are those of [m] after answers were merged: answer [j] of item [i] of [m'] stands for the answers
    [c i j], ..., [c i (S j) - 1] of [m]. Slopes are the same, and so are the intercepts of the boundaries that remain. *)
Definition merged (m m' : poly) (c : nat -> nat -> nat) : Prop :=
  p_lv m' = p_lv m /\ length (p_cats m') = length (p_cats m) /\
  forall i, (i < length (p_cats m))%nat ->
    (forall d, (d < p_lv m)%nat -> slope (p_free m') (p_w m') i d = slope (p_free m) (p_w m) i d) /\
    c i 0%nat = 0%nat /\ c i (nth i (p_cats m') O) = nth i (p_cats m) O /\
    (forall j, (j < nth i (p_cats m') O)%nat -> (c i j < c i (S j))%nat) /\
    forall j, (1 <= j < nth i (p_cats m') O)%nat -> intercept (p_cats m') (p_b m') i j = intercept (p_cats m) (p_b m) i (c i j).
(** The answer which stands for [k]: the number of boundaries at or below [k]. *)
Definition merged_answer (K' : nat) (c : nat -> nat) (k : nat) : nat := length (filter (fun j => (c j <=? k)%nat) (seq 1 (K' - 1))).
Definition merged_row (cats' : list nat) (c : nat -> nat -> nat) (row : list cell) : list cell :=
  mapi (fun i x => match answer x with None => None | Some k => Some (Z.of_nat (merged_answer (nth i cats' O) (c i) k)) end) row.
