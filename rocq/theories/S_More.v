(** Vocabulary for scores from many items. *)
From Verif Require Import Base RBase M_Data M_Logit M_Lik M_Est M_Opt S_Logit S_Lik S_Est S_Opt S_True S_Cons.
Import List.
Local Open Scope R_scope.

(** No score of a respondent with the answers [row] has a lower loss than [x]. *)
Definition best_score (m : emodel) (prior : option (list R -> R)) (row : list cell) (x : R) : Prop :=
  forall y, not_worse (scoring_loss m prior (Wide (em_items m) [row]) [[x]]) (scoring_loss m prior (Wide (em_items m) [row]) [[y]]).
(** ML has no prior, MAP a normal one. *)
Inductive ml_or_map : option (list R -> R) -> Prop :=
| use_ml : ml_or_map None
| use_map c P : precision 1 P -> ml_or_map (Some (normal_prior 1 c P)).
(** Number of items answered. *)
Definition answered (seen : list bool) : nat := count_occ Bool.bool_dec seen true.
(** Probability that a respondent with score [theta], who answers the items in [seen], gives answers with the property [good]. *)
Definition chance_at (cats : list nat) (p : list R -> nat -> nat -> R) (seen : list bool) (theta : R) (good : list cell -> bool) : R :=
  rsum (map (fun row => if good row then likelihood p [theta] row else 0) (possible_rows cats seen)).
(** Models with one latent variable and two categories per item: slope [fst (line i)] and intercept [snd (line i)]. *)
Inductive two_lines : emodel -> (list R -> nat -> nat -> R) -> (nat -> R * R) -> Prop :=
| lines_opl nanl m : length (opl_b m) = opl_items m -> (0 < opl_items m)%nat ->
    two_lines (of_sub (opl_sub nanl m)) (opl_p m) (fun i => (1, nth i (opl_b m) 0))
| lines_tpl nanl m : tpl_wf m -> (0 < tpl_items m)%nat -> tpl_lv m = 1%nat ->
    two_lines (of_sub (tpl_sub nanl m)) (tpl_p m) (fun i => (slope (tpl_free m) (tpl_w m) i 0, nth i (tpl_b m) 0)).
