(** Property C121: with more respondents the fit approaches the truth. *)
From Verif Require Import Base BaseFacts RBase RFacts M_Data M_Logit M_Lik M_Est M_Jml P_Logit P_Logit2 P_Est2 P_Opt3 P_Ex5 S_Logit S_Lik S_Est S_Item S_Ex S_True S_Cons P_True1 P_True2 P_True3 P_Cons1 P_Cons2 P_Cons3 T_Ex.
Import List.
Local Open Scope R_scope.

(** Marginal maximum likelihood, any model of the library as truth, respondents drawn independently with scores as a rule
    says: if they are many, then with a probability as near 1 as wanted every model that fits the answers at least as well
    as the truth, with any rule, gives every possible row of answers nearly its true probability. *)
Theorem C121_fit : forall m p points weights s eps,
  library_model m p -> rule (em_lv m) points weights -> length s = length (em_cats m) -> 0 < eps ->
  let loss m points weights data := mml_loss m points (map (fun w => Some (Fin (ln w))) weights) (Wide (length (em_cats m)) data) in
  eventually (em_cats m) s (fun row => marginal_likelihood p points weights row / rsum weights) (fun data =>
    forall m' p' points' weights', library_model m' p' -> em_cats m' = em_cats m -> rule (em_lv m') points' weights' -> rsum weights' = rsum weights ->
      not_worse (loss m' points' weights' data) (loss m points weights data) ->
      forall row, In row (possible_rows (em_cats m) s) ->
        Rabs (marginal_likelihood p' points' weights' row / rsum weights' - marginal_likelihood p points weights row / rsum weights) < eps).
Proof. intros m p points weights s eps Hm HR HS He loss. exact (consistent m p points weights s Hm HR HS eps He). Qed.
Print Assumptions C121_fit.

(** One-parameter model: then also intercepts with the lowest loss exist, and all of them are near the true ones. *)
Theorem C121_rasch : forall nanl items b points weights s eps,
  (0 < items)%nat -> length b = items -> rule 1 points weights -> length s = items -> 0 < eps ->
  let F := opl_family nanl items in
  eventually (f_cats F) s (fun row => marginal_likelihood (f_p F b) points weights row / rsum weights) (fun data =>
    let loss := fun m => mml_loss m points (map (fun w => Some (Fin (ln w))) weights) (Wide items data) in
    (exists v, length v = items /\ lowest_loss F loss v) /\
    forall v, length v = items -> lowest_loss F loss v -> forall i, nth i s false = true -> Rabs (nth i v 0 - nth i b 0) < eps).
Proof. intros nanl items b points weights s eps HI Lb HR HS He F. exact (rasch_consistent nanl items b points weights s HI Lb HR HS eps He). Qed.
Print Assumptions C121_rasch.

(** Scores and intercepts estimated together: with many respondents there is almost surely nothing to estimate, because no
    scores and intercepts have the lowest loss. *)
Definition all_right (s : list bool) : list cell := map (fun b : bool => if b then Some 1%Z else None) s.
Lemma all_right_possible : forall s, In (all_right s) (possible_rows (repeat 2%nat (length s)) s).
Proof.
  induction s as [|b s IH]; [now left|]. cbn [length repeat possible_rows all_right map]. destruct b; [|now apply in_map]. apply in_flat_map. exists 1%nat. split; [cbn; auto|]. change (Some (Z.of_nat 1)) with (Some 1%Z). now apply in_map.
Qed.
Theorem C121_joint_refuted : forall nanl items b points weights s,
  (0 < items)%nat -> length b = items -> rule 1 points weights -> length s = items -> (exists i, nth i s false = true) ->
  let F := opl_family nanl items in
  eventually (f_cats F) s (fun row => marginal_likelihood (f_p F b) points weights row / rsum weights) (fun data =>
    forall scores v, length scores = length data -> length v = items -> ~ lowest_joint nanl items data scores v).
Proof.
  intros nanl items b points weights s HI Lb HR HS (i & Hi) F. assert (Hm : library_model (f_model F b) (f_p F b)) by (apply lib_opl; [exact Lb|exact HI]). assert (SL : length s = length (em_cats (f_model F b))) by (cbn; now rewrite repeat_length).
  destruct (near_all (f_model F b) (f_p F b) points weights s Hm HR SL 1 Rlt_0_1) as (eta & He & H).
  apply (eventually_near _ _ _ eta); [exact SL|intros row Hrow; now apply Rlt_le, (q_pos (f_model F b) (f_p F b) points weights s Hm HR SL)|exact (q_total (f_model F b) (f_p F b) points weights s Hm HR SL)|exact He|].
  intros data HD HF HN. destruct (H eta (conj He (Rle_refl _)) data HD HF HN) as [HA _]. assert (LD : legal_data (repeat 2%nat items) data) by (apply Forall_forall; intros row Hr; rewrite Forall_forall in HF; apply (rows_legal _ s); [now rewrite repeat_length|now apply HF]).
  apply (C119_joint_alike nanl items data 1 HI LD). left. pose proof (all_right_possible s) as HP. rewrite HS in HP. apply HA in HP. apply (In_nth _ _ []) in HP as (r & Hr & E). exists r. rewrite E. split; [exact Hr|].
  assert (NA : forall j, answer (nth j (all_right s) None) = if nth j s false then Some 1%nat else None).
  { clear. unfold all_right. induction s as [|c s IH]; intros [|j]; cbn [map nth]; try reflexivity; [destruct c; reflexivity|apply IH]. }
  split.
  - exists i. rewrite NA, Hi. discriminate.
  - intros j k. rewrite NA. destruct (nth j s false); [intro Q; now injection Q as <-|discriminate].
Qed.
Print Assumptions C121_joint_refuted.

(** Two items of unequal difficulty, scores -1 and 1. A table is possible on which nothing has the lowest loss; it becomes
    improbable. *)
Example C121_nonvacuous :
  let F := opl_family 0 2 in let b := [1; -2] in let points := [[-1]; [1]] in let weights := [3; 1] in
  library_model (f_model F b) (f_p F b) /\ rule 1 points weights /\ length [true; true] = length (f_cats F) /\
  length (possible_data (f_cats F) (repeat [true; true] 3)) = 64%nat /\
  let data := [[Some 1%Z; Some 0%Z]; [Some 1%Z; Some 1%Z]; [Some 1%Z; Some 0%Z]] in
  In data (possible_data (f_cats F) (repeat [true; true] 3)) /\
  ~ exists v, length v = 2%nat /\ lowest_loss F (fun m => mml_loss m points (map (fun w => Some (Fin (ln w))) weights) (Wide 2 data)) v.
Proof.
  intros F b points weights. assert (HR : rule 1 points weights) by (repeat split; [discriminate|repeat constructor|repeat constructor; lra]). split; [apply lib_opl; [reflexivity|cbn; lia]|]. split; [exact HR|]. split; [reflexivity|]. split; [reflexivity|]. intro data. split; [cbn; tauto|].
  destruct HR as (R0 & R1 & R2 & R3). intro H. assert (LD : legal_data (repeat 2%nat 2) data).
  { apply Forall_forall. intros row Hr. apply (rows_legal _ [true; true]); [reflexivity|]. destruct Hr as [<-|[<-|[<-|[]]]]; cbn; tauto. }
  apply (proj1 (C119_rasch 0 2 data points weights ltac:(lia) LD R0 R1 R2 R3)) with (i := 0%nat) (k := 0%nat) in H; [|lia|lia]. apply H. split; [exists 0%nat, 1%nat; split; [cbn; lia|reflexivity]|]. intros [|[|[|r]]] Hr; cbn in Hr; try lia; discriminate.
Qed.
