(** Existence of best item parameters in joint and marginal maximum likelihood. *)
From Verif Require Import Base BaseFacts RBase RFacts M_Data M_Logit M_Lik M_Est M_Opt M_Jml S_Logit S_Lik S_Est S_Opt S_Max S_Item P_Logit P_Logit2 P_Est2 P_Opt1 P_Opt2 P_Opt3 P_Scoreq P_Item1 P_Item2 P_Item3 P_Max1 P_Max3 P_Max4 P_Max5 P_Max6 P_Max7 P_Ex1 P_Ex2 S_Ex.
Import List.
Local Open Scope R_scope.

Section FAMILY.
Variables (F : family) (HF : parametric F) (off : list R -> nat -> nat -> R).
Let n := f_params F.
Hypothesis Hoff : forall t, length t = f_lv F -> softs n (f_cats F) (fun v i k => f_p F v t i k) (fun i k e => f_effect F t e i k) (off t).
(** One respondent's cells at [t]; one category for an item not answered. *)
Definition cats_seen (row : list cell) (i : nat) : nat := match answer (nth i row None) with None => 1%nat | Some _ => nth i (f_cats F) O end.
Definition chosen (row : list cell) (i : nat) : nat := match answer (nth i row None) with None => O | Some k => k end.
Definition weight (t : list R) (i k e : nat) : R := f_effect F t e i k.
Definition item_cell (t : list R) (row : list cell) (i : nat) (v : list R) : R := cellv n (cats_seen row i) (chosen row i) (weight t i) (off t i) v.
Lemma chosen_lt row i : legal_row (f_cats F) row -> (chosen row i < cats_seen row i)%nat.
Proof using Type. intro HL. unfold chosen, cats_seen. destruct (answer (nth i row None)) as [k|] eqn:E; [|lia]. exact (proj1 (legal_answer (f_cats F) row i k HL E)). Qed.
Lemma weight_drift u t i k : dot n (weight t i k) u = drift F u t i k.
Proof using Type. reflexivity. Qed.
Lemma row_cells t row v : length t = f_lv F -> length v = n -> legal_row (f_cats F) row -> ln (likelihood_in F t row v) = sumn (length row) (fun i => item_cell t row i v).
Proof using HF Hoff.
  intros Lt Lv HL. destruct (family_concave F HF t Lt) as [_ HP]. pose proof (ln_likelihood n (f_cats F) (fun v i k => f_p F v t i k) row v HP Lv HL) as Q.
  change (likelihood_in F t row v) with (likelihood (fun v i k => f_p F v t i k) v row). rewrite Q. apply sumn_ext. intros i Hi. unfold seen_log, item_cell, cats_seen, chosen. destruct (answer (nth i row None)) as [k|] eqn:E.
  - destruct (legal_answer (f_cats F) row i k HL E) as [Hk _]. unfold cellv. f_equal. rewrite (Hoff t Lt v i k Lv Hk). reflexivity.
  - unfold cellv, category_probability. cbn [sumn]. rewrite Rplus_0_l. unfold Rdiv. rewrite Rinv_r, ln_1 by (apply Rgt_not_eq, exp_pos). reflexivity.
Qed.
(** What a direction does to one respondent. *)
Definition kind (t : list R) (row : list cell) (u : list R) : Prop := forall i k j, answer (nth i row None) = Some k -> (j < nth i (f_cats F) O)%nat -> drift F u t i j <= drift F u t i k.
Definition kinder (t : list R) (row : list cell) (u : list R) : Prop := exists i k j, answer (nth i row None) = Some k /\ (j < nth i (f_cats F) O)%nat /\ drift F u t i j < drift F u t i k.
Lemma row_up t row u v : length t = f_lv F -> length v = n -> legal_row (f_cats F) row -> kind t row u -> likelihood_in F t row v <= likelihood_in F t row (line n v u 1) /\ (kinder t row u -> likelihood_in F t row v < likelihood_in F t row (line n v u 1)).
Proof using HF Hoff.
  intros Lt Lv HL HK. assert (P : forall v, length v = n -> 0 < likelihood_in F t row v) by (intros; now apply family_likelihood_pos).
  assert (HC : forall i j, (j < cats_seen row i)%nat -> dot n (weight t i j) u <= dot n (weight t i (chosen row i)) u).
  { intros i j Hj. rewrite !weight_drift. unfold cats_seen, chosen in *. destruct (answer (nth i row None)) as [k|] eqn:E; [now apply HK|]. replace j with O by lia. lra. }
  assert (HU : forall i, item_cell t row i v <= item_cell t row i (line n v u 1)) by (intro i; apply cell_up; [now apply chosen_lt|exact (HC i)]).
  assert (E1 := row_cells t row v Lt Lv HL). assert (E2 := row_cells t row (line n v u 1) Lt (line_length _ _ _ _) HL). split.
  - apply Rnot_lt_le. intro X. apply ln_increasing in X; [|apply P, line_length]. rewrite E1, E2 in X. assert (sumn (length row) (fun i => item_cell t row i v) <= sumn (length row) (fun i => item_cell t row i (line n v u 1))) by (apply sumn_le; auto). lra.
  - intros (i & k & j & Ea & Hj & Hl). apply ln_lt_inv; [now apply P|apply P, line_length|]. rewrite E1, E2. apply sumn_lt; [auto|]. destruct (legal_answer (f_cats F) row i k HL Ea) as [_ Hi]. exists i. split; [exact Hi|].
    apply cell_up_strict; [now apply chosen_lt|exact (HC i)|]. exists j. rewrite !weight_drift. unfold cats_seen, chosen. rewrite Ea. auto.
Qed.

Section JML.
Variables (data : list (list cell)) (thetas : list (list R)).
Hypotheses (HD : legal_data (f_cats F) data) (HL : length thetas = length data) (HT : Forall (fun t => length t = f_lv F) thetas).
Definition jcells : list R -> R := cells n (length data) (length (f_cats F)) (fun r i => cats_seen (nth r data []) i) (fun r i => chosen (nth r data []) i) (fun r i => weight (nth r thetas []) i) (fun r i => off (nth r thetas []) i).
Lemma joint_cells v : length v = n -> joint F data thetas v = jcells v.
Proof using HF Hoff HD HL HT.
  intro Lv. unfold joint, jcells, cells. apply sumn_ext. intros r Hr. destruct (row_legal F data thetas HD HL HT r Hr) as [H1 H2]. rewrite row_cells by assumption. now rewrite (proj1 H1).
Qed.
Lemma separates_iff u : separates n (length data) (length (f_cats F)) (fun r i => cats_seen (nth r data []) i) (fun r i => chosen (nth r data []) i) (fun r i => weight (nth r thetas []) i) u <-> separating F data (fun r => [nth r thetas []]) u.
Proof using HD HL HT.
  unfold separates, separating. split; intros [H1 H2]; split.
  - intros r i k j t Hr Ea Hj [<-|[]]. destruct (row_legal F data thetas HD HL HT r Hr) as [HR _]. destruct (legal_answer (f_cats F) _ i k HR Ea) as [_ Hi]. rewrite (proj1 HR) in Hi. specialize (H1 r i j Hr Hi). unfold cats_seen, chosen in H1. rewrite Ea in H1. now apply H1.
  - destruct H2 as (r & i & j & Hr & Hi & Hj & Hl). unfold cats_seen, chosen in Hj, Hl. destruct (answer (nth i (nth r data []) None)) as [k|] eqn:Ea; [|replace j with O in Hl by lia; lra]. exists r, i, k, j, (nth r thetas []). repeat split; auto. now left.
  - intros r i j Hr Hi Hj. unfold cats_seen, chosen in *. destruct (answer (nth i (nth r data []) None)) as [k|] eqn:Ea; [|replace j with O by lia; lra]. apply (H1 r i k j (nth r thetas []) Hr Ea Hj). now left.
  - destruct H2 as (r & i & k & j & t & Hr & Ea & Hj & [<-|[]] & Hl). destruct (row_legal F data thetas HD HL HT r Hr) as [HR _]. destruct (legal_answer (f_cats F) _ i k HR Ea) as [_ Hi]. rewrite (proj1 HR) in Hi. exists r, i, j. unfold cats_seen, chosen. rewrite Ea. auto.
Qed.
Lemma jml_attained : (exists v, length v = n /\ minimum n (fun v => - joint F data thetas v) v) <-> ~ exists u, length u = n /\ separating F data (fun r => [nth r thetas []]) u.
Proof using HF Hoff HD HL HT.
  assert (HK : forall r i, (r < length data)%nat -> (i < length (f_cats F))%nat -> (chosen (nth r data []) i < cats_seen (nth r data []) i)%nat) by (intros r i Hr _; apply chosen_lt; now destruct (row_legal F data thetas HD HL HT r Hr)).
  pose proof (cells_iff n (length data) (length (f_cats F)) (fun r i => cats_seen (nth r data []) i) (fun r i => chosen (nth r data []) i) (fun r i => weight (nth r thetas []) i) (fun r i => off (nth r thetas []) i) HK) as Q. fold jcells in Q.
  split.
  - intros (v & Lv & Hv) (u & Lu & Hu). apply separates_iff in Hu. apply (proj1 Q); [|exists u; auto]. exists v. split; [exact Lv|]. intros v' Lv'. specialize (Hv v' Lv'). cbv beta in Hv. rewrite !joint_cells in Hv by assumption. lra.
  - intro HN. destruct (proj2 Q) as (v & Lv & Hv); [intros (u & Lu & Hu); apply separates_iff in Hu; apply HN; exists u; auto|]. exists v. split; [exact Lv|]. intros v' Lv'. specialize (Hv v' Lv'). cbv beta. rewrite !joint_cells by assumption. lra.
Qed.
End JML.

Section MML.
Variables (data : list (list cell)) (points : list (list R)) (weights : list R).
Hypotheses (HD : legal_data (f_cats F) data) (HP : points <> []) (HL : length weights = length points) (HT : Forall (fun t => length t = f_lv F) points) (HW : Forall (fun w => 0 < w) weights).
Lemma mml_better u v : length v = n -> separating F data (fun _ => points) u -> marginal_loss F data points weights (line n v u 1) < marginal_loss F data points weights v.
Proof using HF Hoff HD HP HL HT HW.
  intros Lv [H1 (r & i & k & j & t & Hr & Ea & Hj & Ht & Hl)]. unfold marginal_loss. apply Ropp_lt_contravar.
  assert (RL : forall r, (r < length data)%nat -> legal_row (f_cats F) (nth r data [])) by (intros r0 Hr0; unfold legal_data in HD; rewrite Forall_forall in HD; apply HD, nth_In, Hr0).
  assert (MP : forall r v, (r < length data)%nat -> length v = n -> 0 < marginal_in F points weights (nth r data []) v) by (intros; apply marginal_pos; auto).
  assert (U : forall r q, (r < length data)%nat -> (q < length points)%nat -> likelihood_in F (nth q points []) (nth r data []) v <= likelihood_in F (nth q points []) (nth r data []) (line n v u 1) /\ (kinder (nth q points []) (nth r data []) u -> likelihood_in F (nth q points []) (nth r data []) v < likelihood_in F (nth q points []) (nth r data []) (line n v u 1))).
  { intros r' q Hr' Hq. destruct (point_legal F points weights HL HT HW q Hq) as [Lt _]. apply row_up; auto. intros i' k' j' Ea' Hj'. apply (H1 r' i' k' j'); auto. apply nth_In. exact Hq. }
  assert (M : forall r, (r < length data)%nat -> marginal_in F points weights (nth r data []) v <= marginal_in F points weights (nth r data []) (line n v u 1)).
  { intros r' Hr'. apply sumn_le. intros q Hq. destruct (point_legal F points weights HL HT HW q Hq) as [_ Hw]. apply Rmult_le_compat_l; [lra|]. now apply U. }
  apply sumn_lt; [intros r' Hr'; apply ln_le; [now apply MP|now apply M]|]. exists r. split; [exact Hr|]. apply ln_increasing; [now apply MP|]. apply sumn_lt.
  - intros q Hq. destruct (point_legal F points weights HL HT HW q Hq) as [_ Hw]. apply Rmult_le_compat_l; [lra|]. now apply U.
  - apply (In_nth _ _ []) in Ht as (q & Hq & <-). exists q. split; [exact Hq|]. destruct (point_legal F points weights HL HT HW q Hq) as [_ Hw]. apply Rmult_lt_compat_l; [exact Hw|]. apply U; auto. exists i, k, j. auto.
Qed.
End MML.
End FAMILY.

(** An unused category can be pushed away for ever. *)
Lemma unused_separating F data at_ i k : parametric F -> legal_data (f_cats F) data -> (k < nth i (f_cats F) O)%nat -> unused data i k -> (forall r t, In t (at_ r) -> length t = f_lv F) -> (forall r, (r < length data)%nat -> at_ r <> []) ->
  exists u, length u = f_params F /\ separating F data at_ u.
Proof.
  intros HF HD Hk [(r & j & Hr & Ea) HN] HA HE. destruct (counting_exists F i k HF Hk) as (c & delta & Lc & HC). exists (map Ropp c). split; [now rewrite map_length|].
  assert (ED : forall t i' k', length t = f_lv F -> (k' < nth i' (f_cats F) O)%nat -> drift F (map Ropp c) t i' k' = if (i' =? i)%nat then delta - (if (k' =? k)%nat then 1 else 0) else 0).
  { intros t i' k' Lt Hk'. specialize (HC t i' k' Lt Hk'). unfold P_Item3.along in HC. unfold drift. rewrite (sumn_ext _ _ (fun e => -1 * (nth e c 0 * f_effect F t e i' k'))).
    - rewrite sumn_scal, HC. destruct (i' =? i)%nat; ring.
    - intros e _. replace (nth e (map Ropp c) 0) with (- nth e c 0) by (rewrite <- Ropp_0 at 2; symmetry; exact (map_nth Ropp c 0 e)). ring. }
  assert (LA : forall r i' k', (r < length data)%nat -> answer (nth i' (nth r data []) None) = Some k' -> (k' < nth i' (f_cats F) O)%nat).
  { intros r' i' k' Hr' E'. unfold legal_data in HD. rewrite Forall_forall in HD. exact (proj1 (legal_answer (f_cats F) _ i' k' (HD _ (nth_In _ [] Hr')) E')). }
  split.
  - intros r' i' k' j' t Hr' E' Hj' Ht. rewrite !ED by (try apply (HA r' t Ht); eauto). destruct (Nat.eqb_spec i' i) as [->|]; [|lra]. destruct (Nat.eqb_spec k' k) as [->|]; [exfalso; now apply (HN r')|]. destruct (j' =? k)%nat; lra.
  - specialize (HE r Hr). destruct (at_ r) as [|t ts] eqn:Et; [congruence|]. exists r, i, j, k, t. assert (It : In t (at_ r)) by (rewrite Et; now left). split; [exact Hr|]. split; [exact Ea|]. split; [exact Hk|]. split; [exact It|].
    rewrite !ED by (try apply (HA r t It); eauto). rewrite !Nat.eqb_refl. destruct (Nat.eqb_spec j k) as [->|]; [exfalso; now apply (HN r)|]. lra.
Qed.
