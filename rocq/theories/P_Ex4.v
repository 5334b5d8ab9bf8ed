(** Existence of best scores and intercepts, estimated together, in the one-parameter model. *)
From Verif Require Import Base BaseFacts RBase RFacts M_Data M_Logit M_Lik M_Est M_Opt M_Jml P_Logit P_Logit2 P_Est2 P_Info2 P_Opt1 P_Opt2 P_Opt3 P_Scoreq P_Item1 P_Item2 P_Item3 P_Max1 P_Max3 P_Max4 P_Max5 P_Max6 P_Max7 P_Ex1 P_Ex2 P_Ex3 S_Logit S_Lik S_Est S_Opt S_Max S_Item S_Ex.
Import List.
Local Open Scope R_scope.

Section JOINT.
Variables (nanl : Z) (items : nat) (data : list (list cell)).
Hypotheses (HI : (0 < items)%nat) (HD : legal_data (repeat 2%nat items) data).
Let N := length data.
Let F := opl_family nanl items.
Let n := (N + items)%nat.
(** Weight of parameter [e] (first the scores, then the intercepts) in the logit of category [j]. *)
Definition jw (r i j e : nat) : R := INR j * ((if (e =? r)%nat then 1 else 0) + (if (e =? N + i)%nat then 1 else 0)).
Let K r i := cats_seen F (nth r data []) i.
Let k r i := chosen (nth r data []) i.
Let both := cells n N items K k jw (fun _ _ _ => 0).
Lemma jw_dot r i j v : (r < N)%nat -> (i < items)%nat -> dot n (jw r i j) v = INR j * (nth r v 0 + nth (N + i) v 0).
Proof using Type.
  clear HI HD.
  intros Hr Hi. unfold dot, jw. rewrite (sumn_ext _ _ (fun e => INR j * ((if (e =? r)%nat then nth e v 0 else 0) + (if (e =? N + i)%nat then nth e v 0 else 0)))).
  - rewrite sumn_scal, sumn_plus. f_equal. f_equal.
    + rewrite (sumn_single n r); [now rewrite Nat.eqb_refl|unfold n; lia|]. intros e _ He. now rewrite (proj2 (Nat.eqb_neq _ _) He).
    + rewrite (sumn_single n (N + i)%nat); [now rewrite Nat.eqb_refl|unfold n; lia|]. intros e _ He. now rewrite (proj2 (Nat.eqb_neq _ _) He).
  - intros e _. destruct (e =? r)%nat, (e =? N + i)%nat; ring.
Qed.
Lemma row_ok r : (r < N)%nat -> legal_row (repeat 2%nat items) (nth r data []).
Proof using HD. clear HI. intro Hr. unfold legal_data in HD. rewrite Forall_forall in HD. apply HD, nth_In, Hr. Qed.
Lemma cats_two i : (i < items)%nat -> nth i (repeat 2%nat items) O = 2%nat.
Proof using Type. clear HI HD. intro Hi. apply (nth_error_nth _ _ O). now apply nth_error_repeat_lt. Qed.
Lemma two_seen r i : (r < N)%nat -> (i < items)%nat -> K r i = match answer (nth i (nth r data []) None) with None => 1%nat | Some _ => 2%nat end.
Proof using Type. clear HI HD. intros Hr Hi. unfold K, cats_seen. destruct (answer _); [|reflexivity]. unfold F. cbn [opl_family f_cats]. now apply cats_two. Qed.
Lemma joint_both s b : length s = N -> length b = items -> joint F data (map (fun x => [x]) s) b = both (s ++ b).
Proof using HI HD.
  intros Ls Lb. assert (HF : parametric F) by (now constructor). unfold joint, both, cells. apply sumn_ext. intros r Hr. assert (HR := row_ok r Hr). fold N in Hr.
  assert (Et : nth r (map (fun x => [x]) s) [] = [nth r s 0]) by (rewrite (nth_indep _ [] [0]) by (rewrite map_length; lia); apply (map_nth (fun x => [x]))).
  rewrite Et. destruct (family_concave F HF [nth r s 0] eq_refl) as [_ HP]. pose proof (ln_likelihood (f_params F) (f_cats F) (fun v i k => f_p F v [nth r s 0] i k) (nth r data []) b HP Lb HR) as Q.
  change (likelihood_in F [nth r s 0] (nth r data []) b) with (likelihood (fun v i k => f_p F v [nth r s 0] i k) b (nth r data [])). rewrite Q. assert (LR : length (nth r data []) = items) by (rewrite (proj1 HR); apply repeat_length). rewrite LR. apply sumn_ext. intros i Hi.
  unfold cellv, seen_log. rewrite two_seen by assumption. unfold k, chosen. destruct (answer (nth i (nth r data []) None)) as [a|] eqn:Ea.
  - destruct (legal_answer _ _ i a HR Ea) as [Ha _]. rewrite cats_two in Ha by exact Hi. f_equal. unfold F. cbn [opl_family f_p]. unfold opl_p. cbv zeta. rewrite two_category by exact Ha. apply cp_ext; [exact Ha|]. intros j _. unfold logit. rewrite jw_dot by assumption.
    cbn [opl_of opl_b nth]. rewrite app_nth1 by lia. rewrite app_nth2 by lia. replace (N + i - length s)%nat with i by lia. ring.
  - unfold category_probability. cbn [sumn]. rewrite Rplus_0_l. unfold Rdiv. rewrite Rinv_r, ln_1 by (apply Rgt_not_eq, exp_pos). reflexivity.
Qed.
Lemma loss_both s b : length s = N -> length b = items -> jml_loss (f_model F b) (Wide items data) (map (fun x => [x]) s) = Ok (Some (Fin (- both (s ++ b)))).
Proof using HI HD.
  intros Ls Lb. assert (HF : parametric F) by (now constructor). rewrite <- joint_both by assumption.
  assert (Q := jml_value F HF data (map (fun x => [x]) s) HD ltac:(rewrite map_length; exact Ls) ltac:(apply Forall_forall; intros t Ht; apply in_map_iff in Ht as (x & <- & _); reflexivity) b Lb).
  unfold F in Q at 2. cbn [opl_family f_cats] in Q. rewrite repeat_length in Q. exact Q.
Qed.
Lemma lowest_both : (exists s b, length s = N /\ length b = items /\ lowest_joint nanl items data s b) <-> exists v, length v = n /\ forall v', length v' = n -> both v' <= both v.
Proof using HI HD.
  split.
  - intros (s & b & Ls & Lb & x & Ex & Hx). exists (s ++ b). split; [rewrite app_length; unfold n; lia|]. intros v' Lv'. fold F in Ex, Hx. rewrite loss_both in Ex by assumption. injection Ex as <-.
    assert (L1 : length (firstn N v') = N) by (rewrite firstn_length; unfold n in Lv'; lia). assert (L2 : length (skipn N v') = items) by (rewrite skipn_length; unfold n in Lv'; lia).
    destruct (Hx (firstn N v') (skipn N v') L1 L2) as (y & Ey & Hy). rewrite loss_both in Ey by assumption. injection Ey as <-. rewrite firstn_skipn in Hy. lra.
  - intros (v & Lv & Hv). assert (L1 : length (firstn N v) = N) by (rewrite firstn_length; unfold n in Lv; lia). assert (L2 : length (skipn N v) = items) by (rewrite skipn_length; unfold n in Lv; lia). exists (firstn N v), (skipn N v). split; [exact L1|]. split; [exact L2|].
    exists (- both v). fold F. rewrite loss_both, firstn_skipn by assumption. split; [reflexivity|]. intros s c Ls Lc. fold N in Ls. exists (- both (s ++ c)). split; [now apply loss_both|]. apply Ropp_le_contravar, Hv. rewrite app_length. unfold n. lia.
Qed.
Lemma separates_cell u r i a : separates n N items K k jw u -> (r < N)%nat -> answer (nth i (nth r data []) None) = Some a -> (a < 2)%nat /\ (i < items)%nat /\ (a = 1%nat -> 0 <= nth r u 0 + nth (N + i) u 0) /\ (a = 0%nat -> nth r u 0 + nth (N + i) u 0 <= 0).
Proof using HD.
  clear HI.
  intros [H _] Hr Ea. destruct (legal_answer _ _ i a (row_ok r Hr) Ea) as [Ha Hi]. rewrite (proj1 (row_ok r Hr)), repeat_length in Hi. rewrite cats_two in Ha by exact Hi. split; [exact Ha|]. split; [exact Hi|].
  assert (X : forall j, (j < 2)%nat -> INR j * (nth r u 0 + nth (N + i) u 0) <= INR a * (nth r u 0 + nth (N + i) u 0)).
  { intros j Hj. specialize (H r i j Hr Hi). rewrite two_seen in H by assumption. unfold k, chosen in H. rewrite Ea in H. rewrite !jw_dot in H by assumption. now apply H. }
  split; intros ->; [specialize (X 0%nat ltac:(lia))|specialize (X 1%nat ltac:(lia))]; cbn [INR] in X; lra.
Qed.
Definition reaches (c x : R) : bool := if Rle_dec c x then true else false.
Lemma reaches_true c x : reaches c x = true <-> c <= x.
Proof using Type. clear HI HD. unfold reaches. destruct (Rle_dec c x); split; intro; try reflexivity; try assumption; try discriminate; contradiction. Qed.
Lemma reaches_false c x : reaches c x = false <-> x < c.
Proof using Type. clear HI HD. unfold reaches. destruct (Rle_dec c x); split; intro; try reflexivity; try discriminate; lra. Qed.
Lemma separates_cut u : separates n N items K k jw u -> exists person item, cut data person item.
Proof using HD.
  clear HI.
  intros HS. assert (HC := separates_cell u). destruct (proj2 HS) as (r0 & i0 & j0 & Hr0 & Hi0 & Hj0 & Hl). rewrite !jw_dot in Hl by assumption. rewrite two_seen in Hj0 by assumption. unfold k, chosen in Hl. destruct (answer (nth i0 (nth r0 data []) None)) as [a0|] eqn:Ea0; [|replace j0 with O in Hl by lia; lra].
  assert (G : forall c, (c <= nth r0 u 0 /\ - nth (N + i0) u 0 < c \/ nth r0 u 0 < c /\ c <= - nth (N + i0) u 0) -> cut data (fun r => reaches c (nth r u 0)) (fun i => reaches c (- nth (N + i) u 0))).
  { intros c Hc. split.
    - intros r i a Hr Ea. destruct (HC r i a HS Hr Ea) as (Ha & _ & H1 & H0). split; intros X Y.
      + apply reaches_true in X. apply reaches_false in Y. destruct a as [|[|a]]; [specialize (H0 eq_refl); lra|reflexivity|lia].
      + apply reaches_false in X. apply reaches_true in Y. destruct a as [|[|a]]; [reflexivity|specialize (H1 eq_refl); lra|lia].
    - exists r0, i0, a0. split; [exact Hr0|]. split; [exact Ea0|]. destruct Hc as [[A B]|[A B]].
      + apply reaches_true in A. apply reaches_false in B. cbv beta. rewrite A, B. discriminate.
      + apply reaches_false in A. apply reaches_true in B. cbv beta. rewrite A, B. discriminate. }
  destruct (HC r0 i0 a0 HS Hr0 Ea0) as (Ha & _ & H1 & H0). destruct a0 as [|[|a0]]; [| |lia].
  - specialize (H0 eq_refl). destruct j0 as [|[|j0]]; cbn [INR] in Hl; [lra| |lia]. exists (fun r => reaches (- nth (N + i0) u 0) (nth r u 0)), (fun i => reaches (- nth (N + i0) u 0) (- nth (N + i) u 0)). apply G. right. lra.
  - specialize (H1 eq_refl). destruct j0 as [|[|j0]]; cbn [INR] in Hl; [|lra|lia]. exists (fun r => reaches (nth r0 u 0) (nth r u 0)), (fun i => reaches (nth r0 u 0) (- nth (N + i) u 0)). apply G. left. lra.
Qed.
Lemma cut_separates person item : cut data person item -> exists u, length u = n /\ separates n N items K k jw u.
Proof using HD.
  clear HI.
  intros [H1 (r0 & i0 & a0 & Hr0 & Ea0 & Hne)]. set (z := fun b : bool => if b then 1 else 0).
  set (u := map (fun r => z (person r)) (seq 0 N) ++ map (fun i => - z (item i)) (seq 0 items)). exists u. split; [unfold u; now rewrite app_length, !map_length, !seq_length|].
  assert (Er : forall r, (r < N)%nat -> nth r u 0 = z (person r)) by (intros r Hr; unfold u; rewrite app_nth1 by (now rewrite map_length, seq_length); exact (nth_map_seq (fun r => z (person r)) N r 0 Hr)).
  assert (Ei : forall i, (i < items)%nat -> nth (N + i) u 0 = - z (item i)).
  { intros i Hi. unfold u. rewrite app_nth2 by (rewrite map_length, seq_length; lia). rewrite map_length, seq_length. replace (N + i - N)%nat with i by lia. exact (nth_map_seq (fun i => - z (item i)) items i 0 Hi). }
  split.
  - intros r i j Hr Hi Hj. rewrite !jw_dot, Er, Ei by assumption. rewrite two_seen in Hj by assumption. unfold k, chosen. destruct (answer (nth i (nth r data []) None)) as [a|] eqn:Ea; [|replace j with O by lia; lra]. destruct (H1 r i a Hr Ea) as [A B]. destruct (legal_answer _ _ i a (row_ok r Hr) Ea) as [Ha _]. rewrite cats_two in Ha by exact Hi.
    destruct (person r), (item i); unfold z; try (rewrite !(Rmult_comm (INR _)); lra).
    + rewrite (A eq_refl eq_refl). destruct j as [|[|j]]; [cbn [INR]; lra|cbn [INR]; lra|lia].
    + rewrite (B eq_refl eq_refl). cbn [INR]. pose proof (pos_INR j). lra.
  - destruct (legal_answer _ _ i0 a0 (row_ok r0 Hr0) Ea0) as [Ha Hi]. rewrite (proj1 (row_ok r0 Hr0)), repeat_length in Hi. rewrite cats_two in Ha by exact Hi. destruct (H1 r0 i0 a0 Hr0 Ea0) as [A B]. exists r0, i0, (1 - a0)%nat.
    split; [exact Hr0|]. split; [exact Hi|]. rewrite two_seen, !jw_dot, Er, Ei by assumption. unfold k, chosen. rewrite Ea0. split; [lia|]. unfold z. destruct (person r0), (item i0); try congruence.
    + rewrite (A eq_refl eq_refl). cbn [Nat.sub INR]. lra.
    + rewrite (B eq_refl eq_refl). cbn [Nat.sub INR]. lra.
Qed.
Lemma joint_iff : (exists s b, length s = N /\ length b = items /\ lowest_joint nanl items data s b) <-> ~ exists person item, cut data person item.
Proof using HI HD.
  assert (HK : forall r i, (r < N)%nat -> (i < items)%nat -> (k r i < K r i)%nat) by (intros r i Hr _; apply chosen_lt; exact (row_ok r Hr)).
  rewrite lowest_both. unfold both. rewrite (cells_iff n N items K k jw (fun _ _ _ => 0) HK). split; intros H X; apply H.
  - destruct X as (person & item & X). now apply (cut_separates person item).
  - destruct X as (u & _ & X). now apply (separates_cut u).
Qed.
End JOINT.
