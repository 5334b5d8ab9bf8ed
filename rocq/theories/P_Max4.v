(** Existence of maxima. *)
From Verif Require Import Base BaseFacts RBase RFacts M_Data M_Logit M_Lik M_Est P_Logit P_Logit2 P_Est2 P_Nest1 P_Info2 P_Info3 P_Spline4 S_Logit S_Lik S_Est S_Opt P_Opt1 P_Opt2 P_Opt3 S_Max P_Max1 P_Max2 P_Max3.
Import List.
Local Open Scope R_scope.

Lemma ex_dec n (P : nat -> Prop) : (forall i, (i < n)%nat -> P i \/ ~ P i) -> (exists i, (i < n)%nat /\ P i) \/ forall i, (i < n)%nat -> ~ P i.
Proof.
  intro H. induction n as [|n IH]; [right; intros; lia|]. destruct IH as [(i & Hi & Hp)|IH]; [intros; apply H; lia|left; exists i; split; [lia|exact Hp]|].
  destruct (H n ltac:(lia)) as [Hp|Hp]; [left; exists n; split; [lia|exact Hp]|right]. intros i Hi. destruct (Nat.eq_dec i n) as [->|]; [exact Hp|apply IH; lia].
Qed.
Lemma held_back_dec cats s row : held_back cats s row \/ ~ held_back cats s row.
Proof.
  assert (D : forall i, (i < length row)%nat -> (exists k j, answer (nth i row None) = Some k /\ (j < nth i cats O)%nat /\ s i k < s i j) \/ ~ (exists k j, answer (nth i row None) = Some k /\ (j < nth i cats O)%nat /\ s i k < s i j)).
  { intros i _. destruct (answer (nth i row None)) as [k|]; [|right; intros (k & j & H & _); discriminate]. destruct (ex_dec (nth i cats O) (fun j => s i k < s i j)) as [(j & Hj & Hl)|H].
    - intros j _. destruct (Rlt_dec (s i k) (s i j)); auto.
    - left. exists k, j. auto.
    - right. intros (k' & j & [= <-] & Hj & Hl). exact (H j Hj Hl). }
  destruct (ex_dec (length row) _ D) as [(i & Hi & k & j & H)|H]; [left; now exists i, k, j|right]. intros (i & k & j & Ha & Hj & Hl).
  apply (H i); [|now exists k, j]. destruct (Nat.lt_ge_cases i (length row)) as [|Hge]; [assumption|]. rewrite nth_overflow in Ha by lia. discriminate.
Qed.
Lemma not_held_back cats s row i k j : ~ held_back cats s row -> answer (nth i row None) = Some k -> (j < nth i cats O)%nat -> s i j <= s i k.
Proof. intros H Ha Hj. destruct (Rle_lt_dec (s i j) (s i k)) as [|Hl]; [assumption|]. exfalso. apply H. now exists i, k, j. Qed.

Section Line.
  Variables (m : emodel) (p s : list R -> nat -> nat -> R) (row : list cell) (t v : list R).
  Hypothesis (Hs : slopes_of m p s) (HL : legal_row (em_cats m) row).
  Definition lik_along (x : R) : R := ln (likelihood p (line (em_lv m) t v x) row).
  Definition term (i : nat) (x : R) : R := match answer (nth i row None) with None => 0 | Some k => ln (along p (em_lv m) t v i k x) end.
  Lemma lik_along_sum x : lik_along x = sumn (length row) (fun i => term i x).
  Proof using Hs HL.
    unfold lik_along. rewrite (ln_likelihood (em_lv m) (em_cats m)); [reflexivity| |apply line_length|exact HL]. intros; now apply (library_pos m p (proj1 (slopes_library m p s Hs))).
  Qed.
  Lemma term_item i k : answer (nth i row None) = Some k -> (k < nth i (em_cats m) O)%nat /\ (i < length row)%nat /\ item_ok (nth i (em_cats m) O) (along p (em_lv m) t v i) (s v i).
  Proof using Hs HL. intro H. destruct (legal_answer (em_cats m) row i k HL H) as [A B]. split; [exact A|]. split; [exact B|now apply slopes_item]. Qed.
  Lemma term_nonpos i x : term i x <= 0.
  Proof using Hs HL.
    unfold term. destruct (answer (nth i row None)) as [k|] eqn:E; [|lra]. destruct (term_item i k E) as (Hk & _ & H). destruct (H k Hk) as [H1 _]. rewrite <- ln_1. apply ln_le; apply H1.
  Qed.
  Lemma lik_along_le i x : (i < length row)%nat -> lik_along x <= term i x.
  Proof using Hs HL.
    intro Hi. rewrite lik_along_sum. pose proof (sumn_term_le (length row) (fun i => - term i x) i ltac:(intros j _; pose proof (term_nonpos j x); lra) Hi) as H. cbv beta in H. rewrite sumn_opp in H. lra.
  Qed.
  Lemma lik_along_continuity : continuity lik_along.
  Proof using Hs HL.
    apply (continuity_ext (fun x => sumn (length row) (fun i => term i x))); [intro x; now rewrite lik_along_sum|]. apply (sumn_continuity (length row) term). intros i _. unfold term.
    destruct (answer (nth i row None)) as [k|] eqn:E; [|intro x; apply continuity_pt_const; intros a b; reflexivity]. destruct (term_item i k E) as (Hk & _ & H). destruct (H k Hk) as (H1 & H2 & _). intro x.
    apply (continuity_pt_comp (along p (em_lv m) t v i k) ln); [apply H2|]. apply derivable_continuous_pt. exists (/ along p (em_lv m) t v i k x). apply derivable_pt_lim_ln. apply H1.
  Qed.
  Lemma lik_up x y : ~ held_back (em_cats m) (s v) row -> x < y -> lik_along x <= lik_along y /\ (held_back (em_cats m) (fun i k => - s v i k) row -> lik_along x < lik_along y).
  Proof using Hs HL.
    intros HB Hxy. rewrite !lik_along_sum.
    assert (T : forall i k, answer (nth i row None) = Some k -> term i x <= term i y /\ ((exists j, (j < nth i (em_cats m) O)%nat /\ s v i j < s v i k) -> term i x < term i y)).
    { intros i k E. unfold term. rewrite E. destruct (term_item i k E) as (Hk & _ & H). destruct (H k Hk) as (H1 & _ & _ & _ & H5 & _). destruct (H5 ltac:(intros j Hj; now apply (not_held_back (em_cats m) (s v) row i k j)) x y Hxy) as [A B].
      split; [apply ln_le; [apply H1|exact A]|]. intro Hj. apply ln_increasing; [apply H1|now apply B]. }
    assert (TL : forall i, (i < length row)%nat -> term i x <= term i y) by (intros i _; destruct (answer (nth i row None)) as [k|] eqn:E; [now apply (T i k)|unfold term; rewrite E; lra]).
    split; [now apply sumn_le|]. intros (i & k & j & E & Hj & Hl). apply sumn_lt; [exact TL|]. exists i. split; [now apply (term_item i k)|]. apply (T i k E). exists j. split; [exact Hj|lra].
  Qed.
  Lemma lik_down x y : ~ held_back (em_cats m) (fun i k => - s v i k) row -> x < y -> lik_along y <= lik_along x /\ (held_back (em_cats m) (s v) row -> lik_along y < lik_along x).
  Proof using Hs HL.
    intros HB Hxy. rewrite !lik_along_sum.
    assert (T : forall i k, answer (nth i row None) = Some k -> term i y <= term i x /\ ((exists j, (j < nth i (em_cats m) O)%nat /\ s v i k < s v i j) -> term i y < term i x)).
    { intros i k E. unfold term. rewrite E. destruct (term_item i k E) as (Hk & _ & H). destruct (H k Hk) as (H1 & _ & _ & _ & _ & H6 & _). destruct (H6 ltac:(intros j Hj; pose proof (not_held_back (em_cats m) (fun i k => - s v i k) row i k j HB E Hj) as Hn; cbv beta in Hn; lra) x y Hxy) as [A B].
      split; [apply ln_le; [apply H1|exact A]|]. intro Hj. apply ln_increasing; [apply H1|now apply B]. }
    assert (TL : forall i, (i < length row)%nat -> term i y <= term i x) by (intros i _; destruct (answer (nth i row None)) as [k|] eqn:E; [now apply (T i k)|unfold term; rewrite E; lra]).
    split; [now apply sumn_le|]. intros (i & k & j & E & Hj & Hl). apply sumn_lt; [exact TL|]. exists i. split; [now apply (term_item i k)|]. apply (T i k E). exists j. split; [exact Hj|exact Hl].
  Qed.
  Lemma lik_high_bound : held_back (em_cats m) (s v) row -> exists r c, 0 < r /\ forall x, lik_along x <= c - r * x.
  Proof using Hs HL.
    intros (i & k & j & E & Hj & Hl). destruct (term_item i k E) as (Hk & Hi & H). destruct (H k Hk) as (_ & _ & H3 & _). destruct (H3 j Hj Hl) as (r & c & Hr & Hx). exists r, c. split; [exact Hr|]. intro x.
    pose proof (lik_along_le i x Hi) as B. unfold term in B. rewrite E in B. specialize (Hx x). lra.
  Qed.
  Lemma lik_low_bound : held_back (em_cats m) (fun i k => - s v i k) row -> exists r c, 0 < r /\ forall x, lik_along x <= c + r * x.
  Proof using Hs HL.
    intros (i & k & j & E & Hj & Hl). destruct (term_item i k E) as (Hk & Hi & H). destruct (H k Hk) as (_ & _ & _ & H4 & _). destruct (H4 j Hj ltac:(lra)) as (r & c & Hr & Hx). exists r, c. split; [exact Hr|]. intro x.
    pose proof (lik_along_le i x Hi) as B. unfold term in B. rewrite E in B. specialize (Hx x). lra.
  Qed.
  Lemma lik_injective x y : held_back (em_cats m) (s v) row -> same_observed (em_cats m) p row (line (em_lv m) t v y) (line (em_lv m) t v x) -> x = y.
  Proof using Hs HL.
    intros (i & k & j & E & Hj & Hl) HO. destruct (term_item i k E) as (Hk & _ & H). destruct (H k Hk) as (_ & _ & _ & _ & _ & _ & H7). apply (H7 j Hj ltac:(lra)). intros k' Hk'. unfold along. apply HO; [congruence|exact Hk'].
  Qed.
End Line.

(** A continuous function on the line which is small far away has a maximum. *)
Lemma line_maximum f B : continuity f -> 0 < B -> (forall x, B < Rabs x -> f x <= f 0) -> exists x, forall y, f y <= f x.
Proof.
  intros Hf HB Hb. destruct (continuity_ab_maj f (- B) B ltac:(lra) ltac:(intros; apply Hf)) as (x & Hx & _). exists x. intro y.
  destruct (Rle_lt_dec (Rabs y) B) as [Hy|Hy]; [apply Hx; unfold Rabs in Hy; destruct (Rcase_abs y); lra|]. apply Rle_trans with (f 0); [now apply Hb|apply Hx; lra].
Qed.
Lemma squeezed_maximum f r1 c1 r2 c2 : continuity f -> 0 < r1 -> 0 < r2 -> (forall x, f x <= c1 - r1 * x) -> (forall x, f x <= c2 + r2 * x) -> exists x, forall y, f y <= f x.
Proof.
  intros Hf H1 H2 B1 B2. set (B := Rmax 1 (Rmax ((c1 - f 0) / r1) ((c2 - f 0) / r2))). pose proof (Rmax_l 1 (Rmax ((c1 - f 0) / r1) ((c2 - f 0) / r2))) as M0. pose proof (Rmax_r 1 (Rmax ((c1 - f 0) / r1) ((c2 - f 0) / r2))) as M1. fold B in M0, M1.
  pose proof (Rmax_l ((c1 - f 0) / r1) ((c2 - f 0) / r2)) as M2. pose proof (Rmax_r ((c1 - f 0) / r1) ((c2 - f 0) / r2)) as M3. apply (line_maximum f B Hf); [lra|]. intros x Hx.
  assert (E1 : (c1 - f 0) / r1 * r1 = c1 - f 0) by (field; lra). assert (E2 : (c2 - f 0) / r2 * r2 = c2 - f 0) by (field; lra). unfold Rabs in Hx. destruct (Rcase_abs x) as [Hn|Hn].
  - specialize (B2 x). assert ((c2 - f 0) / r2 * r2 <= - x * r2) by (apply Rmult_le_compat_r; lra). lra.
  - specialize (B1 x). assert ((c1 - f 0) / r1 * r1 <= x * r1) by (apply Rmult_le_compat_r; lra). lra.
Qed.
Lemma line_one x : line 1 [0] [1] x = [x].
Proof. unfold line. cbn [seq map nth]. f_equal. ring. Qed.
