(** Bit scores. *)
From Coq Require Import Permutation Sorted.
From Verif Require Import Base BaseFacts RBase RFacts M_Logit M_Mono M_Lik M_Est M_Stat M_Grid S_Grid P_Mono1 P_Mono8 P_Est1 P_Scale1 P_Stat1 P_Grid1 P_Grid2.
Local Open Scope R_scope.

(** ** Variation *)
Lemma gap_nonneg a b : 0 <= gap a b.
Proof. unfold gap. revert b; induction a as [|x a IH]; intros [|y b]; cbn [zip_with rsum]; try lra. specialize (IH b). pose proof (Rabs_pos (y - x)). lra. Qed.
Lemma gap_sym a b : gap a b = gap b a.
Proof. unfold gap. revert b; induction a as [|x a IH]; intros [|y b]; cbn [zip_with rsum]; try reflexivity. specialize (IH b). rewrite IH, Rabs_minus_sym. reflexivity. Qed.
Lemma gap_sumn a b : length a = length b -> gap a b = sumn (length a) (fun i => Rabs (nth i b 0 - nth i a 0)).
Proof.
  intros H. unfold gap. rewrite rsum_nth. replace (length (zip_with (fun x y => Rabs (y - x)) a b)) with (length a) by (rewrite zip_with_length; lia).
  apply sumn_ext. intros i Hi. rewrite nth_zip_with with (da := 0) (db := 0) by lia. reflexivity.
Qed.
Lemma gap_triangle a b c : length a = length b -> length b = length c -> gap a c <= gap a b + gap b c.
Proof.
  intros H1 H2. rewrite (gap_sumn a c), (gap_sumn a b), (gap_sumn b c) by congruence. rewrite <- H1, <- sumn_plus. apply sumn_le. intros i Hi.
  replace (nth i c 0 - nth i a 0) with ((nth i b 0 - nth i a 0) + (nth i c 0 - nth i b 0)) by ring. apply Rabs_triang.
Qed.
Lemma gap_self a : gap a a = 0.
Proof. rewrite gap_sumn by reflexivity. apply sumn_zero. intros i Hi. rewrite Rminus_eq_0. apply Rabs_R0. Qed.
Lemma variation_nonneg {A} (f : A -> list R) pts : 0 <= variation f pts.
Proof. induction pts as [|a [|b pts] IH]; cbn [variation] in *; try lra. pose proof (gap_nonneg (f a) (f b)). lra. Qed.
Lemma variation_sum {A} (f : A -> list R) l d : variation f l = sumn (length l - 1) (fun k => gap (f (nth k l d)) (f (nth (S k) l d))).
Proof.
  induction l as [|a [|b l] IH]; [reflexivity|reflexivity|]. change (variation f (a :: b :: l)) with (gap (f a) (f b) + variation f (b :: l)). rewrite IH. cbn [length]. rewrite !Nat.sub_succ, !Nat.sub_0_r.
  rewrite sumn_S_first. cbn [nth]. reflexivity.
Qed.
Lemma path_lower (g : nat -> list R) m n : (forall k, (k <= n)%nat -> length (g k) = m) -> gap (g O) (g n) <= sumn n (fun k => gap (g k) (g (S k))).
Proof.
  induction n as [|n IH]; intros H; [cbn; rewrite gap_self; lra|]. cbn [sumn]. specialize (IH ltac:(intros; apply H; lia)).
  pose proof (gap_triangle (g O) (g n) (g (S n))) as T. rewrite !H in T by lia. specialize (T eq_refl eq_refl). lra.
Qed.
Lemma path_equal (g : nat -> list R) m n : (forall k, (k <= n)%nat -> length (g k) = m) ->
  (forall c, (c < m)%nat -> (forall i, (i < n)%nat -> nth c (g i) 0 <= nth c (g (S i)) 0) \/ (forall i, (i < n)%nat -> nth c (g (S i)) 0 <= nth c (g i) 0)) ->
  sumn n (fun k => gap (g k) (g (S k))) = gap (g O) (g n).
Proof.
  intros L M. rewrite (sumn_ext n _ (fun k => sumn m (fun c => Rabs (nth c (g (S k)) 0 - nth c (g k) 0)))) by (intros k Hk; rewrite gap_sumn by (rewrite !L by lia; reflexivity); rewrite L by lia; reflexivity).
  rewrite sumn_swap, gap_sumn by (rewrite !L by lia; reflexivity). rewrite L by lia. apply sumn_ext. intros c Hc.
  destruct (M c Hc) as [I|D].
  - rewrite (sumn_ext n _ (fun k => - (nth c (g k) 0 - nth c (g (S k)) 0))) by (intros k Hk; specialize (I k Hk); rewrite Rabs_right by lra; ring).
    rewrite sumn_opp, (sumn_telescope n (fun k => nth c (g k) 0)). assert (T : nth c (g O) 0 <= nth c (g n) 0).
    { clear - I. induction n; [lra|]. specialize (IHn ltac:(intros; apply I; lia)). specialize (I n ltac:(lia)). lra. }
    rewrite Rabs_right by lra. ring.
  - rewrite (sumn_ext n _ (fun k => nth c (g k) 0 - nth c (g (S k)) 0)) by (intros k Hk; specialize (D k Hk); rewrite Rabs_left1 by lra; ring).
    rewrite (sumn_telescope n (fun k => nth c (g k) 0)). assert (T : nth c (g n) 0 <= nth c (g O) 0).
    { clear - D. induction n; [lra|]. specialize (IHn ltac:(intros; apply D; lia)). specialize (D n ltac:(lia)). lra. }
    rewrite Rabs_left1 by lra. ring.
Qed.

(** ** The code's cumulated changes *)
Lemma changes_length rows : length (absolute_changes rows) = length rows.
Proof. destruct rows as [|r rows]; [reflexivity|]. unfold absolute_changes. cbn [length tl]. rewrite zip_with_length. cbn [length]. lia. Qed.
Lemma rsum_zero {A} (l : list A) : rsum (map (fun _ => 0) l) = 0.
Proof. induction l; cbn; [reflexivity|]. rewrite IHl. ring. Qed.
Lemma change_first rows : rows <> [] -> rsum (nth 0 (absolute_changes rows) []) = 0.
Proof. destruct rows as [|r rows]; [congruence|]. intros _. cbn [absolute_changes nth]. apply rsum_zero. Qed.
Lemma change_nth rows k : (S k < length rows)%nat -> rsum (nth (S k) (absolute_changes rows) []) = gap (nth k rows []) (nth (S k) rows []).
Proof.
  destruct rows as [|r rows]; [cbn; lia|]. intros H. unfold absolute_changes. cbn [tl]. change (nth (S k) (?x :: ?l) ?d) with (nth k l d). cbn [length] in H.
  change (rsum (nth k (zip_with (zip_with (fun a b => Rabs (a - b))) (r :: rows) rows) []) = gap (nth k (r :: rows) []) (nth k rows [])).
  rewrite nth_zip_with with (da := []) (db := []) by (cbn [length]; lia). unfold gap. f_equal.
  generalize (nth k (r :: rows) []) (nth k rows []). clear. induction l as [|x a IH]; intros [|y b]; cbn; try reflexivity. rewrite Rabs_minus_sym. f_equal. apply IH.
Qed.
Lemma cumulated_changes {A} (E : A -> list R) u p d : (p < length u)%nat ->
  nth p (rcumsum (map rsum (absolute_changes (map E u)))) 0 = sumn p (fun k => gap (E (nth k u d)) (E (nth (S k) u d))).
Proof.
  intros H. assert (L : length (map rsum (absolute_changes (map E u))) = length u) by (rewrite map_length, changes_length, map_length; reflexivity).
  rewrite (nth_error_nth _ _ 0 (nth_error_rcumsum _ p ltac:(rewrite L; exact H))). rewrite sumn_S_first.
  assert (N : forall k, (k < length u)%nat -> nth k (map rsum (absolute_changes (map E u))) 0 = rsum (nth k (absolute_changes (map E u)) [])).
  { intros k Hk. rewrite nth_indep with (d' := rsum []) by (rewrite L; exact Hk). apply map_nth. }
  rewrite N by lia. rewrite change_first by (destruct u; [cbn in H; lia|discriminate]). rewrite Rplus_0_l. apply sumn_ext. intros k Hk. rewrite N by lia. rewrite change_nth by (rewrite map_length; lia).
  rewrite !(nth_indep (map E u) [] (E d)) by (rewrite map_length; lia). rewrite !map_nth. reflexivity.
Qed.
Lemma cumulated_variation {A} (E : A -> list R) u p : (p < length u)%nat -> nth p (rcumsum (map rsum (absolute_changes (map E u)))) 0 = variation E (firstn (S p) u).
Proof.
  intros H. destruct u as [|d u]; [cbn in H; lia|]. rewrite (cumulated_changes E _ p d H). rewrite (variation_sum E _ d). rewrite firstn_length. replace (Nat.min (S p) (length (d :: u)) - 1)%nat with p by lia.
  apply sumn_ext. intros k Hk. assert (F : forall i, (i <= p)%nat -> nth i (firstn (S p) (d :: u)) d = nth i (d :: u) d).
  { intros i Hi. rewrite <- (firstn_skipn (S p) (d :: u)) at 2. rewrite app_nth1; [reflexivity|]. rewrite firstn_length. lia. }
  rewrite !F by lia. reflexivity.
Qed.

Lemma nth_error_skipn {A} n (l : list A) i : nth_error (skipn n l) i = nth_error l (n + i).
Proof. revert l; induction n as [|n IH]; intros [|a l]; cbn; try reflexivity; [destruct i; reflexivity|apply IH]. Qed.

(** ** Sorting, deduplicating and undoing both *)
Section Scores.
  Variable (ent : list R -> list R) (gp : nat) (medians : list R) (j : nat) (lo hi start : R) (col : list R).
  Hypothesis G : (1 <= gp)%nat.
  Let g := bit_grid gp lo hi start col.
  Let sorted := sort_indexed rleb g.
  Let u := unique_r (map fst sorted).
  Let E v := ent (upd j v medians).

  Lemma linspace_length n : length (linspace 0 1 n) = n.
  Proof. unfold linspace. rewrite map_length, seq_length. reflexivity. Qed.
  Lemma bit_grid_length : length g = (gp + length col)%nat.
  Proof. unfold g, bit_grid. rewrite BaseFacts.upd_length, map_length, app_length, map_length, linspace_length. reflexivity. Qed.
  Lemma bit_grid_score i x : nth_error col i = Some x -> nth_error g (gp + i) = Some (Rmax x start).
  Proof.
    intros H. unfold g, bit_grid. rewrite nth_error_upd_neq by lia. rewrite nth_error_map, nth_error_app2 by (rewrite map_length, linspace_length; lia). rewrite map_length, linspace_length.
    replace (gp + i - gp)%nat with i by lia. rewrite H. reflexivity.
  Qed.
  Lemma bit_grid_in y : In y g <-> y = start \/ (exists k, (0 < k < gp)%nat /\ y = Rmax ((1 - INR k / INR (gp - 1)) * lo + INR k / INR (gp - 1) * hi) start) \/ exists c, In c col /\ y = Rmax c start.
  Proof.
    assert (R0 : forall k, (k < gp)%nat -> nth_error (map (fun r => (1 - r) * lo + r * hi) (linspace 0 1 gp)) k = Some ((1 - INR k / INR (gp - 1)) * lo + INR k / INR (gp - 1) * hi)).
    { intros k Hk. unfold linspace. rewrite map_map, nth_error_map, nth_error_seq by lia. cbn [option_map]. f_equal. cbn [Nat.add]. unfold Rdiv. ring. }
    split.
    - intros I. apply In_nth_error in I. destruct I as (k & Hk). assert (Lk : (k < gp + length col)%nat) by (rewrite <- bit_grid_length; apply nth_error_Some; congruence).
      destruct (Nat.eq_dec k 0) as [->|Nk].
      + unfold g, bit_grid in Hk. rewrite nth_error_upd_eq in Hk by (rewrite map_length, app_length, map_length, linspace_length; lia). left. congruence.
      + destruct (le_lt_dec gp k) as [H|H].
        * right. right. assert (C : exists c, nth_error col (k - gp) = Some c) by (destruct (nth_error col (k - gp)) eqn:Z; [eauto|apply nth_error_None in Z; lia]).
          destruct C as (c & C). exists c. split; [apply nth_error_In with (k - gp)%nat; exact C|]. apply bit_grid_score in C. replace (gp + (k - gp))%nat with k in C by lia. congruence.
        * right. left. exists k. split; [lia|]. unfold g, bit_grid in Hk. rewrite nth_error_upd_neq, nth_error_map, nth_error_app1, R0 in Hk; [cbn in Hk; congruence|lia|rewrite map_length, linspace_length; lia|lia].
    - intros [->|[(k & Hk & ->)|(c & Ic & ->)]].
      + apply nth_error_In with 0%nat. unfold g, bit_grid. apply nth_error_upd_eq. rewrite map_length, app_length, map_length, linspace_length. lia.
      + apply nth_error_In with k. unfold g, bit_grid. rewrite nth_error_upd_neq, nth_error_map, nth_error_app1, R0 by (try rewrite map_length, linspace_length; lia). reflexivity.
      + apply In_nth_error in Ic. destruct Ic as (i & Hi). apply nth_error_In with (gp + i)%nat. apply bit_grid_score. exact Hi.
  Qed.
  Lemma bit_grid_ge y : In y g -> start <= y.
  Proof. intros H. apply bit_grid_in in H. destruct H as [->|[(k & _ & ->)|(c & _ & ->)]]; [lra| |]; apply Rmax_r. Qed.
  Lemma u_in y : In y u <-> In y g.
  Proof. unfold u, sorted. rewrite unique_r_in. split; apply Permutation_in; [|symmetry]; apply sort_indexed_values. Qed.
  Lemma bit_variable_nth i x : nth_error col i = Some x ->
    nth_error (bit_scores_variable ent gp medians j lo hi start col) i = Some (variation E (firstn (S (position (Rmax x start) u)) u)).
  Proof.
    intros H. pose proof (bit_grid_score i x H) as Gi. unfold bit_scores_variable. fold g. fold sorted. fold u.
    set (expanded := map (fun i0 => nth i0 (rcumsum (map rsum (absolute_changes (map (fun v => ent (upd j v medians)) u)))) 0) (map (fun x0 => position x0 u) (map fst sorted))).
    assert (Lu : length (map (fun k => nth k expanded 0) (argsort_n (map snd sorted))) = length g) by (rewrite map_length, argsort_length, map_length; apply sort_indexed_length).
    rewrite Lu, bit_grid_length. replace (gp + length col - length col)%nat with gp by lia.
    rewrite nth_error_skipn, nth_error_map.
    assert (P : Permutation (map snd sorted) (seq 0 (length (map snd sorted)))).
    { unfold sorted at 2. rewrite map_length, sort_indexed_length. apply sort_indexed_indices. }
    assert (Li : (gp + i < length (map snd sorted))%nat) by (unfold sorted; rewrite map_length, sort_indexed_length; apply nth_error_Some; congruence).
    destruct (argsort_inverse _ (gp + i) P Li) as (k & K1 & K2). rewrite K1. cbn [option_map]. f_equal.
    rewrite nth_error_map in K2. destruct (nth_error sorted k) as [[y m]|] eqn:K; [|discriminate]. cbn in K2. injection K2 as ->.
    pose proof (nth_error_In _ _ K) as I. apply sort_indexed_in in I. rewrite Gi in I. injection I as <-.
    assert (X : nth_error expanded k = Some (nth (position (Rmax x start) u) (rcumsum (map rsum (absolute_changes (map (fun v => ent (upd j v medians)) u)))) 0)) by (unfold expanded; rewrite !nth_error_map, K; reflexivity).
    rewrite (nth_error_nth _ _ 0 X). apply (cumulated_variation E u). apply position_lt. apply u_in. apply nth_error_In with (gp + i)%nat. exact Gi.
  Qed.
  Lemma bit_variable_length : length (bit_scores_variable ent gp medians j lo hi start col) = length col.
  Proof.
    unfold bit_scores_variable. fold g. fold sorted. rewrite skipn_length, !map_length, argsort_length, map_length. unfold sorted. rewrite sort_indexed_length, bit_grid_length. lia.
  Qed.
  (** The prefix is what lies at or below the respondent's value. *)
  Lemma prefix_in x y : In x u -> (In y (firstn (S (position x u)) u) <-> y <= x /\ In y g).
  Proof.
    intros Ix. pose proof (unique_r_sorted (map fst sorted)) as Su. fold u in Su. pose proof (position_nth x u Ix) as Px. pose proof (position_lt x u Ix) as Lx. split.
    - intros I. apply In_nth_error in I. destruct I as (k & K). assert (Hk : (k < S (position x u))%nat) by (pose proof (nth_error_Some (firstn (S (position x u)) u) k) as Z; rewrite K in Z; pose proof (proj1 Z ltac:(discriminate)) as Z'; rewrite firstn_length in Z'; lia).
      assert (K' : nth_error u k = Some y) by (rewrite <- (firstn_skipn (S (position x u)) u); rewrite nth_error_app1 by (rewrite firstn_length; lia); exact K).
      split; [|apply u_in, nth_error_In with k; exact K']. pose proof (sorted_nth_le u k (position x u) (sorted_lt_le _ Su) ltac:(lia) Lx) as Z.
      rewrite (nth_error_nth _ _ 0 K'), (nth_error_nth _ _ 0 Px) in Z. exact Z.
    - intros [H I]. apply u_in in I. pose proof (position_mono y x u Su I Ix H) as M. pose proof (position_nth y u I) as Py. apply nth_error_In with (position y u).
      rewrite <- (firstn_skipn (S (position x u)) u) in Py at 1. rewrite nth_error_app1 in Py by (rewrite firstn_length; lia). exact Py.
  Qed.
  Lemma prefix_sorted n : StronglySorted Rlt (firstn n u).
  Proof. pose proof (unique_r_sorted (map fst sorted)) as Su. fold u in Su. rewrite <- (firstn_skipn n u) in Su. apply sorted_app_inv in Su. tauto. Qed.
End Scores.
Lemma sorted_lt_ext l m : StronglySorted Rlt l -> StronglySorted Rlt m -> (forall y, In y l <-> In y m) -> l = m.
Proof.
  intros Sl. revert m. induction Sl as [|x l Sl IH F]; intros m Sm H.
  - destruct m as [|y m]; [reflexivity|]. destruct (proj2 (H y) (or_introl eq_refl)).
  - destruct Sm as [|y m Sm F']; [destruct (proj1 (H x) (or_introl eq_refl))|]. rewrite Forall_forall in F, F'.
    assert (x = y). { destruct (proj1 (H x) (or_introl eq_refl)) as [|I]; [congruence|]. destruct (proj2 (H y) (or_introl eq_refl)) as [|I']; [congruence|]. specialize (F y I'). specialize (F' x I). lra. }
    subst y. f_equal. apply IH; [exact Sm|]. intros z. split; intros I.
    + destruct (proj1 (H z) (or_intror I)) as [<-|]; [|assumption]. specialize (F x I). lra.
    + destruct (proj2 (H z) (or_intror I)) as [<-|]; [|assumption]. specialize (F' x I). lra.
Qed.
