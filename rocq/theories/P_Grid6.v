(** Consequences for bit scores; the one-dimensional version; the Jacobian. *)
From Coq Require Import Permutation Sorted.
From Verif Require Import Base BaseFacts RBase RFacts M_Logit M_Mono M_Lik M_Est M_Stat M_Grid S_Grid P_Mono1 P_Mono8 P_Est1 P_Scale1 P_Stat1 P_Stat3 P_Stat8 P_Grid1 P_Grid2 P_Grid5.
Local Open Scope R_scope.

Section OneVariable.
  Variable (ent : list R -> list R) (gp : nat) (medians : list R) (j : nat) (lo hi start : R) (col : list R).
  Hypothesis G : (1 <= gp)%nat.
  Let E v := ent (upd j v medians).
  Let score := bit_scores_variable ent gp medians j lo hi start col.
  Let u := unique_r (map fst (sort_indexed rleb (bit_grid gp lo hi start col))).

  Lemma clamped_in i x : nth_error col i = Some x -> In (Rmax x start) u.
  Proof. intros H. apply u_in. apply bit_grid_in; [exact G|]. right. right. exists x. split; [apply nth_error_In with i; exact H|reflexivity]. Qed.
  Lemma score_points i x : nth_error col i = Some x -> exists pts, nth_error score i = Some (variation E pts) /\ StronglySorted Rlt pts /\
    forall y, In y pts <-> y <= Rmax x start /\ grid_value gp lo hi start col y.
  Proof.
    intros H. exists (firstn (S (position (Rmax x start) u)) u). split; [apply bit_variable_nth; assumption|]. split; [exact (prefix_sorted ent gp medians j lo hi start col _)|].
    intros y. pose proof (prefix_in gp lo hi start col G (Rmax x start) y (clamped_in i x H)) as Z. rewrite bit_grid_in in Z by exact G. exact Z.
  Qed.
  Lemma score_unique i x pts : nth_error col i = Some x -> StronglySorted Rlt pts -> (forall y, In y pts <-> y <= Rmax x start /\ grid_value gp lo hi start col y) -> nth_error score i = Some (variation E pts).
  Proof.
    intros H Sp I. destruct (score_points i x H) as (p & P & Q & R'). replace pts with p; [exact P|]. apply sorted_lt_ext; [assumption|assumption|]. intros y. rewrite R', I. reflexivity.
  Qed.
  Lemma score_nonneg i v : nth_error score i = Some v -> 0 <= v.
  Proof.
    intros H. assert (L : (i < length col)%nat) by (rewrite <- (bit_variable_length ent gp medians j lo hi start col G); apply nth_error_Some; unfold score in H; congruence).
    destruct (nth_error col i) as [x|] eqn:X; [|apply nth_error_None in X; lia]. destruct (score_points i x X) as (p & P & _). rewrite P in H. injection H as <-. apply variation_nonneg.
  Qed.
  Lemma score_start i x : nth_error col i = Some x -> x <= start -> nth_error score i = Some 0.
  Proof.
    intros H L. rewrite (score_unique i x [start] H); [reflexivity|repeat constructor|]. intros y. rewrite Rmax_right by exact L. split.
    - intros [<-|[]]. split; [lra|left; reflexivity].
    - intros [A B]. left. apply (bit_grid_in gp lo hi start col G y) in B. apply bit_grid_ge in B; [lra|exact G].
  Qed.
  Lemma u_first : nth 0 u 0 = start.
  Proof.
    assert (I : In start u) by (apply u_in, bit_grid_in; [exact G|left; reflexivity]). assert (L : (0 < length u)%nat) by (destruct u; [contradiction|cbn; lia]).
    assert (A : start <= nth 0 u 0) by (eapply bit_grid_ge; [exact G|]; apply u_in; apply nth_In; exact L).
    pose proof (position_lt _ _ I) as P. pose proof (sorted_nth_le u 0 (position start u) (sorted_lt_le _ (unique_r_sorted _)) ltac:(lia) P) as B. rewrite (nth_error_nth _ _ 0 (position_nth _ _ I)) in B. lra.
  Qed.
  Lemma u_range k : (k < length u)%nat -> start <= nth k u 0.
  Proof. intros H. eapply bit_grid_ge; [exact G|]. apply u_in. apply nth_In. exact H. Qed.
  Lemma score_sum i x : nth_error col i = Some x -> let p := position (Rmax x start) u in
    nth_error score i = Some (sumn p (fun q => gap (E (nth q u 0)) (E (nth (S q) u 0)))) /\ (p < length u)%nat /\ nth p u 0 = Rmax x start.
  Proof.
    intros X p. pose proof (clamped_in i x X) as I. pose proof (position_lt _ _ I) as L. split; [|split; [exact L|apply nth_error_nth, position_nth, I]].
    unfold score. rewrite (bit_variable_nth ent gp medians j lo hi start col G i x X). fold u. f_equal. fold p. rewrite (variation_sum _ _ 0). rewrite firstn_length. replace (Nat.min (S p) (length u) - 1)%nat with p by (unfold p; lia).
    apply sumn_ext. intros q Hq. assert (F : forall q, (q <= p)%nat -> nth q (firstn (S p) u) 0 = nth q u 0).
    { intros q' Hq'. rewrite <- (firstn_skipn (S p) u) at 2. rewrite app_nth1; [reflexivity|]. rewrite firstn_length. unfold p in *. lia. }
    rewrite !F by lia. reflexivity.
  Qed.
  Lemma score_mono i k x y a b : nth_error col i = Some x -> nth_error col k = Some y -> x <= y -> nth_error score i = Some a -> nth_error score k = Some b -> a <= b.
  Proof.
    intros X Y H A B. destruct (score_sum i x X) as (A1 & _). destruct (score_sum k y Y) as (B1 & _). rewrite A1 in A. rewrite B1 in B.
    assert (P : (position (Rmax x start) u <= position (Rmax y start) u)%nat).
    { apply position_mono; [apply unique_r_sorted|eapply clamped_in; exact X|eapply clamped_in; exact Y|]. apply Rle_max_compat_r. exact H. }
    replace (position (Rmax y start) u) with (position (Rmax x start) u + (position (Rmax y start) u - position (Rmax x start) u))%nat in B by lia. rewrite sumn_split in B.
    assert (N : 0 <= sumn (position (Rmax y start) u - position (Rmax x start) u) (fun q => gap (E (nth (position (Rmax x start) u + q) u 0)) (E (nth (S (position (Rmax x start) u + q)) u 0)))) by (apply sumn_nonneg; intros; apply gap_nonneg).
    assert (A2 : sumn (position (Rmax x start) u) (fun q => gap (E (nth q u 0)) (E (nth (S q) u 0))) = a) by congruence. assert (B2 : forall z, Some z = Some b -> z = b) by congruence. apply B2 in B. lra.
  Qed.
  Lemma score_lower n i x v : (forall y, start <= y <= Rmax x start -> length (E y) = n) -> nth_error col i = Some x -> nth_error score i = Some v -> gap (E start) (E (Rmax x start)) <= v.
  Proof.
    intros L X V. destruct (score_sum i x X) as (S1 & S2 & S3). rewrite S1 in V. injection V as <-. rewrite <- u_first at 1. rewrite <- S3 at 1.
    apply (path_lower (fun q => E (nth q u 0)) n). intros k Hk. apply L. split; [apply u_range; lia|]. rewrite <- S3. apply sorted_nth_le; [apply sorted_lt_le, unique_r_sorted|exact Hk|exact S2].
  Qed.
  Lemma score_equal n i x : coordinatewise_monotone E n start (Rmax x start) -> nth_error col i = Some x -> nth_error score i = Some (gap (E start) (E (Rmax x start))).
  Proof.
    intros [L M] X. destruct (score_sum i x X) as (S1 & S2 & S3). rewrite S1. f_equal. rewrite (path_equal (fun q => E (nth q u 0)) n).
    - rewrite u_first, S3. reflexivity.
    - intros k Hk. apply L. split; [apply u_range; lia|]. rewrite <- S3. apply sorted_nth_le; [apply sorted_lt_le, unique_r_sorted|exact Hk|exact S2].
    - intros c Hc. assert (B : forall q, (q < position (Rmax x start) u)%nat -> start <= nth q u 0 /\ nth q u 0 <= nth (S q) u 0 /\ nth (S q) u 0 <= Rmax x start).
      { intros q Hq. split; [apply u_range; lia|]. split; [apply sorted_nth_le; [apply sorted_lt_le, unique_r_sorted|lia|lia]|]. rewrite <- S3. apply sorted_nth_le; [apply sorted_lt_le, unique_r_sorted|lia|exact S2]. }
      destruct (M c Hc) as [I|D]; [left|right]; intros q Hq; destruct (B q Hq) as (B1 & B2 & B3); auto.
  Qed.
End OneVariable.

(** ** One respondent alone and with another respondent beyond the grid *)
Lemma variation_snoc {A} (f : A -> list R) l a b : variation f (l ++ [a; b]) = variation f (l ++ [a]) + gap (f a) (f b).
Proof.
  induction l as [|x [|y l] IH].
  - cbn. lra.
  - cbn. lra.
  - change (variation f ((x :: y :: l) ++ [a; b])) with (gap (f x) (f y) + variation f ((y :: l) ++ [a; b])). rewrite IH. change (variation f ((x :: y :: l) ++ [a])) with (gap (f x) (f y) + variation f ((y :: l) ++ [a])). ring.
Qed.
Lemma sorted_snoc l a : StronglySorted Rlt l -> (forall x, In x l -> x < a) -> StronglySorted Rlt (l ++ [a]).
Proof.
  induction 1 as [|x l S IH F]; intros H; cbn; [repeat constructor|]. constructor; [apply IH; intros; apply H; right; assumption|].
  apply Forall_app. split; [exact F|]. constructor; [apply H; left; reflexivity|constructor].
Qed.
Lemma grid_within gp lo hi start y : lo <= hi -> start <= hi -> grid_value gp lo hi start [] y -> y <= hi.
Proof.
  intros H S [->|[(k & Hk & ->)|(c & [] & _)]]; [exact S|]. apply Rmax_lub; [|exact S]. assert (B : 0 <= INR k / INR (gp - 1) <= 1).
  { assert (0 < INR (gp - 1)) by (apply lt_0_INR; lia). pose proof (pos_INR k). assert (INR k <= INR (gp - 1)) by (apply le_INR; lia). split.
    - apply Rmult_le_pos; [lra|]. left. apply Rinv_0_lt_compat. assumption.
    - apply Rmult_le_reg_r with (INR (gp - 1)); [assumption|]. unfold Rdiv. rewrite Rmult_assoc, Rinv_l by lra. lra. }
  set (r := INR k / INR (gp - 1)) in *. nra.
Qed.
Lemma batch_difference ent gp medians j lo hi start a b : (2 <= gp)%nat -> lo <= hi -> start <= hi -> hi < a -> a < b ->
  exists alone, bit_scores_variable ent gp medians j lo hi start [b] = [alone] /\
  nth_error (bit_scores_variable ent gp medians j lo hi start [b; a]) 0 =
    Some (alone + (gap (ent (upd j hi medians)) (ent (upd j a medians)) + gap (ent (upd j a medians)) (ent (upd j b medians)) - gap (ent (upd j hi medians)) (ent (upd j b medians)))).
Proof.
  intros Hg Hl Hs Ha Hb. set (E := fun v => ent (upd j v medians)).
  (* points up to [hi] in the grid without respondents *)
  assert (G1 : (1 <= gp)%nat) by lia.
  assert (Hhi : grid_value gp lo hi start [] hi).
  { right. left. exists (gp - 1)%nat. split; [lia|]. assert (0 < INR (gp - 1)) by (apply lt_0_INR; lia). replace (INR (gp - 1) / INR (gp - 1)) with 1 by (field; lra). rewrite Rmax_left; lra. }
  pose (u := unique_r (map fst (sort_indexed rleb (bit_grid gp lo hi start [])))).
  assert (Iu : forall y, In y u <-> grid_value gp lo hi start [] y) by (intros y; unfold u; rewrite u_in; apply bit_grid_in; exact G1).
  assert (Su : StronglySorted Rlt u) by apply unique_r_sorted.
  assert (Q : exists P, u = P ++ [hi]).
  { destruct (exists_last (l := u)) as (P & z & EP); [intros Z; apply (Iu hi) in Hhi; rewrite Z in Hhi; contradiction|]. exists P. rewrite EP in *. replace hi with z; [reflexivity|].
    apply Rle_antisym; [apply (grid_within gp lo hi start); [assumption|assumption|]; apply Iu, in_or_app; right; left; reflexivity|].
    apply Iu, in_app_or in Hhi. destruct Hhi as [I|[->|[]]]; [|lra]. left. apply sorted_app_inv in Su. destruct Su as (_ & _ & X). apply X; [exact I|left; reflexivity]. }
  destruct Q as (P & EP).
  assert (Gv : forall col y, grid_value gp lo hi start col y <-> In y u \/ exists c, In c col /\ y = Rmax c start).
  { intros col y. rewrite Iu. unfold grid_value. split; [intros [H|[H|H]]; tauto|]. intros [[H|[H|(c & [] & _)]]|H]; tauto. }
  assert (Mu : forall y, In y u -> y <= hi) by (intros y I; apply Iu in I; exact (grid_within gp lo hi start y Hl Hs I)).
  assert (S1 : nth_error (bit_scores_variable ent gp medians j lo hi start [b]) 0 = Some (variation E (P ++ [hi; b]))).
  { apply (score_unique ent gp medians j lo hi start [b] G1 0 b); [reflexivity| |].
    - change [hi; b] with ([hi] ++ [b]). rewrite app_assoc, <- EP. apply sorted_snoc; [exact Su|]. intros x I. specialize (Mu x I). lra.
    - intros y. rewrite Gv. change [hi; b] with ([hi] ++ [b]). rewrite app_assoc, <- EP. rewrite (Rmax_left b start) by lra. split.
      + intros I. apply in_app_or in I. destruct I as [I|[<-|[]]]; [split; [specialize (Mu y I); lra|left; exact I]|split; [lra|]]. right. exists b. split; [left; reflexivity|]. rewrite Rmax_left; lra.
      + intros [H [I|(c & [<-|[]] & ->)]]; apply in_or_app; [left; exact I|right; left; rewrite Rmax_left; lra]. }
  assert (S2 : nth_error (bit_scores_variable ent gp medians j lo hi start [b; a]) 0 = Some (variation E (P ++ [hi; a; b]))).
  { apply (score_unique ent gp medians j lo hi start [b; a] G1 0 b); [reflexivity| |].
    - change [hi; a; b] with ([hi] ++ [a] ++ [b]). rewrite !app_assoc, <- EP. apply sorted_snoc; [apply sorted_snoc; [exact Su|]|].
      + intros x I. specialize (Mu x I). lra.
      + intros x I. apply in_app_or in I. destruct I as [I|[<-|[]]]; [specialize (Mu x I); lra|lra].
    - intros y. rewrite Gv. change [hi; a; b] with ([hi] ++ [a] ++ [b]). rewrite !app_assoc, <- EP. rewrite (Rmax_left b start) by lra. split.
      + intros I. apply in_app_or in I. destruct I as [I|[<-|[]]]; [apply in_app_or in I; destruct I as [I|[<-|[]]]|].
        * split; [specialize (Mu y I); lra|left; exact I].
        * split; [lra|]. right. exists a. split; [right; left; reflexivity|]. rewrite Rmax_left; lra.
        * split; [lra|]. right. exists b. split; [left; reflexivity|]. rewrite Rmax_left; lra.
      + intros [H [I|(c & [<-|[<-|[]]] & ->)]]; apply in_or_app.
        * left. apply in_or_app. left. exact I.
        * right. left. rewrite Rmax_left; lra.
        * left. apply in_or_app. right. left. rewrite Rmax_left; lra. }
  exists (variation E (P ++ [hi; b])). split.
  - pose proof (bit_variable_length ent gp medians j lo hi start [b] G1) as L. destruct (bit_scores_variable ent gp medians j lo hi start [b]) as [|v [|]]; try discriminate L. cbn in S1. congruence.
  - rewrite S2. f_equal. rewrite variation_snoc. replace (P ++ [hi; a; b]) with ((P ++ [hi]) ++ [a; b]) by (rewrite <- app_assoc; reflexivity). rewrite variation_snoc. rewrite <- app_assoc. cbn [app]. rewrite variation_snoc. unfold E. ring.
Qed.

(** ** The one-dimensional score *)
Lemma rsum_changes {A} (f : A -> list R) pts : rsum (map rsum (absolute_changes (map f pts))) = variation f pts.
Proof.
  destruct pts as [|d pts]; [reflexivity|]. rewrite (variation_sum f _ d), rsum_nth, map_length, changes_length, map_length. cbn [length]. rewrite sumn_S_first, Nat.sub_succ, Nat.sub_0_r.
  assert (N : forall k, (k < S (length pts))%nat -> nth k (map rsum (absolute_changes (map f (d :: pts)))) 0 = rsum (nth k (absolute_changes (map f (d :: pts))) [])).
  { intros k Hk. rewrite nth_indep with (d' := rsum []) by (rewrite map_length, changes_length, map_length; exact Hk). apply map_nth. }
  rewrite N by lia. rewrite change_first by discriminate. rewrite Rplus_0_l. apply sumn_ext. intros k Hk. rewrite N by lia. rewrite change_nth by (rewrite map_length; cbn [length]; lia).
  rewrite !(nth_indep (map f (d :: pts)) [] (f d)) by (rewrite map_length; cbn [length]; lia). rewrite !map_nth. reflexivity.
Qed.
Lemma path_length gp theta start bounds : length (grid_path gp theta start bounds) = gp.
Proof. unfold grid_path. rewrite mapi_length. unfold linspace. rewrite map_length, seq_length. reflexivity. Qed.
Lemma path_nth gp theta start bounds k : (k < gp)%nat -> nth_error (grid_path gp theta start bounds) k =
  Some (mapi (fun j t => grid_coordinate gp k (INR k / INR (gp - 1)) t (nth j start 0) (fst (nth j bounds (0, 0))) (snd (nth j bounds (0, 0)))) theta).
Proof.
  intros H. unfold grid_path. rewrite nth_error_mapi. unfold linspace. rewrite nth_error_map, nth_error_seq by exact H. cbn [option_map Nat.add]. do 2 f_equal. unfold Rdiv. replace (0 + INR k * ((1 - 0) * / INR (gp - 1))) with (INR k * / INR (gp - 1)) by ring. reflexivity.
Qed.
Lemma mapi_eq {A} (f : nat -> R -> A) l (m : list A) : length l = length m -> (forall j x y, nth_error l j = Some x -> nth_error m j = Some y -> f j x = y) -> mapi f l = m.
Proof.
  intros L H. apply nth_error_ext. intros j. rewrite nth_error_mapi. destruct (nth_error l j) as [x|] eqn:X; cbn.
  - destruct (nth_error m j) as [y|] eqn:Y; [f_equal; eauto|]. apply nth_error_None in Y. assert (j < length l)%nat by (apply nth_error_Some; congruence). lia.
  - symmetry. apply nth_error_None. apply nth_error_None in X. lia.
Qed.
Lemma coordinate_first gp r t s lo hi : grid_coordinate gp 0 r t s lo hi = s. Proof. reflexivity. Qed.
Lemma coordinate_last gp t s lo hi : (2 <= gp)%nat -> s <= t -> grid_coordinate gp (gp - 1) 1 t s lo hi = t.
Proof.
  intros H S. unfold grid_coordinate. rewrite Nat.eqb_refl. destruct (Nat.eqb_spec (gp - 1) 0); [lia|].
  destruct (Rlt_dec hi t); [reflexivity|]. destruct (Rlt_dec t lo).
  - rewrite Rmax_left; lra.
  - rewrite (Rmax_left t lo), (Rmin_left t hi) by lra. rewrite Rmax_left; lra.
Qed.
Lemma path_first gp theta start bounds : (1 <= gp)%nat -> length theta = length start -> nth 0 (grid_path gp theta start bounds) [] = start.
Proof.
  intros H L. rewrite (nth_error_nth _ _ [] (path_nth gp theta start bounds 0 ltac:(lia))). apply mapi_eq; [exact L|]. intros j x y X Y. rewrite coordinate_first. apply nth_error_nth. exact Y.
Qed.
Lemma path_last gp theta start bounds : (2 <= gp)%nat -> Forall2 Rle start theta -> nth (gp - 1) (grid_path gp theta start bounds) [] = theta.
Proof.
  intros H F. rewrite (nth_error_nth _ _ [] (path_nth gp theta start bounds (gp - 1) ltac:(lia))). apply mapi_eq; [reflexivity|]. intros j x y X Y. rewrite X in Y. injection Y as <-.
  assert (0 < INR (gp - 1)) by (apply lt_0_INR; lia). replace (INR (gp - 1) / INR (gp - 1)) with 1 by (field; lra). apply coordinate_last; [exact H|].
  clear - F X. revert j X. induction F as [|a b la lb Hab F IH]; intros [|j] X; cbn in *; try discriminate; [congruence|apply IH; exact X].
Qed.
(** With one latent variable the points of the path increase. *)
Lemma coordinate_step gp k t s lo hi : (S k < gp)%nat -> s <= t -> lo <= hi ->
  s <= grid_coordinate gp k (INR k / INR (gp - 1)) t s lo hi /\ grid_coordinate gp k (INR k / INR (gp - 1)) t s lo hi <= grid_coordinate gp (S k) (INR (S k) / INR (gp - 1)) t s lo hi <= t.
Proof.
  intros Hk S L. assert (N : 0 < INR (gp - 1)) by (apply lt_0_INR; lia).
  assert (R1 : 0 <= INR k / INR (gp - 1) /\ INR k / INR (gp - 1) <= INR (Datatypes.S k) / INR (gp - 1) <= 1).
  { pose proof (pos_INR k). assert (INR k <= INR (Datatypes.S k)) by (apply le_INR; lia). assert (INR (Datatypes.S k) <= INR (gp - 1)) by (apply le_INR; lia). unfold Rdiv. pose proof (Rinv_0_lt_compat _ N). split; [apply Rmult_le_pos; lra|]. split; [apply Rmult_le_compat_r; lra|].
    apply Rmult_le_reg_r with (INR (gp - 1)); [exact N|]. rewrite Rmult_assoc, Rinv_l by lra. lra. }
  set (r := INR k / INR (gp - 1)) in *. set (r' := INR (Datatypes.S k) / INR (gp - 1)) in *. destruct R1 as (A & B & C). unfold grid_coordinate.
  assert (K1 : (k =? gp - 1)%nat = false) by (apply Nat.eqb_neq; lia). rewrite K1. assert (K2 : (Datatypes.S k =? 0)%nat = false) by reflexivity. rewrite K2.
  destruct (Rlt_dec t lo) as [T|T].
  - destruct (Rlt_dec hi t); [lra|]. rewrite !(Rmax_left t s) by lra. destruct (k =? 0)%nat, (Datatypes.S k =? gp - 1)%nat; lra.
  - rewrite (Rmax_left t lo) by lra. destruct (Rlt_dec hi t) as [U|U].
    + rewrite (Rmin_right t hi) by lra. assert (r * (hi - lo) <= r' * (hi - lo)) by (apply Rmult_le_compat_r; lra). assert (r' * (hi - lo) <= 1 * (hi - lo)) by (apply Rmult_le_compat_r; lra). assert (0 <= r * (hi - lo)) by (apply Rmult_le_pos; lra).
      unfold Rmax. destruct (Rle_dec (lo + r * (hi - lo)) s), (Rle_dec (lo + r' * (hi - lo)) s), (k =? 0)%nat, (Datatypes.S k =? gp - 1)%nat; lra.
    + rewrite (Rmin_left t hi) by lra. assert (r * (t - lo) <= r' * (t - lo)) by (apply Rmult_le_compat_r; lra). assert (r' * (t - lo) <= 1 * (t - lo)) by (apply Rmult_le_compat_r; lra). assert (0 <= r * (t - lo)) by (apply Rmult_le_pos; lra).
      unfold Rmax. destruct (Rle_dec (lo + r * (t - lo)) s), (Rle_dec (lo + r' * (t - lo)) s), (k =? 0)%nat, (Datatypes.S k =? gp - 1)%nat; lra.
Qed.
