(** Sorting and distinct values. *)
From Coq Require Import Permutation Sorted.
From Verif Require Import Base BaseFacts RBase RFacts M_Mono M_Est M_Grid S_Grid P_Mono1.
Local Open Scope R_scope.

Section SortBy.
  Context {A : Type} (leb : A -> A -> bool).
  Hypothesis total : forall x y, leb x y = false -> leb y x = true.
  Hypothesis trans : forall x y z, leb x y = true -> leb y z = true -> leb x z = true.
  Let le x y := leb x y = true.
  Lemma insert_by_perm x l : Permutation (insert_by leb x l) (x :: l).
  Proof. induction l as [|y l IH]; cbn [insert_by]; [reflexivity|]. destruct (leb x y); [reflexivity|]. rewrite IH. apply perm_swap. Qed.
  Lemma sort_by_perm l : Permutation (sort_by leb l) l.
  Proof. induction l as [|x l IH]; [reflexivity|]. cbn [sort_by fold_right]. fold (sort_by leb l). rewrite insert_by_perm, IH. reflexivity. Qed.
  Lemma insert_by_sorted x l : StronglySorted le l -> StronglySorted le (insert_by leb x l).
  Proof.
    induction 1 as [|y l S IH F]; cbn [insert_by]; [repeat constructor|]. destruct (leb x y) eqn:E.
    - constructor; [constructor; assumption|]. constructor; [exact E|]. eapply Forall_impl; [|exact F]. intros z Hz. eapply trans; eassumption.
    - constructor; [exact IH|]. rewrite insert_by_perm. constructor; [apply total; exact E|exact F].
  Qed.
  Lemma sort_by_sorted l : StronglySorted le (sort_by leb l).
  Proof. induction l as [|x l IH]; [constructor|]. apply insert_by_sorted. exact IH. Qed.
End SortBy.

Lemma sorted_perm_eq {A} (le : A -> A -> Prop) (anti : forall x y, le x y -> le y x -> x = y) l m :
  StronglySorted le l -> StronglySorted le m -> Permutation l m -> l = m.
Proof.
  revert m; induction l as [|x l IH]; intros m S T P.
  - apply Permutation_nil in P. congruence.
  - destruct m as [|y m]; [symmetry in P; apply Permutation_nil in P; discriminate|].
    inversion S as [|x' l' S' F]; subst. inversion T as [|y' m' T' G]; subst.
    assert (E : x = y).
    { assert (I : In x (y :: m)) by (eapply Permutation_in; [exact P|left; reflexivity]).
      assert (J : In y (x :: l)) by (eapply Permutation_in; [symmetry; exact P|left; reflexivity]).
      destruct I as [I|I]; [congruence|]. destruct J as [J|J]; [congruence|]. rewrite Forall_forall in F, G. apply anti; auto. }
    subst y. apply Permutation_cons_inv in P. f_equal. apply IH; assumption.
Qed.
Lemma seq_sorted a n : StronglySorted le (seq a n).
Proof. revert a; induction n as [|n IH]; intros a; cbn [seq]; [constructor|]. constructor; [apply IH|]. apply Forall_forall. intros x Hx. apply in_seq in Hx. lia. Qed.
Lemma sorted_map {A B} (f : A -> B) (P : B -> B -> Prop) l : StronglySorted (fun x y => P (f x) (f y)) l -> StronglySorted P (map f l).
Proof. induction 1 as [|x l S IH F]; cbn [map]; constructor; [exact IH|]. rewrite Forall_map. exact F. Qed.
Lemma sorted_weaken {A} (P Q : A -> A -> Prop) l : (forall x y, P x y -> Q x y) -> StronglySorted P l -> StronglySorted Q l.
Proof. intros H. induction 1 as [|x l S IH F]; constructor; [exact IH|]. eapply Forall_impl; [|exact F]. auto. Qed.
Lemma map_fst_combine {A B} (l : list A) (m : list B) : length l = length m -> map fst (combine l m) = l.
Proof. revert m; induction l as [|x l IH]; intros [|y m] H; try discriminate; [reflexivity|]. cbn. rewrite IH; auto. Qed.
Lemma map_snd_combine {A B} (l : list A) (m : list B) : length l = length m -> map snd (combine l m) = m.
Proof. revert m; induction l as [|x l IH]; intros [|y m] H; try discriminate; [reflexivity|]. cbn. rewrite IH; auto. Qed.

Section SortIndexed.
  Context {A : Type} (leb : A -> A -> bool) (d : A).
  Hypothesis total : forall x y, leb x y = false -> leb y x = true.
  Hypothesis trans : forall x y z, leb x y = true -> leb y z = true -> leb x z = true.
  Lemma sort_indexed_perm l : Permutation (sort_indexed leb l) (combine l (seq 0 (length l))).
  Proof. apply sort_by_perm. Qed.
  Lemma sort_indexed_sorted l : StronglySorted (fun p q => leb (fst p) (fst q) = true) (sort_indexed leb l).
  Proof. apply (sort_by_sorted (fun p q : A * nat => leb (fst p) (fst q))); [intros; apply total; assumption|intros; eapply trans; eassumption]. Qed.
  Lemma sort_indexed_length l : length (sort_indexed leb l) = length l.
  Proof. rewrite (Permutation_length (sort_indexed_perm l)), combine_length, seq_length. lia. Qed.
  Lemma sort_indexed_values l : Permutation (map fst (sort_indexed leb l)) l.
  Proof. rewrite sort_indexed_perm, map_fst_combine by (rewrite seq_length; reflexivity). reflexivity. Qed.
  Lemma sort_indexed_indices l : Permutation (map snd (sort_indexed leb l)) (seq 0 (length l)).
  Proof. rewrite sort_indexed_perm, map_snd_combine by (rewrite seq_length; reflexivity). reflexivity. Qed.
  Lemma in_combine_seq (l : list A) a x k : In (x, k) (combine l (seq a (length l))) <-> (a <= k)%nat /\ nth_error l (k - a) = Some x.
  Proof.
    revert a; induction l as [|y l IH]; intros a; cbn [length seq combine].
    - split; [intros []|]. intros [_ H]. destruct (k - a)%nat; discriminate.
    - cbn [In]. rewrite IH. split.
      + intros [E|[H1 H2]]; [injection E as <- <-; split; [lia|]; rewrite Nat.sub_diag; reflexivity|]. split; [lia|]. replace (k - a)%nat with (S (k - S a)) by lia. exact H2.
      + intros [H1 H2]. destruct (k - a)%nat as [|q] eqn:E; [left; cbn in H2; injection H2 as <-; f_equal; lia|right]. split; [lia|]. replace (k - S a)%nat with q by lia. exact H2.
  Qed.
  Lemma sort_indexed_in l x k : In (x, k) (sort_indexed leb l) <-> nth_error l k = Some x.
  Proof.
    split; intros H.
    - apply (Permutation_in _ (sort_indexed_perm l)) in H. apply in_combine_seq in H. rewrite Nat.sub_0_r in H. tauto.
    - apply (Permutation_in _ (Permutation_sym (sort_indexed_perm l))). apply in_combine_seq. rewrite Nat.sub_0_r. split; [lia|exact H].
  Qed.
End SortIndexed.

Lemma leb_total_n x y : Nat.leb x y = false -> Nat.leb y x = true.
Proof. intros H. apply Nat.leb_gt in H. apply Nat.leb_le. lia. Qed.
Lemma leb_trans_n x y z : Nat.leb x y = true -> Nat.leb y z = true -> Nat.leb x z = true.
Proof. rewrite !Nat.leb_le. lia. Qed.
Lemma rleb_total x y : rleb x y = false -> rleb y x = true.
Proof. unfold rleb. destruct (Rle_dec x y), (Rle_dec y x); auto; lra. Qed.
Lemma rleb_trans x y z : rleb x y = true -> rleb y z = true -> rleb x z = true.
Proof. unfold rleb. destruct (Rle_dec x y), (Rle_dec y z), (Rle_dec x z); auto; try discriminate; lra. Qed.

(** argsort of a permutation is its inverse. *)
Lemma argsort_inverse sigma i : Permutation sigma (seq 0 (length sigma)) -> (i < length sigma)%nat ->
  exists k, nth_error (argsort_n sigma) i = Some k /\ nth_error sigma k = Some i.
Proof.
  intros P Hi. unfold argsort_n. set (s := sort_indexed Nat.leb sigma).
  assert (E : map fst s = seq 0 (length sigma)).
  { apply (sorted_perm_eq le); [intros; lia|..].
    - apply sorted_map. eapply sorted_weaken; [|apply (sort_indexed_sorted Nat.leb leb_total_n leb_trans_n)]. cbn. intros. apply Nat.leb_le. assumption.
    - apply seq_sorted.
    - unfold s. rewrite sort_indexed_values. exact P. }
  assert (L : length s = length sigma) by (unfold s; apply sort_indexed_length).
  destruct (nth_error s i) as [[x k]|] eqn:N; [|apply nth_error_None in N; lia].
  assert (X : x = i). { assert (H : nth_error (map fst s) i = Some x) by (rewrite nth_error_map, N; reflexivity). rewrite E in H. pose proof (nth_error_nth _ _ 0%nat H) as G. rewrite seq_nth in G by exact Hi. lia. }
  subst x. exists k. split; [rewrite nth_error_map, N; reflexivity|]. apply nth_error_In in N. apply (sort_indexed_in Nat.leb sigma) in N. exact N.
Qed.
Lemma argsort_length sigma : length (argsort_n sigma) = length sigma.
Proof. unfold argsort_n. rewrite map_length. apply sort_indexed_length. Qed.

(** ** Sorted reals *)
Lemma insert_r_by x l : insert_r x l = insert_by rleb x l.
Proof. induction l as [|y l IH]; [reflexivity|]. cbn [insert_r insert_by]. unfold rleb at 1. destruct (Rle_dec x y); [reflexivity|]. rewrite IH. reflexivity. Qed.
Lemma sort_r_by l : sort_r l = sort_by rleb l.
Proof. induction l as [|x l IH]; [reflexivity|]. cbn [sort_r fold_right]. fold (sort_r l). rewrite IH, insert_r_by. reflexivity. Qed.
Lemma sort_r_perm l : Permutation (sort_r l) l.
Proof. rewrite sort_r_by. apply sort_by_perm. Qed.
Lemma sort_r_sorted l : StronglySorted Rle (sort_r l).
Proof. rewrite sort_r_by. eapply sorted_weaken; [|apply (sort_by_sorted rleb rleb_total rleb_trans)]. intros x y H. cbv beta in H. unfold rleb in H. destruct (Rle_dec x y); [assumption|discriminate]. Qed.
Lemma sort_r_length l : length (sort_r l) = length l.
Proof. apply Permutation_length, sort_r_perm. Qed.
Lemma sorted_nth (le : R -> R -> Prop) l i j : StronglySorted le l -> (i < j)%nat -> (j < length l)%nat -> le (nth i l 0) (nth j l 0).
Proof.
  intros S. revert i j; induction S as [|x l S IH F]; intros i j Hij Hj; [cbn in Hj; lia|]. destruct j as [|j]; [lia|]. cbn [length] in Hj. destruct i as [|i]; cbn [nth].
  - rewrite Forall_forall in F. apply F. apply nth_In. lia.
  - apply IH; lia.
Qed.
Lemma sorted_nth_le l i j : StronglySorted Rle l -> (i <= j)%nat -> (j < length l)%nat -> nth i l 0 <= nth j l 0.
Proof. intros S H Hj. destruct (Nat.eq_dec i j) as [->|]; [lra|]. apply (sorted_nth Rle); [exact S|lia|exact Hj]. Qed.

(** ** Distinct values *)
Lemma insert_unique_in x y l : In y (insert_unique x l) <-> y = x \/ In y l.
Proof.
  induction l as [|z l IH]; cbn [insert_unique].
  - cbn. firstorder.
  - destruct (Req_EM_T x z) as [->|]; [cbn; intuition congruence|]. destruct (Rlt_dec x z); [cbn; intuition congruence|]. cbn [In]. rewrite IH. intuition congruence.
Qed.
Lemma insert_unique_sorted x l : StronglySorted Rlt l -> StronglySorted Rlt (insert_unique x l).
Proof.
  induction 1 as [|y l S IH F]; cbn [insert_unique]; [repeat constructor|]. destruct (Req_EM_T x y); [constructor; assumption|]. destruct (Rlt_dec x y) as [L|L].
  - constructor; [constructor; assumption|]. constructor; [exact L|]. eapply Forall_impl; [|exact F]. cbn. intros; lra.
  - constructor; [exact IH|]. apply Forall_forall. intros z Hz. apply insert_unique_in in Hz. rewrite Forall_forall in F. destruct Hz as [->|Hz]; [lra|auto].
Qed.
Lemma unique_r_in y l : In y (unique_r l) <-> In y l.
Proof. induction l as [|x l IH]; cbn; [tauto|]. fold (unique_r l). rewrite insert_unique_in, IH. intuition congruence. Qed.
Lemma unique_r_sorted l : StronglySorted Rlt (unique_r l).
Proof. induction l as [|x l IH]; cbn; [constructor|]. apply insert_unique_sorted. exact IH. Qed.
Lemma position_nth x l : In x l -> nth_error l (position x l) = Some x.
Proof. induction l as [|y l IH]; [intros []|]. cbn [position]. intros H. destruct (Req_EM_T x y) as [->|N]; [reflexivity|]. cbn. apply IH. destruct H; [congruence|assumption]. Qed.
Lemma position_lt x l : In x l -> (position x l < length l)%nat.
Proof. intros H. apply nth_error_Some. rewrite position_nth by exact H. discriminate. Qed.
Lemma sorted_lt_nodup l : StronglySorted Rlt l -> NoDup l.
Proof. induction 1 as [|x l S IH F]; constructor; [|exact IH]. intros I. rewrite Forall_forall in F. specialize (F x I). lra. Qed.
Lemma sorted_lt_le l : StronglySorted Rlt l -> StronglySorted Rle l.
Proof. apply sorted_weaken. intros; lra. Qed.
Lemma position_mono x y l : StronglySorted Rlt l -> In x l -> In y l -> x <= y -> (position x l <= position y l)%nat.
Proof.
  intros S Hx Hy L. destruct (le_lt_dec (position x l) (position y l)) as [|G]; [assumption|exfalso].
  pose proof (sorted_nth Rlt l _ _ S G (position_lt x l Hx)) as H. pose proof (position_nth x l Hx) as Ex. pose proof (position_nth y l Hy) as Ey.
  rewrite (nth_error_nth _ _ 0 Ex), (nth_error_nth _ _ 0 Ey) in H. lra.
Qed.
Lemma sorted_app_inv {A} (le : A -> A -> Prop) l m : StronglySorted le (l ++ m) -> StronglySorted le l /\ StronglySorted le m /\ (forall x y, In x l -> In y m -> le x y).
Proof.
  induction l as [|a l IH]; cbn [app]; intros S.
  - split; [constructor|]. split; [exact S|]. intros x y [].
  - inversion S as [|a' l' S' F]; subst. destruct (IH S') as (A1 & A2 & A3). rewrite Forall_forall in F. split; [|split].
    + constructor; [exact A1|]. apply Forall_forall. intros x Hx. apply F, in_or_app. left. exact Hx.
    + exact A2.
    + intros x y [->|Hx] Hy; [apply F, in_or_app; right; exact Hy|apply A3; assumption].
Qed.
