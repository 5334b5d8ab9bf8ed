(** p-values from data and simulated data of the same law. *)
From Verif Require Import Base BaseFacts RBase RFacts M_Data M_Logit M_Lik M_Est M_Stat M_Eval M_Pop M_Pval P_Opt3 P_True1 P_Cons1 P_Fit P_Pval S_Stat S_Lik S_Est S_Eval S_True S_Rao S_Fit S_Pval T_Stat.
Import List.
Local Open Scope R_scope.

Lemma whole_part x : 0 <= x -> exists k : nat, INR k <= x < INR k + 1.
Proof.
  intro H. destruct (archimed x) as [A B]. exists (Z.to_nat (up x - 1)). assert (P : (0 < up x)%Z) by (apply lt_IZR; lra).
  rewrite INR_IZR_INZ, Z2Nat.id by lia. rewrite minus_IZR. lra.
Qed.
Lemma draw_length {A} (f : A -> bool) l : (length (filter f l) <= length l)%nat.
Proof. induction l as [|x l IH]; cbn [filter]; [lia|]. destruct (f x); cbn [length]; lia. Qed.
Lemma filter_map_length {A B} (f : B -> bool) (g : A -> B) l : length (filter f (map g l)) = length (filter (fun x => f (g x)) l).
Proof. induction l as [|x l IH]; [reflexivity|]. cbn [map filter]. destruct (f (g x)); cbn [length]; congruence. Qed.
Lemma filter_same_length {A} (f g : A -> bool) l : (forall x, In x l -> f x = g x) -> length (filter f l) = length (filter g l).
Proof. intro H. f_equal. induction l as [|x l IH]; [reflexivity|]. cbn [filter]. rewrite (H x (or_introl eq_refl)), IH by (intros; apply H; now right). reflexivity. Qed.

Section test.
  Context {A : Type} (space : list A) (w : A -> R) (Hw : forall a, In a space -> 0 <= w a) (H1 : over space w = 1) (v : A -> fl) (i j : nat) (Hij : i <> j).
  Let mean (f : A -> R) : R := over space (fun a => w a * f a).
  Definition up_to (a b : A) : bool := below_nan (v a) (v b).
  Definition down_to (a b : A) : bool := below_nan (v b) (v a).
  Lemma up_irr a : up_to a a = false. Proof. apply below_irr. Qed.
  Lemma down_irr a : down_to a a = false. Proof. apply below_irr. Qed.
  Lemma up_tr a b c : up_to a b = true -> up_to b c = true -> up_to a c = true. Proof. apply below_tr. Qed.
  Lemma down_tr a b c : down_to a b = true -> down_to b c = true -> down_to a c = true. Proof. unfold down_to. intros P Q. now apply (below_tr _ (v b)). Qed.
  Definition bound_to (l : list A) : bool := match l with a :: r => existsb (fun s => negb (below_nan (v s) (v a) || below_nan (v a) (v s))) r | [] => false end.
  Definition q3_small (alpha : R) (l : list A) : bool :=
    match l with a :: r => match q3_p_value i j (map v r) (v a) with Some p => if Rle_dec p alpha then true else false | None => false end | [] => false end.
  Definition amid_small (alpha : R) (l : list A) : bool :=
    match l with a :: r => match amid_p_value i j (map v r) (v a) with Some p => if Rle_dec p alpha then true else false | None => false end | [] => false end.
  Definition ind (b : bool) : R := if b then 1 else 0.
  Lemma ind_nonneg b : 0 <= ind b. Proof. destruct b; cbn; lra. Qed.

  Lemma dplus n f g : draws mean n (fun l => f l + g l) = draws mean n f + draws mean n g.
  Proof. exact (draws_plus space w n f g). Qed.
  Lemma extreme_level lt n k : (forall a, lt a a = false) -> (forall a b c, lt a b = true -> lt b c = true -> lt a c = true) ->
    draws mean (S n) (fun l => ind (extreme lt k l)) <= INR (S k) / INR (S n).
  Proof.
    intros Hi Ht. apply rank_above; [exact Hw|exact H1|]. intros l [L _]. unfold ind. rewrite (sumn_count (S n) (fun i => extreme lt k (pulled i l))). apply le_INR. rewrite <- L. now apply extremes.
  Qed.
  Lemma amid_extreme alpha k a r : r <> [] -> alpha * INR (length r) < INR k + 1 -> amid_small alpha (a :: r) = true -> bound_to (a :: r) = false -> extreme up_to k (a :: r) = true.
  Proof.
    intros Hr HK HS HB. cbn [amid_small] in HS. destruct (C57_amid i j (map v r) (v a)) as [_ C]; [destruct r; [congruence|discriminate]|]. destruct (C Hij) as (p & E & _ & V). rewrite E in HS. destruct (Rle_dec p alpha) as [Hp|]; [|discriminate].
    assert (P : 0 < INR (length r)) by (apply lt_0_INR; destruct r; [congruence|cbn; lia]). rewrite map_length, filter_map_length in V.
    cbn [extreme]. apply andb_true_iff. split.
    - apply Nat.leb_le. assert (INR (length (filter (up_to a) r)) < INR (S k)).
      { rewrite S_INR. apply (Rle_lt_trans _ (alpha * INR (length r))); [|exact HK]. apply (Rmult_le_compat_r (INR (length r))) in Hp; [|lra]. rewrite V in Hp. unfold Rdiv in Hp. rewrite Rmult_assoc, Rinv_l, Rmult_1_r in Hp by lra. exact Hp. }
      apply INR_lt in H. lia.
    - apply forallb_forall. intros s Hs. unfold up_to. cbn [bound_to] in HB. destruct (below_nan (v s) (v a) || below_nan (v a) (v s))%bool eqn:X; [reflexivity|]. exfalso.
      assert (T : existsb (fun s => negb (below_nan (v s) (v a) || below_nan (v a) (v s))) r = true) by (apply existsb_exists; exists s; rewrite X; auto). congruence.
  Qed.
  Lemma q3_extreme alpha k a r : r <> [] -> alpha * INR (length r) / 2 < INR k + 1 -> q3_small alpha (a :: r) = true -> bound_to (a :: r) = false ->
    extreme up_to k (a :: r) = true \/ extreme down_to k (a :: r) = true.
  Proof.
    intros Hr HK HS HB. cbn [q3_small] in HS. destruct (C57_q3 i j (map v r) (v a)) as [_ C]; [destruct r; [congruence|discriminate]|]. destruct (C Hij) as (p & E & _ & V). rewrite E in HS. destruct (Rle_dec p alpha) as [Hp|]; [|discriminate].
    assert (P : 0 < INR (length r)) by (apply lt_0_INR; destruct r; [congruence|cbn; lia]). rewrite map_length, !filter_map_length in V.
    assert (T : forall s, In s r -> (below_nan (v s) (v a) || below_nan (v a) (v s))%bool = true).
    { intros s Hs. destruct (below_nan (v s) (v a) || below_nan (v a) (v s))%bool eqn:X; [reflexivity|]. exfalso. cbn [bound_to] in HB.
      assert (T : existsb (fun s => negb (below_nan (v s) (v a) || below_nan (v a) (v s))) r = true) by (apply existsb_exists; exists s; rewrite X; auto). congruence. }
    rewrite (filter_same_length (fun x => at_least_nan (v x) (v a)) (up_to a) r) in V by (intros s Hs; apply at_least_below, T, Hs). fold (down_to a) in V.
    change (fun x : A => below_nan (v x) (v a)) with (down_to a) in V.
    assert (Q : forall c, INR c / INR (length r) <= alpha / 2 -> (c <= k)%nat).
    { intros c Hc. assert (INR c < INR (S k)).
      { rewrite S_INR. apply (Rle_lt_trans _ (alpha * INR (length r) / 2)); [|exact HK]. apply (Rmult_le_compat_r (INR (length r))) in Hc; [|lra]. unfold Rdiv in *. rewrite Rmult_assoc, Rinv_l, Rmult_1_r in Hc by lra. lra. }
      apply INR_lt in H. lia. }
    destruct (Rle_dec (INR (length (filter (down_to a) r)) / INR (length r)) (INR (length (filter (up_to a) r)) / INR (length r))) as [L|L].
    - right. rewrite Rmin_left in V by exact L. cbn [extreme]. apply andb_true_iff. split; [apply Nat.leb_le, Q; lra|]. apply forallb_forall. intros s Hs. specialize (T s Hs). unfold down_to. rewrite orb_comm. exact T.
    - left. rewrite Rmin_right in V by lra. cbn [extreme]. apply andb_true_iff. split; [apply Nat.leb_le, Q; lra|]. apply forallb_forall. exact T.
  Qed.
  Lemma amid_level n alpha : (1 <= n)%nat -> 0 <= alpha -> draws mean (S n) (fun l => ind (amid_small alpha l)) <= alpha + (1 - alpha) / INR (S n) + draws mean (S n) (fun l => ind (bound_to l)).
  Proof.
    intros Hn Ha. assert (Pn : 0 < INR (S n)) by (apply lt_0_INR; lia). destruct (whole_part (alpha * INR n)) as (k & K1 & K2); [apply Rmult_le_pos; [exact Ha|apply pos_INR]|].
    apply (Rle_trans _ (draws mean (S n) (fun l => ind (extreme up_to k l) + ind (bound_to l)))).
    - apply draws_le; [exact Hw|]. intros [|a r] [L _]; [discriminate|]. cbn [length] in L. pose proof (ind_nonneg (extreme up_to k (a :: r))). pose proof (ind_nonneg (bound_to (a :: r))).
      destruct (amid_small alpha (a :: r)) eqn:E; [|cbn [ind]; lra]. destruct (bound_to (a :: r)) eqn:B; [cbn [ind]; lra|].
      rewrite (amid_extreme alpha k a r); [cbn [ind]; lra|destruct r; [cbn in L; lia|discriminate]|replace (length r) with n by lia; exact K2|exact E|exact B].
    - rewrite dplus. apply Rplus_le_compat_r. eapply Rle_trans; [apply extreme_level; [apply up_irr|apply up_tr]|]. replace (alpha + (1 - alpha) / INR (S n)) with ((alpha * INR n + 1) / INR (S n)) by (rewrite S_INR in *; field; lra).
      unfold Rdiv. apply Rmult_le_compat_r; [left; now apply Rinv_0_lt_compat|]. rewrite S_INR. lra.
  Qed.
  Lemma q3_level n alpha : (1 <= n)%nat -> 0 <= alpha -> draws mean (S n) (fun l => ind (q3_small alpha l)) <= alpha + (2 - alpha) / INR (S n) + draws mean (S n) (fun l => ind (bound_to l)).
  Proof.
    intros Hn Ha. assert (Pn : 0 < INR (S n)) by (apply lt_0_INR; lia). destruct (whole_part (alpha * INR n / 2)) as (k & K1 & K2); [assert (0 <= alpha * INR n) by (apply Rmult_le_pos; [exact Ha|apply pos_INR]); lra|].
    apply (Rle_trans _ (draws mean (S n) (fun l => (ind (extreme up_to k l) + ind (extreme down_to k l)) + ind (bound_to l)))).
    - apply draws_le; [exact Hw|]. intros [|a r] [L _]; [discriminate|]. cbn [length] in L. pose proof (ind_nonneg (extreme up_to k (a :: r))). pose proof (ind_nonneg (extreme down_to k (a :: r))). pose proof (ind_nonneg (bound_to (a :: r))).
      destruct (q3_small alpha (a :: r)) eqn:E; [|cbn [ind]; lra]. destruct (bound_to (a :: r)) eqn:B; [cbn [ind]; lra|].
      destruct (q3_extreme alpha k a r) as [X|X]; [destruct r; [cbn in L; lia|discriminate]|replace (length r) with n by lia; exact K2|exact E|exact B| |]; rewrite X in *; cbn [ind] in *; lra.
    - rewrite dplus. apply Rplus_le_compat_r. rewrite dplus. pose proof (extreme_level up_to n k up_irr up_tr). pose proof (extreme_level down_to n k down_irr down_tr).
      replace (alpha + (2 - alpha) / INR (S n)) with ((alpha * INR n / 2 + 1) / INR (S n) + (alpha * INR n / 2 + 1) / INR (S n)) by (rewrite (S_INR n) in *; field; lra).
      assert (INR (S k) / INR (S n) <= (alpha * INR n / 2 + 1) / INR (S n)) by (unfold Rdiv; apply Rmult_le_compat_r; [left; now apply Rinv_0_lt_compat|rewrite S_INR; lra]). lra.
  Qed.
  Lemma top_level lt n (e : list A -> bool) : (forall a, lt a a = false) -> (forall a b c, lt a b = true -> lt b c = true -> lt a c = true) ->
    (forall a r, length r = n -> length (filter (lt a) r) = O -> e (a :: r) = true) -> / INR (S n) <= draws mean (S n) (fun l => ind (e l)).
  Proof.
    intros Hi Ht He. replace (/ INR (S n)) with (1 / INR (S n)) by (unfold Rdiv; ring). apply rank_below; [exact Hw|exact H1|]. intros l [L _]. unfold ind. rewrite (sumn_count (S n) (fun i => e (pulled i l))).
    change 1 with (INR 1). apply le_INR. assert (Hl : l <> []) by (intros ->; discriminate). pose proof (tops lt Hi Ht l Hl) as T. rewrite L in T.
    eapply Nat.le_trans; [exact T|]. apply filter_smaller. intros q Hq. apply in_seq in Hq. destruct (pulled q l) as [|a r] eqn:E; [discriminate|]. intro Z. apply Nat.eqb_eq in Z. apply He; [|exact Z].
    assert (LP : length (pulled q l) = S n).
    { unfold pulled. destruct (nth_error l q) eqn:X; [|apply nth_error_None in X; lia]. cbn [length]. rewrite app_length, firstn_length, skipn_length. lia. }
    rewrite E in LP. cbn [length] in LP. lia.
  Qed.
  Lemma amid_zero n : (1 <= n)%nat -> / INR (S n) <= draws mean (S n) (fun l => ind (amid_small 0 l)).
  Proof.
    intro Hn. apply (top_level up_to); [apply up_irr|apply up_tr|]. intros a r L Z. cbn [amid_small]. destruct (C57_amid i j (map v r) (v a)) as [_ C]; [destruct r; [cbn in L; lia|discriminate]|]. destruct (C Hij) as (p & E & _ & V). rewrite E.
    rewrite filter_map_length in V. change (fun x : A => below_nan (v a) (v x)) with (up_to a) in V. rewrite Z in V. cbn [INR] in V. destruct (Rle_dec p 0) as [|F]; [reflexivity|]. exfalso. apply F. rewrite V. unfold Rdiv. lra.
  Qed.
  Lemma q3_zero n : (1 <= n)%nat -> / INR (S n) <= draws mean (S n) (fun l => ind (q3_small 0 l)).
  Proof.
    intro Hn. apply (top_level down_to); [apply down_irr|apply down_tr|]. intros a r L Z. cbn [q3_small]. destruct (C57_q3 i j (map v r) (v a)) as [_ C]; [destruct r; [cbn in L; lia|discriminate]|]. destruct (C Hij) as (p & E & _ & V). rewrite E.
    rewrite !filter_map_length in V. change (fun x : A => below_nan (v x) (v a)) with (down_to a) in V. rewrite Z in V. cbn [INR] in V. destruct (Rle_dec p 0) as [|F]; [reflexivity|]. exfalso. apply F. rewrite V.
    assert (Rmin (0 / INR (length (map v r))) (INR (length (filter (fun x => at_least_nan (v x) (v a)) r)) / INR (length (map v r))) <= 0 / INR (length (map v r))) by apply Rmin_l. unfold Rdiv in *. lra.
  Qed.
End test.

(** ** The law of the answers *)
Lemma rprod_mapi_nonneg {A} (l : list A) : forall (f : nat -> A -> R), (forall n x, nth_error l n = Some x -> 0 <= f n x) -> 0 <= rprod (mapi f l).
Proof.
  induction l as [|x l IH]; intros f H; [cbn; lra|]. rewrite mapi_cons. cbn [rprod]. apply Rmult_le_pos; [now apply (H O x)|]. apply (IH (fun n => f (S n))). intros n y E. now apply (H (S n) y).
Qed.
Section model.
  Context (M : nat) (cats : list nat) (N : nat) (probs : list (list (list R))) (HP : rect N (length cats) probs) (HA : answers_as M cats probs).
  Lemma everybody_rect : rect (length (everybody cats N)) (length cats) (everybody cats N).
  Proof. split; [reflexivity|]. apply Forall_forall. intros s Hs. apply repeat_spec in Hs. subst s. unfold all_seen. now rewrite map_length. Qed.
  Lemma everybody_length : length (everybody cats N) = N. Proof. apply repeat_length. Qed.
  Lemma tables_nonneg d : In d (possible_data cats (everybody cats N)) -> 0 <= table_probability (answering probs) d.
  Proof.
    intro Hd. unfold table_probability. apply rprod_mapi_nonneg. intros n row _. unfold answering, likelihood. apply rprod_mapi_nonneg. intros i c _. destruct (answer c) as [k|]; [|lra].
    destruct (nth_error (nth n probs []) i) as [p|] eqn:E; [|rewrite (nth_overflow (nth n probs []) []) by (now apply nth_error_None); destruct k; cbn; lra].
    rewrite (nth_error_nth _ _ [] E). destruct (nth_error probs n) as [r|] eqn:En; [|rewrite (nth_overflow probs []) in E by (now apply nth_error_None); destruct i; discriminate].
    rewrite (nth_error_nth _ _ [] En) in E. assert (X : at2 probs n i = Some p) by (unfold at2; rewrite En; exact E). destruct (HA n i p X) as (_ & _ & Q & _). apply Q.
  Qed.
  Lemma tables_one : over (possible_data cats (everybody cats N)) (table_probability (answering probs)) = 1.
  Proof.
    pose proof (average_const M cats (everybody cats N) probs) as C. rewrite everybody_length in C. specialize (C HP). pose proof everybody_rect as E. rewrite everybody_length in E. specialize (C E HA 1). etransitivity; [|exact C]. unfold on_average, over. f_equal. apply map_ext. intros; ring.
  Qed.
End model.
