(** Ranks of the RankCDF transformation. *)
From Coq Require Import Permutation Sorted.
From Verif Require Import Base BaseFacts RBase RFacts M_Mono M_Lik M_Est M_Stat M_Grid S_Grid P_Mono1 P_Grid1 P_Grid2.
Local Open Scope R_scope.

Definition group_sum (v : R) (w : nat -> R) (o : nat) (s : list R) : R := rsum (mapi_from o (fun k x => if Req_EM_T x v then w k else 0) s).
Lemma group_sum_ranks v s : forall o, StronglySorted Rle s -> 
  group_sum v (fun k => INR (k + 1)) o s = INR (equal_to v s) * INR (o + below v s) + INR (equal_to v s) * (INR (equal_to v s) + 1) / 2.
Proof.
  induction s as [|x s IH]; intros o H.
  - unfold group_sum. cbn. field.
  - inversion H as [|? ? H' F]; subst. unfold group_sum in *. cbn [mapi_from rsum fold_right]. fold (rsum (mapi_from (S o) (fun k x => if Req_EM_T x v then INR (k + 1) else 0) s)).
    rewrite IH by assumption. rewrite below_cons, equal_cons. destruct (Req_EM_T x v) as [->|N].
    + destruct (Rlt_dec v v); [lra|]. rewrite (below_none v s F). rewrite !plus_INR, ?S_INR. cbn [INR]. field.
    + destruct (Rlt_dec x v).
      * rewrite !plus_INR, ?S_INR. cbn [INR]. field.
      * assert (E : equal_to v s = 0%nat).
        { unfold equal_to. rewrite <- (below_none x s F) at 1. unfold below. f_equal. apply filter_ext_in. intros y Hy. rewrite Forall_forall in F. specialize (F y Hy).
          destruct (Req_EM_T y v), (Rlt_dec y x); try reflexivity; lra. }
        rewrite E. cbn. field.
Qed.
Lemma group_sum_count v s : forall o, group_sum v (fun _ => 1) o s = INR (equal_to v s).
Proof.
  induction s as [|x s IH]; intros o; [reflexivity|]. unfold group_sum in *. cbn [mapi_from rsum fold_right]. fold (rsum (mapi_from (S o) (fun k x => if Req_EM_T x v then 1 else 0) s)).
  rewrite IH, equal_cons. destruct (Req_EM_T x v); rewrite plus_INR; cbn [INR]; ring.
Qed.
Lemma mapi_from_map {A B C} (f : nat -> B -> C) (g : A -> B) l : forall o, mapi_from o f (map g l) = mapi_from o (fun k x => f k (g x)) l.
Proof. induction l; intros; cbn; [reflexivity|]. f_equal. apply IHl. Qed.
Lemma mapi_from_ext {A B} (f g : nat -> A -> B) l : forall o, (forall k x, In x l -> f k x = g k x) -> mapi_from o f l = mapi_from o g l.
Proof. induction l; intros o H; cbn; [reflexivity|]. f_equal; [apply H; left; reflexivity|]. apply IHl. intros. apply H. right. assumption. Qed.
Lemma position_inj u g v x : NoDup u -> nth_error u g = Some v -> In x u -> (position x u = g <-> x = v).
Proof.
  intros N G I. pose proof (position_nth x u I) as P. split.
  - intros E. rewrite E in P. congruence.
  - intros ->. eapply NoDup_nth_error; [exact N|apply position_lt; exact I|congruence].
Qed.
Lemma rank_table_nth col g v : nth_error (unique_r (sort_r col)) g = Some v -> nth_error (rank_table col) g = Some (v, average_rank v col).
Proof.
  intros G. unfold rank_table. rewrite nth_error_mapi, G. cbn [option_map]. do 2 f_equal.
  assert (K : forall w, rsum (mapi (fun k h => if (h =? g)%nat then w k else 0) (map (fun x => position x (unique_r (sort_r col))) (sort_r col))) = group_sum v w 0 (sort_r col)).
  { intros w. unfold mapi, group_sum. rewrite mapi_from_map. f_equal. apply mapi_from_ext. intros k x Hx.
    pose proof (position_inj _ g v x (sorted_lt_nodup _ (unique_r_sorted _)) G (proj2 (unique_r_in x _) Hx)) as P.
    destruct (Nat.eqb_spec (position x (unique_r (sort_r col))) g), (Req_EM_T x v); try reflexivity; exfalso; tauto. }
  rewrite !K, group_sum_count, group_sum_ranks by apply sort_r_sorted.
  rewrite (equal_perm v _ _ (sort_r_perm col)), (below_perm v _ _ (sort_r_perm col)). unfold average_rank. cbn [Nat.add].
  assert (E : (0 < equal_to v col)%nat).
  { apply nth_error_In in G. rewrite unique_r_in in G. apply (Permutation_in _ (sort_r_perm col)) in G. unfold equal_to.
    assert (In v (filter (fun y => if Req_EM_T y v then true else false) col)) by (apply filter_In; split; [exact G|destruct (Req_EM_T v v); [reflexivity|congruence]]).
    destruct (filter _ col); [contradiction|cbn; lia]. }
  apply lt_INR in E. cbn [INR] in E. field. lra.
Qed.
Lemma rank_table_length col : length (rank_table col) = length (unique_r (sort_r col)).
Proof. unfold rank_table. apply mapi_length. Qed.
Lemma rank_table_values col : map fst (rank_table col) = unique_r (sort_r col).
Proof.
  apply nth_error_ext. intros g. rewrite nth_error_map. destruct (nth_error (unique_r (sort_r col)) g) as [v|] eqn:E.
  - rewrite (rank_table_nth col g v E). reflexivity.
  - rewrite (proj2 (nth_error_None (rank_table col) g)); [reflexivity|]. rewrite rank_table_length. apply nth_error_None. exact E.
Qed.
Lemma values_in col v : In v (unique_r (sort_r col)) <-> In v col.
Proof. rewrite unique_r_in. split; apply Permutation_in; [|symmetry]; apply sort_r_perm. Qed.
(** First minimal entry. *)
Lemma argmin_from_spec l : forall i bi b (pre : list R), i = length pre -> (bi < i)%nat -> nth bi pre 0 = b -> (forall j, (j < i)%nat -> b <= nth j pre 0) -> (forall j, (j < bi)%nat -> b < nth j pre 0) ->
  let r := argmin_from i bi b l in let full := pre ++ l in
  (r < length full)%nat /\ (forall j, (j < length full)%nat -> nth r full 0 <= nth j full 0) /\ (forall j, (j < r)%nat -> nth r full 0 < nth j full 0).
Proof.
  induction l as [|a l IH]; intros i bi b pre Hi Hb E M F; cbn zeta.
  - cbn [argmin_from]. rewrite app_nil_r, E. split; [lia|]. split; [intros; apply M; lia|exact F].
  - cbn [argmin_from]. replace (pre ++ a :: l) with ((pre ++ [a]) ++ l) by (rewrite <- app_assoc; reflexivity).
    assert (L : length (pre ++ [a]) = S i) by (rewrite app_length; cbn; lia).
    assert (Old : forall j, (j < i)%nat -> nth j (pre ++ [a]) 0 = nth j pre 0) by (intros; apply app_nth1; lia).
    assert (New : nth i (pre ++ [a]) 0 = a) by (rewrite app_nth2, Hi, Nat.sub_diag by lia; reflexivity).
    destruct (Rlt_dec a b) as [H|H]; apply IH; try lia.
    + exact New.
    + intros j Hj. destruct (Nat.eq_dec j i) as [->|]; [rewrite New; lra|]. rewrite Old by lia. specialize (M j ltac:(lia)). lra.
    + intros j Hj. rewrite Old by lia. specialize (M j ltac:(lia)). lra.
    + rewrite Old by lia. exact E.
    + intros j Hj. destruct (Nat.eq_dec j i) as [->|]; [rewrite New; lra|]. rewrite Old by lia. apply M. lia.
    + intros j Hj. rewrite Old by lia. apply F. lia.
Qed.
Lemma argmin_spec l : l <> [] -> exists r, argmin l = Ok r /\ (r < length l)%nat /\ (forall j, (j < length l)%nat -> nth r l 0 <= nth j l 0) /\ (forall j, (j < r)%nat -> nth r l 0 < nth j l 0).
Proof.
  destruct l as [|a l]; [congruence|]. intros _. exists (argmin_from 1 0 a l). split; [reflexivity|].
  apply (argmin_from_spec l 1 0 a [a]); try reflexivity; try lia; intros [|j] Hj; cbn; try lia; lra.
Qed.
(** The fraction is decided by the nearest training value; of two equally near the smaller. *)
Lemma fraction_spec col x : col <> [] -> exists v, rank_fraction col x = Ok (average_rank v col / INR (length col + 1)) /\ In v col /\
  forall w, In w col -> Rabs (v - x) <= Rabs (w - x) /\ (Rabs (v - x) = Rabs (w - x) -> v <= w).
Proof.
  intros Ne. set (u := unique_r (sort_r col)). set (d := map (fun p : R * R => Rabs (fst p - x)) (rank_table col)).
  assert (Ed : d = map (fun v => Rabs (v - x)) u) by (unfold d, u; rewrite <- rank_table_values, map_map; reflexivity).
  assert (Nu : d <> []).
  { rewrite Ed. destruct col as [|c col]; [congruence|]. assert (In c u) by (apply values_in; left; reflexivity). destruct u; [contradiction|discriminate]. }
  assert (Ld : length d = length u) by (rewrite Ed; apply map_length).
  assert (Nd : forall j, (j < length u)%nat -> nth j d 0 = Rabs (nth j u 0 - x)) by (intros j Hj; rewrite Ed; rewrite nth_indep with (d' := Rabs (0 - x)) by (rewrite map_length; exact Hj); apply (map_nth (fun v => Rabs (v - x)))).
  destruct (argmin_spec d Nu) as (r & E & Lr & Min & First). rewrite Ld in *. exists (nth r u 0).
  assert (Gr : nth_error u r = Some (nth r u 0)) by (apply nth_error_nth'; exact Lr).
  split; [|split].
  - unfold rank_fraction. fold d. rewrite E. cbn [bind]. do 2 f_equal. pose proof (rank_table_nth col r _ Gr) as T. rewrite (nth_error_nth _ _ (0, 0) T). reflexivity.
  - apply values_in. apply nth_error_In with r. exact Gr.
  - intros w Hw. apply values_in in Hw. fold u in Hw. apply In_nth with (d := 0) in Hw. destruct Hw as (k & Hk & <-). split.
    + rewrite <- !Nd by assumption. apply Min. exact Hk.
    + intros Eq. destruct (le_lt_dec r k) as [H|H].
      * apply sorted_nth_le; [apply sorted_lt_le, unique_r_sorted|exact H|exact Hk].
      * exfalso. specialize (First k H). rewrite !Nd in First by assumption. lra.
Qed.
Lemma equal_pos v l : In v l -> (1 <= equal_to v l)%nat.
Proof.
  intros I. unfold equal_to. assert (In v (filter (fun y => if Req_EM_T y v then true else false) l)) by (apply filter_In; split; [exact I|destruct (Req_EM_T v v); [reflexivity|congruence]]).
  destruct (filter _ l); [contradiction|cbn; lia].
Qed.
Lemma average_rank_strict v w l : In v l -> In w l -> v < w -> average_rank v l + 1 / 2 <= average_rank w l.
Proof.
  intros Iv Iw H. pose proof (below_lt v w l H) as B. pose proof (equal_pos v l Iv) as Ev. pose proof (equal_pos w l Iw) as Ew.
  apply le_INR in B, Ev, Ew. rewrite plus_INR in B. cbn [INR] in *. unfold average_rank. lra.
Qed.
Lemma below_equal_le v l : (below v l + equal_to v l <= length l)%nat.
Proof. induction l as [|x l IH]; [cbn; lia|]. rewrite below_cons, equal_cons. cbn [length]. destruct (Rlt_dec x v), (Req_EM_T x v); try lia. lra. Qed.
Lemma average_rank_bounds v l : In v l -> 1 <= average_rank v l <= INR (length l).
Proof.
  intros I. pose proof (below_equal_le v l) as B. pose proof (equal_pos v l I) as E. apply le_INR in B, E. rewrite plus_INR in B. cbn [INR] in E. pose proof (pos_INR (below v l)). unfold average_rank. lra.
Qed.
Lemma nearest_mono col x y v w : In v col -> In w col -> x <= y ->
  (forall z, In z col -> Rabs (v - x) <= Rabs (z - x) /\ (Rabs (v - x) = Rabs (z - x) -> v <= z)) ->
  (forall z, In z col -> Rabs (w - y) <= Rabs (z - y) /\ (Rabs (w - y) = Rabs (z - y) -> w <= z)) -> v <= w.
Proof.
  intros Iv Iw H A B. destruct (A w Iw) as [A1 A2]. destruct (B v Iv) as [B1 B2]. destruct (Rle_dec v w) as [|N]; [assumption|exfalso]. apply Rnot_le_lt in N.
  assert (Rabs (v - x) <> Rabs (w - x)) by (intros E; specialize (A2 E); lra).
  revert A1 B1 H0. unfold Rabs. destruct (Rcase_abs (v - x)), (Rcase_abs (w - x)), (Rcase_abs (v - y)), (Rcase_abs (w - y)); intros; lra.
Qed.
Lemma fraction_mono col x y fx fy : rank_fraction col x = Ok fx -> rank_fraction col y = Ok fy -> x <= y -> fx <= fy.
Proof.
  intros Ex Ey H. assert (Ne : col <> []) by (intros ->; discriminate).
  destruct (fraction_spec col x Ne) as (v & Ev & Iv & Mv). destruct (fraction_spec col y Ne) as (w & Ew & Iw & Mw). rewrite Ex in Ev. rewrite Ey in Ew. injection Ev as ->. injection Ew as ->.
  pose proof (nearest_mono col x y v w Iv Iw H Mv Mw) as L. assert (P : 0 < INR (length col + 1)) by (apply lt_0_INR; lia).
  apply Rmult_le_compat_r; [left; apply Rinv_0_lt_compat, P|]. destruct (Req_dec v w) as [->|]; [lra|]. pose proof (average_rank_strict v w col Iv Iw ltac:(lra)). lra.
Qed.
Lemma fraction_training col x : In x col -> rank_fraction col x = Ok (average_rank x col / INR (length col + 1)).
Proof.
  intros I. assert (Ne : col <> []) by (destruct col; [contradiction|discriminate]). destruct (fraction_spec col x Ne) as (v & E & _ & M). rewrite E. destruct (M x I) as [A _].
  replace (x - x) with 0 in A by ring. rewrite Rabs_R0 in A. pose proof (Rabs_pos (v - x)). assert (Z : Rabs (v - x) = 0) by lra. destruct (Req_dec (v - x) 0) as [Z'|Z']; [replace x with v by lra; reflexivity|apply Rabs_no_R0 in Z'; lra].
Qed.
Lemma fraction_bounds col x f : rank_fraction col x = Ok f -> 1 / INR (length col + 1) <= f <= INR (length col) / INR (length col + 1).
Proof.
  intros E. assert (Ne : col <> []) by (intros ->; discriminate). destruct (fraction_spec col x Ne) as (v & E' & I & _). rewrite E in E'. injection E' as ->.
  destruct (average_rank_bounds v col I). assert (P : 0 < INR (length col + 1)) by (apply lt_0_INR; lia).
  split; apply Rmult_le_compat_r; try lra; left; apply Rinv_0_lt_compat, P.
Qed.
