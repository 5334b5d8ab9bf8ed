(** Interpolation and the quantile transformation. *)
From Coq Require Import Permutation Sorted.
From Verif Require Import Base BaseFacts RBase RFacts M_Mono M_Lik M_Est M_Stat M_Grid S_Grid P_Mono1 P_Stat6 P_Grid1.
Local Open Scope R_scope.

Lemma points_perm xs ys : Permutation (sort_points xs ys) (combine xs ys).
Proof. apply sort_by_perm. Qed.
Lemma points_sorted xs ys : StronglySorted Rle (map fst (sort_points xs ys)).
Proof.
  apply sorted_map. eapply sorted_weaken; [|apply (sort_by_sorted (fun p q : R * R => rleb (fst p) (fst q)))].
  - cbn. intros p q H. unfold rleb in H. destruct (Rle_dec (fst p) (fst q)); [assumption|discriminate].
  - intros; apply rleb_total; assumption.
  - intros; eapply rleb_trans; eassumption.
Qed.
Lemma sorted_nodup_lt l : StronglySorted Rle l -> NoDup l -> StronglySorted Rlt l.
Proof.
  induction 1 as [|x l S IH F]; intros N; constructor; inversion N as [|x' l' N1 N2]; subst; [apply IH; exact N2|].
  apply Forall_forall. intros y Hy. rewrite Forall_forall in F. specialize (F y Hy). destruct (Req_EM_T x y) as [->|]; [contradiction|lra].
Qed.
Lemma points_strict xs ys : length xs = length ys -> NoDup xs -> StronglySorted Rlt (map fst (sort_points xs ys)).
Proof.
  intros L N. apply sorted_nodup_lt; [apply points_sorted|]. apply (Permutation_NoDup (l := xs)); [|exact N]. rewrite points_perm, map_fst_combine by exact L. reflexivity.
Qed.
Lemma points_length xs ys : length xs = length ys -> length (sort_points xs ys) = length xs.
Proof. intros L. rewrite (Permutation_length (points_perm xs ys)), combine_length. lia. Qed.

Lemma ctrue_cons (b : bool) l : ctrue (b :: l) = ((if b then 1 else 0) + ctrue l)%nat.
Proof. unfold ctrue. cbn. destruct b; reflexivity. Qed.
Lemma searchsorted_spec l v : StronglySorted Rle l ->
  (searchsorted l v <= length l)%nat /\ (forall i, (i < searchsorted l v)%nat -> nth i l 0 < v) /\ (forall i, (searchsorted l v <= i)%nat -> (i < length l)%nat -> v <= nth i l 0).
Proof.
  induction 1 as [|x l S (A & B & C) F]; [unfold searchsorted; cbn; split; [lia|]; split; intros; lia|].
  unfold searchsorted. cbn [map]. rewrite ctrue_cons. fold (searchsorted l v). destruct (Rle_dec v x) as [L|L].
  - rewrite rleb_true by exact L. cbn [negb]. assert (Z : searchsorted l v = 0%nat).
    { destruct (searchsorted l v) eqn:E; [reflexivity|]. exfalso. specialize (B 0%nat ltac:(lia)). destruct l as [|y l]; [cbn in A; lia|]. cbn in B. inversion F; subst. lra. }
    rewrite Z. cbn [Nat.add length]. split; [lia|]. split; [intros; lia|]. intros [|i] _ Hi; cbn [nth]; [exact L|].
    rewrite Forall_forall in F. assert (I : In (nth i l 0) l) by (apply nth_In; lia). specialize (F _ I). lra.
  - rewrite rleb_false by lra. cbn [negb length]. split; [lia|]. split.
    + intros [|i] Hi; cbn [nth]; [lra|]. apply B. lia.
    + intros [|i] Hi Hl; [lia|]. cbn [nth]. apply C; lia.
Qed.

Definition interp_value (sx sy : list R) (v : R) : result fl :=
  if rleb (nth 0 sx 0) v && rleb v (nth (length sx - 1) sx 0) then interp_inside sx sy v else interp_outside sx sy v.
Lemma fmul_fin x y : fmul (Some (Fin x)) (Some (Fin y)) = Some (Fin (x * y)). Proof. reflexivity. Qed.
Lemma fadd_fin x y : fadd (Some (Fin x)) (Some (Fin y)) = Some (Fin (x + y)). Proof. reflexivity. Qed.

Lemma interp_cell sx sy v : StronglySorted Rlt sx -> length sy = length sx -> (2 <= length sx)%nat ->
  exists k, (k + 1 < length sx)%nat /\ (k = 0%nat \/ nth k sx 0 <= v) /\ ((k + 2)%nat = length sx \/ v <= nth (k + 1) sx 0) /\
    interp_value sx sy v = Ok (Some (Fin (line (nth k sx 0) (nth k sy 0) (nth (k + 1) sx 0) (nth (k + 1) sy 0) v))).
Proof.
  intros SS L N. set (n := length sx) in *. assert (D : forall i j, (i < j)%nat -> (j < n)%nat -> nth i sx 0 < nth j sx 0) by (intros; apply (sorted_nth Rlt); assumption).
  unfold interp_value, line. fold n. destruct (Rlt_le_dec v (nth 0 sx 0)) as [V0|V0]; [|destruct (Rlt_le_dec (nth (n - 1) sx 0) v) as [V1|V1]].
  - rewrite rleb_false by exact V0. cbn [andb]. exists 0%nat. split; [lia|]. split; [left; reflexivity|]. pose proof (D 0 1 ltac:(lia) ltac:(lia))%nat as D1.
    split; [right; cbn [Nat.add]; lra|]. unfold interp_outside. fold n. destruct (Nat.ltb_spec n 2); [lia|]. destruct (Rlt_dec v (nth 0 sx 0)); [|contradiction].
    unfold fdivr. rewrite fdiv_fin by lra. rewrite fmul_fin, fadd_fin. reflexivity.
  - rewrite rleb_true by exact V0. rewrite rleb_false by exact V1. cbn [andb]. exists (n - 2)%nat. pose proof (D (n - 2) (n - 1) ltac:(lia) ltac:(lia))%nat as D1.
    split; [lia|]. split; [right; lra|]. split; [left; lia|]. unfold interp_outside. fold n. destruct (Nat.ltb_spec n 2); [lia|]. destruct (Rlt_dec v (nth 0 sx 0)); [lra|].
    unfold fdivr. rewrite fdiv_fin by lra. rewrite fmul_fin, fadd_fin. replace (n - 2 + 1)%nat with (n - 1)%nat by lia. do 3 f_equal. field. lra.
  - rewrite !rleb_true by assumption. cbn [andb]. unfold interp_inside. destruct (searchsorted_spec sx v (sorted_lt_le _ SS)) as (A & B & C). set (m := searchsorted sx v) in *. fold n in A, C.
    assert (M : (m < n)%nat). { destruct (Nat.eq_dec m n) as [E|]; [|lia]. specialize (B (n - 1)%nat ltac:(lia)). lra. }
    rewrite (nth_error_nth_lt sx m 0) by exact M. rewrite (nth_error_nth_lt sy m 0) by (rewrite L; exact M).
    destruct m as [|m'] eqn:Em.
    + assert (Ev : v = nth 0 sx 0). { specialize (C 0%nat ltac:(lia) ltac:(lia)). lra. }
      exists 0%nat. split; [lia|]. split; [left; reflexivity|]. pose proof (D 0 1 ltac:(lia) ltac:(lia))%nat as D1. split; [right; cbn [Nat.add]; lra|].
      cbn [before]. fold n. rewrite L. pose proof (D 0 (n - 1) ltac:(lia) ltac:(lia))%nat as D2. unfold flerp, fdivr. rewrite fdiv_fin by lra. rewrite fmul_fin, fadd_fin. rewrite Ev. do 3 f_equal. cbn [Nat.add]. field. lra.
    + exists m'. replace (m' + 1)%nat with (S m') by lia. pose proof (D m' (S m') ltac:(lia) ltac:(lia)) as D1. split; [lia|]. split; [right; left; apply B; lia|]. split; [right; apply C; lia|].
      cbn [before]. unfold flerp, fdivr. rewrite fdiv_fin by lra. rewrite fmul_fin, fadd_fin. do 3 f_equal. field. lra.
Qed.

Lemma interp_pointwise news xs ys : length xs = length ys -> (2 <= length xs)%nat ->
  interp news xs ys = mapM (interp_value (map fst (sort_points xs ys)) (map snd (sort_points xs ys))) news.
Proof.
  intros L N. unfold interp. rewrite L, Nat.eqb_refl. set (pts := sort_points xs ys). assert (E : length pts = length xs) by (apply points_length; exact L).
  destruct (map fst pts) as [|x0 sx] eqn:F; [apply (f_equal (@length R)) in F; rewrite map_length in F; cbn in F; lia|]. reflexivity.
Qed.

(** The cell of a point is determined up to the common value at the joints. *)
Lemma line_left a ya b yb : a <> b -> line a ya b yb a = ya.
Proof. intros. unfold line. field. lra. Qed.
Lemma line_right a ya b yb : a <> b -> line a ya b yb b = yb.
Proof. intros. unfold line. field. lra. Qed.
Lemma line_mono a ya b yb v w : a < b -> ya <= yb -> v <= w -> line a ya b yb v <= line a ya b yb w.
Proof.
  intros D Y V. unfold line. assert (S : 0 <= (yb - ya) / (b - a)) by (apply Rmult_le_pos; [lra|left; apply Rinv_0_lt_compat; lra]). nra.
Qed.
Section Cells.
  Variables (x y : nat -> R) (n : nat).
  Hypothesis D : forall i j, (i < j)%nat -> (j < n)%nat -> x i < x j.
  Definition cell (k : nat) (v : R) : Prop := (k + 1 < n)%nat /\ (k = 0%nat \/ x k <= v) /\ ((k + 2)%nat = n \/ v <= x (k + 1)%nat).
  Definition piece (k : nat) (v : R) : R := line (x k) (y k) (x (k + 1)%nat) (y (k + 1)%nat) v.
  Lemma cell_value k m v : cell k v -> cell m v -> piece k v = piece m v.
  Proof.
    assert (W : forall k m, (k < m)%nat -> cell k v -> cell m v -> piece k v = piece m v).
    { clear k m. intros k m H (A1 & A2 & A3) (B1 & B2 & B3). destruct A3 as [A3|A3]; [lia|]. destruct B2 as [B2|B2]; [lia|].
      destruct (Nat.eq_dec (k + 1) m) as [<-|].
      - assert (E : v = x (k + 1)%nat) by lra. rewrite E. unfold piece. pose proof (D k (k + 1) ltac:(lia) ltac:(lia))%nat. pose proof (D (k + 1) (k + 1 + 1) ltac:(lia) ltac:(lia))%nat.
        rewrite line_right, line_left by lra. reflexivity.
      - pose proof (D (k + 1) m ltac:(lia) ltac:(lia))%nat. lra. }
    intros A B. destruct (Nat.lt_total k m) as [H|[->|H]]; [apply W; assumption|reflexivity|symmetry; apply W; assumption].
  Qed.
  Lemma cell_mono k m v w : (forall i j, (i <= j)%nat -> (j < n)%nat -> y i <= y j) -> cell k v -> cell m w -> v <= w -> piece k v <= piece m w.
  Proof.
    intros Y A B V. destruct (Nat.lt_total k m) as [H|[->|H]].
    - destruct A as (A1 & A2 & A3), B as (B1 & B2 & B3). destruct A3 as [A3|A3]; [lia|]. destruct B2 as [B2|B2]; [lia|].
      unfold piece. apply Rle_trans with (y (k + 1)%nat).
      + rewrite <- (line_right (x k) (y k) (x (k + 1)%nat) (y (k + 1)%nat)) at 2 by (pose proof (D k (k + 1) ltac:(lia) ltac:(lia))%nat; lra).
        apply line_mono; [apply D; lia|apply Y; lia|exact A3].
      + apply Rle_trans with (y m); [apply Y; lia|].
        rewrite <- (line_left (x m) (y m) (x (m + 1)%nat) (y (m + 1)%nat)) at 1 by (pose proof (D m (m + 1) ltac:(lia) ltac:(lia))%nat; lra).
        apply line_mono; [apply D; lia|apply Y; lia|exact B2].
    - destruct A as (A1 & A2 & A3). apply line_mono; [apply D; lia|apply Y; lia|exact V].
    - assert (E : v = w).
      { destruct A as (A1 & A2 & A3), B as (B1 & B2 & B3). destruct A2 as [A2|A2]; [lia|]. destruct B3 as [B3|B3]; [lia|].
        destruct (Nat.eq_dec (m + 1) k) as [<-|]; [lra|]. pose proof (D (m + 1) k ltac:(lia) ltac:(lia))%nat. lra. }
      subst w. right. apply cell_value; assumption.
  Qed.
End Cells.

Lemma nth_fst (l : list (R * R)) i : nth i (map fst l) 0 = fst (nth i l (0, 0)).
Proof. apply (map_nth fst l (0, 0) i). Qed.
Lemma nth_snd (l : list (R * R)) i : nth i (map snd l) 0 = snd (nth i l (0, 0)).
Proof. apply (map_nth snd l (0, 0) i). Qed.
(** ** Statement-level facts *)
Section Points.
  Variables (xs ys : list R).
  Hypothesis L : length xs = length ys.
  Hypothesis N : (2 <= length xs)%nat.
  Hypothesis ND : NoDup xs.
  Let pts := sort_points xs ys.
  Let x i := nth i (map fst pts) 0.
  Let y i := nth i (map snd pts) 0.
  Let n := length xs.
  Lemma pts_length : length pts = n. Proof. apply points_length. exact L. Qed.
  Lemma pts_D i j : (i < j)%nat -> (j < n)%nat -> x i < x j.
  Proof. intros. apply (sorted_nth Rlt); [apply points_strict; assumption|assumption|rewrite map_length; fold pts; rewrite pts_length; assumption]. Qed.
  Lemma pts_in i : (i < n)%nat -> In (x i, y i) (combine xs ys).
  Proof.
    intros H. apply (Permutation_in _ (points_perm xs ys)). fold pts. unfold x, y. rewrite nth_fst, nth_snd.
    rewrite <- surjective_pairing. apply nth_In. rewrite pts_length. exact H.
  Qed.
  Lemma pts_index a b : In (a, b) (combine xs ys) -> exists i, (i < n)%nat /\ x i = a /\ y i = b.
  Proof.
    intros H. apply (Permutation_in _ (Permutation_sym (points_perm xs ys))) in H. fold pts in H. apply (In_nth _ _ (0, 0)) in H. destruct H as (i & Hi & E). exists i. rewrite pts_length in Hi.
    split; [exact Hi|]. unfold x, y. rewrite nth_fst, nth_snd. rewrite E. split; reflexivity.
  Qed.
  Definition F (v : R) : result fl := interp_value (map fst pts) (map snd pts) v.
  Lemma F_cell v : exists k, cell x n k v /\ F v = Ok (Some (Fin (piece x y k v))).
  Proof.
    destruct (interp_cell (map fst pts) (map snd pts) v) as (k & A & B & C & E).
    - apply points_strict; assumption.
    - rewrite !map_length. reflexivity.
    - rewrite map_length, pts_length. exact N.
    - rewrite map_length, pts_length in A, C. exists k. split; [split; [exact A|split; assumption]|exact E].
  Qed.
  Lemma F_of_cell k v : cell x n k v -> F v = Ok (Some (Fin (piece x y k v))).
  Proof. intros H. destruct (F_cell v) as (m & Hm & E). rewrite E. do 3 f_equal. apply (cell_value x y n pts_D); assumption. Qed.
  (** Between two neighbouring points, and beyond the outermost ones, the line through the two points. *)
  Lemma F_line a ya b yb v : In (a, ya) (combine xs ys) -> In (b, yb) (combine xs ys) -> a < b -> (forall c, In c xs -> c <= a \/ b <= c) ->
    (a <= v \/ (forall c, In c xs -> a <= c)) -> (v <= b \/ (forall c, In c xs -> c <= b)) -> F v = Ok (Some (Fin (line a ya b yb v))).
  Proof.
    intros Ha Hb AB Adj Va Vb. destruct (pts_index a ya Ha) as (i & Hi & <- & <-). destruct (pts_index b yb Hb) as (j & Hj & <- & <-).
    assert (IN : forall k, (k < n)%nat -> In (x k) xs) by (intros k Hk; eapply in_combine_l; apply pts_in; exact Hk).
    assert (IJ : (i < j)%nat). { destruct (Nat.lt_total i j) as [|[->|H]]; [assumption|lra|]. pose proof (pts_D j i H Hi). lra. }
    assert (E : j = (i + 1)%nat).
    { destruct (Nat.eq_dec j (i + 1)); [assumption|]. exfalso. pose proof (pts_D i (i + 1) ltac:(lia) ltac:(lia)). pose proof (pts_D (i + 1) j ltac:(lia) ltac:(lia)).
      destruct (Adj (x (i + 1)%nat) (IN (i + 1)%nat ltac:(lia))); lra. }
    subst j. apply F_of_cell. split; [exact Hj|]. split.
    - destruct Va as [Va|Va]; [right; exact Va|]. destruct i as [|i]; [left; reflexivity|]. exfalso. pose proof (pts_D 0 (S i) ltac:(lia) ltac:(lia)). pose proof (Va (x 0%nat) (IN 0%nat ltac:(lia))). lra.
    - destruct Vb as [Vb|Vb]; [right; exact Vb|]. destruct (Nat.eq_dec (i + 2) n); [left; assumption|]. exfalso. pose proof (pts_D (i + 1) (i + 2) ltac:(lia) ltac:(lia)). pose proof (Vb (x (i + 2)%nat) (IN (i + 2)%nat ltac:(lia))). lra.
  Qed.
  Lemma F_point a ya : In (a, ya) (combine xs ys) -> F a = Ok (Some (Fin ya)).
  Proof.
    intros Ha. destruct (pts_index a ya Ha) as (i & Hi & <- & <-). unfold n in *. destruct (Nat.eq_dec (i + 1) (length xs)) as [Z|Z].
    - destruct i as [|i]; [lia|]. pose proof (pts_D i (S i) ltac:(lia) ltac:(lia)) as D. rewrite (F_of_cell i).
      + unfold piece. replace (i + 1)%nat with (S i) by lia. rewrite line_right by lra. reflexivity.
      + unfold cell. unfold n. replace (i + 1)%nat with (S i) by lia. split; [lia|]. split; [right; lra|right; lra].
    - pose proof (pts_D i (i + 1) ltac:(lia) ltac:(lia)) as D. rewrite (F_of_cell i).
      + unfold piece. rewrite line_left by lra. reflexivity.
      + unfold cell. unfold n. split; [lia|]. split; [right; lra|right; lra].
  Qed.
  Lemma F_mono v w : (forall a ya b yb, In (a, ya) (combine xs ys) -> In (b, yb) (combine xs ys) -> a <= b -> ya <= yb) -> v <= w ->
    exists p q, F v = Ok (Some (Fin p)) /\ F w = Ok (Some (Fin q)) /\ p <= q.
  Proof.
    intros Y V. destruct (F_cell v) as (k & Hk & Ek). destruct (F_cell w) as (m & Hm & Em). do 2 eexists. split; [exact Ek|]. split; [exact Em|].
    apply (cell_mono x y n pts_D); try assumption. intros i j Hij Hj. destruct (Nat.eq_dec i j) as [->|]; [lra|]. apply (Y (x i) (y i) (x j) (y j)); [apply pts_in; lia|apply pts_in; lia|]. left. apply pts_D; lia.
  Qed.
End Points.

(** ** Ranks *)
Lemma filter_perm_length {A} (f : A -> bool) l m : Permutation l m -> length (filter f l) = length (filter f m).
Proof. induction 1; cbn; auto; [destruct (f x); cbn; auto|destruct (f x), (f y); reflexivity|congruence]. Qed.
Lemma below_perm v l m : Permutation l m -> below v l = below v m. Proof. apply filter_perm_length. Qed.
Lemma equal_perm v l m : Permutation l m -> equal_to v l = equal_to v m. Proof. apply filter_perm_length. Qed.
Lemma below_cons v x l : below v (x :: l) = ((if Rlt_dec x v then 1 else 0) + below v l)%nat.
Proof. unfold below. cbn [filter]. destruct (Rlt_dec x v); reflexivity. Qed.
Lemma equal_cons v x l : equal_to v (x :: l) = ((if Req_EM_T x v then 1 else 0) + equal_to v l)%nat.
Proof. unfold equal_to. cbn [filter]. destruct (Req_EM_T x v); reflexivity. Qed.
Lemma below_none v l : Forall (fun x => v <= x) l -> below v l = 0%nat.
Proof. induction 1 as [|x l H _ IH]; [reflexivity|]. rewrite below_cons, IH. destruct (Rlt_dec x v); [lra|reflexivity]. Qed.
Lemma rank_bounds s k v : StronglySorted Rle s -> nth_error s k = Some v -> (below v s <= k)%nat /\ (k < below v s + equal_to v s)%nat.
Proof.
  intros S. revert k; induction S as [|x s S IH F]; intros [|k] H; try discriminate; cbn [nth_error] in H.
  - injection H as <-. rewrite below_cons, equal_cons, (below_none x s) by exact F. destruct (Rlt_dec x x); [lra|]. destruct (Req_EM_T x x); [lia|congruence].
  - destruct (IH k H) as [A B]. rewrite below_cons, equal_cons. assert (XV : x <= v) by (rewrite Forall_forall in F; apply F; eapply nth_error_In; exact H).
    destruct (Rlt_dec x v); [destruct (Req_EM_T x v); [lra|lia]|]. destruct (Req_EM_T x v); [|lra]. subst v.
    assert (Z : below x s = 0%nat) by (apply below_none; exact F). rewrite Z in *. lia.
Qed.
Lemma argsort_r_perm l : Permutation (argsort_r l) (seq 0 (length l)).
Proof. apply sort_indexed_indices. Qed.
Lemma argsort_r_length l : length (argsort_r l) = length l.
Proof. rewrite (Permutation_length (argsort_r_perm l)), seq_length. reflexivity. Qed.
Lemma ranks_length l : length (ranks l) = length l.
Proof. unfold ranks. rewrite argsort_length, argsort_r_length. reflexivity. Qed.
Lemma ranks_spec l i v : nth_error l i = Some v -> exists k, nth_error (ranks l) i = Some k /\ (below v l <= k)%nat /\ (k < below v l + equal_to v l)%nat /\ nth_error (map fst (sort_indexed rleb l)) k = Some v.
Proof.
  intros H. assert (Hi : (i < length l)%nat) by (apply nth_error_Some; rewrite H; discriminate).
  destruct (argsort_inverse (argsort_r l) i) as (k & E & G).
  - rewrite argsort_r_length. apply argsort_r_perm.
  - rewrite argsort_r_length. exact Hi.
  - exists k. split; [exact E|]. unfold argsort_r in G. rewrite nth_error_map in G. destruct (nth_error (sort_indexed rleb l) k) as [[w j]|] eqn:Q; [|discriminate]. cbn in G. injection G as ->.
    pose proof (nth_error_In _ _ Q) as I. apply sort_indexed_in in I. rewrite H in I. injection I as <-.
    assert (QV : nth_error (map fst (sort_indexed rleb l)) k = Some v) by (rewrite nth_error_map, Q; reflexivity).
    apply (proj1 (and_assoc _ _ _)). split; [|exact QV]. rewrite <- (below_perm v _ _ (sort_indexed_values rleb l)), <- (equal_perm v _ _ (sort_indexed_values rleb l)). apply rank_bounds; [|exact QV].
    apply sorted_map. eapply sorted_weaken; [|apply (sort_indexed_sorted rleb rleb_total rleb_trans)]. cbn. intros p q H1. unfold rleb in H1. destruct (Rle_dec (fst p) (fst q)); [assumption|discriminate].
Qed.
Lemma below_lt v w l : v < w -> (below v l + equal_to v l <= below w l)%nat.
Proof.
  intros H. induction l as [|x l IH]; [cbn; lia|]. rewrite !below_cons, equal_cons. destruct (Rlt_dec x v), (Req_EM_T x v), (Rlt_dec x w); try lra; lia.
Qed.
Lemma ranks_perm l : Permutation (ranks l) (seq 0 (length l)).
Proof. unfold ranks, argsort_n. rewrite sort_indexed_indices, argsort_r_length. reflexivity. Qed.
Lemma equal_nodup v l : NoDup l -> In v l -> equal_to v l = 1%nat.
Proof.
  induction 1 as [|x l N _ IH]; [intros []|]. intros [->|H].
  - rewrite equal_cons. destruct (Req_EM_T v v); [|congruence]. assert (Z : equal_to v l = 0%nat).
    { clear IH e. induction l as [|y l IH]; [reflexivity|]. rewrite equal_cons. destruct (Req_EM_T y v) as [->|]; [exfalso; apply N; left; reflexivity|]. apply IH. intros I. apply N. right. exact I. }
    lia.
  - rewrite equal_cons, IH by exact H. destruct (Req_EM_T x v) as [->|]; [contradiction|reflexivity].
Qed.
Lemma sorted_map_inv {A B} (f : A -> B) (P : B -> B -> Prop) l : StronglySorted P (map f l) -> StronglySorted (fun x y => P (f x) (f y)) l.
Proof.
  induction l as [|a l IH]; intros H; [constructor|]. inversion H as [|? ? H1 H2]; subst. constructor; [apply IH; exact H1|]. rewrite Forall_forall in *. intros x Hx. apply H2. apply in_map. exact Hx.
Qed.
Lemma sorted_perm_eq' (l m : list (R * R)) : StronglySorted Rlt (map fst l) -> StronglySorted Rlt (map fst m) -> Permutation l m -> l = m.
Proof.
  intros A B P. apply (sorted_perm_eq (fun p q => fst p < fst q)); [intros; lra| | |exact P]; apply (sorted_map_inv fst Rlt); assumption.
Qed.
