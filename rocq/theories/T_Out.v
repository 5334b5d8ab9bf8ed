(** Outliers are few (C45); flows can be inverted (C40). *)
From Coq Require Import Permutation Sorted.
From Verif Require Import Base BaseFacts RBase RFacts M_Logit M_Mono M_Lik M_Est M_Stat M_Grid M_Scale M_Spline S_Grid S_Scale S_Spline P_Mono1 P_Grid1 P_Grid3 T_Spline.
Local Open Scope R_scope.

Lemma filter_perm {A} (f : A -> bool) l m : Permutation l m -> length (filter f l) = length (filter f m).
Proof. induction 1 as [|x l m _ IH|x y l|l m k _ IH1 _ IH2]; cbn [filter]; [reflexivity|destruct (f x); cbn [length]; lia|destruct (f x), (f y); reflexivity|lia]. Qed.
Lemma filter_none {A} (f : A -> bool) l : (forall x, In x l -> f x = false) -> filter f l = [].
Proof. induction l as [|x l IH]; intro H; [reflexivity|]. cbn [filter]. rewrite (H x) by (now left). apply IH. intros y Hy. apply H. now right. Qed.
Lemma filter_le {A} (f : A -> bool) l : (length (filter f l) <= length l)%nat.
Proof. induction l as [|x l IH]; [reflexivity|]. cbn [filter]. destruct (f x); cbn [length]; lia. Qed.
Lemma filter_front (f : R -> bool) l h : (forall i, (h <= i)%nat -> (i < length l)%nat -> f (nth i l 0) = false) -> (length (filter f l) <= h)%nat.
Proof.
  intro H. rewrite <- (firstn_skipn h l), filter_app, app_length. rewrite (filter_none f (skipn h l)).
  - cbn [length]. pose proof (filter_le f (firstn h l)). pose proof (firstn_le_length h l). rewrite firstn_length in *. lia.
  - intros x Hx. apply (In_nth _ _ 0) in Hx. destruct Hx as (k & Hk & <-). rewrite skipn_length in Hk. specialize (H (h + k)%nat ltac:(lia) ltac:(lia)). revert H.
    clear. revert l. induction h as [|h IH]; intros l; [exact (fun H => H)|]. destruct l as [|y l]; [cbn; now destruct k|]. cbn [Nat.add nth skipn]. apply IH.
Qed.
Lemma filter_back (f : R -> bool) l h : (h < length l)%nat -> (forall i, (i <= h)%nat -> f (nth i l 0) = false) -> (length (filter f l) <= length l - 1 - h)%nat.
Proof.
  intros L H. rewrite <- (firstn_skipn (S h) l) at 1. rewrite filter_app, app_length. rewrite (filter_none f (firstn (S h) l)).
  - cbn [length Nat.add]. pose proof (filter_le f (skipn (S h) l)) as K. rewrite skipn_length in K. lia.
  - intros x Hx. apply (In_nth _ _ 0) in Hx. destruct Hx as (k & Hk & <-). rewrite firstn_length in Hk. specialize (H k ltac:(lia)). rewrite <- H. f_equal.
    assert (Q : (k < S h)%nat) by lia. revert Q. clear. revert k l. generalize (S h) as n. induction n as [|n IH]; intros k l Hk; [lia|]. destruct l as [|y l]; [now destruct k|]. destruct k as [|k]; [reflexivity|]. cbn [firstn nth]. apply IH. lia.
Qed.
Lemma filter_or {A} (f g : A -> bool) l : (length (filter (fun x => f x || g x) l) <= length (filter f l) + length (filter g l))%nat.
Proof. induction l as [|x l IH]; [reflexivity|]. cbn [filter]. destruct (f x), (g x); cbn [orb length]; lia. Qed.
Lemma filter_map_id {A} (f : A -> bool) l : length (filter (fun b => b) (map f l)) = length (filter f l).
Proof. induction l as [|x l IH]; [reflexivity|]. cbn [map filter]. destruct (f x); cbn [length]; congruence. Qed.

(** At most about a quarter of the values is flagged on each side, so about half of them never are. *)
Theorem C45_few_outliers : forall factor col upper lower, col <> [] -> 0 <= factor -> upper || lower = true ->
  exists out, identify_outliers factor col upper lower = Ok out /\ length out = length col /\
    let flagged := length (filter (fun b => b) out) in
    (2 * flagged <= length col + 2)%nat /\ (upper && lower = false -> (4 * flagged <= length col + 2)%nat).
Proof.
  intros factor col upper lower Ne Hf U. destruct (fences_value factor col Ne) as (q1 & q3 & E1 & E3 & O & E).
  destruct (quartile_value 1 col Ne ltac:(lia)) as (v1 & lo1 & hi1 & F1 & A1 & B1 & C1 & D1 & Z1 & _ & R1). rewrite E1 in F1. injection F1 as <-.
  destruct (quartile_value 3 col Ne ltac:(lia)) as (v3 & lo3 & hi3 & F3 & A3 & B3 & C3 & D3 & Z3 & _ & R3). rewrite E3 in F3. injection F3 as <-.
  set (a := q1 - factor * (q3 - q1)) in *. set (b := q3 + factor * (q3 - q1)) in *. assert (W : 0 <= factor * (q3 - q1)) by (apply Rmult_le_pos; lra).
  exists (map (outside upper lower (a, b)) col). split; [|split; [apply map_length|]].
  - unfold identify_outliers, is_outlier. rewrite E. destruct upper, lower; try discriminate U; reflexivity.
  - cbv zeta. rewrite filter_map_id. set (s := sort_r col) in *. assert (Ls : length s = length col) by apply sort_r_length. assert (Ss : StronglySorted Rle s) by apply sort_r_sorted.
    assert (LO : (length (filter (outside false true (a, b)) col) <= hi1)%nat).
    { rewrite <- (filter_perm _ _ _ (sort_r_perm col)). apply filter_front. fold s. intros i Hi Li. destruct (outside false true (a, b) (nth i s 0)) eqn:X; [|reflexivity]. exfalso.
      apply outside_spec in X. destruct X as [[_ X]|[X _]]; [|discriminate]. pose proof (sorted_nth_le s hi1 i Ss Hi Li). unfold a in X. lra. }
    assert (HI : (length (filter (outside true false (a, b)) col) <= length col - 1 - lo3)%nat).
    { rewrite <- (filter_perm _ _ _ (sort_r_perm col)). fold s. rewrite <- Ls. apply filter_back; [lia|]. intros i Hi. destruct (outside true false (a, b) (nth i s 0)) eqn:X; [|reflexivity]. exfalso.
      apply outside_spec in X. destruct X as [[X _]|[_ X]]; [discriminate|]. pose proof (sorted_nth_le s i lo3 Ss Hi ltac:(lia)). unfold b in X. lra. }
    assert (BO : (length (filter (outside true true (a, b)) col) <= length (filter (outside false true (a, b)) col) + length (filter (outside true false (a, b)) col))%nat).
    { etransitivity; [|apply filter_or]. apply Nat.eq_le_incl. f_equal. apply filter_ext. intro x. unfold outside. cbn [andb]. now rewrite orb_false_r. }
    assert (H1 : (4 * hi1 <= length col + 2)%nat).
    { pose proof (Nat.div_mod (1 * (length col - 1)) 4 ltac:(lia)). pose proof (Nat.mod_upper_bound (1 * (length col - 1)) 4 ltac:(lia)). destruct (Nat.eqb_spec ((1 * (length col - 1)) mod 4) 0); lia. }
    assert (H3 : (4 * (length col - 1 - lo3) <= length col + 2)%nat).
    { pose proof (Nat.div_mod (3 * (length col - 1)) 4 ltac:(lia)). pose proof (Nat.mod_upper_bound (3 * (length col - 1)) 4 ltac:(lia)). lia. }
    destruct upper, lower; try discriminate U; (split; [lia|]); intro V; try discriminate V; lia.
Qed.
Print Assumptions C45_few_outliers.
(** Three equal values and a far one: only the far one is flagged. *)
Example C45_few_outliers_nonvacuous : identify_outliers 1 [0; 0; 0; 7] true true = Ok [false; false; false; true].
Proof.
  assert (Q : sort_r [0; 0; 0; 7] = [0; 0; 0; 7]) by (cbn; repeat (match goal with |- context [Rle_dec ?a ?b] => destruct (Rle_dec a b); [try (exfalso; lra)|try (exfalso; lra)] end; cbn); reflexivity).
  unfold identify_outliers, is_outlier, fences, quartile. rewrite Q. cbn -[Rdiv Rmult Rplus Rminus IZR INR outside]. cbn [INR]. unfold outside, rleb. cbn [fst snd andb orb negb].
  repeat match goal with |- context [Rle_dec ?a ?b] => destruct (Rle_dec a b); [try (exfalso; lra)|try (exfalso; lra)] end; reflexivity.
Qed.

(** The flow's forward and inverse maps undo one another at every point. *)
Theorem C40_flow_partial : forall m x y, rqs_wf m -> (flow_forward m x = Ok y <-> flow_inverse m y = Ok x).
Proof.
  intros m x y W. unfold flow_forward, flow_inverse. split; intro H.
  - destruct (C40_total_partial m false x W) as (y' & l & E). rewrite E in H. cbn [bind] in H. injection H as ->. apply (C40_inverse_partial m x y l W) in E. rewrite E. reflexivity.
  - destruct (C40_total_partial m true y W) as (x' & l & E). rewrite E in H. cbn [bind] in H. injection H as ->. replace l with (- (- l)) in E by ring. apply (C40_inverse_partial m x y (- l) W) in E. rewrite E. reflexivity.
Qed.
Print Assumptions C40_flow_partial.
Example C40_flow_partial_nonvacuous : exists y, rqs_wf flow_default /\ flow_forward flow_default 1 = Ok y /\ flow_inverse flow_default y = Ok 1.
Proof.
  destruct (C40_total_partial flow_default false 1 flow_default_wf) as (y & l & E). exists y. assert (F : flow_forward flow_default 1 = Ok y) by (unfold flow_forward; rewrite E; reflexivity).
  split; [apply flow_default_wf|]. split; [exact F|]. now apply (C40_flow_partial flow_default 1 y flow_default_wf).
Qed.
