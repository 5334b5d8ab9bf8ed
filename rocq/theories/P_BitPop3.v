(** Directions in another unit; a population in another order; a small population worked out. *)
From Coq Require Import Permutation Sorted.
From Verif Require Import Base BaseFacts RBase RFacts M_Logit M_Mono M_Lik M_Est M_Stat M_Grid P_Scale1 P_Grid1 P_Grid3 P_Max6 M_BitPop S_BitPop P_BitPop1 P_BitPop2.
Import M_Est List.
Local Open Scope R_scope.

Lemma direction_square total lv j : direction total lv j * direction total lv j = 1.
Proof. unfold direction, invert_multiplier. destruct (Rlt_dec _ _); ring. Qed.
Lemma direction_rises total lv j : rises total lv j -> direction total lv j = 1.
Proof. intro H. unfold direction, invert_multiplier. pose proof (H (repeat 0 lv) (-1) 1 (repeat_length 0 lv) ltac:(lra)). destruct (Rlt_dec _ _); [lra|reflexivity]. Qed.
Lemma direction_falls total lv j : falls total lv j -> direction total lv j = -1.
Proof. intro H. unfold direction, invert_multiplier. pose proof (H (repeat 0 lv) (-1) 1 (repeat_length 0 lv) ltac:(lra)). destruct (Rlt_dec _ _); [reflexivity|lra]. Qed.
Lemma directions_length total lv : length (directions total lv) = lv.
Proof. unfold directions. now rewrite map_length, seq_length. Qed.
Lemma directions_nth total lv j : (j < lv)%nat -> nth j (directions total lv) 0 = direction total lv j.
Proof. intro J. unfold directions. now rewrite nth_map_seq0. Qed.

Section Turn.
  Variables (total total' : list R -> R) (a b : list R) (lv : nat).
  Hypothesis La : length a = lv.
  Hypothesis Lb : length b = lv.
  Hypothesis Na : Forall (fun x => x <> 0) a.
  Hypothesis HT : forall t, length t = lv -> total' (convert a b t) = total t.
  Let back (u : list R) : list R := map (fun j => (nth j u 0 - nth j b 0) / nth j a 0) (seq 0 lv).
  Lemma back_length u : length (back u) = lv. Proof. unfold back. now rewrite map_length, seq_length. Qed.
  Lemma back_convert u : length u = lv -> convert a b (back u) = u.
  Proof.
    intro Lu. unfold convert. apply nth_ext with (d := 0) (d' := 0); [rewrite !zip_with_length, back_length; lia|]. intros j J. rewrite !zip_with_length, back_length in J.
    rewrite nth_zip_with with (da := 0) (db := 0) by (try rewrite zip_with_length, back_length; lia). rewrite nth_zip_with with (da := 0) (db := 0) by (try rewrite back_length; lia).
    unfold back. rewrite nth_map_seq0 by lia. assert (nth j a 0 <> 0) by (rewrite Forall_forall in Na; apply Na; apply nth_In; lia). field. assumption.
  Qed.
  Lemma back_upd j x t : (j < lv)%nat -> length t = lv -> total' (upd j x t) = total (upd j ((x - nth j b 0) / nth j a 0) (back t)).
  Proof.
    intros J Lt. rewrite <- (back_convert (upd j x t)) by (now rewrite upd_length). rewrite HT by apply back_length. f_equal.
    apply nth_ext with (d := 0) (d' := 0); [now rewrite upd_length, !back_length|]. rewrite back_length. intros k K. rewrite nth_upd_R by (now rewrite back_length). unfold back. rewrite !nth_map_seq0 by exact K. rewrite nth_upd_R by lia.
    destruct (k =? j)%nat eqn:E; [|reflexivity]. apply Nat.eqb_eq in E. now subst k.
  Qed.
  Lemma scaled_lt x y c d : x < y -> 0 < c -> (x - d) / c < (y - d) / c.
  Proof. intros H C. unfold Rdiv. apply Rmult_lt_compat_r; [now apply Rinv_0_lt_compat|lra]. Qed.
  Lemma scaled_gt x y c d : x < y -> c < 0 -> (y - d) / c < (x - d) / c.
  Proof. intros H C. replace ((y - d) / c) with ((- y + d) / (- c)) by (field; lra). replace ((x - d) / c) with ((- x + d) / (- c)) by (field; lra). unfold Rdiv. apply Rmult_lt_compat_r; [apply Rinv_0_lt_compat; lra|lra]. Qed.
  Lemma turned_rises j : (j < lv)%nat -> (0 < nth j a 0 /\ rises total lv j) \/ (nth j a 0 < 0 /\ falls total lv j) -> rises total' lv j.
  Proof. intros J H t x y Lt Hxy. rewrite !back_upd by assumption. destruct H as [[C H]|[C H]]; apply H; try apply back_length; [now apply scaled_lt|now apply scaled_gt]. Qed.
  Lemma turned_falls j : (j < lv)%nat -> (0 < nth j a 0 /\ falls total lv j) \/ (nth j a 0 < 0 /\ rises total lv j) -> falls total' lv j.
  Proof. intros J H t x y Lt Hxy. rewrite !back_upd by assumption. destruct H as [[C H]|[C H]]; apply H; try apply back_length; [now apply scaled_lt|now apply scaled_gt]. Qed.
  Lemma turned_direction j : (j < lv)%nat -> rises total lv j \/ falls total lv j -> direction total' lv j = sg (nth j a 0) * direction total lv j.
  Proof.
    intros J H. assert (N : nth j a 0 <> 0) by (rewrite Forall_forall in Na; apply Na; apply nth_In; lia). unfold sg. destruct (Rlt_dec (nth j a 0) 0) as [C|C]; destruct H as [H|H].
    - rewrite (direction_rises _ _ _ H), (direction_falls total' lv j); [ring|]. apply turned_falls; [exact J|]. right. auto.
    - rewrite (direction_falls _ _ _ H), (direction_rises total' lv j); [ring|]. apply turned_rises; [exact J|]. right. auto.
    - rewrite (direction_rises _ _ _ H), (direction_rises total' lv j); [ring|]. apply turned_rises; [exact J|]. left. split; [lra|exact H].
    - rewrite (direction_falls _ _ _ H), (direction_falls total' lv j); [ring|]. apply turned_falls; [exact J|]. left. split; [lra|exact H].
  Qed.
End Turn.

(** ** A population in another order *)
Lemma sort_r_same l m : Permutation l m -> sort_r l = sort_r m.
Proof.
  intro H. apply (sorted_perm_eq Rle); [intros x y; apply Rle_antisym|apply sort_r_sorted|apply sort_r_sorted|].
  rewrite sort_r_perm, H. symmetry. apply sort_r_perm.
Qed.
Lemma quartile_same q l m : Permutation l m -> quartile q l = quartile q m.
Proof.
  intro H. unfold quartile. pose proof (Permutation_length H) as L. rewrite (sort_r_same _ _ H), L. destruct l as [|x l], m as [|y m]; try reflexivity; discriminate.
Qed.
Lemma fences_same f l m : Permutation l m -> fences f l = fences f m.
Proof. intro H. unfold fences. now rewrite !(quartile_same _ _ _ H). Qed.
Lemma limit_same l m smallest : Permutation l m -> l <> [] -> unfin (limit_non_outlier 4 l smallest) = unfin (limit_non_outlier 4 m smallest).
Proof.
  intros H Ne. assert (Ne' : m <> []) by (intros ->; apply Permutation_sym, Permutation_nil in H; congruence).
  destruct (limit_value 4 l smallest Ne ltac:(lra)) as (a & b & x & F & -> & Ix & Wx & Mx). destruct (limit_value 4 m smallest Ne' ltac:(lra)) as (a' & b' & y & F' & -> & Iy & Wy & My).
  rewrite (fences_same _ _ _ H), F' in F. injection F as -> ->. cbn [unfin].
  specialize (Mx y (Permutation_in _ (Permutation_sym H) Iy) Wy). specialize (My x (Permutation_in _ H Ix) Wx). destruct smallest; lra.
Qed.
Lemma column_same j (l m : list (list R)) : Permutation l m -> Permutation (column 0 j l) (column 0 j m).
Proof. apply Permutation_map. Qed.
Lemma range_same mult start p q : length mult = length start -> Permutation p q -> population_range mult start p = population_range mult start q.
Proof.
  intros L H. destruct p as [|r p]; [apply Permutation_nil in H; now subst q|]. assert (Nq : q <> []) by (intros ->; apply Permutation_sym, Permutation_nil in H; discriminate).
  rewrite !range_value by (assumption || discriminate). f_equal. apply map_ext. intro j. set (s := zip_with Rmult start mult). pose proof (Permutation_map (adjust mult start) H) as HA.
  set (P := map (adjust mult start) (r :: p)) in *. set (Q := map (adjust mult start) q) in *. assert (NP : P <> []) by discriminate.
  assert (C : coupled (length s) P s = coupled (length s) Q s).
  { unfold coupled. generalize (seq 0 (length s)). intro I. induction I as [|k I IH]; [reflexivity|]. cbn [existsb]. rewrite IH. f_equal. unfold is_outlier. now rewrite (fences_same _ _ _ (column_same k _ _ HA)). }
  f_equal.
  - unfold low. rewrite C. now rewrite (limit_same _ _ true (column_same j _ _ HA) (column_some j P NP)).
  - unfold high. apply (limit_same _ _ false (column_same j _ _ HA) (column_some j P NP)).
Qed.
Lemma medians_same mult start p q : Permutation p q -> population_medians mult start p = population_medians mult start q.
Proof.
  intro H. unfold population_medians. apply map_ext. intro j. pose proof (column_same j _ _ (Permutation_map (adjust mult start) H)) as HC. unfold median. now rewrite (sort_r_same _ _ HC), (Permutation_length HC).
Qed.

(** ** The population 0, 1 *)
Lemma sort_01 : sort_r [0; 1] = [0; 1].
Proof. cbn. unfold insert_r. destruct (Rle_dec 0 1); [reflexivity|lra]. Qed.
Lemma fences_01 : fences 4 [0; 1] = Ok (- (7 / 4), 11 / 4).
Proof. unfold fences, quartile. rewrite sort_01. cbn. f_equal. f_equal; lra. Qed.
Lemma limit_01 smallest : limit_non_outlier 4 [0; 1] smallest = Ok (Fin (if (smallest : bool) then 0 else 1)).
Proof.
  destruct (limit_value 4 [0; 1] smallest ltac:(discriminate) ltac:(lra)) as (a & b & x & F & E & I & _ & M). rewrite E, fences_01 in *. injection F as <- <-. do 2 f_equal.
  pose proof (M 0 ltac:(now left) ltac:(lra)) as M0. pose proof (M 1 ltac:(right; now left) ltac:(lra)) as M1. cbn [In] in I. destruct smallest; destruct I as [I|[I|[]]]; lra.
Qed.
Lemma outlier_01 s : outlying (is_outlier 4 [s] [0; 1] true true) = true <-> s < - (7 / 4) \/ 11 / 4 < s.
Proof. unfold is_outlier. rewrite fences_01. cbn [negb andb bind map outlying existsb]. rewrite orb_false_r, outside_spec. tauto. Qed.
