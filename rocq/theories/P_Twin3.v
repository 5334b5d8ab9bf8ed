(** Lemmas: exchangeable parameters of the logistic models. *)
From Coq Require Import Permutation.
From Verif Require Import Base BaseFacts RBase RFacts M_Data M_CV M_Logit M_Lik M_Est M_Stat M_Train M_Mix M_Quad M_Adam P_Data P_Logit P_Logit3 P_Est1 P_Est2 P_Est3 P_Stat4 P_Sym1 P_Sym2 P_Sym3 P_Sym4 P_Twin1 P_Twin2 S_Logit S_Lik S_Est S_Sym S_Twin.
Import List.
Local Open Scope R_scope.

(** ** Where the parameters are *)
Definition n_slopes (x : irt) : nat := match x with Opl _ => 0%nat | _ => ctrue (concat (relations x)) end.
Definition n_intercepts (x : irt) : nat := match x with Opl m => length (opl_b m) | Tpl m => length (tpl_b m) | Thpl m => length (thpl_b m) | Gpc m | Grm m => length (p_b m) | Nrm m => length (nrm_b m) end.
Definition slope_at (x : irt) (i d : nat) : nat := place (relations x) i d.
Definition intercept_at (x : irt) (i k : nat) : nat := match x with Gpc m => (n_slopes x + spot (p_cats m) i k)%nat | _ => (n_slopes x + i)%nat end.
Definition guessing_at (x : irt) (i : nat) : nat := (n_slopes x + n_intercepts x + i)%nat.
(** Item [i] has slope [d], intercept [k], a guessing parameter. *)
Definition has_slope (x : irt) (i d : nat) : Prop := match x with Opl _ => False | _ => nth d (nth i (relations x) []) false = true end.
Definition has_intercept (x : irt) (i k : nat) : Prop := match x with Gpc m => (1 <= k < nth i (p_cats m) O)%nat | _ => (i < length (cats_of x))%nat /\ k = O end.
Definition has_guessing (x : irt) (i : nat) : Prop := match x with Thpl _ => (i < length (cats_of x))%nat | _ => False end.

Ltac by_model x := unfold guessing_at, slope_at in *; destruct x as [m|m|m|m|m|m]; cbn [plain_model well_formed parameters with_parameters n_slopes n_intercepts slope_at intercept_at guessing_at has_slope has_intercept has_guessing slope_of intercept_of guessing_of relations cats_of] in *; try contradiction.

Lemma nth_first a (l : list R) j : (j < a)%nat -> nth j (firstn a l) 0 = nth j l 0.
Proof. revert l j; induction a as [|a IH]; intros [|y l] [|j] Q; try reflexivity; try lia. cbn. apply IH. lia. Qed.
Lemma nth_rest a (l : list R) j : nth j (skipn a l) 0 = nth (a + j) l 0.
Proof. revert l; induction a as [|a IH]; intros [|y l]; try reflexivity; [destruct j; reflexivity|]. cbn. apply IH. Qed.

Section Places.
Variables (x : irt) (p : list R).
Hypothesis plain : plain_model x.
Hypothesis wf : well_formed x.
Hypothesis len : length p = length (parameters x).

Lemma shape_of : (n_slopes x + n_intercepts x <= length p)%nat /\ match x with Thpl m => length p = (n_slopes x + n_intercepts x + length (thpl_g m))%nat | _ => length p = (n_slopes x + n_intercepts x)%nat end.
Proof. by_model x; rewrite ?app_length in len. - lia. - destruct wf as ((_ & _ & W & _) & _). rewrite W in len. lia. - destruct wf as ((_ & _ & W & _) & _). rewrite W in len. lia. - destruct wf as ((_ & _ & _ & _ & W & _) & _). rewrite W in len. lia. Qed.
Lemma slope_at_lt i d : has_slope x i d -> (slope_at x i d < n_slopes x)%nat.
Proof. intro H. destruct x; cbn [has_slope] in H; try contradiction; now apply place_lt. Qed.
Lemma intercept_at_in i k : has_intercept x i k -> (n_slopes x <= intercept_at x i k < n_slopes x + n_intercepts x)%nat.
Proof.
  intro H. by_model x; try (destruct H as [H ->]; rewrite repeat_length in H).
  - destruct wf. lia.
  - destruct wf as ((_ & _ & _ & W) & _). lia.
  - destruct wf as ((_ & _ & _ & W & _) & _). lia.
  - destruct wf as ((_ & _ & _ & _ & _ & W) & _). pose proof (spot_lt _ _ _ H). lia.
Qed.
Lemma guessing_at_in i : has_guessing x i -> (n_slopes x + n_intercepts x <= guessing_at x i < length p)%nat.
Proof. intro H. pose proof shape_of as [_ S]. by_model x. rewrite repeat_length in H. destruct wf as ((_ & _ & _ & W & W') & _). lia. Qed.

Lemma slope_set i d t i' d' : has_slope x i d -> slope_of (with_parameters x (upd (slope_at x i d) t p)) i' d' = if ((i' =? i) && (d' =? d))%nat%bool then t else slope_of (with_parameters x p) i' d'.
Proof.
  intro H. pose proof (slope_at_lt i d H) as L. pose proof shape_of as [S _].
  by_model x; cbn [slope_of tpl_free tpl_w thpl_free thpl_w p_free p_w].
  - destruct wf as ((_ & _ & W & _) & _). rewrite W, upd_firstn by exact L. apply slope_upd; [rewrite firstn_length; lia|exact H].
  - destruct wf as ((_ & _ & W & _) & _). rewrite W, upd_firstn by exact L. apply slope_upd; [rewrite firstn_length; lia|exact H].
  - destruct wf as ((_ & _ & _ & _ & W & _) & _). rewrite W, upd_firstn by exact L. apply slope_upd; [rewrite firstn_length; lia|exact H].
Qed.
Lemma slope_keep u t i' d' : (n_slopes x <= u)%nat -> slope_of (with_parameters x (upd u t p)) i' d' = slope_of (with_parameters x p) i' d'.
Proof.
  intro H. by_model x; cbn [slope_of tpl_free tpl_w thpl_free thpl_w p_free p_w]; [reflexivity| | |].
  - destruct wf as ((_ & _ & W & _) & _). now rewrite upd_firstn_ge by lia.
  - destruct wf as ((_ & _ & W & _) & _). now rewrite upd_firstn_ge by lia.
  - destruct wf as ((_ & _ & _ & _ & W & _) & _). now rewrite upd_firstn_ge by lia.
Qed.
Lemma intercept_keep u t i' k' : (u < n_slopes x \/ n_slopes x + n_intercepts x <= u)%nat -> intercept_of (with_parameters x (upd u t p)) i' k' = intercept_of (with_parameters x p) i' k'.
Proof.
  intro H. pose proof shape_of as [_ S]. by_model x; cbn [intercept_of opl_b tpl_b thpl_b p_cats p_b].
  - destruct H as [H|H]; [lia|]. assert (E : upd u t p = p); [|now rewrite E]. apply nth_error_ext. intro a. destruct (Nat.eq_dec a u) as [->|N]; [|rewrite nth_error_upd_neq by congruence; reflexivity]. rewrite (proj2 (nth_error_None _ _)) by (rewrite upd_length; lia). symmetry. apply nth_error_None. lia.
  - destruct wf as ((_ & _ & W & _) & _). rewrite W. destruct H as [H|H]; [now rewrite upd_skipn_lt by exact H|]. rewrite upd_skipn by lia. destruct (Nat.lt_ge_cases i' (length (tpl_b m))) as [Q|Q]; [|rewrite !nth_overflow; [reflexivity| |]; rewrite ?upd_length, skipn_length; lia].
    destruct (Nat.lt_ge_cases (u - ctrue (concat (tpl_free m))) (length (skipn (ctrue (concat (tpl_free m))) p))) as [Q'|Q']; [rewrite skipn_length in Q'; lia|]. assert (E : forall a, nth a (upd (u - ctrue (concat (tpl_free m))) t (skipn (ctrue (concat (tpl_free m))) p)) 0 = nth a (skipn (ctrue (concat (tpl_free m))) p) 0); [|apply E].
    clear - Q'. revert Q'. generalize (skipn (ctrue (concat (tpl_free m))) p). generalize (u - ctrue (concat (tpl_free m)))%nat. intros b l. revert b. induction l as [|y l IH]; intros b Q' a; [destruct b; reflexivity|]. destruct b as [|b]; [cbn in Q'; lia|]. destruct a as [|a]; [reflexivity|]. cbn [upd nth]. apply IH. cbn in Q'. lia.
  - destruct wf as ((_ & _ & W & _) & _). rewrite W. destruct H as [H|H]; [now rewrite upd_skipn_lt by exact H|]. rewrite upd_skipn by lia. now rewrite upd_firstn_ge by lia.
  - destruct wf as ((_ & _ & _ & _ & W & W') & _). rewrite W. destruct H as [H|H]; [now rewrite upd_skipn_lt by exact H|]. rewrite upd_skipn by lia. assert (E : forall b (l : list R), (length l <= b)%nat -> upd b t l = l).
    { intros b l. revert b. induction l as [|y l IH]; intros b Q'; [destruct b; reflexivity|]. destruct b as [|b]; [cbn in Q'; lia|]. cbn [upd]. f_equal. apply IH. cbn in Q'. lia. }
    rewrite E; [reflexivity|]. rewrite skipn_length. lia.
Qed.
Lemma intercept_set i k t i' k' : has_intercept x i k -> intercept_of (with_parameters x (upd (intercept_at x i k) t p)) i' k' = if ((i' =? i) && match x with Gpc _ => (k' =? k)%nat | _ => true end)%nat%bool then t else intercept_of (with_parameters x p) i' k'.
Proof.
  intro H. pose proof shape_of as [S0 S]. by_model x; cbn [intercept_of opl_b tpl_b thpl_b p_cats p_b]; try (destruct H as [H ->]; rewrite repeat_length in H; rewrite andb_true_r, (Nat.eqb_sym i' i)).
  - destruct wf. rewrite nth_upd by lia. reflexivity.
  - destruct wf as ((_ & _ & W & W') & _). rewrite W, upd_skipn by lia. rewrite nth_upd by (rewrite skipn_length; lia). now replace (ctrue (concat (tpl_free m)) + i - ctrue (concat (tpl_free m)))%nat with i by lia.
  - destruct wf as ((_ & _ & W & W' & _) & _). rewrite W, upd_skipn by lia. rewrite upd_firstn by lia. rewrite nth_upd by (rewrite firstn_length, skipn_length; lia). now replace (ctrue (concat (thpl_free m)) + i - ctrue (concat (thpl_free m)))%nat with i by lia.
  - destruct wf as ((_ & _ & _ & _ & W & W') & _). rewrite W, upd_skipn by lia. replace (ctrue (concat (p_free m)) + spot (p_cats m) i k - ctrue (concat (p_free m)))%nat with (spot (p_cats m) i k) by lia. apply intercept_upd; [rewrite skipn_length; lia|exact H].
Qed.
Lemma guessing_keep u t i' : (u < n_slopes x + n_intercepts x)%nat -> guessing_of (with_parameters x (upd u t p)) i' = guessing_of (with_parameters x p) i'.
Proof.
  intro H. by_model x; cbn [guessing_of thpl_g]; try reflexivity. destruct wf as ((_ & _ & W & W' & _) & _). rewrite W. destruct (Nat.lt_ge_cases u (ctrue (concat (thpl_free m)))) as [L|L]; [now rewrite upd_skipn_lt by exact L|]. rewrite upd_skipn by exact L. now rewrite upd_skipn_lt by lia.
Qed.
Lemma guessing_set i t i' : has_guessing x i -> guessing_of (with_parameters x (upd (guessing_at x i) t p)) i' = if (i' =? i)%nat then t else guessing_of (with_parameters x p) i'.
Proof.
  intro H. pose proof (guessing_at_in i H) as [_ L]. pose proof shape_of as [_ S]. by_model x; cbn [guessing_of thpl_g]. unfold guessing_at in *. cbn [n_slopes n_intercepts relations] in *. destruct wf as ((_ & _ & W & W' & W2) & _). rewrite W, !upd_skipn by lia. rewrite nth_upd by (rewrite !skipn_length; lia). rewrite Nat.eqb_sym. now replace (ctrue (concat (thpl_free m)) + length (thpl_b m) + i - ctrue (concat (thpl_free m)) - length (thpl_b m))%nat with i by lia.
Qed.
Lemma slope_read i d : has_slope x i d -> slope_of (with_parameters x p) i d = nth (slope_at x i d) p 0.
Proof.
  intro H. pose proof (slope_at_lt i d H) as L. by_model x; cbn [slope_of tpl_free tpl_w thpl_free thpl_w p_free p_w]; rewrite slope_place, H; (assert (E : forall a (l : list R) j, (j < a)%nat -> nth j (firstn a l) 0 = nth j l 0) by (clear; induction a as [|a IH]; intros [|y l] [|j] Q; try reflexivity; try lia; cbn; apply IH; lia)).
  - destruct wf as ((_ & _ & W & _) & _). rewrite W. now apply E.
  - destruct wf as ((_ & _ & W & _) & _). rewrite W. now apply E.
  - destruct wf as ((_ & _ & _ & _ & W & _) & _). rewrite W. now apply E.
Qed.
Lemma intercept_read i k : has_intercept x i k -> intercept_of (with_parameters x p) i k = nth (intercept_at x i k) p 0.
Proof.
  intro H. by_model x; cbn [intercept_of opl_b tpl_b thpl_b p_cats p_b]; try (destruct H as [H ->]; rewrite repeat_length in H).
  - reflexivity.
  - destruct wf as ((_ & _ & W & _) & _). now rewrite W, nth_rest.
  - destruct wf as ((_ & _ & W & W' & _) & _). rewrite nth_first by lia. now rewrite W, nth_rest.
  - destruct wf as ((_ & _ & _ & _ & W & W') & _). unfold intercept. destruct (Nat.leb_spec 1 k); [|lia]. destruct (Nat.ltb_spec k (nth i (p_cats m) O)); [|lia]. cbn [andb]. fold (spot (p_cats m) i k). now rewrite W, nth_rest.
Qed.
Lemma guessing_read i : has_guessing x i -> guessing_of (with_parameters x p) i = nth (guessing_at x i) p 0.
Proof.
  intro H. by_model x; cbn [guessing_of thpl_g]. destruct wf as ((_ & _ & W & W' & _) & _). unfold guessing_at. cbn [n_slopes n_intercepts relations]. rewrite !nth_rest, W. f_equal. lia.
Qed.
End Places.
