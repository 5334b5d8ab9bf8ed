(** The probabilities determine the reported item parameters. *)
From Verif Require Import Base BaseFacts RBase RFacts M_Logit S_Logit P_Logit P_Logit2 P_Logit3 P_Logit4 M_Lik S_Lik P_Lik1 P_Lik5 M_Est M_Stat M_Scale S_Pop P_Pop6 M_Info S_Info P_Info1 P_Info2 P_Info3 P_Info4 P_Row S_Nest P_Nest1 P_Nest2 P_BGrad2.
Import List.
Local Open Scope R_scope.

(** ** Affine functions *)
Lemma nth_zeros n d : nth d (repeat 0 n) 0 = 0.
Proof. revert d; induction n as [|n IH]; intros [|d]; cbn; auto. Qed.
Lemma predictor_zeros lv a : predictor lv a (repeat 0 lv) = 0.
Proof. unfold predictor. rewrite (sumn_ext lv _ (fun _ => 0)); [induction lv as [|n IH]; cbn [sumn]; [reflexivity|]|intros d Hd; rewrite nth_zeros; ring]. rewrite IH. ring. Qed.
Lemma predictor_unit lv a d x : (d < lv)%nat -> predictor lv a (upd d x (repeat 0 lv)) = a d * x.
Proof. intro Hd. rewrite predictor_upd by (exact Hd || apply repeat_length). rewrite predictor_zeros, nth_zeros. ring. Qed.
Lemma affine_unique lv a b a' b' : (forall t, length t = lv -> predictor lv a t + b = predictor lv a' t + b') -> b = b' /\ forall d, (d < lv)%nat -> a d = a' d.
Proof.
  intro H. pose proof (H (repeat 0 lv) (repeat_length _ _)) as H0. rewrite !predictor_zeros in H0. split; [lra|]. intros d Hd.
  pose proof (H (upd d 1 (repeat 0 lv)) ltac:(rewrite upd_length; apply repeat_length)) as H1. rewrite !predictor_unit in H1 by exact Hd. lra.
Qed.
Lemma logits_unique K z z' k : (forall j, (j < K)%nat -> category_probability K z j = category_probability K z' j) -> (k < K)%nat -> z k - z O = z' k - z' O.
Proof.
  intros H Hk. pose proof (H k Hk) as E. pose proof (H O ltac:(lia)) as E0. unfold category_probability in *.
  assert (S1 : 0 < sumn K (fun j => exp (z j))) by (apply sum_exp_pos; lia). assert (S2 : 0 < sumn K (fun j => exp (z' j))) by (apply sum_exp_pos; lia).
  set (A := sumn K (fun j => exp (z j))) in *. set (B := sumn K (fun j => exp (z' j))) in *. apply exp_inv. unfold Rminus. rewrite !exp_plus, !exp_Ropp.
  pose proof (exp_pos (z O)). pose proof (exp_pos (z' O)).
  assert (F : exp (z k) = exp (z' k) / B * A) by (rewrite <- E; field; lra). assert (F0 : exp (z O) = exp (z' O) / B * A) by (rewrite <- E0; field; lra).
  rewrite F, F0. pose proof (exp_pos (z' k)). field. repeat split; lra.
Qed.
(** ** Tables of one model *)
Lemma tables_entries lv I M probs probs' p p' : model_table lv I M probs p -> model_table lv I M probs' p' ->
  (forall thetas, Forall (fun t => length t = lv) thetas -> probs thetas = probs' thetas) ->
  forall t i k, length t = lv -> (i < I)%nat -> (k < M)%nat -> p t i k = p' t i k.
Proof.
  intros H H' HE t i k Lt Hi Hk. assert (HF : Forall (fun t => length t = lv) [t]) by (constructor; [exact Lt|constructor]).
  pose proof (HE [t] HF) as E. rewrite H, H' in E by exact HF. cbn [map] in E.
  assert (E1 : map (fun i => map (fun k => Some (p t i k)) (seq 0 M)) (seq 0 I) = map (fun i => map (fun k => Some (p' t i k)) (seq 0 M)) (seq 0 I)) by congruence.
  apply (f_equal (fun l => nth k (nth i l []) None)) in E1. rewrite !(nth_map_seq _ I i []) in E1 by exact Hi. rewrite !nth_map_seq in E1 by exact Hk. congruence.
Qed.
Lemma weight_matrix_eq free free' lv w w' : (0 < lv)%nat -> Forall (fun r => length r = lv) free -> Forall (fun r => length r = lv) free' ->
  length w = ctrue (concat free) -> length w' = ctrue (concat free') -> length free = length free' ->
  (weight_matrix free lv w = weight_matrix free' lv w' <-> forall i d, (i < length free)%nat -> (d < lv)%nat -> slope free w i d = slope free' w' i d).
Proof.
  intros Hlv HF HF' Hw Hw' HL. split.
  - intros E i d Hi Hd. apply (f_equal (fun l => nth_error l i)) in E. rewrite !weight_matrix_row in E by (assumption || lia).
    assert (E1 : map (slope free w i) (seq 0 lv) = map (slope free' w' i) (seq 0 lv)) by congruence. apply (f_equal (fun l => nth d l 0)) in E1. now rewrite !nth_map_seq in E1 by exact Hd.
  - intro H. apply nth_error_ext. intro i. destruct (Nat.lt_ge_cases i (length free)) as [Hi|Hi].
    + rewrite !weight_matrix_row by (assumption || lia). f_equal. apply map_ext_in. intros d Hd. apply in_seq in Hd. apply H; lia.
    + rewrite (proj2 (nth_error_None _ _)) by (rewrite weight_matrix_length by exact Hlv; exact Hi). symmetry. apply nth_error_None. rewrite weight_matrix_length by exact Hlv. lia.
Qed.
Definition poly_biases (m : poly) : list (list R) := blocks (p_max m) (full_bias (free_bias (p_cats m) (p_max m)) (p_b m)).
Lemma poly_bias_row m i : poly_wf m -> (i < p_items m)%nat -> nth_error (poly_biases m) i = Some (map (intercept (p_cats m) (p_b m) i) (seq 0 (p_max m))).
Proof.
  intros Hwf Hi. pose proof Hwf as (Hlv & HC & HL & HF & Hw & Hb). destruct (cats_bounds (p_cats m) i HC Hi) as [H1 H2]. fold (p_max m) in H2. pose proof (nth_error_nth_lt (p_cats m) i O Hi) as EK.
  unfold poly_biases. rewrite nth_error_blocks by lia. rewrite full_bias_length, free_bias_length. unfold p_items in Hi. destruct (Nat.ltb_spec (i * p_max m) (length (p_cats m) * p_max m)) as [_|H]; [|nia].
  f_equal. apply nth_error_ext. intro k. destruct (Nat.lt_ge_cases k (p_max m)) as [Hk|Hk].
  - rewrite nth_error_firstn_lt, nth_error_skipn_add by exact Hk. rewrite nth_error_map_seq by exact Hk. cbn [Nat.add]. now apply (nth_error_full_bias (p_cats m) (p_b m) i k _ HC Hb EK).
  - rewrite nth_error_firstn_ge by exact Hk. symmetry. apply nth_error_None. now rewrite map_length, seq_length.
Qed.
Lemma poly_biases_length m : poly_wf m -> (0 < p_items m)%nat -> length (poly_biases m) = p_items m.
Proof.
  intros Hwf Hn. pose proof (max_pos (p_cats m) (proj1 (proj2 Hwf)) Hn) as HM. fold (p_max m) in HM. unfold poly_biases. rewrite blocks_length by exact HM. rewrite full_bias_length, free_bias_length.
  fold (p_items m). unfold ceil_div. replace (p_items m * p_max m + p_max m - 1)%nat with ((p_max m - 1) + p_items m * p_max m)%nat by lia. rewrite Nat.div_add by lia. rewrite Nat.div_small; lia.
Qed.
Lemma poly_biases_eq m m' : poly_wf m -> poly_wf m' -> (0 < p_items m)%nat -> p_cats m = p_cats m' ->
  (forall i k, (i < p_items m)%nat -> (1 <= k < nth i (p_cats m) O)%nat -> intercept (p_cats m) (p_b m) i k = intercept (p_cats m') (p_b m') i k) -> poly_biases m = poly_biases m'.
Proof.
  intros Hwf Hwf' Hn EC H. assert (EI : p_items m' = p_items m) by (unfold p_items; congruence). assert (EM : p_max m' = p_max m) by (unfold p_max; congruence).
  apply nth_error_ext. intro i. destruct (Nat.lt_ge_cases i (p_items m)) as [Hi|Hi].
  - rewrite !poly_bias_row by (assumption || lia). f_equal. rewrite EM. apply map_ext. intro k.
    destruct (Nat.le_gt_cases 1 k) as [H1|H1]; [destruct (Nat.lt_ge_cases k (nth i (p_cats m) O)) as [H2|H2]; [now apply H|]|].
    + unfold intercept. rewrite <- EC. destruct (Nat.ltb_spec k (nth i (p_cats m) O)); [lia|]. now rewrite andb_false_r.
    + unfold intercept. destruct (Nat.leb_spec 1 k); [lia|reflexivity].
  - rewrite (proj2 (nth_error_None _ _)) by (rewrite poly_biases_length by assumption; exact Hi). symmetry. apply nth_error_None. rewrite poly_biases_length by (assumption || lia). lia.
Qed.
Lemma poly_biases_read m m' : poly_wf m -> poly_wf m' -> (0 < p_items m)%nat -> p_cats m = p_cats m' -> map (@tl R) (poly_biases m) = map (@tl R) (poly_biases m') ->
  forall i k, (i < p_items m)%nat -> (k < p_max m)%nat -> intercept (p_cats m) (p_b m) i k = intercept (p_cats m') (p_b m') i k.
Proof.
  intros Hwf Hwf' Hn EC E i k Hi Hk. assert (EI : p_items m' = p_items m) by (unfold p_items; congruence). assert (EM : p_max m' = p_max m) by (unfold p_max; congruence).
  destruct k as [|k]; [reflexivity|]. apply (f_equal (fun l => nth_error l i)) in E. rewrite !nth_error_map, !poly_bias_row in E by (assumption || lia). cbn [option_map] in E. rewrite EM in E.
  assert (E1 : tl (map (intercept (p_cats m) (p_b m) i) (seq 0 (p_max m))) = tl (map (intercept (p_cats m') (p_b m') i) (seq 0 (p_max m)))) by congruence.
  apply (f_equal (fun l => nth_error l k)) in E1. rewrite !nth_error_tl, !nth_error_map_seq in E1 by exact Hk. cbn [Nat.add] in E1. congruence.
Qed.

(** ** One and two parameter logistic *)
Lemma opl_identified m m' : length (opl_b m) = opl_items m -> length (opl_b m') = opl_items m' -> (0 < opl_items m)%nat -> opl_items m = opl_items m' ->
  ((forall thetas, opl_probabilities m thetas = opl_probabilities m' thetas) <-> opl_item_parameters m = opl_item_parameters m').
Proof.
  intros Hb Hb' Hn EI. unfold opl_item_parameters. split.
  - intro E. pose proof (opl_table m' Hb' ltac:(lia)) as T'. rewrite <- EI in T'.
    pose proof (tables_entries 1 (opl_items m) 2 _ _ _ _ (opl_table m Hb Hn) T' (fun thetas _ => E _)) as H. apply (nth_ext _ _ 0 0); [lia|]. intros i Hi. rewrite Hb in Hi.
    pose proof (H [0] i 1%nat eq_refl Hi ltac:(lia)) as P. unfold soft in P. rewrite !twos_nth in P by exact Hi. cbn [Nat.ltb Nat.leb] in P. rewrite !two_soft in P by lia. cbn [Nat.eqb nth] in P. apply logistic_inj in P. lra.
  - intros E thetas. destruct m as [n b], m' as [n' b']. cbn [opl_b opl_items] in *. now subst.
Qed.
Lemma tpl_identified m m' : tpl_wf m -> tpl_wf m' -> (0 < tpl_items m)%nat -> tpl_items m = tpl_items m' -> tpl_lv m = tpl_lv m' ->
  ((forall thetas, Forall (fun t => length t = tpl_lv m) thetas -> tpl_probabilities m thetas = tpl_probabilities m' thetas) <-> tpl_item_parameters m false = tpl_item_parameters m' false).
Proof.
  intros Hwf Hwf' Hn EI EL. pose proof Hwf as (Hlv & Hf & Hw & Hb). pose proof Hwf' as (Hlv' & Hf' & Hw' & Hb'). unfold tpl_item_parameters. cbn [andb].
  assert (WM : weight_matrix (tpl_free m) (tpl_lv m) (tpl_w m) = weight_matrix (tpl_free m') (tpl_lv m') (tpl_w m') <-> forall i d, (i < tpl_items m)%nat -> (d < tpl_lv m)%nat -> slope (tpl_free m) (tpl_w m) i d = slope (tpl_free m') (tpl_w m') i d).
  { rewrite <- EL. apply weight_matrix_eq; try assumption; rewrite EL; assumption. }
  pose proof (tpl_table m' Hwf' ltac:(lia)) as T'. rewrite <- EI, <- EL in T'. split.
  - intro E. pose proof (tables_entries (tpl_lv m) (tpl_items m) 2 _ _ _ _ (tpl_table m Hwf Hn) T' E) as H.
    assert (A : forall i, (i < tpl_items m)%nat -> nth i (tpl_b m) 0 = nth i (tpl_b m') 0 /\ forall d, (d < tpl_lv m)%nat -> slope (tpl_free m) (tpl_w m) i d = slope (tpl_free m') (tpl_w m') i d).
    { intros i Hi. apply affine_unique. intros t Lt. pose proof (H t i 1%nat Lt Hi ltac:(lia)) as P. unfold soft in P. rewrite !twos_nth in P by exact Hi. cbn [Nat.ltb Nat.leb] in P. rewrite !two_soft in P by lia. cbn [Nat.eqb nth] in P.
      apply logistic_inj in P. unfold tpl_x in P. rewrite <- EL in P. exact P. }
    rewrite (proj2 WM) by (intros; now apply A). do 2 f_equal. apply (nth_ext _ _ 0 0); [lia|]. intros i Hi. apply A. lia.
  - intro E. assert (E1 : weight_matrix (tpl_free m) (tpl_lv m) (tpl_w m) = weight_matrix (tpl_free m') (tpl_lv m') (tpl_w m')) by congruence. assert (E2 : tpl_b m = tpl_b m') by congruence.
    apply (model_table_eq (tpl_lv m) (tpl_items m) 2 _ _ _ _ (tpl_table m Hwf Hn) T'). intros t i k Lt Hi Hk. unfold soft. rewrite twos_nth by exact Hi. destruct (k <? 2)%nat; [|reflexivity]. apply cp_ext; [exact Hk|]. intros j _. f_equal.
    unfold tpl_x. rewrite E2, <- EL. f_equal. apply predictor_ext. intros d Hd. now apply (proj1 WM).
Qed.

(** ** Three parameter logistic *)
Lemma exponential_unique A B al A' B' al' : (forall s, A + B * exp (al * s) = A' + B' * exp (al' * s)) -> B <> 0 -> al <> 0 -> al = al' /\ B = B' /\ A = A'.
Proof.
  intros H HB Ha. pose proof (H 0) as H0. pose proof (H 1) as H1. pose proof (H 2) as H2. rewrite !Rmult_0_r, exp_0 in H0. rewrite !Rmult_1_r in H1.
  replace (al * 2) with (al + al) in H2 by ring. replace (al' * 2) with (al' + al') in H2 by ring. rewrite !exp_plus in H2.
  assert (Hx : exp al <> 1) by (intro E; apply Ha; apply exp_inv; now rewrite exp_0). pose proof (exp_pos al) as Px. pose proof (exp_pos al') as Py.
  set (x := exp al) in *. set (y := exp al') in *.
  assert (D0 : B * (x - 1) = B' * (y - 1)) by lra. assert (D1 : B * (x - 1) * x = B' * (y - 1) * y) by lra.
  assert (Hn : B * (x - 1) <> 0) by (apply Rmult_integral_contrapositive_currified; lra). rewrite <- D0 in D1.
  assert (E : x = y) by (apply (Rmult_eq_reg_l (B * (x - 1))); assumption). assert (al = al') by (apply exp_inv; exact E). split; [assumption|].
  rewrite <- E in D0. assert (B = B') by (apply (Rmult_eq_reg_r (x - 1)); [exact D0|lra]). split; [assumption|]. rewrite <- E in H1. subst B'. lra.
Qed.
Lemma guessing_unique c x c' x' : (forall s, c + (1 - c) * logistic (fst x * s + snd x) = c' + (1 - c') * logistic (fst x' * s + snd x')) -> 0 < c < 1 -> 0 < c' < 1 -> fst x <> 0 ->
  c = c' /\ snd x = snd x' /\ fst x = fst x'.
Proof.
  destruct x as [a b], x' as [a' b']. cbn [fst snd]. intros H Hc Hc' Ha.
  assert (E : forall s, (1 - c') + ((1 - c') * exp b) * exp (a * s) = (1 - c) + ((1 - c) * exp b') * exp (a' * s)).
  { intro s. specialize (H s). unfold logistic in H. rewrite !exp_Ropp, !exp_plus in H. pose proof (exp_pos (a * s)) as P1. pose proof (exp_pos b) as P2. pose proof (exp_pos (a' * s)) as P3. pose proof (exp_pos b') as P4.
    set (u := exp (a * s) * exp b) in *. set (v := exp (a' * s) * exp b') in *. assert (0 < u) by (apply Rmult_lt_0_compat; assumption). assert (0 < v) by (apply Rmult_lt_0_compat; assumption).
    assert (Fu : / (1 + / u) = 1 - / (1 + u)) by (field; lra). assert (Fv : / (1 + / v) = 1 - / (1 + v)) by (field; lra). unfold Rdiv in H. rewrite ?Rmult_1_l in H. rewrite Fu, Fv in H.
    assert (G : (1 - c) * / (1 + u) = (1 - c') * / (1 + v)) by lra.
    assert (G2 : (1 - c) * (1 + v) = (1 - c') * (1 + u)).
    { apply (f_equal (fun q => q * ((1 + u) * (1 + v)))) in G. replace ((1 - c) * / (1 + u) * ((1 + u) * (1 + v))) with ((1 - c) * (1 + v)) in G by (field; lra).
      replace ((1 - c') * / (1 + v) * ((1 + u) * (1 + v))) with ((1 - c') * (1 + u)) in G by (field; lra). exact G. }
    unfold u, v in G2. lra. }
  destruct (exponential_unique _ _ _ _ _ _ E) as (E1 & E2 & E3); [pose proof (exp_pos b); apply Rmult_integral_contrapositive_currified; lra|exact Ha|].
  assert (c = c') by lra. subst c'. split; [reflexivity|]. split; [|exact E1]. apply exp_inv. apply (Rmult_eq_reg_l (1 - c)); [exact E2|lra].
Qed.
Lemma thpl_identified m m' : thpl_wf m -> thpl_wf m' -> thpl_items m = thpl_items m' -> thpl_lv m = thpl_lv m' ->
  (forall i, (i < thpl_items m)%nat -> exists d, (d < thpl_lv m)%nat /\ slope (thpl_free m) (thpl_w m) i d <> 0) ->
  ((forall thetas, Forall (fun t => length t = thpl_lv m) thetas -> thpl_probabilities m thetas = thpl_probabilities m' thetas) <-> thpl_item_parameters m false = thpl_item_parameters m' false).
Proof.
  intros Hwf Hwf' EI EL HS. pose proof Hwf as (Hlv & Hf & Hw & Hb & Hg). pose proof Hwf' as (Hlv' & Hf' & Hw' & Hb' & Hg'). unfold thpl_item_parameters. cbn [andb].
  assert (WM : weight_matrix (thpl_free m) (thpl_lv m) (thpl_w m) = weight_matrix (thpl_free m') (thpl_lv m') (thpl_w m') <-> forall i d, (i < thpl_items m)%nat -> (d < thpl_lv m)%nat -> slope (thpl_free m) (thpl_w m) i d = slope (thpl_free m') (thpl_w m') i d).
  { rewrite <- EL. apply weight_matrix_eq; try assumption; rewrite EL; assumption. }
  split.
  - intro E. pose proof (thpl_table m' Hwf') as T'. rewrite <- EI, <- EL in T'.
    pose proof (tables_entries (thpl_lv m) (thpl_items m) 2 _ _ _ _ (thpl_table m Hwf) T' (fun thetas HF => f_equal some3 (E thetas HF))) as H.
    assert (A : forall i, (i < thpl_items m)%nat -> logistic (nth i (thpl_g m) 0) = logistic (nth i (thpl_g m') 0) /\ nth i (thpl_b m) 0 = nth i (thpl_b m') 0 /\ forall d, (d < thpl_lv m)%nat -> slope (thpl_free m) (thpl_w m) i d = slope (thpl_free m') (thpl_w m') i d).
    { intros i Hi. destruct (HS i Hi) as (d & Hd & Hne).
      assert (P : forall t, length t = thpl_lv m -> thpl_P m t i = thpl_P m' t i) by (intros t Lt; pose proof (H t i 1%nat Lt Hi ltac:(lia)) as P; unfold thpl_p in P; cbn [Nat.eqb] in P; exact P).
      pose proof (logistic_bounds (nth i (thpl_g m) 0)) as C. pose proof (logistic_bounds (nth i (thpl_g m') 0)) as C'.
      destruct (guessing_unique (logistic (nth i (thpl_g m) 0)) (slope (thpl_free m) (thpl_w m) i d, nth i (thpl_b m) 0) (logistic (nth i (thpl_g m') 0)) (slope (thpl_free m') (thpl_w m') i d, nth i (thpl_b m') 0)) as (E1 & E2 & E3); try assumption.
      - intro s. cbn [fst snd]. pose proof (P (upd d s (repeat 0 (thpl_lv m))) ltac:(rewrite upd_length; apply repeat_length)) as Q. unfold thpl_P, thpl_x in Q. rewrite <- EL in Q. rewrite !predictor_unit in Q by exact Hd. exact Q.
      - cbn [fst snd] in E2. split; [exact E1|]. apply affine_unique. intros t Lt. specialize (P t Lt). unfold thpl_P in P. cbv zeta in P. rewrite <- E1 in P. unfold thpl_x in P. rewrite <- EL in P.
        apply logistic_inj. apply (Rmult_eq_reg_l (1 - logistic (nth i (thpl_g m) 0))); [lra|lra]. }
    rewrite (proj2 WM) by (intros; now apply A). assert (EB : thpl_b m = thpl_b m') by (apply (nth_ext _ _ 0 0); [lia|]; intros i Hi; apply A; lia).
    assert (EG : map logistic (thpl_g m) = map logistic (thpl_g m')).
    { apply nth_error_ext. intro i. rewrite !nth_error_map. destruct (Nat.lt_ge_cases i (thpl_items m)) as [Hi|Hi].
      - rewrite (nth_error_nth_lt (thpl_g m) i 0) by lia. rewrite (nth_error_nth_lt (thpl_g m') i 0) by lia. cbn [option_map]. f_equal. now apply A.
      - rewrite (proj2 (nth_error_None (thpl_g m) i)) by lia. rewrite (proj2 (nth_error_None (thpl_g m') i)) by lia. reflexivity. }
    now rewrite EB, EG.
  - intros E thetas HF. unfold thpl_probabilities, thpl_forward.
    assert (E1 : weight_matrix (thpl_free m) (thpl_lv m) (thpl_w m) = weight_matrix (thpl_free m') (thpl_lv m') (thpl_w m')) by congruence. assert (E2 : thpl_b m = thpl_b m') by congruence. assert (E3 : map logistic (thpl_g m) = map logistic (thpl_g m')) by congruence.
    now rewrite E1, E2, E3.
Qed.

(** ** Partial credit, graded and nominal response *)
Section two_polytomous.
  Context (m m' : poly) (Hwf : poly_wf m) (Hwf' : poly_wf m') (Hn : (0 < p_items m)%nat) (EC : p_cats m = p_cats m') (EL : p_lv m = p_lv m').
  Local Definition poly_same : Prop := forall i, (i < p_items m)%nat -> (forall d, (d < p_lv m)%nat -> slope (p_free m) (p_w m) i d = slope (p_free m') (p_w m') i d) /\
    forall k, (1 <= k < nth i (p_cats m) O)%nat -> intercept (p_cats m) (p_b m) i k = intercept (p_cats m') (p_b m') i k.
  Lemma poly_items_eq : p_items m' = p_items m. Proof using EC. unfold p_items. congruence. Qed.
  Lemma poly_max_eq : p_max m' = p_max m. Proof using EC. unfold p_max. congruence. Qed.
  Lemma poly_weights_eq : weight_matrix (p_free m) (p_lv m) (p_w m) = weight_matrix (p_free m') (p_lv m') (p_w m') <-> forall i d, (i < p_items m)%nat -> (d < p_lv m)%nat -> slope (p_free m) (p_w m) i d = slope (p_free m') (p_w m') i d.
  Proof using Hwf Hwf' EC EL.
    pose proof Hwf as (Hlv & HC & HL & HF & Hw & Hb). pose proof Hwf' as (Hlv' & HC' & HL' & HF' & Hw' & Hb'). clear Hn. pose proof poly_items_eq. rewrite <- HL. rewrite <- EL. apply weight_matrix_eq; try assumption; [rewrite EL; assumption|lia].
  Qed.
  Lemma poly_same_parameters : poly_same -> weight_matrix (p_free m) (p_lv m) (p_w m) = weight_matrix (p_free m') (p_lv m') (p_w m') /\ poly_biases m = poly_biases m'.
  Proof using Hwf Hwf' Hn EC EL. intro H. split; [apply poly_weights_eq; intros; now apply H|]. apply poly_biases_eq; try assumption. intros. now apply H. Qed.
  Lemma poly_parameters_same : weight_matrix (p_free m) (p_lv m) (p_w m) = weight_matrix (p_free m') (p_lv m') (p_w m') -> map (@tl R) (poly_biases m) = map (@tl R) (poly_biases m') ->
    forall i, (i < p_items m)%nat -> (forall d, (d < p_lv m)%nat -> slope (p_free m) (p_w m) i d = slope (p_free m') (p_w m') i d) /\ forall k, (k < nth i (p_cats m) O)%nat -> intercept (p_cats m) (p_b m) i k = intercept (p_cats m') (p_b m') i k.
  Proof using Hwf Hwf' Hn EC EL.
    intros E1 E2 i Hi. split; [intros; now apply (proj1 poly_weights_eq)|]. intros k Hk. apply poly_biases_read; try assumption. destruct (cats_bounds (p_cats m) i (proj1 (proj2 Hwf)) Hi) as [_ H2]. fold (p_max m) in H2. lia.
  Qed.
  Lemma gpc_identified : Forall (fun K => (2 <= K)%nat) (p_cats m) ->
    ((forall thetas, Forall (fun t => length t = p_lv m) thetas -> gpc_probabilities m thetas = gpc_probabilities m' thetas) <-> gpc_item_parameters m false = gpc_item_parameters m' false).
  Proof using Hwf Hwf' Hn EC EL.
    intro H2. pose proof poly_items_eq as EI. pose proof poly_max_eq as EM. pose proof (gpc_table m' Hwf' ltac:(lia)) as T'. rewrite EI, EM, <- EL in T'.
    unfold gpc_item_parameters. cbn [andb]. fold (poly_biases m) (poly_biases m'). split.
    - intro E. pose proof (tables_entries (p_lv m) (p_items m) (p_max m) _ _ _ _ (gpc_table m Hwf Hn) T' E) as H. destruct poly_same_parameters as [-> ->]; [|reflexivity].
      intros i Hi. destruct (cats_bounds (p_cats m) i (proj1 (proj2 Hwf)) Hi) as [_ HM]. fold (p_max m) in HM. set (K := nth i (p_cats m) O) in *.
      assert (HK : (2 <= K)%nat) by (rewrite Forall_forall in H2; apply H2; apply nth_In; exact Hi).
      assert (Z : forall t k, length t = p_lv m -> (1 <= k < K)%nat -> INR k * predictor (p_lv m) (slope (p_free m) (p_w m) i) t + intercept (p_cats m) (p_b m) i k = INR k * predictor (p_lv m) (slope (p_free m') (p_w m') i) t + intercept (p_cats m') (p_b m') i k).
      { intros t k Lt Hk. assert (L : gpc_z m t i k - gpc_z m t i 0 = gpc_z m' t i k - gpc_z m' t i 0).
        { apply (logits_unique K); [|lia]. intros j Hj. pose proof (H t i j Lt Hi ltac:(lia)) as P. unfold soft in P. rewrite <- EC in P. fold K in P. destruct (Nat.ltb_spec j K); [exact P|lia]. }
        unfold gpc_z in L. rewrite <- EL in L. replace (intercept (p_cats m) (p_b m) i 0) with 0 in L by reflexivity. replace (intercept (p_cats m') (p_b m') i 0) with 0 in L by reflexivity. cbn [INR] in L. lra. }
      assert (A : forall k, (1 <= k < K)%nat -> intercept (p_cats m) (p_b m) i k = intercept (p_cats m') (p_b m') i k /\ forall d, (d < p_lv m)%nat -> INR k * slope (p_free m) (p_w m) i d = INR k * slope (p_free m') (p_w m') i d).
      { intros k Hk. apply affine_unique. intros t Lt. rewrite !predictor_scaled. now apply Z. }
      split; [|intros k Hk; now apply A]. intros d Hd. destruct (A 1%nat ltac:(lia)) as [_ G]. specialize (G d Hd). cbn [INR] in G. lra.
    - intro E. assert (E1 : weight_matrix (p_free m) (p_lv m) (p_w m) = weight_matrix (p_free m') (p_lv m') (p_w m')) by congruence. assert (E2 : poly_biases m = poly_biases m') by congruence.
      pose proof (poly_parameters_same E1 (f_equal (map (@tl R)) E2)) as P.
      apply (model_table_eq (p_lv m) (p_items m) (p_max m) _ _ _ _ (gpc_table m Hwf Hn) T'). intros t i k Lt Hi Hk. destruct (P i Hi) as [PS PI]. unfold soft. rewrite <- EC. destruct (Nat.ltb_spec k (nth i (p_cats m) O)) as [HkK|]; [|reflexivity]. apply cp_ext; [exact HkK|]. intros j Hj.
      unfold gpc_z. rewrite <- EL, <- PI by exact Hj. do 2 f_equal. apply predictor_ext. exact PS.
  Qed.
  Lemma grm_identified : Forall (fun K => (2 <= K)%nat) (p_cats m) ->
    ((forall thetas, Forall (fun t => length t = p_lv m) thetas -> grm_probabilities m thetas = grm_probabilities m' thetas) <-> grm_item_parameters m false = grm_item_parameters m' false).
  Proof using Hwf Hwf' Hn EC EL.
    intro H2. pose proof poly_items_eq as EI. pose proof poly_max_eq as EM. pose proof (grm_table m' Hwf' ltac:(lia)) as T'. rewrite EI, EM, <- EL in T'.
    unfold grm_item_parameters. cbn [andb]. fold (poly_biases m) (poly_biases m'). split.
    - intro E. pose proof (tables_entries (p_lv m) (p_items m) (p_max m) _ _ _ _ (grm_table m Hwf Hn) T' (fun thetas HF => f_equal some3 (E thetas HF))) as H. destruct poly_same_parameters as [-> ->]; [|reflexivity].
      intros i Hi. destruct (cats_bounds (p_cats m) i (proj1 (proj2 Hwf)) Hi) as [_ HM]. fold (p_max m) in HM. set (K := nth i (p_cats m) O) in *.
      assert (HK : (2 <= K)%nat) by (rewrite Forall_forall in H2; apply H2; apply nth_In; exact Hi).
      assert (A : forall k, (1 <= k < K)%nat -> intercept (p_cats m) (p_b m) i k = intercept (p_cats m') (p_b m') i k /\ forall d, (d < p_lv m)%nat -> slope (p_free m) (p_w m) i d = slope (p_free m') (p_w m') i d).
      { intros k Hk. apply affine_unique. intros t Lt. apply logistic_inj.
        pose proof (grm_tail_sum K (p_max m) (grm_z m t i) k ltac:(lia) ltac:(lia)) as S1. pose proof (grm_tail_sum K (p_max m) (grm_z m' t i) k ltac:(lia) ltac:(lia)) as S2.
        rewrite (sumn_ext _ _ (fun j => geq_probability K (grm_z m' t i) (k + j) - geq_probability K (grm_z m' t i) (S (k + j)))) in S1.
        2:{ intros j Hj. pose proof (H t i (k + j)%nat Lt Hi ltac:(lia)) as P. unfold grm_p, grm_g in P. rewrite <- EC in P. exact P. }
        rewrite S1 in S2. unfold geq_probability in S2. destruct (Nat.eqb_spec k 0); [lia|]. destruct (Nat.ltb_spec k K); [|lia]. unfold grm_z in S2. rewrite <- EL in S2. exact S2. }
      split; [|intros k Hk; now apply A]. intros d Hd. now apply (A 1%nat ltac:(lia)).
    - intro E. assert (E1 : weight_matrix (p_free m) (p_lv m) (p_w m) = weight_matrix (p_free m') (p_lv m') (p_w m')) by congruence. assert (E2 : map (@tl R) (poly_biases m) = map (@tl R) (poly_biases m')) by congruence.
      pose proof (poly_parameters_same E1 E2) as P. intros thetas HF.
      assert (Q : some3 (grm_probabilities m thetas) = some3 (grm_probabilities m' thetas)).
      { revert thetas HF. apply (model_table_eq (p_lv m) (p_items m) (p_max m) (fun thetas => some3 (grm_probabilities m thetas)) (fun thetas => some3 (grm_probabilities m' thetas)) _ _ (grm_table m Hwf Hn) T'). intros t i k Lt Hi Hk. destruct (P i Hi) as [PS PI].
        assert (G : forall k, grm_g m t i k = grm_g m' t i k).
        { intro q. unfold grm_g, geq_probability. rewrite <- EC. destruct (q =? 0)%nat; [reflexivity|]. destruct (Nat.ltb_spec q (nth i (p_cats m) O)) as [Hq|]; [|reflexivity]. unfold grm_z. rewrite <- EL, <- PI by exact Hq. do 2 f_equal. apply predictor_ext. exact PS. }
        unfold grm_p. now rewrite !G. }
      assert (Inj : forall (l l' : list R), map Some l = map Some l' -> l = l') by (induction l as [|x l IH]; intros [|y l'] HE; try discriminate; [reflexivity|]; cbn in HE; injection HE as -> HE; f_equal; now apply IH).
      assert (Inj2 : forall (l l' : list (list R)), map (map Some) l = map (map Some) l' -> l = l') by (induction l as [|x l IH]; intros [|y l'] HE; try discriminate; [reflexivity|]; cbn [map] in HE; injection HE as Hx HE; f_equal; [now apply Inj|now apply IH]).
      revert Q. unfold some3. generalize (grm_probabilities m thetas) as u. generalize (grm_probabilities m' thetas) as v. intros v u. revert v. induction u as [|x u IH]; intros [|y v] HE; try discriminate; [reflexivity|]. cbn [map] in HE. injection HE as Hx HE. f_equal; [now apply Inj2|now apply IH].
  Qed.
End two_polytomous.
Lemma centred_unique K (s s' : nat -> R) : (1 <= K)%nat -> sumn K s = 0 -> sumn K s' = 0 -> (forall k, (k < K)%nat -> s k - s O = s' k - s' O) -> forall k, (k < K)%nat -> s k = s' k.
Proof.
  intros HK H H' HD. assert (E : sumn K (fun k => s k - s O) = sumn K (fun k => s' k - s' O)) by (apply sumn_ext; exact HD). rewrite !sumn_minus_const, H, H' in E.
  assert (0 < INR K) by (apply lt_0_INR; lia). assert (s O = s' O) by (apply (Rmult_eq_reg_l (INR K)); lra). intros k Hk. specialize (HD k Hk). lra.
Qed.
Section two_nominal.
  Context (m m' : nrm) (Hwf : nrm_wf m) (Hwf' : nrm_wf m') (Hn : (0 < length (nrm_cats m))%nat) (EC : nrm_cats m = nrm_cats m') (EL : nrm_lv m = nrm_lv m').
  Lemma nominal_max_eq : nrm_max m' = nrm_max m. Proof using EC. unfold nrm_max. congruence. Qed.
  Lemma nominal_parameters : (forall i k, (i < length (nrm_cats m))%nat -> (k < nth i (nrm_cats m) O)%nat -> nrm_intercept m i k = nrm_intercept m' i k /\ forall d, (d < nrm_lv m)%nat -> nrm_slope m i k d = nrm_slope m' i k d) ->
    nrm_item_parameters m = nrm_item_parameters m'.
  Proof using Hwf Hwf' EC EL.
    clear Hn. intro H. pose proof nominal_max_eq as EM.
    assert (EW : nrm_weights m = nrm_weights m').
    { apply nth_error_ext. intro i. destruct (Nat.lt_ge_cases i (length (nrm_cats m))) as [Hi|Hi].
      - pose proof (nth_error_nth_lt (nrm_cats m) i O Hi) as EK. pose proof EK as EK'. rewrite EC in EK' at 1. rewrite (nrm_weights_nth m Hwf i _ EK), (nrm_weights_nth m' Hwf' i _ EK'), EM, <- EL. f_equal. apply map_ext. intro k. apply map_ext_in. intros d Hd. apply in_seq in Hd.
        unfold nslope_ext. destruct (Nat.ltb_spec k (nth i (nrm_cats m) O)) as [Hk|]; [|reflexivity]. apply (H i k Hi Hk). lia.
      - rewrite (proj2 (nth_error_None _ _)) by (rewrite nrm_weights_length by exact Hwf; exact Hi). symmetry. apply nth_error_None. rewrite nrm_weights_length by exact Hwf'. rewrite <- EC. exact Hi. }
    assert (EB : nrm_biases m = nrm_biases m').
    { apply nth_error_ext. intro i. destruct (Nat.lt_ge_cases i (length (nrm_cats m))) as [Hi|Hi].
      - pose proof (nth_error_nth_lt (nrm_cats m) i O Hi) as EK. pose proof EK as EK'. rewrite EC in EK' at 1. rewrite (nrm_biases_nth m Hwf i _ EK), (nrm_biases_nth m' Hwf' i _ EK'), EM. f_equal. apply map_ext. intro k.
        unfold nint_ext. destruct (Nat.ltb_spec k (nth i (nrm_cats m) O)) as [Hk|]; [|reflexivity]. apply (H i k Hi Hk).
      - rewrite (proj2 (nth_error_None _ _)) by (rewrite nrm_biases_length by exact Hwf; exact Hi). symmetry. apply nth_error_None. rewrite nrm_biases_length by exact Hwf'. rewrite <- EC. exact Hi. }
    unfold nrm_item_parameters. now rewrite EW, EB, EL.
  Qed.
  Lemma nominal_identified :
    (forall thetas, Forall (fun t => length t = nrm_lv m) thetas -> nrm_probabilities m thetas = nrm_probabilities m' thetas) <-> nrm_item_parameters m = nrm_item_parameters m'.
  Proof using Hwf Hwf' Hn EC EL.
    pose proof nominal_max_eq as EM. pose proof (nrm_table m' Hwf' ltac:(rewrite <- EC; exact Hn)) as T'. rewrite <- EC, EM, <- EL in T'. pose proof (proj1 (proj2 Hwf)) as HC. split.
    - intro E. pose proof (tables_entries (nrm_lv m) (length (nrm_cats m)) (nrm_max m) _ _ _ _ (nrm_table m Hwf Hn) T' E) as H. apply nominal_parameters. intros i k Hi Hk.
      destruct (cats_bounds (nrm_cats m) i HC Hi) as [H1 HM]. fold (nrm_max m) in HM. pose proof (nth_error_nth_lt (nrm_cats m) i O Hi) as EK. pose proof EK as EK'. rewrite EC in EK' at 1. set (K := nth i (nrm_cats m) O) in *.
      assert (A : forall k, (k < K)%nat -> (nrm_intercept m i k - nrm_intercept m i 0 = nrm_intercept m' i k - nrm_intercept m' i 0) /\ forall d, (d < nrm_lv m)%nat -> nrm_slope m i k d - nrm_slope m i 0 d = nrm_slope m' i k d - nrm_slope m' i 0 d).
      { intros q Hq. apply (affine_unique (nrm_lv m) (fun d => nrm_slope m i q d - nrm_slope m i 0 d) _ (fun d => nrm_slope m' i q d - nrm_slope m' i 0 d)). intros t Lt.
        assert (L : nrm_z m t i q - nrm_z m t i 0 = nrm_z m' t i q - nrm_z m' t i 0).
        { apply (logits_unique K); [|exact Hq]. intros j Hj. pose proof (H t i j Lt Hi ltac:(lia)) as P. unfold soft in P. fold K in P. destruct (Nat.ltb_spec j K); [exact P|lia]. }
        assert (PD : forall a a', predictor (nrm_lv m) (fun d => a d - a' d) t = predictor (nrm_lv m) a t - predictor (nrm_lv m) a' t).
        { intros a a'. unfold predictor. generalize (nrm_lv m) as n. induction n as [|n IH]; [cbn; ring|]. cbn [sumn]. rewrite IH. ring. }
        rewrite !PD. unfold nrm_z in L. rewrite <- EL in L. lra. }
      split.
      + apply (centred_unique K (nrm_intercept m i) (nrm_intercept m' i) H1); [apply (nrm_identified m Hwf i K O EK)|apply (nrm_identified m' Hwf' i K O EK')|intros q Hq; now apply A|exact Hk].
      + intros d Hd. apply (centred_unique K (fun k => nrm_slope m i k d) (fun k => nrm_slope m' i k d) H1); [apply (nrm_identified m Hwf i K d EK)|apply (nrm_identified m' Hwf' i K d EK')|intros q Hq; now apply A|exact Hk].
    - intro E. apply (model_table_eq (nrm_lv m) (length (nrm_cats m)) (nrm_max m) _ _ _ _ (nrm_table m Hwf Hn) T'). intros t i k Lt Hi Hk. unfold soft.
      destruct (Nat.ltb_spec k (nth i (nrm_cats m) O)) as [HkK|]; [|reflexivity]. apply cp_ext; [exact HkK|]. intros j Hj. pose proof (nth_error_nth_lt (nrm_cats m) i O Hi) as EK. pose proof EK as EK'. rewrite EC in EK' at 1.
      assert (R : forall d, (d < nrm_lv m)%nat -> nrm_slope m i j d = nrm_slope m' i j d /\ nrm_intercept m i j = nrm_intercept m' i j).
      { intros d Hd. destruct (nrm_reported m Hwf i _ j d EK Hj Hd) as [A B]. destruct (nrm_reported m' Hwf' i _ j d EK' Hj ltac:(lia)) as [A' B']. rewrite EM in A'. rewrite E in A, B. split; congruence. }
      unfold nrm_z. rewrite <- EL. destruct (R O (proj1 Hwf)) as [_ ->]. f_equal. apply predictor_ext. intros d Hd. now apply R.
  Qed.
End two_nominal.
