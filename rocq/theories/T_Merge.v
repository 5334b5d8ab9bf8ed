(** Property C135: graded response items whose neighbouring answers are merged. *)
From Verif Require Import Base BaseFacts RBase RFacts M_Data M_Logit S_Logit M_Lik M_Est M_Scale S_Scale S_Lik S_Est S_Stat S_True S_Pop M_Stat M_Info S_Info P_Logit P_Logit2 P_Logit3 P_Est2 P_Lik5 P_True1 P_Info1 P_Info3 P_Info4 P_Row S_Rao P_Rao S_Merge P_Merge P_Max1 T_Scale T_Info.
Import List.
Local Open Scope R_scope.

(** The probabilities returned by the model with merged answers are the totals of those of the original model. *)
Theorem C135_probabilities : forall m m' c thetas r t i j,
  poly_wf m -> poly_wf m' -> merged m m' c -> Forall (fun t => length t = p_lv m) thetas -> nth_error thetas r = Some t ->
  (i < length (p_cats m))%nat -> (j < nth i (p_cats m') O)%nat ->
  exists q, (forall k, (k < nth i (p_cats m) O)%nat -> at3 (grm_probabilities m thetas) r i k = Some (q k)) /\
    at3 (grm_probabilities m' thetas) r i j = Some (sumn (c i (S j) - c i j) (fun k => q (c i j + k)%nat)).
Proof.
  intros m m' c thetas r t i j Hwf Hwf' HM HF Ht Hi Hj. destruct (HM) as (EL & HL & H). exists (grm_p m t i).
  pose proof (cats_bounds (p_cats m) i (proj1 (proj2 Hwf)) Hi) as [B1 B2]. pose proof (cats_bounds (p_cats m') i (proj1 (proj2 Hwf')) ltac:(rewrite HL; exact Hi)) as [B1' B2']. split.
  - intros k Hk. pose proof (grm_reads m Hwf thetas r t i k HF Ht Hi ltac:(unfold p_max; lia)) as E. cbv beta in E. rewrite some3_at3 in E. destruct (at3 (grm_probabilities m thetas) r i k); [|discriminate]. now injection E as ->.
  - rewrite <- (merged_p m m' c Hwf' HM t i j Hi Hj). pose proof (grm_reads m' Hwf' thetas r t i j ltac:(rewrite EL; exact HF) Ht ltac:(rewrite HL; exact Hi) ltac:(unfold p_max; lia)) as E. cbv beta in E. rewrite some3_at3 in E.
    destruct (at3 (grm_probabilities m' thetas) r i j); [|discriminate]. now injection E as ->.
Qed.
Print Assumptions C135_probabilities.

(** The answers the new model predicts are the merged answers of the original one: averages of every function of a row,
    over the answers to any set of items, agree. *)
Theorem C135_answers : forall m m' c p p' seen t f,
  poly_wf m -> poly_wf m' -> merged m m' c ->
  row_model (p_lv m) (p_cats m) (p_max m) (fun thetas => some3 (grm_probabilities m thetas)) p ->
  row_model (p_lv m') (p_cats m') (p_max m') (fun thetas => some3 (grm_probabilities m' thetas)) p' ->
  length t = p_lv m -> length seen = length (p_cats m) ->
  on_answers (p_cats m') seen p' t f = on_answers (p_cats m) seen p t (fun row => f (merged_row (p_cats m') c row)).
Proof.
  intros m m' c p p' seen t f Hwf Hwf' HM HR HR' Lt Ls. destruct (HM) as (EL & HL & H).
  assert (RD : forall m p, poly_wf m -> row_model (p_lv m) (p_cats m) (p_max m) (fun thetas => some3 (grm_probabilities m thetas)) p -> length t = p_lv m ->
    forall i k, (i < length (p_cats m))%nat -> (k < nth i (p_cats m) O)%nat -> p t i k = grm_p m t i k).
  { intros m0 p0 W0 R0 L0 i k Hi Hk. pose proof (cats_bounds (p_cats m0) i (proj1 (proj2 W0)) Hi) as [B1 B2].
    pose proof (row_model_reads _ _ _ _ _ R0 [t] 0%nat t i k ltac:(repeat constructor; exact L0) eq_refl Hi ltac:(unfold p_max; lia)) as E1.
    pose proof (grm_reads m0 W0 [t] 0%nat t i k ltac:(repeat constructor; exact L0) eq_refl Hi ltac:(unfold p_max; lia)) as E2. cbv beta in E1, E2. rewrite E2 in E1. now injection E1 as ->. }
  refine (merged_rows (p_cats m) (p_cats m') seen c (p t) (p' t) f Ls HL _).
  intros i Hi. destruct (H i Hi) as (_ & C0 & C1 & C2 & _). split; [exact C0|split; [exact C1|split; [exact C2|]]].
  intros j Hj. rewrite (RD m' p' Hwf' HR' ltac:(congruence) i j ltac:(rewrite HL; exact Hi) Hj), (merged_p m m' c Hwf' HM t i j Hi Hj).
  apply sumn_ext. intros q Hq. symmetry. apply (RD m p Hwf HR Lt i _ Hi). rewrite <- C1. pose proof (cuts_le (c i) _ C2 (S j) (nth i (p_cats m') O) ltac:(lia) ltac:(lia)). lia.
Qed.
Print Assumptions C135_answers.

(** Merging loses information: in every direction the information reported for an item, and for the test, is at most that
    of the original model; less for every item with merged answers whose slopes matter in that direction. *)
Theorem C135_information : forall grad solve m m' c scales scales' rescale rescale' thetas r t,
  poly_wf m -> poly_wf m' -> ordered m -> merged m m' c -> autograd_exact grad -> rescale = false \/ scales = [] -> rescale' = false \/ scales' = [] ->
  Forall (fun t => length t = p_lv m) thetas -> nth_error thetas r = Some t ->
  let inform := fun item => model_information grad solve (fun thetas => some3 (grm_probabilities m thetas)) (length (p_cats m)) (p_max m) (p_lv m) scales rescale None item thetas in
  let inform' := fun item => model_information grad solve (fun thetas => some3 (grm_probabilities m' thetas)) (length (p_cats m')) (p_max m') (p_lv m') scales' rescale' None item thetas in
  exists Ii Ii' It It',
    (forall i, (i < length (p_cats m))%nat -> item_matrix_is (p_lv m) (inform true) r i (Ii i) /\ item_matrix_is (p_lv m) (inform' true) r i (Ii' i)) /\
    test_matrix_is (p_lv m) (inform false) r It /\ test_matrix_is (p_lv m) (inform' false) r It' /\
    forall v,
      quadratic_form (p_lv m) It' v <= quadratic_form (p_lv m) It v /\
      forall i, (i < length (p_cats m))%nat -> quadratic_form (p_lv m) (Ii' i) v <= quadratic_form (p_lv m) (Ii i) v /\
        ((nth i (p_cats m') O < nth i (p_cats m) O)%nat -> sumn (p_lv m) (fun d => v d * slope (p_free m) (p_w m) i d) <> 0 ->
          quadratic_form (p_lv m) (Ii' i) v < quadratic_form (p_lv m) (Ii i) v /\ quadratic_form (p_lv m) It' v < quadratic_form (p_lv m) It v).
Proof.
  intros grad solve m m' c scales scales' rescale rescale' thetas r t Hwf Hwf' HO HM HG HP HP' HF Ht inform inform'. destruct (HM) as (EL & HL & H).
  pose proof (merged_ordered m m' c Hwf' HM HO) as HO'.
  destruct (C97_graded grad solve m scales rescale thetas r t Hwf HO HG HP HF Ht) as [I1 I2].
  destruct (C97_graded grad solve m' scales' rescale' thetas r t Hwf' HO' HG HP' ltac:(rewrite EL; exact HF) Ht) as [J1 J2]. cbv zeta in I1, I2, J1, J2.
  fold inform in I1, I2. fold inform' in J1, J2. rewrite EL in J1, J2.
  set (V := fun i => sumn (nth i (p_cats m) O) (fun k => (grm_W m t i k - grm_W m t i (S k)) ^ 2 / (grm_g m t i k - grm_g m t i (S k)))).
  set (V' := fun i => sumn (nth i (p_cats m') O) (fun k => (grm_W m' t i k - grm_W m' t i (S k)) ^ 2 / (grm_g m' t i k - grm_g m' t i (S k)))).
  set (a := slope (p_free m) (p_w m)).
  assert (L : forall i, (i < length (p_cats m))%nat -> V' i <= V i /\ ((nth i (p_cats m') O < nth i (p_cats m) O)%nat -> V' i < V i)) by (intros i Hi; exact (merged_loss m m' c Hwf' HM HO t i Hi)).
  exists (fun i d e => a i d * a i e * V i), (fun i d e => a i d * a i e * V' i), (fun d e => sumn (length (p_cats m)) (fun i => a i d * a i e * V i)), (fun d e => sumn (length (p_cats m)) (fun i => a i d * a i e * V' i)).
  assert (SQ : forall i v, 0 <= sumn (p_lv m) (fun d => v d * a i d) ^ 2) by (intros; apply pow2_ge_0).
  assert (LE : forall i v, (i < length (p_cats m))%nat -> quadratic_form (p_lv m) (fun d e => a i d * a i e * V' i) v <= quadratic_form (p_lv m) (fun d e => a i d * a i e * V i) v).
  { intros i v Hi. rewrite !outer_form. apply Rmult_le_compat_l; [apply SQ|now apply L]. }
  assert (ST : forall i v, (i < length (p_cats m))%nat -> (nth i (p_cats m') O < nth i (p_cats m) O)%nat -> sumn (p_lv m) (fun d => v d * a i d) <> 0 ->
    quadratic_form (p_lv m) (fun d e => a i d * a i e * V' i) v < quadratic_form (p_lv m) (fun d e => a i d * a i e * V i) v).
  { intros i v Hi HK Hv. rewrite !outer_form. apply Rmult_lt_compat_l; [|now apply L]. replace (sumn (p_lv m) (fun d => v d * a i d) ^ 2) with (Rsqr (sumn (p_lv m) (fun d => v d * a i d))) by (unfold Rsqr; ring). now apply Rlt_0_sqr. }
  split; [|split; [|split]].
  - intros i Hi. split; [exact (I1 i Hi)|]. unfold inform'. rewrite EL. eapply matrix_ext; [exact (J1 i ltac:(rewrite HL; exact Hi))|]. intros d e Hd He. destruct (H i Hi) as (HS & _). cbv beta. rewrite !HS by assumption. unfold V', grm_W, grm_g, grm_z. rewrite EL. reflexivity.
  - exact I2.
  - unfold inform'. rewrite EL. eapply test_ext; [exact J2|]. intros d e Hd He. cbv beta. rewrite HL. apply sumn_ext. intros i Hi. destruct (H i Hi) as (HS & _). rewrite !HS by assumption. unfold V', grm_W, grm_g, grm_z. rewrite EL. reflexivity.
  - intro v. rewrite !form_sum. split; [apply sumn_le; intros i Hi; now apply LE|].
    intros i Hi. split; [now apply LE|]. intros HK Hv. split; [now apply ST|]. apply P_Max1.sumn_lt; [intros; now apply LE|]. exists i. split; [exact Hi|now apply ST].
Qed.
Print Assumptions C135_information.

(** Nothing of the sort holds for partial credit items: for the three answers with intercepts 0 and slope 1, whether the
    last one is chosen follows no partial credit (two parameter) item. *)
Definition partial_credit_item : poly := {| p_cats := [3%nat]; p_lv := 1; p_free := [[true]]; p_w := [1]; p_b := [0; 0] |}.
Lemma partial_credit_last x : at3 (gpc_probabilities partial_credit_item [[x]]) 0 0 2 = Some (Some (exp x * exp x / (1 + exp x + exp x * exp x))).
Proof.
  rewrite (gpc_probs_spec partial_credit_item [[x]] 0 [x] 0 3 2); [|unfold poly_wf; cbn; repeat split; auto; repeat constructor|repeat constructor|reflexivity|reflexivity|cbn; lia].
  cbn [Nat.ltb Nat.leb]. do 2 f_equal. unfold category_probability, predictor, slope, intercept. cbn. rewrite !Rplus_0_l, !Rmult_0_l, !Rplus_0_r, exp_0, Rmult_1_l.
  replace ((1 + 1) * x) with (x + x) by ring. rewrite exp_plus. replace (1 * x) with x by ring. reflexivity.
Qed.
Theorem C135_credit_items : ~ exists m', poly_wf m' /\ p_lv m' = 1%nat /\ p_cats m' = [2%nat] /\
  forall x, at3 (gpc_probabilities m' [[x]]) 0 0 1 = at3 (gpc_probabilities partial_credit_item [[x]]) 0 0 2.
Proof.
  intros (m' & W & EL & EC & HE). set (a := slope (p_free m') (p_w m') 0 0). set (b := intercept (p_cats m') (p_b m') 0 1).
  assert (E : forall x, exp (a * x + b) * (1 + exp x) = exp x * exp x).
  { intro x. specialize (HE x). rewrite partial_credit_last in HE.
    rewrite (gpc_probs_spec m' [[x]] 0 [x] 0 2 1) in HE; [|exact W|rewrite EL; repeat constructor|reflexivity|now rewrite EC|unfold p_max; rewrite EC; cbn; lia].
    cbn [Nat.ltb Nat.leb] in HE. injection HE as HE. unfold category_probability, predictor in HE. rewrite EL in HE. cbn [sumn nth INR] in HE. fold a b in HE.
    assert (I0 : intercept (p_cats m') (p_b m') 0 0 = 0) by reflexivity. rewrite I0, Rmult_0_l, !Rplus_0_l, exp_0, Rmult_1_l in HE. pose proof (exp_pos x) as Px. pose proof (exp_pos (a * x + b)) as Pz. set (u := exp x) in *. set (z := exp (a * x + b)) in *.
    assert (Q : z * (1 + u + u * u) = u * u * (1 + z)). { apply (f_equal (fun y => y * ((1 + z) * (1 + u + u * u)))) in HE. replace (z / (1 + z) * ((1 + z) * (1 + u + u * u))) with (z * (1 + u + u * u)) in HE by (field; lra). replace (u * u / (1 + u + u * u) * ((1 + z) * (1 + u + u * u))) with (u * u * (1 + z)) in HE by (field; nra). exact HE. }
    lra. }
  pose proof (E 0) as E0. pose proof (E (ln 2)) as E1. pose proof (E (ln 2 + ln 2)) as E2. rewrite Rmult_0_r, Rplus_0_l, exp_0 in E0.
  rewrite exp_plus, exp_ln in E1 by lra. rewrite (exp_plus (ln 2)), !exp_ln in E2 by lra. replace (a * (ln 2 + ln 2) + b) with (a * ln 2 + (a * ln 2 + b)) in E2 by ring. rewrite !exp_plus in E2.
  set (A := exp (a * ln 2)) in *. set (B := exp b) in *. assert (HB : B = 1 / 2) by lra. rewrite HB in *. assert (HA : A = 8 / 3) by lra. rewrite HA in E2. lra.
Qed.
Print Assumptions C135_credit_items.

(** Four answers of one item become two ({0, 1} and {2, 3}); the other item is left alone. *)
Definition ex_four : poly := {| p_cats := [4%nat; 2%nat]; p_lv := 1; p_free := [[true]; [true]]; p_w := [2; -1]; p_b := [1; 0; -1; 3] |}.
Definition ex_two : poly := {| p_cats := [2%nat; 2%nat]; p_lv := 1; p_free := [[true]; [true]]; p_w := [2; -1]; p_b := [0; 3] |}.
Definition ex_cuts (i j : nat) : nat := if (i =? 0)%nat then (2 * j)%nat else j.
Example C135_nonvacuous : poly_wf ex_four /\ poly_wf ex_two /\ ordered ex_four /\ merged ex_four ex_two ex_cuts /\
  row_model 1 [4%nat; 2%nat] 4 (fun thetas => some3 (grm_probabilities ex_four thetas)) (grm_p ex_four) /\
  row_model 1 [2%nat; 2%nat] 2 (fun thetas => some3 (grm_probabilities ex_two thetas)) (grm_p ex_two) /\
  merged_row [2%nat; 2%nat] ex_cuts [Some 1%Z; None] = [Some 0%Z; None] /\ merged_row [2%nat; 2%nat] ex_cuts [Some 3%Z; Some 1%Z] = [Some 1%Z; Some 1%Z] /\
  exists grad, autograd_exact grad.
Proof.
  assert (W4 : poly_wf ex_four) by (unfold poly_wf; cbn; repeat split; auto; repeat constructor).
  assert (W2 : poly_wf ex_two) by (unfold poly_wf; cbn; repeat split; auto; repeat constructor).
  assert (O4 : ordered ex_four) by (intros [|[|i]] [|[|[|k]]] Hi H1 H2; cbn in *; try lia; unfold intercept; cbn; lra).
  assert (MG : merged ex_four ex_two ex_cuts).
  { split; [reflexivity|split; [reflexivity|]]. intros [|[|i]] Hi; [| |cbn in Hi; lia].
    - split; [intros [|d] Hd; [reflexivity|cbn in Hd; lia]|split; [reflexivity|split; [reflexivity|split; [intros; unfold ex_cuts; cbn; lia|]]]]. intros [|[|j]] Hj; cbn in Hj; try lia. reflexivity.
    - split; [intros [|d] Hd; [reflexivity|cbn in Hd; lia]|split; [reflexivity|split; [reflexivity|split; [intros; unfold ex_cuts; cbn; lia|]]]]. intros [|[|j]] Hj; cbn in Hj; try lia. reflexivity. }
  split; [exact W4|split; [exact W2|split; [exact O4|split; [exact MG|]]]].
  split; [exact (grm_row_model ex_four W4 O4 ltac:(cbn; lia))|]. split; [exact (grm_row_model ex_two W2 (merged_ordered _ _ _ W2 MG O4) ltac:(cbn; lia))|].
  split; [reflexivity|split; [reflexivity|exact autograd_exists]].
Qed.
