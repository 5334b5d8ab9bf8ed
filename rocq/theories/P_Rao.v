(** Moments of sums over the items of a row of answers; the inequality of Cauchy and Schwarz. *)
From Verif Require Import Base BaseFacts RBase RFacts M_Data M_Logit S_Logit M_Lik M_Est M_Scale S_Lik S_Est S_True S_Pop S_Opt S_Suff S_Scoreq M_Stat M_Info S_Info P_Est2 P_Spline4 P_True1 P_True2 P_Cons1 P_Fit P_Info1 P_Info2 P_Opt1 P_Opt3 P_Pop5 P_Max6 P_Scoreq P_Row S_Rao.
Import List.
Local Open Scope R_scope.

Lemma weighted_cauchy {A} (l : list A) (w a b : A -> R) : (forall x, In x l -> 0 <= w x) ->
  over l (fun x => w x * (a x * b x)) ^ 2 <= over l (fun x => w x * (a x) ^ 2) * over l (fun x => w x * (b x) ^ 2).
Proof.
  intro Hw. set (B := over l (fun x => w x * (a x * b x))). set (A0 := over l (fun x => w x * a x ^ 2)). set (C := over l (fun x => w x * b x ^ 2)).
  assert (Q : forall u v, 0 <= u * u * A0 + 2 * u * v * B + v * v * C).
  { intros u v. replace (u * u * A0 + 2 * u * v * B + v * v * C) with (over l (fun x => w x * (u * a x + v * b x) ^ 2)).
    - apply over_nonneg. intros x Hx. apply Rmult_le_pos; [now apply Hw|apply pow2_ge_0].
    - unfold A0, B, C. rewrite <- !over_scal, <- !over_plus. apply over_ext. intros; ring. }
  assert (HC : 0 <= C) by (apply over_nonneg; intros x Hx; apply Rmult_le_pos; [now apply Hw|apply pow2_ge_0]).
  destruct (Rle_lt_or_eq_dec _ _ HC) as [P|Z].
  - pose proof (Q C (- B)) as H. apply (Rmult_le_reg_l C); [exact P|]. lra.
  - rewrite <- Z in *. destruct (Req_dec B 0) as [->|NB]; [lra|]. exfalso. pose proof (Q 1 (- (A0 + 1) / (2 * B))) as H.
    replace (1 * 1 * A0 + 2 * 1 * (- (A0 + 1) / (2 * B)) * B + - (A0 + 1) / (2 * B) * (- (A0 + 1) / (2 * B)) * 0) with (-1) in H by (field; exact NB). lra.
Qed.

(** A sum over the answered items of a row. *)
Definition row_sum (g : nat -> nat -> R) (row : list cell) : R := sumn (length row) (fun i => match answer (nth i row None) with None => 0 | Some k => g i k end).
Lemma row_sum_cons g c row : row_sum g (c :: row) = match answer c with None => 0 | Some k => g 0%nat k end + row_sum (fun i => g (S i)) row.
Proof. unfold row_sum. cbn [length]. rewrite sumn_S_first. reflexivity. Qed.

Lemma first_moment cats : forall seen f g, length seen = length cats ->
  (forall i, (i < length cats)%nat -> sumn (nth i cats O) (f i) = 1) -> (forall i, (i < length cats)%nat -> sumn (nth i cats O) (fun k => f i k * g i k) = 0) ->
  over (possible_rows cats seen) (fun row => row_product f row * row_sum g row) = 0.
Proof.
  induction cats as [|K cats IH]; intros [|b seen] f g HL H1 H0; try discriminate; [unfold over, row_sum; cbn; ring|].
  assert (J := IH seen (fun i => f (S i)) (fun i => g (S i)) ltac:(cbn [length] in HL; lia) ltac:(intros i Hi; apply (H1 (S i)); cbn [length]; lia) ltac:(intros i Hi; apply (H0 (S i)); cbn [length]; lia)).
  assert (T := rows_total cats seen (fun i => f (S i)) ltac:(cbn [length] in HL; lia) ltac:(intros i Hi; apply (H1 (S i)); cbn [length]; lia)).
  cbn [possible_rows]. destruct b.
  - rewrite over_flat, over_seq. rewrite (sumn_ext _ _ (fun k => f 0%nat k * g 0%nat k)); [exact (H0 0%nat ltac:(cbn; lia))|]. intros k _. rewrite over_map.
    rewrite (over_ext _ _ (fun row => f 0%nat k * g 0%nat k * row_product (fun i => f (S i)) row + f 0%nat k * (row_product (fun i => f (S i)) row * row_sum (fun i => g (S i)) row)))
      by (intros row _; rewrite row_product_cons, row_sum_cons, answer_of_nat; ring).
    rewrite over_plus, !over_scal, T, J. ring.
  - rewrite over_map. rewrite <- J. apply over_ext. intros row _. rewrite row_product_cons, row_sum_cons. cbn [answer]. ring.
Qed.
Lemma second_moment cats : forall seen f g h, length seen = length cats ->
  (forall i, (i < length cats)%nat -> sumn (nth i cats O) (f i) = 1) ->
  (forall i, (i < length cats)%nat -> sumn (nth i cats O) (fun k => f i k * g i k) = 0) -> (forall i, (i < length cats)%nat -> sumn (nth i cats O) (fun k => f i k * h i k) = 0) ->
  over (possible_rows cats seen) (fun row => row_product f row * (row_sum g row * row_sum h row)) =
  sumn (length cats) (fun i => if nth i seen false then sumn (nth i cats O) (fun k => f i k * (g i k * h i k)) else 0).
Proof.
  induction cats as [|K cats IH]; intros [|b seen] f g h HL H1 Hg Hh; try discriminate; [unfold over, row_sum; cbn; ring|].
  assert (J := IH seen (fun i => f (S i)) (fun i => g (S i)) (fun i => h (S i)) ltac:(cbn [length] in HL; lia) ltac:(intros i Hi; apply (H1 (S i)); cbn [length]; lia) ltac:(intros i Hi; apply (Hg (S i)); cbn [length]; lia) ltac:(intros i Hi; apply (Hh (S i)); cbn [length]; lia)).
  assert (T := rows_total cats seen (fun i => f (S i)) ltac:(cbn [length] in HL; lia) ltac:(intros i Hi; apply (H1 (S i)); cbn [length]; lia)).
  assert (Jg := first_moment cats seen (fun i => f (S i)) (fun i => g (S i)) ltac:(cbn [length] in HL; lia) ltac:(intros i Hi; apply (H1 (S i)); cbn [length]; lia) ltac:(intros i Hi; apply (Hg (S i)); cbn [length]; lia)).
  assert (Jh := first_moment cats seen (fun i => f (S i)) (fun i => h (S i)) ltac:(cbn [length] in HL; lia) ltac:(intros i Hi; apply (H1 (S i)); cbn [length]; lia) ltac:(intros i Hi; apply (Hh (S i)); cbn [length]; lia)).
  cbn [length]. rewrite sumn_S_first. cbn [nth]. rewrite <- J. cbn [possible_rows]. set (RP := row_product (fun i => f (S i))) in *. set (Rg := row_sum (fun i => g (S i))) in *. set (Rh := row_sum (fun i => h (S i))) in *. destruct b.
  - rewrite over_flat, over_seq.
    rewrite (sumn_ext K _ (fun k => f 0%nat k * (g 0%nat k * h 0%nat k) + f 0%nat k * over (possible_rows cats seen) (fun row => RP row * (Rg row * Rh row)))).
    + rewrite sumn_plus. assert (Z := H1 0%nat ltac:(cbn; lia)). cbn [nth] in Z. rewrite sumn_scal_r, Z. ring.
    + intros k _. rewrite over_map.
      rewrite (over_ext _ _ (fun row => f 0%nat k * (g 0%nat k * h 0%nat k) * RP row + (f 0%nat k * g 0%nat k * (RP row * Rh row) + (f 0%nat k * h 0%nat k * (RP row * Rg row) + f 0%nat k * (RP row * (Rg row * Rh row))))))
        by (intros row _; rewrite row_product_cons, !row_sum_cons, answer_of_nat; fold RP Rg Rh; ring).
      rewrite !over_plus, !over_scal, T, Jg, Jh. ring.
  - rewrite over_map, Rplus_0_l. apply over_ext. intros row _. rewrite row_product_cons, !row_sum_cons. cbn [answer]. fold RP Rg Rh. ring.
Qed.

(** ** A model that answers row by row, with derivatives *)
Lemma row_model_reads lv cats M probs p : row_model lv cats M probs p -> reads lv (length cats) M probs p.
Proof.
  intros HR thetas r t i k HF Ht Hi Hk. rewrite (row_model_table lv cats M probs p thetas HR HF). unfold at3, at2.
  rewrite nth_error_map, Ht. cbn [option_map]. rewrite nth_error_map, nth_error_seq by exact Hi. cbn [option_map Nat.add]. rewrite nth_error_map, nth_error_seq by exact Hk. reflexivity.
Qed.
Section scores.
  Context (lv : nat) (cats : list nat) (M : nat) (probs : list (list R) -> list (list (list (option R)))) (p : list R -> nat -> nat -> R)
    (HR : row_model lv cats M probs p).
  Lemma cat_at i : (i < length cats)%nat -> nth_error cats i = Some (nth i cats O). Proof. apply nth_error_nth_lt. Qed.
  Lemma model_dist u i : length u = lv -> (i < length cats)%nat -> (1 <= nth i cats O <= M)%nat /\ valid_distribution (nth i cats O) M (p u i).
  Proof. intros Lu Hi. exact (row_model_distribution lv cats M probs p u i _ HR Lu (cat_at i Hi)). Qed.
  Lemma model_pos u i k : length u = lv -> (k < nth i cats O)%nat -> 0 < p u i k.
  Proof.
    intros Lu Hk. destruct (Nat.lt_ge_cases i (length cats)) as [Hi|Hi]; [|rewrite nth_overflow in Hk by exact Hi; lia].
    destruct (model_dist u i Lu Hi) as (_ & V). now apply V.
  Qed.
  Lemma model_total u i : length u = lv -> (i < length cats)%nat -> sumn (nth i cats O) (p u i) = 1.
  Proof.
    intros Lu Hi. destruct (model_dist u i Lu Hi) as ([_ HK] & V). destruct V as (_ & V1 & _ & V3). rewrite <- V1. symmetry. apply sumn_truncate; [exact HK|]. intros k Hk. apply V3; lia.
  Qed.
  Lemma likelihood_pos u row : length u = lv -> legal_row cats row -> 0 < likelihood p u row.
  Proof.
    intros Lu HL. unfold likelihood. apply rprod_pos. apply Forall_forall. intros x Hx. apply In_nth_error in Hx as [i Hi]. rewrite nth_error_mapi in Hi. destruct (nth_error row i) as [y|] eqn:E; [|discriminate]. injection Hi as <-.
    destruct (answer y) as [k|] eqn:Ea; [|lra]. apply model_pos; [exact Lu|]. apply (legal_answer cats row i k HL). now rewrite (nth_error_nth _ _ None E).
  Qed.
  Context (t : list R) (Lt : length t = lv) (D : nat -> nat -> nat -> R) (HD : partials lv (length cats) M p t D).
  Lemma outside_zero i k d : (i < length cats)%nat -> (nth i cats O <= k < M)%nat -> (d < lv)%nat -> D i k d = 0.
  Proof.
    intros Hi Hk Hd. eapply uniqueness_limite; [apply (HD i k d); lia|]. apply (derivable_ext (fun _ => 0)); [|apply derivable_pt_lim_const].
    intro x. symmetry. destruct (model_dist (upd d x t) i ltac:(now rewrite upd_length) Hi) as (_ & V). apply V; lia.
  Qed.
  Lemma model_supported : supported lv (length cats) M p t D.
  Proof.
    intros i k Hi Hk. destruct (Nat.lt_ge_cases k (nth i cats O)) as [Hc|Hc]; [left; now apply model_pos|right].
    split; [destruct (model_dist t i Lt Hi) as (_ & V); apply V; lia|]. intros d Hd. apply outside_zero; auto.
  Qed.
  Definition item_score (d : nat) (i k : nat) : R := D i k d / p t i k.
  Definition answer_score (row : list cell) (d : nat) : R := row_sum (item_score d) row.
  Lemma cancel i d : (i < length cats)%nat -> (d < lv)%nat -> sumn (nth i cats O) (fun k => p t i k * item_score d i k) = 0.
  Proof.
    intros Hi Hd. destruct (model_dist t i Lt Hi) as ([_ HK] & _).
    rewrite (sumn_ext _ _ (fun k => D i k d)) by (intros k Hk; unfold item_score; pose proof (model_pos t i k Lt Hk); field; lra).
    eapply uniqueness_limite; [apply (derivable_sum (nth i cats O) (fun k x => p (upd d x t) i k) (fun k => D i k d)); intros k Hk; apply HD; lia|].
    apply (derivable_ext (fun _ => 1)); [|apply derivable_pt_lim_const]. intro x. symmetry. apply model_total; [now rewrite upd_length|exact Hi].
  Qed.
  Lemma score_partial row d : legal_row cats row -> (d < lv)%nat -> partial_is (fun u => ln (likelihood p u row)) t d (answer_score row d).
  Proof.
    intros HL Hd.
    assert (PS : partial_is (fun u => sumn (length row) (fun i => seen_log p row u i)) t d (answer_score row d)).
    { apply (partial_sum (length row) (fun i u => seen_log p row u i)). intros i Hi. unfold seen_log. destruct (answer (nth i row None)) as [k|] eqn:Ea; [|apply derivable_pt_lim_const].
      destruct (legal_answer _ _ _ _ HL Ea) as [Hk _]. assert (Hic : (i < length cats)%nat) by (destruct (Nat.lt_ge_cases i (length cats)) as [?|Hc]; [assumption|rewrite nth_overflow in Hk by exact Hc; lia]).
      destruct (model_dist t i Lt Hic) as ([_ HK] & _). unfold partial_is, item_score.
      pose proof (model_pos t i k Lt Hk) as P0.
      assert (E : p (upd d (nth d t 0) t) i k = p t i k) by (rewrite upd_same by lia; reflexivity).
      pose proof (derivable_pt_lim_comp (fun x => p (upd d x t) i k) ln (nth d t 0) (D i k d) (/ p (upd d (nth d t 0) t) i k) (HD i k d Hic ltac:(lia) Hd)) as H.
      cbv beta in H. rewrite E in H. specialize (H (derivable_pt_lim_ln _ P0)). unfold Rdiv. rewrite Rmult_comm. exact H. }
    unfold partial_is in *. eapply derivable_ext; [|exact PS]. intro x. cbv beta. symmetry. apply (ln_likelihood lv cats); [intros; now apply model_pos|now rewrite upd_length|exact HL].
  Qed.
  Lemma likelihood_derivative row d : legal_row cats row -> (d < lv)%nat -> partial_is (fun u => likelihood p u row) t d (likelihood p t row * answer_score row d).
  Proof.
    intros HL Hd. pose proof (score_partial row d HL Hd) as H. unfold partial_is in *.
    apply (derivable_ext (fun x => exp (ln (likelihood p (upd d x t) row)))); [intro x; apply exp_ln, likelihood_pos; [now rewrite upd_length|exact HL]|].
    pose proof (derivable_pt_lim_comp _ exp _ _ _ H (derivable_pt_lim_exp _)) as H2. cbv beta in H2. rewrite upd_same in H2 by lia. rewrite exp_ln in H2 by now apply likelihood_pos. exact H2.
  Qed.
  Lemma mean_derivative seen T d : length seen = length cats -> (d < lv)%nat ->
    partial_is (fun u => on_answers cats seen p u T) t d (over (possible_rows cats seen) (fun row => likelihood p t row * (T row * answer_score row d))).
  Proof.
    intros HL Hd. unfold on_answers. fold (over (possible_rows cats seen)). pose proof (fun row H => rows_legal cats seen row HL H) as Leg.
    revert Leg. generalize (possible_rows cats seen). intros l Leg. unfold partial_is, over. induction l as [|row l IH]; cbn [map rsum]; [apply derivable_pt_lim_const|].
    apply (derivable_pt_lim_plus (fun x => likelihood p (upd d x t) row * T row) (fun x => rsum (map (fun row => likelihood p (upd d x t) row * T row) l))); [|apply IH; intros r Hr; apply Leg; now right].
    pose proof (likelihood_derivative row d (Leg row (or_introl eq_refl)) Hd) as H. unfold partial_is in H.
    apply (derivable_ext (fun x => T row * likelihood p (upd d x t) row)); [intro; ring|].
    replace (likelihood p t row * (T row * answer_score row d)) with (T row * (likelihood p t row * answer_score row d)) by ring. now apply derivable_pt_lim_scal.
  Qed.
  Lemma score_mean seen d : length seen = length cats -> (d < lv)%nat -> on_answers cats seen p t (fun row => answer_score row d) = 0.
  Proof.
    intros HL Hd. apply (first_moment cats seen (p t) (item_score d) HL); [intros; now apply model_total|intros; now apply cancel].
  Qed.
  Lemma score_products seen d e : length seen = length cats -> (d < lv)%nat -> (e < lv)%nat ->
    on_answers cats seen p t (fun row => answer_score row d * answer_score row e) = sumn (length cats) (fun i => if nth i seen false then fisher M (p t i) (D i) d e else 0).
  Proof.
    intros HL Hd He. unfold on_answers. change (over (possible_rows cats seen) (fun row => row_product (p t) row * (row_sum (item_score d) row * row_sum (item_score e) row)) = sumn (length cats) (fun i => if nth i seen false then fisher M (p t i) (D i) d e else 0)).
    rewrite (second_moment cats seen (p t) (item_score d) (item_score e) HL); [|intros; now apply model_total|intros; now apply cancel|intros; now apply cancel].
    apply sumn_ext. intros i Hi. destruct (nth i seen false); [|reflexivity]. unfold fisher. destruct (model_dist t i Lt Hi) as ([_ HK] & V).
    rewrite (sumn_truncate (nth i cats O) M); [|exact HK|intros k Hk; destruct (Req_EM_T (p t i k) 0) as [_|N]; [reflexivity|destruct N; apply V; lia]].
    apply sumn_ext. intros k Hk. pose proof (model_pos t i k Lt Hk). destruct (Req_EM_T (p t i k) 0); [lra|]. unfold item_score. field. lra.
  Qed.
  (** The inequality of Cramer and Rao. *)
  Lemma rao seen T d : length seen = length cats -> (d < lv)%nat ->
    exists b, partial_is (fun u => on_answers cats seen p u T) t d b /\
      b ^ 2 <= answers_variance cats seen p t T * sumn (length cats) (fun i => if nth i seen false then fisher M (p t i) (D i) d d else 0).
  Proof.
    intros HL Hd. eexists. split; [now apply mean_derivative|]. set (mu := on_answers cats seen p t T).
    assert (E : over (possible_rows cats seen) (fun row => likelihood p t row * (T row * answer_score row d)) = over (possible_rows cats seen) (fun row => likelihood p t row * ((T row - mu) * answer_score row d))).
    { rewrite (over_ext _ _ (fun row => likelihood p t row * ((T row - mu) * answer_score row d) + mu * (likelihood p t row * answer_score row d))) by (intros; ring).
      rewrite over_plus, over_scal. pose proof (score_mean seen d HL Hd) as Z. change (over (possible_rows cats seen) (fun row => likelihood p t row * answer_score row d) = 0) in Z. rewrite Z. ring. }
    rewrite E. eapply Rle_trans; [apply (weighted_cauchy (possible_rows cats seen) (likelihood p t) (fun row => T row - mu) (fun row => answer_score row d))|].
    - intros row Hr. apply Rlt_le, likelihood_pos; [exact Lt|now apply (rows_legal cats seen)].
    - right. rewrite <- (score_products seen d d HL Hd Hd). unfold answers_variance. fold mu. f_equal. unfold on_answers, over. f_equal. apply map_ext. intro row. ring.
  Qed.
  (** The same for a score that moves with one latent variable only. *)
  Lemma rao_inverse seen T d x : length seen = length cats -> (d < lv)%nat ->
    (forall e, (e < lv)%nat -> partial_is (fun u => on_answers cats seen p u T) t e (if (e =? d)%nat then 1 else 0)) ->
    (forall e, (e < lv)%nat -> sumn lv (fun k => sumn (length cats) (fun i => if nth i seen false then fisher M (p t i) (D i) e k else 0) * x k) = if (e =? d)%nat then 1 else 0) ->
    x d <= answers_variance cats seen p t T.
  Proof.
    intros HL Hd HT HX. set (mu := on_answers cats seen p t T). set (V := answers_variance cats seen p t T). set (W := fun row => sumn lv (fun e => x e * answer_score row e)). set (rows := possible_rows cats seen).
    assert (PW : forall row, In row rows -> 0 <= likelihood p t row) by (intros row Hr; apply Rlt_le, likelihood_pos; [exact Lt|now apply (rows_legal cats seen)]).
    assert (E1 : over rows (fun row => likelihood p t row * ((T row - mu) * W row)) = x d).
    { rewrite (over_ext _ _ (fun row => sumn lv (fun e => x e * (likelihood p t row * (T row * answer_score row e)) - mu * x e * (likelihood p t row * answer_score row e)))).
      - rewrite over_sumn. rewrite (sumn_single lv d); [|exact Hd|].
        + rewrite over_minus, !over_scal. assert (Z := score_mean seen d HL Hd). change (over rows (fun row => likelihood p t row * answer_score row d) = 0) in Z. rewrite Z.
          assert (Y := partial_unique _ _ _ _ _ (mean_derivative seen T d HL Hd) (HT d Hd)). fold rows in Y. rewrite Nat.eqb_refl in Y. rewrite Y. ring.
        + intros e He Hne. rewrite over_minus, !over_scal. assert (Z := score_mean seen e HL He). change (over rows (fun row => likelihood p t row * answer_score row e) = 0) in Z. rewrite Z.
          assert (Y := partial_unique _ _ _ _ _ (mean_derivative seen T e HL He) (HT e He)). fold rows in Y. rewrite (proj2 (Nat.eqb_neq e d) Hne) in Y. rewrite Y. ring.
      - intros row _. unfold W. rewrite <- sumn_scal, <- sumn_scal. apply sumn_ext. intros e _. ring. }
    assert (E2 : over rows (fun row => likelihood p t row * W row ^ 2) = x d).
    { rewrite (over_ext _ _ (fun row => sumn lv (fun e => sumn lv (fun k => x e * x k * (likelihood p t row * (answer_score row e * answer_score row k)))))).
      - rewrite over_sumn. rewrite (sumn_single lv d); [|exact Hd|].
        + rewrite over_sumn. transitivity (x d * sumn lv (fun k => sumn (length cats) (fun i => if nth i seen false then fisher M (p t i) (D i) d k else 0) * x k)).
          * rewrite <- sumn_scal. apply sumn_ext. intros k Hk. rewrite over_scal. rewrite <- (score_products seen d k HL Hd Hk). unfold on_answers, over, rows. ring.
          * rewrite (HX d Hd), Nat.eqb_refl. ring.
        + intros e He Hne. rewrite over_sumn. transitivity (x e * sumn lv (fun k => sumn (length cats) (fun i => if nth i seen false then fisher M (p t i) (D i) e k else 0) * x k)).
          * rewrite <- sumn_scal. apply sumn_ext. intros k Hk. rewrite over_scal. rewrite <- (score_products seen e k HL He Hk). unfold on_answers, over, rows. ring.
          * rewrite (HX e He), (proj2 (Nat.eqb_neq e d) Hne). ring.
      - intros row _. unfold W. replace (sumn lv (fun e => x e * answer_score row e) ^ 2) with (sumn lv (fun e => x e * answer_score row e) * sumn lv (fun e => x e * answer_score row e)) by ring.
        rewrite <- sumn_scal_r, <- sumn_scal. apply sumn_ext. intros e _. rewrite <- sumn_scal, <- sumn_scal. apply sumn_ext. intros k _. ring. }
    pose proof (weighted_cauchy rows (likelihood p t) (fun row => T row - mu) W PW) as C. cbv beta in C. rewrite E1, E2 in C. change (over rows (fun row => likelihood p t row * (T row - mu) ^ 2)) with V in C.
    assert (HV : 0 <= V) by (apply (over_nonneg rows); intros row Hr; apply Rmult_le_pos; [now apply PW|apply pow2_ge_0]).
    assert (HX0 : 0 <= x d) by (rewrite <- E2; apply over_nonneg; intros row Hr; apply Rmult_le_pos; [now apply PW|apply pow2_ge_0]).
    destruct HX0 as [P| <-]; [|exact HV]. apply (Rmult_le_reg_r (x d)); [exact P|]. replace (x d * x d) with (x d ^ 2) by ring. exact C.
  Qed.
End scores.

(** ** Linear log-odds *)
Lemma linear_softs lv cats p w : linear_logits lv cats p w -> exists b, softs lv cats p w b.
Proof. intros (b & H). exists b. exact H. Qed.
Lemma linear_partials lv cats M probs p w t : row_model lv cats M probs p -> linear_logits lv cats p w -> length t = lv -> exists D, partials lv (length cats) M p t D.
Proof.
  intros HR HW Lt. destruct (linear_softs _ _ _ _ HW) as (b & E).
  set (q := fun i => category_probability (nth i cats O) (lin lv w b i t)).
  exists (fun i k d => if (k <? nth i cats O)%nat then q i k * (w i k d - category_mean (nth i cats O) (q i) (fun j => w i j d)) else 0).
  intros i k d Hi Hk Hd. destruct (Nat.ltb_spec k (nth i cats O)) as [Hc|Hc].
  - apply (derivable_ext (fun x => category_probability (nth i cats O) (fun j => lin lv w b i t j + w i j d * (x - nth d t 0)) k)).
    + intro x. symmetry. rewrite E by (rewrite ?upd_length; assumption). apply cp_ext; [exact Hc|]. intros j _. rewrite (lin_affine lv w b i t). f_equal. rewrite (sumn_single lv d); [|exact Hd|].
      * rewrite nth_upd_R by lia. now rewrite Nat.eqb_refl.
      * intros e He Hne. rewrite nth_upd_R by lia. rewrite (proj2 (Nat.eqb_neq e d)) by auto. ring.
    + apply (softmax_derivative (nth i cats O) (lin lv w b i t) (fun j => w i j d) (nth d t 0) k). lia.
  - apply (derivable_ext (fun _ => 0)); [|apply derivable_pt_lim_const]. intro x. symmetry. destruct (model_dist lv cats M probs p HR (upd d x t) i ltac:(now rewrite upd_length) Hi) as (_ & V). apply V; lia.
Qed.
(** With all items answered, the weighted sum score less its mean is the score of the likelihood. *)
Lemma expected_const p w cats : forall row t d, length row = length cats -> (forall i, (i < length cats)%nat -> answer (nth i row None) <> None) ->
  expected_total p w cats row t d = sumn (length cats) (fun i => sumn (nth i cats O) (fun k => w i k d * p t i k)).
Proof.
  intros row t d HL HA. unfold expected_total. rewrite HL. apply sumn_ext. intros i Hi. specialize (HA i Hi). destruct (answer (nth i row None)); [reflexivity|congruence].
Qed.
Lemma all_answered cats : forall row, In row (possible_rows cats (all_seen cats)) -> length row = length cats /\ forall i, (i < length cats)%nat -> answer (nth i row None) <> None.
Proof.
  induction cats as [|K cats IH]; intros row H; cbn in H.
  - destruct H as [<-|[]]. split; [reflexivity|]. cbn. intros; lia.
  - apply in_flat_map in H as (k & Hk & H). apply in_map_iff in H as (row' & <- & H). destruct (IH row' H) as [L HA]. cbn [length]. split; [now rewrite L|]. intros [|i] Hi; cbn [nth]; [rewrite answer_of_nat; discriminate|apply HA; cbn [length] in Hi; lia].
Qed.
Section linear.
  Context (lv : nat) (cats : list nat) (M : nat) (probs : list (list R) -> list (list (list (option R)))) (p : list R -> nat -> nat -> R) (w : nat -> nat -> nat -> R)
    (HR : row_model lv cats M probs p) (HW : linear_logits lv cats p w) (t : list R) (Lt : length t = lv) (D : nat -> nat -> nat -> R) (HD : partials lv (length cats) M p t D).
  Let rows := possible_rows cats (all_seen cats).
  Let lenall : length (all_seen cats) = length cats. Proof. apply map_length. Qed.
  Lemma total_score d : (d < lv)%nat -> exists c, forall row, In row rows -> total w row d = answer_score p t D row d + c.
  Proof.
    intro Hd. destruct (linear_softs _ _ _ _ HW) as (b & E). exists (sumn (length cats) (fun i => sumn (nth i cats O) (fun k => w i k d * p t i k))). intros row Hr.
    assert (HL : legal_row cats row) by (apply (rows_legal cats (all_seen cats)); [exact lenall|exact Hr]). destruct (all_answered cats row Hr) as [L HA].
    pose proof (partial_unique _ _ _ _ _ (softs_partial lv cats p w b row t d E HL Lt Hd) (score_partial lv cats M probs p HR t Lt D HD row d HL Hd)) as H.
    rewrite (expected_const p w cats row t d L HA) in H. lra.
  Qed.
  Lemma total_attains d (a : R) (I : R) : (d < lv)%nat -> I = sumn (length cats) (fun i => fisher M (p t i) (D i) d d) ->
    partial_is (fun u => on_answers cats (all_seen cats) p u (fun row => a * total w row d)) t d (a * I) /\ answers_variance cats (all_seen cats) p t (fun row => a * total w row d) = a ^ 2 * I.
  Proof.
    intros Hd HI. destruct (total_score d Hd) as (c & Hc). pose proof (score_mean lv cats M probs p HR t Lt D HD (all_seen cats) d lenall Hd) as Z. pose proof (score_products lv cats M probs p HR t Lt D HD (all_seen cats) d d lenall Hd Hd) as Q.
    change (over rows (fun row => likelihood p t row * answer_score p t D row d) = 0) in Z. change (over rows (fun row => likelihood p t row * (answer_score p t D row d * answer_score p t D row d)) = sumn (length cats) (fun i => if nth i (all_seen cats) false then fisher M (p t i) (D i) d d else 0)) in Q.
    rewrite (sumn_ext _ _ (fun i => fisher M (p t i) (D i) d d)) in Q by (intros i Hi; unfold all_seen; rewrite (nth_indep _ false ((fun _ : nat => true) 0%nat)) by (now rewrite map_length); now rewrite (map_nth (fun _ : nat => true))). rewrite <- HI in Q.
    assert (O1 : over rows (likelihood p t) = 1). { apply (rows_total cats (all_seen cats) (p t) lenall). intros i Hi. now apply (model_total lv cats M probs p HR). }
    split.
    - pose proof (mean_derivative lv cats M probs p HR t Lt D HD (all_seen cats) (fun row => a * total w row d) d lenall Hd) as H. fold rows in H.
      rewrite (over_ext _ _ (fun row => a * (likelihood p t row * (answer_score p t D row d * answer_score p t D row d)) + a * c * (likelihood p t row * answer_score p t D row d))) in H by (intros row Hr; rewrite (Hc row Hr); ring).
      rewrite over_plus, !over_scal, Q, Z in H. replace (a * I) with (a * I + a * c * 0) by ring. exact H.
    - assert (EM : on_answers cats (all_seen cats) p t (fun row => a * total w row d) = a * c).
      { change (over rows (fun row => likelihood p t row * (a * total w row d)) = a * c). rewrite (over_ext _ _ (fun row => a * (likelihood p t row * answer_score p t D row d) + a * c * likelihood p t row)) by (intros row Hr; rewrite (Hc row Hr); ring). rewrite over_plus, !over_scal, Z, O1. ring. }
      unfold answers_variance. rewrite EM. change (over rows (fun row => likelihood p t row * (a * total w row d - a * c) ^ 2) = a ^ 2 * I).
      rewrite (over_ext _ _ (fun row => a ^ 2 * (likelihood p t row * (answer_score p t D row d * answer_score p t D row d)))) by (intros row Hr; rewrite (Hc row Hr); ring). rewrite over_scal, Q. reflexivity.
  Qed.
End linear.
