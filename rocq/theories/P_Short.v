(** The models with some of their items, after P_Sym2 (there: all items in another order). *)
From Verif Require Import Base BaseFacts RBase RFacts M_Data M_Logit M_Lik M_Est P_Logit P_Logit3 P_Lik5 P_Nest1 P_Nest2 P_Est2 P_Info2 P_Item3 P_Sym1 P_Sym2 P_Sym3 S_Logit S_Lik S_Est S_Sym S_Short.
Import List.
From Coq Require Import Permutation.
Local Open Scope R_scope.

Definition within (order : list nat) (n : nat) : Prop := order <> [] /\ forall j, In j order -> (j < n)%nat.
Lemma within_below order n : within order n -> (0 < length order)%nat /\ (forall j, In j order -> (j < n)%nat) /\ forall i, (i < length order)%nat -> (nth i order O < n)%nat.
Proof. intros [H1 H2]. split; [destruct order; [congruence|cbn; lia]|]. split; [exact H2|]. intros i Hi. apply H2. now apply nth_In. Qed.
Lemma pick_some {A} order (a x : A) n : (forall j, In j order -> (j < n)%nat) -> pick order (repeat a n) x = repeat a (length order).
Proof.
  intros H. induction order as [|j order IH]; [reflexivity|]. cbn [pick map length repeat]. f_equal.
  - apply nth_error_nth. apply nth_error_repeat_lt. apply H. now left.
  - apply IH. intros. apply H. now right.
Qed.
Lemma short_slope lv free w order i d : Forall (fun r => length r = lv) free -> within order (length free) -> (i < length order)%nat ->
  slope (pick order free []) (store_slopes lv (pick order free []) (fun i => slope free w (nth i order O))) i d = slope free w (nth i order O) d.
Proof.
  intros HF HP Hi. destruct (within_below _ _ HP) as (L & B & Bn). rewrite stored_slope; [|now apply pick_Forall|rewrite pick_length; lia].
  rewrite pick_nth by lia. destruct (nth d (nth (nth i order O) free []) false) eqn:E; [reflexivity|]. symmetry. now apply fixed_slope.
Qed.
Lemma short_intercept cats b order i k : within order (length cats) -> (i < length order)%nat ->
  intercept (pick order cats O) (store_intercepts (pick order cats O) (fun i => intercept cats b (nth i order O))) i k = intercept cats b (nth i order O) k.
Proof.
  intros HP Hi. destruct (within_below _ _ HP) as (L & B & Bn). rewrite stored_intercept by (rewrite pick_length; lia). rewrite pick_nth by lia.
  destruct ((1 <=? k)%nat && (k <? nth (nth i order O) cats O)%nat) eqn:E; [reflexivity|]. unfold intercept. now rewrite E.
Qed.
Lemma short_poly_wf m order : poly_wf m -> within order (p_items m) ->
  poly_wf {| p_cats := pick order (p_cats m) O; p_lv := p_lv m; p_free := pick order (p_free m) []; p_w := store_slopes (p_lv m) (pick order (p_free m) []) (fun i => slope (p_free m) (p_w m) (nth i order O));
             p_b := store_intercepts (pick order (p_cats m) O) (fun i => intercept (p_cats m) (p_b m) (nth i order O)) |}.
Proof.
  intros (H1 & H2 & H3 & H4 & H5 & H6) HP. destruct (within_below _ _ HP) as (L & B & Bn). unfold poly_wf, p_items in *. cbn [p_cats p_lv p_free p_w p_b]. rewrite !pick_length.
  assert (HF : Forall (fun r => length r = p_lv m) (pick order (p_free m) [])) by (apply pick_Forall; [now rewrite H3|exact H4]).
  repeat split; auto; [apply pick_Forall; auto|now apply stored_slopes_length|apply stored_intercepts_length].
Qed.
Lemma short_well_formed order x : well_formed x -> within order (length (cats_of x)) -> well_formed (short order x).
Proof.
  destruct x as [m|m|m|m|m|m]; cbn [well_formed cats_of short reorder]; intros H HP; try rewrite repeat_length in HP; destruct (within_below _ _ HP) as (L & B & Bn).
  - destruct H as [H1 H2]. cbn [opl_items opl_b]. rewrite pick_length. auto.
  - destruct H as ((H1 & H2 & H3 & H4) & H5). unfold tpl_items in *. assert (HF : Forall (fun r => length r = tpl_lv m) (pick order (tpl_free m) [])) by (now apply pick_Forall).
    split; [|cbn [tpl_free]; rewrite pick_length; lia]. repeat split; cbn [tpl_lv tpl_free tpl_w tpl_b]; auto; [now apply stored_slopes_length|unfold tpl_items; cbn [tpl_free]; now rewrite !pick_length].
  - destruct H as ((H1 & H2 & H3 & H4 & H4') & H5). unfold thpl_items in *. assert (HF : Forall (fun r => length r = thpl_lv m) (pick order (thpl_free m) [])) by (now apply pick_Forall).
    split; [|cbn [thpl_free]; rewrite pick_length; lia]. repeat split; cbn [thpl_lv thpl_free thpl_w thpl_b thpl_g]; auto; [now apply stored_slopes_length|unfold thpl_items; cbn [thpl_free]; now rewrite !pick_length|unfold thpl_items; cbn [thpl_free]; now rewrite !pick_length].
  - destruct H as [H1 H2]. split; [now apply short_poly_wf|]. unfold p_items in *. cbn [p_cats]. rewrite pick_length. lia.
  - destruct H as (H1 & H2 & H3). split; [now apply short_poly_wf|]. unfold p_items in *. split; [cbn [p_cats]; rewrite pick_length; lia|].
    intros i K j Hi Hj HK. cbn [p_cats p_b] in *. assert (Hi' : (i < length order)%nat) by (rewrite <- (pick_length order (p_cats m) O); apply nth_error_Some; congruence).
    rewrite !short_intercept by auto. assert (E : nth (nth i order O) (p_cats m) O = K) by (rewrite <- pick_nth by lia; now apply nth_error_nth).
    apply (H3 _ K); auto. rewrite <- E. apply nth_error_nth_lt. now apply Bn.
  - destruct H as ((H1 & H2 & H3 & H4 & H5 & H6) & H7). split; [|cbn [nrm_cats]; rewrite pick_length; lia].
    assert (HF : Forall (fun r => length r = nrm_lv m) (pick order (nrm_rel m) [])) by (apply pick_Forall; [now rewrite H3|exact H4]).
    assert (HC : Forall (fun K => (1 <= K)%nat) (pick order (nrm_cats m) O)) by (now apply pick_Forall).
    repeat split; cbn [nrm_lv nrm_cats nrm_rel nrm_w nrm_b]; auto; [now rewrite !pick_length| |apply stored_intercepts_length].
    rewrite ctrue_nrm_free by (cbn [nrm_lv nrm_cats nrm_rel]; rewrite ?pick_length; auto). cbn [nrm_cats nrm_rel]. apply stored_category_slopes_length; [now rewrite !pick_length|exact HF].
Qed.
Lemma short_cats order x : within order (length (cats_of x)) -> cats_of (short order x) = pick order (cats_of x) O.
Proof.
  destruct x as [m|m|m|m|m|m]; cbn [cats_of short reorder]; intro HP; try rewrite repeat_length in HP; destruct (within_below _ _ HP) as (L & B & Bn); try reflexivity.
  - cbn [opl_items]. symmetry. now apply pick_some.
  - unfold tpl_items in *. cbn [tpl_free]. rewrite pick_length. symmetry. now apply pick_some.
  - unfold thpl_items in *. cbn [thpl_free]. rewrite pick_length. symmetry. now apply pick_some.
Qed.
Lemma short_nrm_slope m order b' i k d : nrm_wf m -> within order (length (nrm_cats m)) -> (i < length order)%nat -> (k < nth (nth i order O) (nrm_cats m) O)%nat ->
  nrm_slope {| nrm_cats := pick order (nrm_cats m) O; nrm_lv := nrm_lv m; nrm_rel := pick order (nrm_rel m) []; nrm_w := store_category_slopes (pick order (nrm_cats m) O) (nrm_lv m) (pick order (nrm_rel m) []) (fun i => nrm_free_slope m (nth i order O)); nrm_b := b' |} i k d =
  nrm_slope m (nth i order O) k d.
Proof.
  intros (H1 & H2 & H3 & H4 & H5 & H6) HP Hi Hk. destruct (within_below _ _ HP) as (L & B & Bn).
  assert (HF : Forall (fun r => length r = nrm_lv m) (pick order (nrm_rel m) [])) by (apply pick_Forall; [now rewrite H3|exact H4]).
  assert (Q : forall k, (1 <= k < nth (nth i order O) (nrm_cats m) O)%nat -> nrm_free_slope {| nrm_cats := pick order (nrm_cats m) O; nrm_lv := nrm_lv m; nrm_rel := pick order (nrm_rel m) []; nrm_w := store_category_slopes (pick order (nrm_cats m) O) (nrm_lv m) (pick order (nrm_rel m) []) (fun i => nrm_free_slope m (nth i order O)); nrm_b := b' |} i k d = nrm_free_slope m (nth i order O) k d).
  { intros k' Hk'. rewrite stored_category_slope; [|now rewrite !pick_length|exact HF|rewrite pick_length; lia|rewrite pick_nth by lia; exact Hk'].
    rewrite pick_nth by lia. destruct (nth d (nth (nth i order O) (nrm_rel m) []) false) eqn:E; [reflexivity|]. symmetry. now apply fixed_category_slope. }
  unfold nrm_slope. destruct (Nat.eqb_spec k 0).
  - cbn [nrm_cats]. rewrite pick_nth by lia. f_equal. apply sumn_ext. intros j Hj. apply Q. lia.
  - apply Q. lia.
Qed.
Lemma short_nrm_intercept m order rel' w' i k : within order (length (nrm_cats m)) -> (i < length order)%nat ->
  nrm_intercept {| nrm_cats := pick order (nrm_cats m) O; nrm_lv := nrm_lv m; nrm_rel := rel'; nrm_w := w'; nrm_b := store_intercepts (pick order (nrm_cats m) O) (fun i => intercept (nrm_cats m) (nrm_b m) (nth i order O)) |} i k = nrm_intercept m (nth i order O) k.
Proof.
  intros HP Hi. destruct (within_below _ _ HP) as (L & B & Bn). unfold nrm_intercept. cbn [nrm_cats nrm_b]. rewrite pick_nth by lia. destruct (k =? 0)%nat; [|now apply short_intercept].
  f_equal. apply sumn_ext. intros. now apply short_intercept.
Qed.
Lemma short_chances order x t i k : well_formed x -> within order (length (cats_of x)) -> (i < length order)%nat -> (k < nth (nth i order O) (cats_of x) O)%nat ->
  chances (short order x) t i k = chances x t (nth i order O) k.
Proof.
  destruct x as [m|m|m|m|m|m]; cbn [well_formed cats_of short reorder chances]; intros H HP Hi Hk; try rewrite repeat_length in *; destruct (within_below _ _ HP) as (L & B & Bn).
  - unfold opl_p. cbn [opl_b]. now rewrite pick_nth by lia.
  - destruct H as ((H1 & H2 & H3 & H4) & H5). unfold tpl_items in *. unfold tpl_p. cbn [tpl_lv tpl_free tpl_w tpl_b]. rewrite pick_nth by lia.
    rewrite (predictor_ext _ _ (slope (tpl_free m) (tpl_w m) (nth i order O))) by (intros; now apply short_slope). reflexivity.
  - destruct H as ((H1 & H2 & H3 & H4 & H4') & H5). unfold thpl_items in *. unfold thpl_p. cbn [thpl_lv thpl_free thpl_w thpl_b thpl_g]. rewrite !pick_nth by lia.
    rewrite (predictor_ext _ _ (slope (thpl_free m) (thpl_w m) (nth i order O))) by (intros; now apply short_slope). reflexivity.
  - destruct H as ((H1 & H2 & H3 & H4 & H5 & H6) & H7). unfold p_items in *. unfold gpc_p. cbn [p_cats p_lv p_free p_w p_b]. rewrite pick_nth by lia.
    apply cp_ext; [exact Hk|]. intros j Hj. rewrite short_intercept by auto. rewrite (predictor_ext _ _ (slope (p_free m) (p_w m) (nth i order O))); [reflexivity|]. intros. apply short_slope; auto; rewrite H3; auto.
  - destruct H as ((H1 & H2 & H3 & H4 & H5 & H6) & H7). unfold p_items in *. unfold grm_p. cbn [p_cats p_lv p_free p_w p_b]. rewrite pick_nth by lia. unfold geq_probability. rewrite !short_intercept by auto.
    rewrite (predictor_ext _ _ (slope (p_free m) (p_w m) (nth i order O))); [reflexivity|]. intros. apply short_slope; auto; rewrite H3; auto.
  - destruct H as (H1 & H7). unfold nrm_p. cbn [nrm_cats nrm_lv]. rewrite pick_nth by lia. apply cp_ext; [exact Hk|]. intros j Hj. rewrite short_nrm_intercept by auto. f_equal. apply predictor_ext. intros. now apply short_nrm_slope.
Qed.
Lemma short_legal order cats row : within order (length cats) -> legal_row cats row -> legal_row (pick order cats O) (pick order row None).
Proof.
  intros HP [HL HR]. destruct (within_below _ _ HP) as (L & B & Bn). split; [now rewrite !pick_length|]. intros i c Hc.
  assert (Hi : (i < length order)%nat) by (rewrite <- (pick_length order row None); apply nth_error_Some; congruence). apply (nth_error_nth _ _ None) in Hc. rewrite pick_nth in Hc by exact Hi. rewrite pick_nth by exact Hi.
  apply HR. rewrite <- Hc. apply nth_error_nth_lt. rewrite HL. apply Bn. lia.
Qed.
Lemma short_legal_data order cats data : within order (length cats) -> legal_data cats data -> legal_data (pick order cats O) (map (fun row => pick order row None) data).
Proof. intros HP HD. apply Forall_forall. intros r Hr. apply in_map_iff in Hr as (row & <- & Hrow). apply short_legal; [exact HP|]. unfold legal_data in HD. rewrite Forall_forall in HD. auto. Qed.

(** ** Likelihoods *)
Lemma rprod_app l l' : rprod (l ++ l') = rprod l * rprod l'.
Proof. induction l as [|x l IH]; cbn [app rprod]; [ring|]. rewrite IH. ring. Qed.
Lemma short_likelihood order x t row : well_formed x -> within order (length (cats_of x)) -> legal_row (cats_of x) row ->
  likelihood (chances (short order x)) t (pick order row None) = rprod (map (fun i => factor (chances x) t i (nth i row None)) order).
Proof.
  intros H HP HR. destruct (within_below _ _ HP) as (L & B & Bn). rewrite (likelihood_seq _ _ (pick order row None) (length order)) by (now rewrite pick_length).
  f_equal. apply nth_error_ext. intro i. destruct (Nat.lt_ge_cases i (length order)) as [Hi|Hi].
  - rewrite nth_error_map_seq by lia. rewrite nth_error_map, (nth_error_nth_lt order i O Hi). cbn [option_map Nat.add]. f_equal. rewrite pick_nth by exact Hi. unfold factor.
    destruct (answer (nth (nth i order O) row None)) as [k|] eqn:E; [|reflexivity]. apply short_chances; auto. apply (legal_factor _ row); auto.
  - rewrite (proj2 (nth_error_None _ _)), (proj2 (nth_error_None _ _)); auto; rewrite map_length; [exact Hi|now rewrite seq_length].
Qed.
Lemma halves_likelihood keep rest x t row : well_formed x -> keep <> [] -> rest <> [] -> Permutation (keep ++ rest) (seq 0 (length (cats_of x))) -> legal_row (cats_of x) row ->
  likelihood (chances x) t row = likelihood (chances (short keep x)) t (pick keep row None) * likelihood (chances (short rest x)) t (pick rest row None).
Proof.
  intros H H1 H2 HP HR. assert (B : forall j, In j (keep ++ rest) -> (j < length (cats_of x))%nat) by (intros j Hj; apply (Permutation_in _ HP) in Hj; apply in_seq in Hj; lia).
  rewrite !short_likelihood; auto; try (split; [assumption|intros j Hj; apply B, in_or_app; auto]).
  rewrite (likelihood_seq _ _ row _ (proj1 HR)), <- (rprod_permutation _ _ (Permutation_map (fun i => factor (chances x) t i (nth i row None)) HP)), map_app. apply rprod_app.
Qed.
Lemma selection_rest keep n : selection keep n -> Permutation (keep ++ filter (fun i => negb (existsb (Nat.eqb i) keep)) (seq 0 n)) (seq 0 n).
Proof.
  intros (_ & ND & HB). apply NoDup_Permutation; [|apply seq_NoDup|].
  - assert (NF : NoDup (filter (fun i => negb (existsb (Nat.eqb i) keep)) (seq 0 n))) by apply NoDup_filter, seq_NoDup.
    assert (D : forall i, In i keep -> ~ In i (filter (fun i => negb (existsb (Nat.eqb i) keep)) (seq 0 n))).
    { intros i Hi HI. apply filter_In in HI as [_ HI]. apply Bool.negb_true_iff in HI. assert (existsb (Nat.eqb i) keep = true) by (apply existsb_exists; exists i; split; [exact Hi|apply Nat.eqb_refl]). congruence. }
    clear HB. revert D NF. generalize (filter (fun i => negb (existsb (Nat.eqb i) keep)) (seq 0 n)). intros l D NF. induction ND as [|k keep Hk ND IH]; [exact NF|]. cbn [app]. constructor.
    + intro HI. apply in_app_or in HI as [HI|HI]; [contradiction|]. apply (D k); [now left|exact HI].
    + apply IH. intros i Hi. apply D. now right.
  - intro i. rewrite in_app_iff, filter_In, in_seq. split.
    + intros [Hi|[Hi _]]; [pose proof (HB i Hi); lia|exact Hi].
    + intro Hi. destruct (existsb (Nat.eqb i) keep) eqn:E; [left|right; split; [exact Hi|reflexivity]]. apply existsb_exists in E as (j & Hj & E). apply Nat.eqb_eq in E. now subst j.
Qed.
Lemma only_likelihood keep x t row : well_formed x -> selection keep (length (cats_of x)) -> legal_row (cats_of x) row ->
  (forall i, ~ In i keep -> nth i row None = None \/ nth i row None = Some (-1)%Z) ->
  likelihood (chances (short keep x)) t (pick keep row None) = likelihood (chances x) t row.
Proof.
  intros H HS HR HO. pose proof (selection_rest _ _ HS) as HP. destruct HS as (H1 & H2 & H3). rewrite short_likelihood; [|exact H|split; assumption|exact HR].
  rewrite (likelihood_seq _ _ row _ (proj1 HR)), <- (rprod_permutation _ _ (Permutation_map (fun i => factor (chances x) t i (nth i row None)) HP)), map_app, rprod_app.
  assert (E : rprod (map (fun i => factor (chances x) t i (nth i row None)) (filter (fun i => negb (existsb (Nat.eqb i) keep)) (seq 0 (length (cats_of x))))) = 1); [|rewrite E; ring].
  assert (D : forall i, In i (filter (fun i => negb (existsb (Nat.eqb i) keep)) (seq 0 (length (cats_of x)))) -> ~ In i keep).
  { intros i HI Hi. apply filter_In in HI as [_ HI]. apply Bool.negb_true_iff in HI. assert (existsb (Nat.eqb i) keep = true) by (apply existsb_exists; exists i; split; [exact Hi|apply Nat.eqb_refl]). congruence. }
  revert D. generalize (filter (fun i => negb (existsb (Nat.eqb i) keep)) (seq 0 (length (cats_of x)))). intros l D. induction l as [|i l IH]; cbn [map rprod]; [reflexivity|].
  rewrite IH by (intros; apply D; now right). assert (F : factor (chances x) t i (nth i row None) = 1); [|rewrite F; ring]. unfold factor. destruct (HO i (D i (or_introl eq_refl))) as [-> | ->]; reflexivity.
Qed.
