(** The models with reordered items and rescaled latent variables. *)
From Verif Require Import Base BaseFacts RBase RFacts M_Data M_Logit M_Lik M_Est P_Logit P_Logit3 P_Lik5 P_Nest1 P_Nest2 P_Est2 P_Info2 P_Item3 P_Sym1 S_Logit S_Lik S_Est S_Sym.
Import List.
From Coq Require Import Permutation.
Local Open Scope R_scope.

Lemma model_library nanl x : well_formed x -> library_model (model_of nanl x) (chances x).
Proof. destruct x; cbn [well_formed model_of chances]; intros H; constructor; tauto. Qed.
Lemma model_lv nanl x : em_lv (model_of nanl x) = latents x.
Proof. destruct x; reflexivity. Qed.
Definition cats_of (x : irt) : list nat :=
  match x with Opl m => repeat 2%nat (opl_items m) | Tpl m => repeat 2%nat (tpl_items m) | Thpl m => repeat 2%nat (thpl_items m) | Gpc m | Grm m => p_cats m | Nrm m => nrm_cats m end.
Lemma model_cats nanl x : em_cats (model_of nanl x) = cats_of x.
Proof. destruct x; reflexivity. Qed.
Lemma pick_length {A} order (l : list A) x : length (pick order l x) = length order.
Proof. apply map_length. Qed.
Lemma pick_nth {A} order (l : list A) x i : (i < length order)%nat -> nth i (pick order l x) x = nth (nth i order O) l x.
Proof. intro Hi. unfold pick. rewrite (nth_indep _ x (nth O l x)) by (rewrite map_length; exact Hi). exact (map_nth (fun j => nth j l x) order O i). Qed.
Lemma pick_Forall {A} (P : A -> Prop) order l x : (forall j, In j order -> (j < length l)%nat) -> Forall P l -> Forall P (pick order l x).
Proof. intros H HF. apply Forall_forall. intros y Hy. apply in_map_iff in Hy as (j & <- & Hj). rewrite Forall_forall in HF. apply HF. apply nth_In. auto. Qed.
Lemma pick_repeat {A} order (a x : A) n : (forall j, In j order -> (j < n)%nat) -> length order = n -> pick order (repeat a n) x = repeat a n.
Proof.
  intros H HL. rewrite <- HL at 2. clear HL. induction order as [|j order IH]; [reflexivity|]. cbn [pick map length repeat]. f_equal.
  - apply nth_error_nth. apply nth_error_repeat_lt. apply H. now left.
  - apply IH. intros. apply H. now right.
Qed.
Lemma order_below order n : Permutation order (seq 0 n) -> length order = n /\ (forall j, In j order -> (j < n)%nat) /\ forall i, (i < n)%nat -> (nth i order O < n)%nat.
Proof.
  intro H. assert (L : length order = n) by (rewrite (Permutation_length H); apply seq_length). assert (B : forall j, In j order -> (j < n)%nat) by (intros j Hj; apply (Permutation_in _ H) in Hj; apply in_seq in Hj; lia).
  split; [exact L|]. split; [exact B|]. intros i Hi. apply B. apply nth_In. lia.
Qed.
Lemma predictor_ext lv a a' t : (forall d, (d < lv)%nat -> a d = a' d) -> predictor lv a t = predictor lv a' t.
Proof. intro H. unfold predictor. apply sumn_ext. intros d Hd. now rewrite H. Qed.
Lemma reordered_slope lv free w order i d : Forall (fun r => length r = lv) free -> Permutation order (seq 0 (length free)) -> (i < length free)%nat ->
  slope (pick order free []) (store_slopes lv (pick order free []) (fun i => slope free w (nth i order O))) i d = slope free w (nth i order O) d.
Proof.
  intros HF HP Hi. destruct (order_below _ _ HP) as (L & B & Bn). rewrite stored_slope; [|now apply pick_Forall|rewrite pick_length; lia].
  rewrite pick_nth by lia. destruct (nth d (nth (nth i order O) free []) false) eqn:E; [reflexivity|]. symmetry. now apply fixed_slope.
Qed.
Lemma reordered_intercept cats b order i k : Permutation order (seq 0 (length cats)) -> (i < length cats)%nat ->
  intercept (pick order cats O) (store_intercepts (pick order cats O) (fun i => intercept cats b (nth i order O))) i k = intercept cats b (nth i order O) k.
Proof.
  intros HP Hi. destruct (order_below _ _ HP) as (L & B & Bn). rewrite stored_intercept by (rewrite pick_length; lia). rewrite pick_nth by lia.
  destruct ((1 <=? k)%nat && (k <? nth (nth i order O) cats O)%nat) eqn:E; [reflexivity|]. unfold intercept. now rewrite E.
Qed.
Lemma reordered_poly_wf m order : poly_wf m -> Permutation order (seq 0 (p_items m)) ->
  poly_wf {| p_cats := pick order (p_cats m) O; p_lv := p_lv m; p_free := pick order (p_free m) []; p_w := store_slopes (p_lv m) (pick order (p_free m) []) (fun i => slope (p_free m) (p_w m) (nth i order O));
             p_b := store_intercepts (pick order (p_cats m) O) (fun i => intercept (p_cats m) (p_b m) (nth i order O)) |}.
Proof.
  intros (H1 & H2 & H3 & H4 & H5 & H6) HP. destruct (order_below _ _ HP) as (L & B & Bn). unfold poly_wf, p_items in *. cbn [p_cats p_lv p_free p_w p_b]. rewrite !pick_length.
  assert (HF : Forall (fun r => length r = p_lv m) (pick order (p_free m) [])) by (apply pick_Forall; [now rewrite H3|exact H4]).
  repeat split; auto; [apply pick_Forall; auto|now apply stored_slopes_length|apply stored_intercepts_length].
Qed.
Lemma reordered_well_formed order x : well_formed x -> Permutation order (seq 0 (length (cats_of x))) -> well_formed (reorder order x).
Proof.
  destruct x as [m|m|m|m|m|m]; cbn [well_formed cats_of reorder]; intros H HP; try rewrite repeat_length in HP; destruct (order_below _ _ HP) as (L & B & Bn).
  - destruct H as [H1 H2]. cbn [opl_items opl_b]. rewrite pick_length. auto.
  - destruct H as ((H1 & H2 & H3 & H4) & H5). unfold tpl_items in *. assert (HF : Forall (fun r => length r = tpl_lv m) (pick order (tpl_free m) [])) by (now apply pick_Forall).
    split; [|cbn [tpl_free]; rewrite pick_length; lia]. repeat split; cbn [tpl_lv tpl_free tpl_w tpl_b]; auto; [now apply stored_slopes_length|unfold tpl_items; cbn [tpl_free]; now rewrite !pick_length].
  - destruct H as ((H1 & H2 & H3 & H4 & H4') & H5). unfold thpl_items in *. assert (HF : Forall (fun r => length r = thpl_lv m) (pick order (thpl_free m) [])) by (now apply pick_Forall).
    split; [|cbn [thpl_free]; rewrite pick_length; lia]. repeat split; cbn [thpl_lv thpl_free thpl_w thpl_b thpl_g]; auto; [now apply stored_slopes_length|unfold thpl_items; cbn [thpl_free]; now rewrite !pick_length|unfold thpl_items; cbn [thpl_free]; now rewrite !pick_length].
  - destruct H as [H1 H2]. split; [now apply reordered_poly_wf|]. unfold p_items in *. cbn [p_cats]. rewrite pick_length. lia.
  - destruct H as (H1 & H2 & H3). split; [now apply reordered_poly_wf|]. unfold p_items in *. split; [cbn [p_cats]; rewrite pick_length; lia|].
    intros i K j Hi Hj HK. cbn [p_cats p_b] in *. assert (Hi' : (i < length (p_cats m))%nat) by (rewrite <- L, <- (pick_length order (p_cats m) O); apply nth_error_Some; congruence).
    rewrite !reordered_intercept by auto. assert (E : nth (nth i order O) (p_cats m) O = K) by (rewrite <- pick_nth by lia; now apply nth_error_nth).
    apply (H3 _ K); auto. rewrite <- E. apply nth_error_nth_lt. now apply Bn.
  - destruct H as ((H1 & H2 & H3 & H4 & H5 & H6) & H7). split; [|cbn [nrm_cats]; rewrite pick_length; lia].
    assert (HF : Forall (fun r => length r = nrm_lv m) (pick order (nrm_rel m) [])) by (apply pick_Forall; [now rewrite H3|exact H4]).
    assert (HC : Forall (fun K => (1 <= K)%nat) (pick order (nrm_cats m) O)) by (now apply pick_Forall).
    repeat split; cbn [nrm_lv nrm_cats nrm_rel nrm_w nrm_b]; auto; [now rewrite !pick_length| |apply stored_intercepts_length].
    rewrite ctrue_nrm_free by (cbn [nrm_lv nrm_cats nrm_rel]; rewrite ?pick_length; auto). cbn [nrm_cats nrm_rel]. apply stored_category_slopes_length; [now rewrite !pick_length|exact HF].
Qed.
Lemma reordered_cats order x : Permutation order (seq 0 (length (cats_of x))) -> cats_of (reorder order x) = pick order (cats_of x) O.
Proof.
  destruct x as [m|m|m|m|m|m]; cbn [cats_of reorder]; intro HP; try rewrite repeat_length in HP; destruct (order_below _ _ HP) as (L & B & Bn); try reflexivity.
  - cbn [opl_items]. symmetry. now apply pick_repeat.
  - unfold tpl_items in *. cbn [tpl_free]. rewrite pick_length, L. symmetry. now apply pick_repeat.
  - unfold thpl_items in *. cbn [thpl_free]. rewrite pick_length, L. symmetry. now apply pick_repeat.
Qed.
Lemma reordered_nrm_slope m order b' i k d : nrm_wf m -> Permutation order (seq 0 (length (nrm_cats m))) -> (i < length (nrm_cats m))%nat -> (k < nth (nth i order O) (nrm_cats m) O)%nat ->
  nrm_slope {| nrm_cats := pick order (nrm_cats m) O; nrm_lv := nrm_lv m; nrm_rel := pick order (nrm_rel m) []; nrm_w := store_category_slopes (pick order (nrm_cats m) O) (nrm_lv m) (pick order (nrm_rel m) []) (fun i => nrm_free_slope m (nth i order O)); nrm_b := b' |} i k d =
  nrm_slope m (nth i order O) k d.
Proof.
  intros (H1 & H2 & H3 & H4 & H5 & H6) HP Hi Hk. destruct (order_below _ _ HP) as (L & B & Bn).
  assert (HF : Forall (fun r => length r = nrm_lv m) (pick order (nrm_rel m) [])) by (apply pick_Forall; [now rewrite H3|exact H4]).
  assert (Q : forall k, (1 <= k < nth (nth i order O) (nrm_cats m) O)%nat -> nrm_free_slope {| nrm_cats := pick order (nrm_cats m) O; nrm_lv := nrm_lv m; nrm_rel := pick order (nrm_rel m) []; nrm_w := store_category_slopes (pick order (nrm_cats m) O) (nrm_lv m) (pick order (nrm_rel m) []) (fun i => nrm_free_slope m (nth i order O)); nrm_b := b' |} i k d = nrm_free_slope m (nth i order O) k d).
  { intros k' Hk'. rewrite stored_category_slope; [|now rewrite !pick_length|exact HF|rewrite pick_length; lia|rewrite pick_nth by lia; exact Hk'].
    rewrite pick_nth by lia. destruct (nth d (nth (nth i order O) (nrm_rel m) []) false) eqn:E; [reflexivity|]. symmetry. now apply fixed_category_slope. }
  unfold nrm_slope. destruct (Nat.eqb_spec k 0).
  - cbn [nrm_cats]. rewrite pick_nth by lia. f_equal. apply sumn_ext. intros j Hj. apply Q. lia.
  - apply Q. lia.
Qed.
Lemma reordered_nrm_intercept m order rel' w' i k : Permutation order (seq 0 (length (nrm_cats m))) -> (i < length (nrm_cats m))%nat ->
  nrm_intercept {| nrm_cats := pick order (nrm_cats m) O; nrm_lv := nrm_lv m; nrm_rel := rel'; nrm_w := w'; nrm_b := store_intercepts (pick order (nrm_cats m) O) (fun i => intercept (nrm_cats m) (nrm_b m) (nth i order O)) |} i k = nrm_intercept m (nth i order O) k.
Proof.
  intros HP Hi. destruct (order_below _ _ HP) as (L & B & Bn). unfold nrm_intercept. cbn [nrm_cats nrm_b]. rewrite pick_nth by lia. destruct (k =? 0)%nat; [|now apply reordered_intercept].
  f_equal. apply sumn_ext. intros. now apply reordered_intercept.
Qed.
Lemma reordered_chances order x t i k : well_formed x -> Permutation order (seq 0 (length (cats_of x))) -> (i < length (cats_of x))%nat -> (k < nth (nth i order O) (cats_of x) O)%nat ->
  chances (reorder order x) t i k = chances x t (nth i order O) k.
Proof.
  destruct x as [m|m|m|m|m|m]; cbn [well_formed cats_of reorder chances]; intros H HP Hi Hk; try rewrite repeat_length in *; destruct (order_below _ _ HP) as (L & B & Bn).
  - unfold opl_p. cbn [opl_b]. now rewrite pick_nth by lia.
  - destruct H as ((H1 & H2 & H3 & H4) & H5). unfold tpl_items in *. unfold tpl_p. cbn [tpl_lv tpl_free tpl_w tpl_b]. rewrite pick_nth by lia.
    rewrite (predictor_ext _ _ (slope (tpl_free m) (tpl_w m) (nth i order O))) by (intros; now apply reordered_slope). reflexivity.
  - destruct H as ((H1 & H2 & H3 & H4 & H4') & H5). unfold thpl_items in *. unfold thpl_p. cbn [thpl_lv thpl_free thpl_w thpl_b thpl_g]. rewrite !pick_nth by lia.
    rewrite (predictor_ext _ _ (slope (thpl_free m) (thpl_w m) (nth i order O))) by (intros; now apply reordered_slope). reflexivity.
  - destruct H as ((H1 & H2 & H3 & H4 & H5 & H6) & H7). unfold p_items in *. unfold gpc_p. cbn [p_cats p_lv p_free p_w p_b]. rewrite pick_nth by lia.
    apply cp_ext; [exact Hk|]. intros j Hj. rewrite reordered_intercept by auto. rewrite (predictor_ext _ _ (slope (p_free m) (p_w m) (nth i order O))); [reflexivity|]. intros. apply reordered_slope; auto; rewrite H3; auto.
  - destruct H as ((H1 & H2 & H3 & H4 & H5 & H6) & H7). unfold p_items in *. unfold grm_p. cbn [p_cats p_lv p_free p_w p_b]. rewrite pick_nth by lia. unfold geq_probability. rewrite !reordered_intercept by auto.
    rewrite (predictor_ext _ _ (slope (p_free m) (p_w m) (nth i order O))); [reflexivity|]. intros. apply reordered_slope; auto; rewrite H3; auto.
  - destruct H as (H1 & H7). unfold nrm_p. cbn [nrm_cats nrm_lv]. rewrite pick_nth by lia. apply cp_ext; [exact Hk|]. intros j Hj. rewrite reordered_nrm_intercept by auto. f_equal. apply predictor_ext. intros. now apply reordered_nrm_slope.
Qed.

(** ** Origin, unit and sign *)
Lemma standard_length s c t : length (standard s c t) = length t.
Proof. unfold standard. now rewrite map_length, seq_length. Qed.
Lemma standard_nth s c t d : (d < length t)%nat -> nth d (standard s c t) 0 = (nth d t 0 - nth d c 0) / nth d s 1.
Proof. intro H. unfold standard. exact (nth_map_seq (fun d => (nth d t 0 - nth d c 0) / nth d s 1) (length t) d 0 H). Qed.
Lemma standard_predictor lv a s c t : (forall d, nth d s 1 <> 0) -> length t = lv -> predictor lv (fun d => nth d s 1 * a d) (standard s c t) + predictor lv a c = predictor lv a t.
Proof.
  intros Hs Ht. unfold predictor. rewrite <- sumn_plus. apply sumn_ext. intros d Hd. rewrite standard_nth by lia. field. apply Hs.
Qed.
Lemma rescaled_slope lv free w s i d : Forall (fun r => length r = lv) free -> (i < length free)%nat ->
  slope free (store_slopes lv free (fun i d => nth d s 1 * slope free w i d)) i d = nth d s 1 * slope free w i d.
Proof.
  intros HF Hi. rewrite stored_slope by auto. destruct (nth d (nth i free []) false) eqn:E; [reflexivity|]. rewrite fixed_slope by exact E. ring.
Qed.
Lemma rescaled_predictor lv free w s c t i : Forall (fun r => length r = lv) free -> (i < length free)%nat -> (forall d, nth d s 1 <> 0) -> length t = lv ->
  predictor lv (slope free (store_slopes lv free (fun i d => nth d s 1 * slope free w i d)) i) (standard s c t) = predictor lv (slope free w i) t - predictor lv (slope free w i) c.
Proof.
  intros HF Hi Hs Ht. rewrite (predictor_ext _ _ (fun d => nth d s 1 * slope free w i d)) by (intros; now apply rescaled_slope). rewrite <- (standard_predictor lv (slope free w i) s c t Hs Ht). ring.
Qed.
Lemma rescaled_cats s c x : cats_of (rescale s c x) = cats_of x.
Proof. destruct x; reflexivity. Qed.
Lemma rescaled_latents s c x : latents (rescale s c x) = latents x.
Proof. destruct x; reflexivity. Qed.
Lemma mapi_length {A B} (f : nat -> A -> B) l : length (mapi f l) = length l.
Proof. unfold mapi. generalize O. induction l as [|a l IH]; intro n; [reflexivity|]. cbn. now rewrite IH. Qed.
Lemma mapi_at (f : nat -> R -> R) l i : (i < length l)%nat -> nth i (mapi f l) 0 = f i (nth i l 0).
Proof. intro H. apply nth_error_nth. rewrite nth_error_mapi, (nth_error_nth_lt l i 0 H). reflexivity. Qed.
Lemma rescaled_poly_wf m s B : poly_wf m ->
  poly_wf {| p_cats := p_cats m; p_lv := p_lv m; p_free := p_free m; p_w := store_slopes (p_lv m) (p_free m) (fun i d => nth d s 1 * slope (p_free m) (p_w m) i d); p_b := store_intercepts (p_cats m) B |}.
Proof.
  intros (H1 & H2 & H3 & H4 & H5 & H6). unfold poly_wf, p_items in *. cbn [p_cats p_lv p_free p_w p_b]. repeat split; auto; [now apply stored_slopes_length|apply stored_intercepts_length].
Qed.
Lemma rescaled_well_formed s c x : well_formed x -> well_formed (rescale s c x).
Proof.
  destruct x as [m|m|m|m|m|m]; cbn [well_formed rescale]; intros H.
  - destruct H as [H1 H2]. cbn [opl_items opl_b]. rewrite map_length. auto.
  - destruct H as ((H1 & H2 & H3 & H4) & H5). unfold tpl_items in *. split; [|exact H5]. repeat split; cbn [tpl_lv tpl_free tpl_w tpl_b]; auto; [now apply stored_slopes_length|now rewrite mapi_length].
  - destruct H as ((H1 & H2 & H3 & H4 & H4') & H5). unfold thpl_items in *. split; [|exact H5]. repeat split; cbn [thpl_lv thpl_free thpl_w thpl_b thpl_g]; auto; [now apply stored_slopes_length|now rewrite mapi_length].
  - destruct H as [H1 H2]. split; [now apply rescaled_poly_wf|exact H2].
  - destruct H as (H1 & H2 & H3). split; [now apply rescaled_poly_wf|]. split; [exact H2|].
    intros i K j Hi Hj HK. cbn [p_cats p_b] in *. assert (Hi' : (i < length (p_cats m))%nat) by (apply nth_error_Some; congruence). assert (E : nth i (p_cats m) O = K) by (now apply nth_error_nth).
    rewrite !stored_intercept by auto. rewrite E. replace ((1 <=? S j)%nat && (S j <? K)%nat) with true by (symmetry; apply andb_true_iff; split; [apply Nat.leb_le|apply Nat.ltb_lt]; lia).
    replace ((1 <=? j)%nat && (j <? K)%nat) with true by (symmetry; apply andb_true_iff; split; [apply Nat.leb_le|apply Nat.ltb_lt]; lia). pose proof (H3 i K j Hi Hj HK). lra.
  - destruct H as ((H1 & H2 & H3 & H4 & H5 & H6) & H7). split; [|exact H7].
    repeat split; cbn [nrm_lv nrm_cats nrm_rel nrm_w nrm_b]; auto; [|apply stored_intercepts_length].
    rewrite ctrue_nrm_free by (cbn [nrm_lv nrm_cats nrm_rel]; auto). cbn [nrm_cats nrm_rel]. now apply stored_category_slopes_length.
Qed.
Lemma predictor_plus lv a a' t : predictor lv (fun d => a d + a' d) t = predictor lv a t + predictor lv a' t.
Proof. unfold predictor. rewrite <- sumn_plus. apply sumn_ext. intros. ring. Qed.
Lemma predictor_neg_sum lv n (a : nat -> nat -> R) t : predictor lv (fun d => - sumn n (fun j => a j d)) t = - sumn n (fun j => predictor lv (a j) t).
Proof.
  unfold predictor. rewrite sumn_swap. rewrite <- sumn_opp. apply sumn_ext. intros d Hd. rewrite sumn_scal_r. ring.
Qed.
Lemma rescaled_chances s c x t i k : well_formed x -> units s x -> length t = latents x -> (i < length (cats_of x))%nat -> (k < nth i (cats_of x) O)%nat ->
  chances (rescale s c x) (standard s c t) i k = chances x t i k.
Proof.
  intros H [Hs HU] Ht Hi Hk. destruct x as [m|m|m|m|m|m]; cbn [well_formed cats_of latents rescale chances] in *; try rewrite repeat_length in *.
  - destruct H as [H1 H2]. unfold opl_p. cbn [opl_b]. rewrite standard_nth by lia. rewrite HU.
    replace (nth i (map (fun b => b + nth 0 c 0) (opl_b m)) 0) with (nth i (opl_b m) 0 + nth 0 c 0) by (rewrite (nth_indep (map _ _) 0 (0 + nth 0 c 0)) by (rewrite map_length; lia); now rewrite (map_nth (fun b => b + nth 0 c 0))).
    replace ((nth 0 t 0 - nth 0 c 0) / 1 + (nth i (opl_b m) 0 + nth 0 c 0)) with (nth 0 t 0 + nth i (opl_b m) 0) by field. reflexivity.
  - destruct H as ((H1 & H2 & H3 & H4) & H5). unfold tpl_items in *. unfold tpl_p. cbn [tpl_lv tpl_free tpl_w tpl_b]. rewrite mapi_at, rescaled_predictor by (auto; lia).
    match goal with |- context [logistic ?u] => match goal with |- _ = (if _ then logistic ?v else _) => replace u with v by ring end end. reflexivity.
  - destruct H as ((H1 & H2 & H3 & H4 & H4') & H5). unfold thpl_items in *. unfold thpl_p. cbn [thpl_lv thpl_free thpl_w thpl_b thpl_g]. rewrite mapi_at, rescaled_predictor by (auto; lia).
    replace (predictor (thpl_lv m) (slope (thpl_free m) (thpl_w m) i) t - predictor (thpl_lv m) (slope (thpl_free m) (thpl_w m) i) c + (nth i (thpl_b m) 0 + predictor (thpl_lv m) (slope (thpl_free m) (thpl_w m) i) c))
      with (predictor (thpl_lv m) (slope (thpl_free m) (thpl_w m) i) t + nth i (thpl_b m) 0) by ring. reflexivity.
  - destruct H as ((H1 & H2 & H3 & H4 & H5 & H6) & H7). unfold p_items in *. unfold gpc_p. cbn [p_cats p_lv p_free p_w p_b]. apply cp_ext; [exact Hk|]. intros j Hj.
    rewrite rescaled_predictor by (auto; lia). rewrite stored_intercept by auto. unfold intercept. destruct ((1 <=? j)%nat && (j <? nth i (p_cats m) O)%nat) eqn:E; [ring|].
    assert (j = 0)%nat as -> by (apply andb_false_iff in E as [E|E]; [apply Nat.leb_gt in E|apply Nat.ltb_ge in E]; lia). cbn [INR]. ring.
  - destruct H as ((H1 & H2 & H3 & H4 & H5 & H6) & H7). unfold p_items in *. unfold grm_p. cbn [p_cats p_lv p_free p_w p_b].
    assert (Q : forall j, geq_probability (nth i (p_cats m) O) (fun k => predictor (p_lv m) (slope (p_free m) (store_slopes (p_lv m) (p_free m) (fun i d => nth d s 1 * slope (p_free m) (p_w m) i d)) i) (standard s c t) +
        intercept (p_cats m) (store_intercepts (p_cats m) (fun i k => intercept (p_cats m) (p_b m) i k + predictor (p_lv m) (slope (p_free m) (p_w m) i) c)) i k) j =
      geq_probability (nth i (p_cats m) O) (fun k => predictor (p_lv m) (slope (p_free m) (p_w m) i) t + intercept (p_cats m) (p_b m) i k) j).
    { intro j. unfold geq_probability. destruct (Nat.eqb_spec j 0); [reflexivity|]. destruct (Nat.ltb_spec j (nth i (p_cats m) O)); [|reflexivity].
      rewrite rescaled_predictor by (auto; lia). rewrite stored_intercept by auto. replace ((1 <=? j)%nat && (j <? nth i (p_cats m) O)%nat) with true by (symmetry; apply andb_true_iff; split; [apply Nat.leb_le|apply Nat.ltb_lt]; lia). f_equal. ring. }
    now rewrite !Q.
  - destruct H as ((H1 & H2 & H3 & H4 & H5 & H6) & H7). unfold nrm_p. cbn [nrm_cats nrm_lv].
    match goal with |- context [nrm_slope ?mm] => set (m' := mm) end.
    assert (Q : forall j, (1 <= j < nth i (nrm_cats m) O)%nat -> predictor (nrm_lv m) (nrm_free_slope m' i j) (standard s c t) + intercept (nrm_cats m) (nrm_b m') i j = predictor (nrm_lv m) (nrm_free_slope m i j) t + intercept (nrm_cats m) (nrm_b m) i j).
    { intros j Hj. rewrite (predictor_ext _ _ (fun d => nth d s 1 * nrm_free_slope m i j d)).
      - cbn [m' nrm_b]. rewrite stored_intercept by auto. replace ((1 <=? j)%nat && (j <? nth i (nrm_cats m) O)%nat) with true by (symmetry; apply andb_true_iff; split; [apply Nat.leb_le|apply Nat.ltb_lt]; lia).
        rewrite <- (standard_predictor (nrm_lv m) (nrm_free_slope m i j) s c t Hs Ht). ring.
      - intros d Hd. unfold m'. rewrite stored_category_slope by auto. destruct (nth d (nth i (nrm_rel m) []) false) eqn:E; [reflexivity|]. rewrite fixed_category_slope by exact E. ring. }
    apply cp_ext; [exact Hk|]. intros j Hj. unfold nrm_slope, nrm_intercept. change (nrm_cats m') with (nrm_cats m). destruct (Nat.eqb_spec j 0); [|apply Q; lia].
    rewrite !predictor_neg_sum. match goal with |- - ?a + - ?b = - ?a' + - ?b' => cut (a + b = a' + b'); [lra|] end. rewrite <- !sumn_plus. apply sumn_ext. intros j' Hj'. apply Q. lia.
Qed.
