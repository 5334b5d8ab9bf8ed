(** Lemmas: exchanging two latent variables or two items. *)
From Coq Require Import Permutation.
From Verif Require Import Base BaseFacts RBase RFacts M_Data M_CV M_Logit M_Lik M_Est M_Stat M_Train M_Mix M_Quad M_Adam P_Data P_Logit P_Logit3 P_Est1 P_Est2 P_Est3 P_Stat4 P_Sym1 P_Sym2 P_Sym3 P_Sym4 P_Twin1 S_Logit S_Lik S_Est S_Sym S_Twin.
Import List.
Local Open Scope R_scope.

(** ** Transpositions *)
Lemma transpose_twice d e k : transpose d e (transpose d e k) = k.
Proof. unfold transpose. destruct (Nat.eqb_spec k d) as [->|H1]; [rewrite Nat.eqb_refl; destruct (Nat.eqb_spec e d); congruence|]. destruct (Nat.eqb_spec k e) as [->|H2]; [now rewrite Nat.eqb_refl|]. destruct (Nat.eqb_spec k d); [congruence|]. destruct (Nat.eqb_spec k e); congruence. Qed.
Lemma transpose_lt d e k n : (d < n)%nat -> (e < n)%nat -> (k < n)%nat -> (transpose d e k < n)%nat.
Proof. intros. unfold transpose. destruct (k =? d)%nat; [assumption|]. destruct (k =? e)%nat; assumption. Qed.
Lemma transpose_seq d e n : (d < n)%nat -> (e < n)%nat -> Permutation (map (transpose d e) (seq 0 n)) (seq 0 n).
Proof.
  intros Hd He. apply NoDup_Permutation.
  - apply FinFun.Injective_map_NoDup; [|apply seq_NoDup]. intros a b E. rewrite <- (transpose_twice d e a), <- (transpose_twice d e b). now rewrite E.
  - apply seq_NoDup.
  - intro k. rewrite in_map_iff, in_seq. split.
    + intros (a & <- & Ha). apply in_seq in Ha. pose proof (transpose_lt d e a n Hd He ltac:(lia)). lia.
    + intros Hk. exists (transpose d e k). split; [apply transpose_twice|]. apply in_seq. pose proof (transpose_lt d e k n Hd He ltac:(lia)). lia.
Qed.
Lemma sumn_transpose d e n f : (d < n)%nat -> (e < n)%nat -> sumn n (fun k => f (transpose d e k)) = sumn n f.
Proof.
  intros Hd He. transitivity (rsum (map f (map (transpose d e) (seq 0 n)))).
  - rewrite map_map, (rsum_map_seq (fun k => f (transpose d e k))). reflexivity.
  - rewrite (rsum_permutation _ _ (Permutation_map f (transpose_seq d e n Hd He))), rsum_map_seq. reflexivity.
Qed.
Lemma swap_length {A} d e (l : list A) z : length (swap d e l z) = length l.
Proof. unfold swap. now rewrite map_length, seq_length. Qed.
Lemma swap_nth {A} d e (l : list A) z k : (k < length l)%nat -> nth k (swap d e l z) z = nth (transpose d e k) l z.
Proof. intro H. unfold swap. rewrite (nth_indep _ z (nth (transpose d e 0) l z)) by (now rewrite map_length, seq_length). rewrite (map_nth (fun k => nth (transpose d e k) l z)). now rewrite seq_nth. Qed.
Lemma predictor_swap d e lv a a' t : (d < lv)%nat -> (e < lv)%nat -> length t = lv -> (forall k, a k = a' (transpose d e k)) -> predictor lv a t = predictor lv a' (swap d e t 0).
Proof.
  intros Hd He Ht H. unfold predictor. rewrite <- (sumn_transpose d e lv (fun k => a' k * nth k (swap d e t 0) 0) Hd He). apply sumn_ext. intros k Hk. rewrite <- H, swap_nth by (rewrite Ht; now apply transpose_lt). now rewrite transpose_twice.
Qed.

(** ** Places of the free slopes *)
Definition place (free : list (list bool)) (i d : nat) : nat := (ctrue (concat (firstn i free)) + ctrue (firstn d (nth i free [])))%nat.
Lemma slope_place free w i d : slope free w i d = if nth d (nth i free []) false then nth (place free i d) w 0 else 0.
Proof. reflexivity. Qed.
Lemma row_sum free i : (ctrue (concat (firstn i free)) + ctrue (nth i free []) = ctrue (concat (firstn (S i) free)))%nat.
Proof.
  revert i; induction free as [|r free IH]; intro i; [destruct i; reflexivity|]. destruct i as [|i]; [cbn; rewrite app_nil_r; reflexivity|]. change (firstn (S (S i)) (r :: free)) with (r :: firstn (S i) free). change (firstn (S i) (r :: free)) with (r :: firstn i free) at 1. cbn [nth concat]. rewrite !ctrue_app. specialize (IH i). lia.
Qed.
Lemma rows_mono free i j : (i <= j)%nat -> (ctrue (concat (firstn i free)) <= ctrue (concat (firstn j free)))%nat.
Proof. induction 1 as [|j _ IH]; [lia|]. pose proof (row_sum free j). lia. Qed.
Lemma place_row free i d : nth d (nth i free []) false = true -> (ctrue (concat (firstn i free)) <= place free i d < ctrue (concat (firstn (S i) free)))%nat.
Proof. intro H. pose proof (ctrue_below (nth i free []) d H). pose proof (row_sum free i). unfold place. lia. Qed.
Lemma place_lt free i d : nth d (nth i free []) false = true -> (place free i d < ctrue (concat free))%nat.
Proof.
  intro H. pose proof (place_row free i d H) as [_ Q]. assert (G : (ctrue (concat (firstn (S i) free)) <= ctrue (concat free))%nat).
  { destruct (Nat.le_gt_cases (S i) (length free)) as [L|L]; [|rewrite firstn_all2 by lia; lia]. pose proof (rows_mono free (S i) (length free) L) as M. now rewrite firstn_all in M. }
  lia.
Qed.
Lemma firstn_strict (l : list bool) d e : nth d l false = true -> (d < e)%nat -> (ctrue (firstn d l) < ctrue (firstn e l))%nat.
Proof.
  revert d e; induction l as [|b l IH]; intros d e H L; [destruct d; discriminate|]. destruct e as [|e]; [lia|]. destruct d as [|d]; cbn [nth firstn] in *; rewrite ?ctrue_cons; [subst b; cbn; lia|]. specialize (IH d e H ltac:(lia)). lia.
Qed.
Lemma place_inj free i d i' d' : nth d (nth i free []) false = true -> nth d' (nth i' free []) false = true -> place free i d = place free i' d' -> i = i' /\ d = d'.
Proof.
  intros H H' E. assert (Ei : i = i').
  { pose proof (place_row free i d H). pose proof (place_row free i' d' H'). destruct (Nat.lt_trichotomy i i') as [L|[L|L]]; [|exact L|]; [pose proof (rows_mono free (S i) i' L)|pose proof (rows_mono free (S i') i L)]; lia. }
  split; [exact Ei|]. subst i'. unfold place in E. destruct (Nat.lt_trichotomy d d') as [L|[L|L]]; [|exact L|]; [pose proof (firstn_strict (nth i free []) d d' H L)|pose proof (firstn_strict (nth i free []) d' d H' L)]; lia.
Qed.
Lemma slope_upd free w i d t i' d' : length w = ctrue (concat free) -> nth d (nth i free []) false = true ->
  slope free (upd (place free i d) t w) i' d' = if ((i' =? i) && (d' =? d))%nat%bool then t else slope free w i' d'.
Proof.
  intros HL H. rewrite !slope_place. destruct (nth d' (nth i' free []) false) eqn:E.
  - rewrite nth_upd by (rewrite HL; now apply place_lt). destruct (Nat.eqb_spec (place free i d) (place free i' d')) as [P|P].
    + destruct (place_inj _ _ _ _ _ H E P) as [-> ->]. now rewrite !Nat.eqb_refl.
    + destruct (Nat.eqb_spec i' i) as [->|]; [|reflexivity]. destruct (Nat.eqb_spec d' d) as [->|]; [congruence|reflexivity].
  - destruct (Nat.eqb_spec i' i) as [->|]; [|reflexivity]. destruct (Nat.eqb_spec d' d) as [->|]; [congruence|reflexivity].
Qed.
(** ** Places of the intercepts *)
Definition spot (cats : list nat) (i k : nat) : nat := (list_sum (firstn i (map pred cats)) + (k - 1))%nat.
Lemma spot_row cats i k : (1 <= k < nth i cats O)%nat -> (list_sum (firstn i (map pred cats)) <= spot cats i k < list_sum (firstn (S i) (map pred cats)))%nat.
Proof.
  intro H. unfold spot. assert (G : (list_sum (firstn (S i) (map pred cats)) = list_sum (firstn i (map pred cats)) + pred (nth i cats O))%nat).
  { clear H. revert i; induction cats as [|K cats IH]; intro i; [destruct i; reflexivity|]. destruct i as [|i]; [cbn; lia|]. change (firstn (S (S i)) (map pred (K :: cats))) with (pred K :: firstn (S i) (map pred cats)). change (firstn (S i) (map pred (K :: cats))) with (pred K :: firstn i (map pred cats)). cbn [nth]. change (forall i, list_sum (firstn (S i) (map pred cats)) = (list_sum (firstn i (map pred cats)) + pred (nth i cats 0))%nat) in IH. specialize (IH i). unfold list_sum in *. cbn [fold_right]. lia. }
  lia.
Qed.
Lemma spots_mono cats i j : (i <= j)%nat -> (list_sum (firstn i (map pred cats)) <= list_sum (firstn j (map pred cats)))%nat.
Proof.
  revert i j; induction (map pred cats) as [|K l IH]; intros i j H; [rewrite !firstn_nil; lia|]. destruct i as [|i]; [cbn; lia|]. destruct j as [|j]; [lia|]. cbn [firstn]. cbn [list_sum fold_right]. specialize (IH i j ltac:(lia)). unfold list_sum in IH. lia.
Qed.
Lemma spot_lt cats i k : (1 <= k < nth i cats O)%nat -> (spot cats i k < list_sum (map pred cats))%nat.
Proof.
  intro H. pose proof (spot_row cats i k H) as [_ Q]. assert (G : (list_sum (firstn (S i) (map pred cats)) <= list_sum (map pred cats))%nat).
  { destruct (Nat.le_gt_cases (S i) (length (map pred cats))) as [L|L]; [|rewrite firstn_all2 by lia; lia]. pose proof (spots_mono cats (S i) _ L) as M. now rewrite firstn_all in M. }
  lia.
Qed.
Lemma spot_inj cats i k i' k' : (1 <= k < nth i cats O)%nat -> (1 <= k' < nth i' cats O)%nat -> spot cats i k = spot cats i' k' -> i = i' /\ k = k'.
Proof.
  intros H H' E. assert (Ei : i = i').
  { pose proof (spot_row cats i k H). pose proof (spot_row cats i' k' H'). destruct (Nat.lt_trichotomy i i') as [L|[L|L]]; [|exact L|]; [pose proof (spots_mono cats (S i) i' L)|pose proof (spots_mono cats (S i') i L)]; lia. }
  split; [exact Ei|]. subst i'. unfold spot in E. lia.
Qed.
Lemma intercept_upd cats b i k t i' k' : length b = list_sum (map pred cats) -> (1 <= k < nth i cats O)%nat ->
  intercept cats (upd (spot cats i k) t b) i' k' = if ((i' =? i) && (k' =? k))%nat%bool then t else intercept cats b i' k'.
Proof.
  intros HL H. unfold intercept. fold (spot cats i' k'). destruct (Nat.leb_spec 1 k') as [H1|H1]; cbn [andb].
  - destruct (Nat.ltb_spec k' (nth i' cats O)) as [H2|H2].
    + rewrite nth_upd by (rewrite HL; now apply spot_lt). destruct (Nat.eqb_spec (spot cats i k) (spot cats i' k')) as [P|P].
      * destruct (spot_inj _ _ _ _ _ H (conj H1 H2) P) as [-> ->]. now rewrite !Nat.eqb_refl.
      * destruct (Nat.eqb_spec i' i) as [->|]; [|reflexivity]. destruct (Nat.eqb_spec k' k) as [->|]; [congruence|reflexivity].
    + destruct (Nat.eqb_spec i' i) as [->|]; [|reflexivity]. destruct (Nat.eqb_spec k' k) as [->|]; [lia|reflexivity].
  - destruct (Nat.eqb_spec i' i) as [->|]; [|reflexivity]. destruct (Nat.eqb_spec k' k) as [->|]; [lia|reflexivity].
Qed.
(** ** Changing one entry of a list made of parts *)
Lemma upd_firstn {A} a j (t : A) p : (j < a)%nat -> firstn a (upd j t p) = upd j t (firstn a p).
Proof. revert j p; induction a as [|a IH]; intros j p H; [lia|]. destruct p as [|x p]; [destruct j; reflexivity|]. destruct j as [|j]; [reflexivity|]. cbn [upd firstn]. now rewrite IH by lia. Qed.
Lemma upd_firstn_ge {A} a j (t : A) p : (a <= j)%nat -> firstn a (upd j t p) = firstn a p.
Proof. revert j p; induction a as [|a IH]; intros j p H; [reflexivity|]. destruct p as [|x p]; [destruct j; reflexivity|]. destruct j as [|j]; [lia|]. cbn [upd firstn]. now rewrite IH by lia. Qed.
Lemma upd_skipn {A} a j (t : A) p : (a <= j)%nat -> skipn a (upd j t p) = upd (j - a) t (skipn a p).
Proof. revert j p; induction a as [|a IH]; intros j p H; [now rewrite Nat.sub_0_r|]. destruct p as [|x p]; [destruct j as [|j]; [lia|]; cbn [upd skipn]; destruct (S j - S a)%nat; reflexivity|]. destruct j as [|j]; [lia|]. cbn [upd skipn Nat.sub]. apply IH. lia. Qed.
Lemma upd_skipn_lt {A} a j (t : A) p : (j < a)%nat -> skipn a (upd j t p) = skipn a p.
Proof. revert j p; induction a as [|a IH]; intros j p H; [lia|]. destruct p as [|x p]; [destruct j; reflexivity|]. destruct j as [|j]; [reflexivity|]. cbn [upd skipn]. apply IH. lia. Qed.

(** ** Models with other parameters *)
Lemma with_well_formed x p : plain_model x -> well_formed x -> length p = length (parameters x) -> well_formed (with_parameters x p).
Proof.
  destruct x as [m|m|m|m|m|m]; cbn [plain_model well_formed parameters with_parameters]; intros HP H HL; try contradiction; rewrite ?app_length in HL.
  - cbn. destruct H. split; [congruence|assumption].
  - destruct H as ((H1 & H2 & H3 & H4) & H5). split; [|exact H5]. unfold tpl_wf, tpl_items in *. cbn [tpl_lv tpl_free tpl_w tpl_b]. repeat split; try assumption; [rewrite firstn_length; lia|rewrite skipn_length; lia].
  - destruct H as ((H1 & H2 & H3 & H4 & H5) & H6). split; [|exact H6]. unfold thpl_wf, thpl_items in *. cbn [thpl_lv thpl_free thpl_w thpl_b thpl_g]. repeat split; try assumption; rewrite ?firstn_length, ?skipn_length; lia.
  - destruct H as ((H1 & H2 & H3 & H4 & H5 & H6) & H7). split; [|exact H7]. unfold poly_wf, p_items in *. cbn [p_cats p_lv p_free p_w p_b]. repeat split; try assumption; rewrite ?firstn_length, ?skipn_length; lia.
Qed.
Lemma with_same x : with_parameters x (parameters x) = x.
Proof.
  assert (F : forall (a b : list R), firstn (length a) (a ++ b) = a) by (intros a b; rewrite firstn_app, Nat.sub_diag, firstn_all; cbn; apply app_nil_r). assert (S : forall (a b : list R), skipn (length a) (a ++ b) = b) by (intros a b; rewrite skipn_app, Nat.sub_diag, skipn_all; reflexivity).
  destruct x as [[]|[]|[]|[]|[]|[]]; cbn; rewrite ?F, ?S, ?F, ?S; reflexivity.
Qed.
Lemma with_cats x p : cats_of (with_parameters x p) = cats_of x.
Proof. destruct x; reflexivity. Qed.
Lemma with_latents x p : latents (with_parameters x p) = latents x.
Proof. destruct x; reflexivity. Qed.
(** The answer probabilities in terms of the parameters of the item. *)
Definition response (x : irt) (K : nat) (eta : R) (b : nat -> R) (c : R) (k : nat) : R :=
  match x with
  | Opl _ | Tpl _ => let q := logistic (eta + b O) in if (k =? 1)%nat then q else 1 - q
  | Thpl _ => let c := logistic c in let q := c + (1 - c) * logistic (eta + b O) in if (k =? 1)%nat then q else 1 - q
  | _ => category_probability K (fun k => INR k * eta + b k) k end.
Definition eta_of (x : irt) (i : nat) (t : list R) : R := match x with Opl _ => nth 0 t 0 | _ => predictor (latents x) (slope_of x i) t end.
Lemma chances_response x t i k : plain_model x -> chances x t i k = response x (categories_of x i) (eta_of x i t) (intercept_of x i) (guessing_of x i) k.
Proof. destruct x; cbn [plain_model]; intro H; try contradiction; reflexivity. Qed.
Lemma response_with x p : response (with_parameters x p) = response x.
Proof. destruct x; reflexivity. Qed.
Lemma category_ext K z z' k : (forall j, z j = z' j) -> category_probability K z k = category_probability K z' k.
Proof. intro H. unfold category_probability. rewrite H. f_equal. apply sumn_ext. intros j _. now rewrite H. Qed.
Lemma response_ext x K eta b b' c k : (forall j, b j = b' j) -> response x K eta b c k = response x K eta b' c k.
Proof. intro H. destruct x; cbn [response]; rewrite ?H; try reflexivity; apply category_ext; intro j; now rewrite H. Qed.

(** ** Likelihoods *)
Lemma likelihood_ext p p' t t' row : (forall i k, p t i k = p' t' i k) -> likelihood p t row = likelihood p' t' row.
Proof. intro H. unfold likelihood. f_equal. apply mapi_ext. intros i c _. destruct (answer c); [apply H|reflexivity]. Qed.
(** Exchanging two latent variables in the model and in the points. *)
Lemma marginal_swap d e lv p p' points ws row : Forall (fun t => length t = lv) points -> (forall t i k, length t = lv -> p t i k = p' (swap d e t 0) i k) ->
  Permutation (combine ws (map (fun t => swap d e t 0) points)) (combine ws points) -> marginal_likelihood p points ws row = marginal_likelihood p' points ws row.
Proof.
  intros HF H HP. transitivity (marginal_likelihood p' (map (fun t => swap d e t 0) points) ws row).
  - apply marginal_ext; [symmetry; apply map_length|]. rewrite map_length. intros q Hq. rewrite (nth_indep (map _ points) [] (swap d e [] 0)) by (rewrite map_length; exact Hq). rewrite (map_nth (fun t => swap d e t 0)). apply likelihood_ext. intros i k. apply H. rewrite Forall_forall in HF. apply HF. now apply nth_In.
  - unfold marginal_likelihood. rewrite !zip_combine. apply rsum_permutation. apply Permutation_map. exact HP.
Qed.
(** Exchanging two items answered alike. *)
Lemma likelihood_swap i j p p' t row : (i < length row)%nat -> (j < length row)%nat -> nth i row None = nth j row None -> (forall a k, p t a k = p' t (transpose i j a) k) -> likelihood p t row = likelihood p' t row.
Proof.
  intros Hi Hj HR H. rewrite !(likelihood_seq _ _ row (length row) eq_refl). transitivity (rprod (map (fun a => factor p' t a (nth a row None)) (map (transpose i j) (seq 0 (length row))))).
  - rewrite map_map. f_equal. apply map_ext. intro a. assert (E : nth (transpose i j a) row None = nth a row None) by (unfold transpose; destruct (Nat.eqb_spec a i); [congruence|]; destruct (Nat.eqb_spec a j); congruence). rewrite E. unfold factor. destruct (answer _); [apply H|reflexivity].
  - apply rprod_permutation, Permutation_map, transpose_seq; assumption.
Qed.
