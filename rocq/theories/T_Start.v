(** Property C103: the starting point of the bit scale. *)
From Coq Require Import Permutation Sorting.Sorted.
From Verif Require Import Base BaseFacts RBase RFacts M_Data M_Logit M_Lik M_Est S_Est P_Logit P_Eval1 M_Stat M_Grid P_Grid1 M_Start S_Start.
From Verif Require T_Est.
Import List.
Local Open Scope R_scope.

(** ** Medians *)
Lemma filter_perm {A} (f : A -> bool) l l' : Permutation l l' -> length (filter f l) = length (filter f l').
Proof. intro H. induction H as [|x l l' _ IH|x y l|l l' l'' _ IH1 _ IH2]; cbn; [reflexivity|destruct (f x); cbn; lia|destruct (f x), (f y); reflexivity|lia]. Qed.
Lemma filter_firstn {A} (f : A -> bool) l n : (forall x, In x (firstn n l) -> f x = true) -> (n <= length l)%nat -> (n <= length (filter f l))%nat.
Proof.
  revert l; induction n as [|n IH]; intros l H Hn; [lia|]. destruct l as [|x l]; cbn [length] in Hn; [lia|]. cbn [filter]. rewrite (H x (or_introl eq_refl)). cbn [length].
  apply le_n_S. apply IH; [|lia]. intros y Hy. apply H. now right.
Qed.
Lemma filter_skipn {A} (f : A -> bool) l n : (forall x, In x (skipn n l) -> f x = true) -> (length l - n <= length (filter f l))%nat.
Proof.
  revert l; induction n as [|n IH]; intros l H.
  - cbn [skipn] in H. assert (E : filter f l = l). { clear -H. induction l as [|x l IHl]; [reflexivity|]. cbn [filter]. rewrite (H x (or_introl eq_refl)). f_equal. apply IHl. intros y Hy. apply H. now right. } rewrite E. lia.
  - destruct l as [|x l]; [cbn; lia|]. cbn [skipn length] in *. specialize (IH l H). cbn [filter]. destruct (f x); cbn [length]; lia.
Qed.
Lemma sorted_before l k : StronglySorted Rle l -> (k < length l)%nat -> forall x, In x (firstn (S k) l) -> x <= nth k l 0.
Proof.
  revert k; induction l as [|a l IH]; intros k HS Hk x Hx; cbn [length] in Hk; [lia|]. inversion HS as [|? ? HS' HA]; subst. cbn [firstn] in Hx. destruct Hx as [->|Hx].
  - destruct k as [|k]; cbn [nth]; [lra|]. rewrite Forall_forall in HA. apply HA. apply nth_In. lia.
  - destruct k as [|k]; [destruct Hx|]. cbn [nth]. apply IH; [exact HS'|lia|exact Hx].
Qed.
Lemma sorted_after l k : StronglySorted Rle l -> (k < length l)%nat -> forall x, In x (skipn k l) -> nth k l 0 <= x.
Proof.
  revert k; induction l as [|a l IH]; intros k HS Hk x Hx; cbn [length] in Hk; [lia|]. inversion HS as [|? ? HS' HA]; subst. destruct k as [|k]; cbn [skipn nth] in *.
  - destruct Hx as [->|Hx]; [lra|]. rewrite Forall_forall in HA. now apply HA.
  - apply IH; [exact HS'|lia|exact Hx].
Qed.
Lemma median_splits l : l <> [] -> (length l <= 2 * at_most (median l) l)%nat /\ (length l <= 2 * at_least (median l) l)%nat /\ In (median l) l.
Proof.
  intro Hl. assert (HL : (0 < length l)%nat) by (destruct l; [congruence|cbn; lia]). pose proof (sort_r_length l) as L. pose proof (sort_r_sorted l) as HS. pose proof (sort_r_perm l) as HP.
  set (k := ((length l - 1) / 2)%nat). assert (Hk : (k < length (sort_r l))%nat) by (rewrite L; unfold k; pose proof (Nat.div_lt_upper_bound (length l - 1) 2 (length l) ltac:(lia) ltac:(lia)); lia).
  assert (E : median l = nth k (sort_r l) 0%R) by reflexivity. assert (K2 : (2 * k <= length l - 1 < 2 * k + 2)%nat) by (unfold k; pose proof (Nat.div_mod (length l - 1) 2 ltac:(lia)); pose proof (Nat.mod_upper_bound (length l - 1) 2 ltac:(lia)); lia).
  split; [|split].
  - unfold at_most. rewrite <- (filter_perm _ _ _ HP), E. pose proof (filter_firstn (fun x => if Rle_dec x (nth k (sort_r l) 0%R) then true else false) (sort_r l) (S k)) as H.
    assert (S k <= length (filter (fun x => if Rle_dec x (nth k (sort_r l) 0%R) then true else false) (sort_r l)))%nat; [|lia]. apply H; [|lia]. intros x Hx. pose proof (sorted_before _ k HS Hk x Hx). destruct (Rle_dec x (nth k (sort_r l) 0%R)); [reflexivity|contradiction].
  - unfold at_least. rewrite <- (filter_perm _ _ _ HP), E. pose proof (filter_skipn (fun x => if Rle_dec (nth k (sort_r l) 0%R) x then true else false) (sort_r l) k) as H.
    assert (length (sort_r l) - k <= length (filter (fun x => if Rle_dec (nth k (sort_r l) 0%R) x then true else false) (sort_r l)))%nat; [|lia]. apply H. intros x Hx. pose proof (sorted_after _ k HS Hk x Hx). destruct (Rle_dec (nth k (sort_r l) 0%R) x); [reflexivity|contradiction].
  - rewrite E. apply (Permutation_in _ HP). now apply nth_In.
Qed.

(** ** Selected items *)
Lemma list_index_ok {A} (l : list A) d i : (i < length l)%nat -> list_index l (Z.of_nat i) = Ok (nth i l d).
Proof.
  intro Hi. unfold list_index, norm_index.
  destruct (Z.leb_spec 0 (Z.of_nat i)); [|lia]. destruct (Z.ltb_spec (Z.of_nat i) (Z.of_nat (length l))); [|lia]. cbn [andb]. now rewrite Nat2Z.id, (nth_error_nth_lt l i d Hi).
Qed.
Lemma index_select_ok {A} (l : list A) d i : (i < length l)%nat -> index_select l (Z.of_nat i) = Ok (nth i l d).
Proof. intro Hi. unfold index_select. destruct (Z.leb_spec 0 (Z.of_nat i)); [|lia]. now rewrite Nat2Z.id, (nth_error_nth_lt l i d Hi). Qed.
Lemma means_start cats items its : means_items (length cats) items its -> start_items cats items = map Z.of_nat its /\ Forall (fun i => (i < length cats)%nat) its.
Proof.
  intros [[[->| ->] ->]|(-> & Hne & HF)].
  - split; [reflexivity|]. apply Forall_forall. intros i Hi. apply in_seq in Hi. lia.
  - split; [reflexivity|]. apply Forall_forall. intros i Hi. apply in_seq in Hi. lia.
  - split; [|exact HF]. destruct its as [|i its]; [congruence|reflexivity].
Qed.
(** ** C103 *)
(** The data for the starting point has one column per selected item, in the order of the selection, and the answers of
    column j are those of someone guessing at item its_j with the given probability of the correct answer. *)
Theorem C103_columns : forall cats key items its g, means_items (length cats) items its -> length key = length cats ->
  (forall i K z, nth_error cats i = Some K -> nth_error key i = Some z -> (2 <= K)%nat /\ (0 <= z < Z.of_nat K)%Z /\ (K = 2%nat -> z = 1%Z)) ->
  g <> [] -> length g = length its -> Forall (fun x => 0 <= x < 1) g ->
  exists w, start_weights cats (Some key) items (Some g) = Ok w /\ length w = length its /\
    forall j i K z x, nth_error its j = Some i -> nth_error cats i = Some K -> nth_error key i = Some z -> nth_error g j = Some x ->
      exists wj, nth_error w j = Some wj /\ guesser K (Z.to_nat z) x wj.
Proof.
  intros cats key items its g HI Hk HC Hg Lg HF. destruct (means_start cats items its HI) as [EI HR].
  assert (M1 : mapM (list_index cats) (map Z.of_nat its) = Ok (map (fun i => nth i cats O) its)) by (apply mapM_map_ok; intros i Hi; apply list_index_ok; rewrite Forall_forall in HR; now apply HR).
  assert (M2 : mapM (index_select key) (map Z.of_nat its) = Ok (map (fun i => nth i key 0%Z) its)) by (apply mapM_map_ok; intros i Hi; apply index_select_ok; rewrite Forall_forall in HR; rewrite Hk; now apply HR).
  assert (G : start_guess (map (fun i => nth i cats O) its) (Some g) = Ok g).
  { unfold start_guess. destruct g as [|x g]; [congruence|]. rewrite map_length, Lg, Nat.eqb_refl. cbn [andb].
    assert (P : forallb probability_ok (x :: g) = true) by (apply forallb_forall; intros y Hy; rewrite Forall_forall in HF; specialize (HF y Hy); unfold probability_ok; destruct (Rle_dec 0 y); [destruct (Rlt_dec y 1); [reflexivity|lra]|lra]). now rewrite P. }
  assert (NE : forall j i, nth_error its j = Some i -> nth_error (map (fun i => nth i cats O) its) j = Some (nth i cats O) /\ nth_error (map (fun i => nth i key 0%Z) its) j = Some (nth i key 0%Z) /\ (i < length cats)%nat).
  { intros j i E. rewrite !nth_error_map, E. split; [reflexivity|]. split; [reflexivity|]. rewrite Forall_forall in HR. apply HR. eapply nth_error_In; eauto. }
  destruct (T_Est.C07_multiple_choice (map (fun i => nth i cats O) its) g (map (fun i => nth i key 0%Z) its)) as (w & E & Lw & H).
  - now rewrite map_length.
  - exact HF.
  - now rewrite !map_length.
  - intros j K z E1 E2. destruct (nth_error its j) as [i|] eqn:Ei; [|rewrite nth_error_map, Ei in E1; discriminate]. destruct (NE j i Ei) as (F1 & F2 & Hi). rewrite E1 in F1. rewrite E2 in F2. injection F1 as ->. injection F2 as ->.
    destruct (HC i _ _ (nth_error_nth_lt cats i O Hi) (nth_error_nth_lt key i 0%Z ltac:(lia))) as (A & B & _). split; [exact A|exact B].
  - exists w. split; [unfold start_weights; rewrite EI, M1; cbn [bind]; rewrite G; cbn [bind]; rewrite M2; cbn [bind]; exact E|]. split; [now rewrite Lw, map_length|].
    intros j i K z x Ej EK Ez Ex. destruct (NE j i Ej) as (F1 & F2 & Hi). rewrite (nth_error_nth _ _ O EK) in F1. rewrite (nth_error_nth _ _ 0%Z Ez) in F2.
    destruct (H j K z x F1 F2 Ex) as (wj & Ew & Lj & _ & _ & H3 & H2). exists wj. split; [exact Ew|]. split; [exact Lj|]. intros k Hk'. destruct (HC i K z EK Ez) as (A & B & C).
    destruct (Nat.eq_dec K 2) as [->|Hn].
    + specialize (C eq_refl). subst z. destruct (H2 eq_refl) as [P1 P0]. change (Z.to_nat 1) with 1%nat. destruct k as [|[|k]]; [| |lia]; cbn [Nat.eqb]; [rewrite P0; cbn [INR]; field|exact P1].
    + destruct (H3 ltac:(lia)) as [P1 P0]. destruct (Nat.eqb_spec k (Z.to_nat z)) as [->|Hne]; [exact P1|now apply P0].
Qed.
Print Assumptions C103_columns.

(** By default a guesser takes every category of every item equally often. *)
Theorem C103_default : forall cats key items its guess, means_items (length cats) items its -> length key = length cats -> guess = None \/ guess = Some [] ->
  (forall i K z, nth_error cats i = Some K -> nth_error key i = Some z -> (2 <= K)%nat /\ (0 <= z < Z.of_nat K)%Z) ->
  exists w, start_weights cats (Some key) items guess = Ok w /\ length w = length its /\
    forall j i K k, nth_error its j = Some i -> nth_error cats i = Some K -> (k < K)%nat -> exists wj, nth_error w j = Some wj /\ length wj = K /\ chance wj k = / INR K.
Proof.
  intros cats key items its guess HI Hk HG HC. destruct (means_start cats items its HI) as [EI HR].
  assert (M1 : mapM (list_index cats) (map Z.of_nat its) = Ok (map (fun i => nth i cats O) its)) by (apply mapM_map_ok; intros i Hi; apply list_index_ok; rewrite Forall_forall in HR; now apply HR).
  assert (M2 : mapM (index_select key) (map Z.of_nat its) = Ok (map (fun i => nth i key 0%Z) its)) by (apply mapM_map_ok; intros i Hi; apply index_select_ok; rewrite Forall_forall in HR; rewrite Hk; now apply HR).
  set (sel := map (fun i => nth i cats O) its). assert (G : start_guess sel guess = Ok (map (fun K => / INR K) sel)) by (destruct HG as [->| ->]; reflexivity).
  assert (NE : forall j i, nth_error its j = Some i -> nth_error sel j = Some (nth i cats O) /\ nth_error (map (fun i => nth i key 0%Z) its) j = Some (nth i key 0%Z) /\ (i < length cats)%nat).
  { intros j i E. unfold sel. rewrite !nth_error_map, E. split; [reflexivity|]. split; [reflexivity|]. rewrite Forall_forall in HR. apply HR. eapply nth_error_In; eauto. }
  assert (HK2 : forall i, (i < length cats)%nat -> (2 <= nth i cats O)%nat /\ (0 <= nth i key 0%Z < Z.of_nat (nth i cats O))%Z) by (intros i Hi; apply (HC i _ _ (nth_error_nth_lt cats i O Hi) (nth_error_nth_lt key i 0%Z ltac:(lia)))).
  destruct (T_Est.C07_multiple_choice sel (map (fun K => / INR K) sel) (map (fun i => nth i key 0%Z) its)) as (w & E & Lw & H).
  - now rewrite map_length.
  - apply Forall_forall. intros x Hx. unfold sel in Hx. rewrite map_map in Hx. apply in_map_iff in Hx as (i & <- & Hi). rewrite Forall_forall in HR. destruct (HK2 i (HR i Hi)) as [A _].
    assert (1 < INR (nth i cats O)) by (change 1 with (INR 1); apply lt_INR; lia). split; [left; apply Rinv_0_lt_compat; lra|]. rewrite <- Rinv_1. apply Rinv_lt_contravar; lra.
  - unfold sel. now rewrite !map_length.
  - intros j K z E1 E2. destruct (nth_error its j) as [i|] eqn:Ei; [|unfold sel in E1; rewrite nth_error_map, Ei in E1; discriminate]. destruct (NE j i Ei) as (F1 & F2 & Hi). rewrite E1 in F1. rewrite E2 in F2. injection F1 as ->. injection F2 as ->. now apply HK2.
  - exists w. split; [unfold start_weights; rewrite EI, M1; cbn [bind]; fold sel; rewrite G; cbn [bind]; rewrite M2; cbn [bind]; exact E|]. split; [rewrite Lw; unfold sel; now rewrite map_length|].
    intros j i K k Ej EK Hk'. destruct (NE j i Ej) as (F1 & F2 & Hi). rewrite (nth_error_nth _ _ O EK) in F1.
    destruct (H j K _ (/ INR K) F1 F2) as (wj & Ew & Lj & _ & _ & H3 & H2); [now rewrite nth_error_map, F1|]. exists wj. split; [exact Ew|]. split; [exact Lj|].
    destruct (HK2 i Hi) as [A B]. rewrite (nth_error_nth _ _ O EK) in A, B. assert (1 < INR K) by (change 1 with (INR 1); apply lt_INR; lia).
    destruct (Nat.eq_dec K 2) as [->|Hn].
    + destruct (H2 eq_refl) as [P1 P0]. destruct k as [|[|k]]; [rewrite P0; cbn [INR]; field|exact P1|lia].
    + destruct (H3 ltac:(lia)) as [P1 P0]. destruct (Nat.eq_dec k (Z.to_nat (nth i key 0%Z))) as [->|Hne]; [exact P1|]. rewrite P0 by assumption. field. lra.
Qed.
Print Assumptions C103_default.

(** Two categories with correct category 0 again: the wrong answer gets the guessing probability. *)
Theorem C103_two_categories_refuted : forall x, 0 <= x < 1 -> x <> 1 / 2 ->
  exists w, start_weights [2%nat] (Some [0%Z]) None (Some [x]) = Ok [w] /\ ~ guesser 2 0 x w.
Proof.
  intros x Hx Hn. destruct (T_Est.C07_binary_key_refuted x Hx Hn) as (w & E & C). exists w. split.
  - unfold start_weights. cbn [start_items length seq map mapM Z.of_nat bind list_index norm_index]. cbn. unfold probability_ok. destruct (Rle_dec 0 x); [|lra]. destruct (Rlt_dec x 1); [|lra]. cbn [andb bind].
    unfold random_guessing in E |- *. cbn [length Nat.eqb forallb probability_ok] in E |- *. exact E.
  - intros [_ G]. apply C. exact (G 0%nat ltac:(lia)).
Qed.
Print Assumptions C103_two_categories_refuted.

(** Refused arguments. *)
Theorem C103_refused :
  (forall cats items guess, start_weights cats None items guess = Err ValueError) /\
  (forall cats key items its g, means_items (length cats) items its -> g <> [] -> length g <> length its \/ Exists (fun x => x < 0 \/ 1 <= x) g ->
     start_weights cats (Some key) items (Some g) = Err ValueError) /\
  (forall cats key items its, means_items (length cats) items its -> length key = length cats -> (exists i, In i its /\ nth_error cats i = Some 1%nat) ->
     start_weights cats (Some key) items None = Err ValueError) /\
  (forall cats key z rest guess, (z < - Z.of_nat (length cats) \/ Z.of_nat (length cats) <= z)%Z -> start_weights cats (Some key) (Some (z :: rest)) guess = Err IndexError) /\
  (forall cats key z, (- Z.of_nat (length cats) <= z < 0)%Z -> start_weights cats (Some key) (Some [z]) None = Err IndexError).
Proof.
  assert (SEL : forall cats items its, means_items (length cats) items its -> mapM (list_index cats) (start_items cats items) = Ok (map (fun i => nth i cats O) its)).
  { intros cats items its HI. destruct (means_start cats items its HI) as [-> HR]. apply mapM_map_ok. intros i Hi. apply list_index_ok. rewrite Forall_forall in HR. now apply HR. }
  split; [reflexivity|]. split; [|split; [|split]].
  - intros cats key items its g HI Hg Hbad. unfold start_weights. rewrite (SEL _ _ _ HI). cbn [bind]. unfold start_guess. destruct g as [|x g]; [congruence|].
    replace ((length (x :: g) =? length (map (fun i => nth i cats O) its))%nat && forallb probability_ok (x :: g)) with false; [reflexivity|]. symmetry. rewrite map_length. apply andb_false_iff.
    destruct Hbad as [H|H]; [left; now apply Nat.eqb_neq|right]. apply not_true_iff_false. intro C. rewrite forallb_forall in C. apply Exists_exists in H as (y & Hy & Hb). specialize (C y Hy). unfold probability_ok in C.
    destruct (Rle_dec 0 y); [destruct (Rlt_dec y 1); [lra|discriminate]|discriminate].
  - intros cats key items its HI Hk (i & Hi & E1). unfold start_weights. rewrite (SEL _ _ _ HI). cbn [bind start_guess]. destruct (means_start cats items its HI) as [EI HR]. rewrite EI.
    assert (M2 : mapM (index_select key) (map Z.of_nat its) = Ok (map (fun i => nth i key 0%Z) its)) by (apply mapM_map_ok; intros q Hq; apply index_select_ok; rewrite Forall_forall in HR; rewrite Hk; now apply HR).
    rewrite M2. cbn [bind]. unfold random_guessing. rewrite !map_length, Nat.eqb_refl.
    replace (forallb probability_ok (map (fun K => / INR K) (map (fun i => nth i cats O) its))) with false; [reflexivity|]. symmetry. apply not_true_iff_false. intro C. rewrite forallb_forall in C.
    specialize (C 1). unfold probability_ok in C. destruct (Rle_dec 0 1); [|lra]. destruct (Rlt_dec 1 1); [lra|]. assert (false = true); [|discriminate]. apply C. rewrite map_map. apply in_map_iff. exists i. rewrite (nth_error_nth _ _ O E1). split; [cbn [INR]; apply Rinv_1|exact Hi].
  - intros cats key z rest guess Hz. unfold start_weights. cbn [start_items mapM]. unfold list_index, norm_index. destruct (Z.leb_spec 0 z).
    + destruct (Z.ltb_spec z (Z.of_nat (length cats))); [lia|]. cbn [andb]. destruct (Z.leb_spec (- Z.of_nat (length cats)) z); destruct (Z.ltb_spec z 0); try lia; reflexivity.
    + cbn [andb]. destruct (Z.leb_spec (- Z.of_nat (length cats)) z); [lia|]. reflexivity.
  - intros cats key z Hz. unfold start_weights. cbn [start_items mapM]. unfold list_index, norm_index. destruct (Z.leb_spec 0 z); [lia|]. cbn [andb].
    destruct (Z.leb_spec (- Z.of_nat (length cats)) z); [|lia]. destruct (Z.ltb_spec z 0); [|lia]. cbn [andb].
    destruct (nth_error cats (Z.to_nat (z + Z.of_nat (length cats)))) eqn:E; [|apply nth_error_None in E; lia]. cbn [bind start_guess]. unfold index_select. destruct (Z.leb_spec 0 z); [lia|]. reflexivity.
Qed.
Print Assumptions C103_refused.

(** With a proper subset of the items the data have fewer columns than the model has items, and the log-likelihood of
    such data, needed for the scores, is an error for every model (cross-entropy and probability models), whatever the answers. *)
Lemma mask_len {A B} (mask : list (list A)) (data : list (list B)) : map (@length A) mask = map (@length B) data -> length (concat mask) = length (concat data).
Proof.
  revert data; induction mask as [|a mask IH]; intros [|b data] H; try discriminate; [reflexivity|]. cbn [map] in H. injection H as Ha H. cbn [concat]. rewrite !app_length, Ha. f_equal. now apply IH.
Qed.
Theorem C103_items_refuted : forall nanl N J J' M red (data : list (list cell)) (output : list (list ext)) (probs : list (list (list (option R)))) mask,
  (0 < N)%nat -> (0 < M)%nat -> J' <> J -> length data = N -> Forall (fun r => length r = J') data -> length output = N -> Forall (fun r => length r = (J * M)%nat) output ->
  length probs = N -> Forall (fun p => length p = J) probs -> Forall (Forall (fun r => length r = M)) probs -> map (@length bool) mask = map (@length cell) data ->
  base_log_likelihood nanl M red data output (Some mask) = Err IndexError /\ prob_log_likelihood nanl M red data probs (Some mask) = Err IndexError.
Proof.
  intros nanl N J J' M red data output probs mask HN HM HJ Ld Fd Lo Fo Lp Fp Fr Hm.
  assert (Lm : length (concat mask) = (N * J')%nat) by (rewrite (mask_len _ _ Hm), (length_concat_const _ J' Fd), Ld; reflexivity).
  assert (B : forall A (l : list A), length l = (N * J * M)%nat -> exists rows, reshape M l = Ok rows /\ length rows = (N * J)%nat).
  { intros A l Hl. exists (blocks M l). split; [|rewrite blocks_length by exact HM; rewrite Hl]; cycle 1.
    - unfold ceil_div. symmetry. apply (Nat.div_unique _ M (N * J) (M - 1)); lia.
    - unfold reshape. destruct (Nat.ltb_spec 0 M); [|lia]. rewrite Hl, Nat.mod_mul by lia. reflexivity. }
  assert (D : forall A (rows : list A), length rows = (N * J)%nat -> drop_opt (Some mask) rows = Err IndexError).
  { intros A rows L. unfold drop_opt, drop_masked. rewrite Lm, L. destruct (Nat.eqb_spec (N * J') (N * J)) as [C|_]; [|reflexivity]. apply Nat.mul_cancel_l in C; lia. }
  split.
  - unfold base_log_likelihood. destruct (B _ (concat output)) as (rows & -> & L); [rewrite (length_concat_const _ (J * M) Fo), Lo; lia|]. cbn [bind]. now rewrite (D _ rows L).
  - unfold prob_log_likelihood. destruct (B _ (concat (concat probs))) as (rows & -> & L).
    + rewrite (length_concat_const _ M), (length_concat_const _ J Fp), Lp; [reflexivity|]. apply Forall_concat. exact Fr.
    + cbn [bind]. now rewrite (D _ rows L).
Qed.
Print Assumptions C103_items_refuted.

(** The same items in another order: the answers of the first column are those to item 1, with a category which item 0,
    to which the model assigns the column, does not have. *)
Theorem C103_order_refuted : exists w w0, start_weights [3; 4]%nat (Some [0; 0]%Z) (Some [1; 0]%Z) None = Ok w /\ nth_error w 0 = Some w0 /\ length w0 = 4%nat /\ chance w0 3 = / 4.
Proof.
  destruct (C103_default [3; 4]%nat [0; 0]%Z (Some [1; 0]%Z) [1; 0]%nat None) as (w & E & L & H).
  - right. split; [reflexivity|]. split; [discriminate|]. constructor; [cbn; lia|]. constructor; [cbn; lia|constructor].
  - reflexivity.
  - now left.
  - intros [|[|i]] K z; cbn; intros EK Ez; try (destruct i; discriminate); injection EK as <-; injection Ez as <-; lia.
  - destruct (H 0%nat 1%nat 4%nat 3%nat eq_refl eq_refl ltac:(lia)) as (w0 & E0 & L0 & C). exists w, w0. split; [exact E|]. split; [exact E0|]. split; [exact L0|]. rewrite C. f_equal. cbn. lra.
Qed.
Print Assumptions C103_order_refuted.

(** When the method succeeds, the scores are those of the data drawn from the guesser's distributions and every coordinate
    of the new start is the score of one of the guessers, with at least half of the scores at most it and half at least it;
    when it fails, the start is the old one. *)
Theorem C103_median : forall draw scores lv cats key items guess start new,
  (start_theta_mc draw scores lv cats key items guess start = (new, Ok tt) ->
     exists w thetas, start_weights cats key items guess = Ok w /\ scores (draw w) = Ok thetas /\ length new = lv /\
       forall d, (d < lv)%nat -> exists m, nth_error new d = Some m /\ (exists t, In t thetas /\ m = nth d t 0) /\
         (length thetas <= 2 * at_most m (map (fun t => nth d t 0%R) thetas))%nat /\ (length thetas <= 2 * at_least m (map (fun t => nth d t 0%R) thetas))%nat) /\
  (forall e, start_theta_mc draw scores lv cats key items guess start = (new, Err e) -> new = start) /\
  (forall w, start_weights cats key items guess = Ok w -> forall thetas, scores (draw w) = Ok thetas -> thetas <> [] -> snd (start_theta_mc draw scores lv cats key items guess start) = Ok tt).
Proof.
  intros draw scores lv cats key items guess start new. unfold start_theta_mc. split; [|split].
  - intro E. destruct (start_weights cats key items guess) as [w|e]; [|discriminate]. cbn [bind] in E. destruct (scores (draw w)) as [thetas|e] eqn:ES; [|discriminate]. exists w, thetas. split; [reflexivity|]. split; [exact ES|].
    destruct thetas as [|t0 ts]; [discriminate|]. injection E as <-. split; [now rewrite map_length, seq_length|]. intros d Hd. eexists. split; [rewrite nth_error_map, nth_error_seq by exact Hd; reflexivity|].
    cbn [Nat.add]. change (column 0 d (t0 :: ts)) with (map (fun t => nth d t 0) (t0 :: ts)).
    destruct (median_splits (map (fun t => nth d t 0) (t0 :: ts))) as (A & B & C); [discriminate|]. rewrite map_length in A, B. split; [|split; [exact A|exact B]].
    apply in_map_iff in C as (t & Et & Ht). exists t. split; [exact Ht|now symmetry].
  - intros e E. destruct (bind _ _) as [[|t ts]|e']; [now injection E as <-|discriminate|now injection E as <-].
  - intros w -> thetas. cbn [bind]. intros -> Hne. destruct thetas; [congruence|reflexivity].
Qed.
Print Assumptions C103_median.

(** set_start_theta and the constructor. *)
Theorem C103_set : forall lv start shape new,
  (shape = [lv] -> set_start_theta lv start shape new = (new, Ok tt)) /\ (shape <> [lv] -> set_start_theta lv start shape new = (start, Err ValueError)).
Proof.
  intros lv start shape new. unfold set_start_theta. split; [intros ->; now rewrite Nat.eqb_refl|]. intro H. destruct shape as [|n [|n' s]]; [reflexivity| |reflexivity]. destruct (Nat.eqb_spec n lv) as [->|_]; [congruence|reflexivity].
Qed.
Print Assumptions C103_set.
Theorem C103_constructor : forall draw scores mult lv cats key gp items kwguess given approx, (0 < gp)%Z ->
  (forall s, given = Some s -> length s = lv -> exists its, bit_new draw scores mult lv cats key gp items kwguess given approx = Ok (its, s)) /\
  (forall s, given = Some s -> length s <> lv -> bit_new draw scores mult lv cats key gp items kwguess given approx = Err ValueError) /\
  (given = None -> approx = false -> exists its s, bit_new draw scores mult lv cats key gp items kwguess given approx = Ok (its, s) /\ length s = length mult /\
     forall d m, nth_error mult d = Some m -> nth_error s d = Some (-10000 * m)) /\
  (given = None -> approx = true -> key = None -> bit_new draw scores mult lv cats key gp items kwguess given approx = Err ValueError) /\
  (forall its s, given = None -> approx = true -> bit_new draw scores mult lv cats key gp items kwguess given approx = Ok (its, s) ->
     (forall l, items = Some l -> its = l) /\ exists w thetas, start_weights cats key None kwguess = Ok w /\ scores (draw w) = Ok thetas).
Proof.
  intros draw scores mult lv cats key gp items kwguess given approx Hg. unfold bit_new. destruct (Z.leb_spec gp 0); [lia|]. split; [|split; [|split; [|split]]].
  - intros s -> <-. rewrite Nat.eqb_refl. eexists. reflexivity.
  - intros s -> Hl. destruct (Nat.eqb_spec (length s) lv); [contradiction|reflexivity].
  - intros -> ->. eexists. eexists. split; [reflexivity|]. split; [now rewrite map_length|]. intros d m E. rewrite nth_error_map, E. cbn. f_equal. ring.
  - intros -> -> ->. reflexivity.
  - intros its s -> ->. destruct key as [key|]; [|discriminate]. destruct (start_theta_mc draw scores lv cats (Some key) None kwguess []) as [s' [[]|e]] eqn:E; [|discriminate]. intro H1. injection H1 as <- <-.
    split; [intros l ->; reflexivity|]. destruct (proj1 (C103_median _ _ _ _ _ _ _ _ _) E) as (w & thetas & A & B & _). exists w, thetas. now split.
Qed.
Print Assumptions C103_constructor.

(** Two guessers' scores are 3 and 1 (and a third 2): the start is 2; three items, the last two selected. *)
Example C103_nonvacuous :
  means_items 3 (Some [1; 2]%Z) [1; 2]%nat /\
  (exists w, start_weights [2; 3; 4]%nat (Some [1; 0; 3]%Z) (Some [1; 2]%Z) (Some [1 / 5; 1 / 2]) = Ok w /\ forall wj, nth_error w 1 = Some wj -> chance wj 3 = 1 / 2 /\ chance wj 0 = 1 / 6) /\
  (exists new, start_theta_mc (fun _ => [[0; 0; 0]; [1; 2; 3]; [1; 1; 1]]%Z) (fun _ => Ok [[3]; [1]; [2]]) 1 [2; 3; 4]%nat (Some [1; 0; 3]%Z) None None [7] = (new, Ok tt) /\ new = [2]).
Proof.
  assert (MI : means_items 3 (Some [1; 2]%Z) [1; 2]%nat) by (right; split; [reflexivity|]; split; [discriminate|]; constructor; [lia|]; constructor; [lia|constructor]).
  split; [exact MI|]. split.
  - destruct (C103_columns [2; 3; 4]%nat [1; 0; 3]%Z (Some [1; 2]%Z) [1; 2]%nat [1 / 5; 1 / 2]) as (w & E & L & H); [exact MI|reflexivity| |discriminate|reflexivity| |].
    + intros [|[|[|i]]] K z; cbn; intros EK Ez; try (destruct i; discriminate); injection EK as <-; injection Ez as <-; lia.
    + constructor; [lra|]. constructor; [lra|constructor].
    + exists w. split; [exact E|]. intros wj Ew. destruct (H 1%nat 2%nat 4%nat 3%Z (1 / 2) eq_refl eq_refl eq_refl eq_refl) as (w' & E' & [_ G]). rewrite Ew in E'. injection E' as <-. split; [exact (G 3%nat ltac:(lia))|]. rewrite (G 0%nat) by lia. change (0 =? Z.to_nat 3)%nat with false. replace (INR 4) with 4 by (cbn [INR]; lra). cbv iota. field.
  - destruct (C103_default [2; 3; 4]%nat [1; 0; 3]%Z None [0; 1; 2]%nat None) as (w & E & _); [left; now split; [left|]|reflexivity|now left| |].
    + intros [|[|[|i]]] K z; cbn; intros EK Ez; try (destruct i; discriminate); injection EK as <-; injection Ez as <-; lia.
    + unfold start_theta_mc. rewrite E. cbn [bind seq map column]. eexists. split; [reflexivity|]. f_equal. unfold median, sort_r. cbn [map nth length fold_right]. cbn.
      repeat (destruct (Rle_dec _ _); cbn; try lra). all: reflexivity.
Qed.
