(** NestedLogit's table, respondent by respondent. *)
From Coq Require Import Lra.
From Verif Require T_Flex.
From Verif Require Import Base BaseFacts RBase RFacts M_Data M_CV M_Logit M_Lik M_Est M_Opt M_Jml M_Mono M_BSpl M_Nl P_Data P_Logit P_Logit3 P_Mono4 P_Mono5 P_Mono8 P_Lik1 P_Lik2 P_Lik5 P_Est1 P_Est2 P_Est3 P_Opt3 P_BSpl3 P_BSpl4 P_Tab P_Nest1 P_Info2 P_Info3 S_Logit S_Lik S_Est S_Eap S_Mono S_BSpl S_Flex S_Nl.
Import List.
Local Open Scope R_scope.

Lemma zip_with_maps {A B C D} (f : B -> C -> D) (g : A -> B) (h : A -> C) l : zip_with f (map g l) (map h l) = map (fun x => f (g x) (h x)) l.
Proof. induction l as [|x l IH]; [reflexivity|]. cbn. f_equal. exact IH. Qed.
Lemma combine_maps {A B C} (g : A -> B) (h : A -> C) l : combine (map g l) (map h l) = map (fun x => (g x, h x)) l.
Proof. induction l as [|x l IH]; [reflexivity|]. cbn. f_equal. exact IH. Qed.
Lemma list_as_map {A} (l : list A) d : l = map (fun i => nth i l d) (seq 0 (length l)).
Proof.
  apply nth_error_ext. intro n. rewrite nth_error_map. destruct (Nat.lt_ge_cases n (length l)) as [H|H].
  - rewrite nth_error_seq by exact H. cbn. now apply nth_error_nth_lt.
  - rewrite (proj2 (nth_error_None l n)) by exact H. rewrite (proj2 (nth_error_None (seq 0 (length l)) n)) by (rewrite seq_length; exact H). reflexivity.
Qed.
Definition nl_row (M : nat) (key : list nat) (c q : list R -> nat -> nat -> R) (t : list R) : list (list R) :=
  map (fun i => map (nested_chances key c q t i) (seq 0 M)) (seq 0 (length key)).
Lemma nested_item_row M key c q t i : (0 < M)%nat -> (nth i key O < M)%nat ->
  nested_item M (nth i key O) (Some (c t i 1%nat)) (Some (c t i 0%nat)) (map (fun k => Some (q t i k)) (seq 0 (M - 1))) = map Some (map (nested_chances key c q t i) (seq 0 M)).
Proof.
  intros HM Hk. apply nth_error_ext. intro k. rewrite !nth_error_map. destruct (Nat.lt_ge_cases k M) as [H|H].
  - rewrite nested_item_nth by (auto; now rewrite map_length, seq_length). rewrite nth_error_seq by exact H. cbn [option_map Nat.add]. f_equal. unfold nested_chances, among_wrong, compact.
    destruct (Nat.eqb_spec k (nth i key O)) as [E|E]; [reflexivity|]. destruct (Nat.ltb_spec k (nth i key O)).
    + erewrite nth_error_nth by (rewrite nth_error_map, nth_error_seq by lia; reflexivity). cbn. f_equal. ring.
    + erewrite nth_error_nth by (rewrite nth_error_map, nth_error_seq by lia; reflexivity). cbn. f_equal. ring.
  - rewrite (proj2 (nth_error_None (seq 0 M) k)) by (rewrite seq_length; exact H). apply nth_error_None. unfold nested_item. rewrite scatter_add_length, upd_length, repeat_length. exact H.
Qed.
Lemma nl_forward_rows M lv key correct cond c q thetas : (0 < M)%nat -> Forall (fun k => (k < M)%nat) key -> tabulates lv (length key) 2 correct c -> tabulates lv (length key) (M - 1) cond q ->
  thetas <> [] -> Forall (fun t => length t = lv) thetas -> nl_forward M key correct cond thetas = Ok (some3 (map (nl_row M key c q) thetas)).
Proof.
  intros HM Hk HC HQ Hne HF. unfold nl_forward. rewrite HC, HQ by assumption. cbn [bind rmap]. f_equal. unfold nested_probabilities, some3. rewrite zip_with_maps, map_map. apply map_ext. intro t.
  unfold nl_row. rewrite map_map. rewrite (list_as_map key O) at 1. rewrite combine_maps, zip_with_maps. apply map_ext_in. intros i Hi. cbn [fst snd seq map nth]. apply nested_item_row; [exact HM|].
  apply in_seq in Hi. rewrite Forall_forall in Hk. apply Hk. apply nth_In. lia.
Qed.
Lemma nl_row_p M key c q t i k : (i < length key)%nat -> (k < M)%nat -> table_p (nl_row M key c q) t i k = nested_chances key c q t i k.
Proof.
  intros Hi Hk. unfold table_p, nl_row. erewrite (nth_error_nth (map _ (seq 0 (length key)))) by (rewrite nth_error_map, nth_error_seq by exact Hi; reflexivity).
  apply nth_error_nth. rewrite nth_error_map, nth_error_seq by exact Hk. reflexivity.
Qed.
(** Summing over the categories. *)
Lemma sumn_around (f g : nat -> R) x K : forall c, (c < K)%nat -> (forall k, (k < K)%nat -> f k = if (k =? c)%nat then x else g (among_wrong c k)) -> sumn K f = x + sumn (K - 1) g.
Proof.
  induction K as [|K IH]; intros c Hc H; [lia|]. change (sumn (S K) f) with (sumn K f + f K). replace (S K - 1)%nat with K by lia. destruct (Nat.eq_dec c K) as [->|Hne].
  - rewrite (H K) by lia. rewrite Nat.eqb_refl. rewrite (sumn_ext K f g); [ring|]. intros k Hk. rewrite H by lia. destruct (Nat.eqb_spec k K); [lia|]. unfold among_wrong. destruct (Nat.ltb_spec k K); [reflexivity|lia].
  - rewrite (IH c) by (lia || (intros; apply H; lia)). rewrite (H K) by lia. destruct (Nat.eqb_spec K c); [lia|]. unfold among_wrong. destruct (Nat.ltb_spec K c); [lia|].
    destruct K as [|K]; [lia|]. replace (S K - 1)%nat with K by lia. change (sumn (S K) g) with (sumn K g + g K). ring.
Qed.
Lemma nested_distribution lv cats key c q : length key = length cats -> (forall i K, nth_error cats i = Some K -> (2 <= K)%nat /\ (nth i key O < K)%nat) ->
  distributions lv (repeat 2%nat (length cats)) c -> distributions lv (map pred cats) q -> distributions lv cats (nested_chances key c q).
Proof.
  intros HL HK HC HQ t i K Ht Hi. destruct (HK i K Hi) as [H2 Hkey]. assert (Hil : (i < length cats)%nat) by (apply nth_error_Some; congruence).
  destruct (HC t i 2%nat Ht) as [C1 C2]; [now apply nth_error_repeat_lt|]. destruct (HQ t i (pred K) Ht) as [Q1 Q2]; [now rewrite nth_error_map, Hi|]. split.
  - intros k Hk. unfold nested_chances. destruct (Nat.eqb_spec k (nth i key O)); [apply C1; lia|]. apply Rmult_lt_0_compat; [apply C1; lia|]. apply Q1. unfold among_wrong. destruct (Nat.ltb_spec k (nth i key O)); lia.
  - rewrite (sumn_around _ (fun j => c t i 0%nat * q t i j) (c t i 1%nat) K (nth i key O)) by (auto; intros; reflexivity).
    rewrite sumn_scal. replace (K - 1)%nat with (pred K) by lia. rewrite Q2. cbn [sumn] in C2. unfold sumn in C2. cbn in C2. lra.
Qed.
(** The parts. *)
Lemma soft_distribution lv cats z : Forall (fun K => (1 <= K)%nat) cats -> distributions lv cats (soft cats z).
Proof.
  intros HK t i K Ht Hi. assert (H1 : (1 <= K)%nat) by (rewrite Forall_forall in HK; apply HK; eapply nth_error_In; eauto).
  destruct (valid_category_distribution K K (z t i) ltac:(lia)) as (V1 & V2 & V3 & _). unfold soft. rewrite (nth_error_nth _ _ O Hi). split; [exact V3|exact V2].
Qed.
Lemma model_tabulates lv I M probs p : model_table lv I M probs p -> tabulates lv I M (fun thetas => Ok (probs thetas)) p.
Proof. intros H thetas _ HF. now rewrite H. Qed.
Lemma max_pred cats : Forall (fun K => (1 <= K)%nat) cats -> list_max (map pred cats) = (list_max cats - 1)%nat.
Proof.
  induction cats as [|K cats IH]; intro H; [reflexivity|]. inversion H; subst. cbn [map]. change (list_max (pred K :: map pred cats)) with (Nat.max (pred K) (list_max (map pred cats))).
  change (list_max (K :: cats)) with (Nat.max K (list_max cats)). rewrite IH by assumption. lia.
Qed.
Definition ns_z (m : nspl) (t : list R) (i j : nat) : R :=
  sumn (ns_lv m) (fun d => sumn (n_bases (ns_degree m) (ns_knots m)) (fun b => basis_at (ns_degree m) (ns_knots m) t d b * (if ns_rel m i d && (j <? nth i (ns_cats m) O - 1)%nat then ns_coef m i d b j else 0))).
Lemma ns_conditional_ext m B B' i K : (forall d b, (d < ns_lv m)%nat -> (b < n_bases (ns_degree m) (ns_knots m))%nat -> B d b = B' d b) -> ns_conditional m B i K = ns_conditional m B' i K.
Proof.
  intro H. unfold ns_conditional. f_equal. apply map_ext. intro k. destruct (k <? K - 1)%nat; [|reflexivity]. f_equal. apply sumn_ext. intros d Hd. apply sumn_ext. intros b Hb. now rewrite H.
Qed.
Lemma spline_tabulates m : ns_basis m = None -> (0 < ns_lv m)%nat -> Forall (fun K => (2 <= K)%nat) (ns_cats m) ->
  tabulates (ns_lv m) (length (ns_cats m)) (list_max (ns_cats m) - 1) (spline_wrong m) (soft (map pred (ns_cats m)) (ns_z m)).
Proof.
  intros Hb Hlv HK thetas Hne HF. destruct (spline_basis_ok (ns_lv m) (ns_degree m) (ns_knots m) thetas Hlv Hne HF) as (basis & Eb & Hl & Hv).
  unfold spline_wrong. rewrite Hb, Eb. cbn [bind]. unfold ns_evaluate. cbv zeta. rewrite Hl, Nat.eqb_refl. cbn [orb]. f_equal.
  apply (map_over_seq thetas []). intros r t Hr. assert (Hrl : (r < length thetas)%nat) by (apply nth_error_Some; congruence).
  replace (if (length thetas =? 1)%nat then 0%nat else r) with r by (destruct (Nat.eqb_spec (length thetas) 1); lia).
  apply nth_error_ext. intro i. rewrite nth_error_mapi, nth_error_map. destruct (nth_error (ns_cats m) i) as [K|] eqn:EK.
  - assert (Hil : (i < length (ns_cats m))%nat) by (apply nth_error_Some; congruence). rewrite nth_error_seq by exact Hil. cbn [option_map Nat.add]. f_equal.
    assert (H2 : (2 <= K <= list_max (ns_cats m))%nat) by (split; [rewrite Forall_forall in HK; apply HK|apply list_max_bound]; eapply nth_error_In; eauto).
    rewrite (ns_conditional_ext m _ (basis_at (ns_degree m) (ns_knots m) t)) by (intros d b Hd Hbn; unfold basis_at; now apply Hv).
    apply nth_error_ext. intro k. destruct (Nat.lt_ge_cases k (list_max (ns_cats m) - 1)) as [Hk|Hk].
    + rewrite nth_error_map, nth_error_seq by exact Hk. cbn [option_map Nat.add]. unfold ns_conditional.
      rewrite (softmax_pattern _ (K - 1) (list_max (ns_cats m) - 1) (ns_z m t i)); [|lia|now rewrite map_length, seq_length| |exact Hk].
      * unfold soft. erewrite (nth_error_nth (map pred _)) by (rewrite nth_error_map, EK; reflexivity). cbn [option_map]. now replace (K - 1)%nat with (pred K) by lia.
      * intros j Hj. rewrite nth_error_map_seq by exact Hj. unfold ns_z. now rewrite (nth_error_nth _ _ O EK).
    + rewrite (proj2 (nth_error_None (map _ (seq 0 (list_max (ns_cats m) - 1))) k)) by (rewrite map_length, seq_length; exact Hk). apply nth_error_None.
      unfold ns_conditional. rewrite softmax_length. now rewrite map_length, seq_length.
  - apply nth_error_None in EK. rewrite (proj2 (nth_error_None (seq 0 (length (ns_cats m))) i)) by (rewrite seq_length; exact EK). reflexivity.
Qed.
Lemma spline_forward m correct thetas : ns_forward m correct thetas = nl_probabilities (ns_cats m) (ns_key m) correct (spline_wrong m) thetas.
Proof. unfold ns_forward, nl_probabilities, nl_forward, spline_wrong. destruct (correct thetas); [|reflexivity]. cbn [bind]. destruct (ns_basis m); [reflexivity|]. destruct (spline_basis _ _ _ thetas); reflexivity. Qed.
