(** The logits of the parametric families are affine in the parameters. *)
From Verif Require Import Base BaseFacts RBase RFacts M_Data M_Logit M_Lik M_Est P_Logit P_Logit2 P_Est2 P_Info2 P_Opt1 P_Opt2 P_Opt3 P_Max3 P_Suff1 P_Scoreq S_Logit S_Lik S_Est S_Opt S_Item.
Import List.
Local Open Scope R_scope.

Lemma unit_nth n e j : nth j (unit_vector n e) 0 = if (j <? n)%nat && (j =? e)%nat then 1 else 0.
Proof.
  unfold unit_vector. destruct (Nat.ltb_spec j n) as [H|H]; cbn [andb].
  - now rewrite nth_map_seq by exact H.
  - apply nth_overflow. rewrite map_length, seq_length. exact H.
Qed.
Lemma unit_length n e : length (unit_vector n e) = n.
Proof. unfold unit_vector. now rewrite map_length, seq_length. Qed.
(** [F] is linear in the vector of parameters. *)
Definition linear (n : nat) (F : list R -> R) : Prop := forall v, length v = n -> F v = sumn n (fun e => F (unit_vector n e) * nth e v 0).
Lemma linear_nth n j : linear n (fun v => nth j v 0).
Proof.
  intros v Lv. destruct (Nat.lt_ge_cases j n) as [H|H].
  - rewrite (sumn_single n j); [|exact H|].
    + rewrite unit_nth, Nat.eqb_refl. destruct (Nat.ltb_spec j n); [cbn [andb]; ring|lia].
    + intros e He Hne. rewrite unit_nth. destruct (Nat.eqb_spec j e); [congruence|]. rewrite andb_false_r. ring.
  - rewrite nth_overflow by lia. rewrite (sumn_ext n _ (fun _ => 0)); [now rewrite sumn_0|]. intros e He. rewrite unit_nth. destruct (Nat.ltb_spec j n); [lia|cbn [andb]; ring].
Qed.
Lemma nth_firstn_if m (v : list R) j : nth j (firstn m v) 0 = if (j <? m)%nat then nth j v 0 else 0.
Proof.
  destruct (Nat.ltb_spec j m) as [H|H].
  - destruct (Nat.lt_ge_cases j (length v)) as [H2|H2].
    + apply nth_error_nth. rewrite nth_error_firstn_lt by exact H. now apply nth_error_nth_lt.
    + rewrite !nth_overflow; [reflexivity|exact H2|rewrite firstn_length; lia].
  - apply nth_overflow. rewrite firstn_length. lia.
Qed.
Lemma nth_skipn_add m (v : list R) j : nth j (skipn m v) 0 = nth (m + j) v 0.
Proof.
  destruct (Nat.lt_ge_cases (m + j) (length v)) as [H|H].
  - apply nth_error_nth. rewrite nth_error_skipn_add. now apply nth_error_nth_lt.
  - rewrite !nth_overflow; [reflexivity|exact H|rewrite skipn_length; lia].
Qed.
Lemma linear_ext n F G : (forall v, F v = G v) -> linear n F -> linear n G.
Proof. intros E H v Lv. rewrite <- E, (H v Lv). apply sumn_ext. intros e _. now rewrite E. Qed.
Lemma linear_zero n : linear n (fun _ => 0).
Proof. intros v _. rewrite (sumn_ext n _ (fun _ => 0)) by (intros; ring). now rewrite sumn_0. Qed.
Lemma linear_first n m j : linear n (fun v => nth j (firstn m v) 0).
Proof. destruct (Nat.ltb_spec j m) as [H|H]; [apply (linear_ext n (fun v => nth j v 0))|apply (linear_ext n (fun _ => 0))]; try apply linear_nth; try apply linear_zero; intro v; rewrite nth_firstn_if; destruct (Nat.ltb_spec j m); try reflexivity; lia. Qed.
Lemma linear_skip n m j : linear n (fun v => nth j (skipn m v) 0).
Proof. apply (linear_ext n (fun v => nth (m + j) v 0)); [intro v; now rewrite nth_skipn_add|apply linear_nth]. Qed.
Lemma linear_plus n F G : linear n F -> linear n G -> linear n (fun v => F v + G v).
Proof. intros HF HG v Lv. rewrite (HF v Lv), (HG v Lv), <- sumn_plus. apply sumn_ext. intros; ring. Qed.
Lemma linear_scal n c F : linear n F -> linear n (fun v => c * F v).
Proof. intros HF v Lv. rewrite (HF v Lv), <- sumn_scal. apply sumn_ext. intros; ring. Qed.
Lemma linear_scal_r n c F : linear n F -> linear n (fun v => F v * c).
Proof. intro HF. apply (linear_ext n (fun v => c * F v)); [intros; ring|now apply linear_scal]. Qed.
Lemma linear_opp n F : linear n F -> linear n (fun v => - F v).
Proof. intro HF. apply (linear_ext n (fun v => -1 * F v)); [intros; ring|now apply linear_scal]. Qed.
Lemma linear_sumn n m (F : nat -> list R -> R) : (forall j, linear n (F j)) -> linear n (fun v => sumn m (fun j => F j v)).
Proof. intro H. induction m as [|m IH]; [apply linear_zero|]. cbn [sumn]. now apply linear_plus. Qed.
Lemma linear_if n (b : bool) F G : linear n F -> linear n G -> linear n (fun v => if b then F v else G v).
Proof. now destruct b. Qed.
Lemma linear_slope n m free i d : linear n (fun v => slope free (firstn m v) i d).
Proof. unfold slope. apply linear_if; [apply linear_first|apply linear_zero]. Qed.
Lemma linear_intercept n m cats i k : linear n (fun v => intercept cats (skipn m v) i k).
Proof. unfold intercept. apply linear_if; [apply linear_skip|apply linear_zero]. Qed.
Lemma linear_predictor n lv (a : list R -> nat -> R) t : (forall d, linear n (fun v => a v d)) -> linear n (fun v => predictor lv (a v) t).
Proof. intro H. unfold predictor. apply linear_sumn. intro d. apply linear_scal_r. apply H. Qed.
Lemma linear_nrm_slope n cats lv rel i k d : linear n (fun v => nrm_slope (nrm_of cats lv rel v) i k d).
Proof.
  assert (H : forall j, linear n (fun v => nrm_free_slope (nrm_of cats lv rel v) i j d)) by (intro j; unfold nrm_free_slope, nrm_of; cbn [nrm_cats nrm_rel nrm_w]; apply linear_if; [apply linear_first|apply linear_zero]).
  unfold nrm_slope. apply linear_if; [|apply H]. apply linear_opp. apply (linear_sumn n (nth i cats 0%nat - 1) (fun j v => nrm_free_slope (nrm_of cats lv rel v) i (S j) d)). intro j. apply H.
Qed.
Lemma linear_nrm_intercept n cats lv rel i k : linear n (fun v => nrm_intercept (nrm_of cats lv rel v) i k).
Proof.
  unfold nrm_intercept, nrm_of. cbn [nrm_cats nrm_b]. apply linear_if; [|apply linear_intercept]. apply linear_opp.
  apply (linear_sumn n (nth i cats 0%nat - 1) (fun j v => intercept cats (skipn (nrm_slopes cats lv rel) v) i (S j))). intro j. apply linear_intercept.
Qed.

(** ** The families *)
Lemma family_soft F : parametric F -> exists off, forall t, length t = f_lv F -> softs (f_params F) (f_cats F) (fun v i k => f_p F v t i k) (fun i k e => f_effect F t e i k) (off t).
Proof.
  intros [nanl items Hi|nanl lv free H1 H2 H3|nanl cats lv free H1 H2 H3 H4 H5|nanl cats lv rel H1 H2 H3 H4 H5].
  - exists (fun t i k => INR k * nth 0 t 0). intros t _ v i k Lv Hk. cbn [opl_family f_params f_cats f_p f_effect f_lv] in *. assert (E2 := nth_repeat_two _ _ _ Hk). rewrite E2 in *.
    unfold opl_p. cbv zeta. rewrite two_category by exact Hk. apply cp_ext; [exact Hk|]. intros j _. unfold lin. cbn [opl_of opl_b]. rewrite (linear_nth items i v Lv) at 1. rewrite Rmult_plus_distr_l, <- sumn_scal, Rplus_comm. f_equal. apply sumn_ext. intros; ring.
  - exists (fun t i k => 0). intros t _ v i k Lv Hk. cbn [tpl_family f_params f_cats f_p f_effect f_lv] in *. assert (E2 := nth_repeat_two _ _ _ Hk). rewrite E2 in *. set (n := (ctrue (concat free) + length free)%nat) in *.
    unfold tpl_p. cbv zeta. rewrite two_category by exact Hk. apply cp_ext; [exact Hk|]. intros j _. unfold lin. rewrite Rplus_0_r. cbn [tpl_of tpl_b tpl_w tpl_lv tpl_free].
    apply (linear_scal n (INR j) (fun v => predictor lv (slope free (firstn (ctrue (concat free)) v) i) t + nth i (skipn (ctrue (concat free)) v) 0)); [|exact Lv].
    apply linear_plus; [|apply linear_skip]. apply linear_predictor. intro d. apply linear_slope.
  - exists (fun t i k => 0). intros t _ v i k Lv Hk. cbn [gpc_family f_params f_cats f_p f_effect f_lv] in *. set (n := (ctrue (concat free) + list_sum (map pred cats))%nat) in *.
    unfold gpc_p. cbn [gpc_of p_b p_w p_lv p_free p_cats]. apply cp_ext; [exact Hk|]. intros j _. unfold lin. rewrite Rplus_0_r.
    apply (linear_plus n (fun v => INR j * predictor lv (slope free (firstn (ctrue (concat free)) v) i) t) (fun v => intercept cats (skipn (ctrue (concat free)) v) i j)); [|apply linear_intercept|exact Lv].
    apply linear_scal. apply linear_predictor. intro d. apply linear_slope.
  - exists (fun t i k => 0). intros t _ v i k Lv Hk. cbn [nrm_family f_params f_cats f_p f_effect f_lv] in *. set (n := (nrm_slopes cats lv rel + list_sum (map pred cats))%nat) in *.
    unfold nrm_p. change (nrm_cats (nrm_of cats lv rel v)) with cats. change (nrm_lv (nrm_of cats lv rel v)) with lv. apply cp_ext; [exact Hk|]. intros j _. unfold lin. rewrite Rplus_0_r.
    apply (linear_plus n (fun v => predictor lv (nrm_slope (nrm_of cats lv rel v) i j) t) (fun v => nrm_intercept (nrm_of cats lv rel v) i j)); [|apply linear_nrm_intercept|exact Lv].
    apply linear_predictor. intro d. apply linear_nrm_slope.
Qed.
Lemma family_library F v : parametric F -> length v = f_params F -> library_model (f_model F v) (f_p F v) /\ em_cats (f_model F v) = f_cats F /\ em_lv (f_model F v) = f_lv F.
Proof.
  intros HF Lv. destruct HF as [nanl items Hi|nanl lv free H1 H2 H3|nanl cats lv free H1 H2 H3 H4 H5|nanl cats lv rel H1 H2 H3 H4 H5]; (split; [|split; reflexivity]); cbn [opl_family tpl_family gpc_family nrm_family f_params f_model f_p] in *.
  - apply lib_opl; [exact Lv|exact Hi].
  - apply lib_tpl; [|exact H2]. unfold tpl_wf, tpl_items, tpl_of. cbn [tpl_lv tpl_free tpl_w tpl_b]. rewrite firstn_length, skipn_length. repeat split; [exact H1|exact H3|lia|lia].
  - apply lib_gpc; [|exact H2]. unfold poly_wf, p_items, gpc_of. cbn [p_lv p_free p_w p_b p_cats]. rewrite firstn_length, skipn_length. repeat split; [exact H1|exact H3|exact H4|exact H5|lia|lia].
  - apply lib_nrm; [|exact H2]. unfold nrm_wf. change (nrm_free (nrm_of cats lv rel v)) with (nrm_free_weights cats (list_max cats) lv rel). unfold nrm_of. cbn [nrm_lv nrm_rel nrm_w nrm_b nrm_cats]. rewrite firstn_length, skipn_length. unfold nrm_slopes in *. repeat split; [exact H1|exact H3|exact H4|exact H5|lia|lia].
Qed.
